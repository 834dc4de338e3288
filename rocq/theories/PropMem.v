(** * Properties C29 and C47: strings given to resolvers and responses given to callers, after later requests *)
From Coq Require Import String Arith NArith ZArith Bool List Lia.
From Verif Require Import Base Json JsonModel Ast Grammar ParserModel ReqModel Schema ResModel EnvModel Samples Interp DocRun PropEnv ArgRun PropArgs PropOut PropStr MemModel.
Import ListNotations.
Open Scope nat_scope.

(** ** Specification *)
(** what a list becomes, without any memory *)
Definition effect {A} (l : list A) (o : op A) : list A :=
  match o with Append xs => l ++ xs | Assign i x => firstn i l ++ [x] ++ skipn (S i) l | Cut n => firstn n l end.
Definition effects {A} (l : list A) (os : list (op A)) : list A := fold_left effect os l.
(** the operations do not reach behind the end *)
Fixpoint legal {A} (l : list A) (os : list (op A)) : Prop :=
  match os with
  | [] => True
  | o :: r => match o with Append _ => True | Assign i _ => i < length l | Cut n => n <= length l end /\ legal (effect l o) r
  end.
(** the greatest length on the way *)
Fixpoint peak {A} (l : list A) (os : list (op A)) : nat := match os with [] => length l | o :: r => max (length l) (peak (effect l o) r) end.
(** [writes os l]: a request that writes [l] *)
Definition writes {A} (os : list (op A)) (l : list A) : Prop := legal [] os /\ effects [] os = l.
(** the array of the slice has room for [n] elements *)
Definition room {A} (m : mem A) : nat := length (array m (cur m)).
Definition fine {A} (m : mem A) : Prop := cur m < length (arrays m) /\ len m <= room m.
(** a reference into the elements of the slice *)
Definition refers {A} (m : mem A) (r : ref) : Prop := r_array r = cur m /\ r_from r + r_count r <= len m.
Definition part {A} (from count : nat) (l : list A) : list A := firstn count (skipn from l).

(** ** Proof *)
Section Mem.
Context {A : Type}.
Lemma put_len : forall B (l : list B) i x, length (put l i x) = length l.
Proof. intros B l. induction l as [|y l IH]; intros [|i] x; cbn; auto. Qed.
Lemma put_all_len : forall B xs (l : list B) i, length (put_all l i xs) = length l.
Proof. intros B xs. induction xs as [|x xs IH]; intros l i; cbn; auto. rewrite IH. apply put_len. Qed.
Lemma put_is : forall B (l : list B) i x, i < length l -> put l i x = firstn i l ++ [x] ++ skipn (S i) l.
Proof. intros B l. induction l as [|y l IH]; intros [|i] x L; cbn in *; try lia; auto. f_equal. apply IH. lia. Qed.
Lemma skip_skip : forall B a b (l : list B), skipn a (skipn b l) = skipn (b + a) l.
Proof. intros B a b. induction b as [|b IH]; intros l; [reflexivity|]. destruct l; [now rewrite !skipn_nil|]. cbn. apply IH. Qed.
Lemma put_all_is : forall B xs (l : list B) i, i + length xs <= length l -> put_all l i xs = firstn i l ++ xs ++ skipn (i + length xs) l.
Proof.
  intros B xs. induction xs as [|x xs IH]; intros l i L; cbn [put_all length] in *.
  - rewrite Nat.add_0_r. cbn. now rewrite firstn_skipn.
  - rewrite IH by (rewrite put_len; lia). rewrite put_is by lia. rewrite firstn_app, skipn_app, !firstn_length, !Nat.min_l by lia. replace (S i - i) with 1 by lia.
    rewrite firstn_all2 with (n := S i) by (rewrite firstn_length; lia). replace (firstn 1 ([x] ++ skipn (S i) l)) with [x] by reflexivity. rewrite <- !app_assoc. cbn [app]. f_equal. f_equal. f_equal.
    rewrite skipn_all2 with (n := S i + length xs) (l := firstn i l) by (rewrite firstn_length; lia). cbn [app]. replace (S i + length xs - i) with (S (length xs)) by lia. cbn [skipn].
    change (skipn (S (length xs)) (x :: skipn (S i) l)) with (skipn (length xs) (skipn (S i) l)). rewrite skip_skip. f_equal. lia.
Qed.
Lemma nth_put_same : forall B (l : list B) i x d, i < length l -> nth i (put l i x) d = x.
Proof. intros B l. induction l as [|y l IH]; intros [|i] x d L; cbn in *; try lia; auto. apply IH. lia. Qed.
Lemma nth_put_other : forall B (l : list B) i j x d, i <> j -> nth j (put l i x) d = nth j l d.
Proof. intros B l. induction l as [|y l IH]; intros [|i] [|j] x d L; cbn in *; try lia; auto. Qed.
Variable spare : nat -> list A.
Definition ok_op (l : list A) (o : op A) : Prop := match o with Append _ => True | Assign i _ => i < length l | Cut n => n <= length l end.
Lemma contents_len : forall m : mem A, fine m -> length (contents m) = len m.
Proof. intros m [_ L]. unfold contents. rewrite firstn_length. unfold room in L. lia. Qed.
Lemma step_ok : forall (m : mem A) o, fine m -> ok_op (contents m) o -> fine (step spare m o) /\ contents (step spare m o) = effect (contents m) o.
Proof.
  intros m o F O. pose proof (contents_len m F) as Lc. destruct F as [Fc Fl]. unfold room in Fl. destruct o as [xs|i x|n]; cbn [step effect ok_op] in *.
  - destruct (len m + length xs <=? length (array m (cur m))) eqn:E.
    + apply Nat.leb_le in E. assert (Ea : array (Mem (put (arrays m) (cur m) (put_all (array m (cur m)) (len m) xs)) (cur m) (len m + length xs)) (cur m) = put_all (array m (cur m)) (len m) xs) by (unfold array at 1; cbn [arrays]; now rewrite nth_put_same).
      split; [split; cbn [cur len arrays]; [now rewrite put_len|unfold room; cbn [cur]; rewrite Ea, put_all_len; exact E]|].
      unfold contents at 1. cbn [cur len]. rewrite Ea, put_all_is by exact E. unfold contents. rewrite firstn_app, firstn_all2 by (rewrite firstn_length; lia). f_equal.
      rewrite firstn_length, Nat.min_l by lia. replace (len m + length xs - len m) with (length xs) by lia. rewrite firstn_app, Nat.sub_diag, firstn_all. cbn. now rewrite app_nil_r.
    + assert (Ea : forall k, array (Mem (arrays m ++ [contents m ++ xs ++ spare (len m + length xs)]) (length (arrays m)) k) (length (arrays m)) = contents m ++ xs ++ spare (len m + length xs)) by (intro k; unfold array; cbn [arrays]; rewrite app_nth2, Nat.sub_diag by lia; reflexivity).
      split; [split; cbn [cur len arrays]; [rewrite app_length; cbn; lia|unfold room; cbn [cur]; rewrite Ea, !app_length; lia]|].
      unfold contents at 1. cbn [cur len]. rewrite Ea, app_assoc, firstn_app, firstn_all2 by (rewrite app_length; lia). rewrite app_length, Lc, Nat.sub_diag. cbn. now rewrite app_nil_r.
  - rewrite Lc in O. assert (Ea : forall k, array (Mem (put (arrays m) (cur m) (put (array m (cur m)) i x)) (cur m) k) (cur m) = put (array m (cur m)) i x) by (intro k; unfold array at 1; cbn [arrays]; now rewrite nth_put_same).
    split; [split; cbn [cur len arrays]; [now rewrite put_len|unfold room; cbn [cur]; rewrite Ea, put_len; exact Fl]|].
    unfold contents at 1. cbn [cur len]. rewrite Ea, put_is by lia. unfold contents. rewrite firstn_app, firstn_length, Nat.min_l by lia. rewrite (firstn_all2 (n := len m)) by (rewrite firstn_length; lia). rewrite firstn_firstn, Nat.min_l by lia. f_equal.
    destruct (len m - i) as [|k] eqn:Ek; [lia|]. cbn [app firstn]. f_equal. rewrite firstn_skipn_comm. f_equal. f_equal. lia.
  - rewrite Lc in O. split; [split; cbn [cur len arrays]; [exact Fc|unfold room; cbn [cur]; change (array (Mem (arrays m) (cur m) n) (cur m)) with (array m (cur m)); lia]|].
    unfold contents. cbn [cur len]. change (array (Mem (arrays m) (cur m) n) (cur m)) with (array m (cur m)). rewrite firstn_firstn. f_equal. lia.
Qed.
Lemma steps_ok : forall os (m : mem A), fine m -> legal (contents m) os -> fine (steps spare m os) /\ contents (steps spare m os) = effects (contents m) os.
Proof.
  induction os as [|o os IH]; intros m F L; [now split|]. destruct L as [L1 L2]. destruct (step_ok m o F L1) as [F' E]. cbn [steps]. rewrite <- E in L2. destruct (IH _ F' L2) as [F2 E2]. split; auto. rewrite E2, E. reflexivity.
Qed.
(** an array that is not the one of the slice, or a part behind everything that is written, is not changed *)
Definition out_of_reach (m : mem A) (p : nat) (r : ref) : Prop := r_array r < length (arrays m) /\ (r_array r <> cur m \/ p <= r_from r).
Lemma skip_put : forall B (l : list B) i x k, i < k -> skipn k (put l i x) = skipn k l.
Proof. intros B l. induction l as [|y l IH]; intros [|i] x [|k] L; cbn; try lia; auto. apply IH. lia. Qed.
Lemma skip_put_all : forall B xs (l : list B) i k, i + length xs <= k -> skipn k (put_all l i xs) = skipn k l.
Proof. intros B xs. induction xs as [|x xs IH]; intros l i k L; cbn [put_all length] in *; auto. rewrite IH by lia. apply skip_put. lia. Qed.
Lemma frame : forall os (m : mem A) r, fine m -> legal (contents m) os -> out_of_reach m (peak (contents m) os) r -> read (steps spare m os) r = read m r.
Proof.
  induction os as [|o os IH]; intros m r F L [Ra Rp]; [reflexivity|]. destruct L as [L1 L2]. destruct (step_ok m o F L1) as [F' E]. rewrite <- E in L2. cbn [steps peak] in *. rewrite <- E in Rp.
  pose proof (contents_len _ F) as Lc. pose proof (contents_len _ F') as Lc'. destruct F as [Fc Fl]. unfold room in Fl.
  assert (Pk : forall os (l : list A), length l <= peak l os) by (intros [|o' os'] l; cbn; lia). specialize (Pk os (contents (step spare m o))).
  rewrite (IH _ _ F' L2).
  - unfold read. f_equal. destruct o as [xs|i x|n]; cbn [step effect] in *; [| |reflexivity].
    + destruct (len m + length xs <=? length (array m (cur m))) eqn:El; cbn [len] in *.
      * unfold array at 1. cbn [arrays]. destruct (Nat.eq_dec (r_array r) (cur m)) as [Eq|N]; [|now rewrite nth_put_other by auto]. destruct Rp; [contradiction|]. rewrite Eq, nth_put_same by auto. apply skip_put_all. lia.
      * unfold array. cbn [arrays]. rewrite app_nth1 by auto. reflexivity.
    + unfold array at 1. cbn [arrays]. destruct (Nat.eq_dec (r_array r) (cur m)) as [Eq|N]; [|now rewrite nth_put_other by auto]. destruct Rp; [contradiction|]. rewrite Eq, nth_put_same by auto. apply skip_put. lia.
  - destruct o as [xs|i x|n]; cbn [step effect] in *; unfold out_of_reach.
    + destruct (len m + length xs <=? length (array m (cur m))); cbn [arrays cur]; [rewrite put_len; split; auto; destruct Rp; [auto|right; lia]|]. rewrite app_length. cbn [length]. split; [lia|left; lia].
    + cbn [arrays cur]. rewrite put_len. split; auto. destruct Rp; [auto|right; lia].
    + cbn [arrays cur]. split; auto. destruct Rp; [auto|right; lia].
Qed.
(** if the capacity is enough the array stays the same *)
Lemma same_array : forall os (m : mem A), fine m -> legal (contents m) os -> peak (contents m) os <= room m -> cur (steps spare m os) = cur m /\ room (steps spare m os) = room m.
Proof.
  induction os as [|o os IH]; intros m F L P; [now split|]. destruct L as [L1 L2]. destruct (step_ok m o F L1) as [F' E]. rewrite <- E in L2. cbn [steps peak] in *. rewrite <- E in P.
  pose proof (contents_len _ F) as Lc. pose proof (contents_len _ F') as Lc'. assert (Pk : forall os (l : list A), length l <= peak l os) by (intros [|o' os'] l; cbn; lia). specialize (Pk os (contents (step spare m o))).
  assert (Q : cur (step spare m o) = cur m /\ room (step spare m o) = room m).
  { destruct F as [Fc Fl]. destruct o as [xs|i x|n]; cbn [step] in *; [| |now split].
    - destruct (len m + length xs <=? length (array m (cur m))) eqn:El; [split; auto; unfold room, array; cbn [cur arrays]; rewrite nth_put_same by auto; apply put_all_len|]. cbn [len] in *. apply Nat.leb_gt in El. unfold room in P. lia.
    - split; auto. unfold room, array. cbn [cur arrays]. rewrite nth_put_same by auto. apply put_len. }
  destruct Q as [Q1 Q2]. destruct (IH _ F' L2) as [I1 I2]; [lia|]. split; congruence.
Qed.
Lemma request_ok : forall (m : mem A) os l, fine m -> writes os l -> fine (request spare m os) /\ contents (request spare m os) = l.
Proof.
  intros m os l F [L E]. unfold request. destruct (steps_ok (Cut 0 :: os) m F) as [F' E']; [split; [lia|exact L]|]. split; auto. now rewrite E'.
Qed.
Fixpoint requests (m : mem A) (l : list (list (op A))) : mem A := match l with [] => m | os :: r => requests (request spare m os) r end.
Lemma arrays_grow : forall os (m : mem A), length (arrays m) <= length (arrays (steps spare m os)).
Proof.
  induction os as [|o os IH]; intro m; [apply le_n|]. cbn [steps]. etransitivity; [|apply IH]. destruct o as [xs|i x|n]; cbn [step arrays]; [|now rewrite put_len|lia].
  destruct (_ <=? _); cbn [arrays]; [now rewrite put_len|rewrite app_length; lia].
Qed.
Lemma cur_moves : forall os (m : mem A), cur (steps spare m os) = cur m \/ length (arrays m) <= cur (steps spare m os).
Proof.
  induction os as [|o os IH]; intro m; [now left|]. cbn [steps]. assert (Q : cur (step spare m o) = cur m \/ length (arrays m) <= cur (step spare m o)) by (destruct o as [xs|i x|n]; cbn [step cur]; auto; destruct (_ <=? _); cbn [cur]; auto).
  assert (G : length (arrays m) <= length (arrays (step spare m o))) by (apply (arrays_grow [o] m)). destruct (IH (step spare m o)); lia.
Qed.
Lemma requests_frame : forall l (m : mem A) r, fine m -> Forall (fun os => legal [] os) l -> r_array r < length (arrays m) -> (r_array r <> cur m \/ Forall (fun os => peak [] os <= r_from r) l) ->
  read (requests m l) r = read m r.
Proof.
  induction l as [|os l IH]; intros m r F L Ra Rp; [reflexivity|]. inversion L; subst. cbn [requests]. assert (Wr : writes os (effects [] os)) by (split; auto). destruct (request_ok m os _ F Wr) as [F' _].
  rewrite IH; auto.
  - change (request spare m os) with (steps spare (step spare m (Cut 0)) os). destruct (step_ok m (Cut 0) F (Nat.le_0_l _)) as [F1 E1]. rewrite frame; auto; rewrite E1; auto.
    split; auto. destruct Rp as [Rp|Rp]; [now left|]. right. now inversion Rp.
  - eapply Nat.lt_le_trans; [exact Ra|apply arrays_grow].
  - destruct (cur_moves (Cut 0 :: os) m) as [E|E]; [unfold request in *; rewrite E; destruct Rp as [Rp|Rp]; [now left|right; now inversion Rp]|]. left. unfold request. lia.
Qed.
End Mem.

(** ** C29 *)
(** [code1] is the bytecode of a request, [r] the place in it of a string given to a resolver (resolver.go 1531-1534).  Requests whose
    bytecode is never longer than the place of the string leave it as it is; so does any request once a longer bytecode has moved
    the slice to another array. *)
Theorem C29_partial : forall spare (m : mem N) os code1 r later, fine m -> writes os code1 -> let m1 := request spare m os in refers m1 r ->
  Forall (fun x => legal [] x) later ->
  read m1 r = part (r_from r) (r_count r) code1 /\
  (Forall (fun x => peak [] x <= r_from r) later -> read (requests spare m1 later) r = read m1 r) /\
  (forall first, legal [] first -> cur (request spare m1 first) <> cur m1 -> read (requests spare (request spare m1 first) later) r = read (request spare m1 first) r).
Proof.
  intros spare m os code1 r later F Wr m1 [Ra Rl] L. destruct (request_ok spare m os code1 F Wr) as [F1 E1]. fold m1 in F1, E1. split; [|split].
  - unfold read, part. rewrite <- E1. unfold contents. rewrite Ra, !firstn_skipn_comm, firstn_firstn. f_equal. f_equal. lia.
  - intro P. apply requests_frame; auto. rewrite Ra. apply F1.
  - intros first Lf N. destruct (request_ok spare m1 first _ F1 (conj Lf eq_refl)) as [F2 _]. apply requests_frame; auto; [|left; rewrite Ra; auto]. rewrite Ra. eapply Nat.lt_le_trans; [apply F1|apply arrays_grow].
Qed.
Print Assumptions C29_partial.
(** but a request whose bytecode covers the place and fits into the array puts its own bytes there *)
Theorem C29_overwritten : forall spare (m : mem N) os1 code1 r os2 code2, fine m -> writes os1 code1 -> let m1 := request spare m os1 in refers m1 r ->
  writes os2 code2 -> peak [] os2 <= room m1 -> r_from r + r_count r <= length code2 ->
  read (request spare m1 os2) r = part (r_from r) (r_count r) code2.
Proof.
  intros spare m os1 code1 r os2 code2 F W1 m1 [Ra Rl] W2 P L. destruct (request_ok spare m os1 code1 F W1) as [F1 E1]. fold m1 in F1, E1. destruct (request_ok spare m1 os2 code2 F1 W2) as [F2 E2].
  destruct (step_ok spare m1 (Cut 0) F1 (Nat.le_0_l _)) as [F3 E3].
  destruct (same_array spare os2 (step spare m1 (Cut 0)) F3) as [C _]; [rewrite E3; apply W2|rewrite E3; exact P|].
  unfold read, part. rewrite <- E2. unfold contents. change (request spare m1 os2) with (steps spare (step spare m1 (Cut 0)) os2) in *. rewrite Ra. change (cur m1) with (cur (step spare m1 (Cut 0))). rewrite <- C.
  rewrite !firstn_skipn_comm, firstn_firstn. f_equal. f_equal. pose proof (contents_len _ F2) as Lc. rewrite E2 in Lc. lia.
Qed.
Print Assumptions C29_overwritten.
(** the resolver of [{f(a:"secret")}] receives the string "secret"; after [{f(a:"public")}] that string says "public" *)
Definition first_mem : mem N := new_mem 0%N 2048.
Lemma new_fine : fine first_mem. Proof. split; [cbn; lia|unfold room, array, first_mem, new_mem; cbn [cur arrays nth len]; rewrite repeat_length; lia]. Qed.
Definition code_of (q : bytes) : bytes := match parse_query q None with Parsed p => p_res p | _ => [] end.
Theorem C29_refuted : exists q1 q2 s1 s2 r, s1 <> s2 /\
  received (note_x FNull) str_schema no_opts note q1 [] [GStruct [(true, GString s1)]] /\
  received (note_x FNull) str_schema no_opts note q2 [] [GStruct [(true, GString s2)]] /\
  part (r_from r) (r_count r) (code_of q1) = s1 /\
  forall spare os1 os2, writes os1 (code_of q1) -> writes os2 (code_of q2) -> peak [] os1 <= 2048 -> peak [] os2 <= 2048 ->
    let m1 := request spare first_mem os1 in refers m1 r /\ read m1 r = s1 /\ read (request spare m1 os2) r = s2.
Proof.
  exists (ask_str (bs "secret")), (ask_str (bs "public")), (bs "secret"), (bs "public"), (Ref 0 36 6). split; [discriminate|].
  split; [|split; [|split; [vm_compute; reflexivity|]]].
  1: refine (C10_partial (note_x FNull) str_schema no_opts (bs "f") _ _ note (bs "a") str_in [] (fun v => v) (bs "secret") (bs "secret") [] (one_probe _ _ _) str_slot _ f_name a_name eq_refl eq_refl _); [repeat split|]; repeat (apply st_raw; [cbn; intuition discriminate|]); constructor.
  1: refine (C10_partial (note_x FNull) str_schema no_opts (bs "f") _ _ note (bs "a") str_in [] (fun v => v) (bs "public") (bs "public") [] (one_probe _ _ _) str_slot _ f_name a_name eq_refl eq_refl _); [repeat split|]; repeat (apply st_raw; [cbn; intuition discriminate|]); constructor.
  intros spare os1 os2 W1 W2 P1 P2 m1. assert (L1 : length (code_of (ask_str (bs "secret"))) = 48) by (vm_compute; reflexivity). assert (L2 : length (code_of (ask_str (bs "public"))) = 48) by (vm_compute; reflexivity).
  assert (Fm : room first_mem = 2048) by (unfold room, array, first_mem, new_mem; cbn [cur arrays nth]; apply repeat_length).
  destruct (step_ok spare first_mem (Cut 0) new_fine (Nat.le_0_l _)) as [F3 E3].
  destruct (same_array spare os1 (step spare first_mem (Cut 0)) F3) as [C1 C2]; [rewrite E3; apply W1|rewrite E3; change (room (step spare first_mem (Cut 0))) with (room first_mem); rewrite Fm; exact P1|].
  destruct (request_ok spare first_mem os1 _ new_fine W1) as [F1 E1]. fold m1 in F1, E1. change (steps spare (step spare first_mem (Cut 0)) os1) with m1 in C1, C2.
  assert (Rf : refers m1 (Ref 0 36 6)).
  { split; [rewrite C1; reflexivity|].
    cbn [r_from r_count]. pose proof (contents_len _ F1) as Lc. rewrite E1, L1 in Lc. lia. }
  split; [exact Rf|]. split.
  - refine (eq_trans (proj1 (C29_partial spare first_mem os1 _ _ [] new_fine W1 Rf (Forall_nil _))) _). vm_compute. reflexivity.
  - refine (eq_trans (C29_overwritten spare first_mem os1 _ _ os2 _ new_fine W1 Rf W2 _ _) _); [fold m1; rewrite C2; change (room (step spare first_mem (Cut 0))) with (room first_mem); rewrite Fm; exact P2|rewrite L2; cbn; lia|vm_compute; reflexivity].
Qed.
Print Assumptions C29_refuted.
(** a later request with a short bytecode *)
Example C29_case : let m1 := request (fun _ => []) first_mem [Append (code_of (ask_str (bs "secret")))] in
  fine first_mem /\ writes [Append (code_of (ask_str (bs "secret")))] (code_of (ask_str (bs "secret"))) /\ refers m1 (Ref 0 36 6) /\
  Forall (fun x => legal [] x) [[Append (code_of (bs "{f}"))]] /\ Forall (fun x => peak [] x <= 36) [[Append (code_of (bs "{f}"))]] /\
  read (requests (fun _ => []) m1 [[Append (code_of (bs "{f}"))]]) (Ref 0 36 6) = bs "secret" /\
  writes [Append (code_of (ask_str (bs "public")))] (code_of (ask_str (bs "public"))) /\ peak [] [Append (code_of (ask_str (bs "public")))] <= room m1 /\ 36 + 6 <= length (code_of (ask_str (bs "public"))).
Proof.
  assert (D : forall a b, (a <=? b) = true -> a <= b) by (intros a b; apply Nat.leb_le).
  split; [apply new_fine|]. split; [repeat split|]. split; [split; [vm_compute; reflexivity|apply D; vm_compute; reflexivity]|]. split; [repeat constructor|]. split; [constructor; [apply D; vm_compute; reflexivity|constructor]|]. split; [vm_compute; reflexivity|]. split; [repeat split|]. split; apply D; vm_compute; reflexivity.
Qed.

(** ** C47 *)
(** The response of a single request is the slice s.Result itself (implement_helpers.go 104, 113), the errors are ctx.query.Errors
    (resolver.go 297); a batch makes its own list of both (implement_helpers.go 59-92). *)
Section C47.
Context {A : Type} (spare : nat -> list A).
(** what was copied to an array that the slice does not use stays, whatever the later requests are *)
Theorem C47_copied : forall (m : mem A) r later, fine m -> r_array r < length (arrays m) -> r_array r <> cur m -> Forall (fun x => legal [] x) later ->
  read (requests spare m later) r = read m r.
Proof. intros m r later F Ra N L. apply requests_frame; auto. Qed.
(** what is the slice itself is changed by the next request that fits, to the beginning of its response *)
Theorem C47_reused : forall (m : mem A) os1 l1 os2 l2, fine m -> writes os1 l1 -> let m1 := request spare m os1 in let r := Ref (cur m1) 0 (length l1) in
  writes os2 l2 -> peak [] os2 <= room m1 -> length l1 <= length l2 ->
  read m1 r = l1 /\ read (request spare m1 os2) r = firstn (length l1) l2.
Proof.
  intros m os1 l1 os2 l2 F W1 m1 r W2 P L. destruct (request_ok spare m os1 l1 F W1) as [F1 E1]. fold m1 in F1, E1. destruct (request_ok spare m1 os2 l2 F1 W2) as [F2 E2].
  destruct (step_ok spare m1 (Cut 0) F1 (Nat.le_0_l _)) as [F3 E3].
  destruct (same_array spare os2 (step spare m1 (Cut 0)) F3) as [C _]; [rewrite E3; apply W2|rewrite E3; exact P|].
  pose proof (contents_len _ F1) as Lc1. rewrite E1 in Lc1. pose proof (contents_len _ F2) as Lc2. rewrite E2 in Lc2. split.
  - unfold read, r. cbn [r_array r_from r_count skipn]. rewrite Lc1. exact E1.
  - unfold read, r. cbn [r_array r_from r_count skipn]. rewrite <- E2. unfold contents. change (request spare m1 os2) with (steps spare (step spare m1 (Cut 0)) os2) in *.
    change (cur m1) with (cur (step spare m1 (Cut 0))). rewrite <- C. rewrite firstn_firstn. f_equal. lia.
Qed.
End C47.
Print Assumptions C47_copied.
Print Assumptions C47_reused.
Definition response_of (q : bytes) : option bytes := match run sample_x sample_schema no_opts q with RDone out [] _ _ => Some out | _ => None end.
(** resolver.go 132-138, parse.go 226: s.Result is written with append only, into an array of 16384 bytes *)
Definition result_cap : nat := 128 * 128.
Theorem C47_refuted : exists q1 q2 out1 out2, response_of q1 = Some out1 /\ response_of q2 = Some out2 /\ out1 <> out2 /\
  forall spare os1 os2, writes os1 out1 -> writes os2 out2 -> peak [] os1 <= result_cap -> peak [] os2 <= result_cap ->
    let m1 := request spare (new_mem 0%N result_cap) os1 in let r := Ref (cur m1) 0 (length out1) in
    read m1 r = out1 /\ read (request spare m1 os2) r = out2.
Proof.
  exists (bs "{a:hello}"), (bs "{b:hello}"). do 2 eexists. split; [vm_compute; reflexivity|]. split; [vm_compute; reflexivity|]. split; [discriminate|].
  intros spare os1 os2 W1 W2 P1 P2 m1 r.
  assert (Fn : fine (new_mem 0%N result_cap)) by (split; [cbn; lia|unfold room, array, new_mem; cbn [cur arrays nth len]; rewrite repeat_length; apply le_n]).
  assert (Rm : room (new_mem 0%N result_cap) = result_cap) by (unfold room, array, new_mem; cbn [cur arrays nth]; apply repeat_length).
  destruct (step_ok spare _ (Cut 0) Fn (Nat.le_0_l _)) as [F3 E3].
  destruct (same_array spare os1 (step spare (new_mem 0%N result_cap) (Cut 0)) F3) as [_ C2]; [rewrite E3; apply W1|rewrite E3; change (room (step spare (new_mem 0%N result_cap) (Cut 0))) with (room (new_mem 0%N result_cap)); rewrite Rm; exact P1|].
  refine (C47_reused spare _ os1 _ os2 _ Fn W1 W2 _ _); [|cbn; lia]. change (request spare (new_mem 0%N result_cap) os1) with (steps spare (step spare (new_mem 0%N result_cap) (Cut 0)) os1). rewrite C2. change (room (step spare (new_mem 0%N result_cap) (Cut 0))) with (room (new_mem 0%N result_cap)). rewrite Rm. exact P2.
Qed.
Print Assumptions C47_refuted.
Example C47_case : let m := Mem [bs "first response"; bs "a copy of it"] 0 14 in fine m /\ r_array (Ref 1 0 12) < length (arrays m) /\ r_array (Ref 1 0 12) <> cur m /\
  Forall (fun x => legal [] x) [[Append (bs "second"); Assign 0 83%N]; [Append (bs "a third response, longer than the array")]] /\
  read (requests (fun _ => []) m [[Append (bs "second"); Assign 0 83%N]; [Append (bs "a third response, longer than the array")]]) (Ref 1 0 12) = bs "a copy of it" /\
  read (requests (fun _ => []) m [[Append (bs "second"); Assign 0 83%N]; [Append (bs "a third response, longer than the array")]]) (Ref 0 0 14) = bs "Secondresponse".
Proof. cbv zeta. split; [split; vm_compute; repeat constructor|]. split; [vm_compute; repeat constructor|]. split; [discriminate|]. split; [repeat constructor|]. split; reflexivity. Qed.
