(** * The bytecode interpreter and the reference interpreter: selections (proofs) *)
From Coq Require Import String Arith NArith ZArith Bool List Lia ZifyBool ZifyN ZifyNat.
From Verif Require Import Base JsonModel Ast ReqModel Schema ResModel Interp ResFrame ResSim.
Import ListNotations.
Open Scope N_scope.

Definition ok_dir (d : directive) : Prop :=
  clean (d_name d) /\ match d_args d with None => True | Some fs => ok_args fs end.
Fixpoint ok_sel (x : sel) : Prop :=
  match x with
  | SField alias name ds args subs =>
      name <> [] /\ fnv1 name < 4294967296 /\ Forall ok_dir ds /\ match args with None => True | Some fs => ok_args fs end /\
      (fix f l := match l with [] => True | x :: r => ok_sel x /\ f r end) subs
  | SSpread name ds => clean name /\ Forall ok_dir ds
  | SInline tname ds subs => clean tname /\ Forall ok_dir ds /\ (fix f l := match l with [] => True | x :: r => ok_sel x /\ f r end) subs
  end.
Fixpoint ok_sels (l : list sel) : Prop := match l with [] => True | x :: r => ok_sel x /\ ok_sels r end.

Ltac lapp := repeat (progress (rewrite <- ?app_assoc; cbn [app])); reflexivity.
Ltac llen := repeat (rewrite ?app_length, ?le32_length; cbn [length app]); lia.
Ltac go_on a H := eapply (adv _ _ a); [exact H | lapp | llen].

Lemma render_arr : forall fl l, render fl (TArr l) = [91] ++ render_elems fl l ++ [93].
Proof. reflexivity. Qed.
Lemma render_rest_eq : forall fl m k t, render_members fl ((k, t) :: m) = [34] ++ k ++ [34; 58] ++ render fl t ++ render_rest fl m.
Proof. reflexivity. Qed.
Lemma render_obj : forall fl m, render fl (TObj m) = [123] ++ render_members fl m ++ [125].
Proof.
  intros fl m. cbn [render]. f_equal. f_equal. induction m as [|[k t] m IH]; [reflexivity|].
  destruct m as [|[k' t'] m]; [cbn; now rewrite app_nil_r|].
  rewrite IH. cbn [render_members render_rest]. repeat (progress (rewrite <- ?app_assoc; cbn [app])). reflexivity.
Qed.
Lemma render_rest_app : forall fl m m', render_rest fl (m ++ m') = render_rest fl m ++ render_rest fl m'.
Proof. intros fl m m'. induction m as [|[k t] m IH]; [reflexivity|]. cbn [app render_rest]. rewrite IH. lapp. Qed.
Definition is_nil {A} (l : list A) : bool := match l with [] => true | _ => false end.
Lemma render_sep_app : forall fl first m m',
  render_sep fl first (m ++ m') = render_sep fl first m ++ render_sep fl (first && is_nil m) m'.
Proof.
  intros fl [|] m m'; cbn [render_sep andb]; [|apply render_rest_app].
  destruct m as [|[k t] m]; [reflexivity|]. cbn [app render_members is_nil render_sep]. rewrite render_rest_app. lapp.
Qed.
Lemma uint_int : forall n, uint_to_json n = int_to_json (Z.of_N n).
Proof. intros n. now destruct n. Qed.

Section Run.
Context {W : Type}.
Variable X : externals W.
Variable S : schema.
Variable res : bytes.
Variable frags : list nat.
Variable rawvars : bytes.
Variable hasargs : bool.
Variable argsat : nat.
Variable opargs : option (list oparg).
Variable fdefs : list (bytes * bytes * list sel).
Hypothesis small : N.of_nat (length res) < 4294967296.
Hypothesis opargs_at : match opargs with
  | None => hasargs = false
  | Some l => hasargs = true /\ Forall ok_oparg l /\
              exists rest, skipn argsat res = 65 :: flat_map enc_oparg l ++ [0; 101] ++ 0 :: rest
  end.
Notation st := (rst W).
Notation sim := (@sim W).

(** the place [p], before the bytes [l] *)
Definition here (p : nat) (l : bytes) : Prop := skipn p res = l /\ (p <= length res)%nat.
Lemma here_adv : forall a b c p q, here p c -> c = a ++ b -> (q = p + length a)%nat -> here q b.
Proof.
  intros a b c p q [H L] E Q. rewrite E in H. subst q. split; [eapply adv; eauto|].
  pose proof (f_equal (@length N) H) as K. rewrite skipn_length, app_length in K. lia.
Qed.
Lemma here_intro : forall p l, skipn p res = l -> l <> [] -> here p l.
Proof. intros. split; auto. apply skipn_len' in H; auto. lia. Qed.
Lemma here_inj : forall p q l, here p l -> here q l -> p = q.
Proof. intros p q l [A B] [C D]. rewrite <- C in A. apply (f_equal (@length N)) in A. rewrite !skipn_length in A. lia. Qed.
Lemma here_len : forall p q l a, here p (a ++ l) -> here q l -> q = (p + length a)%nat.
Proof. intros p q l a H H0. apply (here_inj _ _ l); auto. eapply here_adv; [exact H|reflexivity|reflexivity]. Qed.

Lemma args_sim : forall fuel ins infields ms p o vs k (s : st) l,
  ok_args ms -> here p (vbody (VObj ms) ++ 0 :: l) ->
  sim (bind_args X S res rawvars hasargs argsat fuel ins infields true (fr p o vs k s))
      (b_args X S rawvars opargs fuel ins infields (Some ms) s)
      (fun x t y s' => x = fst y /\ exists p', t = fr p' o vs k s' /\
         (snd x = false -> match snd y with
                           | None => here p' l
                           | Some r => 0 :: skipn p' res = enc_members r ++ [0; 101] ++ 0 :: l
                           end)).
Proof.
  intros fuel ins infields ms p o vs k s l V [E _]. unfold bind_args, b_args. apply sim_skip.
  apply walk_sim; auto.
  - intros fi key v p0 s0 l0 Hk Hv Ep. destruct (slookup infields key) as [[n i]|].
    + apply sim_bind_lift; [apply frame_of_opt|]. intros a s1. apply sim_bind_lift; [apply frame_field_of|]. intros f s2.
      eapply sim_bind; [eapply bind_sim; eauto|].
      intros x t y s' (-> & p' & -> & H). destruct y as [[v2 b2] c2]. apply sim_ret. split; auto. eexists. split; [reflexivity|].
      cbn [snd] in *. intros C. specialize (H C). destruct v; cbn [vend is_list] in *; auto. destruct (is_ptr i); auto.
    + apply sim_bind_err. intros s2. apply sim_ret. split; auto. eexists. split; [reflexivity|]. discriminate.
  - left. destruct (members_cons ms l) as (r & Er). rewrite Er. f_equal.
    assert (E2 : skipn p res = (118 :: 111 :: le32 (nlen (enc_members ms ++ [0; 101]))) ++ 0 :: r).
    { rewrite E, <- Er. unfold vbody, vtail. cbn [vkind vpay]. lapp. }
    eapply (adv _ _ ((118 :: 111 :: le32 (nlen (enc_members ms ++ [0; 101]))) ++ [0])); [exact E2|lapp|llen].
Qed.

Definition dir_tail (d : directive) : bytes := 100 :: (match d_args d with None => 102 | Some _ => 116 end) :: d_name d ++
  match d_args d with None => [] | Some fs => 0 :: vbody (VObj fs) end.
Lemma enc_directive_tail : forall d, enc_directive d = 0 :: dir_tail d.
Proof. intros [n [fs|]]; unfold enc_directive, dir_tail; cbn [d_args d_name app]; [|now rewrite app_nil_r]. reflexivity. Qed.
Lemma directive_sim : forall fuel loc d p o vs k (s : st) l,
  ok_dir d -> here p (dir_tail d ++ 0 :: l) ->
  sim (resolve_directive X S res rawvars hasargs argsat fuel loc (fr p o vs k s)) (b_directive X S rawvars opargs fuel loc d s)
    (fun x t y s' => x = y /\ exists p', t = fr p' o vs k s' /\ (snd x = false -> here p' l)).
Proof.
  intros fuel loc d p o vs k s l [Hn Ha] H. unfold resolve_directive, b_directive. apply sim_skip.
  set (h := match d_args d with None => 102 | Some _ => 116 end) in *.
  set (ar := match d_args d with None => [] | Some fs => 0 :: vbody (VObj fs) end).
  assert (H0 : here (p + 1) (h :: d_name d ++ ar ++ 0 :: l)) by (eapply (here_adv [100]); [exact H|unfold dir_tail; lapp|reflexivity]). clear H.
  eapply sim_read; [exact (proj1 H0)|].
  assert (H : here (p + 1 + 1) (d_name d ++ ar ++ 0 :: l)) by (eapply (here_adv [h]); [exact H0|lapp|reflexivity]). clear H0. subst h ar.
  destruct (d_args d) as [fs|] eqn:Da.
  - eapply sim_name; [exact Hn| |].
    { rewrite (proj1 H). cbn [app]. reflexivity. }
    change (116 =? 116) with true.
    assert (H1 : here (p + 1 + 1 + length (d_name d) + 1) (vbody (VObj fs) ++ 0 :: l)).
    { eapply (here_adv (d_name d ++ [0])); [exact H|lapp|llen]. }
    destruct (nlookup (s_dirs S) loc) as [ds|].
    2:{ apply sim_bind_err. intros. apply sim_ret. split; auto. eexists. split; [reflexivity|discriminate]. }
    destruct (find _ ds) as [dd|].
    2:{ apply sim_bind_err. intros. apply sim_ret. split; auto. eexists. split; [reflexivity|discriminate]. }
    eapply sim_bind; [eapply args_sim; eauto|]. intros x t [[av cr] cut] s' (-> & p' & -> & Hp). cbn [fst snd] in *.
    destruct cr; [apply sim_ret; split; auto; eexists; split; [reflexivity|discriminate]|].
    specialize (Hp eq_refl). destruct cut; [exact I|].
    assert (K : forall (b : bool) s, sim (ret (b, false) (fr p' o vs k s)) (bret (b, false) s) (fun x t y s' => x = y /\ exists p', t = fr p' o vs k s' /\ (snd x = false -> here p' l))).
    { intros. apply sim_ret. split; auto. eexists. split; [reflexivity|auto]. }
    destruct (dd_fn dd); try (destruct av as [|[| | | | | | | |[|[? []] []]| | | | | | | |] []]; try reflexivity; apply K).
    apply sim_bind_lift; [apply frame_get_world|]. intros w s1. apply sim_bind_lift; [apply frame_get_path|]. intros pa s2.
    apply sim_bind_lift; [apply frame_of_opt|]. intros [w' b] s3. apply sim_bind_lift; [apply frame_put_world|]. intros. apply K.
  - cbn [app] in H. eapply sim_name; [exact Hn|exact (proj1 H)|].
    change (102 =? 116) with false.
    assert (Hp : here (p + 1 + 1 + length (d_name d) + 1) l).
    { eapply (here_adv (d_name d ++ [0])); [exact H|lapp|llen]. }
    destruct (nlookup (s_dirs S) loc) as [ds|].
    2:{ apply sim_bind_err. intros. apply sim_ret. split; auto. eexists. split; [reflexivity|discriminate]. }
    destruct (find _ ds) as [dd|].
    2:{ apply sim_bind_err. intros. apply sim_ret. split; auto. eexists. split; [reflexivity|discriminate]. }
    set (p' := (p + 1 + 1 + length (d_name d) + 1)%nat) in *.
    assert (K : forall (b : bool) s, sim (ret (b, false) (fr p' o vs k s)) (bret (b, false) s) (fun x t y s' => x = y /\ exists p', t = fr p' o vs k s' /\ (snd x = false -> here p' l))).
    { intros. apply sim_ret. split; auto. eexists. split; [reflexivity|auto]. }
    unfold bind_args, b_args. eapply sim_step; [reflexivity|]. generalize (zero_args (dd_ins dd)) as av. intros av. unfold bbind at 1. cbn [bret].
    destruct (dd_fn dd); try (destruct av as [|[| | | | | | | |[|[? []] []]| | | | | | | |] []]; try reflexivity; apply K).
    apply sim_bind_lift; [apply frame_get_world|]. intros w s1. apply sim_bind_lift; [apply frame_get_path|]. intros pa s2.
    apply sim_bind_lift; [apply frame_of_opt|]. intros [w' b] s3. apply sim_bind_lift; [apply frame_put_world|]. intros. apply K.
Qed.
Lemma dirs_cons : forall ds l, exists r, enc_dirs ds ++ 0 :: l = 0 :: r.
Proof. intros [|d ds] l; cbn; eauto. rewrite enc_directive_tail. cbn. eauto. Qed.
Lemma directives_sim : forall fuel loc ds p o vs k (s : st) l r,
  Forall ok_dir ds -> enc_dirs ds ++ 0 :: l = 0 :: r -> here p r ->
  sim (resolve_directives X S res rawvars hasargs argsat fuel loc (length ds) (fr p o vs k s)) (b_directives X S rawvars opargs fuel loc ds s)
    (fun x t y s' => x = y /\ exists p', t = fr p' o vs k s' /\ (snd x || fst x = false -> here p' l)).
Proof.
  intros fuel loc ds. induction ds as [|d ds IH]; intros p o vs k s l r F E H.
  - cbn in E. inversion E; subst. apply sim_ret. split; auto. eexists. split; [reflexivity|auto].
  - inversion F as [|? ? Fd Fds]; subst. cbn [length resolve_directives b_directives]. destruct (dirs_cons ds l) as (r1 & E1).
    assert (Er : r = dir_tail d ++ 0 :: r1).
    { unfold enc_dirs in E. cbn [flat_map] in E. fold (enc_dirs ds) in E. rewrite <- app_assoc, E1, enc_directive_tail in E. symmetry. exact (f_equal (@tl N) E). }
    subst r. eapply sim_bind; [eapply directive_sim; eauto|]. intros x t [sk cr] s' (-> & p' & -> & Hp). cbn [snd] in *.
    destruct cr; cbn [orb]; [apply sim_ret; split; auto; eexists; split; [reflexivity|discriminate]|].
    destruct sk; [apply sim_ret; split; auto; eexists; split; [reflexivity|discriminate]|].
    eapply IH; eauto.
Qed.

(** ** Places in a selection set *)
Definition sels_end (ss : list sel) (l : bytes) : bytes := enc_sels ss ++ [0; 101] ++ l.
Definition field_body (alias : option bytes) (name : bytes) (ds : list directive) (args : option (list (bytes * value))) (subs : list sel) : bytes :=
  enc_names alias name ++ enc_dirs ds ++ enc_opt_args args ++ sels_end subs [].
Definition sel_tail (x : sel) : bytes :=
  match x with
  | SField alias name ds args subs =>
      102 :: nlen ds :: le32 (nlen (field_body alias name ds args subs)) ++ le32 (fnv1 name) ++ field_body alias name ds args subs
  | SSpread name ds => 115 :: 102 :: nlen ds :: le32 (nlen (name ++ enc_dirs ds)) ++ name ++ enc_dirs ds
  | SInline tname ds subs =>
      115 :: 116 :: nlen ds :: le32 (nlen (tname ++ enc_dirs ds ++ sels_end subs [])) ++ tname ++ enc_dirs ds ++ sels_end subs []
  end.
Lemma enc_sel_tail : forall x, enc_sel x = 0 :: sel_tail x.
Proof. intros []; reflexivity. Qed.
Lemma sels_end_nil : forall ss l, sels_end ss [] ++ l = sels_end ss l.
Proof. intros. unfold sels_end. lapp. Qed.
Lemma sels_cons : forall ss l, exists r, sels_end ss l = 0 :: r /\
  match ss with [] => r = 101 :: l | x :: q => exists r1, sels_end q l = 0 :: r1 /\ r = sel_tail x ++ 0 :: r1 end.
Proof.
  assert (H : forall ss l, exists r, sels_end ss l = 0 :: r).
  { intros [|x q] l; unfold sels_end, enc_sels; cbn [flat_map app]; eauto. rewrite enc_sel_tail. cbn. eauto. }
  intros [|x q] l.
  - eexists. split; reflexivity.
  - destruct (H q l) as (r1 & E1). exists (sel_tail x ++ 0 :: r1). split; [|eauto].
    rewrite <- E1. unfold sels_end, enc_sels. cbn [flat_map]. rewrite enc_sel_tail. rewrite <- app_assoc. reflexivity.
Qed.
Lemma sel_head : forall x l, exists c r, sel_tail x ++ l = c :: r /\ (c = 102 \/ c = 115).
Proof. intros [] l; do 2 eexists; split; try reflexivity; auto. Qed.
Lemma sels_head : forall ss l r, sels_end ss l = 0 :: r -> exists c r', r = c :: r' /\ (c =? 118) = false /\ (c =? 101) = is_nil ss.
Proof.
  intros ss l r E. destruct (sels_cons ss l) as (r0 & E0 & H). rewrite E0 in E. inversion E; subst r0. destruct ss.
  - subst r. do 2 eexists. split; [reflexivity|auto].
  - destruct H as (r1 & _ & ->). destruct (sel_head s (0 :: r1)) as (c & r' & -> & [-> | ->]); do 2 eexists; split; try reflexivity; auto.
Qed.

Definition cur_at (cur : cursor) (p : nat) : Prop :=
  match cur with
  | CArgs fs subs => ok_args fs /\ ok_sels subs /\ exists l, here p (vbody (VObj fs) ++ sels_end subs l)
  | CSels subs => ok_sels subs /\ exists l r, sels_end subs l = 0 :: r /\ here p r
  | CLost => exists r, here p (117 :: r)
  end.
Lemma cur_head : forall cur p, cur_at cur p -> exists c r, here p (c :: r) /\
  (c =? 118) = (match cur with CArgs _ _ => true | _ => false end) /\ negb (c =? 101) = has_sub cur.
Proof.
  intros [fs subs|subs|] p H; cbn in H.
  - destruct H as (_ & _ & l & H). eexists _, _. split; [exact H|]. auto.
  - destruct H as (_ & l & r & E & H). destruct (sels_head _ _ _ E) as (c & r' & -> & A & B). exists c, r'. split; auto. split; auto.
    rewrite B. destruct subs; reflexivity.
  - destruct H as (r & H). exists 117, r. auto.
Qed.

(** ** The fragments *)
Hypothesis frags_at : Forall2 (fun loc (f : bytes * bytes * list sel) => let '(n, t, ss) := f in
  clean n /\ clean t /\ ok_sels ss /\ exists rest, here loc (70 :: n ++ 0 :: t ++ sels_end ss rest)) frags fdefs.

Lemma prefix_split : forall a b, is_prefix a b = true -> b = a ++ skipn (length a) b.
Proof.
  induction a as [|x a IH]; intros [|y b] H; cbn in *; try discriminate; auto.
  apply andb_prop in H. destruct H as [H1 H2]. apply N.eqb_eq in H1. subst. f_equal. auto.
Qed.
Lemma prefix_first : forall (a n l : bytes), clean a -> (length a < length (n ++ 0%N :: l))%nat ->
  beqb (firstn (length a) (n ++ 0 :: l)) a = is_prefix a n.
Proof.
  induction a as [|x a IH]; intros n l C L; [destruct n; reflexivity|]. inversion C; subst. destruct n as [|y n].
  - cbn. destruct x; [contradiction|reflexivity].
  - cbn [length firstn app is_prefix beqb] in *. rewrite (N.eqb_sym x y). destruct (y =? x) eqn:E; cbn [andb].
    + apply IH; auto. cbn in L. lia.
    + reflexivity.
Qed.
Lemma prefix_len : forall a n, is_prefix a n = true -> (length a <= length n)%nat.
Proof. induction a as [|x a IH]; intros [|y n] H; cbn in *; try discriminate; try lia. apply andb_prop in H. apply le_n_S, IH. tauto. Qed.

Lemma slice_first : forall p n x l, here p l -> n = length x -> firstn n l = x -> (n <= length l)%nat -> slice (W := W) res p (p + n) = ret x.
Proof.
  intros p n x l [H L] E F G. subst n. apply slice_at with (l := skipn (length x) l); auto.
  rewrite H. rewrite <- F at 1. now rewrite firstn_skipn.
Qed.

(** ** Steps *)
Notation fl := (x_float_json X).
Lemma sim_get_val : forall A B (f : rv -> rm A) p o v k (s : st) (b : bout B) Q,
  sim (f (v k) (fr p o v k s)) b Q -> sim (bind get_val f (fr p o v k s)) b Q.
Proof. intros. exact H. Qed.
Lemma sim_set_val : forall A B (f : unit -> rm A) x p o v k (s : st) (b : bout B) Q,
  sim (f tt (fr p o (upd v k x) k s)) b Q -> sim (bind (set_val x) f (fr p o v k s)) b Q.
Proof. intros. exact H. Qed.
Lemma sim_idx_inc : forall A B (f : unit -> rm A) p o v k (s : st) (b : bout B) Q, k < 255 ->
  sim (f tt (fr p o v (k + 1) s)) b Q -> sim (bind idx_inc f (fr p o v k s)) b Q.
Proof. intros. unfold bind, idx_inc, set_vals. cbn [fr r_pos r_out r_errs r_path r_vals r_idx r_vars r_world]. rewrite N.mod_small by lia. exact H0. Qed.
Lemma sim_idx_dec : forall A B (f : unit -> rm A) p o v k (s : st) (b : bout B) Q, k < 255 ->
  sim (f tt (fr p o v k s)) b Q -> sim (bind idx_dec f (fr p o v (k + 1) s)) b Q.
Proof.
  intros. unfold bind, idx_dec, set_vals. cbn [fr r_pos r_out r_errs r_path r_vals r_idx r_vars r_world].
  replace ((k + 1 + 255) mod 256) with k; [exact H0|]. replace (k + 1 + 255) with (k + 1 * 256) by lia. rewrite N.mod_add by lia. rewrite N.mod_small; lia.
Qed.
Lemma sim_set_next : forall A B (f : unit -> rm A) x p o v k (s : st) (b : bout B) Q, k < 255 ->
  sim (f tt (fr p o (upd v (k + 1) x) (k + 1) s)) b Q -> sim (bind (set_next_val x) f (fr p o v k s)) b Q.
Proof.
  intros. unfold set_next_val. unfold bind at 1 2, idx_inc, set_vals. cbn [fr r_pos r_out r_errs r_path r_vals r_idx r_vars r_world].
  rewrite N.mod_small by lia. exact H0.
Qed.
Lemma upd_same : forall f i v, upd f i v i = v.
Proof. intros. unfold upd. now rewrite N.eqb_refl. Qed.
Lemma upd_other : forall f i v j, j <> i -> upd f i v j = f j.
Proof. intros. unfold upd. destruct (N.eqb_spec j i); congruence. Qed.
Lemma sim_write_end : forall A B (f : unit -> rm A) p o v k (s : st) (b : bout B) Q w o',
  o' = o ++ w -> sim (f tt (fr p o' v k s)) b Q -> sim (bind (write w) f (fr p o v k s)) b Q.
Proof. intros. subst. exact H0. Qed.

(** ** The relations *)
Definition Rsel (first : bool) (o : bytes) (v : N -> rv) (k : N) (l : bytes) : bool * bool -> st -> list (bytes * rt) * bool -> st -> Prop :=
  fun x t y s' => snd x = snd y /\ exists p' v', t = fr p' (o ++ render_sep fl first (fst y)) v' k s' /\
    (forall j, j <= k -> v' j = v j) /\ (snd x = false -> here p' l /\ fst x = first && is_nil (fst y)).
Definition Rfield (first : bool) (o : bytes) (v : N -> rv) (k : N) (l : bytes) : bool * bool -> st -> list (bytes * rt) * bool -> st -> Prop :=
  fun x t y s' => snd x = snd y /\ exists p' v', t = fr p' (o ++ render_sep fl first (fst y)) v' k s' /\
    (forall j, j <= k -> v' j = v j) /\ (snd x = false -> here p' l /\ fst x = is_nil (fst y)).
Definition Rvalue (o : bytes) (v : N -> rv) (k : N) : bool -> st -> rt * bool -> st -> Prop :=
  fun x t y s' => x = snd y /\ exists p' v', t = fr p' (o ++ render fl (fst y)) v' k s' /\ (forall j, j < k -> v' j = v j).

Notation RSEL := (resolve_sel X S res frags rawvars hasargs argsat).
Notation RSPREAD := (resolve_spread X S res frags rawvars hasargs argsat).
Notation RFIELD := (resolve_field X S res frags rawvars hasargs argsat).
Notation RVALUE := (resolve_value X S res frags rawvars hasargs argsat).

Definition P_sels (fuel : nat) : Prop := forall ob dept k ss first p o v (s : st) l r,
  ok_sels ss -> sels_end ss l = 0 :: r -> here p r -> k < 256 ->
  sim (RSEL fuel ob dept first (fr p o v k s)) (b_sels X S rawvars opargs fdefs fuel ob dept (v k) k ss s) (Rsel first o v k l).
Definition P_inline (fuel : nat) : Prop := forall ob dept k tname ds subs first p o v (s : st) l,
  ok_sel (SInline tname ds subs) -> here p (tl (sel_tail (SInline tname ds subs)) ++ 0 :: l) -> k < 256 ->
  sim (RSPREAD fuel ob dept first (fr p o v k s)) (b_inline X S rawvars opargs fdefs fuel ob dept (v k) k tname ds subs s) (Rsel first o v k l).
Definition P_spread (fuel : nat) : Prop := forall ob dept k name ds first p o v (s : st) l,
  ok_sel (SSpread name ds) -> here p (tl (sel_tail (SSpread name ds)) ++ 0 :: l) -> k < 256 ->
  sim (RSPREAD fuel ob dept first (fr p o v k s)) (b_spread X S rawvars opargs fdefs fuel ob dept (v k) k name ds s) (Rsel first o v k l).
Definition P_field (fuel : nat) : Prop := forall ob dept k alias name ds args subs first p o v (s : st) l,
  ok_sel (SField alias name ds args subs) -> here p (tl (sel_tail (SField alias name ds args subs)) ++ 0 :: l) -> k < 256 ->
  sim (RFIELD fuel ob dept (negb first) (fr p o v k s)) (b_field X S rawvars opargs fdefs fuel ob dept (v k) k alias name ds args subs s) (Rfield first o v k l).
Definition P_value (fuel : nat) : Prop := forall ob dept k cur p o v (s : st),
  cur_at cur p -> k < 256 ->
  sim (RVALUE fuel ob dept (has_sub cur) (fr p o v k s)) (b_value X S rawvars opargs fdefs fuel ob dept (v k) k cur s) (Rvalue o v k).

Ltac done_sel := apply sim_ret; split; [reflexivity|]; eexists _, _; split; [|split; [|try discriminate]].

Lemma bind_bind : forall A B C (m : @rm W A) (f : A -> rm B) (g : B -> rm C) s0, bind (bind m f) g s0 = bind m (fun a => bind (f a) g) s0.
Proof. intros. unfold bind. destruct (m s0); reflexivity. Qed.
Lemma bind_ret : forall A (m : @rm W A) s0, bind m ret s0 = m s0.
Proof. intros. unfold bind. destruct (m s0); reflexivity. Qed.
Lemma field_then : forall (m : @rm W (bool * bool)) (first : bool) (h : bool -> rm (bool * bool)) s0,
  bind m (fun y => let '(skipped, crit) := y in if crit : bool then ret (first, true) else h (if skipped : bool then first else false)) s0 =
  bind (bind m (fun y => ret (if snd y then first else if fst y : bool then first else false, snd y)))
       (fun y => let '(first, crit) := y in if crit : bool then ret (first, true) else h first) s0.
Proof. intros. unfold bind. destruct (m s0) as [[sk c1] s1| |]; cbn; auto. destruct c1; reflexivity. Qed.
Lemma sels_step : forall fuel, P_sels fuel -> P_inline fuel -> P_spread fuel -> P_field fuel -> P_sels (Datatypes.S fuel).
Proof.
  intros fuel IHs IHi IHp IHf ob dept k ss first p o v s l r V E H K. cbn [resolve_sel b_sels].
  destruct (sels_cons ss l) as (r0 & E0 & Hr). rewrite E0 in E. inversion E; subst r0. clear E.
  destruct ss as [|x q].
  - subst r. eapply sim_read; [exact (proj1 H)|]. change (101 =? 101) with true. cbn iota. apply sim_ret.
    split; [reflexivity|]. eexists _, v. split; [|split; auto].
    + f_equal. cbn. destruct first; now rewrite app_nil_r.
    + intros _. cbn. split; [|now destruct first]. eapply (here_adv [101]); [exact H|lapp|reflexivity].
  - destruct Hr as (r1 & Eq & ->). destruct V as [Vx Vq].
    assert (G : forall (m : rm (bool * bool)) (bmx : bm (list (bytes * rt) * bool)) p1,
       sim (m (fr p1 o v k s)) (bmx s) (Rsel first o v k r1) ->
       sim (bind m (fun y => let '(first, crit) := y in if crit : bool then ret (first, true) else RSEL fuel ob dept first) (fr p1 o v k s))
           (bbind bmx (fun y => let '(ms, crit) := y in if crit : bool then bret (ms, true)
                                else bbind (b_sels X S rawvars opargs fdefs fuel ob dept (v k) k q) (fun z => let '(ms', crit) := z in bret (ms ++ ms', crit))) s)
           (Rsel first o v k l)).
    { intros m bmx p1 Hm. eapply sim_bind; [exact Hm|]. intros [f1 c1] t [ms c2] s' (Ec & p' & v' & -> & Hv & Hh). cbn [fst snd] in *. subst c2.
      destruct c1.
      - apply sim_ret. split; auto. eexists _, _. split; [reflexivity|]. split; auto. discriminate.
      - destruct (Hh eq_refl) as [Hp ->]. rewrite <- (Hv k) by lia.
        assert (L : sim (RSEL fuel ob dept (first && is_nil ms) (fr p' (o ++ render_sep fl first ms) v' k s')) (b_sels X S rawvars opargs fdefs fuel ob dept (v' k) k q s')
             (Rsel (first && is_nil ms) (o ++ render_sep fl first ms) v' k l)) by (eapply IHs; eauto).
        unfold bbind. destruct (b_sels X S rawvars opargs fdefs fuel ob dept (v' k) k q s') as [[ms' c] s2| | |]; cbn in L |- *; auto.
        destruct L as ([f2 c2] & t & L & Ec & p2 & v2 & -> & Hv2 & Hh2). cbn [fst snd] in *. subst c2. eexists _, _. split; [exact L|].
        split; [reflexivity|]. eexists _, _. split; [|split].
        + f_equal. cbn [fst]. now rewrite render_sep_app, app_assoc.
        + intros. rewrite Hv2, Hv; auto.
        + cbn [fst snd]. intros C. destruct (Hh2 C) as [A B]. split; auto. rewrite B, <- andb_assoc. f_equal. destruct ms, ms'; reflexivity. }
    destruct x as [alias name ds args subs|name ds|tname ds subs].
    + eapply sim_read; [exact (proj1 H)|]. change (102 =? 101) with false. change (102 =? 102) with true. cbn iota.
      assert (H1 : here (p + 1) (tl (sel_tail (SField alias name ds args subs)) ++ 0 :: r1)) by (eapply (here_adv [102]); [exact H|reflexivity|reflexivity]).
      assert (Hf := IHf ob dept k alias name ds args subs first (p + 1)%nat o v s r1 Vx H1 K).
      specialize (G (bind (RFIELD fuel ob dept (negb first)) (fun y => ret (if snd y then first else if fst y : bool then first else false, snd y)))
                    (b_field X S rawvars opargs fdefs fuel ob dept (v k) k alias name ds args subs) (p + 1)%nat).
      rewrite field_then.
      apply G.
      eapply sim_then; [exact Hf|]. intros [sk c1] t [ms c2] s' (Ec & p' & v' & -> & Hv & Hh). cbn [fst snd] in *. subst c2. eexists _, _. split; [reflexivity|].
      split; [reflexivity|]. eexists _, _. split; [reflexivity|]. split; [exact Hv|]. cbn [fst snd]. intros ->. destruct (Hh eq_refl) as [A ->]. split; auto.
      destruct (is_nil ms), first; reflexivity.
    + eapply sim_read; [exact (proj1 H)|]. change (115 =? 101) with false. change (115 =? 102) with false. change (115 =? 115) with true. cbn iota.
      apply G. eapply IHp; eauto. eapply (here_adv [115]); [exact H|reflexivity|reflexivity].
    + eapply sim_read; [exact (proj1 H)|]. change (115 =? 101) with false. change (115 =? 102) with false. change (115 =? 115) with true. cbn iota.
      apply G. eapply IHi; eauto. eapply (here_adv [115]); [exact H|reflexivity|reflexivity].
Qed.

Lemma inline_step : forall fuel, P_sels fuel -> P_inline (Datatypes.S fuel).
Proof.
  intros fuel IHs ob dept k tname ds subs first p o v s l (Vt & Vd & Vs) H K. cbn [resolve_spread b_inline].
  change (ok_sels subs) in Vs.
  unfold sel_tail in H. cbn [tl app] in H.
  eapply sim_read; [exact (proj1 H)|]. change (116 =? 116) with true. cbn iota.
  assert (H1 : here (p + 1) (nlen ds :: le32 (nlen (tname ++ enc_dirs ds ++ sels_end subs [])) ++ tname ++ enc_dirs ds ++ sels_end subs (0 :: l))).
  { eapply (here_adv [116]); [exact H| |reflexivity]. cbn [app]. do 2 f_equal. rewrite <- !app_assoc, sels_end_nil. reflexivity. }
  eapply sim_read; [exact (proj1 H1)|]. apply sim_get_pos.
  assert (H2 : here (p + 1 + 1) (le32 (nlen (tname ++ enc_dirs ds ++ sels_end subs [])) ++ tname ++ enc_dirs ds ++ sels_end subs (0 :: l))) by (eapply (here_adv [nlen ds]); [exact H1|reflexivity|reflexivity]).
  eapply sim_u32; [exact (proj1 H2)| |].
  { assert (L := skipn_len _ _ _ _ (proj1 H2)). unfold nlen. unfold sels_end in *. repeat (rewrite ?app_length, ?le32_length in *; cbn [length] in * ). lia. }
  apply sim_skip. apply sim_get_pos.
  assert (H3 : here (p + 1 + 1 + 4) (tname ++ enc_dirs ds ++ sels_end subs (0 :: l))) by (eapply (here_adv (le32 _)); [exact H2|reflexivity|reflexivity]).
  destruct (sels_cons subs (0 :: l)) as (r1 & E1 & _). rewrite E1 in H3. destruct (dirs_cons ds r1) as (r2 & E2). rewrite E2 in H3.
  eapply sim_name; [exact Vt|exact (proj1 H3)|].
  assert (H4 : here (p + 1 + 1 + 4 + length tname + 1) r2) by (eapply (here_adv (tname ++ [0])); [exact H3|lapp|llen]).
  replace (N.to_nat (nlen ds)) with (length ds) by (unfold nlen; lia).
  replace (N.to_nat (nlen (tname ++ enc_dirs ds ++ sels_end subs []))) with (length (tname ++ enc_dirs ds ++ sels_end subs [])) by (unfold nlen; lia).
  assert (Hn : here (p + 1 + 1 + 4 + length (tname ++ enc_dirs ds ++ sels_end subs []) + 1) l).
  { eapply (here_adv (tname ++ enc_dirs ds ++ sels_end subs [] ++ [0])); [exact H3| |llen]. rewrite <- E2, <- E1. rewrite <- !app_assoc. rewrite sels_end_nil. unfold sels_end. lapp. }
  eapply sim_bind; [eapply directives_sim; eauto|]. intros x t [sk cr] s' (-> & p' & -> & Hp). cbn [fst snd] in *.
  assert (N0 : forall (c : bool) (s1 : st) q, here q l -> sim (ret (first, c) (fr q o v k s1)) (bret ([], c) s1) (Rsel first o v k l)).
  { intros. apply sim_ret. split; [reflexivity|]. eexists _, v. split; [|split; auto].
    - f_equal. cbn. destruct first; now rewrite app_nil_r.
    - intros _. split; auto. cbn. now destruct first. }
  destruct (cr || sk) eqn:C.
  - apply sim_seek_to. apply N0; auto.
  - destruct (negb (beqb (o_name ob) tname)).
    + apply sim_seek_to. apply N0; auto.
    + eapply sim_then; [eapply IHs; eauto|]. intros [f1 c1] t [ms c2] s2 (Ec & p2 & v' & -> & Hv & Hh). cbn [fst snd] in *. subst c2.
      eexists _, _. split; [reflexivity|]. split; [reflexivity|]. eexists _, _. split; [reflexivity|]. split; [exact Hv|]. cbn [fst snd]. intros C1.
      destruct (Hh C1) as [A B]. split; auto. eapply (here_adv [0]); [exact A|reflexivity|reflexivity].
Qed.

Lemma spread_step : forall fuel, P_sels fuel -> P_spread (Datatypes.S fuel).
Proof.
  intros fuel IHs ob dept k name ds first p o v s l (Vt & Vd) H K. cbn [resolve_spread b_spread].
  unfold sel_tail in H. cbn [tl app] in H.
  eapply sim_read; [exact (proj1 H)|]. change (102 =? 116) with false. cbn iota.
  assert (H1 : here (p + 1) (nlen ds :: le32 (nlen (name ++ enc_dirs ds)) ++ name ++ enc_dirs ds ++ 0 :: l)).
  { eapply (here_adv [102]); [exact H| |reflexivity]. cbn [app]. do 2 f_equal. rewrite <- !app_assoc. reflexivity. }
  eapply sim_read; [exact (proj1 H1)|]. apply sim_get_pos.
  assert (H2 : here (p + 1 + 1) (le32 (nlen (name ++ enc_dirs ds)) ++ name ++ enc_dirs ds ++ 0 :: l)) by (eapply (here_adv [nlen ds]); [exact H1|reflexivity|reflexivity]).
  eapply sim_u32; [exact (proj1 H2)| |].
  { assert (L := skipn_len _ _ _ _ (proj1 H2)). unfold nlen. repeat (rewrite ?app_length, ?le32_length in *; cbn [length] in * ). lia. }
  apply sim_skip. apply sim_get_pos.
  assert (H3 : here (p + 1 + 1 + 4) (name ++ enc_dirs ds ++ 0 :: l)) by (eapply (here_adv (le32 _)); [exact H2|reflexivity|reflexivity]).
  assert (Hn : here (p + 1 + 1 + 4 + length (name ++ enc_dirs ds) + 1) l).
  { eapply (here_adv (name ++ enc_dirs ds ++ [0])); [exact H3| |llen]. lapp. }
  destruct (dirs_cons ds l) as (r2 & E2). rewrite E2 in H3.
  eapply sim_name; [exact Vt|exact (proj1 H3)|].
  assert (H4 : here (p + 1 + 1 + 4 + length name + 1) r2) by (eapply (here_adv (name ++ [0])); [exact H3|lapp|llen]).
  replace (N.to_nat (nlen ds)) with (length ds) by (unfold nlen; lia).
  replace (N.to_nat (nlen (name ++ enc_dirs ds))) with (length (name ++ enc_dirs ds)) by (unfold nlen; lia).
  eapply sim_bind; [eapply directives_sim; eauto|]. intros x t [sk cr] s' (-> & p' & -> & Hp). cbn [fst snd] in *.
  assert (N0 : forall (c : bool) (s1 : st) q, here q l -> sim (ret (first, c) (fr q o v k s1)) (bret ([], c) s1) (Rsel first o v k l)).
  { intros. apply sim_ret. split; [reflexivity|]. eexists _, v. split; [|split; auto].
    - f_equal. cbn. destruct first; now rewrite app_nil_r.
    - intros _. split; auto. cbn. now destruct first. }
  destruct (cr || sk) eqn:C.
  { apply sim_seek_to. apply N0; auto. }
  specialize (Hp eq_refl). set (nx := (p + 1 + 1 + 4 + length (name ++ enc_dirs ds) + 1)%nat) in *.
  unfold b_fragment.
  match goal with |- sim (?F frags ?a) (match find ?g fdefs with _ => _ end ?b) ?Q =>
    let G := constr:(fun r : option (bytes * bytes * list sel) => match r with
        | None => bbind (lift (err (bs "fragment " ++ name ++ bs " not defined"))) (fun b => bret ([], b))
        | Some (n, tname, ss) =>
            match skipn (length name) n with
            | [] => if negb (beqb (o_name ob) tname) then bret ([], false) else b_sels X S rawvars opargs fdefs fuel ob dept (v k) k ss
            | _ :: rest => if negb (beqb (o_name ob) rest) then bret ([], false) else bnope
            end
        end) in
    enough (GG : forall ls fs, Forall2 (fun loc (f : bytes * bytes * list sel) => let '(n, t, ss) := f in
      clean n /\ clean t /\ ok_sels ss /\ exists rest, here loc (70 :: n ++ 0 :: t ++ sels_end ss rest)) ls fs ->
      sim (F ls a) (G (find g fs) b) Q) by (apply GG; exact frags_at) end.
  induction 1 as [|loc [[n tn] ss] ls fs Hf Hr IH].
  - cbn [find]. apply sim_bind_err. intros s1. apply sim_ret. split; [reflexivity|]. eexists _, v. split; [|split; auto; discriminate].
    f_equal. cbn. destruct first; now rewrite app_nil_r.
  - destruct Hf as (Cn & Ct & Vs & rest & Hl).
    assert (Hl1 : here (loc + 1) (n ++ 0 :: tn ++ sels_end ss rest)) by (eapply (here_adv [70]); [exact Hl|reflexivity|reflexivity]).
    cbn [find fst snd].
    pose proof (f_equal (@length N) (proj1 Hl1)) as Ln. rewrite skipn_length in Ln.
    destruct (length res <=? loc + 1 + length name)%nat eqn:Le.
    + assert (P : is_prefix name n = false).
      { destruct (is_prefix name n) eqn:P; auto. apply prefix_len in P. rewrite app_length in Ln. cbn [length] in Ln. lia. }
      rewrite P. apply IH.
    + assert (Lx : (length name < length (n ++ 0%N :: tn ++ sels_end ss rest))%nat) by (rewrite <- Ln; lia).
      erewrite slice_first; [|exact Hl1| |reflexivity|lia].
      2:{ rewrite firstn_length. lia. }
      eapply sim_step; [reflexivity|]. rewrite prefix_first by auto.
      destruct (is_prefix name n) eqn:P; [|apply IH].
      apply sim_get_pos. apply sim_seek_to. apply prefix_split in P.
      destruct (skipn (length name) n) as [|c rn] eqn:Rn.
      * rewrite app_nil_r in P. subst n.
        assert (Hl2 : here (loc + 1 + length name + 1) (tn ++ sels_end ss rest)) by (eapply (here_adv (name ++ [0])); [exact Hl1|lapp|llen]).
        destruct (sels_cons ss rest) as (r1 & E1 & _). rewrite E1 in Hl2.
        eapply sim_name; [exact Ct|exact (proj1 Hl2)|].
        destruct (negb (beqb (o_name ob) tn)); [apply sim_seek_to; apply N0; auto|].
        eapply sim_then.
        { eapply IHs; eauto. eapply (here_adv (tn ++ [0])); [exact Hl2|lapp|llen]. }
        intros [f1 c1] t [ms c2] s2 (Ec & p2 & v' & -> & Hv & Hh). cbn [fst snd] in *. subst c2.
        eexists _, _. split; [reflexivity|]. split; [reflexivity|]. eexists _, _. split; [reflexivity|]. split; [exact Hv|]. cbn [fst snd]. intros C1.
        destruct (Hh C1) as [A B]. split; auto.
      * assert (Hl2 : here (loc + 1 + length name + 1) (rn ++ 0 :: tn ++ sels_end ss rest)).
        { eapply (here_adv (name ++ [c])); [exact Hl1|rewrite P; lapp|llen]. }
        eapply sim_name; [|exact (proj1 Hl2)|].
        { rewrite P in Cn. apply Forall_app in Cn. destruct Cn as [_ Cn]. now inversion Cn. }
        destruct (negb (beqb (o_name ob) rn)); [apply sim_seek_to; apply N0; auto|exact I].
Qed.

Lemma names_eq : forall alias name l, enc_names alias name ++ l =
  nlen (match alias with Some a => a | None => name end) :: (match alias with Some a => a | None => name end) ++
  (match alias with Some _ => nlen name | None => 0 end) :: (match alias with Some _ => name | None => [] end) ++ l.
Proof. intros [a|] name l; unfold enc_names; lapp. Qed.

Lemma field_step : forall fuel, P_value fuel -> P_field (Datatypes.S fuel).
Proof.
  intros fuel IHv ob dept k alias name ds args subs first p o v s l (Vn & Vh & Vd & Va & Vs) H K. cbn [resolve_field b_field].
  change (ok_sels subs) in Vs.
  unfold sel_tail in H. cbn [tl app] in H. set (body := field_body alias name ds args subs) in *.
  eapply sim_read; [exact (proj1 H)|]. apply sim_get_pos.
  assert (H1 : here (p + 1) (le32 (nlen body) ++ le32 (fnv1 name) ++ body ++ 0 :: l)).
  { eapply (here_adv [nlen ds]); [exact H|lapp|reflexivity]. }
  eapply sim_u32; [exact (proj1 H1)| |].
  { assert (L := skipn_len _ _ _ _ (proj1 H1)). unfold nlen. repeat (rewrite ?app_length, ?le32_length in *; cbn [length] in * ). lia. }
  apply sim_skip. apply sim_get_pos.
  assert (H2 : here (p + 1 + 4) (le32 (fnv1 name) ++ body ++ 0 :: l)) by (eapply (here_adv (le32 _)); [exact H1|reflexivity|reflexivity]).
  eapply sim_u32; [exact (proj1 H2)|exact Vh|].
  apply sim_skip. apply sim_get_pos.
  assert (H3 : here (p + 1 + 4 + 4) (body ++ 0 :: l)) by (eapply (here_adv (le32 _)); [exact H2|reflexivity|reflexivity]).
  set (q := (p + 1 + 4 + 4)%nat) in *.
  assert (He : here (q + length body + 1) l) by (eapply (here_adv (body ++ [0])); [exact H3|lapp|llen]).
  replace (N.to_nat (nlen body)) with (length body) by (unfold nlen; lia).
  assert (Eb : body ++ 0 :: l = enc_names alias name ++ enc_dirs ds ++ enc_opt_args args ++ sels_end subs (0 :: l)).
  { unfold body, field_body. rewrite <- !app_assoc, sels_end_nil. reflexivity. }
  rewrite Eb, names_eq in H3. clear Eb.
  pose (key := match alias with Some a => a | None => name end).
  pose (nl := match alias with Some _ => nlen name | None => 0 end).
  pose (nm := match alias with Some _ => name | None => [] end : bytes).
  change (here q (nlen key :: key ++ nl :: nm ++ enc_dirs ds ++ enc_opt_args args ++ sels_end subs (0 :: l))) in H3.
  assert (Enl : N.to_nat nl = length nm) by (unfold nl, nm; destruct alias; [unfold nlen; lia|reflexivity]).
  eapply sim_read; [exact (proj1 H3)|]. apply sim_get_pos.
  assert (H4 : here (q + 1) (key ++ nl :: nm ++ enc_dirs ds ++ enc_opt_args args ++ sels_end subs (0 :: l))) by (eapply (here_adv [nlen key]); [exact H3|reflexivity|reflexivity]).
  eapply sim_slice; [exact small|exact (proj1 H4)| |exact (proj2 H4)|].
  { unfold nlen. lia. }
  apply sim_skip. replace (N.to_nat (nlen key)) with (length key) by (unfold nlen; lia).
  apply sim_bind_lift; [apply frame_get_path|]. intros path s1. apply sim_bind_lift; [apply frame_put_path|]. intros _ s2.
  assert (H5 : here (q + 1 + length key) (nl :: nm ++ enc_dirs ds ++ enc_opt_args args ++ sels_end subs (0 :: l))) by (eapply (here_adv key); [exact H4|reflexivity|reflexivity]).
  eapply sim_read; [exact (proj1 H5)|]. apply sim_get_pos.
  assert (H6 : here (q + 1 + length key + 1) (nm ++ enc_dirs ds ++ enc_opt_args args ++ sels_end subs (0 :: l))) by (eapply (here_adv [nl]); [exact H5|reflexivity|reflexivity]).
  (* the place of the name *)
  match goal with |- sim (match (if ?c then ?a else ?b) with pair _ _ => _ end _) _ _ => set (np := if c then a else b) end.
  assert (Np : exists pp ll, np = (pp, (pp + length name)%nat) /\ here pp (name ++ ll)).
  { unfold np, nl. destruct alias as [al|].
    - destruct (N.eqb_spec (nlen name) 0) as [Z|_]; [exfalso; apply Vn; destruct name; [reflexivity|unfold nlen in Z; cbn in Z; lia]|].
      exists (q + 1 + length key + 1)%nat. eexists. split; [|exact H6]. f_equal. unfold nlen. lia.
    - change (0 =? 0) with true. cbn iota. exists (q + 1)%nat. eexists. split; [|exact H4]. unfold key. reflexivity. }
  destruct Np as (pp & ll & -> & Hpp). cbn iota.
  apply sim_skip. apply sim_skip. rewrite Enl.
  destruct (sels_cons subs (0 :: l)) as (r1 & E1 & _).
  assert (Ha : exists r2, enc_opt_args args ++ sels_end subs (0 :: l) = 0 :: r2).
  { destruct args as [fs|]; [|rewrite E1; cbn; eauto]. unfold enc_opt_args, enc_args. rewrite enc_value_tail. cbn. eauto. }
  destruct Ha as (r2 & E2). rewrite E2 in H6. destruct (dirs_cons ds r2) as (r3 & E3).
  assert (H7 : here (q + 1 + length key + 1 + length nm + 1) r3).
  { eapply (here_adv (nm ++ [0])); [exact H6|rewrite E3; lapp|llen]. }
  replace (N.to_nat (nlen ds)) with (length ds) by (unfold nlen; lia).
  eapply sim_bind; [eapply directives_sim; eauto|]. intros x t [sk cr] s' (-> & p' & -> & Hp). cbn [fst snd] in *.
  destruct (cr || sk) eqn:C.
  { apply sim_bind_lift; [apply frame_put_path|]. intros _ s3. apply sim_seek_to. apply sim_ret. split; [reflexivity|]. eexists _, v. split; [|split; [auto|intros _; split; [exact He|reflexivity]]].
    f_equal. cbn. destruct first; now rewrite app_nil_r. }
  specialize (Hp eq_refl).
  assert (Hc : cur_at (cur_of args subs) p').
  { destruct args as [fs|]; cbn.
    - split; auto. split; auto. exists (0 :: l). unfold enc_opt_args, enc_args in E2. rewrite enc_value_tail in E2. replace (vbody (VObj fs) ++ sels_end subs (0 :: l)) with r2; [exact Hp|]. symmetry. exact (f_equal (@tl N) E2).
    - split; auto. exists (0 :: l), r2. split; [exact E2|exact Hp]. }
  eapply sim_step with (s1 := fr p' (o ++ if first then [] else [44]) v k s').
  { destruct first; cbn; [rewrite app_nil_r|]; reflexivity. }
  apply sim_write. apply sim_write.
  destruct (cur_head _ _ Hc) as (c & rc & Hh & E118 & E101).
  eapply sim_seek; [exact (proj1 Hh)|]. rewrite E101.
  set (o1 := ((o ++ (if first then [] else [44])) ++ [34] ++ key ++ [34]) ++ [58]).
  eapply sim_bind with (R := fun x t y s'' => x = snd y /\ exists p2 v2, t = fr p2 (o1 ++ render fl (fst y)) v2 k s'' /\ (forall j, j <= k -> v2 j = v j)).
  { assert (R0 : forall (b : bool) (tr : rt) (s0 : st) o2, o2 = o1 ++ render fl tr -> sim (ret b (fr p' o2 v k s0)) (bret (tr, b) s0)
        (fun x t y s'' => x = snd y /\ exists p2 v2, t = fr p2 (o1 ++ render fl (fst y)) v2 k s'' /\ (forall j, j <= k -> v2 j = v j))).
    { intros. subst o2. apply sim_ret. split; auto. eexists _, v. split; [reflexivity|auto]. }
    destruct (nlookup (o_fields ob) (fnv1 name)) as [[fo custom idx fn hid]|].
    - apply sim_get_val.
      assert (Hgo : forall (x : rv) s0, sim
         (bind (set_next_val x) (fun _ => bind (RVALUE fuel fo dept (has_sub (cur_of args subs))) (fun crit => bind idx_dec (fun _ => ret crit))) (fr p' o1 v k s0))
         ((if k =? 255 then bnope else b_value X S rawvars opargs fdefs fuel fo dept x (k + 1) (cur_of args subs)) s0)
         (fun x t y s'' => x = snd y /\ exists p2 v2, t = fr p2 (o1 ++ render fl (fst y)) v2 k s'' /\ (forall j, j <= k -> v2 j = v j))).
      { intros x s0. destruct (N.eqb_spec k 255); [exact I|]. assert (k < 255) by lia. apply sim_set_next; auto.
        assert (IH1 := IHv fo dept (k + 1) (cur_of args subs) p' o1 (upd v (k + 1) x) s0 Hc ltac:(lia)). rewrite upd_same in IH1.
        eapply sim_then; [exact IH1|]. intros b t [tr cr1] s3 (-> & p2 & v2 & -> & Hv). cbn [fst snd] in *.
        assert (I1 : sim (bind idx_dec (fun _ => ret cr1) (fr p2 (o1 ++ render fl tr) v2 (k + 1) s3)) (BOk tt s3) (fun x t y s4 => x = cr1 /\ t = fr p2 (o1 ++ render fl tr) v2 k s3)).
        { apply sim_idx_dec; auto. cbn. eauto. }
        destruct I1 as (x1 & t1 & I1 & -> & ->). eexists _, _. split; [exact I1|]. split; [reflexivity|]. eexists _, _. split; [reflexivity|].
        intros j Hj. rewrite Hv by lia. apply upd_other. lia. }
      destruct custom as [cv|].
      + unfold bbind at 1. cbn [bret]. apply Hgo.
      + assert (Hfo : sim (bind (bind (field_of (v k) idx) (fun f => set_next_val f)) (fun _ => bind (RVALUE fuel fo dept (has_sub (cur_of args subs))) (fun crit => bind idx_dec (fun _ => ret crit))) (fr p' o1 v k s'))
           (bbind (lift (field_of (v k) idx)) (fun v0 => if k =? 255 then bnope else b_value X S rawvars opargs fdefs fuel fo dept v0 (k + 1) (cur_of args subs)) s')
           (fun x t y s'' => x = snd y /\ exists p2 v2, t = fr p2 (o1 ++ render fl (fst y)) v2 k s'' /\ (forall j, j <= k -> v2 j = v j))).
        { rewrite bind_bind. apply sim_bind_lift; [apply frame_field_of|]. intros x s3. apply Hgo. }
        destruct fo as [| | | | | |[ty ins inf on en out]| | | |]; try exact Hfo. destruct ty; [|exact Hfo].
        unfold bbind at 1. cbn [bret]. apply Hgo.
    - eapply sim_slice; [exact small|exact (proj1 Hpp)|reflexivity|exact (proj2 Hpp)|].
      destruct (beqb name (bs "__typename")).
      + destruct (has_sub (cur_of args subs)).
        * match goal with |- sim (?m _) (bbind _ ?f _) _ => rewrite <- (bind_ret _ m) end. apply sim_bind_err. intros s3. apply R0. cbn. now rewrite app_nil_r.
        * apply sim_write. apply R0. reflexivity.
      + apply sim_write. match goal with |- sim (?m _) (bbind _ ?f _) _ => rewrite <- (bind_ret _ m) end. apply sim_bind_err. intros s3. apply R0. reflexivity. }
  intros x t [tr cr1] s3 (-> & p2 & v2 & -> & Hv). cbn [fst snd]. apply sim_bind_lift; [apply frame_put_path|]. intros _ s4. apply sim_seek_to.
  apply sim_ret. split; [reflexivity|]. eexists _, _. split; [|split; [exact Hv|intros _; split; [exact He|reflexivity]]].
  f_equal. unfold o1. cbn [fst]. destruct first; cbn [render_sep render_members render_rest]; rewrite ?app_nil_r; lapp.
Qed.

Lemma sim_post : forall A B C (ra : @rout W A) (m : bm B) (f : B -> bm C) s (R : A -> st -> B -> st -> Prop) Q,
  sim ra (m s) R -> (forall x t y s', R x t y s' -> exists y' s'', f y s' = BOk y' s'' /\ Q x t y' s'') -> sim ra (bbind m f s) Q.
Proof.
  intros A B C ra m f s R Q H K. unfold bbind. destruct (m s); cbn in *; auto. destruct H as (x & t & -> & H).
  destruct (K _ _ _ _ H) as (y' & s'' & -> & H1). cbn. eauto.
Qed.
Lemma sim_bbind_assoc : forall A B C D (m : bm A) (f : A -> bm B) (g : B -> bm C) (ra : @rout W D) s Q,
  sim ra (bbind m (fun a => bbind (f a) g) s) Q -> sim ra (bbind (bbind m f) g s) Q.
Proof. intros A B C D m f g ra s Q. unfold bbind. destruct (m s); auto. Qed.
Lemma enum_sim : forall kd g es p o v k (s : st),
  sim (write_enum kd g es (fr p o v k s)) (enum_tree kd g es s) (fun _ t y s' => t = fr p (o ++ render fl y) v k s').
Proof.
  induction es as [|[n e] es IH]; intros; cbn [write_enum enum_tree].
  - cbn. eexists _, _. split; [reflexivity|]. reflexivity.
  - apply sim_bind_lift; [apply frame_same_enum|]. intros [|] s'; auto. cbn. eexists _, _. split; [reflexivity|]. reflexivity.
Qed.
Lemma value_tree_sim : forall g kd p o v k (s : st),
  sim (value_json X g kd (fr p o v k s)) (value_tree g kd s) (fun _ t y s' => t = fr p (o ++ render fl y) v k s').
Proof.
  intros. destruct kd; cbn [value_json value_tree]; try (destruct g); try reflexivity; eexists _, _; (split; [reflexivity|]); cbn [render]; rewrite <- ?uint_int; reflexivity.
Qed.

Lemma value_step : forall fuel, P_sels fuel -> P_value fuel -> P_value (Datatypes.S fuel).
Proof.
  intros fuel IHs IHv ob dept k cur p o v s Hc K. cbn [resolve_value b_value].
  apply sim_get_val. destruct (cur_head _ _ Hc) as (c & rc & Hh & E118 & E101).
  eapply sim_seek; [exact (proj1 Hh)|]. rewrite E118.
  assert (R0 : forall (b : bool) (tr : rt) (s0 : st) q o2 v2, o2 = o ++ render fl tr -> (forall j, j < k -> v2 j = v j) -> sim (ret b (fr q o2 v2 k s0)) (bret (tr, b) s0) (Rvalue o v k)).
  { intros. subst o2. apply sim_ret. split; auto. eexists _, _. split; [reflexivity|auto]. }
  assert (Rn : forall m (s0 : st) q, sim (bind write_null (fun _ => err m) (fr q o v k s0)) (bbind (lift (err m)) (fun b => bret (TNull, b)) s0) (Rvalue o v k)).
  { intros. apply sim_write. match goal with |- sim (?m _) _ _ => rewrite <- (bind_ret _ m) end. apply sim_bind_err. intros s3. apply R0; auto. }
  assert (Rz : forall (s0 : st) q, sim (bind write_null (fun _ => ret false) (fr q o v k s0)) (bret (TNull, false) s0) (Rvalue o v k)).
  { intros. apply sim_write. apply R0; auto. }
  destruct ((match cur with CArgs _ _ => true | _ => false end) && negb (is_method ob) && negb (is_method (behind_ptr ob))) eqn:Ea; [apply Rn|].
  (* objects *)
  assert (Ro : forall t dept1, (match cur with CArgs _ _ => false | _ => true end) = true -> sim
      (bind (write [123]) (fun _ => bind (RSEL fuel t dept1 true) (fun y => let '(_, crit) := y in bind (write [125]) (fun _ => ret crit))) (fr p o v k s))
      (match cur with
       | CSels subs => bbind (b_sels X S rawvars opargs fdefs fuel t dept1 (v k) k subs) (fun y => let '(ms, crit) := y in bret (TObj ms, crit))
       | CLost => match fuel with
                  | O => bnofuel
                  | Datatypes.S _ => bbind (lift (err (bs "unsupported operation u"))) (fun b => bret (TObj [], b))
                  end
       | CArgs _ _ => bpanic
       end s) (Rvalue o v k)).
  { intros t dept1 Hca. apply sim_write. destruct cur as [fs subs|subs|]; [discriminate| |].
    - cbn in Hc. destruct Hc as (Vs & l & r & El & Hr). eapply sim_bind; [eapply IHs; eauto|].
      intros [f1 c1] t1 [ms c2] s2 (Ec & p2 & v2 & -> & Hv & _). cbn [fst snd] in *. subst c2. apply sim_write. apply R0.
      + rewrite render_obj. cbn [render_sep]. lapp.
      + intros. apply Hv. lia.
    - cbn in Hc. destruct Hc as (r & Hr). destruct fuel as [|fuel']; [reflexivity|]. cbn [resolve_sel].
      rewrite bind_bind. eapply sim_read; [exact (proj1 Hr)|].
      change (117 =? 101) with false. change (117 =? 102) with false. change (117 =? 115) with false. cbn iota. rewrite bind_bind.
      apply sim_bind_err. intros s3. eapply sim_step; [reflexivity|]. cbn iota. apply sim_write. apply R0; auto. cbn. lapp. }
  assert (Hca : is_method ob = false -> is_method (behind_ptr ob) = false -> (match cur with CArgs _ _ => false | _ => true end) = true).
  { intros M1 M2. rewrite M1, M2 in Ea. destruct cur; cbn in *; auto. }
  (* interfaces *)
  assert (Ri : forall t, sim
      (match snd (v k) with
       | GIface None => bind write_null (fun _ => ret false)
       | GIface (Some (tn, pkg, g)) =>
           bind (set_next_val (fst (v k), g)) (fun _ =>
           match find (fun i => beqb (fst (fst i)) tn && beqb (snd (fst i)) pkg) (match t with OIface _ _ is => is | _ => [] end) with
           | Some (_, impl) => bind (RVALUE fuel impl ((dept + 1) mod 256) (has_sub cur)) (fun crit => bind idx_dec (fun _ => ret crit))
           | None => bind idx_dec (fun _ => bind write_null (fun _ => ret false))
           end)
       | _ => panic
       end (fr p o v k s))
      (match snd (v k) with
       | GIface None => bret (TNull, false)
       | GIface (Some (tn, pkg, g)) =>
           if k =? 255 then bnope
           else
             match find (fun i => beqb (fst (fst i)) tn && beqb (snd (fst i)) pkg) (match t with OIface _ _ is => is | _ => [] end) with
             | Some (_, impl) => b_value X S rawvars opargs fdefs fuel impl ((dept + 1) mod 256) (fst (v k), g) (k + 1) cur
             | None => bret (TNull, false)
             end
       | _ => bpanic
       end s) (Rvalue o v k)).
  { intros t. destruct (snd (v k)) as [| | | | | | | | | | |[[[tn pkg] g]|]| | | | |]; try reflexivity; [|apply Rz].
    destruct (N.eqb_spec k 255); [exact I|]. assert (Kk : k < 255) by lia. apply sim_set_next; auto.
    destruct (find _ _) as [[? impl]|].
    - assert (IH1 := IHv impl ((dept + 1) mod 256) (k + 1) cur p o (upd v (k + 1) (fst (v k), g)) s Hc ltac:(lia)). rewrite upd_same in IH1.
      eapply sim_then; [exact IH1|]. intros b t1 [tr cr1] s3 (-> & p2 & v2 & -> & Hv). cbn [fst snd] in *.
      assert (I1 : sim (bind idx_dec (fun _ => ret cr1) (fr p2 (o ++ render fl tr) v2 (k + 1) s3)) (BOk tt s3) (fun x t y s4 => x = cr1 /\ t = fr p2 (o ++ render fl tr) v2 k s3)).
      { apply sim_idx_dec; auto. cbn. eauto. }
      destruct I1 as (x1 & t2 & I1 & -> & ->). eexists _, _. split; [exact I1|]. split; [reflexivity|]. eexists _, _. split; [reflexivity|].
      intros j Hj. rewrite Hv by lia. apply upd_other. lia.
    - apply sim_idx_dec; auto. apply sim_write. apply R0; auto. intros. apply upd_other. lia. }
  destruct ob as [|e|name|name fields|isid kd|e|[istype ins infields outnr errnr out]|i| |name|name fields impls].
  - apply Rz.
  - (* array *)
    assert (Rl : forall l, sim
       (bind (write [91]) (fun _ => bind idx_inc (fun _ => bind get_pos (fun start => bind
          ((fix elems (n : N) (l : list gval) : rm unit :=
                   match l with
                   | [] => ret tt
                   | v0 :: r =>
                       bind (seek_to start) (fun _ =>
                       bind get_path (fun path =>
                       bind (put_path (path ++ [44] ++ dec_of_N n)) (fun _ =>
                       bind (set_val (fst (v k), v0)) (fun _ =>
                       bind (RVALUE fuel e dept (has_sub cur)) (fun _ =>
                       bind (match r with [] => ret tt | _ => write [44] end) (fun _ =>
                       bind (put_path path) (fun _ =>
                       elems (n + 1) r)))))))
                   end) 0 l) (fun _ => bind idx_dec (fun _ => bind (write [93]) (fun _ => ret false)))))) (fr p o v k s))
       ((if k =? 255 then bnope
         else
                  bbind ((fix elems (n : N) (l : list gval) : bm (list rt) :=
                           match l with
                           | [] => bret []
                           | v0 :: r =>
                               bbind (lift get_path) (fun path =>
                               bbind (lift (put_path (path ++ [44] ++ dec_of_N n))) (fun _ =>
                               bbind (b_value X S rawvars opargs fdefs fuel e dept (fst (v k), v0) (k + 1) cur) (fun y => let '(t, _) := y in
                               bbind (lift (put_path path)) (fun _ =>
                               bbind (elems (n + 1) r) (fun ts => bret (t :: ts))))))
                           end) 0 l) (fun ts =>
                  bret (TArr ts, false))) s) (Rvalue o v k)).
    { intros l. destruct (N.eqb_spec k 255); [exact I|]. assert (k < 255) by lia. apply sim_write. apply sim_idx_inc; auto. apply sim_get_pos.
      eapply sim_bind with (R := fun _ t ts s' => exists p2 v2, t = fr p2 ((o ++ [91]) ++ render_elems fl ts) v2 (k + 1) s' /\ (forall j, j < k -> v2 j = v j)).
      - match goal with |- sim (?F 0 l _) (?G 0 l _) _ => enough (H1 : forall l n q o1 v1 s1, (forall j, j < k -> v1 j = v j) ->
          sim (F n l (fr q o1 v1 (k + 1) s1)) (G n l s1) (fun _ t ts s' => exists p2 v2, t = fr p2 (o1 ++ render_elems fl ts) v2 (k + 1) s' /\ (forall j, j < k -> v2 j = v j) /\ length ts = length l)) end.
        + eapply sim_weaken; [apply H1; auto|]. cbn. intros x t y s' (p2 & v2 & A & B & _). eauto.
        + clear l. induction l as [|v0 r IH]; intros n1 q o1 v1 s1 Hv1.
          * apply sim_ret. eexists _, _. split; [|split; [exact Hv1|reflexivity]]. cbn. now rewrite app_nil_r.
          * apply sim_seek_to. apply sim_bind_lift; [apply frame_get_path|]. intros path s2. apply sim_bind_lift; [apply frame_put_path|]. intros _ s3.
            apply sim_set_val.
            assert (IH1 := IHv e dept (k + 1) cur p o1 (upd v1 (k + 1) (fst (v k), v0)) s3 Hc ltac:(lia)). rewrite upd_same in IH1.
            eapply sim_bind; [exact IH1|]. intros x t [tr cr] s4 (_ & p2 & v2 & -> & Hv2). cbn [fst].
            assert (Hv3 : forall j, j < k -> v2 j = v j) by (intros j Hj; rewrite Hv2, upd_other by lia; auto).
            destruct r as [|v9 r].
            { eapply sim_step; [reflexivity|]. apply sim_bind_lift; [apply frame_put_path|]. intros _ s5.
              eexists _, _. split; [reflexivity|]. exists p2, v2. auto. }
            { apply sim_write. apply sim_bind_lift; [apply frame_put_path|]. intros _ s5.
              eapply sim_post; [exact (IH (n1 + 1) p2 _ v2 s5 Hv3)|]. intros x1 t ts s6 (p3 & v3 & -> & Hv4 & Ht). eexists _, _. split; [reflexivity|]. exists p3, v3.
              split; [|split; [exact Hv4|cbn in *; lia]]. destruct ts as [|t0 ts]; [discriminate|].
              f_equal. cbn [render_elems]. rewrite <- !app_assoc. reflexivity. }
      - intros x t ts s' (p2 & v2 & -> & Hv). apply sim_idx_dec; auto. apply sim_write. apply R0; auto. rewrite render_arr. lapp. }
    destruct (snd (v k)) as [| | | | |[l|]|l| | | | | | | | | |]; try reflexivity; [apply Rl|apply Rz|apply Rl].
  - destruct (has_sub cur) eqn:Hs; cbn [negb]; [|apply Rn]. destruct (slookup (s_types S) name) as [t|]; [|apply Rz].
    destruct ((dept + 1) mod 256 =? s_maxdepth S); [apply Rn|]. apply Ro. auto.
  - destruct (has_sub cur) eqn:Hs; cbn [negb]; [|apply Rn].
    destruct ((dept + 1) mod 256 =? s_maxdepth S); [apply Rn|]. apply Ro. auto.
  - destruct (has_sub cur); [apply Rn|].
    destruct (isid && negb _).
    + apply sim_write. eapply sim_bind; [apply value_tree_sim|]. intros x t tr s1 ->. apply sim_write. apply R0; auto. cbn [render]. lapp.
    + eapply sim_bind; [apply value_tree_sim|]. intros x t tr s1 ->. apply R0; auto.
  - destruct (snd (v k)) as [| | | | | | |[g|]| | | | | | | | |] eqn:Eg; try reflexivity; [|apply Rz].
    apply sim_set_val.
    assert (IH1 := IHv e dept k cur p o (upd v k (fst (v k), g)) s Hc K). rewrite upd_same in IH1.
    eapply sim_weaken; [exact IH1|]. intros x t y s' (-> & p2 & v2 & -> & Hv). split; auto. eexists _, _. split; [reflexivity|].
    intros j Hj. rewrite Hv by auto. apply upd_other. lia.
  - (* method *)
    assert (Rm : sim
      (bind (bind_args X S res rawvars hasargs argsat fuel ins infields (match cur with CArgs _ _ => true | _ => false end)) (fun y => let '(args, crit) := y in
                if crit : bool then ret true
                else
                  if fst (v k) then panic
                  else
                    bind get_world (fun w =>
                    bind get_path (fun p =>
                    bind (of_opt (x_call X w (snd (v k)) args p)) (fun y => let '(w, outs) := y in
                    bind (put_world w) (fun _ =>
                    bind (seek res) (fun c =>
                    let has_sel := negb (c =? 101) in
                    bind (match errnr with
                     | None => ret tt
                     | Some n =>
                         bind (of_opt (nth_error outs n)) (fun e =>
                         match e with
                         | GErr None => ret tt
                         | GErr (Some m) => bind (err m) (fun _ => ret tt)
                         | _ => panic
                         end)
                     end) (fun _ =>
                    match x_ctxerr X w with
                    | Some m => bind (err m) (fun _ => bind write_null (fun _ => ret false))
                    | None =>
                        bind (of_opt (nth_error outs outnr)) (fun v =>
                        bind (set_val (false, v)) (fun _ =>
                        RVALUE fuel out dept has_sel))
                    end))))))) (fr p o v k s))
      (bbind (b_args X S rawvars opargs fuel ins infields (match cur with CArgs fs _ => Some fs | _ => None end)) (fun y => let '(av, crit, cut) := y in
                if crit : bool then bret (THole, true)
                else
                  let cur := match cur with CArgs _ subs => after_args cut subs | _ => cur end in
                  if fst (v k) then bpanic
                  else
                    bbind (lift get_world) (fun w =>
                    bbind (lift get_path) (fun p =>
                    bbind (lift (of_opt (x_call X w (snd (v k)) av p))) (fun y => let '(w, outs) := y in
                    bbind (lift (put_world w)) (fun _ =>
                    bbind (match errnr with
                     | None => bret tt
                     | Some n =>
                         bbind (lift (of_opt (nth_error outs n))) (fun e =>
                         match e with
                         | GErr None => bret tt
                         | GErr (Some m) => bbind (lift (err m)) (fun _ => bret tt)
                         | _ => bpanic
                         end)
                     end) (fun _ =>
                    match x_ctxerr X w with
                    | Some m => bbind (lift (err m)) (fun _ => bret (TNull, false))
                    | None =>
                        bbind (lift (of_opt (nth_error outs outnr))) (fun v =>
                        b_value X S rawvars opargs fdefs fuel out dept (false, v) k cur)
                    end)))))) s) (Rvalue o v k)).
    { eapply sim_bind with (R := fun x t y s' => x = fst y /\ exists p', t = fr p' o v k s' /\
         (snd x = false -> cur_at (match cur with CArgs _ subs => after_args (snd y) subs | _ => cur end) p')).
      - destruct cur as [fs subs|subs|].
        + cbn in Hc. destruct Hc as (Va & Vs & l & Hl). destruct (sels_cons subs l) as (r & Er & _). rewrite Er in Hl.
          eapply sim_weaken; [eapply args_sim; eauto|]. intros x t [[av cr] cut] s' (-> & p' & -> & Hp). split; auto. eexists. split; [reflexivity|].
          intros Cr. specialize (Hp Cr). cbn [fst snd] in *. destruct cut as [[|[k1 v1] ms]|]; cbn [after_args].
          * cbn in Hp. inversion Hp as [Hp1]. cbn. split; auto. exists (0 :: r), (101 :: 0 :: r). split; [reflexivity|]. apply here_intro; auto. discriminate.
          * cbn in Hp. inversion Hp as [Hp1]. cbn. eexists. apply here_intro; [exact Hp1|discriminate].
          * cbn. split; auto. eauto.
        + apply sim_ret. split; auto. eexists. split; [reflexivity|]. intros _. exact Hc.
        + apply sim_ret. split; auto. eexists. split; [reflexivity|]. intros _. exact Hc.
      - intros x t [[av cr] cut] s1 (-> & p1 & -> & Hp). cbn [fst snd] in *. destruct cr; [apply R0; auto; cbn; now rewrite app_nil_r|].
        specialize (Hp eq_refl). set (cur1 := match cur with CArgs _ subs => after_args cut subs | _ => cur end) in *.
        cbn zeta. destruct (fst (v k)); [reflexivity|].
        apply sim_bind_lift; [apply frame_get_world|]. intros w s2. apply sim_bind_lift; [apply frame_get_path|]. intros pa s3.
        apply sim_bind_lift; [apply frame_of_opt|]. intros [w1 outs] s4. apply sim_bind_lift; [apply frame_put_world|]. intros _ s5.
        destruct (cur_head _ _ Hp) as (c1 & rc1 & Hh1 & _ & E1). eapply sim_seek; [exact (proj1 Hh1)|]. rewrite E1.
        eapply sim_bind with (R := fun _ t _ s' => t = fr p1 o v k s').
        { destruct errnr as [en|]; [|apply sim_ret; reflexivity]. apply sim_bind_lift; [apply frame_of_opt|]. intros e s6.
          destruct e as [| | | | | | | | | | | | | |[m|]| |]; try reflexivity; [apply sim_bind_err; intros|]; apply sim_ret; reflexivity. }
        intros _ t _ s6 ->. destruct (x_ctxerr X w1) as [m|].
        + apply sim_bind_err. intros s7. apply Rz.
        + apply sim_bind_lift; [apply frame_of_opt|]. intros x s7. apply sim_set_val.
          assert (IH1 := IHv out dept k cur1 p1 o (upd v k (false, x)) s7 Hp K). rewrite upd_same in IH1.
          eapply sim_weaken; [exact IH1|]. intros x1 t y s' (-> & p2 & v2 & -> & Hv). split; auto. eexists _, _. split; [reflexivity|].
          intros j Hj. rewrite Hv by auto. apply upd_other. lia. }
    destruct istype, (snd (v k)) as [| | | | | | | | | | | |[f|]| | | |] eqn:Eg; try reflexivity; try apply Rz; exact Rm.
  - apply sim_bind_lift; [apply frame_of_opt|]. intros e s1. eapply sim_bind; [apply enum_sim|]. intros x t tr s2 ->. apply R0; auto.
  - destruct (fst (v k)); [reflexivity|]. destruct (snd (v k)); try apply Rz. apply sim_write. apply R0; auto.
  - destruct (has_sub cur) eqn:Hs; cbn [negb]; [|apply Rn]. destruct (slookup (s_ifaces S) name) as [t|]; [exact (Ri t)|apply Rz].
  - destruct (has_sub cur) eqn:Hs; cbn [negb]; [|apply Rn]. exact (Ri (OIface name fields impls)).
Qed.

Theorem run_sim : forall fuel, P_sels fuel /\ P_inline fuel /\ P_spread fuel /\ P_field fuel /\ P_value fuel.
Proof.
  induction fuel as [|fuel (A & B & C & D & E)].
  - repeat split; repeat intro; reflexivity.
  - split; [now apply sels_step|]. split; [now apply inline_step|]. split; [now apply spread_step|]. split; [now apply field_step|]. now apply value_step.
Qed.
End Run.
