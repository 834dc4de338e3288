(** * The bytecode interpreter and the reference interpreter: relation, positions, arguments (proofs) *)
From Coq Require Import String Arith NArith ZArith Bool List Lia ZifyBool ZifyN ZifyNat.
From Verif Require Import Base JsonModel Ast ReqModel Schema ResModel Interp ResFrame.
Import ListNotations.
Open Scope N_scope.

(** ** Texts without zero bytes, and documents made of them *)
Definition clean (n : bytes) : Prop := Forall (fun c => c <> 0) n.
Fixpoint ok_value (v : value) : Prop :=
  match v with
  | VVar n | VInt n | VFloat n | VStr n | VEnum n => clean n
  | VBool _ | VNull => True
  | VList vs => (fix f l := match l with [] => True | x :: r => ok_value x /\ f r end) vs
  | VObj fs => (fix f l := match l with [] => True | (k, x) :: r => clean k /\ ok_value x /\ f r end) fs
  end.
Fixpoint ok_args (fs : list (bytes * value)) : Prop :=
  match fs with [] => True | (k, x) :: r => clean k /\ ok_value x /\ ok_args r end.
Fixpoint ok_type (t : tyref) : Prop := match t with TyName n _ => clean n | TyList t _ => ok_type t end.
Definition ok_oparg (a : oparg) : Prop :=
  clean (oa_name a) /\ ok_type (oa_type a) /\ match oa_default a with None => True | Some v => ok_value v end.

Lemma ok_obj : forall fs, ok_value (VObj fs) -> ok_args fs.
Proof. induction fs as [|[k x] r IH]; cbn; auto; intros (A & B & C); auto. Qed.
Lemma clean_app : forall a b, clean a -> clean b -> clean (a ++ b).
Proof. intros. apply Forall_app; auto. Qed.

(** the bytes of a value behind its leading zero *)
Definition vtail (kind : N) (body : bytes) : bytes := 118 :: kind :: le32 (nlen body) ++ body.
Definition vkind (v : value) : N :=
  match v with
  | VVar _ => 36 | VInt _ => 105 | VFloat _ => 102 | VStr _ => 115 | VBool _ => 98 | VNull => 110 | VEnum _ => 101
  | VList _ => 108 | VObj _ => 111
  end.
Definition enc_members (fs : list (bytes * value)) : bytes := flat_map (fun nv => [0; 117] ++ fst nv ++ enc_value (snd nv)) fs.
Definition vpay (v : value) : bytes :=
  match v with
  | VVar n | VInt n | VFloat n | VStr n | VEnum n => n
  | VBool b => [if b then 49 else 48]
  | VNull => []
  | VList vs => flat_map enc_value vs ++ [0; 101]
  | VObj fs => enc_members fs ++ [0; 101]
  end.
Lemma enc_value_tail : forall v, enc_value v = 0 :: vtail (vkind v) (vpay v).
Proof. intros []; reflexivity. Qed.
Definition vbody (v : value) : bytes := vtail (vkind v) (vpay v).

Arguments vbody : simpl never.
Lemma app_cons1 : forall A (a : A) l, a :: l = [a] ++ l.
Proof. reflexivity. Qed.

Lemma skipn_nth : forall A (l : list A) p c r, skipn p l = c :: r -> nth_error l p = Some c.
Proof.
  intros A l. induction l as [|x l IH]; intros [|p] c r H; cbn in *; try discriminate.
  - inversion H. reflexivity.
  - eauto.
Qed.
Lemma skipn_plus : forall A (l : list A) p n, skipn (p + n) l = skipn n (skipn p l).
Proof. intros A l p. revert l. induction p; intros; cbn [Nat.add]; [reflexivity|]. destruct l; cbn [skipn]; [now rewrite skipn_nil|auto]. Qed.
Lemma skipn_next : forall A (l : list A) p n a b, skipn p l = a ++ b -> length a = n -> skipn (p + n) l = b.
Proof.
  intros A l p n a b H L. rewrite skipn_plus, H, skipn_app, skipn_all2 by lia.
  rewrite L, Nat.sub_diag. reflexivity.
Qed.
(** moving on behind [a] *)
Lemma adv : forall A (l : list A) a p q b c, skipn p l = c -> c = a ++ b -> (q = p + length a)%nat -> skipn q l = b.
Proof. intros. subst. eapply skipn_next; eauto. Qed.
Lemma skipn_len : forall A (l : list A) p r, skipn p l = r -> (length r <= length l)%nat.
Proof. intros. subst. rewrite skipn_length. lia. Qed.
Lemma skipn_len' : forall A (l : list A) p r, skipn p l = r -> r <> [] -> (length l = p + length r)%nat.
Proof.
  intros. subst. rewrite skipn_length. destruct (le_lt_dec (length l) p); [|lia].
  rewrite skipn_all2 in H0 by lia. congruence.
Qed.

Lemma le32_read : forall n, n < 4294967296 ->
  n mod 256 + 256 * ((n / 256) mod 256) + 65536 * ((n / 65536) mod 256) + 16777216 * ((n / 16777216) mod 256) = n.
Proof.
  intros. change 65536 with (256 * 256). change 16777216 with (256 * 256 * 256). rewrite <- !N.div_div by lia.
  pose proof (N.div_mod n 256 ltac:(lia)). pose proof (N.div_mod (n / 256) 256 ltac:(lia)).
  pose proof (N.div_mod (n / 256 / 256) 256 ltac:(lia)). pose proof (N.div_mod (n / 256 / 256 / 256) 256 ltac:(lia)).
  assert (n / 256 / 256 / 256 / 256 = 0).
  { rewrite !N.div_div by lia. apply N.div_small. lia. }
  lia.
Qed.

Section Sim.
Context {W : Type}.
Variable X : externals W.
Variable S : schema.
Variable res : bytes.
Variable frags : list nat.
Variable rawvars : bytes.
Variable hasargs : bool.
Variable argsat : nat.
Variable opargs : option (list oparg).
Hypothesis small : N.of_nat (length res) < 4294967296.
Notation st := (rst W).

(** ** The relation between the results of the two interpreters *)
Definition sim {A B} (ra : @rout W A) (rb : @bout W B) (R : A -> st -> B -> st -> Prop) : Prop :=
  match rb with
  | BOk y s' => exists x t, ra = ROk x t /\ R x t y s'
  | BPanic => ra = RPanic
  | BNoFuel => ra = RNoFuel
  | BOut => True
  end.
Lemma sim_weaken : forall A B (ra : rout A) (rb : bout B) (R Q : A -> st -> B -> st -> Prop),
  sim ra rb R -> (forall x t y s', R x t y s' -> Q x t y s') -> sim ra rb Q.
Proof. intros A B ra rb R Q H K. destruct rb; cbn in *; auto. destruct H as (x & t & E & H). eauto. Qed.
Lemma sim_bind : forall A B A' B' (m : rm A) (f : A -> rm A') (m' : bm B) (f' : B -> bm B') s0 s R Q,
  sim (m s0) (m' s) R -> (forall x t y s', R x t y s' -> sim (f x t) (f' y s') Q) ->
  sim (bind m f s0) (bbind m' f' s) Q.
Proof.
  intros. unfold bind, bbind. destruct (m' s) as [y s'| | |]; cbn in H; try (rewrite H; reflexivity); cbn; auto.
  destruct H as (x & t & E & H). rewrite E. now apply H0.
Qed.
Lemma sim_lift : forall A (m : rm A) p o v k (s : st), frame m ->
  sim (m (fr p o v k s)) (lift m s) (fun x t y s' => x = y /\ t = fr p o v k s').
Proof. intros. unfold lift. rewrite H. destruct (m s); cbn; eauto. Qed.
Lemma sim_ret : forall A B (x : A) t (y : B) s (R : A -> st -> B -> st -> Prop), R x t y s -> sim (ret x t) (bret y s) R.
Proof. intros. cbn. eauto. Qed.
Lemma sim_bind_lift : forall A A' B' (m : rm A) (f : A -> rm A') (f' : A -> bm B') p o v k (s : st) Q,
  frame m -> (forall x s', sim (f x (fr p o v k s')) (f' x s') Q) ->
  sim (bind m f (fr p o v k s)) (bbind (lift m) f' s) Q.
Proof. intros. eapply sim_bind; [now apply sim_lift|]. intros x t y s' [-> ->]. auto. Qed.

Lemma sim_then : forall A A' B (m : rm A) (f : A -> rm A') (rb : bout B) s0 R Q,
  sim (m s0) rb R -> (forall x t y s', R x t y s' -> exists x' t', f x t = ROk x' t' /\ Q x' t' y s') -> sim (bind m f s0) rb Q.
Proof.
  intros. unfold bind. destruct rb as [y s'| | |]; cbn in *; try (rewrite H; reflexivity); auto.
  destruct H as (x & t & -> & H). auto.
Qed.

Lemma sim_bind_err : forall A' B' msg (f : bool -> rm A') (f' : bool -> bm B') p o v k (s : st) Q,
  (forall s', sim (f true (fr p o v k s')) (f' true s') Q) ->
  sim (bind (err msg) f (fr p o v k s)) (bbind (lift (err msg)) f' s) Q.
Proof. intros. exact (H _). Qed.

(** ** Reading *)
Lemma read_at : forall p o v k (s : st) c l, skipn p res = c :: l -> read res (fr p o v k s) = ROk c (fr (p + 1) o v k s).
Proof. intros. unfold read. cbn [fr r_pos]. now rewrite (skipn_nth _ _ _ _ _ H). Qed.
Lemma seek_at : forall p o v k (s : st) c l, skipn p res = c :: l -> seek res (fr p o v k s) = ROk c (fr p o v k s).
Proof. intros. unfold seek. cbn [fr r_pos]. now rewrite (skipn_nth _ _ _ _ _ H). Qed.
Lemma until0_clean : forall n l, clean n -> until0 (n ++ 0 :: l) = Some n.
Proof.
  induction n as [|c n IH]; intros l H; [reflexivity|]. inversion H; subst. cbn [app until0].
  destruct (N.eqb_spec c 0); [contradiction|]. now rewrite IH.
Qed.
Lemma read_name_at : forall p o v k (s : st) n l, clean n -> skipn p res = n ++ 0 :: l ->
  read_name res (fr p o v k s) = ROk n (fr (p + length n + 1) o v k s).
Proof. intros. unfold read_name. cbn [fr r_pos]. rewrite H0, until0_clean by auto. reflexivity. Qed.
Lemma u32_at : forall p q n l (s : st), skipn p res = le32 n ++ l -> n < 4294967296 -> q = p -> u32 res q s = ROk n s.
Proof. intros. subst q. unfold u32. rewrite H. unfold le32. cbn [app]. rewrite le32_read by auto. reflexivity. Qed.
Lemma nlen_small : forall A (a : list A) p l (x : bytes), skipn p res = x ++ l -> (length a <= length x)%nat -> nlen a < 4294967296.
Proof. intros. apply skipn_len in H. rewrite app_length in H. unfold nlen. lia. Qed.
Lemma slice_at : forall a b x l, skipn a res = x ++ l -> (b = a + length x)%nat -> (a <= length res)%nat ->
  slice (W := W) res a b = ret x.
Proof.
  intros. unfold slice. pose proof (f_equal (@length N) H) as E. rewrite skipn_length, app_length in E.
  replace ((b <=? length res)%nat && (a <=? b)%nat) with true by lia.
  replace (b - a)%nat with (length x) by lia. rewrite H, firstn_app, firstn_all, Nat.sub_diag. cbn. now rewrite app_nil_r.
Qed.

Ltac lapp := repeat (progress (rewrite <- ?app_assoc; cbn [app])); reflexivity.
Ltac llen := repeat (rewrite ?app_length, ?le32_length; cbn [length app]); lia.
Ltac go_on a H := eapply (adv _ _ a); [exact H | lapp | llen].
(** one-sided steps *)
Lemma sim_read : forall A B (f : N -> rm A) p o v k (s : st) (b : bout B) Q c l,
  skipn p res = c :: l -> sim (f c (fr (p + 1) o v k s)) b Q -> sim (bind (read res) f (fr p o v k s)) b Q.
Proof. intros. unfold bind. now rewrite (read_at _ _ _ _ _ _ _ H). Qed.
Lemma sim_seek : forall A B (f : N -> rm A) p o v k (s : st) (b : bout B) Q c l,
  skipn p res = c :: l -> sim (f c (fr p o v k s)) b Q -> sim (bind (seek res) f (fr p o v k s)) b Q.
Proof. intros. unfold bind. now rewrite (seek_at _ _ _ _ _ _ _ H). Qed.
Lemma sim_step : forall A A' B (m : rm A) (f : A -> rm A') s0 s1 a (b : bout B) Q,
  m s0 = ROk a s1 -> sim (f a s1) b Q -> sim (bind m f s0) b Q.
Proof. intros. unfold bind. now rewrite H. Qed.
Lemma read_ret : forall A (f : N -> A) p o v k (s : st) c l,
  skipn p res = c :: l -> bind (read res) (fun d => ret (f d)) (fr p o v k s) = ROk (f c) (fr (p + 1) o v k s).
Proof. intros. unfold bind. now rewrite (read_at _ _ _ _ _ _ _ H). Qed.
Lemma sim_skip : forall A B (f : unit -> rm A) n p o v k (s : st) (b : bout B) Q,
  sim (f tt (fr (p + n) o v k s)) b Q -> sim (bind (skip n) f (fr p o v k s)) b Q.
Proof. intros. exact H. Qed.
Lemma sim_seek_to : forall A B (f : unit -> rm A) n p o v k (s : st) (b : bout B) Q,
  sim (f tt (fr n o v k s)) b Q -> sim (bind (seek_to n) f (fr p o v k s)) b Q.
Proof. intros. exact H. Qed.
Lemma sim_get_pos : forall A B (f : nat -> rm A) p o v k (s : st) (b : bout B) Q,
  sim (f p (fr p o v k s)) b Q -> sim (bind get_pos f (fr p o v k s)) b Q.
Proof. intros. exact H. Qed.
Lemma sim_name : forall A B (f : bytes -> rm A) p o v k (s : st) (b : bout B) Q n l,
  clean n -> skipn p res = n ++ 0 :: l -> sim (f n (fr (p + length n + 1) o v k s)) b Q ->
  sim (bind (read_name res) f (fr p o v k s)) b Q.
Proof. intros. unfold bind. now rewrite (read_name_at _ _ _ _ _ _ _ H H0). Qed.
Lemma sim_u32 : forall A B (f : N -> rm A) p q o v k s (b : bout B) Q n l,
  skipn q res = le32 n ++ l -> n < 4294967296 -> sim (f n (fr p o v k s)) b Q ->
  sim (bind (u32 res q) f (fr p o v k s)) b Q.
Proof. intros. unfold bind. now rewrite (u32_at q q n l) by auto. Qed.
Lemma sim_slice : forall A B (f : bytes -> rm A) (s : st) a e (b : bout B) Q x l,
  skipn a res = x ++ l -> (e = a + length x)%nat -> (a <= length res)%nat -> sim (f x s) b Q ->
  sim (bind (slice res a e) f s) b Q.
Proof. intros. rewrite (slice_at a e x l) by auto. exact H2. Qed.
Lemma sim_write : forall A B (f : unit -> rm A) p o v k (s : st) (b : bout B) Q w,
  sim (f tt (fr p (o ++ w) v k s)) b Q -> sim (bind (write w) f (fr p o v k s)) b Q.
Proof. intros. exact H. Qed.

(** ** Arguments *)
Definition vend (i : input) (v : value) (p : nat) : nat :=
  match v with
  | VList _ => p + length (vbody v) - 1
  | VNull => if is_ptr i then p + length (vbody v) else p + length (vbody v) + 1
  | _ => p + length (vbody v) + 1
  end.
(** same result, state [fr p' ...], and [p'] is the place behind the value unless there was a critical error *)
Definition Rval (i : input) (v : value) (p : nat) o vs k : bres -> st -> bres -> st -> Prop :=
  fun x t y s' => x = y /\ exists p', t = fr p' o vs k s' /\ (snd x = false -> p' = vend i v p).
Definition Rany {A} o vs k : A -> st -> A -> st -> Prop :=
  fun x t y s' => x = y /\ exists p', t = fr p' o vs k s'.

Lemma sim_fail : forall g m i v p p' o vs k (s : st), sim (fail g m (fr p' o vs k s)) (lift (fail g m) s) (Rval i v p o vs k).
Proof. intros. cbn. do 2 eexists. split; [reflexivity|]. split; [reflexivity|]. eexists. split; [reflexivity|]. discriminate. Qed.
Lemma sim_frame_val : forall (m : rm bres) i v p p' o vs k (s : st), frame m -> p' = vend i v p ->
  sim (m (fr p' o vs k s)) (lift m s) (Rval i v p o vs k).
Proof.
  intros. eapply sim_weaken; [now apply sim_lift|]. cbn. intros x t y s' [-> ->]. split; auto. eexists. split; [reflexivity|auto].
Qed.
Lemma sim_frame_any : forall A (m : rm A) p o vs k (s : st), frame m -> sim (m (fr p o vs k s)) (lift m s) (Rany o vs k).
Proof. intros. eapply sim_weaken; [now apply sim_lift|]. cbn. intros x t y s' [-> ->]. split; auto. eexists. reflexivity. Qed.
Lemma sim_ptr : forall g i f f' m m' p o vs k (s : st) v,
  (is_ptr i = true -> forall e g s, sim (f g e (fr p o vs k s)) (f' g e s) (fun x t y s' => x = y /\ exists p', t = fr p' o vs k s' /\ (snd x = false -> p' = vend i v p))) ->
  (is_ptr i = false -> sim (m (fr p o vs k s)) (m' s) (Rval i v p o vs k)) ->
  sim (through_ptr g i f m (fr p o vs k s)) (b_ptr g i f' m' s) (Rval i v p o vs k).
Proof.
  intros g i f f' m m' p o vs k s v Hp Hn. unfold through_ptr, b_ptr, is_ptr in *.
  destruct (i_kind i); auto. destruct (i_isfile i); auto. cbn in Hp.
  apply sim_bind_lift; [apply frame_of_opt|]. intros e s1.
  eapply sim_bind; [apply Hp; auto|]. intros x t y s' (-> & p' & -> & E). destruct y as [[v1 st1] cr]. cbn in E.
  destruct cr; [apply sim_ret; split; auto; eexists; split; [reflexivity|discriminate]|].
  rewrite (E eq_refl). destruct st1.
  - apply sim_bind_lift; [apply frame_set_any|]. intros. apply sim_ret. split; auto. eexists. split; [reflexivity|auto].
  - apply sim_ret. split; auto. eexists. split; [reflexivity|auto].
Qed.

(** the declared arguments of the operation *)
Hypothesis opargs_at : match opargs with
  | None => hasargs = false
  | Some l => hasargs = true /\ Forall ok_oparg l /\
              exists rest, skipn argsat res = 65 :: flat_map enc_oparg l ++ [0; 101] ++ 0 :: rest
  end.

(** what follows the name of a declared argument *)
Definition oparg_rest (a : oparg) (l : bytes) : bytes :=
  enc_type (oa_type a) ++ [0] ++ match oa_default a with None => [102] | Some v => 116 :: enc_value v end ++ 0 :: l.

Lemma enc_oparg_eq : forall a l, enc_oparg a ++ 0 :: l =
  0 :: 97 :: le32 (nlen (oa_name a ++ [0] ++ enc_type (oa_type a) ++ [0]
              ++ match oa_default a with None => [102] | Some v => 116 :: enc_value v end) + 5) ++ oa_name a ++ 0 :: oparg_rest a l.
Proof.
  intros. unfold enc_oparg, oparg_rest. cbn [app]. do 2 f_equal. rewrite <- !app_assoc. f_equal. f_equal. cbn [app]. f_equal.
  rewrite <- !app_assoc. reflexivity.
Qed.
Lemma tail_cons : forall (l : list oparg) rest, exists r, flat_map enc_oparg l ++ [0; 101] ++ rest = 0 :: r.
Proof. intros [|a l] rest; cbn [flat_map app]; eauto. unfold enc_oparg. cbn [app]. eauto. Qed.

Lemma find_sim : forall l fuel name p o vs k (s : st) rest,
  Forall ok_oparg l -> 0 :: skipn p res = flat_map enc_oparg l ++ [0; 101] ++ 0 :: rest ->
  sim (find_arg_loop res fuel name (fr p o vs k s)) (b_find fuel name l s)
    (fun x t y s' => s' = s /\ exists p', t = fr p' o vs k s /\
       match y with
       | Some a => x = true /\ In a l /\ exists r, skipn p' res = oparg_rest a r
       | None => x = false
       end).
Proof.
  induction l as [|a l IH]; intros fuel name p o vs k s rest F E; destruct fuel as [|fuel]; try reflexivity.
  - cbn [flat_map app] in E. inversion E as [E1]. cbn [find_arg_loop b_find].
    apply sim_get_pos. eapply sim_read; [exact E1|]. cbn. eexists _, _. split; [reflexivity|]. split; auto. eexists. split; reflexivity.
  - inversion F as [|? ? Ha Fl]; subst. destruct Ha as (Hn & Ht & Hd). cbn [flat_map] in E. rewrite <- app_assoc in E.
    destruct (tail_cons l (0 :: rest)) as (r & Er). rewrite Er in E. rewrite enc_oparg_eq in E.
    set (len := nlen (oa_name a ++ [0] ++ enc_type (oa_type a) ++ [0] ++ match oa_default a with None => [102] | Some v => 116 :: enc_value v end) + 5) in *.
    inversion E as [E1]. cbn [find_arg_loop b_find]. apply sim_get_pos. eapply sim_read; [exact E1|].
    change (97 =? 101) with false. cbn iota. apply sim_get_pos.
    assert (E2 : skipn (p + 1) res = le32 len ++ oa_name a ++ 0 :: oparg_rest a r) by go_on [97] E1.
    eapply sim_u32; [exact E2| |].
    { apply skipn_len in E1. unfold len, nlen, oparg_rest in *. repeat (rewrite ?app_length, ?le32_length in *; cbn [length] in *). lia. }
    apply sim_skip.
    assert (E3 : skipn (p + 1 + 4) res = oa_name a ++ 0 :: oparg_rest a r) by go_on (le32 len) E2.
    eapply sim_name; [exact Hn|exact E3|].
    destruct (beqb (oa_name a) name).
    + cbn. eexists _, _. split; [reflexivity|]. split; auto. eexists. split; [reflexivity|]. split; auto. split; [now left|].
      exists r. go_on (oa_name a ++ [0]) E3.
    + apply sim_seek_to. eapply sim_weaken; [apply IH with (rest := rest); auto|].
      * rewrite Er. f_equal.
        eapply (adv _ _ (oa_name a ++ 0 :: enc_type (oa_type a) ++ [0] ++ match oa_default a with None => [102] | Some v => 116 :: enc_value v end ++ [0])); [exact E3| |].
        { unfold oparg_rest. lapp. }
        unfold len, nlen. repeat (rewrite ?app_length; cbn [length app]). lia.
      * cbn. intros x t y s' (-> & p' & -> & H). split; auto. exists p'. split; auto. destruct y; auto. destruct H as (? & ? & ?). auto.
Qed.


Lemma marks_sim : forall t fuel i name p o vs k (s : st) l,
  ok_type t -> skipn p res = tl (enc_type t) ++ 0 :: l ->
  sim (list_marks res fuel i (hd 0 (enc_type t)) name (fr p o vs k s)) (b_marks fuel i t name s)
    (fun x t' y s' => exists p', t' = fr p' o vs k s' /\ fst x = fst y /\
       (fst y <> None -> (snd x =? 110) || (snd x =? 78) = true /\ clean (snd y) /\ skipn p' res = snd y ++ 0 :: l)).
Proof.
  induction t as [n nn|t IH nn]; intros fuel i name p o vs k s l T E; cbn [enc_type hd tl] in *.
  - destruct fuel, nn; cbn [list_marks b_marks]; cbn; eexists _, _; (split; [reflexivity|]); eexists; (split; [reflexivity|]); auto.
  - assert (Hc : ((if nn : bool then 76 else 108) =? 76) || ((if nn then 76 else 108) =? 108) = true) by now destruct nn.
    destruct fuel as [|fuel]; cbn [list_marks b_marks]; rewrite Hc; [reflexivity|].
    destruct (i_kind i); try (cbn; eexists _, _; split; [reflexivity|]; eexists; split; [reflexivity|]; split; auto; intros HH; now destruct HH).
    apply sim_bind_lift; [apply frame_of_opt|]. intros e s1.
    assert (Hd : enc_type t = hd 0 (enc_type t) :: tl (enc_type t)) by (destruct t; reflexivity).
    rewrite Hd in E. cbn [app] in E. eapply sim_read; [exact E|]. apply IH; auto. go_on [hd 0 (enc_type t)] E.
Qed.

(** ** Members of an object *)
Lemma members_cons : forall ms l, exists r, enc_members ms ++ [0; 101] ++ 0 :: l = 0 :: r.
Proof. intros [|[k v] ms] l; cbn; eauto. Qed.
(** the place before the next member: behind its leading zero, or (after null for a pointer) at it *)
Definition at_members (ms : list (bytes * value)) (p : nat) (l : bytes) : Prop :=
  0 :: skipn p res = enc_members ms ++ [0; 101] ++ 0 :: l \/ skipn p res = enc_members ms ++ [0; 101] ++ 0 :: l.

Section Walk.
Context {A : Type}.
Variable onkey : A -> bytes -> @rm W (A * bool).
Variable bonkey : A -> bytes -> value -> @bm W (A * bool).
Variables (o : bytes) (vs : N -> rv) (k : N).
Hypothesis step : forall a key v p (s : st) l, clean key -> ok_value v -> skipn p res = vbody v ++ 0 :: l ->
  sim (onkey a key (fr p o vs k s)) (bonkey a key v s)
    (fun x t y s' => x = y /\ exists p', t = fr p' o vs k s' /\
       (snd x = false -> p' = (if is_list v then p + length (vbody v) - 1 else p + length (vbody v) + 1)%nat \/
                         (v = VNull /\ p' = p + length (vbody v))%nat)).
Lemma walk_sim : forall ms fuel a p (s : st) l, ok_args ms -> at_members ms p l ->
  sim (walk_object res fuel onkey a (fr p o vs k s)) (b_walk fuel bonkey ms a s)
    (fun x t y s' => x = fst y /\ exists p', t = fr p' o vs k s' /\
       (snd x = false -> match snd y with
                         | None => skipn p' res = l /\ (p' <= length res)%nat
                         | Some r => 0 :: skipn p' res = enc_members r ++ [0; 101] ++ 0 :: l
                         end)).
Proof.
  induction ms as [|[key v] ms IH]; intros fuel a p s l H E; destruct fuel as [|fuel]; try reflexivity.
  - cbn [walk_object b_walk]. destruct E as [E|E].
    + cbn in E. inversion E as [E1]. eapply sim_read; [exact E1|]. eapply sim_step; [reflexivity|]. cbn iota. apply sim_skip. apply sim_ret. split; auto. eexists. split; [reflexivity|].
      intros _. split; [go_on [101; 0] E1|]. apply skipn_len' in E1; [cbn in E1; lia|discriminate].
    + cbn in E. eapply sim_read; [exact E|]. change (0 =? 101) with false. change (0 =? 0) with true. cbn iota.
      assert (E1 : skipn (p + 1) res = 101 :: 0 :: l) by go_on [0] E.
      eapply sim_step; [exact (read_ret _ (fun d => d =? 101) _ _ _ _ _ _ _ E1)|]. cbn iota. apply sim_skip. apply sim_ret. split; auto. eexists. split; [reflexivity|].
      intros _. split; [go_on [0; 101; 0] E|]. apply skipn_len' in E; [cbn in E; lia|discriminate].
  - destruct H as (Hk & Hv & Hms). cbn [walk_object b_walk].
    destruct (members_cons ms l) as (r & Er).
    assert (En : forall q, skipn q res = key ++ 0 :: vbody v ++ 0 :: r ->
       sim (bind (read_name res) (fun key0 => bind (onkey a key0) (fun pat => let '(a0, crit) := pat in if crit : bool then ret (a0, true) else walk_object res fuel onkey a0)) (fr q o vs k s))
           (bbind (bonkey a key v) (fun pat => let '(a0, crit) := pat in
              if crit : bool then bret (a0, true, None)
              else if is_list v then match fuel with O => bnofuel | Datatypes.S _ => bret (a0, false, Some ms) end
              else b_walk fuel bonkey ms a0) s)
           (fun x t y s' => x = fst y /\ exists p', t = fr p' o vs k s' /\
             (snd x = false -> match snd y with
                         | None => skipn p' res = l /\ (p' <= length res)%nat
                         | Some r => 0 :: skipn p' res = enc_members r ++ [0; 101] ++ 0 :: l
                         end))).
    { intros q Eq. eapply sim_name; [exact Hk|exact Eq|].
      assert (Eq1 : skipn (q + length key + 1) res = vbody v ++ 0 :: r) by go_on (key ++ [0]) Eq.
      eapply sim_bind; [eapply step; eauto|]. intros x t y s' (-> & p' & -> & Hp). destruct y as [a0 crit]. cbn in Hp.
      destruct crit; [apply sim_ret; split; auto; eexists; split; [reflexivity|discriminate]|].
      specialize (Hp eq_refl). destruct (is_list v) eqn:L.
      - destruct Hp as [->|[-> _]]; [|discriminate]. destruct v as [| | | | | | |items|]; try discriminate.
        destruct fuel as [|fuel]; [reflexivity|]. cbn [walk_object].
        assert (Eb : exists b0, vbody (VList items) = b0 ++ [101]).
        { unfold vbody, vtail. cbn [vpay]. exists (118 :: vkind (VList items) :: le32 (nlen (flat_map enc_value items ++ [0; 101])) ++ flat_map enc_value items ++ [0]). lapp. }
        destruct Eb as (b0 & Eb). rewrite Eb in Eq1.
        eapply sim_read.
        { eapply (adv _ _ b0); [exact Eq1| |rewrite Eb; llen]. lapp. }
        eapply sim_step; [reflexivity|]. cbn iota. apply sim_skip. apply sim_ret. split; auto. eexists. split; [reflexivity|]. intros _. cbn [snd]. rewrite Er. f_equal.
        eapply (adv _ _ (b0 ++ [101; 0])); [exact Eq1| |rewrite Eb; llen]. lapp.
      - apply IH; auto. destruct Hp as [->|[-> ->]]; [left|right].
        + rewrite Er. f_equal. go_on (vbody v ++ [0]) Eq1.
        + rewrite Er. go_on (vbody VNull) Eq1. }
    assert (Emm : enc_members ((key, v) :: ms) ++ [0; 101] ++ 0 :: l = 0 :: 117 :: key ++ 0 :: vbody v ++ 0 :: r).
    { unfold enc_members. cbn [flat_map fst snd]. rewrite enc_value_tail. rewrite <- ?app_assoc. cbn [app]. do 2 f_equal.
      unfold enc_members in Er. unfold vbody. rewrite <- ?app_assoc. cbn [app]. rewrite <- Er. lapp. }
    destruct E as [E|E]; rewrite Emm in E.
    + inversion E as [E1]. eapply sim_read; [exact E1|]. change (117 =? 101) with false. change (117 =? 0) with false. cbn iota.
      eapply sim_step; [reflexivity|]. cbn iota. apply En. go_on [117] E1.
    + eapply sim_read; [exact E|]. change (0 =? 101) with false. change (0 =? 0) with true. cbn iota.
      assert (E1 : skipn (p + 1) res = 117 :: key ++ 0 :: vbody v ++ 0 :: r) by go_on [0] E.
      eapply sim_step; [exact (read_ret _ (fun d => d =? 101) _ _ _ _ _ _ _ E1)|]. change (117 =? 101) with false. cbn iota.
      apply En. go_on [117] E1.
Qed.
End Walk.

Lemma pos_eq : forall p p' a b c, skipn p res = a -> skipn p' res = b -> b <> [] -> (length a = c + length b)%nat -> p' = (p + c)%nat.
Proof.
  intros p p' a b c Ea Eb N L. assert (a <> []) by (intros ->; cbn in L; destruct b; [congruence|cbn in L; lia]).
  apply skipn_len' in Ea; auto. apply skipn_len' in Eb; auto. lia.
Qed.
Definition P_input (fuel : nat) : Prop := forall g i v vok p o vs k (s : st) l,
  ok_value v -> skipn p res = vbody v ++ 0 :: l ->
  sim (bind_input X S res rawvars hasargs argsat fuel g i vok (fr p o vs k s)) (b_input X S rawvars opargs fuel g i v vok s) (Rval i v p o vs k).
Definition P_oparg (fuel : nat) : Prop := forall g i name a p o vs k (s : st) l,
  ok_oparg a -> skipn p res = oparg_rest a l ->
  sim (bind_oparg X S res rawvars hasargs argsat fuel g i name (fr p o vs k s)) (b_oparg X S rawvars opargs fuel g i name a s) (Rany o vs k).

Lemma values_cons : forall vs l, exists r, flat_map enc_value vs ++ [0; 101] ++ 0 :: l = 0 :: r.
Proof. intros [|v vs] l; cbn; eauto. rewrite enc_value_tail. cbn. eauto. Qed.

Lemma bind_sim : forall fuel, P_input fuel /\ P_oparg fuel.
Proof.
  induction fuel as [|fuel [IHi IHo]]; [split; repeat intro; reflexivity|]. split.
  - intros g i v vok p o vs k s l V E. cbn [bind_input b_input].
    assert (E0 : skipn p res = 118 :: vkind v :: le32 (nlen (vpay v)) ++ vpay v ++ 0 :: l) by (rewrite E; unfold vbody, vtail; lapp).
    apply sim_ptr.
    + intros Hp e g1 s1. apply sim_get_pos.
      assert (En : nth_error res (p + 1) = Some (vkind v)).
      { eapply skipn_nth. eapply (adv _ _ [118]); [exact E0|reflexivity|reflexivity]. }
      rewrite En. eapply sim_step; [reflexivity|].
      destruct v; cbn [vkind]; match goal with |- context[?a =? ?b] => change (a =? b) with false || change (a =? b) with true end; cbn iota;
        try (eapply sim_weaken; [eapply IHi; eauto|]; intros x t y s' (-> & p' & -> & H); split; auto; eexists; split; [reflexivity|]; intros C; rewrite (H C); cbn [vend]; reflexivity).
      apply sim_skip. apply sim_ret. split; auto. eexists. split; [reflexivity|]. intros _. unfold vend. rewrite Hp. unfold vbody, vtail. cbn. lia.
    + intros Hp. apply sim_skip.
      assert (E1 : skipn (p + 1) res = vkind v :: le32 (nlen (vpay v)) ++ vpay v ++ 0 :: l) by go_on [118] E0.
      eapply sim_read; [exact E1|]. apply sim_skip.
      assert (E2 : skipn (p + 1 + 1 + 4) res = vpay v ++ 0 :: l).
      { eapply (adv _ _ (vkind v :: le32 (nlen (vpay v)))); [exact E1|lapp|llen]. }
      assert (Ev : (p + length (vbody v) + 1 = p + 1 + 1 + 4 + length (vpay v) + 1)%nat).
      { unfold vbody, vtail. cbn [length]. rewrite app_length, le32_length. lia. }
      destruct v; cbn [vkind vpay] in *;
        repeat match goal with |- context[?a =? ?b] => first [change (a =? b) with false | change (a =? b) with true]; cbn iota end.
      * (* variable *)
        destruct vok; cbn [negb]; [|apply sim_fail].
        eapply sim_name; [exact V|exact E2|]. apply sim_get_pos. set (back := (p + 1 + 1 + 4 + length name + 1)%nat) in *.
        assert (F : sim (find_arg res hasargs argsat fuel name (fr back o vs k s)) (b_find_arg opargs fuel name s)
            (fun x t y s' => s' = s /\ exists p', t = fr p' o vs k s /\
               match y with Some a => x = true /\ ok_oparg a /\ exists r, skipn p' res = oparg_rest a r | None => x = false end)).
        { unfold find_arg, b_find_arg. destruct opargs as [la|].
          - destruct opargs_at as (-> & Fo & rest & Er). apply sim_seek_to. apply sim_skip.
            eapply sim_weaken; [apply find_sim with (rest := rest); auto|].
            + destruct (tail_cons la (0 :: rest)) as (r & Er2). rewrite Er2 in Er |- *. f_equal. go_on [65; 0] Er.
            + cbn. intros x t y s' (-> & p' & -> & K). split; auto. exists p'. split; auto. destruct y; auto. destruct K as (A & B & C).
              split; auto. split; auto. rewrite Forall_forall in Fo. auto.
          - rewrite opargs_at. apply sim_ret. split; auto. eexists. split; reflexivity. }
        eapply sim_bind; [exact F|]. intros x t y s' (-> & p' & -> & H). destruct y as [a|].
        { destruct H as (-> & Oa & r & Er). cbn [negb].
          eapply sim_then; [eapply IHo; eauto|]. intros x t y s2 (-> & p2 & ->). do 2 eexists. split; [reflexivity|]. split; auto. eexists. split; [reflexivity|].
          intros _. unfold vend. symmetry. exact Ev. }
        subst x. cbn [negb]. apply sim_seek_to. apply sim_fail.
      * eapply sim_name; [exact V|exact E2|]. apply sim_frame_val; [apply frame_int_literal|]. symmetry; exact Ev.
      * destruct (kind_of (snd g)); try apply sim_fail. eapply sim_name; [exact V|exact E2|].
        destruct (x_parse_float X lit); [|apply sim_fail]. apply sim_bind_lift; [apply frame_set_float|]. intros. apply sim_ret. split; auto.
        eexists. split; [reflexivity|]. intros _. symmetry; exact Ev.
      * eapply sim_name; [exact V|exact E2|]. apply sim_frame_val; [apply frame_assign_string|]. symmetry; exact Ev.
      * destruct (kind_of (snd g)); try apply sim_fail. eapply sim_read; [exact E2|].
        replace ((if b then 49 else 48) =? 49) with b by now destruct b.
        apply sim_bind_lift; [apply frame_set_bool|]. intros. apply sim_skip. apply sim_ret. split; auto. eexists. split; [reflexivity|].
        intros _. unfold vend. rewrite Ev. cbn. lia.
      * apply sim_skip. apply sim_ret. split; auto. eexists. split; [reflexivity|]. intros _. unfold vend. rewrite Hp, Ev. cbn. lia.
      * destruct (i_enum i); [|apply sim_fail]. eapply sim_name; [exact V|exact E2|]. apply sim_bind_lift; [apply frame_of_opt|].
        intros e s'. apply sim_frame_val; [apply frame_assign_enum|]. symmetry; exact Ev.
      * (* list *)
        destruct (kind_of (snd g)); try apply sim_fail. apply sim_skip.
        assert (E3 : 0 :: skipn (p + 1 + 1 + 4 + 1) res = flat_map enc_value items ++ [0; 101] ++ 0 :: l).
        { destruct (values_cons items l) as (r & Er). rewrite Er. f_equal. eapply (adv _ _ [0]); [exact E2| |reflexivity].
          rewrite <- app_assoc. rewrite Er. reflexivity. }
        eapply sim_weaken.
        { instantiate (1 := fun x t y s' => x = y /\ exists p', t = fr p' o vs k s' /\ (snd x = false -> skipn p' res = 101 :: 0 :: l)).
          match goal with |- sim (?F fuel [] _) (?G fuel items [] _) _ =>
            enough (H : forall its n acc q s, ok_value (VList its) -> 0 :: skipn q res = flat_map enc_value its ++ [0; 101] ++ 0 :: l ->
              sim (F n acc (fr q o vs k s)) (G n its acc s) (fun x t y s' => x = y /\ exists p', t = fr p' o vs k s' /\ (snd x = false -> skipn p' res = 101 :: 0 :: l)))
              by (apply H; auto) end.
          clear E E0 E1 E2 E3 Ev V. induction its as [|x its IH]; intros n acc q s1 V E.
          - cbn in E. inversion E as [E1]. destruct n; cbn [seek];
            (eapply sim_seek; [exact E1|]; change (101 =? 101) with true; cbn iota; apply sim_bind_lift; [apply frame_set_any|]; intros; apply sim_ret; split; auto;
             eexists; split; [reflexivity|auto]).
          - destruct V as [Vx Vr]. destruct (values_cons its l) as (r & Er).
            assert (E1 : skipn q res = vbody x ++ 0 :: r).
            { cbn [flat_map] in E. rewrite <- app_assoc, Er, enc_value_tail in E. exact (f_equal (@tl N) E). }
            assert (E1' : exists b, skipn q res = 118 :: b) by (rewrite E1; unfold vbody, vtail; cbn; eauto). destruct E1' as (b & E1').
            destruct n as [|n]; (eapply sim_seek; [exact E1'|]); change (118 =? 101) with false; cbn iota; [reflexivity|].
            apply sim_bind_lift; [apply frame_of_opt|]. intros ei s2. eapply sim_bind; [eapply IHi; eauto|].
            intros y t y' s' (-> & p' & -> & H). destruct y' as [[v1 b1] c1]. cbn [snd] in H. destruct c1.
            { apply sim_ret. split; auto. eexists. split; [reflexivity|]. discriminate. }
            specialize (H eq_refl). destruct (is_list x) eqn:L; cbn [orb]; [exact I|].
            destruct (match x with VNull => is_ptr ei | _ => false end) eqn:L2; [exact I|].
            apply IH; auto. rewrite Er. f_equal. eapply (adv _ _ (vbody x ++ [0])); [exact E1|lapp|].
            rewrite H, app_length. destruct x; try discriminate; cbn [vend length]; try lia. rewrite L2. lia. }
        intros x t y s' (-> & p' & -> & H). split; auto. eexists. split; [reflexivity|]. intros C. specialize (H C).
        unfold vend. replace (p + length (vbody (VList items)) - 1)%nat with (p + (length (vbody (VList items)) - 1))%nat.
        2:{ unfold vbody, vtail. cbn [length]. lia. }
        eapply pos_eq; [exact E|exact H|discriminate|]. rewrite app_length. unfold vbody, vtail. cbn [length]. lia.
      * (* object *)
        destruct (kind_of (snd g)); try apply sim_fail. apply sim_bind_lift; [apply frame_content_of|]. intros c s1.
        apply sim_get_pos. apply sim_seek_to. apply sim_skip.
        rename fields into ms. change (clean [] -> ok_value (VObj ms)) in V || idtac.
        assert (E3 : at_members ms (p + 1 + 1 + 4 - 6 + 7) l).
        { left. destruct (members_cons ms l) as (r & Er). rewrite Er. f_equal. eapply (adv _ _ [0]); [exact E2| |cbn; lia]. rewrite <- app_assoc, Er. reflexivity. }
        assert (K : sim (walk_object res fuel
               (fun (a : gval * bool) key =>
                  let '(v, set_) := a in
                  match slookup c key with
                  | None => bind (err (bs "undefined property " ++ key)) (fun b => ret ((v, set_), b))
                  | Some fi =>
                      bind (field_of (fst g, v) (i_field fi)) (fun f =>
                      bind (bind_input X S res rawvars hasargs argsat fuel f fi vok) (fun r => let '(fv, fset, crit) := r in
                      ret ((put_field v (i_field fi) fv, fset), crit)))
                  end) (snd g, true) (fr (p + 1 + 1 + 4 - 6 + 7) o vs k s1))
           (b_walk fuel
                 (fun (a : gval * bool) key x =>
                    let '(v, set_) := a in
                    match slookup c key with
                    | None => bbind (lift (err (bs "undefined property " ++ key))) (fun b => bret ((v, set_), b))
                    | Some fi =>
                        bbind (lift (field_of (fst g, v) (i_field fi))) (fun f =>
                        bbind (b_input X S rawvars opargs fuel f fi x vok) (fun r => let '(fv, fset, crit) := r in
                        bret ((put_field v (i_field fi) fv, fset), crit)))
                    end) ms (snd g, true) s1)
             (fun x t y s' => x = fst y /\ exists p', t = fr p' o vs k s' /\
             (snd x = false -> match snd y with None => skipn p' res = l /\ (p' <= length res)%nat | Some r => 0 :: skipn p' res = enc_members r ++ [0; 101] ++ 0 :: l end))).
        { apply walk_sim; auto.
          intros [v1 st1] key v p0 s0 l0 Hk Hv Ep. destruct (slookup c key) as [fi|].
          - apply sim_bind_lift; [apply frame_field_of|]. intros f s2. eapply sim_bind; [eapply IHi; eauto|].
            intros x t y s' (-> & p' & -> & H). destruct y as [[v2 b2] c2]. apply sim_ret. split; auto. eexists. split; [reflexivity|].
            cbn [snd] in *. intros C. specialize (H C). destruct v; cbn [vend is_list] in *; auto. destruct (is_ptr fi); auto.
          - apply sim_bind_err. intros s2. apply sim_ret. split; auto. eexists. split; [reflexivity|]. discriminate. }
        match goal with |- sim (bind (bind ?A ?f) ?h _) (bbind ?B _ _) _ => set (A' := A) in *; set (B' := B) in * end.
        unfold bbind. destruct (B' s1) as [[[[v1 st1] cr] cut] s2| | |]; cbn in K; try (unfold bind; rewrite K; reflexivity); [|exact I].
        destruct cut; [exact I|]. destruct K as (x & t & K & -> & p' & -> & H). unfold bind. rewrite K. cbn [fst snd ret].
        eexists _, _. split; [reflexivity|]. split; auto. eexists. split; [reflexivity|]. cbn [fst snd]. intros C. destruct (H C) as [H1 H2].
        unfold vend. pose proof (f_equal (@length N) H1) as L1. rewrite skipn_length in L1.
        pose proof (skipn_len' _ _ _ _ E) as L2. rewrite app_length in L2. cbn [length] in L2.
        assert (vbody (VObj ms) ++ 0 :: l <> []) by (unfold vbody, vtail; discriminate). specialize (L2 H0). lia.
  - intros g i name a p o vs k s l (On & Ot & Od) E. cbn [bind_oparg b_oparg].
    unfold oparg_rest in E. assert (Hd : enc_type (oa_type a) = hd 0 (enc_type (oa_type a)) :: tl (enc_type (oa_type a))) by (destruct (oa_type a); reflexivity).
    rewrite Hd in E. cbn [app] in E. eapply sim_read; [exact E|].
    eapply sim_bind; [eapply marks_sim; [exact Ot|]|].
    { go_on [hd 0 (enc_type (oa_type a))] E. }
    intros [ri c] t [ri' tn] s' (p' & -> & Ei & H). cbn [fst snd] in *. subst ri'. destruct ri as [ri|]; [|apply sim_ret; split; auto; eexists; reflexivity].
    destruct (H ltac:(discriminate)) as (-> & Ht & Et).
    assert (F : forall m s, sim (fail g m (fr (p' + length tn + 1) o vs k s)) (lift (fail g m) s) (Rany o vs k)).
    { intros. apply sim_frame_any. apply frame_fail. }
    eapply sim_bind.
    { eapply sim_name; [exact Ht|exact Et|]. apply sim_lift. apply frame_type_mismatch. }
    intros x t y s1 [-> ->]. destruct y; [apply F|].
    set (q := (p' + length tn + 1)%nat) in *.
    assert (Eq : skipn q res = match oa_default a with None => [102] | Some v => 116 :: enc_value v end ++ 0 :: l) by (unfold q; go_on (tn ++ [0]) Et).
    assert (Ed : exists r, skipn q res = (match oa_default a with None => 102 | Some _ => 116 end) :: r /\ match oa_default a with None => True | Some v => r = enc_value v ++ 0 :: l end).
    { destruct (oa_default a); cbn [app] in Eq; eauto. }
    destruct Ed as (r & Er & Hr). eapply sim_read; [exact Er|]. apply sim_skip.
    apply sim_bind_lift; [apply frame_bind_external|]. intros [[[v1 set1] found] crit] s2.
    destruct crit; [apply sim_ret; split; auto; eexists; reflexivity|]. destruct found; [apply sim_ret; split; auto; eexists; reflexivity|].
    destruct (oa_default a) as [d|].
    + change (116 =? 116) with true. cbn [negb].
      eapply sim_weaken; [eapply IHi; [exact Od|]|].
      * subst r. rewrite enc_value_tail in Er. go_on [116; 0] Er.
      * intros x t y s3 (-> & p2 & -> & _). split; auto. eexists. reflexivity.
    + change (102 =? 116) with false. cbn [negb]. apply sim_frame_any. apply frame_fail.
Qed.
End Sim.
