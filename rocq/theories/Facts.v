(** * What one run of the reference interpreter does to errors, paths and variables, and the shape of
    the response tree (proofs) *)
From Coq Require Import String Arith NArith ZArith Bool List Lia.
From Verif Require Import Base JsonModel Ast ReqModel Schema ResModel Interp.
Import ListNotations.
Open Scope N_scope.

(** ** Paths: response keys and list indices *)
Inductive pitem := PKey (k : bytes) | PIdx (n : N).
Definition item_text (i : pitem) : bytes := match i with PKey k => [34] ++ k ++ [34] | PIdx n => dec_of_N n end.
(** the text kept in Ctx.path: a comma before each item *)
Definition path_text (p : list pitem) : bytes := flat_map (fun i => 44 :: item_text i) p.
(** the text in an error: without the first comma *)
Definition strip (p : bytes) : option bytes := match p with [] => None | _ :: r => Some r end.
Lemma path_text_app : forall a b, path_text (a ++ b) = path_text a ++ path_text b.
Proof. intros. unfold path_text. apply flat_map_app. Qed.

Section A.
Context {W : Type}.
Variable X : externals W.
Variable S : schema.
Variable rawvars : bytes.
Notation st := (rst W).
Notation rm := (@rm W).

(** the variables are parsed at most once *)
Definition parsed_vars : option fj := match x_parse X rawvars with inl v => Some v | inr _ => None end.
Definition vars_step (s t : st) : Prop :=
  r_vars t = r_vars s \/ (r_vars s = None /\ rawvars <> [] /\ r_vars t = Some parsed_vars).
Definition good (s t : st) (es : list rerr) : Prop := r_path t = r_path s /\ r_errs t = r_errs s ++ es /\ vars_step s t.
Lemma good_refl : forall s t, r_path t = r_path s -> r_errs t = r_errs s -> r_vars t = r_vars s -> good s t [].
Proof. intros s t A B C. split; auto. split; [now rewrite app_nil_r|left; auto]. Qed.
Lemma good_trans : forall a b c e1 e2, good a b e1 -> good b c e2 -> good a c (e1 ++ e2).
Proof.
  intros a b c e1 e2 (P1 & E1 & V1) (P2 & E2 & V2). split; [congruence|]. split; [rewrite E2, E1; now rewrite app_assoc|].
  unfold vars_step in *. destruct V1 as [V1|(V1 & N1 & T1)], V2 as [V2|(V2 & N2 & T2)].
  - left. congruence.
  - right. split; [congruence|auto].
  - right. split; [auto|]. split; [auto|congruence].
  - congruence.
Qed.

(** *** the functions of ResModel.v that do not depend on the bytecode *)
Definition at_ (p : bytes) (e : rerr) : Prop := re_path e = strip p.
Definition spec {A} (f : rm A) (R : A -> list rerr -> Prop) : Prop := forall s,
  match f s with ROk a t => exists es, good s t es /\ Forall (at_ (r_path s)) es /\ R a es | _ => True end.
Definition any {A} : A -> list rerr -> Prop := fun _ _ => True.
(** criticalErr comes with an error *)
Definition nc {A} : A * bool -> list rerr -> Prop := fun a es => snd a = true -> es <> [].
Lemma spec_weak : forall A (f : rm A) (R R' : A -> list rerr -> Prop), spec f R -> (forall a es, R a es -> R' a es) -> spec f R'.
Proof. intros A f R R' H I s. specialize (H s). destruct (f s); auto. destruct H as (es & G & F & Q). exists es. auto. Qed.
Lemma spec_bind : forall A B (f : rm A) (g : A -> rm B) R1 R, spec f R1 ->
  (forall a e1, R1 a e1 -> spec (g a) (fun b e2 => R b (e1 ++ e2))) -> spec (bind f g) R.
Proof.
  intros A B f g R1 R F G s. unfold bind. specialize (F s). destruct (f s) as [a t| |]; auto. destruct F as (e1 & G1 & F1 & Q1).
  specialize (G a e1 Q1 t). destruct (g a t) as [b u| |]; auto. destruct G as (e2 & G2 & F2 & Q2). exists (e1 ++ e2).
  split; [eapply good_trans; eauto|]. split; auto. destruct G1 as (P & _). rewrite P in F2. apply Forall_app. auto.
Qed.
Lemma bind_any : forall A B (f : rm A) (g : A -> rm B), spec f any -> (forall a, spec (g a) any) -> spec (bind f g) any.
Proof. intros A B f g F G. eapply spec_bind; [exact F|]. intros a e1 _. eapply spec_weak; [apply G|]. intros; exact I. Qed.
Lemma bind_nc : forall A B (f : rm A) (g : A -> rm (B * bool)), spec f any -> (forall a, spec (g a) nc) -> spec (bind f g) nc.
Proof.
  intros A B f g F G. eapply spec_bind; [exact F|]. intros a e1 _. eapply spec_weak; [apply G|]. intros b e2 Q H. specialize (Q H).
  intro E. apply app_eq_nil in E. tauto.
Qed.
Lemma bind_crit : forall A B (f : rm (A * bool)) (g : A * bool -> rm (B * bool)), spec f nc ->
  (forall a, spec (g (a, false)) nc) -> (forall a, spec (g (a, true)) any) -> spec (bind f g) nc.
Proof.
  intros A B f g F G1 G2. eapply spec_bind; [exact F|]. intros [a [|]] e1 Q; cbn in Q.
  - eapply spec_weak; [apply G2|]. intros b e2 _ _ E. apply app_eq_nil in E. destruct E. apply Q; auto.
  - eapply spec_weak; [apply G1|]. intros b e2 Q2 H. specialize (Q2 H). intro E. apply app_eq_nil in E. tauto.
Qed.
Lemma q_err : forall m, spec (err m) (fun _ es => es <> []).
Proof.
  intros m s. cbn. eexists. split; [|split].
  - split; [|split]; [reflexivity|reflexivity|left; reflexivity].
  - repeat constructor. 
  - discriminate.
Qed.
Lemma bind_err : forall A m (g : bool -> rm (A * bool)), (forall b, spec (g b) any) -> spec (bind (err m) g) nc.
Proof.
  intros A m g G. eapply spec_bind; [apply q_err|]. intros a e1 Q. eapply spec_weak; [apply G|]. intros b e2 _ _ E. apply app_eq_nil in E. cbv beta in Q. tauto.
Qed.
Lemma to_any : forall A (f : rm A) R, spec f R -> spec f any.
Proof. intros. eapply spec_weak; eauto. intros; exact I. Qed.

Ltac simp := intros; hnf; intros; cbn; exists []; split; [apply good_refl; reflexivity|split; [constructor|]].
Lemma q_ret : forall A (a : A), spec (ret a) any. Proof. simp. exact I. Qed.
Lemma q_ret_nc : forall A (a : A), spec (ret (a, false)) nc. Proof. simp. discriminate. Qed.
Lemma q_panic : forall A R, spec (@panic W A) R. Proof. intros; hnf; cbn; auto. Qed.
Lemma q_nofuel : forall A R, spec (@nofuel W A) R. Proof. intros; hnf; cbn; auto. Qed.
Lemma q_of_opt : forall A (a : option A), spec (of_opt a) any. Proof. intros A [a|]; [apply q_ret|apply q_panic]. Qed.
Lemma q_get_world : spec get_world any. Proof. simp. exact I. Qed.
Lemma q_put_world : forall p, spec (put_world p) any. Proof. simp. exact I. Qed.
Lemma q_get_vars : spec get_vars (fun v _ => v = None \/ v <> None). Proof. simp. destruct (r_vars s); auto. right. discriminate. Qed.
Ltac q_step :=
  match goal with
  | |- spec (ret _) any => apply q_ret
  | |- spec (ret (_, false)) nc => apply q_ret_nc
  | |- spec (okay _) nc => apply q_ret_nc
  | |- spec (okay _) any => apply q_ret
  | |- spec panic _ => apply q_panic
  | |- spec nofuel _ => apply q_nofuel
  | |- spec (fail _ _) _ => unfold fail
  | |- spec (bind (err _) _) nc => apply bind_err; intro
  | |- spec (err _) any => eapply to_any; apply q_err
  | |- spec (bind _ _) any => apply bind_any; [|intro]
  | |- spec (bind _ _) nc => apply bind_nc; [|intro]
  | |- spec (of_opt _) any => apply q_of_opt
  | |- spec get_world any => apply q_get_world
  | |- spec (put_world _) any => apply q_put_world
  | |- spec (set_int _ _) _ => unfold set_int
  | |- spec (set_uint _ _) _ => unfold set_uint
  | |- spec (set_float _ _ _) _ => unfold set_float
  | |- spec (set_bool _ _) _ => unfold set_bool
  | |- spec (set_string _ _) _ => unfold set_string
  | |- spec (set_any _ _) _ => unfold set_any
  | |- spec (field_of _ _) _ => unfold field_of
  | |- spec (content_of _ _) _ => unfold content_of
  | |- spec (same_enum_value _ _ _) _ => unfold same_enum_value
  | |- spec (match ?x with _ => _ end) _ => destruct x
  | |- spec (let '(_, _) := ?x in _) _ => destruct x
  | |- spec (if ?x then _ else _) _ => destruct x
  end.
Ltac q_all := repeat q_step.
Lemma q_fail : forall g m, spec (fail g m) nc. Proof. intros. q_all. Qed.
Lemma q_field_of : forall g i, spec (field_of g i) any. Proof. intros. q_all. Qed.
Lemma q_content_of : forall i, spec (content_of S i) any. Proof. intros. q_all. Qed.
Lemma q_set_any : forall g i, spec (set_any g i) any. Proof. intros. q_all. Qed.
Lemma q_set_float : forall g i, spec (set_float X g i) any. Proof. intros. q_all. Qed.
Lemma q_set_bool : forall g i, spec (set_bool g i) any. Proof. intros. q_all. Qed.
Lemma q_same_enum : forall g i e, spec (same_enum_value g i e) any. Proof. intros. q_all. Qed.
Lemma q_mismatch : forall i t, spec (type_mismatch S i t) any. Proof. intros. unfold type_mismatch. q_all. Qed.
Lemma q_assign_enum : forall g e n, spec (assign_enum g e n) nc. Proof. intros. unfold assign_enum. q_all. Qed.
Lemma q_assign_id : forall g s, spec (assign_id g s) nc. Proof. intros. unfold assign_id. q_all. Qed.
Lemma q_assign_time : forall g s, spec (assign_time g s) nc. Proof. intros. unfold assign_time. q_all. Qed.
Lemma q_assign_file : forall g s, spec (assign_file X g s) nc.
Proof.
  intros g b. unfold assign_file. destruct (x_formfile X) as [get|]; [|apply q_panic].
  intros s. destruct (get (r_world s) b) as [w r].
  assert (R : spec (match r with inl f => bind (set_any g (GFile (Some f))) (fun v => okay v) | inr e => fail g e end) nc) by (destruct r; q_all).
  specialize (R (set_world w s)). cbv beta zeta in *. match goal with |- match ?a with _ => _ end => destruct a end; auto.
Qed.
Ltac q_leaf :=
  match goal with
  | |- spec (assign_enum _ _ _) nc => apply q_assign_enum
  | |- spec (assign_id _ _) nc => apply q_assign_id
  | |- spec (assign_time _ _) nc => apply q_assign_time
  | |- spec (assign_file _ _ _) nc => apply q_assign_file
  end.
Lemma q_assign_string : forall g i s, spec (assign_string X S g i s) nc.
Proof. intros. unfold assign_string. repeat first [q_leaf | q_step]. Qed.
Lemma q_json_number : forall g s, spec (json_number X g s) nc. Proof. intros. unfold json_number. q_all. Qed.
Lemma q_int_literal : forall g s, spec (int_literal X g s) nc. Proof. intros. unfold int_literal. q_all. Qed.
Lemma q_through_ptr : forall g i f m, (forall g i, spec (f g i) nc) -> spec m nc -> spec (through_ptr g i f m) nc.
Proof.
  intros g i f m Hf Hm. unfold through_ptr. destruct (i_kind i); auto. destruct (i_isfile i); auto.
  apply bind_nc; [q_all|]. intro e. apply bind_crit; [apply Hf| |]; intros [v s0]; q_all.
Qed.
Ltac q_leaf2 :=
  match goal with
  | |- spec (assign_string _ _ _ _ _) nc => apply q_assign_string
  | |- spec (json_number _ _ _) nc => apply q_json_number
  | |- spec (int_literal _ _ _) nc => apply q_int_literal
  end.
Ltac q_more := repeat first [q_leaf | q_leaf2 | q_step].
Lemma q_bind_json : forall fuel g i j, spec (bind_json X S fuel g i j) nc.
Proof.
  induction fuel as [|fuel IH]; intros g i j; [apply q_nofuel|].
  cbn [bind_json]. apply q_through_ptr; [intros; apply IH|].
  destruct (i_enum i) as [en|], (i_isid i), (i_isfile i), (i_istime i); try (destruct j; q_more; fail).
  destruct j as [| | |raw|s|l|m]; try (q_more; fail).
  - destruct (kind_of (snd g)); try (q_more; fail). match goal with |- spec (?F l []) _ => enough (H : forall l acc, spec (F l acc) nc) by apply H end. clear l.
    induction l as [|x r IHl]; intros acc; [q_more|].
    apply bind_nc; [apply q_of_opt|]. intro ei. apply bind_crit; [apply IH| |]; intros [ev s]; [apply IHl|apply q_ret].
  - destruct (kind_of (snd g)); try (q_more; fail). apply bind_nc; [unfold content_of; q_all|]. intro c.
    generalize (snd g) as v. induction m as [|[k x] r IHm]; intros v; [q_more|].
    destruct (slookup c k); [|q_more]. apply bind_nc; [unfold field_of; q_all|]. intro f.
    apply bind_crit; [apply IH| |]; intros [ev s]; [apply IHm|apply q_ret].
Qed.
Lemma q_bind_external : forall fuel g i n, spec (bind_external X S rawvars fuel g i n) nc.
Proof.
  intros fuel g i n s. unfold bind_external, bind at 1. unfold get_vars.
  set (found := fun v : option fj => match var_get v n with
    | None => ret (snd g, false, false, false)
    | Some j => bind (bind_json X S fuel g i j) (fun '(v, set_, crit) => ret (v, set_, true, crit)) end).
  assert (F : forall v, spec (found v) nc).
  { intro v. unfold found. destruct (var_get v n); [|apply q_ret_nc]. apply bind_crit; [apply q_bind_json| |]; intros [? ?]; [apply q_ret_nc|apply q_ret]. }
  destruct (r_vars s) as [v|] eqn:Ev; [apply (F v s)|].
  destruct rawvars as [|c rv] eqn:Er; [apply q_ret_nc|].
  assert (P : forall (h : rm (gval * bool * bool * bool)) v, v = parsed_vars -> spec h nc ->
    match bind (put_vars (Some v)) (fun _ => h) s with ROk a t => exists es, good s t es /\ Forall (at_ (r_path s)) es /\ nc a es | _ => True end).
  { intros h v -> H. unfold bind, put_vars. specialize (H (set_vars (Some parsed_vars) s)).
    destruct (h _) as [a t| |]; auto. destruct H as (es & (P & E & V) & Fa & Q). exists es. split; auto. split; auto. split; auto.
    right. rewrite Er. split; auto. split; [discriminate|]. destruct V as [V|(V & _)]; auto. discriminate V. }
  rewrite <- Er in *. destruct (x_parse X rawvars) as [v|e] eqn:Ex.
  - assert (Pv : Some v = parsed_vars) by (unfold parsed_vars; rewrite Ex; reflexivity).
    destruct v; apply P; auto; try exact (F (Some (FObject _))); q_all.
  - apply P; [unfold parsed_vars; rewrite Ex; reflexivity|q_all].
Qed.
End A.

(** *** the reference interpreter: arguments and directives *)
Section B.
Context {W : Type}.
Variable X : externals W.
Variable S : schema.
Variable rawvars : bytes.
Variable opargs : option (list oparg).
Notation bm := (@bm W).
Definition barg {A} (f : bm A) (R : A -> list rerr -> Prop) : Prop := forall s,
  match f s with BOk a t => exists es, good X rawvars s t es /\ Forall (at_ (r_path s)) es /\ R a es | _ => True end.
Notation aspec := (spec X rawvars).
(** criticalErr in the middle of the result comes with an error *)
Definition nc3 {A B} : A * bool * B -> list rerr -> Prop := fun a es => snd (fst a) = true -> es <> [].
Lemma barg_weak : forall A (f : bm A) (R R' : A -> list rerr -> Prop), barg f R -> (forall a es, R a es -> R' a es) -> barg f R'.
Proof. intros A f R R' H I s. specialize (H s). destruct (f s); auto. destruct H as (es & G & F & Q). exists es. auto. Qed.
Lemma barg_bind : forall A B (f : bm A) (g : A -> bm B) R1 R, barg f R1 ->
  (forall a e1, R1 a e1 -> barg (g a) (fun b e2 => R b (e1 ++ e2))) -> barg (bbind f g) R.
Proof.
  intros A B f g R1 R F G s. unfold bbind. specialize (F s). destruct (f s) as [a t| | |]; auto. destruct F as (e1 & G1 & F1 & Q1).
  specialize (G a e1 Q1 t). destruct (g a t) as [b u| | |]; auto. destruct G as (e2 & G2 & F2 & Q2). exists (e1 ++ e2).
  split; [eapply good_trans; eauto|]. split; auto. destruct G1 as (P & _). rewrite P in F2. apply Forall_app. auto.
Qed.
Lemma app_ne : forall (a b : list rerr), a <> [] \/ b <> [] -> a ++ b <> [].
Proof. intros a b H E. apply app_eq_nil in E. tauto. Qed.
Lemma bb_any : forall A B (f : bm A) (g : A -> bm B), barg f any -> (forall a, barg (g a) any) -> barg (bbind f g) any.
Proof. intros A B f g F G. eapply barg_bind; [exact F|]. intros a e1 _. eapply barg_weak; [apply G|]. intros; exact I. Qed.
Lemma bb_nc : forall A B (f : bm A) (g : A -> bm (B * bool)), barg f any -> (forall a, barg (g a) nc) -> barg (bbind f g) nc.
Proof.
  intros A B f g F G. eapply barg_bind; [exact F|]. intros a e1 _. eapply barg_weak; [apply G|]. intros b e2 Q H. specialize (Q H). apply app_ne; auto.
Qed.
Lemma bb_crit : forall A B (f : bm (A * bool)) (g : A * bool -> bm (B * bool)), barg f nc ->
  (forall a, barg (g (a, false)) nc) -> (forall a, barg (g (a, true)) any) -> barg (bbind f g) nc.
Proof.
  intros A B f g F G1 G2. eapply barg_bind; [exact F|]. intros [a [|]] e1 Q; cbn in Q.
  - eapply barg_weak; [apply G2|]. intros b e2 _ _. apply app_ne. left; auto.
  - eapply barg_weak; [apply G1|]. intros b e2 Q2 H. specialize (Q2 H). apply app_ne; auto.
Qed.
Lemma bb_crit3 : forall A B C (f : bm (A * bool)) (g : A * bool -> bm (B * bool * C)), barg f nc ->
  (forall a, barg (g (a, false)) nc3) -> (forall a, barg (g (a, true)) any) -> barg (bbind f g) nc3.
Proof.
  intros A B C f g F G1 G2. eapply barg_bind; [exact F|]. intros [a [|]] e1 Q; cbn in Q.
  - eapply barg_weak; [apply G2|]. intros b e2 _ _. apply app_ne. left; auto.
  - eapply barg_weak; [apply G1|]. intros b e2 Q2 H. specialize (Q2 H). apply app_ne; auto.
Qed.
Lemma bb_from3 : forall A B C (f : bm (A * bool * C)) (g : A * bool * C -> bm (B * bool)), barg f nc3 ->
  (forall a c, barg (g (a, false, c)) nc) -> (forall a c, barg (g (a, true, c)) any) -> barg (bbind f g) nc.
Proof.
  intros A B C f g F G1 G2. eapply barg_bind; [exact F|]. intros [[a [|]] c] e1 Q; cbn in Q.
  - eapply barg_weak; [apply G2|]. intros b e2 _ _. apply app_ne. left; auto.
  - eapply barg_weak; [apply G1|]. intros b e2 Q2 H. specialize (Q2 H). apply app_ne; auto.
Qed.
Lemma b_lift : forall A (f : @rm W A) R, aspec f R -> barg (lift f) R.
Proof. intros A f R H s. unfold lift. specialize (H s). destruct (f s); auto. Qed.
Lemma bb_err : forall A m (g : bool -> bm (A * bool)), (forall b, barg (g b) any) -> barg (bbind (lift (err m)) g) nc.
Proof.
  intros A m g G. eapply barg_bind; [apply b_lift; apply q_err|]. intros a e1 Q. eapply barg_weak; [apply G|]. intros b e2 _ _. apply app_ne. left; exact Q.
Qed.
Lemma b_any : forall A (f : bm A) R, barg f R -> barg f any.
Proof. intros. eapply barg_weak; eauto. intros; exact I. Qed.
Ltac simp := intros; hnf; intros; cbn; exists []; split; [apply good_refl; reflexivity|split; [constructor|]].
Lemma b_ret : forall A (a : A), barg (bret a) any. Proof. simp. exact I. Qed.
Lemma b_ret_nc : forall A (a : A), barg (bret (a, false)) nc. Proof. simp. discriminate. Qed.
Lemma b_ret_nc3 : forall A B (a : A) (b : B), barg (bret (a, false, b)) nc3. Proof. simp. discriminate. Qed.
Lemma b_panic : forall A R, barg (@bpanic W A) R. Proof. intros; hnf; cbn; auto. Qed.
Lemma b_nofuel : forall A R, barg (@bnofuel W A) R. Proof. intros; hnf; cbn; auto. Qed.
Lemma b_nope : forall A R, barg (@bnope W A) R. Proof. intros; hnf; cbn; auto. Qed.
Lemma q_get_path : aspec get_path any. Proof. simp. exact I. Qed.
Ltac l_step :=
  match goal with
  | |- aspec (of_opt _) any => apply q_of_opt
  | |- aspec (err _) any => eapply to_any; apply q_err
  | |- aspec (fail _ _) nc => apply q_fail
  | |- aspec (int_literal _ _ _) nc => apply q_int_literal
  | |- aspec (assign_string _ _ _ _ _) nc => apply q_assign_string
  | |- aspec (assign_enum _ _ _) nc => apply q_assign_enum
  | |- aspec (set_float _ _ _) any => apply q_set_float
  | |- aspec (set_bool _ _) any => apply q_set_bool
  | |- aspec (set_any _ _) any => apply q_set_any
  | |- aspec (field_of _ _) any => apply q_field_of
  | |- aspec (content_of _ _) any => apply q_content_of
  | |- aspec (type_mismatch _ _ _) any => apply q_mismatch
  | |- aspec (bind_external _ _ _ _ _ _ _) nc => apply q_bind_external
  | |- aspec (same_enum_value _ _ _) any => apply q_same_enum
  | |- aspec get_world any => apply q_get_world
  | |- aspec (put_world _) any => apply q_put_world
  | |- aspec get_path any => apply q_get_path
  end.
Ltac b_step :=
  match goal with
  | |- barg (bret _) any => apply b_ret
  | |- barg (bret (_, false)) nc => apply b_ret_nc
  | |- barg (bret (_, false, _)) nc3 => apply b_ret_nc3
  | |- barg bpanic _ => apply b_panic
  | |- barg bnofuel _ => apply b_nofuel
  | |- barg bnope _ => apply b_nope
  | |- barg (lift _) _ => apply b_lift; l_step
  | |- barg (bbind (lift (err _)) _) nc => apply bb_err; intro
  | |- barg (bbind _ _) any => apply bb_any; [|intro]
  | |- barg (bbind _ _) nc => apply bb_nc; [|intro]
  | |- barg (match ?x with _ => _ end) _ => destruct x
  | |- barg (let '(_, _) := ?x in _) _ => destruct x
  end.
Ltac b_all := repeat b_step.
Lemma f_ptr : forall g i f m, (forall g i, barg (f g i) nc) -> barg m nc -> barg (b_ptr g i f m) nc.
Proof.
  intros g i f m Hf Hm. unfold b_ptr. destruct (i_kind i); auto. destruct (i_isfile i); auto.
  apply bb_nc; [b_all|]. intro e. apply bb_crit; [apply Hf| |]; intros [v s0]; b_all.
Qed.
Lemma f_find : forall fuel n l, barg (b_find fuel n l) any.
Proof. induction fuel; intros n l; cbn [b_find]; b_all. apply IHfuel. Qed.
Lemma f_find_arg : forall fuel n, barg (b_find_arg opargs fuel n) any.
Proof. intros. unfold b_find_arg. destruct opargs; [apply f_find|apply b_ret]. Qed.
Definition marks_ok : option input * bytes -> list rerr -> Prop := fun a es => fst a = None -> es <> [].
Lemma f_marks : forall fuel i t n, barg (b_marks fuel i t n) marks_ok.
Proof.
  assert (E : forall m, barg (bbind (lift (err m)) (fun _ => bret (None, []))) marks_ok).
  { intro m. eapply barg_bind; [apply b_lift; apply q_err|]. intros a e1 Q. eapply barg_weak; [apply b_ret|]. intros b e2 _ _. apply app_ne. left; exact Q. }
  assert (R : forall i n, barg (bret (Some i, n)) marks_ok) by (intros; simp; discriminate).
  induction fuel; intros i t n; destruct t; cbn [b_marks]; auto; [apply b_nofuel|].
  destruct (i_kind i); auto. eapply barg_bind; [apply b_lift; apply q_of_opt|]. intros a e1 _. eapply barg_weak; [apply IHfuel|].
  intros b es Q H. specialize (Q H). apply app_ne; auto.
Qed.
Lemma f_walk : forall A (onkey : A -> bytes -> value -> bm (A * bool)), (forall a k v, barg (onkey a k v) nc) ->
  forall fuel ms a, barg (b_walk fuel onkey ms a) nc3.
Proof.
  intros A onkey H. induction fuel; intros ms a; cbn [b_walk]; [b_all|]. destruct ms as [|[k v] r]; [b_all|].
  apply bb_crit3; [apply H| |]; intro b; cbv beta iota; [|b_all]. destruct (is_list v); [b_all|apply IHfuel].
Qed.
Lemma f_input : forall fuel,
  (forall g i v ok, barg (b_input X S rawvars opargs fuel g i v ok) nc) /\
  (forall g i n a, barg (b_oparg X S rawvars opargs fuel g i n a) nc).
Proof.
  induction fuel as [|fuel [IHi IHo]]; [split; intros; apply b_nofuel|]. split.
  - intros g i v ok. cbn [b_input]. apply f_ptr; [intros g' i'; destruct v; try apply b_ret_nc; apply IHi|].
    destruct v as [n|lit|lit|s|b| |n|vs|ms]; try (b_all; fail).
    + destruct ok; cbn [negb]; [|b_all]. apply bb_nc; [apply f_find_arg|]. intros [a|]; [apply IHo|b_all].
    + destruct (kind_of (snd g)); try (b_all; fail).
      match goal with |- barg (?F fuel vs []) _ => enough (H : forall n vs acc, barg (F n vs acc) nc) by apply H end. clear vs.
      induction n as [|n IHv]; intros [|x r] acc; try (b_all; fail).
      apply bb_nc; [b_all|]. intro ei. apply bb_crit; [apply IHi| |]; intros [a b]; cbv beta iota; [|b_all].
      destruct (is_list x || _); [b_all|apply IHv].
    + destruct (kind_of (snd g)); try (b_all; fail). apply bb_nc; [b_all|]. intro c.
      apply bb_from3.
      * apply f_walk. intros [v set_] k x. destruct (slookup c k) as [fi|]; [|b_all].
        apply bb_nc; [b_all|]. intro f. apply bb_crit; [apply IHi| |]; intros [a b]; cbv beta iota; b_all.
      * intros [a b] cut; cbv beta iota; b_all.
      * intros [a b] cut; cbv beta iota; b_all.
  - intros g i n a. cbn [b_oparg]. eapply barg_bind; [apply f_marks|]. intros [[ri|] tn] e1 Q.
    + assert (H : forall f : bm bres, barg f nc -> barg f (fun b e2 => nc b (e1 ++ e2))).
      { intros f Hf. eapply barg_weak; [exact Hf|]. intros b e2 H C. apply app_ne. right. auto. }
      apply H. apply bb_nc; [b_all|]. intros [m|]; [b_all|]. apply bb_crit; [b_all| |]; intros [[v s0] fd]; cbv beta iota; b_all. apply IHi.
    + eapply barg_weak; [apply b_ret|]. intros b e2 _ _. apply app_ne. left. apply Q. reflexivity.
Qed.
Lemma f_args : forall fuel ins infs args, barg (b_args X S rawvars opargs fuel ins infs args) nc3.
Proof.
  intros fuel ins infs [ms|]; cbn [b_args]; [|b_all]. apply f_walk. intros fi k x. destruct (slookup infs k) as [[n i]|]; [|b_all].
  apply bb_nc; [b_all|]. intro a. apply bb_nc; [b_all|]. intro f. apply bb_crit; [apply f_input| |]; intros [v b]; cbv beta iota; b_all.
Qed.
Lemma f_no_args : forall fuel ins infs s, exists a, b_args X S rawvars opargs fuel ins infs None s = BOk (a, false, None) s.
Proof. intros. cbn. eexists; reflexivity. Qed.
Lemma f_directive : forall fuel loc x, barg (b_directive X S rawvars opargs fuel loc x) nc.
Proof.
  intros fuel loc x. unfold b_directive. destruct (nlookup (s_dirs S) loc) as [ds|]; [|b_all].
  destruct (find _ ds) as [d|]; [|b_all]. apply bb_from3; [apply f_args| |]; intros args cut; cbv beta iota; b_all.
Qed.
Lemma f_directives : forall fuel loc l, barg (b_directives X S rawvars opargs fuel loc l) nc.
Proof.
  intros fuel loc. induction l as [|x r IH]; cbn [b_directives]; [b_all|].
  apply bb_crit; [apply f_directive| |]; intros sk; cbv beta iota; cbn [orb]; b_all. apply IH.
Qed.
End B.

(** ** Selections: the shape of the response tree and the paths of errors *)
(** what can be reached from the operations of a schema *)
Inductive reach (S : schema) : obj -> Prop :=
| reach_query : reach S (s_query S)
| reach_method : reach S (s_method S)
| reach_type : forall n o, slookup (s_types S) n = Some o -> reach S o
| reach_iface : forall n o, slookup (s_ifaces S) n = Some o -> reach S o
| reach_field : forall o h fo c i n hd, reach S o -> nlookup (o_fields o) h = Some (Field fo c i n hd) -> reach S fo
| reach_elem : forall e, reach S (OArray e) -> reach S e
| reach_ptr : forall e, reach S (OPtr e) -> reach S e
| reach_out : forall a b c d e o, reach S (OMethod (Method a b c d e o)) -> reach S o
| reach_impl : forall n fs is x, reach S (OIface n fs is) -> In x is -> reach S (snd x).

(** [leads t p]: following the keys and indices [p] in the response [t] leads to a value *)
Inductive leads : rt -> list pitem -> Prop :=
| leads_here : forall t, leads t []
| leads_idx : forall l i t p, nth_error l i = Some t -> leads t p -> leads (TArr l) (PIdx (N.of_nat i) :: p)
| leads_key : forall m k t p, In (k, t) m -> leads t p -> leads (TObj m) (PKey k :: p).

Section C.
Variable okname : bytes -> Prop.    (* names that can be written into a JSON string *)
Variable dkey : bytes -> Prop.      (* response keys of fields with directives *)
Variable holes : Prop.
(** trees with holes only if [H] *)
Fixpoint okt (H : Prop) (t : rt) {struct t} : Prop :=
  match t with
  | TName n => okname n
  | TQuoted t => match t with TNull | TBool _ | TInt _ | TFloat _ _ => True | _ => False end
  | TArr l => (fix f l := match l with [] => True | x :: r => okt H x /\ f r end) l
  | TObj m => (fix f m := match m with [] => True | (k, x) :: r => (okname k /\ okt H x) /\ f r end) m
  | THole => H
  | _ => True
  end.
Definition okts (H : Prop) (l : list rt) : Prop := okt H (TArr l).
Definition okm (H : Prop) (m : list (bytes * rt)) : Prop := okt H (TObj m).
Lemma okm_app : forall H a b, okm H a -> okm H b -> okm H (a ++ b).
Proof. intros H a b A B. unfold okm in *. cbn in *. induction a as [|[k t] r IH]; cbn in *; tauto. Qed.
Section rt_ind2.
Variable P : rt -> Prop.
Hypothesis Hl : forall t, (match t with TArr _ | TObj _ | TQuoted _ => False | _ => True end) -> P t.
Hypothesis Hq : forall t, P t -> P (TQuoted t).
Hypothesis Ha : forall l, Forall P l -> P (TArr l).
Hypothesis Ho : forall m, Forall (fun x => P (snd x)) m -> P (TObj m).
Fixpoint rt_ind2 (t : rt) : P t :=
  match t with
  | TQuoted t => Hq t (rt_ind2 t)
  | TArr l => Ha l ((fix f l : Forall P l := match l with [] => Forall_nil _ | x :: r => Forall_cons x (rt_ind2 x) (f r) end) l)
  | TObj m => Ho m ((fix f m : Forall (fun x => P (snd x)) m := match m with [] => Forall_nil _ | x :: r => Forall_cons x (rt_ind2 (snd x)) (f r) end) m)
  | x => Hl x I
  end.
End rt_ind2.
Lemma okt_impl : forall (H H' : Prop) t, (H -> H') -> okt H t -> okt H' t.
Proof.
  clear dkey holes. intros H H' t I. induction t as [t L|t IH|l IH|m IH] using rt_ind2; cbn; auto.
  - destruct t; cbn; auto; contradiction.
  - intros A. induction IH; cbn in *; tauto.
  - intros A. induction IH as [|[k x] r]; cbn in *; tauto.
Qed.

(** an error placed in a response whose own path is [p] *)
Definition placed (p : bytes) (t : rt) (e : rerr) : Prop := exists q,
  re_path e = strip (p ++ path_text q) /\
  (leads t q \/ exists q' k, q = q' ++ [PKey k] /\ leads t q' /\ dkey k).
Lemma placed_here : forall p t e, at_ p e -> placed p t e.
Proof. intros p t e H. exists []. split; [cbn; rewrite app_nil_r; exact H|]. left. constructor. Qed.
Lemma placed_app_l : forall p a b e, placed p (TObj a) e -> placed p (TObj (a ++ b)) e.
Proof.
  intros p a b e (q & E & H). exists q. split; auto.
  assert (L : forall q, leads (TObj a) q -> leads (TObj (a ++ b)) q).
  { clear. intros q H. inversion H; subst; [constructor|]. econstructor; eauto. apply in_or_app; auto. }
  destruct H as [H|(q' & k & -> & H & D)]; [left; auto|right]. exists q', k. auto.
Qed.
Lemma placed_app_r : forall p a b e, placed p (TObj b) e -> placed p (TObj (a ++ b)) e.
Proof.
  intros p a b e (q & E & H). exists q. split; auto.
  assert (L : forall q, leads (TObj b) q -> leads (TObj (a ++ b)) q).
  { clear. intros q H. inversion H; subst; [constructor|]. econstructor; eauto. apply in_or_app; auto. }
  destruct H as [H|(q' & k & -> & H & D)]; [left; auto|right]. exists q', k. auto.
Qed.
Lemma placed_key : forall p k t e, placed (p ++ [44; 34] ++ k ++ [34]) t e -> placed p (TObj [(k, t)]) e.
Proof.
  intros p k t e (q & E & H). exists (PKey k :: q). split.
  - rewrite E. f_equal. rewrite <- app_assoc. f_equal.
    all: unfold path_text; cbn; rewrite <- ?app_assoc; reflexivity.
  - destruct H as [H|(q' & k' & -> & H & D)]; [left|right]; [eapply leads_key; eauto; left; auto|].
    exists (PKey k :: q'), k'. split; auto. split; auto. eapply leads_key; eauto. left; auto.
Qed.
Lemma placed_idx : forall p i t l e, placed (p ++ [44] ++ dec_of_N (N.of_nat i)) t e -> nth_error l i = Some t -> placed p (TArr l) e.
Proof.
  intros p i t l e (q & E & H) N. exists (PIdx (N.of_nat i) :: q). split.
  - rewrite E. f_equal. rewrite <- app_assoc. f_equal.
  - destruct H as [H|(q' & k' & -> & H & D)]; [left|right]; [eapply leads_idx; eauto|].
    exists (PIdx (N.of_nat i) :: q'), k'. split; auto. split; auto. eapply leads_idx; eauto.
Qed.

(** what is asked of selections *)
Definition key_of (alias : option bytes) (name : bytes) : bytes := match alias with Some a => a | None => name end.
Fixpoint sel_fine (x : sel) : Prop :=
  match x with
  | SField alias name ds args subs =>
      okname (key_of alias name) /\ (ds <> [] -> dkey (key_of alias name)) /\ (args <> None -> holes) /\
      (name = bs "__typename" -> subs <> [] -> holes) /\
      (fix f l := match l with [] => True | x :: r => sel_fine x /\ f r end) subs
  | SSpread _ _ => True
  | SInline _ _ subs => (fix f l := match l with [] => True | x :: r => sel_fine x /\ f r end) subs
  end.
Fixpoint sels_fine (l : list sel) : Prop := match l with [] => True | x :: r => sel_fine x /\ sels_fine r end.
Definition cur_fine (c : cursor) : Prop :=
  match c with CArgs _ subs => holes /\ sels_fine subs | CSels subs => sels_fine subs | CLost => True end.

Context {W : Type}.
Variable X : externals W.
Variable S : schema.
Variable rawvars : bytes.
Variable opargs : option (list oparg).
Variable fdefs : list (bytes * bytes * list sel).
Hypothesis names : forall o, reach S o -> okname (o_name o).
Hypothesis enum_names : forall e n v, In e (s_enums S) -> In (n, v) (en_entries e) -> okname n.
Hypothesis frags_fine : forall n t ss, In (n, t, ss) fdefs -> sels_fine ss.
Notation bm := (@bm W).

Definition bspec {A} (f : bm A) (R : bytes -> A -> list rerr -> Prop) : Prop := forall s,
  match f s with BOk a t => exists es, good X rawvars s t es /\ R (r_path s) a es | _ => True end.
Definition members_ok (p : bytes) (a : list (bytes * rt) * bool) (es : list rerr) : Prop :=
  okm (holes /\ es <> []) (fst a) /\ (snd a = true -> es <> []) /\ Forall (placed p (TObj (fst a))) es.
Definition value_ok (p : bytes) (a : rt * bool) (es : list rerr) : Prop :=
  okt (holes /\ es <> []) (fst a) /\ (snd a = true -> es <> []) /\ Forall (placed p (fst a)) es.
Definition elems_ok (n : nat) (p : bytes) (a : list rt) (es : list rerr) : Prop :=
  okts (holes /\ es <> []) a /\
  Forall (fun e => exists i t, nth_error a i = Some t /\ placed (p ++ [44] ++ dec_of_N (N.of_nat (n + i))) t e) es.

Lemma s_weak : forall A (f : bm A) (R R' : bytes -> A -> list rerr -> Prop), bspec f R -> (forall p a es, R p a es -> R' p a es) -> bspec f R'.
Proof. intros A f R R' H I s. specialize (H s). destruct (f s); auto. destruct H as (es & G & Q). exists es. auto. Qed.
Lemma s_bind : forall A B (f : bm A) (g : A -> bm B) R1 (R : bytes -> B -> list rerr -> Prop), bspec f R1 ->
  (forall p a e1, R1 p a e1 -> bspec (g a) (fun p' b e2 => p' = p -> R p b (e1 ++ e2))) -> bspec (bbind f g) R.
Proof.
  intros A B f g R1 R F G s. unfold bbind. specialize (F s). destruct (f s) as [a t| | |]; auto. destruct F as (e1 & G1 & Q1).
  specialize (G _ a e1 Q1 t). destruct (g a t) as [b u| | |]; auto. destruct G as (e2 & G2 & Q2). exists (e1 ++ e2).
  split; [eapply good_trans; eauto|]. apply Q2. apply G1.
Qed.
Lemma s_arg : forall A (f : bm A) R, barg X rawvars f R -> bspec f (fun p a es => Forall (at_ p) es /\ R a es).
Proof. intros A f R H s. specialize (H s). destruct (f s); auto. Qed.
(** a step without errors of its own, and one with errors at the current path *)
Lemma s_quiet : forall A B (f : bm A) (g : A -> bm B) R, (forall s, match f s with BOk _ t => good X rawvars s t [] | _ => True end) ->
  (forall a, bspec (g a) R) -> bspec (bbind f g) R.
Proof.
  intros A B f g R F G s. unfold bbind. specialize (F s). destruct (f s) as [a t| | |]; auto. specialize (G a t).
  destruct (g a t) as [b u| | |]; auto. destruct G as (es & G2 & Q). exists es. split; [apply (good_trans X rawvars _ _ _ _ _ F G2)|].
  destruct F as [P _]. rewrite <- P. exact Q.
Qed.
Ltac quiet := apply s_quiet; [intros; cbn; auto; apply good_refl; reflexivity|].
Lemma quiet_opt : forall A (o : option A) s, match lift (of_opt o) s with BOk _ t => good X rawvars s t [] | _ => True end.
Proof. intros A [a|] s; cbn; auto. apply good_refl; reflexivity. Qed.
Lemma s_ret : forall A (a : A) (R : bytes -> A -> list rerr -> Prop), (forall p, R p a []) -> bspec (bret a) R.
Proof. intros A a R H s. cbn. exists []. split; auto. apply good_refl; reflexivity. Qed.
Lemma s_panic : forall A R, bspec (@bpanic W A) R. Proof. intros; hnf; cbn; auto. Qed.
Lemma s_nofuel : forall A R, bspec (@bnofuel W A) R. Proof. intros; hnf; cbn; auto. Qed.
Lemma s_nope : forall A R, bspec (@bnope W A) R. Proof. intros; hnf; cbn; auto. Qed.
Lemma s_err : forall m, bspec (lift (err m)) (fun p a es => es <> [] /\ Forall (at_ p) es).
Proof.
  intros m s. cbn. eexists. split; [split; [|split]; [reflexivity|reflexivity|left; reflexivity]|].
  split; [discriminate|]. repeat constructor.
Qed.
Lemma s_err_value : forall m (t : rt), okt False t -> bspec (bbind (lift (err m)) (fun b => bret (t, b))) value_ok.
Proof.
  intros m t H. eapply s_bind; [apply s_err|]. intros p a e1 (N & F). apply s_ret. intros p' ->. rewrite app_nil_r.
  split; [eapply okt_impl; [|exact H]; tauto|]. split; auto. cbn. eapply Forall_impl; [|exact F]. intros. now apply placed_here.
Qed.
Lemma s_err_members : forall m, bspec (bbind (lift (err m)) (fun b => bret ([], b))) members_ok.
Proof.
  intros m. eapply s_bind; [apply s_err|]. intros p a e1 (N & F). apply s_ret. intros p' ->. rewrite app_nil_r.
  split; [exact I|]. split; auto. cbn. eapply Forall_impl; [|exact F]. intros. now apply placed_here.
Qed.
Lemma v_ret : forall t, okt False t -> bspec (bret (t, false)) value_ok.
Proof.
  intros t H. apply s_ret. intro p. split; [eapply okt_impl; [|exact H]; tauto|]. split; [discriminate|constructor].
Qed.
Lemma s_value_tree : forall v k, bspec (value_tree v k) (fun _ t es => es = [] /\ match t with TNull | TBool _ | TInt _ | TFloat _ _ => True | TStr _ => k = KString | _ => False end).
Proof. intros v k. unfold value_tree. destruct k; try (destruct v; try apply s_panic); apply s_ret; auto. Qed.
Lemma s_enum_tree : forall k v es, (forall n x, In (n, x) es -> okname n) -> bspec (enum_tree k v es) (fun _ t er => er = [] /\ okt False t).
Proof.
  intros k v. induction es as [|[n e] r IH]; intros H; cbn [enum_tree]; [apply s_ret; cbn; auto|].
  apply s_quiet.
  - intro s. unfold same_enum_value. destruct k, v, e; cbn; auto; apply good_refl; reflexivity.
  - intros [|]; [apply s_ret; intro; split; auto; cbn; eapply H; left; reflexivity|]. apply IH. intros. eapply H; right; eauto.
Qed.

(** running [f] with the path [p ++ x] *)
Lemma s_at : forall A (f : bm A) R s x, bspec f R ->
  match f (set_path (r_path s ++ x) s) with
  | BOk a t => exists es, good X rawvars s (set_path (r_path s) t) es /\ r_path t = r_path s ++ x /\ R (r_path s ++ x) a es
  | _ => True
  end.
Proof.
  intros A f R s x H. specialize (H (set_path (r_path s ++ x) s)). destruct (f _) as [a t| | |]; auto.
  destruct H as (es & (P & E & V) & Q). exists es. split; [|auto]. split; [reflexivity|]. split; [exact E|exact V].
Qed.
Notation dirs := (b_directives X S rawvars opargs).
Lemma s_skip : forall fuel loc ds (f : bm (list (bytes * rt) * bool)), bspec f members_ok ->
  bspec (bbind (dirs fuel loc ds) (fun '(skip_, crit) => if crit || skip_ then bret ([], crit) else f)) members_ok.
Proof.
  intros fuel loc ds f H. eapply s_bind; [apply s_arg; apply f_directives|]. intros p [sk cr] e1 (F & Q). unfold nc in Q. cbn [snd] in Q.
  destruct (cr || sk) eqn:Eb.
  - apply s_ret. intros p' ->. rewrite app_nil_r. split; [exact I|]. split; auto. eapply Forall_impl; [|exact F]. intros. now apply placed_here.
  - eapply s_weak; [exact H|]. intros p' [ms c] es (A & B & C) ->. cbn [fst snd] in *. split; [|split].
    + eapply okt_impl; [|exact A]. intros [? ?]. split; auto. apply app_ne; auto.
    + intro. apply app_ne; auto.
    + apply Forall_app. split; auto. eapply Forall_impl; [|exact F]. intros. now apply placed_here.
Qed.
Lemma more_errs : forall A (f : bm A) e1 p0 (R : bytes -> A -> list rerr -> Prop), bspec f R ->
  (forall a es, R p0 a es -> R p0 a (e1 ++ es)) -> bspec f (fun p' a es => p' = p0 -> R p0 a (e1 ++ es)).
Proof. intros A f e1 p0 R H I. eapply s_weak; [exact H|]. intros p a es Q ->. auto. Qed.
Lemma value_ok_more : forall p a e1 es, Forall (at_ p) e1 -> value_ok p a es -> value_ok p a (e1 ++ es).
Proof.
  intros p a e1 es F (A & B & C). split; [|split].
  - eapply okt_impl; [|exact A]. intros [? ?]. split; auto. apply app_ne; auto.
  - intro. apply app_ne; auto.
  - apply Forall_app. split; auto. eapply Forall_impl; [|exact F]. intros. now apply placed_here.
Qed.
Lemma cur_of_fine : forall args subs, (args <> None -> holes) -> sels_fine subs -> cur_fine (cur_of args subs).
Proof. intros [fs|] subs H F; cbn; auto. split; auto. apply H. discriminate. Qed.

(** the errors of a field have paths that begin with the path of the field *)
Definition below (p : bytes) (key : bytes) (e : rerr) : Prop := exists q, re_path e = strip (p ++ path_text (PKey key :: q)).
Definition field_ok (key p : bytes) (a : list (bytes * rt) * bool) (es : list rerr) : Prop := members_ok p a es /\ Forall (below p key) es.
Lemma below_at : forall p k e, at_ (p ++ [44; 34] ++ k ++ [34]) e -> below p k e.
Proof. intros p k e H. exists []. rewrite H. f_equal. f_equal. unfold path_text. cbn. rewrite app_nil_r. reflexivity. Qed.
Lemma below_placed : forall p k t e, placed (p ++ [44; 34] ++ k ++ [34]) t e -> below p k e.
Proof.
  intros p k t e (q & H & _). exists q. rewrite H. f_equal. rewrite <- app_assoc. f_equal.
  all: unfold path_text; cbn; rewrite <- ?app_assoc; reflexivity.
Qed.
Lemma f_field : forall fuel,
  (forall o dept g k cur, reach S o -> cur_fine cur -> bspec (b_value X S rawvars opargs fdefs fuel o dept g k cur) value_ok) ->
  forall o dept g k al n ds args subs, reach S o -> sel_fine (SField al n ds args subs) ->
    bspec (b_field X S rawvars opargs fdefs (Datatypes.S fuel) o dept g k al n ds args subs) (field_ok (key_of al n)).
Proof.
  intros fuel IHv o dept g k al n ds args subs R (Hk & Hd & Ha & Ht & Hs). fold sels_fine in Hs.
  assert (Fs : sels_fine subs) by (clear -Hs; induction subs; cbn in *; tauto). clear Hs. fold (key_of al n).
  cbn [b_field]. fold (key_of al n). intro s. unfold bbind at 1 2. unfold lift at 1 2, get_path, put_path at 1. cbn [orb].
  (* the value *)
  match goal with |- context [bbind (match nlookup (o_fields o) (fnv1 n) with _ => _ end) _] => idtac end.
  assert (V : bspec (match nlookup (o_fields o) (fnv1 n) with
        | None =>
            if beqb n (bs "__typename") then
              if has_sub (cur_of args subs) then (bbind (lift (err (bs "cannot have a selection set on this field"))) (fun b => bret (THole, b)))
              else bret (TName (o_name o), false)
            else bbind (lift (err (n ++ bs " does not exists on " ++ o_name o))) (fun b => bret (TNull, b))
        | Some (Field fo custom idx _ _) =>
            bbind (match custom with
                 | Some v => bret (false, v)
                 | None =>
                     match fo with
                     | OMethod (Method true _ _ _ _ _) => bret (fst g, GMethod (snd g) idx)
                     | _ => lift (field_of g idx)
                     end
                 end) (fun v =>
            if k =? 255 then bnope else b_value X S rawvars opargs fdefs fuel fo dept v (k + 1) (cur_of args subs))
        end) value_ok).
  { destruct (nlookup (o_fields o) (fnv1 n)) as [[fo custom idx fn hd]|] eqn:El.
    - apply s_quiet.
      + intro t. destruct custom; [apply good_refl; reflexivity|]. destruct fo as [| | | | | |[[]]| | | |]; unfold lift, field_of; cbn;
        try (destruct (snd g); cbn; auto; destruct (nth_error _ _) as [[? ?]|]; cbn; auto); apply good_refl; reflexivity.
      + intro v. destruct (k =? 255); [apply s_nope|]. apply IHv; [eapply reach_field; eauto|]. now apply cur_of_fine.
    - destruct (beqb n _) eqn:En; [|apply s_err_value; exact I].
      destruct (has_sub _) eqn:Eh.
      + eapply s_bind; [apply s_err|]. intros p a e1 (N & F). apply s_ret. intros p' ->. rewrite app_nil_r.
        split; [|split; auto; eapply Forall_impl; [|exact F]; intros; now apply placed_here]. cbn. split; auto.
        apply beqb_eq in En. destruct args as [fs|]; [apply Ha; discriminate|]. destruct subs; [discriminate|]. apply Ht; auto. discriminate.
      + apply v_ret. cbn. apply names. exact R. }
  pose proof (s_at _ _ _ s ([44; 34] ++ key_of al n ++ [34]) (s_arg _ _ _ (f_directives X S rawvars opargs fuel 0 ds))) as D.
  unfold bbind at 1. cbv beta in D. destruct (dirs fuel 0 ds _) as [[sk cr] t1| | |] eqn:Ed; auto. destruct D as (e1 & G1 & P1 & F1 & Q1).
  unfold nc in Q1. cbn [snd] in Q1.
  destruct (cr || sk) eqn:Eb.
  + assert (Nd : ds <> []) by (intros ->; cbn in Ed; injection Ed; intros _ <- <-; discriminate Eb).
    cbn. exists e1. split; [exact G1|]. split; [|eapply Forall_impl; [|exact F1]; intros; now apply below_at]. split; [exact I|]. split; [exact Q1|]. cbn [fst]. eapply Forall_impl; [|exact F1]. intros e He.
    exists [PKey (key_of al n)]. split.
    * rewrite He. f_equal. f_equal. unfold path_text. cbn. rewrite app_nil_r. reflexivity.
    * right. exists [], (key_of al n). split; auto. split; [constructor|auto].
  + specialize (V t1). unfold bbind at 1.
    match goal with |- match match ?x with _ => _ end with _ => _ end =>
      change (match x with BOk a t => exists es, good X rawvars t1 t es /\ value_ok (r_path t1) a es | _ => True end) in V;
      destruct x as [[t c] t2| | |]; auto end.
    destruct V as (e2 & G2 & A & B & C). cbn [fst snd] in *. cbn. exists (e1 ++ e2). split; [|split; [split; [|split]|]]; cbn [fst snd].
    * apply (good_trans X rawvars s (set_path (r_path s) t1)); [exact G1|]. destruct G2 as (_ & E & V). split; [reflexivity|]. split; [exact E|exact V].
    * split; [|exact I]. split; [exact Hk|]. eapply okt_impl; [|exact A]. intros [? ?]. split; auto. apply app_ne; auto.
    * intro. apply app_ne; auto.
    * rewrite P1 in C. apply Forall_app. split.
      -- eapply Forall_impl; [|exact F1]. intros. apply placed_key. now apply placed_here.
      -- eapply Forall_impl; [|exact C]. intros. now apply placed_key.
      * rewrite P1 in C. apply Forall_app. split; [eapply Forall_impl; [|exact F1]; intros; now apply below_at|eapply Forall_impl; [|exact C]; intros; eapply below_placed; eauto].
Qed.
Lemma f_run : forall fuel,
  (forall o dept g k ss, reach S o -> sels_fine ss -> bspec (b_sels X S rawvars opargs fdefs fuel o dept g k ss) members_ok) /\
  (forall o dept g k tn ds ss, reach S o -> sels_fine ss -> bspec (b_inline X S rawvars opargs fdefs fuel o dept g k tn ds ss) members_ok) /\
  (forall o dept g k n ds, reach S o -> bspec (b_spread X S rawvars opargs fdefs fuel o dept g k n ds) members_ok) /\
  (forall o dept g k al n ds args subs, reach S o -> sel_fine (SField al n ds args subs) ->
     bspec (b_field X S rawvars opargs fdefs fuel o dept g k al n ds args subs) members_ok) /\
  (forall o dept g k cur, reach S o -> cur_fine cur -> bspec (b_value X S rawvars opargs fdefs fuel o dept g k cur) value_ok).
Proof.
  induction fuel as [|fuel (IHs & IHi & IHp & IHf & IHv)]; [repeat split; intros; apply s_nofuel|].
  split; [|split; [|split; [|split]]].
  - intros o dept g k ss R F. destruct ss as [|x r]; cbn [b_sels]; [apply s_ret; intro p; split; [exact I|split; [discriminate|constructor]]|].
    destruct F as [Fx Fr]. eapply s_bind with (R1 := members_ok).
    + destruct x; [apply IHf; auto|apply IHp; auto|apply IHi; auto].
    + intros p [ms crit] e1 (A & B & C). cbn [fst snd] in *. destruct crit.
      * apply s_ret. intros p' ->. rewrite app_nil_r. split; auto.
      * eapply s_bind; [apply IHs; eauto|]. intros p' [ms' c'] e2 (A2 & B2 & C2). apply s_ret. intros p'' -> ->. rewrite app_nil_r. cbn [fst snd] in *.
        split; [|split].
        -- apply okm_app; [eapply okt_impl; [|exact A]|eapply okt_impl; [|exact A2]]; intros [? ?]; split; auto; apply app_ne; auto.
        -- intro. apply app_ne; auto.
        -- apply Forall_app. split; [eapply Forall_impl; [|exact C]; intros; now apply placed_app_l|eapply Forall_impl; [|exact C2]; intros; now apply placed_app_r].
  - intros o dept g k tn ds ss R F. cbn [b_inline]. apply s_skip. destruct (negb _); [apply s_ret; intro p; split; [exact I|split; [discriminate|constructor]]|].
    apply IHs; auto.
  - intros o dept g k n ds R. cbn [b_spread]. apply s_skip. destruct (b_fragment fdefs n) as [[[m tn] ss]|] eqn:Ef; [|apply s_err_members].
    assert (Z : bspec (bret ([], false)) members_ok) by (apply s_ret; intro p; split; [exact I|split; [discriminate|constructor]]).
    unfold b_fragment in Ef. apply find_some in Ef. destruct Ef as [Ef _].
    destruct (skipn (length n) m); destruct (negb _); auto; [|apply s_nope]. apply IHs; auto. eapply frags_fine; eauto.
  - intros o dept g k al n ds args subs R F. eapply s_weak; [apply f_field; auto|]. intros p x es H. apply H.
  - intros o dept g k cur R Fc. cbn [b_value].
    destruct (_ && _) eqn:Ea; [apply s_err_value; exact I|].
    assert (obj_case : forall t, reach S t -> bspec
                  (let dept := (dept + 1) mod 256 in
                  if dept =? s_maxdepth S then (bbind (lift (err (bs "reached max dept"))) (fun b => bret (TNull, b)))
                  else
                    match cur with
                    | CSels subs => bbind (b_sels X S rawvars opargs fdefs fuel t dept g k subs) (fun '(ms, crit) => bret (TObj ms, crit))
                    | CLost => match fuel with
                               | O => bnofuel
                               | Datatypes.S _ => bbind (lift (err (bs "unsupported operation u"))) (fun b => bret (TObj [], b))
                               end
                    | CArgs _ _ => bpanic
                    end) value_ok).
    { intros t Rt. cbv zeta. destruct (_ =? s_maxdepth S); [apply s_err_value; exact I|].
      destruct cur as [fs subs|subs|]; [apply s_panic| |destruct fuel; [apply s_nofuel|apply s_err_value; exact I]].
      eapply s_bind; [apply IHs; eauto|]. intros p [ms c] e1 H. apply s_ret. intros p' ->. rewrite app_nil_r. exact H. }
    assert (iface_case : forall t, reach S t -> bspec
                  (match snd g with
                  | GIface None => bret (TNull, false)
                  | GIface (Some (tn, pkg, v)) =>
                      if k =? 255 then bnope
                      else
                        match find (fun i => beqb (fst (fst i)) tn && beqb (snd (fst i)) pkg)
                                   (match t with OIface _ _ is => is | _ => [] end) with
                        | Some (_, impl) => b_value X S rawvars opargs fdefs fuel impl ((dept + 1) mod 256) (fst g, v) (k + 1) cur
                        | None => bret (TNull, false)
                        end
                  | _ => bpanic
                  end) value_ok).
    { intros t Rt. destruct (snd g) as [| | | | | | | | | | |[[[tn pkg] v]|]| | | | |]; try apply s_panic; [|apply v_ret; exact I].
      destruct (k =? 255); [apply s_nope|]. destruct (find _ _) as [[nm impl]|] eqn:Ef; [|apply v_ret; exact I].
      apply find_some in Ef. destruct Ef as [Ef _]. apply IHv; auto. destruct t; try contradiction.
      change impl with (snd (nm, impl)). eapply reach_impl; eauto. }
    destruct o as [|e|n|n fs|isid kd|e|m|i| |n|n fs is].
    + apply v_ret. exact I.
    + assert (L : forall l, bspec (if k =? 255 then bnope
                else
                  bbind ((fix elems (n : N) (l : list gval) : bm (list rt) :=
                           match l with
                           | [] => bret []
                           | v :: r =>
                               bbind (lift get_path) (fun path =>
                               bbind (lift (put_path (path ++ [44] ++ dec_of_N n))) (fun _ =>
                               bbind (b_value X S rawvars opargs fdefs fuel e dept (fst g, v) (k + 1) cur) (fun '(t, _) =>
                               bbind (lift (put_path path)) (fun _ =>
                               bbind (elems (n + 1) r) (fun ts => bret (t :: ts))))))
                           end) 0 l) (fun ts => bret (TArr ts, false))) value_ok).
      { intro l. destruct (k =? 255); [apply s_nope|].
        match goal with |- bspec (bbind (?F 0 l) _) _ => assert (H : forall l n, bspec (F (N.of_nat n) l) (elems_ok n)) end.
        { clear l. induction l as [|v r IH]; intro n; [apply s_ret; intro p; split; [exact I|constructor]|].
          intro s. unfold bbind at 1 2. unfold lift at 1 2, get_path, put_path at 1.
          pose proof (s_at _ _ _ s ([44] ++ dec_of_N (N.of_nat n)) (IHv e dept (fst g, v) (k + 1) cur (reach_elem _ _ R) Fc)) as D.
          unfold bbind at 1. destruct (b_value _ _ _ _ _ _ _ _ _ _ _ _) as [[t c] t1| | |]; auto. destruct D as (e1 & G1 & P1 & A & B & C). cbn [fst snd] in *.
          unfold bbind at 1. unfold lift at 1, put_path at 1. unfold bbind at 1.
          specialize (IH (Datatypes.S n) (set_path (r_path s) t1)). replace (N.of_nat n + 1) with (N.of_nat (Datatypes.S n)) by lia.
          match goal with |- match match ?x with _ => _ end with _ => _ end =>
            change (match x with BOk a t => exists es, good X rawvars (set_path (r_path s) t1) t es /\ elems_ok (Datatypes.S n) (r_path s) a es | _ => True end) in IH;
            destruct x as [ts t2| | |]; auto end.
          destruct IH as (e2 & G2 & A2 & C2). cbn. exists (e1 ++ e2). split; [eapply good_trans; eauto|]. split.
          - split; [eapply okt_impl; [|exact A]|change (okts (holes /\ e1 ++ e2 <> []) ts); eapply okt_impl; [|exact A2]];
            intros [? ?]; split; auto; apply app_ne; auto.
          - apply Forall_app. split.
            + eapply Forall_impl; [|exact C]. intros er He. exists O, t. rewrite Nat.add_0_r. auto.
            + eapply Forall_impl; [|exact C2]. intros er (i & t' & Hn & Hp). exists (Datatypes.S i), t'. split; [exact Hn|].
              replace (n + Datatypes.S i)%nat with (Datatypes.S n + i)%nat by lia. exact Hp. }
        eapply s_bind; [apply (H l O)|]. intros p ts e1 (A & C). apply s_ret. intros p' ->. rewrite app_nil_r.
        split; [exact A|]. split; [discriminate|]. cbn [fst]. eapply Forall_impl; [|exact C]. intros er (i & t' & Hn & Hp). eapply placed_idx; eauto. }
      destruct (snd g) as [| | | | |[l|]|l| | | | | | | | | |]; try apply s_panic; [apply L|apply v_ret; exact I|apply L].
    + destruct (negb (has_sub cur)); [apply s_err_value; exact I|]. destruct (slookup (s_types S) n) as [t|] eqn:Et; [|apply v_ret; exact I].
      apply obj_case; auto. eapply reach_type; eauto.
    + destruct (negb (has_sub cur)); [apply s_err_value; exact I|]. apply obj_case; auto.
    + destruct (has_sub cur); [apply s_err_value; exact I|]. eapply s_bind; [apply s_value_tree|].
      intros p t e1 (-> & Ht). apply s_ret. intros p' ->. split; [|split; [discriminate|constructor]]. cbn [fst].
      destruct (isid && _) eqn:Ei; destruct t; try contradiction; cbn; auto.
      rewrite Ht in Ei. rewrite andb_false_r in Ei. discriminate.
    + destruct (snd g); try apply s_panic. destruct p; [|apply v_ret; exact I]. apply IHv; auto. now apply reach_ptr.
    + destruct m as [ist ins infs outnr errnr out].
      assert (M : bspec (bbind (b_args X S rawvars opargs fuel ins infs (match cur with CArgs fs _ => Some fs | _ => None end)) (fun '(av, crit, cut) =>
                if crit : bool then bret (THole, true)
                else
                  let cur := match cur with CArgs _ subs => after_args cut subs | _ => cur end in
                  if fst g then bpanic
                  else
                    bbind (lift get_world) (fun w =>
                    bbind (lift get_path) (fun p =>
                    bbind (lift (of_opt (x_call X w (snd g) av p))) (fun '(w, outs) =>
                    bbind (lift (put_world w)) (fun _ =>
                    bbind (match errnr with
                     | None => bret tt
                     | Some n =>
                         bbind (lift (of_opt (nth_error outs n))) (fun e =>
                         match e with
                         | GErr None => bret tt
                         | GErr (Some m) => bbind (lift (err m)) (fun _ => bret tt)
                         | _ => bpanic
                         end)
                     end) (fun _ =>
                    match x_ctxerr X w with
                    | Some m => bbind (lift (err m)) (fun _ => bret (TNull, false))
                    | None =>
                        bbind (lift (of_opt (nth_error outs outnr))) (fun v =>
                        b_value X S rawvars opargs fdefs fuel out dept (false, v) k cur)
                    end)))))))
                value_ok).
      { eapply s_bind with (R1 := fun p a es => Forall (at_ p) es /\ (snd (fst a) = true -> holes /\ es <> [])).
        - intro s. destruct cur as [fs subs|subs|]; [|cbn; exists []; split; [apply good_refl; reflexivity|split; [constructor|discriminate]]..].
          pose proof (f_args X S rawvars opargs fuel ins infs (Some fs) s) as H. destruct (b_args _ _ _ _ _ _ _ _ _) as [[[av c] cut] t| | |]; auto.
          destruct H as (es & G & F & Q). exists es. split; [exact G|]. split; [exact F|]. intro C. split; [apply Fc|apply Q; exact C].
        - intros p [[av crit] cut] e1 (F1 & Q1). cbn [fst snd] in Q1.
          assert (Up : forall f, bspec f value_ok -> bspec f (fun p' a es => p' = p -> value_ok p a (e1 ++ es))).
          { intros f Hf. eapply s_weak; [exact Hf|]. intros p' a es Q ->. now apply value_ok_more. }
          destruct crit.
          + apply s_ret. intros p' ->. rewrite app_nil_r. specialize (Q1 eq_refl). split; [cbn; tauto|]. split; [tauto|].
            eapply Forall_impl; [|exact F1]. intros. now apply placed_here.
          + apply Up. destruct (fst g); [apply s_panic|]. quiet. intro w. quiet. intro pa. apply s_quiet; [apply quiet_opt|]. intros [w' outs]. quiet. intros _.
            eapply s_bind with (R1 := fun p a es => Forall (at_ p) es).
            { destruct errnr as [n|]; [|apply s_ret; constructor]. apply s_quiet; [apply quiet_opt|]. intros e. destruct e as [| | | | | | | | | | | | | |[m|]| |]; try apply s_panic; [|apply s_ret; constructor].
              eapply s_bind; [apply s_err|]. intros p' a e2 (_ & F). apply s_ret. intros p'' ->. rewrite app_nil_r. exact F. }
            intros p' [] e2 F2.
            assert (Up2 : forall f, bspec f value_ok -> bspec f (fun p'' a es => p'' = p' -> value_ok p' a (e2 ++ es))).
            { intros f Hf. eapply s_weak; [exact Hf|]. intros p'' a es Q ->. now apply value_ok_more. }
            apply Up2. destruct (x_ctxerr X w').
            * eapply s_bind; [apply s_err|]. intros q a e3 (N & F). apply s_ret. intros q' ->. rewrite app_nil_r.
              split; [exact I|]. split; [discriminate|]. eapply Forall_impl; [|exact F]. intros. now apply placed_here.
            * apply s_quiet; [apply quiet_opt|]. intro v. apply IHv; [eapply reach_out; eauto|]. destruct cur as [fs subs|subs|]; auto.
              destruct Fc. unfold after_args. destruct cut as [[|? ?]|]; cbn; auto. }
      destruct ist, (snd g) as [| | | | | | | | | | | |[|]| | | |]; try apply s_panic; try exact M; try (apply v_ret; exact I).
    + intro s. unfold bbind at 1, lift at 1, of_opt. destruct (nth_error (s_enums S) i) as [en|] eqn:Een; cbn [ret panic]; auto.
      revert s. change (bspec (bbind (enum_tree (en_kind en) (snd g) (en_entries en)) (fun t => bret (t, false))) value_ok).
      eapply s_bind; [apply s_enum_tree; intros; eapply enum_names; eauto; eapply nth_error_In; eauto|].
      intros p t e1 (-> & Ht). apply s_ret. intros p' ->. split; [eapply okt_impl; [|exact Ht]; contradiction|]. split; [discriminate|constructor].
    + destruct (fst g); [apply s_panic|]. destruct (snd g); apply v_ret; exact I.
    + destruct (negb (has_sub cur)); [apply s_err_value; exact I|]. destruct (slookup (s_ifaces S) n) as [t|] eqn:Et; [|apply v_ret; exact I].
      apply iface_case; auto. eapply reach_iface; eauto.
    + destruct (negb (has_sub cur)); [apply s_err_value; exact I|]. exact (iface_case (OIface n fs is) R).
Qed.
End C.

(** ** A whole operation *)
Definition def_fine (okname dkey : bytes -> Prop) (holes : Prop) (x : definition) : Prop :=
  match x with DOp _ _ _ _ ss => sels_fine okname dkey holes ss | DFrag _ _ ss => sels_fine okname dkey holes ss end.
Lemma f_operation : forall (okname dkey : bytes -> Prop) (holes : Prop) W (X : externals W) S rawvars d op fuel,
  (forall o, reach S o -> okname (o_name o)) ->
  (forall e n v, In e (s_enums S) -> In (n, v) (en_entries e) -> okname n) ->
  Forall (def_fine okname dkey holes) d -> In op d ->
  bspec X rawvars (b_operation X S rawvars d op fuel) (members_ok okname dkey holes).
Proof.
  intros okname dkey holes W X S rawvars d op fuel Hn He Hd Hi.
  assert (Ho : def_fine okname dkey holes op) by (eapply Forall_forall; eauto).
  destruct op as [kd n args ds ss|n t ss]; cbn [b_operation]; [|apply s_panic].
  assert (F : forall n t ss, In (n, t, ss) (frag_defs d) -> sels_fine okname dkey holes ss).
  { intros n' t' ss' H. unfold frag_defs in H. apply in_flat_map in H. destruct H as (x & Ix & H). destruct x; [contradiction|].
    destruct H as [H|[]]. injection H. intros; subst. eapply Forall_forall in Hd; eauto. exact Hd. }
  assert (E : forall m, bspec X rawvars (bbind (lift (err m)) (fun b => bret ([], b))) (members_ok okname dkey holes)) by (intro; apply s_err_members).
  assert (R : forall kd, reach S (match kd with OpMutation => s_method S | _ => s_query S end)) by (intros []; constructor).
  destruct kd; auto; (destruct ds; [|apply E]); [apply (proj1 (f_run okname dkey holes X S rawvars args (frag_defs d) Hn He F fuel) _ _ _ _ _ (R OpQuery) Ho)|
    apply (proj1 (f_run okname dkey holes X S rawvars args (frag_defs d) Hn He F fuel) _ _ _ _ _ (R OpMutation) Ho)].
Qed.
