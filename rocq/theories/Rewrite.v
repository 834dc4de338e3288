(** * Documents that mean the same: directives carried out and fragments inlined (specification and proofs) *)
From Coq Require Import String Arith NArith ZArith Bool List Lia.
From Verif Require Import Base Json Ast ReqModel Schema ResModel Interp Facts Valid Spec SpecRun SpecDoc.
Import ListNotations.
Open Scope N_scope.
Local Notation value := Ast.value.

(** ** What a @skip or @include says *)
Section Says.
Context {W : Type}.
Variable X : externals W.
Variable S : schema.
Variable rawvars : bytes.
Variable decls : option (list oparg).
Notation jvar := (jvar X rawvars).
Notation declared := (declared decls).
(** the boolean that a literal or a variable stands for: the variable has a declaration, with a named type,
    and its value is in the JSON variables or else the default of the declaration *)
Inductive bool_value : value -> bool -> Prop :=
| bv_lit : forall b, bool_value (VBool b) b
| bv_var : forall n a t nn (b : bool), declared n = Some a -> oa_type a = TyName t nn -> jvar n (Some (if b then FTrue else FFalse)) -> bool_value (VVar n) b
| bv_default : forall n a t nn b, declared n = Some a -> oa_type a = TyName t nn -> jvar n None -> oa_default a = Some (VBool b) -> bool_value (VVar n) b.
(** @skip(if: v) leaves the selection out if [v] is true, @include(if: v) if it is false *)
Inductive says : directive -> bool -> Prop :=
| says_skip : forall v b, bool_value v b -> says (Dir (bs "skip") (Some [(bs "if", v)])) b
| says_include : forall v b, bool_value v b -> says (Dir (bs "include") (Some [(bs "if", v)])) (negb b).
(** several directives: the first that leaves it out decides *)
Inductive verdict : list directive -> bool -> Prop :=
| vd_none : verdict [] false
| vd_out : forall x r, says x true -> verdict (x :: r) true
| vd_next : forall x r b, says x false -> verdict r b -> verdict (x :: r) b.
(** the schema has the built-in directives, parse.go 245-279 *)
Definition if_input (i : input) : Prop := is_ptr i = false /\ ~ special i /\ i_kind i = KBool /\ i_field i = O.
Definition has_dir (ds : list dirdef) (n : bytes) (f : dirfn) : Prop := exists i old, find (fun d => beqb (dd_name d) n) ds =
  Some (DirDef n [Some (GStruct [(true, GBool old)])] [(bs "if", (O, i))] f) /\ if_input i.
Definition standard : Prop := forall loc, loc < 3 -> exists ds, nlookup (s_dirs S) loc = Some ds /\ has_dir ds (bs "skip") DSkip /\ has_dir ds (bs "include") DInclude.

Notation lit_sets := (lit_sets X S rawvars decls).
Lemma bool_iff : forall v b i old, bool_value v b -> if_input i ->
  (forall w w' y b', lit_sets true w (false, GBool old) i v w' y b' <-> w' = w /\ y = GBool b /\ b' = true).
Proof.
  intros v b i old H (Hp & Hs & Hk & Hf) w w' y b'. destruct H as [b|n a t nn b Ha Ht Hj|n a t nn b Ha Ht Hj Hd].
  - split; [|intros (-> & -> & ->); now constructor]. intro H. inversion H; subst; try congruence. auto.
  - split.
    + intro H. inversion H as [| | | | | | | | | | |? ? ? ? ? ? ? ? ? ? Ha' Hf' Hj' Hs'|? ? ? ? ? ? ? ? ? ? ? ? Hj']; subst; try congruence.
      * assert (j = if b then FTrue else FFalse). { inversion Hj as [|? m Hr Hx Hg]; subst. inversion Hj' as [|? m' Hr' Hx' Hg']; subst. rewrite Hx in Hx'. injection Hx'. intros; subst. congruence. }
        subst j. destruct b; inversion Hs'; subst; try congruence; try contradiction; auto.
      * exfalso. inversion Hj; subst; inversion Hj'; subst; congruence.
    + intros (-> & -> & ->). eapply ls_var; eauto. { rewrite Ht. constructor. apply nf_kind; auto. rewrite Hk. exact Logic.I. }
      destruct b; [apply js_true|apply js_false]; auto.
  - split.
    + intro H. inversion H as [| | | | | | | | | | |? ? ? ? ? ? ? ? ? ? Ha' Hf' Hj' Hs'|? ? ? ? ? ? ? ? ? ? Ha' Hf' Hj' Hd' Hl]; subst; try congruence.
      * exfalso. inversion Hj; subst; inversion Hj'; subst; congruence.
      * rewrite Ha in Ha'. injection Ha'; intros; subst. rewrite Hd in Hd'. injection Hd'; intros; subst. inversion Hl; subst; try congruence. auto.
    + intros (-> & -> & ->). eapply ls_default; eauto. { rewrite Ht. constructor. apply nf_kind; auto. rewrite Hk. exact Logic.I. } now constructor.
Qed.
Notation dir_says := (dir_says X S rawvars decls).
Notation dirs_say := (dirs_say X S rawvars decls).
Notation args_set := (args_set X S rawvars decls).
Lemma if_args : forall i old v b, bool_value v b -> if_input i -> forall w w' l,
  args_set [(bs "if", (O, i))] w (fresh_args [Some (GStruct [(true, GBool old)])]) [(bs "if", v)] w' l <-> w' = w /\ l = [GStruct [(true, GBool b)]].
Proof.
  intros i old v b Hv Hi w w' l. pose proof (bool_iff v b i old Hv Hi) as B. destruct Hi as (Hp & Hs & Hk & Hf). split.
  - intro H. inversion H as [|? ? ? ? ? n i' fs e old' w1 y b' ? ? Hl Hn Hn2 Hset Hr]; subst. cbn in Hl. injection Hl; intros; subst. cbn in Hn. injection Hn; intros; subst. rewrite Hf in *. cbn in Hn2. injection Hn2; intros; subst.
    apply B in Hset. destruct Hset as (-> & -> & ->). inversion Hr; subst. auto.
  - intros (-> & ->). eapply as_cons; [reflexivity|reflexivity|rewrite Hf; reflexivity|apply B; repeat split|]. rewrite Hf. constructor.
Qed.
Lemma no_lists_if : forall v b, bool_value v b -> forall k l, ~ In (k, VList l) (given (Some [(bs "if", v)])).
Proof. intros v b H k l [E|[]]. injection E; intros; subst. inversion H. Qed.
Lemma says_iff : forall x b loc, standard -> loc < 3 -> says x b -> forall p w w' b', dir_says p loc w x w' b' <-> w' = w /\ b' = b.
Proof.
  intros x b loc St L Sy p w w' b'. destruct (St loc L) as (ds & E & (i1 & o1 & F1 & I1) & (i2 & o2 & F2 & I2)).
  destruct Sy as [v b Hv|v b Hv].
  - split.
    + intro H0. inversion H0 as [w0 x0 ds' d w0' e c E' F' N A H|w0 x0 ds' d w0' e c E' F' N A H|w0 x0 ds' d w1 a f w0' c E' F' N A H H']; subst;
      rewrite E in E'; injection E'; intros; subst; cbn [d_name] in *; rewrite F1 in F'; injection F'; intros; subst; cbn [dd_fn] in A; try discriminate.
      cbn [dd_infields dd_ins d_args given] in H. apply (if_args _ _ _ _ Hv I1) in H. destruct H as (-> & Hl). injection Hl; intros; subst. auto.
    + intros (-> & ->). eapply ds_skip with (e := true); [exact E|exact F1|eapply no_lists_if; eauto|reflexivity|]. cbn [dd_infields dd_ins d_args given]. apply (if_args _ _ _ _ Hv I1). auto.
  - split.
    + intro H0. inversion H0 as [w0 x0 ds' d w0' e c E' F' N A H|w0 x0 ds' d w0' e c E' F' N A H|w0 x0 ds' d w1 a f w0' c E' F' N A H H']; subst;
      rewrite E in E'; injection E'; intros; subst; cbn [d_name] in *; rewrite F2 in F'; injection F'; intros; subst; cbn [dd_fn] in A; try discriminate.
      cbn [dd_infields dd_ins d_args given] in H. apply (if_args _ _ _ _ Hv I2) in H. destruct H as (-> & Hl). injection Hl; intros; subst. auto.
    + intros (-> & ->). eapply ds_include with (e := true); [exact E|exact F2|eapply no_lists_if; eauto|reflexivity|]. cbn [dd_infields dd_ins d_args given]. apply (if_args _ _ _ _ Hv I2). auto.
Qed.
Lemma verdict_iff : forall ds b loc, standard -> loc < 3 -> verdict ds b -> forall p w w' b', dirs_say p loc w ds w' b' <-> w' = w /\ b' = b.
Proof.
  intros ds b loc St L V p. induction V as [|x r Sx|x r b Sx V IH]; intros w w' b'.
  - split; [intro H; inversion H; auto|intros (-> & ->); constructor].
  - split.
    + intro H. inversion H as [|? ? ? ? Hx|? ? ? ? ? ? Hx Hr]; subst; apply (says_iff _ _ _ St L Sx) in Hx; destruct Hx as [-> E]; [auto|discriminate E].
    + intros (-> & ->). apply dss_out. apply (says_iff _ _ _ St L Sx). auto.
  - split.
    + intro H. inversion H as [|? ? ? ? Hx|? ? ? ? ? ? Hx Hr]; subst; apply (says_iff _ _ _ St L Sx) in Hx; destruct Hx as [-> E]; [discriminate E|]. now apply IH.
    + intros (-> & ->). eapply dss_next; [apply (says_iff _ _ _ St L Sx); auto|]. apply IH. auto.
Qed.
End Says.

(** ** Rewriting selections *)
Definition dirs_of (x : sel) : list directive := match x with SField _ _ ds _ _ => ds | SSpread _ ds => ds | SInline _ ds _ => ds end.
Section Rewrite.
Context {W : Type}.
Variable X : externals W.
Variable S : schema.
Variable rawvars : bytes.
Variable decls : option (list oparg).
Variable fdefs : list (bytes * bytes * list sel).
Variable look : obj -> bytes -> option Schema.field.
Variables dirs frags : bool.    (* which of the two rewritings is allowed *)
Notation verdict := (verdict X rawvars decls).
(** [rw ss ss']: [ss'] is [ss] with some of these rewritings:
    a selection that a directive leaves out is removed, directives that do not leave a selection out are
    removed, a spread is replaced by the body of the fragment with that name. *)
Inductive rw : list sel -> list sel -> Prop :=
| rw_nil : rw [] []
| rw_field : forall a n ds ds' args subs subs' r r', (ds' = ds \/ dirs = true /\ verdict ds false /\ ds' = []) -> rw subs subs' -> (subs' = [] -> subs = []) -> rw r r' ->
    rw (SField a n ds args subs :: r) (SField a n ds' args subs' :: r')
| rw_spread : forall n ds ds' r r', (ds' = ds \/ dirs = true /\ verdict ds false /\ ds' = []) -> rw r r' -> rw (SSpread n ds :: r) (SSpread n ds' :: r')
| rw_inline : forall n ds ds' subs subs' r r', (ds' = ds \/ dirs = true /\ verdict ds false /\ ds' = []) -> rw subs subs' -> rw r r' ->
    rw (SInline n ds subs :: r) (SInline n ds' subs' :: r')
| rw_out : forall x r r', dirs = true -> verdict (dirs_of x) true -> rw r r' -> rw (x :: r) r'
| rw_use : forall n t ss ss' r r', frags = true -> fragment fdefs n = Some (t, ss) -> rw ss ss' -> rw r r' -> rw (SSpread n [] :: r) (SInline t [] ss' :: r').

Variable fdefs' : list (bytes * bytes * list sel).
Hypothesis fdefs_rw : forall n, match fragment fdefs n, fragment fdefs' n with
  | Some (t, ss), Some (t', ss') => t' = t /\ rw ss ss'
  | None, None => True
  | _, _ => False
  end.
Hypothesis St : standard S.
Notation Sels := (sels X S rawvars decls fdefs look).
Notation Field := (Spec.field X S rawvars decls fdefs look).
Notation Value := (Spec.value X S rawvars decls fdefs look).
Notation Elems := (elems X S rawvars decls fdefs look).
Notation Sels' := (sels X S rawvars decls fdefs' look).
Notation Field' := (Spec.field X S rawvars decls fdefs' look).
Notation Value' := (Spec.value X S rawvars decls fdefs' look).
Notation Elems' := (elems X S rawvars decls fdefs' look).
Notation dirs_say := (dirs_say X S rawvars decls).

Lemma dirs_same : forall ds ds' loc p w w' b, loc < 3 -> (ds' = ds \/ dirs = true /\ verdict ds false /\ ds' = []) -> dirs_say p loc w ds w' b <-> dirs_say p loc w ds' w' b.
Proof.
  intros ds ds' loc p w w' b L [->|(_ & V & ->)]; [reflexivity|]. rewrite (verdict_iff X S rawvars decls _ _ _ St L V). split; [intros (-> & ->); constructor|intro H; inversion H; auto].
Qed.
Lemma field_dirs : forall ds ds' p o d g k w a n args subs ms w', (ds' = ds \/ dirs = true /\ verdict ds false /\ ds' = []) ->
  Field' p o d g k w a n ds args subs ms w' <-> Field' p o d g k w a n ds' args subs ms w'.
Proof.
  intros ds ds' p o d g k w a n args subs ms w' H. pose proof (fun p w w' b => dirs_same ds ds' 0 p w w' b ltac:(lia) H) as E. split; intro F; inversion F; subst.
  - apply f_out. now apply E.
  - apply f_typename; auto. now apply E.
  - eapply f_value; eauto. now apply E.
  - apply f_out. now apply E.
  - apply f_typename; auto. now apply E.
  - eapply f_value; eauto. now apply E.
Qed.
Lemma field_dirs1 : forall ds ds' p o d g k w a n args subs ms w', (ds' = ds \/ dirs = true /\ verdict ds false /\ ds' = []) ->
  Field p o d g k w a n ds args subs ms w' <-> Field p o d g k w a n ds' args subs ms w'.
Proof.
  intros ds ds' p o d g k w a n args subs ms w' H. pose proof (fun p w w' b => dirs_same ds ds' 0 p w w' b ltac:(lia) H) as E. split; intro F; inversion F; subst.
  - apply f_out. now apply E.
  - apply f_typename; auto. now apply E.
  - eapply f_value; eauto. now apply E.
  - apply f_out. now apply E.
  - apply f_typename; auto. now apply E.
  - eapply f_value; eauto. now apply E.
Qed.
Lemma out_field : forall ds p o d g k w a n args subs ms w', verdict ds true -> Field p o d g k w a n ds args subs ms w' -> ms = [] /\ w' = w.
Proof.
  intros ds p o d g k w a n args subs ms w' V F. pose proof (verdict_iff X S rawvars decls _ _ 0 St ltac:(lia) V) as E.
  inversion F as [? ? ? ? ? ? ? ? ? ? ? ? Hd|? ? ? ? ? ? ? ? ? Hd|? ? ? ? ? ? ? ? ? ? ? ? ? ? ? ? ? ? ? ? Hd]; subst; apply E in Hd; destruct Hd as [-> Hb]; auto; discriminate.
Qed.
Lemma rw_subs_nil : forall ss', rw [] ss' -> ss' = []. Proof. intros ss' H. inversion H; auto. Qed.

Ltac say := match goal with
  | V : verdict ?ds ?b, H : dirs_say _ ?loc _ ?ds _ _ |- _ => apply (verdict_iff X S rawvars decls ds b loc St ltac:(lia) V) in H; let E := fresh in destruct H as [-> E]; try discriminate E; clear E
  | H : dirs_say _ _ _ [] _ _ |- _ => inversion H; subst; clear H
  end.
Lemma rw_fwd :
  (forall p o d g k w ss ms w', Sels p o d g k w ss ms w' -> forall ss', rw ss ss' -> Sels' p o d g k w ss' ms w') /\
  (forall p o d g k w al n ds args subs ms w', Field p o d g k w al n ds args subs ms w' -> forall subs', rw subs subs' -> (subs' = [] -> subs = []) -> Field' p o d g k w al n ds args subs' ms w') /\
  (forall p o d g k w args subs t w', Value p o d g k w args subs t w' -> forall subs', rw subs subs' -> (subs' = [] -> subs = []) -> Value' p o d g k w args subs' t w') /\
  (forall p o d ro n l k w subs ts w', Elems p o d ro n l k w subs ts w' -> forall subs', rw subs subs' -> (subs' = [] -> subs = []) -> Elems' p o d ro n l k w subs' ts w').
Proof.
  apply run_mut.
  - intros p o d g k w ss' R. apply rw_subs_nil in R. subst ss'. constructor.
  - intros p o d g k w al n ds args subs r ms1 w1 ms2 w2 Hf IH1 _ IH2 ss' R. inversion R as [|? ? ? ds' ? ? subs' ? r' Hd Hs Hn Hr| | |? ? ? De V Hr|]; subst.
    + eapply s_field; [apply (field_dirs ds ds'); [exact Hd|]|]; auto.
    + cbn [dirs_of] in V. apply (out_field _ _ _ _ _ _ _ _ _ _ _ _ _ V) in Hf. destruct Hf as [-> ->]. cbn [app]. auto.
  - intros p o d g k w n ds r w1 ms w2 Hd _ IH ss' R. inversion R as [| |? ? ds' ? r' Hd' Hr| |? ? ? De V Hr|? t ss ss2 ? r' Fe Ef Hs Hr]; subst.
    + eapply s_spread_out; [apply (dirs_same ds ds' 1 _ _ _ _ ltac:(lia) Hd'); exact Hd|auto].
    + cbn [dirs_of] in V. say. auto.
    + inversion Hd.
  - intros p o d g k w n ds r w1 tn ss ms w2 Hd Ef No _ IH ss' R. pose proof (fdefs_rw n) as Fw. rewrite Ef in Fw. inversion R as [| |? ? ds' ? r' Hd' Hr| |? ? ? De V Hr|? t ss1 ss2 ? r' Fe Ef' Hs Hr]; subst.
    + destruct (fragment fdefs' n) as [[t' ss2]|] eqn:Ef2; [|contradiction]. destruct Fw as [-> Fw]. eapply s_spread_other; [apply (dirs_same ds ds' 1 _ _ _ _ ltac:(lia) Hd'); exact Hd|eauto|auto|auto].
    + cbn [dirs_of] in V. say.
    + say. rewrite Ef in Ef'. injection Ef'; intros; subst. eapply s_inline_other; [constructor|auto|auto].
  - intros p o d g k w n ds r w1 tn ss ms1 w2 ms2 w3 Hd Ef No _ IH1 _ IH2 ss' R. pose proof (fdefs_rw n) as Fw. rewrite Ef in Fw. inversion R as [| |? ? ds' ? r' Hd' Hr| |? ? ? De V Hr|? t ss1 ss2 ? r' Fe Ef' Hs Hr]; subst.
    + destruct (fragment fdefs' n) as [[t' ss2]|] eqn:Ef2; [|contradiction]. destruct Fw as [-> Fw]. eapply s_spread; [apply (dirs_same ds ds' 1 _ _ _ _ ltac:(lia) Hd'); exact Hd|eauto|auto|auto|auto].
    + cbn [dirs_of] in V. say.
    + say. rewrite Ef in Ef'. injection Ef'; intros; subst. eapply s_inline; [constructor|auto|auto|auto].
  - intros p o d g k w tn ds ss r w1 ms w2 Hd _ IH ss' R. inversion R as [| | |? ? ds' ? subs' ? r' Hd' Hs Hr|? ? ? De V Hr|]; subst.
    + eapply s_inline_out; [apply (dirs_same ds ds' 2 _ _ _ _ ltac:(lia) Hd'); exact Hd|auto].
    + cbn [dirs_of] in V. say. auto.
  - intros p o d g k w tn ds ss r w1 ms w2 Hd No _ IH ss' R. inversion R as [| | |? ? ds' ? subs' ? r' Hd' Hs Hr|? ? ? De V Hr|]; subst.
    + eapply s_inline_other; [apply (dirs_same ds ds' 2 _ _ _ _ ltac:(lia) Hd'); exact Hd|auto|auto].
    + cbn [dirs_of] in V. say.
  - intros p o d g k w tn ds ss r w1 ms1 w2 ms2 w3 Hd No _ IH1 _ IH2 ss' R. inversion R as [| | |? ? ds' ? subs' ? r' Hd' Hs Hr|? ? ? De V Hr|]; subst.
    + eapply s_inline; [apply (dirs_same ds ds' 2 _ _ _ _ ltac:(lia) Hd'); exact Hd|auto|auto|auto].
    + cbn [dirs_of] in V. say.
  - intros. now apply f_out.
  - intros p o d g k w al ds w' Hd Hl subs' R _. apply rw_subs_nil in R. subst. now apply f_typename.
  - intros. eapply f_value; eauto.
  - intros. constructor.
  - intros. constructor.
  - intros. constructor; auto.
  - intros. constructor; auto.
  - intros. eapply v_obj; eauto.
  - intros. apply v_no_type; auto.
  - intros p isid kd d g k w t Hp subs' R _. apply rw_subs_nil in R. subst. now constructor.
  - intros. constructor; auto.
  - intros. constructor; auto.
  - intros. constructor; auto.
  - intros. eapply v_call; eauto. intros a k0 l b E. destruct (H0 _ _ _ _ E) as [-> ->]. split; auto. now apply rw_subs_nil.
  - intros. eapply v_enum; eauto.
  - intros. constructor.
  - intros. now apply v_no_time.
  - intros. eapply v_nil_iface; eauto.
  - intros. eapply v_iface; eauto.
  - intros. eapply v_no_impl; eauto.
  - intros. constructor.
  - intros. econstructor; eauto.
Qed.

Lemma rw_bwd :
  (forall p o d g k w ss' ms w', Sels' p o d g k w ss' ms w' -> forall ss, rw ss ss' -> Sels p o d g k w ss ms w') /\
  (forall p o d g k w al n ds args subs' ms w', Field' p o d g k w al n ds args subs' ms w' -> forall subs, rw subs subs' -> (subs' = [] -> subs = []) -> Field p o d g k w al n ds args subs ms w') /\
  (forall p o d g k w args subs' t w', Value' p o d g k w args subs' t w' -> forall subs, rw subs subs' -> (subs' = [] -> subs = []) -> Value p o d g k w args subs t w') /\
  (forall p o d ro n l k w subs' ts w', Elems' p o d ro n l k w subs' ts w' -> forall subs, rw subs subs' -> (subs' = [] -> subs = []) -> Elems p o d ro n l k w subs ts w').
Proof.
  assert (Out : forall x r p o d g k w ms w', verdict (dirs_of x) true -> Sels p o d g k w r ms w' -> Sels p o d g k w (x :: r) ms w').
  { intros [a n ds args subs|n ds|n ds subs] r p o d g k w ms w' V H; cbn [dirs_of] in V.
    - change ms with ([] ++ ms). eapply s_field; [|exact H]. apply f_out. apply (verdict_iff X S rawvars decls _ _ 0 St ltac:(lia) V). auto.
    - eapply s_spread_out; [|exact H]. apply (verdict_iff X S rawvars decls _ _ 1 St ltac:(lia) V). auto.
    - eapply s_inline_out; [|exact H]. apply (verdict_iff X S rawvars decls _ _ 2 St ltac:(lia) V). auto. }
  apply run_mut.
  - intros p o d g k w ss R. remember [] as e. induction R; try discriminate; [constructor|]. auto.
  - intros p o d g k w al n ds' args subs' r' ms1 w1 ms2 w2 Hf IH1 _ IH2 ss R. remember (SField al n ds' args subs' :: r') as e. induction R; try discriminate; auto.
    injection Heqe; intros; subst. eapply s_field; [|apply IH2; auto]. apply (field_dirs1 ds ds'); auto.
  - intros p o d g k w n ds' r' w1 ms w2 Hd _ IH ss R. remember (SSpread n ds' :: r') as e. induction R; try discriminate; auto.
    injection Heqe; intros; subst. eapply s_spread_out; [apply (dirs_same ds ds' 1 _ _ _ _ ltac:(lia)); eauto|auto].
  - intros p o d g k w n ds' r' w1 tn ss' ms w2 Hd Ef No _ IH ss R. pose proof (fdefs_rw n) as Fw. rewrite Ef in Fw. remember (SSpread n ds' :: r') as e. induction R; try discriminate; auto.
    injection Heqe; intros; subst. destruct (fragment fdefs n) as [[t0 ss2]|] eqn:Ef2; [|contradiction]. destruct Fw as [-> Fw].
    eapply s_spread_other; [apply (dirs_same ds ds' 1 _ _ _ _ ltac:(lia)); eauto|eauto|auto|auto].
  - intros p o d g k w n ds' r' w1 tn ss' ms1 w2 ms2 w3 Hd Ef No _ IH1 _ IH2 ss R. pose proof (fdefs_rw n) as Fw. rewrite Ef in Fw. remember (SSpread n ds' :: r') as e. induction R; try discriminate; auto.
    injection Heqe; intros; subst. destruct (fragment fdefs n) as [[t0 ss2]|] eqn:Ef2; [|contradiction]. destruct Fw as [Et Fw].
    eapply s_spread; [apply (dirs_same ds ds' 1 _ _ _ _ ltac:(lia)); eauto|eauto|congruence|auto|auto].
  - intros p o d g k w tn ds' ss' r' w1 ms w2 Hd _ IH ss R. remember (SInline tn ds' ss' :: r') as e. induction R; try discriminate; auto.
    + injection Heqe; intros; subst. eapply s_inline_out; [apply (dirs_same ds ds' 2 _ _ _ _ ltac:(lia)); eauto|auto].
    + injection Heqe; intros; subst. say.
  - intros p o d g k w tn ds' ss' r' w1 ms w2 Hd No _ IH ss R. remember (SInline tn ds' ss' :: r') as e. induction R; try discriminate; auto.
    + injection Heqe; intros; subst. eapply s_inline_other; [apply (dirs_same ds ds' 2 _ _ _ _ ltac:(lia)); eauto|auto|auto].
    + injection Heqe; intros; subst. say. eapply s_spread_other; [constructor|eauto|auto|auto].
  - intros p o d g k w tn ds' ss' r' w1 ms1 w2 ms2 w3 Hd No _ IH1 _ IH2 ss R. remember (SInline tn ds' ss' :: r') as e. induction R; try discriminate; auto.
    + injection Heqe; intros; subst. eapply s_inline; [apply (dirs_same ds ds' 2 _ _ _ _ ltac:(lia)); eauto|auto|auto|auto].
    + injection Heqe; intros; subst. say. eapply s_spread; [constructor|eauto|auto|auto|auto].
  - intros. now apply f_out.
  - intros p o d g k w al ds w' Hd Hl subs R E. rewrite (E eq_refl). now apply f_typename.
  - intros. eapply f_value; eauto.
  - intros. constructor.
  - intros. constructor.
  - intros. constructor; auto.
  - intros. constructor; auto.
  - intros p o d g k w subs' t ms w' Ho Ns Ht Hm _ IH subs R E. eapply v_obj; eauto. intros ->. apply Ns. now apply rw_subs_nil.
  - intros p o d g k w subs' Ho Ns Ht subs R E. apply v_no_type; auto. intros ->. apply Ns. now apply rw_subs_nil.
  - intros p isid kd d g k w t Hp subs R E. rewrite (E eq_refl). now constructor.
  - intros. constructor; auto.
  - intros. constructor; auto.
  - intros. constructor; auto.
  - intros. eapply v_call; eauto. intros a k0 l b E. destruct (H0 _ _ _ _ E) as [-> ->]. auto.
  - intros. eapply v_enum; eauto.
  - intros. constructor.
  - intros. now apply v_no_time.
  - intros. eapply v_nil_iface; eauto. intros ->. apply H0. now apply rw_subs_nil.
  - intros. eapply v_iface; eauto. intros ->. apply H0. now apply rw_subs_nil.
  - intros. eapply v_no_impl; eauto. intros ->. apply H0. now apply rw_subs_nil.
  - intros. constructor.
  - intros. econstructor; eauto.
Qed.
End Rewrite.
