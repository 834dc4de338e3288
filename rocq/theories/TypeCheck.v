(** * Tests for the hypotheses of C50

    Tests for go_facts and careful of TypeSpec.v, proved to be right and used by the examples, and a typing of values. *)
From Coq Require Import String Arith NArith ZArith Bool List Lia.
From Verif Require Import Base JsonModel JsonProof NameModel Schema ResModel GoTypes ParseModel SchemaSpec ParseWhole SchemaCheck SampleProg TypeSpec.
Import ListNotations.
Open Scope nat_scope.

(** ** The typing of Go, given the types of the functions *)
Section Has.
Variable P : program.
Notation decls := (g_decls P).
Variable B : gtype -> gval -> Prop.   (* which values a type without parts has, beside having its kind *)
Variable F : gtype -> N -> Prop.      (* the functions of a type *)
Inductive has_type : gtype -> gval -> Prop :=
| HTime t x : is_time decls t = true -> has_type t (GTm x)
| HBasic t v : is_time decls t = false -> basic (t_kind decls t) -> kind_of v = t_kind decls t -> B t v -> has_type t v
| HNilSlice t : is_time decls t = false -> t_kind decls t = KSlice -> has_type t (GSlice None)
| HSlice t e l : is_time decls t = false -> t_kind decls t = KSlice -> t_elem decls t = Some e -> Forall (has_type e) l -> has_type t (GSlice (Some l))
| HArray t e l : is_time decls t = false -> t_kind decls t = KArray -> t_elem decls t = Some e -> Forall (has_type e) l -> has_type t (GArray l)
| HNilPtr t : is_time decls t = false -> t_kind decls t = KPtr -> has_type t (GPtr None)
| HPtr t e v : is_time decls t = false -> t_kind decls t = KPtr -> t_elem decls t = Some e -> has_type e v -> has_type t (GPtr (Some v))
| HStruct t l : is_time decls t = false -> t_kind decls t = KStruct ->
    Forall2 (fun f x => fst x = f_exported f /\ has_type (f_type f) (snd x)) (t_fields decls t) l -> has_type t (GStruct l)
| HNilIface t : is_time decls t = false -> t_kind decls t = KInterface -> has_type t (GIface None)
| HIface t t' v : is_time decls t = false -> t_kind decls t = KInterface -> implements decls t' t = true -> has_type t' v ->
    has_type t (GIface (Some (t_name decls t', t_pkg decls t', v)))
| HNilFunc t : is_time decls t = false -> t_kind decls t = KFunc -> has_type t (GFunc None)
| HFunc t n : is_time decls t = false -> t_kind decls t = KFunc -> F t n -> has_type t (GFunc (Some n)).
Theorem has_type_typing : typing P has_type.
Proof.
  constructor.
  - intros t v H T. inversion H; subst; try congruence; eauto.
  - intros t v H T Bs. inversion H; subst; auto; try congruence; match goal with K : t_kind decls t = _ |- _ => rewrite K in Bs; contradiction end.
  - intros t e v H T K E. inversion H; subst; auto; try congruence; try (intuition congruence); try (destruct K as [K|K]; rewrite K in *; contradiction).
    + right. exists l. assert (e0 = e) as -> by congruence. auto.
    + right. exists l. assert (e0 = e) as -> by congruence. auto.
  - intros t e v H T K E. inversion H; subst; auto; try congruence; try (rewrite K in *; contradiction).
    right. assert (e0 = e) as -> by congruence. eauto.
  - intros t v H T K. inversion H; subst; eauto; try congruence; rewrite K in *; contradiction.
  - intros t v H T K. inversion H; subst; eauto; try congruence; try (rewrite K in *; contradiction).
  - intros t v H T K. inversion H; subst; eauto; try congruence; rewrite K in *; contradiction.
Qed.
End Has.

(** ** Facts about Go programs *)
Section Check.
Variable P : program.
Notation decls := (g_decls P).
Fixpoint distinct (l : list gdecl) : bool :=
  match l with
  | [] => true
  | d :: r => forallb (fun d' => negb (beqb (td_name d) (td_name d') && beqb (td_pkg d) (td_pkg d'))) r && distinct r
  end.
Lemma distinct_ok l : distinct l = true -> forall i j d d', nth_error l i = Some d -> nth_error l j = Some d' -> td_name d = td_name d' -> td_pkg d = td_pkg d' -> i = j.
Proof.
  induction l as [|x l IH]; intros H i j d d' E E' N Q; [destruct i; discriminate|]. cbn [distinct] in H. apply andb_prop in H. destruct H as [H1 H2]. rewrite forallb_forall in H1.
  assert (forall y, In y l -> td_name x = td_name y -> td_pkg x = td_pkg y -> False) as D.
  { intros y I A B. specialize (H1 y I). rewrite A, B, !beqb_refl in H1. discriminate. }
  destruct i as [|i], j as [|j]; cbn in E, E'; auto.
  - injection E as ->. exfalso. eapply D; [eapply nth_error_In; exact E'|congruence|congruence].
  - injection E' as ->. exfalso. eapply D; [eapply nth_error_In; exact E|congruence|congruence].
  - f_equal. eapply IH; eauto.
Qed.
Definition decl_struct (d : gdecl) : bool := match td_under d with TStruct _ => true | TBasic KStruct => true | _ => false end.
(** types without package, that is the types of the language, are no structs *)
Definition names_ok : bool :=
  distinct decls && forallb (fun d => negb (match td_pkg d with [] => true | _ => false end) || negb (decl_struct d || beqb (td_name d) (kind_string KStruct))) decls.
Lemma kind_string_struct k : kind_string k = kind_string KStruct -> k = KStruct.
Proof. destruct k; try destruct w; try destruct is64; cbn; intro H; try discriminate; reflexivity. Qed.
Lemma names_ok_spec : names_ok = true -> forall t t', t_kind decls t = KStruct -> t_name decls t <> [] -> t_name decls t = t_name decls t' -> t_pkg decls t = t_pkg decls t' -> t = t'.
Proof.
  intro H. apply andb_prop in H. destruct H as [H1 H2]. rewrite forallb_forall in H2.
  assert (forall d, In d decls -> td_pkg d = [] -> decl_struct d = false /\ td_name d <> kind_string KStruct) as D.
  { intros d I E. specialize (H2 d I). rewrite E in H2. cbn [negb orb] in H2. apply negb_true_iff in H2. apply orb_false_iff in H2. destruct H2 as [A B]. split; [exact A|].
    intro Q. rewrite Q, beqb_refl in B. discriminate. }
  intros t t' K N E Q. destruct t as [k|n| | | | | | |]; cbn [t_name] in N; try congruence.
  - cbn in K. subst k. destruct t' as [k'|n'| | | | | | |]; cbn in E; try discriminate.
    + f_equal. symmetry. now apply kind_string_struct.
    + cbn in Q. destruct (nth_error decls n') as [d'|] eqn:En; [|discriminate]. exfalso. destruct (D d' (nth_error_In _ _ En) (eq_sym Q)) as [_ B]. now apply B.
  - destruct (nth_error decls n) as [d|] eqn:En; [|congruence].
    assert (decl_struct d = true) as Ds. { unfold t_kind in K. cbn [under] in K. rewrite En in K. unfold decl_struct. destruct (td_under d); try discriminate; [|reflexivity]. now subst. }
    assert (td_pkg d <> []) as Np. { intro Z. destruct (D d (nth_error_In _ _ En) Z) as [A _]. congruence. }
    cbn [t_name t_pkg] in E, Q. rewrite En in E, Q. destruct t' as [k'|n'| | | | | | |]; cbn [t_name t_pkg] in E, Q; try congruence.
    destruct (nth_error decls n') as [d'|] eqn:En'; [|congruence]. f_equal. eapply distinct_ok; eauto.
Qed.
(** time.Time *)
Definition time_ok : bool :=
  forallb (fun d => negb (beqb (td_pkg d) (bs "time") && beqb (td_name d) (bs "Time")) ||
    match td_under d with TStruct fs => forallb (fun f => negb (f_exported f)) fs | _ => false end) decls.
Lemma time_ok_spec : time_ok = true -> forall t, is_time decls t = true -> t_kind decls t = KStruct /\ Forall (fun f => f_exported f = false) (t_fields decls t).
Proof.
  intros H t T. unfold time_ok in H. rewrite forallb_forall in H. unfold is_time, is_type in T. destruct t; try discriminate. unfold t_kind, t_fields. cbn [t_pkg t_name under] in *.
  destruct (nth_error decls n) as [d|] eqn:En; [|discriminate]. specialize (H d (nth_error_In _ _ En)). rewrite T in H. cbn [negb orb] in H.
  destruct (td_under d); try discriminate. split; [reflexivity|]. apply Forall_forall. intros f I. rewrite forallb_forall in H. specialize (H f I). now apply negb_true_iff.
Qed.
Definition skip_ok : bool :=
  forallb (fun d => match pd_fn d with
    | DUser _ => true
    | _ => match pd_type d with
           | [t] => negb (is_time decls t) && match under decls t with TStruct [GField _ _ _ _ bt] => match under decls bt with TBasic KBool => true | _ => false end | _ => false end
           | _ => false
           end
    end) (g_dirs P).
Lemma skip_ok_spec : skip_ok = true -> forall d, In d (g_dirs P) -> pd_fn d = DSkip \/ pd_fn d = DInclude ->
    exists t nm an ex tg bt, pd_type d = [t] /\ is_time decls t = false /\ under decls t = TStruct [GField nm an ex tg bt] /\ under decls bt = TBasic KBool.
Proof.
  intros H d I K. unfold skip_ok in H. rewrite forallb_forall in H. specialize (H d I).
  assert (match pd_type d with
           | [t] => negb (is_time decls t) && match under decls t with TStruct [GField _ _ _ _ bt] => match under decls bt with TBasic KBool => true | _ => false end | _ => false end
           | _ => false
           end = true) as G by (destruct K as [K|K]; rewrite K in H; exact H). clear H K.
  destruct (pd_type d) as [|t [|]]; try discriminate. apply andb_prop in G. destruct G as [G1 G2]. apply negb_true_iff in G1.
  destruct (under decls t) as [ | | | | |fs| | |] eqn:U; try discriminate. destruct fs as [|[nm an ex tg bt] [|]]; try discriminate.
  destruct (under decls bt) as [k| | | | | | | |] eqn:Ub; try discriminate. destruct k; try discriminate. exists t, nm, an, ex, tg, bt. auto.
Qed.
Definition enum_ok : bool := forallb (fun e => forallb (fun x => kind_eqb (kind_of (snd x)) (en_kind e)) (en_entries e)) (g_enums P).
Lemma enum_ok_spec : enum_ok = true -> forall e n v, In e (g_enums P) -> In (n, v) (en_entries e) -> kind_of v = en_kind e.
Proof.
  intros H e n v Ie Iv. unfold enum_ok in H. rewrite forallb_forall in H. specialize (H e Ie). rewrite forallb_forall in H. specialize (H (n, v) Iv). now apply kind_eqb_eq.
Qed.
Theorem go_facts_ok : names_ok && time_ok && skip_ok && enum_ok = true -> go_facts P.
Proof.
  intro H. do 3 (apply andb_prop in H; let K := fresh "K" in destruct H as [H K]). constructor; [now apply names_ok_spec|now apply time_ok_spec|now apply skip_ok_spec|now apply enum_ok_spec].
Qed.

(** ** What authors have to take care of *)
Definition shownb (f : gfield) : bool :=
  match f with GField _ anon _ tag _ => negb anon && match parse_tag tag with TagOk _ _ => true | _ => false end end.
Lemma shownb_ok f : shown f -> shownb f = true.
Proof. destruct f as [nm an ex tg t]. intros [-> [c [i E]]]. cbn. now rewrite E. Qed.
Definition quietb (n : nat) (t : gtype) : bool :=
  let l := close (asked_of P) n [t] in
  covers P [t] l && forallb (fun t' => negb (is_time decls t') && negb (kind_eqb (t_kind decls t') KFunc) &&
    imp (kind_eqb (t_kind decls t') KStruct) (forallb (fun m => match snd m with MField _ ft _ => negb (kind_eqb (t_kind decls ft) KFunc) | MMethod _ _ => false end) (exposed P t'))) l.
Lemma kind_eqb_refl k : kind_eqb k k = true.
Proof. destruct k; try destruct w; try destruct is64; reflexivity. Qed.
Lemma quietb_ok n t : quietb n t = true -> quiet P t.
Proof.
  intro H. apply andb_prop in H. destruct H as [H1 H2]. rewrite forallb_forall in H2. intros t' Rt. specialize (H2 t' (covers_ok P _ _ H1 t' Rt)).
  apply andb_prop in H2. destruct H2 as [H2 H3]. apply andb_prop in H2. destruct H2 as [H2 H4]. apply negb_true_iff in H2, H4.
  split; [exact H2|]. split; [intro K; rewrite K in H4; discriminate|]. intros K nm m I. rewrite K in H3. cbn [kind_eqb] in H3. unfold imp in H3. cbn [negb orb] in H3. rewrite forallb_forall in H3.
  specialize (H3 (nm, m) I). cbn [snd] in H3. destruct m; [|discriminate]. apply negb_true_iff in H3. intro Kf. rewrite Kf in H3. discriminate.
Qed.
Variables (qt mt : gtype) (inj : bool) (n : nat).
Notation roots := (roots_of P qt mt inj).
Notation more := (more_of P inj).
Notation l := (types_in P qt mt inj n).
Notation inl := (ins_in P (types_in P qt mt inj n) inj n).
Definition funs : list (bool * list gtype) := map (fun ins => (false, ins)) more ++ flat_map (funs_of P) l.
Definition covered : bool := covers P roots l && in_covers P more l inl.
Definition check_enum : bool := forallb (fun e => forallb (fun t => imp (beqb (t_name decls t) (en_name e)) (match t_pkg decls t with [] => true | _ => match t_kind decls t with KInt _ | KUint _ | KString => kind_eqb (t_kind decls t) (en_kind e) | _ => true end end)) (l ++ inl)) (g_enums P).
Definition check_fields : bool := forallb (fun t => imp (negb (is_time decls t)) (forallb (fun f => imp (shownb f && negb (f_exported f)) (quietb n (f_type f))) (t_fields decls t))) l.
Definition check_args : bool := forallb (fun f => forallb (fun a => imp (negb (is_ctx decls a)) (forallb (fun x => imp (shownb x) (f_exported x)) (t_fields decls a))) (method_args (fst f) (snd f))) funs.
Definition check_inputs : bool := forallb (fun t => imp (negb (is_time decls t)) (forallb (fun f => imp (shownb f) (f_exported f)) (t_fields decls t))) inl.
Lemma funs_ok it ins : covered = true -> schema_fun P roots more it ins -> In (it, ins) funs.
Proof.
  intros C Sf. apply andb_prop in C. destruct C as [C _]. pose proof (covers_ok P roots l C) as Cv. unfold funs. apply in_or_app. destruct Sf as [[-> Im]|[t0 [nm [m [R [T [K [Ex M]]]]]]]].
  - left. now apply (in_map (fun ins => (false, ins))).
  - right. apply in_flat_map. exists t0. split; [auto|]. unfold funs_of. rewrite T.
    assert (In (it, ins) (flat_map (fun m => match snd m with
                              | MField _ ft _ => match t_kind decls ft with KFunc => [(false, fun_ins_of (under decls ft))] | _ => [] end
                              | MMethod _ ft => [(true, method_ins decls t0 ft)]
                              end) (exposed P t0))) as J.
    { apply in_flat_map. exists (nm, m). split; [exact Ex|]. cbn [snd]. destruct m; cbn [member_fun] in M.
      - destruct M as [M1 [-> ->]]. rewrite M1. now left.
      - destruct M as [-> ->]. now left. }
    destruct K as [K|K]; rewrite K; exact J.
Qed.
Lemma enum_kinds_ok : covered = true -> check_enum = true -> enum_kinds P roots more.
Proof.
  intros C K2. apply andb_prop in C. destruct C as [C1 C2].
  pose proof (covers_ok P roots l C1) as Cv. pose proof (in_covers_ok P roots more l inl C1 C2) as Ci.
  intros e t Ie Rt [Ep [_ El]] En. unfold check_enum in K2. rewrite forallb_forall in K2. specialize (K2 e Ie). rewrite forallb_forall in K2.
  assert (In t (l ++ inl)) as I by (apply in_or_app; destruct Rt; auto). specialize (K2 t I). rewrite En, beqb_refl in K2. unfold imp in K2. cbn [negb orb] in K2.
  destruct (t_pkg decls t); [congruence|]. apply kind_eqb_eq. destruct (t_kind decls t); try contradiction; exact K2.
Qed.
Lemma quiet_fields_ok : covered = true -> check_fields = true -> quiet_fields P roots.
Proof.
  intros C K1. apply andb_prop in C. destruct C as [C1 C2]. pose proof (covers_ok P roots l C1) as Cv.
  intros t f Rt T Kt If Sh Ex. unfold check_fields in K1. rewrite forallb_forall in K1. specialize (K1 t (Cv t Rt)). rewrite T in K1. unfold imp at 1 in K1. cbn [negb orb] in K1.
  rewrite forallb_forall in K1. specialize (K1 f If). rewrite (shownb_ok f Sh), Ex in K1. unfold imp in K1. cbn [negb orb andb] in K1. eapply quietb_ok; eauto.
Qed.
Lemma open_args_ok : covered = true -> check_args = true -> open_args P roots more.
Proof.
  intros H K0 it ins a f Sf Ia [Sa Sk] If Sh. unfold check_args in K0. rewrite forallb_forall in K0. specialize (K0 _ (funs_ok it ins H Sf)). cbn [fst snd] in K0. rewrite forallb_forall in K0.
  specialize (K0 a Ia). rewrite Sa in K0. unfold imp at 1 in K0. cbn [negb orb] in K0. rewrite forallb_forall in K0. specialize (K0 f If). rewrite (shownb_ok f Sh) in K0. exact K0.
Qed.
Lemma open_inputs_ok : covered = true -> check_inputs = true -> open_inputs P roots more.
Proof.
  intros C K. apply andb_prop in C. destruct C as [C1 C2]. pose proof (in_covers_ok P roots more l inl C1 C2) as Ci.
  intros t f Rt Kt T If Sh. unfold check_inputs in K. rewrite forallb_forall in K. specialize (K t (Ci t Rt)). rewrite T in K. unfold imp at 1 in K. cbn [negb orb] in K.
  rewrite forallb_forall in K. specialize (K f If). rewrite (shownb_ok f Sh) in K. exact K.
Qed.
Definition check_files : bool := forallb (fun t => match t_kind decls t, t_elem decls t with KPtr, Some e => negb (is_file_header decls e) | _, _ => true end) inl.
Theorem no_files_ok : covered && check_files = true -> no_files P roots more.
Proof.
  intro H. apply andb_prop in H. destruct H as [C H]. apply andb_prop in C. destruct C as [C1 C2]. intros t e Rt K E. unfold check_files in H. rewrite forallb_forall in H.
  specialize (H t (in_covers_ok P roots more l inl C1 C2 t Rt)). rewrite K, E in H. now apply negb_true_iff.
Qed.
End Check.
