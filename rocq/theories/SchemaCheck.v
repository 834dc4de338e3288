(** * Finding out whether the names of a program's types are apart

    A test for the hypotheses named_apart and inputs_apart of SchemaSpec.v; it is proved to be right and used by the examples. *)
From Coq Require Import String Arith NArith ZArith Bool List Lia Wf_nat.
From Verif Require Import Base Json JsonModel JsonProof NameModel Schema GoTypes ParseModel ParseTerm SchemaSpec InputSound ParseWhole.
Import ListNotations.
Open Scope nat_scope.

Lemma kind_eqb_eq a b : kind_eqb a b = true -> a = b.
Proof.
  destruct a, b; cbn; try discriminate; try reflexivity; intro H;
    repeat match goal with w : width |- _ => destruct w | c : bool |- _ => destruct c end; try discriminate; reflexivity.
Qed.
Lemma obeqb_eq a b : obeqb a b = true -> a = b.
Proof. destruct a, b; cbn; try discriminate; auto. intro H. apply beqb_eq in H. now subst. Qed.
Lemma gtype_eqb_eq a b : gtype_eqb a b = true -> a = b.
Proof.
  revert b. induction a as [a IH] using (induction_ltof1 gtype tsize). unfold ltof in IH. intros b.
  assert (forall l, (forall x, In x l -> tsize x < tsize a) -> forall m,
    (fix types (l m : list gtype) : bool := match l, m with [], [] => true | x :: l, y :: m => gtype_eqb x y && types l m | _, _ => false end) l m = true -> l = m) as L.
  { induction l as [|x l IHl]; intros B [|y m] H; try discriminate; [reflexivity|]. apply andb_prop in H. destruct H as [H1 H2].
    f_equal; [apply IH; [apply B; now left|exact H1]|apply IHl; [intros; apply B; now right|exact H2]]. }
  destruct a as [k|n|e|e|n e|fs|ins outs v|ms|], b; cbn [gtype_eqb]; intro H; try discriminate.
  - apply kind_eqb_eq in H. now subst.
  - apply Nat.eqb_eq in H. now subst.
  - f_equal. apply IH; [cbn; lia|exact H].
  - f_equal. apply IH; [cbn; lia|exact H].
  - apply andb_prop in H. destruct H as [H1 H2]. apply Nat.eqb_eq in H1. subst. f_equal. apply IH; [cbn; lia|exact H2].
  - f_equal. assert (forall f, In f fs -> tsize (f_type f) < tsize (TStruct fs)) as B by (intros; now apply tsize_field).
    revert fs0 H. clear L. revert B. generalize (tsize (TStruct fs)) at 1. intros. revert fs0 H.
    assert (forall f, In f fs -> tsize (f_type f) < tsize (TStruct fs)) as B' by (intros; now apply tsize_field).
    assert (forall f x, In f fs -> gtype_eqb (f_type f) x = true -> f_type f = x) as Q by (intros f x I; apply IH; now apply B').
    clear B B' IH n. induction fs as [|[nm an ex tg x] fs IHf]; intros [|[nm' an' ex' tg' x'] fs'] H; try discriminate; [reflexivity|].
    repeat (apply andb_prop in H; let K := fresh "K" in destruct H as [H K]).
    apply beqb_eq in H. apply eqb_prop in K3, K2. apply obeqb_eq in K1. subst.
    apply (Q (GField nm' an' ex' tg' x) x') in K0; [|now left]. cbn in K0. subst. f_equal. apply IHf; [|exact K]. intros f y I. apply Q. now right.
  - apply andb_prop in H. destruct H as [H H3]. apply andb_prop in H. destruct H as [H1 H2]. apply eqb_prop in H3. subst.
    apply L in H1; [apply L in H2; [now subst|]|].
    + intros x I. cbn. pose proof (list_sum_in (map tsize outs) (tsize x) (in_map _ _ _ I)). lia.
    + intros x I. cbn. pose proof (list_sum_in (map tsize ins) (tsize x) (in_map _ _ _ I)). lia.
  - f_equal. assert (forall f x, In f ms -> gtype_eqb (snd f) x = true -> snd f = x) as Q.
    { intros f x I. apply IH. cbn. pose proof (list_sum_in (map (fun m => tsize (snd m)) ms) (tsize (snd f)) (in_map (fun m => tsize (snd m)) _ _ I)). lia. }
    clear IH L. revert ms0 H. induction ms as [|[nm x] ms IHm]; intros [|[nm' x'] ms'] H; try discriminate; [reflexivity|].
    repeat (apply andb_prop in H; let K := fresh "K" in destruct H as [H K]). apply beqb_eq in H. subst.
    apply (Q (nm', x) x') in K0; [|now left]. cbn in K0. subst. f_equal. apply IHm; [|exact K]. intros f y I. apply Q. now right.
  - reflexivity.
Qed.

Section Check.
Variable P : program.
Notation decls := (g_decls P).
Definition mem (t : gtype) (l : list gtype) : bool := existsb (gtype_eqb t) l.
Lemma mem_in t l : mem t l = true -> In t l.
Proof. unfold mem. intro H. apply existsb_exists in H. destruct H as [x [I E]]. apply gtype_eqb_eq in E. now subst. Qed.

Definition member_types (m : bytes * member) : list gtype :=
  match snd m with
  | MField _ ft _ => match t_kind decls ft with KFunc => filter (is_data P) (fun_outs (under decls ft)) | _ => [ft] end
  | MMethod _ ft => filter (is_data P) (fun_outs ft)
  end.
Definition asked_of (t : gtype) : list gtype :=
  if is_time decls t then []
  else match t_kind decls t with
       | KSlice | KArray | KPtr => match t_elem decls t with Some e => [e] | None => [] end
       | KStruct => flat_map member_types (exposed P t) ++ interfaces_of P t
       | KInterface => flat_map member_types (exposed P t) ++ implementations_of P t
       | _ => []
       end.
Lemma asks_in t t' : asks P t t' -> In t' (asked_of t).
Proof.
  intro A. destruct A as [t e T K E|t n m t' T K I M|t i T K I|i t T K I]; unfold asked_of; rewrite T.
  - destruct K as [K|[K|K]]; rewrite K, E; now left.
  - assert (In t' (flat_map member_types (exposed P t))) as J.
    { apply in_flat_map. exists (n, m). split; [exact I|]. unfold member_types. cbn [snd]. destruct m as [j ft h|j ft]; cbn [member_type] in M.
      - destruct (t_kind decls ft); cbn in M; try (left; now symmetry). destruct M as [M1 M2]. apply filter_In. split; [exact M1|now apply is_data_spec].
      - destruct M as [M1 M2]. apply filter_In. split; [exact M1|now apply is_data_spec]. }
    destruct K as [K|K]; rewrite K; apply in_or_app; now left.
  - rewrite K. apply in_or_app. now right.
  - rewrite K. apply in_or_app. now right.
Qed.
(** [l] has all types of the schema *)
Definition covers (roots l : list gtype) : bool :=
  forallb (fun t => mem t l) roots && forallb (fun t => forallb (fun t' => mem t' l) (asked_of t)) l.
Lemma covers_ok roots l : covers roots l = true -> forall t, reach P roots t -> In t l.
Proof.
  intros H t R. apply andb_prop in H. destruct H as [H1 H2]. rewrite forallb_forall in H1, H2. induction R as [t I|t t' R IH A].
  - apply mem_in. auto.
  - apply mem_in. specialize (H2 t IH). rewrite forallb_forall in H2. apply H2. now apply asks_in.
Qed.
(** a name made for a struct without name *)
Definition made_name (pre n : bytes) : bool :=
  beqb (firstn (length pre) n) pre && forallb (fun c => (48 <=? c)%N && (c <=? 57)%N) (skipn (length pre) n) && negb (match skipn (length pre) n with [] => true | _ => false end).
Lemma made_name_ok pre n k : made_name pre n = false -> n <> pre ++ dec_of_N (N.of_nat k).
Proof.
  intros H ->. unfold made_name in H. rewrite firstn_app, firstn_all, Nat.sub_diag, firstn_O, app_nil_r, beqb_refl in H.
  rewrite skipn_app, skipn_all, Nat.sub_diag in H. cbn [app skipn andb] in H.
  destruct (dec_of_N_ok (N.of_nat k)) as [_ [_ [D N]]]. apply andb_false_iff in H. destruct H as [H|H].
  - assert (forallb (fun c => (48 <=? c)%N && (c <=? 57)%N) (dec_of_N (N.of_nat k)) = true) as E; [|congruence].
    apply forallb_forall. intros c I. rewrite Forall_forall in D. apply D in I. unfold digit in I. apply andb_true_intro. split; apply N.leb_le; lia.
  - destruct (dec_of_N (N.of_nat k)); [congruence|discriminate].
Qed.
Definition imp (a b : bool) : bool := negb a || b.
Definition structs (l : list gtype) : list gtype :=
  filter (fun t => match t_kind decls t, t_name decls t with KStruct, _ :: _ => true | _, _ => false end) l.
Definition ifaces (l : list gtype) : list gtype := filter (fun t => match t_kind decls t with KInterface => true | _ => false end) l.
Definition pairs (l : list gtype) (f : gtype -> gtype -> bool) : bool := forallb (fun t => forallb (fun t' => f t t') l) l.
Definition ql (t : gtype) : bytes := rename P (t_name decls t).
Definition apartb (roots l : list gtype) : bool :=
  covers roots l &&
  pairs (structs l) (fun t t' => imp (beqb (ql t) (ql t') && beqb (t_pkg decls t) (t_pkg decls t')) (gtype_eqb t t')) &&
  pairs (ifaces l) (fun t t' => imp (beqb (ql t) (ql t') && beqb (t_pkg decls t) (t_pkg decls t')) (gtype_eqb t t')) &&
  pairs (structs l) (fun t t' => imp (beqb (ql t) (ql t') && negb (match interfaces_of P t with [] => true | _ => false end)) (gtype_eqb t t')) &&
  forallb (fun t => negb (made_name (bs "__UnknownType") (ql t))) (structs l).
Lemma structs_in l t : In t l -> t_kind decls t = KStruct -> t_name decls t <> [] -> In t (structs l).
Proof. intros I K N. apply filter_In. split; [exact I|]. rewrite K. destruct (t_name decls t); [congruence|reflexivity]. Qed.
Lemma pairs_ok l f t t' : pairs l f = true -> In t l -> In t' l -> f t t' = true.
Proof. unfold pairs. intros H I J. rewrite forallb_forall in H. specialize (H t I). rewrite forallb_forall in H. auto. Qed.
Theorem apartb_ok roots l : apartb roots l = true -> named_apart P roots.
Proof.
  intro H. unfold apartb in H. do 4 (apply andb_prop in H; let K := fresh "K" in destruct H as [H K]).
  pose proof (covers_ok roots l H) as C. constructor.
  - intros t t' R R' Kt Kt' N N' E Ep. pose proof (pairs_ok _ _ t t' K2 (structs_in _ _ (C _ R) Kt N) (structs_in _ _ (C _ R') Kt' N')) as X.
    unfold imp, ql in X. rewrite E, Ep, !beqb_refl in X. now apply gtype_eqb_eq.
  - intros t t' R R' Kt Kt' E Ep.
    assert (forall t, reach P roots t -> t_kind decls t = KInterface -> In t (ifaces l)) as I.
    { intros u Ru Ku. apply filter_In. split; [auto|]. now rewrite Ku. }
    pose proof (pairs_ok _ _ t t' K1 (I t R Kt) (I t' R' Kt')) as X.
    unfold imp, ql in X. rewrite E, Ep, !beqb_refl in X. now apply gtype_eqb_eq.
  - intros t t' R R' Kt Kt' Im N' E. assert (t_name decls t <> []) as N by (intro N; apply Im; unfold interfaces_of; now rewrite N).
    pose proof (pairs_ok _ _ t t' K0 (structs_in _ _ (C _ R) Kt N) (structs_in _ _ (C _ R') Kt' N')) as X.
    unfold imp, ql in X. rewrite E, beqb_refl in X. destruct (interfaces_of P t); [congruence|]. now apply gtype_eqb_eq.
  - intros t k R Kt N. rewrite forallb_forall in K. pose proof (K t (structs_in _ _ (C _ R) Kt N)) as X. apply negb_true_iff in X.
    unfold ql in X. now apply made_name_ok.
Qed.

(** ** Arguments *)
Definition in_asked (t : gtype) : list gtype :=
  match t_kind decls t with
  | KSlice | KArray => match t_elem decls t with Some e => [e] | None => [] end
  | KPtr => match t_elem decls t with Some e => if is_file_header decls e then [] else [e] | None => [] end
  | KStruct => if is_time decls t then [] else map (fun m => snd (fst (snd m))) (input_members P t)
  | _ => []
  end.
Definition arg_types (ts : list gtype) : list gtype :=
  flat_map (fun a => if is_ctx decls a then [] else match t_kind decls a with KStruct => map (fun m => snd (fst (snd m))) (input_members P a) | _ => [] end) ts.
Definition funs_of (t : gtype) : list (bool * list gtype) :=
  if is_time decls t then []
  else match t_kind decls t with
       | KStruct | KInterface =>
           flat_map (fun m => match snd m with
                              | MField _ ft _ => match t_kind decls ft with KFunc => [(false, fun_ins_of (under decls ft))] | _ => [] end
                              | MMethod _ ft => [(true, method_ins decls t ft)]
                              end) (exposed P t)
       | _ => []
       end.
Definition in_covers (more : list (list gtype)) (l inl : list gtype) : bool :=
  forallb (fun f => forallb (fun t => mem t inl) (arg_types (method_args (fst f) (snd f)))) (map (fun ins => (false, ins)) more ++ flat_map funs_of l) &&
  forallb (fun t => forallb (fun t' => mem t' inl) (in_asked t)) inl.
Lemma in_covers_ok roots more l inl : covers roots l = true -> in_covers more l inl = true -> forall t, in_reach P roots more t -> In t inl.
Proof.
  intros Hc H t R. pose proof (covers_ok roots l Hc) as C. apply andb_prop in H. destruct H as [H1 H2]. rewrite forallb_forall in H1, H2.
  induction R as [it ins a f i t h Sf Ia [Sa Sk] If|t e R IH K E Fh|t n i t' h R IH K T If].
  - assert (In (it, ins) (map (fun ins => (false, ins)) more ++ flat_map funs_of l)) as I.
    { apply in_or_app. destruct Sf as [[-> Im]|[t0 [n [m [R [T [K [Ex M]]]]]]]].
      - left. now apply (in_map (fun ins => (false, ins))).
      - right. apply in_flat_map. exists t0. split; [auto|]. unfold funs_of. rewrite T.
        assert (In (it, ins) (flat_map (fun m => match snd m with
                              | MField _ ft _ => match t_kind decls ft with KFunc => [(false, fun_ins_of (under decls ft))] | _ => [] end
                              | MMethod _ ft => [(true, method_ins decls t0 ft)]
                              end) (exposed P t0))) as J.
        { apply in_flat_map. exists (n, m). split; [exact Ex|]. cbn [snd]. destruct m; cbn [member_fun] in M.
          - destruct M as [M1 [-> ->]]. rewrite M1. now left.
          - destruct M as [-> ->]. now left. }
        destruct K as [K|K]; rewrite K; exact J. }
    specialize (H1 _ I). cbn [fst snd] in H1. rewrite forallb_forall in H1. apply mem_in. apply H1. unfold arg_types. apply in_flat_map. exists a.
    split; [exact Ia|]. rewrite Sa, Sk. apply in_map_iff. exists (f, (i, t, h)). auto.
  - apply mem_in. specialize (H2 t IH). rewrite forallb_forall in H2. apply H2. unfold in_asked. destruct K as [K|[K|K]]; rewrite K, E; try now left.
    rewrite (Fh K). now left.
  - apply mem_in. specialize (H2 t IH). rewrite forallb_forall in H2. apply H2. unfold in_asked. rewrite K, T. apply in_map_iff. exists (n, (i, t', h)). auto.
Qed.
Definition in_apartb (roots : list gtype) (more : list (list gtype)) (l inl : list gtype) : bool :=
  covers roots l && in_covers more l inl &&
  pairs (structs inl) (fun t t' => imp (beqb (ql t) (ql t') || beqb (ql t) (ql t' ++ bs "__input")) (gtype_eqb t t')) &&
  forallb (fun t => negb (made_name (bs "__UnknownInput") (ql t))) (structs inl).
Theorem in_apartb_ok roots more l inl : in_apartb roots more l inl = true -> inputs_apart P roots more.
Proof.
  intro H. unfold in_apartb in H. do 3 (apply andb_prop in H; let K := fresh "K" in destruct H as [H K]).
  pose proof (in_covers_ok roots more l inl H K1) as C. constructor.
  - intros t t' R R' Kt Kt' N N' E. pose proof (pairs_ok _ _ t t' K0 (structs_in _ _ (C _ R) Kt N) (structs_in _ _ (C _ R') Kt' N')) as X.
    unfold imp, ql in X. apply gtype_eqb_eq. destruct E as [E|E]; rewrite E, beqb_refl in X; [exact X|]. now rewrite orb_true_r in X.
  - intros t k R Kt N. rewrite forallb_forall in K. pose proof (K t (structs_in _ _ (C _ R) Kt N)) as X. apply negb_true_iff in X.
    unfold ql in X. now apply made_name_ok.
Qed.

(** all types of a schema: [covers] with enough steps *)
Fixpoint close (f : gtype -> list gtype) (fuel : nat) (l : list gtype) : list gtype :=
  match fuel with
  | O => l
  | S fuel => close f fuel (fold_left (fun acc t => if mem t acc then acc else acc ++ [t]) (flat_map f l) l)
  end.
End Check.
