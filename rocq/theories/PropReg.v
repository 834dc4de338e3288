(** * Properties of registration (C43), of context values (C37) and of type names (C45) *)
From Coq Require Import String Arith NArith Bool Lia ZifyBool ZifyN ZifyNat List.
From Verif Require Import Base NameModel RegModel.
Import ListNotations.
Open Scope N_scope.

(** ** C43: directives *)
(** a directive of this name can be used at this location *)
Definition available (s : directives) (loc : N) (d : directive) : Prop := In d (dirs_at s loc).
(** the schemas that can be reached from a new one by registering directives *)
Inductive reachable : directives -> Prop :=
| reach_new : reachable new_directives
| reach_ok : forall s p d s', reachable s -> register_directive p s d = RegOk s' -> reachable s'
| reach_err : forall s p d s', reachable s -> register_directive p s d = RegErr s' -> reachable s'.

Lemma dirs_at_set : forall s l ds m, dirs_at (dirs_set s l ds) m = if l =? m then ds else dirs_at s m.
Proof.
  induction s as [|[k x] s IH]; intros l ds m; simpl.
  - destruct (l =? m); reflexivity.
  - destruct (k =? l) eqn:E; simpl.
    + destruct (l =? m) eqn:E'; auto. replace (k =? m) with false by lia. reflexivity.
    + rewrite IH. destruct (k =? m) eqn:E1, (l =? m) eqn:E2; auto. lia.
Qed.
Lemma register_at_ext : forall locs s d s', register_at s d locs = RegOk s' \/ register_at s d locs = RegErr s' ->
  forall m, exists x, dirs_at s' m = dirs_at s m ++ x /\ (x <> [] -> x = [d] /\ In m locs /\
    Forall (fun y => dr_name y <> dr_name d) (dirs_at s m)).
Proof.
  induction locs as [|l r IH]; intros s d s' H m.
  - destruct H as [H|H]; [|discriminate]. injection H as <-. exists []. rewrite app_nil_r. split; auto. intros []; auto.
  - cbn [register_at] in H. destruct (existsb (fun x => beqb (dr_name d) (dr_name x)) (dirs_at s l)) eqn:E.
    { destruct H as [H|H]; [discriminate|]. injection H as <-. exists []. rewrite app_nil_r. split; auto. intros []; auto. }
    assert (F : Forall (fun y => dr_name y <> dr_name d) (dirs_at s l)).
    { apply Forall_forall. intros y Hy Hd. assert (X : existsb (fun x => beqb (dr_name d) (dr_name x)) (dirs_at s l) = true).
      { apply existsb_exists. exists y. split; auto. apply beqb_eq. auto. } congruence. }
    destruct (IH _ _ _ H m) as (x & A & B). rewrite dirs_at_set in A, B. destruct (l =? m) eqn:Em.
    + assert (l = m) by lia. subst m. exists ([d] ++ x). rewrite app_assoc. split; [exact A|]. intros _.
      assert (x = []).
      { destruct x as [|y x]; auto. destruct B as (_ & _ & B); [discriminate|]. apply Forall_app in B. destruct B as [_ B].
        inversion B; subst. contradiction. }
      subst x. split; auto. split; [left; auto|auto].
    + exists x. split; auto. intros Hx. destruct (B Hx) as (B1 & B2 & B3). split; auto. split; [right; auto|auto].
Qed.
Lemma register_ext : forall p s d s', register_directive p s d = RegOk s' \/ register_directive p s d = RegErr s' ->
  forall m, exists x, dirs_at s' m = dirs_at s m ++ x /\ (x <> [] -> x = [d] /\ In m (match dr_where d with Some w => w | None => [] end) /\
    Forall (fun y => dr_name y <> dr_name d) (dirs_at s m)).
Proof.
  intros p s d s' H m. unfold register_directive in H.
  assert (T : exists x : list directive, dirs_at s m = dirs_at s m ++ x /\ (x <> [] -> x = [d] /\ In m (match dr_where d with Some w => w | None => [] end) /\
    Forall (fun y => dr_name y <> dr_name d) (dirs_at s m))).
  { exists []. rewrite app_nil_r. split; auto. intros []; auto. }
  destruct p; [destruct H as [H|H]; [discriminate|]; injection H as <-; exact T|].
  destruct (check_directive d); [eapply register_at_ext; eauto| |].
  - destruct H as [H|H]; [discriminate|]; injection H as <-; exact T.
  - destruct H; discriminate.
Qed.

(** success: available at all requested places, nothing else changed *)
Theorem C43_success_registers_everywhere : forall p s d s', register_directive p s d = RegOk s' ->
  exists w, dr_where d = Some w /\
    (forall loc, In loc w -> available s' loc d) /\
    (forall loc, ~ In loc w -> dirs_at s' loc = dirs_at s loc) /\
    (forall loc x, available s loc x -> available s' loc x).
Proof.
  intros p s d s' H.
  assert (W : exists w, dr_where d = Some w /\ register_at s d w = RegOk s').
  { unfold register_directive in H. destruct p; [discriminate|]. destruct (check_directive d) eqn:C; try discriminate.
    unfold check_directive in C. destruct (dr_name d); [discriminate|]. destruct (negb _); [discriminate|].
    destruct (dr_where d) as [w|]; [|discriminate]. eauto. }
  destruct W as (w & Hw & R). exists w. split; auto.
  pose proof (register_ext p s d s' (or_introl H)) as X. rewrite Hw in X.
  split; [|split].
  - clear X H Hw. revert s R. induction w as [|l r IH]; intros s R loc I; [destruct I|].
    cbn [register_at] in R. destruct (existsb _ _); [discriminate|].
    destruct (register_at_ext _ _ _ _ (or_introl R) loc) as (x & A & B). rewrite dirs_at_set in A.
    destruct I as [<-|I]; [|eapply IH; eauto]. rewrite N.eqb_refl in A. unfold available. rewrite A.
    apply in_or_app. left. apply in_or_app. right. left. auto.
  - intros loc I. destruct (X loc) as (x & A & B). rewrite A. destruct x; [now rewrite app_nil_r|].
    exfalso. apply I. apply B. discriminate.
  - intros loc y I. destruct (X loc) as (x & A & B). unfold available. rewrite A. apply in_or_app. auto.
Qed.
Print Assumptions C43_success_registers_everywhere.

(** names are unique for each location, whatever was registered or refused *)
Theorem C43_names_are_unique : forall s loc, reachable s -> NoDup (map dr_name (dirs_at s loc)).
Proof.
  assert (STEP : forall p s d s', register_directive p s d = RegOk s' \/ register_directive p s d = RegErr s' ->
    (forall loc, NoDup (map dr_name (dirs_at s loc))) -> forall loc, NoDup (map dr_name (dirs_at s' loc))).
  { intros p s d s' H N loc. destruct (register_ext _ _ _ _ H loc) as (x & A & B). rewrite A.
    destruct x as [|y x]; [now rewrite app_nil_r|]. destruct B as (E & _ & F); [discriminate|]. rewrite E.
    rewrite map_app. simpl. 
    assert (Y : ~ In (dr_name d) (map dr_name (dirs_at s loc))).
    { intros I. apply in_map_iff in I. destruct I as (z & Ez & Iz). rewrite Forall_forall in F. apply (F z); auto. }
    specialize (N loc). clear -N Y. induction (map dr_name (dirs_at s loc)) as [|a l IH]; simpl.
    - repeat constructor; auto.
    - inversion N; subst. constructor; [|apply IH; auto; intros I; apply Y; right; auto].
      intros I. apply in_app_or in I. destruct I as [I|[I|[]]]; auto. subst. apply Y. left. auto. }
  intros s loc R. revert loc. induction R; intros loc; [|eapply STEP; eauto|eapply STEP; eauto].
  unfold new_directives. cbn [dirs_at]. destruct (0 =? loc); [|destruct (1 =? loc); [|destruct (2 =? loc)]].
  all: cbn; repeat constructor; cbn; intuition discriminate.
Qed.
Print Assumptions C43_names_are_unique.

(** a new schema is one in which skip and include were registered like all others; neither is refused, so NewSchema does not panic *)
Theorem C43_new_schema : exists s, register_directive false [] skip_directive = RegOk s /\ register_directive false s include_directive = RegOk new_directives.
Proof. eexists. split; vm_compute; reflexivity. Qed.
Print Assumptions C43_new_schema.

(** skip and include keep their meaning *)
Theorem C43_builtin_directives_stay : forall s loc d, reachable s -> In loc [0; 1; 2] -> available s loc d ->
  (dr_name d = bs "skip" -> d = skip_directive) /\ (dr_name d = bs "include" -> d = include_directive).
Proof.
  intros s loc d R I A.
  assert (B : available s loc skip_directive /\ available s loc include_directive).
  { clear A. induction R.
    - simpl in I. destruct I as [<-|[<-|[<-|[]]]]; unfold available; cbn; auto.
    - destruct (register_ext _ _ _ _ (or_introl H) loc) as (x & E & _). unfold available in *. rewrite E.
      split; apply in_or_app; left; tauto.
    - destruct (register_ext _ _ _ _ (or_intror H) loc) as (x & E & _). unfold available in *. rewrite E.
      split; apply in_or_app; left; tauto. }
  pose proof (C43_names_are_unique s loc R) as N. unfold available in *.
  assert (U : forall l (x y : directive), NoDup (map dr_name l) -> In x l -> In y l -> dr_name x = dr_name y -> x = y).
  { clear. induction l as [|a l IH]; intros x y N Ix Iy E; [destruct Ix|]. simpl in N. inversion N; subst.
    destruct Ix as [->|Ix], Iy as [->|Iy]; auto.
    - exfalso. apply H1. rewrite E. now apply in_map.
    - exfalso. apply H1. rewrite <- E. now apply in_map. }
  destruct B as [B1 B2]. split; intros E; eapply U; eauto.
Qed.
Print Assumptions C43_builtin_directives_stay.

(** an error leaves the directives unchanged if only one location was asked for, and never when the
    name was new everywhere *)
Theorem C43_single_location_is_atomic : forall p s d s' l, dr_where d = Some [l] ->
  register_directive p s d = RegErr s' -> s' = s.
Proof.
  intros p s d s' l W H. unfold register_directive in H. destruct p; [congruence|].
  destruct (check_directive d); try congruence. rewrite W in H. cbn in H. destruct (existsb _ _); congruence.
Qed.
Print Assumptions C43_single_location_is_atomic.
(** not atomic in general: the directive is added to the first location, then refused at the second *)
Theorem C43_atomic_refuted : exists s d s' loc, reachable s /\ register_directive false s d = RegErr s' /\
  ~ available s loc d /\ available s' loc d.
Proof.
  pose (a := Dir (bs "a") (Some [0]) (MkFunc [true])).
  pose (b := Dir (bs "a") (Some [1; 0]) (MkFunc [true])).
  assert (R : reachable (dirs_set new_directives 0 [skip_directive; include_directive; a])).
  { eapply reach_ok with (p := false) (d := a); [apply reach_new|]. vm_compute. reflexivity. }
  eexists; exists b; eexists; exists 1. split; [exact R|]. split; [vm_compute; reflexivity|].
  split; unfold available; cbn; [|auto]. intuition discriminate.
Qed.
Print Assumptions C43_atomic_refuted.

(** *** enums: the first registration of a name is the one that counts, so built-in ones stay,
    but a name that is taken is not refused *)
Theorem C43_builtin_enums_stay : forall (args : list (bool * enum_arg)) s,
  fold_left (fun s pa => match s with
                         | Some s => match register_enum (fst pa) s (snd pa) with
                                     | EnAdded s' | EnNotAdded s' | EnErr s' => Some s'
                                     | EnPanic => None
                                     end
                         | None => None
                         end) args (Some new_enums) = Some s ->
  get_enum s (bs "__TypeKind") = Some kind_enum /\ get_enum s (bs "__DirectiveLocation") = Some location_enum.
Proof.
  intros args s H.
  assert (P : exists r, s = new_enums ++ r).
  { remember (Some new_enums) as o eqn:E.
    assert (Q : forall s0, o = Some s0 -> exists r, s0 = new_enums ++ r).
    { intros s0 ->. injection E as ->. exists []. now rewrite app_nil_r. }
    clear E. revert o H Q. induction args as [|[p a] args IH]; intros o H Q.
    - apply Q. exact H.
    - cbn [fold_left fst snd] in H. eapply IH; [exact H|]. intros s0 E.
      destruct o as [s1|]; [|discriminate]. destruct (Q s1 eq_refl) as (r & ->).
      destruct (register_enum p (new_enums ++ r) a) eqn:R; try discriminate; injection E as <-;
        unfold register_enum in R; destruct p, a as [| | | | | |t [|k ks]]; try discriminate;
        try (injection R as <-; eauto).
      all: destruct (forallb valid_gql_name (k :: ks)); inversion R; subst; solve [exists r; reflexivity|exists (r ++ [EnumDef t (k :: ks)]); reflexivity]. }
  destruct P as (r & ->). split; vm_compute; reflexivity.
Qed.
Print Assumptions C43_builtin_enums_stay.
Theorem C43_enum_name_taken_refuted : exists keys s, register_enum false new_enums (EaMap (bs "__TypeKind") keys) = EnAdded s.
Proof. exists [bs "OTHER"]. eexists. vm_compute. reflexivity. Qed.
Print Assumptions C43_enum_name_taken_refuted.

Example C43_case : exists s, register_directive false new_directives (Dir (bs "upper") (Some [0; 2]) (MkFunc [true])) = RegOk s /\
  reachable s /\ length (dirs_at s 0) = 3%nat /\ length (dirs_at s 1) = 2%nat /\
  register_directive false s (Dir (bs "skip") (Some [0]) (MkFunc [true])) = RegErr s.
Proof.
  eexists. split; [vm_compute; reflexivity|]. split; [eapply reach_ok with (p := false) (d := Dir (bs "upper") (Some [0; 2]) (MkFunc [true])); [apply reach_new|vm_compute; reflexivity]|].
  split; [reflexivity|]. split; [reflexivity|]. vm_compute. reflexivity.
Qed.

(** ** C37: values and context of a request *)
Section C37.
Variables V C : Type.
Theorem C37_set_value : forall (s s' : rctx V C) k v, set_value s k v = Some s' ->
  get_value s' k = Some v /\ (forall k', k' <> k -> get_value s' k' = get_value s k') /\ get_context s' = get_context s.
Proof.
  intros s s' k v H. unfold set_value in H. destruct (rc_values s) as [[m|]|] eqn:E; [|discriminate|]; injection H as <-.
  - unfold get_value. rewrite E. cbn. rewrite beqb_refl. repeat split; auto.
    intros k' Hk. apply beqb_neq in Hk. now rewrite Hk.
  - unfold get_value. rewrite E. cbn. rewrite beqb_refl. repeat split; auto.
    intros k' Hk. apply beqb_neq in Hk. now rewrite Hk.
Qed.
Theorem C37_set_context : forall (s s' : rctx V C) c, set_context s c = Some s' ->
  get_context s' = c /\ forall k, get_value s' k = get_value s k.
Proof.
  intros s s' c H. unfold set_context in H. destruct c as [c|]; [destruct (rc_context s); [|discriminate]|]; injection H as <-; auto.
Qed.
(** exactly when the calls panic *)
Theorem C37_panics : forall (s : rctx V C),
  (forall k v, set_value s k v = None <-> rc_values s = Some None) /\
  (forall c, set_context s c = None <-> c <> None /\ get_context s = None).
Proof.
  intros s. split.
  - intros k v. unfold set_value. destruct (rc_values s) as [[m|]|]; split; congruence.
  - intros c. unfold set_context, get_context. destruct c, (rc_context s); split; intros H; try congruence; try tauto; try (destruct H; congruence).
    split; congruence.
Qed.
(** sequences of calls that do not panic behave like assignments *)
Fixpoint last_value (os : list (cop V C)) (k : bytes) (d : option V) : option V :=
  match os with
  | [] => d
  | OpSetValue k' v :: r => last_value r k (if beqb k k' then Some v else d)
  | _ :: r => last_value r k d
  end.
Fixpoint last_context (os : list (cop V C)) (d : option C) : option C :=
  match os with
  | [] => d
  | OpSetContext c :: r => last_context r c
  | _ :: r => last_context r d
  end.
Theorem C37_sequences : forall os (s s' : rctx V C), ctx_ops s os = Some s' ->
  (forall k, get_value s' k = last_value os k (get_value s k)) /\ get_context s' = last_context os (get_context s).
Proof.
  induction os as [|o os IH]; intros s s' H; [injection H as <-; auto|].
  cbn [ctx_ops] in H. destruct (ctx_op s o) as [s1|] eqn:E; [|discriminate]. destruct (IH _ _ H) as [A B].
  destruct o as [k v|c]; cbn [last_value last_context]; cbn [ctx_op] in E.
  - destruct (C37_set_value _ _ _ _ E) as (X & Y & Z). rewrite Z in B. split; auto.
    intros k'. rewrite A. destruct (beqb k' k) eqn:Ek.
    + apply beqb_eq in Ek. subst. now rewrite X.
    + apply beqb_neq in Ek. now rewrite Y.
  - destruct (C37_set_context _ _ _ E) as (X & Y). rewrite X in B. split; auto. intros k. rewrite A, Y. auto.
Qed.
End C37.
Print Assumptions C37_set_value.
Print Assumptions C37_set_context.
Print Assumptions C37_panics.
Print Assumptions C37_sequences.
(** a request without context: SetContext panics; a request with a nil map: SetValue panics *)
Theorem C37_no_panic_refuted : exists (s : rctx nat nat) c, rc_values s = None /\ rc_context s = None /\ set_context s (Some c) = None.
Proof. exists (RCtx None None), 1%nat. repeat split. Qed.
Print Assumptions C37_no_panic_refuted.
Example C37_case : exists s' : rctx nat nat,
  ctx_ops (RCtx None (Some 7%nat)) [OpSetValue (bs "a") 1%nat; OpSetContext (Some 8%nat); OpSetValue (bs "b") 2%nat; OpSetValue (bs "a") 3%nat] = Some s' /\
  get_value s' (bs "a") = Some 3%nat /\ get_value s' (bs "b") = Some 2%nat /\ get_value s' (bs "c") = None /\ get_context s' = Some 8%nat.
Proof. eexists. split; [reflexivity|]. repeat split. Qed.

(** ** C45: type names *)
Fixpoint notation (t : qltype) : bytes :=
  match t with
  | QNamed (Some n) => n
  | QNamed None => bs "Unknown"
  | QList t => [91] ++ notation t ++ [93]
  | QNonNull t => notation t ++ [33]
  end.
(** the marks after the name, from the outermost type to the innermost *)
Fixpoint marks (t : qltype) : bytes :=
  match t with QNamed _ => [] | QList t => 93 :: marks t | QNonNull t => 33 :: marks t end.
Lemma type_name_shape : forall t, exists p, forall s, type_name_loop t s = p ++ s ++ marks t.
Proof.
  induction t as [n|t (p & IH)|t (p & IH)].
  - exists (match n with Some n => n | None => bs "Unknown" end). intros s. cbn. now rewrite app_nil_r.
  - exists (91 :: p). intros s. cbn. rewrite IH. cbn. now rewrite <- app_assoc.
  - exists p. intros s. cbn. rewrite IH. cbn. now rewrite <- app_assoc.
Qed.
Lemma notation_shape : forall t, exists p, notation t = p ++ rev (marks t) /\ forall s, type_name_loop t s = p ++ s ++ marks t.
Proof.
  induction t as [n|t (p & IH1 & IH2)|t (p & IH1 & IH2)].
  - exists (match n with Some n => n | None => bs "Unknown" end). split.
    + destruct n; cbn; now rewrite ?app_nil_r.
    + intros s. cbn. now rewrite app_nil_r.
  - exists (91 :: p). split.
    + cbn. rewrite IH1. now rewrite <- app_assoc.
    + intros s. cbn. rewrite IH2. cbn. now rewrite <- app_assoc.
  - exists p. split.
    + cbn. rewrite IH1. now rewrite <- app_assoc.
    + intros s. cbn. rewrite IH2. cbn. now rewrite <- app_assoc.
Qed.
(** the printed name is the notation of the type exactly when its marks read the same in both directions *)
Theorem C45_right_exactly_for_symmetric_marks : forall t, type_name t = notation t <-> rev (marks t) = marks t.
Proof.
  intros t. destruct (notation_shape t) as (p & A & B). unfold type_name. rewrite B, A. cbn.
  split; intros H; [now apply app_inv_head in H|now rewrite H].
Qed.
Print Assumptions C45_right_exactly_for_symmetric_marks.
(** in particular for all types without lists ... *)
Theorem C45_right_without_lists : forall n, type_name (QNamed n) = notation (QNamed n) /\
  type_name (QNonNull (QNamed n)) = notation (QNonNull (QNamed n)).
Proof. intros n. split; apply C45_right_exactly_for_symmetric_marks; reflexivity. Qed.
Print Assumptions C45_right_without_lists.
(** ... and not for a list of non-null elements, which is the type of every Go slice of plain values *)
Theorem C45_type_names_refuted : exists t, t = QList (QNonNull (QNamed (Some (bs "Int")))) /\
  type_name t = bs "[Int]!" /\ notation t = bs "[Int!]".
Proof. eexists. split; [reflexivity|]. split; vm_compute; reflexivity. Qed.
Print Assumptions C45_type_names_refuted.
Example C45_case : type_name (QList (QList (QNamed (Some (bs "Int"))))) = bs "[[Int]]" /\
  rev (marks (QList (QList (QNamed (Some (bs "Int")))))) = marks (QList (QList (QNamed (Some (bs "Int"))))).
Proof. split; reflexivity. Qed.
