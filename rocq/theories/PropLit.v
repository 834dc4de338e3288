(** * Property C27: lists, objects and several arguments as literals *)
From Coq Require Import String Arith NArith ZArith Bool List Lia.
From Verif Require Import Base Json JsonModel Ast Grammar ReqModel Schema ResModel EnvModel Samples Interp RunSim Facts DocRun Spec SpecLit SpecVal SpecArgs SpecRun ArgRun PropArgs PropOut PropStr.
Import ListNotations.
Open Scope N_scope.
Local Notation value := Ast.value.
Local Notation SN := Datatypes.S.

(** ** Specification *)
(** in the struct [fs'] the members [vs] have been set, all other fields are as in [fs] *)
Definition fills (c : list (bytes * input)) (fs : list (bool * gval)) (vs : list (bytes * gval)) (fs' : list (bool * gval)) : Prop :=
  length fs' = length fs /\
  (forall m v i, In (m, v) vs -> slookup c m = Some i -> nth_error fs' (i_field i) = Some (true, v)) /\
  (forall n, (forall m v i, In (m, v) vs -> slookup c m = Some i -> i_field i <> n) -> nth_error fs' n = nth_error fs n).
(** the members of an input object are distinct exported fields of the Go struct, and its zero value has their zero values *)
Definition members_fit (c : list (bytes * input)) (fs : list (bool * gval)) : Prop :=
  (forall m i, slookup c m = Some i -> nth_error fs (i_field i) = Some (true, i_zero i)) /\
  (forall m i m' i', slookup c m = Some i -> slookup c m' = Some i' -> i_field i = i_field i' -> m = m').
(** the Go value that a literal denotes for an argument of type [i] *)
Inductive means (S : schema) : input -> value -> gval -> Prop :=
| m_int : forall i k old t z, is_ptr i = false -> i_zero i = GInt k old -> int_value t = Some z -> int_range k z -> means S i (VInt t) (GInt k z)
| m_uint : forall i k old t n, is_ptr i = false -> i_zero i = GUint k old -> dec_value t = Some n -> uint_range k n -> means S i (VInt t) (GUint k n)
| m_bool : forall i old b, is_ptr i = false -> i_zero i = GBool old -> means S i (VBool b) (GBool b)
| m_string : forall i old s, is_ptr i = false -> i_zero i = GString old -> is_string i -> means S i (VStr s) (GString s)
| m_enum : forall i k e n v, is_ptr i = false -> i_enum i = Some k -> nth_error (s_enums S) k = Some e -> registered e -> enum_like (en_kind e) (i_zero i) -> In (n, v) (en_entries e) -> means S i (VEnum n) v
| m_null : forall i, (is_ptr i = true -> exists e, i_elem i = Some e) -> means S i VNull (i_zero i)
| m_ptr : forall i e x v, is_ptr i = true -> i_elem i = Some e -> x <> VNull -> means S e x v -> means S i x (GPtr (Some v))
| m_list : forall i e old l vs, is_ptr i = false -> i_zero i = GSlice old -> i_elem i = Some e -> means_items S e l vs -> means S i (VList l) (GSlice (Some vs))
| m_obj : forall i c fs ms vs fs', is_ptr i = false -> i_zero i = GStruct fs -> contents S i c -> members_fit c fs -> NoDup (map fst ms) -> means_members S c ms vs -> fills c fs vs fs' ->
    means S i (VObj ms) (GStruct fs')
with means_items (S : schema) : input -> list value -> list gval -> Prop :=
| mi_nil : forall e, means_items S e [] []
| mi_cons : forall e x l v vs, means S e x v -> means_items S e l vs -> means_items S e (x :: l) (v :: vs)
with means_members (S : schema) : list (bytes * input) -> list (bytes * value) -> list (bytes * gval) -> Prop :=
| mm_nil : forall c, means_members S c [] []
| mm_cons : forall c k x ms i v vs, slookup c k = Some i -> means S i x v -> means_members S c ms vs -> means_members S c ((k, x) :: ms) ((k, v) :: vs).
(** no list and no null inside, except null for members of an object other than the last *)
Inductive calm : value -> Prop :=
| cm_int : forall t, calm (VInt t)
| cm_float : forall t, calm (VFloat t)
| cm_str : forall s, calm (VStr s)
| cm_bool : forall b, calm (VBool b)
| cm_enum : forall n, calm (VEnum n)
| cm_obj : forall ms, (forall m x, In (m, x) ms -> x = VNull \/ calm x) -> (forall a m, ms <> a ++ [(m, VNull)]) -> calm (VObj ms).
Definition calm_arg (x : value) : Prop := x = VNull \/ calm x \/ exists l, x = VList l /\ forall y, In y l -> calm y.
(** the arguments [vs] have been set in the argument structs [L] of the call *)
Definition field_at (L : list gval) (n j : nat) : option (bool * gval) := match nth_error L n with Some (GStruct fs) => nth_error fs j | _ => None end.
Definition args_are (ins : list (option gval)) (infs : list (bytes * (nat * input))) (vs : list (bytes * gval)) (L : list gval) : Prop :=
  length L = length ins /\
  (forall a v n i, In (a, v) vs -> slookup infs a = Some (n, i) -> field_at L n (i_field i) = Some (true, v)) /\
  (forall n j, (forall a v i, In (a, v) vs -> slookup infs a = Some (n, i) -> i_field i <> j) -> field_at L n j = field_at (fresh_args ins) n j).
Definition args_fit (ins : list (option gval)) (infs : list (bytes * (nat * input))) : Prop :=
  (forall a n i, slookup infs a = Some (n, i) -> field_at (fresh_args ins) n (i_field i) = Some (true, i_zero i)) /\
  (forall a n i a' i', slookup infs a = Some (n, i) -> slookup infs a' = Some (n, i') -> i_field i = i_field i' -> a = a').
Definition args_mean (S : schema) (infs : list (bytes * (nat * input))) (args : list (bytes * value)) (vs : list (bytes * gval)) : Prop :=
  Forall2 (fun a v => fst a = fst v /\ exists n i, slookup infs (fst a) = Some (n, i) /\ means S i (snd a) (snd v)) args vs.

(** ** Proof *)
Scheme means_ind' := Minimality for means Sort Prop
with items_ind' := Minimality for means_items Sort Prop
with members_ind' := Minimality for means_members Sort Prop.
Combined Scheme means_mut from means_ind', items_ind', members_ind'.
Lemma ext_nth : forall {A} (l l' : list A), (forall n, nth_error l n = nth_error l' n) -> l = l'.
Proof.
  induction l as [|x l IH]; intros [|y l'] H; auto; [specialize (H O); discriminate|specialize (H O); discriminate|].
  pose proof (H O) as E. injection E; intros; subst. f_equal. apply IH. intro n. exact (H (SN n)).
Qed.
Definition put (c : list (bytes * input)) (fs : list (bool * gval)) (mv : bytes * gval) : list (bool * gval) := match slookup c (fst mv) with Some i => with_field fs (i_field i) (snd mv) | None => fs end.
Lemma with_field_same : forall fs n v e old, nth_error fs n = Some (e, old) -> nth_error (with_field fs n v) n = Some (e, v).
Proof. induction fs as [|[x y] fs IH]; intros [|n] v e old H; try discriminate; cbn in *; [congruence|eauto]. Qed.
Lemma with_field_other : forall fs n v m, n <> m -> nth_error (with_field fs n v) m = nth_error fs m.
Proof. induction fs as [|[x y] fs IH]; intros [|n] v [|m] H; cbn; auto; try congruence. apply IH. congruence. Qed.
Lemma with_field_length : forall fs n v, length (with_field fs n v) = length fs.
Proof. induction fs as [|[x y] fs IH]; intros [|n] v; auto. change (with_field ((x, y) :: fs) (SN n) v) with ((x, y) :: with_field fs n v). cbn [length]. now rewrite IH. Qed.

Lemma fills_put : forall c vs fs, (forall m v i m' v' i', In (m, v) vs -> slookup c m = Some i -> In (m', v') vs -> slookup c m' = Some i' -> i_field i = i_field i' -> m = m') ->
  (forall m v, In (m, v) vs -> exists i old, slookup c m = Some i /\ nth_error fs (i_field i) = Some (true, old)) -> NoDup (map fst vs) -> fills c fs vs (fold_left (put c) vs fs).
Proof.
  intros c vs. induction vs as [|[k x] vs IH]; intros fs D H N; cbn [fold_left].
  - split; auto. split; [contradiction|auto].
  - cbn [map fst] in N. inversion N as [|? ? N1 N2]; subst. destruct (H k x) as (i & old & Lk & Nt); [now left|]. unfold put at 2. cbn [fst snd]. rewrite Lk.
    assert (Ne : forall m v j, In (m, v) vs -> slookup c m = Some j -> i_field i <> i_field j).
    { intros m v j I Lj E. apply N1. apply in_map_iff. exists (m, v). split; auto. cbn [fst]. symmetry. eapply (D k x i m v j); eauto; [now left|now right]. }
    destruct (IH (with_field fs (i_field i) x)) as (A & B & C); auto.
    { intros m v j m' v' j' I1 L1 I2 L2 E. apply (D m v j m' v' j'); auto; now right. }
    { intros m v I. destruct (H m v) as (j & o & Lj & Nj); [now right|]. exists j, o. split; auto. rewrite with_field_other; eauto. }
    split; [now rewrite A, with_field_length|]. split.
    + intros m v j [E|I] Lj; [|eauto]. injection E; intros; subst. assert (j = i) by congruence. subst j. rewrite C; [eapply with_field_same; eauto|]. intros m' v' j' I' L' E'. eapply Ne; eauto.
    + intros n Hn. rewrite C; [|intros m v j I Lj; apply (Hn m v j); [now right|auto]]. apply with_field_other. apply (Hn k x i); [now left|auto].
Qed.
Lemma fills_same : forall c fs vs a b, fills c fs vs a -> fills c fs vs b -> a = b.
Proof.
  intros c fs vs a b (A1 & A2 & A3) (B1 & B2 & B3). apply ext_nth. intro n.
  assert (D : (exists m v i, In (m, v) vs /\ slookup c m = Some i /\ i_field i = n) \/ (forall m v i, In (m, v) vs -> slookup c m = Some i -> i_field i <> n)).
  { clear. induction vs as [|[k x] vs IH]; [right; contradiction|]. destruct IH as [(m & v & i & I & L & E)|N]; [left; exists m, v, i; repeat split; auto; now right|].
    destruct (slookup c k) as [i|] eqn:L; [destruct (Nat.eq_dec (i_field i) n) as [E|E]; [left; exists k, x, i; repeat split; auto; now left|]|].
    - right. intros m v j [I|I] Lj; [injection I; intros; subst; congruence|eauto].
    - right. intros m v j [I|I] Lj; [injection I; intros; subst; congruence|eauto]. }
  destruct D as [(m & v & i & I & L & <-)|N]; [rewrite (A2 m v i I L), (B2 m v i I L); auto|rewrite A3, B3; auto].
Qed.
Section Means.
Context {W : Type} (X : externals W) (S : schema) (rawvars : bytes) (decls : option (list oparg)).
Notation lit_sets := (lit_sets X S rawvars decls).
Notation lit_elems := (lit_elems X S rawvars decls).
Notation lit_members := (lit_members X S rawvars decls).
Definition ends_calm (b0 : bool) (ms : list (bytes * value)) : bool := match rev ms with (_, VNull) :: _ => false | [] => b0 | _ => true end.
Lemma calm_list : forall x, calm x -> is_list x = false. Proof. intros x []; reflexivity. Qed.
Lemma means_sets :
  (forall i x v, means S i x v -> forall vo w, (calm x -> lit_sets vo w (false, i_zero i) i x w v true) /\ (x = VNull -> lit_sets vo w (false, i_zero i) i x w v false) /\
     (forall l, x = VList l -> (forall y, In y l -> calm y) -> lit_sets vo w (false, i_zero i) i x w v true)) /\
  (forall e l vs, means_items S e l vs -> forall vo w, (forall y, In y l -> calm y) -> lit_elems vo w e l w vs) /\
  (forall c ms vs, means_members S c ms vs -> map fst ms = map fst vs /\ (forall m v, In (m, v) vs -> exists i, slookup c m = Some i) /\
     forall vo w fs b0, (forall m x, In (m, x) ms -> x = VNull \/ calm x) -> NoDup (map fst ms) ->
       (forall m i m' i', slookup c m = Some i -> slookup c m' = Some i' -> i_field i = i_field i' -> m = m') ->
       (forall m x i, In (m, x) ms -> slookup c m = Some i -> nth_error fs (i_field i) = Some (true, i_zero i)) ->
       lit_members vo w false c (GStruct fs) b0 ms w (GStruct (fold_left (put c) vs fs)) (match ms with [] => b0 | _ => match last (map snd ms) VNull with VNull => false | _ => true end end)).
Proof.
  apply means_mut.
  - intros i k old t z P Z V R vo w. split; [intros _|split; [discriminate|discriminate]]. rewrite Z. apply ls_int; auto. apply it_int; auto. now apply int_signed.
  - intros i k old t n P Z V R vo w. split; [intros _|split; [discriminate|discriminate]]. rewrite Z. apply ls_int; auto. now apply it_uint.
  - intros i old b P Z vo w. split; [intros _|split; [discriminate|discriminate]]. rewrite Z. now apply ls_bool.
  - intros i old s P Z (E1 & E2 & E3 & E4) vo w. split; [intros _|split; [discriminate|discriminate]]. rewrite Z. apply ls_str; auto. now apply ss_string.
  - intros i k e n v P En Ek [Nd R] Lo I vo w. split; [intros _|split; [discriminate|discriminate]]. eapply ls_enum; eauto.
    rewrite Forall_forall in R. pose proof (R _ I) as Rv. cbn [snd] in Rv. pose proof (lookup_in _ _ _ Nd I) as Lk. unfold enum_like in Lo. destruct (en_kind e) eqn:Ke; try contradiction; destruct v; try contradiction; destruct (i_zero i); try contradiction.
    + destruct Rv as [-> Rv]. subst. eapply es_int; eauto. now apply low_bits_same.
    + destruct Rv as [-> Rv]. subst. eapply es_uint; eauto. split; auto. apply N.mod_small. unfold uint_range in Rv. lia.
    + now apply es_string.
  - intros i E vo w. split; [intro C; inversion C|split; [intros _|discriminate]]. destruct (is_ptr i) eqn:P; [destruct E as (e & E); auto; apply (ls_ptr_null X S rawvars decls vo w (false, i_zero i) i e P E)|apply (ls_null X S rawvars decls vo w (false, i_zero i) i P)].
  - intros i e x v P E Nn _ IH vo w. destruct (IH vo w) as (A & _ & C). split; [intro Cm; eapply ls_ptr; eauto|]. split; [congruence|]. intros l -> Cl. eapply ls_ptr; eauto.
  - intros i e old l vs P Z E _ IH vo w. split; [intro C; inversion C|]. split; [discriminate|]. intros l' El Cl. injection El; intros; subst. rewrite Z. eapply ls_list; eauto.
  - intros i c fs ms vs fs' P Z Ct [Mf1 Mf2] Nd _ (Fs & Kn & IH) F vo w. split; [|split; discriminate]. intro C. inversion C as [| | | | |? Cm Cl]; subst. rewrite Z. eapply ls_obj; eauto.
    assert (E : fs' = fold_left (put c) vs fs).
    { apply (fills_same c fs vs); auto. apply fills_put; [intros; eapply Mf2; eauto| |rewrite <- Fs; auto]. intros m v I. destruct (Kn m v I) as (j & Lj). exists j, (i_zero j). split; auto. eapply Mf1; eauto. }
    rewrite E. assert (Et : match ms with [] => true | _ => match last (map snd ms) VNull with VNull => false | _ => true end end = true).
    { destruct ms as [|a ms']; auto. destruct (exists_last (l := a :: ms')) as (u & (m & x) & El); [discriminate|]. rewrite El. rewrite map_app. cbn [map snd]. rewrite last_last. destruct x; auto. exfalso. eapply Cl; eauto. }
    rewrite <- Et at 2. apply IH; auto. intros. eapply Mf1; eauto.
  - intros e vo w _. constructor.
  - intros e x l v vs _ IH1 _ IH2 vo w C. destruct (IH1 vo w) as (A & _). assert (Cx : calm x) by (apply C; now left). eapply le_cons; [now apply calm_list|intros _ ->; inversion Cx|apply A; auto|]. apply IH2. intros; apply C; now right.
  - intros c. split; auto. split; [contradiction|]. intros. constructor.
  - intros c k x ms i v vs Lk _ IH1 _ (Fs & Kn & IH2). split; [cbn [map fst]; now rewrite Fs|]. split; [intros m u [E|I]; [injection E; intros; subst; eauto|eauto]|].
    intros vo w fs b0 Cm Nd D Fr. cbn [map fst] in Nd. inversion Nd as [|? ? N1 N2]; subst. destruct (IH1 vo w) as (A & B & _).
    assert (L : exists b, lit_sets vo w (false, i_zero i) i x w v b /\ b = match x with VNull => false | _ => true end).
    { destruct (Cm k x) as [->|Cx]; [now left|exists false; split; auto|]. exists true. split; auto. destruct x; auto. inversion Cx. }
    destruct L as (b & L & Eb). assert (Il : is_list x = false) by (destruct (Cm k x) as [->|Cx]; [now left|reflexivity|now apply calm_list]).
    cbn [fold_left]. unfold put at 2. cbn [fst snd]. rewrite Lk.
    assert (Eo : match (k, x) :: ms with [] => b0 | _ => match last (map snd ((k, x) :: ms)) VNull with VNull => false | _ => true end end = match ms with [] => b | _ => match last (map snd ms) VNull with VNull => false | _ => true end end).
    { destruct ms as [|a ms']; [cbn; auto|reflexivity]. }
    rewrite Eo. eapply lm_cons with (e := true) (old := i_zero i); eauto; [apply (Fr k x i); auto; now left|].
    apply IH2; auto; [intros m y I; apply (Cm m y); now right|]. intros m y j I Lj. rewrite with_field_other; [apply (Fr m y j); auto; now right|].
    intro E. apply N1. apply in_map_iff. exists (m, y). split; auto. symmetry. eapply D; eauto.
Qed.
End Means.
Lemma with_arg_length : forall l n v, (n < length l)%nat -> length (with_arg l n v) = length l.
Proof. intros l n v H. unfold with_arg. rewrite !app_length, firstn_length, skipn_length. cbn [length]. lia. Qed.
Lemma with_arg_nth : forall l n v m, (n < length l)%nat -> nth_error (with_arg l n v) m = if Nat.eqb n m then Some v else nth_error l m.
Proof.
  induction l as [|x l IH]; intros [|n] v [|m] H; cbn in *; try lia; auto. change (firstn n l ++ v :: skipn (n + 1) l) with (with_arg l n v). apply IH. lia.
Qed.
Lemma field_at_put : forall L n fs j v m k, nth_error L n = Some (GStruct fs) -> field_at (with_arg L n (GStruct (with_field fs j v))) m k = if Nat.eqb n m then nth_error (with_field fs j v) k else field_at L m k.
Proof. intros L n fs j v m k H. unfold field_at. rewrite with_arg_nth by (apply nth_error_Some; congruence). destruct (Nat.eqb n m); auto. Qed.
Section C27.
Context {W : Type} (X : externals W) (S : schema) (o : ropts) (decls : option (list oparg)).
Context (f : bytes) (ins : list (option gval)) (infs : list (bytes * (nat * input))) (seen : W -> list gval -> W).
Lemma args_bind : forall w args vs, args_mean S infs args vs -> NoDup (map fst args) ->
  (forall a n i a' i', slookup infs a = Some (n, i) -> slookup infs a' = Some (n, i') -> i_field i = i_field i' -> a = a') ->
  (forall a x, In (a, x) args -> calm_arg x) -> forall L,
  (forall a x n i, In (a, x) args -> slookup infs a = Some (n, i) -> field_at L n (i_field i) = Some (true, i_zero i)) ->
  exists L', args_set X S (op_vars o) decls infs w L args w L' /\ length L' = length L /\
    (forall a v n i, In (a, v) vs -> slookup infs a = Some (n, i) -> field_at L' n (i_field i) = Some (true, v)) /\
    (forall n j, (forall a v i, In (a, v) vs -> slookup infs a = Some (n, i) -> i_field i <> j) -> field_at L' n j = field_at L n j).
Proof.
  intros w args vs M. induction M as [|[a x] [a' v] args vs (Ea & n & i & Lk & Mx) M IH]; intros Nd D Cm L Fr.
  - exists L. split; [constructor|]. split; auto. split; [contradiction|auto].
  - cbn [fst snd] in *. subst a'. cbn [map fst] in Nd. inversion Nd as [|? ? N1 N2]; subst.
    assert (F0 : field_at L n (i_field i) = Some (true, i_zero i)) by (apply (Fr a x); auto; now left).
    assert (Es : exists fs, nth_error L n = Some (GStruct fs) /\ nth_error fs (i_field i) = Some (true, i_zero i)). { unfold field_at in F0. destruct (nth_error L n) as [g|]; [|discriminate]. destruct g; try discriminate. eauto. }
    destruct Es as (fs & Ln & Lf).
    assert (Li : exists b, lit_sets X S (op_vars o) decls true w (false, i_zero i) i x w v b).
    { destruct (proj1 (means_sets X S (op_vars o) decls) i x v Mx true w) as (A & B & C). destruct (Cm a x) as [->|[Cx|(l & -> & Cl)]]; [now left|eauto|eauto|eauto]. }
    destruct Li as (b & Li).
    assert (Vn : map fst args = map fst vs) by (clear - M; induction M as [|? ? ? ? [E _] M IH]; cbn; congruence).
    assert (Ne : forall a1 v1 j, In (a1, v1) vs -> slookup infs a1 = Some (n, j) -> i_field i <> i_field j).
    { intros a1 v1 j I Lj E. apply N1. rewrite Vn. apply in_map_iff. exists (a1, v1). split; auto. cbn [fst]. symmetry. eapply D; eauto. }
    destruct (IH N2 D) with (L := with_arg L n (GStruct (with_field fs (i_field i) v))) as (L' & As & Le & Se & Ot).
    { intros a1 x1 I. apply (Cm a1 x1). now right. }
    { intros a1 x1 n1 i1 I L1. rewrite field_at_put by auto. destruct (Nat.eqb n n1) eqn:En; [|apply (Fr a1 x1); auto; now right]. apply Nat.eqb_eq in En. subst n1.
      assert (I' : exists v1, In (a1, v1) vs). { assert (I' : In a1 (map fst vs)) by (rewrite <- Vn; apply in_map_iff; exists (a1, x1); auto). apply in_map_iff in I'. destruct I' as ([a2 v2] & E2 & I'). cbn in E2. subst. eauto. }
      destruct I' as (v1 & I'). rewrite with_field_other by (eapply Ne; eauto). pose proof (Fr a1 x1 n i1 ltac:(now right) L1) as F1. unfold field_at in F1. rewrite Ln in F1. exact F1. }
    exists L'. split; [eapply as_cons; eauto|]. split; [rewrite Le; apply with_arg_length; apply nth_error_Some; congruence|]. split.
    + intros a1 v1 n1 i1 [E|I] L1; [|eauto]. injection E; intros; subst. assert (E1 : n1 = n /\ i1 = i) by (split; congruence). destruct E1; subst. rewrite Ot; [|intros a2 v2 i2 I2 L2 E2; eapply Ne; eauto].
      rewrite field_at_put by auto. rewrite Nat.eqb_refl. eapply with_field_same; eauto.
    + intros n1 j Hn. rewrite Ot; [|intros a1 v1 i1 I1 L1; apply (Hn a1 v1 i1); auto; now right]. rewrite field_at_put by auto. destruct (Nat.eqb n n1) eqn:En; auto. apply Nat.eqb_eq in En. subst n1.
      rewrite with_field_other by (apply (Hn a v i); auto; now left). unfold field_at. rewrite Ln. reflexivity.
Qed.
(** ** C27: every written argument is bound, structurally *)
Theorem C27_partial : forall args vs q w, probe X S f ins infs seen -> args_fit ins infs -> asks o decls f args q ->
  NoDup (map fst args) -> args_mean S infs args vs ->
  (forall a x, In (a, x) args -> calm_arg x) -> (forall u a l v, args = u ++ (a, VList l) :: v -> v = []) ->
  exists L, received X S o seen q w L /\ args_are ins infs vs L.
Proof.
  intros args vs q w P [F1 F2] A Nd M Cm Ll. destruct (args_bind w args vs M Nd F2 Cm (fresh_args ins)) as (L & As & Le & Se & Ot); [intros; eapply F1; eauto|].
  exists L. split; [|split; [rewrite Le; apply map_length|split; auto]].
  assert (Ls : lists_last args []) by (intros u k l v E; split; auto; eapply Ll; eauto).
  destruct (args_fwd X S (op_vars o) decls _ _ _ _ _ _ As [] Ls) as (m & cut & C & _ & R).
  eapply (probe_received X S o decls f ins infs seen P args q w L (m + length args + 3) cut A C). intros fuel Lf. rewrite args_step. rewrite zero_fresh. apply R; lia.
Qed.
End C27.
Print Assumptions C27_partial.

(** ** Examples and refutations *)
Definition p_zero : gval := GStruct [(true, GInt W8 0); (true, GPtr None)].
Definition p_members : list (bytes * input) := [(bs "x", inp (KInt W8) 0 (GInt W8 0)); (bs "y", inp_ptr (inp KString 0 (GString [])) 1)].
Definition p_at (n : nat) : input := inp_struct "P" p_members n p_zero.
Definition lit_infs : list (bytes * (nat * input)) :=
  [(bs "p", (1%nat, p_at 0)); (bs "n", (1%nat, inp (KInt W8) 1 (GInt W8 0))); (bs "l", (1%nat, inp_slice (p_at 0) 2)); (bs "ll", (1%nat, inp_slice (inp_slice (inp (KInt W8) 0 (GInt W8 0)) 0) 3));
   (bs "pp", (1%nat, inp_ptr (p_at 0) 4)); (bs "lp", (1%nat, inp_slice (inp_ptr (inp (KInt W8) 0 (GInt W8 0)) 0) 5))].
Definition lit_ins : list (option gval) := [None; Some (GStruct [(true, p_zero); (true, GInt W8 0); (true, GSlice None); (true, GSlice None); (true, GPtr None); (true, GSlice None)])].
Definition lit_schema : schema := mk_schema (OObj (bs "Query") [fld "f" (OMethod (Method true lit_ins lit_infs 0 None (OData false KBool))) 0]) (GStruct []) [] [] [].
Lemma lit_probe : probe (note_x FNull) lit_schema (bs "f") lit_ins lit_infs note.
Proof. split; [|reflexivity]. exists O, (bs "f"), false. split; [vm_compute; reflexivity|reflexivity]. Qed.
Lemma lookup_cases : forall {A} (l : list (bytes * A)) k v, slookup l k = Some v -> In (k, v) l.
Proof. induction l as [|[k' v'] l IH]; intros k v H; [discriminate|]. cbn [slookup] in H. destruct (beqb k k') eqn:E; [apply beqb_eq in E; injection H; intros; subst; now left|right; auto]. Qed.
Lemma lit_fit : args_fit lit_ins lit_infs.
Proof.
  split.
  - intros a n i H. apply lookup_cases in H. cbn [In lit_infs] in H. repeat (destruct H as [H|H]; [injection H; intros; subst; reflexivity|]). contradiction.
  - intros a n i a' i' H H'. apply lookup_cases in H, H'. cbn [In lit_infs] in H, H'. repeat (destruct H as [H|H]; [injection H; intros; subst; repeat (destruct H' as [H'|H']; [injection H'; intros; subst; try reflexivity; discriminate|]); contradiction|]). contradiction.
Qed.
Lemma p_fit : members_fit p_members [(true, GInt W8 0); (true, GPtr None)].
Proof.
  split.
  - intros m i H. apply lookup_cases in H. cbn [In p_members] in H. repeat (destruct H as [H|H]; [injection H; intros; subst; reflexivity|]). contradiction.
  - intros m i m' i' H H'. apply lookup_cases in H, H'. cbn [In p_members] in H, H'. repeat (destruct H as [H|H]; [injection H; intros; subst; repeat (destruct H' as [H'|H']; [injection H'; intros; subst; try reflexivity; discriminate|]); contradiction|]). contradiction.
Qed.
Definition p_value (x : Z) (y : option bytes) : gval := GStruct [(true, GInt W8 x); (true, GPtr (option_map GString y))].
Lemma p_means : forall n t z s, int_value t = Some z -> int_range W8 z -> means lit_schema (p_at n) (VObj [(bs "y", VStr s); (bs "x", VInt t)]) (p_value z (Some s)).
Proof.
  intros n t z s V R. eapply m_obj with (c := p_members) (vs := [(bs "y", GPtr (Some (GString s))); (bs "x", GInt W8 z)]); try reflexivity; [apply ct_here; reflexivity|apply p_fit|repeat constructor; cbn; intuition discriminate| |].
  - eapply mm_cons; [reflexivity| |eapply mm_cons; [reflexivity| |constructor]].
    + eapply m_ptr; try reflexivity; [discriminate|]. eapply m_string; try reflexivity. repeat split.
    + eapply m_int; try reflexivity; auto.
  - split; [reflexivity|]. split.
    + intros m v i [E|[E|[]]] L; injection E; intros; subst; vm_compute in L; injection L; intros; subst; reflexivity.
    + intros k H. destruct k as [|[|k]]; [exfalso; eapply (H (bs "x")); [right; left; reflexivity|reflexivity|reflexivity]|exfalso; eapply (H (bs "y")); [left; reflexivity|reflexivity|reflexivity]|reflexivity].
Qed.
Definition lit_q : bytes := q2 "{f(n: -3, pp: {y: 'a', x: 1}, l: [{y: 'b', x: 2} {y: '', x: 127}])}".
Definition lit_args : list (bytes * value) :=
  [(bs "n", VInt (bs "-3")); (bs "pp", VObj [(bs "y", VStr (bs "a")); (bs "x", VInt (bs "1"))]);
   (bs "l", VList [VObj [(bs "y", VStr (bs "b")); (bs "x", VInt (bs "2"))]; VObj [(bs "y", VStr []); (bs "x", VInt (bs "127"))]])].
Definition lit_vals : list (bytes * gval) :=
  [(bs "n", GInt W8 (-3)); (bs "pp", GPtr (Some (p_value 1 (Some (bs "a"))))); (bs "l", GSlice (Some [p_value 2 (Some (bs "b")); p_value 127 (Some [])]))].
Definition lit_run (q : bytes) : option (notes * nat) :=
  match resolve (note_x FNull) lit_schema 100 no_opts (fun _ => (false, GOther)) [] q with RDone _ es _ w => Some (w, length es) | _ => None end.
Definition lit_given (p n l ll pp lp : gval) : list gval := [GCtx; GStruct [(true, p); (true, n); (true, l); (true, ll); (true, pp); (true, lp)]].
Example C27_case : (exists L, received (note_x FNull) lit_schema no_opts note lit_q [] L /\ args_are lit_ins lit_infs lit_vals L) /\
  lit_run lit_q = Some ([lit_given p_zero (GInt W8 (-3)) (GSlice (Some [p_value 2 (Some (bs "b")); p_value 127 (Some [])])) (GSlice None) (GPtr (Some (p_value 1 (Some (bs "a"))))) (GSlice None)], O).
Proof.
  split; [|vm_compute; reflexivity]. apply (C27_partial (note_x FNull) lit_schema no_opts None (bs "f") lit_ins lit_infs note lit_args).
  - apply lit_probe.
  - apply lit_fit.
  - unfold lit_args. asks_one.
  - repeat constructor; cbn; intuition discriminate.
  - assert (R1 : int_range W8 1) by (split; vm_compute; congruence). assert (R2 : int_range W8 2) by (split; vm_compute; congruence). assert (R3 : int_range W8 127) by (split; vm_compute; congruence). assert (R4 : int_range W8 (-3)) by (split; vm_compute; congruence).
    constructor; [|constructor; [|constructor; [|constructor]]]; (split; [reflexivity|]); eexists; eexists; (split; [vm_compute; reflexivity|]).
    + eapply m_int; try reflexivity; auto.
    + eapply m_ptr; try reflexivity; [discriminate|]. now apply p_means.
    + eapply m_list; try reflexivity. constructor; [now apply p_means|]. constructor; [now apply p_means|constructor].
  - assert (Cp : forall s t, calm (VObj [(bs "y", VStr s); (bs "x", VInt t)])).
    { intros s t. apply cm_obj; [intros m x [E|[E|[]]]; injection E; intros; subst; right; constructor|]. intros a m E. destruct a as [|? [|? a]]; try discriminate. destruct a; discriminate. }
    intros a x [E|[E|[E|[]]]]; injection E; intros; subst.
    + right; left; constructor.
    + right; left; apply Cp.
    + right; right. eexists. split; [reflexivity|]. intros y [<-|[<-|[]]]; apply Cp.
  - intros u a l v E. do 3 (destruct u as [|? u]; [injection E; intros; subst; try discriminate; auto|injection E; clear E; intros E _]; try discriminate). destruct u; discriminate.
Qed.
(** an argument after a list is dropped: the resolver is called without it *)
Theorem C27_after_list_refuted : exists args q vs, asks no_opts None (bs "f") args q /\ args_mean lit_schema lit_infs args vs /\ NoDup (map fst args) /\
  exists L n, lit_run q = Some ([L], n) /\ ~ args_are lit_ins lit_infs vs L.
Proof.
  exists [(bs "l", VList []); (bs "n", VInt (bs "7"))], (bs "{f(l: [], n: 7)}"), [(bs "l", GSlice (Some [])); (bs "n", GInt W8 7)]. split; [asks_one|]. split; [|split; [repeat constructor; cbn; intuition discriminate|]].
  - constructor; [|constructor; [|constructor]]; (split; [reflexivity|]); eexists; eexists; (split; [vm_compute; reflexivity|]); [eapply m_list; try reflexivity; constructor|eapply m_int; try reflexivity; split; vm_compute; congruence].
  - eexists. eexists. split; [vm_compute; reflexivity|]. intros (_ & H & _). specialize (H (bs "n") (GInt W8 7) 1%nat _ ltac:(right; left; reflexivity) eq_refl). vm_compute in H. discriminate.
Qed.
Print Assumptions C27_after_list_refuted.
(** the inner lists of a list of lists end the outer list *)
Theorem C27_nested_list_refuted : exists args q vs, asks no_opts None (bs "f") args q /\ args_mean lit_schema lit_infs args vs /\ NoDup (map fst args) /\
  exists L n, lit_run q = Some ([L], n) /\ ~ args_are lit_ins lit_infs vs L.
Proof.
  exists [(bs "ll", VList [VList [VInt (bs "1")]; VList [VInt (bs "2")]])], (bs "{f(ll: [[1] [2]])}"), [(bs "ll", GSlice (Some [GSlice (Some [GInt W8 1]); GSlice (Some [GInt W8 2])]))]. split; [asks_one|]. split; [|split; [repeat constructor; cbn; intuition discriminate|]].
  - constructor; [|constructor]; (split; [reflexivity|]); eexists; eexists; (split; [vm_compute; reflexivity|]). eapply m_list; try reflexivity. repeat (constructor; [eapply m_list; try reflexivity; constructor; [eapply m_int; try reflexivity; split; vm_compute; congruence|constructor]|]). constructor.
  - eexists. eexists. split; [vm_compute; reflexivity|]. intros (_ & H & _). specialize (H _ _ 1%nat _ ltac:(left; reflexivity) eq_refl). vm_compute in H. discriminate.
Qed.
Print Assumptions C27_nested_list_refuted.
(** a pointer to an object whose last member is null stays nil *)
Theorem C27_last_null_refuted : exists args q vs, asks no_opts None (bs "f") args q /\ args_mean lit_schema lit_infs args vs /\ NoDup (map fst args) /\
  exists L, lit_run q = Some ([L], O) /\ ~ args_are lit_ins lit_infs vs L.
Proof.
  exists [(bs "pp", VObj [(bs "x", VInt (bs "1")); (bs "y", VNull)])], (bs "{f(pp: {x: 1, y: null})}"), [(bs "pp", GPtr (Some (p_value 1 None)))]. split; [asks_one|]. split; [|split; [repeat constructor; cbn; intuition discriminate|]].
  - constructor; [|constructor]; (split; [reflexivity|]); eexists; eexists; (split; [vm_compute; reflexivity|]). eapply m_ptr; try reflexivity; [discriminate|].
    eapply m_obj with (c := p_members) (vs := [(bs "x", GInt W8 1); (bs "y", GPtr None)]); try reflexivity; [apply ct_here; reflexivity|apply p_fit|repeat constructor; cbn; intuition discriminate| |].
    + eapply mm_cons; [reflexivity| |eapply mm_cons; [reflexivity| |constructor]].
      * eapply m_int; try reflexivity. split; vm_compute; congruence.
      * apply (m_null lit_schema (inp_ptr (inp KString 0 (GString [])) 1)). intros _. eexists. reflexivity.
    + split; [reflexivity|]. split.
      * intros m v i [E|[E|[]]] L; injection E; intros; subst; vm_compute in L; injection L; intros; subst; reflexivity.
      * intros k H. destruct k as [|[|k]]; [exfalso; eapply (H (bs "x")); [left; reflexivity|reflexivity|reflexivity]|exfalso; eapply (H (bs "y")); [right; left; reflexivity|reflexivity|reflexivity]|reflexivity].
  - eexists. split; [vm_compute; reflexivity|]. intros (_ & H & _). specialize (H _ _ 1%nat _ ltac:(left; reflexivity) eq_refl). vm_compute in H. discriminate.
Qed.
Print Assumptions C27_last_null_refuted.
(** null in a list of pointers is an error, the resolver is not called *)
Theorem C27_null_element_refuted : exists args q vs, asks no_opts None (bs "f") args q /\ args_mean lit_schema lit_infs args vs /\ lit_run q = Some ([], 1%nat).
Proof.
  exists [(bs "lp", VList [VInt (bs "1"); VNull])], (bs "{f(lp: [1 null])}"), [(bs "lp", GSlice (Some [GPtr (Some (GInt W8 1)); GPtr None]))]. split; [asks_one|]. split; [|vm_compute; reflexivity].
  constructor; [|constructor]; (split; [reflexivity|]); eexists; eexists; (split; [vm_compute; reflexivity|]). eapply m_list; try reflexivity. constructor; [|constructor; [|constructor]].
  - eapply m_ptr; try reflexivity; [discriminate|]. eapply m_int; try reflexivity. split; vm_compute; congruence.
  - apply (m_null lit_schema (inp_ptr (inp (KInt W8) 0 (GInt W8 0)) 0)). intros _. eexists. reflexivity.
Qed.
Print Assumptions C27_null_element_refuted.
