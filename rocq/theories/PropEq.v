(** * Property C65: equality, nil, emptiness, panics and relative errors *)
From Coq Require Import String NArith ZArith QArith Qabs Bool List Lia.
From Coq Require Import ZifyBool ZifyNat ZifyN.
From Verif Require Import Base FloatSpec FloatModel FloatProof AssertModel AssertSpec AssertProof PropAssert EqModel EqSpec EqProof.
Import ListNotations.
Open Scope N_scope.
Open Scope string_scope. Open Scope list_scope.

(** A struct with a number, a pointer to a string, a map and an interface; the same with other addresses, another order of the map and
    minus zero for zero. *)
Definition t_num := TyBasic 1 KNum. Definition t_float := TyBasic 2 KFloat. Definition t_str := TyBasic 3 KStr.
Definition t_ptr := TyBasic 4 KPtr. Definition t_map := TyBasic 5 KMap. Definition t_any := TyBasic 6 KIface. Definition t_bytes := TyBasic 0 KSlice.
Definition t_user := TyStruct 7 [t_num; t_ptr; t_map; t_any; t_float].
Definition user (p m : N) (flip : bool) (f : N) : rval :=
  VStruct [VNum 5; VPtr (Some (p, (t_str, VStr (bs "name")))); VMap (Some (m, if flip then [(bs "b", VNum 2); (bs "a", VNum 1)] else [(bs "a", VNum 1); (bs "b", VNum 2)])); VIface (Some (t_bytes, VSlice (Some (9, [VNum 1])))); VFloat f].
Lemma user_well : forall p m flip f, f < 18446744073709551616 -> well t_user (user p m flip f).
Proof.
  intros p m flip f L. unfold t_user, user. constructor. constructor; [constructor|]. constructor; [constructor; constructor|].
  constructor; [apply well_map with (t := t_num); destruct flip; repeat constructor; cbn; intuition discriminate|].
  constructor; [|constructor; [now constructor|constructor]]. constructor; [|discriminate]. apply well_slice with (t := t_num); [intros _; now exists 1|]. repeat constructor.
Qed.
Definition minus_zero : N := 9223372036854775808.

(** C65: Equal passes exactly if neither value is a function and the two values are equal: both nil, or of one type and the same throughout. *)
Theorem C65_equal : forall a b, well_object a -> well_object b -> one_heap a b -> (equal a b = true <-> ~ a_function a /\ ~ a_function b /\ same_objects a b).
Proof.
  intros a b Wa Wb H. unfold equal. pose proof (validate_spec a b) as V. destruct (validate_equal_args a b).
  - rewrite objects_same by auto. destruct V as [V _]. specialize (V eq_refl). tauto.
  - split; [discriminate|]. intros (A & B & _). destruct V as [_ V]. discriminate (V (conj A B)).
Qed.
Print Assumptions C65_equal.
Example C65_equal_case : let a := Some (t_user, user 100 101 false 0) in let b := Some (t_user, user 200 201 true minus_zero) in
  well_object a /\ well_object b /\ one_heap a b /\ equal a b = true /\ equal a (Some (t_user, user 100 101 false 1)) = false.
Proof.
  cbv zeta. split; [split; [apply user_well; reflexivity|intros i X; discriminate X]|]. split; [split; [apply user_well; reflexivity|intros i X; discriminate X]|]. split; [intros t u p l r E; discriminate|]. split; vm_compute; reflexivity.
Qed.

(** NotEqual passes exactly if neither is a function and they are not equal: of Equal and NotEqual one passes, except for functions, where none does. *)
Theorem C65_not_equal : forall a b, well_object a -> well_object b -> one_heap a b ->
  (not_equal a b = true <-> ~ a_function a /\ ~ a_function b /\ ~ same_objects a b) /\ (equal a b = negb (not_equal a b) <-> ~ a_function a /\ ~ a_function b).
Proof.
  intros a b Wa Wb H. pose proof (validate_spec a b) as V. pose proof (objects_same a b Wa Wb H) as O. unfold not_equal, equal. destruct (validate_equal_args a b).
  - destruct V as [V _]. specialize (V eq_refl). rewrite negb_true_iff, negb_involutive. split; [|tauto]. destruct O as [O1 O2]. destruct (objects_are_equal a b).
    + split; [discriminate|]. intros (_ & _ & X). destruct (X (O1 eq_refl)).
    + split; [|reflexivity]. intros _. split; [apply V|]. split; [apply V|]. intro X. discriminate (O2 X).
  - split; [split; [discriminate|]|split; [discriminate|]]; intros X; destruct V as [_ V]; assert (Y : false = true) by (apply V; tauto); discriminate Y.
Qed.
Print Assumptions C65_not_equal.
Example C65_not_equal_case : not_equal (Some (t_num, VNum 1)) (Some (t_str, VStr [49])) = true /\ not_equal (Some (t_num, VNum 1)) (Some (t_num, VNum 1)) = false /\
  equal (Some (TyBasic 8 KFunc, VFunc None)) None = false /\ not_equal (Some (TyBasic 8 KFunc, VFunc None)) None = false.
Proof. repeat split; vm_compute; reflexivity. Qed.

(** A value without NaN and without functions equals itself, and Equal does not depend on the order of its arguments. *)
Theorem C65_reflexive : forall t x, well t x -> (forall i, x <> VIface i) -> comparable x -> ~ a_function (Some (t, x)) -> equal (Some (t, x)) (Some (t, x)) = true.
Proof.
  intros t x W NI C F. apply C65_equal; [split; auto|split; auto| |].
  - intros t1 u p l r E1 E2 _. congruence.
  - split; [exact F|]. split; [exact F|]. split; [reflexivity|now apply same_refl].
Qed.
Print Assumptions C65_reflexive.
Example C65_reflexive_case : well t_user (user 1 2 true 0) /\ comparable (user 1 2 true 0) /\ ~ a_function (Some (t_user, user 1 2 true 0)).
Proof.
  split; [apply user_well; reflexivity|]. split; [|intros (i & v & E); discriminate]. destruct zero_number as (q & Z & _). unfold user. apply comparable_struct.
  constructor; [constructor|]. constructor; [constructor; constructor|]. constructor; [constructor; repeat constructor|]. constructor; [constructor; constructor; repeat constructor|]. constructor; [|constructor]. econstructor; eauto.
Qed.
Theorem C65_symmetric : forall a b, well_object a -> well_object b -> one_heap a b -> equal a b = equal b a.
Proof.
  intros a b Wa Wb H. assert (H' : one_heap b a) by (intros t u p l r E1 E2 L; symmetry; eapply H; eauto).
  assert (S : forall a b, well_object a -> well_object b -> same_objects a b -> same_objects b a).
  { intros [[t x]|] [[u y]|] W1 W2; cbn in *; auto. intros [E X]. split; [auto|]. apply (same_sym x); [exists t; tauto|exists u; tauto|exact X]. }
  pose proof (C65_equal a b Wa Wb H) as E1. pose proof (C65_equal b a Wb Wa H') as E2. pose proof (S a b Wa Wb). pose proof (S b a Wb Wa).
  destruct (equal a b), (equal b a); auto; [symmetry; apply E2|apply E1]; tauto.
Qed.
Print Assumptions C65_symmetric.
Example C65_symmetric_case : equal (Some (t_user, user 100 101 false 0)) (Some (t_user, user 200 201 true minus_zero)) = true /\ equal (Some (t_user, user 200 201 true minus_zero)) (Some (t_user, user 100 101 false 0)) = true.
Proof. split; vm_compute; reflexivity. Qed.
(** REFUTED: every value equals itself. *)
Theorem C65_reflexive_refuted : exists t x, well t x /\ ~ a_function (Some (t, x)) /\ equal (Some (t, x)) (Some (t, x)) = false /\ not_equal (Some (t, x)) (Some (t, x)) = true.
Proof. exists t_float, (VFloat a_nan). split; [constructor; reflexivity|]. split; [intros (i & v & E); discriminate|]. split; vm_compute; reflexivity. Qed.
Print Assumptions C65_reflexive_refuted.

(** and a value that equals a second one equals what the second one equals, if there is one memory *)
Theorem C65_transitive : forall m a b c, well_object a -> well_object b -> well_object c -> lives_object m a -> lives_object m b -> lives_object m c ->
  equal a b = true -> equal b c = true -> equal a c = true.
Proof.
  assert (H : forall m a b, lives_object m a -> lives_object m b -> one_heap a b).
  { intros m a b La Lb t u p l r -> -> L. cbn in La, Lb. exact (one_slice m p l r La Lb L). }
  intros m a b c Wa Wb Wc La Lb Lc E1 E2. apply C65_equal in E1; [|auto|auto|eauto]. apply C65_equal in E2; [|auto|auto|eauto]. apply C65_equal; [auto|auto|eauto|].
  destruct E1 as (Fa & _ & S1), E2 as (_ & Fc & S2). split; [exact Fa|]. split; [exact Fc|].
  destruct a as [[t x]|], b as [[u y]|], c as [[v z]|]; cbn in *; try contradiction; auto. destruct S1 as [T1 S1], S2 as [T2 S2]. split; [congruence|].
  exact (same_trans m x y z La Lb Lc S1 S2).
Qed.
Print Assumptions C65_transitive.
(** three structs of which the last two share a map *)
Definition memory0 : memory := Memory (fun _ => (t_str, VStr (bs "name"))) (fun _ _ => [VNum 1]) (fun p => if (p =? 101)%N then [(bs "a", VNum 1); (bs "b", VNum 2)] else [(bs "b", VNum 2); (bs "a", VNum 1)]).
Example C65_transitive_case : let a := Some (t_user, user 100 101 false 0) in let b := Some (t_user, user 200 201 true minus_zero) in let c := Some (t_user, user 300 201 true 0) in
  well_object a /\ well_object b /\ well_object c /\ lives_object memory0 a /\ lives_object memory0 b /\ lives_object memory0 c /\ equal a b = true /\ equal b c = true /\ equal a c = true.
Proof.
  cbv zeta. split; [split; [apply user_well; reflexivity|discriminate]|]. split; [split; [apply user_well; reflexivity|discriminate]|]. split; [split; [apply user_well; reflexivity|discriminate]|].
  cbn [lives_object]. unfold user.
  split; [repeat (constructor; try reflexivity)|]. split; [repeat (constructor; try reflexivity)|]. split; [repeat (constructor; try reflexivity)|].
  split; [|split]; vm_compute; reflexivity.
Qed.

(** Empty passes exactly for nil, for arrays, slices, maps and channels with nothing in them, for pointers to something empty, and for
    false, zero, the empty string, nil functions and structs of zero values; NotEmpty exactly for all others. *)
Theorem C65_empty : forall o, well_object o -> (assert_empty o = true <-> o = None \/ exists t x, o = Some (t, x) /\ nothing_in x) /\ assert_not_empty o = negb (assert_empty o).
Proof.
  intros o W. split; [|reflexivity]. unfold assert_empty, is_empty. destruct o as [[t x]|]; [|split; auto]. destruct W as [W NI]. rewrite empty_spec by auto. split; [eauto|]. intros [X|(t' & x' & E & X)]; [discriminate|]. now inversion E; subst.
Qed.
Print Assumptions C65_empty.
Example C65_empty_case :
  assert_empty (Some (t_ptr, VPtr (Some (1, (t_any, VIface (Some (t_bytes, VSlice (Some (2, []))))))))) = true /\
  assert_empty (Some (TyStruct 10 [t_float; t_bytes], VStruct [VFloat minus_zero; VSlice None])) = true /\
  assert_empty (Some (TyStruct 10 [t_float; t_bytes], VStruct [VFloat 0; VSlice (Some (2, []))])) = false /\
  assert_empty (Some (TyArray 11 1 t_num, VArray [VNum 0])) = false.
Proof. repeat split; vm_compute; reflexivity. Qed.

(** Nil passes exactly for nil and for pointers, slices, maps, channels and functions that are nil; all of these are empty. *)
Theorem C65_nil : forall o, well_object o ->
  (assert_nil o = true <-> o = None \/ exists t x, o = Some (t, x) /\ In x [VPtr None; VSlice None; VMap None; VChan None; VFunc None]) /\
  assert_not_nil o = negb (assert_nil o) /\ (assert_nil o = true -> assert_empty o = true).
Proof.
  intros o W. assert (N1 : assert_nil o = true <-> o = None \/ exists t x, o = Some (t, x) /\ In x [VPtr None; VSlice None; VMap None; VChan None; VFunc None]).
  { unfold assert_nil, is_nil. destruct o as [[t x]|]; [|split; auto]. destruct W as [W NI]. split.
    - intro H. right. exists t, x. split; [reflexivity|]. destruct x as [| | | |[[? ?]|]|[[? ?]|]|[[? ?]|]|[[? ?]|]|[?|]|[[? ?]|]| |]; cbn [In]; try discriminate; auto 8. exfalso. eapply NI. reflexivity.
    - intros [X|(t' & x' & E & X)]; [discriminate|]. inversion E; subst. cbn [In] in X. destruct X as [<-|[<-|[<-|[<-|[<-|[]]]]]]; reflexivity. }
  split; [exact N1|]. split; [reflexivity|]. intro H. apply N1 in H. apply (proj1 (C65_empty o W)). destruct H as [->|(t & x & -> & I1)]; [now left|right]. exists t, x. split; [reflexivity|].
  cbn [In] in I1. destruct I1 as [<-|[<-|[<-|[<-|[<-|[]]]]]]; apply nothing_zero; try constructor; discriminate.
Qed.
Print Assumptions C65_nil.
Example C65_nil_case : assert_nil (Some (t_ptr, VPtr None)) = true /\ assert_nil (Some (t_ptr, VPtr (Some (1, (t_ptr, VPtr None))))) = false /\ assert_nil (Some (t_num, VNum 0)) = false.
Proof. repeat split. Qed.

(** InDeltaMapValues passes exactly if the two maps have the same keys and the values at each are within delta (C63). *)
Theorem C65_map_values : forall delta expected actual, NoDup (map fst expected) -> NoDup (map fst actual) ->
  (in_delta_map delta expected actual = true <-> maps_within (fun x y => in_delta delta x y = true) expected actual).
Proof. exact map_within. Qed.
Print Assumptions C65_map_values.
Example C65_map_values_case : in_delta_map 0 [(bs "a", AInt KdInt 1); (bs "b", AInt KdInt 2)] [(bs "b", AInt KdInt 2); (bs "a", AInt KdInt 1)] = true /\
  in_delta_map 0 [(bs "a", AInt KdInt 1)] [(bs "b", AInt KdInt 1)] = false /\ in_delta_map 0 [(bs "a", AInt KdInt 1)] [(bs "a", AInt KdInt 1); (bs "b", AInt KdInt 1)] = false.
Proof. repeat split; vm_compute; reflexivity. Qed.

(** Panics passes exactly if the function panics with a value that is not nil. *)
Theorem C65_panics : forall f, assert_panics f = true <-> exists v, f = Panics_with v.
Proof. intros [| |v]; cbn; (split; [try discriminate; eauto|]); intros [w E]; try discriminate; auto. Qed.
Print Assumptions C65_panics.
Example C65_panics_case : assert_panics (Panics_with 3) = true /\ assert_panics Returns = false.
Proof. split; reflexivity. Qed.
(** REFUTED: Panics passes for every function that panics. *)
Theorem C65_panics_refuted : exists f, f <> Returns /\ assert_panics f = false.
Proof. exists Panics_nil. split; [discriminate|reflexivity]. Qed.
Print Assumptions C65_panics_refuted.

Open Scope N_scope.
(** InEpsilon, for finite numbers, the expected one not zero: it passes exactly if the relative error, that is the difference rounded to
    a float64 and divided by the expected number and rounded again, is at most epsilon. *)
Theorem C65_epsilon : forall expected actual ba bb be na nb va vb ve, to_float expected = Some ba -> to_float actual = Some bb ->
  finite f64 ba na va -> finite f64 bb nb vb -> finite f64 be false ve -> ~ (va == 0)%Q ->
  let r := Qabs (with_sign na va - with_sign nb vb) in
  (too_large f64 r -> in_epsilon be expected actual = false) /\
  (forall d vd, ~ too_large f64 r -> nearest f64 false r d -> finite f64 d false vd ->
     (too_large f64 (vd / va) -> in_epsilon be expected actual = false) /\
     (forall q vq, ~ too_large f64 (vd / va) -> nearest f64 false (vd / va) q -> finite f64 q false vq -> (in_epsilon be expected actual = true <-> (vq <= ve)%Q)) /\
     ((vd <= ve * va)%Q -> in_epsilon be expected actual = true)).
Proof.
  intros expected actual ba bb be na nb va vb ve E1 E2 Fa Fb Fe Nz. cbv zeta. destruct (finite_mag f64 ok64 _ _ _ Fa) as (a & La & -> & Va). destruct (finite_mag f64 ok64 _ _ _ Fb) as (b & Lb & -> & Vb). destruct (finite_mag f64 ok64 _ _ _ Fe) as (ep & Le & -> & Ve).
  assert (Pa : 0 < a) by (destruct (N.eq_0_gt_0_cases a) as [->|]; auto; exfalso; apply Nz; rewrite Va, mag0; unfold rat; cbn; ring).
  pose proof (in_epsilon_bits expected actual na a nb b false ep E1 E2 Pa La Lb Le) as [H1 H2]. pose proof (diff_ratio na a nb b va vb Va Vb) as D. set (p := Z.abs_N (zs na (mag f64 a) - zs nb (mag f64 b))) in *. set (r := Qabs (with_sign na va - with_sign nb vb)) in *.
  assert (R : at_ratio f64 p 1 r) by (unfold at_ratio; change (rat 1) with 1%Q; rewrite Qmult_1_r; exact D). pose proof (too_large_round f64 ok64 p 1 r ltac:(lia) R) as T. split; [intro X; apply H1; now apply T|].
  intros d vd X Nd Fd. assert (Lr : round_mag f64 p 1 < inf_of f64) by (destruct (N.lt_ge_cases (round_mag f64 p 1) (inf_of f64)); auto; exfalso; now apply X, T). specialize (H2 Lr).
  pose proof (nearest_round f64 ok64 false p 1 r ltac:(lia) R Lr) as N1. pose proof (nearest_unique f64 ok64 false r _ _ Nd N1) as ->. destruct (finite_mag f64 ok64 _ _ _ Fd) as (m & Lm & Em & Vm). apply signed_inj in Em. subst m.
  set (dm := round_mag f64 p 1) in *. pose proof (quotient_ratio dm a vd va Pa Vm Va) as R2. pose proof (mag_pos a Pa) as Pm. pose proof (too_large_round f64 ok64 _ _ _ Pm R2) as T2. cbn [zs] in H2. split; [|split].
  - intro X2. apply T2 in X2. destruct (in_epsilon _ _ _); auto. pose proof (proj1 H2 eq_refl). unfold zs in *. lia.
  - intros q vq X2 Nq Fq. assert (Lq : round_mag f64 (mag f64 dm * 2 ^ scale f64) (mag f64 a) < inf_of f64) by (destruct (N.lt_ge_cases (round_mag f64 (mag f64 dm * 2 ^ scale f64) (mag f64 a)) (inf_of f64)); auto; exfalso; now apply X2, T2).
    pose proof (nearest_round f64 ok64 false _ _ _ Pm R2 Lq) as N2. pose proof (nearest_unique f64 ok64 false _ _ _ Nq N2) as ->. destruct (finite_mag f64 ok64 _ _ _ Fq) as (m & Lm' & Em & Vq). apply signed_inj in Em. subst m.
    set (q := round_mag f64 (mag f64 dm * 2 ^ scale f64) (mag f64 a)) in *. rewrite H2, Vq, Ve. rewrite Qmult_le_r by apply unit_pos. rewrite rat_le. unfold zs. split; [intro Y; apply mag_le; lia|]. intro Y. destruct (N.le_gt_cases q ep) as [|G]; [lia|]. apply (mag_mono f64) in G. lia.
  - intro Y. apply H2. unfold zs. apply N2Z.inj_le. apply round_mono; [exact Pm|]. apply rat_le. rewrite !rat_mul. rewrite Vm, Ve, Va in Y. pose proof (unit_scale f64) as U. pose proof (unit_pos f64) as Up.
    rewrite <- (Qmult_le_r _ _ (unit f64 * unit f64)) by (apply Qmult_lt_0_compat; exact Up).
    setoid_replace (rat (mag f64 dm) * rat (2 ^ scale f64) * (unit f64 * unit f64))%Q with (rat (mag f64 dm) * unit f64 * (unit f64 * rat (2 ^ scale f64)))%Q by ring. rewrite U, Qmult_1_r.
    eapply Qle_trans; [exact Y|]. apply Qle_lteq. right. ring.
Qed.
Print Assumptions C65_epsilon.
(* 1.5 against 1.25: the relative error is 1/6, more than 0.125 and less than 0.25 *)
Definition e15 : N := bit_pattern f64 false 1023 (2 ^ 51).
Definition e125 : N := bit_pattern f64 false 1023 (2 ^ 50).
Definition e025 : N := bit_pattern f64 false 1021 0.
Definition e0125 : N := bit_pattern f64 false 1020 0.
Example C65_epsilon_case : (exists v, finite f64 e15 false v) /\ (exists v, finite f64 e125 false v) /\ (exists v, finite f64 e025 false v) /\
  in_epsilon e025 (AFloat KdFloat64 e15) (AFloat KdFloat64 e125) = true /\ in_epsilon e0125 (AFloat KdFloat64 e15) (AFloat KdFloat64 e125) = false /\
  in_epsilon e025 (AInt KdInt (-100)) (AInt KdInt (-125)) = true /\ in_epsilon e025 (AInt KdInt (-100)) (AInt KdInt (-126)) = false.
Proof.
  split; [eexists; apply fin_normal; reflexivity|]. split; [eexists; apply fin_normal; reflexivity|]. split; [eexists; apply fin_normal; reflexivity|].
  split; [vm_compute; reflexivity|]. split; [vm_compute; reflexivity|]. split; vm_compute; reflexivity.
Qed.
(** Nothing passes that is no number: not NaN (epsilon or a value), no strings, no nil; nor does a zero that is expected. *)
Theorem C65_epsilon_numbers : forall epsilon expected actual, any_ok expected -> any_ok actual -> epsilon < 18446744073709551616 -> in_epsilon epsilon expected actual = true ->
  (exists e, is_number epsilon e) /\ numerical expected /\ numerical actual /\ forall a x, to_float expected = Some a -> is_number a x -> ~ number_eq x (Number 0).
Proof.
  intros epsilon expected actual O1 O2 Le H. unfold in_epsilon in H. destruct (is_nan epsilon) eqn:Ne; [discriminate|]. split; [now apply bits_number|]. unfold relative_error in H.
  destruct (to_float expected) as [a|] eqn:E1; [|discriminate]. destruct (is_nan a) eqn:N1; [discriminate|]. destruct (float_eq a 0) eqn:Z0; [discriminate|]. destruct (to_float actual) as [b|] eqn:E2; [|discriminate]. destruct (is_nan b) eqn:N2; [discriminate|].
  split; [|split].
  - destruct expected; cbn [to_float numerical any_ok] in *; try discriminate; auto. inversion E1; subst. apply bits_number; auto; tauto.
  - destruct actual; cbn [to_float numerical any_ok] in *; try discriminate; auto. inversion E2; subst. apply bits_number; auto; tauto.
  - intros a' x E X Q. inversion E; subst a'. pose proof (is_finite _ _ _ (fin_small f64 false 0 eq_refl)) as X0. change (bit_pattern f64 false 0 0) with 0 in X0. assert (Q' : number_eq x (Number (with_sign false (rat 0 * unit f64)))) by (destruct x; cbn [number_eq] in *; auto; rewrite Q; unfold with_sign, rat; cbn [Z.of_N inject_Z]; ring).
    apply (number_same _ _ _ _ X X0) in Q'. unfold float_eq in Z0. rewrite N1 in Z0. change (is_nan 0) with false in Z0. cbn [negb andb] in Z0. lia.
Qed.
Print Assumptions C65_epsilon_numbers.
Example C65_epsilon_numbers_case : in_epsilon e025 (AInt KdInt 1) (AFloat KdFloat64 e125) = true /\ in_epsilon a_nan (AInt KdInt 1) (AInt KdInt 1) = false /\ in_epsilon e025 (AInt KdInt 0) (AInt KdInt 0) = false /\
  in_epsilon e025 (AFloat KdFloat64 (2 ^ 63)) (AInt KdInt 0) = false /\ in_epsilon e025 (AInt KdInt 1) (AStr (bs "1")) = false /\ in_epsilon e025 (AInt KdInt 1) (AFloat KdFloat64 a_nan) = false.
Proof. split; [vm_compute; reflexivity|]. split; [vm_compute; reflexivity|]. split; [vm_compute; reflexivity|]. split; [vm_compute; reflexivity|]. split; vm_compute; reflexivity. Qed.
(** A number that is infinite is not near one that is not. *)
Theorem C65_epsilon_infinite : forall expected actual a b be na va ve y, to_float expected = Some a -> to_float actual = Some b -> finite f64 a na va -> is_number b y -> y = Plus_inf \/ y = Minus_inf -> finite f64 be false ve ->
  in_epsilon be expected actual = false.
Proof.
  intros expected actual a b be na va ve y E1 E2 Fa Y Iy Fe. destruct (finite_mag f64 ok64 _ _ _ Fa) as (ma & La & -> & Va). destruct (finite_mag f64 ok64 _ _ _ Fe) as (ep & Le & -> & Ve). destruct (number_bits b y Y) as (nb & mb & -> & Lb & Hb). pose proof (inf_lt_sign f64 ok64) as Li.
  destruct Hb as [(Fb & v & -> & _)|(-> & _)]; [destruct Iy; discriminate|]. unfold in_epsilon, relative_error. rewrite E1, E2. destruct (is_nan (signed f64 false ep)); auto. destruct (is_nan (signed f64 na ma)); auto. destruct (float_eq _ 0); auto.
  rewrite nan_signed by lia. rewrite N.ltb_irrefl. unfold float_sub. rewrite !nan_signed, !abs_of_signed by lia. rewrite N.ltb_irrefl, N.eqb_refl. replace (inf_of f64 <? ma) with false by lia. replace (ma =? inf_of f64) with false by lia. cbn [orb]. rewrite float_neg_signed, abs_of_signed by lia.
  unfold abs_div. rewrite N.ltb_irrefl, N.eqb_refl. replace (inf_of f64 <? ma) with false by lia. replace (ma =? inf_of f64) with false by lia. cbn [orb]. change (inf_of f64) with (signed f64 false (inf_of f64)) at 1. unfold float_lt. rewrite !nan_signed, !key_signed by lia. unfold zs. lia.
Qed.
Print Assumptions C65_epsilon_infinite.
Example C65_epsilon_infinite_case : (exists v, finite f64 e025 false v) /\ is_number (infinity f64 true) Minus_inf /\ in_epsilon e025 (AFloat KdFloat64 e15) (AFloat KdFloat64 (infinity f64 true)) = false.
Proof. split; [eexists; apply fin_normal; reflexivity|]. split; [constructor|]. vm_compute. reflexivity. Qed.
(** But every number passes if an infinite one is expected, whatever epsilon is. *)
Theorem C65_epsilon_any : forall expected actual a b be x y e, to_float expected = Some a -> to_float actual = Some b -> is_number a x -> x = Plus_inf \/ x = Minus_inf -> is_number b y -> is_number be e ->
  in_epsilon be expected actual = true.
Proof.
  intros expected actual a b be x y e E1 E2 X Ix Y Ee. destruct (number_bits a x X) as (na & ma & -> & La & Ha). destruct (number_bits b y Y) as (nb & mb & -> & Lb & Hb). pose proof (inf_lt_sign f64 ok64) as Li.
  destruct Ha as [(Fa & v & -> & _)|(-> & _)]; [destruct Ix; discriminate|]. unfold in_epsilon, relative_error. rewrite E1, E2, (number_not_nan _ _ Ee), (number_not_nan _ _ X), (number_not_nan _ _ Y).
  assert (Z0 : float_eq (signed f64 na (inf_of f64)) 0 = false). { unfold float_eq. rewrite nan_signed, key_signed by lia. change (float_key 0) with 0%Z. assert (0 < inf_of f64) by reflexivity. unfold zs. destruct na; lia. } rewrite Z0, abs_of_signed by lia.
  assert (S : abs_of f64 (float_sub (signed f64 na (inf_of f64)) (signed f64 nb mb)) = inf_of f64 \/ abs_of f64 (float_sub (signed f64 na (inf_of f64)) (signed f64 nb mb)) = a_nan).
  { unfold float_sub. rewrite !nan_signed, !abs_of_signed, !neg_of_signed by lia. rewrite N.ltb_irrefl, N.eqb_refl. replace (inf_of f64 <? mb) with false by lia. cbn [orb]. destruct ((mb =? inf_of f64) && eqb na nb); [right; reflexivity|left; now rewrite abs_of_signed by lia]. }
  assert (R : abs_div (abs_of f64 (float_sub (signed f64 na (inf_of f64)) (signed f64 nb mb))) (inf_of f64) = a_nan). { destruct S as [-> | ->]; unfold abs_div; rewrite N.ltb_irrefl; [rewrite !N.eqb_refl; reflexivity|reflexivity]. }
  rewrite R. unfold float_lt. change (is_nan a_nan) with true. cbn [negb]. now rewrite andb_false_r.
Qed.
Print Assumptions C65_epsilon_any.
Example C65_epsilon_any_case : is_number (infinity f64 false) Plus_inf /\ in_epsilon e0125 (AFloat KdFloat64 (infinity f64 false)) (AInt KdInt 5) = true /\ (exists e, is_number e0125 e) /\ exists y, is_number (of_int 5) y.
Proof. split; [constructor|]. split; [vm_compute; reflexivity|]. split; apply bits_number; reflexivity. Qed.
(** So the claim "the relative error is at most epsilon" is false: *)
Theorem C65_epsilon_refuted : exists a b be va vb ve, is_number a Plus_inf /\ finite f64 b va vb /\ finite f64 be false ve /\ in_epsilon be (AFloat KdFloat64 a) (AFloat KdFloat64 b) = true.
Proof. exists (infinity f64 false), e15, e0125. do 3 eexists. split; [constructor|]. split; [apply fin_normal; reflexivity|]. split; [apply fin_normal; reflexivity|]. vm_compute. reflexivity. Qed.
Print Assumptions C65_epsilon_refuted.
(** REFUTED: InEpsilonSlice is InEpsilon for each pair of elements.  The error is relative to the actual element: 126 passes for 100 with
    the epsilon 0.25, and in the other direction it is too far. *)
Theorem C65_epsilon_slice_refuted : exists epsilon e a,
  in_epsilon epsilon e a = false /\ in_slice (in_epsilon epsilon) [e] [a] = Some true /\ in_epsilon epsilon a e = true /\ in_slice (in_epsilon epsilon) [a] [e] = Some false.
Proof. exists e025, (AInt KdInt 100), (AInt KdInt 126). split; [vm_compute; reflexivity|]. split; [vm_compute; reflexivity|]. split; vm_compute; reflexivity. Qed.
Print Assumptions C65_epsilon_slice_refuted.
