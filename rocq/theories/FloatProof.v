(** * Floats: rounding and the texts of numbers (proofs) *)
From Coq Require Import String Arith NArith ZArith QArith Qabs Qpower Bool List Lia Lqa.
From Coq Require Import ZifyBool ZifyNat ZifyN.
From Verif Require Import Base Json FloatSpec JsonModel JsonProof ResModel Spec SpecLit FloatModel.
Import ListNotations.
Open Scope N_scope.

Record fmt_ok (F : format) : Prop := { fo_mant : 1 <= f_mant F; fo_exp : 2 <= f_exp F }.
Lemma ok64 : fmt_ok f64. Proof. split; cbn; lia. Qed.
Lemma ok32 : fmt_ok f32. Proof. split; cbn; lia. Qed.
Lemma pow_pos : forall a n, 0 < a -> 0 < a ^ n. Proof. intros. pose proof (N.pow_nonzero a n). lia. Qed.

(** ** The magnitudes of a format, in units *)
Section Round.
Variable F : format.
Hypothesis Ok : fmt_ok F.
Notation M := (2 ^ f_mant F).
Lemma M_pos : 0 < M. Proof. apply pow_pos; lia. Qed.
Lemma M_even : exists h, M = 2 * h /\ 0 < h.
Proof. destruct Ok. exists (2 ^ (f_mant F - 1)). split; [|apply pow_pos; lia]. rewrite <- N.pow_succ_r'. f_equal. lia. Qed.
Lemma pow_mant1 : 2 ^ (f_mant F + 1) = 2 * M. Proof. rewrite N.add_1_r, N.pow_succ_r'. lia. Qed.
Lemma divmod : forall a, a = M * (a / M) + a mod M /\ a mod M < M.
Proof. intro a. pose proof M_pos. split; [apply N.div_mod; lia|apply N.mod_lt; lia]. Qed.
Lemma divmod_at : forall e m, m < M -> (e * M + m) / M = e /\ (e * M + m) mod M = m.
Proof.
  intros e m L. pose proof M_pos. split.
  - rewrite N.add_comm, N.div_add by lia. rewrite N.div_small by lia. lia.
  - rewrite N.add_comm, N.mod_add by lia. now apply N.mod_small.
Qed.
Lemma mag_at : forall k m, m <= 2 * M -> k = 0 \/ M <= m -> mag F (k * M + m) = m * 2 ^ k.
Proof.
  intros k m L H. pose proof M_pos. unfold mag. cbv zeta.
  assert (C : m < M \/ (M <= m /\ m < 2 * M) \/ m = 2 * M) by lia. destruct C as [C|[C| ->]].
  - destruct H; [subst k|lia]. destruct (divmod_at 0 m C) as (-> & ->). cbn [N.eqb]. rewrite N.pow_0_r. lia.
  - replace (k * M + m) with ((k + 1) * M + (m - M)) by lia. destruct (divmod_at (k + 1) (m - M)) as (-> & ->); [lia|].
    destruct (k + 1 =? 0) eqn:E; [lia|]. replace (k + 1 - 1) with k by lia. f_equal. lia.
  - replace (k * M + 2 * M) with ((k + 2) * M + 0) by lia. destruct (divmod_at (k + 2) 0) as (-> & ->); [lia|].
    destruct (k + 2 =? 0) eqn:E; [lia|]. replace (k + 2 - 1) with (k + 1) by lia. rewrite N.pow_add_r. change (2 ^ 1) with 2. lia.
Qed.
Lemma mag_succ : forall a, mag F a < mag F (a + 1).
Proof.
  intro a. destruct (divmod a) as [E L]. set (e := a / M) in *. set (m := a mod M) in *. pose proof M_pos.
  destruct (N.eq_dec e 0) as [->|N0].
  - replace (a + 1) with (0 * M + (m + 1)) by lia. replace a with (0 * M + m) by lia. rewrite !mag_at by lia. rewrite N.pow_0_r. lia.
  - assert (E1 : e * M = (e - 1) * M + M) by (replace e with (e - 1 + 1) at 1 by lia; lia).
    replace (a + 1) with ((e - 1) * M + (M + m + 1)) by lia. replace a with ((e - 1) * M + (M + m)) at 1 by lia. rewrite !mag_at by lia.
    pose proof (pow_pos 2 (e - 1) ltac:(lia)). nia.
Qed.
Lemma mag_mono : forall a b, a < b -> mag F a < mag F b.
Proof.
  intros a b L. replace b with (a + (b - a - 1) + 1) by lia. generalize (b - a - 1) as n. intro n.
  induction n as [|n IH] using N.peano_ind; [rewrite N.add_0_r; apply mag_succ|].
  eapply N.lt_trans; [exact IH|]. replace (a + N.succ n + 1) with (a + n + 1 + 1) by lia. apply mag_succ.
Qed.
Lemma mag_le : forall a b, a <= b -> mag F a <= mag F b.
Proof. intros a b L. destruct (N.eq_dec a b); [subst; lia|]. pose proof (mag_mono a b). lia. Qed.
Lemma mag_inj : forall a b, mag F a = mag F b -> a = b.
Proof. intros a b E. destruct (N.lt_trichotomy a b) as [L|[L|L]]; auto; apply mag_mono in L; lia. Qed.
Lemma even_at : forall k m, N.even (k * M + m) = N.even m.
Proof. intros k m. destruct M_even as (h & -> & _). rewrite N.even_add. replace (k * (2 * h)) with (2 * (k * h)) by lia. rewrite N.even_mul. cbn. destruct (N.even m); reflexivity. Qed.

(** what rounding does: [p/q] lies between two neighbours *)
Definition dist (a p q : N) : Z := Z.abs (Z.of_N (mag F a * q) - Z.of_N p).
Lemma round_between : forall p q, 0 < q -> exists lo d r, 0 < d /\ r < d /\ mag F lo * q + r = p /\ mag F (lo + 1) * q = mag F lo * q + d /\
  round_mag F p q = if 2 * r <? d then lo else if d <? 2 * r then lo + 1 else if N.even lo then lo else lo + 1.
Proof.
  intros p q Q. unfold round_mag. cbv zeta. set (x := p / q). set (k := if x <? 2 ^ (f_mant F + 1) then 0 else N.log2 x - f_mant F).
  assert (Px : p = q * x + p mod q /\ p mod q < q) by (split; [apply N.div_mod; lia|apply N.mod_lt; lia]).
  assert (Hk : x < 2 * M * 2 ^ k /\ (k = 0 \/ M * 2 ^ k <= x)).
  { subst k. rewrite pow_mant1. destruct (x <? 2 * M) eqn:E; [rewrite N.pow_0_r; lia|].
    assert (X : 0 < x) by (pose proof M_pos; lia). pose proof (N.log2_spec x X) as [L1 L2].
    assert (Lm : f_mant F <= N.log2 x).
    { apply N.log2_le_pow2; auto. pose proof M_pos. lia. }
    rewrite <- N.mul_assoc, <- N.pow_add_r. rewrite <- N.pow_succ_r'. replace (N.succ (f_mant F + (N.log2 x - f_mant F))) with (N.succ (N.log2 x)) by lia. replace (f_mant F + (N.log2 x - f_mant F)) with (N.log2 x) by lia. auto. }
  pose proof (pow_pos 2 k ltac:(lia)) as Pk. set (d := q * 2 ^ k). set (m := p / d). set (r := p mod d). assert (D : 0 < d) by (unfold d; nia).
  assert (Pm : p = d * m + r /\ r < d) by (split; [apply N.div_mod; lia|apply N.mod_lt; lia]). destruct Pm as [Pm Lr].
  assert (Mm : m = x / 2 ^ k). { unfold m, d, x. symmetry. apply N.div_div; lia. }
  assert (Xm : x = 2 ^ k * m + x mod 2 ^ k /\ x mod 2 ^ k < 2 ^ k) by (rewrite Mm; split; [apply N.div_mod; lia|apply N.mod_lt; lia]).
  assert (Lm : m < 2 * M) by nia. assert (Gm : k = 0 \/ M <= m). { destruct Hk as [_ [Hk|Hk]]; [auto|right]. rewrite Mm. apply N.div_le_lower_bound; lia. }
  exists (k * M + m), d, r. split; auto. split; auto.
  assert (A : mag F (k * M + m) = m * 2 ^ k) by (apply mag_at; lia). assert (B : mag F (k * M + m + 1) = (m + 1) * 2 ^ k). { rewrite <- N.add_assoc. apply mag_at; lia. }
  rewrite A, B. split; [unfold d in *; lia|]. split; [unfold d; lia|]. rewrite even_at.
  destruct (2 * r <? d); auto. destruct (d <? 2 * r); [lia|]. destruct (N.even m); lia.
Qed.
Lemma round_nearest : forall p q a', 0 < q -> let a := round_mag F p q in (dist a p q <= dist a' p q)%Z /\ (dist a p q = dist a' p q -> a' = a \/ N.even a = true).
Proof.
  intros p q a' Q. destruct (round_between p q Q) as (lo & d & r & D & R & E1 & E2 & E). cbv zeta.
  assert (Ev : N.even (lo + 1) = negb (N.even lo)) by (rewrite N.even_add; destruct (N.even lo); reflexivity).
  assert (C : a' = lo \/ a' = lo + 1 \/ (a' < lo /\ mag F a' < mag F lo) \/ (lo + 1 < a' /\ mag F (lo + 1) < mag F a')).
  { destruct (N.lt_trichotomy a' lo) as [L|[L|L]]; auto; [right; right; left; split; auto; now apply mag_mono|].
    destruct (N.eq_dec a' (lo + 1)); auto. right; right; right. split; [lia|]. apply mag_mono. lia. }
  assert (C' : a' = lo \/ a' = lo + 1 \/ (a' <> lo /\ a' <> lo + 1 /\ (mag F a' * q < mag F lo * q \/ mag F lo * q + d < mag F a' * q))).
  { destruct C as [C|[C|[C|C]]]; auto; right; right; (split; [lia|split; [lia|]]); [left|right; rewrite <- E2]; apply N.mul_lt_mono_pos_r; lia. }
  unfold dist. rewrite E. destruct (2 * r <? d) eqn:B1; [|destruct (d <? 2 * r) eqn:B2; [|destruct (N.even lo) eqn:B3]].
  - destruct C' as [->|[->|(N1 & N2 & [L|L])]]; try rewrite E2; split; try (intro; left; congruence); lia.
  - destruct C' as [->|[->|(N1 & N2 & [L|L])]]; rewrite ?E2; split; try (intro; left; congruence); lia.
  - destruct C' as [->|[->|(N1 & N2 & [L|L])]]; rewrite ?E2; split; auto; lia.
  - destruct C' as [->|[->|(N1 & N2 & [L|L])]]; rewrite ?E2, ?Ev; split; auto; lia.
Qed.
(** there is no other with these properties *)
Lemma round_unique : forall p q a, 0 < q ->
  (forall a', (dist a p q <= dist a' p q)%Z /\ (dist a p q = dist a' p q -> a' = a \/ N.even a = true)) -> a = round_mag F p q.
Proof.
  intros p q a Q H. destruct (H (round_mag F p q)) as [L1 T1]. destruct (round_nearest p q a Q) as [L2 T2]. cbv zeta in *.
  assert (E : dist a p q = dist (round_mag F p q) p q) by lia. destruct (N.eq_dec a (round_mag F p q)) as [|Ne]; auto. exfalso.
  destruct (T1 E) as [X|Ea]; [congruence|]. destruct (T2 (eq_sym E)) as [X|Er]; [congruence|].
  (* two different even neighbours *)
  destruct (round_between p q Q) as (lo & d & r & D & R & E1 & E2 & Er'). unfold dist in E.
  assert (Ev : N.even (lo + 1) = negb (N.even lo)) by (rewrite N.even_add; destruct (N.even lo); reflexivity).
  assert (Rn : round_mag F p q = lo \/ round_mag F p q = lo + 1). { rewrite Er'. destruct (2 * r <? d); auto. destruct (d <? 2 * r); auto. destruct (N.even lo); auto. }
  assert (Best : (dist (round_mag F p q) p q <= Z.of_N r /\ dist (round_mag F p q) p q <= Z.of_N (d - r))%Z).
  { pose proof (proj1 (round_nearest p q lo Q)) as A. pose proof (proj1 (round_nearest p q (lo + 1) Q)) as B. cbv zeta in A, B. unfold dist in *. rewrite ?E2 in *. lia. }
  unfold dist in Best. rewrite <- E in Best.
  assert (Ar : a = lo \/ a = lo + 1).
  { destruct (N.lt_trichotomy a lo) as [L|[L|L]]; auto; [exfalso; apply mag_mono in L; nia|]. destruct (N.eq_dec a (lo + 1)); auto. exfalso. assert (L' : lo + 1 < a) by lia. apply mag_mono in L'. nia. }
  destruct Ar as [->| ->], Rn as [X|X]; rewrite X in *; try congruence; rewrite Ev in *; destruct (N.even lo); discriminate.
Qed.
Lemma round_exact : forall a q, 0 < q -> round_mag F (mag F a * q) q = a.
Proof.
  intros a q Q. symmetry. apply round_unique; auto. intro a'. unfold dist. split; [lia|]. intro E. left. apply mag_inj. nia.
Qed.
End Round.

(** ** The same in rational numbers *)
Lemma rat_mul : forall a b, (rat (a * b) == rat a * rat b)%Q.
Proof. intros. unfold rat. rewrite N2Z.inj_mul. now rewrite inject_Z_mult. Qed.
Lemma rat_add : forall a b, (rat (a + b) == rat a + rat b)%Q.
Proof. intros. unfold rat. rewrite N2Z.inj_add. now rewrite inject_Z_plus. Qed.
Lemma rat_pos : forall a, 0 < a -> (0 < rat a)%Q.
Proof. intros. unfold rat. change 0%Q with (inject_Z 0). rewrite <- Zlt_Qlt. lia. Qed.
Lemma rat_nn : forall a, (0 <= rat a)%Q.
Proof. intros. unfold rat. change 0%Q with (inject_Z 0). rewrite <- Zle_Qle. lia. Qed.
Lemma rat_le : forall a b, (rat a <= rat b)%Q <-> a <= b.
Proof. intros. unfold rat. rewrite <- Zle_Qle. lia. Qed.
Lemma rat_inj : forall a b, (rat a == rat b)%Q -> a = b.
Proof. intros a b E. unfold rat in E. apply (proj1 (inject_Z_injective _ _)) in E. lia. Qed.
Lemma rat_pow : forall b n, (rat (b ^ n) == Qpower (inject_Z (Z.of_N b)) (Z.of_N n))%Q.
Proof. intros. unfold rat. rewrite N2Z.inj_pow. rewrite Qpower.Zpower_Qpower by lia. reflexivity. Qed.
Lemma pow2_pos : forall e, (0 < pow2 e)%Q. Proof. intro e. unfold pow2. apply Qpower.Qpower_0_lt. reflexivity. Qed.
Lemma pow10_pos : forall e, (0 < pow10 e)%Q. Proof. intro e. unfold pow10. apply Qpower.Qpower_0_lt. reflexivity. Qed.
Lemma pow2_add : forall a b, (pow2 (a + b) == pow2 a * pow2 b)%Q. Proof. intros. unfold pow2. apply Qpower.Qpower_plus. discriminate. Qed.
Lemma pow10_add : forall a b, (pow10 (a + b) == pow10 a * pow10 b)%Q. Proof. intros. unfold pow10. apply Qpower.Qpower_plus. discriminate. Qed.
Lemma pow2_N : forall n, (pow2 (Z.of_N n) == rat (2 ^ n))%Q. Proof. intro. now rewrite rat_pow. Qed.
Lemma pow10_N : forall n, (pow10 (Z.of_N n) == rat (10 ^ n))%Q. Proof. intro. now rewrite rat_pow. Qed.

Section Rational.
Variable F : format.
Hypothesis Ok : fmt_ok F.
Notation M := (2 ^ f_mant F).
Definition unit : Q := pow2 (- Z.of_N (scale F)).
Lemma unit_pos : (0 < unit)%Q. Proof. apply pow2_pos. Qed.
Lemma unit_scale : (unit * rat (2 ^ scale F) == 1)%Q.
Proof. unfold unit. rewrite <- pow2_N, <- pow2_add. replace (- Z.of_N (scale F) + Z.of_N (scale F))%Z with 0%Z by lia. reflexivity. Qed.
Lemma bias_pos : 1 <= bias F.
Proof. destruct Ok. unfold bias. assert (2 ^ 1 <= 2 ^ (f_exp F - 1)) by (apply N.pow_le_mono_r; lia). change (2 ^ 1) with 2 in *. lia. Qed.
Lemma exp_big : 4 <= 2 ^ f_exp F.
Proof. destruct Ok. change 4 with (2 ^ 2). apply N.pow_le_mono_r; lia. Qed.
Lemma scale_eq : (Z.of_N (scale F) = Z.of_N (bias F) + Z.of_N (f_mant F) - 1)%Z.
Proof. pose proof bias_pos. destruct Ok. unfold scale. lia. Qed.
Lemma sign_is : sign_bit F = 2 ^ f_exp F * M. Proof. apply N.pow_add_r. Qed.
Lemma inf_lt_sign : inf_of F < sign_bit F. Proof. rewrite sign_is. unfold inf_of. pose proof (M_pos F). pose proof exp_big. nia. Qed.
Lemma signed_even : forall neg a, N.even (signed F neg a) = N.even a.
Proof.
  intros neg a. unfold signed. destruct neg; [|reflexivity]. rewrite N.even_add, sign_is. destruct (M_even F Ok) as (h & -> & _). replace (2 ^ f_exp F * (2 * h)) with (2 * (2 ^ f_exp F * h)) by lia. rewrite N.even_mul. cbn. destruct (N.even a); reflexivity.
Qed.
Lemma signed_inj : forall neg a a', signed F neg a = signed F neg a' -> a = a'. Proof. intros neg a a' E. unfold signed in E. lia. Qed.
Lemma value_normal : forall e m, 0 < e -> m < M -> (rat (mag F (e * M + m)) * unit == rat (M + m) * pow2 (Z.of_N e - Z.of_N (bias F) - Z.of_N (f_mant F)))%Q.
Proof.
  intros e m E L. replace (e * M + m) with ((e - 1) * M + (M + m)) by (replace e with (e - 1 + 1) at 2 by lia; lia). rewrite mag_at by lia.
  rewrite rat_mul, <- pow2_N. unfold unit. rewrite <- Qmult_assoc, <- pow2_add. pose proof scale_eq. replace (Z.of_N (e - 1) + - Z.of_N (scale F))%Z with (Z.of_N e - Z.of_N (bias F) - Z.of_N (f_mant F))%Z by lia. reflexivity.
Qed.
Lemma value_small : forall m, m < M -> (rat (mag F m) * unit == rat m * pow2 (1 - Z.of_N (bias F) - Z.of_N (f_mant F)))%Q.
Proof.
  intros m L. replace (mag F m) with (mag F (0 * M + m)) by (f_equal; lia). rewrite mag_at by lia. rewrite N.pow_0_r, N.mul_1_r. unfold unit. pose proof scale_eq. replace (- Z.of_N (scale F))%Z with (1 - Z.of_N (bias F) - Z.of_N (f_mant F))%Z by lia. reflexivity.
Qed.
Lemma finite_mag : forall b neg v, finite F b neg v -> exists a, a < inf_of F /\ b = signed F neg a /\ (v == rat (mag F a) * unit)%Q.
Proof.
  intros b neg v H. pose proof (M_pos F). pose proof exp_big. destruct H as [neg m L|neg e m E1 E2 L].
  - exists m. split; [unfold inf_of; nia|]. split; [unfold bit_pattern, signed, sign_bit; lia|]. symmetry. now apply value_small.
  - exists (e * M + m). split; [unfold inf_of; nia|]. split; [unfold bit_pattern, signed, sign_bit; lia|]. symmetry. now apply value_normal.
Qed.
Lemma mag_finite : forall neg a, a < inf_of F -> exists v, finite F (signed F neg a) neg v /\ (v == rat (mag F a) * unit)%Q.
Proof.
  intros neg a L. destruct (divmod F a) as [E Lm]. set (e := a / M) in *. set (m := a mod M) in *. pose proof (M_pos F). destruct (N.eq_dec e 0) as [Z|Z].
  - eexists. split; [replace (signed F neg a) with (bit_pattern F neg 0 m); [apply fin_small; auto|unfold bit_pattern, signed, sign_bit; rewrite Z in E; lia]|].
    replace a with m by (rewrite Z in E; lia). symmetry. now apply value_small.
  - eexists. split; [replace (signed F neg a) with (bit_pattern F neg e m); [apply fin_normal; auto|unfold bit_pattern, signed, sign_bit; lia]|].
    + lia.
    + unfold inf_of in L. nia.
    + replace a with (e * M + m) by lia. symmetry. apply value_normal; auto. lia.
Qed.

(** [p/q] units *)
Definition at_ratio (p q : N) (r : Q) : Prop := (r * rat q == rat p * unit)%Q.
Lemma dist_rat : forall a p q r v, 0 < q -> at_ratio p q r -> (v == rat (mag F a) * unit)%Q -> (Qabs (v - r) * rat q == inject_Z (dist F a p q) * unit)%Q.
Proof.
  intros a p q r v Q R V. rewrite <- (Qabs_pos (rat q)) by apply rat_nn. rewrite <- Qabs_Qmult. rewrite V.
  assert (E : ((rat (mag F a) * unit - r) * rat q == inject_Z (Z.of_N (mag F a * q) - Z.of_N p) * unit)%Q).
  { unfold Zminus. rewrite inject_Z_plus, inject_Z_opp. change (inject_Z (Z.of_N (mag F a * q))) with (rat (mag F a * q)). change (inject_Z (Z.of_N p)) with (rat p). rewrite rat_mul. unfold at_ratio in R.
    setoid_replace ((rat (mag F a) * unit - r) * rat q)%Q with (rat (mag F a) * rat q * unit - r * rat q)%Q by ring. rewrite R. ring. }
  rewrite E, Qabs_Qmult. rewrite (Qabs_pos unit) by (apply Qlt_le_weak, unit_pos). unfold dist. apply Qmult_comp; [|reflexivity].
  symmetry. exact (Qeq_refl _).
Qed.
Lemma scaled_le : forall x y q i j, 0 < q -> (x * rat q == inject_Z i * unit)%Q -> (y * rat q == inject_Z j * unit)%Q -> ((x <= y)%Q <-> (i <= j)%Z).
Proof.
  intros x y q i j Q X Y. rewrite Zle_Qle. rewrite <- (Qmult_le_r x y (rat q)) by now apply rat_pos. rewrite X, Y. apply Qmult_le_r, unit_pos.
Qed.
Lemma nearest_round : forall neg p q r, 0 < q -> at_ratio p q r -> round_mag F p q < inf_of F -> nearest F neg r (signed F neg (round_mag F p q)).
Proof.
  intros neg p q r Q R L. destruct (mag_finite neg _ L) as (v & Fv & Ev). exists v. split; auto. intros b' v' Fv'. destruct (finite_mag _ _ _ Fv') as (a' & La' & -> & Ev').
  pose proof (dist_rat _ _ _ _ _ Q R Ev) as D. pose proof (dist_rat _ _ _ _ _ Q R Ev') as D'. destruct (round_nearest F Ok p q a' Q) as [N1 N2]. cbv zeta in *. split.
  - eapply scaled_le; eauto.
  - intro E. destruct N2 as [X|X].
    + assert (A : (dist F (round_mag F p q) p q <= dist F a' p q)%Z) by auto. assert (B : (dist F a' p q <= dist F (round_mag F p q) p q)%Z); [|lia]. eapply (scaled_le (Qabs (v' - r)) (Qabs (v - r))); eauto. rewrite E. apply Qle_refl.
    + left. now rewrite X.
    + right. apply N.even_spec. now rewrite signed_even.
Qed.
Lemma largest_is : (largest F == rat (mag F (inf_of F - 1)) * unit)%Q.
Proof.
  pose proof (M_pos F). pose proof exp_big. unfold largest, inf_of. replace ((2 ^ f_exp F - 1) * M - 1) with ((2 ^ f_exp F - 2) * M + (M - 1)) by nia.
  rewrite value_normal by lia. rewrite pow_mant1. replace (M + (M - 1)) with (2 * M - 1) by lia.
  replace (Z.of_N (2 ^ f_exp F - 2) - Z.of_N (bias F) - Z.of_N (f_mant F))%Z with (Z.of_N (bias F) - Z.of_N (f_mant F))%Z; [reflexivity|].
  assert (2 ^ f_exp F = 2 * 2 ^ (f_exp F - 1)). { rewrite <- N.pow_succ_r'. f_equal. destruct Ok. lia. } unfold bias. lia.
Qed.
Lemma beyond_is : (pow2 (Z.of_N (bias F) + 1) == rat (mag F (inf_of F)) * unit)%Q.
Proof.
  pose proof (M_pos F). pose proof exp_big. unfold inf_of. replace ((2 ^ f_exp F - 1) * M) with ((2 ^ f_exp F - 1) * M + 0) by lia. rewrite value_normal by lia.
  rewrite N.add_0_r, <- pow2_N, <- pow2_add. replace (Z.of_N (f_mant F) + (Z.of_N (2 ^ f_exp F - 1) - Z.of_N (bias F) - Z.of_N (f_mant F)))%Z with (Z.of_N (bias F) + 1)%Z; [reflexivity|].
  assert (2 ^ f_exp F = 2 * 2 ^ (f_exp F - 1)). { rewrite <- N.pow_succ_r'. f_equal. destruct Ok. lia. } unfold bias. lia.
Qed.
Lemma inf_odd : N.even (inf_of F - 1) = false.
Proof.
  pose proof (M_pos F). pose proof exp_big. destruct (M_even F Ok) as (h & E & Hp). unfold inf_of. rewrite E. replace ((2 ^ f_exp F - 1) * (2 * h) - 1) with (1 + 2 * ((2 ^ f_exp F - 1) * h - 1)) by nia.
  rewrite N.even_add_mul_2. reflexivity.
Qed.
Lemma too_large_round : forall p q r, 0 < q -> at_ratio p q r -> (too_large F r <-> inf_of F <= round_mag F p q).
Proof.
  intros p q r Q R. assert (E : too_large F r <-> (mag F (inf_of F - 1) + mag F (inf_of F)) * q <= 2 * p).
  { unfold at_ratio in R. unfold too_large. rewrite largest_is, beyond_is. rewrite <- (Qmult_le_r _ _ (rat q)) by now apply rat_pos. setoid_replace (inject_Z 2 * r * rat q)%Q with (inject_Z 2 * (r * rat q))%Q by ring. rewrite R.
    change (inject_Z 2) with (rat 2). setoid_replace ((rat (mag F (inf_of F - 1)) * unit + rat (mag F (inf_of F)) * unit) * rat q)%Q with (rat ((mag F (inf_of F - 1) + mag F (inf_of F)) * q) * unit)%Q by (rewrite rat_mul, rat_add; ring).
    setoid_replace (rat 2 * (rat p * unit))%Q with (rat (2 * p) * unit)%Q by (rewrite rat_mul; ring). rewrite Qmult_le_r by apply unit_pos. apply rat_le. }
  rewrite E. clear E. destruct (round_between F Ok p q Q) as (lo & d & r0 & D & R0 & E1 & E2 & ->). pose proof (M_pos F). pose proof exp_big. assert (I1 : 1 <= inf_of F) by (unfold inf_of; nia).
  destruct (N.lt_trichotomy (lo + 1) (inf_of F)) as [L|[L|L]].
  - assert (A : mag F (lo + 1) <= mag F (inf_of F - 1)) by (apply mag_le; auto; lia). assert (B : mag F (inf_of F - 1) <= mag F (inf_of F)) by (apply mag_le; auto; lia). split; [intro X; exfalso; nia|]. destruct (2 * r0 <? d); [lia|]. destruct (d <? 2 * r0); [lia|]. destruct (N.even lo); lia.
  - pose proof inf_odd as Od. rewrite <- L in Od |- *. replace (lo + 1 - 1) with lo in * by lia. rewrite Od. destruct (2 * r0 <? d) eqn:B1; [|destruct (d <? 2 * r0) eqn:B2]; nia.
  - assert (A : mag F (inf_of F) <= mag F lo) by (apply mag_le; auto; lia). assert (B : mag F (inf_of F - 1) < mag F (inf_of F)) by (apply mag_mono; auto; lia). split; [|nia]. intros _. destruct (2 * r0 <? d); [lia|]. destruct (d <? 2 * r0); [lia|]. destruct (N.even lo); lia.
Qed.
Lemma nearest_unique : forall neg r b b', nearest F neg r b -> nearest F neg r b' -> b = b'.
Proof.
  intros neg r b b' (v & Fv & H) (v' & Fv' & H').
  destruct (finite_mag _ _ _ Fv) as (a & La & -> & Ev). destruct (finite_mag _ _ _ Fv') as (a' & La' & -> & Ev').
  destruct (H _ _ Fv') as [L T]. destruct (H' _ _ Fv) as [L' T']. assert (E : (Qabs (v - r) == Qabs (v' - r))%Q) by now apply Qle_antisym.
  destruct (T E) as [X|X]; [auto|]. destruct (T' (Qeq_sym _ _ E)) as [Y|Y]; [auto|]. apply N.even_spec in X, Y. rewrite signed_even in X, Y.
  (* different even numbers have one in between, which is nearer *)
  assert (K : forall a a' v v', a < a' -> a' < inf_of F -> N.even a = true -> N.even a' = true -> (v == rat (mag F a) * unit)%Q -> (v' == rat (mag F a') * unit)%Q -> (Qabs (v - r) == Qabs (v' - r))%Q ->
     (forall b0 v0, finite F b0 neg v0 -> (Qabs (v - r) <= Qabs (v0 - r))%Q) -> False).
  { clear - Ok. intros a a' v v' L Li E1 E2 V V' D Hn. assert (L2 : a + 1 < a'). { destruct (N.eq_dec a' (a + 1)); [|lia]. subst a'. rewrite N.even_add, E1 in E2. discriminate. }
    destruct (mag_finite neg (a + 1)) as (u & Fu & Eu); [lia|]. specialize (Hn _ _ Fu).
    assert (U1 : (v < u)%Q). { rewrite V, Eu. rewrite Qmult_lt_r by apply unit_pos. unfold rat. rewrite <- Zlt_Qlt. pose proof (mag_mono F a (a + 1)). lia. }
    assert (U2 : (u < v')%Q). { rewrite V', Eu. rewrite Qmult_lt_r by apply unit_pos. unfold rat. rewrite <- Zlt_Qlt. pose proof (mag_mono F (a + 1) a'). lia. }
    revert D Hn. apply (Qabs_case (v - r)); intro H1; apply (Qabs_case (v' - r)); intro H2; apply (Qabs_case (u - r)); intro H3; intros D Hn; lra. }
  destruct (N.lt_trichotomy a a') as [C|[C|C]]; [exfalso|congruence|exfalso].
  - eapply (K a a' v v'); eauto. intros b0 v0 F0. apply (H _ _ F0).
  - eapply (K a' a v' v); eauto; [now symmetry|]. intros b0 v0 F0. apply (H' _ _ F0).
Qed.
(** n * 10^e *)
Lemma dec_ratio : forall n e, at_ratio (n * 10 ^ Z.to_N e * 2 ^ scale F) (10 ^ Z.to_N (- e)) (rat n * pow10 e).
Proof.
  intros n e. unfold at_ratio. rewrite !rat_mul, <- !pow10_N. rewrite <- (Qmult_assoc (rat n * _)). rewrite (Qmult_comm (rat (2 ^ scale F))), unit_scale, Qmult_1_r.
  rewrite <- Qmult_assoc, <- pow10_add. replace (e + Z.of_N (Z.to_N (- e)))%Z with (Z.of_N (Z.to_N e)) by lia. reflexivity.
Qed.
Lemma den_pos : forall e, 0 < 10 ^ Z.to_N (- e). Proof. intro e. apply pow_pos. lia. Qed.
Lemma round_dec_nearest : forall neg n e, round_dec F n e < inf_of F -> nearest F neg (rat n * pow10 e) (signed F neg (round_dec F n e)).
Proof. intros neg n e L. apply nearest_round; auto; [apply den_pos|apply dec_ratio]. Qed.
Lemma round_dec_large : forall n e, too_large F (rat n * pow10 e) <-> inf_of F <= round_dec F n e.
Proof. intros n e. apply too_large_round; [apply den_pos|apply dec_ratio]. Qed.
End Rational.
