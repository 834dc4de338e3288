(** * Floats: reading texts, and conversions (proofs) *)
From Coq Require Import String Arith NArith ZArith QArith Qabs Qpower Bool List Lia Lqa.
From Coq Require Import ZifyBool ZifyNat ZifyN.
From Verif Require Import Base Json FloatSpec JsonModel JsonProof ResModel Spec SpecLit FloatModel FloatProof FloatText.
Import ListNotations.
Open Scope N_scope.

Definition sign_of (s : bytes) : bool * bytes :=
  match s with [] => (false, []) | c :: r => if c =? 45 then (true, r) else if c =? 43 then (false, r) else (false, c :: r) end.
Lemma sign_match : forall s : bytes, (match s with 45 :: r => (true, r) | 43 :: r => (false, r) | _ => (false, s) end) = sign_of s.
Proof. intros [|c r]; auto. destruct c as [|p]; auto. do 6 (try (destruct p as [p|p|]; try reflexivity)). Qed.
Definition dot_of (s : bytes) (f : bytes -> bytes * bytes) : bytes * bytes :=
  match s with [] => ([], []) | c :: r => if c =? 46 then f r else ([], c :: r) end.
Lemma dot_match : forall (s : bytes) (f : bytes -> bytes * bytes), (match s with 46 :: r => f r | _ => ([], s) end) = dot_of s f.
Proof. intros [|c r] f; auto. destruct c as [|p]; auto. do 6 (try (destruct p as [p|p|]; try reflexivity)). Qed.
Definition ends (r : bytes) : Prop := match r with [] => True | c :: _ => ~ digit c end.
Lemma take_app : forall d r, digits d -> ends r -> take_digits (d ++ r) = (d, r).
Proof.
  induction d as [|c d IH]; intros r D E.
  - destruct r as [|x r]; auto. cbn in *. unfold digit in E. destruct ((48 <=? x) && (x <=? 57)) eqn:X; [lia|reflexivity].
  - inversion D; subst. cbn. unfold digit in *. destruct ((48 <=? c) && (c <=? 57)) eqn:X; [|lia]. rewrite IH; auto.
Qed.
Lemma take_inv : forall s d r, take_digits s = (d, r) -> s = d ++ r /\ digits d.
Proof.
  induction s as [|c s IH]; intros d r H; cbn in H; [injection H; intros; subst; split; [auto|constructor]|].
  destruct ((48 <=? c) && (c <=? 57)) eqn:X; [|injection H; intros; subst; split; [auto|constructor]].
  destruct (take_digits s) as [d' r'] eqn:T. injection H; intros; subst. destruct (IH _ _ eq_refl) as [-> D]. split; auto. constructor; auto. unfold digit. lia.
Qed.
(** the exponent stops growing *)
Lemma exp_fold : forall d a, digits d -> (fold_left (fun e c => if e <? 10000 then e * 10 + (c - 48) else e) d a = fold_left (fun e c => e * 10 + (c - 48)) d a) \/
  (10000 <= fold_left (fun e c => if e <? 10000 then e * 10 + (c - 48) else e) d a /\ 10000 <= fold_left (fun e c => e * 10 + (c - 48)) d a).
Proof.
  induction d as [|c d IH]; intros a D; [now left|]. cbn [fold_left]. inversion D; subst. destruct (a <? 10000) eqn:E; [auto|]. right.
  assert (K1 : forall d a, 10000 <= a -> 10000 <= fold_left (fun e c => e * 10 + (c - 48)) d a) by (clear; induction d as [|c d IH]; intros a L; cbn [fold_left]; [auto|apply IH; lia]).
  assert (K2 : forall d a, 10000 <= a -> fold_left (fun e c => if e <? 10000 then e * 10 + (c - 48) else e) d a = a). { clear. induction d as [|c d IH]; intros a L; cbn [fold_left]; auto. destruct (a <? 10000) eqn:E; [lia|auto]. }
  rewrite K2 by lia. split; [lia|]. apply K1. lia.
Qed.
Lemma exp_digits_ok : forall d, digits d -> exp_digits d = dec_of d \/ (10000 <= exp_digits d /\ 10000 <= dec_of d).
Proof. intros d D. apply exp_fold. exact D. Qed.
(** two exponents that are equal or both far away on the same side *)
Definition alike (x y : Z) : Prop := x = y \/ (10000 <= x /\ 10000 <= y)%Z \/ (x <= -10000 /\ y <= -10000)%Z.
Lemma read_exp_ok : forall t x, exponent t x -> exists y, read_exp t = Some y /\ alike x y.
Proof.
  intros t x [[-> ->]|(e & s & d & n & -> & He & Dv & Hs)]; [exists 0%Z; split; [reflexivity|now left]|].
  apply dec_value_inv in Dv. destruct Dv as (Nd & D & En). assert (A : all_digits d = true) by (apply all_digits_ok; auto).
  cbn [read_exp]. destruct ((e =? 101) || (e =? 69)) eqn:E; [|lia]. rewrite sign_match.
  assert (P : exists neg, sign_of (s ++ d) = (neg, d) /\ x = if neg then (- Z.of_N n)%Z else Z.of_N n).
  { destruct Hs as [[[->| ->] ->]|[-> ->]]; [exists false|exists false|exists true]; split; auto. destruct d as [|c d]; [contradiction|]. inversion D; subst. unfold digit in *. cbn [app]. unfold sign_of; destruct (c =? 45) eqn:X; [lia|]. destruct (c =? 43) eqn:Y; [lia|]. reflexivity. }
  destruct P as (neg & -> & ->). rewrite A. eexists. split; [reflexivity|]. unfold alike. destruct (exp_digits_ok d D) as [->|[L1 L2]]; [left; now rewrite En|]. rewrite En in L2. destruct neg; lia.
Qed.
Lemma exponent_ends : forall t x, exponent t x -> ends t.
Proof. intros t x [[-> _]|(e & s & d & n & -> & He & _)]; cbn; auto. unfold digit. lia. Qed.
Lemma read_ok : forall t neg r, decimal t neg r -> exists n x y k, read_float t = Some (neg, n, (y - Z.of_N k)%Z) /\ (r == rat n * pow10 (x - Z.of_N k))%Q /\ alike x y /\
  n < 10 ^ N.of_nat (length t) /\ k <= N.of_nat (length t).
Proof.
  intros t neg r [s i f fd e neg' n x Hs Hf He Dv]. apply dec_value_inv in Dv. destruct Dv as (Nn & D & En). destruct (read_exp_ok _ _ He) as (y & Ry & Al). pose proof (exponent_ends _ _ He) as Ee.
  assert (Di : digits i /\ digits fd) by (apply Forall_app; auto). destruct Di as [Di Df].
  exists n, x, y, (N.of_nat (length fd)). unfold read_float. rewrite sign_match.
  assert (Ls : (length fd <= length f)%nat) by (destruct Hf as [[-> ->]| ->]; cbn; lia).
  assert (Hd : match i ++ f ++ e with [] => False | c :: _ => c <> 45 /\ c <> 43 end).
  { destruct i as [|c i]; [|inversion Di; subst; cbn; unfold digit in *; lia]. destruct Hf as [[-> ->]| ->]; [contradiction|cbn; lia]. }
  assert (P : sign_of (s ++ i ++ f ++ e) = (neg', i ++ f ++ e)).
  { destruct Hs as [[[->| ->] ->]|[-> ->]]; auto. cbn [app]. destruct (i ++ f ++ e) as [|c q]; [contradiction|]. unfold sign_of; destruct (c =? 45) eqn:X; [lia|]. destruct (c =? 43) eqn:Y; [lia|]. reflexivity. }
  rewrite P. assert (T1 : take_digits (i ++ f ++ e) = (i, f ++ e)). { apply take_app; auto. destruct Hf as [[-> ->]| ->]; [exact Ee|]. cbn. unfold digit. lia. }
  rewrite T1, dot_match. assert (T2 : dot_of (f ++ e) take_digits = (fd, e)).
  { destruct Hf as [[-> ->]| ->]; cbn [app].
    - destruct e as [|c q]; auto. unfold dot_of; destruct (c =? 46) eqn:X; auto. exfalso. destruct He as [[X' _]|(e0 & ? & ? & ? & X' & He & _)]; [discriminate|]. injection X'; intros; subst. lia.
    - unfold dot_of. change (46 =? 46) with true. cbv iota. now apply take_app. }
  rewrite T2. assert (A : all_digits (i ++ fd) = true) by (apply all_digits_ok; auto). rewrite A, Ry, En. split; [do 2 f_equal; lia|]. split; [replace (Z.of_N (N.of_nat (length fd))) with (Z.of_nat (length fd)) by lia; reflexivity|]. split; auto.
  pose proof (dec_bound _ D) as B. rewrite En in B. split.
  - eapply N.lt_le_trans; [exact B|]. apply N.pow_le_mono_r; [lia|]. rewrite !app_length. lia.
  - rewrite !app_length. lia.
Qed.
Lemma read_inv : forall t neg n e, read_float t = Some (neg, n, e) -> exists r, decimal t neg r.
Proof.
  intros t neg n e H. unfold read_float in H. rewrite sign_match in H.
  assert (P : exists s s1, sign_of (t) = (s1 : bool * bytes) /\ t = s ++ snd s1 /\ (((s = [] \/ s = [43]) /\ fst s1 = false) \/ (s = [45] /\ fst s1 = true))).
  { destruct t as [|c t]; [exists [], (false, []); auto 6|]. unfold sign_of; destruct (c =? 45) eqn:X; [apply N.eqb_eq in X; subst c; exists [45], (true, t); repeat split; auto|]. destruct (c =? 43) eqn:Y; [apply N.eqb_eq in Y; subst c; exists [43], (false, t); repeat split; auto|]. exists [], (false, c :: t). repeat split; auto 6. }
  destruct P as (s & [neg' s1] & E & Et & Hs). rewrite E in H. cbn [fst snd] in *. clear E. destruct (take_digits s1) as [i s2] eqn:T1. apply take_inv in T1. destruct T1 as [-> Di]. rewrite dot_match in H.
  assert (P : exists f fd s3, dot_of (s2) take_digits = (fd, s3) /\ s2 = f ++ s3 /\ fraction f fd /\ digits fd).
  { destruct s2 as [|c s2]; [exists [], [], []; repeat split; [now left|constructor]|]. unfold dot_of; destruct (c =? 46) eqn:X; [|exists [], [], (c :: s2); repeat split; [now left|constructor]]. destruct (take_digits s2) as [fd s3] eqn:T2. apply take_inv in T2. destruct T2 as [-> Df]. apply N.eqb_eq in X; subst c. exists (46 :: fd), fd, s3. repeat split; auto. now right. }
  destruct P as (f & fd & s3 & E & -> & Hf & Df). rewrite E in H. destruct (all_digits (i ++ fd)) eqn:A; [|discriminate]. apply all_digits_ok in A. destruct A as [Nn D].
  destruct (read_exp s3) as [x|] eqn:R; [|discriminate]. injection H; intros; subst.
  assert (Ex : exists y, exponent s3 y).
  { destruct s3 as [|c s3]; [exists 0%Z; now left|]. cbn [read_exp] in R. destruct ((c =? 101) || (c =? 69)) eqn:C; [|discriminate]. rewrite sign_match in R.
    assert (P : exists s d (b : bool), sign_of (s3) = (b, d) /\ s3 = s ++ d /\ (((s = [] \/ s = [43]) /\ b = false) \/ (s = [45] /\ b = true))).
    { destruct s3 as [|c3 s3]; [exists [], [], false; auto 6|]. unfold sign_of; destruct (c3 =? 45) eqn:X; [apply N.eqb_eq in X; subst c3; exists [45], s3, true; repeat split; auto|]. destruct (c3 =? 43) eqn:Y; [apply N.eqb_eq in Y; subst c3; exists [43], s3, false; repeat split; auto|]. exists [], (c3 :: s3), false. repeat split; auto 6. }
    destruct P as (s' & d & b & P & -> & Hb). rewrite P in R. destruct (all_digits d) eqn:A; [|discriminate]. apply all_digits_ok in A. destruct A as [A1 A2].
    exists (if b then (- Z.of_N (dec_of d))%Z else Z.of_N (dec_of d)). right. exists c, s', d, (dec_of d). split; auto. split; [lia|]. split; [now apply dec_value_of|]. destruct Hb as [[Hb ->]|[Hb ->]]; auto. }
  destruct Ex as (y & Ey). eexists. eapply decimal_intro; eauto. apply dec_value_of; auto.
Qed.

(** ** ParseFloat *)
Definition big : N := 10 ^ 9000.
Lemma round_tiny : forall n e, n < big -> (e <= -10000)%Z -> round_dec f64 n e = 0.
Proof.
  intros n e L E. unfold round_dec. apply round_zero; [apply den_pos|]. replace (Z.to_N e) with 0 by lia. rewrite N.pow_0_r, N.mul_1_r. change (scale f64) with 1074.
  assert (A : 2 * 2 ^ 1074 < 10 ^ 1000) by (vm_compute; reflexivity). assert (B : 10 ^ 10000 <= 10 ^ Z.to_N (- e)) by (apply N.pow_le_mono_r; lia).
  assert (C : 10 ^ 10000 = big * 10 ^ 1000) by (unfold big; rewrite <- N.pow_add_r; f_equal). rewrite C in B. remember (10 ^ 1000) as Y. remember (2 ^ 1074) as Z. clear - A B L. nia.
Qed.
Lemma round_huge : forall n e, 0 < n -> (1000 <= e)%Z -> inf_of f64 <= round_dec f64 n e.
Proof.
  intros n e L E. unfold round_dec. replace (Z.to_N (- e)) with 0 by lia. rewrite N.pow_0_r. destruct (round_between f64 ok64 (n * 10 ^ Z.to_N e * 2 ^ scale f64) 1) as (lo & d & r & D & R & E1 & E2 & Er); [lia|].
  rewrite !N.mul_1_r in *. assert (P : mag f64 (inf_of f64) <= n * 10 ^ Z.to_N e * 2 ^ scale f64).
  { assert (A : mag f64 (inf_of f64) <= 10 ^ 1000 * 2 ^ scale f64) by (vm_compute; discriminate). assert (B : 10 ^ 1000 <= 10 ^ Z.to_N e) by (apply N.pow_le_mono_r; lia).
    eapply N.le_trans; [exact A|]. apply N.mul_le_mono_r. remember (10 ^ 1000) as X. clear - B L. nia. }
  assert (Lo : inf_of f64 <= lo). { destruct (N.lt_ge_cases lo (inf_of f64)) as [C|C]; auto. assert (C' : lo + 1 <= inf_of f64) by lia. apply (mag_le f64) in C'. lia. }
  rewrite Er. destruct (2 * r <? d); auto. destruct (d <? 2 * r); [lia|]. destruct (N.even lo); lia.
Qed.
Lemma alike_round : forall n x y k, alike x y -> n < big -> k <= 9000 ->
  round_dec f64 n (x - Z.of_N k) = round_dec f64 n (y - Z.of_N k) \/ (inf_of f64 <= round_dec f64 n (x - Z.of_N k) /\ inf_of f64 <= round_dec f64 n (y - Z.of_N k)).
Proof.
  intros n x y k [->|[[A B]|[A B]]] Ln Lk; [now left| |].
  - destruct (N.eq_dec n 0) as [->|N0]; [left; now rewrite !round_dec_zero|]. right. split; apply round_huge; lia.
  - left. rewrite !round_tiny; auto; lia.
Qed.
(** a text that is a decimal, of at most 9000 characters *)
Lemma parse_decimal : forall t neg r, decimal t neg r -> N.of_nat (length t) <= 9000 ->
  (too_large f64 r -> exists m, parse_float t = inr m) /\
  (~ too_large f64 r -> exists b, parse_float t = inl b /\ nearest f64 neg r b).
Proof.
  intros t neg r D L. destruct (read_ok _ _ _ D) as (n & x & y & k & R & E & Al & Bn & Bk). unfold parse_float. rewrite R.
  assert (Bn' : n < big). { eapply N.lt_le_trans; [exact Bn|]. apply N.pow_le_mono_r; [discriminate|exact L]. }
  pose proof (alike_round n x y k Al Bn' ltac:(lia)) as C. cbv zeta. split.
  - intro T. apply (too_large_eq _ _ _ E) in T. apply round_dec_large in T; [|apply ok64]. destruct (round_dec f64 n (y - Z.of_N k) <? inf_of f64) eqn:X; [lia|eauto].
  - intro T. assert (T' : ~ inf_of f64 <= round_dec f64 n (x - Z.of_N k)). { intro X. apply T. apply round_dec_large in X; [|apply ok64]. eapply too_large_eq; [symmetry; exact E|auto]. }
    destruct C as [C|C]; [|lia]. rewrite <- C. destruct (round_dec f64 n (x - Z.of_N k) <? inf_of f64) eqn:X; [|lia]. eexists. split; [reflexivity|]. eapply nearest_eq; [symmetry; exact E|]. apply round_dec_nearest; [apply ok64|lia].
Qed.
Lemma parse_other : forall t, (forall neg r, ~ decimal t neg r) -> exists m, parse_float t = inr m.
Proof.
  intros t H. unfold parse_float. destruct (read_float t) as [[[neg n] e]|] eqn:R; [|eauto]. exfalso. destruct (read_inv _ _ _ _ R) as (r & D). eapply H; eauto.
Qed.

(** ** Conversions *)
Lemma of_int_nearest : forall z, (Z.abs z <= 2 ^ 64)%Z -> nearest f64 (z <? 0)%Z (inject_Z (Z.abs z)) (of_int z).
Proof.
  intros z L. unfold of_int. assert (R : at_ratio f64 (Z.abs_N z * 2 ^ scale f64) 1 (inject_Z (Z.abs z))).
  { unfold at_ratio. change (rat 1) with 1%Q. rewrite rat_mul. setoid_replace (rat (Z.abs_N z) * rat (2 ^ scale f64) * unit f64)%Q with (rat (Z.abs_N z) * (unit f64 * rat (2 ^ scale f64)))%Q by ring. rewrite unit_scale, !Qmult_1_r. unfold rat. replace (Z.of_N (Z.abs_N z)) with (Z.abs z) by lia. reflexivity. }
  apply nearest_round; auto; [apply ok64|lia|].
  destruct (N.lt_ge_cases (round_mag f64 (Z.abs_N z * 2 ^ scale f64) 1) (inf_of f64)) as [C|C]; auto. exfalso.
  apply (too_large_round f64 ok64 _ 1 _ ltac:(lia) R) in C. unfold too_large in C. assert (P : (0 <= largest f64)%Q) by (rewrite (largest_is f64 ok64); apply Qmult_le_0_compat; [apply rat_nn|apply Qlt_le_weak, unit_pos]).
  assert (Q : (pow2 (Z.of_N (bias f64) + 1) <= inject_Z (2 * Z.abs z))%Q). { rewrite inject_Z_mult. eapply Qle_trans; [|exact C]. rewrite <- (Qplus_0_l (pow2 _)) at 1. now apply Qplus_le_l. }
  change (Z.of_N (bias f64) + 1)%Z with (Z.of_N 1024) in Q. rewrite pow2_N in Q. unfold rat in Q. rewrite <- Zle_Qle in Q. assert (X : (2 * 2 ^ 64 < Z.of_N (2 ^ 1024))%Z) by reflexivity. lia.
Qed.
Lemma unit32 : (unit f32 == rat (2 ^ 925) * unit f64)%Q. Proof. unfold unit. rewrite <- pow2_N, <- pow2_add. reflexivity. Qed.
Lemma widen_exact : forall a, a < inf_of f32 -> widen a < inf_of f64 /\ (rat (mag f64 (widen a)) * unit f64 == rat (mag f32 a) * unit f32)%Q.
Proof.
  intros a L. unfold widen. destruct (inf_of f32 <? a) eqn:X; [lia|]. destruct (a =? inf_of f32) eqn:Y; [lia|]. rewrite (proj1 scales). clear X Y.
  (* the magnitude is one of float64, too *)
  assert (Ex : exists a', a' < inf_of f64 /\ mag f64 a' = mag f32 a * 2 ^ 925).
  { destruct (divmod f32 a) as [E Lm]. set (e := a / 2 ^ f_mant f32) in *. set (m := a mod 2 ^ f_mant f32) in *. change (f_mant f32) with 23 in *. change (inf_of f32) with (255 * 2 ^ 23) in L. assert (Le : e < 255) by nia.
    assert (G : exists s k, mag f32 a = s * 2 ^ k /\ s < 2 ^ 24 /\ k <= 253).
    { unfold mag. change (f_mant f32) with 23. fold e m. destruct (e =? 0) eqn:Z; [exists m, 0; rewrite N.pow_0_r; repeat split; lia|]. exists (2 ^ 23 + m), (e - 1). repeat split; lia. }
    destruct G as (s & k & -> & Ls & Lk). destruct (N.eq_dec s 0) as [->|Ns]; [exists 0; split; [reflexivity|reflexivity]|].
    (* normalise the mantissa *)
    set (j := 52 - N.log2 s). assert (Lj : N.log2 s < 24) by (apply N.log2_lt_pow2; lia). assert (B : 2 ^ N.log2 s <= s < 2 ^ N.succ (N.log2 s)) by (apply N.log2_spec; lia).
    exists ((k + 925 - j) * 2 ^ 52 + s * 2 ^ j). assert (Pj : 2 ^ N.log2 s * 2 ^ j = 2 ^ 52) by (rewrite <- N.pow_add_r; f_equal; lia). assert (Pj' : 2 ^ N.succ (N.log2 s) * 2 ^ j = 2 * 2 ^ 52) by (rewrite N.pow_succ_r', <- N.mul_assoc, Pj; reflexivity).
    assert (Bj : 2 ^ 52 <= s * 2 ^ j /\ s * 2 ^ j < 2 * 2 ^ 52). { split; [rewrite <- Pj|rewrite <- Pj']; [apply N.mul_le_mono_r; lia|apply N.mul_lt_mono_pos_r; [apply pow_pos; lia|lia]]. }
    split; [change (inf_of f64) with (2047 * 2 ^ 52); assert (k + 925 - j + 2 <= 2047) by lia; nia|].
    change (2 ^ 52) with (2 ^ f_mant f64) in *. rewrite mag_at by lia. rewrite <- !N.mul_assoc, <- !N.pow_add_r. do 2 f_equal. lia. }
  destruct Ex as (a' & La & Em). rewrite <- (N.mul_1_r (mag f32 a * 2 ^ 925)), <- Em, round_exact by (try apply ok64; lia). split; auto. rewrite Em, unit32, rat_mul. ring.
Qed.
(** float64(float32(x)): the nearest float32, or infinity *)
Lemma to32_ok : forall b neg v, finite f64 b neg v ->
  (too_large f32 v -> to32 b = infinity f64 neg) /\
  (~ too_large f32 v -> exists b32 v32, nearest f32 neg v b32 /\ finite f32 b32 neg v32 /\ exists v64, finite f64 (to32 b) neg v64 /\ (v64 == v32)%Q).
Proof.
  intros b neg v H. destruct (finite_mag f64 ok64 _ _ _ H) as (a & L & -> & Ev). destruct (sign_ok f64 neg a ok64 L) as [S1 S2]. unfold to32. rewrite S1, S2. unfold narrow. destruct (inf_of f64 <? a) eqn:X; [lia|]. clear X. rewrite (proj1 scales).
  assert (R : at_ratio f32 (mag f64 a) (2 ^ 925) v). { unfold at_ratio. rewrite Ev, unit32. ring. }
  assert (P : 0 < 2 ^ 925) by reflexivity. pose proof (too_large_round f32 ok32 _ _ _ P R) as T. set (a' := round_mag f32 (mag f64 a) (2 ^ 925)) in *. split.
  - intro C. apply T in C. rewrite N.min_l by lia. unfold widen. rewrite N.ltb_irrefl, N.eqb_refl. unfold infinity, bit_pattern, signed, sign_bit, inf_of. lia.
  - intro C. assert (La : a' < inf_of f32). { destruct (N.lt_ge_cases a' (inf_of f32)); auto. exfalso. apply C, T. auto. } rewrite N.min_r by lia.
    pose proof (nearest_round f32 ok32 neg _ _ _ P R La) as N1. destruct (widen_exact a' La) as [W1 W2]. destruct (mag_finite f32 ok32 neg a' La) as (v32 & F32 & E32). destruct (mag_finite f64 ok64 neg _ W1) as (v64 & F64 & E64).
    exists (signed f32 neg a'), v32. split; auto. split; auto. exists v64. split; auto. rewrite E64, E32. exact W2.
Qed.
