(** * Floats: the digits that are written are the shortest and nearest (proofs) *)
From Coq Require Import String Arith NArith ZArith QArith Qabs Qpower Bool List Lia Lqa.
From Coq Require Import ZifyBool ZifyNat ZifyN.
From Verif Require Import Base Json FloatSpec JsonModel JsonProof ResModel Spec SpecLit FloatModel FloatProof FloatText FloatLit.
Import ListNotations.
Open Scope N_scope.

Section Short.
Variable F : format.
Hypothesis Ok : fmt_ok F.
Lemma round_mono : forall p q p' q', 0 < q -> 0 < q' -> p * q' <= p' * q -> round_mag F p q <= round_mag F p' q'.
Proof.
  intros p q p' q' Q Q' L. destruct (N.eq_dec (p * q') (p' * q)) as [E|E]; [rewrite (round_ratio F p q p' q'); auto; lia|].
  destruct (N.le_gt_cases (round_mag F p q) (round_mag F p' q')) as [|G]; auto. exfalso.
  destruct (round_nearest F Ok p q (round_mag F p' q') Q) as [A _]. destruct (round_nearest F Ok p' q' (round_mag F p q) Q') as [B _]. cbv zeta in *.
  set (a := round_mag F p q) in *. set (a' := round_mag F p' q') in *. pose proof (mag_mono F a' a G) as M. unfold dist in *.
  assert (H1 : (mag F a + mag F a') * q <= 2 * p) by nia. assert (H2 : 2 * p' <= (mag F a + mag F a') * q') by nia. nia.
Qed.
Lemma pow10_split : forall e, (pow10 e * rat (10 ^ Z.to_N (- e)) == rat (10 ^ Z.to_N e))%Q.
Proof. intro e. rewrite <- !pow10_N, <- pow10_add. replace (e + Z.of_N (Z.to_N (- e)))%Z with (Z.of_N (Z.to_N e)) by lia. reflexivity. Qed.
Lemma round_dec_mono : forall x e y e', (rat x * pow10 e <= rat y * pow10 e')%Q -> round_dec F x e <= round_dec F y e'.
Proof.
  intros x e y e' L. unfold round_dec. apply round_mono; try apply den_pos. 
  assert (H : x * 10 ^ Z.to_N e * 10 ^ Z.to_N (- e') <= y * 10 ^ Z.to_N e' * 10 ^ Z.to_N (- e)).
  { apply rat_le. rewrite !rat_mul. rewrite <- (pow10_split e), <- (pow10_split e').
    setoid_replace (rat x * (pow10 e * rat (10 ^ Z.to_N (- e))) * rat (10 ^ Z.to_N (- e')))%Q with (rat x * pow10 e * (rat (10 ^ Z.to_N (- e)) * rat (10 ^ Z.to_N (- e'))))%Q by ring.
    setoid_replace (rat y * (pow10 e' * rat (10 ^ Z.to_N (- e'))) * rat (10 ^ Z.to_N (- e)))%Q with (rat y * pow10 e' * (rat (10 ^ Z.to_N (- e)) * rat (10 ^ Z.to_N (- e'))))%Q by ring.
    apply Qmult_le_compat_r; auto. rewrite <- rat_mul. apply rat_nn. }
  pose proof (pow_pos 2 (scale F)). nia.
Qed.
Lemma round_dec_eq : forall x e y e', (rat x * pow10 e == rat y * pow10 e')%Q -> round_dec F x e = round_dec F y e'.
Proof. intros x e y e' E. apply N.le_antisymm; apply round_dec_mono; rewrite E; apply Qle_refl. Qed.

(** ** One number of digits *)
Section Try.
Variables a d0 s n0 n : N.
Hypothesis Lo : 10 ^ (n0 - 1) <= d0.
Hypothesis Hi : d0 < 10 ^ n0.
Hypothesis Hn : 1 <= n <= n0.
Hypothesis Ra : round_dec F d0 (- Z.of_N s) = a.
Let c := 10 ^ (n0 - n).
Let down := d0 / c.
Let e := (Z.of_N (n0 - n) - Z.of_N s)%Z.
Let U := pow10 (- Z.of_N s).
Let v := (rat d0 * U)%Q.
Lemma c_pos : 0 < c. Proof. apply pow_pos. lia. Qed.
Lemma at_e : forall x, (rat x * pow10 e == rat (x * c) * U)%Q.
Proof. intro x. unfold e, U, c. rewrite rat_mul, <- pow10_N, <- Qmult_assoc, <- pow10_add. reflexivity. Qed.
Lemma split_d0 : d0 = down * c + d0 mod c /\ d0 mod c < c.
Proof. pose proof c_pos. unfold down. pose proof (N.div_mod d0 c ltac:(lia)). pose proof (N.mod_lt d0 c ltac:(lia)). lia. Qed.
Lemma U_pos : (0 < U)%Q. Proof. apply pow10_pos. Qed.
Lemma U_le : forall x y, (rat x * U <= rat y * U)%Q <-> x <= y.
Proof. intros. rewrite Qmult_le_r by apply U_pos. apply rat_le. Qed.
Lemma c_top : 10 ^ (n - 1) * c = 10 ^ (n0 - 1). Proof. unfold c. rewrite <- N.pow_add_r. f_equal. lia. Qed.
Lemma c_all : 10 ^ n * c = 10 ^ n0. Proof. unfold c. rewrite <- N.pow_add_r. f_equal. lia. Qed.
Lemma down_lo : 10 ^ (n - 1) <= down.
Proof. pose proof c_pos. unfold down. apply N.div_le_lower_bound; [lia|]. rewrite N.mul_comm, c_top. exact Lo. Qed.
Lemma down_hi : down < 10 ^ n.
Proof. pose proof c_pos. unfold down. apply N.div_lt_upper_bound; [lia|]. rewrite N.mul_comm, c_all. exact Hi. Qed.
Lemma candidates : forall D E, D < 10 ^ n -> let y := (rat D * pow10 E)%Q in (y <= rat (down * c) * U)%Q \/ (rat ((down + 1) * c) * U <= y)%Q.
Proof.
  intros D E L y. destruct (Z.le_gt_cases e E) as [G|G].
  - assert (Y : (y == rat (D * 10 ^ Z.to_N (E - e) * c) * U)%Q).
    { unfold y. replace E with (Z.of_N (Z.to_N (E - e)) + e)%Z at 1 by lia. rewrite pow10_add, pow10_N. rewrite <- at_e. rewrite rat_mul. ring. }
    rewrite Y, !U_le. set (x := D * 10 ^ Z.to_N (E - e)). pose proof c_pos. destruct (N.le_gt_cases x down); [left|right]; nia.
  - left. assert (P : (rat D * pow10 E <= rat (10 ^ (n - 1)) * pow10 e)%Q).
    { setoid_replace (rat (10 ^ (n - 1)) * pow10 e)%Q with (rat (10 ^ n) * pow10 (e - 1))%Q.
      - replace (e - 1)%Z with (Z.of_N (Z.to_N (e - 1 - E)) + E)%Z by lia. rewrite pow10_add, pow10_N. rewrite Qmult_assoc, <- rat_mul. rewrite Qmult_le_r by apply pow10_pos. apply rat_le.
        pose proof (pow_pos 10 (Z.to_N (e - 1 - E))). nia.
      - rewrite <- !pow10_N, <- !pow10_add. replace (Z.of_N (n - 1) + e)%Z with (Z.of_N n + (e - 1))%Z by lia. reflexivity. }
    unfold y. eapply Qle_trans; [exact P|]. rewrite at_e, U_le. pose proof down_lo. nia.
Qed.
Lemma try_complete : forall D E, D < 10 ^ n -> round_dec F D E = a ->
  exists x, digits_try F a d0 s n0 n = Some (x, e) /\ x <= 10 ^ n /\ (Qabs (rat x * pow10 e - v) <= Qabs (rat D * pow10 E - v))%Q.
Proof.
  intros D E L R. pose proof split_d0 as [E0 Rm]. pose proof c_pos as Cp. pose proof down_hi as Dh. set (rest := d0 mod c) in *. set (y := (rat D * pow10 E)%Q).
  assert (Rd : (y <= rat (down * c) * U)%Q -> round_dec F down e = a).
  { intro H. apply N.le_antisymm.
    - rewrite <- Ra. apply round_dec_mono. rewrite at_e. apply U_le. lia.
    - rewrite <- R. apply round_dec_mono. rewrite at_e. exact H. }
  assert (Ru : (rat ((down + 1) * c) * U <= y)%Q -> round_dec F (down + 1) e = a).
  { intro H. apply N.le_antisymm.
    - rewrite <- R. apply round_dec_mono. rewrite at_e. exact H.
    - rewrite <- Ra. apply round_dec_mono. rewrite at_e. apply U_le. lia. }
  assert (Ed : (rat d0 == rat (down * c) + rat rest)%Q) by (rewrite <- rat_add; rewrite <- E0; reflexivity).
  assert (Ad : (Qabs (rat down * pow10 e - v) == rat rest * U)%Q).
  { rewrite at_e. unfold v. rewrite Ed. setoid_replace (rat (down * c) * U - (rat (down * c) + rat rest) * U)%Q with (- (rat rest * U))%Q by ring. rewrite Qabs_opp. apply Qabs_pos. apply Qmult_le_0_compat; [apply rat_nn|apply Qlt_le_weak, U_pos]. }
  assert (Au : (Qabs (rat (down + 1) * pow10 e - v) == rat (c - rest) * U)%Q).
  { rewrite at_e. unfold v. replace ((down + 1) * c) with (d0 + (c - rest)) by lia. rewrite rat_add. setoid_replace ((rat d0 + rat (c - rest)) * U - rat d0 * U)%Q with (rat (c - rest) * U)%Q by ring. apply Qabs_pos. apply Qmult_le_0_compat; [apply rat_nn|apply Qlt_le_weak, U_pos]. }
  assert (By : (y <= rat (down * c) * U)%Q -> (rat rest * U <= Qabs (y - v))%Q).
  { intro H. rewrite Qabs_Qminus. eapply Qle_trans; [|apply Qle_Qabs]. unfold v. rewrite Ed. setoid_replace (rat rest * U)%Q with ((rat (down * c) + rat rest) * U - rat (down * c) * U)%Q by ring. apply Qplus_le_compat; [apply Qle_refl|]. apply Qopp_le_compat. exact H. }
  assert (Cy : (rat ((down + 1) * c) * U <= y)%Q -> (rat (c - rest) * U <= Qabs (y - v))%Q).
  { intro H. eapply Qle_trans; [|apply Qle_Qabs]. replace ((down + 1) * c) with (d0 + (c - rest)) in H by lia. rewrite rat_add in H. unfold v. lra. }
  unfold digits_try. cbv zeta. fold c. fold down. fold rest. fold e.
  destruct (candidates D E L) as [H|H]; fold y in H.
  - rewrite (proj2 (N.eqb_eq _ _) (Rd H)). destruct (round_dec F (down + 1) e =? a).
    + destruct ((2 * rest <? c) || (2 * rest =? c) && N.even down) eqn:B; eexists; (split; [reflexivity|]); (split; [lia|]); [rewrite Ad; auto|]. rewrite Au. eapply Qle_trans; [|apply By; exact H]. apply U_le. lia.
    + eexists. split; [reflexivity|]. split; [lia|]. rewrite Ad. auto.
  - rewrite (proj2 (N.eqb_eq _ _) (Ru H)). destruct (round_dec F down e =? a).
    + destruct ((2 * rest <? c) || (2 * rest =? c) && N.even down) eqn:B; eexists; (split; [reflexivity|]); (split; [lia|]); [|rewrite Au; auto]. rewrite Ad. eapply Qle_trans; [|apply Cy; exact H]. apply U_le. lia.
    + eexists. split; [reflexivity|]. split; [lia|]. rewrite Au. auto.
Qed.
Lemma try_bound : forall x e', digits_try F a d0 s n0 n = Some (x, e') -> e' = e /\ x <= 10 ^ n.
Proof.
  intros x e' H. pose proof down_hi as Dh. unfold digits_try in H. cbv zeta in H. fold c in H. fold down in H. fold e in H.
  destruct (_ =? a); destruct (_ =? a); try discriminate; injection H; intros <- <-; (split; [reflexivity|]); [destruct (_ || _)| |]; lia.
Qed.
End Try.

(** ** The search *)
Lemma search_first : forall a d0 s n0, 10 ^ (n0 - 1) <= d0 -> d0 < 10 ^ n0 -> round_dec F d0 (- Z.of_N s) = a -> forall fuel n x e, 1 <= n -> n + N.of_nat fuel = n0 + 1 -> (0 < fuel)%nat ->
  digits_search F a d0 s n0 n fuel = (x, e) ->
  exists m, n <= m <= n0 /\ digits_try F a d0 s n0 m = Some (x, e) /\ forall k, n <= k < m -> digits_try F a d0 s n0 k = None.
Proof.
  intros a d0 s n0 Lo Hi R. induction fuel as [|fuel IH]; intros n x e N1 Nf Fp H; [lia|]. cbn [digits_search] in H. destruct (digits_try F a d0 s n0 n) as [r|] eqn:T.
  - subst r. exists n. split; [lia|]. split; auto. intros; lia.
  - destruct fuel as [|fuel].
    + exfalso. assert (n = n0) by lia. subst n. destruct (try_complete a d0 s n0 n0 Lo Hi ltac:(lia) R d0 (- Z.of_N s) Hi R) as (y & Y & _). congruence.
    + destruct (IH (n + 1) x e) as (m & Hm & Tm & Nm); try lia; auto. exists m. split; [lia|]. split; auto. intros k Hk. destruct (N.eq_dec k n); [congruence|]. apply Nm. lia.
Qed.
Lemma dec_length : forall n, n <> 0 -> let k := N.of_nat (length (dec_of_N n)) in 1 <= k /\ 10 ^ (k - 1) <= n < 10 ^ k.
Proof.
  intros n N. cbv zeta. destruct (dec_of_N_ok n) as (A & J & D & _). apply dec_value_inv in A. destruct A as (_ & _ & E). pose proof (dec_bound _ D) as B. rewrite E in B.
  destruct J as [J|(d & r & J & R & Dr)]; rewrite J in *; [cbn in E; lia|]. cbn [length] in *. split; [lia|]. split; [|exact B].
  replace (N.of_nat (S (length r)) - 1) with (N.of_nat (length r)) by lia. change (d :: r) with ([d] ++ r) in E. rewrite dec_app in E. unfold dec_of at 1 in E. cbn [fold_left] in E. nia.
Qed.
(** the digits found: no fewer do, and of as many none is nearer *)
Lemma shortest_best : forall a x e v, a <> 0 -> shortest F a = (x, e) -> (v == rat (mag F a) * unit F)%Q -> exists m, 1 <= m /\ x <= 10 ^ m /\
  forall D E k, 1 <= k -> D < 10 ^ k -> round_dec F D E = a -> m <= k /\ (k = m -> (Qabs (rat x * pow10 e - v) <= Qabs (rat D * pow10 E - v))%Q).
Proof.
  intros a x e v A H V. unfold shortest in H. pose proof (exact_dec_ok F a) as X. destruct (exact_dec F a) as [d0 s]. destruct X as (X & _ & _).
  assert (R : round_dec F d0 (- Z.of_N s) = a). { apply (search_ok F Ok a d0 s 0 0 0 d0 (- Z.of_N s)%Z X). reflexivity. }
  assert (Nz : d0 <> 0). { intros ->. rewrite round_dec_zero in R; auto. }
  destruct (dec_length d0 Nz) as (K1 & Lo & Hi). cbv zeta in *. set (n0 := N.of_nat (length (dec_of_N d0))) in *.
  assert (Ev : (v == rat d0 * pow10 (- Z.of_N s))%Q).
  { rewrite V. assert (Ex : (rat d0 * rat (2 ^ scale F) == rat (mag F a) * rat (10 ^ s))%Q) by (rewrite <- !rat_mul, X; reflexivity).
    assert (P : (rat (10 ^ s) * pow10 (- Z.of_N s) == 1)%Q) by (rewrite <- pow10_N, <- pow10_add; replace (Z.of_N s + - Z.of_N s)%Z with 0%Z by lia; reflexivity).
    setoid_replace (rat (mag F a) * unit F)%Q with ((rat (mag F a) * rat (10 ^ s)) * (unit F * pow10 (- Z.of_N s)))%Q by (transitivity ((rat (mag F a) * unit F) * (rat (10 ^ s) * pow10 (- Z.of_N s)))%Q; [rewrite P; ring|ring]).
    rewrite <- Ex. setoid_replace (rat d0 * rat (2 ^ scale F) * (unit F * pow10 (- Z.of_N s)))%Q with (rat d0 * pow10 (- Z.of_N s) * (unit F * rat (2 ^ scale F)))%Q by ring. rewrite unit_scale. ring. }
  destruct (search_first a d0 s n0 Lo Hi R (length (dec_of_N d0)) 1 x e) as (m & Hm & Tm & Nm); auto; try lia.
  exists m. destruct (try_bound a d0 s n0 m Lo Hi ltac:(lia) R x e Tm) as [-> Bx]. split; [lia|]. split; auto.
  intros D E k K L Rd. split.
  - destruct (N.le_gt_cases m k) as [|G]; auto. exfalso. destruct (try_complete a d0 s n0 k Lo Hi ltac:(lia) R D E L Rd) as (y & Y & _). rewrite Nm in Y by lia. discriminate.
  - intros ->. destruct (try_complete a d0 s n0 m Lo Hi ltac:(lia) R D E L Rd) as (y & Y & _ & B). rewrite Tm in Y. injection Y as <-. rewrite Ev. exact B.
Qed.
End Short.

(** ** The form *)
Lemma pow10_lt : forall a b, (pow10 a < pow10 b)%Q <-> (a < b)%Z.
Proof.
  intros a b. split; intro H.
  - destruct (Z.lt_ge_cases a b) as [|G]; auto. exfalso. replace a with (Z.of_N (Z.to_N (a - b)) + b)%Z in H by lia. rewrite pow10_add, pow10_N in H. pose proof (pow10_pos b).
    assert (1 <= rat (10 ^ Z.to_N (a - b)))%Q. { change 1%Q with (rat 1). apply rat_le. pose proof (pow_pos 10 (Z.to_N (a - b))). lia. } nra.
  - replace b with (Z.of_N (Z.to_N (b - a)) + a)%Z by lia. rewrite pow10_add, pow10_N. pose proof (pow10_pos a).
    assert (10 <= rat (10 ^ Z.to_N (b - a)))%Q. { change 10%Q with (rat 10). apply rat_le. replace (Z.to_N (b - a)) with (N.succ (Z.to_N (b - a - 1))) by lia. rewrite N.pow_succ_r'. pose proof (pow_pos 10 (Z.to_N (b - a - 1))). lia. } nra.
Qed.
(** a number with its first digit other than 0 *)
Lemma first_place : forall d n, digits d -> hd 48 d <> 48 -> let r := (rat (dec_of d) * pow10 (n - Z.of_nat (length d)))%Q in (pow10 (n - 1) <= r /\ r < pow10 n)%Q.
Proof.
  intros d n D H r. pose proof (dec_bound d D) as B. destruct d as [|c d]; [cbn in H; congruence|]. cbn [hd] in H.
  assert (A : 10 ^ N.of_nat (length d) <= dec_of (c :: d)). { change (c :: d) with ([c] ++ d). rewrite dec_app. unfold dec_of at 1. cbn [fold_left]. inversion D; subst. unfold digit in *. nia. }
  unfold r. cbn [length] in *. split.
  - replace (n - 1)%Z with (Z.of_N (N.of_nat (length d)) + (n - Z.of_nat (S (length d))))%Z by lia. rewrite pow10_add, pow10_N. rewrite Qmult_le_r by apply pow10_pos. now apply rat_le.
  - replace n with (Z.of_N (N.of_nat (S (length d))) + (n - Z.of_nat (S (length d))))%Z at 2 by lia. rewrite pow10_add, pow10_N. rewrite Qmult_lt_r by apply pow10_pos. unfold rat. rewrite <- Zlt_Qlt. lia.
Qed.
Section Form.
Variable F : format.
Hypothesis Ok : fmt_ok F.
Hypothesis Low : exists x e, shortest F (round_dec F 1 (-6)) = (x, e) /\ (rat x * pow10 e == pow10 (-6))%Q.
Hypothesis High : exists x e, shortest F (round_dec F 1 21) = (x, e) /\ (rat x * pow10 e == pow10 21)%Q.
Lemma form_ok : forall a x e, a <> 0 -> shortest F a = (x, e) -> let n := (Z.of_nat (length (dec_of_N x)) + e)%Z in e_form F a = negb ((-6 <? n) && (n <=? 21))%Z.
Proof.
  intros a x e A H n. pose proof (shortest_ok F Ok _ _ _ H) as R. assert (Nz : x <> 0). { intros ->. rewrite round_dec_zero in R. lia. }
  destruct (dec_of_N_ok x) as (Dv & _ & D & _). apply dec_value_inv in Dv. destruct Dv as (_ & _ & E).
  assert (Fd : hd 48 (dec_of_N x) <> 48). { pose proof (first_digit x Nz) as Fd. destruct (dec_of_N x); [cbn in E; congruence|exact Fd]. }
  destruct (first_place (dec_of_N x) n D Fd) as [P1 P2]. rewrite E in P1, P2. replace (n - Z.of_nat (length (dec_of_N x)))%Z with e in P1, P2 by (unfold n; lia). set (r := (rat x * pow10 e)%Q) in *.
  assert (Mono : forall k, (r <= pow10 k)%Q -> a <= round_dec F 1 k). { intros k L. rewrite <- R. apply round_dec_mono; auto. change (rat 1) with 1%Q. rewrite Qmult_1_l. exact L. }
  assert (Mono' : forall k, (pow10 k <= r)%Q -> round_dec F 1 k <= a). { intros k L. rewrite <- R. apply round_dec_mono; auto. change (rat 1) with 1%Q. rewrite Qmult_1_l. exact L. }
  assert (K6 : (a <? round_dec F 1 (-6)) = (n <=? -6)%Z).
  { destruct (a <? round_dec F 1 (-6)) eqn:C; symmetry.
    - apply Z.leb_le. destruct (Qlt_le_dec r (pow10 (-6))) as [L|L]; [|apply Mono' in L; lia]. pose proof (Qle_lt_trans _ _ _ P1 L) as T. apply (proj1 (pow10_lt _ _)) in T. lia.
    - apply Z.leb_gt. destruct (Qlt_le_dec r (pow10 (-6))) as [L|L].
      + exfalso. pose proof (Mono (-6)%Z (Qlt_le_weak _ _ L)) as M. assert (Ea : a = round_dec F 1 (-6)) by lia. destruct Low as (x1 & e1 & K1 & K). rewrite <- Ea, H in K1. injection K1 as <- <-. fold r in K. rewrite K in L. revert L. apply Qle_not_lt, Qle_refl.
      + pose proof (Qle_lt_trans _ _ _ L P2) as T. apply (proj1 (pow10_lt _ _)) in T. lia. }
  assert (K21 : (round_dec F 1 21 <=? a) = (21 <? n)%Z).
  { destruct (round_dec F 1 21 <=? a) eqn:C; symmetry.
    - apply Z.ltb_lt. destruct (Qlt_le_dec r (pow10 21)) as [L|L].
      + exfalso. pose proof (Mono 21%Z (Qlt_le_weak _ _ L)) as M. assert (Ea : a = round_dec F 1 21) by lia. destruct High as (x1 & e1 & K1 & K). rewrite <- Ea, H in K1. injection K1 as <- <-. fold r in K. rewrite K in L. revert L. apply Qle_not_lt, Qle_refl.
      + pose proof (Qle_lt_trans _ _ _ L P2) as T. apply (proj1 (pow10_lt _ _)) in T. lia.
    - apply Z.ltb_ge. destruct (Qlt_le_dec r (pow10 21)) as [L|L]; [|apply Mono' in L; lia]. pose proof (Qle_lt_trans _ _ _ P1 L) as T. apply (proj1 (pow10_lt _ _)) in T. lia. }
  unfold e_form. rewrite K6, K21. destruct (a =? 0) eqn:Z; [lia|]. cbn [negb andb]. clear. lia.
Qed.
Lemma text_form : forall neg d n, d <> [] -> (let ef := negb ((-6 <? n) && (n <=? 21))%Z in let t := sgn neg ++ (if ef then fmt_e d n else fmt_f d n) in if ef then clean_exp t else t) = sgn neg ++ es_text d n.
Proof.
  intros neg d n N. cbv zeta. unfold es_text. cbv zeta. destruct ((-6 <? n) && (n <=? 21))%Z eqn:B; cbn [negb].
  - f_equal. unfold fmt_f. destruct (0 <? n)%Z eqn:P; cbv zeta.
    + destruct ((Z.of_nat (length d) <=? n) && (n <=? 21))%Z eqn:C.
      * rewrite firstn_all2, skipn_all2 by lia. rewrite app_nil_r. unfold zeros. do 2 f_equal. lia.
      * replace ((true && (n <=? 21))%Z) with true by lia. replace (Z.to_nat n - length d)%nat with O by lia. cbn [zeros repeat app]. f_equal.
        destruct (skipn (Z.to_nat n) d) eqn:Sk; auto. exfalso. apply (f_equal (@length _)) in Sk. rewrite skipn_length in Sk. cbn in Sk. lia.
    + replace ((Z.of_nat (length d) <=? n) && (n <=? 21))%Z with false by (destruct d; [contradiction|cbn [length]; lia]). cbn [andb]. replace ((-6 <? n) && (n <=? 0))%Z with true by lia. destruct d; [contradiction|reflexivity].
  - replace ((Z.of_nat (length d) <=? n) && (n <=? 21))%Z with false by (destruct d; [contradiction|cbn [length]; lia]). replace ((0 <? n) && (n <=? 21))%Z with false by lia. replace ((-6 <? n) && (n <=? 0))%Z with false by lia.
    destruct (fmt_e_exp d n N) as (c & r & -> & _ & sg & H). destruct (H neg) as [-> ->]. f_equal.
    assert (Ex : exp_text (n - 1) = es_exp (n - 1)).
    { unfold exp_text, es_exp. cbv zeta. destruct (n - 1 <? 0)%Z eqn:S; [reflexivity|]. pose proof (exp_len2 (Z.abs_N (n - 1)) ltac:(lia)) as L2. destruct (length (dec_of_N (Z.abs_N (n - 1))) <? 2)%nat eqn:Q; [lia|reflexivity]. }
    rewrite Ex. destruct r; reflexivity.
Qed.
Lemma format_es : forall neg a v, a < inf_of F -> (v == rat (mag F a) * unit F)%Q ->
  es_number F (signed F neg a) neg v (let ef := e_form F a in let t := format_float F neg a ef in if ef then clean_exp t else t).
Proof.
  intros neg a v L V. unfold format_float. cbv zeta. fold (sgn neg). destruct (a =? 0) eqn:Ea.
  - assert (a = 0) by lia. subst a. change (e_form F 0) with false. cbv iota. cbn [cut_zeros dec_of_N]. exists [48]. split; [reflexivity|]. left. split; [|reflexivity].
    rewrite V. assert (M0 : mag F 0 = 0). { unfold mag. cbv zeta. rewrite N.div_0_l by (pose proof (M_pos F); lia). rewrite N.mod_0_l by (pose proof (M_pos F); lia). reflexivity. } rewrite M0. reflexivity.
  - assert (Na : a <> 0) by lia. destruct (shortest F a) as [x e] eqn:Es. pose proof (shortest_ok F Ok _ _ _ Es) as R. assert (Nz : x <> 0). { intros ->. rewrite round_dec_zero in R. lia. }
    rewrite (form_ok a x e Na Es). set (n := (Z.of_nat (length (dec_of_N x)) + e)%Z).
    destruct (dec_of_N_ok x) as (A & _ & D & _). apply dec_value_inv in A. destruct A as (_ & _ & E). pose proof (first_digit x Nz) as Fd.
    destruct (cut_zeros_ok (dec_of_N x)) as (k & Ek & Lk). assert (Nc : cut_zeros (dec_of_N x) <> []) by (apply cut_zeros_zero; auto; congruence). set (d := cut_zeros (dec_of_N x)) in *.
    assert (Dd : digits d). { rewrite Ek in D. apply Forall_app in D. tauto. } assert (Hd : hd 48 d <> 48). { rewrite Ek in Fd. destruct d; [contradiction|exact Fd]. }
    assert (Vx : (rat (dec_of d) * pow10 (n - Z.of_nat (length d)) == rat x * pow10 e)%Q).
    { unfold n. rewrite <- E at 2. rewrite Ek at 1 2. rewrite dec_app, dec_zeros, zeros_len, app_length, zeros_len, N.add_0_r. rewrite rat_mul, <- pow10_N, <- Qmult_assoc, <- pow10_add.
      replace (Z.of_nat (length d + k) + e - Z.of_nat (length d))%Z with (Z.of_N (N.of_nat k) + e)%Z by lia. reflexivity. }
    exists (es_text d n). split; [apply text_form; auto|]. right. split.
    { rewrite V. intro Z. pose proof (mag_mono F 0 a ltac:(lia)) as M. pose proof (rat_pos (mag F a) ltac:(lia)) as P. pose proof (unit_pos F) as P'. pose proof (Qmult_lt_0_compat _ _ P P') as P2. rewrite Z in P2. revert P2. apply Qlt_irrefl. }
    exists d, n. split; [|reflexivity].
    assert (Rn : nearest F neg (rat (dec_of d) * pow10 (n - Z.of_nat (length d))) (signed F neg a)). { eapply nearest_eq; [symmetry; exact Vx|]. replace (signed F neg a) with (signed F neg (round_dec F x e)) by now rewrite R. apply round_dec_nearest; auto. lia. }
    exists (rat (dec_of d) * pow10 (n - Z.of_nat (length d)))%Q. split; [exists (dec_of d); split; [now apply dec_value_of|reflexivity]|]. split; [exact Rn|].
    split. { intro T. apply (too_large_eq F _ _ Vx) in T. apply round_dec_large in T; auto. lia. }
    split; [exact Hd|]. split. { destruct Lk as [Lk|(d1 & c & Ec & Nc')]; [contradiction|]. rewrite Ec, last_last. exact Nc'. }
    destruct (shortest_best F Ok a x e v Na Es V) as (m & M1 & Mx & Best).
    assert (Lm : (length d <= N.to_nat m)%nat).
    { destruct (N.eq_dec x (10 ^ m)) as [C|C].
      - destruct Lk as [Lk|(d1 & c & Ec & Nc')]; [contradiction|]. assert (Dc : digit c). { rewrite Ec in Dd. apply Forall_app in Dd. destruct Dd as [_ Dd]. now inversion Dd. }
        assert (E10 : dec_of d * 10 ^ N.of_nat k = 10 ^ m). { rewrite <- C, <- E. rewrite Ek. rewrite dec_app, dec_zeros, zeros_len. lia. }
        assert (Ld : (length (dec_of_N x) <= N.to_nat m + 1)%nat). { apply dec_len; [|lia]. rewrite C. apply N.pow_lt_mono_r; lia. }
        assert (Gk : m <= N.of_nat k).
        { destruct (N.le_gt_cases m (N.of_nat k)) as [|G]; auto. exfalso. replace m with (N.succ (m - N.of_nat k - 1) + N.of_nat k) in E10 by lia. rewrite N.pow_add_r, N.pow_succ_r' in E10. pose proof (pow_pos 10 (N.of_nat k) ltac:(lia)) as P.
          assert (E11 : dec_of d = 10 * 10 ^ (m - N.of_nat k - 1)) by nia. rewrite Ec, dec_app in E11. change (10 ^ N.of_nat (length [c])) with 10 in E11. unfold dec_of at 2 in E11. cbn [fold_left] in E11. unfold digit in Dc. lia. }
        rewrite Ek, app_length, zeros_len in Ld. lia.
      - pose proof (dec_len x (N.to_nat m)) as Dl. rewrite N2Nat.id in Dl. specialize (Dl ltac:(lia) ltac:(lia)). pose proof (cut_len (dec_of_N x)). unfold d. lia. }
    intros d' n' r' (m' & Dv' & ->) Nr' Tr'. apply dec_value_inv in Dv'. destruct Dv' as (Nd' & Dd' & E'). pose proof (dec_bound d' Dd') as B'. rewrite E' in B'.
    assert (Rd : round_dec F m' (n' - Z.of_nat (length d')) = a).
    { rewrite round_dec_large in Tr' by auto. pose proof (round_dec_nearest F Ok neg m' (n' - Z.of_nat (length d')) ltac:(lia)) as Nr. pose proof (nearest_unique F Ok _ _ _ _ Nr Nr') as Eq. eapply signed_inj; eauto. }
    destruct (Best m' (n' - Z.of_nat (length d'))%Z (N.of_nat (length d'))) as [B1 B2]; auto; [destruct d'; [contradiction|cbn [length]; lia]|].
    split; [lia|]. intro El. rewrite Vx. apply B2. lia.
Qed.
End Form.

Lemma low64 : exists x e, shortest f64 (round_dec f64 1 (-6)) = (x, e) /\ (rat x * pow10 e == pow10 (-6))%Q. Proof. exists 10, (-7)%Z. split; vm_compute; reflexivity. Qed.
Lemma high64 : exists x e, shortest f64 (round_dec f64 1 21) = (x, e) /\ (rat x * pow10 e == pow10 21)%Q. Proof. exists 1, 21%Z. split; vm_compute; reflexivity. Qed.
Lemma low32 : exists x e, shortest f32 (round_dec f32 1 (-6)) = (x, e) /\ (rat x * pow10 e == pow10 (-6))%Q. Proof. exists 10, (-7)%Z. split; vm_compute; reflexivity. Qed.
Lemma high32 : exists x e, shortest f32 (round_dec f32 1 21) = (x, e) /\ (rat x * pow10 e == pow10 21)%Q. Proof. exists 1, 21%Z. split; vm_compute; reflexivity. Qed.
Lemma es64 : forall b neg v, finite f64 b neg v -> es_number f64 b neg v (float_json true b).
Proof.
  intros b neg v H. destruct (finite_mag f64 ok64 _ _ _ H) as (a & L & -> & V). destruct (sign_ok f64 neg a ok64 L) as [S1 S2]. unfold float_json. rewrite S1, S2. destruct (inf_of f64 <=? a) eqn:E; [lia|].
  apply (format_es f64 ok64 low64 high64 neg a v L V).
Qed.
Lemma es32 : forall b b' neg v v', finite f64 b neg v -> finite f32 b' neg v' -> (v == v')%Q -> es_number f32 b' neg v' (float_json false b).
Proof.
  intros b b' neg v v' H H' V. destruct (finite_mag f64 ok64 _ _ _ H) as (a & L & -> & Ea). destruct (finite_mag f32 ok32 _ _ _ H') as (a' & L' & -> & Ea'). destruct (sign_ok f64 neg a ok64 L) as [S1 S2]. unfold float_json. rewrite S1, S2. destruct (inf_of f64 <=? a) eqn:E; [lia|].
  rewrite (narrow_exact a a' L L') by (rewrite <- Ea, <- Ea'; exact V). apply (format_es f32 ok32 low32 high32 neg a' v' L' Ea').
Qed.
