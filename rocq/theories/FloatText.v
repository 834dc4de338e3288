(** * Floats: the texts that are written and read (proofs) *)
From Coq Require Import String Arith NArith ZArith QArith Qabs Qpower Bool List Lia Lqa.
From Coq Require Import ZifyBool ZifyNat ZifyN.
From Verif Require Import Base Json FloatSpec JsonModel JsonProof ResModel Spec SpecLit FloatModel FloatProof.
Import ListNotations.
Open Scope N_scope.

(** ** Equal rationals *)
Lemma nearest_eq : forall F neg r r' b, (r == r')%Q -> nearest F neg r b -> nearest F neg r' b.
Proof.
  intros F neg r r' b E (v & Fv & H). exists v. split; auto. intros b' v' Fv'. destruct (H b' v' Fv') as [A B].
  assert (C : forall x, (Qabs (x - r) == Qabs (x - r'))%Q) by (intro x; rewrite E; reflexivity). rewrite !C in A. split; auto. intro D. apply B. now rewrite !C.
Qed.
Lemma too_large_eq : forall F r r', (r == r')%Q -> too_large F r -> too_large F r'.
Proof. intros F r r' E H. unfold too_large in *. now rewrite <- E. Qed.

(** ** Rounding only looks at the ratio *)
Lemma round_ratio : forall F p q p' q', fmt_ok F -> 0 < q -> 0 < q' -> p * q' = p' * q -> round_mag F p q = round_mag F p' q'.
Proof.
  intros F p q p' q' Ok Q Q' E. apply round_unique; auto. intro a'. pose proof (round_nearest F Ok p q a' Q) as [A B]. cbv zeta in *. set (a := round_mag F p q) in *.
  assert (K : forall x, (dist F x p q * Z.of_N q' = dist F x p' q' * Z.of_N q)%Z).
  { intro x. unfold dist. rewrite <- (Z.abs_eq (Z.of_N q')) by lia. rewrite <- (Z.abs_eq (Z.of_N q)) by lia. rewrite <- !Z.abs_mul. f_equal. nia. }
  pose proof (K a). pose proof (K a'). split; [nia|]. intro D. apply B. nia.
Qed.
Lemma round_zero : forall F p q, 0 < q -> 2 * p < q -> round_mag F p q = 0.
Proof.
  intros F p q Q L. unfold round_mag. cbv zeta. rewrite (N.div_small p q) by lia. assert (P : 0 < 2 ^ (f_mant F + 1)) by (apply pow_pos; lia). destruct (0 <? 2 ^ (f_mant F + 1)) eqn:E; [|lia].
  rewrite N.pow_0_r, N.mul_1_r. rewrite N.div_small, N.mod_small by lia. destruct (2 * p <? q) eqn:E2; lia.
Qed.

(** ** Decimal digits *)
Definition digits (t : bytes) : Prop := Forall digit t.
Lemma all_digits_ok : forall t, all_digits t = true <-> t <> [] /\ digits t.
Proof.
  intro t. unfold all_digits, digits, digit. rewrite andb_true_iff, forallb_forall, Forall_forall. split.
  - intros [A B]. split; [destruct t; [discriminate|discriminate]|]. intros x I. specialize (B x I). lia.
  - intros [A B]. split; [destruct t; [contradiction|reflexivity]|]. intros x I. specialize (B x I). lia.
Qed.
Lemma dec_value_of : forall t, t <> [] -> digits t -> dec_value t = Some (dec_of t).
Proof. intros t N D. apply dec_value_digits. split; auto. now apply all_digits_ok. Qed.
Lemma dec_value_inv : forall t n, dec_value t = Some n -> t <> [] /\ digits t /\ dec_of t = n.
Proof. intros t n H. apply dec_value_digits in H. destruct H as [A B]. apply all_digits_ok in A. tauto. Qed.
Lemma dec_fold : forall t a, fold_left (fun a c => a * 10 + (c - 48)) t a = a * 10 ^ N.of_nat (length t) + dec_of t.
Proof.
  unfold dec_of. induction t as [|c t IH]; intro a; cbn [fold_left length].
  - rewrite N.pow_0_r. lia.
  - rewrite (IH (a * 10 + (c - 48))), (IH (0 * 10 + (c - 48))). rewrite Nat2N.inj_succ, N.pow_succ_r'. lia.
Qed.
Lemma dec_app : forall a b, dec_of (a ++ b) = dec_of a * 10 ^ N.of_nat (length b) + dec_of b.
Proof. intros a b. unfold dec_of at 1. rewrite fold_left_app. rewrite dec_fold. reflexivity. Qed.
Lemma dec_zeros : forall n, dec_of (zeros n) = 0.
Proof. induction n as [|n IH]; auto. Qed.
Lemma zeros_digits : forall n, digits (zeros n). Proof. intro n. apply Forall_forall. intros x I. apply repeat_spec in I. subst. unfold digit. lia. Qed.
Lemma zeros_len : forall n, length (zeros n) = n. Proof. intro. apply repeat_length. Qed.
Lemma dec_bound : forall t, digits t -> dec_of t < 10 ^ N.of_nat (length t).
Proof.
  intros t H. induction t as [|c t IH] using rev_ind; [reflexivity|]. apply Forall_app in H. destruct H as [Ht Hc]. rewrite dec_app, app_length. cbn [length]. rewrite Nat2N.inj_add, N.pow_add_r. change (10 ^ N.of_nat 1) with 10.
  inversion Hc; subst. unfold digit in *. assert (E : dec_of [c] = c - 48) by reflexivity. rewrite E. specialize (IH Ht). lia.
Qed.
Lemma cut_zeros_ok : forall t, exists k, t = cut_zeros t ++ zeros k /\ (cut_zeros t = [] \/ exists d c, cut_zeros t = d ++ [c] /\ c <> 48).
Proof.
  induction t as [|c t (k & E & H)]; [exists O; auto|]. cbn [cut_zeros]. destruct (cut_zeros t) as [|x r].
  - destruct (c =? 48) eqn:C.
    + exists (S k). split; auto. cbn in E. rewrite E. replace c with 48 by lia. reflexivity.
    + exists k. split; [cbn; f_equal; exact E|]. right. exists [], c. split; auto. lia.
  - exists k. split; [cbn; f_equal; exact E|]. right. destruct H as [H|(d & y & H & Ny)]; [discriminate|]. exists (c :: d), y. split; auto. cbn. now rewrite H.
Qed.
Lemma cut_zeros_zero : forall t, digits t -> dec_of t <> 0 -> cut_zeros t <> [].
Proof. intros t D N E. destruct (cut_zeros_ok t) as (k & H & _). rewrite E in H. cbn in H. rewrite H in N. apply N, dec_zeros. Qed.

(** ** The digits found read back *)
Section Shortest.
Variable F : format.
Hypothesis Ok : fmt_ok F.
Lemma try_ok : forall a d0 s n0 n x e, digits_try F a d0 s n0 n = Some (x, e) -> round_dec F x e = a.
Proof.
  intros a d0 s n0 n x e H. unfold digits_try in H. cbv zeta in H.
  destruct (_ =? a) eqn:A; destruct (_ =? a) eqn:B in H; try discriminate; injection H; intros; subst e x; try (destruct (_ || _)); lia.
Qed.
Lemma even_times_ok : forall p, exists q, N.pos p = q * 2 ^ even_times p.
Proof.
  induction p as [p _|p (q & IH)|]; [exists (N.pos p~1); cbn [even_times]; lia| |exists 1; reflexivity].
  exists q. cbn [even_times]. rewrite N.pow_succ_r'. change (N.pos p~0) with (2 * N.pos p). rewrite IH. lia.
Qed.
Lemma exact_dec_ok : forall a, let '(d0, s) := exact_dec F a in d0 * 2 ^ scale F = mag F a * 10 ^ s /\ s <= scale F /\ d0 <= mag F a * 5 ^ scale F.
Proof.
  intro a. unfold exact_dec. cbv zeta. set (m := mag F a). set (z0 := match m with 0 => 0 | Npos p => even_times p end). set (z := N.min z0 (scale F)).
  assert (D : exists q, m = q * 2 ^ z).
  { assert (D0 : exists q, m = q * 2 ^ z0). { subst z0. destruct m as [|p]; [exists 0; reflexivity|apply even_times_ok]. }
    destruct D0 as (q & E). exists (q * 2 ^ (z0 - z)). rewrite E at 1. rewrite <- N.mul_assoc, <- N.pow_add_r. do 2 f_equal. lia. }
  destruct D as (q & E). assert (P : 0 < 2 ^ z) by (apply pow_pos; lia). assert (Q : m / 2 ^ z = q) by (rewrite E; apply N.div_mul; lia). rewrite Q. split; [|split; [lia|]].
  - replace (2 ^ scale F) with (2 ^ z * 2 ^ (scale F - z)) by (rewrite <- N.pow_add_r; f_equal; lia). rewrite E. change 10 with (5 * 2). rewrite N.pow_mul_l. lia.
  - assert (5 ^ (scale F - z) <= 5 ^ scale F) by (apply N.pow_le_mono_r; lia). assert (q <= m) by nia. apply N.mul_le_mono; auto.
Qed.
Lemma search_ok : forall a d0 s fuel n0 n x e, d0 * 2 ^ scale F = mag F a * 10 ^ s -> digits_search F a d0 s n0 n fuel = (x, e) -> round_dec F x e = a.
Proof.
  intros a d0 s. induction fuel as [|fuel IH]; intros n0 n x e E H; cbn [digits_search] in H.
  - injection H; intros; subst. unfold round_dec. transitivity (round_mag F (mag F a * 10 ^ s) (10 ^ s)); [|apply (round_exact F Ok); apply pow_pos; lia].
    replace (Z.to_N (- Z.of_N s)) with 0 by lia. replace (Z.to_N (- - Z.of_N s)) with s by lia. f_equal. rewrite N.pow_0_r, N.mul_1_r. exact E.
  - destruct (digits_try F a d0 s n0 n) as [[y z]|] eqn:T; [injection H; intros; subst; eapply try_ok; eauto|eauto].
Qed.
Lemma shortest_ok : forall a x e, shortest F a = (x, e) -> round_dec F x e = a.
Proof. intros a x e H. unfold shortest in H. pose proof (exact_dec_ok a) as D. destruct (exact_dec F a) as [d0 s]. eapply search_ok; eauto. apply D. Qed.
Lemma round_dec_zero : forall e, round_dec F 0 e = 0.
Proof. intro e. unfold round_dec. rewrite !N.mul_0_l. apply round_zero; [apply den_pos|]. rewrite N.mul_0_r. apply den_pos. Qed.
End Shortest.

(** ** The text of digits *)
(** [denotes t neg d E]: the text is a JSON number, and as a decimal it is the number of the digits times 10^E *)
Definition denotes (t : bytes) (neg : bool) (n : N) (e : Z) : Prop :=
  jnumber t /\ exists r, decimal t neg r /\ (r == rat n * pow10 e)%Q.
Definition sgn (neg : bool) : bytes := if neg then [45] else [].
Lemma sgn_ok : forall neg, ((sgn neg = [] \/ sgn neg = [43]) /\ neg = false) \/ (sgn neg = [45] /\ neg = true).
Proof. intros []; cbn; auto. Qed.
Lemma sgn_json : forall neg, sgn neg = [] \/ sgn neg = [45]. Proof. intros []; auto. Qed.
Lemma jint_digits : forall c r, digits (c :: r) -> c <> 48 \/ r = [] -> jint (c :: r).
Proof. intros c r D H. inversion D; subst. unfold digit in *. destruct (N.eq_dec c 48) as [->|N]; [destruct H as [H|H]; [congruence|subst; now left]|]. right. exists c, r. repeat split; auto; lia. Qed.
(** the parts of a text *)
Lemma parts : forall neg i f e fd n x y, jint i -> digits i -> jfrac f -> fraction f fd -> digits fd -> jexp e -> exponent e x -> dec_of (i ++ fd) = n -> y = (x - Z.of_nat (length fd))%Z ->
  denotes (sgn neg ++ i ++ f ++ e) neg n y.
Proof.
  intros neg i f e fd n x y Ji Di Jf Hf Df Je He E ->. split.
  - exists (sgn neg), i, f, e. repeat split; auto. apply sgn_json.
  - exists (rat n * pow10 (x - Z.of_nat (length fd)))%Q. split; [|reflexivity]. eapply decimal_intro; eauto; [apply sgn_ok|]. rewrite dec_value_of; [now rewrite E| |].
    + destruct i; [|discriminate]. destruct Ji as [X|(? & ? & X & _)]; discriminate.
    + apply Forall_app. now split.
Qed.
Lemma denotes_value : forall t neg n e n' e', (rat n * pow10 e == rat n' * pow10 e')%Q -> denotes t neg n e -> denotes t neg n' e'.
Proof. intros t neg n e n' e' E (J & r & D & H). split; auto. exists r. split; auto. now rewrite H. Qed.
Lemma frac_ok : forall r, digits r -> let f := match r with [] => [] | _ => 46 :: r end in jfrac f /\ fraction f r.
Proof. intros [|c r] D; cbv zeta; split; [now left|now left|right; exists (c :: r); split; auto; split; auto; discriminate|now right]. Qed.
Lemma exp_len : forall n, n < 10 -> dec_of_N n = [48 + n].
Proof. intros n L. assert (C : n = 0 \/ n = 1 \/ n = 2 \/ n = 3 \/ n = 4 \/ n = 5 \/ n = 6 \/ n = 7 \/ n = 8 \/ n = 9) by lia. repeat destruct C as [->|C]; try reflexivity. now subst. Qed.
Lemma exp_len2 : forall n, 10 <= n -> (2 <= length (dec_of_N n))%nat.
Proof.
  intros n L. destruct (dec_of_N_ok n) as (A & _ & D & N). apply dec_value_inv in A. destruct A as (_ & _ & E). destruct (dec_of_N n) as [|a [|b r]] eqn:X; [contradiction| |cbn; lia].
  apply Forall_inv in D. unfold digit in *. cbn in E. lia.
Qed.
Lemma exp_head : forall n c r, 10 <= n -> dec_of_N n = c :: r -> c <> 48.
Proof.
  intros n c r L E. destruct (dec_of_N_ok n) as (_ & J & _). pose proof (exp_len2 n L) as L2. rewrite E in *. destruct J as [J|(d & r' & J & R & _)]; [injection J; intros; subst; cbn in L2; lia|]. injection J; intros; subst. lia.
Qed.
(** the exponent as FloatToJSON leaves it *)
Definition exp_text (x : Z) : bytes :=
  let ex := dec_of_N (Z.abs_N x) in
  if (x <? 0)%Z then [101; 45] ++ ex else [101; 43] ++ (if (length ex <? 2)%nat then 48 :: ex else ex).
Lemma exp_text_ok : forall x, jexp (exp_text x) /\ exponent (exp_text x) x.
Proof.
  intro x. unfold exp_text. destruct (dec_of_N_ok (Z.abs_N x)) as (A & _ & D & N). cbv zeta. set (ex := dec_of_N (Z.abs_N x)) in *. destruct (x <? 0)%Z eqn:S.
  - split; right.
    + exists 101, [45], ex. split; [reflexivity|]. split; [lia|]. split; [auto|]. split; auto.
    + exists 101, [45], ex, (Z.abs_N x). split; [reflexivity|]. split; [lia|]. split; auto. right. split; auto. lia.
  - assert (K : forall p, digits p -> p <> [] -> dec_of p = dec_of ex -> jexp ([101; 43] ++ p) /\ exponent ([101; 43] ++ p) x).
    { intros p Dp Np Ep. split; right.
      - exists 101, [43], p. split; [reflexivity|]. split; [lia|]. split; [auto|]. split; auto.
      - exists 101, [43], p, (Z.abs_N x). split; [reflexivity|]. split; [lia|]. split; [rewrite dec_value_of by auto; rewrite Ep; apply dec_value_inv in A; destruct A as (_ & _ & ->); reflexivity|]. left. split; auto. lia. }
    destruct (length ex <? 2)%nat; apply K; auto; [constructor; auto; unfold digit; lia|discriminate].
Qed.
Lemma clean_short : forall pre c, clean_exp (pre ++ [101; 45; 48; c]) = pre ++ [101; 45; c].
Proof.
  intros pre c. unfold clean_exp. cbv zeta. rewrite app_length. cbn [length]. replace (length pre + 4 - 4)%nat with (length pre) by lia. replace (length pre + 4 - 2)%nat with (length pre + 2)%nat by lia. replace (length pre + 4 - 1)%nat with (length pre + 3)%nat by lia.
  rewrite !skipn_app, !firstn_app. rewrite skipn_all, Nat.sub_diag. replace (length pre + 2 - length pre)%nat with 2%nat by lia. replace (length pre + 3 - length pre)%nat with 3%nat by lia.
  rewrite (firstn_all2 pre) by lia. rewrite (skipn_all2 pre) by lia. cbn [app skipn firstn length]. destruct ((4 <=? length pre + 4)%nat) eqn:E; [|lia]. cbn [andb]. change (beqb (firstn (3 - 0) [101; 45; 48; c]) (bs "e-0")) with (beqb [101; 45; 48] (bs "e-0")). change (beqb [101; 45; 48] (bs "e-0")) with true. cbn [skipn app]. rewrite <- app_assoc. reflexivity.
Qed.
Lemma clean_other : forall pre a b c d, (a <> 101 \/ b <> 45 \/ c <> 48) -> clean_exp (pre ++ [a; b; c; d]) = pre ++ [a; b; c; d].
Proof.
  intros pre a b c d H. unfold clean_exp. cbv zeta. rewrite app_length. cbn [length]. replace (length pre + 4 - 4)%nat with (length pre) by lia. rewrite skipn_app, skipn_all, Nat.sub_diag. cbn [app skipn firstn].
  assert (E : beqb [a; b; c] (bs "e-0") = false). { destruct (beqb [a; b; c] (bs "e-0")) eqn:E; auto. apply beqb_eq in E. injection E; intros; subst. destruct H as [H|[H|H]]; congruence. }
  rewrite E, andb_false_r. reflexivity.
Qed.
Lemma fmt_e_exp : forall d dp, d <> [] -> exists c r, d = c :: r /\ clean_exp (fmt_e d dp) = c :: (match r with [] => [] | _ => 46 :: r end) ++ exp_text (dp - 1) /\
  (exists sg, forall neg, clean_exp (sgn neg ++ fmt_e d dp) = sgn neg ++ sg /\ sg = c :: (match r with [] => [] | _ => 46 :: r end) ++ exp_text (dp - 1)).
Proof.
  intros [|c r] dp N; [contradiction|]. exists c, r. split; auto.
  assert (K : forall s, clean_exp (s ++ fmt_e (c :: r) dp) = s ++ c :: (match r with [] => [] | _ => 46 :: r end) ++ exp_text (dp - 1)).
  { intro s. unfold fmt_e, exp_text. cbv zeta. set (f := match r with [] => [] | _ => 46 :: r end). set (x := (dp - 1)%Z). destruct (N.lt_ge_cases (Z.abs_N x) 10) as [L|L].
    - rewrite (exp_len _ L). cbn [length Nat.ltb Nat.leb]. destruct (x <? 0)%Z.
      + replace (s ++ [c] ++ f ++ [101; 45] ++ [48; 48 + Z.abs_N x]) with ((s ++ [c] ++ f) ++ [101; 45; 48; 48 + Z.abs_N x]) by (rewrite <- !app_assoc; reflexivity). rewrite clean_short. rewrite <- !app_assoc. reflexivity.
      + replace (s ++ [c] ++ f ++ [101; 43] ++ [48; 48 + Z.abs_N x]) with ((s ++ [c] ++ f) ++ [101; 43; 48; 48 + Z.abs_N x]) by (rewrite <- !app_assoc; reflexivity). rewrite clean_other by (right; left; discriminate). rewrite <- !app_assoc. reflexivity.
    - pose proof (exp_len2 _ L) as L2. pose proof (exp_head (Z.abs_N x)) as Hd. destruct (dec_of_N_ok (Z.abs_N x)) as (_ & _ & D & _). set (ex := dec_of_N (Z.abs_N x)) in *. destruct (length ex <? 2)%nat eqn:E2; [lia|].
      set (sg := if (x <? 0)%Z then 45 else 43). assert (Es : sg = 45 \/ sg = 43) by (unfold sg; destruct (x <? 0)%Z; auto).
      assert (G : clean_exp (s ++ [c] ++ f ++ [101; sg] ++ ex) = s ++ [c] ++ f ++ [101; sg] ++ ex).
      { set (pre := s ++ [c] ++ f). replace (s ++ [c] ++ f ++ [101; sg] ++ ex) with (pre ++ [101; sg] ++ ex) by (unfold pre; rewrite <- !app_assoc; reflexivity).
        destruct (exists_last (l := ex)) as (e1 & d & Ed); [destruct ex; cbn in L2; [lia|discriminate]|]. destruct (exists_last (l := e1)) as (e2 & d2 & Ed2); [intros ->; rewrite Ed in L2; cbn in L2; lia|]. subst e1. rewrite Ed in *.
        destruct e2 as [|h t] using rev_ind.
        - cbn [app] in *. apply clean_other. right; right. eapply Hd; eauto.
        - clear IHt. assert (Dh : digit h). { apply Forall_app in D. destruct D as [D _]. apply Forall_app in D. destruct D as [D _]. apply Forall_app in D. destruct D as [_ D]. now inversion D. }
          destruct t as [|y t] using rev_ind.
          + replace (pre ++ [101; sg] ++ (([] ++ [h]) ++ [d2]) ++ [d]) with ((pre ++ [101]) ++ [sg; h; d2; d]) by (rewrite <- app_assoc; reflexivity). apply clean_other. left. destruct Es; lia.
          + clear IHt. assert (Dy : digit y). { apply Forall_app in D. destruct D as [D _]. apply Forall_app in D. destruct D as [D _]. apply Forall_app in D. destruct D as [D _]. apply Forall_app in D. destruct D as [_ D]. now inversion D. }
            replace (pre ++ [101; sg] ++ (((t ++ [y]) ++ [h]) ++ [d2]) ++ [d]) with ((pre ++ [101; sg] ++ t) ++ [y; h; d2; d]) by (rewrite <- !app_assoc; reflexivity). apply clean_other. left. unfold digit in Dy. lia. }
      rewrite G. unfold sg. destruct (x <? 0)%Z; reflexivity. }
  split; [exact (K [])|]. eexists. intro neg. split; [apply K|reflexivity].
Qed.
(** the form with an exponent *)
Lemma text_e : forall neg d dp, digits d -> d <> [] -> denotes (clean_exp (sgn neg ++ fmt_e d dp)) neg (dec_of d) (dp - Z.of_nat (length d)).
Proof.
  intros neg d dp D N. destruct (fmt_e_exp d dp N) as (c & r & -> & _ & sg & H). destruct (H neg) as [-> ->]. clear H.
  assert (Dr : digits r) by (inversion D; auto). destruct (frac_ok r Dr) as [Jf Hf]. destruct (exp_text_ok (dp - 1)) as [Je He].
  change (c :: (match r with [] => [] | _ => 46 :: r end) ++ exp_text (dp - 1)) with ([c] ++ (match r with [] => [] | _ => 46 :: r end) ++ exp_text (dp - 1)).
  eapply parts; eauto.
  - apply jint_digits; auto. constructor; [inversion D; auto|constructor].
  - constructor; [inversion D; auto|constructor].
  - cbn [length]. lia.
Qed.
(** the form without *)
Lemma text_f : forall neg d dp, digits d -> d <> [] -> hd 0 d <> 48 -> denotes (sgn neg ++ fmt_f d dp) neg (dec_of d) (dp - Z.of_nat (length d)).
Proof.
  intros neg d dp D N H0. unfold fmt_f. cbv zeta. destruct (0 <? dp)%Z eqn:P.
  - set (n := Z.to_nat dp). assert (Np : (1 <= n)%nat) by (unfold n; lia).
    assert (Ds : digits (skipn n d) /\ digits (firstn n d)). { rewrite <- (firstn_skipn n d) in D. apply Forall_app in D. tauto. } destruct Ds as [Ds Df].
    destruct (frac_ok (skipn n d) Ds) as [Jf Hf]. assert (Hi : jint (firstn n d ++ zeros (n - length d)) /\ digits (firstn n d ++ zeros (n - length d))).
    { split; [|apply Forall_app; split; auto; apply zeros_digits]. destruct d as [|c d]; [contradiction|]. destruct n as [|n]; [lia|]. cbn [firstn app]. cbn [hd] in H0. apply jint_digits; auto. cbn [firstn] in Df. change (c :: firstn n d ++ zeros (S n - length (c :: d))) with ((c :: firstn n d) ++ zeros (S n - length (c :: d))). apply Forall_app; split; auto. apply zeros_digits. }
    destruct Hi as [Ji Di].
    replace (firstn n d ++ zeros (n - length d) ++ match skipn n d with [] => [] | _ => 46 :: skipn n d end) with ((firstn n d ++ zeros (n - length d)) ++ (match skipn n d with [] => [] | _ => 46 :: skipn n d end) ++ []) by (rewrite app_nil_r, <- app_assoc; reflexivity).
    eapply (denotes_value _ neg (dec_of ((firstn n d ++ zeros (n - length d)) ++ skipn n d)) (- Z.of_nat (length (skipn n d)))).
    2: { eapply (parts neg _ _ [] (skipn n d) _ 0); eauto; [left; auto|left; auto]. }
    destruct (le_lt_dec (length d) n) as [L|L].
    + rewrite (firstn_all2 d L), (skipn_all2 d L), app_nil_r. cbn [length]. rewrite dec_app, dec_zeros, zeros_len, N.add_0_r. rewrite rat_mul, <- pow10_N. rewrite <- Qmult_assoc, <- pow10_add. replace (Z.of_N (N.of_nat (n - length d)) + - Z.of_nat 0)%Z with (dp - Z.of_nat (length d))%Z by lia. reflexivity.
    + replace (n - length d)%nat with O by lia. change (zeros 0) with (@nil BinNums.N). rewrite app_nil_r, firstn_skipn. rewrite skipn_length. replace (- Z.of_nat (length d - n))%Z with (dp - Z.of_nat (length d))%Z by lia. reflexivity.
  - destruct d as [|c d]; [contradiction|]. set (z := zeros (Z.to_nat (- dp))).
    assert (Dz : digits (z ++ c :: d)) by (apply Forall_app; split; auto; apply zeros_digits).
    replace ([48; 46] ++ z ++ c :: d) with ([48] ++ (46 :: z ++ c :: d) ++ []) by (rewrite app_nil_r; reflexivity).
    eapply (denotes_value _ neg (dec_of ([48] ++ z ++ c :: d)) (- Z.of_nat (length (z ++ c :: d)))).
    2: { eapply (parts neg [48] _ [] (z ++ c :: d) _ 0); eauto.
      - now left.
      - constructor; [unfold digit; lia|constructor].
      - right. eexists. split; [reflexivity|]. split; [destruct z; discriminate|auto].
      - now right.
      - now left.
      - now left. }
    replace (dec_of ([48] ++ z ++ c :: d)) with (dec_of (c :: d)). 2: { rewrite (dec_app [48]). rewrite (dec_app z). unfold z. rewrite dec_zeros. reflexivity. }
    rewrite app_length. unfold z at 1. rewrite zeros_len. replace (- Z.of_nat (Z.to_nat (- dp) + length (c :: d)))%Z with (dp - Z.of_nat (length (c :: d)))%Z by lia. reflexivity.
Qed.

(** ** The text of a number *)
Lemma first_digit : forall n, n <> 0 -> hd 0 (dec_of_N n) <> 48.
Proof.
  intros n H. destruct (dec_of_N_ok n) as (A & J & _). apply dec_value_inv in A. destruct A as (_ & _ & E). destruct J as [J|(d & r & J & R & _)]; rewrite J in *.
  - cbn in E. congruence.
  - cbn [hd]. lia.
Qed.
Lemma format_denotes : forall F neg a ef, fmt_ok F -> (ef = true -> a <> 0) -> exists n e, round_dec F n e = a /\
  denotes (let t := format_float F neg a ef in if ef then clean_exp t else t) neg n e.
Proof.
  intros F neg a ef Ok He. unfold format_float. cbv zeta. fold (sgn neg). destruct (a =? 0) eqn:Ea.
  - destruct ef; [exfalso; apply He; auto; lia|]. exists 0, 0%Z. rewrite round_dec_zero. split; [lia|]. cbn.
    eapply (parts neg [48] [] [] [] 0 0); eauto; try (left; auto); try constructor; try reflexivity; [unfold digit; lia|constructor].
  - destruct (shortest F a) as [n e] eqn:Es. pose proof (shortest_ok F Ok _ _ _ Es) as R. assert (Nz : n <> 0). { intros ->. rewrite round_dec_zero in R. lia. }
    exists n, e. split; auto. destruct (dec_of_N_ok n) as (A & _ & D & _). apply dec_value_inv in A. destruct A as (_ & _ & E). pose proof (first_digit n Nz) as Fd.
    destruct (cut_zeros_ok (dec_of_N n)) as (k & Ek & _). assert (Nc : cut_zeros (dec_of_N n) <> []) by (apply cut_zeros_zero; auto; congruence). set (d := cut_zeros (dec_of_N n)) in *.
    assert (Dd : digits d). { rewrite Ek in D. apply Forall_app in D. tauto. } assert (Hd : hd 0 d <> 48). { rewrite Ek in Fd. destruct d; [contradiction|exact Fd]. }
    assert (V : forall t, denotes t neg (dec_of d) (Z.of_nat (length (dec_of_N n)) + e - Z.of_nat (length d)) -> denotes t neg n e).
    { intro t. apply denotes_value. rewrite <- E at 2. rewrite Ek at 1 2. rewrite dec_app, dec_zeros, zeros_len, app_length, zeros_len, N.add_0_r. rewrite rat_mul, <- pow10_N, <- Qmult_assoc, <- pow10_add.
      replace (Z.of_nat (length d + k) + e - Z.of_nat (length d))%Z with (Z.of_N (N.of_nat k) + e)%Z by lia. reflexivity. }
    apply V. destruct ef; [now apply text_e|now apply text_f].
Qed.
Lemma sign_ok : forall F neg a, fmt_ok F -> a < inf_of F -> neg_of F (signed F neg a) = neg /\ abs_of F (signed F neg a) = a.
Proof.
  intros F neg a Ok L. pose proof (inf_lt_sign F Ok) as S. unfold neg_of, abs_of, signed. destruct neg.
  - split; [lia|]. replace (sign_bit F + a) with (a + 1 * sign_bit F) by lia. rewrite N.mod_add by lia. apply N.mod_small. lia.
  - cbn [N.add]. split; [lia|]. apply N.mod_small. lia.
Qed.
Lemma denotes_reads : forall F t neg n e, fmt_ok F -> denotes t neg n e -> round_dec F n e < inf_of F -> reads_as F t (signed F neg (round_dec F n e)).
Proof.
  intros F t neg n e Ok (_ & r & D & E) L. exists neg, r. split; auto. split.
  - intro T. apply (too_large_eq F r _ E) in T. apply round_dec_large in T; auto. lia.
  - eapply nearest_eq; [symmetry; exact E|]. now apply round_dec_nearest.
Qed.
Lemma json64 : forall b neg v, finite f64 b neg v -> jnumber (float_json true b) /\ reads_as f64 (float_json true b) b.
Proof.
  intros b neg v H. destruct (finite_mag f64 ok64 _ _ _ H) as (a & L & -> & _). destruct (sign_ok f64 neg a ok64 L) as [S1 S2]. unfold float_json. rewrite S1, S2. destruct (inf_of f64 <=? a) eqn:E; [lia|]. cbv zeta.
  destruct (format_denotes f64 neg a (e_form f64 a) ok64) as (n & e & R & D). { unfold e_form. destruct (a =? 0) eqn:Z; [discriminate|lia]. }
  split; [apply D|]. replace (signed f64 neg a) with (signed f64 neg (round_dec f64 n e)) by now rewrite R. apply denotes_reads; auto; [apply ok64|lia].
Qed.
Lemma scales : scale f64 - scale f32 = 925 /\ scale f32 = 149 /\ scale f64 = 1074. Proof. repeat split. Qed.
(** a float64 that is a float32 *)
Lemma narrow_exact : forall a a', a < inf_of f64 -> a' < inf_of f32 -> (rat (mag f64 a) * unit f64 == rat (mag f32 a') * unit f32)%Q -> narrow a = a'.
Proof.
  intros a a' L L' E. unfold narrow. destruct (inf_of f64 <? a) eqn:X; [lia|]. clear X.
  assert (U : (unit f32 == rat (2 ^ 925) * unit f64)%Q). { unfold unit. rewrite <- pow2_N, <- pow2_add. reflexivity. }
  rewrite U in E. assert (E' : mag f64 a = mag f32 a' * 2 ^ 925).
  { apply rat_inj. rewrite rat_mul. apply (Qmult_inj_r _ _ (unit f64)); [intro X; pose proof (unit_pos f64) as P; rewrite X in P; discriminate|]. rewrite E. ring. }
  rewrite (proj1 scales), E'. rewrite round_exact; [lia|apply ok32|apply pow_pos; lia].
Qed.
Lemma json32 : forall b b' neg v v', finite f64 b neg v -> finite f32 b' neg v' -> (v == v')%Q -> jnumber (float_json false b) /\ reads_as f32 (float_json false b) b'.
Proof.
  intros b b' neg v v' H H' V. destruct (finite_mag f64 ok64 _ _ _ H) as (a & L & -> & Ea). destruct (finite_mag f32 ok32 _ _ _ H') as (a' & L' & -> & Ea'). destruct (sign_ok f64 neg a ok64 L) as [S1 S2]. unfold float_json. rewrite S1, S2. destruct (inf_of f64 <=? a) eqn:E; [lia|]. cbv zeta.
  rewrite (narrow_exact a a' L L') by (rewrite <- Ea, <- Ea'; exact V).
  destruct (format_denotes f32 neg a' (e_form f32 a') ok32) as (n & e & R & D). { unfold e_form. destruct (a' =? 0) eqn:Z; [discriminate|lia]. }
  split; [apply D|]. replace (signed f32 neg a') with (signed f32 neg (round_dec f32 n e)) by now rewrite R. apply denotes_reads; auto; [apply ok32|lia].
Qed.
(** whatever the bits are, the text is a JSON number *)
Lemma json_number : forall is64 b, jnumber (float_json is64 b).
Proof.
  intros is64 b. unfold float_json. destruct (inf_of f64 <=? abs_of f64 b) eqn:E.
  - exists [], [48], [46; 48], []. repeat split; [now left|now left|right; exists [48]; split; [reflexivity|split; [discriminate|repeat constructor; discriminate]]|now left].
  - cbv zeta. destruct is64.
    + destruct (format_denotes f64 (neg_of f64 b) (abs_of f64 b) (e_form f64 (abs_of f64 b)) ok64) as (n & e & _ & D & _); auto. unfold e_form. destruct (abs_of f64 b =? 0) eqn:Z; [discriminate|lia].
    + set (a := narrow (abs_of f64 b)). destruct (format_denotes f32 (neg_of f64 b) a (e_form f32 a) ok32) as (n & e & _ & D & _); auto. unfold e_form. destruct (a =? 0) eqn:Z; [discriminate|lia].
Qed.
