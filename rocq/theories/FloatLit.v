(** * Floats: texts as literals of a query, and how long texts can be (proofs) *)
From Coq Require Import String Arith NArith ZArith QArith Qabs Qpower Bool List Lia Lqa.
From Coq Require Import ZifyBool ZifyNat ZifyN.
From Verif Require Import Base Json FloatSpec JsonModel JsonProof Ast Grammar ReqModel Schema ResModel EnvModel Samples DocRun Spec SpecLit ArgRun PropArgs FloatModel FloatProof FloatText FloatRead.
Import ListNotations.
Open Scope N_scope.

(** ** A text denotes one number *)
Lemma sign_fun : forall s b s' b' : bytes, (s = [] \/ s = [43] \/ s = [45]) -> (s' = [] \/ s' = [43] \/ s' = [45]) -> match b with [] => False | c :: _ => c <> 45 /\ c <> 43 end ->
  match b' with [] => False | c :: _ => c <> 45 /\ c <> 43 end -> s ++ b = s' ++ b' -> s = s' /\ b = b'.
Proof.
  intros s b s' b' H H' D D' E. destruct b as [|c b]; [contradiction|]. destruct b' as [|c' b']; [contradiction|].
  destruct H as [->|[->| ->]]; destruct H' as [->|[->| ->]]; cbn [app] in E; injection E; intros; subst; auto; exfalso; lia.
Qed.
Lemma exponent_fun : forall t x x', exponent t x -> exponent t x' -> x = x'.
Proof.
  intros t x x' [[-> ->]|(e & s & d & n & -> & He & Dv & Hs)] [[E ->]|(e' & s' & d' & n' & E & He' & Dv' & Hs')]; try discriminate; auto.
  injection E. intros E1 _. pose proof (dec_value_inv _ _ Dv) as (Nd & D & _). pose proof (dec_value_inv _ _ Dv') as (Nd' & D' & _).
  destruct (sign_fun s d s' d') as [-> ->]; auto; try tauto.
  - destruct d as [|c d]; [contradiction|]. inversion D; subst. unfold digit in *. lia.
  - destruct d' as [|c d']; [contradiction|]. inversion D'; subst. unfold digit in *. lia.
  - assert (n = n') by congruence. subst. destruct Hs as [[[->| ->] ->]|[-> ->]]; destruct Hs' as [[[X|X] ->]|[X ->]]; congruence.
Qed.
Lemma decimal_fun : forall t neg r neg' r', decimal t neg r -> decimal t neg' r' -> neg = neg' /\ (r == r')%Q.
Proof.
  intros t neg r neg' r' [s i f fd e ng n x Hs Hf He Dv] H'. remember (s ++ i ++ f ++ e) as u eqn:Eu. destruct H' as [s' i' f' fd' e' ng' n' x' Hs' Hf' He' Dv'].
  assert (B : forall i f fd e x n, fraction f fd -> exponent e x -> dec_value (i ++ fd) = Some n -> digits i /\ digits fd /\ match i ++ f ++ e with [] => False | c :: _ => c <> 45 /\ c <> 43 end /\ take_digits (i ++ f ++ e) = (i, f ++ e) /\ dot_of (f ++ e) take_digits = (fd, e)).
  { clear. intros i f fd e x n Hf He Dv. apply dec_value_inv in Dv. destruct Dv as (Nn & D & _). assert (Di : digits i /\ digits fd) by (apply Forall_app; auto). destruct Di as [Di Df]. split; auto. split; auto. pose proof (exponent_ends _ _ He) as Ee. split; [|split].
    - destruct i as [|c i]; [|inversion Di; subst; cbn; unfold digit in *; lia]. destruct Hf as [[-> ->]| ->]; [contradiction|cbn; lia].
    - apply take_app; auto. destruct Hf as [[-> ->]| ->]; [exact Ee|]. cbn. unfold digit. lia.
    - destruct Hf as [[-> ->]| ->]; cbn [app].
      + destruct e as [|c q]; auto. unfold dot_of; destruct (c =? 46) eqn:X; auto. exfalso. destruct He as [[X' _]|(e0 & ? & ? & ? & X' & He & _)]; [discriminate|]. injection X'; intros; subst. lia.
      + unfold dot_of. change (46 =? 46) with true. cbv iota. now apply take_app. }
  destruct (B _ _ _ _ _ _ Hf He Dv) as (_ & _ & D1 & T1 & U1). destruct (B _ _ _ _ _ _ Hf' He' Dv') as (_ & _ & D2 & T2 & U2).
  destruct (sign_fun s (i ++ f ++ e) s' (i' ++ f' ++ e')) as [Es Eb]; auto; try tauto. subst s'. rewrite <- Eb in T2. rewrite T1 in T2. injection T2. intros Ef Ei. subst i'. rewrite <- Ef in U2. rewrite U1 in U2. injection U2. intros; subst fd' e'.
  pose proof (exponent_fun _ _ _ He He'). assert (n = n') by congruence. subst. split; [|reflexivity]. destruct Hs as [[[->| ->] ->]|[-> ->]]; destruct Hs' as [[[X|X] ->]|[X ->]]; congruence.
Qed.
Lemma reads_as_unique : forall F t b b', fmt_ok F -> reads_as F t b -> reads_as F t b' -> b = b'.
Proof.
  intros F t b b' Ok (neg & r & D & _ & N1) (neg' & r' & D' & _ & N2). destruct (decimal_fun _ _ _ _ _ D D') as [-> E]. eapply nearest_unique; eauto. eapply nearest_eq; [symmetry; exact E|exact N2].
Qed.

Lemma int_value_pos : forall c i, digit c -> int_value (c :: i) = option_map Z.of_N (dec_value (c :: i)).
Proof. intros c i D. unfold digit in D. unfold int_value. destruct c as [|p]; auto. do 6 (try (destruct p as [p|p|]; auto)). lia. Qed.
(** ** The text of a JSON number as a literal *)
(** integers: nothing but a sign and digits *)
Lemma number_text : forall t neg r, jnumber t -> decimal t neg r -> N.of_nat (length t) < 3000000000 -> exists v, g_value v (t ++ bs ")}") (bs ")}") /\ nf_value v /\ N.of_nat (length (enc_value v)) < 4000000000 /\
  ((exists z, v = VInt t /\ int_value t = Some z /\ (r == inject_Z (Z.abs z))%Q /\ (z <> 0%Z -> neg = (z <? 0)%Z)) \/
   (exists t' r', v = VFloat t' /\ int_value t = None /\ decimal t' neg r' /\ (r == r')%Q /\ (length t' <= length t)%nat)).
Proof.
  intros t neg r (s & i & f & e & Et & Hs & Ji & Jf & Je) D Len.
  assert (Di : digits i /\ i <> []). { destruct Ji as [->|(c & q & -> & R & F)]; split; try discriminate; [repeat constructor; unfold digit; lia|]. constructor; auto. unfold digit. lia. }
  destruct Di as [Di Ni].
  assert (St : forall d, digits d -> strip_und d = d).
  { clear. intros d H. induction H as [|c d Hc H IH]; [reflexivity|]. cbn. unfold digit in Hc. destruct (c =? 95) eqn:E; [lia|]. cbn. f_equal. exact IH. }
  assert (Run : forall d, digits d -> digit_run d). { clear. intros d H. unfold digit_run. eapply Forall_impl; [|exact H]. unfold digit, is_digit. auto. }
  assert (Gs : g_sign s s) by (destruct Hs as [->| ->]; constructor).
  assert (Start : exists c q, t = c :: q /\ num_start c).
  { destruct Hs as [->| ->]; [|exists 45; eexists; split; [exact Et|left; reflexivity]]. destruct i as [|c i]; [contradiction|]. inversion Di; subst. exists c. eexists. split; [reflexivity|]. right; right; right; auto. }
  destruct Start as (c0 & q0 & E0 & S0).
  assert (Go : forall v, g_number v (t ++ bs ")}") (bs ")}") -> g_value v (t ++ bs ")}") (bs ")}")).
  { intros v G. rewrite E0 in *. eapply gv_num; [cbn [app]; apply ign_self; unfold num_start, is_digit in S0; cbn [In]; lia|exact S0|exact G]. }
  assert (Stop : num_stop 41) by (left; cbn; tauto).
  assert (Df : exists fd, fraction f fd /\ digits fd). { destruct Jf as [->|(q & -> & _ & F)]; [exists []; split; [now left|constructor]|exists q; split; [now right|exact F]]. }
  destruct Df as (fd & Hf & Dfd).
  assert (Ex : exists e' x, g_exp e e' /\ exponent e x /\ exponent e' x /\ (length e' <= length e)%nat).
  { destruct Je as [->|(a & sg & d & -> & Ha & Hsg & Nd & Dd)]; [exists [], 0%Z; repeat split; now left|].
    destruct Hsg as [->|[->| ->]].
    - exists (69 :: [] ++ strip_und d). eexists. split; [apply g_exp_some; auto; constructor|]. rewrite St by auto. split; [right; exists a, [], d, (dec_of d); split; [reflexivity|]; split; [auto|]; split; [now apply dec_value_of|left; split; [now left|reflexivity]]|].
      split; [|cbn; lia]. right. exists 69, [], d, (dec_of d). split; [reflexivity|]. split; [auto|]. split; [now apply dec_value_of|]. left. split; [now left|reflexivity].
    - exists (69 :: [] ++ strip_und d). eexists. split; [apply (g_exp_some a [43] []); auto; constructor|]. rewrite St by auto. split; [right; exists a, [43], d, (dec_of d); split; [reflexivity|]; split; [auto|]; split; [now apply dec_value_of|left; split; [now right|reflexivity]]|].
      split; [|cbn; lia]. right. exists 69, [], d, (dec_of d). split; [reflexivity|]. split; [auto|]. split; [now apply dec_value_of|]. left. split; [now left|reflexivity].
    - exists (69 :: [45] ++ strip_und d). eexists. split; [apply g_exp_some; auto; constructor|]. rewrite St by auto. split; [right; exists a, [45], d, (dec_of d); split; [reflexivity|]; split; [auto|]; split; [now apply dec_value_of|right; split; [reflexivity|reflexivity]]|].
      split; [|cbn; lia]. right. exists 69, [45], d, (dec_of d). split; [reflexivity|]. split; [auto|]. split; [now apply dec_value_of|]. right. split; reflexivity. }
  destruct Ex as (e' & x & Ge & He & He' & Le).
  assert (Sg : ((s = [] \/ s = [43]) /\ neg = false) \/ (s = [45] /\ neg = true) -> True) by auto. clear Sg.
  set (ng := match s with [] => false | _ => true end).
  assert (Hng : ((s = [] \/ s = [43]) /\ ng = false) \/ (s = [45] /\ ng = true)) by (destruct Hs as [->| ->]; cbn; auto).
  assert (Dv : dec_value (i ++ fd) = Some (dec_of (i ++ fd))) by (apply dec_value_of; [destruct i; [contradiction|discriminate]|apply Forall_app; auto]).
  set (r0 := (rat (dec_of (i ++ fd)) * pow10 (x - Z.of_nat (length fd)))%Q).
  assert (D0 : decimal t ng r0) by (rewrite Et; eapply decimal_intro; eauto).
  destruct (decimal_fun _ _ _ _ _ D D0) as [En Er].
  assert (Dt' : decimal (s ++ i ++ f ++ e') neg r0) by (rewrite En; eapply decimal_intro; eauto).
  assert (Iv : f ++ e <> [] -> int_value t = None).
  { intro Nf. assert (Dn : dec_value (i ++ f ++ e) = None).
    { destruct (dec_value (i ++ f ++ e)) as [m|] eqn:Dm; auto. exfalso. apply dec_value_inv in Dm. destruct Dm as (_ & Dm & _). apply Forall_app in Dm. destruct Dm as [_ Dm].
      destruct Hf as [[-> ->]| ->]; [|inversion Dm; subst; unfold digit in *; lia]. cbn [app] in *. pose proof (exponent_ends _ _ He) as Ee. destruct e; [contradiction|]. inversion Dm; subst. contradiction. }
    destruct Hs as [->| ->]; rewrite Et; cbn [app]; [|cbn [int_value]; now rewrite Dn]. destruct i as [|c i]; [contradiction|]. inversion Di; subst. cbn [app] in *. rewrite int_value_pos by auto. now rewrite Dn. }
  destruct f as [|cf ff].
  - destruct Hf as [[_ ->]|X]; [|discriminate]. destruct e as [|ce ee].
    + cbn [app] in *. rewrite app_nil_r in *. exists (VInt t). pose proof (dec_value_of i Ni Di) as Dvi.
      assert (V : exists z, int_value t = Some z /\ Z.abs z = Z.of_N (dec_of i) /\ (z <> 0%Z -> neg = (z <? 0)%Z)).
      { rewrite En. destruct Hs as [->| ->]; rewrite Et; cbn [app].
        - exists (Z.of_N (dec_of i)). split; [|split; [lia|change ng with false; lia]]. destruct i as [|c i]; [contradiction|]. inversion Di; subst. rewrite int_value_pos by auto. now rewrite Dvi.
        - exists (- Z.of_N (dec_of i))%Z. cbn [int_value]. rewrite Dvi. split; [reflexivity|]. split; [lia|]. change ng with true. lia. }
      destruct V as (z & V1 & V2 & V3). split; [|split; [exact Logic.I|split; [cbn [enc_value]; unfold enc_tagged, le32; rewrite ?app_length; cbn [length]; lia|]]].
      * apply Go. rewrite Et. rewrite <- app_assoc. rewrite <- (St i Di) at 1. change (bs ")}") with (41 :: [125]). apply g_number_int; auto.
      * left. exists z. split; auto. split; auto. split; [|exact V3]. rewrite Er. unfold r0. rewrite V2, ?app_nil_r. destruct He as [[_ ->]|(? & ? & ? & ? & X & _)]; [|discriminate]. cbn [length]. change (0 - Z.of_nat 0)%Z with 0%Z. unfold pow10, rat. cbn [Qpower]. ring.
    + exists (VFloat (s ++ i ++ e')). cbn [app] in *. split; [|split; [exact Logic.I|split]].
      * apply Go. rewrite Et. rewrite <- !app_assoc. change (bs ")}") with (41 :: [125]). replace (s ++ i ++ e') with (s ++ strip_und i ++ e') by now rewrite St. apply g_number_exp; auto. discriminate.
      * cbn [enc_value]. unfold enc_tagged, le32. rewrite ?app_length. cbn [length]. rewrite Et, !app_length in Len. cbn [length] in *. lia.
      * right. exists (s ++ i ++ e'), r0. split; auto. split; [apply Iv; discriminate|]. split; auto. split; auto. rewrite Et, !app_length. lia.
  - destruct Hf as [[X _]|X]; [discriminate|]. injection X; intros; subst cf ff. exists (VFloat (s ++ i ++ 46 :: fd ++ e')). split; [|split; [exact Logic.I|split]].
    + apply Go. rewrite Et. rewrite <- !app_assoc. cbn [app]. rewrite <- ?app_assoc. change (bs ")}") with (41 :: [125]). replace (s ++ i ++ 46 :: fd ++ e') with (s ++ strip_und i ++ cDOT :: strip_und fd ++ e') by now rewrite !St. apply g_number_float; auto.
    + cbn [enc_value]. unfold enc_tagged, le32. rewrite ?app_length. cbn [length]. rewrite Et in Len. rewrite ?app_length in *. cbn [length] in *. rewrite ?app_length in *. lia.
    + right. exists (s ++ i ++ 46 :: fd ++ e'), r0. split; auto. split; [apply Iv; discriminate|]. split; auto. split; auto. rewrite Et, !app_length. cbn [length]. rewrite !app_length. lia.
Qed.

(** ** Texts of floats are short *)
Lemma dec_len : forall n k, n < 10 ^ N.of_nat k -> (0 < k)%nat -> (length (dec_of_N n) <= k)%nat.
Proof.
  intros n k L K. destruct (dec_of_N_ok n) as (A & J & D & _). apply dec_value_inv in A. destruct A as (_ & _ & E). destruct J as [J|(d & r & J & R & Dr)]; rewrite J in *; [cbn; lia|].
  change (d :: r) with ([d] ++ r) in E. rewrite dec_app in E. unfold dec_of at 1 in E. cbn [fold_left] in E. destruct (Nat.le_gt_cases (length (d :: r)) k) as [|G]; auto. exfalso. cbn [length] in G.
  assert (P : 10 ^ N.of_nat k <= 10 ^ N.of_nat (length r)) by (apply N.pow_le_mono_r; lia). assert (1 <= 0 * 10 + (d - 48)) by lia. nia.
Qed.
Lemma cut_len : forall t, (length (cut_zeros t) <= length t)%nat.
Proof. intro t. destruct (cut_zeros_ok t) as (k & E & _). rewrite E at 2. rewrite app_length. lia. Qed.
Lemma search_small : forall F a d0 s n0 fuel n x e, digits_search F a d0 s n0 n fuel = (x, e) -> x <= d0 + 1 /\ (- Z.of_N s <= e <= Z.of_N n0)%Z.
Proof.
  intros F a d0 s n0. induction fuel as [|fuel IH]; intros n x e H; cbn [digits_search] in H; [injection H; intros; subst; lia|].
  destruct (digits_try F a d0 s n0 n) as [[x' e']|] eqn:T; [|eapply IH; eauto]. injection H; intros; subst x' e'. unfold digits_try in T.
  assert (C : 1 <= 10 ^ (n0 - n)) by (pose proof (pow_pos 10 (n0 - n)); lia). assert (Q : d0 / 10 ^ (n0 - n) <= d0) by (apply N.div_le_upper_bound; nia).
  cbv zeta in T. destruct (_ =? a); destruct (_ =? a); try discriminate; injection T; intros <- <-; [destruct (_ || _)| |]; lia.
Qed.
Lemma mag_small : forall a, a < inf_of f64 -> mag f64 a * 5 ^ scale f64 + 1 < 10 ^ 1400.
Proof.
  intros a L. pose proof (mag_mono f64 _ _ L) as M. eapply N.lt_le_trans with (m := mag f64 (inf_of f64) * 5 ^ scale f64 + 1); [pose proof (pow_pos 5 (scale f64)); nia|]. vm_compute. discriminate.
Qed.
Lemma fmt_f_len : forall d dp k, (length d <= k)%nat -> (- Z.of_nat k <= dp <= Z.of_nat k)%Z -> (length (fmt_f d dp) <= 3 * k + 3)%nat.
Proof.
  intros d dp k L B. unfold fmt_f. destruct (0 <? dp)%Z eqn:E.
  - pose proof (firstn_skipn (Z.to_nat dp) d) as S. apply (f_equal (@length _)) in S. rewrite app_length in S. rewrite !app_length, zeros_len. destruct (skipn (Z.to_nat dp) d); cbn [length] in *; lia.
  - destruct d; [cbn; lia|]. rewrite !app_length, zeros_len. cbn [length] in *. lia.
Qed.
Lemma fmt_e_len : forall d dp k, (length d <= k)%nat -> (- Z.of_nat k <= dp <= Z.of_nat k)%Z -> (0 < k <= 5000)%nat -> (length (fmt_e d dp) <= k + 10)%nat.
Proof.
  intros d dp k L B K. unfold fmt_e. destruct d as [|c r].
  - cbn. lia.
  - assert (Le : (length (dec_of_N (Z.abs_N (dp - 1))) <= 4)%nat) by (apply dec_len; [change (10 ^ N.of_nat 4) with 10000; lia|lia]).
    rewrite !app_length. destruct (length (dec_of_N (Z.abs_N (dp - 1))) <? 2)%nat; destruct r; cbn [length] in *; lia.
Qed.
Lemma clean_len : forall t, (length (clean_exp t) <= length t)%nat.
Proof. intro t. unfold clean_exp. destruct (_ && _); auto. rewrite app_length, firstn_length, skipn_length. lia. Qed.
Lemma json_short : forall b, N.of_nat (length (float_json true b)) <= 9000.
Proof.
  intro b. unfold float_json. destruct (inf_of f64 <=? abs_of f64 b) eqn:E; [cbn; lia|]. cbv zeta. set (a := abs_of f64 b) in *. set (ef := e_form f64 a).
  assert (Q : N.of_nat (length (format_float f64 (neg_of f64 b) a ef)) <= 8900).
  { unfold format_float. destruct (a =? 0) eqn:Z0.
    - assert (Z1 : a = 0) by lia. unfold ef. rewrite Z1. change (e_form f64 0) with false. cbv iota. rewrite app_length. cbn. destruct (neg_of f64 b); cbn; lia.
    - destruct (shortest f64 a) as [n e] eqn:S. unfold shortest in S. pose proof (exact_dec_ok f64 a) as Ex. destruct (exact_dec f64 a) as [d0 sc]. destruct Ex as (_ & Sc & Sd). apply search_small in S. destruct S as [Sn Se]. assert (L : a < inf_of f64) by lia. pose proof (mag_small a L) as M.
      assert (Sd1 : d0 + 1 < 10 ^ 1400) by (eapply N.le_lt_trans; [|exact M]; apply N.add_le_mono_r; exact Sd). clear M Sd.
      assert (D0 : (length (dec_of_N d0) <= 1400)%nat) by (apply dec_len; [change (N.of_nat 1400) with 1400; eapply N.lt_trans; [|exact Sd1]; rewrite N.add_1_r; apply N.lt_succ_diag_r|lia]).
      assert (D1 : (length (dec_of_N n) <= 1400)%nat) by (apply dec_len; [change (N.of_nat 1400) with 1400; eapply N.le_lt_trans; [exact Sn|exact Sd1]|lia]). pose proof (cut_len (dec_of_N n)) as Cl. change (scale f64) with 1074 in Sc. clear Sd1 Sn.
      rewrite app_length. assert (B : (- Z.of_nat 2800 <= Z.of_nat (length (dec_of_N n)) + e <= Z.of_nat 2800)%Z) by lia.
      pose proof (fmt_f_len (cut_zeros (dec_of_N n)) _ 2800 ltac:(lia) B). pose proof (fmt_e_len (cut_zeros (dec_of_N n)) _ 2800 ltac:(lia) B ltac:(lia)). destruct (neg_of f64 b); destruct ef; cbn [length]; lia. }
  destruct ef; [pose proof (clean_len (format_float f64 (neg_of f64 b) a true))|]; lia.
Qed.
