(** * Properties of the encoders of strings and times (C31, C34) *)
From Coq Require Import String Arith NArith ZArith Bool Lia ZifyBool ZifyN ZifyNat List.
From Verif Require Import Base Json JsonModel JsonProof.
Import ListNotations.
Open Scope N_scope.
Ltac Zify.zify_post_hook ::= Z.div_mod_to_equations.

(** ** C31: strings *)
(** the output is a JSON string literal, and what it denotes is the text of the Go string *)
Theorem C31_string_is_encoded_faithfully : forall s,
  exists text, codepoints s text /\ jstring text (string_to_json s) /\
    (forall text', codepoints s text' -> text' = text) /\
    (forall text', jstring text' (string_to_json s) -> text' = text).
Proof.
  intros s. destruct (string_to_json_ok s) as (l & A & B). exists l. repeat split; auto.
  - intros; eapply codepoints_fun; eauto.
  - intros; eapply jstring_fun; eauto.
Qed.
Print Assumptions C31_string_is_encoded_faithfully.

Theorem C31_no_control_characters : forall s, Forall (fun b => 32 <= b) (string_to_json s).
Proof.
  intros s. destruct (string_to_json_ok s) as (l & _ & u & -> & J). apply jchars_no_control in J.
  constructor; [lia|]. apply Forall_app. split; auto. repeat constructor; lia.
Qed.
Print Assumptions C31_no_control_characters.

(** two Go strings with the same text get the same literal up to escapes; strings with
    different text never get the same literal *)
Theorem C31_no_confusion : forall s1 s2 t1 t2, codepoints s1 t1 -> codepoints s2 t2 ->
  string_to_json s1 = string_to_json s2 -> t1 = t2.
Proof.
  intros s1 s2 t1 t2 C1 C2 E. destruct (C31_string_is_encoded_faithfully s1) as (u1 & A1 & B1 & F1 & _).
  destruct (C31_string_is_encoded_faithfully s2) as (u2 & A2 & B2 & F2 & _).
  rewrite (F1 _ C1), (F2 _ C2). rewrite E in B1. eapply jstring_fun; eauto.
Qed.
Print Assumptions C31_no_confusion.

(** a, a quote, a tilde, U+2028, an invalid byte, a line feed, e with acute accent, an emoji *)
Definition sample := bs "a""~" ++ [226; 128; 168; 255; 10; 195; 169; 240; 159; 152; 128].
Example C31_case : 
  codepoints sample [97; 34; 126; 8232; 65533; 10; 233; 128512] /\
  string_to_json sample = [34; 97] ++ (92 :: bs """") ++ (92 :: bs "u007e") ++ (92 :: bs "u2028") ++ (92 :: bs "ufffd") ++ (92 :: bs "n") ++ [195; 169; 240; 159; 152; 128; 34].
Proof.
  split; [|vm_compute; reflexivity].
  destruct (string_to_json_ok sample) as (l & A & B).
  change sample with (utf8_encode 97 ++ utf8_encode 34 ++ utf8_encode 126 ++ utf8_encode 8232 ++
    255 :: utf8_encode 10 ++ utf8_encode 233 ++ utf8_encode 128512 ++ []).
  repeat (apply cp_char; [unfold scalar; lia|]). apply cp_bad.
  - intros c r Hc E. pose proof (decode_encode c r Hc) as D. rewrite <- E in D. cbn in D. injection D as D1 D2. subst c. discriminate.
  - repeat (apply cp_char; [unfold scalar; lia|]). constructor.
Qed.

(** ** C34: times *)
(** days from 1970-01-01 in the Gregorian calendar *)
Definition days_from_civil (y m d : Z) : Z :=
  let y := if (m <=? 2)%Z then (y - 1)%Z else y in
  let era := (y / 400)%Z in
  let yoe := (y - era * 400)%Z in
  let mp := ((m + 9) mod 12)%Z in
  let doy := ((153 * mp + 2) / 5 + d - 1)%Z in
  let doe := (yoe * 365 + yoe / 4 - yoe / 100 + doy)%Z in
  (era * 146097 + doe - 719468)%Z.
(** nanoseconds since 1970-01-01T00:00:00Z *)
Definition instant (t : gtime) : Z :=
  ((days_from_civil (t_year t) (Z.of_N (t_month t)) (Z.of_N (t_day t)) * 86400
    + Z.of_N (t_hour t) * 3600 + Z.of_N (t_min t) * 60 + Z.of_N (t_sec t) - t_off t) * 1000000000 + Z.of_N (t_nano t))%Z.
(** the lengths of the months *)
Definition leap_year (y : Z) : bool := (if y mod 400 =? 0 then true else if y mod 100 =? 0 then false else y mod 4 =? 0)%Z.
Definition month_days (y : Z) (m : N) : N :=
  nth (N.to_nat m) [0; 31; if leap_year y then 29 else 28; 31; 30; 31; 30; 31; 31; 30; 31; 30; 31] 0.
Definition valid_time (t : gtime) : Prop :=
  1 <= t_month t <= 12 /\ 1 <= t_day t <= month_days (t_year t) (t_month t) /\
  t_hour t < 24 /\ t_min t < 60 /\ t_sec t < 60 /\ t_nano t < 1000000000.
Lemma month_days_ok : forall y m, (0 <= y)%Z -> 1 <= m <= 12 -> month_days y m = days_in m (Z.to_N y).
Proof.
  intros y m Hy Hm.
  assert (L : leap_year y = is_leap (Z.to_N y)).
  { unfold leap_year, is_leap. replace (Z.to_N y mod 4 =? 0) with (y mod 4 =? 0)%Z by lia.
    replace (Z.to_N y mod 100 =? 0) with (y mod 100 =? 0)%Z by lia. replace (Z.to_N y mod 400 =? 0) with (y mod 400 =? 0)%Z by lia.
    destruct (y mod 400 =? 0)%Z eqn:A, (y mod 100 =? 0)%Z eqn:B, (y mod 4 =? 0)%Z eqn:C; try reflexivity; lia. }
  unfold month_days, days_in. rewrite L. generalize (is_leap (Z.to_N y)) as b. intro b.
  assert (C : m = 1 \/ m = 2 \/ m = 3 \/ m = 4 \/ m = 5 \/ m = 6 \/ m = 7 \/ m = 8 \/ m = 9 \/ m = 10 \/ m = 11 \/ m = 12) by lia.
  clear L Hm. repeat (destruct C as [->|C]; [destruct b; reflexivity|]). rewrite C. destruct b; reflexivity.
Qed.
Definition to_millisecond (i : Z) : Z := (i / 1000000 * 1000000)%Z.

(** what is read back is the instant shifted by the offset of the location the time was in *)
Theorem C34_shift_by_offset : forall t, valid_time t -> (0 <= t_year t <= 9999)%Z ->
  exists t', parse_iso (time_to_iso t) = Some t' /\
    instant t' = (to_millisecond (instant t) + t_off t * 1000000000)%Z.
Proof.
  intros [y mo d h mi s ns off] (V1 & V2 & V3 & V4 & V5 & V6) Hy. cbn [t_year t_month t_day t_hour t_min t_sec t_nano t_off] in *.
  exists (GTime y mo d h mi s (ns / 1000000 * 1000000) 0). split.
  - replace y with (Z.of_N (Z.to_N y)) by lia. apply parse_format; rewrite ?N2Z.id; auto; [lia|]. rewrite month_days_ok in V2 by lia. exact V2.
  - unfold instant, to_millisecond. cbn [t_year t_month t_day t_hour t_min t_sec t_nano t_off].
    generalize (days_from_civil y (Z.of_N mo) (Z.of_N d)) as D. intros D.
    set (S0 := (D * 86400 + Z.of_N h * 3600 + Z.of_N mi * 60 + Z.of_N s)%Z).
    rewrite N2Z.inj_mul, N2Z.inj_div. change (Z.of_N 1000000) with 1000000%Z.
    set (n := Z.of_N ns). replace ((S0 - off) * 1000000000 + n)%Z with (((S0 - off) * 1000) * 1000000 + n)%Z by lia.
    rewrite Z.div_add_l by lia. lia.
Qed.
Print Assumptions C34_shift_by_offset.

(** the claim for times in UTC (or another location without offset) *)
Theorem C34_utc_times_round_trip : forall t, valid_time t -> (0 <= t_year t <= 9999)%Z -> t_off t = 0%Z ->
  exists t', parse_iso (time_to_iso t) = Some t' /\ instant t' = to_millisecond (instant t).
Proof.
  intros t V Y O. destruct (C34_shift_by_offset t V Y) as (t' & A & B). exists t'. split; auto.
  rewrite B, O. lia.
Qed.
Print Assumptions C34_utc_times_round_trip.

(** false for all other locations ... *)
Theorem C34_other_offsets_refuted : forall t, valid_time t -> (0 <= t_year t <= 9999)%Z -> t_off t <> 0%Z ->
  exists t', parse_iso (time_to_iso t) = Some t' /\ instant t' <> to_millisecond (instant t).
Proof.
  intros t V Y O. destruct (C34_shift_by_offset t V Y) as (t' & A & B). exists t'. split; auto. lia.
Qed.
Print Assumptions C34_other_offsets_refuted.

(** ... and a time from the year 10000 on cannot be read back *)
Theorem C34_year_10000_refuted : exists t, valid_time t /\ t_off t = 0%Z /\ parse_iso (time_to_iso t) = None.
Proof.
  exists (GTime 10000 1 1 0 0 0 0 0). split; [|split; [reflexivity|vm_compute; reflexivity]].
  repeat split; vm_compute; try reflexivity; discriminate.
Qed.
Print Assumptions C34_year_10000_refuted.

(** The texts that are read are exactly YYYY-MM-DDTHH:MM:SS.mmmZ with a date of the calendar and a time of
    day (a leading zero of the hour may be missing), and they are read as this date and time in UTC. *)
Definition two (n : N) : bytes := [48 + n / 10; 48 + n mod 10].
Definition three (n : N) : bytes := (48 + n / 100) :: two (n mod 100).
Definition four (n : N) : bytes := two (n / 100) ++ two (n mod 100).
Definition iso_text (hour : bytes) (t : gtime) : bytes :=
  four (Z.to_N (t_year t)) ++ bs "-" ++ two (t_month t) ++ bs "-" ++ two (t_day t) ++ bs "T" ++ hour ++ bs ":" ++ two (t_min t) ++ bs ":" ++
  two (t_sec t) ++ bs "." ++ three (t_nano t / 1000000) ++ bs "Z".
Theorem C34_text : forall t, valid_time t -> (0 <= t_year t <= 9999)%Z -> time_to_iso t = iso_text (two (t_hour t)) t.
Proof.
  intros [y mo d h mi s ns off] (V1 & V2 & V3 & V4 & V5 & V6) Hy. cbn [t_year t_month t_day t_hour t_min t_sec t_nano t_off] in *.
  rewrite month_days_ok in V2 by lia. assert (days_in mo (Z.to_N y) <= 31) by (unfold days_in; ifs; lia).
  unfold time_to_iso, iso_text. cbn [t_year t_month t_day t_hour t_min t_sec t_nano t_off].
  replace (append_int 4 y) with (append_int 4 (Z.of_N (Z.to_N y))) by (f_equal; lia).
  rewrite append_int4, !append_int2, pad3 by lia. unfold four, three, two.
  change (bs "-") with [45]. change (bs "T") with [84]. change (bs ":") with [58]. change (bs ".") with [46]. change (bs "Z") with [90].
  cbn [app]. repeat first [reflexivity | apply (f_equal2 (@cons N)); [lia|]].
Qed.
Print Assumptions C34_text.
Lemma getnum_two : forall s n r, getnum true s = Some (n, r) -> n < 100 /\ s = two n ++ r.
Proof.
  intros [|a [|b s]] n r H; cbn in H; try discriminate; [destruct (is_digit a); discriminate|].
  unfold is_digit in H. destruct ((48 <=? a) && (a <=? 57)) eqn:A; [|discriminate]. destruct ((48 <=? b) && (b <=? 57)) eqn:B; [|discriminate].
  injection H as <- <-. split; [lia|]. unfold two. cbn [app]. apply (f_equal2 (@cons N)); [lia|]. apply (f_equal2 (@cons N)); [lia|reflexivity].
Qed.
Lemma getnum_one : forall s n r, getnum false s = Some (n, r) -> n < 100 /\ (s = two n ++ r \/ n < 10 /\ s = [48 + n] ++ r).
Proof.
  intros [|a s] n r H; cbn in H; [discriminate|]. destruct (is_digit a) eqn:A; [|discriminate]. unfold is_digit in A.
  assert (K : Some (a - 48, s) = Some (n, r) -> n < 100 /\ (a :: s = two n ++ r \/ n < 10 /\ a :: s = [48 + n] ++ r)).
  { intro E. injection E as <- <-. split; [lia|]. right. split; [lia|]. cbn [app]. apply (f_equal2 (@cons N)); [lia|reflexivity]. }
  destruct s as [|b s']; [auto|]. destruct (is_digit b) eqn:B; [|auto]. unfold is_digit in B.
  injection H as <- <-. split; [lia|]. left. unfold two. cbn [app]. apply (f_equal2 (@cons N)); [lia|]. apply (f_equal2 (@cons N)); [lia|reflexivity].
Qed.
Lemma lit_inv : forall c s r, lit c s = Some r -> s = c :: r.
Proof. intros c [|x s] r H; cbn in H; [discriminate|]. destruct (x =? c) eqn:E; [|discriminate]. injection H as <-. f_equal. lia. Qed.
Lemma digits_inv : forall n acc s v r, digits_n n acc s = Some (v, r) -> exists ds, s = ds ++ r /\ length ds = n /\ Forall (fun c => 48 <= c <= 57) ds /\
  v = fold_left (fun a c => a * 10 + (c - 48)) ds acc.
Proof.
  induction n as [|n IH]; intros acc s v r H; cbn in H.
  - injection H as <- <-. exists []. auto.
  - destruct s as [|c s]; [discriminate|]. destruct (is_digit c) eqn:C; [|discriminate]. unfold is_digit in C. apply IH in H.
    destruct H as (ds & -> & L & F & E). exists (c :: ds). split; [reflexivity|]. cbn. split; [now rewrite L|]. split; [constructor; auto; lia|exact E].
Qed.
Lemma digits_four : forall s v r, digits_n 4 0 s = Some (v, r) -> v < 10000 /\ s = four v ++ r.
Proof.
  intros s v r H. apply digits_inv in H. destruct H as (ds & -> & L & F & ->).
  destruct ds as [|a [|b [|c [|d [|]]]]]; try discriminate. inversion_clear F as [|? ? A F']. inversion_clear F' as [|? ? B F]. inversion_clear F as [|? ? C F'].
  inversion_clear F' as [|? ? D F]. cbn [fold_left]. split; [lia|]. unfold four, two. cbn [app]. repeat (apply (f_equal2 (@cons N)); [lia|]). reflexivity.
Qed.
Lemma digits_three : forall s v r, digits_n 3 0 s = Some (v, r) -> v < 1000 /\ s = three v ++ r.
Proof.
  intros s v r H. apply digits_inv in H. destruct H as (ds & -> & L & F & ->).
  destruct ds as [|a [|b [|c [|]]]]; try discriminate. inversion_clear F as [|? ? A F']. inversion_clear F' as [|? ? B F]. inversion_clear F as [|? ? C F'].
  cbn [fold_left]. split; [lia|]. unfold three, two. cbn [app]. repeat (apply (f_equal2 (@cons N)); [lia|]). reflexivity.
Qed.
Lemma read_two_free : forall f n r, n < 100 -> getnum f (two n ++ r) = Some (n, r).
Proof. intros f n r H. unfold two. rewrite <- append_int2 by exact H. now apply getnum2. Qed.
Lemma read_two : forall n r, n < 100 -> getnum true (two n ++ r) = Some (n, r).
Proof. intros. now apply read_two_free. Qed.
Lemma read_three : forall n r, n < 1000 -> digits_n 3 0 (three n ++ r) = Some (n, r).
Proof.
  intros n r H. rewrite <- (digits3 n r H). f_equal. rewrite pad3 by exact H. unfold three, two. cbn [app].
  repeat (apply (f_equal2 (@cons N)); [lia|]). reflexivity.
Qed.
Lemma read_four : forall n r, n < 10000 -> digits_n 4 0 (four n ++ r) = Some (n, r).
Proof.
  intros n r H. rewrite <- (digits4 n r H). f_equal. rewrite append_int4 by exact H. unfold four, two. cbn [app].
  repeat (apply (f_equal2 (@cons N)); [lia|]). reflexivity.
Qed.
Theorem C34_read_exactly : forall s t, parse_iso s = Some t <->
  valid_time t /\ (0 <= t_year t <= 9999)%Z /\ t_off t = 0%Z /\ t_nano t mod 1000000 = 0 /\
  (s = iso_text (two (t_hour t)) t \/ t_hour t < 10 /\ s = iso_text [48 + t_hour t] t).
Proof.
  intros s t. split.
  - unfold parse_iso. intro H.
    destruct (digits_n 4 0 s) as [[y s1]|] eqn:E1; [|discriminate]. cbn [obind] in H. apply digits_four in E1. destruct E1 as (Hy & ->).
    destruct (lit 45 s1) as [s2|] eqn:E2; [|discriminate]. cbn [obind] in H. apply lit_inv in E2. subst s1.
    destruct (getnum true s2) as [[mo s3]|] eqn:E3; [|discriminate]. cbn [obind] in H. apply getnum_two in E3. destruct E3 as (Hmo & ->).
    destruct (lit 45 s3) as [s4|] eqn:E4; [|discriminate]. cbn [obind] in H. apply lit_inv in E4. subst s3.
    destruct (getnum true s4) as [[d s5]|] eqn:E5; [|discriminate]. cbn [obind] in H. apply getnum_two in E5. destruct E5 as (Hd & ->).
    destruct (lit 84 s5) as [s6|] eqn:E6; [|discriminate]. cbn [obind] in H. apply lit_inv in E6. subst s5.
    destruct (getnum false s6) as [[h s7]|] eqn:E7; [|discriminate]. cbn [obind] in H. apply getnum_one in E7. destruct E7 as (Hh & E7).
    destruct (lit 58 s7) as [s8|] eqn:E8; [|discriminate]. cbn [obind] in H. apply lit_inv in E8. subst s7.
    destruct (getnum true s8) as [[mi s9]|] eqn:E9; [|discriminate]. cbn [obind] in H. apply getnum_two in E9. destruct E9 as (Hmi & ->).
    destruct (lit 58 s9) as [s10|] eqn:E10; [|discriminate]. cbn [obind] in H. apply lit_inv in E10. subst s9.
    destruct (getnum true s10) as [[sec s11]|] eqn:E11; [|discriminate]. cbn [obind] in H. apply getnum_two in E11. destruct E11 as (Hsec & ->).
    destruct (lit 46 s11) as [s12|] eqn:E12; [|discriminate]. cbn [obind] in H. apply lit_inv in E12. subst s11.
    destruct (digits_n 3 0 s12) as [[ms s13]|] eqn:E13; [|discriminate]. cbn [obind] in H. apply digits_three in E13. destruct E13 as (Hms & ->).
    destruct (lit 90 s13) as [s14|] eqn:E14; [|discriminate]. cbn [obind] in H. apply lit_inv in E14. subst s13.
    destruct s14; [|discriminate]. match type of H with (if ?b then _ else _) = _ => destruct b eqn:Eb; [|discriminate] end.
    injection H as <-. cbn [t_year t_month t_day t_hour t_min t_sec t_nano t_off]. repeat (apply andb_prop in Eb; destruct Eb as [Eb ?]).
    split; [|split; [lia|split; [reflexivity|split; [lia|]]]].
    + unfold valid_time. cbn [t_year t_month t_day t_hour t_min t_sec t_nano t_off]. rewrite month_days_ok by lia. rewrite N2Z.id. lia.
    + unfold iso_text. cbn [t_year t_month t_day t_hour t_min t_sec t_nano t_off]. rewrite N2Z.id, N.div_mul by lia.
      destruct E7 as [->|(L & ->)]; [left|right; split; [exact L|]]; cbn [bs app]; reflexivity.
  - intros (V & Y & O & M & T).
    assert (Full : forall hb, (forall r, getnum false (hb ++ 58 :: r) = Some (t_hour t, 58 :: r)) -> parse_iso (iso_text hb t) = Some t).
    { intros hb Hb. destruct t as [y mo d h mi s0 ns off]. destruct V as (V1 & V2 & V3 & V4 & V5 & V6).
      cbn [t_year t_month t_day t_hour t_min t_sec t_nano t_off] in *. rewrite month_days_ok in V2 by lia.
      assert (days_in mo (Z.to_N y) <= 31) by (unfold days_in; ifs; lia).
      unfold parse_iso, iso_text. cbn [t_year t_month t_day t_hour t_min t_sec t_nano t_off].
      change (bs "-") with [45]. change (bs "T") with [84]. change (bs ":") with [58]. change (bs ".") with [46]. change (bs "Z") with [90].
      rewrite read_four by lia. cbn [obind]. rewrite lit_ok. cbn [obind].
      rewrite read_two by lia. cbn [obind]. rewrite lit_ok. cbn [obind].
      rewrite read_two by lia. cbn [obind]. rewrite lit_ok. cbn [obind].
      match goal with |- context [hb ++ [58] ++ ?r] => change (hb ++ [58] ++ r) with (hb ++ 58 :: r) end. rewrite Hb. cbn [obind]. cbn [lit N.eqb Pos.eqb obind].
      rewrite read_two by lia. cbn [obind]. rewrite lit_ok. cbn [obind].
      rewrite read_two by lia. cbn [obind]. rewrite lit_ok. cbn [obind].
      rewrite read_three by lia. cbn [obind]. rewrite lit_end. cbn [obind].
      replace ((1 <=? mo) && (mo <=? 12) && (h <? 24) && (mi <? 60) && (s0 <? 60) && (1 <=? d) && (d <=? days_in mo (Z.to_N y))) with true by lia.
      subst off. do 2 f_equal; lia. }
    destruct T as [->|(L & ->)]; apply Full; intro r.
    + destruct V as (_ & _ & V3 & _). apply read_two_free. lia.
    + cbn [app getnum]. assert (D : is_digit (48 + t_hour t) = true) by (unfold is_digit; lia). rewrite D.
      replace (48 + t_hour t - 48) with (t_hour t) by lia. reflexivity.
Qed.
Print Assumptions C34_read_exactly.
Example C34_read_case : parse_iso (bs "2024-02-29T7:05:09.120Z") = Some (GTime 2024 2 29 7 5 9 120000000 0) /\
  parse_iso (bs "2023-02-29T07:05:09.120Z") = None /\ parse_iso (bs "1900-02-29T07:05:09.120Z") = None.
Proof. vm_compute. auto. Qed.

(** 2024-02-29T23:30:59.123456789 in UTC and in UTC+01:00 *)
Example C34_case : exists u z : gtime,
  u = GTime 2024 2 29 23 30 59 123456789 0 /\ z = GTime 2024 2 29 23 30 59 123456789 3600 /\
  valid_time u /\ valid_time z /\ time_to_iso u = bs "2024-02-29T23:30:59.123Z" /\ time_to_iso z = time_to_iso u /\
  instant u = 1709249459123456789%Z /\ instant z = 1709245859123456789%Z.
Proof.
  eexists; eexists. split; [reflexivity|]. split; [reflexivity|].
  split; [repeat split; vm_compute; try reflexivity; discriminate|]. split; [repeat split; vm_compute; try reflexivity; discriminate|].
  repeat split; vm_compute; reflexivity.
Qed.
