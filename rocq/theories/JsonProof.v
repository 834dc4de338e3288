(** * Proofs about the encoders *)
From Coq Require Import String Arith NArith ZArith Bool Lia ZifyBool ZifyN ZifyNat List.
From Verif Require Import Base Json JsonModel.
Import ListNotations.
Open Scope N_scope.
Ltac Zify.zify_post_hook ::= Z.div_mod_to_equations.

Ltac ifs :=
  repeat match goal with
  | |- context [if ?b then _ else _] =>
      lazymatch b with context [if _ then _ else _] => fail | _ => destruct b eqn:? end
  | H : context [if ?b then _ else _] |- _ =>
      lazymatch b with context [if _ then _ else _] => fail | _ => destruct b eqn:? end
  end.

(** ** UTF-8 *)
Lemma decode_encode : forall c r, scalar c ->
  decode_rune (utf8_encode c ++ r) = (c, length (utf8_encode c)).
Proof.
  intros c r Hs. unfold scalar in Hs. unfold utf8_encode.
  destruct (c <=? 127) eqn:E1.
  { cbn [app]. unfold decode_rune. replace (c <? 128) with true by lia. reflexivity. }
  destruct (c <=? 2047) eqn:E2.
  { cbn [app length]. unfold decode_rune, in_rng.
    replace (192 + c / 64 <? 128) with false by lia.
    replace ((194 <=? 192 + c / 64) && (192 + c / 64 <=? 223)) with true by lia.
    replace ((128 <=? 128 + c mod 64) && (128 + c mod 64 <=? 191)) with true by lia.
    f_equal. lia. }
  replace (((55296 <=? c) && (c <=? 57343)) || (1114111 <? c)) with false by lia.
  destruct (c <=? 65535) eqn:E3.
  { cbn [app length]. unfold decode_rune, in_rng. cbv zeta.
    replace (224 + c / 4096 <? 128) with false by lia.
    replace ((194 <=? 224 + c / 4096) && (224 + c / 4096 <=? 223)) with false by lia.
    replace ((224 <=? 224 + c / 4096) && (224 + c / 4096 <=? 239)) with true by lia.
    match goal with |- context [if ?b && ?d then _ else _] => replace (b && d) with true end.
    { f_equal. lia. }
    symmetry. rewrite !andb_true_iff. 
    destruct (224 + c / 4096 =? 224) eqn:?, (224 + c / 4096 =? 237) eqn:?; lia. }
  { cbn [app length]. unfold decode_rune, in_rng. cbv zeta.
    replace (240 + c / 262144 <? 128) with false by lia.
    replace ((194 <=? 240 + c / 262144) && (240 + c / 262144 <=? 223)) with false by lia.
    replace ((224 <=? 240 + c / 262144) && (240 + c / 262144 <=? 239)) with false by lia.
    replace ((240 <=? 240 + c / 262144) && (240 + c / 262144 <=? 244)) with true by lia.
    match goal with |- context [if ?b && ?d then _ else _] => replace (b && d) with true end.
    { f_equal. lia. }
    symmetry. rewrite !andb_true_iff.
    destruct (240 + c / 262144 =? 240) eqn:?, (240 + c / 262144 =? 244) eqn:?; lia. }
Qed.

Lemma encode_len : forall c, (1 <= length (utf8_encode c))%nat.
Proof. intros c. unfold utf8_encode. ifs; simpl; lia. Qed.
Lemma encode_inj : forall c d r s, scalar c -> scalar d -> utf8_encode c ++ r = utf8_encode d ++ s -> c = d /\ r = s.
Proof.
  intros c d r s Hc Hd E. pose proof (decode_encode c r Hc) as X. rewrite E, decode_encode in X by auto.
  injection X as -> _. split; auto. now apply app_inv_head in E.
Qed.

Lemma decode_ok : forall b r c n, 128 <= b -> decode_rune (b :: r) = (c, n) ->
  (c = 65533 /\ n = 1%nat /\ forall d t, scalar d -> b :: r <> utf8_encode d ++ t) \/
  (scalar c /\ 128 <= c /\ n <> 1%nat /\ firstn n (b :: r) = utf8_encode c /\ b :: r = utf8_encode c ++ skipn n (b :: r)).
Proof.
  intros b r c n Hb E.
  assert (BAD : c = 65533 -> n = 1%nat -> forall d t, scalar d -> b :: r <> utf8_encode d ++ t).
  { intros -> -> d t Hd X. rewrite X, decode_encode in E by auto. injection E as -> E. discriminate. }
  assert (OK : scalar c -> 128 <= c -> n <> 1%nat -> firstn n (b :: r) = utf8_encode c ->
     scalar c /\ 128 <= c /\ n <> 1%nat /\ firstn n (b :: r) = utf8_encode c /\ b :: r = utf8_encode c ++ skipn n (b :: r)).
  { intros H1 H2 H3 H4. repeat split; auto. rewrite <- H4. symmetry. apply firstn_skipn. }
  unfold decode_rune, in_rng in E. cbv zeta in E. replace (b <? 128) with false in E by lia.
  assert (forall x y : N * nat, x = y -> fst x = fst y /\ snd x = snd y) as PJ by (intros; subst; auto).
  destruct ((194 <=? b) && (b <=? 223)) eqn:E1.
  { destruct r as [|b1 r]; [left; injection E as <- <-; auto|].
    destruct ((128 <=? b1) && (b1 <=? 191)) eqn:E2; [|left; injection E as <- <-; auto].
    right. apply PJ in E. cbn [fst snd] in E. destruct E as [Ec En]. rewrite <- En in *.
    apply OK; unfold scalar; try lia. rewrite <- Ec. cbn [firstn]. unfold utf8_encode.
    replace ((b - 192) * 64 + (b1 - 128) <=? 127) with false by lia.
    replace ((b - 192) * 64 + (b1 - 128) <=? 2047) with true by lia. repeat f_equal; lia. }
  destruct ((224 <=? b) && (b <=? 239)) eqn:E2.
  { destruct r as [|b1 [|b2 r]]; try (left; injection E as <- <-; now auto).
    match type of E with (if ?x then _ else _) = _ => destruct x eqn:E3 end; [|left; injection E as <- <-; auto].
    right. apply PJ in E. cbn [fst snd] in E. destruct E as [Ec En]. rewrite <- En in *.
    rewrite !andb_true_iff in E3. destruct E3 as [[E3 E4] E5].
    assert (2048 <= c /\ scalar c /\ c <= 65535) as (C1 & C2 & C3).
    { unfold scalar. destruct (b =? 224) eqn:?, (b =? 237) eqn:?; lia. }
    apply OK; auto; try lia. cbn [firstn]. unfold utf8_encode. unfold scalar in C2.
    replace (c <=? 127) with false by lia. replace (c <=? 2047) with false by lia. replace (c <=? 65535) with true by lia.
    replace (((55296 <=? c) && (c <=? 57343)) || (1114111 <? c)) with false by lia.
    assert (128 <= b1 <= 191) by (destruct (b =? 224) eqn:?, (b =? 237) eqn:?; lia).
    assert (128 <= b2 <= 191) by lia. clear E3 E4 E5 OK BAD En.
    assert (c / 4096 = b - 224) by lia. assert (c / 64 mod 64 = b1 - 128) by lia. assert (c mod 64 = b2 - 128) by lia.
    repeat f_equal; lia. }
  destruct ((240 <=? b) && (b <=? 244)) eqn:E3.
  { destruct r as [|b1 [|b2 [|b3 r]]]; try (left; injection E as <- <-; now auto).
    match type of E with (if ?x then _ else _) = _ => destruct x eqn:E4 end; [|left; injection E as <- <-; auto].
    right. apply PJ in E. cbn [fst snd] in E. destruct E as [Ec En]. rewrite <- En in *.
    rewrite !andb_true_iff in E4. destruct E4 as [[[E4 E5] E6] E7].
    assert (128 <= b1 <= 191) by (destruct (b =? 240) eqn:?, (b =? 244) eqn:?; lia).
    assert (65536 <= c /\ scalar c /\ c <= 1114111) as (C1 & C2 & C3).
    { unfold scalar. destruct (b =? 240) eqn:?, (b =? 244) eqn:?; lia. }
    apply OK; auto; try lia. cbn [firstn]. unfold utf8_encode. unfold scalar in C2.
    replace (c <=? 127) with false by lia. replace (c <=? 2047) with false by lia. replace (c <=? 65535) with false by lia.
    replace (((55296 <=? c) && (c <=? 57343)) || (1114111 <? c)) with false by lia.
    assert (128 <= b2 <= 191) by lia. assert (128 <= b3 <= 191) by lia. clear E4 E5 E6 E7 OK BAD En.
    assert (c / 262144 = b - 240) by lia. assert (c / 4096 mod 64 = b1 - 128) by lia.
    assert (c / 64 mod 64 = b2 - 128) by lia. assert (c mod 64 = b3 - 128) by lia.
    repeat f_equal; lia. }
  left; injection E as <- <-; auto.
Qed.

Lemma codepoints_fun : forall s l1 l2, codepoints s l1 -> codepoints s l2 -> l1 = l2.
Proof.
  intros s l1 l2 H. revert l2. induction H; intros l2 H2.
  - inversion H2; subst; auto. 
    pose proof (encode_len c). destruct (utf8_encode c); simpl in *; [lia|discriminate].
  - inversion H2 as [X|d s' l' Hd Hs' X|b s' l' Hb Hs' X].
    + exfalso. pose proof (encode_len c). destruct (utf8_encode c); simpl in *; [lia|discriminate].
    + symmetry in X. apply encode_inj in X; auto. destruct X as [-> ->]. f_equal. auto.
    + exfalso. apply (Hb c s); auto.
  - inversion H2 as [X|d s' l' Hd Hs' X|b' s' l' Hb Hs' X]; subst.
    + exfalso. apply (H d s'); auto.
    + f_equal. auto.
Qed.

(** ** Strings *)
Lemma hex_digit_val : forall n, n < 16 -> hex_val (hex_digit n) = Some n.
Proof.
  intros n H. unfold hex_digit, hex_val. destruct (n <? 10) eqn:E.
  - replace ((48 <=? 48 + n) && (48 + n <=? 57)) with true by lia. f_equal. lia.
  - replace ((48 <=? 87 + n) && (87 + n <=? 57)) with false by lia.
    replace ((97 <=? 87 + n) && (87 + n <=? 102)) with true by lia. f_equal. lia.
Qed.

Lemma encode_small : forall c, c < 128 -> utf8_encode c = [c].
Proof. intros c H. unfold utf8_encode. replace (c <=? 127) with true by lia. reflexivity. Qed.

(** [plain p l]: the bytes of [p] stand for themselves inside a JSON string *)
Lemma jchars_app : forall l1 t1, jchars l1 t1 -> forall l2 t2, jchars l2 t2 -> jchars (l1 ++ l2) (t1 ++ t2).
Proof.
  induction 1; intros l2 t2 HH; simpl; auto.
  - rewrite <- app_assoc. constructor; auto.
  - eapply jc_esc; eauto.
  - eapply jc_hex; eauto.
  - eapply jc_pair; eauto.
Qed.
Lemma jchars_raw1 : forall c, scalar c -> 32 <= c -> c <> 34 -> c <> 92 -> jchars [c] (utf8_encode c).
Proof. intros. rewrite <- (app_nil_r (utf8_encode c)). apply jc_raw; auto. constructor. Qed.

Lemma escape_ok : forall b l t, b < 128 -> jchars l t -> jchars (b :: l) (92 :: escape b ++ t).
Proof.
  intros b l t Hb H. unfold escape.
  destruct ((b =? 92) || (b =? 34)) eqn:E1.
  { cbn [app]. eapply jc_esc; eauto. simpl. assert (b = 92 \/ b = 34) as [-> | ->] by lia; intuition. }
  destruct (b =? 10) eqn:E2; [cbn [app]; eapply jc_esc; eauto; simpl; replace b with 10 by lia; intuition|].
  destruct (b =? 13) eqn:E3; [cbn [app]; eapply jc_esc; eauto; simpl; replace b with 13 by lia; intuition|].
  destruct (b =? 9) eqn:E4; [cbn [app]; eapply jc_esc; eauto; simpl; replace b with 9 by lia; intuition|].
  change (bs "u00") with ([117; 48; 48]). cbn [app]. apply jc_hex; auto.
  - exists 0, 0, (b / 16), (b mod 16).
    assert (b / 16 < 16) by (clear E1 E2 E3 E4; lia).
    assert (b mod 16 < 16) by (clear E1 E2 E3 E4; lia).
    repeat split; try (apply hex_digit_val; auto); try reflexivity. clear E1 E2 E3 E4; lia.
  - unfold scalar; lia.
Qed.

Lemma string_loop_ok : forall fuel s p lp, (length s < fuel)%nat -> jchars lp p ->
  exists l, codepoints s l /\ jchars (lp ++ l) (string_loop fuel p s).
Proof.
  induction fuel as [|fuel IH]; intros s p lp Hf Hp; [lia|].
  destruct s as [|b r].
  { exists []. split; [constructor|]. rewrite app_nil_r. exact Hp. }
  cbn [string_loop]. destruct (b <? 128) eqn:Eb.
  - assert (Hcp : forall l, codepoints r l -> codepoints (b :: r) (b :: l)).
    { intros l Hl. change (b :: r) with ([b] ++ r). rewrite <- (encode_small b) by lia. constructor; auto. unfold scalar; lia. }
    assert (RAW : 32 <= b -> b <> 34 -> b <> 92 -> exists l, codepoints (b :: r) l /\ jchars (lp ++ l) (string_loop fuel (p ++ [b]) r)).
    { intros H1 H2 H3. destruct (IH r (p ++ [b]) (lp ++ [b])) as (l & L1 & L2).
      + simpl in Hf; lia.
      + apply jchars_app; auto. rewrite <- (encode_small b) at 2 by lia. apply jchars_raw1; auto. unfold scalar; lia.
      + exists (b :: l). split; auto. rewrite <- app_assoc in L2. exact L2. }
    destruct ((32 <=? b) && (b <=? 125) && negb (b =? 92) && negb (b =? 34)) eqn:E1; [apply RAW; lia|].
    destruct (b =? 127) eqn:E2; [apply RAW; lia|].
    destruct (IH r [] []) as (l & L1 & L2); [simpl in Hf; lia|constructor|].
    exists (b :: l). split; auto. apply jchars_app; auto. cbn [app]. apply escape_ok; auto. lia.
  - destruct (decode_rune (b :: r)) as [c n] eqn:E.
    destruct (decode_ok b r c n ltac:(lia) E) as [(-> & -> & Hbad)|(Hs & H128 & Hn & Hfs & Hsplit)].
    + replace ((65533 =? 65533) && Nat.eqb 1 1) with true by reflexivity. cbn [skipn].
      destruct (IH r [] []) as (l & L1 & L2); [simpl in Hf; lia|constructor|].
      exists (65533 :: l). split; [constructor; auto|]. apply jchars_app; auto.
      change ((92 :: bs "ufffd") ++ string_loop fuel [] r) with (92 :: 117 :: 102 :: 102 :: 102 :: 100 :: string_loop fuel [] r).
      apply jc_hex; auto; [|unfold scalar; lia]. exists 15, 15, 15, 13. repeat split; reflexivity.
    + replace ((c =? 65533) && Nat.eqb n 1) with false by (symmetry; apply andb_false_iff; right; apply Nat.eqb_neq; auto).
      assert (Hlen : (length (skipn n (b :: r)) < fuel)%nat).
      { apply (f_equal (@length N)) in Hsplit. rewrite app_length in Hsplit. pose proof (encode_len c). simpl length in *. lia. }
      assert (Hcp : forall l, codepoints (skipn n (b :: r)) l -> codepoints (b :: r) (c :: l)).
      { intros l Hl. rewrite Hsplit. constructor; auto. }
      set (rest := skipn n (b :: r)) in *.
      destruct ((c =? 8232) || (c =? 8233)) eqn:E2.
      * destruct (IH rest [] []) as (l & L1 & L2); [auto|constructor|].
        exists (c :: l). split; auto. apply jchars_app; auto.
        assert (Hl : N.land c 15 < 16).
        { change 15 with (N.ones 4). rewrite N.land_ones. apply N.mod_lt. discriminate. }
        change ((92 :: bs "u202") ++ [hex_digit (N.land c 15)] ++ string_loop fuel [] rest)
          with (92 :: 117 :: 50 :: 48 :: 50 :: hex_digit (N.land c 15) :: string_loop fuel [] rest).
        apply jc_hex; auto. exists 2, 0, 2, (N.land c 15).
        repeat split; try reflexivity; [apply hex_digit_val; auto|].
        assert (c = 8232 \/ c = 8233) as [-> | ->] by lia; reflexivity.
      * rewrite Hfs. destruct (IH rest (p ++ utf8_encode c) (lp ++ [c])) as (l & L1 & L2); [auto| |].
        { apply jchars_app; auto. apply jchars_raw1; auto; lia. }
        exists (c :: l). split; auto. rewrite <- app_assoc in L2. exact L2.
Qed.

Lemma string_to_json_ok : forall s, exists l, codepoints s l /\ jstring l (string_to_json s).
Proof.
  intros s. destruct (string_loop_ok (S (length s)) s [] []) as (l & L1 & L2); [lia|constructor|].
  exists l. split; auto. exists (string_loop (S (length s)) [] s). split; auto.
Qed.

(** a JSON string literal contains no control characters *)
Lemma utf8_no_control : forall c, 32 <= c -> Forall (fun b => 32 <= b) (utf8_encode c).
Proof. intros c H. unfold utf8_encode. ifs; repeat constructor; lia. Qed.
Lemma hex_val_no_control : forall c x, hex_val c = Some x -> 32 <= c.
Proof. intros c x H. unfold hex_val in H. ifs; try discriminate; lia. Qed.
Lemma jchars_no_control : forall l t, jchars l t -> Forall (fun b => 32 <= b) t.
Proof.
  induction 1; auto.
  - apply Forall_app. split; auto. now apply utf8_no_control.
  - constructor; [lia|]. constructor; auto. simpl in H. intuition; match goal with X : (_, _) = (_, _) |- _ => injection X; lia end.
  - destruct H as (x & y & z & w & A & B & C & D & _). apply hex_val_no_control in A, B, C, D.
    repeat (constructor; [lia|]). auto.
  - destruct H as (x & y & z & w & A & B & C & D & _). apply hex_val_no_control in A, B, C, D.
    destruct H0 as (x' & y' & z' & w' & A' & B' & C' & D' & _). apply hex_val_no_control in A', B', C', D'.
    repeat (constructor; [lia|]). auto.
Qed.

(** ** Integers *)
Definition dstep (a : option N) (c : N) : option N :=
  match a with
  | Some v => if (48 <=? c) && (c <=? 57) then Some (v * 10 + (c - 48)) else None
  | None => None
  end.
Lemma dec_digits_ok : forall f n acc, n < 2 ^ N.of_nat f ->
  exists ds, dec_digits (S f) n acc = ds ++ acc /\ Forall digit ds /\ fold_left dstep ds (Some 0) = Some n /\
    (n = 0 -> ds = [48]) /\ (n <> 0 -> exists d r, ds = d :: r /\ 49 <= d <= 57).
Proof.
  induction f as [|f IH]; intros n acc Hn.
  - assert (n = 0) by (simpl in Hn; lia). subst n. exists [48]. repeat split; auto.
    + repeat constructor; unfold digit; lia.
    + intros X; contradiction.
  - assert (D : n mod 10 < 10) by (apply N.mod_lt; discriminate).
    assert (DM : n = n / 10 * 10 + n mod 10) by (pose proof (N.div_mod n 10); lia).
    cbn [dec_digits]. destruct (n / 10 =? 0) eqn:E.
    + exists [48 + n mod 10]. split; [reflexivity|]. 
      assert (n mod 10 = n) by lia. repeat split.
      * repeat constructor; unfold digit; lia.
      * cbn [fold_left dstep]. replace ((48 <=? 48 + n mod 10) && (48 + n mod 10 <=? 57)) with true by lia. f_equal. lia.
      * intros ->. reflexivity.
      * intros Hz. exists (48 + n mod 10), []. split; auto. lia.
    + destruct (IH (n / 10) ((48 + n mod 10) :: acc)) as (ds & D1 & D2 & D3 & D4 & D5).
      { rewrite Nat2N.inj_succ, N.pow_succ_r' in Hn. lia. }
      change (dec_digits (S f) (n / 10) ((48 + n mod 10) :: acc) = ds ++ (48 + n mod 10) :: acc) in D1.
      exists (ds ++ [48 + n mod 10]). rewrite <- app_assoc. split; [exact D1|]. repeat split.
      * apply Forall_app; split; auto. repeat constructor; unfold digit; lia.
      * rewrite fold_left_app, D3. cbn [fold_left dstep].
        replace ((48 <=? 48 + n mod 10) && (48 + n mod 10 <=? 57)) with true by lia. f_equal. lia.
      * intros ->. discriminate.
      * intros Hz. destruct D5 as (d & r & -> & Hd); [lia|]. exists d, (r ++ [48 + n mod 10]). split; auto.
Qed.
Lemma size_nat_bound : forall n, n < 2 ^ N.of_nat (N.size_nat n).
Proof.
  intros n. destruct n as [|p]; [reflexivity|]. cbn [N.size_nat]. induction p.
  - simpl Pos.size_nat. rewrite Nat2N.inj_succ, N.pow_succ_r'. lia.
  - simpl Pos.size_nat. rewrite Nat2N.inj_succ, N.pow_succ_r'. lia.
  - reflexivity.
Qed.
Lemma dec_of_N_ok : forall n, dec_value (dec_of_N n) = Some n /\ jint (dec_of_N n) /\ Forall digit (dec_of_N n) /\ dec_of_N n <> [].
Proof.
  intros n. unfold dec_of_N. destruct (dec_digits_ok _ n [] (size_nat_bound n)) as (ds & -> & D2 & D3 & D4 & D5).
  rewrite app_nil_r. 
  assert (X : exists d r, ds = d :: r).
  { destruct (N.eq_dec n 0) as [Z|Z]; [rewrite (D4 Z); eauto|]. destruct (D5 Z) as (d & r & -> & _); eauto. }
  repeat split; auto.
  - destruct X as (d & r & ->). exact D3.
  - destruct (N.eq_dec n 0) as [Z|Z]; [left; auto|]. right. destruct (D5 Z) as (d & r & -> & H).
    exists d, r. inversion D2; subst. auto.
  - destruct X as (d & r & ->). discriminate.
Qed.
Lemma int_value_nonneg : forall n, int_value (dec_of_N n) = Some (Z.of_N n).
Proof.
  intros n. destruct (dec_of_N_ok n) as (A & _ & D & E). unfold int_value.
  destruct (dec_of_N n) as [|d r]; [contradiction|]. inversion D; subst. unfold digit in *.
  destruct d as [|p]; [rewrite A; reflexivity|].
  destruct (N.eq_dec (Npos p) 45); [exfalso; lia|].
  assert (forall (x y : option Z), (match N.pos p with 45 => x | _ => y end) = y) as Q.
  { intros. destruct p as [p|p|]; auto. destruct p as [p|p|]; auto. destruct p as [p|p|]; auto. destruct p as [p|p|]; auto.
    destruct p as [p|p|]; auto. destruct p as [p|p|]; auto. contradiction. }
  rewrite Q. rewrite A. reflexivity.
Qed.
Lemma jnumber_nat : forall n, jnumber (dec_of_N n).
Proof.
  intros n. destruct (dec_of_N_ok n) as (_ & A & _). exists [], (dec_of_N n), [], [].
  rewrite !app_nil_r. repeat split; auto; left; auto.
Qed.
Lemma int_to_json_ok : forall z, int_value (int_to_json z) = Some z /\ jnumber (int_to_json z).
Proof.
  intros [|p|p]; unfold int_to_json.
  - split; [reflexivity|apply jnumber_nat].
  - split; [apply int_value_nonneg|apply jnumber_nat].
  - split.
    + unfold int_value. destruct (dec_of_N_ok (N.pos p)) as (A & _). rewrite A. reflexivity.
    + destruct (dec_of_N_ok (N.pos p)) as (_ & A & _). exists [45], (dec_of_N (N.pos p)), [], [].
      rewrite !app_nil_r. repeat split; auto; left; auto.
Qed.

(** ** Times *)
Lemma below_all : forall (f : N -> bool) k, forallb f (map N.of_nat (seq 0 k)) = true ->
  forall n, n < N.of_nat k -> f n = true.
Proof.
  intros f k H n Hn. rewrite forallb_forall in H. apply H. apply in_map_iff.
  exists (N.to_nat n). split; [apply N2Nat.id|]. apply in_seq. lia.
Qed.
Definition two_ok (n : N) : bool := beqb (append_int 2 (Z.of_N n)) [48 + n / 10; 48 + n mod 10].
Lemma append_int2 : forall n, n < 100 -> append_int 2 (Z.of_N n) = [48 + n / 10; 48 + n mod 10].
Proof.
  intros n H. apply beqb_eq. apply (below_all two_ok 100); [vm_compute; reflexivity|exact H].
Qed.
Definition three_ok (n : N) : bool := beqb (pad 3 (dec_of_N n)) [48 + n / 100; 48 + (n / 10) mod 10; 48 + n mod 10].
Lemma pad3 : forall n, n < 1000 -> pad 3 (dec_of_N n) = [48 + n / 100; 48 + (n / 10) mod 10; 48 + n mod 10].
Proof.
  intros n H. apply beqb_eq. apply (below_all three_ok 1000); [vm_compute; reflexivity|exact H].
Qed.
Definition four_ok (n : N) : bool :=
  beqb (append_int 4 (Z.of_N n)) [48 + n / 1000; 48 + (n / 100) mod 10; 48 + (n / 10) mod 10; 48 + n mod 10].
Lemma append_int4 : forall n, n < 10000 ->
  append_int 4 (Z.of_N n) = [48 + n / 1000; 48 + (n / 100) mod 10; 48 + (n / 10) mod 10; 48 + n mod 10].
Proof.
  intros n H. apply beqb_eq. apply (below_all four_ok (N.to_nat 10000)); [vm_compute; reflexivity|].
  rewrite N2Nat.id. exact H.
Qed.
Lemma is_digit_ok : forall d, d < 10 -> is_digit (48 + d) = true.
Proof. intros. unfold is_digit. lia. Qed.
Lemma getnum2 : forall f n r, n < 100 -> getnum f (append_int 2 (Z.of_N n) ++ r) = Some (n, r).
Proof.
  intros f n r H. rewrite append_int2 by auto. cbn [app getnum]. rewrite !is_digit_ok by lia. f_equal. f_equal. lia.
Qed.
Lemma digits3 : forall n r, n < 1000 -> digits_n 3 0 (pad 3 (dec_of_N n) ++ r) = Some (n, r).
Proof.
  intros n r H. rewrite pad3 by auto. cbn [app digits_n]. rewrite !is_digit_ok by lia. f_equal. f_equal. lia.
Qed.
Lemma digits4 : forall n r, n < 10000 -> digits_n 4 0 (append_int 4 (Z.of_N n) ++ r) = Some (n, r).
Proof.
  intros n r H. rewrite append_int4 by auto. cbn [app digits_n]. rewrite !is_digit_ok by lia. f_equal. f_equal. lia.
Qed.
Lemma lit_ok : forall c r, lit c ([c] ++ r) = Some r.
Proof. intros. cbn. now rewrite N.eqb_refl. Qed.
Lemma lit_end : forall c, lit c [c] = Some [].
Proof. intros. cbn. now rewrite N.eqb_refl. Qed.

Lemma parse_format : forall y mo d h mi s ns off,
  y < 10000 -> 1 <= mo <= 12 -> 1 <= d <= days_in mo y -> h < 24 -> mi < 60 -> s < 60 -> ns < 1000000000 ->
  parse_iso (time_to_iso (GTime (Z.of_N y) mo d h mi s ns off)) =
    Some (GTime (Z.of_N y) mo d h mi s (ns / 1000000 * 1000000) 0).
Proof.
  intros y mo d h mi s ns off Hy Hmo Hd Hh Hmi Hs Hns.
  assert (Hdm : days_in mo y <= 31) by (unfold days_in; ifs; lia).
  assert (Hms : ns / 1000000 < 1000) by lia.
  unfold parse_iso, time_to_iso. cbn [t_year t_month t_day t_hour t_min t_sec t_nano].
  rewrite digits4 by auto. cbn [obind]. rewrite lit_ok. cbn [obind].
  rewrite getnum2 by lia. cbn [obind]. rewrite lit_ok. cbn [obind].
  rewrite getnum2 by lia. cbn [obind]. rewrite lit_ok. cbn [obind].
  rewrite getnum2 by lia. cbn [obind]. rewrite lit_ok. cbn [obind].
  rewrite getnum2 by lia. cbn [obind]. rewrite lit_ok. cbn [obind].
  rewrite getnum2 by lia. cbn [obind]. rewrite lit_ok. cbn [obind].
  rewrite digits3 by auto. cbn [obind]. rewrite lit_end. cbn [obind].
  replace ((1 <=? mo) && (mo <=? 12) && (h <? 24) && (mi <? 60) && (s <? 60) && (1 <=? d) && (d <=? days_in mo y)) with true by lia.
  reflexivity.
Qed.

(** ** A JSON string literal has one meaning *)
Lemma encode_head : forall c, scalar c -> c <> 92 -> forall t x, utf8_encode c ++ t <> 92 :: x.
Proof.
  intros c Hs Hc t x E. unfold scalar in Hs. unfold utf8_encode in E. ifs; cbn [app] in E; (first [discriminate E | apply (f_equal (hd 0)) in E; cbn [hd] in E; lia]).
Qed.
Lemma hex4_fun : forall a b c d v w, hex4 a b c d v -> hex4 a b c d w -> v = w.
Proof.
  intros a b c d v w (x & y & z & u & A & B & C & D & E) (x' & y' & z' & u' & A' & B' & C' & D' & E'). congruence.
Qed.
Lemma jchars_fun : forall l1 t, jchars l1 t -> forall l2, jchars l2 t -> l1 = l2.
Proof.
  induction 1 as [|c l t Hs H32 H34 H92 H IH|e c l t Hi H IH|a b c d v l t Hh Hs H IH|a b c d a' b' c' d' hi lo l t Hh Hl Bh Bl H IH];
    intros l2 H2.
  - inversion H2; subst; auto. pose proof (encode_len c). destruct (utf8_encode c); simpl in *; [lia|discriminate].
  - inversion H2 as [X0 X|c2 l' t' Hs2 H322 H342 H922 H' X0 X|e2 c2 l' t' Hi2 H' X0 X|? ? ? ? v2 l' t' Hh2 Hs2 H' X0 X|? ? ? ? ? ? ? ? hi2 lo2 l' t' Hh2 Hl2 Bh2 Bl2 H' X0 X].
    + exfalso. pose proof (encode_len c). destruct (utf8_encode c); simpl in *; [lia|discriminate].
    + apply encode_inj in X; auto. destruct X as [-> ->]. f_equal; auto.
    + symmetry in X; apply encode_head in X; tauto.
    + symmetry in X; apply encode_head in X; tauto.
    + symmetry in X; apply encode_head in X; tauto.
  - inversion H2 as [X0 X|c2 l' t' Hs2 H322 H342 H922 H' X0 X|e2 c2 l' t' Hi2 H' X0 X|? ? ? ? v2 l' t' Hh2 Hs2 H' X0 X|? ? ? ? ? ? ? ? hi2 lo2 l' t' Hh2 Hl2 Bh2 Bl2 H' X0 X].
    + apply encode_head in X; tauto.
    + subst e2 t'. f_equal; auto. simpl in Hi, Hi2.
      intuition repeat match goal with E : (_, _) = (_, _) |- _ => injection E; clear E; intros; subst end; auto; try discriminate.
    + subst e. exfalso. simpl in Hi. intuition discriminate.
    + subst e. exfalso. simpl in Hi. intuition discriminate.
  - inversion H2 as [X0 X|c2 l' t' Hs2 H322 H342 H922 H' X0 X|e2 c2 l' t' Hi2 H' X0 X|? ? ? ? v2 l' t' Hh2 Hs2 H' X0 X|? ? ? ? ? ? ? ? hi2 lo2 l' t' Hh2 Hl2 Bh2 Bl2 H' X0 X].
    + apply encode_head in X; tauto.
    + subst e2. exfalso. simpl in Hi2. intuition discriminate.
    + subst. f_equal; auto. eapply hex4_fun; eauto.
    + subst. exfalso. pose proof (hex4_fun _ _ _ _ _ _ Hh Hh2). unfold scalar in Hs. lia.
  - inversion H2 as [X0 X|c2 l' t' Hs2 H322 H342 H922 H' X0 X|e2 c2 l' t' Hi2 H' X0 X|? ? ? ? v2 l' t' Hh2 Hs2 H' X0 X|? ? ? ? ? ? ? ? hi2 lo2 l' t' Hh2 Hl2 Bh2 Bl2 H' X0 X].
    + apply encode_head in X; tauto.
    + subst e2. exfalso. simpl in Hi2. intuition discriminate.
    + subst. exfalso. pose proof (hex4_fun _ _ _ _ _ _ Hh Hh2). unfold scalar in Hs2. lia.
    + subst. pose proof (hex4_fun _ _ _ _ _ _ Hh Hh2). pose proof (hex4_fun _ _ _ _ _ _ Hl Hl2). subst. f_equal; auto.
Qed.
Lemma jstring_fun : forall l1 l2 t, jstring l1 t -> jstring l2 t -> l1 = l2.
Proof.
  intros l1 l2 t (u1 & E1 & H1) (u2 & E2 & H2). rewrite E1 in E2. injection E2 as E2.
  apply app_inj_tail in E2. destruct E2 as [<- _]. eapply jchars_fun; eauto.
Qed.
