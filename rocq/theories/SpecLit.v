(** * The binding of arguments and the specification (proofs) *)
From Coq Require Import String Arith NArith ZArith Bool List Lia.
From Verif Require Import Base Json JsonModel JsonProof Ast ReqModel Schema ResModel Interp Facts Spec.
Import ListNotations.
Open Scope N_scope.
Arguments NumOk {A}. Arguments NumSyntax {A}. Arguments NumRange {A}.

(** ** Numbers *)
Lemma dec_value_digits : forall t n, dec_value t = Some n <-> all_digits t = true /\ dec_of t = n.
Proof.
  intros t n. unfold dec_value, all_digits, dec_of. destruct t as [|c0 t0]; [cbn; split; [discriminate|intros [H _]; discriminate]|].
  cbn [negb andb]. generalize (c0 :: t0) as t. intro t.
  assert (K : forall t a, fold_left (fun a c => match a with
      | Some v => if (48 <=? c) && (c <=? 57) then Some (v * 10 + (c - 48)) else None | None => None end) t (Some a) = Some n <->
      forallb (fun c => (48 <=? c) && (c <=? 57)) t = true /\ fold_left (fun a c => a * 10 + (c - 48)) t a = n).
  { clear t. induction t as [|c t IH]; intro a; cbn [fold_left forallb].
    - split; [intros [= ->]; auto|intros [_ ->]; auto].
    - destruct ((48 <=? c) && (c <=? 57)); cbn [andb].
      + apply IH.
      + split; [|intros [H _]; discriminate]. intro H. exfalso. revert H. clear. induction t; cbn; [discriminate|auto]. }
  apply K.
Qed.
Lemma dec_value_spec : forall t, dec_value t = if all_digits t then Some (dec_of t) else None.
Proof.
  intros t. destruct (all_digits t) eqn:E.
  - apply dec_value_digits. auto.
  - destruct (dec_value t) eqn:F; auto. apply dec_value_digits in F. destruct F. congruence.
Qed.
Lemma int64_range : forall z, int_range W64 z <-> ((- 2 ^ 63 <=? z) && (z <? 2 ^ 63))%Z = true.
Proof. intro z. unfold int_range. cbn [bits]. change (Z.of_N 64 - 1)%Z with 63%Z. lia. Qed.
Lemma parse_int_ok : forall t z, parse_int t = NumOk z <-> signed_value t = Some z /\ int_range W64 z.
Proof.
  intros t z. rewrite int64_range.
  assert (K : forall (neg : bool) d, (if all_digits d then
      let z := if neg then (- Z.of_N (dec_of d))%Z else Z.of_N (dec_of d) in
      if ((- 2 ^ 63 <=? z) && (z <? 2 ^ 63))%Z then NumOk z else NumRange else NumSyntax) = NumOk z <->
      option_map (fun v => if neg then (- Z.of_N v)%Z else Z.of_N v) (dec_value d) = Some z /\ ((- 2 ^ 63 <=? z) && (z <? 2 ^ 63))%Z = true).
  { intros neg d. rewrite dec_value_spec. destruct (all_digits d); cbn [option_map]; [|split; [discriminate|intros [H _]; discriminate]].
    cbv zeta. set (y := if neg then _ else _). destruct ((- 2 ^ 63 <=? y)%Z && (y <? 2 ^ 63)%Z) eqn:E.
    - split; [intros [= <-]; auto|intros [[= <-] _]; reflexivity].
    - split; [discriminate|]. intros [[= <-] H]. congruence. }
  pose proof (K true) as Kt. pose proof (K false) as Kf. clear K. cbn [andb] in *.
  destruct t as [|c r]; [apply (Kf [])|].
  destruct (N.eq_dec c 45) as [->|N1]; [apply (Kt r)|]. destruct (N.eq_dec c 43) as [->|N2]; [apply (Kf r)|].
  assert (E : signed_value (c :: r) = option_map Z.of_N (dec_value (c :: r))).
  { unfold signed_value, int_value. destruct c as [|p]; auto. do 6 (try (destruct p as [p|p|]; auto)); congruence. }
  rewrite E. rewrite <- (Kf (c :: r)).
  unfold parse_int. destruct c as [|p]; [reflexivity|]. do 6 (try (destruct p as [p|p|]; [try reflexivity|try reflexivity|try reflexivity])); congruence.
Qed.
Lemma json_int_ok : forall t z, json_int t = Some z <-> int_value t = Some z /\ int_range W64 z.
Proof.
  intros t z. rewrite int64_range.
  assert (K : forall (neg : bool) d, (if all_digits d then
      let z := if neg then (- Z.of_N (dec_of d))%Z else Z.of_N (dec_of d) in
      if ((- 2 ^ 63 <=? z) && (z <? 2 ^ 63))%Z then Some z else None else None) = Some z <->
      option_map (fun v => if neg then (- Z.of_N v)%Z else Z.of_N v) (dec_value d) = Some z /\ ((- 2 ^ 63 <=? z) && (z <? 2 ^ 63))%Z = true).
  { intros neg d. rewrite dec_value_spec. destruct (all_digits d); cbn [option_map]; [|split; [discriminate|intros [H _]; discriminate]].
    cbv zeta. set (y := if neg then _ else _). destruct ((- 2 ^ 63 <=? y)%Z && (y <? 2 ^ 63)%Z) eqn:E.
    - split; [intros [= <-]; auto|intros [[= <-] _]; reflexivity].
    - split; [discriminate|]. intros [[= <-] H]. congruence. }
  pose proof (K true) as Kt. pose proof (K false) as Kf. clear K. cbn [andb] in *.
  destruct t as [|c r]; [apply (Kf [])|].
  destruct (N.eq_dec c 45) as [->|N1]; [apply (Kt r)|].
  assert (E : int_value (c :: r) = option_map Z.of_N (dec_value (c :: r))).
  { unfold int_value. destruct c as [|p]; auto. do 6 (try (destruct p as [p|p|]; auto)); congruence. }
  rewrite E. rewrite <- (Kf (c :: r)).
  unfold json_int. destruct c as [|p]; [reflexivity|]. do 6 (try (destruct p as [p|p|]; [try reflexivity|try reflexivity|try reflexivity])); congruence.
Qed.
Lemma parse_uint_ok : forall t n, parse_uint t = NumOk n <-> dec_value t = Some n /\ n < 2 ^ 64.
Proof.
  intros t n. unfold parse_uint. rewrite dec_value_spec. destruct (all_digits t); [|split; [discriminate|intros [H _]; discriminate]].
  destruct (dec_of t <? 2 ^ 64) eqn:E.
  - split; [intros [= <-]; split; auto; lia|intros [[= <-] _]; reflexivity].
  - split; [discriminate|]. intros [[= <-] H]. lia.
Qed.
Lemma bits_pos : forall w, (0 < Z.of_N (bits w))%Z. Proof. intros []; cbn; lia. Qed.
Lemma wrap_int_ok : forall w z z', wrap_int w z = z' <-> low_bits w z z'.
Proof.
  intros w z z'. unfold wrap_int, low_bits, int_range. set (b := Z.of_N (bits w)). assert (B : (0 < b)%Z) by apply bits_pos.
  assert (P : (2 ^ b = 2 * 2 ^ (b - 1))%Z) by (rewrite <- Z.pow_succ_r by lia; f_equal; lia).
  assert (Q : (0 < 2 ^ (b - 1))%Z) by (apply Z.pow_pos_nonneg; lia).
  set (m := (2 ^ (b - 1))%Z) in *. rewrite P. replace (2 * m / 2)%Z with m by (rewrite Z.mul_comm, Z.div_mul; lia).
  pose proof (Z.mod_pos_bound z (2 * m)). cbv zeta. split.
  - intros <-. destruct (z mod (2 * m) <? m)%Z eqn:E.
    + split; [lia|]. rewrite Z.mod_mod by lia. reflexivity.
    + split; [lia|]. rewrite <- (Z.mod_add (z mod (2 * m) - 2 * m) 1 (2 * m)) by lia. replace (z mod (2 * m) - 2 * m + 1 * (2 * m))%Z with (z mod (2 * m))%Z by lia. rewrite Z.mod_mod by lia. reflexivity.
  - intros [R E]. rewrite E. destruct (z' <? 0)%Z eqn:S.
    + assert (F : (z' mod (2 * m) = z' + 2 * m)%Z) by (rewrite <- (Z.mod_add _ 1 (2 * m)) by lia; rewrite Z.mod_small by lia; lia).
      rewrite F. destruct (z' + 2 * m <? m)%Z eqn:T; lia.
    + rewrite Z.mod_small by lia. destruct (z' <? m)%Z eqn:T; lia.
Qed.
Lemma wrap_uint_ok : forall w n n', wrap_uint w n = n' <-> ulow_bits w n n'.
Proof.
  intros w n n'. unfold wrap_uint, ulow_bits, uint_range. split; [|tauto]. intros <-. split; auto. apply N.mod_lt. apply N.pow_nonzero. lia.
Qed.
Lemma low_bits_same : forall w z, int_range w z -> low_bits w z z. Proof. intros; split; auto. Qed.
Lemma fits_int_ok : forall w z, int_range W64 z -> fits_int w z = true <-> int_range w z.
Proof.
  intros w z R. destruct w; cbn [fits_int]; try (split; auto; fail); rewrite Z.eqb_eq, wrap_int_ok; split; try (intros [H _]; exact H); apply low_bits_same.
Qed.
Lemma int_range_64 : forall w z, int_range w z -> int_range W64 z.
Proof. intros w z. unfold int_range. destruct w; cbn [bits]; cbn [Z.of_N]; lia. Qed.
Lemma fits_uint_ok : forall w n, n < 2 ^ 64 -> fits_uint w n = true <-> uint_range w n.
Proof.
  intros w n R. destruct w; cbn [fits_uint]; try (split; auto; fail); rewrite N.eqb_eq, wrap_uint_ok; unfold ulow_bits, uint_range; split; try tauto; intro H; split; auto; apply N.mod_small; auto.
Qed.
Lemma uint_range_64 : forall w n, uint_range w n -> n < 2 ^ 64.
Proof. intros w n. unfold uint_range. destruct w; cbn [bits]; change (2 ^ 8) with 256; change (2 ^ 16) with 65536; change (2 ^ 32) with 4294967296; change (2 ^ 64) with 18446744073709551616; lia. Qed.

Lemma with_field_upd : forall fs i e old v, nth_error fs i = Some (e, old) -> put_field (GStruct fs) i v = GStruct (with_field fs i v).
Proof.
  intros fs i e old v H. unfold put_field, with_field. rewrite H. f_equal. revert fs H.
  induction i as [|i IH]; intros [|x fs] H; try discriminate; cbn in *; [injection H as ->; reflexivity|]. now rewrite (IH fs).
Qed.
Lemma with_arg_upd : forall l i v, (i < length l)%nat -> upd_nth l i v = with_arg l i v.
Proof.
  intros l i v. unfold with_arg. revert l. induction i as [|i IH]; intros [|x l] H; cbn in *; try lia; [reflexivity|]. rewrite (IH l) by lia. reflexivity.
Qed.

(** ** Functions that set scalars *)
Section Lit.
Context {W : Type}.
Variable X : externals W.
Variable S : schema.
Variable rawvars : bytes.
Notation st := (rst W).
Lemma set_world_same : forall (s : st), set_world (r_world s) s = s. Proof. intros []; reflexivity. Qed.

(** [f] does this and reports no error exactly if [R] *)
Lemma fail_errs : forall g m (s : st) r s', fail g m s = ROk r s' -> r_errs s' = r_errs s -> False.
Proof.
  intros g m s r s' H E. unfold fail, bind, err, ret in H. injection H. intros <- _. cbn in E.
  apply (f_equal (@length _)) in E. rewrite app_length in E. cbn in E. lia.
Qed.
Ltac same := match goal with Es : ?t = set_world (r_world ?t) ?s, E : r_world _ = r_world _ |- _ =>
  first [rewrite <- E, set_world_same in Es | rewrite E, set_world_same in Es]; exact Es end.
Ltac rw := repeat match goal with
  | H : i_enum _ = _ |- _ => rewrite H; clear H | H : i_isid _ = _ |- _ => rewrite H; clear H | H : i_isfile _ = _ |- _ => rewrite H; clear H
  | H : i_istime _ = _ |- _ => rewrite H; clear H | H : nth_error _ _ = _ |- _ => rewrite H; clear H | H : parse_iso _ = _ |- context [parse_iso] => rewrite H
  end.
Ltac nofail := match goal with H : fail _ _ _ = ROk _ _, E : r_errs _ = r_errs _ |- _ => destruct (fail_errs _ _ _ _ _ H E) end.
Lemma enum_iff : forall g e n (s : st) v b c s', (assign_enum g e n s = ROk (v, b, c) s' /\ r_errs s' = r_errs s) <->
  (s' = s /\ b = true /\ c = false /\ enum_sets g e n v).
Proof.
  intros g e n s v b c s'. split.
  - intros [H E]. unfold assign_enum in H. destruct (slookup (en_entries e) n) as [x|] eqn:El; [|nofail].
    destruct (en_kind e) eqn:Ek; try nofail; destruct x; try discriminate H; destruct g as [[] []]; try discriminate H;
      cbn in H; injection H; intros; subst; repeat (split; [reflexivity|]);
      [eapply es_int; eauto; now apply wrap_int_ok|eapply es_uint; eauto; now apply wrap_uint_ok|eapply es_string; eauto].
  - intros (-> & -> & -> & H). split; auto. unfold assign_enum. inversion H; subst.
    + rewrite H1, H0. reflexivity.
    + rewrite H1, H0. apply wrap_int_ok in H2. cbn. now rewrite H2.
    + rewrite H1, H0. apply wrap_uint_ok in H2. cbn. now rewrite H2.
Qed.
Lemma id_iff : forall g n (s : st) v b c s', (assign_id g n s = ROk (v, b, c) s' /\ r_errs s' = r_errs s) <->
  (s' = s /\ b = true /\ c = false /\ id_sets g n v).
Proof.
  intros g n s v b c s'. split.
  - intros [H E]. unfold assign_id in H. destruct g as [ro x]. cbn [snd] in H. destruct x; cbn [kind_of] in H; try nofail.
    + destruct (parse_int n) eqn:P; try nofail. destruct ro; cbn in H; try discriminate. injection H; intros; subst. repeat (split; [reflexivity|]).
      apply parse_int_ok in P. eapply is_int; [apply P|apply P|now apply wrap_int_ok].
    + destruct (parse_int n) as [z| |] eqn:P; try nofail. destruct (z <? 0)%Z eqn:Z0; try nofail. destruct ro; cbn in H; try discriminate. injection H; intros; subst. repeat (split; [reflexivity|]).
      apply parse_int_ok in P. eapply is_uint; [apply P|apply P|lia|now apply wrap_uint_ok].
    + destruct ro; cbn in H; try discriminate. injection H; intros; subst. repeat (split; [reflexivity|]). constructor.
  - intros (-> & -> & -> & H). split; auto. unfold assign_id. inversion H; subst; cbn [snd kind_of].
    + reflexivity.
    + assert (P : parse_int n = NumOk z) by now apply parse_int_ok. rewrite P. apply wrap_int_ok in H2. cbn. now rewrite H2.
    + assert (P : parse_int n = NumOk z) by now apply parse_int_ok. rewrite P. destruct (z <? 0)%Z eqn:Z0; [lia|]. apply wrap_uint_ok in H3. cbn. now rewrite H3.
Qed.
Lemma file_iff : forall g n (s : st) v b c s', (assign_file X g n s = ROk (v, b, c) s' /\ r_errs s' = r_errs s) <->
  (s' = set_world (r_world s') s /\ b = true /\ c = false /\ file_sets X (r_world s) g n (r_world s') v).
Proof.
  intros g n s v b c s'. unfold assign_file. split.
  - intros [H E]. destruct (x_formfile X) as [get|] eqn:F; [|discriminate]. destruct (get (r_world s) n) as [w r] eqn:G. destruct r as [f|m].
    + destruct g as [[] x]; cbn in H; [discriminate|]. injection H; intros; subst. repeat (split; [reflexivity|]). econstructor; eauto.
    + exfalso. eapply fail_errs; [exact H|]. rewrite E. reflexivity.
  - intros (Es & -> & -> & H). inversion H; subst. match goal with F : x_formfile X = Some _, G : _ = (_, inl _) |- _ => rewrite F, G end. cbn. split; [now rewrite <- Es|]. rewrite Es. reflexivity.
Qed.
Lemma string_iff : forall g i n (s : st) v b c s', (assign_string X S g i n s = ROk (v, b, c) s' /\ r_errs s' = r_errs s) <->
  (s' = set_world (r_world s') s /\ b = true /\ c = false /\ str_sets X S (r_world s) g i n (r_world s') v).
Proof.
  intros g i n s v b c s'. unfold assign_string. split.
  - intros [H E]. destruct (i_enum i) as [k|] eqn:Ee.
    { destruct (nth_error (s_enums S) k) as [e|] eqn:En; [|discriminate]. change (assign_enum g e n s = ROk (v, b, c) s') in H.
      pose proof (proj1 (enum_iff _ _ _ _ _ _ _ _) (conj H E)) as (-> & -> & -> & R). rewrite set_world_same. repeat (split; [reflexivity|]). eapply ss_enum; eauto. }
    destruct (i_isid i) eqn:Ei.
    { pose proof (proj1 (id_iff _ _ _ _ _ _ _) (conj H E)) as (-> & -> & -> & R). rewrite set_world_same. repeat (split; [reflexivity|]). eapply ss_id; eauto. }
    destruct (i_isfile i) eqn:Ef.
    { destruct (x_formfile X) as [get|] eqn:Ex; [|nofail]. pose proof (proj1 (file_iff _ _ _ _ _ _ _) (conj H E)) as (A & -> & -> & R). repeat (split; auto). eapply ss_file; eauto. }
    destruct (i_istime i) eqn:Et.
    { unfold assign_time in H. destruct (parse_iso n) as [t|] eqn:Ep; [|nofail]. destruct g as [[] x]; cbn in H; [discriminate|]. injection H; intros; subst.
      rewrite set_world_same. repeat (split; [reflexivity|]). eapply ss_time; eauto. }
    destruct g as [ro x]. cbn [snd] in H. destruct x; cbn [kind_of] in H; try nofail. destruct ro; cbn in H; [discriminate|]. injection H; intros; subst.
    rewrite set_world_same. repeat (split; [reflexivity|]). eapply ss_string; eauto.
  - intros (Es & -> & -> & H). inversion H; subst.
    + rw. cbn [of_opt]. assert (s' = s) as -> by same. apply enum_iff. auto.
    + rw. assert (s' = s) as -> by same. apply id_iff. auto.
    + rw. inversion H3; subst. match goal with F : x_formfile X = Some _ |- _ => rewrite F end. apply file_iff. auto.
    + rw. assert (s' = s) as -> by same. unfold assign_time. rw. split; reflexivity.
    + rw. assert (s' = s) as -> by same. split; reflexivity.
Qed.
Lemma int_iff : forall g t (s : st) v b c s', (int_literal X g t s = ROk (v, b, c) s' /\ r_errs s' = r_errs s) <->
  (s' = s /\ b = true /\ c = false /\ int_sets X g t v).
Proof.
  intros g t s v b c s'. split.
  - intros [H E]. unfold int_literal in H. destruct g as [ro x]. cbn [snd] in H. destruct x; cbn [kind_of] in H; try nofail.
    + destruct (parse_int t) eqn:P; try nofail. destruct ro; cbn in H; try discriminate. injection H; intros; subst. repeat (split; [reflexivity|]).
      apply parse_int_ok in P. eapply it_bool; apply P.
    + destruct (parse_int t) as [y| |] eqn:P; try nofail. apply parse_int_ok in P. destruct P as [P R]. destruct (fits_int w y) eqn:F; try nofail.
      apply fits_int_ok in F; auto. destruct ro; cbn in H; try discriminate. injection H; intros; subst. repeat (split; [reflexivity|]).
      replace (wrap_int w y) with y by (symmetry; apply wrap_int_ok; now apply low_bits_same). now apply it_int.
    + destruct (parse_uint t) as [y| |] eqn:P; try nofail. apply parse_uint_ok in P. destruct P as [P R]. destruct (fits_uint w y) eqn:F; try nofail.
      apply fits_uint_ok in F; auto. destruct ro; cbn in H; try discriminate. injection H; intros; subst. repeat (split; [reflexivity|]).
      replace (wrap_uint w y) with y by (unfold wrap_uint; symmetry; now apply N.mod_small). now apply it_uint.
    + destruct (parse_int t) as [y| |] eqn:P; try nofail. apply parse_int_ok in P. destruct P as [P R]. destruct ro; cbn in H; try discriminate. injection H; intros; subst. repeat (split; [reflexivity|]).
      now apply it_float.
  - intros (-> & -> & -> & H). split; auto. unfold int_literal. inversion H; subst; cbn [snd kind_of].
    + assert (P : parse_int t = NumOk z) by (apply parse_int_ok; split; auto; eapply int_range_64; eauto). rewrite P.
      assert (F : fits_int w z = true) by (apply fits_int_ok; auto; eapply int_range_64; eauto). rewrite F. cbn.
      replace (wrap_int w z) with z by (symmetry; apply wrap_int_ok; now apply low_bits_same). reflexivity.
    + assert (P : parse_uint t = NumOk n) by (apply parse_uint_ok; split; auto; eapply uint_range_64; eauto). rewrite P.
      assert (F : fits_uint w n = true) by (apply fits_uint_ok; auto; eapply uint_range_64; eauto). rewrite F. cbn.
      replace (wrap_uint w n) with n by (unfold wrap_uint; symmetry; now apply N.mod_small). reflexivity.
    + assert (P : parse_int t = NumOk z) by (apply parse_int_ok; auto). rewrite P. reflexivity.
    + assert (P : parse_int t = NumOk z) by (apply parse_int_ok; auto). rewrite P. reflexivity.
Qed.
(** resolver.go 1230-1293 as a whole *)
Definition number_part (g : rv) (raw : bytes) : @rm W bres :=
  match kind_of (snd g) with KFloat _ => bind (set_float X g (x_json_float X raw)) okay | _ => json_number X g raw end.
Lemma num_iff : forall g t (s : st) v b c s', (number_part g t s = ROk (v, b, c) s' /\ r_errs s' = r_errs s) <->
  (s' = s /\ b = true /\ c = false /\ num_sets X g t v).
Proof.
  intros g t s v b c s'. split.
  - intros [H E]. unfold number_part, json_number in H. destruct g as [ro x]. cbn [snd] in H.
    destruct x; cbn [kind_of] in H; try (destruct (json_int t) as [y|] eqn:P; [apply json_int_ok in P; destruct P as [P R]|]; nofail).
    + destruct (json_int t) as [y|] eqn:P; try nofail. apply json_int_ok in P. destruct P as [P R]. destruct ro; cbn in H; try discriminate. injection H; intros; subst. repeat (split; [reflexivity|]).
      now apply ns_bool.
    + destruct (json_int t) as [y|] eqn:P; try nofail. apply json_int_ok in P. destruct P as [P R]. destruct (fits_int w y) eqn:F; try nofail.
      apply fits_int_ok in F; auto. destruct ro; cbn in H; try discriminate. injection H; intros; subst. repeat (split; [reflexivity|]).
      replace (wrap_int w y) with y by (symmetry; apply wrap_int_ok; now apply low_bits_same). now apply ns_int.
    + destruct (json_int t) as [y|] eqn:P; try nofail. apply json_int_ok in P. destruct P as [P R]. destruct (y <? 0)%Z eqn:F; try nofail.
      destruct ro; cbn in H; try discriminate. injection H; intros; subst. repeat (split; [reflexivity|]).
      eapply ns_uint; eauto; [lia|]. now apply wrap_uint_ok.
    + destruct ro; cbn in H; try discriminate. injection H; intros; subst. repeat (split; [reflexivity|]). apply ns_float.
  - intros (-> & -> & -> & H). split; auto. unfold number_part, json_number. inversion H; subst; cbn [snd kind_of].
    + assert (P : json_int t = Some z) by (apply json_int_ok; auto). rewrite P.
      assert (F : fits_int w z = true) by (apply fits_int_ok; auto). rewrite F. cbn.
      replace (wrap_int w z) with z by (symmetry; apply wrap_int_ok; now apply low_bits_same). reflexivity.
    + assert (P : json_int t = Some z) by (apply json_int_ok; auto). rewrite P. destruct (z <? 0)%Z eqn:F; [lia|]. apply wrap_uint_ok in H3. cbn. now rewrite H3.
    + assert (P : json_int t = Some z) by (apply json_int_ok; auto). rewrite P. reflexivity.
    + reflexivity.
Qed.

(** ** JSON variables *)
Lemma ptr_no : forall g i f (m : @rm W bres), is_ptr i = false -> through_ptr g i f m = m.
Proof. intros g i f m H. unfold is_ptr in H. unfold through_ptr. destruct (i_kind i); auto. destruct (i_isfile i); auto. discriminate. Qed.
Lemma ptr_yes : forall g i f (m : @rm W bres), is_ptr i = true -> through_ptr g i f m =
  bind (of_opt (i_elem i)) (fun e => bind (f (false, i_zero e) e) (fun '(v, set_, crit) =>
    if crit : bool then ret (snd g, false, true)
    else if set_ : bool then (bind (set_any g (GPtr (Some v))) (fun v' => ret (v', true, false)))
    else ret (snd g, false, false))).
Proof. intros g i f m H. unfold is_ptr in H. unfold through_ptr. destruct (i_kind i); try discriminate. destruct (i_isfile i); auto. discriminate. Qed.
Definition special_b (i : input) : bool := match i_enum i with Some _ => true | None => i_isid i || i_isfile i || i_istime i end.
Lemma special_ok : forall i, special i <-> special_b i = true.
Proof. intro i. unfold special, special_b. destruct (i_enum i); split; auto; try (intros _; left; discriminate); destruct (i_isid i), (i_isfile i), (i_istime i); cbn; intuition congruence. Qed.
Lemma not_special : forall i, ~ special i -> i_enum i = None /\ i_isid i = false /\ i_isfile i = false /\ i_istime i = false.
Proof. intros i H. rewrite special_ok in H. unfold special_b in H. destruct (i_enum i), (i_isid i), (i_isfile i), (i_istime i); cbn in H; try tauto; exfalso; apply H; reflexivity. Qed.
Lemma content_iff : forall i (s : st) c s', content_of S i s = ROk c s' <-> s' = s /\ contents S i c.
Proof.
  intros i s c s'. unfold content_of. split.
  - destruct (i_structptr i) eqn:E; [destruct (slookup _ _) eqn:F; [|discriminate]|]; intros H; injection H; intros; subst; split; auto; [eapply ct_ref|eapply ct_here]; eauto.
  - intros [-> H]. inversion H; subst; rewrite H0; auto. now rewrite H1.
Qed.

Definition j_members (fuel : nat) (c : list (bytes * input)) (ro : bool) := fix members (v : gval) (m : list (bytes * fj)) : @rm W bres :=
  match m with
  | [] => okay v
  | (k, jv) :: r =>
      match slookup c k with
      | None => bind (err (bs "undefined property " ++ k)) (fun _ => ret (v, true, true))
      | Some fi =>
          bind (field_of (ro, v) (i_field fi)) (fun f =>
          bind (bind_json X S fuel f fi jv) (fun '(fv, _, crit) =>
          let v := put_field v (i_field fi) fv in
          if crit : bool then ret (v, true, true) else members v r))
      end
  end.
Definition j_elems (fuel : nat) (g : rv) (i : input) := fix elems (l : list fj) (acc : list gval) : @rm W bres :=
  match l with
  | [] => bind (set_any g (GSlice (Some acc))) okay
  | jv :: r =>
      bind (of_opt (i_elem i)) (fun ei =>
      bind (bind_json X S fuel (false, i_zero ei) ei jv) (fun '(ev, _, crit) =>
      if crit : bool then ret (snd g, false, true) else elems r (acc ++ [ev])))
  end.
(** bindJSONToValue by cases *)
Definition j_body (fuel : nat) (g : rv) (i : input) (j : fj) : @rm W bres :=
  if special_b i then
    match j with
    | FString s => match i_enum i with
                   | Some k => bind (of_opt (nth_error (s_enums S) k)) (fun e => assign_enum g e s)
                   | None => if i_isid i then assign_id g s else if i_isfile i then assign_file X g s else assign_time g s
                   end
    | _ => fail g (bs "cannot assign " ++ fj_type j ++ bs " to " ++
                   (match i_enum i with Some _ => bs "Enum" | None => if i_isid i then bs "ID" else if i_isfile i then bs "File" else bs "Time" end) ++ bs " value")
    end
  else
    match j with
    | FNull => ret (snd g, false, false)
    | FObject m =>
        match kind_of (snd g) with
        | KStruct => bind (content_of S i) (fun c => j_members fuel c (fst g) (snd g) m)
        | _ => fail g (bs "cannot assign object to non object value")
        end
    | FArray l =>
        match kind_of (snd g) with
        | KSlice => j_elems fuel g i l []
        | _ => fail g (bs "cannot assign slice to " ++ x_gostring X (snd g))
        end
    | FString s => assign_string X S g i s
    | FNumber raw => number_part g raw
    | FTrue => match kind_of (snd g) with
               | KBool => bind (set_bool g true) okay
               | _ => fail g (bs "cannot assign boolean to " ++ x_gostring X (snd g))
               end
    | FFalse => match kind_of (snd g) with
                | KBool => bind (set_bool g false) okay
                | _ => fail g (bs "cannot assign boolean to " ++ x_gostring X (snd g))
                end
    end.
Lemma json_step : forall fuel g i j, bind_json X S (Datatypes.S fuel) g i j =
  through_ptr g i (fun g i => bind_json X S fuel g i j) (j_body fuel g i j).
Proof.
  intros fuel g i j. cbn [bind_json]. f_equal. unfold j_body, special_b, number_part.
  destruct (i_enum i), (i_isid i), (i_isfile i), (i_istime i); cbn [orb]; try (destruct j; reflexivity).
Qed.
End Lit.
