(** * Properties C24, C25, C26: integers given to resolvers *)
From Coq Require Import String Arith NArith ZArith Bool List Lia.
From Verif Require Import Base Json JsonModel Ast Grammar ReqModel Schema ResModel EnvModel Samples Interp Facts DocRun Spec SpecLit SpecVal ArgRun.
Import ListNotations.
Open Scope N_scope.

(** ** A schema with one resolver [f(a)] for the examples: it notes its arguments *)
Definition notes := list (list gval).
Definition note_x (vars : fj) : externals notes :=
  Ext notes (fun w _ a _ => Some (w ++ [a], [GBool true])) (fun w _ _ _ => Some (w, false)) (fun _ => None) None (fun _ => inl vars)
    (fun _ => inl 0) (fun _ => 0) (fun _ => bs "bad number") (fun _ => 0) (fun b => b) (fun _ _ => bs "0.0") (fun _ => bs "value").
Definition note (w : notes) (a : list gval) : notes := w ++ [a].
Definition one_ins (z : gval) : list (option gval) := [Some (GStruct [(true, z)])].
Definition one_infs (i : input) : list (bytes * (nat * input)) := [(bs "a", (O, i))].
Definition one_schema (i : input) (z : gval) : schema :=
  mk_schema (OObj (bs "Query") [fld "f" (OMethod (Method true (one_ins z) (one_infs i) 0 None (OData false KBool))) 0]) (GStruct []) [] [] [].
Lemma one_probe : forall vars i z, probe (note_x vars) (one_schema i z) (bs "f") (one_ins z) (one_infs i) note.
Proof.
  intros vars i z. split; [|reflexivity]. exists O, (bs "f"), false. split; [|reflexivity]. unfold one_schema, mk_schema. cbn [s_query o_fields fld nlookup]. change (fnv1 (bs "f") =? fnv1 (bs "f")) with true. reflexivity.
Qed.
Lemma one_slot : forall i z, i_field i = O -> is_ptr i = false -> slot (one_ins z) (one_infs i) (bs "a") i z (fun v => v).
Proof. intros i z F P. apply slot_value; auto. exists O, [(true, z)]. rewrite F. repeat split; reflexivity. Qed.
Lemma one_args : forall i z y, i_field i = O -> args_with (one_ins z) (one_infs i) (bs "a") y = [GStruct [(true, y)]].
Proof. intros i z y F. unfold args_with, one_infs. cbn [slookup]. change (beqb (bs "a") (bs "a")) with true. cbv beta iota. rewrite F. reflexivity. Qed.
Lemma f_name : valid_name (bs "f"). Proof. apply (valid_name_intro 102 []); [left; lia|constructor|cbn; lia]. Qed.
Lemma a_name : valid_name (bs "a"). Proof. apply (valid_name_intro 97 []); [left; lia|constructor|cbn; lia]. Qed.

(** ** C24: integer literals *)
Lemma dec_none : forall c t, (48 <=? c) && (c <=? 57) = false -> dec_value (c :: t) = None.
Proof. intros c t H. unfold dec_value. cbn [fold_left]. rewrite H. clear. induction t; auto. Qed.
Lemma int_signed : forall t z, int_value t = Some z -> signed_value t = Some z.
Proof. intros [|c t] z H; [exact H|]. unfold signed_value. destruct (N.eq_dec c 43) as [->|N]; [unfold int_value in H; rewrite dec_none in H by reflexivity; discriminate|]. destruct c as [|p]; auto. do 6 (try (destruct p as [p|p|]; auto)). congruence. Qed.
(** the text of an integer *)
Lemma int_text : forall o f a t z, valid_name f -> valid_name a -> op_target o = [] -> int_value t = Some z -> N.of_nat (length t) < 3000000000 -> asks o None f [(a, VInt t)] (ask_text f a t).
Proof.
  intros o f a t z Vf Va T V L. apply asks_text; auto; [|exact Logic.I|cbn [enc_value]; unfold enc_tagged, le32; rewrite ?app_length; cbn [length]; lia].
  assert (D : forall d, dec_value d <> None -> Forall is_digit d /\ d <> []).
  { intros d H. split; [|intros ->; now apply H]. destruct d as [|c d]; [constructor|]. unfold dec_value in H. revert H. generalize 0 as acc. generalize (c :: d). clear. intros l.
    induction l as [|c l IH]; intros acc H; [constructor|]. cbn [fold_left] in H. destruct ((48 <=? c) && (c <=? 57)) eqn:E.
    - constructor; [unfold is_digit; lia|]. eapply IH; eauto.
    - exfalso. apply H. clear. induction l as [|c l IH]; auto. }
  assert (St : forall d, Forall is_digit d -> strip_und d = d).
  { intros d H. induction H as [|c d Hc H IH]; [reflexivity|]. cbn. unfold is_digit in Hc. destruct (c =? 95) eqn:E; [lia|]. cbn. f_equal. exact IH. }
  assert (Nu : exists sgn d, t = sgn ++ d /\ Forall is_digit d /\ d <> [] /\ g_sign sgn sgn /\ num_start (hd 0 t)).
  { assert (M : t = 45 :: tl t \/ hd 0 t <> 45) by (destruct t as [|c t]; [right; discriminate|]; destruct (N.eq_dec c 45) as [->|]; auto). destruct M as [M|M].
    - rewrite M in V |- *. cbn [int_value] in V. destruct (D (tl t)) as [A B]; [destruct (dec_value (tl t)); discriminate|]. exists [45], (tl t). repeat (split; auto); [constructor|left; reflexivity].
    - assert (V' : dec_value t <> None). { destruct t as [|c t]; [discriminate|]. cbn [hd] in M. unfold int_value in V. intro N. rewrite N in V. destruct c as [|p]; [discriminate|]. do 6 (try (destruct p as [p|p|]; try discriminate)). now apply M. }
      destruct (D t V') as [A B]. exists [], t. repeat (split; auto); [constructor|]. destruct t as [|c t]; [contradiction|]. inversion A; subst. right; right; right; auto. }
  destruct Nu as (sgn & d & E & Fd & Nd & Gs & Ns). destruct t as [|c t]; [destruct sgn; [cbn in E; congruence|discriminate]|].
  eapply gv_num; [cbn [app]; apply ign_self; cbn [hd] in Ns; unfold num_start, is_digit in Ns; cbn [In]; lia|exact Ns|].
  change (c :: t ++ bs ")}") with ((c :: t) ++ 41 :: [125]). change (bs ")}") with (41 :: [125]). rewrite E, <- app_assoc. rewrite <- (St d Fd) at 1. apply g_number_int; auto; [|left; cbn; tauto].
  unfold digit_run. eapply Forall_impl; [|exact Fd]. auto.
Qed.

Section C24.
Context {W : Type} (X : externals W) (S : schema) (o : ropts) (decls : option (list oparg)).
Context (f : bytes) (ins : list (option gval)) (infs : list (bytes * (nat * input))) (seen : W -> list gval -> W).
(** a signed integer argument receives exactly the written number, or the request is refused *)
Theorem C24_signed : forall a i k old wr t z q w,
  probe X S f ins infs seen -> slot ins infs a i (GInt k old) wr -> asks o decls f [(a, VInt t)] q -> int_value t = Some z ->
  (int_range k z -> received X S o seen q w (args_with ins infs a (wr (GInt k z)))) /\
  (~ int_range k z -> refused X S o q w).
Proof.
  intros a i k old wr t z q w P Sl A V. apply int_signed in V. split; intro R.
  - eapply slot_received; eauto; [discriminate|]. apply ls_int; [eapply slot_direct; eauto|]. now apply it_int.
  - eapply slot_refused; eauto; [discriminate|]. exists 1%nat. apply no_lit_int; [eapply slot_direct; eauto|]. intros v H. inversion H; subst. apply R. congruence.
Qed.
(** an unsigned one the same, for texts without a minus sign *)
Theorem C24_unsigned : forall a i k old wr t n q w,
  probe X S f ins infs seen -> slot ins infs a i (GUint k old) wr -> asks o decls f [(a, VInt t)] q -> dec_value t = Some n ->
  (uint_range k n -> received X S o seen q w (args_with ins infs a (wr (GUint k n)))) /\
  (~ uint_range k n -> refused X S o q w).
Proof.
  intros a i k old wr t n q w P Sl A V. split; intro R.
  - eapply slot_received; eauto; [discriminate|]. apply ls_int; [eapply slot_direct; eauto|]. now apply it_uint.
  - eapply slot_refused; eauto; [discriminate|]. exists 1%nat. apply no_lit_int; [eapply slot_direct; eauto|]. intros v H. inversion H; subst. apply R. congruence.
Qed.
(** with a minus sign it is refused, even minus zero *)
Theorem C24_unsigned_minus : forall a i k old wr t z q w,
  probe X S f ins infs seen -> slot ins infs a i (GUint k old) wr -> asks o decls f [(a, VInt (45 :: t))] q -> int_value (45 :: t) = Some z -> refused X S o q w.
Proof.
  intros a i k old wr t z q w P Sl A V. eapply slot_refused; eauto; [discriminate|]. exists 1%nat. apply no_lit_int; [eapply slot_direct; eauto|]. intros v H. inversion H; subst.
  rewrite dec_none in * by reflexivity. discriminate.
Qed.
End C24.
Print Assumptions C24_signed.
Print Assumptions C24_unsigned.
Print Assumptions C24_unsigned_minus.
(** -128 and 127 for int8, 128 not; 255 for uint8, 256 not *)
Lemma lit_asks : forall t z, int_value t = Some z -> N.of_nat (length t) < 3000000000 -> asks no_opts None (bs "f") [(bs "a", VInt t)] (ask_text (bs "f") (bs "a") t).
Proof. intros t z V L. eapply int_text; eauto; [apply f_name|apply a_name]. Qed.
Definition i8 : input := inp (KInt W8) 0 (GInt W8 0).
Definition u8 : input := inp (KUint W8) 0 (GUint W8 0).
Example C24_case :
  received (note_x FNull) (one_schema i8 (GInt W8 0)) no_opts note (bs "{f(a:-128)}") [] [GStruct [(true, GInt W8 (-128))]] /\
  refused (note_x FNull) (one_schema i8 (GInt W8 0)) no_opts (bs "{f(a:128)}") [] /\
  received (note_x FNull) (one_schema u8 (GUint W8 0)) no_opts note (bs "{f(a:0255)}") [] [GStruct [(true, GUint W8 255)]] /\
  refused (note_x FNull) (one_schema u8 (GUint W8 0)) no_opts (bs "{f(a:256)}") [].
Proof.
  split; [|split; [|split]].
  - apply (proj1 (C24_signed (note_x FNull) (one_schema i8 (GInt W8 0)) no_opts None (bs "f") (one_ins (GInt W8 0)) (one_infs i8) note (bs "a") i8 W8 0%Z (fun v => v) (bs "-128") (-128)%Z _ []
      (one_probe _ _ _) (one_slot i8 _ eq_refl eq_refl) (lit_asks (bs "-128") (-128)%Z eq_refl eq_refl) eq_refl)). unfold int_range. cbn. lia.
  - apply (proj2 (C24_signed (note_x FNull) (one_schema i8 (GInt W8 0)) no_opts None (bs "f") (one_ins (GInt W8 0)) (one_infs i8) note (bs "a") i8 W8 0%Z (fun v => v) (bs "128") (128)%Z _ []
      (one_probe _ _ _) (one_slot i8 _ eq_refl eq_refl) (lit_asks (bs "128") 128%Z eq_refl eq_refl) eq_refl)). unfold int_range. cbn. lia.
  - apply (proj1 (C24_unsigned (note_x FNull) (one_schema u8 (GUint W8 0)) no_opts None (bs "f") (one_ins (GUint W8 0)) (one_infs u8) note (bs "a") u8 W8 0 (fun v => v) (bs "0255") 255 _ []
      (one_probe _ _ _) (one_slot u8 _ eq_refl eq_refl) (lit_asks (bs "0255") 255%Z eq_refl eq_refl) eq_refl)). unfold uint_range. cbn. lia.
  - apply (proj2 (C24_unsigned (note_x FNull) (one_schema u8 (GUint W8 0)) no_opts None (bs "f") (one_ins (GUint W8 0)) (one_infs u8) note (bs "a") u8 W8 0 (fun v => v) (bs "256") 256 _ []
      (one_probe _ _ _) (one_slot u8 _ eq_refl eq_refl) (lit_asks (bs "256") 256%Z eq_refl eq_refl) eq_refl)). unfold uint_range. cbn. lia.
Qed.
(** the ranges are those of the Go types (Go language specification, numeric types; int and uint have 64 bits) *)
Theorem C24_ranges : forall z n,
  (int_range W8 z <-> -128 <= z <= 127)%Z /\ (int_range W16 z <-> -32768 <= z <= 32767)%Z /\ (int_range W32 z <-> -2147483648 <= z <= 2147483647)%Z /\
  (int_range W64 z <-> -9223372036854775808 <= z <= 9223372036854775807)%Z /\ (int_range WInt z <-> -9223372036854775808 <= z <= 9223372036854775807)%Z /\
  (uint_range W8 n <-> n <= 255) /\ (uint_range W16 n <-> n <= 65535) /\ (uint_range W32 n <-> n <= 4294967295) /\
  (uint_range W64 n <-> n <= 18446744073709551615) /\ (uint_range WInt n <-> n <= 18446744073709551615).
Proof.
  intros z n. unfold int_range, uint_range. cbn [bits]. change (Z.of_N 8 - 1)%Z with 7%Z. change (Z.of_N 16 - 1)%Z with 15%Z. change (Z.of_N 32 - 1)%Z with 31%Z. change (Z.of_N 64 - 1)%Z with 63%Z.
  change (2 ^ 7)%Z with 128%Z. change (2 ^ 15)%Z with 32768%Z. change (2 ^ 31)%Z with 2147483648%Z. change (2 ^ 63)%Z with 9223372036854775808%Z.
  change (2 ^ 8) with 256. change (2 ^ 16) with 65536. change (2 ^ 32) with 4294967296. change (2 ^ 64) with 18446744073709551616. lia.
Qed.
Print Assumptions C24_ranges.
(** [-0] is the number 0, in range for every unsigned type, but is refused *)
Theorem C24_minus_zero_refuted : exists (S : schema) (q : bytes) i, slot (one_ins (GUint W8 0)) (one_infs i) (bs "a") i (GUint W8 0) (fun v => v) /\
  asks no_opts None (bs "f") [(bs "a", VInt (bs "-0"))] q /\ int_value (bs "-0") = Some 0%Z /\ refused (note_x FNull) S no_opts q [].
Proof.
  exists (one_schema u8 (GUint W8 0)), (ask_text (bs "f") (bs "a") (bs "-0")), u8. split; [now apply one_slot|]. split; [now apply (lit_asks (bs "-0") 0%Z)|]. split; [reflexivity|].
  eapply C24_unsigned_minus; [apply one_probe|now apply one_slot|apply (lit_asks (bs "-0") 0%Z); reflexivity|reflexivity].
Qed.
Print Assumptions C24_minus_zero_refuted.

(** ** C25: integer variables *)
(** the variable [v] is declared with a type that fits [i], and has this value in the JSON variables *)
Definition has_value {W} (X : externals W) (S : schema) (o : ropts) (decls : option (list oparg)) (v : bytes) (i : input) (j : fj) : Prop :=
  exists d, declared decls v = Some d /\ type_fits S i (oa_type d) /\ jvar X (op_vars o) v (Some j).
Lemma at_f_fine : forall W (X : externals W) o f w, vars_fine X (op_vars o) (at_f f w).
Proof. intros. now left. Qed.
Lemma number_binds : forall W (X : externals W) S g i t s, is_ptr i = false -> ~ special i -> bind_json X S 1 g i (FNumber t) s = number_part X g t s.
Proof.
  intros W X S g i t s P N. rewrite json_step, ptr_no by auto. unfold j_body. destruct (special_b i) eqn:E; [|reflexivity]. apply special_ok in E. contradiction.
Qed.
Section C25.
Context {W : Type} (X : externals W) (S : schema) (o : ropts) (decls : option (list oparg)).
Context (f : bytes) (ins : list (option gval)) (infs : list (bytes * (nat * input))) (seen : W -> list gval -> W).
Lemma var_number : forall a i old wr v t q w, probe X S f ins infs seen -> slot ins infs a i old wr -> ~ special i -> asks o decls f [(a, VVar v)] q -> has_value X S o decls v i (FNumber t) ->
  (forall y, num_sets X (false, old) t y -> received X S o seen q w (args_with ins infs a (wr y))) /\
  ((forall y, ~ num_sets X (false, old) t y) -> refused X S o q w).
Proof.
  intros a i old wr v t q w P Sl Ns A (d & D & T & J). pose proof (slot_direct _ _ _ _ _ _ Sl) as Ip. split.
  - intros y H. eapply slot_received; eauto; [discriminate|]. eapply ls_var; eauto. apply js_num; auto.
  - intros H. eapply slot_refused; eauto; [discriminate|]. destruct (num_no X old t (at_f f w) H) as (m & E).
    destruct (no_json X S (op_vars o) decls (false, old) i v d (FNumber t) w m 1 Ip D T J) as (n & N); [intro s; rewrite number_binds by auto; apply E|]. exists n. apply N; [apply at_f_fine|reflexivity].
Qed.
(** a signed integer argument receives exactly the number of the variable, or the request is refused *)
Theorem C25_signed : forall a i k old wr v t z q w,
  probe X S f ins infs seen -> slot ins infs a i (GInt k old) wr -> ~ special i -> asks o decls f [(a, VVar v)] q ->
  has_value X S o decls v i (FNumber t) -> int_value t = Some z ->
  (int_range k z -> received X S o seen q w (args_with ins infs a (wr (GInt k z)))) /\
  (~ int_range k z -> refused X S o q w).
Proof.
  intros a i k old wr v t z q w P Sl Ns A H V. destruct (var_number a i _ wr v t q w P Sl Ns A H) as [Y N]. split; intro R.
  - apply Y. apply ns_int; auto. unfold int_range in *. assert (Z.of_N (bits k) <= 64)%Z by (destruct k; cbn; lia). assert (1 <= Z.of_N (bits k))%Z by (destruct k; cbn; lia).
    change (Z.of_N (bits W64)) with 64%Z. assert (2 ^ (Z.of_N (bits k) - 1) <= 2 ^ (64 - 1))%Z by (apply Z.pow_le_mono_r; lia). lia.
  - apply N. intros y Hy. inversion Hy; subst. apply R. congruence.
Qed.
(** an unsigned one receives the low bits of the number if it is not negative and below 2^63, otherwise the request is refused *)
Theorem C25_unsigned_low_bits : forall a i k old wr v t z q w,
  probe X S f ins infs seen -> slot ins infs a i (GUint k old) wr -> ~ special i -> asks o decls f [(a, VVar v)] q ->
  has_value X S o decls v i (FNumber t) -> int_value t = Some z ->
  ((0 <= z < 2 ^ 63)%Z -> received X S o seen q w (args_with ins infs a (wr (GUint k (Z.to_N z mod 2 ^ bits k))))) /\
  (~ (0 <= z < 2 ^ 63)%Z -> refused X S o q w).
Proof.
  intros a i k old wr v t z q w P Sl Ns A H V. destruct (var_number a i _ wr v t q w P Sl Ns A H) as [Y N]. split; intro R.
  - apply Y. eapply ns_uint; eauto; [unfold int_range; change (Z.of_N (bits W64) - 1)%Z with 63%Z; lia|lia|]. split; auto. apply N.mod_lt. apply N.pow_nonzero. lia.
  - apply N. intros y Hy. inversion Hy; subst. apply R. assert (z0 = z) by congruence. subst z0. match goal with I : int_range W64 _ |- _ => unfold int_range in I; change (Z.of_N (bits W64) - 1)%Z with 63%Z in I end. lia.
Qed.
(** so it is exact where both ranges agree *)
Corollary C25_unsigned_partial : forall a i k old wr v t z q w,
  probe X S f ins infs seen -> slot ins infs a i (GUint k old) wr -> ~ special i -> asks o decls f [(a, VVar v)] q ->
  has_value X S o decls v i (FNumber t) -> int_value t = Some z ->
  ((0 <= z < 2 ^ 63)%Z /\ (z < 2 ^ Z.of_N (bits k))%Z -> received X S o seen q w (args_with ins infs a (wr (GUint k (Z.to_N z))))) /\
  ((z < 0)%Z -> refused X S o q w).
Proof.
  intros a i k old wr v t z q w P Sl Ns A H V. destruct (C25_unsigned_low_bits a i k old wr v t z q w P Sl Ns A H V) as [Y N]. split; [intros [R1 R2]|intro R; apply N; lia].
  rewrite <- (N.mod_small (Z.to_N z) (2 ^ bits k)); [now apply Y|]. apply N2Z.inj_lt. rewrite Z2N.id by lia. rewrite N2Z.inj_pow. exact R2.
Qed.
End C25.
Print Assumptions C25_signed.
Print Assumptions C25_unsigned_low_bits.
Print Assumptions C25_unsigned_partial.
Definition json_of (t : bytes) : fj := FObject [(bs "v", FNumber t)].
Definition with_vars : ropts := ROpts false [] (bs "{}") None.   (* the text is not looked at by note_x *)
Definition int_decl : option (list oparg) := Some [OpArg (bs "v") (TyName (bs "Int") false) None].
Ltac vname := match goal with |- valid_name ?n => let m := eval vm_compute in n in change (valid_name m); match m with ?c :: ?r => apply (valid_name_intro c r); [unfold is_letter; lia|repeat (constructor; [unfold is_name_char, is_letter, is_digit; lia|]); constructor|cbn; lia] end end.
Lemma var_asks : forall ty, valid_name ty -> asks with_vars (Some [OpArg (bs "v") (TyName ty false) None]) (bs "f") [(bs "a", VVar (bs "v"))] (ask_var_text (bs "f") (bs "a") (bs "v") ty).
Proof. intros ty V. apply asks_var_text; [vname|vname|vname|exact V|reflexivity]. Qed.
Lemma int_asks : asks with_vars int_decl (bs "f") [(bs "a", VVar (bs "v"))] (bs "query($v:Int){f(a:$v)}").
Proof. apply var_asks. vname. Qed.
Lemma num_value : forall S i t, type_fits S i (TyName (bs "Int") false) -> has_value (note_x (json_of t)) S with_vars int_decl (bs "v") i (FNumber t).
Proof. intros S i t F. exists (OpArg (bs "v") (TyName (bs "Int") false) None). split; [reflexivity|]. split; [exact F|]. apply (jv_some (note_x (json_of t)) (op_vars with_vars) (bs "v") [(bs "v", FNumber t)]); [discriminate|reflexivity]. Qed.
Lemma plain_i8 : ~ special i8. Proof. intros [H|[H|[H|H]]]; try discriminate; now apply H. Qed.
Lemma plain_u8 : ~ special u8. Proof. intros [H|[H|[H|H]]]; try discriminate; now apply H. Qed.
Lemma fits_i8 : forall S, type_fits S i8 (TyName (bs "Int") false). Proof. intro S. apply tf_name. apply nf_kind; [apply plain_i8|reflexivity]. Qed.
Lemma fits_u8 : forall S, type_fits S u8 (TyName (bs "Int") false). Proof. intro S. apply tf_name. apply nf_kind; [apply plain_u8|reflexivity]. Qed.
Example C25_case :
  received (note_x (json_of (bs "-128"))) (one_schema i8 (GInt W8 0)) with_vars note (bs "query($v:Int){f(a:$v)}") [] [GStruct [(true, GInt W8 (-128))]] /\
  refused (note_x (json_of (bs "200"))) (one_schema i8 (GInt W8 0)) with_vars (bs "query($v:Int){f(a:$v)}") [] /\
  received (note_x (json_of (bs "255"))) (one_schema u8 (GUint W8 0)) with_vars note (bs "query($v:Int){f(a:$v)}") [] [GStruct [(true, GUint W8 255)]] /\
  refused (note_x (json_of (bs "-1"))) (one_schema u8 (GUint W8 0)) with_vars (bs "query($v:Int){f(a:$v)}") [].
Proof.
  split; [|split; [|split]].
  - apply (proj1 (C25_signed (note_x (json_of (bs "-128"))) (one_schema i8 (GInt W8 0)) with_vars int_decl (bs "f") (one_ins (GInt W8 0)) (one_infs i8) note (bs "a") i8 W8 0%Z (fun v => v) (bs "v") (bs "-128") (-128)%Z _ []
      (one_probe _ _ _) (one_slot i8 _ eq_refl eq_refl) plain_i8 int_asks (num_value _ _ _ (fits_i8 _)) eq_refl)). unfold int_range. cbn. lia.
  - apply (proj2 (C25_signed (note_x (json_of (bs "200"))) (one_schema i8 (GInt W8 0)) with_vars int_decl (bs "f") (one_ins (GInt W8 0)) (one_infs i8) note (bs "a") i8 W8 0%Z (fun v => v) (bs "v") (bs "200") (200)%Z _ []
      (one_probe _ _ _) (one_slot i8 _ eq_refl eq_refl) plain_i8 int_asks (num_value _ _ _ (fits_i8 _)) eq_refl)). unfold int_range. cbn. lia.
  - apply (proj1 (C25_unsigned_partial (note_x (json_of (bs "255"))) (one_schema u8 (GUint W8 0)) with_vars int_decl (bs "f") (one_ins (GUint W8 0)) (one_infs u8) note (bs "a") u8 W8 0 (fun v => v) (bs "v") (bs "255") 255%Z _ []
      (one_probe _ _ _) (one_slot u8 _ eq_refl eq_refl) plain_u8 int_asks (num_value _ _ _ (fits_u8 _)) eq_refl)). cbn. lia.
  - apply (proj2 (C25_unsigned_partial (note_x (json_of (bs "-1"))) (one_schema u8 (GUint W8 0)) with_vars int_decl (bs "f") (one_ins (GUint W8 0)) (one_infs u8) note (bs "a") u8 W8 0 (fun v => v) (bs "v") (bs "-1") (-1)%Z _ []
      (one_probe _ _ _) (one_slot u8 _ eq_refl eq_refl) plain_u8 int_asks (num_value _ _ _ (fits_u8 _)) eq_refl)). cbn. lia.
Qed.
(** 256 is silently truncated to 0 for a uint8, and 2^63 refused for a uint64 *)
Definition u64 : input := inp (KUint W64) 0 (GUint W64 0).
Lemma plain_u64 : ~ special u64. Proof. intros [H|[H|[H|H]]]; try discriminate; now apply H. Qed.
Lemma fits_u64 : forall S, type_fits S u64 (TyName (bs "Int") false). Proof. intro S. apply tf_name. apply nf_kind; [apply plain_u64|reflexivity]. Qed.
Theorem C25_truncated_refuted : exists t z, int_value t = Some z /\ ~ (z < 2 ^ Z.of_N (bits W8))%Z /\
  received (note_x (json_of t)) (one_schema u8 (GUint W8 0)) with_vars note (bs "query($v:Int){f(a:$v)}") [] [GStruct [(true, GUint W8 0)]].
Proof.
  exists (bs "256"), 256%Z. split; [reflexivity|]. split; [cbn; lia|].
  apply (proj1 (C25_unsigned_low_bits (note_x (json_of (bs "256"))) (one_schema u8 (GUint W8 0)) with_vars int_decl (bs "f") (one_ins (GUint W8 0)) (one_infs u8) note (bs "a") u8 W8 0 (fun v => v) (bs "v") (bs "256") 256%Z _ []
      (one_probe _ _ _) (one_slot u8 _ eq_refl eq_refl) plain_u8 int_asks (num_value _ _ _ (fits_u8 _)) eq_refl)). lia.
Qed.
Theorem C25_large_refuted : exists t z, int_value t = Some z /\ (0 <= z < 2 ^ Z.of_N (bits W64))%Z /\
  refused (note_x (json_of t)) (one_schema u64 (GUint W64 0)) with_vars (bs "query($v:Int){f(a:$v)}") [].
Proof.
  exists (bs "9223372036854775808"), 9223372036854775808%Z. split; [reflexivity|]. split; [cbn; lia|].
  apply (proj2 (C25_unsigned_low_bits (note_x (json_of (bs "9223372036854775808"))) (one_schema u64 (GUint W64 0)) with_vars int_decl (bs "f") (one_ins (GUint W64 0)) (one_infs u64) note (bs "a") u64 W64 0 (fun v => v) (bs "v") (bs "9223372036854775808") 9223372036854775808%Z _ []
      (one_probe _ _ _) (one_slot u64 _ eq_refl eq_refl) plain_u64 int_asks (num_value _ _ _ (fits_u64 _)) eq_refl)). lia.
Qed.
Print Assumptions C25_truncated_refuted.
Print Assumptions C25_large_refuted.

(** ** C26: IDs *)
(** the argument [a] is given as this string, by a literal or by a variable *)
Inductive gives_string {W} (X : externals W) (S : schema) (o : ropts) (decls : option (list oparg)) (f a : bytes) (i : input) (q s : bytes) : Prop :=
| gs_literal : asks o decls f [(a, VStr s)] q -> gives_string X S o decls f a i q s
| gs_variable : forall v, asks o decls f [(a, VVar v)] q -> has_value X S o decls v i (FString s) -> gives_string X S o decls f a i q s.
(** the argument is an ID *)
Definition is_id (i : input) : Prop := i_enum i = None /\ i_isid i = true.
Section C26.
Context {W : Type} (X : externals W) (S : schema) (o : ropts) (decls : option (list oparg)).
Context (f : bytes) (ins : list (option gval)) (infs : list (bytes * (nat * input))) (seen : W -> list gval -> W).
Lemma id_string : forall a i old wr t q w, probe X S f ins infs seen -> slot ins infs a i old wr -> is_id i -> gives_string X S o decls f a i q t ->
  (forall y, id_sets (false, old) t y -> received X S o seen q w (args_with ins infs a (wr y))) /\
  ((forall y, ~ id_sets (false, old) t y) -> refused X S o q w).
Proof.
  intros a i old wr t q w P Sl [En Id] G. pose proof (slot_direct _ _ _ _ _ _ Sl) as Ip.
  assert (As : forall s : rst W, assign_string X S (false, old) i t s = assign_id (false, old) t s) by (intro s; unfold assign_string; now rewrite En, Id).
  split.
  - intros y H. assert (St : str_sets X S w (false, old) i t w y) by (now apply ss_id). destruct G as [A|v A (d & D & T & J)].
    + eapply slot_received; eauto; [discriminate|]. now apply ls_str.
    + eapply slot_received; eauto; [discriminate|]. eapply ls_var; eauto. apply js_special; auto. right; left; auto.
  - intros H. destruct (@id_no W old t (at_f f w) H) as (m & E). destruct G as [A|v A (d & D & T & J)].
    + eapply slot_refused; eauto; [discriminate|]. exists 1%nat. unfold no. rewrite input_step, bptr_no by auto. unfold b_body, lift. rewrite As, E. apply no_fail.
    + eapply slot_refused; eauto; [discriminate|].
      destruct (no_json X S (op_vars o) decls (false, old) i v d (FString t) w m 1 Ip D T J) as (n & N); [|exists n; apply N; [apply at_f_fine|reflexivity]].
      intro s. rewrite json_step, ptr_no by auto. unfold j_body. replace (special_b i) with true by (symmetry; apply special_ok; right; left; auto). rewrite En, Id. apply E.
Qed.
(** 64 bit signed IDs are exact or refused *)
Theorem C26_signed64 : forall a i k old wr t z q w, bits k = 64 ->
  probe X S f ins infs seen -> slot ins infs a i (GInt k old) wr -> is_id i -> gives_string X S o decls f a i q t -> signed_value t = Some z ->
  (int_range k z -> received X S o seen q w (args_with ins infs a (wr (GInt k z)))) /\
  (~ int_range k z -> refused X S o q w).
Proof.
  intros a i k old wr t z q w B P Sl Id G V. destruct (id_string a i _ wr t q w P Sl Id G) as [Y N].
  assert (R6 : int_range W64 z <-> int_range k z) by (unfold int_range; rewrite B; reflexivity). split; intro R.
  - apply Y. eapply is_int; [exact V|now apply R6|now apply low_bits_same].
  - apply N. intros y Hy. inversion Hy; subst. apply R. apply R6. congruence.
Qed.
(** a text that is not an integer is refused *)
Theorem C26_not_a_number : forall a i old wr t q w, (exists k z, old = GInt k z) \/ (exists k n, old = GUint k n) ->
  probe X S f ins infs seen -> slot ins infs a i old wr -> is_id i -> gives_string X S o decls f a i q t -> signed_value t = None -> refused X S o q w.
Proof.
  intros a i old wr t q w K P Sl Id G V. destruct (id_string a i _ wr t q w P Sl Id G) as [_ N]. apply N. intros y Hy. destruct K as [(k & z & ->)|(k & z & ->)]; inversion Hy; subst; congruence.
Qed.
(** in general: a number in the range of int64 loses its high bits, a negative number for an unsigned type is refused *)
Theorem C26_low_bits : forall a i k t z q w wr, 
  probe X S f ins infs seen -> is_id i -> gives_string X S o decls f a i q t -> signed_value t = Some z ->
  (forall old z', slot ins infs a i (GInt k old) wr -> int_range W64 z -> low_bits k z z' -> received X S o seen q w (args_with ins infs a (wr (GInt k z')))) /\
  (forall old, slot ins infs a i (GInt k old) wr -> ~ int_range W64 z -> refused X S o q w) /\
  (forall old n, slot ins infs a i (GUint k old) wr -> int_range W64 z -> (0 <= z)%Z -> ulow_bits k (Z.to_N z) n -> received X S o seen q w (args_with ins infs a (wr (GUint k n)))) /\
  (forall old, slot ins infs a i (GUint k old) wr -> ~ (int_range W64 z /\ 0 <= z)%Z -> refused X S o q w).
Proof.
  intros a i k t z q w wr P Id G V. split; [|split; [|split]].
  - intros old z' Sl R L. apply (id_string a i _ wr t q w P Sl Id G). eapply is_int; eauto.
  - intros old Sl R. apply (id_string a i _ wr t q w P Sl Id G). intros y Hy. inversion Hy; subst. apply R. congruence.
  - intros old n Sl R Z L. apply (id_string a i _ wr t q w P Sl Id G). eapply is_uint; eauto.
  - intros old Sl R. apply (id_string a i _ wr t q w P Sl Id G). intros y Hy. inversion Hy; subst. apply R. assert (z0 = z) by congruence. subst z0. auto.
Qed.
End C26.
Print Assumptions C26_signed64.
Print Assumptions C26_not_a_number.
Print Assumptions C26_low_bits.
(** the text of a string literal without escapes *)
Lemma str_asks : forall o f a t, valid_name f -> valid_name a -> op_target o = [] -> Forall (fun c => ~ In c [0; 10; 13; cQUOT; cBSL]) t -> N.of_nat (length t) < 3000000000 ->
  asks o None f [(a, VStr t)] (ask_text f a (cQUOT :: t ++ [cQUOT])).
Proof.
  intros o f a t Vf Va T F L. apply asks_text; auto.
  - eapply gv_str; [cbn [app]; apply ign_self; cbv; intuition discriminate|]. rewrite <- app_assoc. apply g_string_plain.
    + intros (r & E). destruct t as [|c t]; [discriminate|]. inversion F as [|c' t' Hc Ft]; subst. apply (f_equal (@tl N)) in E. injection E. intros _ E1. apply Hc. rewrite E1. cbn. auto 10.
    + clear L. induction F as [|c t Hc F IH]; [apply gc_end|]. cbn [app]. now apply gc_plain.
  - cbn. intro H. rewrite Forall_forall in F. apply (F _ H). cbn. auto.
  - cbn [enc_value]. unfold enc_tagged, le32. rewrite ?app_length. cbn [length]. lia.
Qed.
Definition id64 : input := inp_id (KInt W64) 0 (GInt W64 0).
Definition id8 : input := inp_id (KInt W8) 0 (GInt W8 0).
Definition idu64 : input := inp_id (KUint W64) 0 (GUint W64 0).
Lemma str_lit : forall t i, Forall (fun c => ~ In c [0; 10; 13; cQUOT; cBSL]) t -> N.of_nat (length t) < 3000000000 ->
  gives_string (note_x FNull) (one_schema i (i_zero i)) no_opts None (bs "f") (bs "a") i (ask_text (bs "f") (bs "a") (cQUOT :: t ++ [cQUOT])) t.
Proof. intros t i F L. apply gs_literal. apply str_asks; auto; [apply f_name|apply a_name]. Qed.
Ltac plain := repeat (apply Forall_cons; [cbv; intuition discriminate|]); apply Forall_nil.
Example C26_case :
  received (note_x FNull) (one_schema id64 (GInt W64 0)) no_opts note (q2 "{f(a:'-9223372036854775808')}") [] [GStruct [(true, GInt W64 (-9223372036854775808))]] /\
  refused (note_x FNull) (one_schema id64 (GInt W64 0)) no_opts (q2 "{f(a:'9223372036854775808')}") [] /\
  refused (note_x FNull) (one_schema id64 (GInt W64 0)) no_opts (q2 "{f(a:'1 ')}") [].
Proof.
  split; [|split].
  - apply (proj1 (C26_signed64 (note_x FNull) (one_schema id64 (GInt W64 0)) no_opts None (bs "f") (one_ins (GInt W64 0)) (one_infs id64) note (bs "a") id64 W64 0%Z (fun v => v) (bs "-9223372036854775808") (-9223372036854775808)%Z _ []
      eq_refl (one_probe _ _ _) (one_slot id64 _ eq_refl eq_refl) (conj eq_refl eq_refl) (str_lit (bs "-9223372036854775808") id64 ltac:(plain) eq_refl) eq_refl)). unfold int_range. cbn. lia.
  - apply (proj2 (C26_signed64 (note_x FNull) (one_schema id64 (GInt W64 0)) no_opts None (bs "f") (one_ins (GInt W64 0)) (one_infs id64) note (bs "a") id64 W64 0%Z (fun v => v) (bs "9223372036854775808") (9223372036854775808)%Z _ []
      eq_refl (one_probe _ _ _) (one_slot id64 _ eq_refl eq_refl) (conj eq_refl eq_refl) (str_lit (bs "9223372036854775808") id64 ltac:(plain) eq_refl) eq_refl)). unfold int_range. cbn. lia.
  - apply (C26_not_a_number (note_x FNull) (one_schema id64 (GInt W64 0)) no_opts None (bs "f") (one_ins (GInt W64 0)) (one_infs id64) note (bs "a") id64 (GInt W64 0) (fun v => v) (bs "1 ") _ []
      (or_introl (ex_intro _ W64 (ex_intro _ 0%Z eq_refl))) (one_probe _ _ _) (one_slot id64 _ eq_refl eq_refl) (conj eq_refl eq_refl) (str_lit (bs "1 ") id64 ltac:(plain) eq_refl) eq_refl).
Qed.
(** "300" for an int8 ID gives 44; an ID above 2^63-1 for a uint64 is refused *)
Theorem C26_truncated_refuted : exists t z, signed_value t = Some z /\ ~ int_range W8 z /\
  received (note_x FNull) (one_schema id8 (GInt W8 0)) no_opts note (ask_text (bs "f") (bs "a") (cQUOT :: t ++ [cQUOT])) [] [GStruct [(true, GInt W8 44)]].
Proof.
  exists (bs "300"), 300%Z. split; [reflexivity|]. split; [unfold int_range; cbn; lia|].
  apply (proj1 (C26_low_bits (note_x FNull) (one_schema id8 (GInt W8 0)) no_opts None (bs "f") (one_ins (GInt W8 0)) (one_infs id8) note (bs "a") id8 W8 (bs "300") 300%Z _ [] (fun v => v)
    (one_probe _ _ _) (conj eq_refl eq_refl) (str_lit (bs "300") id8 ltac:(plain) eq_refl) eq_refl) 0%Z 44%Z (one_slot id8 _ eq_refl eq_refl)); [unfold int_range; cbn; lia|split; [unfold int_range; cbn; lia|reflexivity]].
Qed.
Theorem C26_large_refuted : exists t z, signed_value t = Some z /\ (0 <= z)%Z /\ uint_range W64 (Z.to_N z) /\
  refused (note_x FNull) (one_schema idu64 (GUint W64 0)) no_opts (ask_text (bs "f") (bs "a") (cQUOT :: t ++ [cQUOT])) [].
Proof.
  exists (bs "9223372036854775808"), 9223372036854775808%Z. split; [reflexivity|]. split; [lia|]. split; [reflexivity|].
  apply (proj2 (proj2 (proj2 (C26_low_bits (note_x FNull) (one_schema idu64 (GUint W64 0)) no_opts None (bs "f") (one_ins (GUint W64 0)) (one_infs idu64) note (bs "a") idu64 W64 (bs "9223372036854775808") 9223372036854775808%Z _ [] (fun v => v)
    (one_probe _ _ _) (conj eq_refl eq_refl) (str_lit (bs "9223372036854775808") idu64 ltac:(plain) eq_refl) eq_refl))) 0 (one_slot idu64 _ eq_refl eq_refl)). unfold int_range. cbn. lia.
Qed.
Print Assumptions C26_truncated_refuted.
Print Assumptions C26_large_refuted.
