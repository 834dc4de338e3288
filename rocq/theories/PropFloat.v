(** * Properties C51 and C52: floating point numbers in the response and as arguments *)
From Coq Require Import String Arith NArith ZArith QArith Qabs Bool List Lia.
From Verif Require Import Base Json FloatSpec JsonModel JsonProof Ast Grammar RefGrammar ReqModel Schema ResModel EnvModel Samples Interp Facts DocRun Spec SpecLit SpecVal ArgRun PropArgs PropOut PropValid FloatModel FloatProof FloatText FloatRead FloatLit FloatShort.
Import ListNotations.
Open Scope N_scope.
Local Notation SN := Datatypes.S.

(** ** Specification *)
(** the functions on floats that resolver.go calls are those of FloatModel.v *)
Definition go_floats {W} (X : externals W) : Prop :=
  (forall t, x_parse_float X t = parse_float t) /\ (forall z, x_of_int X z = of_int z) /\
  (forall b, x_to32 X b = to32 b) /\ (forall is64 b, x_float_json X is64 b = float_json is64 b).
(** the text of a finite number: a JSON number which, read with correct rounding, gives the number back; it is the text of
    ECMAScript, with the fewest digits that do so (except that the sign of -0 is written).
    [b] are the bits of the number as float64; a float32 is read as float32. *)
Definition float_text (is64 : bool) (b : N) (t : bytes) : Prop :=
  jnumber t /\
  (forall neg v, is64 = true -> finite f64 b neg v -> reads_as f64 t b /\ es_number f64 b neg v t) /\
  (forall neg v b32 v32, is64 = false -> finite f64 b neg v -> finite f32 b32 neg v32 -> (v == v32)%Q -> reads_as f32 t b32 /\ es_number f32 b32 neg v32 t).
(** a Go variable of 64 or 32 bits that is set to the float64 [b] holds [c] (also as float64) *)
Definition stored (is64 : bool) (b c : N) : Prop :=
  if is64 then c = b
  else forall neg v, finite f64 b neg v ->
    (too_large f32 v -> c = infinity f64 neg) /\
    (~ too_large f32 v -> exists b32 v32 v64, nearest f32 neg v b32 /\ finite f32 b32 neg v32 /\ finite f64 c neg v64 /\ (v64 == v32)%Q).

(** ** C51: floats in the response *)
Lemma encodes_mono : forall S (FL FL' : bool -> N -> bytes -> Prop), (forall i b t, FL i b t -> FL' i b t) -> forall o v t, encodes S FL o v t -> encodes S FL' o v t.
Proof.
  intros S FL FL' M. fix F 4. intros o v t H. destruct H as [w z t A B|w n t A B| | |is64 n t A|id s text t A B|k v t A B|i e n v A B|i e v A B|o|o v t A|o|o l ts A|o l ts A].
  - now apply ec_int.
  - now apply ec_uint.
  - apply ec_true.
  - apply ec_false.
  - apply ec_float. auto.
  - eapply ec_string; eauto.
  - apply ec_id; auto.
  - eapply ec_name; eauto.
  - eapply ec_unnamed; eauto.
  - apply ec_nil.
  - apply ec_ptr; auto.
  - apply ec_nil_list.
  - apply ec_list. induction A; constructor; auto.
  - apply ec_array. induction A; constructor; auto.
Qed.
Lemma not_finite_big : forall b, b < 2 ^ 64 -> (forall neg v, ~ finite f64 b neg v) -> inf_of f64 <= abs_of f64 b.
Proof.
  intros b L H. destruct (N.lt_ge_cases (abs_of f64 b) (inf_of f64)) as [C|C]; auto. exfalso.
  assert (E : b = signed f64 (neg_of f64 b) (abs_of f64 b)).
  { unfold signed, neg_of, abs_of. change (sign_bit f64) with (2 ^ 63) in *. pose proof (N.div_mod b (2 ^ 63) ltac:(discriminate)) as D. pose proof (N.mod_lt b (2 ^ 63) ltac:(discriminate)). assert (b / 2 ^ 63 < 2) by (apply N.div_lt_upper_bound; [discriminate|exact L]).
    destruct (2 ^ 63 <=? b) eqn:X; [assert (b / 2 ^ 63 = 1) by nia|assert (b / 2 ^ 63 = 0) by nia]; lia. }
  destruct (mag_finite f64 ok64 (neg_of f64 b) _ C) as (v & F & _). rewrite <- E in F. eapply H; eauto.
Qed.
Section C51.
Context {W : Type} (X : externals W) (S : schema) (o : ropts) (g : bytes).
Hypothesis Go : go_floats X.
(** all fields of C32, and floats, also in lists and behind pointers *)
Theorem C51_encoding : forall ob v q w, has_field S g ob v -> typed S ob v -> list_depth ob < 254 -> asks_field o g q ->
  exists t, encodes S float_text ob v t /\ shows X S o q w g t.
Proof.
  intros ob v q w H T L A. destruct (shown X S o g ob v q w H T L A) as (t & E & Sh). exists t. split; auto. eapply encodes_mono; [|exact E].
  cbv beta. intros is64 b u ->. destruct Go as (_ & _ & _ & G). rewrite G. split; [apply json_number|]. split.
  - intros neg x -> F. split; [eapply json64; eauto|now apply es64].
  - intros neg x b32 v32 -> F F' V. split; [eapply json32; eauto|eapply es32; eauto].
Qed.
Corollary C51_float64 : forall b neg v q w, has_field S g (OData false (KFloat true)) (GFloat true b) -> finite f64 b neg v -> asks_field o g q ->
  exists t, jnumber t /\ reads_as f64 t b /\ es_number f64 b neg v t /\ shows X S o q w g t.
Proof.
  intros b neg v q w H F A. destruct (C51_encoding _ _ q w H (ty_float S _ _)) as (t & E & Sh); [cbn; lia|auto|]. inversion E; subst. match goal with Y : float_text _ _ _ |- _ => destruct Y as (J & R & _) end. destruct (R neg v eq_refl F). eauto 6.
Qed.
Corollary C51_float32 : forall b b32 neg v v32 q w, has_field S g (OData false (KFloat false)) (GFloat false b) -> finite f64 b neg v -> finite f32 b32 neg v32 -> (v == v32)%Q -> asks_field o g q ->
  exists t, jnumber t /\ reads_as f32 t b32 /\ es_number f32 b32 neg v32 t /\ shows X S o q w g t.
Proof.
  intros b b32 neg v v32 q w H F F' V A. destruct (C51_encoding _ _ q w H (ty_float S _ _)) as (t & E & Sh); [cbn; lia|auto|]. inversion E; subst. match goal with Y : float_text _ _ _ |- _ => destruct Y as (J & _ & R) end. destruct (R neg v b32 v32 eq_refl F F' V). eauto 8.
Qed.
Lemma float_shown : forall is64 b q w, has_field S g (OData false (KFloat is64)) (GFloat is64 b) -> asks_field o g q -> shows X S o q w g (float_json is64 b).
Proof. intros is64 b q w H A. destruct (shown X S o g _ _ q w H (ty_float S _ _)) as (t & E & Sh); [cbn; lia|auto|]. inversion E; subst. destruct Go as (_ & _ & _ & G). now rewrite <- G. Qed.
(** infinities and NaN are written as 0.0 *)
Theorem C51_not_finite : forall is64 b q w, b < 2 ^ 64 -> (forall neg v, ~ finite f64 b neg v) -> has_field S g (OData false (KFloat is64)) (GFloat is64 b) -> asks_field o g q ->
  shows X S o q w g (bs "0.0").
Proof.
  intros is64 b q w L N H A. destruct (shown X S o g _ _ q w H (ty_float S _ _)) as (t & E & Sh); [cbn; lia|auto|]. inversion E; subst. destruct Go as (_ & _ & _ & G). rewrite G in Sh. unfold float_json in Sh.
  pose proof (not_finite_big b L N) as B. apply N.leb_le in B. rewrite B in Sh. exact Sh.
Qed.
(** a text is read as at most one number: different numbers have different texts *)
Corollary C51_distinct : forall t b b', reads_as f64 t b -> reads_as f64 t b' -> b = b'.
Proof. intros. eapply reads_as_unique; eauto. apply ok64. Qed.
(** C14 without its assumption on FloatToJSON *)
Corollary C51_response : forall fuel vals w q out es vals' w', resolve X S fuel o vals w q = RDone out es vals' w' -> readable X S o fuel w q -> nice_schema S ->
  (forall t, op_trace o = Some t -> exists v, jtext v t) -> es = [] \/ (forall d, g_doc d q -> no_holes d) -> exists m, jtext (JObj m) out.
Proof. intros. eapply C14_response_is_json; eauto. intros a b. destruct Go as (_ & _ & _ & G). rewrite G. apply json_number. Qed.
End C51.
Lemma shows_fun : forall {W} (X : externals W) S o q w g t t', shows X S o q w g t -> shows X S o q w g t' -> t = t'.
Proof.
  intros W X S o q w g t t' (n & H) (n' & H'). destruct (H (n + n')%nat (fun _ => (false, GOther)) ltac:(lia)) as (vs & E). destruct (H' (n + n')%nat (fun _ => (false, GOther)) ltac:(lia)) as (vs' & E'). rewrite E in E'.
  assert (Eo : finish_of o (start_of o ++ bs "{" ++ quoted g ++ bs ":" ++ t ++ bs "}") [] = finish_of o (start_of o ++ bs "{" ++ quoted g ++ bs ":" ++ t' ++ bs "}") []) by congruence. unfold finish_of in Eo. destruct (op_nometa o); [|apply app_inv_tail in Eo]; do 4 apply app_inv_head in Eo; now apply app_inv_tail in Eo.
Qed.
Print Assumptions C51_encoding.
Print Assumptions C51_float64.
Print Assumptions C51_float32.
Print Assumptions C51_not_finite.
Print Assumptions C51_distinct.
Print Assumptions C51_response.

(** ** C52: floats as arguments *)
Lemma narrow_stored : forall is64 b, stored is64 b (if is64 then b else to32 b).
Proof.
  intros [|] b; [reflexivity|]. cbn [stored]. intros neg v F. destruct (to32_ok b neg v F) as [A B]. split; auto. intro C. destruct (B C) as (b32 & v32 & N & F32 & v64 & F64 & E). exists b32, v32, v64. auto.
Qed.
Section C52.
Context {W : Type} (X : externals W) (S : schema) (o : ropts) (decls : option (list oparg)).
Context (f : bytes) (ins : list (option gval)) (infs : list (bytes * (nat * input))) (seen : W -> list gval -> W).
Hypothesis Go : go_floats X.
Lemma no_lit_float : forall is64 old i t s m, is_ptr i = false -> parse_float t = inr m -> no (b_input X S (op_vars o) decls 1 (false, GFloat is64 old) i (VFloat t) true) s.
Proof.
  intros is64 old i t s m P E. unfold no. rewrite input_step, bptr_no by auto. unfold b_body. cbn [snd kind_of]. destruct Go as (G & _). rewrite G, E. apply no_fail.
Qed.
(** a literal with a fraction or an exponent: the number nearest to it, or the request is refused *)
Theorem C52_float : forall a i is64 old wr t neg r q w,
  probe X S f ins infs seen -> slot ins infs a i (GFloat is64 old) wr -> asks o decls f [(a, VFloat t)] q -> decimal t neg r -> N.of_nat (length t) <= 9000 ->
  (~ too_large f64 r -> exists b c, nearest f64 neg r b /\ stored is64 b c /\ received X S o seen q w (args_with ins infs a (wr (GFloat is64 c)))) /\
  (too_large f64 r -> refused X S o q w).
Proof.
  intros a i is64 old wr t neg r q w P Sl A D L. pose proof (slot_direct _ _ _ _ _ _ Sl) as Ip. destruct (parse_decimal t neg r D L) as [Big Ok]. split; intro T.
  - destruct (Ok T) as (b & E & N). exists b, (if is64 then b else to32 b). split; auto. split; [apply narrow_stored|]. eapply slot_received; eauto; [discriminate|].
    destruct Go as (G & _ & G32 & _). rewrite <- (G32 b). apply ls_float; auto. now rewrite G.
  - destruct (Big T) as (m & E). eapply slot_refused; eauto; [discriminate|]. exists 1%nat. eapply no_lit_float; eauto.
Qed.
(** a literal that is not a number, like [1.5E] or [.] *)
Theorem C52_no_number : forall a i is64 old wr t q w,
  probe X S f ins infs seen -> slot ins infs a i (GFloat is64 old) wr -> asks o decls f [(a, VFloat t)] q -> (forall neg r, ~ decimal t neg r) -> refused X S o q w.
Proof.
  intros a i is64 old wr t q w P Sl A D. pose proof (slot_direct _ _ _ _ _ _ Sl) as Ip. destruct (parse_other t D) as (m & E). eapply slot_refused; eauto; [discriminate|]. exists 1%nat. eapply no_lit_float; eauto.
Qed.
(** an integer literal: the nearest number if it is in the range of int64, otherwise the request is refused *)
Theorem C52_integer : forall a i is64 old wr t z q w,
  probe X S f ins infs seen -> slot ins infs a i (GFloat is64 old) wr -> asks o decls f [(a, VInt t)] q -> int_value t = Some z ->
  (int_range W64 z -> exists b c, nearest f64 (z <? 0)%Z (inject_Z (Z.abs z)) b /\ stored is64 b c /\ received X S o seen q w (args_with ins infs a (wr (GFloat is64 c)))) /\
  (~ int_range W64 z -> refused X S o q w).
Proof.
  intros a i is64 old wr t z q w P Sl A V. pose proof (slot_direct _ _ _ _ _ _ Sl) as Ip. apply int_signed in V. split; intro R.
  - exists (of_int z), (if is64 then of_int z else to32 (of_int z)). split; [apply of_int_nearest; unfold int_range in R; cbn in R; lia|]. split; [apply narrow_stored|]. eapply slot_received; eauto; [discriminate|].
    destruct Go as (_ & G & G32 & _). rewrite <- (G32 (of_int z)), <- (G z). apply ls_int; auto. now apply it_float.
  - eapply slot_refused; eauto; [discriminate|]. exists 1%nat. apply no_lit_int; auto. intros v H. inversion H; subst. apply R. congruence.
Qed.
End C52.
Section Text.
Context {W : Type} (X : externals W) (S : schema) (o : ropts).
Context (f : bytes) (ins : list (option gval)) (infs : list (bytes * (nat * input))) (seen : W -> list gval -> W).
Hypothesis Go : go_floats X.
(** the request [{f(a:t)}] for a JSON number [t]: the number nearest to it, unless it is an integer outside int64 *)
Theorem C52_text : forall a i is64 old wr t neg r w,
  probe X S f ins infs seen -> slot ins infs a i (GFloat is64 old) wr -> valid_name f -> valid_name a -> op_target o = [] ->
  jnumber t -> decimal t neg r -> N.of_nat (length t) <= 9000 ->
  (int_value t = None -> ~ too_large f64 r -> exists b c, nearest f64 neg r b /\ stored is64 b c /\ received X S o seen (ask_text f a t) w (args_with ins infs a (wr (GFloat is64 c)))) /\
  (int_value t = None -> too_large f64 r -> refused X S o (ask_text f a t) w) /\
  (forall z, int_value t = Some z -> int_range W64 z -> exists b c, nearest f64 (z <? 0)%Z r b /\ stored is64 b c /\ received X S o seen (ask_text f a t) w (args_with ins infs a (wr (GFloat is64 c)))) /\
  (forall z, int_value t = Some z -> ~ int_range W64 z -> refused X S o (ask_text f a t) w).
Proof.
  intros a i is64 old wr t neg r w P Sl Vf Va T J D L. destruct (number_text t neg r J D ltac:(lia)) as (v & Gv & Nf & Sz & C). pose proof (asks_text o f a t v Vf Va T Gv Nf Sz) as A.
  destruct C as [(z & -> & V & R & _)|(t' & r' & -> & V & D' & R & Lt)].
  - destruct (C52_integer X S o None f ins infs seen Go a i is64 old wr t z _ w P Sl A V) as [Y N]. split; [congruence|]. split; [congruence|]. split; intros z' V'; replace z' with z by congruence; intro I; [|auto].
    destruct (Y I) as (b & c & B1 & B2 & B3). exists b, c. split; auto. eapply nearest_eq; [symmetry; exact R|exact B1].
  - destruct (C52_float X S o None f ins infs seen Go a i is64 old wr t' neg r' _ w P Sl A D' ltac:(lia)) as [Y N]. split; [|split; [|split; congruence]]; intros _ Tl.
    + destruct Y as (b & c & B1 & B2 & B3); [intro Y; apply Tl; eapply too_large_eq; [symmetry; exact R|exact Y]|]. exists b, c. split; auto. eapply nearest_eq; [symmetry; exact R|exact B1].
    + apply N. eapply too_large_eq; [exact R|exact Tl].
Qed.
(** what the response says about a float64 can be given back as argument, and the resolver receives this float64,
    unless the text is an integer outside int64 or minus zero *)
Theorem C52_round_trip : forall g a i old wr b neg v q w,
  has_field S g (OData false (KFloat true)) (GFloat true b) -> finite f64 b neg v -> asks_field o g q ->
  probe X S f ins infs seen -> slot ins infs a i (GFloat true old) wr -> valid_name f -> valid_name a -> op_target o = [] ->
  exists t, shows X S o q w g t /\
    ((forall z, int_value t = Some z -> int_range W64 z /\ (z = 0%Z -> neg = false)) -> received X S o seen (ask_text f a t) w (args_with ins infs a (wr (GFloat true b)))) /\
    (forall z, int_value t = Some z -> ~ int_range W64 z -> refused X S o (ask_text f a t) w).
Proof.
  intros g a i old wr b neg v q w H F A P Sl Vf Va T. exists (float_json true b). split; [|split].
  - destruct (shown X S o g _ _ q w H (ty_float S _ _)) as (t & E & Sh); [cbn; lia|auto|]. inversion E; subst. destruct Go as (_ & _ & _ & G). now rewrite <- G.
  - intro C. destruct (json64 b neg v F) as [J (ng & r & D & Tl & Nr)].
    assert (Eng : ng = neg). { destruct (finite_mag f64 ok64 _ _ _ F) as (a0 & L0 & E0 & _). destruct Nr as (v' & F' & _). destruct (finite_mag f64 ok64 _ _ _ F') as (a1 & L1 & E1 & _). destruct (sign_ok f64 neg a0 ok64 L0) as [S0 _]. destruct (sign_ok f64 ng a1 ok64 L1) as [S1 _]. congruence. }
    subst ng. destruct (C52_text a i true old wr (float_json true b) neg r w P Sl Vf Va T J D (json_short b)) as (Y1 & _ & Y3 & _).
    assert (Fin : forall ng b' c, nearest f64 ng r b' -> ng = neg -> stored true b' c -> received X S o seen (ask_text f a (float_json true b)) w (args_with ins infs a (wr (GFloat true c))) -> received X S o seen (ask_text f a (float_json true b)) w (args_with ins infs a (wr (GFloat true b)))).
    { intros ng b' c N' -> St R. cbn in St. subst c. pose proof (nearest_unique f64 ok64 neg r b b' Nr N') as Eb. rewrite <- Eb in R. exact R. }
    destruct (int_value (float_json true b)) as [z|] eqn:V.
    + destruct (C z eq_refl) as [I Z0]. destruct (Y3 z eq_refl I) as (b' & c & N' & St & R). eapply Fin; eauto. destruct (number_text _ _ _ J D) as (v0 & _ & _ & _ & [(z' & _ & V' & _ & Sg)|(t' & r' & _ & V' & _)]); [pose proof (json_short b); lia| |congruence].
      rewrite V in V'. injection V' as <-. destruct (Z.eq_dec z 0) as [->|Nz]; [now rewrite Z0|]. now rewrite Sg.
    + destruct (Y1 eq_refl Tl) as (b' & c & N' & St & R). eapply Fin; eauto.
  - intros z V N. destruct (json64 b neg v F) as [J (ng & r & D & _)]. destruct (C52_text a i true old wr (float_json true b) ng r w P Sl Vf Va T J D (json_short b)) as (_ & _ & _ & Y4). eapply Y4; eauto.
Qed.
End Text.
Print Assumptions C52_float.
Print Assumptions C52_no_number.
Print Assumptions C52_integer.
Print Assumptions C52_text.
Print Assumptions C52_round_trip.

(** ** Examples and counterexamples *)
Definition float_x (vars : fj) : externals notes :=
  Ext notes (fun w _ a _ => Some (w ++ [a], [GBool true])) (fun w _ _ _ => Some (w, false)) (fun _ => None) None (fun _ => inl vars)
    parse_float (fun _ => 0) (fun _ => bs "bad number") of_int to32 float_json (fun _ => bs "value").
Lemma float_x_go : forall vars, go_floats (float_x vars). Proof. repeat split; reflexivity. Qed.
Definition fin (is64 : bool) : input := inp (KFloat is64) 0 (GFloat is64 0).
(** a field [g] with the value [v], and a resolver [f(a)] with a float argument *)
Definition float_schema (is64 : bool) (ob : obj) (v : gval) : schema :=
  mk_schema (OObj (bs "Query") [fld "f" (OMethod (Method true (one_ins (GFloat is64 0)) (one_infs (fin is64)) 0 None (OData false KBool))) 0; fld "g" ob 0]) (GStruct [(true, v)]) [] [] [].
Lemma float_probe : forall is64 ob v, probe (float_x FNull) (float_schema is64 ob v) (bs "f") (one_ins (GFloat is64 0)) (one_infs (fin is64)) note.
Proof. intros. split; [|reflexivity]. exists O, (bs "f"), false. split; [|reflexivity]. vm_compute. reflexivity. Qed.
Lemma float_slot : forall is64, slot (one_ins (GFloat is64 0)) (one_infs (fin is64)) (bs "a") (fin is64) (GFloat is64 0) (fun v => v).
Proof. intros. apply one_slot; reflexivity. Qed.
Lemma float_has : forall is64 ob v, has_field (float_schema is64 ob v) (bs "g") ob v.
Proof. intros. exists O, (bs "g"), false, [(true, v)], true. split; [vm_compute; reflexivity|]. split; reflexivity. Qed.
Definition f_of (is64 : bool) (b : N) : schema := float_schema is64 (OData false (KFloat is64)) (GFloat is64 b).
(** what the client and the resolver see *)
Definition float_run (S : schema) (q : bytes) : option (bytes * nat * notes) :=
  match resolve (float_x FNull) S 100 (ROpts true [] [] None) (fun _ => (false, GOther)) [] q with RDone out es _ w => Some (out, length es, w) | _ => None end.
Definition received_bits (is64 : bool) (q : bytes) : option N :=
  match float_run (f_of is64 0) q with Some (_, O, [[GStruct [(_, GFloat _ b)]]]) => Some b | _ => None end.
Lemma quarter : decimal (bs "-0.250") true (rat 250 * pow10 (0 - 3)).
Proof. apply (decimal_intro [45] [48] (46 :: bs "250") (bs "250") [] true 250 0); [now right|now right|now left|reflexivity]. Qed.
(** 2.5 is 4004000000000000 in hexadecimal; 0.1 as float32 *)
Example C51_case :
  (finite f64 4612811918334230528 false (rat (2 ^ 52 + 1125899906842624) * pow2 (1024 - 1023 - 52)) /\
   (exists t, jnumber t /\ reads_as f64 t 4612811918334230528 /\ es_number f64 4612811918334230528 false (rat (2 ^ 52 + 1125899906842624) * pow2 (1024 - 1023 - 52)) t /\ shows (float_x FNull) (f_of true 4612811918334230528) no_opts (bs "{g}") [] (bs "g") t) /\
   float_run (f_of true 4612811918334230528) (bs "{g}") = Some (q2 "{'g':2.5}", O, [])) /\
  float_run (f_of false 4591870180174331904) (bs "{g}") = Some (q2 "{'g':0.1}", O, []) /\
  float_run (f_of true (of_int (10 ^ 21))) (bs "{g}") = Some (q2 "{'g':1e+21}", O, []) /\
  (let l := OArray (OPtr (OData false (KFloat true))) in let v := GSlice (Some [GPtr (Some (GFloat true 4612811918334230528)); GPtr None]) in
   typed (float_schema true l v) l v /\ float_run (float_schema true l v) (bs "{g}") = Some (q2 "{'g':[2.5,null]}", O, [])).
Proof.
  split; [|split; [|split]].
  - assert (F : finite f64 4612811918334230528 false (rat (2 ^ 52 + 1125899906842624) * pow2 (1024 - 1023 - 52))) by (apply (fin_normal f64 false 1024 1125899906842624); reflexivity).
    split; auto. split; [|vm_compute; reflexivity]. eapply C51_float64; [apply float_x_go|apply float_has|exact F|asks_one].
  - vm_compute. reflexivity.
  - vm_compute. reflexivity.
  - cbv zeta. split; [repeat constructor|]. vm_compute. reflexivity.
Qed.
(** infinity is no number of JSON; it is written as 0.0, which is another number.  So the text of a float does
    not always denote its value. *)
Theorem C51_infinity_refuted : exists S b q, b = infinity f64 false /\ has_field S (bs "g") (OData false (KFloat true)) (GFloat true b) /\ asks_field no_opts (bs "g") q /\
  shows (float_x FNull) S no_opts q [] (bs "g") (bs "0.0") /\ reads_as f64 (bs "0.0") 0 /\ b <> 0.
Proof.
  exists (f_of true (infinity f64 false)), (infinity f64 false), (bs "{g}"). split; [reflexivity|]. split; [apply float_has|]. assert (A : asks_field no_opts (bs "g") (bs "{g}")) by asks_one. split; auto. split; [|split; [|discriminate]].
  - apply (C51_not_finite (float_x FNull) _ no_opts (bs "g") (float_x_go FNull) true (infinity f64 false)); [reflexivity| |apply float_has|exact A]. intros neg v F. destruct (finite_mag f64 ok64 _ _ _ F) as (a & L & E & _). unfold signed in E.
    assert (I : infinity f64 false = inf_of f64) by reflexivity. rewrite I in E. pose proof (inf_lt_sign f64 ok64). destruct neg; lia.
  - exists false, (rat 0 * pow10 (0 - 1))%Q. split; [apply (decimal_intro [] [48] [46; 48] [48] [] false 0 0); [now left; split; [left|]|now right|now left|reflexivity]|]. split.
    + intro T. apply round_dec_large in T; [|apply ok64]. rewrite round_dec_zero in T. pose proof (pow_pos 2 52). apply N.lt_nge in T; auto. reflexivity.
    + pose proof (round_dec_nearest f64 ok64 false 0 (0 - 1)) as N. rewrite round_dec_zero in N. apply N. reflexivity.
Qed.
Print Assumptions C51_infinity_refuted.

Example C52_case :
  (asks no_opts None (bs "f") [(bs "a", VFloat (bs "-0.250"))] (bs "{f(a:-0.250)}") /\ ~ too_large f64 (rat 250 * pow10 (0 - 3)) /\ received_bits true (bs "{f(a:-0.250)}") = Some (2 ^ 63 + 1021 * 2 ^ 52)) /\
  received_bits true (bs "{f(a:25E-1)}") = Some 4612811918334230528 /\ received_bits true (bs "{f(a:3)}") = Some 4613937818241073152 /\
  received_bits true (bs "{f(a:9007199254740993)}") = Some 4845873199050653696 /\
  (refused (float_x FNull) (f_of true 0) no_opts (bs "{f(a:1E)}") [] /\ asks no_opts None (bs "f") [(bs "a", VFloat (bs "1E"))] (bs "{f(a:1E)}")) /\
  (exists t, shows (float_x FNull) (f_of true 4612811918334230528) no_opts (bs "{g}") [] (bs "g") t /\
    received (float_x FNull) (f_of true 4612811918334230528) no_opts note (ask_text (bs "f") (bs "a") t) [] [GStruct [(true, GFloat true 4612811918334230528)]]).
Proof.
  split; [|split; [|split; [|split; [|split]]]].
  - split; [asks_one|]. split; [|vm_compute; reflexivity]. intro T. apply round_dec_large in T; [|apply ok64]. assert (Nt : (inf_of f64 <=? round_dec f64 250 (0 - 3)) = false) by (vm_compute; reflexivity). apply N.leb_le in T. rewrite Nt in T. discriminate T.
  - vm_compute. reflexivity.
  - vm_compute. reflexivity.
  - vm_compute. reflexivity.
  - split; [|asks_one]. eapply C52_no_number; [apply float_x_go|apply float_probe|apply float_slot|asks_one|]. intros neg r D. destruct (read_ok _ _ _ D) as (n & x & y & k & R & _). assert (Nr : read_float (bs "1E") = None) by reflexivity. pose proof (eq_trans (eq_sym R) Nr) as Y. discriminate Y.
  - assert (F : finite f64 4612811918334230528 false (rat (2 ^ 52 + 1125899906842624) * pow2 (1024 - 1023 - 52))) by (apply (fin_normal f64 false 1024 1125899906842624); reflexivity).
    destruct (C52_round_trip (float_x FNull) (f_of true 4612811918334230528) no_opts (bs "f") (one_ins (GFloat true 0)) (one_infs (fin true)) note (float_x_go FNull) (bs "g") (bs "a") (fin true) 0 (fun v => v) _ _ _ (bs "{g}") []
      (float_has _ _ _) F ltac:(asks_one) (float_probe _ _ _) (float_slot true) f_name a_name eq_refl) as (t & Sh & R & _). exists t. split; auto. apply R. intros z V. exfalso.
    rewrite (shows_fun _ _ _ _ _ _ _ _ Sh (float_shown (float_x FNull) (f_of true 4612811918334230528) no_opts (bs "g") (float_x_go FNull) true _ (bs "{g}") [] (float_has _ _ _) ltac:(asks_one))) in V. assert (Nv : int_value (float_json true 4612811918334230528) = None) by (vm_compute; reflexivity). rewrite Nv in V. discriminate V.
Qed.
Lemma out_of_int64 : ~ int_range W64 (10 ^ 19) /\ ~ int_range W64 (10 ^ 20). Proof. split; intros [_ H]; vm_compute in H; discriminate. Qed.
Lemma zero_int64 : int_range W64 0. Proof. split; vm_compute; [discriminate|reflexivity]. Qed.
(** a number too large for int64 is accepted with an exponent, but refused without *)
Theorem C52_integer_refuted : exists S i, slot (one_ins (GFloat true 0)) (one_infs i) (bs "a") i (GFloat true 0) (fun v => v) /\ probe (float_x FNull) S (bs "f") (one_ins (GFloat true 0)) (one_infs i) note /\
  exists z r, int_value (bs "10000000000000000000") = Some z /\ (inject_Z z == r)%Q /\ ~ too_large f64 r /\ decimal (bs "1E19") false r /\
    asks no_opts None (bs "f") [(bs "a", VInt (bs "10000000000000000000"))] (bs "{f(a:10000000000000000000)}") /\ refused (float_x FNull) S no_opts (bs "{f(a:10000000000000000000)}") [] /\
    asks no_opts None (bs "f") [(bs "a", VFloat (bs "1E19"))] (bs "{f(a:1e19)}") /\
    exists b, nearest f64 false r b /\ received (float_x FNull) S no_opts note (bs "{f(a:1e19)}") [] [GStruct [(true, GFloat true b)]].
Proof.
  exists (f_of true 0), (fin true). split; [apply float_slot|]. split; [apply float_probe|]. exists (10 ^ 19)%Z, (rat 1 * pow10 (19 - 0))%Q. split; [reflexivity|]. split; [reflexivity|].
  assert (T : ~ too_large f64 (rat 1 * pow10 (19 - 0))). { intro T. apply round_dec_large in T; [|apply ok64]. assert (Nt : (inf_of f64 <=? round_dec f64 1 (19 - 0)) = false) by (vm_compute; reflexivity). apply N.leb_le in T. rewrite Nt in T. discriminate T. }
  assert (D : decimal (bs "1E19") false (rat 1 * pow10 (19 - 0))). { apply (decimal_intro [] [49] [] [] (bs "E19") false 1 19); [now left; split; [left|]|now left|right; exists 69, [], (bs "19"), 19; repeat split; auto|reflexivity]. }
  assert (A1 : asks no_opts None (bs "f") [(bs "a", VInt (bs "10000000000000000000"))] (bs "{f(a:10000000000000000000)}")) by asks_one.
  assert (A2 : asks no_opts None (bs "f") [(bs "a", VFloat (bs "1E19"))] (bs "{f(a:1e19)}")) by asks_one.
  split; auto. split; auto. split; auto. split; [|split; auto].
  - refine (proj2 (C52_integer (float_x FNull) (f_of true 0) no_opts None (bs "f") _ _ note (float_x_go FNull) (bs "a") (fin true) true 0 (fun v => v) _ (10 ^ 19)%Z _ [] (float_probe _ _ _) (float_slot true) A1 eq_refl) (proj1 out_of_int64)).
  - destruct (proj1 (C52_float (float_x FNull) (f_of true 0) no_opts None (bs "f") _ _ note (float_x_go FNull) (bs "a") (fin true) true 0 (fun v => v) _ _ _ _ [] (float_probe _ _ _) (float_slot true) A2 D ltac:(cbn; lia)) T) as (b & c & N & St & R).
    cbn in St. subst c. exists b. split; auto.
Qed.
(** A float32 argument does not always receive the float32 nearest to the literal: the literal is first rounded to a
    float64.  The literal here is the text that the response gives for the float32 that is not received. *)
Definition good32 : N := 4230507875455205376.
Definition bad32 : N := 4230507875992076288.
Theorem C52_float32_refuted : exists S t r b32 v32 v, t = bs "7.038531e-26" /\ decimal t false r /\ nearest f32 false r b32 /\ finite f32 b32 false v32 /\ finite f64 good32 false v /\ (v == v32)%Q /\
  has_field S (bs "g") (OData false (KFloat false)) (GFloat false good32) /\ asks_field no_opts (bs "g") (bs "{g}") /\ shows (float_x FNull) S no_opts (bs "{g}") [] (bs "g") t /\
  received (float_x FNull) S no_opts note (ask_text (bs "f") (bs "a") t) [] [GStruct [(true, GFloat false bad32)]] /\ bad32 <> good32.
Proof.
  assert (F32 : finite f32 363742205 false (rat (2 ^ 23 + 3032061) * pow2 (43 - 127 - 23))) by (apply (fin_normal f32 false 43 3032061); reflexivity).
  assert (F64 : finite f64 good32 false (rat (2 ^ 52 + 1627825354309632) * pow2 (939 - 1023 - 52))) by (apply (fin_normal f64 false 939 1627825354309632); reflexivity).
  exists (f_of false good32), (bs "7.038531e-26"), (rat 7038531 * pow10 (-26 - 6))%Q, 363742205, (rat (2 ^ 23 + 3032061) * pow2 (43 - 127 - 23))%Q, (rat (2 ^ 52 + 1627825354309632) * pow2 (939 - 1023 - 52))%Q.
  split; [reflexivity|]. split; [|split; [|split; [exact F32|split; [exact F64|split; [reflexivity|split; [apply float_has|]]]]]].
  - apply (decimal_intro [] [55] (46 :: bs "038531") (bs "038531") (bs "e-26") false 7038531 (-26)); [now left; split; [left|]|now right| |reflexivity]. right. exists 101, [45], (bs "26"), 26. repeat split; auto.
  - assert (E : round_dec f32 7038531 (-26 - 6) = 363742205) by (vm_compute; reflexivity). pose proof (round_dec_nearest f32 ok32 false 7038531 (-26 - 6)) as N. rewrite E in N. apply N. reflexivity.
  - assert (A : asks_field no_opts (bs "g") (bs "{g}")) by asks_one. split; auto. split; [|split; [|discriminate]].
    + assert (E : float_json false good32 = bs "7.038531e-26") by (vm_compute; reflexivity). rewrite <- E. apply float_shown; auto; [apply float_x_go|apply float_has].
    + eapply (slot_received (float_x FNull) (f_of false good32) no_opts None (bs "f") (one_ins (GFloat false 0)) (one_infs (fin false)) note (float_probe _ _ _) (bs "a") (fin false) (GFloat false 0) (fun v => v) (VFloat (bs "7.038531E-26"))); [apply float_slot|asks_one|discriminate|].
      assert (E1 : parse_float (bs "7.038531E-26") = inl 4230507875723640832) by (vm_compute; reflexivity). assert (E2 : to32 4230507875723640832 = bad32) by (vm_compute; reflexivity). rewrite <- E2.
      apply (ls_float (float_x FNull) (f_of false good32) (op_vars no_opts) None true [] false 0 (fin false) (bs "7.038531E-26") 4230507875723640832); [reflexivity|exact E1].
Qed.
(** a number too large for float32 is not refused: the argument becomes infinity *)
Theorem C52_overflow32_refuted : exists S t r, decimal t false r /\ too_large f32 r /\ asks no_opts None (bs "f") [(bs "a", VFloat t)] (bs "{f(a:1e39)}") /\
  received (float_x FNull) S no_opts note (bs "{f(a:1e39)}") [] [GStruct [(true, GFloat false (infinity f64 false))]].
Proof.
  exists (f_of false 0), (bs "1E39"), (rat 1 * pow10 (39 - 0))%Q. split; [|split; [|split; [asks_one|]]].
  - apply (decimal_intro [] [49] [] [] (bs "E39") false 1 39); [now left; split; [left|]|now left|right; exists 69, [], (bs "39"), 39; repeat split; auto|reflexivity].
  - apply round_dec_large; [apply ok32|]. apply N.leb_le. vm_compute. reflexivity.
  - eapply (slot_received (float_x FNull) (f_of false 0) no_opts None (bs "f") (one_ins (GFloat false 0)) (one_infs (fin false)) note (float_probe _ _ _) (bs "a") (fin false) (GFloat false 0) (fun v => v) (VFloat (bs "1E39"))); [apply float_slot|asks_one|discriminate|].
    assert (E1 : parse_float (bs "1E39") = inl 5190260616003865117) by (vm_compute; reflexivity). assert (E2 : to32 5190260616003865117 = infinity f64 false) by (vm_compute; reflexivity). rewrite <- E2.
    apply (ls_float (float_x FNull) (f_of false 0) (op_vars no_opts) None true [] false 0 (fin false) (bs "1E39") 5190260616003865117); [reflexivity|exact E1].
Qed.
(** not every float64 comes back: 10^20 is written as an integer, which is refused; minus zero becomes zero *)
Theorem C52_round_trip_refuted : exists S S' b b' v v', finite f64 b false v /\ has_field S (bs "g") (OData false (KFloat true)) (GFloat true b) /\
  shows (float_x FNull) S no_opts (bs "{g}") [] (bs "g") (bs "100000000000000000000") /\ refused (float_x FNull) S no_opts (ask_text (bs "f") (bs "a") (bs "100000000000000000000")) [] /\
  finite f64 b' true v' /\ has_field S' (bs "g") (OData false (KFloat true)) (GFloat true b') /\
  shows (float_x FNull) S' no_opts (bs "{g}") [] (bs "g") (bs "-0") /\ received (float_x FNull) S' no_opts note (ask_text (bs "f") (bs "a") (bs "-0")) [] [GStruct [(true, GFloat true 0)]] /\ b' <> 0.
Proof.
  assert (F : finite f64 4906019910204099648 false (rat (2 ^ 52 + 1599915997629504) * pow2 (1089 - 1023 - 52))) by (apply (fin_normal f64 false 1089 1599915997629504); reflexivity).
  assert (F' : finite f64 9223372036854775808 true (rat 0 * pow2 (1 - 1023 - 52))) by (apply (fin_small f64 true 0); reflexivity).
  assert (A : asks_field no_opts (bs "g") (bs "{g}")) by asks_one.
  exists (f_of true 4906019910204099648), (f_of true 9223372036854775808), 4906019910204099648, 9223372036854775808. eexists. eexists. split; [exact F|]. split; [apply float_has|]. split; [|split; [|split; [exact F'|split; [apply float_has|split; [|split; [|discriminate]]]]]].
  - assert (E : float_json true 4906019910204099648 = bs "100000000000000000000") by (vm_compute; reflexivity). rewrite <- E. apply float_shown; auto; [apply float_x_go|apply float_has].
  - refine (proj2 (C52_integer (float_x FNull) (f_of true 4906019910204099648) no_opts None (bs "f") _ _ note (float_x_go FNull) (bs "a") (fin true) true 0 (fun v => v) _ (10 ^ 20)%Z _ [] (float_probe _ _ _) (float_slot true) (lit_asks (bs "100000000000000000000") (10 ^ 20)%Z eq_refl eq_refl) eq_refl) (proj2 out_of_int64)).
  - assert (E : float_json true 9223372036854775808 = bs "-0") by (vm_compute; reflexivity). rewrite <- E. apply float_shown; auto; [apply float_x_go|apply float_has].
  - eapply (slot_received (float_x FNull) (f_of true 9223372036854775808) no_opts None (bs "f") (one_ins (GFloat true 0)) (one_infs (fin true)) note (float_probe _ _ _) (bs "a") (fin true) (GFloat true 0) (fun v => v) (VInt (bs "-0"))); [apply float_slot|apply (lit_asks (bs "-0") 0%Z); reflexivity|discriminate|].
    apply ls_int; [reflexivity|]. assert (E : of_int 0 = 0) by reflexivity. rewrite <- E. apply (it_float (float_x FNull) true 0 (bs "-0") 0%Z); [reflexivity|apply zero_int64].
Qed.
Print Assumptions C52_integer_refuted.
Print Assumptions C52_float32_refuted.
Print Assumptions C52_overflow32_refuted.
Print Assumptions C52_round_trip_refuted.
