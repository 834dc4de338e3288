(** * What the tester reads (proofs) *)
From Coq Require Import String Arith NArith ZArith Bool List Lia Sorted Permutation.
From Verif Require Import Base Json JsonModel JsonProof JsonUnique NameModel ParserModel ReqModel Schema ResModel EnvModel GoTypes ParseModel ParseFacts ParseTerm SchemaSpec ParseWhole
  SampleProg IntroModel IntroProof IntroTables IntroSpec IntroFacts SampleIntro PropIntro PropOut TesterModel TesterSpec TesterSchema.
From Verif Require Import Ast Grammar RefGrammar Interp RunSim Facts DocRun Spec TesterProof.
Import ListNotations.
Open Scope N_scope.
Local Notation SN := Datatypes.S.
Local Notation scalar := Json.scalar.
Local Notation g_type := IntroModel.g_type.
Local Notation g_field := IntroModel.g_field.

(** ** Reading is a function *)
Lemma forall2_fun {A B} (R : A -> B -> Prop) : (forall a b c, R a b -> R a c -> b = c) -> forall l m k, Forall2 R l m -> Forall2 R l k -> m = k.
Proof. intros F l m k H. revert k. induction H; intros k K; inversion K; subst; [reflexivity|]. f_equal; eauto. Qed.
Lemma read_field_fun j a b : read_field j a -> read_field j b -> a = b.
Proof. intros H K. inversion H; subst. inversion K; subst. reflexivity. Qed.
Lemma read_fields_fun j a b : read_fields j a -> read_fields j b -> a = b.
Proof. intros H K. inversion H; subst; inversion K; subst; [reflexivity|]. eapply forall2_fun; [exact read_field_fun|eassumption|assumption]. Qed.
Lemma read_kind_fun j a b : read_kind j a -> read_kind j b -> a = b.
Proof. intros H K. inversion H; subst; inversion K; subst; reflexivity. Qed.
Lemma read_res_fun j a b : read_res j a -> read_res j b -> a = b.
Proof.
  intros H K. inversion H; subst; inversion K; subst; [reflexivity|].
  match goal with H1 : read_kind _ _, H2 : read_kind _ _ |- _ => rewrite (read_kind_fun _ _ _ H1 H2) end.
  match goal with H1 : read_fields _ _, H2 : read_fields _ _ |- _ => rewrite (read_fields_fun _ _ _ H1 H2) end. reflexivity.
Qed.
Lemma got_fun {W} (r : rresult W) a b : got r a -> got r b -> a = b.
Proof.
  unfold got. destruct r as [out errs v w| |]; try contradiction. destruct errs; [|congruence]. intros [j [T R]] [j' [T' R']]. rewrite (jtext_unique _ _ _ T' T) in R'. eapply read_res_fun; eauto.
Qed.

(** ** Names as JSON *)
Lemma utf8_points l : Forall scalar l -> forall m, codepoints (utf8_of l) m -> m = l.
Proof.
  induction 1 as [|c l Sc F IH]; intros m H.
  - inversion H as [E1 E2|c s k Sc' H' E1|]; [reflexivity|]. exfalso. pose proof (encode_len c) as L. destruct (utf8_encode c); [cbn in L; lia|discriminate].
  - change (utf8_of (c :: l)) with (utf8_encode c ++ utf8_of l) in H. inversion H as [E1 E2|c' s k Sc' H' E1|b s k B H' E1].
    + exfalso. pose proof (encode_len c) as L. destruct (utf8_encode c); [cbn in L; lia|discriminate].
    + apply encode_inj in E1; auto. destruct E1 as [-> ->]. f_equal. now apply IH.
    + exfalso. exact (B c (utf8_of l) Sc (E1)).
Qed.
Lemma name_json s : utf8 s -> exists l, jstring l (string_to_json s) /\ utf8_of l = s.
Proof. intros [l [F ->]]. destruct (string_to_json_ok (utf8_of l)) as [m [C J]]. rewrite (utf8_points l F m C) in J. eauto. Qed.
Ltac plain := apply plain_string; repeat (apply Forall_cons; [cbv; repeat split; discriminate|]); apply Forall_nil.
Section Texts.
Variable fl : bool -> N -> bytes.
Lemma fields_json l : Forall (fun f => utf8 (qf_name f)) l -> exists js, jelems js (render_elems fl (map name_tree l)) /\ Forall2 read_field js (map qf_name l).
Proof.
  induction 1 as [|f l U F IH]; [exists []; split; constructor|]. destruct IH as [js [J R]]. destruct (name_json _ U) as [n [Jn En]].
  exists (JObj [(bs "name", JStr n)] :: js). assert (T : jtext (JObj [(bs "name", JStr n)]) (render fl (name_tree f))).
  { change (render fl (name_tree f)) with (123 :: ((quoted (bs "name") ++ 58 :: string_to_json (qf_name f)) ++ [125])). constructor. constructor; [plain|]. now constructor. }
  split; [|cbn [map]; constructor; [rewrite <- En; constructor|exact R]].
  destruct l as [|g l].
  - cbn in R. inversion R; subst. cbn [map render_elems]. now constructor.
  - cbn [map render_elems] in *. apply (Json.je_cons _ _ _ _ T J). intros ->. inversion R.
Qed.
Definition read_tree (r : option ttype) (t : rt) : Prop :=
  match r with
  | None => t = TNull
  | Some r => exists q fs, t = type_tree q fs /\ tt_kind r = kind_name (q_kind q) /\ tt_fields r = match fs with Some l => map qf_name l | None => [] end
  end.
Lemma kind_plain k : jstring (kind_name k) (quoted (kind_name k)) /\ utf8_of (kind_name k) = kind_name k.
Proof. destruct k; (split; [plain|reflexivity]). Qed.
Lemma tree_json r t : read_tree r t -> (forall r', r = Some r' -> Forall utf8 (tt_fields r')) ->
  exists j, jtext j ([123] ++ render_members fl [(bs "__type", t)] ++ [125]) /\ read_res j r.
Proof.
  destruct r as [[k ns]|].
  - intros [q [fs [-> [K N]]]] U. cbn in K, N. specialize (U _ eq_refl). cbn in U.
    assert (F : exists jf, jtext jf (render fl (fields_tree fs)) /\ read_fields jf ns).
    { destruct fs as [l|]; [|subst ns; exists JNull; split; constructor]. subst ns. assert (U' : Forall (fun f => utf8 (qf_name f)) l) by (rewrite Forall_map in U; exact U).
      destruct (fields_json l U') as [js [J R]]. exists (JArr js). split; [|now constructor]. change (render fl (fields_tree (Some l))) with (91 :: render_elems fl (map name_tree l) ++ [93]). now constructor. }
    destruct F as [jf [JF RF]]. destruct (kind_plain (q_kind q)) as [KP KU]. subst k.
    exists (JObj [(bs "__type", JObj [(bs "kind", JStr (kind_name (q_kind q))); (bs "fields", jf)])]). split; [|constructor; [rewrite <- KU at 2; constructor|exact RF]].
    replace ([123] ++ render_members fl [(bs "__type", type_tree q fs)] ++ [125]) with
      (123 :: (quoted (bs "__type") ++ 58 :: 123 :: (quoted (bs "kind") ++ 58 :: quoted (kind_name (q_kind q)) ++ 44 :: (quoted (bs "fields") ++ 58 :: render fl (fields_tree fs))) ++ [125]) ++ [125])
      by (unfold type_tree; cbn [render_members render_rest render]; unfold quoted; change (bs """") with [34]; repeat (rewrite <- app_assoc; cbn [List.app]); rewrite ?app_nil_r; reflexivity).
    constructor. apply Json.jm_one; [plain|]. constructor. apply Json.jm_cons; [plain|constructor; exact KP| |discriminate]. apply Json.jm_one; [plain|exact JF].
  - intros H _. cbn in H. subst t. exists (JObj [(bs "__type", JNull)]). split; [|constructor]. change ([123] ++ render_members fl [(bs "__type", TNull)] ++ [125]) with (123 :: (quoted (bs "__type") ++ 58 :: bs "null") ++ [125]).
    constructor. constructor; [plain|constructor].
Qed.
End Texts.

(** ** The answers *)
Section Answers.
Variables (P : program) (own iown inown : bytes -> option gtype) (qt mt : gtype) (inj : option (gval * gval)) (p : pschema).
Hypothesis SR : schema_reads P own iown inown qt mt inj p.
Hypothesis RG : ParseTerm.registered P.
Hypothesis TI : time_apart P.
Hypothesis TB : tables_ok (p_st p).
Hypothesis AP : all_apart P p.
Notation I := (original P p).
Notation s := (p_st p).
Notation known := (known P own iown inown).
Lemma sorted_names l : by_name qf_name l -> by_name (fun x => x) (map qf_name l).
Proof. unfold by_name. induction 1 as [|f l S IH F]; cbn; constructor; [exact IH|]. rewrite Forall_map. exact F. Qed.
Lemma type_answer h n : cache_ok I (h 0%nat) -> (forall t, own n = Some t \/ iown n = Some t -> keys_apart P t) ->
  exists c t ft r, call_intro I (h 0%nat) FType (name_arg n) = Some (c, answer_of t) /\
    match t with Some q => exists fs h', fields_given P p (put h 0 c) q fs h' /\ ft = type_tree q fs | None => ft = TNull end /\ read_tree r ft /\ known n r.
Proof.
  intros CK KA. destruct (types_shown P own iown inown qt mt inj p SR RG TI TB) as [l TL]. pose proof (same_names P p TB AP) as NO.
  assert (ND : NoDup (map name_or l)).
  { assert (X : map name_or l = map (fun o => match o with Some n => n | None => [] end) (map q_name l)) by (rewrite map_map; reflexivity).
    rewrite X. eapply Permutation_NoDup; [apply Permutation_sym, Permutation_map, (tl_names _ _ _ _ _ TL)|]. rewrite map_map, map_id. exact AP. }
  pose proof (get_type_ok I (h 0%nat) n CK) as G. rewrite (tl_all _ _ _ _ _ TL) in G. destruct G as [c [G CK']].
  assert (C : call_intro I (h 0%nat) FType (name_arg n) = Some (c, answer_of (slookup (type_map l) n))) by (cbn [call_intro name_arg]; rewrite G; reflexivity).
  assert (PC : put h 0 c 0%nat = c) by reflexivity.
  assert (FT : forall q, In q l -> q_name q = Some n -> slookup (type_map l) n = Some q).
  { intros q H E. assert (NN : n = name_or q) by (unfold name_or; now rewrite E). unfold type_map. now rewrite NN, type_map_in. }
  rewrite C. destruct (own n) as [t|] eqn:O.
  { destruct (sr_own _ _ _ _ _ _ _ _ SR _ _ O) as [L _]. destruct (slookup (ps_types s) n) as [v|] eqn:E; [|contradiction]. clear L. destruct (slookup_nth _ _ _ E) as [i NI].
    destruct (tl_obj _ _ _ _ _ TL i n v NI) as [is [Hq _]]. destruct (struct_fields P own iown inown qt mt inj p SR RG TI n v t E O (KA t (or_introl eq_refl))) as [fl [EF [S1 [S2 _]]]].
    pose proof (get_fields_type I NO c n v CK' (slookup_in _ _ _ E)) as GF. rewrite EF in GF. destruct GF as [c2 [GF _]].
    rewrite (FT _ Hq eq_refl). eexists c, (Some _), _, (Some (TT (bs "OBJECT") (map qf_name fl))). split; [reflexivity|]. split; [|split].
    - exists (Some fl), (put (put h 0 c) 0 c2). split; [|reflexivity]. unfold fields_given. cbn [q_fields]. split; [reflexivity|]. exists fl. split; [reflexivity|]. exists c2. split; [|reflexivity].
      intro args. rewrite PC. cbn [call_intro original is_p]. rewrite NI, GF. reflexivity.
    - eexists _, _. split; [reflexivity|]. split; reflexivity.
    - apply (k_struct P own iown inown n t); [exact O|now apply sorted_names|exact S2]. }
  destruct (iown n) as [t|] eqn:IO.
  { destruct (sr_iown _ _ _ _ _ _ _ _ SR _ _ IO) as [L _]. destruct (slookup (ps_ifaces s) n) as [v|] eqn:E; [|contradiction]. clear L. destruct (slookup_nth _ _ _ E) as [i NI].
    pose proof (tl_iface _ _ _ _ _ TL i n v NI) as Hq. destruct (iface_fields P own iown inown qt mt inj p SR RG TI n v t E IO (KA t (or_intror eq_refl))) as [fl [EF [S1 [S2 _]]]].
    pose proof (get_fields_iface I NO c n v CK' (slookup_in _ _ _ E)) as GF. rewrite EF in GF. destruct GF as [c2 [GF _]].
    rewrite (FT _ Hq eq_refl). eexists c, (Some _), _, (Some (TT (bs "INTERFACE") (map qf_name fl))). split; [reflexivity|]. split; [|split].
    - exists (Some fl), (put (put h 0 c) 0 c2). split; [|reflexivity]. unfold fields_given. cbn [q_fields]. split; [reflexivity|]. exists fl. split; [reflexivity|]. exists c2. split; [|reflexivity].
      intro args. rewrite PC. cbn [call_intro original is_p]. rewrite NI, GF. reflexivity.
    - eexists _, _. split; [reflexivity|]. split; reflexivity.
    - apply (k_iface P own iown inown n t); [exact IO|now apply sorted_names|exact S2]. }
  assert (NOF : forall q k, q_name q = Some n -> In q l -> q_fields q = None -> kind_name (q_kind q) = k -> known n (Some (TT k [])) ->
    exists c0 t ft r, Some (c, answer_of (slookup (type_map l) n)) = Some (c0, answer_of t) /\
    match t with Some q => exists fs h', fields_given P p (put h 0 c0) q fs h' /\ ft = type_tree q fs | None => ft = TNull end /\ read_tree r ft /\ known n r).
  { intros q k Q1 Q2 Q3 Q4 KN. rewrite (FT _ Q2 Q1). eexists c, (Some q), _, _. split; [reflexivity|]. split; [|split; [|exact KN]].
    - exists None, (put h 0 c). split; [|reflexivity]. unfold fields_given. rewrite Q3. auto.
    - eexists _, _. split; [reflexivity|]. split; [now symmetry|reflexivity]. }
  destruct (inown n) as [t|] eqn:INO.
  { destruct (sr_inown _ _ _ _ _ _ _ _ SR _ _ INO) as [L _]. destruct (slookup (ps_intypes s) n) as [j|] eqn:E; [|contradiction]. destruct (slookup_nth _ _ _ E) as [i NI].
    refine (NOF _ (bs "INPUT_OBJECT") _ (tl_in _ _ _ _ _ TL i n j NI) _ _ (k_input P own iown inown n t INO)); reflexivity. }
  destruct (in_dec (list_eq_dec N.eq_dec) n (map en_name (g_enums P))) as [HE|HE].
  { pose proof HE as HE'. apply in_map_iff in HE'. destruct HE' as [e [EN He]]. destruct (In_nth_error _ _ He) as [i NI].
    refine (NOF _ (bs "ENUM") _ (tl_enum _ _ _ _ _ TL i e NI) _ _ (k_enum P own iown inown n HE)); [cbn; congruence|reflexivity|reflexivity]. }
  destruct (in_dec (list_eq_dec N.eq_dec) n scalar_names) as [HS|HS].
  { assert (SC : forall q, In q scalars -> In q l).
    { intros q Hq. pose proof (tl_all _ _ _ _ _ TL) as A. unfold all_types in A. destruct (all_some _) as [ts|]; [|discriminate]. assert (A' : forall a b : list qlt, Some a = Some b -> a = b) by congruence. apply A' in A. clear A'.
      rewrite <- A. apply (Permutation_in _ (Permutation_sym (sort_perm _ _))). rewrite !in_app_iff. do 3 right. now left. }
    assert (SQ : exists q, In q scalars /\ q_name q = Some n /\ q_fields q = None /\ kind_name (q_kind q) = bs "SCALAR").
    { clear - HS. assert (SF : Forall (fun q => q_fields q = None /\ kind_name (q_kind q) = bs "SCALAR") scalars) by (repeat constructor). rewrite Forall_forall in SF.
      assert (HN : In (Some n) (map q_name scalars)) by (change (map q_name scalars) with (map Some scalar_names); now apply in_map).
      apply in_map_iff in HN. destruct HN as [q [Q1 Q2]]. exists q. split; [exact Q2|]. split; [exact Q1|]. now apply SF. }
    destruct SQ as [q [Q1 [Q2 [Q3 Q4]]]]. apply (NOF q _ Q2 (SC q Q1) Q3 Q4). now apply k_scalar. }
  exists c, None, TNull, None. split; [|split; [reflexivity|split; [reflexivity|constructor; auto; unfold without_fields; intros [A|[A|A]]; [congruence|contradiction|contradiction]]]].
  pose proof (ds_none _ _ _ _ _ _ _ _ _ _ (all_described P own iown inown qt mt inj p SR RG TI TB AP (h 0%nat) CK) n O IO INO HE HS) as [c' D]. rewrite C in D. injection D as _ D. unfold answer_of. now rewrite D.
Qed.
End Answers.

Theorem tester_gets : forall W P own iown inown qt mt sv p (X : externals W) fuel vars vals h w n qv mv d,
  yarql_program P -> schema_reads P own iown inown qt mt (Some (sv, type_function)) p -> ParseTerm.registered P -> time_apart P -> tables_ok (p_st p) -> all_apart P p ->
  heap_ok P p h -> (30 <= fuel)%nat -> (forall w, x_ctxerr X w = None) -> d <> 1 -> d <> 2 ->
  vars <> [] -> x_parse X vars = inl (FObject [(bs "typename", FString n)]) ->
  (forall t, own n = Some t \/ iown n = Some t -> keys_apart P t /\ Forall utf8 (field_names P t)) ->
  exists r, got (resolve (intro_env P p 0 any_call X) (view P p qv mv d) fuel (tester_opts vars) vals (h, w) tester_query) r /\ known P own iown inown n r.
Proof.
  intros W P own iown inown qt mt sv p X fuel vars vals h w n qv mv d Y SR RG TI TB AP HO L CTX D1 D2 VN VP KA.
  destruct (type_answer P own iown inown qt mt _ p SR RG TI TB AP h n (HO 0%nat) (fun t H => proj1 (KA t H))) as [c [t [ft [r [C [F [RT K]]]]]]].
  exists r. split; [|exact K].
  assert (EN : nth_error (s_enums (view P p qv mv d)) 0 = nth_error yarql_enums 0) by (cbn [view s_enums]; destruct (yp_enums P Y) as [es ->]; reflexivity).
  destruct (query_run P p X (view P p qv mv d) vars (schema_for_tester P own iown inown qt mt sv _ p Y SR qv mv d) EN CTX (conj D1 D2) n VN VP fuel h w c t ft L C F) as [s' [R ER]].
  assert (H1 : nul_free [tester_op]) by (vm_compute; repeat constructor; auto).
  assert (H2 : N.of_nat (length (enc_doc [tester_op])) < 4294967296) by (vm_compute; reflexivity).
  assert (H3 : runs (tester_opts vars) [tester_op] tester_op) by (exists [], []; split; [reflexivity|]; split; [vm_compute; repeat split; auto|constructor]).
  pose proof (resolve_doc (heap * W) (intro_env P p 0 any_call X) (view P p qv mv d) fuel (tester_opts vars) vals (h, w) tester_query [tester_op] tester_op tester_doc H1 H2 H3) as RD.
  change (op_vars (tester_opts vars)) with vars in RD. unfold heap in *. rewrite R in RD. cbv zeta iota beta in RD. rewrite ER in RD. destruct RD as [vals' RD].
  rewrite RD. unfold finish_of, start_of. cbn [tester_opts op_nometa map got List.app].
  apply (tree_json (x_float_json (intro_env P p 0 any_call X)) r ft RT). intros r' ->. inversion K; subst; cbn [tt_fields]; try constructor;
  match goal with H : Permutation _ _ |- _ => eapply Permutation_Forall; [apply Permutation_sym; exact H|] end; apply (KA t0); auto.
Qed.

(** ** One name, one type *)
Section Apart.
Variables (P : program) (own iown inown : bytes -> option gtype) (qt mt : gtype) (inj : option (gval * gval)) (p : pschema).
Hypothesis SR : schema_reads P own iown inown qt mt inj p.
Hypothesis AP : all_apart P p.
Lemma in_keys {A} (l : list (bytes * A)) n v : slookup l n = Some v -> In n (map fst l).
Proof. intro H. apply slookup_in in H. now apply (in_map fst) in H. Qed.
Lemma nodup_parts {A} (a b : list A) x : NoDup (a ++ b) -> In x a -> In x b -> False.
Proof.
  induction a as [|y a IH]; cbn; [contradiction|]. intros D H K. inversion D; subst. destruct H as [->|H]; [|now apply IH]. match goal with N : ~ In _ _ |- _ => apply N end. apply in_or_app. now right.
Qed.
Lemma nodup_right {A} (a b : list A) : NoDup (a ++ b) -> NoDup b.
Proof. induction a as [|y a IH]; cbn; [auto|]. intro D. inversion D; subst. auto. Qed.
Lemma one_type n : (forall t, own n = Some t -> iown n = None /\ ~ without_fields P inown n) /\ (forall t, iown n = Some t -> own n = None /\ ~ without_fields P inown n).
Proof.
  unfold all_apart in AP. rewrite app_assoc in AP.
  assert (O : own n <> None -> In n (map fst (ps_types (p_st p)))).
  { intro H. destruct (own n) as [t|] eqn:E; [|contradiction]. destruct (sr_own _ _ _ _ _ _ _ _ SR _ _ E) as [L _]. destruct (slookup (ps_types (p_st p)) n) as [v|] eqn:EL; [|contradiction]. eapply in_keys, EL. }
  assert (IO : iown n <> None -> In n (map fst (ps_ifaces (p_st p)))).
  { intro H. destruct (iown n) as [t|] eqn:E; [|contradiction]. destruct (sr_iown _ _ _ _ _ _ _ _ SR _ _ E) as [L _]. destruct (slookup (ps_ifaces (p_st p)) n) as [v|] eqn:EL; [|contradiction]. eapply in_keys, EL. }
  assert (INO : inown n <> None -> In n (map fst (ps_intypes (p_st p)))).
  { intro H. destruct (inown n) as [t|] eqn:E; [|contradiction]. destruct (sr_inown _ _ _ _ _ _ _ _ SR _ _ E) as [L _]. destruct (slookup (ps_intypes (p_st p)) n) as [v|] eqn:EL; [|contradiction]. eapply in_keys, EL. }
  assert (A1 : own n <> None -> iown n <> None -> False).
  { intros H K. rewrite <- app_assoc in AP. apply (nodup_parts _ _ n AP (O H)). rewrite !in_app_iff. auto. }
  assert (A2 : own n <> None -> without_fields P inown n -> False).
  { intros H K. rewrite <- app_assoc in AP. apply (nodup_parts _ _ n AP (O H)). rewrite !in_app_iff. destruct K as [K|[K|K]]; auto. }
  assert (A3 : iown n <> None -> without_fields P inown n -> False).
  { intros H K. rewrite <- app_assoc in AP. apply nodup_right in AP. rewrite !app_assoc in AP. refine (nodup_parts _ _ n AP _ (IO H)). rewrite !in_app_iff. destruct K as [K|[K|K]]; auto. }
  split; intros t E.
  - split; [destruct (iown n) eqn:F; [|reflexivity]; exfalso; apply A1; congruence|]. intro K. apply A2; congruence.
  - split; [destruct (own n) eqn:F; [|reflexivity]; exfalso; apply A1; congruence|]. intro K. apply A3; congruence.
Qed.
Lemma one_other n : (inown n <> None -> ~ In n (map en_name (g_enums P)) /\ ~ In n scalar_names) /\ (In n (map en_name (g_enums P)) -> ~ In n scalar_names).
Proof.
  unfold all_apart in AP. apply nodup_right in AP. split.
  - intro H. destruct (inown n) as [t|] eqn:E; [|contradiction]. destruct (sr_inown _ _ _ _ _ _ _ _ SR _ _ E) as [L _]. destruct (slookup (ps_intypes (p_st p)) n) as [v|] eqn:EL; [|contradiction]. apply in_keys in EL.
    split; intro K; apply (nodup_parts _ _ n AP EL); rewrite !in_app_iff; auto.
  - intros H K. apply nodup_right in AP. apply (nodup_parts _ _ n AP H). rewrite !in_app_iff. auto.
Qed.
Lemma first_unknown_none l k : first_unknown l k = None <-> incl l k.
Proof.
  induction l as [|f l IH]; cbn; [split; [intros _ x []|auto]|]. destruct (existsb (fun k0 => beqb k0 f) k) eqn:E.
  - rewrite IH. apply existsb_exists in E. destruct E as [x [Hx E]]. apply beqb_eq in E. subst x. split; [intros H y [<-|Hy]; auto|intros H y Hy; apply H; now right].
  - split; [discriminate|]. intro H. exfalso. assert (X : existsb (fun k0 => beqb k0 f) k = true) by (apply existsb_exists; exists f; split; [apply H; now left|apply beqb_refl]). congruence.
Qed.
Lemma first_unknown_some k f post : forall pre, incl pre k -> ~ In f k -> first_unknown (pre ++ f :: post) k = Some f.
Proof.
  induction pre as [|g pre IH]; intros I N; cbn.
  - destruct (existsb (fun k0 => beqb k0 f) k) eqn:E; [|reflexivity]. apply existsb_exists in E. destruct E as [x [Hx E]]. apply beqb_eq in E. subst x. contradiction.
  - assert (X : existsb (fun k0 => beqb k0 g) k = true) by (apply existsb_exists; exists g; split; [apply I; now left|apply beqb_refl]). rewrite X. apply IH; [|exact N]. intros y Hy. apply I. now right.
Qed.
End Apart.
