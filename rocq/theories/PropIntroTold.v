(** * C56 with introspection: responses are as introspection says *)
From Coq Require Import String Arith NArith ZArith Bool List Lia.
From Verif Require Import Base Json JsonModel NameModel Ast Grammar RefParser RefGrammar ParserModel ReqModel Schema ResModel EnvModel Samples
  Interp RunSim OpSim DocRun Valid PropEnv PropValid GoTypes ParseModel ParseTerm SchemaSpec ParseWhole SchemaCheck IntroModel IntroProof IntroTables IntroSpec IntroFacts
  SampleProg SampleIntro PropSchema PropIntro PropDescribe TypeSpec TypeArgs TypeSafe TypeCheck PropPanic AnswerSpec AnswerProof AnswerTold PropAnswer IntroTyped PropIntroSafe.
Import ListNotations.
Open Scope nat_scope.

(** the two fields of queries that introspection does not tell, with their types *)
Definition untold (p : pschema) (n f : bytes) (r : tref) : Prop :=
  n = p_query p /\ (f = bs "__schema" /\ r = NonNull (Named (bs "__Schema")) \/ f = bs "__type" /\ r = Named (bs "__Type")).
Lemma nodup_right {A} (l l' : list A) : NoDup (l ++ l') -> NoDup l'. Proof. induction l; cbn; intro H; [exact H|]. inversion H; auto. Qed.
Lemma nodup_left {A} (l l' : list A) : NoDup (l ++ l') -> NoDup l.
Proof. induction l as [|a l IH]; cbn; intro H; [constructor|]. inversion H; subst. constructor; [|auto]. intro K. apply H2. apply in_or_app. now left. Qed.
Lemma enums_apart P p : all_apart P p -> NoDup (map en_name (g_enums P)).
Proof. intro H. apply nodup_right, nodup_right, nodup_left in H. exact H. Qed.
Lemma extra_untold ds renamed impls impled es dirs locs own iown inown qt mt inj p f r : let P := with_yarql ds renamed impls impled es dirs locs in
  schema_reads P own iown inown qt mt inj p -> query_extra P own iown f r -> untold p (p_query p) f r.
Proof.
  intros P SR H. split; [reflexivity|]. destruct H as [[-> H]|[-> (i & t & r0 & (N & _) & H & ->)]].
  - left. split; [reflexivity|]. inversion H as [? ? T|? n T K O|? n T K O|? e ? ? T K E|? e ? ? T K E|? ? j T K|? ? T K]; subst; try discriminate; try contradiction; try (destruct K; discriminate).
    + destruct (sr_own _ _ _ _ _ _ _ _ SR _ _ O) as (_ & _ & _ & _ & Nm & _). rewrite Nm by discriminate. reflexivity.
    + destruct K as (_ & _ & K). contradiction.
  - right. split; [reflexivity|]. change (nth_error [TPtr y_type] i = Some t) in N. destruct i as [|[|]]; try discriminate. injection N as <-.
    inversion H as [? ? T|? n T K O|? n T K O|? e ? ? T K E|? e ? ? T K E G|? ? j T K|? ? T K]; subst; try discriminate; try contradiction; try (destruct K; discriminate).
    + injection E as <-. inversion G as [? ? T'|? n T' K' O|? n T' K' O|? e ? ? T' K' E|? e ? ? T' K' E G'|? ? j T' K'|? ? T' K']; subst; try discriminate; try contradiction; try (destruct K'; discriminate).
      * destruct (sr_own _ _ _ _ _ _ _ _ SR _ _ O) as (_ & _ & _ & _ & Nm & _). rewrite Nm by discriminate. reflexivity.
      * destruct K' as (_ & _ & K'). contradiction.
    + destruct K as (_ & _ & K). contradiction.
Qed.
(** For a program as in C57: the data of every response, to whatever requests and whatever was asked before, conforms to the types that
    introspection tells, after any requests (without mutationType.fields, see C42), for the types, fields and enums it was asked about. *)
Theorem C56_as_introspection_says : forall W (X : externals W) ds renamed impls impled es dirs locs qt mt same qn mn fuel p s Fu inv qv mv maxdepth h w h0 me fuel' o vals q out errs vals' w' doc op,
  let P := with_yarql ds renamed impls impled es dirs locs in
  named_apart P (roots_of P qt mt true) -> inputs_apart P (roots_of P qt mt true) (more_of P true) -> registered P -> time_apart P -> all_apart P p ->
  all_named P (roots_of P qt mt true) -> (forall t, SchemaSpec.reach P (roots_of P qt mt true) t -> keys_apart P t) ->
  parse P fuel qt mt same (Some (schema_value P qn mn, type_function)) new_pst = POk p s ->
  go_facts P -> careful P (roots_of P qt mt true) (more_of P true) -> (x_formfile X = None -> no_files P (roots_of P qt mt true) (more_of P true)) ->
  other_code ds renamed impls impled es dirs locs p Fu X inv ->
  intro_R ds renamed impls impled es dirs locs p Fu qt qv -> intro_R ds renamed impls impled es dirs locs p Fu mt mv ->
  served ds renamed impls impled es dirs locs X p qv mv maxdepth inv h w -> @history W P p h0 ->
  readable (intro_env P p me any_call X) (schema_of P p 0 qv mv maxdepth) o fuel' (h, w) q -> g_doc doc q -> runs o doc op -> names_told P (roots_of P qt mt true) doc ->
  resolve (intro_env P p me any_call X) (schema_of P p me qv mv maxdepth) fuel' o vals (h, w) q = RDone out errs vals' w' ->
  exists ms, out = finish_of o (start_of o ++ render (x_float_json X) (TObj ms)) errs /\
    members_conform (told_gql (untold p) (original P p) (h0 0)) (fun _ => True) (frag_defs doc) (match errs with [] => true | _ => false end) (root_name p op) (sels_of op) ms.
Proof.
  intros W X ds renamed impls impled es dirs locs qt mt same qn mn fuel p s Fu inv qv mv maxdepth h w h0 me fuel' o vals q out errs vals' w' doc op P NA IA RG TA AP AN KA PA GF CA NF U Rq Rm SV HI Rd Gd Ro NT E.
  pose proof (enums_apart _ _ AP) as EN.
  assert (K : kept_all ds renamed impls impled es dirs locs p inv (h, w)) by (eapply served_kept; eauto).
  rewrite C40_copies_answer_alike in E.
  destruct (parse_sound P qt mt same (Some (schema_value P qn mn, type_function)) NA IA fuel p s PA) as [_ [own [iown [inown SR]]]].
  assert (WT : well_typed (intro_env P p me any_call X) P qt mt (Some (schema_value P qn mn, type_function)) (intro_R ds renamed impls impled es dirs locs p Fu) (kept_all ds renamed impls impled es dirs locs p inv) qv mv).
  { constructor; auto.
    - apply has_type_typing.
    - apply injected. exact EN.
    - eapply all_behaves; eauto.
    - cbn [intro_env x_formfile]. intro F. apply NF. destruct (x_formfile X); [discriminate|reflexivity]. }
  destruct (Rd doc op Gd Ro) as (Nf & Sz & Sc). pose proof (resolve_doc _ (intro_env P p me any_call X) (view P p qv mv maxdepth) fuel' o vals (h, w) q doc op Gd Nf Sz Ro) as D.
  assert (Iop : In op doc) by (destruct Ro as (d1 & d2 & -> & _); apply in_or_app; right; now left).
  assert (Hop : match op with DOp _ _ _ _ _ => True | _ => False end) by (destruct Ro as (d1 & d2 & _ & So & _); destruct op; [exact Logic.I|exact So]).
  pose proof (operation_shape _ _ P qt mt _ p own iown inown _ _ qv mv maxdepth (op_vars o) doc op fuel' SR WT (registered_only P _ _ GF) NT Iop Hop (s0 (h, w)) K) as B.
  change (schema_of P p 0 qv mv maxdepth) with (view P p qv mv maxdepth) in E, Sc. unfold in_scope in Sc.
  destruct (b_operation _ (view P p qv mv maxdepth) (op_vars o) doc op fuel' (s0 (h, w))) as [[ms c] s'| | |]; [|rewrite E in D; discriminate|rewrite E in D; discriminate|congruence].
  destruct D as [v D]. rewrite E in D. injection D as -> -> -> ->. destruct B as (_ & es' & Er & B). cbn in Er. exists ms. split; [now rewrite render_obj|].
  assert (DS : described P own iown inown qt mt false (args_after_first P) (original P p) (h0 0)).
  { pose proof (parsed_tables P _ _ _ _ _ _ _ PA) as TB. apply (all_described P own iown inown qt mt (Some (schema_value P qn mn, type_function)) p); auto.
    apply (fun N => history_ok P p h0 N HI 0). now apply (same_names P p). }
  assert (LE : gql_le (go_gql P own iown (p_query p) true) (told_gql (untold p) (original P p) (h0 0))).
  { destruct (told_all P qt mt (Some (schema_value P qn mn, type_function)) p own iown inown SR AN false (args_after_first P) (original P p) (h0 0) DS KA true) as [L1 L2 L3 L4]. constructor; auto.
    intros n f r H. destruct (L2 n f r H) as [(_ & -> & Q)|Q]; [left; eapply extra_untold; eauto|right; exact Q]. }
  rewrite Er. cbn [fst] in B. apply (conform_le _ _ _ _ _ LE). destruct es'; exact B.
Qed.
Print Assumptions C56_as_introspection_says.

(** ** The program of C57 meets the hypotheses *)
Example C56_as_introspection_says_case :
  named_apart app (roots_of app a_query a_meth true) /\ inputs_apart app (roots_of app a_query a_meth true) (more_of app true) /\ registered app /\ time_apart app /\ all_apart app app_schema /\
  all_named app (roots_of app a_query a_meth true) /\ (forall t, SchemaSpec.reach app (roots_of app a_query a_meth true) t -> keys_apart app t) /\
  (exists s, parse app 60 a_query a_meth false (Some (schema_value app (bs "Query") (bs "Mutation"), type_function)) new_pst = POk app_schema s) /\
  go_facts app /\ careful app (roots_of app a_query a_meth true) (more_of app true) /\ no_files app (roots_of app a_query a_meth true) (more_of app true) /\
  other_code app_decls a_renamed a_impls a_impled a_enums [] yarql_locs app_schema none_else app_x no_inv /\ app_R a_query app_root /\ app_R a_meth (GStruct []) /\
  served app_decls a_renamed a_impls a_impled a_enums [] yarql_locs app_x app_schema app_root (GStruct []) 255 no_inv (fst (after looked)) (snd (after looked)) /\
  @history world app app_schema (heap_of (ask app app_schema app_value no_mutation_fields 0 fresh first_request)) /\
  readable (app_env 2) (app_sees 0) no_opts 3000 (after looked) all_text /\
  exists doc op, g_doc doc all_text /\ runs no_opts doc op /\ names_told app (roots_of app a_query a_meth true) doc /\
  exists vals w, resolve (app_env 2) (app_sees 2) 3000 no_opts no_vals (after looked) all_text = RDone (q2 "{'data':{'__type':{'name':'Mood','enumValues':[{'name':'BAD'},{'name':'GOOD'}]},'t':{'possibleTypes':[{'name':'Dog','interfaces':[{'name':'Pet'}]}]},'u':{'inputFields':[{'name':'name','type':{'name':null}},{'name':'or','type':{'name':'UserFilter'}}]}}}") [] vals w.
Proof.
  destruct C57_case as (H1 & H2 & H3 & H4 & _ & H5 & H6 & H7 & H8 & H9 & H10 & H11 & H12 & _ & H13 & H14).
  assert (CV : covers app (roots_of app a_query a_meth true) (types_in app a_query a_meth true 30) = true) by (vm_compute; reflexivity).
  split; [exact H1|]. split; [exact H2|]. split; [exact H3|]. split; [exact H4|]. split; [apply nodup_of; vm_compute; reflexivity|]. split.
  { intros t Re K. apply (covers_ok _ _ _ CV) in Re. 
    assert (A : forallb (fun t => match t_kind (g_decls app) t, t_name (g_decls app) t with KStruct, [] => false | _, _ => true end) (types_in app a_query a_meth true 30) = true) by (vm_compute; reflexivity).
    rewrite forallb_forall in A. specialize (A t Re). rewrite K in A. destruct (t_name (g_decls app) t); discriminate. }
  split.
  { intros t Re. apply (covers_ok _ _ _ CV) in Re. apply nodup_keys.
    assert (A : forallb (fun t => (fix nd l := match l with [] => true | a :: r => negb (existsb (N.eqb a) r) && nd r end) (map fnv1 (map fst (exposed app t) ++ [bs "__schema"; bs "__type"]))) (types_in app a_query a_meth true 30) = true) by (vm_compute; reflexivity).
    rewrite forallb_forall in A. exact (A t Re). }
  split; [exact H5|]. split; [exact H6|]. split; [exact H7|]. split; [exact H8|]. split; [exact H9|]. split; [exact H10|]. split; [exact H11|]. split; [exact H12|].
  split; [apply one_request; vm_compute; discriminate|]. split; [exact H13|].
  exists [the_op all_text], (the_op all_text). split; [apply ref_parse_spec; vm_compute; reflexivity|]. split.
  { exists [], []. vm_compute. repeat split; auto. }
  split; [apply (told_names_ok _ _ (types_in app a_query a_meth true 30)); vm_compute; reflexivity|exact H14].
Qed.
