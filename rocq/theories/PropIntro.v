(** * C40, C41, C42: copies of a schema, and introspection over time *)
From Coq Require Import String Arith NArith ZArith Bool List Lia.
From Verif Require Import Base JsonModel NameModel ParserModel ReqModel Schema ResModel EnvModel GoTypes ParseModel ParseFacts Same IntroModel IntroProof IntroTables SampleProg Samples SampleIntro.
Import ListNotations.
Open Scope nat_scope.
Local Notation SN := Datatypes.S.

(** The schema that was parsed has the number 0, its copies the others.  [schema_of P p me] is what number [me] reads,
    [intro_env P p me any_call X] is the user code [X] together with the functions of introspection; the worlds are pairs of the
    caches of all schemas and the world of the user code.  In [intro_env P p me may X] calls of functions of introspection that are not
    allowed by [may] panic: a run that ends there is one that calls only those allowed. *)
Definition schema_of (P : program) (p : pschema) (me : nat) (qv mv : gval) (maxdepth : N) : schema :=
  view P (match me with O => p | SN _ => copy_schema p end) qv mv maxdepth.
(** functions of the schema that was parsed; that is all except __type and what it leads to *)
Definition of_the_original (c : clo) : bool := negb (fst c).
Definition of_this_schema (c : clo) : bool := fst c.

(** ** C40 *)
(** whatever functions there are, a copy does with them what the original does *)
Theorem C40_copies_answer_alike : forall W (X : externals W) P p qv mv maxdepth me fuel o vals w q,
  resolve X (schema_of P p me qv mv maxdepth) fuel o vals w q = resolve X (schema_of P p 0 qv mv maxdepth) fuel o vals w q.
Proof.
  intros. apply same_result_eq, resolve_same; [apply xsame_refl|apply (the_views P p me 0)|reflexivity].
Qed.
Example C40_copies_answer_alike_case :
  text_of (ask app app_schema app_value any_call 1 fresh "{hello __schema{queryType{name}}}") = Some (string_of_list_ascii (map Ascii.ascii_of_N (q2 "{'data':{'hello':'world','__schema':{'queryType':{'name':'Query'}}}}"))).
Proof. vm_compute. reflexivity. Qed.
(** with the functions of introspection: a request that does not call __type is answered by all copies alike, and leaves
    the same caches *)
Theorem C40_copies_answer_alike_introspection : forall W (X : externals W) P p qv mv maxdepth me me' fuel o vals h w q out errs vals' w',
  resolve (intro_env P p me of_the_original X) (schema_of P p me qv mv maxdepth) fuel o vals (h, w) q = RDone out errs vals' w' ->
  resolve (intro_env P p me' any_call X) (schema_of P p me' qv mv maxdepth) fuel o vals (h, w) q = RDone out errs vals' w'.
Proof.
  intros until w'. intro E. pose proof (resolve_same eq True _ _ (shared_calls P p me me' X) _ _ (the_views P p me me' qv mv maxdepth) fuel o vals (h, w) (h, w) q eq_refl) as H.
  unfold the_view in H. unfold schema_of, of_the_original in *. rewrite E in H. destruct H as [w2 [H <-]]. exact H.
Qed.
Example C40_copies_answer_alike_introspection_case :
  text_of (ask app app_schema app_value of_the_original 0 fresh "{hello __schema{queryType{fields{name}}}}") =
    Some (string_of_list_ascii (map Ascii.ascii_of_N (q2 "{'data':{'hello':'world','__schema':{'queryType':{'fields':[{'name':'hello'},{'name':'me'},{'name':'pet'},{'name':'users'}]}}}}"))).
Proof. vm_compute. reflexivity. Qed.
(** __type: a copy shows the fields __schema and __type of the query, which the original hides *)
Theorem C40_copies_answer_alike_refuted : exists q,
  text_of (ask app app_schema app_value any_call 0 fresh q) = Some (string_of_list_ascii (map Ascii.ascii_of_N
     (q2 "{'data':{'__type':{'fields':[{'name':'hello'},{'name':'me'},{'name':'pet'},{'name':'users'}]}}}"))) /\
  text_of (ask app app_schema app_value any_call 1 fresh q) = Some (string_of_list_ascii (map Ascii.ascii_of_N
     (q2 "{'data':{'__type':{'fields':[{'name':'__schema'},{'name':'__type'},{'name':'hello'},{'name':'me'},{'name':'pet'},{'name':'users'}]}}}"))).
Proof. exists "{__type(name:'Query'){fields{name}}}"%string. split; vm_compute; reflexivity. Qed.
(** __type: a copy has lost the description of enums *)
Theorem C40_enums_are_copied_refuted : exists q,
  text_of (ask app app_schema app_value any_call 0 fresh q) = Some (string_of_list_ascii (map Ascii.ascii_of_N (q2 "{'data':{'__type':{'description':''}}}"))) /\
  text_of (ask app app_schema app_value any_call 1 fresh q) = Some (string_of_list_ascii (map Ascii.ascii_of_N (q2 "{'data':{'__type':{'description':null}}}"))).
Proof. exists "{__type(name:'Mood'){description}}"%string. split; vm_compute; reflexivity. Qed.

(** ** C41 *)
(** a request to a copy that calls functions of that copy only, not those below __schema, changes no other cache and gives the same
    whatever the other caches hold *)
Theorem C41_copies_are_apart : forall W (X : externals W) P p qv mv maxdepth me fuel o vals h w q out errs vals' h' w',
  resolve (intro_env P p me of_this_schema X) (schema_of P p me qv mv maxdepth) fuel o vals (h, w) q = RDone out errs vals' (h', w') ->
  (forall j, j <> me -> h' j = h j) /\
  forall h2, h2 me = h me -> exists h2',
    resolve (intro_env P p me any_call X) (schema_of P p me qv mv maxdepth) fuel o vals (h2, w) q = RDone out errs vals' (h2', w') /\ h2' me = h' me /\
    forall j, j <> me -> h2' j = h2 j.
Proof.
  intros until w'. intro E. change of_this_schema with (@fst bool ifun) in E.
  assert (A : (forall j, j <> me -> h' j = h j)).
  { pose proof (resolve_same _ True _ _ (own_calls_frame P p me h X) _ _ (the_views P p me me qv mv maxdepth) fuel o vals (h, w) (h, w) q ltac:(split; auto)) as H.
    unfold the_view in H. unfold schema_of in *. rewrite E in H. destruct H as [w2 [_ [_ H]]]. exact H. }
  split; [exact A|]. intros h2 E2.
  assert (L : forall may h3, h3 me = h me -> (may = fst \/ may = any_call) -> exists h4, resolve (intro_env P p me may X) (schema_of P p me qv mv maxdepth) fuel o vals (h3, w) q = RDone out errs vals' (h4, w') /\ h4 me = h' me).
  { intros may h3 E3 M.
    assert (XS : xsame (fun a b : heap * W => fst a me = fst b me /\ snd a = snd b) True (intro_env P p me fst X) (intro_env P p me may X)) by (destruct M as [-> | ->]; [apply own_calls_local_strict|apply own_calls_local]).
    pose proof (resolve_same _ True _ _ XS _ _ (the_views P p me me qv mv maxdepth) fuel o vals (h, w) (h3, w) q ltac:(cbn; auto)) as H.
    unfold the_view in H. unfold schema_of in *. rewrite E in H. destruct H as [[h4 w4] [-> [H5 H6]]]. cbn in H5, H6. subst. eauto. }
  destruct (L fst h2 E2 (or_introl eq_refl)) as [h4 [E4 M4]].
  pose proof (resolve_same _ True _ _ (own_calls_frame P p me h2 X) _ _ (the_views P p me me qv mv maxdepth) fuel o vals (h2, w) (h2, w) q ltac:(split; auto)) as H.
  unfold the_view in H. unfold schema_of in *. rewrite E4 in H. destruct H as [w2 [H [<- F]]]. exists h4. split; [exact H|]. split; [exact M4|exact F].
Qed.
Example C41_copies_are_apart_case :
  text_of (ask app app_schema app_value of_this_schema 1 fresh "{hello __type(name:'User'){fields{name}}}") =
    Some (string_of_list_ascii (map Ascii.ascii_of_N (q2 "{'data':{'hello':'world','__type':{'fields':[{'name':'friends'},{'name':'id'},{'name':'mood'},{'name':'name'}]}}}"))).
Proof. vm_compute. reflexivity. Qed.
(** two copies: a request to the first one that looks at __schema writes to the cache of the original, which requests to the second one
    read and write as well *)
Theorem C41_copies_are_apart_refuted : exists q,
  let r := ask app app_schema app_value any_call 1 fresh q in
  text_of r <> None /\ ic_fields (heap_of r 0) <> ic_fields (fresh 0) /\
  exists h, text_of (ask app app_schema app_value any_call 2 h q) <> text_of (ask app app_schema app_value any_call 2 fresh q) /\ forall j, j <> 0 -> h j = fresh j.
Proof.
  exists "{__schema{queryType{fields{name}}}}"%string. cbv zeta. split; [vm_compute; discriminate|]. split; [vm_compute; discriminate|].
  exists (put fresh 0 (IC None None [(bs "Query", [])])). split; [vm_compute; discriminate|]. intros j N. unfold put. now rewrite (proj2 (Nat.eqb_neq j 0) N).
Qed.

(** ** C42 *)
(** no interface has the name of a struct *)
Definition no_name_twice (p : pschema) : Prop := forall n t, slookup (ps_types (p_st p)) n = Some t -> slookup (ps_ifaces (p_st p)) n = None.
(** the caches after some requests to the schema and its copies, in which the function of mutationType.fields is not called *)
Inductive history {W} (P : program) (p : pschema) : heap -> Prop :=
| h_start : history P p fresh
| h_request (X : externals W) me qv mv maxdepth fuel o vals h w q out errs vals' h' w' : history P p h ->
    resolve (intro_env P p me no_mutation_fields X) (schema_of P p me qv mv maxdepth) fuel o vals (h, w) q = RDone out errs vals' (h', w') -> history P p h'.
Lemma nodup_in {A} (l : list (bytes * A)) k a b : NoDup (map fst l) -> In (k, a) l -> In (k, b) l -> a = b.
Proof.
  induction l as [|[k' c] l IH]; cbn; intros D H K; [contradiction|]. inversion D as [|x m NI D' E]; subst x m.
  destruct H as [H|H], K as [K|K]; [congruence| | |auto]; exfalso; apply NI; [injection H as -> ->|injection K as -> ->]; [now apply (in_map fst) in K|now apply (in_map fst) in H].
Qed.
Lemma in_slookup {A} (l : list (bytes * A)) k a : In (k, a) l -> slookup l k <> None.
Proof. induction l as [|[k' c] l IH]; cbn; [intros []|]. intros [[= -> ->]|H]; [now rewrite beqb_refl|]. destruct (beqb k k'); [discriminate|auto]. Qed.
Lemma names_from_tables P p : tables_ok (p_st p) -> no_name_twice p -> names_ok (original P p).
Proof.
  intros [D1 D2 _ F1 F2 _] NT. rewrite Forall_forall in F1, F2. unfold key_ok in *.
  constructor; cbn; intros n t n' t' H H'.
  - pose proof (F1 _ H) as E. pose proof (F1 _ H') as E'. cbn in E, E'. intro Q. assert (NN : n' = n) by congruence. rewrite NN in H'. exact (nodup_in _ n t t' D1 H H').
  - pose proof (F2 _ H) as E. pose proof (F2 _ H') as E'. cbn in E, E'. intro Q. assert (NN : n' = n) by congruence. rewrite NN in H'. exact (nodup_in _ n t t' D2 H H').
  - pose proof (F1 _ H) as E. pose proof (F2 _ H') as E'. cbn in E, E'. intro Q. assert (NN : n' = n) by congruence. rewrite NN in H'. apply in_slookup in H, H'.
    destruct (slookup (ps_types (p_st p)) n) eqn:L; [|contradiction]. apply NT in L. contradiction.
Qed.
Lemma history_ok {W} P p h : names_ok (original P p) -> @history W P p h -> heap_ok P p h.
Proof.
  intros N HI. induction HI as [|X0 me0 qv0 mv0 md0 fu0 o0 va0 h0 w0 q0 ou0 er0 va1 h1 w1 HI IH R0]; [apply heap_ok_fresh|].
  pose proof (resolve_same _ False _ _ (stable_calls P p N me0 X0) _ _ (the_views P p me0 me0 qv0 mv0 md0) fu0 o0 va0 (h0, w0) (h0, w0) q0 ltac:(cbn; auto)) as K.
  unfold the_view in K. unfold schema_of in *. rewrite R0 in K. destruct K as [w2 [_ [_ [K _]]]]. exact K.
Qed.
Theorem C42_introspection_is_stable : forall W (X : externals W) P n qt mt same inj p s qv mv maxdepth me fuel o vals h w q out errs vals' h' w',
  parse P n qt mt same inj new_pst = POk p s -> no_name_twice p -> @history W P p h ->
  resolve (intro_env P p me no_mutation_fields X) (schema_of P p me qv mv maxdepth) fuel o vals (fresh, w) q = RDone out errs vals' (h', w') ->
  exists h2, resolve (intro_env P p me any_call X) (schema_of P p me qv mv maxdepth) fuel o vals (h, w) q = RDone out errs vals' (h2, w').
Proof.
  intros until w'. intros PA NT HI E. pose proof (names_from_tables P p (parsed_tables P _ _ _ _ _ _ _ PA) NT) as N.
  pose proof (history_ok P p h N HI) as H.
  pose proof (resolve_same _ False _ _ (stable_calls P p N me X) _ _ (the_views P p me me qv mv maxdepth) fuel o vals (fresh, w) (h, w) q ltac:(cbn; auto using heap_ok_fresh)) as K.
  unfold the_view in K. unfold schema_of in *. rewrite E in K. destruct K as [[h2 w2] [K [E2 _]]]. cbn in E2. subst w2.
  pose proof (resolve_same _ True _ _ (allowed_calls P p me X) _ _ (the_views P p me me qv mv maxdepth) fuel o vals (h, w) (h, w) q eq_refl) as L.
  unfold the_view in L. rewrite K in L. destruct L as [w3 [L <-]]. eauto.
Qed.
Definition first_request := "{__schema{types{name}}__type(name:'Query'){fields{name}}}"%string.
Definition second_request := "{__schema{queryType{fields{name}}}}"%string.
Lemma one_request P p v q : text_of (ask P p v no_mutation_fields 0 fresh q) <> None -> @history world P p (heap_of (ask P p v no_mutation_fields 0 fresh q)).
Proof.
  intro C. destruct (ask P p v no_mutation_fields 0 fresh q) as [o e v' [hh w]| |] eqn:A; [|exfalso; apply C; reflexivity..].
  cbn [heap_of fst]. unfold ask in A. eapply (h_request P p sample_x 0); [apply h_start|]. exact A.
Qed.
Example C42_introspection_is_stable_case :
  (exists s, parse app 60 a_query a_meth false (intro_args app "Query" "Mutation") new_pst = POk app_schema s) /\ no_name_twice app_schema /\
  @history world app app_schema (heap_of (ask app app_schema app_value no_mutation_fields 0 fresh first_request)) /\
  ic_list (heap_of (ask app app_schema app_value no_mutation_fields 0 fresh first_request) 0) <> None /\
  ic_fields (heap_of (ask app app_schema app_value no_mutation_fields 0 fresh first_request) 0) <> [] /\
  text_of (ask app app_schema app_value no_mutation_fields 0 fresh second_request) =
      Some (string_of_list_ascii (map Ascii.ascii_of_N (q2 "{'data':{'__schema':{'queryType':{'fields':[{'name':'hello'},{'name':'me'},{'name':'pet'},{'name':'users'}]}}}}"))).
Proof.
  split; [eexists; vm_compute; reflexivity|]. split; [|split; [apply one_request; vm_compute; discriminate|split; [vm_compute; discriminate|split; [vm_compute; discriminate|vm_compute; reflexivity]]]].
  intros n t H. apply slookup_in in H. vm_compute in H. repeat (destruct H as [[= <- <-]|H]; [reflexivity|]). contradiction.
Qed.
(** asking for the fields of the method first makes the query have these *)
Theorem C42_introspection_is_stable_refuted : exists first second,
  let h := heap_of (ask app app_schema app_value any_call 0 fresh first) in
  text_of (ask app app_schema app_value any_call 0 fresh second) = Some (string_of_list_ascii (map Ascii.ascii_of_N
     (q2 "{'data':{'__schema':{'queryType':{'fields':[{'name':'hello'},{'name':'me'},{'name':'pet'},{'name':'users'}]}}}}"))) /\
  text_of (ask app app_schema app_value any_call 0 h second) = Some (string_of_list_ascii (map Ascii.ascii_of_N
     (q2 "{'data':{'__schema':{'queryType':{'fields':[{'name':'add'}]}}}}"))).
Proof.
  exists "{__schema{mutationType{fields{name}}}}"%string, "{__schema{queryType{fields{name}}}}"%string. split; vm_compute; reflexivity.
Qed.
(** it needs no earlier request: in one request the order of the two parts is enough *)
Theorem C42_order_of_parts_refuted : exists q,
  text_of (ask app app_schema app_value any_call 0 fresh q) = Some (string_of_list_ascii (map Ascii.ascii_of_N
     (q2 "{'data':{'__schema':{'mutationType':{'fields':[{'name':'add'}]},'queryType':{'fields':[{'name':'add'}]}}}}"))).
Proof. exists "{__schema{mutationType{fields{name}}queryType{fields{name}}}}"%string. vm_compute. reflexivity. Qed.
(** a struct and an interface with the same name *)
Definition twin_decls : list gdecl := [
  Decl (bs "Query") app_pkg (TStruct [fd "Pet" (TNamed 12); fd "Dog" (TNamed 13); fd "Toy" (TNamed 14)]) [];
  Decl (bs "Mutation") app_pkg (TStruct []) [];
  Decl (bs "Animal") app_pkg (TIface [method "ResolveName" [] [str]]) [];
  Decl (bs "Dog") app_pkg (TStruct [fd "Age" int]) [method "ResolveName" [] [str]];
  Decl (bs "Animal") lib_pkg (TStruct [fd "Color" str]) [] ].
Definition twins : program := with_yarql twin_decls [] [] [(bs "Animal", [TNamed 13])] [] [] yarql_locs.
Definition twin_schema : pschema := Eval vm_compute in parsed_app twins "Query" "Mutation".
Definition twin_value : gval := GStruct [(true, GIface None); (true, GStruct [(true, GInt WInt 1)]); (true, GStruct [(true, GString [])])].
Theorem C42_structs_and_interfaces_refuted : exists first second,
  let h := heap_of (ask twins twin_schema twin_value any_call 0 fresh first) in
  text_of (ask twins twin_schema twin_value any_call 0 fresh second) = Some (string_of_list_ascii (map Ascii.ascii_of_N
     (q2 "{'data':{'__schema':{'queryType':{'fields':[{'type':{'ofType':{'fields':[{'name':'age'},{'name':'name'}]}}},{'type':{'ofType':null}},{'type':{'ofType':{'fields':[{'name':'color'}]}}}]}}}}"))) /\
  text_of (ask twins twin_schema twin_value any_call 0 h second) = Some (string_of_list_ascii (map Ascii.ascii_of_N
     (q2 "{'data':{'__schema':{'queryType':{'fields':[{'type':{'ofType':{'fields':[{'name':'age'},{'name':'name'}]}}},{'type':{'ofType':null}},{'type':{'ofType':{'fields':[{'name':'name'}]}}}]}}}}"))).
Proof.
  exists "{__schema{queryType{fields{type{fields{name}}}}}}"%string, "{__schema{queryType{fields{type{ofType{fields{name}}}}}}}"%string. split; vm_compute; reflexivity.
Qed.

Print Assumptions C40_copies_answer_alike.
Print Assumptions C40_copies_answer_alike_introspection.
Print Assumptions C40_copies_answer_alike_refuted.
Print Assumptions C40_enums_are_copied_refuted.
Print Assumptions C41_copies_are_apart.
Print Assumptions C41_copies_are_apart_refuted.
Print Assumptions C42_introspection_is_stable.
Print Assumptions C42_introspection_is_stable_refuted.
Print Assumptions C42_order_of_parts_refuted.
Print Assumptions C42_structs_and_interfaces_refuted.
