(** * C49: introspection tells what the Go program is *)
From Coq Require Import String Arith NArith ZArith Bool List Lia Sorted Permutation.
From Verif Require Import Base JsonModel NameModel ParserModel ReqModel Schema ResModel EnvModel GoTypes ParseModel ParseFacts ParseTerm SchemaSpec ParseWhole SchemaCheck
  IntroModel IntroProof IntroTables IntroSpec IntroFacts SampleProg Samples SampleIntro PropIntro.
Import ListNotations.
Open Scope nat_scope.

(** After any requests to the schema and its copies (in which the function behind mutationType.fields is not called, see C42), the
    functions of introspection describe the types, interfaces, argument structs and enums of the program, see [described].  Two things are
    told wrong, see below: arguments of enum types have the types of the values ([false]), and methods of interfaces lack their
    first argument ([args_after_first]). *)
Theorem C49_introspection_describes_the_program : forall W P qt mt same inj fuel p s h,
  let b := match inj with Some _ => true | None => false end in
  named_apart P (roots_of P qt mt b) -> inputs_apart P (roots_of P qt mt b) (more_of P b) -> registered P -> time_apart P ->
  parse P fuel qt mt same inj new_pst = POk p s -> all_apart P p -> @history W P p h ->
  exists own iown inown, schema_reads P own iown inown qt mt inj p /\
    described P own iown inown qt mt false (args_after_first P) (original P p) (h 0).
Proof.
  intros W P qt mt same inj fuel p s h b NA IA RG TA PA AP HI.
  destruct (parse_sound P qt mt same inj NA IA fuel p s PA) as [_ [own [iown [inown SR]]]]. exists own, iown, inown. split; [exact SR|].
  pose proof (parsed_tables P _ _ _ _ _ _ _ PA) as TB. apply (all_described P own iown inown qt mt inj p); auto.
  apply (fun N => history_ok P p h N HI 0). now apply (same_names P p).
Qed.
Print Assumptions C49_introspection_describes_the_program.
Ltac is_in := repeat first [left; reflexivity | right].
Lemma nodup_of (l : list bytes) : (fix nd l := match l with [] => true | a :: r => negb (existsb (beqb a) r) && nd r end) l = true -> NoDup l.
Proof.
  induction l as [|a l IH]; [constructor|]. intro H. apply andb_prop in H. destruct H as [H1 H2]. constructor; [|auto]. intro K. apply negb_true_iff in H1.
  assert (X : existsb (beqb a) l = true) by (apply existsb_exists; exists a; split; [exact K|apply beqb_refl]). congruence.
Qed.
Lemma nodup_keys (l : list N) : (fix nd l := match l with [] => true | a :: r => negb (existsb (N.eqb a) r) && nd r end) l = true -> NoDup l.
Proof.
  induction l as [|a l IH]; [constructor|]. intro H. apply andb_prop in H. destruct H as [H1 H2]. constructor; [|auto]. intro K. apply negb_true_iff in H1.
  assert (X : existsb (N.eqb a) l = true) by (apply existsb_exists; exists a; split; [exact K|apply N.eqb_refl]). congruence.
Qed.
Example C49_introspection_describes_the_program_case :
  let inj := intro_args app "Query" "Mutation" in
  named_apart app (roots_of app a_query a_meth true) /\ inputs_apart app (roots_of app a_query a_meth true) (more_of app true) /\ registered app /\ time_apart app /\
  (exists s, parse app 60 a_query a_meth false inj new_pst = POk app_schema s) /\ all_apart app app_schema /\
  @history world app app_schema (heap_of (ask app app_schema app_value no_mutation_fields 0 fresh first_request)) /\
  keys_apart app a_query /\ keys_apart app a_meth /\ keys_apart app a_user /\ keys_apart app a_animal /\ keys_apart app a_dog /\
  text_of (ask app app_schema app_value any_call 0 fresh "{__type(name:'User'){kind name fields{name type{kind name ofType{name}}}}}") =
    Some (string_of_list_ascii (map Ascii.ascii_of_N (q2 "{'data':{'__type':{'kind':'OBJECT','name':'User','fields':[{'name':'friends','type':{'kind':'LIST','name':null,'ofType':{'name':null}}},{'name':'id','type':{'kind':'NON_NULL','name':null,'ofType':{'name':'ID'}}},{'name':'mood','type':{'kind':'NON_NULL','name':null,'ofType':{'name':'Mood'}}},{'name':'name','type':{'kind':'NON_NULL','name':null,'ofType':{'name':'String'}}}]}}}"))).
Proof.
  destruct (apart_ok app a_query a_meth true 30) as [NA IA]; [vm_compute; reflexivity|].
  split; [exact NA|]. split; [exact IA|].
  split; [intros n ts t [[= <- <-]|[]] [<-|[]]; reflexivity|].
  split.
  { split.
    - intros t T K. unfold is_time in T. apply andb_prop in T. destruct T as [T1 T2]. apply beqb_eq in T1, T2. unfold t_kind in K. destruct t; try discriminate.
      cbn in T1. destruct (nth_error _ n) as [d|] eqn:E; [|discriminate]. do 18 (destruct n as [|n]; [injection E as <-; discriminate|]). destruct n; discriminate.
    - intros n ts t [[= <- <-]|[]] [<-|[]]; reflexivity. }
  split; [eexists; vm_compute; reflexivity|]. split; [apply nodup_of; vm_compute; reflexivity|]. split; [apply one_request; vm_compute; discriminate|].
  do 5 (split; [apply nodup_keys; vm_compute; reflexivity|]). vm_compute. reflexivity.
Qed.

(** ** What is told wrong *)
Definition told (p : program) (s : pschema) (v : gval) (q : string) : option string := text_of (ask p s v any_call 0 fresh q).
Definition json (t : string) : option string := Some (string_of_list_ascii (map Ascii.ascii_of_N (q2 t))).
(** an argument of an enum type is said to be a String *)
Theorem C49_enum_arguments_refuted : exists q,
  (exists i, enum_at app (bs "Mood") i) /\ t_methods (g_decls app) a_meth = [method "ResolveAdd" [TPtr y_ctx; TStruct [fd "Names" (TSlice str); fd "Mood" a_mood]] [int]] /\
  t_name (g_decls app) a_mood = bs "Mood" /\
  told app app_schema app_value q = json "{'data':{'__type':{'fields':[{'name':'add','args':[{'name':'mood','type':{'ofType':{'kind':'SCALAR','name':'String'}}},{'name':'names','type':{'ofType':{'kind':'NON_NULL','name':null}}}]}]}}}".
Proof.
  exists "{__type(name:'Mutation'){fields{name args{name type{ofType{kind name}}}}}}"%string. split; [|split; [reflexivity|split; [reflexivity|vm_compute; reflexivity]]].
  exists 2. split; [eexists; split; reflexivity|]. intros [|[|j]] e L E; cbn in E; [injection E as <-; discriminate|injection E as <-; discriminate|lia].
Qed.
Print Assumptions C49_enum_arguments_refuted.
(** an argument struct has no members if it is asked for through an argument *)
Theorem C49_input_fields_refuted : exists q q',
  told app app_schema app_value q = json "{'data':{'__type':{'inputFields':[{'name':'name'},{'name':'or'}]}}}" /\
  told app app_schema app_value q' = json "{'data':{'__type':{'fields':[{'args':[]},{'args':[]},{'args':[]},{'args':[{'name':'filter','type':{'ofType':{'name':'UserFilter','inputFields':[]}}},{'name':'max','type':{'ofType':null}}]}]}}}".
Proof.
  exists "{__type(name:'UserFilter'){inputFields{name}}}"%string, "{__type(name:'Query'){fields{args{name type{ofType{name inputFields{name}}}}}}}"%string.
  split; vm_compute; reflexivity.
Qed.
Print Assumptions C49_input_fields_refuted.
(** directives have no arguments, although skip and include have the argument if *)
Theorem C49_directive_arguments_refuted : exists q,
  map (fun d => (pd_name d, map fst (args_of app (pd_type d)))) (g_dirs app) = [(bs "skip", [bs "if"]); (bs "include", [bs "if"])] /\
  told app app_schema app_value q = json "{'data':{'__schema':{'directives':[{'name':'include','args':[]},{'name':'skip','args':[]}]}}}".
Proof. exists "{__schema{directives{name args{name}}}}"%string. split; vm_compute; reflexivity. Qed.
Print Assumptions C49_directive_arguments_refuted.
(** the first argument of a method is missing in interfaces; and a struct can have the name of a scalar, so that two types have
    one name, of which __type finds one *)
Definition zoo_decls : list gdecl := [
  Decl (bs "Query") app_pkg (TStruct [fd "Pet" (TNamed 12); fd "Doc" (TNamed 14)]) []; Decl (bs "Mutation") app_pkg (TStruct []) [];
  Decl (bs "Animal") app_pkg (TIface [method "ResolveSays" [TStruct [fd "Loud" boolean]] [str]]) [];
  Decl (bs "Dog") app_pkg (TStruct []) [method "ResolveSays" [TStruct [fd "Loud" boolean]] [str]];
  Decl (bs "File") app_pkg (TStruct [fd "Path" str]) [] ].
Definition zoo : program := with_yarql zoo_decls [] [(bs "Dog", [TNamed 12])] [(bs "Animal", [TNamed 13])] [] [] yarql_locs.
Definition zoo_schema : pschema := Eval vm_compute in parsed_app zoo "Query" "Mutation".
Definition zoo_value : gval := GStruct [(true, GIface (Some (bs "Dog", app_pkg, GStruct []))); (true, GStruct [(true, GString (bs "/x"))])].
Theorem C49_interface_arguments_refuted : exists q q',
  told zoo zoo_schema zoo_value q = json "{'data':{'__type':{'fields':[{'name':'says','args':[{'name':'loud'}]}]}}}" /\
  told zoo zoo_schema zoo_value q' = json "{'data':{'__type':{'interfaces':[{'name':'Animal','fields':[{'name':'says','args':[]}]}]}}}".
Proof. exists "{__type(name:'Dog'){fields{name args{name}}}}"%string, "{__type(name:'Dog'){interfaces{name fields{name args{name}}}}}"%string. split; vm_compute; reflexivity. Qed.
Print Assumptions C49_interface_arguments_refuted.
Theorem C49_names_refuted : exists q q' s,
  parse zoo 60 (TNamed 10) (TNamed 11) false (intro_args zoo "Query" "Mutation") new_pst = POk zoo_schema s /\
  told zoo zoo_schema zoo_value q = json "{'data':{'doc':{'__typename':'File','path':'/x'}}}" /\
  told zoo zoo_schema zoo_value q' = json "{'data':{'__type':{'kind':'SCALAR','fields':null}}}" /\
  exists l, all_types (original zoo zoo_schema) = Some l /\ count_occ (list_eq_dec N.eq_dec) (map name_or l) (bs "File") = 2.
Proof.
  exists "{doc{__typename path}}"%string, "{__type(name:'File'){kind fields{name}}}"%string. eexists. split; [vm_compute; reflexivity|]. split; [vm_compute; reflexivity|]. split; [vm_compute; reflexivity|].
  eexists. split; vm_compute; reflexivity.
Qed.
Print Assumptions C49_names_refuted.
