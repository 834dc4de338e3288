(** * Sample Go programs with the types of introspection (no model of code) *)
From Coq Require Import String Arith NArith ZArith Bool List Lia.
From Verif Require Import Base JsonModel NameModel ParserModel ReqModel Schema ResModel EnvModel GoTypes ParseModel SchemaSpec SchemaCheck SampleProg Samples IntroModel.
Import ListNotations.
Open Scope nat_scope.

(** grahql_types.go as declarations 0 to 9 *)
Definition y_schema := TNamed 0. Definition y_depr := TNamed 1. Definition y_kind := TNamed 2. Definition y_type := TNamed 3. Definition y_field := TNamed 4.
Definition y_enumvalue := TNamed 5. Definition y_input := TNamed 6. Definition y_loc := TNamed 7. Definition y_dir := TNamed 8. Definition y_ctx := TNamed 9.
Definition boolean : gtype := TBasic KBool.
Definition yarql_decls : list gdecl := [
  Decl (bs "qlSchema") yarql_pkg (TStruct [fd "Types" (TFunc [] [TSlice y_type] false); fdt "JSONTypes" "-" (TSlice y_type); fd "QueryType" (TPtr y_type);
      fd "MutationType" (TPtr y_type); fd "SubscriptionType" (TPtr y_type); fd "Directives" (TSlice y_dir)]) [];
  Decl (bs "isDeprecatedArgs") yarql_pkg (TStruct [fd "IncludeDeprecated" boolean]) [];
  Decl (bs "__TypeKind") yarql_pkg (TBasic (KUint W8)) [method "String" [] [str]];
  Decl (bs "qlType") yarql_pkg (TStruct [fd "Kind" y_kind; fd "Name" (TPtr str); fd "Description" (TPtr str); fd "Fields" (TFunc [y_depr] [TSlice y_field] false);
      fd "Interfaces" (TSlice y_type); fd "PossibleTypes" (TFunc [] [TSlice y_type] false); fd "EnumValues" (TFunc [y_depr] [TSlice y_enumvalue] false);
      fd "InputFields" (TFunc [] [TSlice y_input] false); fd "OfType" (TPtr y_type); fd "SpecifiedByURL" (TPtr str); fdt "JSONKind" "-" str;
      fdt "JSONFields" "-" (TSlice y_field); fdt "JSONInputFields" "-" (TSlice y_field)]) [];
  Decl (bs "qlField") yarql_pkg (TStruct [fd "Name" str; fd "Description" (TPtr str); fd "Args" (TSlice y_input); fd "Type" y_type; fd "IsDeprecated" boolean;
      fd "DeprecationReason" (TPtr str)]) [];
  Decl (bs "qlEnumValue") yarql_pkg (TStruct [fd "Name" str; fd "Description" (TPtr str); fd "IsDeprecated" boolean; fd "DeprecationReason" (TPtr str)]) [];
  Decl (bs "qlInputValue") yarql_pkg (TStruct [fd "Name" str; fd "Description" (TPtr str); fd "Type" y_type; fd "DefaultValue" (TPtr str)]) [];
  Decl (bs "__DirectiveLocation") yarql_pkg (TBasic (KUint W8)) [];
  Decl (bs "qlDirective") yarql_pkg (TStruct [fd "Name" str; fd "Description" (TPtr str); fd "Locations" (TSlice y_loc); fdt "JSONLocations" "-" (TSlice str);
      fd "Args" (TSlice y_input)]) [];
  Decl (bs "Ctx") yarql_pkg (TStruct []) [] ].
Definition yarql_renamed : list (bytes * bytes) :=
  [(bs "qlSchema", bs "__Schema"); (bs "qlType", bs "__Type"); (bs "qlField", bs "__Field"); (bs "qlEnumValue", bs "__EnumValue");
   (bs "qlInputValue", bs "__InputValue"); (bs "qlDirective", bs "__Directive")].
Fixpoint numbered (l : list string) (i : N) : list (bytes * gval) := match l with [] => [] | n :: r => (bs n, GUint W8 i) :: numbered r (i + 1)%N end.
Definition yarql_enums : list enum := [
  Enum (KUint W8) (bs "__TypeKind") (numbered ["SCALAR"; "OBJECT"; "INTERFACE"; "UNION"; "ENUM"; "INPUT_OBJECT"; "LIST"; "NON_NULL"]%string 0);
  Enum (KUint W8) (bs "__DirectiveLocation") (numbered ["QUERY"; "MUTATION"; "SUBSCRIPTION"; "FIELD"; "FRAGMENT_DEFINITION"; "FRAGMENT_SPREAD"; "INLINE_FRAGMENT";
      "SCHEMA"; "SCALAR"; "OBJECT"; "FIELD_DEFINITION"; "ARGUMENT_DEFINITION"; "INTERFACE"; "UNION"; "ENUM"; "ENUM_VALUE"; "INPUT_OBJECT"; "INPUT_FIELD_DEFINITION"]%string 0)].
Definition yarql_dirs : list pdir :=
  [PDir (bs "skip") [TStruct [fd "If" boolean]] DSkip [0; 1; 2]%N (bs "Directs the executor to skip this field or fragment when the `if` argument is true.");
   PDir (bs "include") [TStruct [fd "If" boolean]] DInclude [0; 1; 2]%N (bs "Directs the executor to include this field or fragment only when the `if` argument is true.")].
Definition yarql_locs : list (N * list nat) := [(0%N, [0; 1]); (1%N, [0; 1]); (2%N, [0; 1])].
(** a program with these and more declarations, numbered from 10, and more directives, numbered from 2; [locs] says which are registered
    at which location (those of a new schema: [yarql_locs]) *)
Definition with_yarql (ds : list gdecl) (renamed : list (bytes * bytes)) (impls impled : list (bytes * list gtype)) (es : list enum)
  (dirs : list pdir) (locs : list (N * list nat)) : program :=
  Prog (yarql_decls ++ ds) (yarql_renamed ++ renamed) impls impled (yarql_enums ++ es) (yarql_dirs ++ dirs) locs
    y_schema (TFunc [TPtr y_ctx; TStruct [fd "Name" str]] [TPtr y_type] false).

(** the schema of an application *)
Definition intro_args (P : program) (qn mn : string) : option (gval * gval) := Some (schema_value P (bs qn) (bs mn), type_function).
Definition parsed_app (P : program) (qn mn : string) : pschema :=
  match parse P 60 (TNamed 10) (TNamed 11) false (intro_args P qn mn) new_pst with POk p _ => p | _ => PSchema new_pst [] [] [] end.

(** queries with a user, an interface, an enum and arguments *)
Definition a_query := TNamed 10. Definition a_meth := TNamed 11. Definition a_user := TNamed 12. Definition a_animal := TNamed 13.
Definition a_dog := TNamed 14. Definition a_mood := TNamed 15. Definition a_err := TNamed 16. Definition a_filter := TNamed 17.
Definition app_decls : list gdecl := [
  Decl (bs "Query") app_pkg (TStruct [fd "Hello" str; fd "Me" (TPtr a_user); fd "Pet" a_animal; fdt "Secret" "-" str])
    [method "ResolveUsers" [TStruct [fd "Filter" a_filter; fd "Max" (TPtr int)]] [TSlice a_user; a_err]];
  Decl (bs "Mutation") app_pkg (TStruct []) [method "ResolveAdd" [TPtr y_ctx; TStruct [fd "Names" (TSlice str); fd "Mood" a_mood]] [int]];
  Decl (bs "User") app_pkg (TStruct [fdt "ID" "id,ID" int; fd "Name" str; fd "Friends" (TSlice a_user); fd "Mood" a_mood]) [];
  Decl (bs "Animal") app_pkg (TIface [method "ResolveName" [] [str]]) [];
  Decl (bs "Dog") app_pkg (TStruct [fd "Age" (TBasic (KUint W8))]) [method "ResolveName" [] [str]];
  Decl (bs "Mood") app_pkg (TBasic KString) [];
  Decl (bs "error") [] (TIface [method "Error" [] [str]]) [];
  Decl (bs "UserFilter") app_pkg (TStruct [fd "Name" str; fd "Or" (TPtr a_filter)]) [] ].
Definition app : program := with_yarql app_decls [(bs "Animal", bs "Pet")] [(bs "Dog", [a_animal])] [(bs "Animal", [a_dog])]
  [Enum KString (bs "Mood") [(bs "GOOD", GString (bs "good")); (bs "BAD", GString (bs "bad"))]] [] yarql_locs.
Definition app_schema : pschema := Eval vm_compute in parsed_app app "Query" "Mutation".
Definition app_value : gval := GStruct [(true, GString (bs "world")); (true, GPtr None); (true, GIface None); (true, GString [])].
(** a request to the schema number [me] after those that left the caches [h] *)
Definition ask (P : program) (p : pschema) (v : gval) (may : clo -> bool) (me : nat) (h : heap) (q : string) : rresult (heap * world) :=
  resolve (intro_env P p me may sample_x) (view P (match me with O => p | _ => copy_schema p end) v (GStruct []) 255) 3000 no_opts no_vals (h, []) (q2 q).
Definition fresh : heap := fun _ => no_cache.
Definition heap_of (r : rresult (heap * world)) : heap := match r with RDone _ _ _ w => fst w | _ => fresh end.
Definition text_of (r : rresult (heap * world)) : option string :=
  match r with RDone o _ _ w => Some (string_of_list_ascii (map Ascii.ascii_of_N o)) | _ => None end.
