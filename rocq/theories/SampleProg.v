(** * Sample Go programs for the examples and counterexamples about schemas (no model of code) *)
From Coq Require Import String Arith NArith ZArith Bool List Lia.
From Verif Require Import Base JsonModel NameModel Schema GoTypes ParseModel SchemaSpec SchemaCheck.
Import ListNotations.
Open Scope nat_scope.

Definition app_pkg : bytes := bs "example.org/app".
Definition lib_pkg : bytes := bs "example.org/lib".
Definition fd (n : string) (t : gtype) : gfield := GField (bs n) false true None t.
Definition fdt (n tag : string) (t : gtype) : gfield := GField (bs n) false true (Some (bs tag)) t.
Definition str : gtype := TBasic KString.
Definition int : gtype := TBasic (KInt WInt).
Definition method (n : string) (ins outs : list gtype) : bytes * gtype := (bs n, TFunc ins outs false).

(** a query with recursive types, an interface, an enum, times, structs without names and arguments *)
Definition g_query := TNamed 0. Definition g_meth := TNamed 1. Definition g_user := TNamed 2. Definition g_animal := TNamed 3.
Definition g_dog := TNamed 4. Definition g_time := TNamed 5. Definition g_mood := TNamed 6. Definition g_err := TNamed 7.
Definition g_filter := TNamed 8. Definition g_ctx := TNamed 9.
Definition sample_decls : list gdecl := [
  Decl (bs "QueryRoot") app_pkg (TStruct [fd "Hello" str; fd "Me" (TPtr g_user); fd "Pet" g_animal; fdt "Secret" "-" str])
    [method "ResolveUsers" [TStruct [fd "Filter" g_filter; fd "Max" (TPtr int)]] [TSlice g_user; g_err]];
  Decl (bs "MethodRoot") app_pkg (TStruct [])
    [method "ResolveAdd" [TPtr g_ctx; TStruct [fd "User" g_user; fd "Names" (TSlice str)]] [int]];
  Decl (bs "User") app_pkg (TStruct [fdt "ID" "id,ID" int; fd "Name" str; fd "Friends" (TSlice g_user); fd "Born" g_time; fd "Mood" g_mood;
      fd "Extra" (TStruct [fd "Note" str])]) [];
  Decl (bs "Animal") app_pkg (TIface [method "ResolveName" [] [str]]) [];
  Decl (bs "Dog") app_pkg (TStruct [fd "Age" (TBasic (KUint W8))]) [method "ResolveName" [] [str]];
  Decl (bs "Time") (bs "time") (TStruct []) [];
  Decl (bs "Mood") app_pkg (TBasic KString) [];
  Decl (bs "error") [] (TIface [method "Error" [] [str]]) [];
  Decl (bs "UserFilter") app_pkg (TStruct [fd "Name" str; fd "Born" g_time; fd "Or" (TPtr g_filter)]) [];
  Decl (bs "Ctx") yarql_pkg (TStruct []) [] ].
Definition sample_prog : program :=
  Prog sample_decls [(bs "Animal", bs "Pet")] [(bs "Dog", [g_animal])] [(bs "Animal", [g_dog])]
    [Enum KString (bs "Mood") [(bs "GOOD", GString (bs "good")); (bs "BAD", GString (bs "bad"))]]
    [PDir (bs "skip") [TStruct [fd "If" (TBasic KBool)]] DSkip [0%N] []] [(0%N, [0])] TOther TOther.
(** the types of a schema and of its arguments *)
Definition types_in (P : program) (qt mt : gtype) (inj : bool) (n : nat) : list gtype := close (asked_of P) n (roots_of P qt mt inj).
Definition ins_in (P : program) (l : list gtype) (inj : bool) (n : nat) : list gtype :=
  close (in_asked P) n (flat_map (fun f => arg_types P (method_args (fst f) (snd f)))
     (map (fun ins => (false, ins)) (more_of P inj) ++ flat_map (funs_of P) l)).
Definition apart (P : program) (qt mt : gtype) (inj : bool) (n : nat) : bool :=
  let l := types_in P qt mt inj n in
  apartb P (roots_of P qt mt inj) l && in_apartb P (roots_of P qt mt inj) (more_of P inj) l (ins_in P l inj n).
Lemma apart_ok P qt mt inj n : apart P qt mt inj n = true ->
  named_apart P (roots_of P qt mt inj) /\ inputs_apart P (roots_of P qt mt inj) (more_of P inj).
Proof. intro H. apply andb_prop in H. destruct H as [H K]. split; [eapply apartb_ok; exact H|eapply in_apartb_ok; exact K]. Qed.
