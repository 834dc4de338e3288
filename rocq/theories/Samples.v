(** * Sample schemas and requests for the examples and counterexamples (no model of code) *)
From Coq Require Import String NArith ZArith Bool List.
From Verif Require Import Base JsonModel ParserModel ReqModel Schema ResModel EnvModel.
Import ListNotations.
Open Scope N_scope.

(** a world that records the calls of resolvers: function, arguments, path *)
Definition world := list (gval * list gval * bytes).
Definition q2 (s : string) : bytes := map (fun c => if c =? 39 then 34 else c) (bs s).   (* ' for the double quote *)

(** function 0 returns its receiver's constant 7; the others are given by [calls] *)
Definition sample_ext (calls : N -> list gval -> list gval) (json : bytes -> fj + bytes) (file : bool) : externals world :=
  Ext world
    (fun w f a p => Some (w ++ [(f, a, p)],
        match f with GFunc (Some n) => calls n a | GMethod _ n => calls (N.of_nat n) a | _ => [] end))
    (fun w f a p => Some (w ++ [(GFunc (Some f), a, p)], f =? 1))
    (fun _ => None)
    (if file then Some (fun w n => (w, inl 5)) else None)
    json
    (fun _ => inl 0) (fun _ => 0) (fun _ => bs "bad number") (fun _ => 0) (fun b => b) (fun _ _ => bs "0.0") (fun _ => bs "value").

Definition fld (n : string) (o : obj) (i : nat) : N * field := (fnv1 (bs n), Field o None i (bs n) false).
Definition inp (k : kind) (f : nat) (z : gval) : input := Input k None false false false f None false [] [] z.
Definition inp_id (k : kind) (f : nat) (z : gval) : input := Input k None true false false f None false [] [] z.
Definition inp_slice (e : input) (f : nat) : input := Input KSlice None false false false f (Some e) false [] [] (GSlice None).
Definition inp_ptr (e : input) (f : nat) : input := Input KPtr None false false false f (Some e) false [] [] (GPtr None).
Definition inp_struct (n : string) (c : list (bytes * input)) (f : nat) (z : gval) : input :=
  Input KStruct None false false false f None false (bs n) c z.
(** directives.go / parse.go 245-275: the built-in directives *)
Definition bool_arg : gval := GStruct [(true, GBool false)].
Definition if_dir (n : string) (f : dirfn) : dirdef := DirDef (bs n) [Some bool_arg] [(bs "if", (O, inp KBool 0 (GBool false)))] f.
Definition builtin_dirs : list (N * list dirdef) :=
  let l := [if_dir "skip" DSkip; if_dir "include" DInclude] in [(0, l); (1, l); (2, l)].
Definition mk_schema (q : obj) (qv : gval) (types : list (bytes * obj)) (ifaces : list (bytes * obj)) (intypes : list (bytes * input)) : schema :=
  Schema types intypes ifaces q qv (OObj (bs "M") []) (GStruct []) 255 [] builtin_dirs.
Definition no_opts : ropts := ROpts false [] [] None.
Definition no_vals : N -> rv := fun _ => (false, GOther).
Definition run (X : externals world) (S : schema) (o : ropts) (q : bytes) : rresult world := resolve X S 1000 o no_vals [] q.

(** a struct with a string, an int, a nested object, a list of objects and two resolvers *)
Definition t_user : obj := OObj (bs "User") [fld "name" (OData false KString) 0; fld "id" (OData true (KInt WInt)) 1; fld "friend" (OPtr (OObjRef (bs "User"))) 2].
Definition args1 : list (option gval) := [None; Some (GStruct [(true, GInt W8 0); (true, GString []); (true, GSlice None); (true, GInt W64 0)])].
Definition infields1 : list (bytes * (nat * input)) :=
  [(bs "a", (1%nat, inp (KInt W8) 0 (GInt W8 0))); (bs "s", (1%nat, inp KString 1 (GString [])));
   (bs "l", (1%nat, inp_slice (inp (KInt W64) 0 (GInt W64 0)) 2)); (bs "id", (1%nat, inp_id (KInt W64) 3 (GInt W64 0)))].
Definition t_query : obj := OObj (bs "Query")
  [fld "hello" (OData false KString) 0; fld "me" (OObjRef (bs "User")) 1; fld "all" (OArray (OObjRef (bs "User"))) 2;
   fld "call" (OMethod (Method true args1 infields1 0 (Some 1%nat) (OData false (KInt WInt)))) 0;
   fld "get" (OMethod (Method true args1 infields1 0 None (OObjRef (bs "User")))) 1].
Definition user (n : string) (i : Z) (f : option gval) : gval := GStruct [(true, GString (bs n)); (true, GInt WInt i); (true, GPtr f)].
Definition v_query : gval := GStruct
  [(true, GString (bs "world")); (true, user "ann" 1 (Some (user "bob" 2 None))); (true, GSlice (Some [user "x" 3 None; user "y" 4 None]))].
Definition sample_schema : schema := mk_schema t_query v_query [(bs "User", t_user)] [] [].
Definition sample_calls (n : N) (a : list gval) : list gval :=
  match n with 0 => [GInt WInt 7; GErr None] | _ => [user "got" 9 None] end.
Definition sample_x : externals world := sample_ext sample_calls (fun _ => inl (FObject [])) false.
Definition texts (r : rresult world) : option (string * nat) :=
  match r with RDone o e _ w => Some (string_of_list_ascii (map Ascii.ascii_of_N o), length w) | _ => None end.
