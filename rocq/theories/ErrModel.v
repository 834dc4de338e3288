(** * Model of assert/assert.go, traces, errors, zero values and JSON: 76-150, 682-755, 810-877

    Simplifications: the stack is given as a list of frames, innermost first; errors unwrap to at most one error; the texts of failures
    are modelled only for the chain of errors. *)
From Coq Require Import String NArith ZArith Bool List.
From Verif Require Import Base AssertModel EqModel.
Import ListNotations.
Open Scope N_scope.

(** Go library strings.Split for a separator of one byte *)
Fixpoint split (c : N) (s : bytes) : list bytes :=
  match s with
  | [] => [[]]
  | x :: r => if x =? c then [] :: split c r else match split c r with [] => [[x]] | p :: t => (x :: p) :: t end
  end.
(** Go library strings.HasPrefix, with the rest of the text *)
Fixpoint after (p s : bytes) : option bytes :=
  match p, s with [], _ => Some s | x :: p', y :: s' => if x =? y then after p' s' else None | _ :: _, [] => None end.
(** What runtime.Caller and runtime.FuncForPC say about one frame: file, line, and the name of the function if it is known (92-107) *)
Record frame := Frame { fr_file : bytes; fr_line : N; fr_func : option bytes }.

Section Trace.
(** utf8.DecodeRuneInString and unicode.IsLower: whether a text begins with a lower-case letter *)
Variable lower : bytes -> bool.
(** 141-150 isTest *)
Definition is_test (name prefix : bytes) : bool := match after prefix name with None => false | Some [] => true | Some rest => negb (lower rest) end.
(** 79-135 callerInfo *)
Fixpoint caller_info (stack : list frame) : list bytes :=
  match stack with
  | [] => []
  | f :: r =>
      if beqb (fr_file f) (bs "<autogenerated>") then []
      else match fr_func f with
           | None => []
           | Some name =>
               if beqb name (bs "testing.tRunner") then []
               else
                 let parts := split 47 (fr_file f) in
                 let file := nth (length parts - 1) parts [] in
                 let here :=
                   if (1 <? length parts)%nat then
                     let dir := nth (length parts - 2) parts [] in
                     if negb (beqb dir (bs "assert")) && negb (beqb dir (bs "mock")) && negb (beqb dir (bs "require")) || beqb file (bs "mock_test.go")
                     then [file ++ bs ":" ++ dec_of_N (fr_line f)] else []
                   else [] in
                 let segments := split 46 name in
                 let name := nth (length segments - 1) segments [] in
                 if is_test name (bs "Test") || is_test name (bs "Benchmark") || is_test name (bs "Example") then here else here ++ caller_info r
           end
  end.
End Trace.

(** An error: its value (two are == if their values are), whether its type is comparable, its text, its method Is if it has one, and
    what it unwraps to *)
(* the arguments of assert.go 709-723 and 812-878 *)
Inductive err := Err (id : N) (comparable : bool) (msg : bytes) (is_method : option (N -> bool)) (wrapped : option err).
(* model only, no code: a part of an error *)
Definition e_id (e : err) : N := let '(Err i _ _ _ _) := e in i.
(* model only, no code: a part of an error *)
Definition e_comparable (e : err) : bool := let '(Err _ c _ _ _) := e in c.
(* model only, no code: a part of an error, err.Error() *)
Definition e_msg (e : err) : bytes := let '(Err _ _ m _ _) := e in m.
(* model only, no code: a part of an error, its method Is *)
Definition e_is (e : err) : option (N -> bool) := let '(Err _ _ _ f _) := e in f.
(** Go library errors/wrap.go, the loop of Is *)
Fixpoint is_loop (e : err) (target : err) : bool :=
  match e with
  | Err i _ _ f w =>
      if e_comparable target && (i =? e_id target) then true
      else if match f with Some m => m (e_id target) | None => false end then true
      else match w with None => false | Some e' => is_loop e' target end
  end.
(** Go library errors/wrap.go Is *)
Definition errors_is (e target : option err) : bool :=
  match target with
  | None => match e with None => true | Some _ => false end
  | Some t => match e with None => false | Some e => is_loop e t end
  end.
(** 682-688 NoError, 696-702 Error, 709-722 EqualError, 812-848 ErrorIs and NotErrorIs: whether they pass *)
Definition no_error (e : option err) : bool := match e with Some _ => false | None => true end.
Definition an_error (e : option err) : bool := match e with None => false | Some _ => true end.
Definition equal_error (e : option err) (text : bytes) : bool := if negb (an_error e) then false else match e with None => false | Some e => beqb text (e_msg e) end.
Definition error_is (e target : option err) : bool := if errors_is e target then true else false.
Definition not_error_is (e target : option err) : bool := if negb (errors_is e target) then true else false.
(** Go library errors/wrap.go, the loop of As, and 852-863 ErrorAs: the error that is stored in the target; [fits] says whether an error
    is of the type of the target (or its method As says so) *)
Fixpoint error_as (fits : err -> bool) (e : err) : option err :=
  match e with Err _ _ _ _ w => if fits e then Some e else match w with None => None | Some e' => error_as fits e' end end.

Section Chain.
(** fmt %q *)
Variable quote : bytes -> bytes.
(** 865-877 buildErrorChainString *)
Fixpoint chain_from (e : err) : bytes := match e with Err _ _ m _ w => quote m ++ match w with None => [] | Some e' => [10; 9] ++ chain_from e' end end.
Definition error_chain_string (e : option err) : bytes := match e with None => [] | Some e => chain_from e end.
(** 812-828 and 832-848: the text of the failures *)
Definition error_is_message (e target : option err) : bytes :=
  bs "Target error should be in err chain:" ++ [10] ++ bs "expected: " ++ quote (match target with None => [] | Some t => e_msg t end) ++ [10] ++ bs "in chain: " ++ error_chain_string e.
End Chain.

(** 725-730 Zero and 733-738 NotZero *)
Definition assert_zero (o : object) : bool := match o with None => true | Some (t, x) => deep_equal x (zero t) end.
Definition assert_not_zero (o : object) : bool := match o with None => false | Some (t, x) => negb (deep_equal x (zero t)) end.

(** A JSON text as a tree; numbers are float64 (bit patterns); keys of objects in the order of the text *)
(* assert.go 743-753: what json.Unmarshal reads *)
Inductive jval := JNull | JBool (b : bool) | JNum (bits : N) | JStr (s : bytes) | JArr (l : list jval) | JObj (l : list (bytes * jval)).
(** assignment to a key of a Go map *)
(* an entry of a JSON object, assert.go 746, 750 *)
Fixpoint put {A} (m : list (bytes * A)) (k : bytes) (v : A) : list (bytes * A) :=
  match m with [] => [(k, v)] | (k', w) :: r => if beqb k k' then (k', v) :: r else (k', w) :: put r k v end.
(* all entries, the last of a name counts *)
Definition puts {A} (l : list (bytes * A)) : list (bytes * A) := fold_left (fun m kv => put m (fst kv) (snd kv)) l [].
(** Go library encoding/json valueInterface, arrayInterface, objectInterface.  All addresses are [a]: only those of the expected value
    are compared with those of the actual one. *)
Fixpoint decode (a : N) (v : jval) : object :=
  match v with
  | JNull => None
  | JBool b => Some (TyBasic 101 KBool, VBool b)
  | JNum n => Some (TyBasic 102 KFloat, VFloat n)
  | JStr s => Some (TyBasic 103 KStr, VStr s)
  | JArr l => Some (TyBasic 104 KSlice, VSlice (Some (a, map (fun x => VIface (decode a x)) l)))
  | JObj l => Some (TyBasic 105 KMap, VMap (Some (a, puts (map (fun kv => (fst kv, VIface (decode a (snd kv)))) l))))
  end.
(** 743-755 JSONEq; [unmarshal] reads a text as far as its tree, [None] for the errors of json.Unmarshal *)
Definition json_eq (unmarshal : bytes -> option jval) (expected actual : bytes) : bool :=
  match unmarshal expected with
  | None => false
  | Some v => match unmarshal actual with None => false | Some w => equal (decode 1 v) (decode 2 w) end
  end.
