(** * Assertions: failure reports and comparisons (model)

    assert/assert.go and assert/assertion_compare.go.  Not modelled: callerInfo (the call stack of
    the Go runtime; its lines are an argument here), the equality of objects (reflect.DeepEqual)
    and package fmt for values: the texts that it makes of values (%v, %#v, %+v, %T) are arguments. *)
From Coq Require Import String NArith ZArith Bool List.
From Verif Require Import Base FloatSpec FloatModel.
Import ListNotations.
Open Scope N_scope.

(** ** Reports *)
(** Go library bufio, dropCR *)
Fixpoint drop_cr (l : bytes) : bytes := match l with [] => [] | c :: r => match r with [] => if c =? 13 then [] else [c] | _ => c :: drop_cr r end end.
(** Go library bufio.MaxScanTokenSize *)
Definition max_token : N := 65536.
(** Go library bufio.Scanner with ScanLines, used in assert.go 176: the tokens until Scan returns false.  [cur] is the
    line so far, reversed, of length [n].  A line that does not end within the buffer of 65536 bytes stops the scanner. *)
Fixpoint scan (cur : bytes) (n : N) (m : bytes) : list bytes :=
  match m with
  | [] => if n =? 0 then [] else if n <? max_token then [drop_cr (rev cur)] else []
  | c :: r =>
      if c =? 10 then (if n <? max_token then drop_cr (rev cur) :: scan [] 0 r else [])
      else scan (c :: cur) (n + 1) r
  end.
(** assert.go 173-186: indentMessageLines *)
Fixpoint indent_lines (i : nat) (lines : list bytes) (longest : nat) : bytes :=
  match lines with
  | [] => []
  | l :: r => (match i with O => [] | _ => [10; 9] ++ repeat 32 (longest + 1) ++ [9] end) ++ l ++ indent_lines (S i) r longest
  end.
Definition indent_message (message : bytes) (longest : nat) : bytes := indent_lines 0 (scan [] 0 message) longest.
(** assert.go 226-238: labeledOutput *)
Fixpoint longest_label (content : list (bytes * bytes)) (longest : nat) : nat :=
  match content with [] => longest | v :: r => longest_label r (if (longest <? length (fst v))%nat then length (fst v) else longest) end.
Definition labeled_output (content : list (bytes * bytes)) : bytes :=
  let longest := longest_label content 0 in
  flat_map (fun v => [9] ++ fst v ++ [58] ++ repeat 32 (longest - length (fst v)) ++ [9] ++ indent_message (snd v) longest ++ [10]) content.

(** the arguments behind an assertion: a string, or another value with its text by %+v *)
(* assert.go 152-166: msgAndArgs *)
Inductive marg := MStr (s : bytes) | MOther (plus_v : bytes).
(* assert.go 157-162: what a single argument is shown as *)
Definition plus_v (m : marg) : bytes := match m with MStr s => s | MOther t => t end.
(** the %+v text of a []interface{} (Go library fmt) *)
Fixpoint spaced (l : list bytes) : bytes := match l with [] => [] | [x] => x | x :: r => x ++ [32] ++ spaced r end.
Definition slice_arg (l : list marg) : marg := MOther ([91] ++ spaced (map plus_v l) ++ [93]).
Section Messages.
(** Go library fmt.Sprintf with the message and arguments of the user *)
Variable sprintf : bytes -> list marg -> bytes.
(** assert.go 152-167: messageFromMsgAndArgs; [None] is the panic of the type assertion *)
Definition message_of (args : list marg) : option bytes :=
  match args with
  | [] => Some []
  | [MStr s] => Some s
  | [MOther t] => Some t
  | MStr f :: r => Some (sprintf f r)
  | MOther _ :: _ => None
  end.
(** assert.go 189-210: Fail: what is given to Errorf, or [None] for a panic.  [trace] are the lines of callerInfo,
    [name] the name of the test if t has one *)
Fixpoint join (sep : bytes) (l : list bytes) : bytes := match l with [] => [] | [x] => x | x :: r => x ++ sep ++ join sep r end.
Definition fail (trace : list bytes) (name : option bytes) (failure : bytes) (args : list marg) : option bytes :=
  let content := [(bs "Error Trace", join [10; 9; 9; 9] trace); (bs "Error", failure)] in
  let content := content ++ match name with Some n => [(bs "Test", n)] | None => [] end in
  match message_of args with
  | None => None
  | Some message => Some ([10] ++ labeled_output (content ++ match message with [] => [] | _ => [(bs "Messages", message)] end))
  end.
End Messages.

(** assert.go 295-302: truncatingFormat of the %#v text of a value *)
Definition truncating_format (value : bytes) : bytes :=
  let max := N.to_nat (max_token - 100) in
  if (max <? length value)%nat then firstn max value ++ bs "<... truncated>" else value.
(** assert.go 283-289: formatUnequalValues; a value by its type and its %#v text *)
Definition format_unequal (same_type : bool) (te ve ta va : bytes) : bytes * bytes :=
  if same_type then (truncating_format ve, truncating_format va)
  else (te ++ [40] ++ truncating_format ve ++ [41], ta ++ [40] ++ truncating_format va ++ [41]).
(** assert.go 253-259: the message of Equal for values that are not equal *)
Definition not_equal_message (same_type : bool) (te ve ta va diff : bytes) : bytes :=
  let (e, a) := format_unequal same_type te ve ta va in
  bs "Not equal: " ++ [10] ++ bs "expected: " ++ e ++ [10] ++ bs "actual  : " ++ a ++ diff.

(** ** Comparisons *)
(** reflect.Kind, as far as assertion_compare.go tells them apart *)
Inductive akind := KdInvalid | KdInt | KdInt8 | KdInt16 | KdInt32 | KdInt64 | KdUint | KdUint8 | KdUint16 | KdUint32 | KdUint64 | KdFloat32 | KdFloat64 | KdString | KdOther (n : N).
Scheme Equality for akind.
(** an interface{} value: nil, or a value of some type with its kind; a float is the bits of it as a float64 *)
Inductive any :=
| ANil
| AInt (k : akind) (z : Z)
| AFloat (k : akind) (bits : N)
| AStr (s : bytes)
| AOther (n : N).
Definition any_kind (a : any) : akind := match a with ANil => KdInvalid | AInt k _ => k | AFloat k _ => k | AStr _ => KdString | AOther n => KdOther n end.
Inductive compare_type := CLess | CEqual | CGreater.
Definition compare_type_eqb (a b : compare_type) : bool := match a, b with CLess, CLess | CEqual, CEqual | CGreater, CGreater => true | _, _ => false end.
(** Go operators < and == of float64 *)
Definition is_nan (b : N) : bool := inf_of f64 <? abs_of f64 b.
Definition float_key (b : N) : Z := if neg_of f64 b then (- Z.of_N (abs_of f64 b))%Z else Z.of_N (abs_of f64 b).
Definition float_lt (a b : N) : bool := negb (is_nan a) && negb (is_nan b) && (float_key a <? float_key b)%Z.
Definition float_eq (a b : N) : bool := negb (is_nan a) && negb (is_nan b) && (float_key a =? float_key b)%Z.
(** Go operator < of strings *)
Fixpoint str_lt (a b : bytes) : bool :=
  match a, b with
  | _, [] => false
  | [], _ => true
  | x :: r, y :: s => if x =? y then str_lt r s else x <? y
  end.
(** assertion_compare.go 35-305: compare; the thirteen cases differ in the type of the two values only.  The
    conversion of a value of a named type keeps the value.  A value that does not fit the kind would panic: [None] *)
Definition three (gt eq lt : bool) : compare_type * bool :=
  if gt then (CGreater, true) else if eq then (CEqual, true) else if lt then (CLess, true) else (CEqual, false).
Definition compare (a b : any) (k : akind) : option (compare_type * bool) :=
  match k with
  | KdInt | KdInt8 | KdInt16 | KdInt32 | KdInt64 | KdUint | KdUint8 | KdUint16 | KdUint32 | KdUint64 =>
      match a, b with AInt _ x, AInt _ y => Some (three (y <? x) (x =? y) (x <? y))%Z | _, _ => None end
  | KdFloat32 | KdFloat64 =>
      match a, b with AFloat _ x, AFloat _ y => Some (three (float_lt y x) (float_eq x y) (float_lt x y)) | _, _ => None end
  | KdString =>
      match a, b with AStr x, AStr y => Some (three (str_lt y x) (if bytes_eq_dec x y then true else false) (str_lt x y)) | _, _ => None end
  | KdInvalid | KdOther _ => Some (CEqual, false)
  end.
(** what an assertion does: it returns true, or calls Fail with a message and arguments and returns false, or panics *)
Inductive assertion := Passed | Failed (failure : bytes) (args : list marg) | Panicked.
(** Go library fmt.Sprintf for the formats of this file, which have the verbs %v and %s only; an operand is its
    type (%T) and its text *)
Fixpoint format_v (f : bytes) (ops : list (bytes * bytes)) : bytes :=
  match f with
  | 37 :: v :: r =>
      match ops with
      | (_, t) :: ops => t ++ format_v r ops
      | [] => bs "%!" ++ [v] ++ bs "(MISSING)" ++ format_v r []
      end
  | c :: r => c :: format_v r ops
  | [] =>
      match ops with
      | [] => []
      | _ => bs "%!(EXTRA " ++ join (bs ", ") (map (fun o => fst o ++ [61] ++ snd o) ops) ++ [41]
      end
  end.
Section Compare.
(** the texts of a value by %v and by %T *)
Variables fmt_v fmt_T : any -> bytes.
(** assertion_compare.go 363-390: compareTwoValues and containsValue *)
Definition compare_two (e1 e2 : any) (allowed : list compare_type) (fail_message : bytes) (args : list marg) : assertion :=
  if negb (akind_beq (any_kind e1) (any_kind e2)) then Failed (bs "Elements should be the same type") args
  else match compare e1 e2 (any_kind e1) with
       | None => Panicked
       | Some (result, comparable) =>
           if negb comparable then Failed (format_v (bs "Can not compare type ""%s""") [(fmt_T e1, fmt_T e1)]) args
           else if negb (existsb (fun v => compare_type_eqb v result) allowed) then Failed (format_v fail_message [(fmt_T e1, fmt_v e1); (fmt_T e2, fmt_v e2)]) args
           else Passed
       end.
(** assertion_compare.go 312-343: the arguments of the user are handed on as one argument, the slice *)
Definition greater (e1 e2 : any) (args : list marg) : assertion := compare_two e1 e2 [CGreater] (bs """%v"" is not greater than ""%v""") [slice_arg args].
Definition greater_or_equal (e1 e2 : any) (args : list marg) : assertion := compare_two e1 e2 [CGreater; CEqual] (bs """%v"" is not greater than or equal to ""%v""") [slice_arg args].
Definition less (e1 e2 : any) (args : list marg) : assertion := compare_two e1 e2 [CLess] (bs """%v"" is not less than ""%v""") [slice_arg args].
Definition less_or_equal (e1 e2 : any) (args : list marg) : assertion := compare_two e1 e2 [CLess; CEqual] (bs """%v"" is not less than or equal to ""%v""") [slice_arg args].
(** reflect.Zero of the type of a value *)
Definition zero_of (e : any) : any := match e with ANil => ANil | AInt k _ => AInt k 0 | AFloat k _ => AFloat k 0 | AStr _ => AStr [] | AOther n => AOther n end.
(** assertion_compare.go 349-361: Positive and Negative; reflect.TypeOf(nil) is nil and reflect.Zero panics *)
Definition positive (e : any) (args : list marg) : assertion :=
  match e with ANil => Panicked | _ => compare_two e (zero_of e) [CGreater] (bs """%v"" is not positive") [slice_arg args] end.
Definition negative (e : any) (args : list marg) : assertion :=
  match e with ANil => Panicked | _ => compare_two e (zero_of e) [CLess] (bs """%v"" is not negative") [slice_arg args] end.
End Compare.

(** Go operator - of float64 (IEEE 754, rounded to nearest), and the negation.  Simplification: the sign of a zero
    difference is always positive; every NaN is the same one. *)
(* assert.go 526-545: the numbers that InDelta subtracts *)
Definition a_nan : N := inf_of f64 + 1.
(* the same *)
Definition float_neg (b : N) : N := signed f64 (negb (neg_of f64 b)) (abs_of f64 b).
(* the same, as a multiple of the smallest number *)
Definition units (b : N) : Z := if neg_of f64 b then (- Z.of_N (mag f64 (abs_of f64 b)))%Z else Z.of_N (mag f64 (abs_of f64 b)).
(* assert.go 542: af - bf *)
Definition float_sub (a b : N) : N :=
  if is_nan a || is_nan b then a_nan
  else if abs_of f64 a =? inf_of f64 then if (abs_of f64 b =? inf_of f64) && Bool.eqb (neg_of f64 a) (neg_of f64 b) then a_nan else a
  else if abs_of f64 b =? inf_of f64 then float_neg b
  else let d := (units a - units b)%Z in signed f64 (d <? 0)%Z (N.min (inf_of f64) (round_mag f64 (Z.abs_N d) 1)).
(** assert.go 487-521: toFloat.  Simplification: the code looks at the type and takes the predeclared types only; here
    a value has a kind only, so this is for values of predeclared types *)
Definition to_float (a : any) : option N :=
  match a with AInt _ z => Some (of_int z) | AFloat _ b => Some b | ANil | AStr _ | AOther _ => None end.
(** assert.go 526-548: whether InDelta passes *)
Definition in_delta (delta : N) (expected actual : any) : bool :=
  match to_float expected, to_float actual with
  | Some af, Some bf =>
      if is_nan af then false
      else if is_nan bf then false
      else let dt := float_sub af bf in
           negb (float_lt dt (float_neg delta) || float_lt delta dt)
  | _, _ => false
  end.
(** assert.go 551-569 and 652-670: InDeltaSlice and InEpsilonSlice for two slices; [one] is whether InDelta, or InEpsilon,
    passes for two elements.  reflect's Index panics for an index behind the slice. *)
Fixpoint each_of_slice {A} (one : A -> A -> bool) (expected actual : list A) (i : nat) : option bool :=
  match actual with
  | [] => Some true
  | a :: r =>
      match nth_error expected i with
      | None => None
      | Some e => if one a e then each_of_slice one expected r (i + 1) else Some false
      end
  end.
Definition in_slice {A} (one : A -> A -> bool) (expected actual : list A) : option bool := each_of_slice one expected actual 0.
