(** * The encoder of the parser tests (model)

    bytecode/testing_framework.go: the tests of the parser describe the expected document by Go
    structs and turn it into bytes, which are compared with the bytes that the parser wrote
    (bytecode_test.go 28-46).  A slice that is compared with nil is an [option] here, all other
    slices are lists. *)
From Coq Require Import NArith ZArith Bool List.
From Verif Require Import Base Ast ParserModel JsonModel.
Import ListNotations.
Open Scope N_scope.

(** testing_framework.go 129-160: testValue and typeObjectValue; intValue is an int64, here any integer *)
Inductive tval := TVal (kind : N) (items : list tval) (int : Z) (float str : bytes) (bool : bool) (members : list (bytes * tval)) (var enum : bytes).
(** testing_framework.go 81-84 *)
Record tdir := TDir { td_name : bytes; td_args : option (list (bytes * tval)) }.
(** testing_framework.go 103-107 *)
Record toparg := TOpArg { ta_name : bytes; ta_type : bytes; ta_default : option tval }.
(** testing_framework.go 206-215 *)
Inductive tfield := TField (name : bytes) (fields : option (list tfield)) (is_fragment : bool) (dirs : list tdir) (alias : bytes) (args : option (list (bytes * tval))).
(** testing_framework.go 16-22 and 61-65: testOperator, testFragment; the tests append the bytes of several
    of them (bytecode_test.go 153-156) *)
Inductive tdef := TOp (kind : N) (name : bytes) (args : list toparg) (dirs : list tdir) (fields : list tfield) | TFrag (name on : bytes) (fields : list tfield).

(** Go: res[i] = b; an index outside the slice (a panic in Go) leaves it *)
(* testing_framework.go 8-14 *)
Fixpoint set_at (res : bytes) (i : nat) (b : N) : bytes :=
  match res, i with
  | [], _ => []
  | _ :: r, O => b :: r
  | x :: r, S i => x :: set_at r i b
  end.
(** testing_framework.go 8-14: writeUint32At; byte(0xff & x) is x mod 256 *)
Definition write_u32_at (res : bytes) (at_ : nat) (v : N) : bytes :=
  let res := set_at res at_ (v mod 256) in
  let res := set_at res (at_ + 1) (v / 256 mod 256) in
  let res := set_at res (at_ + 2) (v / 65536 mod 256) in
  set_at res (at_ + 3) (v / 16777216 mod 256).
(** Go conversions uint32(n) and byte(n) of lengths *)
Definition u32 (n : nat) : N := N.of_nat n mod 4294967296.
Definition byte_len {A} (l : list A) : N := N.of_nat (length l) mod 256.

(** testing_framework.go 162-204: testValue.toBytes; strconv.AppendInt is [int_to_json] *)
Fixpoint tv_bytes (t : tval) (res : bytes) : bytes :=
  match t with
  | TVal kind items int float str b members var enum =>
      let res := res ++ [0; 118; kind] in
      let res := res ++ [0; 0; 0; 0] in
      let start := length res in
      let res :=
        if kind =? 36 then res ++ var
        else if kind =? 105 then res ++ int_to_json int
        else if kind =? 102 then res ++ float
        else if kind =? 115 then res ++ str
        else if kind =? 98 then res ++ [if b then 49 else 48]
        else if kind =? 110 then res
        else if kind =? 101 then res ++ enum
        else if kind =? 108 then fold_left (fun r x => tv_bytes x r) items res ++ [0; 101]
        else if kind =? 111 then fold_left (fun r nx => tv_bytes (snd nx) ((r ++ [0; 117]) ++ fst nx)) members res ++ [0; 101]
        else res in
      let end_ := length res in
      write_u32_at res (start - 4) (u32 (end_ - start))
  end.
(** the literal testValue{kind: ValueObject, objectValue: o.arguments} of testing_framework.go 95-98 and 275-278 *)
Definition targs_bytes (members : list (bytes * tval)) (res : bytes) : bytes := tv_bytes (TVal 111 [] 0 [] [] false members [] []) res.
(** testing_framework.go 86-101: testDirective.toBytes *)
Definition td_bytes (d : tdir) (res : bytes) : bytes :=
  let res := res ++ [0; 100] in
  let res := match td_args d with Some _ => res ++ [116] | None => res ++ [102] end in
  let res := res ++ td_name d in
  match td_args d with Some fs => targs_bytes fs res | None => res end.
(** testing_framework.go 109-127: testOperatorArg.toBytes *)
Definition ta_bytes (a : toparg) (res : bytes) : bytes :=
  let start := (length res + 1)%nat in
  let res := res ++ [0; 97] in
  let res := res ++ [0; 0; 0; 0] in
  let res := res ++ ta_name a in
  let res := res ++ [0] in
  let res := res ++ ta_type a in
  let res := match ta_default a with Some v => tv_bytes v (res ++ [0; 116]) | None => res ++ [0; 102] end in
  let end_ := length res in
  write_u32_at res (start + 1) (u32 (end_ - start)).
(** testing_framework.go 223-286: testField.toBytes; getObjKey (217-221) is [fnv1] *)
Fixpoint tf_bytes (f : tfield) (res : bytes) : bytes :=
  match f with
  | TField name fields is_fragment dirs alias args =>
      if is_fragment then
        let res := res ++ [0; 115] in
        let res := match fields with Some _ => res ++ [116] | None => res ++ [102] end in
        let res := res ++ [byte_len dirs] in
        let res := res ++ [0; 0; 0; 0] in
        let start := length res in
        let res := res ++ name in
        let res := fold_left (fun r d => td_bytes d r) dirs res in
        let res := match fields with Some l => fold_left (fun r x => tf_bytes x r) l res ++ [0; 101] | None => res end in
        let end_ := length res in
        write_u32_at res (start - 4) (u32 (end_ - start))
      else
        let res := res ++ [0; 102] in
        let res := res ++ [byte_len dirs] in
        let res := res ++ [0; 0; 0; 0] in
        let res := res ++ [0; 0; 0; 0] in
        let res := write_u32_at res (length res - 4) (fnv1 name) in
        let start := length res in
        let res :=
          match alias with
          | _ :: _ => (((res ++ [byte_len alias]) ++ alias) ++ [byte_len name]) ++ name
          | [] => ((res ++ [byte_len name]) ++ name) ++ [0]
          end in
        let res := fold_left (fun r d => td_bytes d r) dirs res in
        let res := match fields with Some l => fold_left (fun r x => tf_bytes x r) l res | None => res end in
        let res := match args with Some fs => targs_bytes fs res | None => res end in
        let res := res ++ [0; 101] in
        let end_ := length res in
        write_u32_at res (start - 8) (u32 (end_ - start))
  end.
(** testing_framework.go 24-59: testOperator.toBytes; 67-79: testFragment.toBytes *)
Definition tdef_bytes (x : tdef) : bytes :=
  match x with
  | TOp kind name args dirs fields =>
      let kind := if kind =? 0 then 113 else kind in
      let res := [0; 111; kind] in
      let res := match args with _ :: _ => res ++ [116] | [] => res ++ [102] end in
      let res := res ++ [byte_len dirs] in
      let res := res ++ name in
      let res :=
        match args with
        | [] => res
        | _ :: _ =>
            let res := res ++ [0; 0; 0; 0; 0] in
            let start := length res in
            let res := res ++ [0; 65] in
            let res := fold_left (fun r a => ta_bytes a r) args res in
            let res := res ++ [0; 101] in
            let end_ := length res in
            write_u32_at res (start - 4) (u32 (end_ - start))
        end in
      let res := fold_left (fun r d => td_bytes d r) dirs res in
      let res := fold_left (fun r f => tf_bytes f r) fields res in
      res ++ [0; 101]
  | TFrag name on fields =>
      let res := [0; 70] ++ name in
      let res := res ++ [0] in
      let res := res ++ on in
      let res := fold_left (fun r f => tf_bytes f r) fields res in
      res ++ [0; 101]
  end.
(** bytecode_test.go 153-156: append(a.toBytes(), b.toBytes()...) *)
Definition tdoc_bytes (l : list tdef) : bytes := flat_map tdef_bytes l.
(** bytecode_test.go 13-18 and 28-46: newParseQueryAndExpectResult with its parseQuery; whether the test passes.
    The test compares the output of hex.Dump (Go library) for both byte slices, here the slices themselves;
    an error of the parser panics. *)
Definition test_passes (query : bytes) (expected : bytes) : bool :=
  match parse_query query None with
  | Parsed s => match p_errs s with [] => if bytes_eq_dec expected (p_res s) then true else false | _ => false end
  | _ => false
  end.
