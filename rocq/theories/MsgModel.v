(** * Model of what a failed Equal reports: assert/assert.go 243-302 and 757-801

    Types and values are those of EqModel.v.  The Go library fmt is given by parameters: %T of a type, %#v and %+v of a value; so
    is Elem of a pointer type.  The diff itself is that of DiffModel.v. *)
From Coq Require Import String NArith Bool List.
From Verif Require Import Base DiffModel EqModel.
Import ListNotations.
Open Scope N_scope.

(** the identity of the type string *)
(* assert.go 283-289 *)
Definition string_id : N := 103.
(** bufio.MaxScanTokenSize (Go library) less 100, assert.go 297 *)
Definition max_text : N := 65436.
(** how Equal ends: it passes, it fails with a text, or a panic (a [None] of DiffModel.v) *)
Inductive report := Passed | Failed (text : bytes) | Crashed.

Section Formats.
Variable elem : rty -> rty.              (* reflect.Type.Elem of a pointer type *)
Variable type_text : option rty -> bytes.   (* %T; [None] for nil *)
Variable sharp plus : object -> bytes.   (* %#v and %+v *)

(** assert.go 757-766 typeAndKind; the kind is a part of the type here *)
Definition type_and_kind (t : rty) : rty := match t with TyBasic _ KPtr => elem t | _ => t end.
(** 782: the kinds for which there is a diff *)
Definition kind_with_diff (t : rty) : bool :=
  match t with TyStruct _ _ | TyArray _ _ _ | TyBasic _ KMap | TyBasic _ KSlice | TyBasic _ KStr => true | TyBasic _ _ => false end.
(** Go library reflect/value.go String *)
Definition value_string (t : rty) (v : rval) : bytes := match v with VStr s => s | _ => bs "<" ++ type_text (Some t) ++ bs " Value>" end.
(** 770-801 diff *)
Definition diff (expected actual : object) : option bytes :=
  match expected, actual with
  | Some (t, x), Some (u, y) =>
      let et := type_and_kind t in
      let at_ := type_and_kind u in
      if negb (same_type et at_) then Some []
      else if negb (kind_with_diff et) then Some []
      else if negb (ty_id et =? string_id) then diff_strings (plus expected) (plus actual)
      else diff_strings (value_string t x) (value_string u y)
  | _, _ => Some []
  end.
(** 295-302 truncatingFormat *)
Definition truncating (data : object) : bytes :=
  let value := sharp data in
  if max_text <? N.of_nat (length value) then firstn (N.to_nat max_text) value ++ bs "<... truncated>" else value.
(** 284: the comparison of two reflect.TypeOf *)
Definition same_typeof (a b : object) : bool :=
  match a, b with None, None => true | Some (t, _), Some (u, _) => same_type t u | _, _ => false end.
(** 283-289 formatUnequalValues *)
Definition format_unequal (expected actual : object) : bytes * bytes :=
  if negb (same_typeof expected actual)
  then (type_text (option_map fst expected) ++ bs "(" ++ truncating expected ++ bs ")", type_text (option_map fst actual) ++ bs "(" ++ truncating actual ++ bs ")")
  else (truncating expected, truncating actual).
(** 247-262 Equal: the failure it reports, without the optional message of the caller *)
Definition equal_report (expected actual : object) : report :=
  if negb (validate_equal_args expected actual)
  then Failed (bs "Invalid operation: " ++ sharp expected ++ bs " == " ++ sharp actual ++ bs " (cannot take func type as argument)")
  else if negb (objects_are_equal expected actual)
  then match diff expected actual with
       | None => Crashed
       | Some d => let (e, a) := format_unequal expected actual in
                   Failed (bs "Not equal: " ++ [10] ++ bs "expected: " ++ e ++ [10] ++ bs "actual  : " ++ a ++ d)
       end
  else Passed.
End Formats.
