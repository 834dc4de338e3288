(** * Model of assert/assert.go, equality, nil, emptiness, panics and relative errors: 29-70, 243-275, 304-485, 571-649, 803-808

    Go values as reflect sees them.  A type is known by its identity; its structure is needed only as far as its values contain other
    values directly (arrays and structs).  Simplifications: values are finite trees, so DeepEqual needs no record of visited pointers;
    keys of maps are byte strings; complex numbers and unsafe pointers are left out; floats are bit patterns of float64. *)
From Coq Require Import String NArith ZArith Bool List.
From Verif Require Import Base FloatSpec FloatModel AssertModel.
Import ListNotations.
Open Scope N_scope.

(** reflect.Kind without Invalid, and with one kind for all integers and one for both floats *)
Inductive basic := KBool | KNum | KFloat | KStr | KPtr | KSlice | KMap | KChan | KFunc | KIface.
(** reflect.Type *)
Inductive rty := TyBasic (id : N) (k : basic) | TyArray (id : N) (n : nat) (t : rty) | TyStruct (id : N) (fields : list rty).
(** identity of a reflect.Type *)
Definition ty_id (t : rty) : N := match t with TyBasic i _ => i | TyArray i _ _ => i | TyStruct i _ => i end.
(** Go's == on reflect.Type *)
Definition same_type (t u : rty) : bool := ty_id t =? ty_id u.
(** reflect.Value: pointers, slices, maps, channels (with their length) and functions that are not nil have an address *)
Inductive rval :=
| VBool (v : bool) | VNum (v : Z) | VFloat (v : N) | VStr (v : bytes)
| VPtr (v : option (N * (rty * rval))) | VSlice (v : option (N * list rval)) | VMap (v : option (N * list (bytes * rval)))
| VChan (v : option (N * N)) | VFunc (v : option N) | VIface (v : option (rty * rval)) | VArray (v : list rval) | VStruct (v : list rval).
(** interface{}: nil, or a type and a value that is not itself an interface *)
Notation object := (option (rty * rval)).

(** Go library reflect/value.go MapIndex *)
Fixpoint map_index {A} (k : bytes) (m : list (bytes * A)) : option A := match m with [] => None | (k', x) :: r => if beqb k k' then Some x else map_index k r end.
(** Go library reflect/deepequal.go, the loops over the elements of arrays and slices and over the fields of structs *)
Definition both {A} (f : A -> A -> bool) : list A -> list A -> bool := fix go l r := match l, r with [], [] => true | x :: l', y :: r' => f x y && go l' r' | _, _ => false end.
(** Go library reflect/deepequal.go deepValueEqual (called in assert.go 39) *)
Fixpoint deep_equal (a b : rval) : bool :=
  match a, b with
  | VArray l, VArray r => both deep_equal l r
  | VSlice None, VSlice None => true
  | VSlice (Some (p, l)), VSlice (Some (q, r)) => (length l =? length r)%nat && ((p =? q) || both deep_equal l r)
  | VIface None, VIface None => true
  | VIface (Some (t, x)), VIface (Some (u, y)) => same_type t u && deep_equal x y
  | VPtr None, VPtr None => true
  | VPtr (Some (p, (t, x))), VPtr (Some (q, (u, y))) => (p =? q) || (same_type t u && deep_equal x y)
  | VStruct l, VStruct r => both deep_equal l r
  | VMap None, VMap None => true
  | VMap (Some (p, l)), VMap (Some (q, r)) =>
      (length l =? length r)%nat && ((p =? q) || forallb (fun kv => match map_index (fst kv) r with None => false | Some y => deep_equal (snd kv) y end) l)
  | VFunc None, VFunc None => true
  | VBool x, VBool y => Bool.eqb x y
  | VNum x, VNum y => (x =? y)%Z
  | VFloat x, VFloat y => float_eq x y
  | VStr x, VStr y => beqb x y
  | VChan None, VChan None => true
  | VChan (Some (p, _)), VChan (Some (q, _)) => p =? q
  | _, _ => false
  end.
(** the type []byte *)
Definition bytes_id : N := 0.
Definition is_bytes (t : rty) : bool := match t with TyBasic i KSlice => i =? bytes_id | _ => false end.
(** Go library bytes.Equal on two slices of bytes *)
Definition bytes_equal (l r : list rval) : bool := both (fun x y => match x, y with VNum a, VNum b => (a =? b)%Z | _, _ => false end) l r.
(** assert.go 32-50 ObjectsAreEqual *)
Definition objects_are_equal (expected actual : object) : bool :=
  match expected, actual with
  | None, None => true
  | None, Some _ | Some _, None => false
  | Some (t, x), Some (u, y) =>
      if negb (is_bytes t) then same_type t u && deep_equal x y
      else if negb (is_bytes u) then false
      else match x, y with
           | VSlice (Some (_, l)), VSlice (Some (_, r)) => bytes_equal l r
           | VSlice None, VSlice None => true
           | _, _ => false
           end
  end.
(** 803-808 isFunction *)
Definition is_function (o : object) : bool := match o with Some (TyBasic _ KFunc, _) => true | _ => false end.
(** 266-275 validateEqualArgs: [false] for its error *)
Definition validate_equal_args (expected actual : object) : bool :=
  match expected, actual with None, None => true | _, _ => negb (is_function expected || is_function actual) end.
(** 243-262 Equal and 441-452 NotEqual: whether they pass *)
Definition equal (expected actual : object) : bool := if validate_equal_args expected actual then objects_are_equal expected actual else false.
Definition not_equal (expected actual : object) : bool := if validate_equal_args expected actual then negb (objects_are_equal expected actual) else false.
(** 326-345 isNil *)
Definition is_nil (o : object) : bool :=
  match o with
  | None => true
  | Some (_, v) => match v with VChan None | VFunc None | VIface None | VMap None | VPtr None | VSlice None => true | _ => false end
  end.
(** 307-312 NotNil and 350-355 Nil *)
Definition assert_nil (o : object) : bool := is_nil o.
Definition assert_not_nil (o : object) : bool := negb (is_nil o).
(** Go library reflect.Zero *)
Fixpoint zero (t : rty) : rval :=
  match t with
  | TyBasic _ k =>
      match k with
      | KBool => VBool false | KNum => VNum 0 | KFloat => VFloat 0 | KStr => VStr [] | KPtr => VPtr None | KSlice => VSlice None
      | KMap => VMap None | KChan => VChan None | KFunc => VFunc None | KIface => VIface None
      end
  | TyArray _ n t => VArray (repeat (zero t) n)
  | TyStruct _ fields => VStruct (map zero fields)
  end.
(** 358-383 isEmpty; a pointer to an interface is followed into the interface, 375 (Interface of a value of kind Interface) *)
Fixpoint empty_value (t : rty) (v : rval) : bool :=
  match v with
  | VArray l => (length l =? 0)%nat
  | VChan None => true
  | VChan (Some (_, n)) => n =? 0
  | VMap None => true
  | VMap (Some (_, l)) => (length l =? 0)%nat
  | VSlice None => true
  | VSlice (Some (_, l)) => (length l =? 0)%nat
  | VPtr None => true
  | VPtr (Some (_, (u, x))) => match x with VIface None => true | VIface (Some (w, y)) => empty_value w y | _ => empty_value u x end
  | _ => deep_equal v (zero t)
  end.
Definition is_empty (o : object) : bool := match o with None => true | Some (t, v) => empty_value t v end.
(** 389-396 Empty and 404-411 NotEmpty *)
Definition assert_empty (o : object) : bool := is_empty o.
Definition assert_not_empty (o : object) : bool := negb (is_empty o).
(** What a call of a function may do: return, panic with nil, or panic with something *)
Inductive call := Returns | Panics_nil | Panics_with (v : N).
(** 455-474 didPanic: recover gives nil also for panic(nil) (go.mod says go 1.16) *)
Definition did_panic (f : call) : bool := match f with Returns | Panics_nil => false | Panics_with _ => true end.
(** 479-485 Panics *)
Definition assert_panics (f : call) : bool := did_panic f.
(** 572-610 InDeltaMapValues on two maps; keys in the order of MapKeys *)
Fixpoint each_of_map (delta : N) (l actual : list (bytes * any)) : bool :=
  match l with
  | [] => true
  | (k, ev) :: r => match map_index k actual with None => false | Some av => if in_delta delta ev av then each_of_map delta r actual else false end
  end.
Definition in_delta_map (delta : N) (expected actual : list (bytes * any)) : bool :=
  if negb (length expected =? length actual)%nat then false else each_of_map delta expected actual.
(** Go operator / of float64 (IEEE 754, rounded to nearest) for two values without sign, the second one not zero *)
Definition abs_div (x y : N) : N :=
  if (inf_of f64 <? x) || (inf_of f64 <? y) then a_nan
  else if x =? inf_of f64 then if y =? inf_of f64 then a_nan else inf_of f64
  else if y =? inf_of f64 then 0
  else N.min (inf_of f64) (round_mag f64 (mag f64 x * 2 ^ scale f64) (mag f64 y)).
(** 612-632 calcRelativeError; [None] for its errors.  math.Abs is [abs_of] *)
Definition relative_error (expected actual : any) : option N :=
  match to_float expected with
  | None => None
  | Some af =>
      if is_nan af then None
      else if float_eq af 0 then None
      else match to_float actual with
           | None => None
           | Some bf => if is_nan bf then None else Some (abs_div (abs_of f64 (float_sub af bf)) (abs_of f64 af))
           end
  end.
(** 635-649: whether InEpsilon passes *)
Definition in_epsilon (epsilon : N) (expected actual : any) : bool :=
  if is_nan epsilon then false
  else match relative_error expected actual with None => false | Some e => negb (float_lt epsilon e) end.
