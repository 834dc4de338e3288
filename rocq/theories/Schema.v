(** * Go values and the parsed schema, as the resolver sees them *)
From Coq Require Import String NArith ZArith Bool List.
From Verif Require Import Base JsonModel.
Import ListNotations.
Open Scope N_scope.

(** widths of Go integers; [WInt] is int / uint, 64 bits wide on the platforms considered *)
(* the kinds of resolver.go 1658-1686 valueToJSON *)
Inductive width := W8 | W16 | W32 | W64 | WInt.
(* Go language: the sizes of the integer types *)
Definition bits (w : width) : N := match w with W8 => 8 | W16 => 16 | W32 => 32 | W64 | WInt => 64 end.

(** Go library reflect.Kind, as far as parse.go and resolver.go distinguish kinds *)
Inductive kind :=
| KBool | KInt (w : width) | KUint (w : width) | KFloat (is64 : bool) | KString
| KSlice | KArray | KPtr | KStruct | KInterface | KFunc | KOther.

(** Go values.  A value is the tree that is reachable from it: the Go heap (sharing and mutation of
    values while a request is handled) is not modelled.  Floats are their IEEE bits.
    In structs every field comes with the information whether it is exported, which decides
    whether package reflect allows to set or call it.  [GMethod r i] is the i-th method of the
    value [r] (reflect Value.Method), [GFunc] a function value, the number stands for its code.
    An interface value holds the name and package of its dynamic type. [GErr] is a value of type
    error. *)
Inductive gval :=
| GBool (b : bool)
| GInt (w : width) (z : Z)
| GUint (w : width) (n : N)
| GFloat (is64 : bool) (b : N)
| GString (s : bytes)
| GSlice (l : option (list gval))
| GArray (l : list gval)
| GPtr (p : option gval)
| GStruct (fs : list (bool * gval))
| GTm (t : gtime)
| GFile (f : option N)
| GIface (i : option (bytes * bytes * gval))
| GFunc (f : option N)
| GMethod (r : gval) (i : nat)
| GErr (e : option bytes)
| GCtx
| GOther.

(** reflect Value.Kind *)
Definition kind_of (v : gval) : kind :=
  match v with
  | GBool _ => KBool | GInt w _ => KInt w | GUint w _ => KUint w | GFloat b _ => KFloat b | GString _ => KString
  | GSlice _ => KSlice | GArray _ => KArray | GPtr _ => KPtr | GStruct _ => KStruct | GTm _ => KStruct
  | GFile _ => KPtr | GIface _ => KInterface | GErr _ => KInterface | GFunc _ => KFunc | GMethod _ _ => KFunc
  | GCtx => KPtr | GOther => KOther
  end.
(** reflect Kind.String, used in resolver.go 963 *)
Definition kind_string (k : kind) : bytes :=
  match k with
  | KBool => bs "bool"
  | KInt W8 => bs "int8" | KInt W16 => bs "int16" | KInt W32 => bs "int32" | KInt W64 => bs "int64" | KInt WInt => bs "int"
  | KUint W8 => bs "uint8" | KUint W16 => bs "uint16" | KUint W32 => bs "uint32" | KUint W64 => bs "uint64" | KUint WInt => bs "uint"
  | KFloat true => bs "float64" | KFloat false => bs "float32"
  | KString => bs "string" | KSlice => bs "slice" | KArray => bs "array" | KPtr => bs "ptr" | KStruct => bs "struct"
  | KInterface => bs "interface" | KFunc => bs "func" | KOther => bs "map"
  end.

(** parse.go 174-194 input, with the zero value of its Go type ([i_zero], standing for the
    reflect.Type which package reflect knows anyway).  The map structContent is a list of
    members with distinct names. *)
Inductive input := Input {
  i_kind : kind;
  i_enum : option nat;                  (* isEnum, enumTypeIndex *)
  i_isid : bool; i_isfile : bool; i_istime : bool;
  i_field : nat;                        (* goFieldIdx *)
  i_elem : option input;
  i_structptr : bool;                   (* isStructPointers *)
  i_structname : bytes;
  i_content : list (bytes * input);
  i_zero : gval
}.

(** parse.go 86-119 obj, one constructor for each valueType with the fields that are used for it;
    150-165 objMethod.  In [OObjRef], the only kind of type that can implement an interface
    besides time.Time (parse.go 487), the Go name is kept in the list of implementations.
    The map objContents is a list with distinct keys. *)
Inductive obj :=
| OUndef
| OArray (e : obj)
| OObjRef (name : bytes)
| OObj (name : bytes) (fields : list (N * field))
| OData (isid : bool) (k : kind)
| OPtr (e : obj)
| OMethod (m : method)
| OEnum (i : nat)
| OTime
| OIfaceRef (name : bytes)
| OIface (name : bytes) (fields : list (N * field)) (impls : list (bytes * bytes * obj))
(** the field of an object: customObjValue, structFieldIdx, qlFieldName and hidden of parse.go 86-119 *)
with field := Field (fo : obj) (custom : option gval) (idx : nat) (fname : bytes) (hidden : bool)
(** [ins]: [None] is a *Ctx argument, [Some z] a struct with zero value [z] (parse.go 196-199) *)
with method := Method (istype : bool) (ins : list (option gval)) (infields : list (bytes * (nat * input)))
                      (outnr : nat) (errnr : option nat) (out : obj).

(** enums.go 12-24 enum and enumEntry: content kind, type name, entries in the order of the slice *)
Record enum := Enum { en_kind : kind; en_name : bytes; en_entries : list (bytes * gval) }.
(** what the function of a directive does: parse.go 252-256 (skip), 270-274 (include), or user code *)
Inductive dirfn := DSkip | DInclude | DUser (f : N).
(** directives.go 49-60 Directive: name, method arguments and the function *)
Record dirdef := DirDef { dd_name : bytes; dd_ins : list (option gval); dd_infields : list (bytes * (nat * input)); dd_fn : dirfn }.

(** parse.go 44-65 Schema: the parts that Resolve reads.  The maps are lists with distinct keys. *)
Record schema := Schema {
  s_types : list (bytes * obj);
  s_intypes : list (bytes * input);
  s_ifaces : list (bytes * obj);
  s_query : obj; s_qvalue : gval;
  s_method : obj; s_mvalue : gval;
  s_maxdepth : N;
  s_enums : list enum;
  s_dirs : list (N * list dirdef)
}.
(** lookup in a Go map with string keys or uint32 keys *)
Fixpoint slookup {A} (l : list (bytes * A)) (k : bytes) : option A :=
  match l with [] => None | (k', v) :: r => if beqb k k' then Some v else slookup r k end.
Fixpoint nlookup {A} (l : list (N * A)) (k : N) : option A :=
  match l with [] => None | (k', v) :: r => if k =? k' then Some v else nlookup r k end.
(** obj.objContents and obj.typeName (typeNameBytes) of a type *)
Definition o_fields (o : obj) : list (N * field) :=
  match o with OObj _ fs => fs | OIface _ fs _ => fs | _ => [] end.
Definition o_name (o : obj) : bytes :=
  match o with OObj n _ => n | OIface n _ _ => n | OObjRef n => n | OIfaceRef n => n | _ => [] end.
