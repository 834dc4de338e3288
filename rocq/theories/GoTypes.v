(** * Go types, as package reflect shows them to parse.go *)
From Coq Require Import String Arith NArith ZArith Bool List.
From Verif Require Import Base JsonModel Schema.
Import ListNotations.
Open Scope N_scope.

(** Go library reflect.Type.  [TNamed n] is the n-th type declaration of the program (also the
    predeclared type error); the other types have no name, except [TBasic] whose name is that of its
    kind.  [TOther] are maps, channels, complex numbers and the like, of which parse.go only tests the kind.
    Methods and functions are given without receiver. *)
Inductive gtype :=
| TBasic (k : kind)
| TNamed (n : nat)
| TPtr (e : gtype)
| TSlice (e : gtype)
| TArray (len : nat) (e : gtype)
| TStruct (fs : list gfield)
| TFunc (ins outs : list gtype) (variadic : bool)
| TIface (ms : list (bytes * gtype))
| TOther
(** Go library reflect.StructField; [gf_tag] is the value of the key gq of the tag *)
with gfield := GField (gf_name : bytes) (gf_anon gf_exported : bool) (gf_tag : option bytes) (gf_type : gtype).

(** a type declaration: name, package path, the type literal it stands for and the methods of the
    type sorted by name (Go library reflect Type.Method for a type that is no interface) *)
Record gdecl := Decl { td_name : bytes; td_pkg : bytes; td_under : gtype; td_methods : list (bytes * gtype) }.

Section Env.
Variable decls : list gdecl.

(** Type.Name and Type.PkgPath *)
(* Go library reflect.Type, used by parse.go 359-866 *)
Definition t_name (t : gtype) : bytes :=
  match t with
  | TBasic k => kind_string k
  | TNamed n => match nth_error decls n with Some d => td_name d | None => [] end
  | _ => []
  end.
(* Go library reflect.Type, used by parse.go 359-866 *)
Definition t_pkg (t : gtype) : bytes :=
  match t with TNamed n => match nth_error decls n with Some d => td_pkg d | None => [] end | _ => [] end.
(** the type literal behind a name; a declaration is never just another name *)
(* Go library reflect.Type, used by parse.go 359-866 *)
Definition under (t : gtype) : gtype :=
  match t with TNamed n => match nth_error decls n with Some d => td_under d | None => TOther end | _ => t end.
(** Type.Kind *)
(* Go library reflect.Type, used by parse.go 359-866 *)
Definition t_kind (t : gtype) : kind :=
  match under t with
  | TBasic k => k
  | TPtr _ => KPtr | TSlice _ => KSlice | TArray _ _ => KArray | TStruct _ => KStruct
  | TFunc _ _ _ => KFunc | TIface _ => KInterface | TNamed _ | TOther => KOther
  end.
(** Type.Elem of a pointer, slice or array *)
(* Go library reflect.Type, used by parse.go 359-866 *)
Definition t_elem (t : gtype) : option gtype :=
  match under t with TPtr e | TSlice e | TArray _ e => Some e | _ => None end.
(** Type.NumField, Type.Field *)
(* Go library reflect.Type, used by parse.go 359-866 *)
Definition t_fields (t : gtype) : list gfield := match under t with TStruct fs => fs | _ => [] end.
(** Type.NumMethod, Type.Method: of an interface all its methods, of other types those declared *)
(* Go library reflect.Type, used by parse.go 359-866 *)
Definition t_methods (t : gtype) : list (bytes * gtype) :=
  match under t with
  | TIface ms => ms
  | _ => match t with TNamed n => match nth_error decls n with Some d => td_methods d | None => [] end | _ => [] end
  end.
(** Method(i).Type.In: the receiver comes first unless the type is an interface *)
(* Go library reflect.Type, used by parse.go 359-866 *)
Definition method_ins (t : gtype) (f : gtype) : list gtype :=
  match f with
  | TFunc ins _ _ => match t_kind t with KInterface => ins | _ => t :: ins end
  | _ => []
  end.

(** identity of kinds and types (Go language specification) *)
Definition width_eqb (a b : width) : bool :=
  match a, b with W8, W8 | W16, W16 | W32, W32 | W64, W64 | WInt, WInt => true | _, _ => false end.
Definition kind_eqb (a b : kind) : bool :=
  match a, b with
  | KBool, KBool | KString, KString | KSlice, KSlice | KArray, KArray | KPtr, KPtr | KStruct, KStruct
  | KInterface, KInterface | KFunc, KFunc | KOther, KOther => true
  | KInt a, KInt b | KUint a, KUint b => width_eqb a b
  | KFloat a, KFloat b => Bool.eqb a b
  | _, _ => false
  end.
Definition obeqb (a b : option bytes) : bool :=
  match a, b with None, None => true | Some x, Some y => beqb x y | _, _ => false end.
Fixpoint gtype_eqb (a b : gtype) {struct a} : bool :=
  let types := fix types (l m : list gtype) : bool :=
    match l, m with [], [] => true | x :: l, y :: m => gtype_eqb x y && types l m | _, _ => false end in
  match a, b with
  | TBasic k, TBasic k' => kind_eqb k k'
  | TNamed n, TNamed m => Nat.eqb n m
  | TPtr x, TPtr y | TSlice x, TSlice y => gtype_eqb x y
  | TArray n x, TArray m y => Nat.eqb n m && gtype_eqb x y
  | TStruct fs, TStruct gs =>
      (fix fields (l m : list gfield) : bool :=
         match l, m with
         | [], [] => true
         | GField n a e t x :: l, GField n' a' e' t' y :: m =>
             beqb n n' && Bool.eqb a a' && Bool.eqb e e' && obeqb t t' && gtype_eqb x y && fields l m
         | _, _ => false
         end) fs gs
  | TFunc i o v, TFunc i' o' v' => types i i' && types o o' && Bool.eqb v v'
  | TIface ms, TIface ns =>
      (fix methods (l m : list (bytes * gtype)) : bool :=
         match l, m with [], [] => true | (n, x) :: l, (n', y) :: m => beqb n n' && gtype_eqb x y && methods l m | _, _ => false end) ms ns
  | TOther, TOther => true
  | _, _ => false
  end.
(** Type.Implements: every method of the interface [i] is a method of [t] with the same type *)
Definition implements (t i : gtype) : bool :=
  forallb (fun m => existsb (fun n => beqb (fst m) (fst n) && gtype_eqb (snd m) (snd n)) (t_methods t)) (t_methods i).
(** Type.Implements of the type error, parse.go 770, 777: it has one method Error() string *)
Definition is_error (t : gtype) : bool :=
  existsb (fun n => beqb (bs "Error") (fst n) && gtype_eqb (TFunc [] [TBasic KString] false) (snd n)) (t_methods t).

(** the types parse.go knows: 367 and 676 time.Time, 658 multipart.FileHeader, 597-601 Ctx, 771-775 AttrIsID *)
Definition is_type (pkg name : bytes) (t : gtype) : bool := beqb (t_pkg t) pkg && beqb (t_name t) name.
Definition yarql_pkg : bytes := bs "github.com/mjarkk/yarql".
Definition is_time (t : gtype) : bool := is_type (bs "time") (bs "Time") t.
Definition is_file_header (t : gtype) : bool := is_type (bs "mime/multipart") (bs "FileHeader") t.
Definition is_ctx (t : gtype) : bool := match t_kind t with KStruct => is_type yarql_pkg (bs "Ctx") t | _ => false end.
Definition is_attr_id (t : gtype) : bool := is_type yarql_pkg (bs "AttrIsID") t.

(** the zero value of a type (Go language specification); [None]: not enough fuel.  A struct can not contain itself
    without a pointer, slice or the like in between. *)
Definition zero_time : gtime := GTime 1 1 1 0 0 0 0 0.
Fixpoint zero (fuel : nat) (t : gtype) : option gval :=
  match fuel with
  | O => None
  | Datatypes.S fuel =>
      if is_time t then Some (GTm zero_time)
      else match under t with
           | TBasic KBool => Some (GBool false)
           | TBasic (KInt w) => Some (GInt w 0)
           | TBasic (KUint w) => Some (GUint w 0)
           | TBasic (KFloat b) => Some (GFloat b 0)
           | TBasic KString => Some (GString [])
           | TBasic _ => Some GOther
           | TPtr e => Some (if is_file_header e then GFile None else GPtr None)
           | TSlice _ => Some (GSlice None)
           | TArray n e => match zero fuel e with Some v => Some (GArray (repeat v n)) | None => None end
           | TStruct fs =>
               (fix fields (l : list gfield) (acc : list (bool * gval)) : option gval :=
                  match l with
                  | [] => Some (GStruct acc)
                  | GField _ _ e _ x :: r =>
                      match zero fuel x with Some v => fields r (acc ++ [(e, v)]) | None => None end
                  end) fs []
           | TFunc _ _ _ => Some (GFunc None)
           | TIface _ => Some (if is_error t then GErr None else GIface None)
           | TNamed _ | TOther => Some GOther
           end
  end.
End Env.
