(** * Specification vocabulary: Go values of a type, equal values, empty values.  Nothing here models code of /repo. *)
From Coq Require Import String NArith ZArith QArith Bool List.
From Verif Require Import Base FloatSpec AssertModel AssertSpec EqModel.
Import ListNotations.
Open Scope N_scope.

(** ** Values of a type *)
Inductive well : rty -> rval -> Prop :=
| well_bool : forall i v, well (TyBasic i KBool) (VBool v)
| well_num : forall i v, well (TyBasic i KNum) (VNum v)
| well_float : forall i v, v < 18446744073709551616 -> well (TyBasic i KFloat) (VFloat v)
| well_str : forall i v, well (TyBasic i KStr) (VStr v)
| well_chan : forall i v, well (TyBasic i KChan) (VChan v)
| well_func : forall i v, well (TyBasic i KFunc) (VFunc v)
| well_ptr_nil : forall i, well (TyBasic i KPtr) (VPtr None)
| well_ptr : forall i a t x, well t x -> well (TyBasic i KPtr) (VPtr (Some (a, (t, x))))
| well_iface_nil : forall i, well (TyBasic i KIface) (VIface None)
| well_iface : forall i t x, well t x -> (forall o, x <> VIface o) -> well (TyBasic i KIface) (VIface (Some (t, x)))
| well_slice_nil : forall i, well (TyBasic i KSlice) (VSlice None)
| well_slice : forall i a t l, (i = bytes_id -> exists j, t = TyBasic j KNum) -> Forall (well t) l -> well (TyBasic i KSlice) (VSlice (Some (a, l)))
| well_map_nil : forall i, well (TyBasic i KMap) (VMap None)
| well_map : forall i a t l, NoDup (map fst l) -> Forall (fun kv => well t (snd kv)) l -> well (TyBasic i KMap) (VMap (Some (a, l)))
| well_array : forall i t l, Forall (well t) l -> well (TyArray i (length l) t) (VArray l)
| well_struct : forall i ts l, Forall2 well ts l -> well (TyStruct i ts) (VStruct l).
(** an argument of type interface{} *)
Definition well_object (o : option (rty * rval)) : Prop := match o with None => True | Some (t, x) => well t x /\ forall i, x <> VIface i end.

(** ** Equal values: of the same structure, with equal numbers, strings and so on at the same places.  Floats are equal as numbers, so
    NaN equals nothing.  A function equals another only if both are nil.  What is behind one and the same address is equal. *)
Inductive same : rval -> rval -> Prop :=
| same_bool : forall v, same (VBool v) (VBool v)
| same_num : forall v, same (VNum v) (VNum v)
| same_float : forall a b x y, is_number a x -> is_number b y -> number_eq x y -> same (VFloat a) (VFloat b)
| same_str : forall v, same (VStr v) (VStr v)
| same_nil_ptr : same (VPtr None) (VPtr None)
| same_address : forall p x y, same (VPtr (Some (p, x))) (VPtr (Some (p, y)))
| same_pointed : forall p q t u x y, ty_id t = ty_id u -> same x y -> same (VPtr (Some (p, (t, x)))) (VPtr (Some (q, (u, y))))
| same_nil_slice : same (VSlice None) (VSlice None)
| same_array_of_slice : forall p l r, length l = length r -> same (VSlice (Some (p, l))) (VSlice (Some (p, r)))
| same_slice : forall p q l r, Forall2 same l r -> same (VSlice (Some (p, l))) (VSlice (Some (q, r)))
| same_nil_map : same (VMap None) (VMap None)
| same_table : forall p l r, length l = length r -> same (VMap (Some (p, l))) (VMap (Some (p, r)))
| same_map : forall p q l r, (forall k x, In (k, x) l -> exists y, In (k, y) r /\ same x y) -> (forall k, In k (map fst r) -> In k (map fst l)) -> same (VMap (Some (p, l))) (VMap (Some (q, r)))
| same_nil_chan : same (VChan None) (VChan None)
| same_chan : forall p n m, same (VChan (Some (p, n))) (VChan (Some (p, m)))
| same_nil_func : same (VFunc None) (VFunc None)
| same_nil_iface : same (VIface None) (VIface None)
| same_iface : forall t u x y, ty_id t = ty_id u -> same x y -> same (VIface (Some (t, x))) (VIface (Some (u, y)))
| same_array : forall l r, Forall2 same l r -> same (VArray l) (VArray r)
| same_struct : forall l r, Forall2 same l r -> same (VStruct l) (VStruct r).
Definition same_objects (a b : option (rty * rval)) : Prop :=
  match a, b with None, None => True | Some (t, x), Some (u, y) => ty_id t = ty_id u /\ same x y | _, _ => False end.
(** there is one array at one address *)
Definition one_heap (a b : option (rty * rval)) : Prop :=
  forall t u p l r, a = Some (t, VSlice (Some (p, l))) -> b = Some (u, VSlice (Some (p, r))) -> length l = length r -> l = r.
Definition a_function (o : option (rty * rval)) : Prop := exists i v, o = Some (TyBasic i KFunc, v).
(** what is in memory: the value behind a pointer, the elements of a slice of some length, the content of a map *)
Record memory := Memory { behind : N -> rty * rval; elements : N -> nat -> list rval; table : N -> list (bytes * rval) }.
(** all that a value points to, at any depth, is what the memory has there *)
Inductive lives (m : memory) : rval -> Prop :=
| lives_bool : forall v, lives m (VBool v)
| lives_num : forall v, lives m (VNum v)
| lives_float : forall v, lives m (VFloat v)
| lives_str : forall v, lives m (VStr v)
| lives_chan : forall v, lives m (VChan v)
| lives_func : forall v, lives m (VFunc v)
| lives_nil_ptr : lives m (VPtr None)
| lives_ptr : forall p t x, behind m p = (t, x) -> lives m x -> lives m (VPtr (Some (p, (t, x))))
| lives_nil_slice : lives m (VSlice None)
| lives_slice : forall p l, elements m p (length l) = l -> Forall (lives m) l -> lives m (VSlice (Some (p, l)))
| lives_nil_map : lives m (VMap None)
| lives_map : forall p l, table m p = l -> Forall (fun kv => lives m (snd kv)) l -> lives m (VMap (Some (p, l)))
| lives_nil_iface : lives m (VIface None)
| lives_iface : forall t x, lives m x -> lives m (VIface (Some (t, x)))
| lives_array : forall l, Forall (lives m) l -> lives m (VArray l)
| lives_struct : forall l, Forall (lives m) l -> lives m (VStruct l).
Definition lives_object (m : memory) (o : option (rty * rval)) : Prop := match o with None => True | Some (_, x) => lives m x end.
(** neither NaN nor a function that is not nil, at any depth *)
Inductive comparable : rval -> Prop :=
| comparable_bool : forall v, comparable (VBool v)
| comparable_num : forall v, comparable (VNum v)
| comparable_float : forall b x, is_number b x -> comparable (VFloat b)
| comparable_str : forall v, comparable (VStr v)
| comparable_chan : forall v, comparable (VChan v)
| comparable_func : comparable (VFunc None)
| comparable_nil_ptr : comparable (VPtr None)
| comparable_ptr : forall p t x, comparable x -> comparable (VPtr (Some (p, (t, x))))
| comparable_nil_slice : comparable (VSlice None)
| comparable_slice : forall p l, Forall comparable l -> comparable (VSlice (Some (p, l)))
| comparable_nil_map : comparable (VMap None)
| comparable_map : forall p l, Forall (fun kv => comparable (snd kv)) l -> comparable (VMap (Some (p, l)))
| comparable_nil_iface : comparable (VIface None)
| comparable_iface : forall t x, comparable x -> comparable (VIface (Some (t, x)))
| comparable_array : forall l, Forall comparable l -> comparable (VArray l)
| comparable_struct : forall l, Forall comparable l -> comparable (VStruct l).

(** ** Empty values *)
Inductive is_zero : rval -> Prop :=
| zero_bool : is_zero (VBool false)
| zero_num : is_zero (VNum 0)
| zero_float : forall b q, is_number b (Number q) -> (q == 0)%Q -> is_zero (VFloat b)
| zero_str : is_zero (VStr [])
| zero_ptr : is_zero (VPtr None)
| zero_slice : is_zero (VSlice None)
| zero_map : is_zero (VMap None)
| zero_chan : is_zero (VChan None)
| zero_func : is_zero (VFunc None)
| zero_iface : is_zero (VIface None)
| zero_array : forall l, Forall is_zero l -> is_zero (VArray l)
| zero_struct : forall l, Forall is_zero l -> is_zero (VStruct l).
Inductive nothing_in : rval -> Prop :=
| nothing_array : nothing_in (VArray [])
| nothing_slice : forall p, nothing_in (VSlice (Some (p, [])))
| nothing_map : forall p, nothing_in (VMap (Some (p, [])))
| nothing_chan : forall p, nothing_in (VChan (Some (p, 0)))
| nothing_pointed : forall p t x, nothing_in x -> nothing_in (VPtr (Some (p, (t, x))))
| nothing_iface : forall t x, nothing_in x -> nothing_in (VIface (Some (t, x)))
| nothing_zero : forall x, is_zero x -> (forall l, x <> VArray l) -> nothing_in x.
(** all values of two maps are within a distance, at the same keys *)
Definition maps_within (near : any -> any -> Prop) (expected actual : list (bytes * any)) : Prop :=
  (forall k x, In (k, x) expected -> exists y, In (k, y) actual /\ near x y) /\ (forall k, In k (map fst actual) -> In k (map fst expected)).
