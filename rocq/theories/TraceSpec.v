(** * Tracing: what a trace should contain (specification) *)
From Coq Require Import String Arith NArith ZArith Bool List Sorted.
From Verif Require Import RegModel IntroModel.
From Verif Require Import Base Ast Schema ResModel EnvModel Interp Facts Valid TraceModel.
Import ListNotations.
Open Scope N_scope.

(** ** What is recorded (specification), read off the response *)
(** the response of a field of type [o] is made by a value of type [o'] *)
Inductive shape (S : schema) : obj -> obj -> Prop :=
| sh_here : forall o, shape S o o
| sh_ptr : forall e o, shape S e o -> shape S (OPtr e) o
| sh_out : forall a b c d e out o, shape S out o -> shape S (OMethod (Method a b c d e out)) o
| sh_ref : forall n t, slookup (s_types S) n = Some t -> shape S (OObjRef n) t
| sh_impl : forall n fs is x o, In x is -> shape S (snd x) o -> shape S (OIface n fs is) o
| sh_iref : forall n t o, slookup (s_ifaces S) n = Some t -> shape S t o -> shape S (OIfaceRef n) o.
Definition leaf (v : rt) : Prop := match v with TArr _ | TObj _ => False | _ => True end.
Section Recorded.
Variable S : schema.
Variable asked : bytes -> bytes -> Prop.        (* the query has a field with this response key and this name *)
Variable failed_at : list pitem -> Prop.        (* the errors contain one with this path *)
(** the entry of the field [n] of [t] with the path [p], whose type is called [ret] *)
Definition entry_of (p : list pitem) (t : obj) (n ret : bytes) (e : tentry) : Prop :=
  te_path e = get_path_json (path_text p) /\ te_parent e = o_name t /\ te_field e = n /\ te_return e = ret.
Inductive rec_value : list pitem -> obj -> rt -> list tentry -> Prop :=
| rv_leaf : forall p o v, leaf v -> rec_value p o v []
| rv_list : forall p o e l es, shape S o (OArray e) -> rec_elems p 0 e l es -> rec_value p o (TArr l) es
| rv_obj : forall p o t m es, shape S o t -> rec_members p t m es -> rec_value p o (TObj m) es
with rec_elems : list pitem -> N -> obj -> list rt -> list tentry -> Prop :=
| re_nil : forall p n e, rec_elems p n e [] []
| re_cons : forall p n e v r es1 es2, rec_value (p ++ [PIdx n]) e v es1 -> rec_elems p (n + 1) e r es2 -> rec_elems p n e (v :: r) (es1 ++ es2)
with rec_members : list pitem -> obj -> list (bytes * rt) -> list tentry -> Prop :=
| rm_nil : forall p t, rec_members p t [] []
| rm_unknown : forall p t k n v r es, asked k n -> nlookup (o_fields t) (fnv1 n) = None -> n = bs "__typename" \/ failed_at (p ++ [PKey k]) -> leaf v ->
    rec_members p t r es -> rec_members p t ((k, v) :: r) es
| rm_known : forall p t k n fo c i fn hd ret v r es1 e es2, asked k n -> nlookup (o_fields t) (fnv1 n) = Some (Field fo c i fn hd) ->
    return_type S fo = Some ret -> rec_value (p ++ [PKey k]) fo v es1 -> entry_of (p ++ [PKey k]) t n ret e ->
    rec_members p t r es2 -> rec_members p t ((k, v) :: r) (es1 ++ e :: es2).
End Recorded.
Scheme rec_value_ind2 := Induction for rec_value Sort Prop
  with rec_elems_ind2 := Induction for rec_elems Sort Prop
  with rec_members_ind2 := Induction for rec_members Sort Prop.
Combined Scheme recorded_ind from rec_value_ind2, rec_elems_ind2, rec_members_ind2.

Definition te_end (e : tentry) : Z := (te_start e + te_dur e)%Z.
(** ** Times *)
(** neither starts nor ends go back *)
Definition in_order : list tentry -> Prop := StronglySorted (fun a b => (te_start a <= te_start b /\ te_end a <= te_end b)%Z).
Fixpoint flat (v : rt) : Prop :=
  match v with
  | TObj _ => False
  | TArr l => (fix all l := match l with [] => True | x :: r => flat x /\ all r end) l
  | _ => True
  end.
(** [v] contains an object with a member *)
Fixpoint has_member (v : rt) : Prop :=
  match v with
  | TObj m => m <> []
  | TArr l => (fix any l := match l with [] => False | x :: r => has_member x \/ any r end) l
  | _ => False
  end.
(** every field of the schema has a type with a name (specification) *)
Definition types_named (S : schema) : Prop :=
  forall o h fo c i n hd, reach S o -> nlookup (o_fields o) h = Some (Field fo c i n hd) -> return_type S fo <> None.

(** the name of a type that is not a list, and whether a value is required *)
Inductive named_type (S : schema) : obj -> bytes -> bool -> Prop :=
| nt_bool : named_type S (OData false KBool) (bs "Boolean") true
| nt_string : named_type S (OData false KString) (bs "String") true
| nt_int : forall w, named_type S (OData false (KInt w)) (bs "Int") true
| nt_uint : forall w, named_type S (OData false (KUint w)) (bs "Int") true
| nt_float : forall b, named_type S (OData false (KFloat b)) (bs "Float") true
| nt_id : forall k, named_type S (OData true k) (bs "ID") true
| nt_time : named_type S OTime (bs "Time") true
| nt_enum : forall i e, nth_error (s_enums S) i = Some e -> named_type S (OEnum i) (en_name e) true
| nt_obj : forall n m fs, slookup (s_types S) n = Some (OObj m fs) -> named_type S (OObjRef n) m true
| nt_iface : forall n m fs is, slookup (s_ifaces S) n = Some (OIface m fs is) -> named_type S (OIfaceRef n) m false
| nt_obj_here : forall n fs, named_type S (OObj n fs) n true
| nt_iface_here : forall n fs is, named_type S (OIface n fs is) n false
| nt_ptr : forall o n b, named_type S o n b -> named_type S (OPtr o) n false
| nt_method : forall ins infs onr enr o n b, named_type S o n b -> named_type S (OMethod (Method true ins infs onr enr o)) n b
| nt_func : forall ins infs onr enr o n b, named_type S o n b -> named_type S (OMethod (Method false ins infs onr enr o)) n false.
(** the paths of all members of a response, inner ones first *)
Fixpoint member_paths (p : list pitem) (v : rt) : list (list pitem) :=
  match v with
  | TArr l => (fix elems (n : N) l := match l with [] => [] | x :: r => member_paths (p ++ [PIdx n]) x ++ elems (n + 1) r end) 0 l
  | TObj m => (fix members m := match m with [] => [] | (k, x) :: r => member_paths (p ++ [PKey k]) x ++ (p ++ [PKey k]) :: members r end) m
  | _ => []
  end.
