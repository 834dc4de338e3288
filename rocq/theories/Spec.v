(** * What a request without errors gives: a specification of execution on documents

    Independent of bytecode, positions, buffers and fuel.  The relations say which tree is the
    response and what happened to the world [W] of the user code: resolvers and directives are called in
    exactly this order.  [rv] is a place that holds a value: the flag says that it can not be
    set (it belongs to an unexported field). *)
From Coq Require Import String NArith ZArith Bool List.
From Verif Require Import Base Json JsonModel Ast ReqModel Schema ResModel Interp Facts.
Import ListNotations.
Open Scope N_scope.

(** ** Numbers *)
Definition int_range (w : width) (z : Z) : Prop := (- 2 ^ (Z.of_N (bits w) - 1) <= z < 2 ^ (Z.of_N (bits w) - 1))%Z.
Definition uint_range (w : width) (n : N) : Prop := n < 2 ^ bits w.
(** [z'] is the integer of this width with the low bits of [z] *)
Definition low_bits (w : width) (z z' : Z) : Prop := int_range w z' /\ (z mod 2 ^ Z.of_N (bits w) = z' mod 2 ^ Z.of_N (bits w))%Z.
Definition ulow_bits (w : width) (n n' : N) : Prop := uint_range w n' /\ n mod 2 ^ bits w = n'.
(** decimal integers with an optional sign *)
Definition signed_value (t : bytes) : option Z :=
  match t with 43 :: r => option_map Z.of_N (dec_value r) | _ => int_value t end.

Definition with_field (fs : list (bool * gval)) (i : nat) (v : gval) : list (bool * gval) :=
  firstn i fs ++ match nth_error fs i with Some (e, _) => [(e, v)] | None => [] end ++ skipn (i + 1) fs.
Definition with_arg (l : list gval) (i : nat) (v : gval) : list gval := firstn i l ++ [v] ++ skipn (i + 1) l.

Section Spec.
Context {W : Type}.
Variable X : externals W.
Variable S : schema.
Variable rawvars : bytes.                            (* the JSON variables of the request *)
Variable decls : option (list oparg).                (* the variables declared by the operation *)
Variable fdefs : list (bytes * bytes * list sel).    (* the fragments of the document *)
Variable look : obj -> bytes -> option field.        (* the field of a type with this name *)

(** ** Input *)
Inductive enum_sets : rv -> enum -> bytes -> gval -> Prop :=
| es_string : forall old e n s, en_kind e = KString -> slookup (en_entries e) n = Some (GString s) ->
    enum_sets (false, GString old) e n (GString s)
| es_int : forall w old e n kw w' z z', en_kind e = KInt kw -> slookup (en_entries e) n = Some (GInt w' z) -> low_bits w z z' ->
    enum_sets (false, GInt w old) e n (GInt w z')
| es_uint : forall w old e n kw w' z z', en_kind e = KUint kw -> slookup (en_entries e) n = Some (GUint w' z) -> ulow_bits w z z' ->
    enum_sets (false, GUint w old) e n (GUint w z').

(** an ID: numbers must be in the range of int64, and lose their high bits in narrower types *)
Inductive id_sets : rv -> bytes -> gval -> Prop :=
| is_string : forall old s, id_sets (false, GString old) s (GString s)
| is_int : forall w old s z z', signed_value s = Some z -> int_range W64 z -> low_bits w z z' -> id_sets (false, GInt w old) s (GInt w z')
| is_uint : forall w old s z z', signed_value s = Some z -> int_range W64 z -> (0 <= z)%Z -> ulow_bits w (Z.to_N z) z' ->
    id_sets (false, GUint w old) s (GUint w z').
Inductive file_sets : W -> rv -> bytes -> W -> gval -> Prop :=
| fs_file : forall w old s w' f get, x_formfile X = Some get -> get w s = (w', inl f) -> file_sets w (false, old) s w' (GFile (Some f)).

(** a string: depending on the type an enum value, an ID, a file, a time or a string *)
Inductive str_sets : W -> rv -> input -> bytes -> W -> gval -> Prop :=
| ss_enum : forall w g i s k e v, i_enum i = Some k -> nth_error (s_enums S) k = Some e -> enum_sets g e s v -> str_sets w g i s w v
| ss_id : forall w g i s v, i_enum i = None -> i_isid i = true -> id_sets g s v -> str_sets w g i s w v
| ss_file : forall w g i s w' v, i_enum i = None -> i_isid i = false -> i_isfile i = true -> file_sets w g s w' v -> str_sets w g i s w' v
| ss_time : forall w old i s t, i_enum i = None -> i_isid i = false -> i_isfile i = false -> i_istime i = true ->
    parse_iso s = Some t -> str_sets w (false, old) i s w (GTm t)
| ss_string : forall w old i s, i_enum i = None -> i_isid i = false -> i_isfile i = false -> i_istime i = false ->
    str_sets w (false, GString old) i s w (GString s).

Definition special (i : input) : Prop := i_enum i <> None \/ i_isid i = true \/ i_isfile i = true \/ i_istime i = true.
Inductive contents : input -> list (bytes * input) -> Prop :=
| ct_here : forall i, i_structptr i = false -> contents i (i_content i)
| ct_ref : forall i j, i_structptr i = true -> slookup (s_intypes S) (i_structname i) = Some j -> contents i (i_content j).

(** a JSON number for an integer type or a boolean *)
Inductive num_sets : rv -> bytes -> gval -> Prop :=
| ns_int : forall w old t z, int_value t = Some z -> int_range W64 z -> int_range w z -> num_sets (false, GInt w old) t (GInt w z)
| ns_uint : forall w old t z z', int_value t = Some z -> int_range W64 z -> (0 <= z)%Z -> ulow_bits w (Z.to_N z) z' ->
    num_sets (false, GUint w old) t (GUint w z')
| ns_bool : forall old t z, int_value t = Some z -> int_range W64 z -> num_sets (false, GBool old) t (GBool (0 <? z)%Z)
| ns_float : forall is64 old t, num_sets (false, GFloat is64 old) t (GFloat is64 (if is64 then x_json_float X t else x_to32 X (x_json_float X t))).

(** a JSON value: the new value, and whether the place was set *)
Inductive json_sets : W -> rv -> input -> fj -> W -> gval -> bool -> Prop :=
| js_ptr : forall w old i e j w' v, is_ptr i = true -> i_elem i = Some e -> json_sets w (false, i_zero e) e j w' v true ->
    json_sets w (false, old) i j w' (GPtr (Some v)) true
| js_ptr_unset : forall w g i e j w' v, is_ptr i = true -> i_elem i = Some e -> json_sets w (false, i_zero e) e j w' v false ->
    json_sets w g i j w' (snd g) false
| js_special : forall w g i s w' v, is_ptr i = false -> special i ->
    str_sets w g i s w' v -> json_sets w g i (FString s) w' v true
| js_null : forall w g i, is_ptr i = false -> ~ special i -> json_sets w g i FNull w (snd g) false
| js_string : forall w g i s w' v, is_ptr i = false -> ~ special i -> str_sets w g i s w' v -> json_sets w g i (FString s) w' v true
| js_true : forall w old i, is_ptr i = false -> ~ special i -> json_sets w (false, GBool old) i FTrue w (GBool true) true
| js_false : forall w old i, is_ptr i = false -> ~ special i -> json_sets w (false, GBool old) i FFalse w (GBool false) true
| js_num : forall w g i t v, is_ptr i = false -> ~ special i -> num_sets g t v -> json_sets w g i (FNumber t) w v true
| js_arr : forall w old i l e w' vs, is_ptr i = false -> ~ special i -> (l <> [] -> i_elem i = Some e) -> json_elems w e l w' vs ->
    json_sets w (false, GSlice old) i (FArray l) w' (GSlice (Some vs)) true
| js_obj : forall w ro v0 i m c w' v, is_ptr i = false -> ~ special i -> kind_of v0 = KStruct -> contents i c -> json_members w ro c v0 m w' v ->
    json_sets w (ro, v0) i (FObject m) w' v true
with json_elems : W -> input -> list fj -> W -> list gval -> Prop :=
| je_nil : forall w e, json_elems w e [] w []
| je_cons : forall w e j l w1 v b w2 vs, json_sets w (false, i_zero e) e j w1 v b -> json_elems w1 e l w2 vs ->
    json_elems w e (j :: l) w2 (v :: vs)
with json_members : W -> bool -> list (bytes * input) -> gval -> list (bytes * fj) -> W -> gval -> Prop :=
| jm_nil : forall w ro c v, json_members w ro c v [] w v
| jm_cons : forall w ro c fs k j m i e old w1 x b w2 v, slookup c k = Some i -> nth_error fs (i_field i) = Some (e, old) ->
    json_sets w (ro || negb e, old) i j w1 x b -> json_members w1 ro c (GStruct (with_field fs (i_field i) x)) m w2 v ->
    json_members w ro c (GStruct fs) ((k, j) :: m) w2 v.

(** an integer literal: exactly the number, if it is in range *)
Inductive int_sets : rv -> bytes -> gval -> Prop :=
| it_int : forall w old t z, signed_value t = Some z -> int_range w z -> int_sets (false, GInt w old) t (GInt w z)
| it_uint : forall w old t n, dec_value t = Some n -> uint_range w n -> int_sets (false, GUint w old) t (GUint w n)
| it_float : forall is64 old t z, signed_value t = Some z -> int_range W64 z ->
    int_sets (false, GFloat is64 old) t (GFloat is64 (if is64 then x_of_int X z else x_to32 X (x_of_int X z)))
| it_bool : forall old t z, signed_value t = Some z -> int_range W64 z -> int_sets (false, GBool old) t (GBool (0 <? z)%Z).

(** the variable in the JSON variables *)
Inductive jvar : bytes -> option fj -> Prop :=
| jv_none : forall n, rawvars = [] -> jvar n None
| jv_some : forall n m, rawvars <> [] -> x_parse X rawvars = inl (FObject m) -> jvar n (fj_get m n).
(** its declaration: the first with this name *)
Definition declared (n : bytes) : option oparg := match decls with Some l => find (fun a => beqb (oa_name a) n) l | None => None end.
(** the declared type fits the argument *)
Definition one_of (n : bytes) (l : list bytes) : Prop := In n l.
Inductive name_fits : input -> bytes -> Prop :=
| nf_enum : forall i k e n, i_enum i = Some k -> nth_error (s_enums S) k = Some e -> one_of n [en_name e; bs "String"] -> name_fits i n
| nf_id : forall i n, i_enum i = None -> i_isid i = true -> one_of n [bs "ID"; bs "String"] -> name_fits i n
| nf_file : forall i n, i_enum i = None -> i_isid i = false -> i_isfile i = true -> one_of n [bs "File"; bs "String"] -> name_fits i n
| nf_time : forall i n, i_enum i = None -> i_isid i = false -> i_isfile i = false -> i_istime i = true -> one_of n [bs "Time"; bs "String"] -> name_fits i n
| nf_kind : forall i n, ~ special i ->
    match i_kind i with
    | KBool => True
    | KInt _ | KUint _ => n = bs "Int"
    | KFloat _ => n = bs "Float"
    | KString => n = bs "String"
    | KArray | KSlice => n = bs "List"
    | KStruct => n = i_structname i
    | _ => False
    end -> name_fits i n.
Inductive type_fits : input -> tyref -> Prop :=
| tf_name : forall i n nn, name_fits i n -> type_fits i (TyName n nn)
| tf_list : forall i e t nn, i_kind i = KSlice -> i_elem i = Some e -> type_fits e t -> type_fits i (TyList t nn).

(** a literal or variable: the new value, and whether the place was set (an object literal counts as
    set if its last member is) *)
Inductive lit_sets : bool -> W -> rv -> input -> value -> W -> gval -> bool -> Prop :=
| ls_ptr_null : forall vo w g i e, is_ptr i = true -> i_elem i = Some e -> lit_sets vo w g i VNull w (snd g) false
| ls_ptr : forall vo w old i e x w' v, is_ptr i = true -> i_elem i = Some e -> x <> VNull -> lit_sets vo w (false, i_zero e) e x w' v true ->
    lit_sets vo w (false, old) i x w' (GPtr (Some v)) true
| ls_ptr_unset : forall vo w g i e x w' v, is_ptr i = true -> i_elem i = Some e -> x <> VNull -> lit_sets vo w (false, i_zero e) e x w' v false ->
    lit_sets vo w g i x w' (snd g) false
| ls_null : forall vo w g i, is_ptr i = false -> lit_sets vo w g i VNull w (snd g) false
| ls_int : forall vo w g i t v, is_ptr i = false -> int_sets g t v -> lit_sets vo w g i (VInt t) w v true
| ls_float : forall vo w is64 old i t b, is_ptr i = false -> x_parse_float X t = inl b ->
    lit_sets vo w (false, GFloat is64 old) i (VFloat t) w (GFloat is64 (if is64 then b else x_to32 X b)) true
| ls_str : forall vo w g i s w' v, is_ptr i = false -> str_sets w g i s w' v -> lit_sets vo w g i (VStr s) w' v true
| ls_bool : forall vo w old i b, is_ptr i = false -> lit_sets vo w (false, GBool old) i (VBool b) w (GBool b) true
| ls_enum : forall vo w g i n k e v, is_ptr i = false -> i_enum i = Some k -> nth_error (s_enums S) k = Some e -> enum_sets g e n v ->
    lit_sets vo w g i (VEnum n) w v true
| ls_list : forall vo w old i l e w' vs, is_ptr i = false -> (l <> [] -> i_elem i = Some e) -> lit_elems vo w e l w' vs ->
    lit_sets vo w (false, GSlice old) i (VList l) w' (GSlice (Some vs)) true
| ls_obj : forall vo w ro v0 i m c w' v b, is_ptr i = false -> kind_of v0 = KStruct -> contents i c -> lit_members vo w ro c v0 true m w' v b ->
    lit_sets vo w (ro, v0) i (VObj m) w' v b
| ls_var : forall w g i n a j w' v b, is_ptr i = false -> declared n = Some a -> type_fits i (oa_type a) -> jvar n (Some j) ->
    json_sets w g i j w' v b -> lit_sets true w g i (VVar n) w' v b
| ls_default : forall w g i n a d w' v b, is_ptr i = false -> declared n = Some a -> type_fits i (oa_type a) -> jvar n None ->
    oa_default a = Some d -> lit_sets false w g i d w' v b -> lit_sets true w g i (VVar n) w' v b
(* the elements of a list literal; lists in lists, and null in a list of pointers, are not covered *)
with lit_elems : bool -> W -> input -> list value -> W -> list gval -> Prop :=
| le_nil : forall vo w e, lit_elems vo w e [] w []
| le_cons : forall vo w e x l w1 v b w2 vs, is_list x = false -> (is_ptr e = true -> x <> VNull) ->
    lit_sets vo w (false, i_zero e) e x w1 v b -> lit_elems vo w1 e l w2 vs -> lit_elems vo w e (x :: l) w2 (v :: vs)
(* the members of an object literal one after the other; lists in objects are not covered *)
with lit_members : bool -> W -> bool -> list (bytes * input) -> gval -> bool -> list (bytes * value) -> W -> gval -> bool -> Prop :=
| lm_nil : forall vo w ro c v b, lit_members vo w ro c v b [] w v b
| lm_cons : forall vo w ro c fs b0 k x m i e old w1 y b w2 v b', slookup c k = Some i -> nth_error fs (i_field i) = Some (e, old) -> is_list x = false ->
    lit_sets vo w (ro || negb e, old) i x w1 y b -> lit_members vo w1 ro c (GStruct (with_field fs (i_field i) y)) b m w2 v b' ->
    lit_members vo w ro c (GStruct fs) b0 ((k, x) :: m) w2 v b'.

(** the arguments of a call: every written argument goes to its field of its argument struct *)
Inductive args_set (infs : list (bytes * (nat * input))) : W -> list gval -> list (bytes * value) -> W -> list gval -> Prop :=
| as_nil : forall w l, args_set infs w l [] w l
| as_cons : forall w l k x r n i fs e old w1 y b w2 l', slookup infs k = Some (n, i) -> nth_error l n = Some (GStruct fs) ->
    nth_error fs (i_field i) = Some (e, old) -> lit_sets true w (negb e, old) i x w1 y b ->
    args_set infs w1 (with_arg l n (GStruct (with_field fs (i_field i) y))) r w2 l' -> args_set infs w l ((k, x) :: r) w2 l'.
(** at the beginning: the context, and zero values *)
Definition fresh_args (ins : list (option gval)) : list gval := map (fun z => match z with None => GCtx | Some v => v end) ins.
Definition given (args : option (list (bytes * value))) : list (bytes * value) := match args with Some l => l | None => [] end.

(** ** Directives: is the selection left out? *)
Inductive dir_says (p : list pitem) (loc : N) : W -> directive -> W -> bool -> Prop :=
| ds_skip : forall w x ds d w' e b, nlookup (s_dirs S) loc = Some ds -> find (fun d => beqb (dd_name d) (d_name x)) ds = Some d ->
    (forall k l, ~ In (k, VList l) (given (d_args x))) -> dd_fn d = DSkip ->
    args_set (dd_infields d) w (fresh_args (dd_ins d)) (given (d_args x)) w' [GStruct [(e, GBool b)]] -> dir_says p loc w x w' b
| ds_include : forall w x ds d w' e b, nlookup (s_dirs S) loc = Some ds -> find (fun d => beqb (dd_name d) (d_name x)) ds = Some d ->
    (forall k l, ~ In (k, VList l) (given (d_args x))) -> dd_fn d = DInclude ->
    args_set (dd_infields d) w (fresh_args (dd_ins d)) (given (d_args x)) w' [GStruct [(e, GBool b)]] -> dir_says p loc w x w' (negb b)
| ds_user : forall w x ds d w1 args f w' b, nlookup (s_dirs S) loc = Some ds -> find (fun d => beqb (dd_name d) (d_name x)) ds = Some d ->
    (forall k l, ~ In (k, VList l) (given (d_args x))) -> dd_fn d = DUser f ->
    args_set (dd_infields d) w (fresh_args (dd_ins d)) (given (d_args x)) w1 args -> x_dir X w1 f args (path_text p) = Some (w', b) ->
    dir_says p loc w x w' b.
(** the directives are asked in order, up to the first that says so *)
Inductive dirs_say (p : list pitem) (loc : N) : W -> list directive -> W -> bool -> Prop :=
| dss_none : forall w, dirs_say p loc w [] w false
| dss_out : forall w x r w', dir_says p loc w x w' true -> dirs_say p loc w (x :: r) w' true
| dss_next : forall w x r w1 w' b, dir_says p loc w x w1 false -> dirs_say p loc w1 r w' b -> dirs_say p loc w (x :: r) w' b.

(** ** Output *)
Inductive plain_tree : kind -> gval -> rt -> Prop :=
| pt_string : forall s, plain_tree KString (GString s) (TStr s)
| pt_bool : forall b, plain_tree KBool (GBool b) (TBool b)
| pt_int : forall w w' z, plain_tree (KInt w) (GInt w' z) (TInt z)
| pt_uint : forall w w' n, plain_tree (KUint w) (GUint w' n) (TInt (Z.of_N n))
| pt_float : forall is64 is64' b, plain_tree (KFloat is64) (GFloat is64' b) (TFloat is64 b)
| pt_other : forall k v, match k with KString | KBool | KInt _ | KUint _ | KFloat _ => False | _ => True end -> plain_tree k v TNull.
Definition id_tree (isid : bool) (k : kind) (t : rt) : rt :=
  if isid then match k with KString => t | _ => TQuoted t end else t.
Inductive enum_eq : kind -> gval -> gval -> bool -> Prop :=
| ee_int : forall w a b c d, enum_eq (KInt w) (GInt a c) (GInt b d) (c =? d)%Z
| ee_uint : forall w a b c d, enum_eq (KUint w) (GUint a c) (GUint b d) (c =? d)
| ee_string : forall c d, enum_eq KString (GString c) (GString d) (beqb c d)
| ee_other : forall k v e, match k with KString | KInt _ | KUint _ => False | _ => True end -> enum_eq k v e false.
(** the first registered name with this value *)
Inductive enum_name : kind -> gval -> list (bytes * gval) -> rt -> Prop :=
| en_none : forall k v, enum_name k v [] TNull
| en_this : forall k v n e r, enum_eq k v e true -> enum_name k v ((n, e) :: r) (TName n)
| en_next : forall k v n e r t, enum_eq k v e false -> enum_name k v r t -> enum_name k v ((n, e) :: r) t.

(** where the value of a field is found *)
Inductive field_place : rv -> obj -> option gval -> nat -> rv -> Prop :=
| fp_custom : forall g fo v idx, field_place g fo (Some v) idx (false, v)
| fp_method : forall g a b c d e idx, field_place g (OMethod (Method true a b c d e)) None idx (fst g, GMethod (snd g) idx)
| fp_field : forall ro fs fo idx e v, match fo with OMethod (Method true _ _ _ _ _) => False | _ => True end -> nth_error fs idx = Some (e, v) ->
    field_place (ro, GStruct fs) fo None idx (ro || negb e, v).
Definition callable (istype : bool) (v : gval) : Prop :=
  match v with GFunc (Some _) => istype = false | GMethod _ _ => istype = true | _ => False end.
(** a list literal is the last argument of a field without sub-selection *)
Definition lists_last (args : list (bytes * value)) (subs : list sel) : Prop :=
  forall a k l b, args = a ++ (k, VList l) :: b -> b = [] /\ subs = [].
Definition takes_args (o : obj) : Prop := is_method (behind_ptr o) = true.
Definition fragment (n : bytes) : option (bytes * list sel) :=
  option_map (fun f => (snd (fst f), snd f)) (find (fun f => beqb (fst (fst f)) n) fdefs).
Definition response_key (alias : option bytes) (name : bytes) : bytes := match alias with Some a => a | None => name end.
Definition type_of (o : obj) : option obj :=
  match o with OObjRef n => slookup (s_types S) n | OIfaceRef n => slookup (s_ifaces S) n | _ => Some o end.

(** [sels p o d g k w ss ms w']: the selections [ss] on the value [g] of type [o], at the path [p],
    inside [d] objects and [k] values, give the members [ms] *)
Inductive sels : list pitem -> obj -> N -> rv -> N -> W -> list sel -> list (bytes * rt) -> W -> Prop :=
| s_nil : forall p o d g k w, sels p o d g k w [] [] w
| s_field : forall p o d g k w alias name ds args subs r ms1 w1 ms2 w2, field p o d g k w alias name ds args subs ms1 w1 ->
    sels p o d g k w1 r ms2 w2 -> sels p o d g k w (SField alias name ds args subs :: r) (ms1 ++ ms2) w2
| s_spread_out : forall p o d g k w n ds r w1 ms w2, dirs_say p 1 w ds w1 true ->
    sels p o d g k w1 r ms w2 -> sels p o d g k w (SSpread n ds :: r) ms w2
| s_spread_other : forall p o d g k w n ds r w1 tn ss ms w2, dirs_say p 1 w ds w1 false -> fragment n = Some (tn, ss) -> o_name o <> tn ->
    sels p o d g k w1 r ms w2 -> sels p o d g k w (SSpread n ds :: r) ms w2
| s_spread : forall p o d g k w n ds r w1 tn ss ms1 w2 ms2 w3, dirs_say p 1 w ds w1 false -> fragment n = Some (tn, ss) -> o_name o = tn ->
    sels p o d g k w1 ss ms1 w2 -> sels p o d g k w2 r ms2 w3 -> sels p o d g k w (SSpread n ds :: r) (ms1 ++ ms2) w3
| s_inline_out : forall p o d g k w tn ds ss r w1 ms w2, dirs_say p 2 w ds w1 true ->
    sels p o d g k w1 r ms w2 -> sels p o d g k w (SInline tn ds ss :: r) ms w2
| s_inline_other : forall p o d g k w tn ds ss r w1 ms w2, dirs_say p 2 w ds w1 false -> o_name o <> tn ->
    sels p o d g k w1 r ms w2 -> sels p o d g k w (SInline tn ds ss :: r) ms w2
| s_inline : forall p o d g k w tn ds ss r w1 ms1 w2 ms2 w3, dirs_say p 2 w ds w1 false -> o_name o = tn ->
    sels p o d g k w1 ss ms1 w2 -> sels p o d g k w2 r ms2 w3 -> sels p o d g k w (SInline tn ds ss :: r) (ms1 ++ ms2) w3
with field : list pitem -> obj -> N -> rv -> N -> W -> option bytes -> bytes -> list directive -> option (list (bytes * value)) -> list sel ->
             list (bytes * rt) -> W -> Prop :=
| f_out : forall p o d g k w alias name ds args subs w', dirs_say (p ++ [PKey (response_key alias name)]) 0 w ds w' true ->
    field p o d g k w alias name ds args subs [] w'
| f_typename : forall p o d g k w alias ds w', dirs_say (p ++ [PKey (response_key alias (bs "__typename"))]) 0 w ds w' false ->
    look o (bs "__typename") = None ->
    field p o d g k w alias (bs "__typename") ds None [] [(response_key alias (bs "__typename"), TName (o_name o))] w'
| f_value : forall p o d g k w alias name ds args subs w1 fo custom idx fn hd v t w2, dirs_say (p ++ [PKey (response_key alias name)]) 0 w ds w1 false ->
    look o name = Some (Field fo custom idx fn hd) -> field_place g fo custom idx v -> k < 255 ->
    value (p ++ [PKey (response_key alias name)]) fo d v (k + 1) w1 args subs t w2 ->
    field p o d g k w alias name ds args subs [(response_key alias name, t)] w2
(* [value p o d g k w args subs t w']: the value [g] of type [o] with these arguments and sub-selections *)
with value : list pitem -> obj -> N -> rv -> N -> W -> option (list (bytes * Ast.value)) -> list sel -> rt -> W -> Prop :=
| v_undef : forall p d g k w subs, value p OUndef d g k w None subs TNull w
| v_nil_slice : forall p e d ro k w subs, value p (OArray e) d (ro, GSlice None) k w None subs TNull w
| v_slice : forall p e d ro l k w subs ts w', k < 255 -> elems p e d ro 0 l (k + 1) w subs ts w' ->
    value p (OArray e) d (ro, GSlice (Some l)) k w None subs (TArr ts) w'
| v_array : forall p e d ro l k w subs ts w', k < 255 -> elems p e d ro 0 l (k + 1) w subs ts w' ->
    value p (OArray e) d (ro, GArray l) k w None subs (TArr ts) w'
| v_obj : forall p o d g k w subs t ms w', match o with OObj _ _ | OObjRef _ => True | _ => False end -> subs <> [] -> type_of o = Some t ->
    d + 1 <> s_maxdepth S -> sels p t (d + 1) g k w subs ms w' -> value p o d g k w None subs (TObj ms) w'
| v_no_type : forall p o d g k w subs, match o with OObjRef _ | OIfaceRef _ => True | _ => False end -> subs <> [] -> type_of o = None ->
    value p o d g k w None subs TNull w
| v_data : forall p isid kd d g k w t, plain_tree kd (snd g) t -> value p (OData isid kd) d g k w None [] (id_tree isid kd t) w
| v_nil_ptr : forall p e d ro k w args subs, (args <> None -> takes_args e) -> value p (OPtr e) d (ro, GPtr None) k w args subs TNull w
| v_ptr : forall p e d ro v k w args subs t w', (args <> None -> takes_args e) -> value p e d (ro, v) k w args subs t w' ->
    value p (OPtr e) d (ro, GPtr (Some v)) k w args subs t w'
| v_nil_func : forall p ins infs outnr errnr out d ro k w args subs,
    value p (OMethod (Method false ins infs outnr errnr out)) d (ro, GFunc None) k w args subs TNull w
| v_call : forall p istype ins infs outnr errnr out d f k w args subs w1 avs w2 outs v t w3,
    callable istype f -> lists_last (given args) subs ->
    args_set infs w (fresh_args ins) (given args) w1 avs ->
    x_call X w1 f avs (path_text p) = Some (w2, outs) ->
    match errnr with None => True | Some n => nth_error outs n = Some (GErr None) end -> x_ctxerr X w2 = None ->
    nth_error outs outnr = Some v -> value p out d (false, v) k w2 None subs t w3 ->
    value p (OMethod (Method istype ins infs outnr errnr out)) d (false, f) k w args subs t w3
| v_enum : forall p i d g k w subs e t, nth_error (s_enums S) i = Some e -> enum_name (en_kind e) (snd g) (en_entries e) t ->
    value p (OEnum i) d g k w None subs t w
| v_time : forall p d t k w subs, value p OTime d (false, GTm t) k w None subs (TTime t) w
| v_no_time : forall p d v k w subs, match v with GTm _ => False | _ => True end -> value p OTime d (false, v) k w None subs TNull w
| v_nil_iface : forall p o d ro k w subs t, match o with OIface _ _ _ | OIfaceRef _ => True | _ => False end -> subs <> [] -> type_of o = Some t ->
    value p o d (ro, GIface None) k w None subs TNull w
| v_iface : forall p o d ro tn pkg v k w subs n fs is impl t w', match o with OIface _ _ _ | OIfaceRef _ => True | _ => False end -> subs <> [] ->
    type_of o = Some (OIface n fs is) -> k < 255 -> find (fun i => beqb (fst (fst i)) tn && beqb (snd (fst i)) pkg) is = Some impl ->
    value p (snd impl) (d + 1) (ro, v) (k + 1) w None subs t w' -> value p o d (ro, GIface (Some (tn, pkg, v))) k w None subs t w'
| v_no_impl : forall p o d ro tn pkg v k w subs t, match o with OIface _ _ _ | OIfaceRef _ => True | _ => False end -> subs <> [] ->
    type_of o = Some t -> k < 255 ->
    find (fun i => beqb (fst (fst i)) tn && beqb (snd (fst i)) pkg) (match t with OIface _ _ is => is | _ => [] end) = None ->
    value p o d (ro, GIface (Some (tn, pkg, v))) k w None subs TNull w
with elems : list pitem -> obj -> N -> bool -> N -> list gval -> N -> W -> list sel -> list rt -> W -> Prop :=
| e_nil : forall p o d ro n k w subs, elems p o d ro n [] k w subs [] w
| e_cons : forall p o d ro n v r k w subs t w1 ts w2, value (p ++ [PIdx n]) o d (ro, v) k w None subs t w1 ->
    elems p o d ro (n + 1) r k w1 subs ts w2 -> elems p o d ro n (v :: r) k w subs (t :: ts) w2.
End Spec.

(** ** A whole operation *)
Definition root (S : schema) (kd : opkind) : obj * gval :=
  match kd with OpMutation => (s_method S, s_mvalue S) | _ => (s_query S, s_qvalue S) end.
Definition operation {W} (X : externals W) (S : schema) (rawvars : bytes) (look : obj -> bytes -> option Schema.field) (d : document) (op : definition)
  (w : W) (ms : list (bytes * rt)) (w' : W) : Prop :=
  match op with
  | DOp kd _ decls [] ss => kd <> OpSubscription /\
      sels X S rawvars decls (frag_defs d) look [] (fst (root S kd)) 0 (false, snd (root S kd)) 0 w ss ms w'
  | _ => False
  end.
