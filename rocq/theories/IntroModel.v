(** * Model of inject_schema.go (introspection) and copy_schema.go

    The functions of a qlType (Fields, InputFields, ...) are numbers of [GFunc]; calling one is [call_intro].  What introspection
    keeps between requests is [icache].  Descriptions of directives are left out. *)
From Coq Require Import String Arith NArith ZArith Bool List.
From Verif Require Import Base JsonModel Schema ResModel GoTypes ParseModel.
Import ListNotations.
Open Scope N_scope.

(** grahql_types.go 29-40 __TypeKind *)
Inductive tkind := TkScalar | TkObject | TkInterface | TkUnion | TkEnum | TkInput | TkList | TkNonNull.
Definition tkind_code (k : tkind) : N :=
  match k with TkScalar => 0 | TkObject => 1 | TkInterface => 2 | TkUnion => 3 | TkEnum => 4 | TkInput => 5 | TkList => 6 | TkNonNull => 7 end.
(** the functions that introspection gives to the resolver: inject_schema.go 44 (Types), 49-70 and 77-98 (fields of
    the query and the method), 334-355 and 392-413 (fields of an object, an interface), 384-391 (possible types),
    enums.go 141 (values of an enum), 234-248 (members of an input type) and 26-28 (__type).  An item is given by its position in
    the table it is in; [FNoInput] are the members of an input that only refers to a struct (parse.go 190: structContent is nil) *)
Inductive ifun := FTypes | FQuery | FMethod | FObjFields (i : nat) | FIfaceFields (i : nat) | FPossible (i : nat)
  | FEnumValues (i : nat) | FInput (i : nat) | FNoInput | FType.
(** a function and the schema it belongs to: the one that was parsed ([false]) or else the one that runs ([true]) *)
Definition clo : Type := bool * ifun.
(** numbers for functions; those of user code are even *)
Definition fun_tag (f : ifun) : N * nat :=
  match f with
  | FTypes => (0, 0%nat) | FQuery => (1, 0%nat) | FMethod => (2, 0%nat) | FObjFields i => (3, i) | FIfaceFields i => (4, i)
  | FPossible i => (5, i) | FEnumValues i => (6, i) | FInput i => (7, i) | FNoInput => (8, 0%nat) | FType => (9, 0%nat)
  end.
Definition clo_code (c : clo) : N :=
  let '(t, i) := fun_tag (snd c) in 1 + 2 * ((if fst c then 1 else 0) + 2 * (t + 16 * N.of_nat i)).
Definition clo_of (n : N) : option clo :=
  if N.even n then None
  else
    let m := n / 2 in
    let i := N.to_nat (m / 2 / 16) in
    match (m / 2) mod 16 with
    | 0 => Some (N.odd m, FTypes) | 1 => Some (N.odd m, FQuery) | 2 => Some (N.odd m, FMethod) | 3 => Some (N.odd m, FObjFields i)
    | 4 => Some (N.odd m, FIfaceFields i) | 5 => Some (N.odd m, FPossible i) | 6 => Some (N.odd m, FEnumValues i) | 7 => Some (N.odd m, FInput i)
    | 8 => Some (N.odd m, FNoInput) | 9 => Some (N.odd m, FType) | _ => None
    end.

(** grahql_types.go 79-109 qlType without the fields for tests *)
Inductive qlt := Qlt (kind : tkind) (name descr : option bytes) (fields : option clo) (ifaces : option (list qlt))
  (possible enumvalues infields : option clo) (oftype : option qlt) (url : option bytes).
(** grahql_types.go 133-138 qlInputValue, 113-120 qlField, 186-192 qlDirective: the parts that are not constant *)
Record qlinput := QInput { qi_name : bytes; qi_type : qlt }.
Record qlfield := QField { qf_name : bytes; qf_args : list qlinput; qf_type : qlt }.
Record qldir := QDir { qd_name : bytes; qd_descr : option bytes; qd_locs : list N; qd_args : list qlinput }.

(** the Go values: structs with their fields in the order of grahql_types.go *)
Definition g_fields (l : list gval) : gval := GStruct (map (fun v => (true, v)) l).
Definition g_str (s : option bytes) : gval := GPtr (match s with Some s => Some (GString s) | None => None end).
Definition g_fun (c : option clo) : gval := GFunc (match c with Some c => Some (clo_code c) | None => None end).
Fixpoint g_type (q : qlt) : gval :=
  match q with
  | Qlt k n d fs is ps es ins o u =>
      g_fields [GUint W8 (tkind_code k); g_str n; g_str d; g_fun fs;
        GSlice (match is with Some l => Some (map g_type l) | None => None end); g_fun ps; g_fun es; g_fun ins;
        GPtr (match o with Some t => Some (g_type t) | None => None end); g_str u; GString []; GSlice None; GSlice None]
  end.
Definition g_input (i : qlinput) : gval := g_fields [GString (qi_name i); g_str (Some []); g_type (qi_type i); g_str None].
Definition g_field (f : qlfield) : gval :=
  g_fields [GString (qf_name f); g_str None; GSlice (Some (map g_input (qf_args f))); g_type (qf_type f); GBool false; g_str None].
(** 124-129 qlEnumValue as enums.go 123-128 makes it *)
Definition g_enumvalue (n : bytes) : gval := g_fields [GString n; g_str (Some []); GBool false; g_str None].
Definition g_dir (d : qldir) : gval :=
  g_fields [GString (qd_name d); g_str (qd_descr d); GSlice (Some (map (GUint W8) (qd_locs d))); GSlice None; GSlice (Some (map g_input (qd_args d)))].

(** grahql_types.go 194-242: the scalars *)
Definition scalar (n : string) (d : bytes) (u : option bytes) : qlt := Qlt TkScalar (Some (bs n)) (Some d) None None None None None None u.
Definition hy : bytes := [226; 128; 144].
Definition ql_boolean := scalar "Boolean" (bs "The `Boolean` scalar type represents `true` or `false`.") None.
Definition ql_int := scalar "Int" (bs "The Int scalar type represents a signed 32" ++ hy ++ bs "bit numeric non" ++ hy ++ bs "fractional value.") None.
Definition ql_float := scalar "Float" (bs "The Float scalar type represents signed double" ++ hy ++ bs "precision fractional values as specified by IEEE 754.") None.
Definition ql_string := scalar "String" (bs "The `String` scalar type represents textual data, represented as UTF-8 character sequences. The String type is most often used by GraphQL to represent free-form human-readable text.") None.
Definition ql_id := scalar "ID" (bs "The ID scalar type represents a unique identifier, often used to refetch an object or as the key for a cache") None.
Definition ql_file := scalar "File" (bs "The File scalar type references to a multipart file, often used to upload files to the server. Expects a string with the form file field name")
  (Some (bs "https://github.com/mjarkk/yarql#file-upload")).
Definition ql_time := scalar "Time" (bs "The Time scalar type references to a ISO 8601 date+time, often used to insert and/or view dates. Expects a string with the ISO 8601 format")
  (Some (bs "https://en.wikipedia.org/wiki/ISO_8601")).
Definition scalars : list qlt := [ql_boolean; ql_int; ql_float; ql_string; ql_id; ql_file; ql_time].

(** Go string order and Go library sort.Slice by name (the order of equal names is not determined in Go) *)
Fixpoint bleb (a b : bytes) : bool :=
  match a, b with
  | [], _ => true
  | _, [] => false
  | x :: a, y :: b => if x <? y then true else if y <? x then false else bleb a b
  end.
Fixpoint insert {A} (key : A -> bytes) (x : A) (l : list A) : list A :=
  match l with [] => [x] | y :: r => if bleb (key x) (key y) then x :: l else y :: insert key x r end.
Definition sort_by {A} (key : A -> bytes) (l : list A) : list A := fold_right (insert key) [] l.
(** the first panic ends a loop *)
Fixpoint all_some {A} (l : list (option A)) : option (list A) :=
  match l with
  | [] => Some []
  | Some a :: r => match all_some r with Some l => Some (a :: l) | None => None end
  | None :: r => None
  end.
Definition q_name (q : qlt) : option bytes := match q with Qlt _ n _ _ _ _ _ _ _ _ => n end.
Definition name_or (q : qlt) : bytes := match q_name q with Some n => n | None => [] end.

(** the tables of a schema, with the description of its enums (enums.go 140; a copy has none, copy_schema.go 135-138)
    and the side its functions are on *)
Record ischema := IS { is_p : pschema; is_enums : list enum; is_edesc : option bytes; is_self : bool }.

Section Intro.
Variable I : ischema.
Notation s := (p_st (is_p I)).
(* model only, no code: a function of this schema *)
Definition mine (f : ifun) : option clo := Some (is_self I, f).

(** inject_schema.go 202-210 *)
Definition non_null (t : qlt * bool) : qlt :=
  if snd t then Qlt TkNonNull None None None None None None None (Some (fst t)) None else fst t.

(** inject_schema.go 212-283 inputToQLType; isEnum is not looked at.  [f] is the function for the members of this input. *)
Fixpoint input_type (f : ifun) (i : input) : qlt * bool :=
  match i with
  | Input k _ isid isfile istime _ elem _ sname _ _ =>
      if isid then (ql_id, true)
      else if istime then (ql_time, true)
      else if isfile then (ql_file, false)
      else
        match k with
        | KStruct => (Qlt TkInput (Some sname) (Some []) None None None None (mine f) None None, true)
        | KArray | KSlice =>
            (Qlt TkList None None None None None None None
               (match elem with Some e => Some (non_null (input_type FNoInput e)) | None => None end) None, false)
        | KPtr => (match elem with Some e => fst (input_type FNoInput e) | None => ql_boolean end, false)
        | KBool => (ql_boolean, true)
        | KInt _ | KUint _ => (ql_int, true)
        | KFloat _ => (ql_float, true)
        | KString => (ql_string, true)
        | _ => (Qlt TkScalar (Some []) (Some []) None None None None None None None, true)
        end
  end.
(** inject_schema.go 292-304 getMethodArgs and 285-290 getObjectArgs *)
Definition method_args_ql (infields : list (bytes * (nat * input))) : list qlinput :=
  sort_by qi_name (map (fun e => QInput (fst e) (non_null (input_type FNoInput (snd (snd e))))) infields).
Definition object_args (o : pobj) : list qlinput :=
  match o with
  | PMethod k => match nth_error (ps_methods s) k with Some m => method_args_ql (pm_infields m) | None => [] end
  | _ => []
  end.

(** the position of a key in a table *)
(* model only, no code: for the tables *)
Fixpoint sindex {A} (l : list (bytes * A)) (k : bytes) (i : nat) : option (nat * A) :=
  match l with [] => None | (k', v) :: r => if beqb k k' then Some (i, v) else sindex r k (Datatypes.S i) end.

(** inject_schema.go 375-415: an interface *)
Definition iface_type (i : nat) (t : ptype) : qlt :=
  Qlt TkInterface (Some (pt_name t)) (Some []) (mine (FIfaceFields i)) (Some []) (mine (FPossible i)) None None None None.
Definition iface_ref (n : bytes) : option qlt := match sindex (ps_ifaces s) n 0 with Some (i, t) => Some (iface_type i t) | None => None end.
(** inject_schema.go 320-358: an object; what it implements are references to interfaces (interfaces.go 19-73) *)
Definition obj_type (i : nat) (t : ptype) : option qlt :=
  match all_some (map (fun o => match o with PIRef n _ _ => iface_ref n | _ => None end) (pt_impls t)) with
  | Some is => Some (Qlt TkObject (Some (pt_name t)) (Some []) (mine (FObjFields i)) (Some is) None None None None None)
  | None => None
  end.
(** inject_schema.go 421-447 resolveObjToScalar *)
Definition data_type (isid : bool) (k : kind) : qlt :=
  if isid then ql_id
  else match k with
       | KBool => ql_boolean
       | KInt _ | KUint _ => ql_int
       | KFloat _ => ql_float
       | KString => ql_string
       | _ => Qlt TkScalar (Some []) (Some []) None None None None None None None
       end.
(** enums.go 136-142 with inject_schema.go 359-362 *)
Definition enum_type (i : nat) (e : enum) : qlt :=
  Qlt TkEnum (Some (en_name e)) (is_edesc I) None None None (mine (FEnumValues i)) None None None.
(** inject_schema.go 306-419 objToQLType; [None] is a nil dereference *)
Fixpoint type_of (o : pobj) : option (qlt * bool) :=
  match o with
  | PArray e =>
      match type_of e with
      | Some t => Some (Qlt TkList None None None None None None None (Some (non_null t)) None, false)
      | None => None
      end
  | PRef n _ _ =>
      match sindex (ps_types s) n 0 with
      | Some (i, t) => match obj_type i t with Some q => Some (q, true) | None => None end
      | None => None
      end
  | PEnum i => match nth_error (is_enums I) i with Some e => Some (enum_type i e, true) | None => None end
  | PPtr e => match type_of e with Some t => Some (fst t, false) | None => None end
  | PMethod _ => None
  | PIRef n _ _ => match iface_ref n with Some q => Some (q, false) | None => None end
  | PData isid k => Some (data_type isid k, true)
  | PTime => Some (ql_time, true)
  end.
(** with the case 367-372 of a method *)
Definition member_type (o : pobj) : option (qlt * bool) :=
  match o with
  | PMethod k =>
      match nth_error (ps_methods s) k with
      | Some m => match type_of (pm_out m) with Some t => Some (fst t, if pm_istype m then snd t else false) | None => None end
      | None => None
      end
  | _ => type_of o
  end.
(** inject_schema.go 55-67, 83-95, 340-352 and 398-410: one field, and all that are not hidden *)
Definition field_ql (f : pfield) : option qlfield :=
  match member_type (pf_obj f) with
  | Some t => Some (QField (pf_name f) (object_args (pf_obj f)) (non_null t))
  | None => None
  end.
Definition fields_ql (fs : list (N * pfield)) : option (list qlfield) :=
  match all_some (map (fun f => field_ql (snd f)) fs) with Some l => Some (sort_by qf_name l) | None => None end.
Definition shown (fs : list (N * pfield)) : list (N * pfield) := filter (fun f => negb (pf_hidden (snd f))) fs.

(** a table with positions *)
(* model only, no code: for the tables *)
Fixpoint indexed {A B} (f : nat -> A -> B) (i : nat) (l : list A) : list B :=
  match l with [] => [] | x :: r => f i x :: indexed f (Datatypes.S i) r end.
(** inject_schema.go 149-180: all types, sorted by name *)
Definition all_types : option (list qlt) :=
  match all_some (indexed (fun i t => obj_type i (snd t)) 0 (ps_types s)) with
  | Some ts => Some (sort_by name_or (ts
      ++ indexed (fun i x => fst (input_type (FInput i) (snd x))) 0 (ps_intypes s)
      ++ indexed enum_type 0 (is_enums I) ++ scalars
      ++ indexed (fun i t => iface_type i (snd t)) 0 (ps_ifaces s)))
  | None => None
  end.

(** ** What is kept in the schema: parse.go 62-64 *)
Record icache := IC { ic_map : option (list (bytes * qlt)); ic_list : option (list qlt); ic_fields : list (bytes * list qlfield) }.
Definition no_cache : icache := IC None None [].
(** inject_schema.go 145-183 getAllQLTypes *)
Definition get_all (c : icache) : option (icache * list qlt) :=
  match ic_list c with
  | Some l => Some (c, l)
  | None => match all_types with Some l => Some (IC (ic_map c) (Some l) (ic_fields c), l) | None => None end
  end.
(** inject_schema.go 185-200 getTypeByName: a later type of the same name replaces an earlier one *)
Definition type_map (l : list qlt) : list (bytes * qlt) := fold_left (fun m t => sset m (name_or t) t) l [].
Definition get_type (c : icache) (n : bytes) : option (icache * option qlt) :=
  match ic_map c with
  | Some m => Some (c, slookup m n)
  | None =>
      match get_all c with
      | Some (c, l) => let m := type_map l in Some (IC (Some m) (ic_list c) (ic_fields c), slookup m n)
      | None => None
      end
  end.
(** the fields of something: those kept under [key], or else they are made and kept under [key'] *)
Definition get_fields (c : icache) (key key' : bytes) (fs : list (N * pfield)) : option (icache * list qlfield) :=
  match slookup (ic_fields c) key with
  | Some l => Some (c, l)
  | None => match fields_ql fs with
            | Some l => Some (IC (ic_map c) (ic_list c) (sset (ic_fields c) key' l), l)
            | None => None
            end
  end.
Definition list_of (fs : option (icache * list qlfield)) : option (icache * gval) :=
  match fs with Some (c, l) => Some (c, GSlice (Some (map g_field l))) | None => None end.
(** the call of a function; its arguments matter for __type only *)
Definition call_intro (c : icache) (f : ifun) (args : list gval) : option (icache * gval) :=
  match f with
  | FTypes => match get_all c with Some (c, l) => Some (c, GSlice (Some (map g_type l))) | None => None end
  | FQuery =>
      match slookup (ps_types s) (p_query (is_p I)) with
      | Some t => list_of (get_fields c (pt_name t) (pt_name t) (shown (pt_fields t)))
      | None => None
      end
  | FMethod =>
      (* line 97 keeps the fields under the name of the query *)
      match slookup (ps_types s) (p_method (is_p I)), slookup (ps_types s) (p_query (is_p I)) with
      | Some t, Some q => list_of (get_fields c (pt_name t) (pt_name q) (shown (pt_fields t)))
      | _, _ => None
      end
  | FObjFields i =>
      match nth_error (ps_types s) i with
      | Some (_, t) => list_of (get_fields c (pt_name t) (pt_name t) (shown (pt_fields t)))
      | None => None
      end
  | FIfaceFields i =>
      (* line 400 asks whether the interface is hidden, which it never is *)
      match nth_error (ps_ifaces s) i with
      | Some (_, t) => list_of (get_fields c (pt_name t) (pt_name t) (pt_fields t))
      | None => None
      end
  | FPossible i =>
      match nth_error (ps_ifaces s) i with
      | Some (_, t) =>
          match all_some (map type_of (pt_impls t)) with
          | Some l => Some (c, GSlice (Some (map (fun q => g_type (fst q)) l)))
          | None => None
          end
      | None => None
      end
  | FEnumValues i =>
      match nth_error (is_enums I) i with
      | Some e => Some (c, GSlice (Some (map g_enumvalue (sort_by (fun n => n) (map fst (en_entries e))))))
      | None => None
      end
  | FInput i =>
      match nth_error (ps_intypes s) i with
      | Some (_, j) => Some (c, GSlice (Some (map g_input (sort_by qi_name
            (map (fun m => QInput (fst m) (non_null (input_type FNoInput (snd m)))) (i_content j))))))
      | None => None
      end
  | FNoInput => Some (c, GSlice (Some []))
  | FType =>
      match args with
      | [GCtx; GStruct [(_, GString n)]] =>
          match get_type c n with
          | Some (c, t) => Some (c, GPtr (match t with Some q => Some (g_type q) | None => None end))
          | None => None
          end
      | _ => None
      end
  end.
End Intro.

(** ** The value of __schema *)
(** directives.go 36-47 ToQlDirectiveLocation *)
Definition ql_location (l : N) : N := match l with 1 => 5 | 2 => 6 | _ => 3 end.
(** inject_schema.go 115-118: the locations of a directive *)
Definition dir_locs (d : pdir) : list N := map ql_location (pd_where d).
(** helpers/pointers.go 4-9 CheckStrPtr *)
Definition check_str_ptr (v : bytes) : option bytes := match v with [] => None | _ => Some v end.
(** inject_schema.go 120-130: whether two lists of locations have one in common *)
Definition shares (a b : list N) : bool := existsb (fun x => existsb (N.eqb x) b) a.
(** inject_schema.go 109-143 getDirectives.  It runs before checkFunctionIns fills inFields (parse.go 326 and 339-350), so
    that there are no arguments.  Go walks over a map of the locations; here they come in the order of [g_dirlocs], which is any.
    sort.Slice may change the order of directives with one name. *)
Definition directives_ql (P : program) : list qldir :=
  sort_by qd_name (fold_left (fun res i =>
    match nth_error (g_dirs P) i with
    | Some d =>
        if existsb (fun e => beqb (qd_name e) (pd_name d) && shares (dir_locs d) (qd_locs e)) res then res
        else res ++ [QDir (pd_name d) (check_str_ptr (pd_descr d)) (dir_locs d) []]
    | None => res
    end) (flat_map snd (g_dirlocs P)) []).
(** inject_schema.go 41-107 getQLSchema; 18-19 and 26-28: its functions belong to the schema that is parsed, the function of
    __type to the one that runs.  [qn] and [mn] are the names of the query and the method. *)
Definition root_type (n : bytes) (f : ifun) : qlt := Qlt TkObject (Some n) (Some []) (Some (false, f)) (Some []) None None None None None.
Definition schema_value (P : program) (qn mn : bytes) : gval :=
  g_fields [g_fun (Some (false, FTypes)); GSlice None; GPtr (Some (g_type (root_type qn FQuery))); GPtr (Some (g_type (root_type mn FMethod)));
            GPtr None; GSlice (Some (map g_dir (directives_ql P)))].
Definition type_function : gval := g_fun (Some (true, FType)).

(** ** copy_schema.go *)
(** 13-59 Copy and 169-206 obj.copy: [hidden] is not copied, everything else is.  Inputs, methods, directives and enums are copied
    whole (87-119, 208-290), except for the description of enums (135-138), which only introspection shows. *)
Definition copy_field (f : pfield) : pfield := PField (pf_obj f) (pf_idx f) (pf_name f) false (pf_custom f).
Definition copy_type (t : ptype) : ptype :=
  PType (pt_name t) (pt_goname t) (pt_pkg t) (map (fun f => (fst f, copy_field (snd f))) (pt_fields t)) (pt_impls t).
Definition copy_types (l : list (bytes * ptype)) : list (bytes * ptype) := map (fun e => (fst e, copy_type (snd e))) l.
Definition copy_schema (p : pschema) : pschema :=
  let s := p_st p in
  PSchema (PSt (copy_types (ps_types s)) (copy_types (ps_ifaces s)) (ps_intypes s) (ps_unk s) (ps_unkin s) (ps_methods s)) (p_query p) (p_method p) (p_dirs p).

(** ** Requests to a schema and to its copies
    The caches are numbered: 0 is the schema that was parsed, the others are copies. *)
(* the caches of each schema *)
Definition heap := nat -> icache.
(* model only, no code: writing one of them *)
Definition put (h : heap) (i : nat) (c : icache) : heap := fun j => if Nat.eqb j i then c else h j.
(** the schema as parsed, and a copy of it *)
(* parse.go 294-357 *)
Definition original (P : program) (p : pschema) : ischema := IS p (g_enums P) (Some []) false.
(* copy_schema.go 13-59 *)
Definition itself (P : program) (p : pschema) (me : nat) : ischema :=
  match me with O => original P p | Datatypes.S _ => IS (copy_schema p) (g_enums P) None true end.
(** user code together with introspection, as schema [me] calls them; [may] can forbid some calls *)
(* resolver.go 623-653 callQlMethod: the call *)
Definition intro_call {W} (P : program) (p : pschema) (me : nat) (may : clo -> bool)
  (X : externals W) (w : heap * W) (f : gval) (args : list gval) (path : bytes) : option ((heap * W) * list gval) :=
  match (match f with GFunc (Some n) => clo_of n | _ => None end) with
  | Some (self, i) =>
      if may (self, i) then
        match call_intro (if self then itself P p me else original P p) (fst w (if self then me else O)) i args with
        | Some (c, v) => Some ((put (fst w) (if self : bool then me else O) c, snd w), [v])
        | None => None
        end
      else None
  | None => match x_call X (snd w) f args path with Some (w', r) => Some ((fst w, w'), r) | None => None end
  end.
(* model only, no code: the same as externals of ResModel.v *)
Definition intro_env {W} (P : program) (p : pschema) (me : nat) (may : clo -> bool) (X : externals W) : externals (heap * W) :=
  Ext (heap * W) (intro_call P p me may X)
    (fun w f a pa => match x_dir X (snd w) f a pa with Some (w', b) => Some ((fst w, w'), b) | None => None end)
    (fun w => x_ctxerr X (snd w))
    (match x_formfile X with Some g => Some (fun w n => ((fst w, fst (g (snd w) n)), snd (g (snd w) n))) | None => None end)
    (x_parse X) (x_parse_float X) (x_json_float X) (x_json_int_err X) (x_of_int X) (x_to32 X) (x_float_json X) (x_gostring X).
(* model only, no code: no call is forbidden *)
Definition any_call (c : clo) : bool := true.
