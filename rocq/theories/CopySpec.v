(** * Specification vocabulary: what a schema contains, and which cells it has.  Nothing here models code of /repo. *)
From Coq Require Import String NArith ZArith Bool List.
From Verif Require Import Base CopyModel.
Import ListNotations.
Open Scope N_scope.

(** ** Content: the record with all addresses replaced by 0.  A nil slice or map and an empty one have the same content. *)
Definition on_cell {A} (f : A -> A) (c : cell A) : cell A := match c with None => None | Some (_, x) => Some (0, f x) end.
Definition on_snd {K A} (f : A -> A) (kv : K * A) : K * A := (fst kv, f (snd kv)).
Definition on_items {A} (f : A -> A) (c : cell (list A)) : cell (list A) := match c with None => None | Some (_, []) => None | Some (_, l) => Some (0, map f l) end.
Fixpoint in_content (m : rin) : rin :=
  RIn (i_kind m) (i_isEnum m) (i_enumTypeIndex m) (i_isID m) (i_isFile m) (i_isTime m) (i_goFieldIdx m) (i_gqFieldName m)
    (on_cell in_content (i_elem m)) (i_isStructPointers m) (i_structName m) (on_cell (map (on_snd in_content)) (i_structContent m)).
Definition base_content (b : rbase) : rbase := RBase (b_isCtx b) (on_cell (fun x => x) (b_goType b)).
Definition method_content {O} (f : O -> O) (m : rmethod O) : rmethod O :=
  RMethod (m_isTypeMethod m) (m_goFunctionName m) (m_goType m) (on_cell (map base_content) (m_ins m)) (on_cell (map (on_snd (on_snd in_content))) (m_inFields m))
    (m_checkedIns m) (m_outNr m) (f (m_outType m)) (on_cell (fun x => x) (m_errorOutNr m)).
(** [hid] says what becomes of the mark that a field is hidden *)
Fixpoint obj_content (hid : bool -> bool) (o : robj) : robj :=
  RObj (o_valueType o) (o_typeName o) (on_cell (fun x => x) (o_typeNameBytes o)) (o_goTypeName o) (o_goPkgPath o) (on_cell (fun x => x) (o_qlFieldName o))
    (hid (o_hidden o)) (o_isID o) (on_cell (map (on_snd (on_cell (obj_content hid)))) (o_objContents o)) (on_cell (fun x => x) (o_customObjValue o)) (o_structFieldIdx o)
    (on_cell (obj_content hid) (o_innerContent o)) (o_dataValueType o) (on_cell (method_content (obj_content hid)) (o_method o)) (o_enumTypeIndex o)
    (on_items (on_cell (obj_content hid)) (o_implementations o)).
(** [desc] says what becomes of descriptions (and of the URL of a scalar) *)
Fixpoint ql_content (desc : cell bytes -> cell bytes) (q : rql) : rql :=
  RQl (q_kind q) (on_cell (fun x => x) (q_name q)) (desc (q_description q)) (q_fields q) (on_cell (map (ql_content desc)) (q_interfaces q)) (q_possibleTypes q)
    (q_enumValues q) (q_inputFields q) (on_cell (ql_content desc) (q_ofType q)) (desc (q_specifiedByURL q)).
Definition entry_content (e : rentry) : rentry := REntry (on_cell (fun x => x) (en_keyBytes e)) (en_key e) (en_value e).
Definition enum_content desc (e : renum) : renum := REnum (e_contentType e) (e_contentKind e) (e_typeName e) (on_items entry_content (e_entries e)) (ql_content desc (e_qlType e)).
Definition dir_content hid (d : rdir) : rdir :=
  RDir (d_name d) (on_cell (fun x => x) (d_where d)) (d_method d) (d_methodReflection d) (on_cell (method_content (obj_content hid)) (d_parsedMethod d)) (d_description d).
(** everything of a schema but the state of requests: context, result and caches *)
Definition schema_content hid desc (s : rschema) : rschema :=
  RSchema (s_parsed s) (on_items (on_snd (on_cell (obj_content hid))) (s_types s)) (on_items (on_snd (on_cell in_content)) (s_inTypes s))
    (on_items (on_snd (on_cell (obj_content hid))) (s_interfaces s)) (on_cell (obj_content hid) (s_rootQuery s)) (s_rootQueryValue s)
    (on_cell (obj_content hid) (s_rootMethod s)) (s_rootMethodValue s) (s_maxDepth s) (on_items (enum_content desc) (s_definedEnums s))
    (on_items (on_snd (on_items (on_cell (dir_content hid)))) (s_definedDirectives s)) None None None None None.

(** ** Cells: [*_cells] are those that hold data of the schema, [*_shared] the others: arrays of the bytes of names, the places of a
    directive, the Go values of introspection *)
Definition cell_cells {A} (f : A -> list N) (c : cell A) : list N := match c with None => [] | Some (a, x) => a :: f x end.
Definition none {A} : A -> list N := fun _ => [].
Definition of_snd {K A} (f : A -> list N) (kv : K * A) : list N := f (snd kv).
Definition inside {A} (f : A -> list N) (c : cell A) : list N := match c with None => [] | Some (_, x) => f x end.
Fixpoint in_cells (m : rin) : list N := cell_cells (flat_map (of_snd in_cells)) (i_structContent m) ++ cell_cells in_cells (i_elem m).
Definition base_cells (b : rbase) : list N := cell_cells none (b_goType b).
Definition method_cells {O} (f : O -> list N) (m : rmethod O) : list N :=
  f (m_outType m) ++ cell_cells none (m_errorOutNr m) ++ cell_cells (flat_map base_cells) (m_ins m) ++ cell_cells (flat_map (of_snd (of_snd in_cells))) (m_inFields m).
Fixpoint obj_cells (o : robj) : list N :=
  cell_cells obj_cells (o_innerContent o) ++ cell_cells (method_cells obj_cells) (o_method o) ++
  cell_cells (flat_map (of_snd (cell_cells obj_cells))) (o_objContents o) ++ cell_cells (flat_map (cell_cells obj_cells)) (o_implementations o).
Fixpoint obj_shared (o : robj) : list N :=
  cell_cells none (o_typeNameBytes o) ++ cell_cells none (o_qlFieldName o) ++ cell_cells none (o_customObjValue o) ++
  inside obj_shared (o_innerContent o) ++ inside (fun m => obj_shared (m_outType m)) (o_method o) ++
  inside (flat_map (of_snd (inside obj_shared))) (o_objContents o) ++ inside (flat_map (inside obj_shared)) (o_implementations o).
Fixpoint ql_cells (q : rql) : list N :=
  cell_cells none (q_name q) ++ cell_cells none (q_description q) ++ cell_cells (flat_map ql_cells) (q_interfaces q) ++ cell_cells ql_cells (q_ofType q) ++ cell_cells none (q_specifiedByURL q).
Definition enum_cells (e : renum) : list N := ql_cells (e_qlType e) ++ cell_cells none (e_entries e).
Definition enum_shared (e : renum) : list N := inside (flat_map (fun x => cell_cells none (en_keyBytes x))) (e_entries e).
Definition dir_cells (d : rdir) : list N := cell_cells (method_cells obj_cells) (d_parsedMethod d).
Definition dir_shared (d : rdir) : list N := cell_cells none (d_where d) ++ inside (fun m => obj_shared (m_outType m)) (d_parsedMethod d).
Definition opt (a : option N) : list N := match a with None => [] | Some x => [x] end.
(** without the tracer *)
Definition ctx_cells (c : rctx) : list N := [c_query c; c_path c; c_variablesJSONParser c; c_funcInputs c] ++ opt (c_context c) ++ opt (c_variables c) ++ opt (c_values c).
Definition schema_cells (s : rschema) : list N :=
  cell_cells (flat_map (of_snd (cell_cells obj_cells))) (s_types s) ++ cell_cells (flat_map (of_snd (cell_cells obj_cells))) (s_interfaces s) ++
  cell_cells (flat_map enum_cells) (s_definedEnums s) ++ cell_cells (flat_map (of_snd (cell_cells (flat_map (cell_cells dir_cells))))) (s_definedDirectives s) ++
  cell_cells (flat_map (of_snd (cell_cells in_cells))) (s_inTypes s) ++ cell_cells obj_cells (s_rootQuery s) ++ cell_cells obj_cells (s_rootMethod s) ++
  cell_cells none (s_result s) ++ opt (s_graphqlObjFields s) ++ cell_cells ctx_cells (s_ctx s) ++ opt (s_graphqlTypesMap s) ++ opt (s_graphqlTypesList s).
Definition schema_shared (s : rschema) : list N :=
  inside (flat_map (of_snd (inside obj_shared))) (s_types s) ++ inside (flat_map (of_snd (inside obj_shared))) (s_interfaces s) ++
  inside (flat_map enum_shared) (s_definedEnums s) ++ inside (flat_map (of_snd (inside (flat_map (inside dir_shared))))) (s_definedDirectives s) ++
  inside obj_shared (s_rootQuery s) ++ inside obj_shared (s_rootMethod s).
Definition tracer_of (s : rschema) : option N := match s_ctx s with None => None | Some (_, c) => Some (c_tracing c) end.
(** new cells between two addresses, no two of them the same *)
Definition fresh (n n' : N) (l : list N) : Prop := Forall (fun a => n <= a < n') l /\ NoDup l.
(** a type with a description has a name, and so have the types it refers to *)
Fixpoint ql_named (q : rql) : bool :=
  match q_description q, q_name q with Some _, None => false | _, _ => true end &&
  match q_interfaces q with None => true | Some (_, l) => forallb ql_named l end &&
  match q_ofType q with None => true | Some (_, x) => ql_named x end.
