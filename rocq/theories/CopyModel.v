(** * Model of copy_schema.go, record by record

    Every pointer, map and slice is a cell with an address.  A value of type [option (addr * A)] is a pointer, map or slice:
    nil, or the address of its cell and what is in it.  Copying takes the next free address and returns the next one after it.
    Simplifications: a Go string has no address (its bytes cannot be changed); reflect.Type, reflect.Value and functions are
    numbers; the entries of a map are a list, in the order in which the copy iterates over them.  Pointers that are never nil after
    parsing (the objects in the tables, the roots, the context) are copied as nil if they are nil, where the code would panic. *)
From Coq Require Import String NArith ZArith Bool List.
From Verif Require Import Base.
Import ListNotations.
Open Scope N_scope.

Notation addr := N (only parsing).
(* Go pointers, slices and maps with the address they have; [None] is nil *)
Definition cell (A : Type) := option (addr * A).
(** copying something, from the first free address on *)
(* model only, no code: the shape of the functions of copy_schema.go *)
Definition copier (A : Type) := A -> N -> A * N.
(** a new cell with what the copier makes of the old content *)
(* the allocations of copy_schema.go *)
Definition copy_cell {A} (f : copier A) : copier (cell A) := fun c n =>
  match c with None => (None, n) | Some (_, x) => let (y, n') := f x (n + 1) in (Some (n, y), n') end.
(* the loops over slices and maps of copy_schema.go *)
Definition copy_list {A} (f : copier A) : copier (list A) :=
  fix go l n := match l with [] => ([], n) | x :: r => let (y, n1) := f x n in let (r', n2) := go r n1 in (y :: r', n2) end.
(* one entry of a map in copy_schema.go *)
Definition copy_value {K A} (f : copier A) : copier (K * A) := fun kv n => let (y, n') := f (snd kv) n in ((fst kv, y), n').
(* a field that copy_schema.go assigns as it is *)
Definition keep {A} : copier A := fun x n => (x, n).

(** ** Records *)
(** parse.go 174-196 input *)
Inductive rin := RIn {
  i_kind : N; i_isEnum : bool; i_enumTypeIndex : Z; i_isID : bool; i_isFile : bool; i_isTime : bool;
  i_goFieldIdx : Z; i_gqFieldName : bytes; i_elem : cell rin; i_isStructPointers : bool; i_structName : bytes;
  i_structContent : cell (list (bytes * rin)) }.
(** parse.go 198-201 baseInput: a pointer to a reflect.Type *)
Record rbase := RBase { b_isCtx : bool; b_goType : cell N }.
(** parse.go 150-165 objMethod and 169-172 referToInput; [O] is the type of objects *)
Record rmethod (O : Type) := RMethod {
  m_isTypeMethod : bool; m_goFunctionName : bytes; m_goType : N; m_ins : cell (list rbase);
  m_inFields : cell (list (bytes * (Z * rin))); m_checkedIns : bool; m_outNr : Z; m_outType : O; m_errorOutNr : cell Z }.
Arguments RMethod {O}. Arguments m_isTypeMethod {O}. Arguments m_goFunctionName {O}. Arguments m_goType {O}. Arguments m_ins {O}.
Arguments m_inFields {O}. Arguments m_checkedIns {O}. Arguments m_outNr {O}. Arguments m_outType {O}. Arguments m_errorOutNr {O}.
(** parse.go 85-119 obj; customObjValue is a pointer to a reflect.Value *)
Inductive robj := RObj {
  o_valueType : N; o_typeName : bytes; o_typeNameBytes : cell bytes; o_goTypeName : bytes; o_goPkgPath : bytes; o_qlFieldName : cell bytes;
  o_hidden : bool; o_isID : bool; o_objContents : cell (list (N * cell robj)); o_customObjValue : cell N; o_structFieldIdx : Z;
  o_innerContent : cell robj; o_dataValueType : N; o_method : cell (rmethod robj); o_enumTypeIndex : Z; o_implementations : cell (list (cell robj)) }.
(** grahql_types.go 80-110 qlType, without the fields for tests (their names begin with JSON); functions are numbers *)
Inductive rql := RQl {
  q_kind : N; q_name : cell bytes; q_description : cell bytes; q_fields : option N; q_interfaces : cell (list rql); q_possibleTypes : option N;
  q_enumValues : option N; q_inputFields : option N; q_ofType : cell rql; q_specifiedByURL : cell bytes }.
(** enums.go 12-24 enum and enumEntry *)
Record rentry := REntry { en_keyBytes : cell bytes; en_key : bytes; en_value : N }.
Record renum := REnum { e_contentType : N; e_contentKind : N; e_typeName : bytes; e_entries : cell (list rentry); e_qlType : rql }.
(** directives.go 49-60 Directive *)
Record rdir := RDir { d_name : bytes; d_where : cell (list N); d_method : N; d_methodReflection : N; d_parsedMethod : cell (rmethod robj); d_description : bytes }.
(** resolver.go 21-48 Ctx.  Simplification: what bytecode.ParserCtx, fastjson.Parser and tracer refer to counts as one cell each *)
Record rctx := RCtx {
  c_query : addr; c_charNr : Z; c_context : option addr; c_path : addr; c_getFormFile : option N; c_operatorHasArguments : bool; c_operatorArgumentsStartAt : Z;
  c_tracingEnabled : bool; c_tracing : addr; c_prefRecordingStartTime : N; c_rawVariables : bytes; c_variablesParsed : bool; c_variablesJSONParser : addr;
  c_variables : option addr; c_currentReflectValueIdx : N; c_funcInputs : addr; c_values : option addr }.
(** parse.go 43-66 Schema; the caches of introspection are a cell each *)
Record rschema := RSchema {
  s_parsed : bool; s_types : cell (list (bytes * cell robj)); s_inTypes : cell (list (bytes * cell rin)); s_interfaces : cell (list (bytes * cell robj));
  s_rootQuery : cell robj; s_rootQueryValue : N; s_rootMethod : cell robj; s_rootMethodValue : N; s_maxDepth : N;
  s_definedEnums : cell (list renum); s_definedDirectives : cell (list (N * cell (list (cell rdir)))); s_ctx : cell rctx;
  s_result : cell bytes; s_graphqlTypesMap : option addr; s_graphqlTypesList : option addr; s_graphqlObjFields : option addr }.

(** ** Copies *)
(** copy_schema.go 248-277: input.copy; the map takes its cell first, then the pointer *)
Fixpoint copy_in (m : rin) (n : N) : rin * N :=
  let (structContent, n) := copy_cell (copy_list (copy_value copy_in)) (i_structContent m) n in
  let (elem, n) := copy_cell copy_in (i_elem m) n in
  (RIn (i_kind m) (i_isEnum m) (i_enumTypeIndex m) (i_isID m) (i_isFile m) (i_isTime m) (i_goFieldIdx m) (i_gqFieldName m) elem
     (i_isStructPointers m) (i_structName m) structContent, n).
(** 279-291: baseInput.copy *)
Definition copy_base (m : rbase) (n : N) : rbase * N :=
  let (goType, n) := copy_cell keep (b_goType m) n in (RBase (b_isCtx m) goType, n).
(** 208-246: objMethod.copy and referToInput.copy *)
Definition copy_method {O} (copy : copier O) (m : rmethod O) (n : N) : rmethod O * N :=
  let (outType, n) := copy (m_outType m) n in
  let (errorOutNr, n) := copy_cell keep (m_errorOutNr m) n in
  let (ins, n) := copy_cell (copy_list copy_base) (m_ins m) n in
  let (inFields, n) := copy_cell (copy_list (copy_value (copy_value copy_in))) (m_inFields m) n in
  (RMethod (m_isTypeMethod m) (m_goFunctionName m) (m_goType m) ins inFields (m_checkedIns m) (m_outNr m) outType errorOutNr, n).
(** append of copies to a nil slice, 199-203: nil if there is nothing to append *)
Definition copy_appended {A} (f : copier A) : copier (cell (list A)) := fun c n =>
  match c with None | Some (_, []) => (None, n) | Some (_, l) => let (l', n') := copy_list f l (n + 1) in (Some (n, l'), n') end.
(** 169-206: obj.copy; the byte slices and customObjValue are those of the original; [hidden] is left out *)
Fixpoint copy_obj (o : robj) (n : N) : robj * N :=
  let (innerContent, n) := copy_cell copy_obj (o_innerContent o) n in
  let (method, n) := copy_cell (copy_method copy_obj) (o_method o) n in
  let (objContents, n) := copy_cell (copy_list (copy_value (copy_cell copy_obj))) (o_objContents o) n in
  let (implementations, n) := copy_appended (copy_cell copy_obj) (o_implementations o) n in
  (RObj (o_valueType o) (o_typeName o) (o_typeNameBytes o) (o_goTypeName o) (o_goPkgPath o) (o_qlFieldName o) false (o_isID o) objContents
     (o_customObjValue o) (o_structFieldIdx o) innerContent (o_dataValueType o) method (o_enumTypeIndex o) implementations, n).
(** 121-149: qlType.copy; [None] is the panic of dereferencing a nil name *)
Definition copy_opt_list {A} (f : A -> N -> option (A * N)) : list A -> N -> option (list A * N) :=
  fix go l n := match l with [] => Some ([], n) | x :: r => match f x n with None => None | Some (y, n1) => match go r n1 with None => None | Some (r', n2) => Some (y :: r', n2) end end end.
Fixpoint copy_ql (m : rql) (n : N) : option (rql * N) :=
  let (name, n) := copy_cell keep (q_name m) n in
  match (match q_description m, q_name m with
         | None, _ => Some (name, n)
         | Some _, Some (_, s) => Some (Some (n, s), n + 1)
         | Some _, None => None
         end) with
  | None => None
  | Some (name, n) =>
      match (match q_interfaces m with
             | None => Some (None, n)
             | Some (_, l) => match copy_opt_list copy_ql l (n + 1) with None => None | Some (l', n') => Some (Some (n, l'), n') end
             end) with
      | None => None
      | Some (interfaces, n) =>
          match (match q_ofType m with
                 | None => Some (None, n)
                 | Some (_, x) => match copy_ql x (n + 1) with None => None | Some (y, n') => Some (Some (n, y), n') end
                 end) with
          | None => None
          | Some (ofType, n) => Some (RQl (q_kind m) name None (q_fields m) interfaces (q_possibleTypes m) (q_enumValues m) (q_inputFields m) ofType None, n)
          end
      end
  end.
(** 102-119: enum.copy; entries is an empty slice first and never nil *)
Definition copy_entries (c : cell (list rentry)) (n : N) : cell (list rentry) * N :=
  (Some (n, match c with None => [] | Some (_, l) => map (fun e => REntry (en_keyBytes e) (en_key e) (en_value e)) l end), n + 1).
Definition copy_enum (m : renum) (n : N) : option (renum * N) :=
  match copy_ql (e_qlType m) n with
  | None => None
  | Some (q, n) => let (entries, n) := copy_entries (e_entries m) n in Some (REnum (e_contentType m) (e_contentKind m) (e_typeName m) entries q, n)
  end.
(** 87-100: Directive.copy *)
Definition copy_dir (m : rdir) (n : N) : rdir * N :=
  let (parsedMethod, n) := copy_cell (copy_method copy_obj) (d_parsedMethod m) n in
  (RDir (d_name m) (d_where m) (d_method m) (d_methodReflection m) parsedMethod (d_description m), n).
(** 61-85: Ctx.copy *)
Definition copy_ctx (c : rctx) (n : N) : rctx * N :=
  (RCtx n (c_charNr c) None (n + 1) (c_getFormFile c) (c_operatorHasArguments c) (c_operatorArgumentsStartAt c)
     (c_tracingEnabled c) (c_tracing c) (c_prefRecordingStartTime c) (c_rawVariables c) false (n + 2) None 0 (n + 3) None, n + 4).
(** a map of copies is made anew also for a nil map: 32 directives, 151-167 the types and inputs *)
Definition copy_map {K A} (f : copier A) : copier (cell (list (K * A))) := fun c n =>
  let (l, n') := copy_list (copy_value f) (match c with None => [] | Some (_, l) => l end) (n + 1) in (Some (n, l), n').
(** make with the length of another slice, 24 and 33 *)
Definition copy_made {A} (f : copier A) : copier (cell (list A)) := fun c n =>
  let (l, n') := copy_list f (match c with None => [] | Some (_, l) => l end) (n + 1) in (Some (n, l), n').
(** 13-59: Copy; [None] is a panic *)
Definition copy_schema_record (s : rschema) (n : N) : option (rschema * N) :=
  if negb (s_parsed s) then None
  else
    let (types, n) := copy_map (copy_cell copy_obj) (s_types s) n in
    let (interfaces, n) := copy_map (copy_cell copy_obj) (s_interfaces s) n in
    match copy_opt_list copy_enum (match s_definedEnums s with None => [] | Some (_, l) => l end) (n + 1) with
    | None => None
    | Some (enums, n') =>
        let enums := Some (n, enums) in
        let (directives, n) := copy_map (copy_made (copy_cell copy_dir)) (s_definedDirectives s) n' in
        let (inTypes, n) := copy_map (copy_cell copy_in) (s_inTypes s) n in
        let (rootQuery, n) := copy_cell copy_obj (s_rootQuery s) n in
        let (rootMethod, n) := copy_cell copy_obj (s_rootMethod s) n in
        let result := Some (n, match s_result s with None => [] | Some (_, l) => repeat 0 (length l) end) in
        let objFields := Some (n + 1) in
        let (ctx, n) := copy_cell copy_ctx (s_ctx s) (n + 2) in
        Some (RSchema true types inTypes interfaces rootQuery (s_rootQueryValue s) rootMethod (s_rootMethodValue s) (s_maxDepth s) enums directives ctx
                result None None objFields, n)
    end.
