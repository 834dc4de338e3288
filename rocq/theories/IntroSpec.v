(** * What introspection should say about a Go program

    The GraphQL types of Go types, fields and arguments, without saying how inject_schema.go finds them. *)
From Coq Require Import String Arith NArith ZArith Bool List Sorted Permutation.
From Verif Require Import Base JsonModel NameModel Schema GoTypes ParseModel SchemaSpec IntroModel.
Import ListNotations.
Open Scope nat_scope.

(** a type as the GraphQL language writes it *)
Inductive tref := Named (n : bytes) | ListOf (t : tref) | NonNull (t : tref).
Definition nullable (t : tref) : tref := match t with NonNull t => t | _ => t end.
(** the type that a value of the GraphQL type __Type stands for *)
Fixpoint ref_of (q : qlt) : tref :=
  match q with
  | Qlt TkNonNull _ _ _ _ _ _ _ (Some o) _ => NonNull (ref_of o)
  | Qlt TkList _ _ _ _ _ _ _ (Some o) _ => ListOf (ref_of o)
  | Qlt _ (Some n) _ _ _ _ _ _ _ _ => Named n
  | _ => Named []
  end.
(** the GraphQL scalar for a Go kind *)
Definition scalar_of (isid : bool) (k : kind) : bytes :=
  if isid then bs "ID"
  else match k with KBool => bs "Boolean" | KInt _ | KUint _ => bs "Int" | KFloat _ => bs "Float" | _ => bs "String" end.

Section Spec.
Variable P : program.
Notation decls := (g_decls P).
(** the Go types behind the names of types, interfaces and input types, as in SchemaSpec.v *)
Variable own iown inown : bytes -> option gtype.

(** the GraphQL type of the values of a Go type, with or without ID mark: only pointers, lists and interfaces can be null *)
Inductive go_ref : gtype -> bool -> tref -> Prop :=
| GRTime t h : is_time decls t = true -> go_ref t h (NonNull (Named (bs "Time")))
| GRStruct t n : is_time decls t = false -> t_kind decls t = KStruct -> own n = Some t -> go_ref t false (NonNull (Named n))
| GRIface t n : is_time decls t = false -> t_kind decls t = KInterface -> iown n = Some t -> go_ref t false (Named n)
| GRList t e h r : is_time decls t = false -> t_kind decls t = KSlice \/ t_kind decls t = KArray -> t_elem decls t = Some e ->
    go_ref e false r -> go_ref t h (ListOf r)
| GRPtr t e h r : is_time decls t = false -> t_kind decls t = KPtr -> t_elem decls t = Some e -> go_ref e h r -> go_ref t h (nullable r)
| GREnum t h i : is_time decls t = false -> enum_like P t -> enum_at P (t_name decls t) i -> go_ref t h (NonNull (Named (t_name decls t)))
| GRData t h : is_time decls t = false -> basic (t_kind decls t) -> (enum_like P t -> forall i, ~ enum_at P (t_name decls t) i) ->
    go_ref t h (NonNull (Named (scalar_of h (t_kind decls t)))).
(** the GraphQL type of a member; the result of a function in a field can be null *)
Definition member_ref (m : member) (r : tref) : Prop :=
  match m with
  | MField _ ft isid =>
      if match t_kind decls ft with KFunc => true | _ => false end then
        exists i t r0, only_at (data_result P) (fun_outs (under decls ft)) i t /\
          go_ref t (isid || existsb (is_attr_id decls) (fun_outs (under decls ft))) r0 /\ r = nullable r0
      else go_ref ft isid r
  | MMethod _ ft => exists i t, only_at (data_result P) (fun_outs ft) i t /\ go_ref t (existsb (is_attr_id decls) (fun_outs ft)) r
  end.

(** the GraphQL type of an argument; [enums]: whether the types of enums have their names *)
Inductive in_ref (enums : bool) : gtype -> bool -> tref -> Prop :=
| NRFile t e h : t_kind decls t = KPtr -> t_elem decls t = Some e -> is_file_header decls e = true -> in_ref enums t h (Named (bs "File"))
| NRPtr t e h r : t_kind decls t = KPtr -> t_elem decls t = Some e -> is_file_header decls e = false -> in_ref enums e h r -> in_ref enums t h (nullable r)
| NRList t e h r : t_kind decls t = KSlice \/ t_kind decls t = KArray -> t_elem decls t = Some e -> in_ref enums e false r -> in_ref enums t h (ListOf r)
| NRTime t h : t_kind decls t = KStruct -> is_time decls t = true -> in_ref enums t h (NonNull (Named (bs "Time")))
| NRStruct t h n : t_kind decls t = KStruct -> is_time decls t = false -> inown n = Some t -> in_ref enums t h (NonNull (Named n))
| NREnum t h i : basic (t_kind decls t) -> enum_like P t -> enum_at P (t_name decls t) i ->
    in_ref enums t h (NonNull (Named (if enums then t_name decls t else scalar_of false (t_kind decls t))))
| NRData t h : basic (t_kind decls t) -> (enum_like P t -> forall i, ~ enum_at P (t_name decls t) i) ->
    in_ref enums t h (NonNull (Named (scalar_of h (t_kind decls t)))).

(** ** Lists *)
Definition by_name {A} (name : A -> bytes) (l : list A) : Prop := StronglySorted (fun a b => bleb (name a) (name b) = true) l.
(** [l] shows the arguments [ms]: sorted by name, none twice, each with its type *)
Definition shows_inputs (enums : bool) (ms : list (bytes * (gtype * bool))) (l : list qlinput) : Prop :=
  by_name qi_name l /\ NoDup (map qi_name l) /\
  (forall n, In n (map fst ms) <-> In n (map qi_name l)) /\
  forall a, In a l -> exists t h, In (qi_name a, (t, h)) ms /\ in_ref enums t h (ref_of (qi_type a)).
(** the members of argument structs *)
Definition members_of (t : gtype) : list (bytes * (gtype * bool)) := map (fun m => match m with (n, (_, t, h)) => (n, (t, h)) end) (input_members P t).
(** the arguments of a function: the members of its arguments that are structs and not the context *)
Definition args_of (ins : list gtype) : list (bytes * (gtype * bool)) :=
  flat_map (fun t => match t_kind decls t with KStruct => members_of t | _ => [] end) ins.
(** the Go arguments of a member, without receiver *)
Definition member_ins (m : member) : list gtype :=
  match m with
  | MField _ ft _ => if match t_kind decls ft with KFunc => true | _ => false end then fun_ins_of (under decls ft) else []
  | MMethod _ ft => fun_ins_of ft
  end.
(** [l] shows the members [ms]: sorted by name, each once, with its type and its arguments; [ins] are the arguments of a member *)
Definition shows_fields (enums : bool) (ins : member -> list gtype) (ms : list (bytes * member)) (l : list qlfield) : Prop :=
  by_name qf_name l /\ Permutation (map qf_name l) (map fst ms) /\
  forall f, In f l -> exists m, In (qf_name f, m) ms /\ member_ref m (ref_of (qf_type f)) /\ shows_inputs enums (args_of (ins m)) (qf_args f).
End Spec.

(** ** Everything a client can ask for
    [c] is what introspection has kept from earlier requests, [ins] gives the arguments of the members of interfaces. *)
Definition answers (I : ischema) (c : icache) (f : ifun) (args : list gval) (v : gval) : Prop := exists c', call_intro I c f args = Some (c', v).
(** the arguments of the function behind __type *)
Definition name_arg (n : bytes) : list gval := [GCtx; GStruct [(true, GString n)]].
(** [l] are the types of [ts], in that order *)
Definition shows_types (names : bytes -> option gtype) (ts : list gtype) (l : list qlt) : Prop :=
  Forall2 (fun t q => exists n, names n = Some t /\ ref_of q = Named n) ts l.
(** the names of the members of a type, and of the two fields that are added to the query, have different hashes *)
Definition keys_apart (P : program) (t : gtype) : Prop := NoDup (map fnv1 (map fst (exposed P t) ++ [bs "__schema"; bs "__type"])).
Definition scalar_names : list bytes := [bs "Boolean"; bs "Int"; bs "Float"; bs "String"; bs "ID"; bs "File"; bs "Time"].
Record described (P : program) (own iown inown : bytes -> option gtype) (qt mt : gtype) (enums : bool) (ins : member -> list gtype) (I : ischema) (c : icache) : Prop := {
  (** __type of a struct: an object with the interfaces it implements and its members *)
  ds_struct n t : own n = Some t -> keys_apart P t ->
    exists f is l, answers I c FType (name_arg n) (GPtr (Some (g_type (Qlt TkObject (Some n) (Some []) (Some (false, f)) (Some is) None None None None None)))) /\
      shows_types iown (interfaces_of P t) is /\
      shows_fields P own iown inown enums (member_ins P) (exposed P t) l /\ forall args, answers I c f args (GSlice (Some (map g_field l)));
  (** __type of an interface: an interface with its members and the structs that implement it *)
  ds_iface n t : iown n = Some t -> keys_apart P t ->
    exists f g l ts, answers I c FType (name_arg n) (GPtr (Some (g_type (Qlt TkInterface (Some n) (Some []) (Some (false, f)) (Some []) (Some (false, g)) None None None None)))) /\
      shows_fields P own iown inown enums ins (exposed P t) l /\ (forall args, answers I c f args (GSlice (Some (map g_field l)))) /\
      shows_types own (implementations_of P t) ts /\ forall args, answers I c g args (GSlice (Some (map g_type ts)));
  (** __type of an argument struct: an input object with its members *)
  ds_input n t : inown n = Some t ->
    exists f l, answers I c FType (name_arg n) (GPtr (Some (g_type (Qlt TkInput (Some n) (Some []) None None None None (Some (false, f)) None None)))) /\
      shows_inputs P inown enums (members_of P t) l /\ forall args, answers I c f args (GSlice (Some (map g_input l)));
  (** __type of an enum: its values, sorted *)
  ds_enum e : In e (g_enums P) ->
    exists f l, answers I c FType (name_arg (en_name e)) (GPtr (Some (g_type (Qlt TkEnum (Some (en_name e)) (Some []) None None None (Some (false, f)) None None None)))) /\
      by_name (fun n => n) l /\ Permutation l (map fst (en_entries e)) /\ forall args, answers I c f args (GSlice (Some (map g_enumvalue l)));
  (** all types: sorted, each once *)
  ds_all : exists l, (forall args, answers I c FTypes args (GSlice (Some (map g_type l)))) /\ by_name name_or l /\ NoDup (map q_name l) /\
    forall n, In n (map q_name l) <-> exists m, n = Some m /\ (own m <> None \/ iown m <> None \/ inown m <> None \/ In m (map en_name (g_enums P)) \/ In m scalar_names);
  (** nothing has another name *)
  ds_none n : own n = None -> iown n = None -> inown n = None -> ~ In n (map en_name (g_enums P)) -> ~ In n scalar_names ->
    answers I c FType (name_arg n) (GPtr None);
  (** the fields of queryType and mutationType *)
  ds_query : keys_apart P qt -> exists l, shows_fields P own iown inown enums (member_ins P) (exposed P qt) l /\ forall args, answers I c FQuery args (GSlice (Some (map g_field l)));
  ds_method : keys_apart P mt -> exists l, shows_fields P own iown inown enums (member_ins P) (exposed P mt) l /\ forall args, answers I c FMethod args (GSlice (Some (map g_field l))) }.
(** no two types of a schema have the same name *)
Definition all_apart (P : program) (p : pschema) : Prop :=
  NoDup (map fst (ps_types (p_st p)) ++ map fst (ps_intypes (p_st p)) ++ map en_name (g_enums P) ++ scalar_names ++ map fst (ps_ifaces (p_st p))).
(** a method of an interface without its first argument *)
Definition args_after_first (P : program) (m : member) : list gtype := match m with MMethod _ ft => tl (fun_ins_of ft) | _ => member_ins P m end.
(** time.Time is no interface and is not registered as implementation of one *)
Definition time_apart (P : program) : Prop :=
  (forall t, is_time (g_decls P) t = true -> t_kind (g_decls P) t <> KInterface) /\
  forall n ts t, In (n, ts) (g_implemented P) -> In t ts -> is_time (g_decls P) t = false.
