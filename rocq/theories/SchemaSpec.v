(** * What the schema of a Go program should be

    Read together with ParseModel.v, whose results (pobj, pfield, ptype, pmethod) this file relates to Go types.
    Nothing here says how parse.go works. *)
From Coq Require Import String Arith NArith ZArith Bool List.
From Verif Require Import Base JsonModel NameModel Schema GoTypes ParseModel.
Import ListNotations.
Open Scope nat_scope.

(** a member of a Go type that becomes a field of the GraphQL type: a struct field (with its position, type and whether it
    is tagged as ID) or a method *)
Inductive member := MField (idx : nat) (t : gtype) (isid : bool) | MMethod (idx : nat) (f : gtype).

Section Spec.
Variable P : program.
Notation decls := (g_decls P).

(** ** Members *)
(** the name and the member a struct field gives: none if it is embedded or tagged with a minus sign; the names are
    the subject of C35 *)
Definition field_member (i : nat) (f : gfield) : list (bytes * member) :=
  match f with
  | GField name anon _ tag t =>
      if anon then []
      else match parse_tag tag with
           | TagOk cname isid => [(match cname with Some n => n | None => format_go_name name end, MField i t isid)]
           | _ => []
           end
  end.
(** the name and the member a method gives, see C36 *)
Definition method_member (i : nat) (m : bytes * gtype) : list (bytes * member) :=
  match expose_method (fst m) with MExposed n => [(n, MMethod i (snd m))] | _ => [] end.
Fixpoint numbered {A B} (f : nat -> A -> list B) (i : nat) (l : list A) : list B :=
  match l with [] => [] | x :: r => f i x ++ numbered f (S i) r end.
Definition exposed (t : gtype) : list (bytes * member) :=
  numbered field_member 0 (t_fields decls t) ++ numbered method_member 0 (t_methods decls t).

(** ** Results of functions *)
Definition error_result (t : gtype) : Prop := is_attr_id decls t = false /\ t_kind decls t = KInterface /\ is_error decls t = true.
Definition data_result (t : gtype) : Prop := is_attr_id decls t = false /\ ~ (t_kind decls t = KInterface /\ is_error decls t = true).
(** [l] has exactly one element with property [Q], at position [i] *)
Definition only_at {A} (Q : A -> Prop) (l : list A) (i : nat) (a : A) : Prop :=
  nth_error l i = Some a /\ Q a /\ forall j b, nth_error l j = Some b -> Q b -> j = i.

(** ** Types *)
Definition enum_at (n : bytes) (i : nat) : Prop :=
  (exists e, nth_error (g_enums P) i = Some e /\ en_name e = n) /\
  forall j e, j < i -> nth_error (g_enums P) j = Some e -> en_name e <> n.
(** types whose values can be members of an enum *)
Definition enum_like (t : gtype) : Prop :=
  t_pkg decls t <> [] /\ t_name decls t <> [] /\ match t_kind decls t with KInt _ | KUint _ | KString => True | _ => False end.
Definition basic (k : kind) : Prop :=
  match k with KBool | KInt _ | KUint _ | KFloat _ | KString => True | _ => False end.
(** kinds a value with an ID mark can have *)
Definition id_able (k : kind) : Prop := match k with KInt _ | KUint _ | KString => True | _ => False end.

(** the Go types behind the names of the schema's types and interfaces *)
Variable own iown : bytes -> option gtype.
(** [type_reads t isid o]: [o] is the schema's view of the values of type [t], with or without ID mark *)
Inductive type_reads : gtype -> bool -> pobj -> Prop :=
| TRTime t h : is_time decls t = true -> type_reads t h PTime
| TRStruct t n : is_time decls t = false -> t_kind decls t = KStruct -> own n = Some t ->
    (t_name decls t <> [] -> n = rename P (t_name decls t)) -> type_reads t false (PRef n (t_name decls t) (t_pkg decls t))
| TRIface t n : is_time decls t = false -> t_kind decls t = KInterface -> iown n = Some t -> n = rename P (t_name decls t) ->
    type_reads t false (PIRef n (t_name decls t) (t_pkg decls t))
| TRList t e h o : is_time decls t = false -> t_kind decls t = KSlice \/ t_kind decls t = KArray -> t_elem decls t = Some e ->
    type_reads e false o -> type_reads t h (PArray o)
| TRPtr t e h o : is_time decls t = false -> t_kind decls t = KPtr -> t_elem decls t = Some e ->
    type_reads e h o -> type_reads t h (PPtr o)
| TREnum t h i : is_time decls t = false -> enum_like t -> enum_at (t_name decls t) i -> type_reads t h (PEnum i)
| TRData t h : is_time decls t = false -> basic (t_kind decls t) -> (enum_like t -> forall i, ~ enum_at (t_name decls t) i) ->
    (h = true -> id_able (t_kind decls t)) -> type_reads t h (PData h (t_kind decls t)).

(** a function with the given arguments and results, not yet looking at how the arguments are read *)
Record fun_reads (istype : bool) (ins outs : list gtype) (isid : bool) (m : pmethod) : Prop := {
  fr_istype : pm_istype m = istype;
  fr_ins : pm_type m = ins;
  fr_out : exists t, only_at data_result outs (pm_outnr m) t /\
             type_reads t (isid || existsb (is_attr_id decls) outs) (pm_out m);
  fr_err : match pm_errnr m with
           | Some j => exists t, only_at error_result outs j t
           | None => forall t, In t outs -> ~ error_result t
           end }.
Definition fun_outs (f : gtype) : list gtype := match f with TFunc _ outs _ => outs | _ => [] end.
Definition fun_ins_of (f : gtype) : list gtype := match f with TFunc ins _ _ => ins | _ => [] end.

(** the functions of the schema *)
Variable ms : list pmethod.
(** [member_reads t m f]: the field [f] is the schema's view of the member [m] of the type [t] *)
Definition member_reads (t : gtype) (m : bytes * member) (f : pfield) : Prop :=
  pf_name f = fst m /\ pf_hidden f = false /\ pf_custom f = None /\
  match snd m with
  | MField i ft isid =>
      pf_idx f = i /\
      if match t_kind decls ft with KFunc => true | _ => false end then
        exists k fn, pf_obj f = PMethod k /\ nth_error ms k = Some fn /\
                     fun_reads false (fun_ins_of (under decls ft)) (fun_outs (under decls ft)) isid fn
      else type_reads ft isid (pf_obj f)
  | MMethod i ft =>
      pf_idx f = i /\
      exists k fn, pf_obj f = PMethod k /\ nth_error ms k = Some fn /\
                   fun_reads true (method_ins decls t ft) (fun_outs ft) false fn
  end.
(** [fields] are the fields in [l], found by the hashes of their names; of two with the same hash the last one counts *)
Definition keyed_by_name (l : list pfield) (fields : list (N * pfield)) : Prop :=
  NoDup (map fst fields) /\
  forall k, nlookup fields k = find (fun f => (fnv1 (pf_name f) =? k)%N) (rev l).
(** the fields of the schema's type for [t]: one for each member, and some additional ones *)
Definition describes (t : gtype) (extra : list pfield) (fields : list (N * pfield)) : Prop :=
  exists l, Forall2 (member_reads t) (exposed t) l /\ keyed_by_name (l ++ extra) fields.

(** the interfaces a struct is registered for, the structs registered for an interface *)
Definition interfaces_of (t : gtype) : list gtype :=
  match t_name decls t with [] => [] | n => types_of (g_implements P) n end.
Definition implementations_of (t : gtype) : list gtype := types_of (g_implemented P) (t_name decls t).
Definition struct_reads (n : bytes) (t : gtype) (extra : list pfield) (r : ptype) : Prop :=
  pt_name r = n /\ pt_goname r = t_name decls t /\ pt_pkg r = t_pkg decls t /\
  describes t extra (pt_fields r) /\ Forall2 (fun i o => type_reads i false o) (interfaces_of t) (pt_impls r).
Definition iface_reads (n : bytes) (t : gtype) (r : ptype) : Prop :=
  pt_name r = n /\ pt_goname r = t_name decls t /\ pt_pkg r = t_pkg decls t /\
  describes t [] (pt_fields r) /\ Forall2 (fun i o => t_kind decls i = KStruct /\ (t_name decls i <> [] /\ implements decls i t = true) /\ type_reads i false o) (implementations_of t) (pt_impls r).

(** ** Which types are part of the schema *)
Definition member_type (m : member) (t : gtype) : Prop :=
  match m with
  | MField _ ft _ =>
      if match t_kind decls ft with KFunc => true | _ => false end then In t (fun_outs (under decls ft)) /\ data_result t
      else t = ft
  | MMethod _ ft => In t (fun_outs ft) /\ data_result t
  end.
(** [asks t t']: a type [t] in the schema brings [t'] in *)
Inductive asks : gtype -> gtype -> Prop :=
| ask_elem t e : is_time decls t = false -> t_kind decls t = KSlice \/ t_kind decls t = KArray \/ t_kind decls t = KPtr ->
    t_elem decls t = Some e -> asks t e
| ask_member t n m t' : is_time decls t = false -> t_kind decls t = KStruct \/ t_kind decls t = KInterface ->
    In (n, m) (exposed t) -> member_type m t' -> asks t t'
| ask_iface t i : is_time decls t = false -> t_kind decls t = KStruct -> In i (interfaces_of t) -> asks t i
| ask_impl i t : is_time decls i = false -> t_kind decls i = KInterface -> In t (implementations_of i) -> asks i t.
Inductive reach (roots : list gtype) : gtype -> Prop :=
| reach_root t : In t roots -> reach roots t
| reach_step t t' : reach roots t -> asks t t' -> reach roots t'.

(** ** Arguments *)
(** the function of a member, with the arguments of its Go type; a method of a struct has the receiver as first one *)
Definition member_fun (t : gtype) (m : member) (istype : bool) (ins : list gtype) : Prop :=
  match m with
  | MField _ ft _ => t_kind decls ft = KFunc /\ istype = false /\ ins = fun_ins_of (under decls ft)
  | MMethod _ ft => istype = true /\ ins = method_ins decls t ft
  end.
(** the functions of a schema: those of the types in it, and some more *)
Definition schema_fun (roots : list gtype) (more : list (list gtype)) (istype : bool) (ins : list gtype) : Prop :=
  (istype = false /\ In ins more) \/
  exists t n m, reach roots t /\ is_time decls t = false /\ (t_kind decls t = KStruct \/ t_kind decls t = KInterface) /\
                In (n, m) (exposed t) /\ member_fun t m istype ins.
(** the arguments that are read from a query: not those for the context *)
Definition ctx_arg (t : gtype) : Prop := t_kind decls t = KPtr /\ exists e, t_elem decls t = Some e /\ is_ctx decls e = true.
Definition struct_arg (t : gtype) : Prop := is_ctx decls t = false /\ t_kind decls t = KStruct.
(** the members of a struct used as argument: name, position, type, ID mark *)
Definition input_member (i : nat) (f : gfield) : list (bytes * (nat * gtype * bool)) :=
  match f with
  | GField name anon _ tag t =>
      if anon then []
      else match parse_tag tag with
           | TagOk cname isid => [(match cname with Some n => n | None => format_go_name name end, (i, t, isid))]
           | _ => []
           end
  end.
Definition input_members (t : gtype) : list (bytes * (nat * gtype * bool)) := numbered input_member 0 (t_fields decls t).

(** the Go types behind the names of the schema's input types *)
Variable inown : bytes -> option gtype.
Definition zero_val (t : gtype) (z : gval) : Prop := exists n, zero decls n t = Some z.
(** [input_reads t isid j]: [j] tells how values of type [t] are read; [x] is the position in the surrounding struct *)
Inductive input_reads : gtype -> bool -> input -> Prop :=
| IREnum t h i x z : basic (t_kind decls t) -> enum_like t -> enum_at (t_name decls t) i -> zero_val t z ->
    input_reads t h (Input (t_kind decls t) (Some i) false false false x None false [] [] z)
| IRData t h x z : basic (t_kind decls t) -> (enum_like t -> forall i, ~ enum_at (t_name decls t) i) ->
    (h = true -> id_able (t_kind decls t)) -> zero_val t z ->
    input_reads t h (Input (t_kind decls t) None h false false x None false [] [] z)
| IRFile t e h x z : t_kind decls t = KPtr -> t_elem decls t = Some e -> is_file_header decls e = true -> zero_val t z ->
    input_reads t h (Input KPtr None false true false x None false [] [] z)
| IRPtr t e h j x z : t_kind decls t = KPtr -> t_elem decls t = Some e -> is_file_header decls e = false -> input_reads e h j -> zero_val t z ->
    input_reads t h (Input KPtr None false false false x (Some j) false [] [] z)
| IRList t e h j x z : t_kind decls t = KSlice \/ t_kind decls t = KArray -> t_elem decls t = Some e -> input_reads e false j -> zero_val t z ->
    input_reads t h (Input (t_kind decls t) None false false false x (Some j) false [] [] z)
| IRTime t h x z : t_kind decls t = KStruct -> is_time decls t = true -> zero_val t z ->
    input_reads t h (Input KString None false false true x None false [] [] z)
| IRStruct t h n x z : t_kind decls t = KStruct -> is_time decls t = false -> inown n = Some t -> zero_val t z ->
    input_reads t h (Input KStruct None false false false x None true n [] z).
(** [l] found by name; of two with the same name the last one counts *)
Definition named_by {A} (l : list (bytes * A)) (table : list (bytes * A)) : Prop :=
  NoDup (map fst table) /\
  forall k, slookup table k = match find (fun e => beqb (fst e) k) (rev l) with Some e => Some (snd e) | None => None end.
Definition input_at (m : bytes * (nat * gtype * bool)) (j : input) : Prop :=
  match snd m with (i, t, isid) => input_reads t isid j /\ i_field j = i end.
(** the entry of the schema's input types for the struct [t] *)
Definition input_struct_reads (n : bytes) (t : gtype) (j : input) : Prop :=
  exists l c z, j = Input KStruct None false false false 0 None false n c z /\ zero_val t z /\
    Forall2 (fun m e => fst e = fst m /\ input_at m (snd e)) (input_members t) l /\ named_by l c.
(** the arguments of a function: contexts, and structs whose members are the GraphQL arguments *)
Definition arg_members (nr : nat) (t : gtype) : list (bytes * (nat * (nat * gtype * bool))) :=
  match t_kind decls t with KStruct => map (fun m => (fst m, (nr, snd m))) (input_members t) | _ => [] end.
Definition args_read (ts : list gtype) (ins : list (option gval)) (infields : list (bytes * (nat * input))) : Prop :=
  Forall2 (fun t i => match i with None => ctx_arg t | Some z => struct_arg t /\ zero_val t z end) ts ins /\
  exists l, Forall2 (fun m e => fst e = fst m /\ fst (snd e) = fst (snd m) /\ input_at (fst m, snd (snd m)) (snd (snd e)))
              (numbered arg_members 0 ts) l /\ named_by l infields.

(** the types of arguments *)
Inductive in_reach (roots : list gtype) (more : list (list gtype)) : gtype -> Prop :=
| in_root it ins a f i t h : schema_fun roots more it ins -> In a (method_args it ins) -> struct_arg a ->
    In (f, (i, t, h)) (input_members a) -> in_reach roots more t
| in_elem t e : in_reach roots more t -> t_kind decls t = KSlice \/ t_kind decls t = KArray \/ t_kind decls t = KPtr ->
    t_elem decls t = Some e -> (t_kind decls t = KPtr -> is_file_header decls e = false) -> in_reach roots more e
| in_field t n i t' h : in_reach roots more t -> t_kind decls t = KStruct -> is_time decls t = false ->
    In (n, (i, t', h)) (input_members t) -> in_reach roots more t'.
End Spec.

(** ** When names do not get confused *)
(** the name a struct without name gets *)
Definition unknown_name (k : nat) : bytes := bs "__UnknownType" ++ dec_of_N (N.of_nat k).
Record named_apart (P : program) (roots : list gtype) : Prop := {
  (** two structs with the same GraphQL name are the same if they are of one package: in a package a name is
      declared once, so that this is about TypeRename and about types declared inside of functions *)
  na_struct t t' : reach P roots t -> reach P roots t' -> t_kind (g_decls P) t = KStruct -> t_kind (g_decls P) t' = KStruct ->
    t_name (g_decls P) t <> [] -> t_name (g_decls P) t' <> [] -> rename P (t_name (g_decls P) t) = rename P (t_name (g_decls P) t') ->
    t_pkg (g_decls P) t = t_pkg (g_decls P) t' -> t = t';
  na_iface t t' : reach P roots t -> reach P roots t' -> t_kind (g_decls P) t = KInterface -> t_kind (g_decls P) t' = KInterface ->
    rename P (t_name (g_decls P) t) = rename P (t_name (g_decls P) t') -> t_pkg (g_decls P) t = t_pkg (g_decls P) t' -> t = t';
  (** if there are registered interfaces for the name of a struct, no other struct of the schema has its GraphQL name *)
  na_registered t t' : reach P roots t -> reach P roots t' -> t_kind (g_decls P) t = KStruct -> t_kind (g_decls P) t' = KStruct ->
    interfaces_of P t <> [] -> t_name (g_decls P) t' <> [] -> rename P (t_name (g_decls P) t) = rename P (t_name (g_decls P) t') -> t = t';
  (** no type has a name made for structs without names *)
  na_unknown t k : reach P roots t -> t_kind (g_decls P) t = KStruct -> t_name (g_decls P) t <> [] ->
    rename P (t_name (g_decls P) t) <> unknown_name k }.

(** the name an argument struct without name gets *)
Definition unknown_input (k : nat) : bytes := bs "__UnknownInput" ++ dec_of_N (N.of_nat k).
Record inputs_apart (P : program) (roots : list gtype) (more : list (list gtype)) : Prop := {
  (** argument structs with the same GraphQL name are the same, and none has the name of another with __input appended *)
  ia_struct t t' : in_reach P roots more t -> in_reach P roots more t' ->
    t_kind (g_decls P) t = KStruct -> t_kind (g_decls P) t' = KStruct -> t_name (g_decls P) t <> [] -> t_name (g_decls P) t' <> [] ->
    rename P (t_name (g_decls P) t) = rename P (t_name (g_decls P) t') \/
    rename P (t_name (g_decls P) t) = rename P (t_name (g_decls P) t') ++ bs "__input" -> t = t';
  ia_unknown t k : in_reach P roots more t -> t_kind (g_decls P) t = KStruct -> t_name (g_decls P) t <> [] ->
    rename P (t_name (g_decls P) t) <> unknown_input k }.

(** ** A whole schema *)
Section Whole.
Variable P : program.
Notation decls := (g_decls P).
(** queries, methods and, if the types that describe schemas are added, those *)
Definition is_data (t : gtype) : bool :=
  negb (is_attr_id decls t) && negb (match t_kind decls t with KInterface => is_error decls t | _ => false end).
Definition roots_of (qt mt : gtype) (inj : bool) : list gtype :=
  qt :: mt :: if inj then g_qlschema P :: filter is_data (fun_outs (under decls (g_typefn P))) else [].
(** functions that belong to no type: the one behind __type, directives *)
Definition more_of (inj : bool) : list (list gtype) :=
  (if inj then [fun_ins_of (under decls (g_typefn P))] else []) ++ map pd_type (g_dirs P).

Record schema_reads (own iown inown : bytes -> option gtype) (qt mt : gtype) (inj : option (gval * gval)) (p : pschema) : Prop := {
  sr_query : own (p_query p) = Some qt;
  sr_method : own (p_method p) = Some mt;
  (** every type of the schema has the members of its Go type; the query has two more if asked for *)
  sr_types : exists extra,
    match inj with
    | None => extra = []
    | Some (sv, tf) =>
        exists o k fn, extra = [PField o 0 (bs "__schema") true (Some sv); PField (PMethod k) 0 (bs "__type") true (Some tf)] /\
          type_reads P own iown (g_qlschema P) false o /\ nth_error (ps_methods (p_st p)) k = Some fn /\
          fun_reads P own iown false (fun_ins_of (under decls (g_typefn P))) (fun_outs (under decls (g_typefn P))) false fn
    end /\
    forall n r, slookup (ps_types (p_st p)) n = Some r ->
      exists t, own n = Some t /\
        struct_reads P own iown (ps_methods (p_st p)) n t (if beqb n (p_query p) then extra else []) r;
  sr_ifaces n r : slookup (ps_ifaces (p_st p)) n = Some r ->
    exists t, iown n = Some t /\ iface_reads P own iown (ps_methods (p_st p)) n t r;
  sr_inputs n j : slookup (ps_intypes (p_st p)) n = Some j ->
    exists t, inown n = Some t /\ input_struct_reads P inown n t j;
  (** the names are those of types that are part of the schema *)
  sr_own n t : own n = Some t ->
    slookup (ps_types (p_st p)) n <> None /\ t_kind decls t = KStruct /\ is_time decls t = false /\ reach P (roots_of qt mt (if inj then true else false)) t /\
    (t_name decls t <> [] -> n = rename P (t_name decls t)) /\ (t_name decls t = [] -> exists k, n = unknown_name k);
  sr_iown n t : iown n = Some t ->
    slookup (ps_ifaces (p_st p)) n <> None /\ t_kind decls t = KInterface /\ is_time decls t = false /\ reach P (roots_of qt mt (if inj then true else false)) t /\
    n = rename P (t_name decls t);
  sr_inown n t : inown n = Some t ->
    slookup (ps_intypes (p_st p)) n <> None /\ t_kind decls t = KStruct /\ is_time decls t = false /\
    in_reach P (roots_of qt mt (if inj then true else false)) (more_of (if inj then true else false)) t /\
    (t_name decls t <> [] ->
       n = rename P (t_name decls t) ++ match slookup (ps_types (p_st p)) (rename P (t_name decls t)) with Some _ => bs "__input" | None => [] end) /\
    (t_name decls t = [] -> exists k, n = unknown_input k);
  (** every type that is part of the schema has a name *)
  sr_reach t : reach P (roots_of qt mt (if inj then true else false)) t -> is_time decls t = false ->
    (t_kind decls t = KStruct -> exists n, own n = Some t) /\ (t_kind decls t = KInterface -> exists n, iown n = Some t);
  sr_in_reach t : in_reach P (roots_of qt mt (if inj then true else false)) (more_of (if inj then true else false)) t -> is_time decls t = false ->
    t_kind decls t = KStruct -> exists n, inown n = Some t;
  (** the arguments of functions and directives *)
  sr_funs m : In m (ps_methods (p_st p)) -> args_read P inown (method_args (pm_istype m) (pm_type m)) (pm_ins m) (pm_infields m);
  sr_dirs : Forall2 (fun d d' => dd_name d' = pd_name d /\ dd_fn d' = pd_fn d /\ args_read P inown (pd_type d) (dd_ins d') (dd_infields d'))
              (g_dirs P) (p_dirs p) }.
End Whole.
