(** * Values of Go types and user code that respects types (the terms of C50) *)
From Coq Require Import String Arith NArith ZArith Bool List.
From Verif Require Import Base JsonModel NameModel Schema ResModel GoTypes ParseModel SchemaSpec.
Import ListNotations.
Open Scope nat_scope.

(** StructField.IsExported and StructField.Type (Go library reflect) *)
Definition f_exported (f : gfield) : bool := match f with GField _ _ ex _ _ => ex end.
Definition f_type (f : gfield) : gtype := match f with GField _ _ _ _ t => t end.

Section Values.
Variable P : program.
Notation decls := (g_decls P).

(** ** Values *)
(** [R] is a typing of values: whatever has a type according to [R] looks like a value of this type, and so do its parts *)
Record typing (R : gtype -> gval -> Prop) : Prop := {
  ty_time t v : R t v -> is_time decls t = true -> exists x, v = GTm x;
  ty_basic t v : R t v -> is_time decls t = false -> basic (t_kind decls t) -> kind_of v = t_kind decls t;
  ty_list t e v : R t v -> is_time decls t = false -> t_kind decls t = KSlice \/ t_kind decls t = KArray -> t_elem decls t = Some e ->
    v = GSlice None \/ exists l, (v = GSlice (Some l) \/ v = GArray l) /\ Forall (R e) l;
  ty_ptr t e v : R t v -> is_time decls t = false -> t_kind decls t = KPtr -> t_elem decls t = Some e ->
    v = GPtr None \/ exists u, v = GPtr (Some u) /\ R e u;
  ty_struct t v : R t v -> is_time decls t = false -> t_kind decls t = KStruct ->
    exists l, v = GStruct l /\ Forall2 (fun f x => fst x = f_exported f /\ R (f_type f) (snd x)) (t_fields decls t) l;
  (** an interface holds nothing or a value with its type *)
  ty_iface t v : R t v -> is_time decls t = false -> t_kind decls t = KInterface ->
    v = GIface None \/ exists t' u, v = GIface (Some (t_name decls t', t_pkg decls t', u)) /\ R t' u;
  ty_func t v : R t v -> is_time decls t = false -> t_kind decls t = KFunc -> exists f, v = GFunc f }.

(** the values an argument of type [t] can have; functions, interfaces and the like in it are nil *)
Inductive arg_value : gtype -> gval -> Prop :=
| AVTime t x : is_time decls t = true -> arg_value t (GTm x)
| AVBool t b : is_time decls t = false -> under decls t = TBasic KBool -> arg_value t (GBool b)
| AVInt t w z : is_time decls t = false -> under decls t = TBasic (KInt w) ->
    (- 2 ^ (Z.of_N (bits w) - 1) <= z < 2 ^ (Z.of_N (bits w) - 1))%Z -> arg_value t (GInt w z)
| AVUint t w n : is_time decls t = false -> under decls t = TBasic (KUint w) -> (n < 2 ^ bits w)%N -> arg_value t (GUint w n)
| AVFloat t b x : is_time decls t = false -> under decls t = TBasic (KFloat b) -> arg_value t (GFloat b x)
| AVString t s : is_time decls t = false -> under decls t = TBasic KString -> arg_value t (GString s)
| AVFile t e f : is_time decls t = false -> under decls t = TPtr e -> is_file_header decls e = true -> arg_value t (GFile f)
| AVNilPtr t e : is_time decls t = false -> under decls t = TPtr e -> is_file_header decls e = false -> arg_value t (GPtr None)
| AVPtr t e v : is_time decls t = false -> under decls t = TPtr e -> is_file_header decls e = false -> arg_value e v -> arg_value t (GPtr (Some v))
| AVNilSlice t e : is_time decls t = false -> under decls t = TSlice e -> arg_value t (GSlice None)
| AVSlice t e l : is_time decls t = false -> under decls t = TSlice e -> Forall (arg_value e) l -> arg_value t (GSlice (Some l))
| AVArray t n e l : is_time decls t = false -> under decls t = TArray n e -> length l = n -> Forall (arg_value e) l -> arg_value t (GArray l)
| AVStruct t fs l : is_time decls t = false -> under decls t = TStruct fs ->
    Forall2 (fun f x => fst x = f_exported f /\ arg_value (f_type f) (snd x)) fs l -> arg_value t (GStruct l)
| AVFunc t ins outs v : is_time decls t = false -> under decls t = TFunc ins outs v -> arg_value t (GFunc None)
| AVIface t ms : is_time decls t = false -> under decls t = TIface ms -> is_error decls t = false -> arg_value t (GIface None)
| AVErr t ms : is_time decls t = false -> under decls t = TIface ms -> is_error decls t = true -> arg_value t (GErr None)
| AVOther t : is_time decls t = false -> match under decls t with TNamed _ | TOther => True | TBasic k => ~ basic k | _ => False end -> arg_value t GOther.
(** the arguments of a function: contexts and structs *)
Definition arg_ok (t : gtype) (v : gval) : Prop := ctx_arg P t /\ v = GCtx \/ struct_arg P t /\ arg_value t v.

(** ** User code *)
Section Code.
Context {W : Type}.
Variable X : externals W.
Variable R : gtype -> gval -> Prop.
Definition result_ok (t : gtype) (v : gval) : Prop := if is_attr_id decls t then True else
  match t_kind decls t with
  | KInterface => if is_error decls t then exists e, v = GErr e else R t v
  | _ => R t v
  end.
(** what holds between calls for everything the code keeps *)
Variable inv : W -> Prop.
(** called with arguments of their types, functions return results of their types and do not panic *)
Record behaves : Prop := {
  bh_func w n t ins outs va args p : inv w -> R t (GFunc (Some n)) -> under decls t = TFunc ins outs va -> Forall2 arg_ok ins args ->
    exists w' rs, x_call X w (GFunc (Some n)) args p = Some (w', rs) /\ inv w' /\ Forall2 result_ok outs rs;
  bh_method w t v i name ins outs va args p : inv w -> R t v -> is_time decls t = false -> t_kind decls t = KStruct -> nth_error (t_methods decls t) i = Some (name, TFunc ins outs va) -> Forall2 arg_ok ins args ->
    exists w' rs, x_call X w (GMethod v i) args p = Some (w', rs) /\ inv w' /\ Forall2 result_ok outs rs;
  bh_dir w f d args p : inv w -> In d (g_dirs P) -> pd_fn d = DUser f -> Forall2 arg_ok (pd_type d) args ->
    exists w' b, x_dir X w f args p = Some (w', b) /\ inv w';
  bh_file get w n : inv w -> x_formfile X = Some get -> inv (fst (get w n)) }.
End Code.

(** ** Programs *)
(** facts about Go programs and yarql itself *)
Record go_facts : Prop := {
  (** a struct with a name is known by name and package; this is about types declared inside of functions *)
  gf_names t t' : t_kind decls t = KStruct -> t_name decls t <> [] -> t_name decls t = t_name decls t' -> t_pkg decls t = t_pkg decls t' -> t = t';
  (** time.Time is a struct without exported fields *)
  gf_time t : is_time decls t = true -> t_kind decls t = KStruct /\
    Forall (fun f => f_exported f = false) (t_fields decls t);
  (** the functions of @skip and @include have one argument, a struct with one bool *)
  gf_skip d : In d (g_dirs P) -> pd_fn d = DSkip \/ pd_fn d = DInclude ->
    exists t nm an ex tg bt, pd_type d = [t] /\ is_time decls t = false /\ under decls t = TStruct [GField nm an ex tg bt] /\ under decls bt = TBasic KBool;
  (** the entries of an enum are values of one kind *)
  gf_enum e n v : In e (g_enums P) -> In (n, v) (en_entries e) -> kind_of v = en_kind e }.
(** a struct field that is part of the schema *)
Definition shown (f : gfield) : Prop :=
  match f with GField _ anon _ tag _ => anon = false /\ exists c i, parse_tag tag = TagOk c i end.
(** types with nothing in them that needs an exported field: no time, no function, no method *)
Definition quiet (t : gtype) : Prop := forall t', reach P [t] t' ->
  is_time decls t' = false /\ t_kind decls t' <> KFunc /\
  (t_kind decls t' = KStruct -> forall n m, In (n, m) (exposed P t') -> match m with MField _ ft _ => t_kind decls ft <> KFunc | MMethod _ _ => False end).
(** what the author of a program has to take care of *)
Section Careful.
Variables (roots : list gtype) (more : list (list gtype)).
(** types with the name of an enum are of its kind *)
Definition enum_kinds : Prop := forall e t, In e (g_enums P) -> reach P roots t \/ in_reach P roots more t -> enum_like P t ->
  t_name decls t = en_name e -> t_kind decls t = en_kind e.
(** unexported fields are quiet *)
Definition quiet_fields : Prop := forall t f, reach P roots t -> is_time decls t = false -> t_kind decls t = KStruct ->
  In f (t_fields decls t) -> shown f -> f_exported f = false -> quiet (f_type f).
(** the fields of argument structs, and of the structs in them, are exported *)
Definition open_args : Prop := forall it ins a f, schema_fun P roots more it ins -> In a (method_args it ins) -> struct_arg P a ->
  In f (t_fields decls a) -> shown f -> f_exported f = true.
Definition open_inputs : Prop := forall t f, in_reach P roots more t -> t_kind decls t = KStruct -> is_time decls t = false ->
  In f (t_fields decls t) -> shown f -> f_exported f = true.
Record careful : Prop := { ca_enum : enum_kinds; ca_fields : quiet_fields; ca_args : open_args; ca_inputs : open_inputs }.
End Careful.
(** there are no arguments for files *)
Definition no_files (roots : list gtype) (more : list (list gtype)) : Prop :=
  forall t e, in_reach P roots more t -> t_kind decls t = KPtr -> t_elem decls t = Some e -> is_file_header decls e = false.
End Values.
