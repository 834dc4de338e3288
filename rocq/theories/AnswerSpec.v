(** * Responses that conform to a GraphQL schema (the terms of C56)

    What a response has to look like according to the types a schema announces.  Nothing here says how
    resolver.go makes responses. *)
From Coq Require Import String Arith NArith ZArith Bool List.
From Verif Require Import Base JsonModel NameModel Ast Schema GoTypes ParseModel SchemaSpec IntroModel IntroSpec Interp Valid.
Import ListNotations.
Open Scope nat_scope.

(** ** GraphQL *)
(** an output schema, as the GraphQL language has it *)
Record gql := Gql {
  q_object : bytes -> Prop;                    (* the names of the object types *)
  q_field : bytes -> bytes -> tref -> Prop;    (* object type, field, type of the field *)
  q_possible : bytes -> bytes -> Prop;         (* interface, object type that implements it *)
  q_value : bytes -> bytes -> Prop }.          (* enum, value of it *)
Definition may_be_null (r : tref) : Prop := match r with NonNull _ => False | _ => True end.
(** scalars; [w]: what integers the type Int has *)
Inductive scalar_value (w : Z -> Prop) : bytes -> rt -> Prop :=
| sv_int z : w z -> scalar_value w (bs "Int") (TInt z)
| sv_bool b : scalar_value w (bs "Boolean") (TBool b)
| sv_float is64 b : scalar_value w (bs "Float") (TFloat is64 b)
| sv_string s : scalar_value w (bs "String") (TStr s)
| sv_id s : scalar_value w (bs "ID") (TStr s)
| sv_id_number z : scalar_value w (bs "ID") (TQuoted (TInt z))
| sv_time t : scalar_value w (bs "Time") (TTime t).

Section Conforms.
Variable G : gql.
Variable ints : Z -> Prop.
Variable fragments : list (bytes * bytes * list sel).   (* name, type, selections *)
(** [selects n ss alias name subs]: of objects of the type [n] the selection [ss] asks for the field [name], with
    the sub-selection [subs]: directly, or in a fragment for that type *)
Inductive selects (n : bytes) : list sel -> option bytes -> bytes -> list sel -> Prop :=
| sel_field ss alias name ds args subs : In (SField alias name ds args subs) ss -> selects n ss alias name subs
| sel_inline ss ds inner alias name subs : In (SInline n ds inner) ss -> selects n inner alias name subs -> selects n ss alias name subs
| sel_spread ss f ds inner alias name subs : In (SSpread f ds) ss -> In (f, n, inner) fragments -> selects n inner alias name subs ->
    selects n ss alias name subs.
Definition key_of (alias : option bytes) (name : bytes) : bytes := match alias with Some a => a | None => name end.

(** [conforms ok r ss x]: [x] is a value of the type [r] with what [ss] selects of it.  If [ok] is false, errors were
    reported with the response, and then there can be null or nothing in place of any value. *)
Inductive conforms (ok : bool) : tref -> list sel -> rt -> Prop :=
| cf_failed r ss x : ok = false -> x = TNull \/ x = THole -> conforms ok r ss x
| cf_null r ss : may_be_null r -> conforms ok r ss TNull
| cf_nonnull r ss x : x <> TNull -> conforms ok r ss x -> conforms ok (NonNull r) ss x
| cf_list r ss l : conform_all ok r ss l -> conforms ok (ListOf r) ss (TArr l)
| cf_scalar n ss x : scalar_value ints n x -> conforms ok (Named n) ss x
| cf_enum n ss v : q_value G n v -> conforms ok (Named n) ss (TName v)
| cf_object n ss ms : q_object G n -> members_conform ok n ss ms -> conforms ok (Named n) ss (TObj ms)
| cf_interface n n' ss ms : q_possible G n n' -> q_object G n' -> members_conform ok n' ss ms -> conforms ok (Named n) ss (TObj ms)
with conform_all (ok : bool) : tref -> list sel -> list rt -> Prop :=
| ca_nil r ss : conform_all ok r ss []
| ca_cons r ss x l : conforms ok r ss x -> conform_all ok r ss l -> conform_all ok r ss (x :: l)
(** the members of an object of the type [n]: each is asked for and has the type that is announced for it *)
with members_conform (ok : bool) : bytes -> list sel -> list (bytes * rt) -> Prop :=
| mc_nil n ss : members_conform ok n ss []
| mc_typename n ss alias subs ms : selects n ss alias (bs "__typename") subs -> members_conform ok n ss ms ->
    members_conform ok n ss ((key_of alias (bs "__typename"), TName n) :: ms)
| mc_field n ss alias name subs r x ms : selects n ss alias name subs -> q_field G n name r -> conforms ok r subs x ->
    members_conform ok n ss ms -> members_conform ok n ss ((key_of alias name, x) :: ms)
| mc_failed n ss alias name subs x ms : ok = false -> selects n ss alias name subs -> x = TNull \/ x = THole ->
    members_conform ok n ss ms -> members_conform ok n ss ((key_of alias name, x) :: ms).
End Conforms.

(** ** The GraphQL schema of a Go program *)
Section Go.
Variable P : program.
Variable own iown : bytes -> option gtype.   (* the Go types behind the names of types and interfaces, as in SchemaSpec.v *)
(** the two fields that a query has if there is introspection *)
Definition query_extra (f : bytes) (r : tref) : Prop :=
  f = bs "__schema" /\ go_ref P own iown (g_qlschema P) false r \/
  f = bs "__type" /\ exists i t r0, only_at (data_result P) (fun_outs (under (g_decls P) (g_typefn P))) i t /\
    go_ref P own iown t (existsb (is_attr_id (g_decls P)) (fun_outs (under (g_decls P) (g_typefn P)))) r0 /\ r = nullable r0.
Definition go_gql (query : bytes) (introspection : bool) : gql := {|
  q_object n := own n <> None;
  q_field n f r := (exists t m, own n = Some t /\ In (f, m) (exposed P t) /\ member_ref P own iown m r) \/
                   introspection = true /\ n = query /\ query_extra f r;
  q_possible n n' := exists i t, iown n = Some i /\ own n' = Some t /\ In t (implementations_of P i);
  q_value n v := exists e, In e (g_enums P) /\ en_name e = n /\ In v (map fst (en_entries e)) |}.

(** ** What the theorems ask for *)
(** values of a type with the name of an enum are values of the enum.  Go does not see to this. *)
Definition enum_values (roots : list gtype) (R : gtype -> gval -> Prop) : Prop := forall t v e, reach P roots t -> R t v ->
  enum_like P t -> In e (g_enums P) -> en_name e = t_name (g_decls P) t -> exists n, In (n, v) (en_entries e).
(** no field name in the document has the hash of another name of a field *)
Definition names_told (roots : list gtype) (d : document) : Prop := forall t f alias name ds args subs, reach P roots t ->
  In f (map fst (exposed P t) ++ [bs "__schema"; bs "__type"]) -> in_doc (SField alias name ds args subs) d -> fnv1 name = fnv1 f -> name = f.
(** all structs have names *)
Definition all_named (roots : list gtype) : Prop := forall t, reach P roots t -> t_kind (g_decls P) t = KStruct -> t_name (g_decls P) t <> [].
End Go.

(** ** The GraphQL schema that introspection tells *)
(** [hidden] are the fields that introspection does not show: __schema and __type *)
Definition told_gql (hidden : bytes -> bytes -> tref -> Prop) (I : ischema) (c : icache) : gql := {|
  q_object n := exists is f, answers I c FType (name_arg n) (GPtr (Some (g_type (Qlt TkObject (Some n) (Some []) (Some (false, f)) (Some is) None None None None None))));
  q_field n f r := hidden n f r \/ exists is g l a, answers I c FType (name_arg n) (GPtr (Some (g_type (Qlt TkObject (Some n) (Some []) (Some (false, g)) (Some is) None None None None None)))) /\
    answers I c g [] (GSlice (Some (map g_field l))) /\ In a l /\ qf_name a = f /\ ref_of (qf_type a) = r;
  q_possible n n' := exists f g ts q, answers I c FType (name_arg n) (GPtr (Some (g_type (Qlt TkInterface (Some n) (Some []) (Some (false, f)) (Some []) (Some (false, g)) None None None None)))) /\
    answers I c g [] (GSlice (Some (map g_type ts))) /\ In q ts /\ ref_of q = Named n';
  q_value n v := exists f l, answers I c FType (name_arg n) (GPtr (Some (g_type (Qlt TkEnum (Some n) (Some []) None None None (Some (false, f)) None None None)))) /\
    answers I c f [] (GSlice (Some (map g_enumvalue l))) /\ In v l |}.
