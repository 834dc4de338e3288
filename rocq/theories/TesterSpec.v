(** * What the functions of the package tester should say *)
From Coq Require Import String Arith NArith ZArith Bool List Permutation.
From Verif Require Import Base Json Schema GoTypes ParseModel SchemaSpec IntroSpec TesterModel.
Import ListNotations.
Open Scope N_scope.

(** text in UTF-8, as all names in Go programs are *)
Definition utf8 (s : bytes) : Prop := exists l, Forall scalar l /\ s = utf8_of l.

Section Spec.
Variable P : program.
(** the Go types behind the names of types, interfaces and input types, as in SchemaSpec.v *)
Variable own iown inown : bytes -> option gtype.
(** the names of the fields of a Go type *)
Definition field_names (t : gtype) : list bytes := map fst (exposed P t).
(** [n] is the name of a struct or an interface *)
Definition with_fields (n : bytes) (t : gtype) : Prop := own n = Some t \/ iown n = Some t.
(** [n] is the name of a type without fields *)
Definition without_fields (n : bytes) : Prop := inown n <> None \/ In n (map en_name (g_enums P)) \/ In n scalar_names.
(** what is known of a name: the kind of the type with that name and the names of its fields, sorted *)
Inductive known (n : bytes) : option ttype -> Prop :=
| k_struct t l : own n = Some t -> by_name (fun x => x) l -> Permutation l (field_names t) -> known n (Some (TT (bs "OBJECT") l))
| k_iface t l : iown n = Some t -> by_name (fun x => x) l -> Permutation l (field_names t) -> known n (Some (TT (bs "INTERFACE") l))
| k_input t : inown n = Some t -> known n (Some (TT (bs "INPUT_OBJECT") []))
| k_enum : In n (map en_name (g_enums P)) -> known n (Some (TT (bs "ENUM") []))
| k_scalar : In n scalar_names -> known n (Some (TT (bs "SCALAR") []))
| k_none : own n = None -> iown n = None -> ~ without_fields n -> known n None.
End Spec.
