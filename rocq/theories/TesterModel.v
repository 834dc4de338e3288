(** * Model of tester/tester.go: questions about the types of a schema *)
From Coq Require Import String Arith NArith ZArith Bool List.
From Verif Require Import Base Json JsonModel ReqModel Schema ResModel EnvModel.
Import ListNotations.
Open Scope N_scope.

(** tester.go 13-22 Type and Field; a field is its name *)
Record ttype := TT { tt_kind : bytes; tt_fields : list bytes }.
(** tester.go 29-36 *)
Definition nl (tabs : nat) : bytes := 10 :: repeat 9 tabs.
Definition tester_query : bytes :=
  bs "query ($typename: String) {" ++ nl 2 ++ bs "__type(name: $typename) {" ++ nl 3 ++ bs "kind" ++ nl 3 ++ bs "fields {" ++ nl 4 ++ bs "name" ++
  nl 3 ++ bs "}" ++ nl 2 ++ bs "}" ++ nl 1 ++ bs "}".
(** tester.go 37-40; [vars] is the text of the map with the name (line 27) *)
Definition tester_opts (vars : bytes) : ropts := ROpts true [] vars None.

(** Go library encoding/json, Unmarshal of a response into the struct of tester.go 45-48, for the JSON values that matter here; null leaves the zero value *)
Definition utf8_of (l : list N) : bytes := flat_map utf8_encode l.
Inductive read_field : jval -> bytes -> Prop :=
| rf_name : forall l, read_field (JObj [(bs "name", JStr l)]) (utf8_of l).
Inductive read_fields : jval -> list bytes -> Prop :=
| rs_null : read_fields JNull []
| rs_list : forall l ns, Forall2 read_field l ns -> read_fields (JArr l) ns.
Inductive read_kind : jval -> bytes -> Prop :=
| rk_null : read_kind JNull []
| rk_name : forall l, read_kind (JStr l) (utf8_of l).
Inductive read_res : jval -> option ttype -> Prop :=
| rr_null : read_res (JObj [(bs "__type", JNull)]) None
| rr_type : forall k fs kind names, read_kind k kind -> read_fields fs names ->
    read_res (JObj [(bs "__type", JObj [(bs "kind", k); (bs "fields", fs)])]) (Some (TT kind names)).
(** tester.go 25-56 GetTypeByName: what it makes of the outcome of Resolve *)
Definition got {W} (r : rresult W) (t : option ttype) : Prop :=
  match r with
  | RDone out errs _ _ => match errs with [] => exists j, jtext j out /\ read_res j t | _ => t = None end
  | _ => False
  end.

(** tester.go 59-61 HasType, 65-71 TypeKind *)
Definition has_type (t : option ttype) : bool := match t with Some _ => true | None => false end.
Definition type_kind (t : option ttype) : bytes := match t with Some t => tt_kind t | None => [] end.
(** tester.go 74, 85 and 112, 97 and 124, 137: the errors; [None] is no error *)
Definition no_such_type : bytes := bs "type not found".
Definition wrong_kind : bytes := bs "type must be a OBJECT or INTERFACE".
Definition no_such_field (field typename : bytes) : bytes := bs "field " ++ field ++ bs " not found on type " ++ typename.
Definition extra_field (field typename : bytes) : bytes := bs "found extra field with name " ++ field ++ bs " on type " ++ typename.
(** tester.go 88-99, 115-126 and 128-139: the first name of [l] that is not in [known] *)
Fixpoint first_unknown (l known : list bytes) : option bytes :=
  match l with
  | [] => None
  | f :: r => if existsb (fun k => beqb k f) known then first_unknown r known else Some f
  end.
(** tester.go 78-102 HasFields *)
Definition has_fields (t : option ttype) (typename : bytes) (fields : list bytes) : option bytes :=
  match t with
  | None => Some no_such_type
  | Some t =>
      if negb (beqb (tt_kind t) (bs "OBJECT")) && negb (beqb (tt_kind t) (bs "INTERFACE")) then Some wrong_kind
      else match first_unknown fields (tt_fields t) with Some f => Some (no_such_field f typename) | None => None end
  end.
(** tester.go 105-142 OnlyHasFields *)
Definition only_has_fields (t : option ttype) (typename : bytes) (fields : list bytes) : option bytes :=
  match t with
  | None => Some no_such_type
  | Some t =>
      if negb (beqb (tt_kind t) (bs "OBJECT")) && negb (beqb (tt_kind t) (bs "INTERFACE")) then Some wrong_kind
      else match first_unknown fields (tt_fields t) with
           | Some f => Some (no_such_field f typename)
           | None => match first_unknown (tt_fields t) fields with Some f => Some (extra_field f typename) | None => None end
           end
  end.
