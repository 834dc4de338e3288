(** * Documents and their bytecode encoding (specification).

    The encoder follows the reference encoder of the project's own tests,
    bytecode/testing_framework.go 16-286 (toBytes methods), and the comments in
    bytecode/bytecode_instructions.go 46-237.  It knows nothing about the parser. *)
From Coq Require Import String NArith Bool List.
From Verif Require Import Base.
Import ListNotations.
Open Scope N_scope.

(** Input values; [VInt] and [VFloat] keep the literal as it is stored. *)
Inductive value :=
| VVar (name : bytes)
| VInt (lit : bytes)
| VFloat (lit : bytes)
| VStr (content : bytes)
| VBool (b : bool)
| VNull
| VEnum (name : bytes)
| VList (items : list value)
| VObj (fields : list (bytes * value)).

Record directive := Dir { d_name : bytes; d_args : option (list (bytes * value)) }.

Inductive sel :=
| SField (alias : option bytes) (name : bytes) (dirs : list directive)
         (args : option (list (bytes * value))) (subs : list sel)
| SSpread (name : bytes) (dirs : list directive)
| SInline (tname : bytes) (dirs : list directive) (subs : list sel).

Inductive tyref :=
| TyName (name : bytes) (nonnull : bool)
| TyList (t : tyref) (nonnull : bool).

Record oparg := OpArg { oa_name : bytes; oa_type : tyref; oa_default : option value }.

Inductive opkind := OpQuery | OpMutation | OpSubscription.

Inductive definition :=
| DOp (kind : opkind) (name : bytes) (args : option (list oparg)) (dirs : list directive) (sels : list sel)
| DFrag (name tname : bytes) (sels : list sel).

Definition document := list definition.

(** ** Encoding *)

Definition nlen {A} (l : list A) : N := N.of_nat (length l).

(** testing_framework.go 162-204: testValue.toBytes *)
Definition enc_tagged (kind : N) (body : bytes) : bytes :=
  [0; 118; kind] ++ le32 (nlen body) ++ body.

Fixpoint enc_value (v : value) : bytes :=
  match v with
  | VVar n => enc_tagged 36 n
  | VInt l => enc_tagged 105 l
  | VFloat l => enc_tagged 102 l
  | VStr s => enc_tagged 115 s
  | VBool b => enc_tagged 98 [if b then 49 else 48]
  | VNull => enc_tagged 110 []
  | VEnum n => enc_tagged 101 n
  | VList vs => enc_tagged 108 (flat_map enc_value vs ++ [0; 101])
  | VObj fs => enc_tagged 111 (flat_map (fun nv => [0; 117] ++ fst nv ++ enc_value (snd nv)) fs ++ [0; 101])
  end.

Definition enc_args (fs : list (bytes * value)) : bytes := enc_value (VObj fs).

(** testing_framework.go 86-101: testDirective.toBytes *)
Definition enc_directive (d : directive) : bytes :=
  match d_args d with
  | None => [0; 100; 102] ++ d_name d
  | Some fs => [0; 100; 116] ++ d_name d ++ enc_args fs
  end.
Definition enc_dirs (ds : list directive) : bytes := flat_map enc_directive ds.

(** testing_framework.go 223-286: testField.toBytes, except that the arguments come before the
    sub-selection, as bytecode.go 592-623 writes them (the test encoder has them the other
    way round, its tests never use both) *)
Definition enc_names (alias : option bytes) (name : bytes) : bytes :=
  match alias with
  | None => [nlen name] ++ name ++ [0]
  | Some a => [nlen a] ++ a ++ [nlen name] ++ name
  end.
Definition enc_opt_args (args : option (list (bytes * value))) : bytes :=
  match args with None => [] | Some fs => enc_args fs end.
Fixpoint enc_sel (s : sel) : bytes :=
  match s with
  | SField alias name dirs args subs =>
      let body := enc_names alias name ++ enc_dirs dirs ++ enc_opt_args args ++ flat_map enc_sel subs ++ [0; 101] in
      [0; 102; nlen dirs] ++ le32 (nlen body) ++ le32 (fnv1 name) ++ body
  | SSpread name dirs =>
      let body := name ++ enc_dirs dirs in
      [0; 115; 102; nlen dirs] ++ le32 (nlen body) ++ body
  | SInline tname dirs subs =>
      let body := tname ++ enc_dirs dirs ++ flat_map enc_sel subs ++ [0; 101] in
      [0; 115; 116; nlen dirs] ++ le32 (nlen body) ++ body
  end.
Definition enc_sels (ss : list sel) : bytes := flat_map enc_sel ss.

(** types: bytecode.go 379-437 and the bytecodeType strings of bytecode_test.go *)
Fixpoint enc_type (t : tyref) : bytes :=
  match t with
  | TyName n nn => (if nn : bool then 78 else 110) :: n
  | TyList t nn => (if nn : bool then 76 else 108) :: enc_type t
  end.

(** testing_framework.go 109-127: testOperatorArg.toBytes *)
Definition enc_oparg (a : oparg) : bytes :=
  let body := oa_name a ++ [0] ++ enc_type (oa_type a) ++ [0]
              ++ match oa_default a with None => [102] | Some v => 116 :: enc_value v end in
  [0; 97] ++ le32 (nlen body + 5) ++ body.

Definition kind_byte (k : opkind) : N :=
  match k with OpQuery => 113 | OpMutation => 109 | OpSubscription => 115 end.

(** testing_framework.go 24-59 and 67-79: testOperator.toBytes, testFragment.toBytes *)
Definition enc_opargs (args : option (list oparg)) : bytes :=
  match args with
  | None => []
  | Some l => let body := [0; 65] ++ flat_map enc_oparg l ++ [0; 101] in
              [0] ++ le32 (nlen body) ++ body
  end.
Definition enc_def (d : definition) : bytes :=
  match d with
  | DOp k name args dirs sels =>
      [0; 111; kind_byte k; (match args with None => 102 | Some _ => 116 end); nlen dirs]
      ++ name ++ enc_opargs args ++ enc_dirs dirs ++ enc_sels sels ++ [0; 101]
  | DFrag name tname sels =>
      [0; 70] ++ name ++ [0] ++ tname ++ enc_sels sels ++ [0; 101]
  end.
Definition enc_doc (d : document) : bytes := flat_map enc_def d.

(** ** What the parser reports besides the bytecode *)

(** Position, just behind the leading zero, of every fragment definition. *)
Fixpoint frag_locs (off : nat) (d : document) : list nat :=
  match d with
  | [] => []
  | x :: r =>
      (match x with DFrag _ _ _ => [(off + 1)%nat] | _ => [] end)
      ++ frag_locs (off + length (enc_def x)) r
  end.

(** The selected operation: its position in the bytecode. Without target (or with an empty
    one) the last operation, otherwise the last operation with the name of the target. *)
Definition op_selected (target : option bytes) (d : definition) : bool :=
  match d with
  | DFrag _ _ _ => false
  | DOp _ name _ _ _ =>
      match target with
      | None | Some [] => true
      | Some t => if bytes_eq_dec name t then true else false
      end
  end.
Fixpoint target_loc (target : option bytes) (off : nat) (d : document) (cur : option nat) : option nat :=
  match d with
  | [] => cur
  | x :: r => target_loc target (off + length (enc_def x)) r
                (if op_selected target x then Some off else cur)
  end.
