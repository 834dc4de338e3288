(** * Writing documents as text (specification)

    A canonical printer.  The text between two tokens is a parameter [w]: any non-empty
    ignored text.  Nothing here refers to the parser. *)
From Coq Require Import String NArith Bool List.
From Verif Require Import Base Ast Grammar.
Import ListNotations.
Open Scope N_scope.

(** Ignored text: blanks, line ends, and comments ended by a line end. *)
Inductive ignored : bytes -> Prop :=
| ig_blank : forall c, In c [cSP; cTAB; cLF; cCR] -> ignored [c]
| ig_comment : forall body e, Forall (fun c => ~ In c [cLF; cCR]) body -> In e [cLF; cCR] -> ignored (cHASH :: body ++ [e])
| ig_app : forall a b, ignored a -> ignored b -> ignored (a ++ b).

(** ** Which documents can be written *)
Definition int_lit (l : bytes) : Prop :=
  exists s d, (s = [] \/ s = [cMINUS]) /\ Forall is_digit d /\ d <> [] /\ l = s ++ d.
Definition exp_lit (l : bytes) : Prop := exists z, int_lit z /\ l = 69 :: z.
Definition float_lit (l : bytes) : Prop :=
  exists z, int_lit z /\
    ((exists e, exp_lit e /\ l = z ++ e)
     \/ exists f e, Forall is_digit f /\ (e = [] \/ exp_lit e) /\ l = z ++ cDOT :: f ++ e).

Fixpoint legal_value (v : value) : Prop :=
  match v with
  | VVar n => valid_name n
  | VInt l => int_lit l
  | VFloat l => float_lit l
  | VStr _ | VBool _ | VNull => True
  | VEnum n => valid_name n /\ ~ In n [bs "true"; bs "false"; bs "null"]
  | VList vs => (fix all l := match l with [] => True | x :: r => legal_value x /\ all r end) vs
  | VObj fs => (fix all (l : list (bytes * value)) :=
                  match l with [] => True | (n, x) :: r => valid_name n /\ legal_value x /\ all r end) fs
  end.
Definition legal_args (fs : list (bytes * value)) : Prop := legal_value (VObj fs).
Definition legal_opt_args (a : option (list (bytes * value))) : Prop :=
  match a with None => True | Some fs => legal_args fs end.
Definition legal_dir (d : directive) : Prop := valid_name (d_name d) /\ legal_opt_args (d_args d).
Definition legal_dirs (ds : list directive) : Prop := Forall legal_dir ds /\ (length ds <= 255)%nat.
(** The parser reads the directives of a field before its arguments and takes a bracket
    behind a directive as the arguments of the directive.  So arguments can only be
    written if the last directive has arguments itself. *)
Fixpoint closed_dirs (ds : list directive) : Prop :=
  match ds with [] => True | [d] => d_args d <> None | _ :: r => closed_dirs r end.
Fixpoint legal_sel (s : sel) : Prop :=
  match s with
  | SField al n ds args ss =>
      match al with None => True | Some a => valid_name a end /\ valid_name n /\ legal_dirs ds /\ legal_opt_args args /\
      (args <> None -> closed_dirs ds) /\
      (fix all l := match l with [] => True | x :: r => legal_sel x /\ all r end) ss
  | SSpread n ds => valid_name n /\ n <> bs "on" /\ legal_dirs ds
  | SInline n ds ss => valid_name n /\ legal_dirs ds /\
      (fix all l := match l with [] => True | x :: r => legal_sel x /\ all r end) ss
  end.
Fixpoint legal_type (t : tyref) : Prop :=
  match t with TyName n _ => valid_name n | TyList t _ => legal_type t end.
Definition legal_oparg (a : oparg) : Prop :=
  valid_name (oa_name a) /\ legal_type (oa_type a) /\ match oa_default a with None => True | Some v => legal_value v end.
Definition legal_def (d : definition) : Prop :=
  match d with
  | DOp _ n args ds ss =>
      (n = [] \/ valid_name n) /\ match args with None => True | Some l => Forall legal_oparg l end /\
      legal_dirs ds /\ Forall legal_sel ss
  | DFrag n t ss => valid_name n /\ valid_name t /\ Forall legal_sel ss
  end.
Definition legal_doc (d : document) : Prop := Forall legal_def d.

(** ** The text *)
Section Print.
Variable w : bytes.

(** one character of a string literal *)
Definition p_char (c : N) : bytes :=
  if c =? 0 then bs "\u0000"
  else if c =? cLF then bs "\n"
  else if c =? cCR then bs "\r"
  else if c =? cQUOT then [cBSL; cQUOT]
  else if c =? cBSL then [cBSL; cBSL]
  else [c].

Fixpoint p_value (v : value) : bytes :=
  match v with
  | VVar n => cDOLLAR :: n
  | VInt l => l
  | VFloat l => l
  | VStr s => cQUOT :: flat_map p_char s ++ [cQUOT]
  | VBool b => if b then bs "true" else bs "false"
  | VNull => bs "null"
  | VEnum n => n
  | VList vs => cLBRK :: w ++ flat_map (fun v => p_value v ++ w) vs ++ [cRBRK]
  | VObj fs => cLBR :: w ++ flat_map (fun nv => fst nv ++ w ++ cCOLON :: w ++ p_value (snd nv) ++ w) fs ++ [cRBR]
  end.
Definition p_fields (fs : list (bytes * value)) : bytes :=
  flat_map (fun nv => fst nv ++ w ++ cCOLON :: w ++ p_value (snd nv) ++ w) fs.
Definition p_opt_args (a : option (list (bytes * value))) : bytes :=
  match a with None => [] | Some fs => cLPAR :: w ++ p_fields fs ++ cRPAR :: w end.
Definition p_dir (d : directive) : bytes := cAT :: d_name d ++ w ++ p_opt_args (d_args d).
Definition p_dirs (ds : list directive) : bytes := flat_map p_dir ds.
Definition p_set (sels : bytes) : bytes := cLBR :: w ++ sels ++ cRBR :: w.
Fixpoint p_sel (s : sel) : bytes :=
  match s with
  | SField al n ds args ss =>
      match al with None => [] | Some a => a ++ w ++ cCOLON :: w end ++ n ++ w ++ p_dirs ds ++ p_opt_args args ++
      match ss with [] => [] | _ => p_set (flat_map p_sel ss) end
  | SSpread n ds => bs "..." ++ w ++ n ++ w ++ p_dirs ds
  | SInline n ds ss => bs "..." ++ w ++ bs "on" ++ w ++ n ++ w ++ p_dirs ds ++ p_set (flat_map p_sel ss)
  end.
Fixpoint p_type (t : tyref) : bytes :=
  match t with
  | TyName n nn => n ++ (if nn : bool then [cBANG] else [])
  | TyList t nn => cLBRK :: w ++ p_type t ++ w ++ cRBRK :: (if nn : bool then [cBANG] else [])
  end.
Definition p_oparg (a : oparg) : bytes :=
  cDOLLAR :: oa_name a ++ w ++ cCOLON :: w ++ p_type (oa_type a) ++ w ++
  match oa_default a with None => [] | Some v => cEQ :: w ++ p_value v ++ w end.
Definition p_def (d : definition) : bytes :=
  match d with
  | DOp k n args ds ss =>
      op_keyword k ++ w ++ n ++ w ++
      match args with None => [] | Some l => cLPAR :: w ++ flat_map p_oparg l ++ cRPAR :: w end ++
      p_dirs ds ++ p_set (flat_map p_sel ss)
  | DFrag n t ss => bs "fragment" ++ w ++ n ++ w ++ bs "on" ++ w ++ t ++ w ++ p_set (flat_map p_sel ss)
  end.
Definition print_doc (d : document) : bytes := flat_map p_def d.
End Print.
