(** * The grammar of accepted queries (specification).

    Relations [g_x : x -> text -> rest -> Prop]: the beginning of [text] reads as [x] and
    [rest] is what follows.  There are no positions, no bytecode, no error handling. *)
From Coq Require Import String NArith Bool List.
From Verif Require Import Base Ast.
Import ListNotations.
Open Scope N_scope.

(** ** Characters *)
Definition is_letter (c : N) : Prop := (97 <= c <= 122) \/ (65 <= c <= 90) \/ c = cUND.
Definition is_digit (c : N) : Prop := 48 <= c <= 57.
Definition is_name_char (c : N) : Prop := is_letter c \/ is_digit c.

(** A name: a letter or underscore, then letters, digits, underscores; at most 254. *)
Inductive valid_name : bytes -> Prop :=
| valid_name_intro : forall c n, is_letter c -> Forall is_name_char n ->
    (length (c :: n) <= 254)%nat -> valid_name (c :: n).

(** ** Ignored tokens: blanks, line ends, NUL, comments up to the line end *)
Fixpoint skip_ign (l : bytes) : bytes :=
  match l with
  | [] => []
  | c :: r =>
      if (c =? cSP) || (c =? cTAB) || (c =? cLF) || (c =? cCR) || (c =? cNUL) then skip_ign r
      else if c =? cHASH then skip_comment r
      else l
  end
with skip_comment (l : bytes) : bytes :=
  match l with
  | [] => []
  | c :: r => if (c =? cLF) || (c =? cCR) then skip_ign r else skip_comment r
  end.

(** Ignored tokens with at most one comma between them. *)
Definition sep (l : bytes) : bytes :=
  match skip_ign l with
  | c :: r => if c =? cCOMMA then skip_ign r else c :: r
  | [] => []
  end.

(** ** Names *)
(** The longest run of name characters is taken; the text must go on after it. *)
Inductive g_name : bytes -> bytes -> bytes -> Prop :=
| g_name_intro : forall n c r, valid_name n -> ~ is_name_char c ->
    g_name n (n ++ c :: r) (c :: r).

(** ** Numbers *)
Definition num_start (c : N) : Prop := c = cMINUS \/ c = cPLUS \/ c = cDOT \/ is_digit c.
(** digits with underscores *)
Definition digit_run (d : bytes) : Prop := Forall (fun c => is_digit c \/ c = cUND) d.
Definition strip_und (d : bytes) : bytes := filter (fun c => negb (c =? cUND)) d.
(** what may follow a number; '.' only follows where a dot is not part of the number *)
Definition num_stop (c : N) : Prop :=
  In c (bs "!$():=@[]{|},#") \/ c = cSP \/ c = cTAB \/ c = cLF \/ c = cCR \/ c = cNUL.
Inductive g_sign : bytes -> bytes -> Prop :=
| g_sign_none : g_sign [] []
| g_sign_plus : g_sign [cPLUS] []
| g_sign_minus : g_sign [cMINUS] [cMINUS].
Inductive g_exp : bytes -> bytes -> Prop :=       (* exponent: text, stored form *)
| g_exp_none : g_exp [] []
| g_exp_some : forall e sgn sgn' d, e = 101 \/ e = 69 -> g_sign sgn sgn' -> digit_run d ->
    g_exp (e :: sgn ++ d) (69 :: sgn' ++ strip_und d).
Inductive g_number : value -> bytes -> bytes -> Prop :=
| g_number_int : forall sgn sgn' d c r,
    g_sign sgn sgn' -> digit_run d -> num_stop c ->
    g_number (VInt (sgn' ++ strip_und d)) (sgn ++ d ++ c :: r) (c :: r)
| g_number_exp : forall sgn sgn' d e e' c r,
    g_sign sgn sgn' -> digit_run d -> g_exp e e' -> e <> [] -> num_stop c ->
    g_number (VFloat (sgn' ++ strip_und d ++ e')) (sgn ++ d ++ e ++ c :: r) (c :: r)
| g_number_float : forall sgn sgn' d f e e' c r,
    g_sign sgn sgn' -> digit_run d -> digit_run f -> g_exp e e' -> num_stop c ->
    g_number (VFloat (sgn' ++ strip_und d ++ cDOT :: strip_und f ++ e'))
             (sgn ++ d ++ cDOT :: f ++ e ++ c :: r) (c :: r).

(** ** Strings *)
Definition hex_digit (c v : N) : Prop :=
  (48 <= c <= 57 /\ v = c - 48) \/ (97 <= c <= 102 /\ v = c - 87) \/ (65 <= c <= 70 /\ v = c - 55).
(** one escape sequence, after the backslash: decoded form, text *)
Inductive g_escape : bytes -> bytes -> Prop :=
| esc_nul : g_escape [] [0]
| esc_b : g_escape [8] (bs "b")
| esc_f : g_escape [12] (bs "f")
| esc_n : g_escape [10] (bs "n")
| esc_r : g_escape [13] (bs "r")
| esc_t : g_escape [9] (bs "t")
| esc_u : forall c1 c2 c3 c4 v1 v2 v3 v4,
    hex_digit c1 v1 -> hex_digit c2 v2 -> hex_digit c3 v3 -> hex_digit c4 v4 ->
    g_escape (utf8_encode (v1 * 4096 + v2 * 256 + v3 * 16 + v4)) [117; c1; c2; c3; c4]
| esc_other : forall c, ~ In c [0; 10; 13; 98; 102; 110; 114; 116; 117] -> g_escape [c] [c].

Inductive g_chars : bytes -> bytes -> bytes -> Prop :=
| gc_end : forall r, g_chars [] (cQUOT :: r) r
| gc_nul : forall d l r, g_chars d l r -> g_chars d (0 :: l) r
| gc_esc : forall e d x l r, g_escape e x -> g_chars d l r -> g_chars (e ++ d) (cBSL :: x ++ l) r
| gc_plain : forall c d l r, ~ In c [0; 10; 13; cQUOT; cBSL] -> g_chars d l r -> g_chars (c :: d) (c :: l) r.

Fixpoint drop_blank (l : bytes) : bytes :=        (* spaces and tabs *)
  match l with c :: r => if (c =? cSP) || (c =? cTAB) then drop_blank r else l | [] => [] end.
Fixpoint drop_white (l : bytes) : bytes :=        (* spaces, tabs and line ends *)
  match l with
  | c :: r => if (c =? cSP) || (c =? cTAB) || (c =? cLF) || (c =? cCR) then drop_white r else l
  | [] => []
  end.
Definition triple : bytes := [cQUOT; cQUOT; cQUOT].
Definition starts_with (p l : bytes) : Prop := exists r, l = p ++ r.

Inductive g_block : bytes -> bytes -> bytes -> Prop :=
| gb_end : forall r, g_block [] (triple ++ r) r
| gb_nul : forall d l r, g_block d l r -> g_block d (0 :: l) r
| gb_quot : forall d l r, ~ starts_with triple (cQUOT :: l) -> g_block d l r -> g_block (cQUOT :: d) (cQUOT :: l) r
| gb_esc : forall e d x l r, g_escape e x -> g_block d l r -> g_block (e ++ d) (cBSL :: x ++ l) r
| gb_lf : forall d l r, g_block d (drop_blank l) r -> g_block (10 :: d) (10 :: l) r
| gb_crlf : forall d l r, g_block d (drop_blank l) r -> g_block (13 :: 10 :: d) (13 :: 10 :: l) r
| gb_cr : forall d l r, ~ starts_with [10] l -> g_block d (drop_blank l) r -> g_block (13 :: d) (13 :: l) r
| gb_plain : forall c d l r, ~ In c [0; 10; 13; cQUOT; cBSL] -> g_block d l r -> g_block (c :: d) (c :: l) r.

(** line ends and spaces at the end of a block string are dropped *)
Fixpoint drop_trail (l : bytes) : bytes :=
  match l with c :: r => if (c =? cLF) || (c =? cCR) || (c =? cSP) then drop_trail r else l | [] => [] end.
Definition trim_end (d : bytes) : bytes := rev (drop_trail (rev d)).

Inductive g_string : bytes -> bytes -> bytes -> Prop :=
| g_string_plain : forall d l r, ~ starts_with triple (cQUOT :: l) -> g_chars d l r -> g_string d (cQUOT :: l) r
| g_string_block : forall d l r, g_block d (drop_white l) r -> g_string (trim_end d) (triple ++ l) r.

(** ** Values *)
Definition no_name_follows (l : bytes) : Prop := match l with [] => True | c :: _ => ~ is_name_char c end.

Inductive g_value : value -> bytes -> bytes -> Prop :=
| gv_var : forall l l1 n r, skip_ign l = cDOLLAR :: l1 -> g_name n l1 r -> g_value (VVar n) l r
| gv_num : forall l c l1 v r, skip_ign l = c :: l1 -> num_start c -> g_number v (c :: l1) r -> g_value v l r
| gv_str : forall l l1 d r, skip_ign l = cQUOT :: l1 -> g_string d (cQUOT :: l1) r -> g_value (VStr d) l r
| gv_true : forall l r, skip_ign l = bs "true" ++ r -> no_name_follows r -> g_value (VBool true) l r
| gv_false : forall l r, skip_ign l = bs "false" ++ r -> no_name_follows r -> g_value (VBool false) l r
| gv_null : forall l r, skip_ign l = bs "null" ++ r -> no_name_follows r -> g_value VNull l r
| gv_enum : forall l n r, g_name n (skip_ign l) r ->
    ~ In n [bs "true"; bs "false"; bs "null"] -> g_value (VEnum n) l r
| gv_list0 : forall l l1 r, skip_ign l = cLBRK :: l1 -> skip_ign l1 = cRBRK :: r -> g_value (VList []) l r
| gv_list : forall l l1 c l2 vs r, skip_ign l = cLBRK :: l1 -> skip_ign l1 = c :: l2 -> c <> cRBRK ->
    g_items vs (c :: l2) r -> g_value (VList vs) l r
| gv_obj : forall l l1 fs r, skip_ign l = cLBR :: l1 -> g_assign cRBR fs l1 r -> g_value (VObj fs) l r
with g_items : list value -> bytes -> bytes -> Prop :=
| gi_last : forall v l l1 r, g_value v l l1 -> sep l1 = cRBRK :: r -> g_items [v] l r
| gi_more : forall v vs l l1 c l2 r, g_value v l l1 -> sep l1 = c :: l2 -> c <> cRBRK ->
    g_items vs (c :: l2) r -> g_items (v :: vs) l r
(** assignments up to the closing character *)
with g_assign : N -> list (bytes * value) -> bytes -> bytes -> Prop :=
| ga_none : forall cl l r, skip_ign l = cl :: r -> g_assign cl [] l r
| ga_some : forall cl l c l1 fs r, skip_ign l = c :: l1 -> c <> cl -> g_fields cl fs (c :: l1) r -> g_assign cl fs l r
with g_fields : N -> list (bytes * value) -> bytes -> bytes -> Prop :=
| gf_last : forall cl n v l l1 l2 l3 r, g_name n l l1 -> skip_ign l1 = cCOLON :: l2 -> g_value v l2 l3 ->
    sep l3 = cl :: r -> g_fields cl [(n, v)] l r
| gf_more : forall cl n v fs l l1 l2 l3 c l4 r, g_name n l l1 -> skip_ign l1 = cCOLON :: l2 -> g_value v l2 l3 ->
    sep l3 = c :: l4 -> c <> cl -> g_fields cl fs (c :: l4) r -> g_fields cl ((n, v) :: fs) l r.

(** ** Directives; the rest starts at the next token *)
Inductive g_dirs : list directive -> bytes -> bytes -> Prop :=
| gd_none : forall l c r, skip_ign l = c :: r -> c <> cAT -> g_dirs [] l (c :: r)
| gd_plain : forall l l1 n l2 c l3 ds r, skip_ign l = cAT :: l1 -> g_name n l1 l2 ->
    skip_ign l2 = c :: l3 -> c <> cLPAR -> g_dirs ds (c :: l3) r -> g_dirs (Dir n None :: ds) l r
| gd_args : forall l l1 n l2 l3 fs l4 ds r, skip_ign l = cAT :: l1 -> g_name n l1 l2 ->
    skip_ign l2 = cLPAR :: l3 -> g_assign cRPAR fs l3 l4 -> g_dirs ds l4 r -> g_dirs (Dir n (Some fs) :: ds) l r.

Definition few {A} (l : list A) : Prop := (length l <= 255)%nat.

(** ** Selections; text and rest start at a token *)
Inductive g_alias : option bytes -> bytes -> bytes -> bytes -> Prop :=
| gal_none : forall n l l1 c r, g_name n l l1 -> skip_ign l1 = c :: r -> c <> cCOLON -> g_alias None n l (c :: r)
| gal_some : forall a n l l1 l2 l3 c r, g_name a l l1 -> skip_ign l1 = cCOLON :: l2 ->
    g_name n (skip_ign l2) l3 -> skip_ign l3 = c :: r -> g_alias (Some a) n l (c :: r).
Inductive g_opt_args : option (list (bytes * value)) -> bytes -> bytes -> Prop :=
| goa_none : forall c l, c <> cLPAR -> g_opt_args None (c :: l) (c :: l)
| goa_some : forall l fs l1 c r, g_assign cRPAR fs l l1 -> skip_ign l1 = c :: r ->
    g_opt_args (Some fs) (cLPAR :: l) (c :: r).

Inductive g_sel : sel -> bytes -> bytes -> Prop :=
| gs_field : forall al n ds args ss l l1 l2 l3 r,
    g_alias al n l l1 -> g_dirs ds l1 l2 -> few ds -> g_opt_args args l2 l3 -> g_opt_set ss l3 r ->
    g_sel (SField al n ds args ss) l r
| gs_spread : forall n ds l l1 l2,
    (~ exists t, skip_ign l = bs "on" ++ t /\ no_name_follows t) ->
    g_name n (skip_ign l) l1 -> g_dirs ds l1 l2 -> few ds ->
    g_sel (SSpread n ds) (bs "..." ++ l) l2
| gs_inline : forall n ds ss l l1 l2 l3 l4 c r,
    skip_ign l = bs "on" ++ l1 -> no_name_follows l1 ->
    g_name n (skip_ign l1) l2 -> g_dirs ds l2 (cLBR :: l3) -> few ds ->
    g_selset ss l3 l4 -> skip_ign l4 = c :: r ->
    g_sel (SInline n ds ss) (bs "..." ++ l) (c :: r)
with g_opt_set : list sel -> bytes -> bytes -> Prop :=
| gos_none : forall c l, c <> cLBR -> g_opt_set [] (c :: l) (c :: l)
| gos_some : forall l ss l1 c r, g_selset ss l l1 -> skip_ign l1 = c :: r -> g_opt_set ss (cLBR :: l) (c :: r)
with g_selset : list sel -> bytes -> bytes -> Prop :=       (* behind the opening bracket *)
| gss_empty : forall l r, skip_ign l = cRBR :: r -> g_selset [] l r
| gss_some : forall l c l1 ss r, skip_ign l = c :: l1 -> c <> cRBR -> g_sels ss (c :: l1) r -> g_selset ss l r
with g_sels : list sel -> bytes -> bytes -> Prop :=
| gsl_last : forall s l l1 r, g_sel s l l1 -> sep l1 = cRBR :: r -> g_sels [s] l r
| gsl_more : forall s ss l l1 c l2 r, g_sel s l l1 -> sep l1 = c :: l2 -> c <> cRBR ->
    g_sels ss (c :: l2) r -> g_sels (s :: ss) l r.

(** ** Types and operation arguments *)
Inductive g_type : tyref -> bytes -> bytes -> Prop :=
| gt_name : forall n l l1 c r, g_name n l l1 -> skip_ign l1 = c :: r -> c <> cBANG -> g_type (TyName n false) l (c :: r)
| gt_name_nn : forall n l l1 r, g_name n l l1 -> skip_ign l1 = cBANG :: r -> g_type (TyName n true) l r
| gt_list : forall t l l1 c r, g_type t (skip_ign l) l1 -> skip_ign l1 = cRBRK :: c :: r -> c <> cBANG ->
    g_type (TyList t false) (cLBRK :: l) (c :: r)
| gt_list_nn : forall t l l1 r, g_type t (skip_ign l) l1 -> skip_ign l1 = cRBRK :: cBANG :: r ->
    g_type (TyList t true) (cLBRK :: l) r.

Inductive g_default : option value -> bytes -> bytes -> Prop :=
| gdf_none : forall l c r, skip_ign l = c :: r -> c <> cEQ -> g_default None l (c :: r)
| gdf_some : forall l l1 v r, skip_ign l = cEQ :: l1 -> g_value v l1 r -> g_default (Some v) l r.

Inductive g_opargs : list oparg -> bytes -> bytes -> Prop :=  (* behind the opening bracket *)
| gop_end : forall l r, sep l = cRPAR :: r -> g_opargs [] l r
| gop_more : forall l l1 n l2 l3 t l4 d l5 rest r, sep l = cDOLLAR :: l1 ->
    g_name n l1 l2 -> skip_ign l2 = cCOLON :: l3 -> g_type t (skip_ign l3) l4 -> g_default d l4 l5 ->
    g_opargs rest l5 r -> g_opargs (OpArg n t d :: rest) l r.

(** ** Definitions and documents; a definition starts at a token *)
Definition op_keyword (k : opkind) : bytes :=
  match k with OpQuery => bs "query" | OpMutation => bs "mutation" | OpSubscription => bs "subscription" end.

Inductive g_opname : bytes -> bytes -> bytes -> Prop :=
| gon_none : forall c l, ~ is_letter c -> g_opname [] (c :: l) (c :: l)
| gon_some : forall n l r, g_name n l r -> g_opname n l r.
Inductive g_opt_opargs : option (list oparg) -> bytes -> bytes -> Prop :=
| goo_none : forall l c r, skip_ign l = c :: r -> c <> cLPAR -> g_opt_opargs None l (c :: r)
| goo_some : forall l l1 args r, skip_ign l = cLPAR :: l1 -> g_opargs args l1 r -> g_opt_opargs (Some args) l r.

Inductive g_def : definition -> bytes -> bytes -> Prop :=
| gdef_anon : forall ss l r, g_selset ss l r -> g_def (DOp OpQuery [] None [] ss) (cLBR :: l) r
| gdef_op : forall k n args ds ss l l1 l2 l3 r,
    g_opname n (skip_ign l) l1 -> g_opt_opargs args l1 l2 -> g_dirs ds l2 (cLBR :: l3) -> few ds ->
    g_selset ss l3 r -> g_def (DOp k n args ds ss) (op_keyword k ++ l) r
| gdef_frag : forall n t ss l l1 l2 l3 l4 r,
    g_name n (skip_ign l) l1 -> skip_ign l1 = bs "on" ++ l2 -> g_name t (skip_ign l2) l3 ->
    skip_ign l3 = cLBR :: l4 -> g_selset ss l4 r -> g_def (DFrag n t ss) (bs "fragment" ++ l) r.

Inductive g_doc : document -> bytes -> Prop :=
| gdoc_end : forall l, skip_ign l = [] -> g_doc [] l
| gdoc_more : forall d ds l r, g_def d (skip_ign l) r -> g_doc ds r -> g_doc (d :: ds) l.
