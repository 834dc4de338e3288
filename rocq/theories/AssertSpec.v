(** * Specification vocabulary: reports and orders.  Nothing here models code of /repo. *)
From Coq Require Import String NArith ZArith QArith Bool List.
From Verif Require Import Base FloatSpec.
Import ListNotations.
Open Scope N_scope.

(** ** Lines *)
(** [has_lines m ls]: the text [m] consists of these lines; a newline at the end begins no further line *)
Definition ended (l : bytes) : bytes := l ++ [10].
Definition has_lines (m : bytes) (ls : list bytes) : Prop :=
  Forall (fun l => ~ In 10 l) ls /\
  (m = concat (map ended ls) \/ exists init last, ls = init ++ [last] /\ last <> [] /\ m = concat (map ended init) ++ last).
(** a line as it is written: without the carriage return that it may end with *)
Definition written (l w : bytes) : Prop := l = w ++ [13] \/ (l = w /\ forall x, l <> x ++ [13]).
(** the lines up to the first one that has more than 65535 bytes *)
Definition short (l : bytes) : Prop := N.of_nat (length l) < 65536.
Definition until_long (ls shown : list bytes) : Prop :=
  exists after, ls = shown ++ after /\ Forall short shown /\ match after with [] => True | l :: _ => ~ short l end.

(** ** Reports: a table of two columns *)
(** a row: a tab, the left column, a tab, the right column, a newline *)
Definition row (lr : bytes * bytes) : bytes := [9] ++ fst lr ++ [9] ++ snd lr ++ [10].
Definition blank (l : bytes) : Prop := exists n, l = repeat 32 n.
(** [block w label lines rows]: [rows] show the lines, with the label before the first; [w] is the width of the left column *)
Inductive block (w : nat) (label : bytes) : list bytes -> list (bytes * bytes) -> Prop :=
| block_intro : forall sp lines first rest bl,
    blank sp -> length (label ++ [58] ++ sp) = w -> blank bl -> length bl = w ->
    (lines = first :: rest \/ (lines = [] /\ first = [] /\ rest = [])) ->
    block w label lines ((label ++ [58] ++ sp, first) :: map (fun l => (bl, l)) rest).
(** [report content text]: all the labelled contents, one below the other, in a left column that is just wide enough *)
Definition report (content : list (bytes * bytes)) (text : bytes) : Prop :=
  exists w blocks,
    text = concat (map row (concat blocks)) /\
    (forall c, In c content -> (length (fst c) + 1 <= w)%nat) /\ (content = [] \/ exists c, In c content /\ w = (length (fst c) + 1)%nat) /\
    Forall2 (fun c b => exists ls shown ws, has_lines (snd c) ls /\ until_long ls shown /\ Forall2 written shown ws /\ block w (fst c) ws b) content blocks.

(** ** Orders *)
(** the numbers that a float can be *)
Inductive number := Minus_inf | Number (q : Q) | Plus_inf.
Definition number_lt (x y : number) : Prop :=
  match x, y with
  | Minus_inf, Minus_inf => False | Minus_inf, _ => True
  | Number a, Number b => (a < b)%Q
  | Number _, Plus_inf => True
  | _, _ => False
  end.
Definition number_eq (x y : number) : Prop :=
  match x, y with Minus_inf, Minus_inf | Plus_inf, Plus_inf => True | Number a, Number b => (a == b)%Q | _, _ => False end.
Definition with_sign (neg : bool) (v : Q) : Q := if neg then (- v)%Q else v.
Inductive is_number : N -> number -> Prop :=
| is_finite : forall b neg v, finite f64 b neg v -> is_number b (Number (with_sign neg v))
| is_plus : is_number (infinity f64 false) Plus_inf
| is_minus : is_number (infinity f64 true) Minus_inf.
(** strings, byte by byte *)
Definition before (a b : bytes) : Prop :=
  exists p, (exists y s, a = p /\ b = p ++ y :: s) \/ (exists x r y s, a = p ++ x :: r /\ b = p ++ y :: s /\ x < y).
