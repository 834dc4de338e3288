(** * Line and column of a place in a text (specification) *)
From Coq Require Import NArith Bool List.
From Verif Require Import Base.
Import ListNotations.
Open Scope N_scope.

Definition line_char (c : N) : Prop := c <> cLF /\ c <> cCR.
(** [line_end t rest]: [t] ends a line that is followed by [rest]; CR LF is one line end *)
Definition line_end (t rest : bytes) : Prop :=
  t = [cLF] \/ t = [cCR; cLF] \/ (t = [cCR] /\ forall r, rest <> cLF :: r).

(** [text_pos l line col]: behind the text [l] one is in line [line] (from 1), and [col]
    characters of this line were read. *)
Inductive text_pos : bytes -> N -> N -> Prop :=
| tp_last : forall l, Forall line_char l -> text_pos l 1 (N.of_nat (length l))
| tp_line : forall l t rest line col, Forall line_char l -> line_end t rest -> text_pos rest line col ->
    text_pos (l ++ t ++ rest) (line + 1) col.
