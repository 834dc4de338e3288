(** * Texts that differ only in what stands between their tokens (specification).

    Modelled: bytecode/bytecode.go mightIgnoreNextTokens (1116-1130), isIgnoredToken (1137-1140),
    isComment and parseComment (1159-1179), seen from outside: which texts a reader of GraphQL takes for the same
    sequence of tokens. *)
From Coq Require Import String NArith Bool List.
From Verif Require Import Base Ast Grammar Printer.
Import ListNotations.
Open Scope N_scope.

(** [token t r]: [t] is one token and [r] may follow it directly. *)
Inductive token : bytes -> bytes -> Prop :=
| tk_name : forall c t r, is_letter c -> Forall is_name_char t -> no_name_follows r -> token (c :: t) r
| tk_num : forall c t r, num_start c -> Forall (fun x => is_digit x \/ In x (bs "_.eE+-")) t ->
    ~ starts_with (bs "...") (c :: t) -> match r with [] => True | x :: _ => num_stop x end -> token (c :: t) r
| tk_str : forall d t r, g_string d (t ++ r) r -> token t r
| tk_dots : forall r, token (bs "...") r
| tk_punct : forall c r, In c (bs "!$&():=@[]{|},") -> token [c] r.

(** What the parser wants of the two texts behind one token, besides the same tokens: a name is
    glued to the $ or @ in front of it, the ! of a list type is glued to its ], and a text that
    stops must stop in both (only a closing curly bracket can end a document). *)
Record glue (t r r' : bytes) : Prop := {
  gl_name : t = bs "$" \/ t = bs "@" -> (skip_ign r = r <-> skip_ign r' = r');
  gl_bang : t = bs "]" -> (starts_with (bs "!") r <-> starts_with (bs "!") r');
  gl_end : t <> bs "}" -> (r = [] <-> r' = [])
}.

(** The same tokens with any ignored text between them; where a text is no sequence of tokens
    any more, the rests have to agree. *)
Inductive same : bytes -> bytes -> Prop :=
| same_rest : forall l l', skip_ign l = skip_ign l' -> same l l'
| same_token : forall l l' t r r', skip_ign l = t ++ r -> skip_ign l' = t ++ r' ->
    token t r -> token t r' -> glue t r r' -> same r r' -> same l l'.

(** [boundary pre suf]: in the text [pre ++ suf], ignored text may stand between the two parts:
    [pre] is made of whole tokens and ignored text, and does not end with a $ or @, nor with a ]
    followed by !. *)
Inductive boundary : bytes -> bytes -> Prop :=
| bd_start : forall suf, boundary [] suf
| bd_gap : forall w pre suf, ignored w -> boundary pre suf -> boundary (w ++ pre) suf
| bd_token : forall t pre suf, token t (pre ++ suf) -> boundary pre suf ->
    (pre = [] -> t <> bs "$" /\ t <> bs "@" /\ ~ (t = bs "]" /\ starts_with (bs "!") suf)) ->
    boundary (t ++ pre) suf.
