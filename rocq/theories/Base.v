(** * Shared vocabulary: bytes, byte strings, 32 bit little endian numbers, UTF-8, FNV-1.

    A Go [byte] is an [N] (below 256 where that matters), a Go [[]byte] or
    [string] is a [list N].  *)
From Coq Require Import String Ascii NArith Lia Bool List.
Import ListNotations.
Open Scope N_scope.

Definition bytes := list N.

(** Go string constants in readable form (no Go counterpart; notation only). *)
Fixpoint bs (s : string) : bytes :=
  match s with
  | EmptyString => []
  | String a r => N_of_ascii a :: bs r
  end.

(** [bytes.Equal] / string equality (Go builtin), used all over /repo. *)
Fixpoint beqb (a b : bytes) : bool :=
  match a, b with
  | [], [] => true
  | x :: a', y :: b' => N.eqb x y && beqb a' b'
  | _, _ => false
  end.

Lemma beqb_eq : forall a b, beqb a b = true <-> a = b.
Proof.
  induction a; destruct b; simpl; split; intros; try easy.
  - apply andb_true_iff in H as [H1 H2]. apply N.eqb_eq in H1. apply IHa in H2. congruence.
  - inversion H; subst. rewrite N.eqb_refl. simpl. now apply IHa.
Qed.

Lemma beqb_refl : forall a, beqb a a = true.
Proof. intros; now apply beqb_eq. Qed.

Lemma beqb_neq : forall a b, beqb a b = false <-> a <> b.
Proof.
  intros. split; intros.
  - intro E. apply beqb_eq in E. congruence.
  - destruct (beqb a b) eqn:E; auto. apply beqb_eq in E. contradiction.
Qed.

Definition bytes_eq_dec (a b : bytes) : {a = b} + {a <> b}.
Proof. apply list_eq_dec, N.eq_dec. Defined.

(** Character codes used by the query language. *)
Notation cNUL := 0 (only parsing).
Notation cTAB := 9 (only parsing).
Notation cLF := 10 (only parsing).
Notation cCR := 13 (only parsing).
Notation cSP := 32 (only parsing).
Notation cBANG := 33 (only parsing).
Notation cQUOT := 34 (only parsing).
Notation cHASH := 35 (only parsing).
Notation cDOLLAR := 36 (only parsing).
Notation cLPAR := 40 (only parsing).
Notation cRPAR := 41 (only parsing).
Notation cPLUS := 43 (only parsing).
Notation cCOMMA := 44 (only parsing).
Notation cMINUS := 45 (only parsing).
Notation cDOT := 46 (only parsing).
Notation cCOLON := 58 (only parsing).
Notation cEQ := 61 (only parsing).
Notation cAT := 64 (only parsing).
Notation cLBRK := 91 (only parsing).
Notation cBSL := 92 (only parsing).
Notation cRBRK := 93 (only parsing).
Notation cUND := 95 (only parsing).
Notation cLBR := 123 (only parsing).
Notation cBAR := 124 (only parsing).
Notation cRBR := 125 (only parsing).

(** Little endian encoding of [uint32(n)]: bytecode/bytecode.go 80-85 (writeUint32),
    bytecode/testing_framework.go 8-14 (writeUint32At).  The [mod] is Go's
    conversion to uint32 and the shifts/masks of the code. *)
Definition le32 (n : N) : bytes :=
  [ n mod 256; (n / 256) mod 256; (n / 65536) mod 256; (n / 16777216) mod 256 ].

Lemma le32_length : forall n, length (le32 n) = 4%nat.
Proof. reflexivity. Qed.

(** FNV-1 32 bit: Go library hash/fnv New32 (used in bytecode/bytecode.go 37, 574-580 and
    parse.go getObjKey). *)
Definition fnv1_step (h b : N) : N := N.lxor ((h * 16777619) mod 4294967296) b.
Definition fnv1 (name : bytes) : N := fold_left fnv1_step name 2166136261.

(** Go library unicode/utf8 EncodeRune (and [string(c)] for a byte [c]):
    surrogates and values above 0x10FFFF give U+FFFD. *)
Definition utf8_encode (r : N) : bytes :=
  if r <=? 127 then [r]
  else if r <=? 2047 then [192 + r / 64; 128 + r mod 64]
  else if ((55296 <=? r) && (r <=? 57343)) || (1114111 <? r) then [239; 191; 189]
  else if r <=? 65535 then [224 + r / 4096; 128 + (r / 64) mod 64; 128 + r mod 64]
  else [240 + r / 262144; 128 + (r / 4096) mod 64; 128 + (r / 64) mod 64; 128 + r mod 64].

(** Decimal digits of a natural number: Go library strconv.AppendUint/Itoa.
    Fuel is the binary size of the number, which bounds the number of digits. *)
Fixpoint dec_digits (fuel : nat) (n : N) (acc : bytes) : bytes :=
  match fuel with
  | O => acc
  | S f => let acc' := (48 + n mod 10) :: acc in
           if n / 10 =? 0 then acc' else dec_digits f (n / 10) acc'
  end.
Definition dec_of_N (n : N) : bytes := dec_digits (S (N.size_nat n)) n [].
