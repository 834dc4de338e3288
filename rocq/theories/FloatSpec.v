(** * Specification vocabulary: floating point numbers (IEEE 754) and decimal texts.
    Nothing here models code of /repo; rational numbers are those of the standard library. *)
From Coq Require Import String NArith ZArith QArith Qabs Bool List.
From Verif Require Import Base Json.
Import ListNotations.
Open Scope N_scope.

(** A binary interchange format: how many bits the mantissa and the exponent have. *)
Record format := Format { f_mant : N; f_exp : N }.
Definition f64 : format := Format 52 11.
Definition f32 : format := Format 23 8.
Definition bias (F : format) : N := 2 ^ (f_exp F - 1) - 1.
(** sign, exponent and mantissa as one number *)
Definition bit_pattern (F : format) (neg : bool) (e m : N) : N :=
  (if neg then 2 ^ (f_exp F + f_mant F) else 0) + e * 2 ^ f_mant F + m.
Definition pow2 (e : Z) : Q := Qpower (inject_Z 2) e.
Definition pow10 (e : Z) : Q := Qpower (inject_Z 10) e.
Definition rat (n : N) : Q := inject_Z (Z.of_N n).
(** [finite F b neg v]: [b] is the bit pattern of a finite number with this sign and the magnitude [v] *)
Inductive finite (F : format) : N -> bool -> Q -> Prop :=
| fin_small : forall neg m, m < 2 ^ f_mant F ->
    finite F (bit_pattern F neg 0 m) neg (rat m * pow2 (1 - Z.of_N (bias F) - Z.of_N (f_mant F)))
| fin_normal : forall neg e m, 0 < e -> e < 2 ^ f_exp F - 1 -> m < 2 ^ f_mant F ->
    finite F (bit_pattern F neg e m) neg (rat (2 ^ f_mant F + m) * pow2 (Z.of_N e - Z.of_N (bias F) - Z.of_N (f_mant F))).
Definition infinity (F : format) (neg : bool) : N := bit_pattern F neg (2 ^ f_exp F - 1) 0.

(** [nearest F neg r b]: of all numbers of the format with this sign [b] is the one whose magnitude is
    nearest to [r]; if there are two, the one with even mantissa. *)
Definition nearest (F : format) (neg : bool) (r : Q) (b : N) : Prop :=
  exists v, finite F b neg v /\
    forall b' v', finite F b' neg v' ->
      (Qabs (v - r) <= Qabs (v' - r))%Q /\ (Qabs (v - r) == Qabs (v' - r) -> b' = b \/ N.Even b)%Q.
(** the largest number of the format, and what is nearer to the next power of two (or as near) *)
Definition largest (F : format) : Q := (rat (2 ^ (f_mant F + 1) - 1) * pow2 (Z.of_N (bias F) - Z.of_N (f_mant F)))%Q.
Definition too_large (F : format) (r : Q) : Prop := (largest F + pow2 (Z.of_N (bias F) + 1) <= inject_Z 2 * r)%Q.

(** Decimal texts: sign, digits, fraction, exponent.  [decimal t neg r]: the sign and the magnitude. *)
Definition fraction (t fd : bytes) : Prop := (t = [] /\ fd = []) \/ t = 46 :: fd.
Definition exponent (t : bytes) (x : Z) : Prop :=
  (t = [] /\ x = 0%Z) \/
  exists e s d n, t = e :: s ++ d /\ (e = 101 \/ e = 69) /\ dec_value d = Some n /\
    (((s = [] \/ s = [43]) /\ x = Z.of_N n) \/ (s = [45] /\ x = (- Z.of_N n)%Z)).
Inductive decimal : bytes -> bool -> Q -> Prop :=
| decimal_intro : forall s i f fd e neg n x,
    ((s = [] \/ s = [43]) /\ neg = false) \/ (s = [45] /\ neg = true) ->
    fraction f fd -> exponent e x -> dec_value (i ++ fd) = Some n ->
    decimal (s ++ i ++ f ++ e) neg (rat n * pow10 (x - Z.of_nat (length fd))).
(** the text [t], read with correct rounding, gives the number [b] *)
Definition reads_as (F : format) (t : bytes) (b : N) : Prop :=
  exists neg r, decimal t neg r /\ ~ too_large F r /\ nearest F neg r b.

(** ** The text of a number in ECMAScript (ECMA-262, Number::toString), which helpers/encodeFloat.go follows *)
(** the significant digits [d], with the point behind the n-th of them *)
Definition with_point (d : bytes) (n : Z) (r : Q) : Prop := exists m, dec_value d = Some m /\ r = (rat m * pow10 (n - Z.of_nat (length d)))%Q.
Definition es_exp (x : Z) : bytes := [101; if (x <? 0)%Z then 45 else 43] ++ dec_of_N (Z.abs_N x).
Definition es_text (d : bytes) (n : Z) : bytes :=
  let k := Z.of_nat (length d) in
  if ((k <=? n) && (n <=? 21))%Z then d ++ repeat 48 (Z.to_nat (n - k))
  else if ((0 <? n) && (n <=? 21))%Z then firstn (Z.to_nat n) d ++ [46] ++ skipn (Z.to_nat n) d
  else if ((-6 <? n) && (n <=? 0))%Z then [48; 46] ++ repeat 48 (Z.to_nat (- n)) ++ d
  else match d with
       | [] => []
       | [c] => [c] ++ es_exp (n - 1)
       | c :: r => [c; 46] ++ r ++ es_exp (n - 1)
       end.
(** the digits to take for [b], with the magnitude [v]: they are read as [b], no fewer digits are, and of all that are as
    many and are read as [b] they are the nearest to [v] *)
Definition es_digits (F : format) (b : N) (neg : bool) (v : Q) (d : bytes) (n : Z) : Prop :=
  exists r, with_point d n r /\ nearest F neg r b /\ ~ too_large F r /\ hd 48 d <> 48 /\ last d 48 <> 48 /\
    forall d' n' r', with_point d' n' r' -> nearest F neg r' b -> ~ too_large F r' ->
      (length d <= length d')%nat /\ (length d' = length d -> Qabs (r - v) <= Qabs (r' - v))%Q.
Definition es_number (F : format) (b : N) (neg : bool) (v : Q) (t : bytes) : Prop :=
  exists u, t = (if neg then [45] else []) ++ u /\
    ((v == 0 /\ u = [48]%N) \/ (~ v == 0 /\ exists d n, es_digits F b neg v d n /\ u = es_text d n))%Q.
