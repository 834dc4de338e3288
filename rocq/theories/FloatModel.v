(** * Model of floating point numbers: helpers/encodeFloat.go, and what resolver.go asks of strconv and of conversions

    A float is given by its bits.  The part of the bits without the sign is called [a] here: it grows with
    the magnitude, [mag F a] is the magnitude in units of the smallest positive number of the format, and
    2^[scale F] units are 1. *)
From Coq Require Import String Arith NArith ZArith Bool List.
From Verif Require Import Base FloatSpec ResModel.
Import ListNotations.
Open Scope N_scope.

(** ** Numbers of a format (math.Float64bits and the like; strconv/ftoa.go floatInfo) *)
Definition scale (F : format) : N := bias F + f_mant F - 1.
Definition sign_bit (F : format) : N := 2 ^ (f_exp F + f_mant F).
Definition inf_of (F : format) : N := (2 ^ f_exp F - 1) * 2 ^ f_mant F.
Definition mag (F : format) (a : N) : N :=
  let e := a / 2 ^ f_mant F in
  let m := a mod 2 ^ f_mant F in
  if e =? 0 then m else (2 ^ f_mant F + m) * 2 ^ (e - 1).
(** round to nearest, ties to even, of p/q units; [inf_of F] or above if that is too large
    (IEEE 754, which Go prescribes for conversions and strconv documents for ParseFloat) *)
Definition round_mag (F : format) (p q : N) : N :=
  let x := p / q in
  let k := if x <? 2 ^ (f_mant F + 1) then 0 else N.log2 x - f_mant F in
  let d := q * 2 ^ k in
  let m := p / d in
  let r := p mod d in
  let m' := if 2 * r <? d then m else if d <? 2 * r then m + 1 else if N.even m then m else m + 1 in
  k * 2 ^ f_mant F + m'.
(** the number nearest to n * 10^e *)
Definition round_dec (F : format) (n : N) (e : Z) : N :=
  round_mag F (n * 10 ^ Z.to_N e * 2 ^ scale F) (10 ^ Z.to_N (- e)).
Definition signed (F : format) (neg : bool) (a : N) : N := (if neg then sign_bit F else 0) + a.
Definition neg_of (F : format) (b : N) : bool := sign_bit F <=? b.
Definition abs_of (F : format) (b : N) : N := b mod sign_bit F.

(** ** Conversions *)
(** float64(value) of an int64, resolver.go 1506 *)
Definition of_int (z : Z) : N := signed f64 (z <? 0)%Z (round_mag f64 (Z.abs_N z * 2 ^ scale f64) 1).
(** float32(x) without the sign; infinity if it is too large.  Simplification: every NaN becomes the same one. *)
Definition narrow (a : N) : N :=
  if inf_of f64 <? a then inf_of f32 + 2 ^ (f_mant f32 - 1)
  else N.min (inf_of f32) (round_mag f32 (mag f64 a) (2 ^ (scale f64 - scale f32))).
(** float64(x) of a float32 *)
Definition widen (a : N) : N :=
  if inf_of f32 <? a then inf_of f64 + 2 ^ (f_mant f64 - 1)
  else if a =? inf_of f32 then inf_of f64
  else round_mag f64 (mag f32 a * 2 ^ (scale f64 - scale f32)) 1.
(** reflect.Value.SetFloat on a float32 (resolver.go 1239, 1506, 1527) followed by Value.Float: float64(float32(x)) *)
Definition to32 (b : N) : N := signed f64 (neg_of f64 b) (widen (narrow (abs_of f64 b))).

(** ** strconv.ParseFloat(s, 64), used in resolver.go 1522 *)
(** strconv/atof.go readFloat: digits, point, digits, exponent.  The exponent stops growing at five digits,
    as there.  The texts given here come from parseNumber (bytecode.go 810-930), which takes the underscores
    out; "inf", "nan" and hexadecimal numbers cannot be stored by it and are left out here. *)
Fixpoint take_digits (s : bytes) : bytes * bytes :=
  match s with
  | c :: r => if (48 <=? c) && (c <=? 57) then let (d, t) := take_digits r in (c :: d, t) else ([], s)
  | [] => ([], [])
  end.
Definition exp_digits (d : bytes) : N := fold_left (fun e c => if e <? 10000 then e * 10 + (c - 48) else e) d 0.
Definition read_exp (s : bytes) : option Z :=
  match s with
  | [] => Some 0%Z
  | c :: r =>
      if (c =? 101) || (c =? 69) then
        let '(neg, d) := match r with 45 :: r' => (true, r') | 43 :: r' => (false, r') | _ => (false, r) end in
        if all_digits d then Some (if neg : bool then (- Z.of_N (exp_digits d))%Z else Z.of_N (exp_digits d)) else None
      else None
  end.
Definition read_float (s : bytes) : option (bool * N * Z) :=
  let '(neg, s1) := match s with 45 :: r => (true, r) | 43 :: r => (false, r) | _ => (false, s) end in
  let (i, s2) := take_digits s1 in
  let (f, s3) := match s2 with 46 :: r => take_digits r | _ => ([], s2) end in
  if all_digits (i ++ f) then
    match read_exp s3 with
    | Some x => Some (neg, dec_of (i ++ f), (x - Z.of_nat (length f))%Z)
    | None => None
    end
  else None.
(** ParseFloat: the nearest number, or an error for other texts and for numbers that are too large *)
Definition parse_float (s : bytes) : N + bytes :=
  match read_float s with
  | None => inr (num_error (bs "ParseFloat") s false)
  | Some (neg, n, e) =>
      let a := round_dec f64 n e in
      if a <? inf_of f64 then inl (signed f64 neg a) else inr (num_error (bs "ParseFloat") s true)
  end.

(** ** strconv.FormatFloat(f, fmt, -1, bits), used in helpers/encodeFloat.go 31 *)
(** the number as a decimal: [fst] times 10^-[snd] (strconv/ftoa.go bigFtoa, decimal.go Assign and Shift) *)
Fixpoint even_times (p : positive) : N := match p with xO q => N.succ (even_times q) | _ => 0 end.
Definition exact_dec (F : format) (a : N) : N * N :=
  let m := mag F a in
  let z := N.min (match m with 0 => 0 | Npos p => even_times p end) (scale F) in
  (m / 2 ^ z * 5 ^ (scale F - z), scale F - z).
(** n digits of the number 10^-[s] * [d0], which has n0 digits, that read back as [a]: the digits cut off,
    or these plus one; of both the nearer one (strconv/ftoa.go roundShortest; the algorithm that Go uses
    in its place gives the same digits, except perhaps if both are equally near) *)
Definition digits_try (F : format) (a d0 s n0 n : N) : option (N * Z) :=
  let c := 10 ^ (n0 - n) in
  let down := d0 / c in
  let rest := d0 mod c in
  let e := (Z.of_N (n0 - n) - Z.of_N s)%Z in
  let reads x := round_dec F x e =? a in
  match reads down, reads (down + 1) with
  | true, true => Some ((if (2 * rest <? c) || ((2 * rest =? c) && N.even down) then down else down + 1), e)
  | true, false => Some (down, e)
  | false, true => Some (down + 1, e)
  | false, false => None
  end.
Fixpoint digits_search (F : format) (a d0 s n0 n : N) (fuel : nat) : N * Z :=
  match fuel with
  | O => (d0, (- Z.of_N s)%Z)   (* all digits *)
  | S fuel => match digits_try F a d0 s n0 n with Some r => r | None => digits_search F a d0 s n0 (n + 1) fuel end
  end.
(** the fewest digits that read back as [a], as a number and an exponent *)
Definition shortest (F : format) (a : N) : N * Z :=
  let '(d0, s) := exact_dec F a in
  let n0 := length (dec_of_N d0) in
  digits_search F a d0 s (N.of_nat n0) 1 n0.
(** the digits without the zeros at the end, and the place of the point behind the first digit
    (strconv/ftoa.go decimalSlice) *)
Fixpoint cut_zeros (d : bytes) : bytes :=
  match d with [] => [] | c :: r => match cut_zeros r with [] => if c =? 48 then [] else [c] | r' => c :: r' end end.
Definition zeros (n : nat) : bytes := repeat 48 n.
(** strconv/ftoa.go fmtE with the shortest precision *)
Definition fmt_e (d : bytes) (dp : Z) : bytes :=
  let '(first, rest) := match d with [] => ([48], []) | c :: r => ([c], r) end in
  let x := match d with [] => 0%Z | _ => (dp - 1)%Z end in
  let ex := dec_of_N (Z.abs_N x) in
  first ++ (match rest with [] => [] | _ => 46 :: rest end) ++ [101; if (x <? 0)%Z then 45 else 43] ++
  (if (length ex <? 2)%nat then 48 :: ex else ex).
(** strconv/ftoa.go fmtF with the shortest precision *)
Definition fmt_f (d : bytes) (dp : Z) : bytes :=
  if (0 <? dp)%Z then
    let n := Z.to_nat dp in
    firstn n d ++ zeros (n - length d) ++ (match skipn n d with [] => [] | _ => 46 :: skipn n d end)
  else match d with
       | [] => [48]
       | _ => [48; 46] ++ zeros (Z.to_nat (- dp)) ++ d
       end.
Definition format_float (F : format) (neg : bool) (a : N) (e_form : bool) : bytes :=
  let '(n, e) := if a =? 0 then (0, 0%Z) else shortest F a in
  let all := dec_of_N n in
  let d := cut_zeros all in
  let dp := if a =? 0 then 0%Z else (Z.of_nat (length all) + e)%Z in
  (if neg then [45] else []) ++ (if e_form then fmt_e d dp else fmt_f d dp).

(** ** helpers/encodeFloat.go 16-42 FloatToJSON *)
(** 25-29: abs < 1e-6 || abs >= 1e21, in the precision of the value *)
Definition e_form (F : format) (a : N) : bool :=
  negb (a =? 0) && ((a <? round_dec F 1 (-6)) || (round_dec F 1 21 <=? a)).
(** 32-40: e-09 becomes e-9 *)
Definition clean_exp (b : bytes) : bytes :=
  let n := length b in
  if (4 <=? n)%nat && beqb (firstn 3 (skipn (n - 4) b)) (bs "e-0") then firstn (n - 2) b ++ skipn (n - 1) b else b.
(** 16-42, for the bits [b] of a float64.  With [is64] false the value is that of a float32 (resolver.go 1673);
    simplification: other values do not occur there and are not modelled (FormatFloat would write +Inf for large ones). *)
Definition float_json (is64 : bool) (b : N) : bytes :=
  let a64 := abs_of f64 b in
  if inf_of f64 <=? a64 then bs "0.0"
  else
    let F := if is64 then f64 else f32 in
    let a := if is64 then a64 else narrow a64 in
    let ef := e_form F a in
    let t := format_float F (neg_of f64 b) a ef in
    if ef then clean_exp t else t.
