(** * Model of the encoders in helpers/ *)
From Coq Require Import String NArith ZArith Bool List.
From Verif Require Import Base.
Import ListNotations.
Local Open Scope string_scope.
Local Open Scope list_scope.
Open Scope N_scope.

(** Go library unicode/utf8 DecodeRuneInString: rune and size; called with a non-empty string.
    An invalid sequence gives (U+FFFD, 1). *)
Definition in_rng (lo hi b : N) : bool := (lo <=? b) && (b <=? hi).
Definition decode_rune (s : bytes) : N * nat :=
  match s with
  | [] => (65533, 0%nat)
  | b0 :: r =>
      if b0 <? 128 then (b0, 1%nat)
      else if in_rng 194 223 b0 then
        match r with
        | b1 :: _ => if in_rng 128 191 b1 then ((b0 - 192) * 64 + (b1 - 128), 2%nat) else (65533, 1%nat)
        | _ => (65533, 1%nat)
        end
      else if in_rng 224 239 b0 then
        match r with
        | b1 :: b2 :: _ =>
            let lo := if b0 =? 224 then 160 else 128 in
            let hi := if b0 =? 237 then 159 else 191 in
            if in_rng lo hi b1 && in_rng 128 191 b2
            then ((b0 - 224) * 4096 + (b1 - 128) * 64 + (b2 - 128), 3%nat) else (65533, 1%nat)
        | _ => (65533, 1%nat)
        end
      else if in_rng 240 244 b0 then
        match r with
        | b1 :: b2 :: b3 :: _ =>
            let lo := if b0 =? 240 then 144 else 128 in
            let hi := if b0 =? 244 then 143 else 191 in
            if in_rng lo hi b1 && in_rng 128 191 b2 && in_rng 128 191 b3
            then ((b0 - 240) * 262144 + (b1 - 128) * 4096 + (b2 - 128) * 64 + (b3 - 128), 4%nat)
            else (65533, 1%nat)
        | _ => (65533, 1%nat)
        end
      else (65533, 1%nat)
  end.

(** helpers/encodeString.go 17: hex[b] *)
Definition hex_digit (n : N) : N := if n <? 10 then 48 + n else 87 + n.

(** helpers/encodeString.go 35-54: what is written after the backslash for byte [b] *)
Definition escape (b : N) : bytes :=
  if (b =? 92) || (b =? 34) then [b]
  else if b =? 10 then [110]
  else if b =? 13 then [114]
  else if b =? 9 then [116]
  else bs "u00" ++ [hex_digit (b / 16); hex_digit (b mod 16)].

(** helpers/encodeString.go 21-92: the loop.  [pend] is s[start:i], [s] is s[i:]; the result
    is what is appended to e up to the end of the string.  [fuel] bounds the number of rounds;
    each round consumes at least one byte. *)
Fixpoint string_loop (fuel : nat) (pend s : bytes) : bytes :=
  match fuel with
  | O => []
  | S fuel =>
      match s with
      | [] => pend
      | b :: r =>
          if b <? 128 then
            if (32 <=? b) && (b <=? 125) && negb (b =? 92) && negb (b =? 34) then string_loop fuel (pend ++ [b]) r
            else if b =? 127 then string_loop fuel (pend ++ [b]) r
            else pend ++ [92] ++ escape b ++ string_loop fuel [] r
          else
            let (c, size) := decode_rune s in
            if (c =? 65533) && Nat.eqb size 1 then pend ++ (92 :: bs "ufffd") ++ string_loop fuel [] (skipn size s)
            else if (c =? 8232) || (c =? 8233) then
              pend ++ (92 :: bs "u202") ++ [hex_digit (N.land c 15)] ++ string_loop fuel [] (skipn size s)
            else string_loop fuel (pend ++ firstn size s) (skipn size s)
      end
  end.
(** helpers/encodeString.go 16-93: StringToJSON, the bytes appended to e *)
Definition string_to_json (s : bytes) : bytes := [34] ++ string_loop (S (length s)) [] s ++ [34].

(** Go library strconv.AppendInt(…, 10): used in resolver.go 1669 and 732 *)
Definition int_to_json (z : Z) : bytes :=
  match z with
  | Zneg p => 45 :: dec_of_N (Npos p)
  | Z0 => dec_of_N 0
  | Zpos p => dec_of_N (Npos p)
  end.
(** Go library strconv.AppendUint(…, 10): used in resolver.go 1671 *)
Definition uint_to_json (n : N) : bytes := dec_of_N n.

(** A Go time.Time by its civil fields in its own location and the offset of that location
    from UTC in seconds (Go library time). *)
Record gtime := GTime {
  t_year : Z; t_month : N; t_day : N; t_hour : N; t_min : N; t_sec : N; t_nano : N; t_off : Z
}.

(** Go library time appendInt: decimal, padded with zeros to the given width *)
Definition pad (w : nat) (t : bytes) : bytes := repeat 48 (w - length t) ++ t.
Definition append_int (w : nat) (z : Z) : bytes :=
  match z with
  | Zneg p => 45 :: pad w (dec_of_N (Npos p))
  | Z0 => pad w (dec_of_N 0)
  | Zpos p => pad w (dec_of_N (Npos p))
  end.

(** helpers/time.go 22-24: TimeToIso8601String, that is Go library AppendFormat with the
    layout 2006-01-02T15:04:05.000Z (line 9); the Z of this layout is a plain character *)
Definition time_to_iso (t : gtime) : bytes :=
  append_int 4 (t_year t) ++ [45] ++ append_int 2 (Z.of_N (t_month t)) ++ [45] ++ append_int 2 (Z.of_N (t_day t)) ++ [84] ++
  append_int 2 (Z.of_N (t_hour t)) ++ [58] ++ append_int 2 (Z.of_N (t_min t)) ++ [58] ++ append_int 2 (Z.of_N (t_sec t)) ++
  [46] ++ pad 3 (dec_of_N (t_nano t / 1000000)) ++ [90].

(** Go library time: isLeap, daysIn *)
Definition is_leap (y : N) : bool := (y mod 4 =? 0) && (negb (y mod 100 =? 0) || (y mod 400 =? 0)).
Definition days_in (m y : N) : N :=
  if m =? 2 then (if is_leap y then 29 else 28)
  else if (m =? 4) || (m =? 6) || (m =? 9) || (m =? 11) then 30 else 31.

(* Go library time isDigit *)
Definition is_digit (c : N) : bool := (48 <=? c) && (c <=? 57).
(** Go library time getnum: two digits, or one digit if not [fixed] *)
Definition getnum (fixed : bool) (s : bytes) : option (N * bytes) :=
  match s with
  | a :: r =>
      if is_digit a then
        match r with
        | b :: r' => if is_digit b then Some ((a - 48) * 10 + (b - 48), r')
                     else if fixed then None else Some (a - 48, r)
        | [] => if fixed then None else Some (a - 48, r)
        end
      else None
  | [] => None
  end.
(** Go library time: a plain character of the layout *)
Definition lit (c : N) (s : bytes) : option bytes :=
  match s with x :: r => if x =? c then Some r else None | [] => None end.
(** Go library time: the digits of the year and of the fraction *)
Fixpoint digits_n (n : nat) (acc : N) (s : bytes) : option (N * bytes) :=
  match n with
  | O => Some (acc, s)
  | S n => match s with
           | c :: r => if is_digit c then digits_n n (acc * 10 + (c - 48)) r else None
           | [] => None
           end
  end.
Definition obind {A B} (o : option A) (f : A -> option B) : option B := match o with Some a => f a | None => None end.
Notation "'do' x <- o ; f" := (obind o (fun x => f)) (at level 200, x pattern, right associativity).

(** helpers/time.go 12-18: ParseIso8601String, that is Go library time.Parse with the layout
    of line 9.  The result is in UTC; [None] is the error. *)
Definition parse_iso (s : bytes) : option gtime :=
  do (y, s) <- digits_n 4 0 s; do s <- lit 45 s;
  do (mo, s) <- getnum true s; do s <- lit 45 s;
  do (d, s) <- getnum true s; do s <- lit 84 s;
  do (h, s) <- getnum false s; do s <- lit 58 s;
  do (mi, s) <- getnum true s; do s <- lit 58 s;
  do (sec, s) <- getnum true s; do s <- lit 46 s;
  do (ms, s) <- digits_n 3 0 s; do s <- lit 90 s;
  match s with
  | [] =>
      if (1 <=? mo) && (mo <=? 12) && (h <? 24) && (mi <? 60) && (sec <? 60) && (1 <=? d) && (d <=? days_in mo y)
      then Some (GTime (Z.of_N y) mo d h mi sec (ms * 1000000) 0) else None
  | _ => None
  end.
