(** * What a diff of two lists of lines has to say

    Written from the comments of assert/difflib/difflib.go (191-215, 290-301, 355-366,
    402-405) and from the unified diff format the package prints; nothing here looks
    at how the diff is found. *)
From Coq Require Import String NArith ZArith Lia Bool List.
From Verif Require Import Base DiffModel.
Import ListNotations.
Open Scope nat_scope.

(** [k] lines of [a] from place [i] are the [k] lines of [b] from place [j]. *)
Definition common (a b : list bytes) (i j k : nat) : Prop :=
  i + k <= length a /\ j + k <= length b /\ firstn k (skipn i a) = firstn k (skipn j b).

(** A common run inside the window [alo..ahi] of [a] and [blo..bhi] of [b]. *)
Definition inside (a b : list bytes) (alo ahi blo bhi i j k : nat) : Prop :=
  alo <= i /\ i + k <= ahi /\ blo <= j /\ j + k <= bhi /\ common a b i j k.

(** difflib.go 195-207: the longest, of those the earliest in [a], of those the
    earliest in [b]; [(alo, blo, 0)] when there is none. *)
Definition longest (a b : list bytes) (alo ahi blo bhi i j k : nat) : Prop :=
  inside a b alo ahi blo bhi i j k
  /\ (forall i' j' k', inside a b alo ahi blo bhi i' j' k' -> k' <= k)
  /\ (forall i' j', inside a b alo ahi blo bhi i' j' k -> i < i' \/ i = i' /\ j <= j')
  /\ (k = 0 -> i = alo /\ j = blo).

(** A line that is not frequent in [b]: difflib.go 170-177, from 200 lines on a line that
    stands at more than one place in a hundred, and one, counts as noise. *)
Definition infrequent (b : list bytes) (s : bytes) : Prop :=
  length b < 200 \/ count_occ bytes_eq_dec b s <= length b / 100 + 1.

(** No way to make the run longer at either end. *)
Definition stuck (a b : list bytes) (alo ahi blo bhi i j k : nat) : Prop :=
  (forall i' j', S i' = i -> S j' = j -> ~ inside a b alo ahi blo bhi i' j' (S k))
  /\ ~ inside a b alo ahi blo bhi i j (S k).

(** difflib.go 290-301: common runs that move forward in both lists and never touch. *)
Inductive forward (a b : list bytes) : nat -> nat -> list mtch -> Prop :=
| fw_nil : forall i j, forward a b i j []
| fw_cons : forall i j x r, i <= mA x -> j <= mB x -> 0 < mSize x -> common a b (mA x) (mB x) (mSize x) ->
    (match r with [] => True | y :: _ => mA x + mSize x <> mA y \/ mB x + mSize x <> mB y end) ->
    forward a b (mA x + mSize x) (mB x + mSize x) r ->
    forward a b i j (x :: r).

(** The lines [i..i2] of [a] and [j..j2] of [b] have no line in common. *)
Definition disjoint (a b : list bytes) (i i2 j j2 : nat) : Prop :=
  forall x y s, i <= x < i2 -> j <= y < j2 -> nth_error a x = Some s -> nth_error b y = Some s -> False.

(** difflib.go 355-366: ranges that follow each other from the start of both lists to
    their ends, each with a tag that says what to do. *)
Inductive script (a b : list bytes) : nat -> nat -> list op -> Prop :=
| sc_end : script a b (length a) (length b) []
| sc_equal : forall i j k r, 0 < k -> common a b i j k -> script a b (i + k) (j + k) r ->
    script a b i j (Op cE i (i + k) j (j + k) :: r)
| sc_replace : forall i j i2 j2 r, i < i2 -> j < j2 -> script a b i2 j2 r ->
    script a b i j (Op cR i i2 j j2 :: r)
| sc_delete : forall i j i2 r, i < i2 -> script a b i2 j r ->
    script a b i j (Op cD i i2 j j :: r)
| sc_insert : forall i j j2 r, j < j2 -> script a b i j2 r ->
    script a b i j (Op cI i i j j2 :: r).

(** What carrying out a script gives: the kept lines come from [a], the new ones from [b]. *)
Definition part (l : list bytes) (i j : nat) : list bytes := firstn (j - i) (skipn i l).
Definition outcome (a b : list bytes) (c : op) : list bytes :=
  if N.eqb (tag c) cE then part a (I1 c) (I2 c)
  else if N.eqb (tag c) cD then [] else part b (J1 c) (J2 c).

(** ** Reading a unified diff the way patch does *)

(** The lines of a text, each with its line end. *)
Fixpoint text_lines (t : bytes) : list bytes :=
  match t with
  | [] => []
  | c :: r => if N.eqb c 10 then [c] :: text_lines r
              else match text_lines r with [] => [[c]] | l :: x => (c :: l) :: x end
  end.

Fixpoint read_digits (acc : N) (t : bytes) : N * bytes :=
  match t with
  | c :: r => if ((48 <=? c) && (c <=? 57))%N then read_digits (10 * acc + (c - 48))%N r else (acc, t)
  | [] => (acc, [])
  end.
Definition read_number (t : bytes) : option (nat * bytes) :=
  match t with
  | c :: _ => if ((48 <=? c) && (c <=? 57))%N
              then let (n, r) := read_digits 0 t in Some (N.to_nat n, r) else None
  | [] => None
  end.

(** [7] is the one line 7, [7,3] three lines from line 7 on, [7,0] the empty place after
    line 7.  Gives the number of lines before the range and the lines in it. *)
Definition read_range (t : bytes) : option (nat * nat * bytes) :=
  match read_number t with
  | None => None
  | Some (n, 44%N :: r) =>
      match read_number r with
      | Some (0, r) => Some (n, 0, r)
      | Some (k, r) => match n with 0 => None | S n => Some (n, k, r) end
      | None => None
      end
  | Some (0, _) => None
  | Some (S n, r) => Some (n, 1, r)
  end.

Fixpoint expect (p t : bytes) : option bytes :=
  match p, t with
  | [], _ => Some t
  | x :: p, y :: t => if N.eqb x y then expect p t else None
  | _, _ => None
  end.

(** The head line of a hunk: the two ranges. *)
Definition read_head (l : bytes) : option (nat * nat * (nat * nat)) :=
  match expect (bs "@@ -") l with
  | None => None
  | Some l =>
      match read_range l with
      | None => None
      | Some (s1, k1, l) =>
          match expect (bs " +") l with
          | None => None
          | Some l =>
              match read_range l with
              | Some (s2, k2, l) => if beqb l (bs " @@" ++ [10%N]) then Some (s1, k1, (s2, k2)) else None
              | None => None
              end
          end
      end
  end.

(** The body of a hunk for [k1] old and [k2] new lines: a space keeps a line, a minus
    takes one away, a plus adds one.  Kept and removed lines must be the ones that are
    there.  Gives the lines written, the rest of the diff, the rest of the old lines. *)
Fixpoint read_body (k1 k2 : nat) (d : list bytes) (a : list bytes) : option (list bytes * list bytes * list bytes) :=
  match k1, k2 with
  | 0, 0 => Some ([], d, a)
  | _, _ =>
      match d with
      | (c :: l) :: d =>
          if N.eqb c 32 then
            match k1, k2, a with
            | S k1, S k2, x :: a => if beqb l x then match read_body k1 k2 d a with Some (o, d, a) => Some (l :: o, d, a) | None => None end else None
            | _, _, _ => None
            end
          else if N.eqb c 45 then
            match k1, a with
            | S k1, x :: a => if beqb l x then read_body k1 k2 d a else None
            | _, _ => None
            end
          else if N.eqb c 43 then
            match k2 with
            | S k2 => match read_body k1 k2 d a with Some (o, d, a) => Some (l :: o, d, a) | None => None end
            | _ => None
            end
          else None
      | _ => None
      end
  end.

(** All hunks, in order.  [p1] old and [p2] new lines are behind us, [a] are the old
    lines still ahead.  The lines up to the hunk are copied. *)
Fixpoint read_hunks (fuel : nat) (p1 p2 : nat) (d : list bytes) (a : list bytes) : option (list bytes) :=
  match d with
  | [] => Some a
  | h :: d =>
      match fuel, read_head h with
      | S fuel, Some (s1, k1, (s2, k2)) =>
          if (p1 <=? s1) && (s1 - p1 <=? length a) && (s2 =? p2 + (s1 - p1)) then
            match read_body k1 k2 d (skipn (s1 - p1) a) with
            | Some (o, d, a') =>
                match read_hunks fuel (s1 + k1) (s2 + k2) d a' with
                | Some r => Some (firstn (s1 - p1) a ++ o ++ r)
                | None => None
                end
            | None => None
            end
          else None
      | _, _ => None
      end
  end.

(** A whole diff; the empty one changes nothing. *)
Definition patch (t : bytes) (a : list bytes) : option (list bytes) :=
  match text_lines t with
  | [] => Some a
  | l1 :: l2 :: d =>
      if beqb l1 (bs "--- Expected" ++ [10%N]) && beqb l2 (bs "+++ Actual" ++ [10%N])
      then read_hunks (length d) 0 0 d a else None
  | _ => None
  end.

(** A line as a text is cut into them: one line end, at the end. *)
Definition line (l : bytes) : Prop := exists t, l = t ++ [10%N] /\ ~ In 10%N t.

(** difflib.go 402-405: a group with up to [n] lines of context. *)
Definition lines_of (c : op) : nat := I2 c - I1 c.
Definition is_equal (c : op) : bool := N.eqb (tag c) cE.
Definition grouped (n : nat) (g : list op) : Prop :=
  (exists c, In c g /\ is_equal c = false)
  /\ (forall c r, g = c :: r -> is_equal c = true -> lines_of c <= n)
  /\ (forall c r, g = r ++ [c] -> is_equal c = true -> lines_of c <= n)
  /\ (forall c, In c g -> is_equal c = true -> lines_of c <= n + n).
