(** * The differ behind the failure messages of the assert package

    assert/difflib/difflib.go (whole file) and the use assert/assert.go 770-801
    (diff) makes of it.  A Go [[]string] is a list of byte strings, an [int] that
    counts or indexes lines is a [nat].  Everything that can panic in Go (an index
    or a slice out of range) and every loop that might not end is a [None] here;
    DiffProof shows that [None] never comes out. *)
From Coq Require Import String NArith ZArith Lia Bool List.
From Verif Require Import Base.
Import ListNotations.
Open Scope nat_scope.

(* model only, no code: a panic ends the run *)
Definition dbind {A B} (x : option A) (f : A -> option B) : option B :=
  match x with Some v => f v | None => None end.
Notation "x <- e ;; f" := (dbind e (fun x => f)) (at level 61, e at next level, right associativity).

(** assert/difflib/difflib.go 49-53 (match). *)
Record mtch := Match { mA : nat; mB : nat; mSize : nat }.

(** assert/difflib/difflib.go 55-61 (opCode); the tag is the byte the code stores. *)
Record op := Op { tag : N; I1 : nat; I2 : nat; J1 : nat; J2 : nat }.
Definition cE : N := 101.  (* 'e', difflib.go 396 *)
Definition cR : N := 114.  (* 'r', difflib.go 381 *)
Definition cD : N := 100.  (* 'd', difflib.go 383 *)
Definition cI : N := 105.  (* 'i', difflib.go 385 *)

(** A Go [map[string][]int] as an association list with one entry a key. *)
(* difflib.go 89-100: b2j *)
Definition smap := list (bytes * list nat).
(* difflib.go 149, 237 *)
Fixpoint sget (m : smap) (s : bytes) : list nat :=
  match m with [] => [] | (k, v) :: r => if beqb k s then v else sget r s end.
(* difflib.go 151 *)
Fixpoint sput (m : smap) (s : bytes) (v : list nat) : smap :=
  match m with [] => [(s, v)] | (k, w) :: r => if beqb k s then (k, v) :: r else (k, w) :: sput r s v end.

(** assert/difflib/difflib.go 89-100 (sequenceMatcher).  [autoJunk] is always true
    and [fullBCount] never used (difflib.go 103, 142); the two caches are [None]
    for nil. *)
Record matcher := Matcher
  { sa : list bytes; sb : list bytes;
    b2j : smap;
    isJunk : option (bytes -> bool);
    bJunk : list bytes; bPopular : list bytes;
    matchingBlocks : option (list mtch);
    opCodes : option (list op) }.

(** assert/difflib/difflib.go 148-153: every line of [b] with the places it stands at. *)
Fixpoint index_lines (i : nat) (b : list bytes) (m : smap) : smap :=
  match b with [] => m | s :: r => index_lines (S i) r (sput m s (sget m s ++ [i])) end.

(** [delete(b2j, s)] for every [s] of a set: assert/difflib/difflib.go 164-166, 178-180. *)
Definition in_set (l : list bytes) (s : bytes) : bool := existsb (beqb s) l.
Definition purge (m : smap) (l : list bytes) : smap := filter (fun p => negb (in_set l (fst p))) m.

(** assert/difflib/difflib.go 146-184 (chainB): the places of each line, the junk set
    and the popular set.  The maps are only tested and deleted from in the loops over
    them, so the order Go walks them in does not matter. *)
Definition chainB (b : list bytes) (junk : option (bytes -> bool)) : smap * list bytes * list bytes :=
  let m := index_lines 0 b [] in
  let j := match junk with Some f => filter f (map fst m) | None => [] end in
  let m1 := purge m j in
  let n := length b in
  let pop := if 200 <=? n
             then map fst (filter (fun p => n / 100 + 1 <? length (snd p)) m1)
             else [] in
  (purge m1 pop, j, pop).

(** assert/difflib/difflib.go 102-144 (newMatcher, SetSeqs, SetSeq1, SetSeq2).  The
    comparisons of the addresses of two local variables (122, 134) are never true.
    newMatcher leaves IsJunk nil; the argument is for the theorems that hold for any. *)
Definition newMatcher (junk : option (bytes -> bool)) (a b : list bytes) : matcher :=
  match chainB b junk with
  | (m, j, p) => Matcher a b m junk j p None None
  end.

(** assert/difflib/difflib.go 186-189 (isBJunk). *)
Definition isBJunk (m : matcher) (s : bytes) : bool := in_set (bJunk m) s.

(** A Go [map[int]int], newest entry first; a missing key reads 0. *)
(* difflib.go 232, 236: j2len and newj2len *)
Definition imap := list (nat * nat).
(* difflib.go 245 *)
Fixpoint iget (m : imap) (k : nat) : nat :=
  match m with [] => 0 | (x, v) :: r => if x =? k then v else iget r k end.

(** assert/difflib/difflib.go 239-252: the loop over the places of [a[i]] in [b].
    [j2len[j-1]] for [j = 0] is the missing key -1. *)
Fixpoint scan_js (blo bhi i : nat) (j2len : imap) (js : list nat) (new : imap) (best : mtch) : imap * mtch :=
  match js with
  | [] => (new, best)
  | j :: r =>
      if j <? blo then scan_js blo bhi i j2len r new best
      else if bhi <=? j then (new, best)
      else
        let k := match j with O => 0 | S j' => iget j2len j' end + 1 in
        let best' := if mSize best <? k then Match (i + 1 - k) (j + 1 - k) k else best in
        scan_js blo bhi i j2len r ((j, k) :: new) best'
  end.

(** assert/difflib/difflib.go 234-254: the loop over [a[alo:ahi]]. *)
Fixpoint scan_as (m : matcher) (ahi blo bhi : nat) (fuel i : nat) (j2len : imap) (best : mtch) : option mtch :=
  if i =? ahi then Some best
  else match fuel with
       | O => None
       | S f =>
           s <- nth_error (sa m) i ;;
           let (new, best') := scan_js blo bhi i j2len (sget (b2j m) s) [] best in
           scan_as m ahi blo bhi f (S i) new best'
       end.

(** assert/difflib/difflib.go 260-263 and 277-280: grow the block to the left; [want]
    says whether the line must be junk. *)
Fixpoint grow_left (m : matcher) (want : bool) (alo blo : nat) (fuel : nat) (x : mtch) : option mtch :=
  if (alo <? mA x) && (blo <? mB x) then
    sbj <- nth_error (sb m) (mB x - 1) ;;
    if Bool.eqb (isBJunk m sbj) want then
      sai <- nth_error (sa m) (mA x - 1) ;;
      if beqb sai sbj then
        match fuel with
        | O => None
        | S f => grow_left m want alo blo f (Match (mA x - 1) (mB x - 1) (mSize x + 1))
        end
      else Some x
    else Some x
  else Some x.

(** assert/difflib/difflib.go 264-268 and 281-285: grow it to the right. *)
Fixpoint grow_right (m : matcher) (want : bool) (ahi bhi : nat) (fuel : nat) (x : mtch) : option mtch :=
  if (mA x + mSize x <? ahi) && (mB x + mSize x <? bhi) then
    sbj <- nth_error (sb m) (mB x + mSize x) ;;
    if Bool.eqb (isBJunk m sbj) want then
      sai <- nth_error (sa m) (mA x + mSize x) ;;
      if beqb sai sbj then
        match fuel with
        | O => None
        | S f => grow_right m want ahi bhi f (Match (mA x) (mB x) (mSize x + 1))
        end
      else Some x
    else Some x
  else Some x.

(** assert/difflib/difflib.go 216-288 (findLongestMatch). *)
Definition findLongestMatch (m : matcher) (alo ahi blo bhi : nat) : option mtch :=
  let fuel := length (sa m) in
  x <- scan_as m ahi blo bhi fuel alo [] (Match alo blo 0) ;;
  x <- grow_left m false alo blo fuel x ;;
  x <- grow_right m false ahi bhi fuel x ;;
  x <- grow_left m true alo blo fuel x ;;
  grow_right m true ahi bhi fuel x.

(** assert/difflib/difflib.go 307-321 (matchBlocks inside GetMatchingBlocks). *)
Fixpoint matchBlocks (m : matcher) (fuel : nat) (alo ahi blo bhi : nat) (matched : list mtch) : option (list mtch) :=
  match fuel with
  | O => None
  | S f =>
      x <- findLongestMatch m alo ahi blo bhi ;;
      let i := mA x in let j := mB x in let k := mSize x in
      if 0 <? k then
        matched <- (if (alo <? i) && (blo <? j) then matchBlocks m f alo i blo j matched else Some matched) ;;
        let matched := matched ++ [x] in
        if (i + k <? ahi) && (j + k <? bhi) then matchBlocks m f (i + k) ahi (j + k) bhi matched else Some matched
      else Some matched
  end.

(** assert/difflib/difflib.go 326-348: blocks that touch become one. *)
Fixpoint collapse (cur : mtch) (matched : list mtch) (nonAdjacent : list mtch) : list mtch :=
  match matched with
  | [] => if 0 <? mSize cur then nonAdjacent ++ [cur] else nonAdjacent
  | b :: r =>
      if (mA cur + mSize cur =? mA b) && (mB cur + mSize cur =? mB b)
      then collapse (Match (mA cur) (mB cur) (mSize cur + mSize b)) r nonAdjacent
      else collapse b r (if 0 <? mSize cur then nonAdjacent ++ [cur] else nonAdjacent)
  end.

(** assert/difflib/difflib.go 302-353 (GetMatchingBlocks), with its cache. *)
Definition GetMatchingBlocks (m : matcher) : option (list mtch * matcher) :=
  match matchingBlocks m with
  | Some l => Some (l, m)
  | None =>
      matched <- matchBlocks m (S (length (sa m))) 0 (length (sa m)) 0 (length (sb m)) [] ;;
      let l := collapse (Match 0 0 0) matched [] ++ [Match (length (sa m)) (length (sb m)) 0] in
      Some (l, Matcher (sa m) (sb m) (b2j m) (isJunk m) (bJunk m) (bPopular m) (Some l) (opCodes m))
  end.

(** assert/difflib/difflib.go 373-397: the loop of GetOpCodes. *)
Fixpoint op_loop (i j : nat) (matching : list mtch) : list op :=
  match matching with
  | [] => []
  | x :: r =>
      let ai := mA x in let bj := mB x in let size := mSize x in
      let t := if (i <? ai) && (j <? bj) then cR
               else if i <? ai then cD
               else if j <? bj then cI else 0%N in
      (if (0 <? t)%N then [Op t i ai j bj] else []) ++
      (if 0 <? size then [Op cE ai (ai + size) bj (bj + size)] else []) ++
      op_loop (ai + size) (bj + size) r
  end.

(* difflib.go 399 *)
Definition set_codes (m : matcher) (l : list op) : matcher :=
  Matcher (sa m) (sb m) (b2j m) (isJunk m) (bJunk m) (bPopular m) (matchingBlocks m) (Some l).

(** assert/difflib/difflib.go 367-400 (GetOpCodes), with its cache. *)
Definition GetOpCodes (m : matcher) : option (list op * matcher) :=
  match opCodes m with
  | Some l => Some (l, m)
  | None =>
      r <- GetMatchingBlocks m ;;
      let l := op_loop 0 0 (fst r) in
      Some (l, set_codes (snd r) l)
  end.

(** assert/difflib/difflib.go 415-419: the first range, when unchanged, keeps its last
    [n] lines.  [max(i1, i2-n)] is the same with the subtraction cut at 0. *)
Definition fix_first (n : nat) (codes : list op) : list op :=
  match codes with
  | c :: r => if N.eqb (tag c) cE then Op (tag c) (Nat.max (I1 c) (I2 c - n)) (I2 c) (Nat.max (J1 c) (J2 c - n)) (J2 c) :: r else codes
  | [] => []
  end.

(** assert/difflib/difflib.go 420-424: the last range, when unchanged, keeps its first [n] lines. *)
Fixpoint fix_last (n : nat) (codes : list op) : list op :=
  match codes with
  | [] => []
  | [c] => if N.eqb (tag c) cE then [Op (tag c) (I1 c) (Nat.min (I2 c) (I1 c + n)) (J1 c) (Nat.min (J2 c) (J1 c + n))] else [c]
  | c :: r => c :: fix_last n r
  end.

(** assert/difflib/difflib.go 425-445: the loop that cuts the codes into groups. *)
Fixpoint group_loop (n : nat) (codes : list op) (groups : list (list op)) (group : list op) : list (list op) :=
  match codes with
  | [] => match group with
          | [] => groups
          | [c] => if N.eqb (tag c) cE then groups else groups ++ [group]
          | _ => groups ++ [group]
          end
  | c :: r =>
      if N.eqb (tag c) cE && (n + n <? I2 c - I1 c)
      then group_loop n r
             (groups ++ [group ++ [Op (tag c) (I1 c) (Nat.min (I2 c) (I1 c + n)) (J1 c) (Nat.min (J2 c) (J1 c + n))]])
             [Op (tag c) (Nat.max (I1 c) (I2 c - n)) (I2 c) (Nat.max (J1 c) (J2 c - n)) (J2 c)]
      else group_loop n r groups (group ++ [c])
  end.

(** assert/difflib/difflib.go 406-446 (GetGroupedOpCodes).  The writes to [codes[0]]
    and [codes[len(codes)-1]] go to the very slice GetOpCodes keeps as its cache,
    unless that one is empty. *)
Definition GetGroupedOpCodes (n : Z) (m : matcher) : option (list (list op) * matcher) :=
  let n := if (n <? 0)%Z then 3 else Z.to_nat n in
  r <- GetOpCodes m ;;
  match fst r with
  | [] => Some (group_loop n (fix_last n (fix_first n [Op cE 0 1 0 1])) [] [], snd r)
  | codes =>
      let codes := fix_last n (fix_first n codes) in
      Some (group_loop n codes [] [], set_codes (snd r) codes)
  end.

(** assert/difflib/difflib.go 449-460 (formatRangeUnified). *)
Definition formatRangeUnified (start stop : nat) : bytes :=
  let len := stop - start in
  if len =? 1 then dec_of_N (N.of_nat (start + 1))
  else
    let beginning := if len =? 0 then start + 1 - 1 else start + 1 in
    dec_of_N (N.of_nat beginning) ++ bs "," ++ dec_of_N (N.of_nat len).

(** [l[i:j]], which panics unless [i <= j <= len(l)] (the capacity of the slices is
    not used by the code). *)
(* difflib.go 516, 524 *)
Definition slice {A} (l : list A) (i j : nat) : option (list A) :=
  if (i <=? j) && (j <=? length l) then Some (firstn (j - i) (skipn i l)) else None.

(** assert/difflib/difflib.go 510-516, 519-525, 526-532: one line each, with its sign. *)
Definition signed (c : N) (lines : list bytes) : bytes := concat (map (fun l => c :: l) lines).

(** assert/difflib/difflib.go 508-533: one range of a group. *)
Definition write_op (a b : list bytes) (c : op) : option bytes :=
  if N.eqb (tag c) cE then
    l <- slice a (I1 c) (I2 c) ;; Some (signed 32 l)
  else
    d <- (if N.eqb (tag c) cR || N.eqb (tag c) cD then l <- slice a (I1 c) (I2 c) ;; Some (signed 45 l) else Some []) ;;
    i <- (if N.eqb (tag c) cR || N.eqb (tag c) cI then l <- slice b (J1 c) (J2 c) ;; Some (signed 43 l) else Some []) ;;
    Some (d ++ i).
Fixpoint write_ops (a b : list bytes) (g : list op) : option bytes :=
  match g with
  | [] => Some []
  | c :: r => x <- write_op a b c ;; y <- write_ops a b r ;; Some (x ++ y)
  end.

(** assert/difflib/difflib.go 502-533: one group, with its head line. *)
Definition write_group (a b : list bytes) (g : list op) : option bytes :=
  first <- nth_error g 0 ;;
  last <- nth_error g (length g - 1) ;;
  body <- write_ops a b g ;;
  Some (bs "@@ -" ++ formatRangeUnified (I1 first) (I2 last) ++ bs " +" ++ formatRangeUnified (J1 first) (J2 last) ++ bs " @@" ++ [10%N] ++ body).
Fixpoint write_groups (a b : list bytes) (gs : list (list op)) : option bytes :=
  match gs with
  | [] => Some []
  | g :: r => x <- write_group a b g ;; y <- write_groups a b r ;; Some (x ++ y)
  end.

(** assert/difflib/difflib.go 480-545 (WriteUnifiedDiff, GetUnifiedDiffString).  Writing
    to a bytes.Buffer never fails. *)
Definition GetUnifiedDiffString (a b : list bytes) : option bytes :=
  r <- GetGroupedOpCodes 1 (newMatcher None a b) ;;
  match fst r with
  | [] => Some []
  | gs => t <- write_groups a b gs ;;
          Some (bs "--- Expected" ++ [10%N] ++ bs "+++ Actual" ++ [10%N] ++ t)
  end.

(** assert/difflib/difflib.go 549-553 (SplitLines): Go library strings.SplitAfter, then a
    line end for the last piece. *)
Fixpoint SplitLines (s : bytes) : list bytes :=
  match s with
  | [] => [[10%N]]
  | c :: r => if N.eqb c 10 then [c] :: SplitLines r
              else match SplitLines r with l :: t => (c :: l) :: t | [] => [[c]] end
  end.

(** assert/assert.go 770-801 (diff) for two strings of type [string]; other types go
    through the Go library fmt first. *)
Definition diff_strings (expected actual : bytes) : option bytes :=
  d <- GetUnifiedDiffString (SplitLines expected) (SplitLines actual) ;;
  Some ([10%N; 10%N] ++ bs "Diff:" ++ [10%N] ++ d).
