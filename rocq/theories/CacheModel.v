(** * Model of the query cache, bytecode/cache/bytecode_cache.go, and of its use in
    ParseQueryToBytecode, bytecode/bytecode.go 45-78.

    The slice FragmentLocations is modelled with its backing array because SetEntry stores
    the slice without copying it (bytecode_cache.go 72).  [heap] lists all arrays that were
    allocated; a slice is an array number and a length; the capacity of an array is the
    length of its contents.  All other slices are copied by the code (bytecode_cache.go
    68-75) or rebuilt for each parse and are plain values here. *)
From Coq Require Import NArith Bool List.
From Verif Require Import Base ParserModel.
Import ListNotations.
Local Open Scope nat_scope.

(* bytecode.go 17-29 and bytecode_cache.go 14-20: the slices FragmentLocations and fragmentLocations *)
Record slice := Sl { sl_arr : nat; sl_len : nat }.
(* the memory behind them *)
Definition heap := list (list nat).

(** bytecode_cache.go 14-20: cacheEntry; targetIdx = -1 is [None] *)
Record entry := Entry {
  en_query : bytes; en_code : bytes; en_target : option bytes; en_tidx : option nat; en_frags : slice
}.
(** bytecode_cache.go 12: BytecodeCache, the map from query length to entries *)
Definition cache := list (nat * list entry).

(** map access c[k] *)
(* bytecode_cache.go 24, 54 *)
Fixpoint bucket (c : cache) (k : nat) : option (list entry) :=
  match c with
  | [] => None
  | (k', l) :: r => if Nat.eqb k k' then Some l else bucket r k
  end.
(** map assignment c[k] = l *)
(* bytecode_cache.go 78 *)
Fixpoint put (c : cache) (k : nat) (l : list entry) : cache :=
  match c with
  | [] => [(k, l)]
  | (k', l') :: r => if Nat.eqb k k' then (k, l) :: r else (k', l') :: put r k l
  end.
(** delete(c, k) *)
(* bytecode_cache.go 45 *)
Definition del (c : cache) (k : nat) : cache := filter (fun x => negb (Nat.eqb (fst x) k)) c.

(** *target == *entry.target, both nil or both set: bytecode_cache.go 30 *)
Definition target_eqb (a b : option bytes) : bool :=
  match a, b with
  | None, None => true
  | Some x, Some y => beqb x y
  | _, _ => false
  end.

(** bytecode_cache.go 23-36: GetEntry *)
Definition get_entry (c : cache) (q : bytes) (target : option bytes) : option entry :=
  match bucket c (length q) with
  | None => None
  | Some l => find (fun e => beqb (en_query e) q && target_eqb target (en_target e)) l
  end.

(** bytecode_cache.go 39-78: SetEntry.  [dels] are the first five keys in the random order
    in which Go walks over the map; they are only used when the map has 100 keys. *)
Definition set_entry (dels : list nat) (c : cache) (e : entry) : cache :=
  let c := if Nat.eqb (length c) 100 then fold_left del dels c else c in
  let k := length (en_query e) in
  let old := match bucket c k with
             | None => []
             | Some l => if Nat.eqb (length l) 20 then removelast l else l
             end in
  put c k (e :: old).
(** what Go guarantees about [dels] *)
Definition good_dels (dels : list nat) (c : cache) : Prop :=
  NoDup dels /\ incl dels (map fst c) /\ length dels = 5.

(** write at index [n] of an array *)
(* used by append below *)
Fixpoint put_at (l : list nat) (n v : nat) : list nat :=
  match l, n with
  | [], _ => []
  | _ :: r, O => v :: r
  | x :: r, S n => x :: put_at r n v
  end.
(* model only, no code: reading the memory *)
Definition array (h : heap) (a : nat) : list nat := nth a h [].
(* model only, no code: writing the memory *)
Fixpoint set_array (h : heap) (a : nat) (c : list nat) : heap :=
  match h, a with
  | [], _ => []
  | _ :: r, O => c :: r
  | x :: r, S n => x :: set_array r n c
  end.
(* model only, no code: what a slice holds *)
Definition contents (h : heap) (s : slice) : list nat := firstn (sl_len s) (array h (sl_arr s)).

Section Grow.
(** the capacity Go's append chooses for a full array of the given length; only known to be larger *)
Variable grow : nat -> nat.

(** append(s, v) *)
(* bytecode.go 167 *)
Definition append1 (hs : heap * slice) (v : nat) : heap * slice :=
  let (h, s) := hs in
  if Nat.ltb (sl_len s) (length (array h (sl_arr s)))
  then (set_array h (sl_arr s) (put_at (array h (sl_arr s)) (sl_len s) v), Sl (sl_arr s) (S (sl_len s)))
  else
    let c := contents h s ++ v :: repeat 0 (grow (sl_len s) - S (sl_len s)) in
    (h ++ [c], Sl (length h) (S (sl_len s))).

(** append(s, vs...): one copy, into a new array when the old one is too small *)
(* bytecode.go 61-66 *)
Definition appendn (hs : heap * slice) (vs : list nat) : heap * slice :=
  let (h, s) := hs in
  let n := sl_len s + length vs in
  if Nat.leb n (length (array h (sl_arr s)))
  then (set_array h (sl_arr s) (contents h s ++ vs ++ skipn n (array h (sl_arr s))), Sl (sl_arr s) n)
  else (h ++ [contents h s ++ vs ++ repeat 0 (grow n - n)], Sl (length h) n).

(** the parser context that survives from one parse to the next *)
(* bytecode.go 17-29 ParserCtx *)
Record pctx := Pctx { pc_heap : heap; pc_frags : slice; pc_cache : cache }.
(* bytecode.go 17-29 ParserCtx: Res, FragmentLocations, TargetIdx, Errors *)
Record outcome := Outcome { o_code : bytes; o_frags : list nat; o_tidx : option nat; o_errs : list perr }.

(** bytecode.go 32-43: NewParserCtx *)
Definition new_pctx : pctx := Pctx [repeat 0 8] (Sl 0 0) [].

(** one call of ParseQueryToBytecode: query, target, CacheableQueryMinLen, deleted keys *)
(* bytecode.go 45-58 *)
Record call := Call { c_query : bytes; c_target : option bytes; c_min : nat; c_dels : list nat }.

(** bytecode.go 45-78: ParseQueryToBytecode *)
Definition parse_cached (p : pctx) (c : call) : option (outcome * pctx) :=
  let frags0 := Sl (sl_arr (pc_frags p)) 0 in                      (* line 48 *)
  let cacheable := Nat.ltb (c_min c) (length (c_query c)) in       (* line 58 *)
  match (if cacheable then get_entry (pc_cache p) (c_query c) (c_target c) else None) with
  | Some e =>                                                      (* lines 61-66 *)
      let '(h, s) := appendn (pc_heap p, frags0) (contents (pc_heap p) (en_frags e)) in
      Some (Outcome (en_code e) (contents h s) (en_tidx e) [], Pctx h s (pc_cache p))
  | None =>
      match parse_query (c_query c) (c_target c) with              (* lines 70-77 *)
      | Parsed st =>
          let '(h, s) := fold_left append1 (p_frags st) (pc_heap p, frags0) in
          let cache' :=
            if cacheable && match p_errs st with [] => true | _ => false end
            then set_entry (c_dels c) (pc_cache p) (Entry (c_query c) (p_res st) (c_target c) (p_tgt st) s)
            else pc_cache p in
          Some (Outcome (p_res st) (contents h s) (p_tgt st) (p_errs st), Pctx h s cache')
      | _ => None
      end
  end.

(** a history of calls on one context, with the outcomes *)
(* calls of bytecode.go 45-78 one after the other *)
Fixpoint history (p : pctx) (cs : list call) : option (list outcome * pctx) :=
  match cs with
  | [] => Some ([], p)
  | c :: r =>
      match parse_cached p c with
      | None => None
      | Some (o, p') => match history p' r with None => None | Some (os, p'') => Some (o :: os, p'') end
      end
  end.
(** the keys deleted in a history are keys Go could have chosen *)
(* bytecode_cache.go 40-51: the keys that a range over the map gives *)
Fixpoint good_history (p : pctx) (cs : list call) : Prop :=
  match cs with
  | [] => True
  | c :: r => (length (pc_cache p) = 100 -> good_dels (c_dels c) (pc_cache p)) /\
              match parse_cached p c with None => True | Some (_, p') => good_history p' r end
  end.
End Grow.
