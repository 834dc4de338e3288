(** * Model of the memory behind the slices that a schema uses again for every request

    bytecode/bytecode.go 46-51 (ctx.Res[:0], ctx.Errors[:0]) and resolver.go 170 (s.Result[:0]): a request
    truncates the slice and writes into the same array; append moves to a new array only when the capacity is
    used up.  A string made by b2s (resolver.go 1701-1705, used at 1533 for string arguments) and the values
    returned by Resolve (resolver.go 297) and HandleRequest (implement_helpers.go 104, 113) refer to that array.
    Simplification: the garbage collector is not modelled, an array that is referred to stays. *)
From Coq Require Import Arith List Lia.
Import ListNotations.
Open Scope nat_scope.

(** assignment to one element, and to elements one after the other *)
(* bytecode.go 80-85 and the like *)
Fixpoint put {A} (l : list A) (i : nat) (x : A) : list A :=
  match l, i with [], _ => [] | _ :: r, O => x :: r | y :: r, S i => y :: put r i x end.
(* model only, no code: used by append *)
Fixpoint put_all {A} (l : list A) (i : nat) (xs : list A) : list A := match xs with [] => l | x :: r => put_all (put l i x) (S i) r end.
Section Slice.
Context {A : Type}.
(** the arrays that exist, and a slice that starts at the beginning of the array [cur]: its length is [len],
    its capacity is the length of the array *)
(* bytecode.go 46-51, resolver.go 170 *)
Record mem := Mem { arrays : list (list A); cur : nat; len : nat }.
(** a reference to a part of an array: a string from b2s, or a slice that was given to the caller *)
(* resolver.go 297, 1703-1705 *)
Record ref := Ref { r_array : nat; r_from : nat; r_count : nat }.
(* model only, no code: reading the memory *)
Definition array (m : mem) (i : nat) : list A := nth i (arrays m) [].
(** what a reference reads *)
(* model only, no code: reading the memory *)
Definition read (m : mem) (r : ref) : list A := firstn (r_count r) (skipn (r_from r) (array m (r_array r))).
(** the elements of the slice *)
(* model only, no code: reading the memory *)
Definition contents (m : mem) : list A := firstn (len m) (array m (cur m)).

(** what is done with the slice: append, assignment to an element, truncation (bytecode.go 464) *)
Inductive op := Append (xs : list A) | Assign (i : nat) (x : A) | Cut (n : nat).
(** [spare n] is the rest of the capacity of a new array that is made for [n] elements *)
Definition step (spare : nat -> list A) (m : mem) (o : op) : mem :=
  match o with
  | Append xs =>
      if len m + length xs <=? length (array m (cur m))
      then Mem (put (arrays m) (cur m) (put_all (array m (cur m)) (len m) xs)) (cur m) (len m + length xs)
      else Mem (arrays m ++ [contents m ++ xs ++ spare (len m + length xs)]) (length (arrays m)) (len m + length xs)
  | Assign i x => Mem (put (arrays m) (cur m) (put (array m (cur m)) i x)) (cur m) (len m)
  | Cut n => Mem (arrays m) (cur m) n
  end.
Fixpoint steps (spare : nat -> list A) (m : mem) (l : list op) : mem := match l with [] => m | o :: r => steps spare (step spare m o) r end.
(** a request truncates the slice and then writes *)
Definition request (spare : nat -> list A) (m : mem) (l : list op) : mem := steps spare m (Cut 0 :: l).
End Slice.
Arguments mem : clear implicits.
Arguments op : clear implicits.
(** bytecode.go 33: a new context has an array of 2048 bytes *)
Definition new_mem {A} (zero : A) (n : nat) : mem A := Mem [repeat zero n] 0 n.
