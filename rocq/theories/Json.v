(** * Specification vocabulary: Unicode text and JSON (RFC 8259).
    Nothing here models code of /repo; these are the independent definitions against which
    the encoders are judged. *)
From Coq Require Import String NArith ZArith Bool List.
From Verif Require Import Base.
Import ListNotations.
Open Scope N_scope.

(** Unicode scalar values *)
Definition scalar (c : N) : Prop := c < 55296 \/ (57343 < c /\ c <= 1114111).

(** [codepoints s l]: the byte string [s] read as UTF-8 is [l]; a byte that does not start
    the encoding of a scalar value is read as U+FFFD. *)
Inductive codepoints : bytes -> list N -> Prop :=
| cp_nil : codepoints [] []
| cp_char : forall c s l, scalar c -> codepoints s l -> codepoints (utf8_encode c ++ s) (c :: l)
| cp_bad : forall b s l,
    (forall c r, scalar c -> b :: s <> utf8_encode c ++ r) ->
    codepoints s l -> codepoints (b :: s) (65533 :: l).

(** hexadecimal digits *)
Definition hex_val (c : N) : option N :=
  if (48 <=? c) && (c <=? 57) then Some (c - 48)
  else if (97 <=? c) && (c <=? 102) then Some (c - 87)
  else if (65 <=? c) && (c <=? 70) then Some (c - 55)
  else None.
Definition hex4 (a b c d : N) (v : N) : Prop :=
  exists x y z w, hex_val a = Some x /\ hex_val b = Some y /\ hex_val c = Some z /\ hex_val d = Some w /\
    v = x * 4096 + y * 256 + z * 16 + w.

(** the inside of a JSON string literal, RFC 8259 section 7 *)
Inductive jchars : list N -> bytes -> Prop :=
| jc_nil : jchars [] []
| jc_raw : forall c l t, scalar c -> 32 <= c -> c <> 34 -> c <> 92 -> jchars l t ->
    jchars (c :: l) (utf8_encode c ++ t)
| jc_esc : forall e c l t,
    In (e, c) [(34, 34); (92, 92); (47, 47); (98, 8); (102, 12); (110, 10); (114, 13); (116, 9)] ->
    jchars l t -> jchars (c :: l) (92 :: e :: t)
| jc_hex : forall a b c d v l t, hex4 a b c d v -> scalar v -> jchars l t ->
    jchars (v :: l) (92 :: 117 :: a :: b :: c :: d :: t)
| jc_pair : forall a b c d a' b' c' d' hi lo l t,
    hex4 a b c d hi -> hex4 a' b' c' d' lo -> 55296 <= hi <= 56319 -> 56320 <= lo <= 57343 ->
    jchars l t ->
    jchars (65536 + (hi - 55296) * 1024 + (lo - 56320) :: l)
           (92 :: 117 :: a :: b :: c :: d :: 92 :: 117 :: a' :: b' :: c' :: d' :: t).
Definition jstring (l : list N) (t : bytes) : Prop := exists u, t = 34 :: u ++ [34] /\ jchars l u.

(** JSON numbers, RFC 8259 section 6 *)
Definition digit (c : N) : Prop := 48 <= c <= 57.
Definition jdigits (t : bytes) : Prop := t <> [] /\ Forall digit t.
Definition jint (t : bytes) : Prop := t = [48] \/ (exists d r, t = d :: r /\ 49 <= d <= 57 /\ Forall digit r).
Definition jfrac (t : bytes) : Prop := t = [] \/ exists r, t = 46 :: r /\ jdigits r.
Definition jexp (t : bytes) : Prop :=
  t = [] \/ exists e s r, t = e :: s ++ r /\ (e = 101 \/ e = 69) /\ (s = [] \/ s = [43] \/ s = [45]) /\ jdigits r.
Definition jnumber (t : bytes) : Prop :=
  exists s i f e, t = s ++ i ++ f ++ e /\ (s = [] \/ s = [45]) /\ jint i /\ jfrac f /\ jexp e.

(** JSON values and their texts without white space *)
Inductive jval :=
| JNull | JBool (b : bool) | JNum (t : bytes) | JStr (s : list N)
| JArr (l : list jval) | JObj (m : list (list N * jval)).

Inductive jtext : jval -> bytes -> Prop :=
| jt_null : jtext JNull (bs "null")
| jt_true : jtext (JBool true) (bs "true")
| jt_false : jtext (JBool false) (bs "false")
| jt_num : forall t, jnumber t -> jtext (JNum t) t
| jt_str : forall l t, jstring l t -> jtext (JStr l) t
| jt_arr : forall l t, jelems l t -> jtext (JArr l) (91 :: t ++ [93])
| jt_obj : forall m t, jmembers m t -> jtext (JObj m) (123 :: t ++ [125])
with jelems : list jval -> bytes -> Prop :=
| je_nil : jelems [] []
| je_one : forall v t, jtext v t -> jelems [v] t
| je_cons : forall v t l u, jtext v t -> jelems l u -> l <> [] -> jelems (v :: l) (t ++ 44 :: u)
with jmembers : list (list N * jval) -> bytes -> Prop :=
| jm_nil : jmembers [] []
| jm_one : forall k kt v t, jstring k kt -> jtext v t -> jmembers [(k, v)] (kt ++ 58 :: t)
| jm_cons : forall k kt v t m u, jstring k kt -> jtext v t -> jmembers m u -> m <> [] ->
    jmembers ((k, v) :: m) (kt ++ 58 :: t ++ 44 :: u).

(** the integer a decimal text denotes *)
Definition dec_value (t : bytes) : option N :=
  match t with
  | [] => None
  | _ => fold_left (fun a c => match a with
                               | Some v => if (48 <=? c) && (c <=? 57) then Some (v * 10 + (c - 48)) else None
                               | None => None
                               end) t (Some 0)
  end.
Definition int_value (t : bytes) : option Z :=
  match t with
  | 45 :: r => option_map (fun v => (- Z.of_N v)%Z) (dec_value r)
  | _ => option_map Z.of_N (dec_value t)
  end.
