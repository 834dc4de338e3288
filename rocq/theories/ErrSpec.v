(** * Specification vocabulary: where a failure is, chains of errors, equal JSON.  Nothing here models code of /repo. *)
From Coq Require Import String NArith ZArith QArith Bool List.
From Verif Require Import Base AssertModel AssertSpec EqModel EqSpec ErrModel.
Import ListNotations.
Open Scope N_scope.
Open Scope string_scope. Open Scope list_scope.

(** ** The trace of a failure *)
(** a path ends with the name of a directory and of a file in it *)
Definition without (c : N) (s : bytes) : Prop := ~ In c s.
Inductive place : bytes -> bytes -> bytes -> Prop :=
| place_short : forall dir file, without 47 dir -> without 47 file -> place (dir ++ [47] ++ file) dir file
| place_long : forall pre dir file, without 47 dir -> without 47 file -> place (pre ++ [47] ++ dir ++ [47] ++ file) dir file.
(** the name of a function without its package and receiver *)
Definition short_name (name s : bytes) : Prop := without 46 s /\ (name = s \/ exists pre, name = pre ++ [46] ++ s).
Section Trace.
Variable lower : bytes -> bool.
Definition test_name (s : bytes) : Prop := exists p rest, In p [bs "Test"; bs "Benchmark"; bs "Example"] /\ s = p ++ rest /\ (rest = [] \/ lower rest = false).
Definition a_test (f : frame) : Prop := exists name s, fr_func f = Some name /\ short_name name s /\ test_name s.
(** frames at which the trace ends before them *)
Definition outside (f : frame) : Prop := fr_file f = bs "<autogenerated>" \/ fr_func f = None \/ fr_func f = Some (bs "testing.tRunner").
(** the frames of a test: up to and with the first test function, or up to the first frame outside *)
Definition of_test (upto rest : list frame) : Prop :=
  Forall (fun f => ~ outside f) upto /\ (forall l f g r, upto = l ++ f :: g :: r -> ~ a_test f) /\
  (rest = [] \/ (exists f r, rest = f :: r /\ outside f) \/ exists l f, upto = l ++ [f] /\ a_test f).
End Trace.
(** the row for a frame: file:line, unless it is in a directory of an assertion library *)
Definition row (f : frame) (text : bytes) : Prop :=
  exists dir file, place (fr_file f) dir file /\ (~ In dir [bs "assert"; bs "mock"; bs "require"] \/ file = bs "mock_test.go") /\ text = file ++ bs ":" ++ dec_of_N (fr_line f).
Inductive rows : list frame -> list bytes -> Prop :=
| rows_nil : rows [] []
| rows_shown : forall f r text t, row f text -> rows r t -> rows (f :: r) (text :: t)
| rows_hidden : forall f r t, (forall text, ~ row f text) -> rows r t -> rows (f :: r) t.

(** ** Errors *)
(** an error and those it wraps, at any depth *)
Inductive wraps : err -> err -> Prop :=
| wraps_self : forall e, wraps e e
| wraps_deep : forall i c m f e x, wraps e x -> wraps (Err i c m f (Some e)) x.
Inductive chain : err -> list err -> Prop :=
| chain_end : forall i c m f, chain (Err i c m f None) [Err i c m f None]
| chain_more : forall i c m f e l, chain e l -> chain (Err i c m f (Some e)) (Err i c m f (Some e) :: l).
Definition matches (x target : err) : Prop := (e_comparable target = true /\ e_id x = e_id target) \/ exists m, e_is x = Some m /\ m (e_id target) = true.

(** ** JSON: the last value of a key counts, the order of keys does not *)
Definition last_of {A} (k : bytes) (l : list (bytes * A)) (x : A) : Prop := exists l1 l2, l = l1 ++ (k, x) :: l2 /\ ~ In k (map fst l2).
Inductive json_same : jval -> jval -> Prop :=
| js_null : json_same JNull JNull
| js_bool : forall b, json_same (JBool b) (JBool b)
| js_num : forall a b x y, is_number a x -> is_number b y -> number_eq x y -> json_same (JNum a) (JNum b)
| js_str : forall s, json_same (JStr s) (JStr s)
| js_arr : forall l r, Forall2 json_same l r -> json_same (JArr l) (JArr r)
| js_obj : forall l r, (forall k x, last_of k l x -> exists y, last_of k r y /\ json_same x y) -> (forall k, In k (map fst r) -> In k (map fst l)) -> json_same (JObj l) (JObj r).
(** the numbers are patterns of float64 *)
Inductive j_ok : jval -> Prop :=
| ok_null : j_ok JNull | ok_bool : forall b, j_ok (JBool b) | ok_num : forall n, n < 18446744073709551616 -> j_ok (JNum n) | ok_str : forall s, j_ok (JStr s)
| ok_arr : forall l, Forall j_ok l -> j_ok (JArr l) | ok_obj : forall l, Forall (fun kv => j_ok (snd kv)) l -> j_ok (JObj l).
