(** * Property C66: traces of failures, errors, zero values and JSON *)
From Coq Require Import String NArith ZArith QArith Bool List Lia.
From Coq Require Import ZifyBool ZifyNat ZifyN.
From Verif Require Import Base FloatSpec FloatModel FloatProof AssertModel AssertSpec AssertProof EqModel EqSpec EqProof PropEq ErrModel ErrSpec ErrProof.
Import ListNotations.
Open Scope N_scope.
Open Scope string_scope. Open Scope list_scope.

(** C66: the trace of a failure is file:line of the frames of the test, innermost first, up to and with the test function, without
    those in directories of assertion libraries. *)
Theorem C66_trace : forall lower stack t, caller_info lower stack = t <-> exists upto rest, stack = upto ++ rest /\ of_test lower upto rest /\ rows upto t.
Proof. intros lower stack t. split; [intros <-; apply caller_ok|]. intros (u & r & -> & O & R). now apply caller_unique. Qed.
Print Assumptions C66_trace.
(* a failure in a closure in a helper; ASCII letters only *)
Definition ascii_lower (s : bytes) : bool := match s with c :: _ => (97 <=? c)%N && (c <=? 122)%N | [] => false end.
Definition a_stack : list frame :=
  [Frame (bs "/go/yarql/assert/assert.go") 210 (Some (bs "github.com/mjarkk/yarql/assert.Fail")); Frame (bs "/go/yarql/helpers.go") 12 (Some (bs "github.com/mjarkk/yarql.Testing.func1"));
   Frame (bs "/go/yarql/parse_test.go") 33 (Some (bs "github.com/mjarkk/yarql.TestCheck")); Frame (bs "/usr/go/testing.go") 909 (Some (bs "testing.tRunner"))].
Example C66_trace_case : caller_info ascii_lower a_stack = [bs "helpers.go:12"; bs "parse_test.go:33"] /\ caller_info ascii_lower (Frame (bs "/a/x_test.go") 5 (Some (bs "a.Testing")) :: skipn 3 a_stack) = [bs "x_test.go:5"].
Proof. split; vm_compute; reflexivity. Qed.
(** The frame of the test function is always in the trace, and is its last row, if the test is not in such a directory. *)
Theorem C66_test_is_last : forall lower l f rest text, of_test lower (l ++ [f]) rest -> row f text -> exists t, caller_info lower (l ++ [f] ++ rest) = t ++ [text].
Proof.
  intros lower l f rest text O R. rewrite app_assoc. assert (X : exists t, rows (l ++ [f]) (t ++ [text])).
  { clear O. induction l as [|g l IH]; cbn [app].
    - exists []. constructor; auto. constructor.
    - destruct IH as [t H]. exists (row_of g ++ t). rewrite <- app_assoc. now apply rows_step. }
  destruct X as [t X]. exists t. apply C66_trace. eauto.
Qed.
Print Assumptions C66_test_is_last.
Example C66_test_is_last_case : exists l f rest text, a_stack = l ++ [f] ++ rest /\ row f text /\ of_test ascii_lower (l ++ [f]) rest /\ l <> [].
Proof.
  exists (firstn 2 a_stack), (nth 2 a_stack (Frame [] 0 None)), (skipn 3 a_stack), (bs "parse_test.go:33"). split; [reflexivity|]. split.
  { exists (bs "yarql"), (bs "parse_test.go"). split; [|split; [left; cbn; intuition discriminate|reflexivity]]. apply (place_long (bs "/go") (bs "yarql") (bs "parse_test.go")); unfold without; cbn; intuition discriminate. }
  split; [|discriminate]. split; [repeat constructor; intros [X|[X|X]]; discriminate|]. split.
  - intros [|a [|b [|c l]]] f g q X; inversion X; subst; try (destruct l; discriminate); intro T; match type of T with a_test _ (Frame ?a ?b (Some ?n)) => apply (a_test_spec ascii_lower (Frame a b (Some n)) n eq_refl) in T end; vm_compute in T; discriminate.
  - right. left. do 2 eexists. split; [reflexivity|]. right. now right.
Qed.
(** REFUTED: a failure says where it is.  In a test in a directory named mock the trace is empty. *)
Theorem C66_trace_refuted : exists stack f, In f stack /\ a_test ascii_lower f /\ (length stack > 1)%nat /\ caller_info ascii_lower stack = [].
Proof.
  exists [Frame (bs "/go/yarql/assert/assert.go") 210 (Some (bs "github.com/mjarkk/yarql/assert.Fail")); Frame (bs "/go/app/mock/user_test.go") 33 (Some (bs "app/mock.TestUser"))]. eexists. split; [right; left; reflexivity|]. split.
  - match goal with |- a_test _ (Frame ?a ?b (Some ?n)) => apply (a_test_spec ascii_lower (Frame a b (Some n)) n eq_refl) end. vm_compute. reflexivity.
  - split; [cbn; lia|]. vm_compute. reflexivity.
Qed.
Print Assumptions C66_trace_refuted.

(** ErrorIs passes exactly if the error or one it wraps, at any depth, matches the target; NotErrorIs exactly otherwise. *)
Theorem C66_error_is : forall e target,
  (error_is e target = true <-> (e = None /\ target = None) \/ exists a t x, e = Some a /\ target = Some t /\ wraps a x /\ matches x t) /\
  not_error_is e target = negb (error_is e target).
Proof.
  intros e target. unfold error_is, not_error_is. split; [|now destruct (errors_is e target)]. unfold errors_is. destruct target as [t|], e as [a|].
  - destruct (is_loop a t) eqn:L; split; try discriminate; auto.
    + intros _. right. apply is_loop_spec in L. destruct L as (x & W & M). exists a, t, x. auto.
    + intros [[X _]|(a' & t' & x & E1 & E2 & W & M)]; [discriminate|]. inversion E1; inversion E2; subst. assert (is_loop a' t' = true) by (apply is_loop_spec; eauto). congruence.
  - split; [discriminate|]. intros [[_ X]|(a' & t' & x & E1 & _)]; discriminate.
  - split; [discriminate|]. intros [[X _]|(a' & t' & x & _ & E2 & _)]; discriminate.
  - split; auto.
Qed.
Print Assumptions C66_error_is.
Definition e_eof := Err 1 true (bs "EOF") None None.
Definition e_read := Err 2 true (bs "read: EOF") (Some (fun i => (i =? 7)%N)) (Some e_eof).
Definition e_load := Err 3 false (bs "load: read: EOF") None (Some e_read).
Example C66_error_is_case : error_is (Some e_load) (Some e_eof) = true /\ error_is (Some e_load) (Some (Err 7 false (bs "x") None None)) = true /\
  error_is (Some e_eof) (Some e_load) = false /\ error_is (Some e_load) (Some e_load) = false /\ error_is (Some e_eof) None = false.
Proof. repeat split; vm_compute; reflexivity. Qed.
(** Its failure shows the texts of all errors of the chain, outermost first. *)
Theorem C66_chain : forall quote e l target, chain e l ->
  error_is_message quote (Some e) target = bs "Target error should be in err chain:" ++ [10] ++ bs "expected: " ++ quote (match target with None => [] | Some t => e_msg t end) ++ [10] ++ bs "in chain: " ++ join [10; 9] (map (fun x => quote (e_msg x)) l) /\
  (forall x, In x l <-> wraps e x).
Proof.
  intros quote e l target C. split; [unfold error_is_message, error_chain_string; now rewrite (chain_text quote e l C)|]. induction C; intro x; cbn [In].
  - split; [intros [<-|[]]; constructor|]. intro W. inversion W; auto.
  - rewrite IHC. split; [intros [<-|W]; now constructor|]. intro W. inversion W; subst; auto.
Qed.
Print Assumptions C66_chain.
Example C66_chain_case : chain e_load [e_load; e_read; e_eof] /\ error_chain_string (fun s => [34] ++ s ++ [34]) (Some e_load) = [34] ++ bs "load: read: EOF" ++ [34; 10; 9; 34] ++ bs "read: EOF" ++ [34; 10; 9; 34] ++ bs "EOF" ++ [34].
Proof. split; [repeat constructor|]. vm_compute. reflexivity. Qed.
(** ErrorAs stores the outermost error of the chain that fits, and fails if none does. *)
Theorem C66_error_as : forall fits e,
  (forall x, error_as fits e = Some x <-> exists l1 l2, chain e (l1 ++ x :: l2) /\ fits x = true /\ Forall (fun y => fits y = false) l1) /\
  (error_as fits e = None <-> forall x, wraps e x -> fits x = false).
Proof.
  intros fits e. pose proof (error_as_spec fits e) as H. assert (U : forall e l, chain e l -> forall l', chain e l' -> l = l'). { intros e0 l C. induction C; intros l' C'; inversion C'; subst; auto. f_equal. auto. }
  assert (F : forall (x y : err) l1 l2 r1 r2, l1 ++ x :: l2 = r1 ++ y :: r2 -> fits x = true -> fits y = true -> Forall (fun z => fits z = false) l1 -> Forall (fun z => fits z = false) r1 -> x = y).
  { induction l1 as [|a l1 IH]; intros l2 [|b r1] r2 E X Y A B; cbn [app] in E; inversion E; subst; auto; [inversion B; congruence|inversion A; congruence|]. inversion A; inversion B; subst. eapply IH; eauto. }
  assert (W : forall l e, chain e l -> forall x, In x l -> wraps e x). { intros l e0 C. induction C; intros x [<-|I1]; try constructor; auto. destruct I1. }
  destruct (error_as fits e) as [x|].
  - destruct H as (l1 & l2 & C & X & A). split.
    + intro y. split; [intro E; inversion E; subst; eauto|]. intros (r1 & r2 & D & Y & B). f_equal. eapply F; eauto.
    + split; [discriminate|]. intro N1. rewrite (N1 x) in X; [discriminate|]. eapply W; eauto. apply in_or_app. right. now left.
  - split; [|tauto]. intro y. split; [discriminate|]. intros (r1 & r2 & D & Y & _). rewrite H in Y; [discriminate|]. eapply W; eauto. apply in_or_app. right. now left.
Qed.
Print Assumptions C66_error_as.
Example C66_error_as_case : error_as (fun e => (e_id e <? 3)%N) e_load = Some e_read /\ error_as (fun e => (e_id e =? 9)%N) e_load = None.
Proof. split; reflexivity. Qed.
(** NoError passes exactly for nil, Error exactly for the others, and EqualError exactly for an error with the given text. *)
Theorem C66_errors : forall e text, (no_error e = true <-> e = None) /\ an_error e = negb (no_error e) /\ (equal_error e text = true <-> exists x, e = Some x /\ e_msg x = text).
Proof.
  intros [x|] text; (split; [split; [try discriminate; auto|try discriminate; auto]|]); (split; [reflexivity|]); unfold equal_error; cbn [an_error negb].
  - rewrite beqb_eq. split; [intros ->; eauto|]. intros (y & E & <-). now inversion E.
  - split; [discriminate|]. intros (y & E & _). discriminate.
Qed.
Print Assumptions C66_errors.
Example C66_errors_case : equal_error (Some e_read) (bs "read: EOF") = true /\ equal_error (Some e_read) (bs "EOF") = false /\ equal_error None [] = false.
Proof. repeat split; vm_compute; reflexivity. Qed.

(** Zero passes exactly for nil and for values that are zero throughout; NotZero exactly for the others. *)
Theorem C66_zero : forall o, well_object o -> (assert_zero o = true <-> o = None \/ exists t x, o = Some (t, x) /\ is_zero x) /\ assert_not_zero o = negb (assert_zero o).
Proof.
  intros [[t x]|] W; cbn [assert_zero assert_not_zero]; (split; [|reflexivity]).
  - destruct W as [W _]. rewrite deep_same by (try apply zero_well; now exists t). rewrite same_zero by auto. split; [eauto|]. intros [X|(t' & x' & E & Z)]; [discriminate|]. now inversion E; subst.
  - split; auto.
Qed.
Print Assumptions C66_zero.
Example C66_zero_case : assert_zero (Some (TyArray 11 2 t_num, VArray [VNum 0; VNum 0])) = true /\ assert_zero (Some (t_bytes, VSlice (Some (3, [])))) = false /\ assert_zero (Some (t_user, VStruct [VNum 0; VPtr None; VMap None; VIface None; VFloat minus_zero])) = true.
Proof. repeat split; vm_compute; reflexivity. Qed.

(** JSONEq passes exactly if both texts are JSON and mean the same: the order of keys does not matter, the last value of a repeated key counts. *)
Theorem C66_json : forall unmarshal expected actual, (forall s v, unmarshal s = Some v -> j_ok v) ->
  (json_eq unmarshal expected actual = true <-> exists v w, unmarshal expected = Some v /\ unmarshal actual = Some w /\ json_same v w).
Proof.
  intros unmarshal expected actual O. unfold json_eq. destruct (unmarshal expected) as [v|] eqn:E1; [|split; [discriminate|intros (v & w & X & _); discriminate]]. destruct (unmarshal actual) as [w|] eqn:E2; [|split; [discriminate|intros (v' & w & _ & X & _); discriminate]].
  assert (W : forall a u, j_ok u -> well_object (decode a u)). { intros a u Ou. pose proof (decode_well a u Ou) as X. pose proof (decode_not_iface a u) as Y. destruct (decode a u) as [[t x]|]; cbn; auto. split; eauto. }
  pose proof (O _ _ E1) as Ov. pose proof (O _ _ E2) as Ow. rewrite C65_equal by (auto; intros t u p l r X Y; exfalso; destruct v; inversion X; subst; destruct w; discriminate Y). rewrite (decode_same 1 2) by (auto; discriminate).
  assert (F : forall a u, ~ a_function (decode a u)) by (intros a u (i & x & X); destruct u; discriminate). split.
  - intros (_ & _ & S). eauto.
  - intros (v' & w' & X & Y & S). inversion X; inversion Y; subst. auto.
Qed.
Print Assumptions C66_json.
Definition j1 : jval := JObj [(bs "a", JNull); (bs "b", JArr [JNum 0; JObj [(bs "x", JBool true)]]); (bs "a", JStr (bs "s"))].
Definition j2 : jval := JObj [(bs "a", JStr (bs "s")); (bs "b", JArr [JNum minus_zero; JObj [(bs "x", JBool true)]])].
Definition two_texts (s : bytes) : option jval := match s with [49] => Some j1 | [50] => Some j2 | [51] => Some (JArr []) | _ => None end.
Example C66_json_case : (forall s v, two_texts s = Some v -> j_ok v) /\ json_eq two_texts [49] [50] = true /\ json_eq two_texts [49] [51] = false /\ json_eq two_texts [52] [52] = false.
Proof.
  split; [|repeat split; vm_compute; reflexivity]. assert (O1 : j_ok j1) by (unfold j1; repeat (constructor; cbn [snd]); reflexivity). assert (O2 : j_ok j2) by (unfold j2; repeat (constructor; cbn [snd]); reflexivity). assert (O3 : j_ok (JArr [])) by (repeat constructor).
  intros s v E. unfold two_texts in E. repeat match type of E with match ?x with _ => _ end = _ => destruct x end; try discriminate; inversion E; subst; auto.
Qed.
(** REFUTED: it tells apart texts with different numbers.  Numbers are compared as float64. *)
Theorem C66_json_refuted : exists x y, x <> y /\ json_same (JNum (of_int x)) (JNum (of_int y)).
Proof.
  exists 9007199254740992%Z, 9007199254740993%Z. split; [discriminate|]. destruct (bits_number (of_int 9007199254740992)) as [q Q]; [vm_compute; reflexivity|vm_compute; reflexivity|]. replace (of_int 9007199254740993) with (of_int 9007199254740992) by (vm_compute; reflexivity). econstructor; eauto. apply number_eq_refl.
Qed.
Print Assumptions C66_json_refuted.
