(** * What the assertions of the tests say: failure reports, orders, differences *)
From Coq Require Import String NArith ZArith QArith Qabs Bool List Lia Lqa.
From Coq Require Import ZifyBool ZifyNat ZifyN.
From Verif Require Import Base FloatSpec FloatModel FloatProof AssertModel AssertSpec AssertProof.
Import ListNotations.
Open Scope N_scope.

(** ** C62: failure reports *)
(** Whatever the labels and texts: the output is the report of AssertSpec.v, and this says what is written in every byte. *)
Theorem C62_report : forall content text, labeled_output content = text <-> report content text.
Proof. intros content text. split; [intros <-; apply report_ok|]. intro R. eapply report_unique; eauto. apply report_ok. Qed.
Print Assumptions C62_report.
(* lines with and without a carriage return, an empty text, labels of several lengths *)
Example C62_case : labeled_output [(bs "Error", bs "a" ++ [13; 10] ++ bs "b" ++ [10; 10] ++ bs "c" ++ [10]); (bs "Test", []); (bs "Error Trace", bs "x")] =
  bs "	Error:      	a" ++ [10] ++ bs "	            	b" ++ [10] ++ bs "	            	" ++ [10] ++ bs "	            	c" ++ [10] ++ bs "	Test:       	" ++ [10] ++ bs "	Error Trace:	x" ++ [10].
Proof. vm_compute. reflexivity. Qed.
(** Hence every line of every text is shown if no line has more than 65535 bytes (a carriage return at its end apart). *)
Theorem C62_all_shown : forall label m ls w, has_lines m ls -> Forall short ls -> Forall2 written ls w ->
  exists b, block (length label + 1) label w b /\ labeled_output [(label, m)] = concat (map row b).
Proof.
  intros label m ls w H S W. destruct (report_ok [(label, m)]) as (k & blocks & -> & G & [X|(c & [<-|[]] & ->)] & F); [discriminate|]. cbn [fst] in *.
  inversion F as [|? b ? r (ls' & shown & ws & H' & U & W' & B) F']; subst. inversion F'; subst. cbn [fst snd] in *. rewrite (lines_unique _ _ _ H' H) in *.
  assert (E : shown = ls) by (eapply until_long_unique; eauto; exists []; rewrite app_nil_r; auto). subst shown.
  assert (E : ws = w). { clear - W W'. revert w W. induction W' as [|x y l l' P Q IH]; intros w W; inversion W; subst; [reflexivity|]. f_equal; [eapply written_unique; eauto|auto]. }
  subst ws. exists b. split; auto. cbn [concat]. now rewrite app_nil_r.
Qed.
Print Assumptions C62_all_shown.
Example C62_all_shown_case : has_lines (bs "a" ++ [10] ++ bs "b") [bs "a"; bs "b"] /\ Forall short [bs "a"; bs "b"] /\ Forall2 written [bs "a"; bs "b"] [bs "a"; bs "b"].
Proof.
  split; [|split].
  - split; [repeat constructor; intros [X|[]]; discriminate|]. right. exists [bs "a"], (bs "b"). split; [reflexivity|]. split; [discriminate|reflexivity].
  - repeat constructor.
  - constructor; [exact (drop_cr_written (bs "a"))|]. constructor; [exact (drop_cr_written (bs "b"))|constructor].
Qed.
(** Without the bound it is false: a text of one line with 65536 bytes is not shown at all. *)
Definition long_line : bytes := repeat 97 (N.to_nat 65536).
Theorem C62_long_refuted : exists m, (exists ls, has_lines m ls /\ ls = [m]) /\ labeled_output [(bs "Error", m)] = bs "	Error:	" ++ [10].
Proof.
  exists long_line. split.
  - exists [long_line]. split; [|reflexivity]. split.
    + constructor; [|constructor]. intro I. apply repeat_spec in I. discriminate.
    + right. exists [], long_line. split; [reflexivity|]. split; [|reflexivity]. unfold long_line. intro E. apply (f_equal (@length N)) in E. rewrite repeat_length in E. apply (f_equal N.of_nat) in E. rewrite Nnat.N2Nat.id in E. discriminate.
  - vm_compute. reflexivity.
Qed.
Print Assumptions C62_long_refuted.

(** What Fail reports: where, what, in which test and the message of the user; nothing for the message if there is none. *)
Definition user_message (sprintf : bytes -> list marg -> bytes) (args : list marg) (m : bytes) : Prop :=
  (args = [] /\ m = []) \/ args = [MStr m] \/ args = [MOther m] \/ (exists f a r, args = MStr f :: a :: r /\ m = sprintf f (a :: r)).
Theorem C62_fail : forall sprintf trace name failure args,
  (forall m, user_message sprintf args m ->
    exists text, fail sprintf trace name failure args = Some (10 :: text) /\
      report ([(bs "Error Trace", join [10; 9; 9; 9] trace); (bs "Error", failure)] ++ match name with Some n => [(bs "Test", n)] | None => [] end ++ match m with [] => [] | _ => [(bs "Messages", m)] end) text) /\
  (fail sprintf trace name failure args = None <-> exists t a r, args = MOther t :: a :: r).
Proof.
  intros sprintf trace name failure args. split.
  - intros m U. eexists. split; [|apply report_ok]. unfold fail. assert (E : message_of sprintf args = Some m) by (destruct U as [(-> & ->)|[->|[->|(f & a & r & -> & ->)]]]; reflexivity). rewrite E. cbn [app]. now rewrite <- ?app_assoc.
  - unfold fail. destruct args as [|[s|s] [|a r]]; cbn [message_of]; split; try discriminate; try (intros (t & x & y & E); discriminate); intros _; eauto.
Qed.
Print Assumptions C62_fail.
Example C62_fail_case : exists m, user_message (fun f _ => f ++ bs "!") [MStr (bs "m %d"); MOther (bs "1")] m /\
  fail (fun f _ => f ++ bs "!") [bs "a.go:1"; bs "b.go:2"] (Some (bs "TestA")) (bs "Should be true") [MStr (bs "m %d"); MOther (bs "1")] =
  Some ([10] ++ bs "	Error Trace:	a.go:1" ++ [10] ++ bs "	            				b.go:2" ++ [10] ++ bs "	Error:      	Should be true" ++ [10] ++ bs "	Test:       	TestA" ++ [10] ++ bs "	Messages:   	m %d!" ++ [10]).
Proof. exists (bs "m %d!"). split; [right; right; right; exists (bs "m %d"), (MOther (bs "1")), []; split; reflexivity|]. vm_compute. reflexivity. Qed.

(** Equal: the expected and the actual value are shown, each on its line and cut at 65436 bytes, if the values are of
    one type or the names of the types have at most 72 bytes. *)
Definition shown_as (same : bool) (ty v t : bytes) : Prop := exists a, abbreviated v a /\ t = if same then a else ty ++ bs "(" ++ a ++ bs ")".
Theorem C62_equal : forall same te ve ta va diff, ~ In 10 te -> ~ In 10 ve -> ~ In 10 ta -> ~ In 10 va -> (diff = [] \/ exists d, diff = 10 :: d) ->
  same = true \/ (N.of_nat (length te) <= 72 /\ N.of_nat (length ta) <= 72) ->
  exists e a ls shown, shown_as same te ve e /\ shown_as same ta va a /\
    has_lines (not_equal_message same te ve ta va diff) ls /\ until_long ls ([bs "Not equal: "; bs "expected: " ++ e; bs "actual  : " ++ a] ++ shown).
Proof.
  intros same te ve ta va diff N1 N2 N3 N4 D T. unfold not_equal_message, format_unequal. pose proof (truncating_ok ve) as Av. pose proof (truncating_ok va) as Aa.
  set (e := truncating_format ve) in *. set (a := truncating_format va) in *. pose proof (abbreviated_len _ _ Av) as Le. pose proof (abbreviated_len _ _ Aa) as La.
  assert (Tr : ~ In 10 (bs "<... truncated>")) by (intro I; vm_compute in I; repeat (destruct I as [I|I]; [discriminate|]); contradiction).
  pose proof (abbreviated_no 10 _ _ Av N2 Tr) as Ne. pose proof (abbreviated_no 10 _ _ Aa N4 Tr) as Na.
  assert (Sh : forall ty v t, abbreviated v t -> shown_as same ty v (if same then t else ty ++ bs "(" ++ t ++ bs ")")) by (intros; eexists; eauto).
  assert (Ok : forall ty t, ~ In 10 ty -> ~ In 10 t -> N.of_nat (length t) <= 65451 -> same = true \/ N.of_nat (length ty) <= 72 ->
            ~ In 10 (if same then t else ty ++ bs "(" ++ t ++ bs ")") /\ N.of_nat (length (if same then t else ty ++ bs "(" ++ t ++ bs ")")) <= 65525).
  { intros ty t M1 M2 Lt C. destruct same; [split; [auto|lia]|]. split.
    - intro I. apply in_app_or in I. destruct I as [I|I]; [auto|]. apply in_app_or in I. destruct I as [[I|[]]|I]; [discriminate|]. apply in_app_or in I. destruct I as [I|[I|[]]]; [auto|discriminate].
    - destruct C as [C|C]; [discriminate|]. rewrite !app_length. change (length (bs "(")) with 1%nat. change (length (bs ")")) with 1%nat. lia. }
  destruct (Ok te e N1 Ne Le) as [P1 P2]; [tauto|]. destruct (Ok ta a N3 Na La) as [Q1 Q2]; [tauto|].
  destruct (equal_lines _ _ diff P2 Q2 P1 Q1 D) as (ls & shown & H & U).
  exists (if same then e else te ++ bs "(" ++ e ++ bs ")"), (if same then a else ta ++ bs "(" ++ a ++ bs ")"). eexists. exists shown. split; [apply Sh; auto|]. split; [apply Sh; auto|]. split; [|exact U].
  destruct same; exact H.
Qed.
Print Assumptions C62_equal.
Example C62_equal_case : not_equal_message false (bs "int") (bs "1") (bs "string") (bs "q") (10 :: bs "d") = bs "Not equal: " ++ [10] ++ bs "expected: int(1)" ++ [10] ++ bs "actual  : string(q)" ++ [10] ++ bs "d".
Proof. vm_compute. reflexivity. Qed.
(** With a type name of 73 bytes the report can end before the expected value: neither value is shown. *)
Definition name73 : bytes := repeat 84 73.
Definition value_long : bytes := repeat 118 (N.to_nat 65437).
Theorem C62_equal_refuted : exists te ve ta va, N.of_nat (length te) = 73 /\ labeled_output [(bs "Error", not_equal_message false te ve ta va [])] = bs "	Error:	Not equal: " ++ [10].
Proof. exists name73, value_long, (bs "int"), (bs "1"). split; [reflexivity|]. vm_compute. reflexivity. Qed.
Print Assumptions C62_equal_refuted.

(** The comparing assertions hand the arguments of the user on as one argument.  The message is therefore not
    formatted: it is shown in brackets with its arguments behind it ... *)
Theorem C62_compare_message : forall fv fT sprintf e1 e2 args f given,
  (greater fv fT e1 e2 args = Failed f given \/ greater_or_equal fv fT e1 e2 args = Failed f given \/ less fv fT e1 e2 args = Failed f given \/
   less_or_equal fv fT e1 e2 args = Failed f given \/ positive fv fT e1 args = Failed f given \/ negative fv fT e1 args = Failed f given) ->
  message_of sprintf given = Some (bs "[" ++ spaced (map plus_v args) ++ bs "]").
Proof.
  intros fv fT sprintf e1 e2 args f given H.
  assert (T : forall e e' al m, compare_two fv fT e e' al m [slice_arg args] = Failed f given -> given = [slice_arg args]).
  { intros e e' al m. unfold compare_two. destruct (negb _); [congruence|]. destruct (compare _ _ _) as [[c b]|]; [|discriminate]. destruct (negb b); [congruence|]. destruct (negb _); [congruence|discriminate]. }
  assert (E : given = [slice_arg args]). { unfold greater, greater_or_equal, less, less_or_equal, positive, negative in H. destruct H as [H|[H|[H|[H|[H|H]]]]]; try (eapply T; exact H); destruct e1; try discriminate; eapply T; exact H. }
  subst given. reflexivity.
Qed.
Print Assumptions C62_compare_message.
(** ... and there is a message even if the user gave none. *)
Theorem C62_compare_message_refuted : forall fv fT sprintf, exists e1 e2 f given,
  greater fv fT e1 e2 [] = Failed f given /\ user_message sprintf [] [] /\ message_of sprintf given = Some (bs "[]").
Proof. intros. exists (AInt KdInt 1), (AInt KdInt 2). do 2 eexists. split; [reflexivity|]. split; [left; auto|reflexivity]. Qed.
Print Assumptions C62_compare_message_refuted.
(** The failures of an order say both values ... *)
Definition says (r : assertion) (f : bytes) : Prop := exists given, r = Failed f given.
Theorem C62_order_says : forall fv fT e1 e2 args, any_ok e1 -> any_ok e2 ->
  (any_lt e1 e2 \/ any_eq e1 e2 -> says (greater fv fT e1 e2 args) (bs """" ++ fv e1 ++ bs """ is not greater than """ ++ fv e2 ++ bs """")) /\
  (any_lt e1 e2 -> says (greater_or_equal fv fT e1 e2 args) (bs """" ++ fv e1 ++ bs """ is not greater than or equal to """ ++ fv e2 ++ bs """")) /\
  (any_lt e2 e1 \/ any_eq e1 e2 -> says (less fv fT e1 e2 args) (bs """" ++ fv e1 ++ bs """ is not less than """ ++ fv e2 ++ bs """")) /\
  (any_lt e2 e1 -> says (less_or_equal fv fT e1 e2 args) (bs """" ++ fv e1 ++ bs """ is not less than or equal to """ ++ fv e2 ++ bs """")).
Proof.
  intros fv fT e1 e2 args O1 O2.
  assert (T : any_lt e2 e1 \/ any_eq e1 e2 \/ any_lt e1 e2 -> any_kind e1 = any_kind e2) by (intros [X|[X|X]]; [symmetry; now apply any_lt_same|now apply any_eq_same|now apply any_lt_same]).
  pose proof (compare_ok e1 e2 O1 O2) as C. unfold says, greater, greater_or_equal, less, less_or_equal, compare_two.
  split; [|split; [|split]]; intro H; (assert (K : any_kind e1 = any_kind e2) by (apply T; tauto)); specialize (C K); rewrite (internal_akind_dec_lb _ _ K);
    (destruct (compare e1 e2 (any_kind e1)) as [[[] []]|]; cbn in C; try tauto); eexists; reflexivity.
Qed.
Print Assumptions C62_order_says.
Example C62_order_says_case : any_ok (AStr (bs "b")) /\ any_ok (AStr (bs "a")) /\ any_lt (AStr (bs "a")) (AStr (bs "b")) /\
  less (fun a => match a with AStr s => s | _ => [] end) (fun _ => bs "string") (AStr (bs "b")) (AStr (bs "a")) [] = Failed (bs """b"" is not less than ""a""") [MOther (bs "[]")].
Proof. split; [exact Logic.I|]. split; [exact Logic.I|]. split; [apply lt_str, str_lt_spec; reflexivity|]. vm_compute. reflexivity. Qed.
(** ... and those of Positive and Negative end with a complaint about the format, since the zero is an argument too many. *)
Theorem C62_sign_says : forall fv fT e args, any_ok e ->
  (any_lt e (zero_of e) \/ any_eq e (zero_of e) -> says (positive fv fT e args) (bs """" ++ fv e ++ bs """ is not positive%!(EXTRA " ++ fT (zero_of e) ++ bs "=" ++ fv (zero_of e) ++ bs ")")) /\
  (any_lt (zero_of e) e \/ any_eq e (zero_of e) -> says (negative fv fT e args) (bs """" ++ fv e ++ bs """ is not negative%!(EXTRA " ++ fT (zero_of e) ++ bs "=" ++ fv (zero_of e) ++ bs ")")).
Proof.
  intros fv fT e args O. replace (fT (zero_of e) ++ bs "=" ++ fv (zero_of e) ++ bs ")") with ((fT (zero_of e) ++ bs "=" ++ fv (zero_of e)) ++ bs ")") by (rewrite <- !app_assoc; reflexivity).
  assert (Oz : any_ok (zero_of e)) by (destruct e as [|k z|k z|z|z]; cbn in *; auto; split; [tauto|reflexivity]).
  assert (K : any_kind e = any_kind (zero_of e)) by now destruct e.
  pose proof (compare_ok e (zero_of e) O Oz K) as C. unfold says, positive, negative.
  assert (Nn : ~ any_lt ANil ANil /\ ~ any_eq ANil ANil) by (split; intro X; inversion X).
  split; intro H; (destruct (match e with ANil => true | _ => false end) eqn:Z; [destruct e; try discriminate; cbn in H; tauto|]).
  - assert (E : forall x : assertion, match e with ANil => Panicked | _ => x end = x) by (intro; now destruct e). rewrite E. unfold compare_two. rewrite (internal_akind_dec_lb _ _ K).
    destruct (compare e (zero_of e) (any_kind e)) as [[[] []]|]; cbn in C; try tauto; eexists; reflexivity.
  - assert (E : forall x : assertion, match e with ANil => Panicked | _ => x end = x) by (intro; now destruct e). rewrite E. unfold compare_two. rewrite (internal_akind_dec_lb _ _ K).
    destruct (compare e (zero_of e) (any_kind e)) as [[[] []]|]; cbn in C; try tauto; eexists; reflexivity.
Qed.
Print Assumptions C62_sign_says.
Definition int_text (a : any) : bytes := match a with AInt _ z => (if (z <? 0)%Z then [45] else []) ++ dec_of_N (Z.abs_N z) | _ => [] end.
Example C62_sign_case : any_ok (AInt KdInt (-1)) /\ any_lt (AInt KdInt (-1)) (zero_of (AInt KdInt (-1))) /\
  positive int_text (fun _ => bs "int") (AInt KdInt (-1)) [] = Failed (bs """-1"" is not positive%!(EXTRA int=0)") [MOther (bs "[]")].
Proof. split; [reflexivity|]. split; [apply lt_int; reflexivity|]. vm_compute. reflexivity. Qed.

(** ** C63: orders and differences *)
(** The four comparing assertions pass exactly for two values of one kind in this order; integers are ordered as
    numbers, floats as the numbers that they are (NaN is none), strings byte by byte; they never panic. *)
Theorem C63_order : forall fv fT e1 e2 args, any_ok e1 -> any_ok e2 ->
  (greater fv fT e1 e2 args = Passed <-> any_lt e2 e1) /\
  (greater_or_equal fv fT e1 e2 args = Passed <-> any_lt e2 e1 \/ any_eq e1 e2) /\
  (less fv fT e1 e2 args = Passed <-> any_lt e1 e2) /\
  (less_or_equal fv fT e1 e2 args = Passed <-> any_lt e1 e2 \/ any_eq e1 e2) /\
  greater fv fT e1 e2 args <> Panicked /\ greater_or_equal fv fT e1 e2 args <> Panicked /\ less fv fT e1 e2 args <> Panicked /\ less_or_equal fv fT e1 e2 args <> Panicked.
Proof.
  intros fv fT e1 e2 args O1 O2. unfold greater, greater_or_equal, less, less_or_equal.
  pose proof (fun al f => proj1 (compare_two_spec fv fT e1 e2 al f [slice_arg args] O1 O2)) as P. pose proof (fun al f => proj2 (compare_two_spec fv fT e1 e2 al f [slice_arg args] O1 O2)) as H. cbv zeta in P, H.
  assert (D : CGreater <> CLess /\ CGreater <> CEqual /\ CLess <> CEqual) by (repeat split; discriminate).
  rewrite !H. cbn [In]. repeat split; try apply P; intuition congruence.
Qed.
Print Assumptions C63_order.
(* minus zero equals zero, infinity is greater than every number, NaN is not in order; a kind is not another kind *)
Example C63_order_case : any_ok (AFloat KdFloat64 9223372036854775808) /\ any_eq (AFloat KdFloat64 9223372036854775808) (AFloat KdFloat64 0) /\
  greater_or_equal (fun _ => []) (fun _ => []) (AFloat KdFloat64 9223372036854775808) (AFloat KdFloat64 0) [] = Passed /\
  less (fun _ => []) (fun _ => []) (AFloat KdFloat64 9218868437227405311) (AFloat KdFloat64 9218868437227405312) [] = Passed /\
  less (fun _ => []) (fun _ => []) (AFloat KdFloat64 0) (AFloat KdFloat64 9221120237041090561) [] <> Passed /\
  less (fun _ => []) (fun _ => []) (AInt KdInt 1) (AInt KdInt8 2) [] <> Passed.
Proof.
  split; [split; reflexivity|]. split.
  - apply (eq_float KdFloat64 _ _ (Number (with_sign true (rat 0 * pow2 (1 - Z.of_N (bias f64) - Z.of_N (f_mant f64))))) (Number (with_sign false (rat 0 * pow2 (1 - Z.of_N (bias f64) - Z.of_N (f_mant f64)))))).
    + apply is_finite. exact (fin_small f64 true 0 eq_refl).
    + apply is_finite. exact (fin_small f64 false 0 eq_refl).
    + cbn [number_eq with_sign]. unfold rat. cbn [Z.of_N]. ring.
  - split; [vm_compute; reflexivity|]. split; [vm_compute; reflexivity|]. split; vm_compute; discriminate.
Qed.
(** The sign: a number greater, less than zero; a string that is not empty; only nil makes them panic. *)
Theorem C63_sign : forall fv fT e args, any_ok e ->
  (positive fv fT e args = Passed <-> match e with AInt _ z => (0 < z)%Z | AFloat _ b => exists x, is_number b x /\ number_lt (Number 0) x | AStr s => s <> [] | ANil | AOther _ => False end) /\
  (negative fv fT e args = Passed <-> match e with AInt _ z => (z < 0)%Z | AFloat _ b => exists x, is_number b x /\ number_lt x (Number 0) | AStr _ | ANil | AOther _ => False end) /\
  (positive fv fT e args = Panicked <-> e = ANil) /\ (negative fv fT e args = Panicked <-> e = ANil).
Proof.
  intros fv fT e args O.
  assert (Oz : any_ok (zero_of e)) by (destruct e as [|k z|k z|z|z]; cbn in *; auto; split; [tauto|reflexivity]).
  pose proof (C63_order fv fT e (zero_of e) args O Oz) as (G & _ & L & _ & PG & _ & PL & _).
  assert (Pz : e = ANil \/ (positive fv fT e args = compare_two fv fT e (zero_of e) [CGreater] (bs """%v"" is not positive") [slice_arg args] /\ negative fv fT e args = compare_two fv fT e (zero_of e) [CLess] (bs """%v"" is not negative") [slice_arg args])) by (destruct e; auto).
  destruct Pz as [->|[E1 E2]].
  - split; [split; [discriminate|contradiction]|]. split; [split; [discriminate|contradiction]|]. split; split; reflexivity.
  - pose proof (compare_two_spec fv fT e (zero_of e) [CGreater] (bs """%v"" is not positive") [slice_arg args] O Oz) as [P1 H1]. pose proof (compare_two_spec fv fT e (zero_of e) [CLess] (bs """%v"" is not negative") [slice_arg args] O Oz) as [P2 H2]. cbv zeta in *. rewrite E1, E2.
    assert (Z0 : forall b, is_number 0 (Number b) -> (b == 0)%Q).
    { intros b X. destruct (number_bits _ _ X) as (neg & a & Ea & La & [(F & v & Ev & V)|(-> & Ev)]); [|destruct neg; discriminate]. inversion Ev; subst. assert (a = 0 /\ neg = false) as [-> ->] by (unfold signed in Ea; rewrite sign64 in Ea; destruct neg; lia). cbn [with_sign]. rewrite V, mag0. unfold rat. cbn. ring. }
    assert (Nz : exists q, is_number 0 (Number q) /\ (q == 0)%Q).
    { destruct (bits_number 0) as (x & X); [reflexivity|reflexivity|]. pose proof X as X'. apply number_bits in X'. destruct X' as (neg & a & Ea & La & [(F & v & -> & V)|(-> & Ev)]); [eauto|]. exfalso. unfold signed in Ea. rewrite sign64, inf64 in Ea. destruct neg; lia. }
    destruct Nz as (q & Nq & Eq).
    assert (Lq : forall x, (number_lt (Number q) x <-> number_lt (Number 0) x) /\ (number_lt x (Number q) <-> number_lt x (Number 0))).
    { intros [|y|]; cbn [number_lt]; rewrite ?Eq; tauto. }
    split; [|split; [|split]].
    + rewrite H1. cbn [In]. destruct e as [|k z|k b|s|n]; cbn [zero_of] in *.
      * split; [|contradiction]. intros [[_ X]|[[[X|[]] _]|[[X|[]] _]]]; [inversion X|discriminate|discriminate].
      * split; [intros [[_ X]|[[[X|[]] _]|[[X|[]] _]]]; [now inversion X|discriminate|discriminate]|]. intro Z. left. split; [now left|]. now apply lt_int.
      * split; [intros [[_ X]|[[[X|[]] _]|[[X|[]] _]]]; [|discriminate|discriminate]|].
        -- inversion X as [|? ? ? x y A B C|]; subst. exists y. split; auto. apply Lq. apply (number_order 0 b (Number q) y Nq B). now apply (number_order 0 b x y A B).
        -- intros (x & A & B). left. split; [now left|]. apply (lt_float k 0 b (Number q) x); auto. now apply Lq.
      * split; [intros [[_ X]|[[[X|[]] _]|[[X|[]] _]]]; [|discriminate|discriminate]|].
        -- inversion X as [| |? ? A]; subst. apply str_lt_spec in A. destruct s; discriminate.
        -- intro Ne. left. split; [now left|]. apply lt_str, str_lt_spec. now destruct s.
      * split; [|contradiction]. intros [[_ X]|[[[X|[]] _]|[[X|[]] _]]]; [inversion X|discriminate|discriminate].
    + rewrite H2. cbn [In]. destruct e as [|k z|k b|s|n]; cbn [zero_of] in *.
      * split; [|contradiction]. intros [[[X|[]] _]|[[[X|[]] _]|[_ X]]]; [discriminate|discriminate|inversion X].
      * split; [intros [[[X|[]] _]|[[[X|[]] _]|[_ X]]]; [discriminate|discriminate|now inversion X]|]. intro Z. right. right. split; [now left|]. now apply lt_int.
      * split; [intros [[[X|[]] _]|[[[X|[]] _]|[_ X]]]; [discriminate|discriminate|]|].
        -- inversion X as [|? ? ? x y A B C|]; subst. exists x. split; auto. apply Lq. apply (number_order b 0 x (Number q) A Nq). now apply (number_order b 0 x y A B).
        -- intros (x & A & B). right. right. split; [now left|]. apply (lt_float k b 0 x (Number q)); auto. now apply Lq.
      * split; [|contradiction]. intros [[[X|[]] _]|[[[X|[]] _]|[_ X]]]; [discriminate|discriminate|]. inversion X as [| |? ? A]; subst. apply str_lt_spec in A. destruct s; discriminate.
      * split; [|contradiction]. intros [[[X|[]] _]|[[[X|[]] _]|[_ X]]]; [discriminate|discriminate|inversion X].
    + split; [intro X; now destruct P1|]. intros ->. discriminate.
    + split; [intro X; now destruct P2|]. intros ->. discriminate.
Qed.
Print Assumptions C63_sign.
Example C63_sign_case : positive (fun _ => []) (fun _ => []) (AFloat KdFloat32 1) [] = Passed /\ positive (fun _ => []) (fun _ => []) (AInt KdUint8 0) [] <> Passed /\ negative (fun _ => []) (fun _ => []) (AFloat KdFloat64 18442240474082181120) [] = Passed.
Proof. split; [vm_compute; reflexivity|]. split; [vm_compute; discriminate|vm_compute; reflexivity]. Qed.

(** InDelta, for what toFloat makes of the two values, if these are finite numbers: it passes exactly if the difference,
    rounded to a float64, is at most delta; a difference within delta therefore always passes. *)
Theorem C63_delta : forall expected actual ba bb bd na nb va vb vd, to_float expected = Some ba -> to_float actual = Some bb ->
  finite f64 ba na va -> finite f64 bb nb vb -> finite f64 bd false vd ->
  let r := Qabs (with_sign na va - with_sign nb vb) in
  (too_large f64 r -> in_delta bd expected actual = false) /\
  (~ too_large f64 r -> forall b v, nearest f64 false r b -> finite f64 b false v -> (in_delta bd expected actual = true <-> (v <= vd)%Q)) /\
  ((r <= vd)%Q -> in_delta bd expected actual = true).
Proof.
  intros expected actual ba bb bd na nb va vb vd E1 E2 Fa Fb Fd. cbv zeta. destruct (finite_mag f64 ok64 _ _ _ Fa) as (a & La & -> & Va). destruct (finite_mag f64 ok64 _ _ _ Fb) as (b & Lb & -> & Vb). destruct (finite_mag f64 ok64 _ _ _ Fd) as (dl & Ld & -> & Vd).
  pose proof (in_delta_bits expected actual na a nb b dl E1 E2 La Lb Ld) as H. pose proof (diff_ratio na a nb b va vb Va Vb) as D. set (p := Z.abs_N (zs na (mag f64 a) - zs nb (mag f64 b))) in *. set (r := Qabs (with_sign na va - with_sign nb vb)) in *.
  assert (R : at_ratio f64 p 1 r) by (unfold at_ratio; change (rat 1) with 1%Q; rewrite Qmult_1_r; exact D). pose proof (too_large_round f64 ok64 p 1 r ltac:(lia) R) as T. split; [|split].
  - intro X. apply T in X. destruct (in_delta _ _ _); auto. pose proof (proj1 H eq_refl). lia.
  - intros X b0 v N0 F0. assert (Lr : round_mag f64 p 1 < inf_of f64) by (destruct (N.lt_ge_cases (round_mag f64 p 1) (inf_of f64)); auto; exfalso; now apply X, T).
    pose proof (nearest_round f64 ok64 false p 1 r ltac:(lia) R Lr) as N1. pose proof (nearest_unique f64 ok64 false r _ _ N0 N1) as ->. destruct (finite_mag f64 ok64 _ _ _ F0) as (m & Lm & Em & Vm). apply signed_inj in Em. subst m.
    rewrite H. rewrite Vm, Vd. rewrite Qmult_le_r by apply unit_pos. rewrite rat_le. split; [apply mag_le|]. intro Q. destruct (N.le_gt_cases (round_mag f64 p 1) dl) as [|G]; auto. apply (mag_mono f64) in G. lia.
  - intro X. apply H. apply round_mono1. rewrite D, Vd in X. apply Qmult_le_r in X; [|apply unit_pos]. now apply rat_le.
Qed.
Print Assumptions C63_delta.
(* 1.5 and 1.25 within 0.25, not within 0.125 *)
Definition b15 : N := bit_pattern f64 false 1023 (2 ^ 51).
Definition b125 : N := bit_pattern f64 false 1023 (2 ^ 50).
Definition b025 : N := bit_pattern f64 false 1021 0.
Definition b0125 : N := bit_pattern f64 false 1020 0.
Example C63_delta_case : (exists v, finite f64 b15 false v) /\ (exists v, finite f64 b125 false v) /\ (exists v, finite f64 b025 false v) /\
  in_delta b025 (AFloat KdFloat64 b15) (AFloat KdFloat64 b125) = true /\ in_delta b025 (AFloat KdFloat64 b125) (AFloat KdFloat64 b15) = true /\
  in_delta b0125 (AFloat KdFloat64 b15) (AFloat KdFloat64 b125) = false /\ in_delta b0125 (AFloat KdFloat64 b125) (AFloat KdFloat64 b15) = false.
Proof.
  split; [eexists; apply fin_normal; reflexivity|]. split; [eexists; apply fin_normal; reflexivity|]. split; [eexists; apply fin_normal; reflexivity|].
  split; [vm_compute; reflexivity|]. split; [vm_compute; reflexivity|]. split; vm_compute; reflexivity.
Qed.
(** It passes for numbers only: not for NaN, and not for strings or nil. *)
Definition numerical (v : any) : Prop := match v with AInt _ _ => True | AFloat _ b => exists x, is_number b x | ANil | AStr _ | AOther _ => False end.
Theorem C63_delta_numbers : forall delta expected actual, any_ok expected -> any_ok actual -> in_delta delta expected actual = true -> numerical expected /\ numerical actual.
Proof.
  intros delta expected actual O1 O2 H. unfold in_delta in H. destruct (to_float expected) as [a|] eqn:E1; [|discriminate]. destruct (to_float actual) as [b|] eqn:E2; [|discriminate]. destruct (is_nan a) eqn:N1; [discriminate|]. destruct (is_nan b) eqn:N2; [discriminate|].
  split; [destruct expected|destruct actual]; cbn [to_float numerical any_ok] in *; try discriminate; auto; [inversion E1; subst|inversion E2; subst]; apply bits_number; auto; tauto.
Qed.
Print Assumptions C63_delta_numbers.
Example C63_delta_numbers_case : in_delta 0 (AInt KdInt 1) (AFloat KdFloat64 4607182418800017408) = true /\ in_delta 0 (AInt KdInt 0) (AStr (bs "0")) = false /\ in_delta (infinity f64 false) (AInt KdInt 0) (AFloat KdFloat64 a_nan) = false.
Proof. split; [vm_compute; reflexivity|]. split; vm_compute; reflexivity. Qed.
(** Infinity is within a finite delta of itself only. *)
Theorem C63_delta_infinite : forall expected actual a b bd vd x y, to_float expected = Some a -> to_float actual = Some b -> is_number a x -> is_number b y -> finite f64 bd false vd ->
  x = Plus_inf \/ x = Minus_inf \/ y = Plus_inf \/ y = Minus_inf -> (in_delta bd expected actual = true <-> x = y).
Proof.
  intros expected actual a b bd vd x y E1 E2 X Y Fd I. unfold in_delta. rewrite E1, E2, (number_not_nan _ _ X), (number_not_nan _ _ Y). cbv zeta.
  destruct (finite_mag f64 ok64 _ _ _ Fd) as (dl & Ld & -> & _). destruct (number_bits a x X) as (na & ma & -> & La & Ha). destruct (number_bits b y Y) as (nb & mb & -> & Lb & Hb). pose proof (inf_lt_sign f64 ok64) as Li.
  assert (Ni : forall neg, is_nan (signed f64 neg (inf_of f64)) = false) by (intro; rewrite nan_signed by lia; lia).
  assert (Q : forall neg, negb (float_lt (signed f64 neg (inf_of f64)) (float_neg (signed f64 false dl)) || float_lt (signed f64 false dl) (signed f64 neg (inf_of f64))) = false).
  { intro neg. rewrite float_neg_signed by lia. unfold float_lt. rewrite !nan_signed, !key_signed by lia. unfold zs. destruct neg; cbn [negb]; lia. }
  unfold float_sub. rewrite !nan_signed, !abs_of_signed, !neg_of_signed by lia. replace (inf_of f64 <? ma) with false by lia. replace (inf_of f64 <? mb) with false by lia. cbn [orb].
  destruct Ha as [(Fa & v & -> & _)|(-> & ->)].
  - replace (ma =? inf_of f64) with false by lia. destruct Hb as [(Fb & v' & -> & _)|(-> & ->)]; [exfalso; destruct I as [I|[I|[I|I]]]; discriminate|]. rewrite N.eqb_refl, (float_neg_signed nb) by lia. rewrite Q. split; [discriminate|]. destruct nb; discriminate.
  - rewrite N.eqb_refl. destruct Hb as [(Fb & v' & -> & _)|(-> & ->)].
    + replace (mb =? inf_of f64) with false by lia. cbn [andb]. rewrite Q. split; [discriminate|]. destruct na; discriminate.
    + rewrite N.eqb_refl. cbn [andb]. destruct (Bool.eqb na nb) eqn:B.
      * apply eqb_prop in B. subst nb. split; [reflexivity|]. intros _. unfold float_lt. change (is_nan a_nan) with true. cbn [negb andb]. now rewrite !andb_false_r.
      * rewrite Q. split; [discriminate|]. destruct na, nb; discriminate.
Qed.
Print Assumptions C63_delta_infinite.
Example C63_delta_infinite_case : in_delta 1 (AFloat KdFloat64 (infinity f64 true)) (AFloat KdFloat64 (infinity f64 true)) = true /\ in_delta 1 (AFloat KdFloat64 (infinity f64 true)) (AFloat KdFloat64 (infinity f64 false)) = false /\ exists v, finite f64 1 false v.
Proof. split; [vm_compute; reflexivity|]. split; [vm_compute; reflexivity|]. eexists. exact (fin_small f64 false 1 eq_refl). Qed.
(** It is not the difference of the values: two integers that differ pass with the delta 0 ... *)
Theorem C63_delta_refuted : exists x y, x <> y /\ in_delta 0 (AInt KdInt64 x) (AInt KdInt64 y) = true.
Proof. exists 9007199254740992%Z, 9007199254740993%Z. split; [discriminate|]. vm_compute. reflexivity. Qed.
Print Assumptions C63_delta_refuted.
(** ... and with NaN for delta any two numbers pass. *)
Theorem C63_delta_nan : forall expected actual a b x y delta, to_float expected = Some a -> to_float actual = Some b -> is_number a x -> is_number b y -> is_nan delta = true ->
  in_delta delta expected actual = true.
Proof.
  intros expected actual a b x y delta E1 E2 X Y N. unfold in_delta. rewrite E1, E2, (number_not_nan _ _ X), (number_not_nan _ _ Y). cbv zeta. unfold float_lt. rewrite N. 
  assert (Nn : is_nan (float_neg delta) = true). { unfold is_nan, float_neg in *. rewrite abs_of_signed; [auto|]. unfold abs_of. apply N.mod_lt. rewrite sign64. discriminate. }
  rewrite Nn. cbn [negb]. rewrite ?andb_false_r, ?andb_false_l. reflexivity.
Qed.
Print Assumptions C63_delta_nan.
Example C63_delta_nan_case : in_delta a_nan (AInt KdInt 0) (AInt KdInt 1000000) = true /\ is_nan a_nan = true. Proof. split; vm_compute; reflexivity. Qed.

(** The slices: the first elements of the expected ones are compared with the actual ones, as many as these are; it
    panics if there are too few, unless a pair before that does not pass. *)
Theorem C63_slices : forall A (one : A -> A -> bool) expected actual,
  (in_slice one expected actual = Some true <-> exists e1 e2, expected = e1 ++ e2 /\ Forall2 (fun e a => one a e = true) e1 actual) /\
  (in_slice one expected actual = None <-> exists a1 x a2, actual = a1 ++ x :: a2 /\ Forall2 (fun e a => one a e = true) expected a1).
Proof. intros A one expected actual. exact (each_spec A one actual expected 0). Qed.
Print Assumptions C63_slices.
Example C63_slices_case : in_slice N.eqb [1; 2] [1; 2] = Some true /\ in_slice N.eqb [1; 2] [1; 3] = Some false /\ in_slice N.eqb [1] [1; 3] = None /\ in_slice N.eqb [1] [2; 3] = Some false.
Proof. repeat split. Qed.
(** Slices of different lengths should not pass; they do. *)
Theorem C63_slices_refuted : exists expected actual delta, length expected <> length actual /\ in_slice (in_delta delta) expected actual = Some true.
Proof. exists [AInt KdInt 1; AInt KdInt 2], [AInt KdInt 1], 0. split; [discriminate|]. vm_compute. reflexivity. Qed.
Print Assumptions C63_slices_refuted.
