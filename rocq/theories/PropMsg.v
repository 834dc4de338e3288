(** * Property C67: what a failed Equal reports *)
From Coq Require Import String NArith Bool List Lia.
From Coq Require Import ZifyBool ZifyNat ZifyN.
From Verif Require Import Base DiffModel DiffSpec DiffProof DiffText DiffSame PropDiff EqModel EqSpec EqProof PropEq MsgModel.
Import ListNotations.
Open Scope string_scope. Open Scope list_scope. Open Scope N_scope.

(** ** Specification *)
(** a text is shown as it is, or its first 65436 bytes with a remark *)
Definition shown (text s : bytes) : Prop :=
  (N.of_nat (length text) <= 65436 /\ s = text) \/
  exists p q, text = p ++ q /\ N.of_nat (length p) = 65436 /\ q <> [] /\ s = p ++ bs "<... truncated>".
(** values that are shown line by line: structs, arrays, maps, slices and strings *)
Definition lined (t : rty) : Prop := (exists i l, t = TyStruct i l) \/ (exists i n u, t = TyArray i n u) \/ exists i k, t = TyBasic i k /\ In k [KMap; KSlice; KStr].
Definition a_pointer (t : rty) : Prop := exists i, t = TyBasic i KPtr.
(** the part of the report from "Diff:" on leads from the lines of one text to the lines of the other, and has no lines only if they are the same *)
Definition explains (d from to : bytes) : Prop :=
  exists x, d = [10; 10] ++ bs "Diff:" ++ [10] ++ x /\ patch x (text_lines (from ++ [10])) = Some (text_lines (to ++ [10])) /\ (x = [] <-> from = to).

(** both nil, or of one type *)
Definition one_type (e a : option (rty * rval)) : Prop := option_map (fun x => ty_id (fst x)) e = option_map (fun x => ty_id (fst x)) a.
Lemma one_type_spec : forall e a, same_typeof e a = true <-> one_type e a.
Proof.
  intros [[t x]|] [[u y]|]; unfold one_type; cbn; try (split; [discriminate|discriminate]); [|split; reflexivity]. unfold same_type. rewrite N.eqb_eq. split; [intros ->; reflexivity|now injection 1].
Qed.
Lemma shown_truncating : forall sharp o, shown (sharp o) (truncating sharp o).
Proof.
  intros sharp o. unfold truncating, max_text. destruct (N.ltb_spec 65436 (N.of_nat (length (sharp o)))) as [L|L]; [right|left; auto].
  exists (firstn (N.to_nat 65436) (sharp o)), (skipn (N.to_nat 65436) (sharp o)). split; [symmetry; apply firstn_skipn|]. split; [rewrite firstn_length; lia|]. split; [|reflexivity].
  intro E. apply (f_equal (@length N)) in E. rewrite skipn_length in E. cbn [length] in E. lia.
Qed.
Lemma explained : forall a b, exists d, diff_strings a b = Some d /\ explains d a b.
Proof. intros a b. destruct (C55_message a b) as (x & E & P & Z). eexists. split; [exact E|]. exists x. auto. Qed.
Lemma lined_spec : forall t, kind_with_diff t = true <-> lined t.
Proof.
  unfold lined. intros [i k|i n u|i l]; cbn [kind_with_diff]; [destruct k; cbn; split; try discriminate; try reflexivity|split; [eauto 6|auto]|split; [eauto 6|auto]].
  all: try (intros _; right; right; do 2 eexists; split; [reflexivity|cbn; tauto]).
  all: intros [(? & ? & X)|[(? & ? & ? & X)|(? & ? & X & I)]]; try discriminate; injection X as <- <-; cbn in I; intuition discriminate.
Qed.

(** ** Theorems *)
(** Equal always reports: it passes exactly for equal values, it says so if it was given a function, and otherwise it shows both values,
    with their types if these differ, in at most 65436 bytes each. *)
Theorem C67_report : forall elem type_text sharp plus e a,
  match equal_report elem type_text sharp plus e a with
  | Passed => equal e a = true
  | Failed m => equal e a = false /\
      (((a_function e \/ a_function a) /\ m = bs "Invalid operation: " ++ sharp e ++ bs " == " ++ sharp a ++ bs " (cannot take func type as argument)") \/
       (~ a_function e /\ ~ a_function a /\ exists se sa d, shown (sharp e) se /\ shown (sharp a) sa /\ diff elem type_text plus e a = Some d /\
          exists te ta, m = bs "Not equal: " ++ [10] ++ bs "expected: " ++ te ++ [10] ++ bs "actual  : " ++ ta ++ d /\
          (one_type e a -> te = se /\ ta = sa) /\
          (~ one_type e a -> te = type_text (option_map fst e) ++ bs "(" ++ se ++ bs ")" /\ ta = type_text (option_map fst a) ++ bs "(" ++ sa ++ bs ")")))
  | Crashed => False
  end.
Proof.
  intros elem tt sharp plus e a. unfold equal_report, equal. pose proof (validate_spec e a) as V. destruct (validate_equal_args e a); cbn [negb].
  - destruct V as [V _]. destruct (V eq_refl) as [Fe Fa]. destruct (objects_are_equal e a); cbn [negb]; [reflexivity|].
    destruct (diff elem tt plus e a) as [d|] eqn:D.
    + pose proof (one_type_spec e a) as O. unfold format_unequal. destruct (same_typeof e a); cbn [negb]; (split; [reflexivity|right; split; [exact Fe|]; split; [exact Fa|]; exists (truncating sharp e), (truncating sharp a), d;
        split; [apply shown_truncating|]; split; [apply shown_truncating|]; split; [reflexivity|]; do 2 eexists; split; [reflexivity|]; split; intro X; auto]).
      * exfalso. apply X. now apply O.
      * apply O in X. discriminate.
    + exfalso. unfold diff in D. destruct e as [[t x]|], a as [[u y]|]; try discriminate. cbv zeta in D.
      destruct (negb _); [discriminate|]. destruct (negb _); [discriminate|]. destruct (negb _); [destruct (explained (plus (Some (t, x))) (plus (Some (u, y)))) as (d & E & _)|destruct (explained (value_string tt t x) (value_string tt u y)) as (d & E & _)]; rewrite E in D; discriminate.
  - split; [reflexivity|]. left. split; [|reflexivity]. destruct (is_function e) eqn:E; [left; now apply function_spec|]. destruct (is_function a) eqn:A; [right; now apply function_spec|].
    exfalso. enough (false = true) by discriminate. apply V. rewrite <- !function_spec, E, A. split; discriminate.
Qed.
Print Assumptions C67_report.
Definition t_string := TyBasic string_id KStr. Definition t_list := TyBasic 4 KSlice. Definition t_point := TyBasic 5 KPtr.
(** a little of fmt: strings in quotes, other values as a question mark *)
Definition fmt0 (o : option (rty * rval)) : bytes := match o with Some (_, VStr s) => [34] ++ s ++ [34] | _ => bs "?" end.
Definition type0 (t : option rty) : bytes := match t with None => bs "<nil>" | Some (TyBasic _ KStr) => bs "string" | Some (TyBasic _ KPtr) => bs "*string" | Some _ => bs "T" end.
Definition elem0 (t : rty) : rty := t_string.
Definition str (s : string) : option (rty * rval) := Some (t_string, VStr (bs s)).
(** a difference, different types, and a function *)
Example C67_report_case :
  equal_report elem0 type0 fmt0 fmt0 (str "ab") (str "ac") = Failed (concat (map (fun l => bs l ++ [10]) ["Not equal: "; "expected: ""ab"""; "actual  : ""ac"""; ""; "Diff:"; "--- Expected"; "+++ Actual"; "@@ -1 +1 @@"; "-ab"; "+ac"])) /\
  equal_report elem0 type0 fmt0 fmt0 (str "ab") None = Failed (bs "Not equal: " ++ [10] ++ bs "expected: string(""ab"")" ++ [10] ++ bs "actual  : <nil>(?)") /\
  equal_report elem0 type0 fmt0 fmt0 (str "ab") (Some (TyBasic 8 KFunc, VFunc None)) = Failed (bs "Invalid operation: ""ab"" == ? (cannot take func type as argument)") /\
  equal_report elem0 type0 fmt0 fmt0 (str "ab") (str "ab") = Passed.
Proof. vm_compute. repeat split. Qed.

(** the lines that are compared: those of a string, or of what %+v makes of another value *)
Definition text_of (plus : option (rty * rval) -> bytes) (t : rty) (x : rval) (s : bytes) : Prop :=
  (t = TyBasic string_id KStr /\ x = VStr s) \/ (ty_id t <> string_id /\ s = plus (Some (t, x))).
(** only the type string has its identity *)
Definition string_once (t : rty) : Prop := ty_id t = string_id -> t = TyBasic string_id KStr.
Lemma has_text : forall plus type_text t x, well t x -> string_once t -> exists s, text_of plus t x s /\ s = (if negb (ty_id t =? string_id) then plus (Some (t, x)) else value_string type_text t x).
Proof.
  intros plus tt t x W O. destruct (N.eqb_spec (ty_id t) string_id) as [E|E]; cbn [negb].
  - rewrite (O E) in W. inversion W; subst. exists v. split; [left; rewrite (O E); auto|reflexivity].
  - exists (plus (Some (t, x))). split; [right; auto|reflexivity].
Qed.
(** Of two values that are no pointers there is a diff exactly if they are of one type and structs, arrays, maps, slices or strings; it leads from the
    lines of the one to the lines of the other. *)
Theorem C67_diff : forall elem type_text plus t x u y, well t x -> well u y -> string_once t -> string_once u -> ~ a_pointer t -> ~ a_pointer u ->
  exists d, diff elem type_text plus (Some (t, x)) (Some (u, y)) = Some d /\
    (ty_id t = ty_id u /\ lined t -> exists s s', text_of plus t x s /\ text_of plus u y s' /\ explains d s s') /\
    (~ (ty_id t = ty_id u /\ lined t) -> d = []).
Proof.
  assert (K : forall elem t, ~ a_pointer t -> type_and_kind elem t = t).
  { intros elem [i k| |] N; try reflexivity. destruct k; try reflexivity. exfalso. apply N. now exists i. }
  intros elem tt plus t x u y Wx Wy Ot Ou Nt Nu. unfold diff. rewrite !K by auto. cbv zeta. unfold same_type.
  destruct (N.eqb_spec (ty_id t) (ty_id u)) as [E|E]; cbn [negb]; [|exists []; split; [reflexivity|]; split; [intros [X _]; contradiction|reflexivity]].
  pose proof (lined_spec t) as L. destruct (kind_with_diff t); cbn [negb]; [|exists []; split; [reflexivity|]; split; [intros [_ X]; apply L in X; discriminate|reflexivity]].
  destruct (has_text plus tt t x Wx Ot) as (s & Ts & Es). destruct (has_text plus tt u y Wy Ou) as (s' & Ts' & Es'). rewrite <- E in Es'.
  destruct (explained s s') as (d & D & Ex). exists d. split; [subst s s'; destruct (negb (ty_id t =? string_id)); exact D|]. split; [eauto 6|]. intro X. exfalso. apply X. split; [exact E|now apply L].
Qed.
Print Assumptions C67_diff.
Example C67_diff_case : well t_user (user 1 2 false 0) /\ well t_user (user 1 2 false 1) /\ string_once t_user /\ ~ a_pointer t_user /\ lined t_user /\ well t_string (VStr (bs "a")) /\ string_once t_string /\ lined t_string.
Proof.
  split; [now apply user_well|]. split; [now apply user_well|]. split; [discriminate|]. split; [intros (i & X); discriminate|]. split; [left; do 2 eexists; reflexivity|].
  split; [constructor|]. split; [intros _; reflexivity|]. right. right. do 2 eexists. split; [reflexivity|cbn; tauto].
Qed.
(** So it is for pointers of one type, unless they point to strings. *)
Theorem C67_pointers : forall elem type_text plus t x y, a_pointer t -> ty_id (elem t) <> string_id ->
  exists d, diff elem type_text plus (Some (t, x)) (Some (t, y)) = Some d /\
    (lined (elem t) -> explains d (plus (Some (t, x))) (plus (Some (t, y)))) /\ (~ lined (elem t) -> d = []).
Proof.
  intros elem tt plus t x y (i & ->) N. unfold diff. cbn [type_and_kind]. cbv zeta. unfold same_type. rewrite N.eqb_refl. cbn [negb].
  pose proof (lined_spec (elem (TyBasic i KPtr))) as L. destruct (kind_with_diff (elem (TyBasic i KPtr))); cbn [negb].
  - destruct (N.eqb_spec (ty_id (elem (TyBasic i KPtr))) string_id); [contradiction|]. cbn [negb].
    destruct (explained (plus (Some (TyBasic i KPtr, x))) (plus (Some (TyBasic i KPtr, y)))) as (d & D & Ex). exists d. split; [exact D|]. split; [auto|]. intro X. exfalso. apply X. now apply L.
  - exists []. split; [reflexivity|]. split; [intro X; apply L in X; discriminate|reflexivity].
Qed.
Print Assumptions C67_pointers.
Example C67_pointers_case : a_pointer t_point /\ ty_id t_user <> string_id /\ lined t_user.
Proof. split; [now exists 5|]. split; [discriminate|]. left. do 2 eexists. reflexivity. Qed.
(** A failed comparison of two strings names the lines that differ. *)
Theorem C67_strings : forall elem type_text sharp plus s s', s <> s' ->
  exists m p d, equal_report elem type_text sharp plus (Some (t_string, VStr s)) (Some (t_string, VStr s')) = Failed m /\ m = p ++ d /\ explains d s s' /\ d <> [10; 10] ++ bs "Diff:" ++ [10].
Proof.
  intros elem tt sharp plus s s' N. destruct (explained s s') as (d & D & Ex).
  assert (B : beqb s s' = false) by (destruct (beqb s s') eqn:E; [apply beqb_eq in E; contradiction|reflexivity]).
  unfold equal_report. cbn [validate_equal_args is_function t_string orb negb objects_are_equal is_bytes same_type ty_id deep_equal]. rewrite B, andb_false_r. cbn [negb].
  unfold diff. cbn [type_and_kind same_type ty_id kind_with_diff negb value_string]. unfold same_type. cbn [ty_id]. rewrite N.eqb_refl. cbn [negb]. rewrite D.
  unfold format_unequal. cbn [same_typeof]. unfold same_type. cbn [ty_id]. rewrite N.eqb_refl. cbn [negb].
  do 2 eexists. exists d. split; [reflexivity|]. split.
  - match goal with |- ?a ++ ?b ++ ?c ++ ?e ++ ?f ++ ?g ++ ?h ++ d = _ => instantiate (1 := a ++ b ++ c ++ e ++ f ++ g ++ h) end. rewrite <- !app_assoc. reflexivity.
  - split; [exact Ex|]. destruct Ex as (x & -> & _ & Z). intro X. apply app_inv_head in X. apply app_inv_head in X. rewrite <- (app_nil_r [10]) in X at 2. apply app_inv_head in X. apply N. now apply Z.
Qed.
Print Assumptions C67_strings.
Example C67_strings_case : bs "a" <> bs "b". Proof. discriminate. Qed.

(** ** What does not hold *)
(** The diff of two pointers to different strings is empty: it compares the texts <*string Value>. *)
Theorem C67_pointer_to_string_refuted : exists e a m, well_object e /\ well_object a /\ (forall t, elem0 t = t_string) /\
  e = Some (t_point, VPtr (Some (1, (t_string, VStr (bs "a"))))) /\ a = Some (t_point, VPtr (Some (2, (t_string, VStr (bs "b"))))) /\ equal e a = false /\
  equal_report elem0 type0 fmt0 fmt0 e a = Failed (m ++ [10; 10] ++ bs "Diff:" ++ [10]).
Proof.
  do 2 eexists. exists (bs "Not equal: " ++ [10] ++ bs "expected: ?" ++ [10] ++ bs "actual  : ?"). split; [|split; [|split; [|split; [reflexivity|split; [reflexivity|split]]]]]; cbn [well_object].
  1, 2: split; [repeat constructor|discriminate]. all: vm_compute; reflexivity.
Qed.
Print Assumptions C67_pointer_to_string_refuted.
(** A value and a pointer to a value are of different types and yet there is a diff of them. *)
Theorem C67_one_type_refuted : exists e a d, well_object e /\ well_object a /\ ~ one_type e a /\ diff elem0 type0 fmt0 e a = Some d /\
  d = concat (map (fun l => bs l ++ [10]) [""; ""; "Diff:"; "--- Expected"; "+++ Actual"; "@@ -1 +1 @@"; "-a"; "+<*string Value>"]).
Proof.
  exists (str "a"), (Some (t_point, VPtr (Some (2, (t_string, VStr (bs "a")))))). eexists. split; [split; [constructor|discriminate]|]. split; [split; [repeat constructor|discriminate]|].
  split; [discriminate|]. split; vm_compute; reflexivity.
Qed.
Print Assumptions C67_one_type_refuted.
(** The values are shortened so that no line is longer than the 65536 bytes that go test reads; the lines of the diff are not. *)
Theorem C67_line_refuted : exists e a m l, equal_report elem0 type0 fmt0 fmt0 e a = Failed m /\ In l (text_lines m) /\ 65536 < N.of_nat (length l).
Proof.
  exists (Some (t_string, VStr (repeat 97 (N.to_nat 65600)))), (str "b").
  assert (H : match equal_report elem0 type0 fmt0 fmt0 (Some (t_string, VStr (repeat 97 (N.to_nat 65600)))) (str "b") with Failed m => existsb (fun l => 65536 <? N.of_nat (length l)) (text_lines m) | _ => false end = true) by (vm_compute; reflexivity).
  destruct (equal_report _ _ _ _ _ _) as [|m|]; try discriminate. apply existsb_exists in H. destruct H as (l & I & L). exists m, l. split; [reflexivity|]. split; [exact I|]. now apply N.ltb_lt.
Qed.
Print Assumptions C67_line_refuted.
