(** * Facts about the model of parse.go: the fuel does not matter, tables only grow *)
From Coq Require Import String Arith NArith ZArith Bool List Lia.
From Verif Require Import Base JsonModel NameModel Schema GoTypes ParseModel.
Import ListNotations.
Local Open Scope pm_scope.
Open Scope N_scope.
Local Notation SN := Datatypes.S.

(** ** More fuel gives the same result *)
Definition refines {A} (m m' : pm A) : Prop := forall s, m s = PNoFuel \/ m s = m' s.

Lemma refines_refl {A} (m : pm A) : refines m m.
Proof. intro s. now right. Qed.
Lemma refines_trans {A} (a b c : pm A) : refines a b -> refines b c -> refines a c.
Proof. intros H K s. destruct (H s) as [E|E]; [now left|]. destruct (K s) as [E'|E']; [left; congruence|right; congruence]. Qed.
Lemma refines_bind {A B} (m m' : pm A) (k k' : A -> pm B) :
  refines m m' -> (forall a, refines (k a) (k' a)) -> refines (pbind m k) (pbind m' k').
Proof.
  intros H K s. unfold pbind. destruct (H s) as [E|E].
  - rewrite E. now left.
  - rewrite <- E. destruct (m s) as [a s'| | |]; auto. apply K.
Qed.
Lemma refines_nofuel {A} (m : pm A) : refines pnofuel m.
Proof. intro s. now left. Qed.
Lemma refines_mapm {A B} (f g : A -> pm B) l : (forall a, refines (f a) (g a)) -> refines (mapm f l) (mapm g l).
Proof.
  intro H. induction l; cbn [mapm]; [apply refines_refl|].
  apply refines_bind; [apply H|]. intro b. apply refines_bind; [apply IHl|]. intro. apply refines_refl.
Qed.
Ltac refine_step :=
  match goal with
  | |- refines ?m ?m => apply refines_refl
  | |- refines pnofuel _ => apply refines_nofuel
  | |- refines (pbind _ _) (pbind _ _) => apply refines_bind; [|intros]
  | |- refines (match ?x with _ => _ end) _ => destruct x
  | H : forall t h, refines (?f t h) (?g t h) |- refines (?f _ _) (?g _ _) => apply H
  end.

Section Refine.
Variable P : program.
Notation decls := (g_decls P).

Lemma check_function_refines c c' f ins it h :
  (forall t h, refines (c t h) (c' t h)) -> refines (check_function P c f ins it h) (check_function P c' f ins it h).
Proof. intro H. unfold check_function. repeat refine_step. Qed.
Lemma check_field_refines c c' f i : (forall t h, refines (c t h) (c' t h)) -> refines (check_field P c f i) (check_field P c' f i).
Proof.
  intro H. unfold check_field. destruct f. destruct gf_anon; [apply refines_refl|].
  destruct (parse_tag gf_tag); try apply refines_refl. apply refines_bind; [|intros; apply refines_refl].
  destruct (t_kind decls gf_type); try apply H. apply refines_bind; [now apply check_function_refines|intros; apply refines_refl].
Qed.
Lemma check_fields_refines c c' l : (forall t h, refines (c t h) (c' t h)) ->
  forall i acc, refines (check_fields P c l i acc) (check_fields P c' l i acc).
Proof.
  intro H. induction l; intros; cbn [check_fields]; [apply refines_refl|].
  apply refines_bind; [now apply check_field_refines|]. intros. apply IHl.
Qed.
Lemma check_methods_refines c c' t l : (forall t h, refines (c t h) (c' t h)) ->
  forall i acc, refines (check_methods P c t l i acc) (check_methods P c' t l i acc).
Proof.
  intro H. induction l as [|[n f] l]; intros; cbn [check_methods]; [apply refines_refl|].
  destruct (expose_method n); [apply IHl|apply refines_refl|].
  apply refines_bind; [now apply check_function_refines|]. intros. apply IHl.
Qed.
Lemma check_struct_refines c c' t n is : (forall t h, refines (c t h) (c' t h)) ->
  refines (check_struct P c t n is) (check_struct P c' t n is).
Proof.
  intro H. unfold check_struct. apply refines_bind; [apply refines_refl|intros].
  apply refines_bind; [now apply check_fields_refines|intros].
  apply refines_bind; [now apply check_methods_refines|intros]. apply refines_refl.
Qed.
Lemma check_iface_refines c c' t n : (forall t h, refines (c t h) (c' t h)) ->
  refines (check_iface P c t n) (check_iface P c' t n).
Proof.
  intro H. unfold check_iface. apply refines_bind; [apply refines_refl|intros].
  destruct (slookup (g_implemented P) (t_name decls t)); [|apply refines_refl].
  apply refines_bind. { apply refines_mapm. intro. unfold check_impl. repeat refine_step. }
  intros. apply refines_bind; [now apply check_methods_refines|intros]. apply refines_refl.
Qed.
Lemma check_refines_S fuel : forall t h, refines (check P fuel t h) (check P (SN fuel) t h).
Proof.
  induction fuel as [|fuel IH]; intros t h; [apply refines_nofuel|].
  cbn [check]. fold (check P (SN fuel)).
  destruct (is_time decls t); [apply refines_refl|].
  destruct (t_kind decls t); try apply refines_refl.
  - destruct (t_elem decls t); [|apply refines_refl]. apply refines_bind; [apply IH|intros; apply refines_refl].
  - destruct (t_elem decls t); [|apply refines_refl]. apply refines_bind; [apply IH|intros; apply refines_refl].
  - destruct (t_elem decls t); [|apply refines_refl]. apply refines_bind; [apply IH|intros; apply refines_refl].
  - destruct h; [apply refines_refl|]. destruct (t_name decls t).
    + apply refines_bind; [apply refines_refl|intros]. now apply check_struct_refines.
    + apply refines_bind; [apply refines_refl|intros]. match goal with |- refines (match ?x with _ => _ end) _ => destruct x end; [apply refines_refl|].
      apply refines_bind; [apply refines_mapm; intro; apply IH|intros]. now apply check_struct_refines.
  - destruct h; [apply refines_refl|]. destruct (t_name decls t); [apply refines_refl|].
    apply refines_bind; [apply refines_refl|intros]. match goal with |- refines (match ?x with _ => _ end) _ => destruct x end; [apply refines_refl|].
    now apply check_iface_refines.
Qed.

Lemma zero_fields_mono (f g : gtype -> option gval) (H : forall t v, f t = Some v -> g t = Some v) l : forall acc v,
  (fix fields (l : list gfield) (acc : list (bool * gval)) : option gval :=
     match l with
     | [] => Some (GStruct acc)
     | GField _ _ e _ x :: r => match f x with Some v => fields r (acc ++ [(e, v)]) | None => None end
     end) l acc = Some v ->
  (fix fields (l : list gfield) (acc : list (bool * gval)) : option gval :=
     match l with
     | [] => Some (GStruct acc)
     | GField _ _ e _ x :: r => match g x with Some v => fields r (acc ++ [(e, v)]) | None => None end
     end) l acc = Some v.
Proof.
  induction l as [|[n a e t x] l IH]; intros acc v E; [exact E|].
  destruct (f x) eqn:Ex; [|discriminate]. rewrite (H _ _ Ex). now apply IH.
Qed.
Lemma zero_S fuel : forall t v, zero decls fuel t = Some v -> zero decls (SN fuel) t = Some v.
Proof.
  induction fuel as [|fuel IH]; intros t v E; [discriminate|].
  cbn [zero] in E |- *. destruct (is_time decls t); [exact E|].
  destruct (under decls t); try exact E.
  - destruct (zero decls fuel g) eqn:Ez in E; [|discriminate]. pose proof (IH _ _ Ez) as K. cbn [zero] in K. rewrite K. exact E.
  - apply (zero_fields_mono _ _ IH _ _ _ E).
Qed.
Lemma zero_mono fuel fuel' t v : (fuel <= fuel')%nat -> zero decls fuel t = Some v -> zero decls fuel' t = Some v.
Proof. intros L E. induction L; [exact E|now apply zero_S]. Qed.
Lemma zero_of_refines fuel t : refines (zero_of P fuel t) (zero_of P (SN fuel) t).
Proof.
  unfold zero_of. destruct (zero decls fuel t) eqn:E; [|apply refines_nofuel]. rewrite (zero_S _ _ _ E). apply refines_refl.
Qed.
Lemma check_input_field_refines c c' f i : (forall t h, refines (c t h) (c' t h)) ->
  refines (check_input_field c f i) (check_input_field c' f i).
Proof.
  intro H. destruct f. cbn [check_input_field]. destruct gf_anon; [apply refines_refl|].
  destruct (parse_tag gf_tag); try apply refines_refl. apply refines_bind; [apply H|intros; apply refines_refl].
Qed.
Lemma check_input_fields_refines c c' l : (forall t h, refines (c t h) (c' t h)) ->
  forall i acc, refines (check_input_fields c l i acc) (check_input_fields c' l i acc).
Proof.
  intro H. induction l; intros; cbn [check_input_fields]; [apply refines_refl|].
  apply refines_bind; [now apply check_input_field_refines|]. intros. apply IHl.
Qed.
Lemma check_input_refines_S fuel : forall t h, refines (check_input P fuel t h) (check_input P (SN fuel) t h).
Proof.
  induction fuel as [|fuel IH]; intros t h; [apply refines_nofuel|].
  cbn [check_input]. fold (check_input P (SN fuel)).
  apply refines_bind; [apply zero_of_refines|intros z].
  destruct (t_kind decls t); try apply refines_refl.
  - destruct (t_elem decls t); [|apply refines_refl]. apply refines_bind; [apply IH|intros; apply refines_refl].
  - destruct (t_elem decls t); [|apply refines_refl]. apply refines_bind; [apply IH|intros; apply refines_refl].
  - destruct (t_elem decls t); [|apply refines_refl]. destruct (is_file_header decls g); [apply refines_refl|].
    apply refines_bind; [apply IH|intros; apply refines_refl].
  - destruct (is_time decls t); [apply refines_refl|].
    apply refines_bind; [apply refines_refl|intros n]. apply refines_bind; [apply refines_refl|intros s].
    apply refines_bind; [|intros; apply refines_refl]. destruct (slookup (ps_intypes s) n); [apply refines_refl|].
    apply refines_bind; [apply refines_refl|intros]. apply refines_bind; [|intros; apply refines_refl].
    now apply check_input_fields_refines.
Qed.
Lemma arg_fields_refines c c' l : (forall t h, refines (c t h) (c' t h)) ->
  forall i nr acc, refines (arg_fields c l i nr acc) (arg_fields c' l i nr acc).
Proof.
  intro H. induction l; intros; cbn [arg_fields]; [apply refines_refl|].
  apply refines_bind; [now apply check_input_field_refines|]. intros. apply IHl.
Qed.
Lemma fun_ins_refines_S fuel ts : forall nr ins fs, refines (fun_ins P fuel ts nr ins fs) (fun_ins P (SN fuel) ts nr ins fs).
Proof.
  induction ts as [|t ts IH]; intros; cbn [fun_ins]; [apply refines_refl|].
  destruct (match t_kind decls t, t_elem decls t with KPtr, Some e => is_ctx decls e | _, _ => false end); [apply IH|].
  destruct (is_ctx decls t); [apply refines_refl|].
  destruct (t_kind decls t); try apply refines_refl.
  apply refines_bind; [apply zero_of_refines|intros]. apply refines_bind; [apply arg_fields_refines, check_input_refines_S|intros]. apply IH.
Qed.
Lemma methods_ins_refines_S fuel ms : refines (methods_ins P fuel ms) (methods_ins P (SN fuel) ms).
Proof.
  induction ms as [|m ms IH]; cbn [methods_ins]; [apply refines_refl|].
  apply refines_bind; [apply fun_ins_refines_S|intros]. apply refines_bind; [apply IH|intros; apply refines_refl].
Qed.
Lemma dirs_ins_refines_S fuel ds : refines (dirs_ins P fuel ds) (dirs_ins P (SN fuel) ds).
Proof.
  induction ds as [|m ms IH]; cbn [dirs_ins]; [apply refines_refl|].
  apply refines_bind; [apply fun_ins_refines_S|intros]. apply refines_bind; [apply IH|intros; apply refines_refl].
Qed.
Lemma refines_fatal {A} (m m' : pm A) : refines m m' -> refines (fatal m) (fatal m').
Proof. intros H s. unfold fatal. destruct (H s) as [E|E]; rewrite E; [now left|now right]. Qed.
Lemma inject_refines_S fuel q sv tf : refines (inject P fuel q sv tf) (inject P (SN fuel) q sv tf).
Proof.
  unfold inject. apply refines_bind; [apply refines_fatal, check_refines_S|intros].
  apply refines_bind; [apply refines_refl|intros].
  apply refines_bind; [apply refines_fatal, check_function_refines, check_refines_S|intros]. apply refines_refl.
Qed.
Lemma parse_refines_S fuel qt mt same inj : refines (parse P fuel qt mt same inj) (parse P (SN fuel) qt mt same inj).
Proof.
  unfold parse. apply refines_bind; [apply check_refines_S|intros q]. destruct q; try apply refines_refl.
  apply refines_bind; [apply check_refines_S|intros m]. destruct m; try apply refines_refl.
  destruct (negb same && _); [apply refines_refl|].
  apply refines_bind. { destruct inj as [[sv tf]|]; [apply inject_refines_S|apply refines_refl]. }
  intros. apply refines_bind; [apply refines_refl|intros]. apply refines_bind; [apply methods_ins_refines_S|intros].
  apply refines_bind; [apply refines_refl|intros]. apply refines_bind; [apply dirs_ins_refines_S|intros]. apply refines_refl.
Qed.
Lemma upto_le {A} (f : nat -> pm A) : (forall n, refines (f n) (f (SN n))) -> forall n m, (n <= m)%nat -> refines (f n) (f m).
Proof. intros H n m L. induction L; [apply refines_refl|]. eapply refines_trans; [exact IHL|apply H]. Qed.
Lemma check_mono n m t h s : (n <= m)%nat -> check P n t h s <> PNoFuel -> check P m t h s = check P n t h s.
Proof. intros L N. destruct (upto_le (fun n => check P n t h) (fun n => check_refines_S n t h) n m L s); congruence. Qed.
Lemma check_input_mono n m t h s : (n <= m)%nat -> check_input P n t h s <> PNoFuel -> check_input P m t h s = check_input P n t h s.
Proof. intros L N. destruct (upto_le (fun n => check_input P n t h) (fun n => check_input_refines_S n t h) n m L s); congruence. Qed.
Lemma parse_mono n m qt mt same inj s : (n <= m)%nat -> parse P n qt mt same inj s <> PNoFuel ->
  parse P m qt mt same inj s = parse P n qt mt same inj s.
Proof. intros L N. destruct (upto_le (fun n => parse P n qt mt same inj) (fun n => parse_refines_S n qt mt same inj) n m L s); congruence. Qed.
End Refine.

(** ** Postconditions *)
(** [safe m Q s]: from state [s], [m] has enough fuel, and [Q] holds of what it returns *)
Definition safe {A} (m : pm A) (Q : A -> pst -> Prop) (s : pst) : Prop :=
  match m s with POk a s' => Q a s' | PNoFuel => False | _ => True end.
(** [post m Q s]: if [m] returns from state [s], [Q] holds *)
Definition post {A} (m : pm A) (Q : A -> pst -> Prop) (s : pst) : Prop :=
  match m s with POk a s' => Q a s' | _ => True end.
Lemma safe_bind {A B} (m : pm A) (k : A -> pm B) Q s : safe m (fun a s' => safe (k a) Q s') s -> safe (pbind m k) Q s.
Proof. unfold safe, pbind. destruct (m s); auto. Qed.
Lemma safe_mono {A} (m : pm A) (Q Q' : A -> pst -> Prop) s : (forall a s', Q a s' -> Q' a s') -> safe m Q s -> safe m Q' s.
Proof. unfold safe. destruct (m s); auto. Qed.
Lemma post_bind {A B} (m : pm A) (k : A -> pm B) Q s : post m (fun a s' => post (k a) Q s') s -> post (pbind m k) Q s.
Proof. unfold post, pbind. destruct (m s); auto. Qed.
Lemma post_mono {A} (m : pm A) (Q Q' : A -> pst -> Prop) s : (forall a s', Q a s' -> Q' a s') -> post m Q s -> post m Q' s.
Proof. unfold post. destruct (m s); auto. Qed.
Lemma post_and {A} (m : pm A) (Q Q' : A -> pst -> Prop) s : post m Q s -> post m Q' s -> post m (fun a s' => Q a s' /\ Q' a s') s.
Proof. unfold post. destruct (m s); auto. Qed.
Lemma safe_post {A} (m : pm A) (Q Q' : A -> pst -> Prop) s : safe m Q s -> post m Q' s -> safe m (fun a s' => Q a s' /\ Q' a s') s.
Proof. unfold safe, post. destruct (m s); auto. Qed.

(** ** Maps *)
Lemma slookup_sset {A} (l : list (bytes * A)) k v k' : slookup (sset l k v) k' = if beqb k' k then Some v else slookup l k'.
Proof.
  induction l as [|[a b] l IH]; cbn [sset slookup]; [reflexivity|].
  destruct (beqb k a) eqn:E; cbn [slookup].
  - apply beqb_eq in E. subst a. destruct (beqb k' k); reflexivity.
  - rewrite IH. destruct (beqb k' a) eqn:E'; [|reflexivity]. apply beqb_eq in E'. subst a.
    destruct (beqb k' k) eqn:E2; [|reflexivity]. apply beqb_eq in E2. subst. rewrite beqb_refl in E. discriminate.
Qed.
Lemma nlookup_nset {A} (l : list (N * A)) k v k' : nlookup (nset l k v) k' = if k' =? k then Some v else nlookup l k'.
Proof.
  induction l as [|[a b] l IH]; cbn [nset nlookup]; [reflexivity|].
  destruct (k =? a) eqn:E; cbn [nlookup].
  - apply N.eqb_eq in E. subst a. destruct (k' =? k); reflexivity.
  - rewrite IH. destruct (k' =? a) eqn:E'; [|reflexivity]. apply N.eqb_eq in E'. subst a.
    destruct (k' =? k) eqn:E2; [|reflexivity]. apply N.eqb_eq in E2. subst. rewrite N.eqb_refl in E. discriminate.
Qed.
