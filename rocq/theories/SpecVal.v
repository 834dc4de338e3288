(** * Literals, variables, arguments and directives against the specification (proofs) *)
From Coq Require Import String Arith NArith ZArith Bool List Lia.
From Verif Require Import Base Json JsonModel JsonProof Ast ReqModel Schema ResModel Interp Facts Spec SpecLit SpecJson.
Import ListNotations.
Open Scope N_scope.

Section Val.
Context {W : Type}.
Variable X : externals W.
Variable S : schema.
Variable rawvars : bytes.
Variable decls : option (list oparg).
Notation st := (rst W).
Notation bm := (@bm W).
Notation value := Ast.value.

(** the variables of the request are not parsed yet, or are an object *)
Definition vars_fine (s : st) : Prop :=
  r_vars s = None \/ exists m, rawvars <> [] /\ x_parse X rawvars = inl (FObject m) /\ r_vars s = Some (Some (FObject m)).
(** from [s] to [s'] only the world changed, and maybe the variables were parsed *)
Definition step (s s' : st) : Prop := r_path s' = r_path s /\ r_errs s' = r_errs s /\ vars_fine s'.
Lemma step_refl : forall s, vars_fine s -> step s s. Proof. intros s H. repeat split; auto. Qed.
Lemma step_trans : forall a b c, step a b -> step b c -> step a c.
Proof. intros a b c (A & B & C) (A' & B' & C'). repeat split; congruence. Qed.
Lemma step_world : forall w s, vars_fine s -> step s (set_world w s).
Proof. intros w s H. repeat split; auto. Qed.

(** [to p m w a w']: without an error, [m] gives [a] *)
Definition to {A} (p : bytes) (m : bm A) (w : W) (a : A) (w' : W) : Prop := forall s, vars_fine s -> r_path s = p -> r_world s = w ->
  exists s', m s = BOk a s' /\ step s s' /\ r_world s' = w'.
(** [from p w m R]: if [m] has no error its result is [R] *)
Definition from {A} (p : bytes) (w : W) (m : bm A) (R : A -> W -> Prop) : Prop := forall s a s', vars_fine s -> r_path s = p -> r_world s = w ->
  m s = BOk a s' -> r_errs s' = r_errs s -> step s s' /\ R a (r_world s').
(** errors are only added *)
Definition grows {A} (m : bm A) : Prop := forall s a s', m s = BOk a s' -> exists es, r_errs s' = r_errs s ++ es.

Lemma to_ret : forall A p w (a : A), to p (bret a) w a w.
Proof. intros A p w a s V P E. exists s. split; [reflexivity|]. split; auto. now apply step_refl. Qed.
Lemma to_bind : forall A B p (m : bm A) (k : A -> bm B) w a w1 b w2, to p m w a w1 -> to p (k a) w1 b w2 -> to p (bbind m k) w b w2.
Proof.
  intros A B p m k w a w1 b w2 M K s V P E. destruct (M s V P E) as (s1 & H1 & T1 & W1). destruct (K s1) as (s2 & H2 & T2 & W2); auto; [apply T1|destruct T1; congruence|].
  exists s2. unfold bbind. rewrite H1. split; auto. split; auto. eapply step_trans; eauto.
Qed.
Lemma to_lift : forall A p (f : @rm W A) w a w', (forall s, r_world s = w -> f s = ROk a (set_world w' s)) -> to p (lift f) w a w'.
Proof. intros A p f w a w' H s V P E. exists (set_world w' s). unfold lift. rewrite H by auto. split; auto. split; [now apply step_world|apply sw_world]. Qed.
Lemma to_pure : forall A p (f : @rm W A) w a, (forall s, f s = ROk a s) -> to p (lift f) w a w.
Proof. intros A p f w a H. apply to_lift. intros s E. rewrite H, sw_id by auto. reflexivity. Qed.
Lemma to_opt : forall A p (o : option A) w a, o = Some a -> to p (lift (of_opt o)) w a w.
Proof. intros A p o w a ->. apply to_pure. reflexivity. Qed.

Lemma from_ret : forall A p w (a : A) (R : A -> W -> Prop), R a w -> from p w (bret a) R.
Proof. intros A p w a R H s x s' V P E M _. injection M; intros; subst. split; auto. now apply step_refl. Qed.
Lemma from_weak : forall A p w (m : bm A) (R R' : A -> W -> Prop), from p w m R -> (forall a w', R a w' -> R' a w') -> from p w m R'.
Proof. intros A p w m R R' H I s a s' V P E M Q. destruct (H s a s' V P E M Q). auto. Qed.
Lemma grows_bind : forall A B (m : bm A) (k : A -> bm B), grows m -> (forall a, grows (k a)) -> grows (bbind m k).
Proof.
  intros A B m k M K s b s' H. unfold bbind in H. destruct (m s) as [a s1| | |] eqn:E; try discriminate. destruct (M _ _ _ E) as (e1 & E1), (K _ _ _ _ H) as (e2 & E2).
  exists (e1 ++ e2). rewrite E2, E1. now rewrite app_assoc.
Qed.
Lemma from_bind : forall A B p w (m : bm A) (k : A -> bm B) R1 R, from p w m R1 -> grows m -> (forall a, grows (k a)) ->
  (forall a w1, R1 a w1 -> from p w1 (k a) R) -> from p w (bbind m k) R.
Proof.
  intros A B p w m k R1 R M Gm Gk K s b s' V P E H Q. unfold bbind in H. destruct (m s) as [a s1| | |] eqn:Em; try discriminate.
  destruct (Gm _ _ _ Em) as (e1 & E1), (Gk _ _ _ _ H) as (e2 & E2).
  assert (Z : e1 ++ e2 = []) by (apply (app_inv_head (r_errs s)); rewrite app_assoc, <- E1, <- E2, Q, app_nil_r; reflexivity).
  apply app_eq_nil in Z. destruct Z as [-> ->]. rewrite app_nil_r in E1, E2.
  destruct (M s a s1 V P E Em E1) as [T1 R1a]. destruct (K a (r_world s1) R1a s1 b s') as [T2 Rb]; auto; [apply T1|destruct T1; congruence|].
  split; auto. eapply step_trans; eauto.
Qed.
Lemma from_lift : forall A p w (f : @rm W A) (R : A -> W -> Prop),
  (forall s a s', r_world s = w -> f s = ROk a s' -> r_errs s' = r_errs s -> s' = set_world (r_world s') s /\ R a (r_world s')) -> from p w (lift f) R.
Proof.
  intros A p w f R H s a s' V P E M Q. unfold lift in M. destruct (f s) as [x t| |] eqn:F; try discriminate. injection M; intros; subst x t.
  destruct (H s a s' E F Q) as [T Ra]. split; auto. rewrite T. now apply step_world.
Qed.
Lemma from_pure : forall A p w (f : @rm W A) (R : A -> W -> Prop), (forall s a s', f s = ROk a s' -> s' = s /\ R a w) -> from p w (lift f) R.
Proof. intros A p w f R H. apply from_lift. intros s a s' E F _. destruct (H s a s' F) as [-> Ra]. rewrite set_world_same. rewrite E. auto. Qed.
Lemma from_opt : forall A p w (o : option A), from p w (lift (of_opt o)) (fun a w' => o = Some a /\ w' = w).
Proof. intros A p w o. apply from_pure. intros s a s' H. destruct o; [|discriminate]. injection H; intros; subst; auto. Qed.
Lemma from_panic : forall A p w R, from p w (@bpanic W A) R. Proof. intros A p w R s a s' _ _ _ H. discriminate. Qed.
Lemma from_nofuel : forall A p w R, from p w (@bnofuel W A) R. Proof. intros A p w R s a s' _ _ _ H. discriminate. Qed.
Lemma from_nope : forall A p w R, from p w (@bnope W A) R. Proof. intros A p w R s a s' _ _ _ H. discriminate. Qed.
Lemma from_err : forall A p w m (k : bool -> bm A) R, (forall b, grows (k b)) -> from p w (bbind (lift (err m)) k) R.
Proof.
  intros A p w m k R G s a s' V P E H Q. exfalso. cbn in H. destruct (G _ _ _ _ H) as (es & E'). cbn in E'. rewrite Q in E'.
  apply (f_equal (@length _)) in E'. rewrite !app_length in E'. cbn in E'. lia.
Qed.
Lemma from_fail : forall p w g m R, from p w (lift (fail g m)) R.
Proof. intros p w g m R. apply from_lift. intros s a s' E F Q. exfalso. eapply fail_errs; eauto. Qed.

Lemma grows_barg : forall A (m : bm A) R, barg X rawvars m R -> grows m.
Proof. intros A m R H s a s' E. specialize (H s). rewrite E in H. destruct H as (es & (_ & H & _) & _). eauto. Qed.
Lemma grows_ret : forall A (a : A), grows (bret a). Proof. intros A a s b s' H. injection H; intros; subst. exists []. now rewrite app_nil_r. Qed.
Lemma grows_panic : forall A, grows (@bpanic W A). Proof. intros A s a s' H; discriminate. Qed.
Lemma grows_nofuel : forall A, grows (@bnofuel W A). Proof. intros A s a s' H; discriminate. Qed.
Lemma grows_nope : forall A, grows (@bnope W A). Proof. intros A s a s' H; discriminate. Qed.
Lemma grows_lift : forall A (f : @rm W A), (forall s a s', f s = ROk a s' -> exists es, r_errs s' = r_errs s ++ es) -> grows (lift f).
Proof. intros A f H s a s' E. unfold lift in E. destruct (f s) eqn:F; try discriminate. injection E; intros; subst. eauto. Qed.
Lemma grows_spec : forall A (f : @rm W A) R, spec X rawvars f R -> grows (lift f).
Proof. intros A f R H. eapply grows_barg. apply b_lift. exact H. Qed.
Lemma grows_err : forall m, grows (lift (err m)). Proof. intro m. apply grows_lift. intros s a s' H. injection H; intros; subst. cbn. eauto. Qed.
Lemma grows_opt : forall A (o : option A), grows (lift (of_opt o)).
Proof. intros A o. apply grows_lift. intros s a s' H. destruct o; [|discriminate]. injection H; intros; subst. exists []. now rewrite app_nil_r. Qed.
Lemma grows_same : forall A (f : @rm W A), (forall s a s', f s = ROk a s' -> r_errs s' = r_errs s) -> grows (lift f).
Proof. intros A f H. apply grows_lift. intros s a s' E. exists []. rewrite app_nil_r. eauto. Qed.

(** ** Literals by cases *)
Notation b_input := (b_input X S rawvars decls).
Definition b_elems (fuel : nat) (g : rv) (i : input) (vars_ok : bool) : nat -> list value -> list gval -> bm bres :=
  fix elems (n : nat) (vs : list value) (acc : list gval) : bm bres :=
    match vs with
    | [] => bbind (lift (set_any g (GSlice (Some acc)))) (fun v => bret (v, true, false))
    | x :: r =>
        match n with
        | O => bnofuel
        | Datatypes.S n =>
            bbind (lift (of_opt (i_elem i))) (fun ei =>
            bbind (b_input fuel (false, i_zero ei) ei x vars_ok) (fun '(v, _, crit) =>
            if crit : bool then bret (snd g, false, true)
            else if is_list x || (match x with VNull => is_ptr ei | _ => false end) then bnope
            else elems n r (acc ++ [v])))
        end
    end.
Definition on_member (fuel : nat) (ro : bool) (c : list (bytes * input)) (vars_ok : bool) (a : gval * bool) (key : bytes) (x : value) : bm (gval * bool * bool) :=
  let '(v, set_) := a in
  match slookup c key with
  | None => bbind (lift (err (bs "undefined property " ++ key))) (fun b => bret ((v, set_), b))
  | Some fi =>
      bbind (lift (field_of (ro, v) (i_field fi))) (fun f =>
      bbind (b_input fuel f fi x vars_ok) (fun '(fv, fset, crit) =>
      bret ((put_field v (i_field fi) fv, fset), crit)))
  end.
Definition b_body (fuel : nat) (g : rv) (i : input) (v : value) (vars_ok : bool) : bm bres :=
  match v with
  | VVar name =>
      if negb vars_ok then lift (fail g (bs "variables are not allowed here"))
      else bbind (b_find_arg decls fuel name) (fun a =>
           match a with
           | None => lift (fail g (bs "variable " ++ name ++ bs " not defined"))
           | Some a => b_oparg X S rawvars decls fuel g i name a
           end)
  | VInt lit => lift (int_literal X g lit)
  | VFloat lit =>
      match kind_of (snd g) with
      | KFloat _ =>
          match x_parse_float X lit with
          | inl b => bbind (lift (set_float X g b)) (fun v => bret (v, true, false))
          | inr e => lift (fail g e)
          end
      | _ => lift (fail g (bs "cannot assign float to " ++ x_gostring X (snd g)))
      end
  | VStr s => lift (assign_string X S g i s)
  | VBool b =>
      match kind_of (snd g) with
      | KBool => bbind (lift (set_bool g b)) (fun v => bret (v, true, false))
      | _ => lift (fail g (bs "cannot assign boolean to " ++ x_gostring X (snd g)))
      end
  | VNull => bret (snd g, false, false)
  | VEnum name =>
      match i_enum i with
      | None => lift (fail g (bs "cannot assign enum to non enum value"))
      | Some n => bbind (lift (of_opt (nth_error (s_enums S) n))) (fun e => lift (assign_enum g e name))
      end
  | VList vs =>
      match kind_of (snd g) with
      | KArray => lift (fail g (bs "fixed length arrays not supported"))
      | KSlice => b_elems fuel g i vars_ok fuel vs []
      | _ => lift (fail g (bs "cannot assign list to " ++ x_gostring X (snd g)))
      end
  | VObj ms =>
      match kind_of (snd g) with
      | KStruct =>
          bbind (lift (content_of S i)) (fun c =>
          bbind (b_walk fuel (on_member fuel (fst g) c vars_ok) ms (snd g, true)) (fun '(v, set_, crit, cut) =>
          match cut with
          | Some _ => bnope
          | None => bret (v, set_, crit)
          end))
      | _ => lift (fail g (bs "cannot assign object to " ++ x_gostring X (snd g)))
      end
  end.
Lemma input_step : forall fuel g i v ok, b_input (Datatypes.S fuel) g i v ok =
  b_ptr g i (fun g i => match v with VNull => bret (snd g, false, false) | _ => b_input fuel g i v ok end) (b_body fuel g i v ok).
Proof. reflexivity. Qed.
Lemma bptr_no : forall g i f (m : bm bres), is_ptr i = false -> b_ptr g i f m = m.
Proof. intros g i f m H. unfold is_ptr in H. unfold b_ptr. destruct (i_kind i); auto. destruct (i_isfile i); auto. discriminate. Qed.
Lemma bptr_yes : forall g i f (m : bm bres), is_ptr i = true -> b_ptr g i f m =
  bbind (lift (of_opt (i_elem i))) (fun e => bbind (f (false, i_zero e) e) (fun '(v, set_, crit) =>
    if crit : bool then bret (snd g, false, true)
    else if set_ : bool then (bbind (lift (set_any g (GPtr (Some v)))) (fun v' => bret (v', true, false)))
    else bret (snd g, false, false))).
Proof. intros g i f m H. unfold is_ptr in H. unfold b_ptr. destruct (i_kind i); try discriminate. destruct (i_isfile i); auto. discriminate. Qed.

(** ** Variables *)
Lemma find_iff : forall n l fuel (s : st) a s', b_find fuel n l s = BOk a s' -> s' = s /\ a = find (fun a => beqb (oa_name a) n) l.
Proof.
  intros n l fuel. revert l. induction fuel as [|fuel IH]; intros l s a s' H; [discriminate|]. cbn [b_find] in H. destruct l as [|x r]; cbn [find].
  - injection H; intros; subst; auto.
  - destruct (beqb (oa_name x) n); [injection H; intros; subst; auto|auto].
Qed.
Lemma find_run : forall n l fuel (s : st), (length l < fuel)%nat -> b_find fuel n l s = BOk (find (fun a => beqb (oa_name a) n) l) s.
Proof.
  intros n l fuel. revert l. induction fuel as [|fuel IH]; intros l s H; [lia|]. cbn [b_find]. destruct l as [|x r]; cbn [find]; [reflexivity|].
  destruct (beqb (oa_name x) n); [reflexivity|]. apply IH. cbn in H; lia.
Qed.
Definition decl_count : nat := match decls with Some l => length l | None => O end.
Lemma find_arg_run : forall n fuel s, (decl_count < fuel)%nat -> @b_find_arg W decls fuel n s = BOk (declared decls n) s.
Proof. intros n fuel s H. unfold b_find_arg, declared, decl_count in *. destruct decls; [apply find_run; auto|reflexivity]. Qed.
Lemma find_arg_iff : forall n fuel s a s', @b_find_arg W decls fuel n s = BOk a s' -> s' = s /\ a = declared decls n.
Proof. intros n fuel s a s' H. unfold b_find_arg, declared in *. destruct decls; [eapply find_iff; eauto|injection H; intros; subst; auto]. Qed.

Lemma mismatch_iff : forall i n (s : st) s', type_mismatch S i n s = ROk None s' <-> s' = s /\ name_fits S i n.
Proof.
  intros i n s s'.
  assert (B : forall l what, @ret W _ (if existsb (beqb n) l then None else Some what) s = ROk (None : option bytes) s' <-> s' = s /\ In n l).
  { intros l what. destruct (existsb (beqb n) l) eqn:E.
    - apply existsb_exists in E. destruct E as (x & Hx & E). apply beqb_eq in E. subst x. split; [intro H; injection H; auto|intros [-> _]; reflexivity].
    - split; [discriminate|]. intros [_ H]. assert (existsb (beqb n) l = true) by (apply existsb_exists; exists n; split; auto; apply beqb_refl). congruence. }
  unfold type_mismatch. destruct (i_enum i) as [k|] eqn:En.
  - destruct (nth_error (s_enums S) k) as [e|] eqn:Ee.
    + change (@ret W _ (if existsb (beqb n) [en_name e; bs "String"] then None else Some (bs "expected variable type " ++ en_name e ++ bs " but got " ++ n)) s = ROk (None : option bytes) s' <-> s' = s /\ name_fits S i n).
      rewrite B. split; intros [-> H]; (split; [reflexivity|]); [eapply nf_enum; eauto|]. inversion H; subst; try congruence; [match goal with H1 : i_enum i = Some ?k0, H2 : nth_error _ ?k0 = Some ?e0 |- _ => assert (k0 = k) by congruence; subst k0; assert (e0 = e) by congruence; subst e0; assumption end|exfalso; match goal with Hn : ~ special _ |- _ => apply not_special in Hn; destruct Hn; congruence end].
    + split; [discriminate|]. intros [_ H]. inversion H; subst; try congruence. exfalso. match goal with Hn : ~ special _ |- _ => apply not_special in Hn; destruct Hn; congruence end.
  - destruct (i_isid i) eqn:Ei; [|destruct (i_isfile i) eqn:Ef; [|destruct (i_istime i) eqn:Et]].
    1-3: rewrite B; split; intros [-> H]; (split; [reflexivity|]); [first [eapply nf_id; eauto; fail|eapply nf_file; eauto; fail|eapply nf_time; eauto; fail]|];
         inversion H; subst; try congruence; try assumption; exfalso; match goal with Hn : ~ special _ |- _ => apply not_special in Hn; destruct Hn as (? & ? & ? & ?); congruence end.
    assert (Ns : ~ special i) by (rewrite special_ok; unfold special_b; rewrite En, Ei, Ef, Et; discriminate).
    assert (K : name_fits S i n <-> match i_kind i with
      | KBool => True | KInt _ | KUint _ => n = bs "Int" | KFloat _ => n = bs "Float" | KString => n = bs "String"
      | KArray | KSlice => n = bs "List" | KStruct => n = i_structname i | _ => False end).
    { split; [intro H; inversion H; subst; try congruence; auto|intro H; eapply nf_kind; eauto]. }
    rewrite K. destruct (i_kind i); try (rewrite B; cbn [In]; intuition auto; fail); try (split; [discriminate|tauto]).
    split; [intro H; injection H; auto|intros [-> _]; reflexivity].
Qed.
Lemma marks_run : forall t i, type_fits S i t -> exists n, forall fuel, (n <= fuel)%nat -> forall nm, exists i' n', name_fits S i' n' /\ forall s, @b_marks W fuel i t nm s = BOk (Some i', n') s.
Proof.
  intros t. induction t as [n nn|t IH nn]; intros i H; inversion H; subst.
  - exists O. intros fuel _ nm. exists i, n. split; auto. intro s. destruct fuel; reflexivity.
  - match goal with Ht : type_fits S _ t |- _ => destruct (IH _ Ht) as (n & Hn) end. exists (Datatypes.S n). intros [|fuel] L nm; [lia|]. destruct (Hn fuel ltac:(lia) nm) as (i' & n' & F & R).
    exists i', n'. split; auto. intro s. cbn [b_marks]. repeat match goal with E : _ = _ |- _ => rewrite E; clear E end. cbn [of_opt]. apply R.
Qed.
Lemma marks_iff : forall t fuel i nm s ri tn s', @b_marks W fuel i t nm s = BOk (ri, tn) s' -> r_errs s' = r_errs s ->
  s' = s /\ exists i', ri = Some i' /\ (name_fits S i' tn -> type_fits S i t).
Proof.
  intros t. induction t as [n nn|t IH nn]; intros fuel i nm s ri tn s' H E.
  - assert (H' : BOk (Some i, n) s = BOk (ri, tn) s') by (destruct fuel; exact H). injection H'; intros; subst. split; auto. exists i. split; auto. apply tf_name.
  - destruct fuel as [|fuel]; [discriminate|]. cbn [b_marks] in H.
    assert (D : i_kind i = KSlice \/ i_kind i <> KSlice) by (destruct (i_kind i); auto; right; discriminate). destruct D as [K|K].
    + rewrite K in H. destruct (i_elem i) as [e|] eqn:Ee; [|discriminate]. destruct (IH fuel e nm s ri tn s' H E) as (-> & i' & -> & F).
      split; auto. exists i'. split; auto. intro N. eapply tf_list; eauto.
    + exfalso. destruct (i_kind i); try congruence; cbn in H; injection H; intros <- _ _; cbn in E; apply (f_equal (@length _)) in E; rewrite app_length in E; cbn in E; lia.
Qed.
Definition found_in (fuel : nat) (g : rv) (i : input) (name : bytes) (m : list (bytes * fj)) : @rm W (gval * bool * bool * bool) :=
  match fj_get m name with
  | None => ret (snd g, false, false, false)
  | Some j => bind (bind_json X S fuel g i j) (fun '(v, set_, crit) => ret (v, set_, true, crit))
  end.
(** with variables that are an object *)
Lemma external_obj : forall fuel g i n s m, vars_fine s -> rawvars <> [] -> x_parse X rawvars = inl (FObject m) ->
  exists s1, bind_external X S rawvars fuel g i n s = found_in fuel g i n m s1 /\ step s s1 /\ r_world s1 = r_world s.
Proof.
  intros fuel g i n s m V R P. unfold bind_external, found_in, get_vars, bind at 1. destruct V as [V|(m' & _ & P' & V)]; rewrite V.
  - destruct rawvars as [|c r] eqn:Er; [contradiction|]. rewrite P. unfold put_vars. unfold bind at 1. cbn [var_get].
    exists (set_vars (Some (Some (FObject m))) s). split; [reflexivity|]. split; [|reflexivity]. split; [reflexivity|]. split; [reflexivity|]. right. exists m. rewrite Er. auto.
  - assert (m' = m) by congruence. subst m'. cbn [var_get]. exists s. split; [reflexivity|]. split; [|reflexivity]. apply step_refl. right. exists m. auto.
Qed.
Lemma external_none : forall fuel g i n s, vars_fine s -> rawvars = [] -> bind_external X S rawvars fuel g i n s = ROk (snd g, false, false, false) s.
Proof. intros fuel g i n s V R. unfold bind_external, get_vars, bind at 1. destruct V as [V|(m & N & _)]; [|contradiction]. rewrite V, R. reflexivity. Qed.
Lemma external_found : forall w g i n j w' v b, jvar X rawvars n (Some j) -> json_sets X S w g i j w' v b -> exists k, forall fuel, (k <= fuel)%nat ->
  forall p, to p (lift (bind_external X S rawvars fuel g i n)) w (v, b, true, false) w'.
Proof.
  intros w g i n j w' v b J H. destruct (proj1 (json_fwd X S) _ _ _ _ _ _ _ H) as (k & K). exists k. intros fuel L p s V P E.
  inversion J as [|n' m R Pm G]; subst. destruct (external_obj fuel g i n s m V R Pm) as (s1 & E1 & T & Ew). exists (set_world w' s1). unfold lift. rewrite E1. unfold found_in. match goal with Ej : fj_get m n = _ |- _ => rewrite Ej end.
  unfold bind. rewrite K by (auto; congruence). split; [reflexivity|]. split; [|apply sw_world]. eapply step_trans; eauto. apply step_world. apply T.
Qed.
Lemma external_not : forall w g i n, jvar X rawvars n None -> forall fuel p, to p (lift (bind_external X S rawvars fuel g i n)) w (snd g, false, false, false) w.
Proof.
  intros w g i n J fuel p s V P E. inversion J as [n' R|n' m R Pm G]; subst.
  - exists s. unfold lift. rewrite external_none by auto. split; auto. split; auto. now apply step_refl.
  - destruct (external_obj fuel g i n s m V R Pm) as (s1 & E1 & T & Ew). exists s1. unfold lift. rewrite E1. unfold found_in. match goal with Ej : fj_get m n = _ |- _ => rewrite Ej end. split; auto.
Qed.
Lemma external_back : forall p w g i n fuel, from p w (lift (bind_external X S rawvars fuel g i n)) (fun r w' => let '(v, b, found, crit) := r in
  crit = false /\ if found : bool then exists j, jvar X rawvars n (Some j) /\ json_sets X S w g i j w' v b else jvar X rawvars n None /\ w' = w).
Proof.
  intros p w g i n fuel s [[[v b] found] crit] s' V P E H Q. unfold lift in H.
  assert (D : rawvars = [] \/ rawvars <> []) by (destruct rawvars; auto; right; discriminate). destruct D as [R|R].
  - rewrite external_none in H by auto. injection H; intros; subst. split; [now apply step_refl|]. split; auto. split; auto. now apply jv_none.
  - destruct (x_parse X rawvars) as [x|e] eqn:Px.
    + assert (D : (exists m, x = FObject m) \/ (forall m, x <> FObject m)) by (destruct x; eauto; right; discriminate). destruct D as [(m & ->)|D].
      * destruct (external_obj fuel g i n s m V R Px) as (s1 & E1 & T & Ew). rewrite E1 in H. unfold found_in in H. destruct (fj_get m n) as [j|] eqn:G.
        -- unfold bind in H. destruct (bind_json X S fuel g i j s1) as [[[v1 b1] c1] s2| |] eqn:B; try discriminate. cbn in H. injection H; intros; subst v1 b1 crit s2 found.
           destruct (json_bwd X S rawvars fuel g i j s1 v b c1 s' B) as (A & -> & Js); [destruct T as (_ & T & _); congruence|].
           split; [eapply step_trans; eauto; rewrite A; apply step_world; apply T|]. split; auto. exists j. split; [rewrite <- G; now apply jv_some with (m := m)|]. now rewrite Ew, E in Js.
        -- cbn in H. injection H; intros; subst. split; auto. split; auto. split; auto. rewrite <- G. now apply jv_some with (m := m).
      * exfalso. destruct V as [V|(m & _ & Pm & _)]; [|rewrite Px in Pm; injection Pm; intros; eapply D; eauto].
        unfold bind_external, get_vars, bind at 1 in H. rewrite V in H. destruct rawvars as [|c r] eqn:Er; [contradiction|]. rewrite Px in H. unfold put_vars in H. unfold bind at 1 in H.
        assert (K : forall m, bind (err m) (fun _ => ret (snd g, false, false, true)) (set_vars (Some (Some x)) s) = ROk (v, b, found, crit) s' -> False).
        { intros m K. cbn in K. injection K. intros <- _ _ _ _. cbn in Q. apply (f_equal (@length _)) in Q. rewrite app_length in Q. cbn in Q. lia. }
        destruct x; try (match type of H with match ?y with _ => _ end = _ => destruct y eqn:Ey end; [|discriminate|discriminate]; injection H; intros; subst; eapply K; exact Ey); eapply D; reflexivity.
    + exfalso. destruct V as [V|(m & _ & Pm & _)]; [|congruence].
      unfold bind_external, get_vars, bind at 1 in H. rewrite V in H. destruct rawvars as [|c r] eqn:Er; [contradiction|]. rewrite Px in H. cbn in H. injection H. intros <- _ _ _ _. cbn in Q.
      apply (f_equal (@length _)) in Q. rewrite app_length in Q. cbn in Q. lia.
Qed.

(** ** From the specification to the interpreter *)
Scheme lit_sets_mut := Minimality for lit_sets Sort Prop
  with lit_elems_mut := Minimality for lit_elems Sort Prop
  with lit_members_mut := Minimality for lit_members Sort Prop.
Combined Scheme lit_mut from lit_sets_mut, lit_elems_mut, lit_members_mut.
Lemma not_null : forall A x (a b : A), x <> VNull -> match x with VNull => a | _ => b end = b. Proof. intros A x a b H. destruct x; auto. contradiction. Qed.
Lemma oparg_fwd : forall fuel p w g i n a, (exists i' n', name_fits S i' n' /\ forall s, @b_marks W fuel i (oa_type a) n s = BOk (Some i', n') s) -> forall r w',
  to p (bbind (lift (bind_external X S rawvars fuel g i n)) (fun '(v, set_, found, crit) =>
        if crit : bool then bret (v, set_, true) else if found : bool then bret (v, set_, false)
        else match oa_default a with None => lift (fail g (bs "variable has no value nor default")) | Some d => b_input fuel g i d false end)) w r w' ->
  to p (b_oparg X S rawvars decls (Datatypes.S fuel) g i n a) w r w'.
Proof.
  intros fuel p w g i n a (i' & n' & F & M) r w' H. cbn [b_oparg]. eapply to_bind; [intros s V P E; exists s; rewrite M; split; [reflexivity|split; [now apply step_refl|exact E]]|]. cbv beta iota.
  eapply to_bind; [apply to_pure; intro s; apply mismatch_iff; split; [reflexivity|exact F]|]. exact H.
Qed.
Lemma var_fwd : forall fuel p w g i n a r w', (decl_count < fuel)%nat -> declared decls n = Some a -> to p (b_oparg X S rawvars decls fuel g i n a) w r w' ->
  to p (b_body fuel g i (VVar n) true) w r w'.
Proof.
  intros fuel p w g i n a r w' L D H. unfold b_body. cbn [negb]. eapply to_bind; [intros s V P E; exists s; rewrite find_arg_run by auto; split; [reflexivity|split; [now apply step_refl|exact E]]|].
  rewrite D. exact H.
Qed.
Ltac inp := rewrite input_step, ?bptr_no by auto.
Lemma lit_fwd :
  (forall vo w g i x w' v b, lit_sets X S rawvars decls vo w g i x w' v b -> exists n, forall fuel, (n <= fuel)%nat -> forall p, to p (b_input fuel g i x vo) w (v, b, false) w') /\
  (forall vo w e l w' vs, lit_elems X S rawvars decls vo w e l w' vs -> exists n, forall fuel, (n <= fuel)%nat -> forall p g i acc cnt, fst g = false -> (l <> [] -> i_elem i = Some e) ->
     (length l <= cnt)%nat -> to p (b_elems fuel g i vo cnt l acc) w (GSlice (Some (acc ++ vs)), true, false) w') /\
  (forall vo w ro c v0 b0 m w' v b, lit_members X S rawvars decls vo w ro c v0 b0 m w' v b -> exists n, forall fuel, (n <= fuel)%nat -> forall p cnt, (length m < cnt)%nat ->
     to p (b_walk cnt (on_member fuel ro c vo) m (v0, b0)) w (v, b, false, None) w').
Proof.
  apply lit_mut.
  - intros vo w g i e P E. exists 1%nat. intros [|fuel] L p; [lia|]. rewrite input_step, bptr_yes by auto. eapply to_bind; [apply to_opt; exact E|].
    eapply to_bind; [apply to_ret|]. cbv beta iota. apply to_ret.
  - intros vo w old i e x w' v P E N _ (n & H). exists (Datatypes.S n). intros [|fuel] L p; [lia|]. rewrite input_step, bptr_yes by auto. eapply to_bind; [apply to_opt; exact E|].
    rewrite not_null by auto. eapply to_bind; [apply H; lia|]. cbv beta iota. eapply to_bind; [apply to_pure; reflexivity|]. apply to_ret.
  - intros vo w g i e x w' v P E N _ (n & H). exists (Datatypes.S n). intros [|fuel] L p; [lia|]. rewrite input_step, bptr_yes by auto. eapply to_bind; [apply to_opt; exact E|].
    rewrite not_null by auto. eapply to_bind; [apply H; lia|]. cbv beta iota. apply to_ret.
  - intros vo w g i P. exists 1%nat. intros [|fuel] L p; [lia|]. inp. apply to_ret.
  - intros vo w g i t v P H. exists 1%nat. intros [|fuel] L p; [lia|]. inp. apply to_pure. intro s. refine (proj1 (proj2 (int_iff X g t s v true false s) _)). auto.
  - intros vo w is64 old i t b P H. exists 1%nat. intros [|fuel] L p; [lia|]. inp. unfold b_body. cbn [snd kind_of]. rewrite H.
    eapply to_bind; [apply to_pure; reflexivity|]. apply to_ret.
  - intros vo w g i s w' v P H. exists 1%nat. intros [|fuel] L p; [lia|]. inp. apply to_lift. intros t E. refine (proj1 (proj2 (string_iff X S g i s t v true false (set_world w' t)) _)).
    rewrite sw_world, E. auto.
  - intros vo w old i b P. exists 1%nat. intros [|fuel] L p; [lia|]. inp. eapply to_bind; [apply to_pure; reflexivity|]. apply to_ret.
  - intros vo w g i n k e v P E Ek H. exists 1%nat. intros [|fuel] L p; [lia|]. inp. unfold b_body. rewrite E. eapply to_bind; [apply to_opt; exact Ek|].
    apply to_pure. intro s. refine (proj1 (proj2 (enum_iff g e n s v true false s) _)). auto.
  - intros vo w old i l e w' vs P E _ (n & H). exists (Datatypes.S (Nat.max n (length l))). intros [|fuel] L p; [lia|]. inp. unfold b_body. cbn [snd kind_of]. apply (H fuel ltac:(lia) p _ _ []); auto. lia.
  - intros vo w ro v0 i m c w' v b P K C _ (n & H). exists (Datatypes.S (Nat.max n (Datatypes.S (length m)))). intros [|fuel] L p; [lia|]. inp. unfold b_body. cbn [snd fst]. rewrite K.
    eapply to_bind; [apply to_pure; intro s; apply content_iff; split; [reflexivity|exact C]|]. eapply to_bind; [apply H; lia|]. cbv beta iota. apply to_ret.
  - intros w g i n a j w' v b P D T J H. destruct (external_found _ _ _ _ _ _ _ _ J H) as (k1 & K1). destruct (marks_run _ _ T) as (k2 & K2).
    exists (3 + decl_count + Nat.max k1 k2)%nat. intros [|[|fuel]] L p; try lia. inp. eapply var_fwd; [lia|exact D|]. apply oparg_fwd; [apply K2; lia|].
    eapply to_bind; [apply K1; lia|]. cbv beta iota. apply to_ret.
  - intros w g i n a d w' v b P D T J Df _ (k1 & K1). destruct (marks_run _ _ T) as (k2 & K2).
    exists (3 + decl_count + Nat.max k1 k2)%nat. intros [|[|fuel]] L p; try lia. inp. eapply var_fwd; [lia|exact D|]. apply oparg_fwd; [apply K2; lia|].
    eapply to_bind; [apply external_not; exact J|]. cbv beta iota. rewrite Df. apply K1; lia.
  - intros vo w e. exists O. intros fuel _ p [ro x] i acc cnt G _ _. cbn [fst] in G; subst ro.
    assert (E : b_elems fuel (false, x) i vo cnt [] acc = bbind (lift (set_any (false, x) (GSlice (Some acc)))) (fun v => bret (v, true, false))) by (destruct cnt; reflexivity).
    rewrite E. rewrite app_nil_r. eapply to_bind; [apply to_pure; reflexivity|]. apply to_ret.
  - intros vo w e x l w1 v b w2 vs Nl Np _ (n1 & H1) _ (n2 & H2). exists (Nat.max n1 n2). intros fuel L p g i acc [|cnt] G E Lc; [cbn in Lc; lia|]. cbn [b_elems].
    eapply to_bind; [apply to_opt; apply E; discriminate|]. eapply to_bind; [apply H1; lia|]. cbv beta iota. rewrite Nl. cbn [orb].
    assert (Z : match x with VNull => is_ptr e | _ => false end = false) by (destruct x; auto; destruct (is_ptr e); auto; exfalso; apply Np; auto). rewrite Z.
    replace (acc ++ v :: vs) with ((acc ++ [v]) ++ vs) by (rewrite <- app_assoc; reflexivity). apply H2; auto; try lia; [intro; apply E; discriminate|cbn in Lc; lia].
  - intros vo w ro c v b. exists O. intros fuel _ p [|cnt] L; [lia|]. cbn [b_walk]. apply to_ret.
  - intros vo w ro c fs b0 k x m i e old w1 y b w2 v b' Lk Ln Nl _ (n1 & H1) _ (n2 & H2). exists (Nat.max n1 n2). intros fuel L p [|cnt] Lc; [lia|]. cbn [b_walk].
    eapply to_bind.
    + unfold on_member. rewrite Lk. eapply to_bind; [apply to_pure; intro s; unfold field_of; cbn [snd fst]; rewrite Ln; reflexivity|]. eapply to_bind; [apply H1; lia|]. cbv beta iota. apply to_ret.
    + cbv beta iota. rewrite Nl. rewrite (with_field_upd fs (i_field i) e old) by auto. apply H2; [lia|cbn in Lc; lia].
Qed.
End Val.
