(** * The paths that resolvers and directives see (proofs)

    Resolvers and directives are functions of the world [W]; here [W] keeps a list of the paths they
    were called with ([true]: a resolver, [false]: a directive). *)
From Coq Require Import String Arith NArith ZArith Bool List Lia.
From Verif Require Import Base JsonModel Ast ReqModel Schema ResModel Interp Facts.
Import ListNotations.
Open Scope N_scope.

Definition entry : Type := bool * bytes.
(** externals that write their calls down *)
Definition keeps_log {W} (X : externals W) (log : W -> list entry) : Prop :=
  (forall w f args p w' r, x_call X w f args p = Some (w', r) -> log w' = log w ++ [(true, p)]) /\
  (forall w f args p w' b, x_dir X w f args p = Some (w', b) -> log w' = log w ++ [(false, p)]) /\
  (forall get w s, x_formfile X = Some get -> log (fst (get w s)) = log w).

Section L.
Context {W : Type}.
Variable X : externals W.
Variable S : schema.
Variable rawvars : bytes.
Variable log : W -> list entry.
Hypothesis KL : keeps_log X log.
Notation rm := (@rm W).
Notation bm := (@bm W).

(** ** Arguments: no call *)
Definition calm {A} (f : rm A) : Prop := forall s,
  match f s with ROk _ t => r_path t = r_path s /\ log (r_world t) = log (r_world s) | _ => True end.
Lemma c_bind : forall A B (f : rm A) (g : A -> rm B), calm f -> (forall a, calm (g a)) -> calm (bind f g).
Proof.
  intros A B f g F G s. unfold bind. specialize (F s). destruct (f s) as [a t| |]; auto. destruct F as [P L].
  specialize (G a t). destruct (g a t) as [b u| |]; auto. destruct G as [P2 L2]. split; congruence.
Qed.
Lemma c_ret : forall A (a : A), calm (ret a). Proof. intros; hnf; cbn; auto. Qed.
Lemma c_panic : forall A, calm (@panic W A). Proof. intros; hnf; cbn; auto. Qed.
Lemma c_nofuel : forall A, calm (@nofuel W A). Proof. intros; hnf; cbn; auto. Qed.
Lemma c_of_opt : forall A (a : option A), calm (of_opt a). Proof. intros A [a|]; [apply c_ret|apply c_panic]. Qed.
Lemma c_err : forall m, calm (err m). Proof. intros m s. cbn. auto. Qed.
Lemma c_get_vars : calm get_vars. Proof. intros s. cbn. auto. Qed.
Lemma c_put_vars : forall v, calm (put_vars v). Proof. intros v s. cbn. auto. Qed.
Ltac c_step :=
  match goal with
  | |- calm (ret _) => apply c_ret
  | |- calm (okay _) => apply c_ret
  | |- calm panic => apply c_panic
  | |- calm nofuel => apply c_nofuel
  | |- calm (fail _ _) => unfold fail
  | |- calm (err _) => apply c_err
  | |- calm (bind _ _) => apply c_bind; [|intro]
  | |- calm (of_opt _) => apply c_of_opt
  | |- calm get_vars => apply c_get_vars
  | |- calm (put_vars _) => apply c_put_vars
  | |- calm (set_int _ _) => unfold set_int
  | |- calm (set_uint _ _) => unfold set_uint
  | |- calm (set_float _ _ _) => unfold set_float
  | |- calm (set_bool _ _) => unfold set_bool
  | |- calm (set_string _ _) => unfold set_string
  | |- calm (set_any _ _) => unfold set_any
  | |- calm (field_of _ _) => unfold field_of
  | |- calm (content_of _ _) => unfold content_of
  | |- calm (same_enum_value _ _ _) => unfold same_enum_value
  | |- calm (type_mismatch _ _ _) => unfold type_mismatch
  | |- calm (assign_enum _ _ _) => unfold assign_enum
  | |- calm (assign_id _ _) => unfold assign_id
  | |- calm (assign_time _ _) => unfold assign_time
  | |- calm (json_number _ _ _) => unfold json_number
  | |- calm (int_literal _ _ _) => unfold int_literal
  | |- calm (match ?x with _ => _ end) => destruct x
  | |- calm (let '(_, _) := ?x in _) => destruct x
  | |- calm (if ?x then _ else _) => destruct x
  end.
Lemma c_assign_file : forall g s, calm (assign_file X g s).
Proof.
  intros g b. unfold assign_file. destruct (x_formfile X) as [get|] eqn:Ef; [|apply c_panic].
  intros s. destruct KL as (_ & _ & K). specialize (K get (r_world s) b Ef). destruct (get (r_world s) b) as [w r]. cbn [fst] in K.
  assert (R : calm (match r with inl f => bind (set_any g (GFile (Some f))) (fun v => okay v) | inr e => fail g e end)) by (destruct r; repeat c_step).
  specialize (R (set_world w s)). cbv beta zeta in *. match goal with |- match ?a with _ => _ end => destruct a end; auto. cbn in R. rewrite K in R. exact R.
Qed.
Lemma c_assign_string : forall g i s, calm (assign_string X S g i s).
Proof. intros. unfold assign_string. repeat first [apply c_assign_file | c_step]. Qed.
Ltac c_all := repeat first [apply c_assign_file | apply c_assign_string | c_step].
Lemma c_through_ptr : forall g i f m, (forall g i, calm (f g i)) -> calm m -> calm (through_ptr g i f m).
Proof. intros g i f m Hf Hm. unfold through_ptr. destruct (i_kind i); auto. destruct (i_isfile i); auto. c_all. apply Hf. Qed.
Lemma c_bind_json : forall fuel g i j, calm (bind_json X S fuel g i j).
Proof.
  induction fuel as [|fuel IH]; intros g i j; [apply c_nofuel|].
  cbn [bind_json]. apply c_through_ptr; [intros; apply IH|].
  destruct (i_enum i) as [en|], (i_isid i), (i_isfile i), (i_istime i); try (destruct j; c_all; fail).
  destruct j as [| | |raw|s|l|m]; try (c_all; fail).
  - destruct (kind_of (snd g)); try (c_all; fail). match goal with |- calm (?F l []) => enough (H : forall l acc, calm (F l acc)) by apply H end. clear l.
    induction l as [|x r IHl]; intros acc; [c_all|]. c_step; [c_step|]. c_step; [apply IH|]. destruct a0 as [[ev s] cr]. destruct cr; [c_step|apply IHl].
  - destruct (kind_of (snd g)); try (c_all; fail). c_step; [c_all|].
    generalize (snd g) as v. induction m as [|[k x] r IHm]; intros v; [c_all|].
    destruct (slookup a k); [|c_all]. c_step; [c_all|]. c_step; [apply IH|]. destruct a1 as [[ev s] cr]. destruct cr; [c_step|apply IHm].
Qed.
Lemma c_bind_external : forall fuel g i n, calm (bind_external X S rawvars fuel g i n).
Proof. intros. unfold bind_external. repeat first [apply c_bind_json | c_step]. Qed.

Variable opargs : option (list oparg).
Definition hush {A} (f : bm A) : Prop := forall s,
  match f s with BOk _ t => r_path t = r_path s /\ log (r_world t) = log (r_world s) | _ => True end.
Lemma h_bind : forall A B (f : bm A) (g : A -> bm B), hush f -> (forall a, hush (g a)) -> hush (bbind f g).
Proof.
  intros A B f g F G s. unfold bbind. specialize (F s). destruct (f s) as [a t| | |]; auto. destruct F as [P L].
  specialize (G a t). destruct (g a t) as [b u| | |]; auto. destruct G as [P2 L2]. split; congruence.
Qed.
Lemma h_lift : forall A (f : rm A), calm f -> hush (lift f).
Proof. intros A f H s. unfold lift. specialize (H s). destruct (f s); auto. Qed.
Lemma h_ret : forall A (a : A), hush (bret a). Proof. intros; hnf; cbn; auto. Qed.
Lemma h_panic : forall A, hush (@bpanic W A). Proof. intros; hnf; cbn; auto. Qed.
Lemma h_nofuel : forall A, hush (@bnofuel W A). Proof. intros; hnf; cbn; auto. Qed.
Lemma h_nope : forall A, hush (@bnope W A). Proof. intros; hnf; cbn; auto. Qed.
Ltac h_step :=
  match goal with
  | |- hush (bret _) => apply h_ret
  | |- hush bpanic => apply h_panic
  | |- hush bnofuel => apply h_nofuel
  | |- hush bnope => apply h_nope
  | |- hush (lift _) => apply h_lift; first [apply c_bind_external | c_all]
  | |- hush (bbind _ _) => apply h_bind; [|intro]
  | |- hush (match ?x with _ => _ end) => destruct x
  | |- hush (let '(_, _) := ?x in _) => destruct x
  end.
Ltac h_all := repeat h_step.
Lemma h_ptr : forall g i f m, (forall g i, hush (f g i)) -> hush m -> hush (b_ptr g i f m).
Proof. intros g i f m Hf Hm. unfold b_ptr. destruct (i_kind i); auto. destruct (i_isfile i); auto. h_all. apply Hf. Qed.
Lemma h_find : forall fuel n l, hush (b_find fuel n l).
Proof. induction fuel; intros n l; cbn [b_find]; h_all. apply IHfuel. Qed.
Lemma h_find_arg : forall fuel n, hush (b_find_arg opargs fuel n).
Proof. intros. unfold b_find_arg. destruct opargs; [apply h_find|apply h_ret]. Qed.
Lemma h_marks : forall fuel i t n, hush (b_marks fuel i t n).
Proof. induction fuel; intros i t n; destruct t; cbn [b_marks]; h_all; apply IHfuel. Qed.
Lemma h_walk : forall A (onkey : A -> bytes -> value -> bm (A * bool)), (forall a k v, hush (onkey a k v)) ->
  forall fuel ms a, hush (b_walk fuel onkey ms a).
Proof.
  intros A onkey H. induction fuel; intros ms a; cbn [b_walk]; [h_all|]. destruct ms as [|[k v] r]; [h_all|].
  h_step; [apply H|]. destruct a0 as [b c]. destruct c; [h_all|]. destruct (is_list v); [h_all|apply IHfuel].
Qed.
Lemma h_input : forall fuel,
  (forall g i v ok, hush (b_input X S rawvars opargs fuel g i v ok)) /\
  (forall g i n a, hush (b_oparg X S rawvars opargs fuel g i n a)).
Proof.
  induction fuel as [|fuel [IHi IHo]]; [split; intros; apply h_nofuel|]. split.
  - intros g i v ok. cbn [b_input]. apply h_ptr; [intros g' i'; destruct v; try apply h_ret; apply IHi|].
    destruct v as [n|lit|lit|s|b| |n|vs|ms]; try (h_all; fail).
    + destruct ok; cbn [negb]; [|h_all]. h_step; [apply h_find_arg|]. destruct a; [apply IHo|h_all].
    + destruct (kind_of (snd g)); try (h_all; fail).
      match goal with |- hush (?F fuel vs []) => enough (H : forall n vs acc, hush (F n vs acc)) by apply H end. clear vs.
      induction n as [|n IHv]; intros [|x r] acc; try (h_all; fail).
      h_step; [h_all|]. h_step; [apply IHi|]. destruct a0 as [[v0 b0] cr]. destruct cr; [h_all|].
      destruct (is_list x || _); [h_all|apply IHv].
    + destruct (kind_of (snd g)); try (h_all; fail). h_step; [h_all|]. h_step.
      * apply h_walk. intros [v set_] k x. destruct (slookup a k) as [fi|]; [|h_all]. h_step; [h_all|]. h_step; [apply IHi|]. h_all.
      * h_all.
  - intros g i n a. cbn [b_oparg]. h_step; [apply h_marks|]. destruct a0 as [[ri|] tn]; [|h_all].
    h_step; [h_all|]. destruct a0; [h_all|]. h_step; [h_all|]. destruct a0 as [[[v s0] fd] cr]. destruct cr; [h_all|]. destruct fd; [h_all|].
    destruct (oa_default a); [apply IHi|h_all].
Qed.
Lemma h_args : forall fuel ins infs args, hush (b_args X S rawvars opargs fuel ins infs args).
Proof.
  intros fuel ins infs [ms|]; cbn [b_args]; [|h_all]. apply h_walk. intros fi k x. destruct (slookup infs k) as [[n i]|]; [|h_all].
  h_step; [h_all|]. h_step; [h_all|]. h_step; [apply h_input|]. h_all.
Qed.

(** ** Directives: calls at the current path *)
Definition lspec {A} (f : bm A) (R : bytes -> A -> list entry -> Prop) : Prop := forall s,
  match f s with BOk a t => exists es, r_path t = r_path s /\ log (r_world t) = log (r_world s) ++ es /\ R (r_path s) a es | _ => True end.
Lemma l_weak : forall A (f : bm A) (R R' : bytes -> A -> list entry -> Prop), lspec f R -> (forall p a es, R p a es -> R' p a es) -> lspec f R'.
Proof. intros A f R R' H I s. specialize (H s). destruct (f s); auto. destruct H as (es & G & L & Q). exists es. auto. Qed.
Lemma l_bind : forall A B (f : bm A) (g : A -> bm B) R1 (R : bytes -> B -> list entry -> Prop), lspec f R1 ->
  (forall p a e1, R1 p a e1 -> lspec (g a) (fun p' b e2 => p' = p -> R p b (e1 ++ e2))) -> lspec (bbind f g) R.
Proof.
  intros A B f g R1 R F G s. unfold bbind. specialize (F s). destruct (f s) as [a t| | |]; auto. destruct F as (e1 & P1 & L1 & Q1).
  specialize (G _ a e1 Q1 t). destruct (g a t) as [b u| | |]; auto. destruct G as (e2 & P2 & L2 & Q2). exists (e1 ++ e2).
  split; [congruence|]. split; [rewrite L2, L1; now rewrite app_assoc|]. now apply Q2.
Qed.
Lemma l_hush : forall A B (f : bm A) (g : A -> bm B) R, hush f -> (forall a, lspec (g a) R) -> lspec (bbind f g) R.
Proof.
  intros A B f g R F G s. unfold bbind. specialize (F s). destruct (f s) as [a t| | |]; auto. destruct F as [P L]. specialize (G a t).
  destruct (g a t) as [b u| | |]; auto. destruct G as (es & P2 & L2 & Q). exists es. rewrite P in *. rewrite L in *. auto.
Qed.
Lemma l_ret : forall A (a : A) (R : bytes -> A -> list entry -> Prop), (forall p, R p a []) -> lspec (bret a) R.
Proof. intros A a R H s. cbn. exists []. rewrite app_nil_r. auto. Qed.
Lemma l_panic : forall A R, lspec (@bpanic W A) R. Proof. intros; hnf; cbn; auto. Qed.
Lemma l_nofuel : forall A R, lspec (@bnofuel W A) R. Proof. intros; hnf; cbn; auto. Qed.
Lemma l_nope : forall A R, lspec (@bnope W A) R. Proof. intros; hnf; cbn; auto. Qed.
Definition asks (p : bytes) (e : entry) : Prop := e = (false, p).
Definition asked {A} (p : bytes) (a : A) (es : list entry) : Prop := Forall (asks p) es.
Lemma l_directive : forall fuel loc x, lspec (b_directive X S rawvars opargs fuel loc x) asked.
Proof.
  intros fuel loc x. unfold b_directive.
  assert (E : forall m, lspec (bbind (lift (err m)) (fun b => bret (false, b))) asked).
  { intros m. apply l_hush; [h_all|]. intros. apply l_ret. intros; constructor. }
  destruct (nlookup (s_dirs S) loc) as [ds|]; [|apply E]. destruct (find _ ds) as [d|]; [|apply E].
  apply l_hush; [apply h_args|]. intros [[args cr] cut]. destruct cr; [apply l_ret; intros; constructor|].
  destruct cut; [apply l_nope|].
  assert (R : forall a : bool * bool, lspec (bret a) asked) by (intros; apply l_ret; intros; apply Forall_nil).
  assert (U : forall f, lspec (bbind (lift get_world) (fun w => bbind (lift get_path) (fun p => bbind (lift (of_opt (x_dir X w f args p))) (fun '(w, b) => bbind (lift (put_world w)) (fun _ => bret (b, false)))))) asked).
  { intros f s. unfold bbind, lift, get_world, get_path, of_opt. destruct (x_dir X (r_world s) f args (r_path s)) as [[w b]|] eqn:Ex; [|exact Logic.I].
    cbn. destruct KL as (_ & K & _). apply K in Ex. exists [(false, r_path s)]. split; auto. split; auto. constructor; [reflexivity|constructor]. }
  destruct (dd_fn d); [| |apply U]; (destruct args as [|a args]; [apply l_panic|]); repeat match goal with |- lspec (match ?y with _ => _ end) _ => destruct y end; try apply l_panic; apply R.
Qed.
Lemma l_directives : forall fuel loc l, lspec (b_directives X S rawvars opargs fuel loc l) asked.
Proof.
  intros fuel loc. induction l as [|x r IH]; cbn [b_directives]; [apply l_ret; intros; constructor|].
  eapply l_bind; [apply l_directive|]. intros p [sk cr] e1 F. destruct (cr || sk).
  - apply l_ret. intros p' ->. rewrite app_nil_r. exact F.
  - eapply l_weak; [exact IH|]. intros p' a es F2 ->. apply Forall_app. auto.
Qed.

(** ** Selections *)
Variable okname : bytes -> Prop.    (* response keys *)
Variable dkey : bytes -> Prop.      (* response keys of fields with directives *)
Variable fdefs : list (bytes * bytes * list sel).
Notation fine := (sels_fine okname dkey True).
Hypothesis frags_fine : forall n t ss, In (n, t, ss) fdefs -> fine ss.
(** a call placed in a response whose own path is [p] *)
Definition seen (p : bytes) (t : rt) (e : entry) : Prop := exists q,
  snd e = p ++ path_text q /\ (forall k, In (PKey k) q -> okname k) /\
  (leads t q \/ (fst e = false /\ exists q' k, q = q' ++ [PKey k] /\ leads t q' /\ dkey k)).
Lemma seen_here : forall p t b, seen p t (b, p).
Proof. intros p t b. exists []. split; [cbn; rewrite app_nil_r; reflexivity|]. split; [contradiction|]. left. constructor. Qed.
Lemma seen_app_l : forall p a b e, seen p (TObj a) e -> seen p (TObj (a ++ b)) e.
Proof.
  intros p a b e (q & E & O & H). exists q. split; auto. split; auto.
  assert (L : forall q, leads (TObj a) q -> leads (TObj (a ++ b)) q).
  { clear. intros q H. inversion H; subst; [constructor|]. econstructor; eauto. apply in_or_app; auto. }
  destruct H as [H|(F & q' & k & -> & H & D)]; [left; auto|right]. split; auto. exists q', k. auto.
Qed.
Lemma seen_app_r : forall p a b e, seen p (TObj b) e -> seen p (TObj (a ++ b)) e.
Proof.
  intros p a b e (q & E & O & H). exists q. split; auto. split; auto.
  assert (L : forall q, leads (TObj b) q -> leads (TObj (a ++ b)) q).
  { clear. intros q H. inversion H; subst; [constructor|]. econstructor; eauto. apply in_or_app; auto. }
  destruct H as [H|(F & q' & k & -> & H & D)]; [left; auto|right]. split; auto. exists q', k. auto.
Qed.
Lemma key_text : forall p k q, (p ++ [44; 34] ++ k ++ [34]) ++ path_text q = p ++ path_text (PKey k :: q).
Proof. intros. unfold path_text. cbn. rewrite <- ?app_assoc. cbn. rewrite <- ?app_assoc. reflexivity. Qed.
Lemma seen_key : forall p k t e, okname k -> seen (p ++ [44; 34] ++ k ++ [34]) t e -> seen p (TObj [(k, t)]) e.
Proof.
  intros p k t e Ok (q & E & O & H). exists (PKey k :: q). split; [rewrite E; apply key_text|]. split; [intros k2 [Ek|I2]; [injection Ek as <-; exact Ok|auto]|].
  destruct H as [H|(F & q' & k' & -> & H & D)]; [left|right]; [eapply leads_key; eauto; left; auto|].
  split; auto. exists (PKey k :: q'), k'. split; auto. split; auto. eapply leads_key; eauto. left; auto.
Qed.
Lemma seen_idx : forall p i t l e, seen (p ++ [44] ++ dec_of_N (N.of_nat i)) t e -> nth_error l i = Some t -> seen p (TArr l) e.
Proof.
  intros p i t l e (q & E & O & H) N. exists (PIdx (N.of_nat i) :: q). split; [rewrite E, <- app_assoc; reflexivity|]. split; [intros k2 [Ek|I2]; [discriminate|auto]|].
  destruct H as [H|(F & q' & k' & -> & H & D)]; [left|right]; [eapply leads_idx; eauto|].
  split; auto. exists (PIdx (N.of_nat i) :: q'), k'. split; auto. split; auto. eapply leads_idx; eauto.
Qed.
Definition members_seen (p : bytes) (a : list (bytes * rt) * bool) (es : list entry) : Prop := Forall (seen p (TObj (fst a))) es.
Definition value_seen (p : bytes) (a : rt * bool) (es : list entry) : Prop := Forall (seen p (fst a)) es.
Definition under (p key : bytes) (e : entry) : Prop := exists q, snd e = p ++ path_text (PKey key :: q).
Definition field_seen (key p : bytes) (a : list (bytes * rt) * bool) (es : list entry) : Prop := members_seen p a es /\ Forall (under p key) es.
Lemma asks_seen : forall p t es, Forall (asks p) es -> Forall (seen p t) es.
Proof. intros p t es. apply Forall_impl. intros e ->. apply seen_here. Qed.
Lemma err_value : forall m (t : rt), lspec (bbind (lift (err m)) (fun b => bret (t, b))) value_seen.
Proof. intros m t. apply l_hush; [h_all|]. intros. apply l_ret. constructor. Qed.
Lemma err_members : forall m, lspec (bbind (lift (err m)) (fun b => bret ([], b))) members_seen.
Proof. intros m. apply l_hush; [h_all|]. intros. apply l_ret. constructor. Qed.
Lemma ret_value : forall t b, lspec (bret (t, b)) value_seen.
Proof. intros. apply l_ret. constructor. Qed.
Lemma ret_members : forall b, lspec (bret ([], b)) members_seen.
Proof. intros. apply l_ret. constructor. Qed.
Lemma l_at : forall A (f : bm A) R s x, lspec f R ->
  match f (set_path (r_path s ++ x) s) with
  | BOk a t => exists es, r_path t = r_path s ++ x /\ log (r_world t) = log (r_world s) ++ es /\ R (r_path s ++ x) a es
  | _ => True
  end.
Proof. intros A f R s x H. exact (H (set_path (r_path s ++ x) s)). Qed.
Notation dirs := (b_directives X S rawvars opargs).
Lemma l_skip : forall fuel loc ds (f : bm (list (bytes * rt) * bool)), lspec f members_seen ->
  lspec (bbind (dirs fuel loc ds) (fun '(skip_, crit) => if crit || skip_ then bret ([], crit) else f)) members_seen.
Proof.
  intros fuel loc ds f H. eapply l_bind; [apply l_directives|]. intros p [sk cr] e1 F. destruct (cr || sk).
  - apply l_ret. intros p' ->. rewrite app_nil_r. now apply asks_seen.
  - eapply l_weak; [exact H|]. intros p' a es Q ->. apply Forall_app. split; auto. now apply asks_seen.
Qed.
Lemma h_field_of : forall g idx, hush (lift (field_of g idx)).
Proof. intros. h_all. Qed.
Lemma l_field : forall fuel,
  (forall o dept g k cur, cur_fine okname dkey True cur -> lspec (b_value X S rawvars opargs fdefs fuel o dept g k cur) value_seen) ->
  forall o dept g k al n ds args subs, sel_fine okname dkey True (SField al n ds args subs) ->
    lspec (b_field X S rawvars opargs fdefs (Datatypes.S fuel) o dept g k al n ds args subs) (field_seen (key_of al n)).
Proof.
  intros fuel IHv o dept g k al n ds args subs (Ok & Hd & _ & _ & Hs). fold (sels_fine okname dkey True) in Hs.
  assert (Fs : fine subs) by (clear -Hs; induction subs; cbn in *; tauto). clear Hs. fold (key_of al n).
  cbn [b_field]. fold (key_of al n). intro s. unfold bbind at 1 2. unfold lift at 1 2, get_path, put_path at 1.
  assert (V : lspec (match nlookup (o_fields o) (fnv1 n) with
        | None =>
            if beqb n (bs "__typename") then
              if has_sub (cur_of args subs) then (bbind (lift (err (bs "cannot have a selection set on this field"))) (fun b => bret (THole, b)))
              else bret (TName (o_name o), false)
            else bbind (lift (err (n ++ bs " does not exists on " ++ o_name o))) (fun b => bret (TNull, b))
        | Some (Field fo custom idx _ _) =>
            bbind (match custom with
                 | Some v => bret (false, v)
                 | None =>
                     match fo with
                     | OMethod (Method true _ _ _ _ _) => bret (fst g, GMethod (snd g) idx)
                     | _ => lift (field_of g idx)
                     end
                 end) (fun v =>
            if k =? 255 then bnope else b_value X S rawvars opargs fdefs fuel fo dept v (k + 1) (cur_of args subs))
        end) value_seen).
  { destruct (nlookup (o_fields o) (fnv1 n)) as [[fo custom idx fn hd]|] eqn:El.
    - apply l_hush.
      + destruct custom; [apply h_ret|]. destruct fo as [| | | | | |[[]]| | | |]; first [apply h_ret|apply h_field_of].
      + intro v. destruct (k =? 255); [apply l_nope|]. apply IHv. now apply cur_of_fine.
    - destruct (beqb n _) eqn:En; [|apply err_value]. destruct (has_sub _); [apply err_value|apply ret_value]. }
  pose proof (l_at _ _ _ s ([44; 34] ++ key_of al n ++ [34]) (l_directives fuel 0 ds)) as D.
  unfold bbind at 1. cbv beta in D. destruct (dirs fuel 0 ds _) as [[sk cr] t1| | |] eqn:Ed; auto. destruct D as (e1 & P1 & L1 & F1). unfold asked in F1.
  assert (U1 : Forall (under (r_path s) (key_of al n)) e1).
  { eapply Forall_impl; [|exact F1]. intros e ->. exists []. cbn [snd]. rewrite <- key_text. cbn. now rewrite app_nil_r. }
  destruct (cr || sk) eqn:Eb.
  + assert (Nd : ds <> []) by (intros ->; cbn in Ed; injection Ed; intros _ <- <-; discriminate Eb).
    cbn. exists e1. split; [reflexivity|]. split; [exact L1|]. split; [|exact U1]. eapply Forall_impl; [|exact F1]. intros e ->.
    exists [PKey (key_of al n)]. cbn [snd fst]. split; [rewrite <- key_text; cbn; now rewrite app_nil_r|]. split; [intros k2 [Ek|[]]; injection Ek as <-; exact Ok|].
    right. split; [reflexivity|]. exists [], (key_of al n). split; auto. split; [constructor|auto].
  + specialize (V t1). unfold bbind at 1.
    match goal with |- match match ?x with _ => _ end with _ => _ end =>
      change (match x with BOk a t => exists es, r_path t = r_path t1 /\ log (r_world t) = log (r_world t1) ++ es /\ value_seen (r_path t1) a es | _ => True end) in V;
      destruct x as [[t c] t2| | |]; auto end.
    destruct V as (e2 & P2 & L2 & C). cbn. exists (e1 ++ e2). split; [reflexivity|]. split; [cbn; rewrite L2, L1; now rewrite app_assoc|].
    rewrite P1 in C. unfold value_seen in C. cbn [fst] in C. split.
    * apply Forall_app. split; [eapply Forall_impl; [|exact F1]; intros e ->; apply seen_key; [exact Ok|]; apply seen_here|eapply Forall_impl; [|exact C]; intros; now apply seen_key].
    * apply Forall_app. split; [exact U1|]. eapply Forall_impl; [|exact C]. intros e (q & E & _). exists q. rewrite E. apply key_text.
Qed.
Definition elems_seen (n : nat) (p : bytes) (a : list rt) (es : list entry) : Prop :=
  Forall (fun e => exists i t, nth_error a i = Some t /\ seen (p ++ [44] ++ dec_of_N (N.of_nat (n + i))) t e) es.
Lemma l_run : forall fuel,
  (forall o dept g k ss, fine ss -> lspec (b_sels X S rawvars opargs fdefs fuel o dept g k ss) members_seen) /\
  (forall o dept g k tn ds ss, fine ss -> lspec (b_inline X S rawvars opargs fdefs fuel o dept g k tn ds ss) members_seen) /\
  (forall o dept g k n ds, lspec (b_spread X S rawvars opargs fdefs fuel o dept g k n ds) members_seen) /\
  (forall o dept g k al n ds args subs, sel_fine okname dkey True (SField al n ds args subs) ->
     lspec (b_field X S rawvars opargs fdefs fuel o dept g k al n ds args subs) members_seen) /\
  (forall o dept g k cur, cur_fine okname dkey True cur -> lspec (b_value X S rawvars opargs fdefs fuel o dept g k cur) value_seen).
Proof.
  induction fuel as [|fuel (IHs & IHi & IHp & IHf & IHv)]; [repeat split; intros; apply l_nofuel|].
  split; [|split; [|split; [|split]]].
  - intros o dept g k ss F. destruct ss as [|x r]; cbn [b_sels]; [apply ret_members|].
    destruct F as [Fx Fr]. eapply l_bind with (R1 := members_seen).
    + destruct x; [apply IHf; auto|apply IHp; auto|apply IHi; auto].
    + intros p [ms crit] e1 C. unfold members_seen in C. cbn [fst] in C. destruct crit.
      * apply l_ret. intros p' ->. rewrite app_nil_r. exact C.
      * eapply l_bind; [apply IHs; eauto|]. intros p' [ms' c'] e2 C2. unfold members_seen in C2. cbn [fst] in C2. apply l_ret. intros p'' -> ->. rewrite app_nil_r.
        apply Forall_app. cbn [fst]. split; [eapply Forall_impl; [|exact C]; intros; now apply seen_app_l|eapply Forall_impl; [|exact C2]; intros; now apply seen_app_r].
  - intros o dept g k tn ds ss F. cbn [b_inline]. apply l_skip. destruct (negb _); [apply ret_members|]. apply IHs; auto.
  - intros o dept g k n ds. cbn [b_spread]. apply l_skip. destruct (b_fragment fdefs n) as [[[m tn] ss]|] eqn:Ef; [|apply err_members].
    unfold b_fragment in Ef. apply find_some in Ef. destruct Ef as [Ef _].
    destruct (skipn (length n) m); destruct (negb _); try apply ret_members; [|apply l_nope]. apply IHs; auto. eapply frags_fine; eauto.
  - intros o dept g k al n ds args subs F. eapply l_weak; [apply l_field; auto|]. intros p x es H. apply H.
  - intros o dept g k cur Fc. cbn [b_value].
    destruct (_ && _) eqn:Ea; [apply err_value|].
    assert (obj_case : forall t, lspec
                  (let dept := (dept + 1) mod 256 in
                  if dept =? s_maxdepth S then (bbind (lift (err (bs "reached max dept"))) (fun b => bret (TNull, b)))
                  else
                    match cur with
                    | CSels subs => bbind (b_sels X S rawvars opargs fdefs fuel t dept g k subs) (fun '(ms, crit) => bret (TObj ms, crit))
                    | CLost => match fuel with
                               | O => bnofuel
                               | Datatypes.S _ => bbind (lift (err (bs "unsupported operation u"))) (fun b => bret (TObj [], b))
                               end
                    | CArgs _ _ => bpanic
                    end) value_seen).
    { intros t. cbv zeta. destruct (_ =? s_maxdepth S); [apply err_value|].
      destruct cur as [fs subs|subs|]; [apply l_panic| |destruct fuel; [apply l_nofuel|apply err_value]].
      eapply l_bind; [apply IHs; eauto|]. intros p [ms c] e1 H. apply l_ret. intros p' ->. rewrite app_nil_r. exact H. }
    assert (iface_case : forall t, lspec
                  (match snd g with
                  | GIface None => bret (TNull, false)
                  | GIface (Some (tn, pkg, v)) =>
                      if k =? 255 then bnope
                      else
                        match find (fun i => beqb (fst (fst i)) tn && beqb (snd (fst i)) pkg)
                                   (match t with OIface _ _ is => is | _ => [] end) with
                        | Some (_, impl) => b_value X S rawvars opargs fdefs fuel impl ((dept + 1) mod 256) (fst g, v) (k + 1) cur
                        | None => bret (TNull, false)
                        end
                  | _ => bpanic
                  end) value_seen).
    { intros t. destruct (snd g) as [| | | | | | | | | | |[[[tn pkg] v]|]| | | | |]; try apply l_panic; [|apply ret_value].
      destruct (k =? 255); [apply l_nope|]. destruct (find _ _) as [[nm impl]|] eqn:Ef; [|apply ret_value]. apply IHv; auto. }
    destruct o as [|e|n|n fs|isid kd|e|m|i| |n|n fs is].
    + apply ret_value.
    + assert (L : forall l, lspec (if k =? 255 then bnope
                else
                  bbind ((fix elems (n : N) (l : list gval) : bm (list rt) :=
                           match l with
                           | [] => bret []
                           | v :: r =>
                               bbind (lift get_path) (fun path =>
                               bbind (lift (put_path (path ++ [44] ++ dec_of_N n))) (fun _ =>
                               bbind (b_value X S rawvars opargs fdefs fuel e dept (fst g, v) (k + 1) cur) (fun '(t, _) =>
                               bbind (lift (put_path path)) (fun _ =>
                               bbind (elems (n + 1) r) (fun ts => bret (t :: ts))))))
                           end) 0 l) (fun ts => bret (TArr ts, false))) value_seen).
      { intro l. destruct (k =? 255); [apply l_nope|].
        match goal with |- lspec (bbind (?F 0 l) _) _ => assert (H : forall l n, lspec (F (N.of_nat n) l) (elems_seen n)) end.
        { clear l. induction l as [|v r IH]; intro n; [apply l_ret; constructor|].
          intro s. unfold bbind at 1 2. unfold lift at 1 2, get_path, put_path at 1.
          pose proof (l_at _ _ _ s ([44] ++ dec_of_N (N.of_nat n)) (IHv e dept (fst g, v) (k + 1) cur Fc)) as D.
          unfold bbind at 1. destruct (b_value _ _ _ _ _ _ _ _ _ _ _ _) as [[t c] t1| | |]; auto. destruct D as (e1 & P1 & L1 & C). unfold value_seen in C. cbn [fst] in C.
          unfold bbind at 1. unfold lift at 1, put_path at 1. unfold bbind at 1.
          specialize (IH (Datatypes.S n) (set_path (r_path s) t1)). replace (N.of_nat n + 1) with (N.of_nat (Datatypes.S n)) by lia.
          match goal with |- match match ?x with _ => _ end with _ => _ end =>
            change (match x with BOk a t => exists es, r_path t = r_path s /\ log (r_world t) = log (r_world t1) ++ es /\ elems_seen (Datatypes.S n) (r_path s) a es | _ => True end) in IH;
            destruct x as [ts t2| | |]; auto end.
          destruct IH as (e2 & P2 & L2 & C2). cbn. exists (e1 ++ e2). split; [exact P2|]. split; [rewrite L2, L1; now rewrite app_assoc|].
          apply Forall_app. split.
          + eapply Forall_impl; [|exact C]. intros er He. exists O, t. rewrite Nat.add_0_r. auto.
          + eapply Forall_impl; [|exact C2]. intros er (i & t' & Hn & Hp). exists (Datatypes.S i), t'. split; [exact Hn|].
            replace (n + Datatypes.S i)%nat with (Datatypes.S n + i)%nat by lia. exact Hp. }
        eapply l_bind; [apply (H l O)|]. intros p ts e1 C. apply l_ret. intros p' ->. rewrite app_nil_r.
        eapply Forall_impl; [|exact C]. intros er (i & t' & Hn & Hp). eapply seen_idx; eauto. }
      destruct (snd g) as [| | | | |[l|]|l| | | | | | | | | |]; try apply l_panic; [apply L|apply ret_value|apply L].
    + destruct (negb (has_sub cur)); [apply err_value|]. destruct (slookup (s_types S) n) as [t|] eqn:Et; [|apply ret_value]. apply obj_case.
    + destruct (negb (has_sub cur)); [apply err_value|]. apply obj_case.
    + destruct (has_sub cur); [apply err_value|]. apply l_hush; [|intros; apply ret_value]. unfold value_tree. h_all.
    + destruct (snd g); try apply l_panic. destruct p; [|apply ret_value]. apply IHv; auto.
    + destruct m as [ist ins infs outnr errnr out].
      assert (M : lspec (bbind (b_args X S rawvars opargs fuel ins infs (match cur with CArgs fs _ => Some fs | _ => None end)) (fun '(av, crit, cut) =>
                if crit : bool then bret (THole, true)
                else
                  let cur := match cur with CArgs _ subs => after_args cut subs | _ => cur end in
                  if fst g then bpanic
                  else
                    bbind (lift get_world) (fun w =>
                    bbind (lift get_path) (fun p =>
                    bbind (lift (of_opt (x_call X w (snd g) av p))) (fun '(w, outs) =>
                    bbind (lift (put_world w)) (fun _ =>
                    bbind (match errnr with
                     | None => bret tt
                     | Some n =>
                         bbind (lift (of_opt (nth_error outs n))) (fun e =>
                         match e with
                         | GErr None => bret tt
                         | GErr (Some m) => bbind (lift (err m)) (fun _ => bret tt)
                         | _ => bpanic
                         end)
                     end) (fun _ =>
                    match x_ctxerr X w with
                    | Some m => bbind (lift (err m)) (fun _ => bret (TNull, false))
                    | None =>
                        bbind (lift (of_opt (nth_error outs outnr))) (fun v =>
                        b_value X S rawvars opargs fdefs fuel out dept (false, v) k cur)
                    end)))))))
                value_seen).
      { apply l_hush; [apply h_args|]. intros [[av crit] cut]. destruct crit; [apply ret_value|]. cbv zeta. destruct (fst g); [apply l_panic|].
        intro s. unfold bbind at 1 2 3 4. unfold lift at 1 2 3 4, get_world, get_path, put_world, of_opt at 1.
        destruct (x_call X (r_world s) (snd g) av (r_path s)) as [[w' outs]|] eqn:Ex; [|exact Logic.I]. cbn [ret panic].
        destruct KL as (K & _). apply K in Ex.
        match goal with |- match ?f (set_world w' s) with _ => _ end => assert (Z : lspec f value_seen) end.
        { apply l_hush; [h_all|]. intros _. destruct (x_ctxerr X w'); [apply l_hush; [h_all|intros; apply ret_value]|].
          apply l_hush; [h_all|]. intro v. apply IHv. destruct cur as [fs subs|subs|]; auto. destruct Fc. unfold after_args. destruct cut as [[|? ?]|]; cbn; auto. }
        specialize (Z (set_world w' s)). match goal with |- match ?f with _ => _ end => destruct f as [a t| | |]; auto end.
        destruct Z as (es & P & L & Q). cbn in P, L, Q. exists ((true, r_path s) :: es). split; [exact P|]. split; [rewrite L, Ex, <- app_assoc; reflexivity|].
        constructor; [apply seen_here|exact Q]. }
      destruct ist, (snd g) as [| | | | | | | | | | | |[|]| | | |]; try apply l_panic; try exact M; try apply ret_value.
    + apply l_hush; [h_all|]. intro en. apply l_hush; [|intros; apply ret_value]. generalize (en_entries en). induction l as [|[n e] r IH]; cbn [enum_tree]; [h_all|].
      h_step; [h_all|]. destruct a; [h_all|exact IH].
    + destruct (fst g); [apply l_panic|]. destruct (snd g); apply ret_value.
    + destruct (negb (has_sub cur)); [apply err_value|]. destruct (slookup (s_ifaces S) n) as [t|] eqn:Et; [|apply ret_value]. apply iface_case.
    + destruct (negb (has_sub cur)); [apply err_value|]. exact (iface_case (OIface n fs is)).
Qed.
(** a method's own call comes first and is made at the current path *)
Definition own (p : bytes) (es : list entry) : Prop := es = [] \/ exists r, es = (true, p) :: r.
Lemma l_method : forall fuel m dept g k cur, cur_fine okname dkey True cur ->
  lspec (b_value X S rawvars opargs fdefs fuel (OMethod m) dept g k cur) (fun p _ es => own p es).
Proof.
  intros fuel m dept g k cur Fc. destruct fuel as [|fuel]; [apply l_nofuel|]. cbn [b_value].
  assert (E : forall msg (t : rt), lspec (bbind (lift (err msg)) (fun b => bret (t, b))) (fun p _ es => own p es)).
  { intros. apply l_hush; [h_all|]. intros. apply l_ret. left. reflexivity. }
  assert (R : forall a : rt * bool, lspec (bret a) (fun p _ es => own p es)) by (intros; apply l_ret; left; reflexivity).
  destruct (_ && _); [apply E|]. destruct m as [ist ins infs outnr errnr out].
  match goal with |- context [bbind (b_args X S rawvars opargs fuel ins infs ?a) ?f] => assert (M : lspec (bbind (b_args X S rawvars opargs fuel ins infs a) f) (fun p _ es => own p es)) end.
  { apply l_hush; [apply h_args|]. intros [[av crit] cut]. destruct crit; [apply R|]. cbv zeta. destruct (fst g); [apply l_panic|].
    intro s. unfold bbind at 1 2 3 4. unfold lift at 1 2 3 4, get_world, get_path, put_world, of_opt at 1.
    destruct (x_call X (r_world s) (snd g) av (r_path s)) as [[w' outs]|] eqn:Ex; [|exact Logic.I]. cbn [ret panic].
    destruct KL as (K & _). apply K in Ex.
    match goal with |- match ?f (set_world w' s) with _ => _ end => assert (Z : lspec f (fun _ _ _ => True)) end.
    { apply l_hush; [h_all|]. intros _. destruct (x_ctxerr X w'); [apply l_hush; [h_all|intros; apply l_ret; auto]|].
      apply l_hush; [h_all|]. intro v. eapply l_weak; [apply l_run|auto]. destruct cur as [fs subs|subs|]; auto. destruct Fc. unfold after_args. destruct cut as [[|? ?]|]; cbn; auto. }
    specialize (Z (set_world w' s)). match goal with |- match ?f with _ => _ end => destruct f as [a t| | |]; auto end.
    destruct Z as (es & P & L & _). cbn in P, L. exists ((true, r_path s) :: es). split; [exact P|]. split; [rewrite L, Ex, <- app_assoc; reflexivity|].
    right. eauto. }
  destruct ist, (snd g) as [| | | | | | | | | | | |[|]| | | |]; try apply l_panic; try exact M; try apply R.
Qed.
Lemma l_own : forall fuel o dept g k al n ds args subs m cst idx fn hd, fine subs ->
  nlookup (o_fields o) (fnv1 n) = Some (Field (OMethod m) cst idx fn hd) ->
  lspec (b_field X S rawvars opargs fdefs fuel o dept g k al n ds args subs)
    (fun p _ es => exists e1 e2, es = e1 ++ e2 /\ Forall (asks (p ++ path_text [PKey (key_of al n)])) e1 /\ own (p ++ path_text [PKey (key_of al n)]) e2).
Proof.
  intros fuel o dept g k al n ds args subs m cst idx fn hd Fs El. destruct fuel as [|fuel]; [apply l_nofuel|].
  cbn [b_field]. fold (key_of al n). intro s. unfold bbind at 1 2. unfold lift at 1 2, get_path, put_path at 1.
  assert (T : r_path s ++ path_text [PKey (key_of al n)] = r_path s ++ [44; 34] ++ key_of al n ++ [34]) by (rewrite <- key_text; cbn; now rewrite app_nil_r).
  rewrite T. clear T.
  pose proof (l_at _ _ _ s ([44; 34] ++ key_of al n ++ [34]) (l_directives fuel 0 ds)) as D.
  unfold bbind at 1. cbv beta in D. destruct (dirs fuel 0 ds _) as [[sk cr] t1| | |] eqn:Ed; auto. destruct D as (e1 & P1 & L1 & F1). unfold asked in F1.
  destruct (cr || sk) eqn:Eb.
  + cbn. exists e1. split; [reflexivity|]. split; [exact L1|]. exists e1, []. rewrite app_nil_r. split; [reflexivity|]. split; [exact F1|]. left. reflexivity.
  + rewrite El. unfold bbind at 1.
    match goal with |- match match ?f t1 with _ => _ end with _ => _ end => assert (V : lspec f (fun p _ es => own p es)) end.
    { apply l_hush.
      - destruct cst; [apply h_ret|]. destruct m as [[]]; first [apply h_ret|apply h_field_of].
      - intro v. destruct (k =? 255); [apply l_nope|]. apply l_method. now apply cur_of_fine. }
    specialize (V t1).
    match goal with |- match match ?x with _ => _ end with _ => _ end => destruct x as [[t c] t2| | |]; auto end.
    destruct V as (e2 & P2 & L2 & C). cbn. exists (e1 ++ e2). split; [reflexivity|]. split; [cbn; rewrite L2, L1; now rewrite app_assoc|].
    rewrite P1 in C. exists e1, e2. auto.
Qed.
End L.
Lemma l_operation : forall (okname dkey : bytes -> Prop) W (X : externals W) S rawvars log d op fuel, keeps_log X log ->
  Forall (def_fine okname dkey True) d -> In op d ->
  lspec log (b_operation X S rawvars d op fuel) (members_seen okname dkey).
Proof.
  intros okname dkey W X S rawvars log d op fuel KL Hd Hi.
  assert (Ho : def_fine okname dkey True op) by (eapply Forall_forall; eauto).
  destruct op as [kd n args ds ss|n t ss]; cbn [b_operation]; [|apply l_panic].
  assert (F : forall n t ss, In (n, t, ss) (frag_defs d) -> sels_fine okname dkey True ss).
  { intros n' t' ss' H. unfold frag_defs in H. apply in_flat_map in H. destruct H as (x & Ix & H). destruct x; [contradiction|].
    destruct H as [H|[]]. injection H. intros; subst. eapply Forall_forall in Hd; eauto. exact Hd. }
  destruct kd; try apply err_members; (destruct ds; [|apply err_members]); apply (proj1 (l_run X S rawvars log KL args okname dkey (frag_defs d) F fuel)); exact Ho.
Qed.
