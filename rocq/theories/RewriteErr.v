(** * Documents that mean the same, also where they give errors (proofs) *)
From Coq Require Import String Arith NArith ZArith Bool List Lia.
From Verif Require Import Base Json Ast ReqModel Schema ResModel Interp Facts Valid Spec SpecLit SpecVal SpecArgs SpecRun SpecDoc FuelMono Rewrite.
Import ListNotations.
Open Scope N_scope.
Local Notation value := Ast.value.
Local Notation SN := Datatypes.S.

Section Near.
Context {W : Type}.
Variable X : externals W.
Variable S : schema.
Variable rawvars : bytes.
Notation st := (rst W).
Notation bm := (@bm W).
Notation rm := (@rm W).
(** the variables are not parsed yet, or are what the JSON parser gives *)
Definition vars_known (s : st) : Prop := r_vars s = None \/ rawvars <> [] /\ r_vars s = Some (match x_parse X rawvars with inl v => Some v | inr _ => None end).
(** the same state, but the variables may be parsed earlier, if they are an object *)
Definition near (s s' : st) : Prop := r_errs s' = r_errs s /\ r_path s' = r_path s /\ r_world s' = r_world s /\ vars_known s /\ vars_known s' /\
  (r_vars s' = r_vars s \/ exists m, rawvars <> [] /\ x_parse X rawvars = inl (FObject m)).
Definition sim {A} (m m' : bm A) : Prop := forall s s', near s s' ->
  match m s, m' s' with BOk a t, BOk a' t' => a' = a /\ near t t' | BPanic, BPanic => True | BOut, BOut => True | BNoFuel, _ => True | _, _ => False end.
Definition rsim {A} (m m' : rm A) : Prop := forall s s', near s s' ->
  match m s, m' s' with ROk a t, ROk a' t' => a' = a /\ near t t' | RPanic, RPanic => True | RNoFuel, _ => True | _, _ => False end.
Lemma sim_bind : forall A B (m m' : bm A) (f f' : A -> bm B), sim m m' -> (forall a, sim (f a) (f' a)) -> sim (bbind m f) (bbind m' f').
Proof.
  intros A B m m' f f' H K s s' N. unfold bbind. specialize (H s s' N). destruct (m s), (m' s'); try contradiction; auto. destruct H as [-> H]. apply K. exact H.
Qed.
Lemma rsim_bind : forall A B (m m' : rm A) (f f' : A -> rm B), rsim m m' -> (forall a, rsim (f a) (f' a)) -> rsim (bind m f) (bind m' f').
Proof.
  intros A B m m' f f' H K s s' N. unfold bind. specialize (H s s' N). destruct (m s), (m' s'); try contradiction; auto. destruct H as [-> H]. apply K. exact H.
Qed.
Lemma sim_lift : forall A (m m' : rm A), rsim m m' -> sim (lift m) (lift m').
Proof. intros A m m' H s s' N. unfold lift. specialize (H s s' N). destruct (m s), (m' s'); auto. Qed.
Lemma sim_ret : forall A (a : A), sim (bret a) (bret a). Proof. intros A a s s' N. cbn. auto. Qed.
Lemma sim_panic : forall A, sim (@bpanic W A) bpanic. Proof. intros A s s' N. exact Logic.I. Qed.
Lemma sim_nope : forall A, sim (@bnope W A) bnope. Proof. intros A s s' N. exact Logic.I. Qed.
Lemma sim_nofuel : forall A (m : bm A), sim bnofuel m. Proof. intros A m s s' N. exact Logic.I. Qed.
Lemma rsim_ret : forall A (a : A), rsim (ret a) (ret a). Proof. intros A a s s' N. cbn. auto. Qed.
Lemma rsim_panic : forall A, rsim (@panic W A) panic. Proof. intros A s s' N. exact Logic.I. Qed.
Lemma rsim_nofuel : forall A (m : rm A), rsim nofuel m. Proof. intros A m s s' N. exact Logic.I. Qed.
Lemma rsim_err : forall m, rsim (err m) (err m).
Proof.
  intros m s s' N. cbn. split; auto. destruct N as (E & P & Wo & V & V' & C). unfold near, vars_known in *. cbn. rewrite E, P. auto 8.
Qed.
Lemma rsim_opt : forall A (o : option A), rsim (of_opt o) (of_opt o). Proof. intros A [a|]; [apply rsim_ret|apply rsim_panic]. Qed.
Lemma rsim_get_path : rsim get_path get_path. Proof. intros s s' N. cbn. split; auto. apply N. Qed.
Lemma rsim_put_path : forall p, rsim (put_path p) (put_path p).
Proof. intros p s s' N. cbn. split; auto. destruct N as (E & P & Wo & V & V' & C). unfold near, vars_known in *. cbn. auto 8. Qed.
Lemma rsim_get_world : rsim get_world get_world. Proof. intros s s' N. cbn. split; auto. apply N. Qed.
Lemma rsim_put_world : forall p, rsim (put_world p) (put_world p).
Proof. intros p s s' N. cbn. split; auto. destruct N as (E & P & Wo & V & V' & C). unfold near, vars_known in *. cbn. auto 8. Qed.
Lemma sim_le : forall A (m m' m'' : bm A), sim m m' -> le m' m'' -> sim m m''.
Proof. intros A m m' m'' H L s s' N. specialize (H s s' N). destruct (L s') as [E|E]; [rewrite E in H|rewrite E; exact H]. destruct (m s); try contradiction; auto. Qed.
End Near.
Ltac rsims :=
  repeat match goal with
  | |- rsim _ _ (ResModel.bind _ _) _ => apply rsim_bind
  | |- rsim _ _ (ret _) _ => apply rsim_ret
  | |- rsim _ _ panic _ => apply rsim_panic
  | |- rsim _ _ (err _) _ => apply rsim_err
  | |- rsim _ _ (of_opt _) _ => apply rsim_opt
  | |- forall _, rsim _ _ _ _ => intro
  | |- rsim _ _ (let '(_, _) := ?a in _) _ => destruct a
  | |- rsim _ _ (match ?x with _ => _ end) _ => destruct x
  | |- rsim _ _ (ResModel.fail _ _) _ => unfold ResModel.fail
  | |- rsim _ _ (okay _) _ => unfold okay
  | |- rsim _ _ (set_any _ _) _ => unfold set_any
  | |- rsim _ _ (set_int _ _) _ => unfold set_int
  | |- rsim _ _ (set_uint _ _) _ => unfold set_uint
  | |- rsim _ _ (set_bool _ _) _ => unfold set_bool
  | |- rsim _ _ (set_string _ _) _ => unfold set_string
  | |- rsim _ _ (set_float _ _ _) _ => unfold set_float
  | |- rsim _ _ (field_of _ _) _ => unfold field_of
  | |- rsim _ _ (content_of _ _) _ => unfold content_of
  | |- rsim _ _ (assign_enum _ _ _) _ => unfold assign_enum
  | |- rsim _ _ (assign_id _ _) _ => unfold assign_id
  | |- rsim _ _ (assign_time _ _) _ => unfold assign_time
  | |- rsim _ _ (type_mismatch _ _ _) _ => unfold type_mismatch
  | |- rsim _ _ (same_enum_value _ _ _) _ => unfold same_enum_value
  | |- rsim _ _ get_path _ => apply rsim_get_path
  | |- rsim _ _ (put_path _) _ => apply rsim_put_path
  | |- rsim _ _ get_world _ => apply rsim_get_world
  | |- rsim _ _ (put_world _) _ => apply rsim_put_world
  end.
Section Self.
Context {W : Type}.
Variable X : externals W.
Variable S : schema.
Variable rawvars : bytes.
Notation bm := (@bm W).
Notation rm := (@rm W).
Notation sim := (sim X rawvars).
Notation rsim := (rsim X rawvars).
Notation near := (near X rawvars).
Lemma rsim_assign_file : forall g s, rsim (assign_file X g s) (assign_file X g s).
Proof.
  intros g str s s' N. unfold assign_file. destruct (x_formfile X) as [get|]; [|exact Logic.I]. assert (Wo : r_world s' = r_world s) by apply N. rewrite Wo. destruct (get (r_world s) str) as [w r].
  assert (N' : near (set_world w s) (set_world w s')) by (apply (rsim_put_world X rawvars w s s' N)).
  revert N'. generalize (set_world w s) (set_world w s'). destruct r as [f|e]; [|exact (rsim_bind X rawvars _ _ _ _ _ _ (rsim_err X rawvars e) (fun _ => rsim_ret X rawvars _ _))].
  change (rsim (bind (set_any g (GFile (Some f))) okay) (bind (set_any g (GFile (Some f))) okay)). rsims.
Qed.
Lemma rsim_assign_string : forall g i s, rsim (assign_string X S g i s) (assign_string X S g i s).
Proof. intros. unfold assign_string. rsims; apply rsim_assign_file. Qed.
Lemma rsim_int_literal : forall g l, rsim (int_literal X g l) (int_literal X g l).
Proof. intros. unfold int_literal. rsims. Qed.
Lemma rsim_number : forall g raw, rsim (number_part X g raw) (number_part X g raw).
Proof. intros. unfold number_part, json_number. rsims. Qed.
Lemma rsim_ptr : forall g i f f' (m m' : rm bres), (forall g i, rsim (f g i) (f' g i)) -> rsim m m' -> rsim (through_ptr g i f m) (through_ptr g i f' m').
Proof.
  intros g i f f' m m' H K. unfold through_ptr. destruct (i_kind i); auto. destruct (i_isfile i); auto.
  apply rsim_bind; [apply rsim_opt|]. intro e. apply rsim_bind; [apply H|]. intros [[? ?] ?]. rsims.
Qed.
Lemma sim_ptr : forall g i f f' (m m' : bm bres), (forall g i, sim (f g i) (f' g i)) -> sim m m' -> sim (b_ptr g i f m) (b_ptr g i f' m').
Proof.
  intros g i f f' m m' H K. unfold b_ptr. destruct (i_kind i); auto. destruct (i_isfile i); auto.
  apply sim_bind; [apply sim_lift; rsims|]. intro e. apply sim_bind; [apply H|]. intros [[v b] c]. destruct c; [apply sim_ret|]. destruct b; [|apply sim_ret]. apply sim_bind; [apply sim_lift; rsims|]. intro; apply sim_ret.
Qed.
Lemma json_self : forall fuel g i j, rsim (bind_json X S fuel g i j) (bind_json X S fuel g i j).
Proof.
  induction fuel as [|fuel IH]; intros g i j; [apply rsim_nofuel|]. rewrite (json_step X S fuel). apply rsim_ptr; [intros; apply IH|].
  unfold j_body. destruct (special_b i); [destruct j; rsims; apply rsim_assign_file|]. destruct j as [| | |raw|str|l|m]; try solve [rsims].
  - apply rsim_number.
  - apply rsim_assign_string.
  - destruct (kind_of (snd g)); try solve [rsims]. generalize (@nil gval). induction l as [|x l IHl]; intro acc; cbn [j_elems]; [rsims|].
    apply rsim_bind; [apply rsim_opt|]. intro ei. apply rsim_bind; [apply IH|]. intros [[ev b] c]. destruct c; [apply rsim_ret|apply IHl].
  - destruct (kind_of (snd g)); try solve [rsims]. apply rsim_bind; [rsims|]. intro c. generalize (snd g). induction m as [|[k x] l IHl]; intro acc; cbn [j_members]; [rsims|].
    destruct (slookup c k); [|rsims]. apply rsim_bind; [rsims|]. intro f. apply rsim_bind; [apply IH|]. intros [[fv b] cr]. cbv zeta. destruct cr; [apply rsim_ret|apply IHl].
Qed.
Definition found (fuel : nat) (g : rv) (i : input) (n : bytes) (v : option fj) : rm (gval * bool * bool * bool) :=
  match var_get v n with None => ret (snd g, false, false, false) | Some j => bind (bind_json X S fuel g i j) (fun '(v, set_, crit) => ret (v, set_, true, crit)) end.
Definition told (g : rv) (e : bytes) : rm (gval * bool * bool * bool) := bind (err e) (fun _ => ret (snd g, false, false, true)).
Lemma ext_eq : forall fuel g i n s, bind_external X S rawvars fuel g i n s =
  match r_vars s with
  | Some v => found fuel g i n v s
  | None => match rawvars with
            | [] => ROk (snd g, false, false, false) s
            | _ => match x_parse X rawvars with
                   | inr e => told g e (set_vars (Some None) s)
                   | inl v => (match v with FObject _ => found fuel g i n (Some v) | _ => told g (bs "variables provided must be of type object") end) (set_vars (Some (Some v)) s)
                   end
            end
  end.
Proof.
  intros fuel g i n s. unfold bind_external. unfold bind at 1, get_vars. destruct (r_vars s) as [v|]; [reflexivity|]. destruct rawvars as [|c r]; [reflexivity|]. destruct (x_parse X (c :: r)) as [[]|]; reflexivity.
Qed.
Lemma ext_self : forall fuel g i n, rsim (bind_external X S rawvars fuel g i n) (bind_external X S rawvars fuel g i n).
Proof.
  intros fuel g i n.
  assert (F : forall v, rsim (found fuel g i n v) (found fuel g i n v)).
  { intro v. unfold found. destruct (var_get v n); [|rsims]. apply rsim_bind; [apply json_self|]. intros [[? ?] ?]. rsims. }
  assert (Te : forall e, rsim (told g e) (told g e)) by (intro; unfold told; rsims).
  assert (P : forall s s' v, near s s' -> rawvars <> [] -> v = match x_parse X rawvars with inl v => Some v | inr _ => None end -> near (set_vars (Some v) s) (set_vars (Some v) s')).
  { intros s s' v (E & Pa & Wo & V & V' & C) R ->. unfold RewriteErr.near, vars_known in *. cbn. auto 9. }
  intros s s' N. rewrite !ext_eq. destruct (r_vars s) as [v|] eqn:Ev, (r_vars s') as [v'|] eqn:Ev'.
  - enough (v' = v) as -> by (apply F; exact N). destruct N as (_ & _ & _ & V & V' & _). destruct V as [V|[_ V]], V' as [V'|[_ V']]; congruence.
  - assert (R : rawvars <> [] /\ exists m, x_parse X rawvars = inl (FObject m)). { destruct N as (_ & _ & _ & V & V' & [C|C]); [congruence|]. destruct C as (m & R & C). eauto. }
    destruct R as [R (m & Pm)]. assert (v = Some (FObject m)) as ->. { destruct N as (_ & _ & _ & [V|[_ V]] & _); [congruence|]. rewrite Pm in V. congruence. }
    destruct rawvars as [|c r] eqn:Er; [congruence|]. rewrite Pm. apply F. 
    destruct N as (E & Pa & Wo & V & V' & C). unfold RewriteErr.near, vars_known in *. cbn. rewrite Pm in *. refine (conj E (conj Pa (conj Wo (conj V (conj _ _))))); [right; split; [discriminate|reflexivity]|]. right. exists m. split; [discriminate|reflexivity].
  - assert (R : rawvars <> [] /\ exists m, x_parse X rawvars = inl (FObject m)). { destruct N as (_ & _ & _ & V & V' & [C|C]); [congruence|]. destruct C as (m & R & C). eauto. }
    destruct R as [R (m & Pm)]. assert (v' = Some (FObject m)) as ->. { destruct N as (_ & _ & _ & _ & [V|[_ V]] & _); [congruence|]. rewrite Pm in V. congruence. }
    destruct rawvars as [|c r] eqn:Er; [congruence|]. rewrite Pm. apply F.
    destruct N as (E & Pa & Wo & V & V' & C). unfold RewriteErr.near, vars_known in *. cbn. rewrite Pm in *. refine (conj E (conj Pa (conj Wo (conj _ (conj V' _))))); [right; split; [discriminate|reflexivity]|]. right. exists m. split; [discriminate|reflexivity].
  - destruct rawvars as [|c r] eqn:Er; [cbn; split; [reflexivity|exact N]|]. destruct (x_parse X (c :: r)) as [v|e] eqn:Pv.
    + assert (N' := P s s' (Some v) N ltac:(discriminate) eq_refl). destruct v; first [apply F; exact N'|apply Te; exact N'].
    + apply Te. apply P; [exact N|discriminate|reflexivity].
Qed.

Section Op.
Variable decls : option (list oparg).
Lemma find_self : forall fuel n, sim (@b_find_arg W decls fuel n) (b_find_arg decls fuel n).
Proof.
  intros fuel n. unfold b_find_arg. destruct decls as [l|]; [|apply sim_ret]. revert l. induction fuel as [|fuel IH]; intros l; [apply sim_nofuel|].
  destruct l as [|a r]; [apply sim_ret|]. cbn [b_find]. destruct (beqb (oa_name a) n); [apply sim_ret|]. apply IH.
Qed.
Lemma marks_self : forall t fuel i n, sim (@b_marks W fuel i t n) (b_marks fuel i t n).
Proof.
  induction t as [m nn|t IH nn]; intros fuel i n; [destruct fuel; apply sim_ret|]. destruct fuel as [|fuel]; [apply sim_nofuel|].
  cbn [b_marks]. destruct (i_kind i); try (apply sim_bind; [apply sim_lift; rsims|intro; apply sim_ret]). apply sim_bind; [apply sim_lift; rsims|]. intro e. apply IH.
Qed.
Lemma walk_self : forall A n (f f' : A -> bytes -> value -> bm (A * bool)) ms a, (forall a k v, sim (f a k v) (f' a k v)) -> sim (b_walk n f ms a) (b_walk n f' ms a).
Proof.
  intros A n f f' ms a H. revert ms a. induction n as [|n IH]; intros ms a; [apply sim_nofuel|]. destruct ms as [|[k v] r]; [apply sim_ret|].
  cbn [b_walk]. apply sim_bind; [apply H|]. intros [a' crit]. destruct crit; [apply sim_ret|]. destruct (is_list v); [destruct n; [apply sim_nofuel|apply sim_ret]|apply IH].
Qed.
Notation b_input := (b_input X S rawvars decls).
Notation b_oparg := (b_oparg X S rawvars decls).
Lemma input_self : forall fuel, (forall g i v ok, sim (b_input fuel g i v ok) (b_input fuel g i v ok)) /\
  (forall g i n a, sim (b_oparg fuel g i n a) (b_oparg fuel g i n a)).
Proof.
  induction fuel as [|fuel [IHi IHo]]; [split; intros; apply sim_nofuel|]. split.
  - intros g i v ok. rewrite (input_step X S rawvars decls fuel). apply sim_ptr; [intros; destruct v; try apply IHi; apply sim_ret|].
    unfold b_body. destruct v; try apply sim_ret.
    + destruct (negb ok); [apply sim_lift; rsims|]. apply sim_bind; [apply find_self|]. intros [a|]; [apply IHo|apply sim_lift; rsims].
    + apply sim_lift; apply rsim_int_literal.
    + destruct (kind_of (snd g)); try (apply sim_lift; solve [rsims]). destruct (x_parse_float X _); [|apply sim_lift; rsims]. apply sim_bind; [apply sim_lift; rsims|]. intro; apply sim_ret.
    + apply sim_lift; apply rsim_assign_string.
    + destruct (kind_of (snd g)); try (apply sim_lift; solve [rsims]). apply sim_bind; [apply sim_lift; rsims|]. intro; apply sim_ret.
    + destruct (i_enum i); [|apply sim_lift; rsims]. apply sim_bind; [apply sim_lift; rsims|]. intro; apply sim_lift; rsims.
    + destruct (kind_of (snd g)); try (apply sim_lift; solve [rsims]). enough (E : forall n vs acc, sim (b_elems X S rawvars decls fuel g i ok n vs acc) (b_elems X S rawvars decls fuel g i ok n vs acc)) by apply E.
      induction n as [|n IHn]; intros vs acc; (destruct vs as [|x r]; [apply sim_bind; [apply sim_lift; rsims|intro; apply sim_ret]|]); [apply sim_nofuel|].
      cbn [b_elems]. apply sim_bind; [apply sim_lift; rsims|]. intro ei. apply sim_bind; [apply IHi|]. intros [[v b] crit]. destruct crit; [apply sim_ret|]. match goal with |- sim (if ?c then _ else _) _ => destruct c end; [apply sim_nope|apply IHn].
    + destruct (kind_of (snd g)); try (apply sim_lift; solve [rsims]). apply sim_bind; [apply sim_lift; rsims|]. intro c. apply sim_bind; [apply walk_self|intros [[[? ?] ?] cut]; destruct cut; [apply sim_nope|apply sim_ret]].
      intros [v0 b0] k v. unfold on_member. destruct (slookup c k); [|apply sim_bind; [apply sim_lift; rsims|intro; apply sim_ret]]. apply sim_bind; [apply sim_lift; rsims|]. intro f. apply sim_bind; [apply IHi|]. intros [[? ?] ?]; apply sim_ret.
  - intros g i n a. rewrite (oparg_step X S rawvars decls fuel). apply sim_bind; [apply marks_self|]. intros [[ri|] tn]; [|apply sim_ret].
    apply sim_bind; [apply sim_lift; rsims|]. intros [m|]; [apply sim_lift; rsims|]. apply sim_bind; [apply sim_lift; apply ext_self|]. intros [[[v b] fd] crit]. destruct crit; [apply sim_ret|]. destruct fd; [apply sim_ret|]. destruct (oa_default a); [apply IHi|apply sim_lift; rsims].
Qed.
Lemma args_self : forall fuel ins infs args, sim (b_args X S rawvars decls fuel ins infs args) (b_args X S rawvars decls fuel ins infs args).
Proof.
  intros fuel ins infs args. rewrite !args_step. destruct args as [ms|]; [|apply sim_ret]. apply walk_self. intros a k v. unfold on_arg. destruct (slookup infs k) as [[n i]|]; [|apply sim_bind; [apply sim_lift; rsims|intro; apply sim_ret]].
  apply sim_bind; [apply sim_lift; rsims|]. intro x. apply sim_bind; [apply sim_lift; rsims|]. intro f. apply sim_bind; [apply input_self|]. intros [[? ?] ?]; apply sim_ret.
Qed.
Lemma dirs_self : forall fuel loc l, sim (b_directives X S rawvars decls fuel loc l) (b_directives X S rawvars decls fuel loc l).
Proof.
  intros fuel loc l. induction l as [|x r IH]; [apply sim_ret|]. cbn [b_directives]. apply sim_bind.
  - unfold b_directive. destruct (nlookup (s_dirs S) loc); [|apply sim_bind; [apply sim_lift; rsims|intro; apply sim_ret]]. destruct (find _ _) as [d|]; [|apply sim_bind; [apply sim_lift; rsims|intro; apply sim_ret]].
    apply sim_bind; [apply args_self|]. intros [[args crit] cut]. destruct crit; [apply sim_ret|]. destruct cut; [apply sim_nope|]. destruct (dd_fn d).
    1-2: repeat match goal with |- sim match ?x with _ => _ end _ => destruct x end; first [apply sim_ret|apply sim_panic].
    apply sim_bind; [apply sim_lift; rsims|]. intro w. apply sim_bind; [apply sim_lift; rsims|]. intro p. apply sim_bind; [apply sim_lift; rsims|]. intros [w' b]. apply sim_bind; [apply sim_lift; rsims|]. intro. apply sim_ret.
  - intros [sk crit]. destruct (crit || sk); [apply sim_ret|apply IH].
Qed.
End Op.
End Self.

(** ** Directives that only decide *)
Section Quiet.
Context {W : Type}.
Variable X : externals W.
Variable S : schema.
Variable rawvars : bytes.
Variable decls : option (list oparg).
Notation bm := (@bm W).
Notation near := (near X rawvars).
Notation vars_known := (vars_known X rawvars).
Lemma near_refl : forall s, vars_known s -> near s s.
Proof. intros s V. unfold RewriteErr.near. auto 8. Qed.
Lemma near_sym : forall s t, near s t -> near t s.
Proof. intros s t (E & P & Wo & V & V' & C). unfold RewriteErr.near. intuition congruence. Qed.
Lemma near_trans : forall s t u, near s t -> near t u -> near s u.
Proof. intros s t u (E & P & Wo & V & V' & C) (E2 & P2 & Wo2 & V2 & V2' & C2). unfold RewriteErr.near. intuition congruence. Qed.
(** [m] gives [a] and changes nothing that can be seen *)
Definition quiet {A} (m : bm A) (a : A) : Prop := forall s, vars_known s -> m s = BNoFuel \/ exists t, m s = BOk a t /\ near s t.
Lemma quiet_ret : forall A (a : A), quiet (bret a) a.
Proof. intros A a s V. right. exists s. split; [reflexivity|now apply near_refl]. Qed.
Lemma quiet_nofuel : forall A (a : A), quiet bnofuel a.
Proof. intros A a s V. now left. Qed.
Lemma quiet_bind : forall A B (m : bm A) (k : A -> bm B) a b, quiet m a -> quiet (k a) b -> quiet (bbind m k) b.
Proof.
  intros A B m k a b M K s V. unfold bbind. destruct (M s V) as [E|(t & E & N)]; rewrite E; [now left|]. destruct (K t) as [F|(u & F & N')]; [apply N|now left|].
  right. exists u. split; [exact F|eapply near_trans; eauto].
Qed.
Notation b_input := (b_input X S rawvars decls).
Notation bool_value := (bool_value X rawvars decls).
Lemma input_le : forall n m g i v ok, (n <= m)%nat -> le (b_input n g i v ok) (b_input m g i v ok).
Proof. intros n m g i v ok L. induction L; [apply le_refl|]. eapply le_trans; [exact IHL|]. apply input_mono. Qed.
Lemma jvar_fine : forall n j s, jvar X rawvars n j -> vars_known s -> vars_fine X rawvars s.
Proof.
  intros n j s J V. destruct V as [V|[R V]]; [now left|]. destruct J as [n R'|n m R' P]; [contradiction|]. right. exists m. rewrite P in V. auto.
Qed.
Lemma fine_known : forall s, vars_fine X rawvars s -> vars_known s.
Proof. intros s [V|(m & R & P & V)]; [now left|]. right. split; auto. rewrite V, P. reflexivity. Qed.
Lemma bool_quiet : forall fuel i old v b, bool_value v b -> if_input i -> quiet (b_input fuel (false, GBool old) i v true) (GBool b, true, false).
Proof.
  intros fuel i old v b Hv Hi s V.
  assert (C : (exists b', v = VBool b' /\ b' = b) \/ exists n j, jvar X rawvars n j) by (destruct Hv; eauto). destruct C as [(b' & -> & ->)|(n & j & J)].
  - destruct fuel as [|fuel]; [now left|]. right. exists s. split; [|now apply near_refl]. rewrite input_step, bptr_no by apply Hi. reflexivity.
  - assert (Vf := jvar_fine _ _ _ J V). pose proof (proj2 (bool_iff X S rawvars decls v b i old Hv Hi (r_world s) (r_world s) (GBool b) true) (conj eq_refl (conj eq_refl eq_refl))) as L.
    destruct (proj1 (lit_fwd X S rawvars decls) _ _ _ _ _ _ _ _ L) as (k & K). destruct (K (Nat.max k fuel) (Nat.le_max_l _ _) (r_path s) s Vf eq_refl eq_refl) as (t & E & (P & Er & Vt) & Wo).
    destruct (input_le fuel (Nat.max k fuel) (false, GBool old) i v true (Nat.le_max_r _ _) s) as [F|F]; [now left|]. right. exists t. split; [congruence|].
    refine (conj Er (conj P (conj Wo (conj V (conj (fine_known _ Vt) _))))). destruct J as [n R|n m R Pm]; [left|right; eauto].
    destruct Vf as [->|(m & R' & _)]; [|contradiction]. destruct Vt as [->|(m & R' & _)]; [reflexivity|contradiction].
Qed.
Lemma args_quiet : forall fuel i old v b, bool_value v b -> if_input i ->
  quiet (b_args X S rawvars decls fuel [Some (GStruct [(true, GBool old)])] [(bs "if", (O, i))] (Some [(bs "if", v)])) ([GStruct [(true, GBool b)]], false, None).
Proof.
  intros fuel i old v b Hv Hi. rewrite args_step. destruct fuel as [|fuel]; [apply quiet_nofuel|]. cbn [b_walk zero_args map].
  eapply (quiet_bind _ _ _ _ ([GStruct [(true, GBool b)]], false)).
  - unfold on_arg. change (slookup [(bs "if", (0%nat, i))] (bs "if")) with (Some (0%nat, i)). cbv iota. eapply (quiet_bind _ _ _ _ (GStruct [(true, GBool old)])).
    { intros s V. right. exists s. split; [reflexivity|now apply near_refl]. }
    replace (i_field i) with O by (symmetry; apply Hi). eapply (quiet_bind _ _ _ _ (false, GBool old)).
    { intros s V. right. exists s. split; [reflexivity|now apply near_refl]. }
    eapply quiet_bind; [apply bool_quiet; eauto|]. cbv beta iota. apply quiet_ret.
  - cbv beta iota. replace (is_list v) with false by (destruct Hv; reflexivity). destruct fuel; [apply quiet_nofuel|apply quiet_ret].
Qed.
Lemma says_quiet : forall fuel loc x b, standard S -> loc < 3 -> says X rawvars decls x b -> quiet (b_directive X S rawvars decls fuel loc x) (b, false).
Proof.
  intros fuel loc x b St L Sy. destruct (St loc L) as (ds & E & (i1 & o1 & F1 & I1) & (i2 & o2 & F2 & I2)). unfold b_directive. rewrite E.
  destruct Sy as [v b Hv|v b Hv]; cbn [d_name d_args]; [rewrite F1|rewrite F2]; cbn [dd_ins dd_infields dd_fn]; (eapply quiet_bind; [apply args_quiet; eauto|]); cbv beta iota; apply quiet_ret.
Qed.
Lemma verdict_quiet : forall fuel loc l b, standard S -> loc < 3 -> verdict X rawvars decls l b -> quiet (b_directives X S rawvars decls fuel loc l) (b, false).
Proof.
  intros fuel loc l b St L V. induction V as [|x r Sx|x r b Sx V IH]; cbn [b_directives]; [apply quiet_ret| |]; (eapply quiet_bind; [apply says_quiet; eauto|]); cbv beta iota; cbn [orb]; [apply quiet_ret|exact IH].
Qed.
End Quiet.

(** ** Selections *)
Section Run.
Context {W : Type}.
Variable X : externals W.
Variable S : schema.
Variable rawvars : bytes.
Variable decls : option (list oparg).
Variables fdefs fdefs' : list (bytes * bytes * list sel).
Variables dirs frags : bool.
Notation rw := (rw X rawvars decls fdefs dirs frags).
Notation verdict := (verdict X rawvars decls).
Notation sim := (sim X rawvars).
Notation near := (near X rawvars).
Notation quiet := (quiet X rawvars).
Hypothesis St : standard S.
Hypothesis frags_rw : Forall2 (fun f f' => fst f' = fst f /\ rw (snd f) (snd f')) fdefs fdefs'.
(** no name of a fragment is the beginning of another one *)
Hypothesis apart : frags = true -> forall f g, In f fdefs -> In g fdefs -> is_prefix (fst (fst f)) (fst (fst g)) = true -> fst (fst g) = fst (fst f).
Lemma sim_quiet_l : forall A B (m : bm A) a (k : A -> bm B) m', quiet m a -> sim (k a) m' -> sim (bbind m k) m'.
Proof.
  intros A B m a k m' Q H s s' N. unfold bbind. destruct (Q s) as [->|(t & -> & Nt)]; [apply N|exact Logic.I|]. apply H. eapply near_trans; [apply near_sym; exact Nt|exact N].
Qed.
Lemma dirs_sim : forall B fuel loc ds ds' (k k' : bool * bool -> bm B), loc < 3 -> (ds' = ds \/ dirs = true /\ verdict ds false /\ ds' = []) -> (forall a, sim (k a) (k' a)) ->
  sim (bbind (b_directives X S rawvars decls fuel loc ds) k) (bbind (b_directives X S rawvars decls fuel loc ds') k').
Proof.
  intros B fuel loc ds ds' k k' L [->|(_ & V & ->)] K; [apply sim_bind; [apply dirs_self|exact K]|].
  eapply sim_quiet_l; [apply verdict_quiet; eauto|]. cbn [b_directives]. intros s s' N. unfold bbind, bret. apply K. exact N.
Qed.
Lemma frag_pair : forall n, match b_fragment fdefs n, b_fragment fdefs' n with
  | Some (m, t, ss), Some (m', t', ss') => m' = m /\ t' = t /\ rw ss ss'
  | None, None => True
  | _, _ => False
  end.
Proof.
  intro n. unfold b_fragment. generalize frags_rw. generalize rw. intros R' F. clear - F. induction F as [|[[m t] ss] [[m' t'] ss'] l l' [E R] H IH]; [exact Logic.I|]. cbn [fst snd] in *. injection E; intros; subst. cbn [find fst]. destruct (is_prefix n m); [auto|exact IH].
Qed.
Lemma prefix_refl : forall n, is_prefix n n = true. Proof. induction n as [|c n IH]; [reflexivity|]. cbn. now rewrite N.eqb_refl, IH. Qed.
Lemma beqb_sym_true : forall a b, beqb a b = true <-> a = b. Proof. intros. apply beqb_eq. Qed.
Lemma frag_exact : forall n t ss, frags = true -> fragment fdefs n = Some (t, ss) -> b_fragment fdefs n = Some (n, t, ss).
Proof.
  intros n t ss Fr H. specialize (apart Fr). unfold fragment, b_fragment in *.
  assert (I : exists g, In g fdefs /\ fst (fst g) = n). { destruct (find (fun f => beqb (fst (fst f)) n) fdefs) as [[[m t0] ss0]|] eqn:F; [|discriminate]. apply find_some in F. destruct F as [I F]. apply beqb_eq in F. eauto. }
  destruct I as (g & Ig & En).
  assert (E : find (fun f => is_prefix n (fst (fst f))) fdefs = find (fun f => beqb (fst (fst f)) n) fdefs).
  { assert (P : forall f, In f fdefs -> is_prefix n (fst (fst f)) = beqb (fst (fst f)) n).
    { intros f If. destruct (beqb (fst (fst f)) n) eqn:B; [apply beqb_eq in B; rewrite B; apply prefix_refl|]. destruct (is_prefix n (fst (fst f))) eqn:P; [|reflexivity].
      rewrite <- En in P. specialize (apart g f Ig If P). rewrite apart, En in B. rewrite (proj2 (beqb_eq n n) eq_refl) in B. discriminate. }
    clear - P. induction fdefs as [|f l IH]; [reflexivity|]. cbn [find]. rewrite (P f) by now left. destruct (beqb _ _); [reflexivity|]. apply IH. intros g I. apply P. now right. }
  rewrite E. destruct (find (fun f => beqb (fst (fst f)) n) fdefs) as [[[m t0] ss0]|] eqn:F; [|discriminate]. cbn in H. injection H; intros; subst. apply find_some in F. destruct F as [_ F]. apply beqb_eq in F. cbn in F. subst m. reflexivity.
Qed.
Inductive rwc : cursor -> cursor -> Prop :=
| rwc_args : forall args subs subs', rw subs subs' -> (subs' = [] -> subs = []) -> rwc (CArgs args subs) (CArgs args subs')
| rwc_sels : forall subs subs', rw subs subs' -> (subs' = [] -> subs = []) -> rwc (CSels subs) (CSels subs')
| rwc_lost : rwc CLost CLost.
Lemma rw_empty : forall ss', rw [] ss' -> ss' = []. Proof. intros ss' H. inversion H. reflexivity. Qed.
Lemma rwc_has : forall c c', rwc c c' -> has_sub c' = has_sub c.
Proof. intros c c' [args subs subs' R E|subs subs' R E|]; try reflexivity. destruct subs as [|x r]; [now rewrite (rw_empty _ R)|]. destruct subs' as [|y r']; [discriminate E; reflexivity|reflexivity]. Qed.
Lemma rwc_bad : forall o c c', rwc c c' -> bad_args o c' = bad_args o c. Proof. intros o c c' []; reflexivity. Qed.
Lemma rwc_cur : forall args subs subs', rw subs subs' -> (subs' = [] -> subs = []) -> rwc (cur_of args subs) (cur_of args subs').
Proof. intros [a|] subs subs' R E; now constructor. Qed.
Notation b_sels := (b_sels X S rawvars decls fdefs).
Notation b_inline := (b_inline X S rawvars decls fdefs).
Notation b_spread := (b_spread X S rawvars decls fdefs).
Notation b_field := (b_field X S rawvars decls fdefs).
Notation b_value := (b_value X S rawvars decls fdefs).
Notation b_sels' := (Interp.b_sels X S rawvars decls fdefs').
Notation b_inline' := (Interp.b_inline X S rawvars decls fdefs').
Notation b_spread' := (Interp.b_spread X S rawvars decls fdefs').
Notation b_field' := (Interp.b_field X S rawvars decls fdefs').
Notation b_value' := (Interp.b_value X S rawvars decls fdefs').
Notation dsame ds ds' := (ds' = ds \/ dirs = true /\ verdict ds false /\ ds' = []).
Ltac sm := repeat match goal with
  | |- sim (bret _) _ => apply sim_ret | |- sim bpanic _ => apply sim_panic | |- sim bnope _ => apply sim_nope | |- sim bnofuel _ => apply sim_nofuel
  | |- sim (lift _) _ => apply sim_lift; solve [rsims] | |- sim (bbind _ _) _ => apply sim_bind | |- forall _ : bool, _ => intro | |- forall _ : unit, _ => intro
  end.
Lemma enum_self : forall k v es, sim (@enum_tree W k v es) (enum_tree k v es).
Proof. intros k v es. induction es as [|[n e] r IH]; cbn [enum_tree]; sm. destruct a; [sm|exact IH]. Qed.
Lemma tree_self : forall v kd, sim (@value_tree W v kd) (value_tree v kd).
Proof. intros v kd. unfold value_tree. repeat match goal with |- sim match ?x with _ => _ end _ => destruct x end; sm. Qed.
Lemma run_err_sim : forall fuel,
  (forall o d g k ss ss', rw ss ss' -> sim (b_sels fuel o d g k ss) (b_sels' fuel o d g k ss')) /\
  (forall o d g k tn ds ds' ss ss', dsame ds ds' -> rw ss ss' -> sim (b_inline fuel o d g k tn ds ss) (b_inline' fuel o d g k tn ds' ss')) /\
  (forall o d g k n ds ds', dsame ds ds' -> sim (b_spread fuel o d g k n ds) (b_spread' fuel o d g k n ds')) /\
  (forall o d g k al n ds ds' args subs subs', dsame ds ds' -> rw subs subs' -> (subs' = [] -> subs = []) -> sim (b_field fuel o d g k al n ds args subs) (b_field' fuel o d g k al n ds' args subs')) /\
  (forall o d g k cur cur', rwc cur cur' -> sim (b_value fuel o d g k cur) (b_value' fuel o d g k cur')) /\
  (forall o d g k n t b b', frags = true -> fragment fdefs n = Some (t, b) -> rw b b' -> sim (b_spread fuel o d g k n []) (b_inline' fuel o d g k t [] b')).
Proof.
  induction fuel as [|fuel (IHs & IHi & IHp & IHf & IHv & IHu)]; [split; [|split; [|split; [|split; [|split]]]]; intros; apply sim_nofuel|].
  split; [|split; [|split; [|split; [|split]]]].
  - intros o d g k ss ss' R. inversion R as [|a n ds ds' args subs subs' r r' D Rs E Rr|n ds ds' r r' D Rr|n ds ds' subs subs' r r' D Rs Rr|x r r' Dt V Rr|n t b b' r r' Fr Fg Rb Rr]; subst.
    + rewrite !sels_step. sm.
    + rewrite !sels_step. apply sim_bind; [apply IHf; auto|]. intros [ms c]. destruct c; [sm|]. apply sim_bind; [now apply IHs|]. intros [ms' c']. sm.
    + rewrite !sels_step. apply sim_bind; [apply IHp; auto|]. intros [ms c]. destruct c; [sm|]. apply sim_bind; [now apply IHs|]. intros [ms' c']. sm.
    + rewrite !sels_step. apply sim_bind; [apply IHi; auto|]. intros [ms c]. destruct c; [sm|]. apply sim_bind; [now apply IHs|]. intros [ms' c']. sm.
    + rewrite sels_step.
      assert (Q : quiet match x with
            | SField alias name ds args subs => b_field fuel o d g k alias name ds args subs
            | SSpread name ds => b_spread fuel o d g k name ds
            | SInline tname ds subs => b_inline fuel o d g k tname ds subs
            end ([], false)).
      { destruct fuel as [|fuel']; [destruct x; apply quiet_nofuel|]. destruct x as [al n ds args subs|n ds|n ds subs]; cbn [dirs_of] in V.
        - rewrite field_step. intros s Vk. rewrite get_path_at, put_path_at. unfold bbind at 1.
          destruct (verdict_quiet X S rawvars decls fuel' 0 ds true St ltac:(lia) V (set_path (r_path s ++ [44; 34] ++ response_key al n ++ [34]) s)) as [E|(t & E & N)].
          { unfold vars_known in *. exact Vk. }
          { left. cbn [app] in *. now rewrite E. }
          cbn [app] in *. right. eexists. split; [unfold bbind at 1; rewrite E; reflexivity|]. destruct N as (Er & P & Wo & V1 & V2 & C). unfold RewriteErr.near, vars_known in *. cbn in *. auto 8.
        - rewrite spread_step. eapply quiet_bind; [apply verdict_quiet; eauto; lia|]. cbv beta iota. cbn [orb]. apply quiet_ret.
        - rewrite inline_step. eapply quiet_bind; [apply verdict_quiet; eauto; lia|]. cbv beta iota. cbn [orb]. apply quiet_ret. }
      eapply sim_quiet_l; [exact Q|]. cbv beta iota. cbn [app]. eapply sim_le; [|apply run_mono].
      intros s s' N. pose proof (IHs o d g k r ss' Rr s s' N) as H. unfold bbind. destruct (b_sels fuel o d g k r s) as [[ms c] t| | |]; exact H.
    + rewrite !sels_step. apply sim_bind; [eapply IHu; eauto|]. intros [ms c]. destruct c; [sm|]. apply sim_bind; [now apply IHs|]. intros [ms' c']. sm.
  - intros o d g k tn ds ds' ss ss' D R. rewrite !inline_step. apply dirs_sim; [lia|auto|]. intros [sk c]. destruct (c || sk); [sm|]. destruct (negb _); [sm|now apply IHs].
  - intros o d g k n ds ds' D. rewrite !spread_step. apply dirs_sim; [lia|auto|]. intros [sk c]. destruct (c || sk); [sm|]. pose proof (frag_pair n) as P.
    destruct (b_fragment fdefs n) as [[[m t] ss]|], (b_fragment fdefs' n) as [[[m' t'] ss']|]; try contradiction; [|sm]. destruct P as (-> & -> & R).
    destruct (skipn _ _); [|destruct (negb _); sm]. destruct (negb _); [sm|now apply IHs].
  - intros o d g k al n ds ds' args subs subs' D R E. rewrite !field_step. apply sim_bind; [sm|]. intro p. apply sim_bind; [sm|]. intros _. apply dirs_sim; [lia|auto|]. intros [sk c]. destruct (c || sk); [sm|].
    apply sim_bind; [|intros [t c']; sm]. unfold at_field. destruct (nlookup _ _) as [[fo custom idx fn hd]|].
    + apply sim_bind; [|intro v; destruct (k =? 255); [sm|apply IHv; now apply rwc_cur]]. repeat match goal with |- sim match ?x with _ => _ end _ => destruct x end; sm.
    + rewrite (rwc_has _ _ (rwc_cur args subs subs' R E)). repeat match goal with |- sim (if ?x then _ else _) _ => destruct x end; sm.
  - intros o d g k cur cur' C. rewrite !value_step. rewrite (rwc_bad _ _ _ C). destruct (bad_args o cur); [sm|].
    assert (L : forall e ro k l n, sim (b_list X S rawvars decls fdefs fuel e d ro k cur n l) (b_list X S rawvars decls fdefs' fuel e d ro k cur' n l)).
    { intros e ro k0 l. induction l as [|v r IH]; intro n; cbn [b_list]; [sm|]. apply sim_bind; [sm|]. intro p. apply sim_bind; [sm|]. intros _. apply sim_bind; [now apply IHv|]. intros [t c]. apply sim_bind; [sm|]. intros _. apply sim_bind; [apply IH|]. intro; sm. }
    assert (Obj : forall t, sim (if (d + 1) mod 256 =? s_maxdepth S then bbind (lift (err (bs "reached max dept"))) (fun b => bret (TNull, b))
                  else match cur with
                    | CSels subs => bbind (b_sels fuel t ((d + 1) mod 256) g k subs) (fun '(ms, crit) => bret (TObj ms, crit))
                    | CLost => match fuel with O => bnofuel | SN _ => bbind (lift (err (bs "unsupported operation u"))) (fun b => bret (TObj [], b)) end
                    | CArgs _ _ => bpanic end)
               (if (d + 1) mod 256 =? s_maxdepth S then bbind (lift (err (bs "reached max dept"))) (fun b => bret (TNull, b))
                  else match cur' with
                    | CSels subs => bbind (b_sels' fuel t ((d + 1) mod 256) g k subs) (fun '(ms, crit) => bret (TObj ms, crit))
                    | CLost => match fuel with O => bnofuel | SN _ => bbind (lift (err (bs "unsupported operation u"))) (fun b => bret (TObj [], b)) end
                    | CArgs _ _ => bpanic end)).
    { intro t. destruct (_ =? _); [sm|]. destruct C; [sm| |destruct fuel; sm]. apply sim_bind; [now apply IHs|]. intros [ms c]. sm. }
    unfold v_body. rewrite (rwc_has _ _ C). destruct o as [|e|nm|nm fs|isid kd|e|[istype ins infs outnr errnr out]|i| |nm|nm fs is]; try (sm; fail).
    + destruct (snd g) as [| | | | |[l|]|l| | | | | | | | | |]; try (sm; fail); (destruct (k =? 255); [sm|]); (apply sim_bind; [apply L|intro; sm]).
    + destruct (negb _); [sm|]. destruct (slookup _ _) as [t|]; [apply Obj|sm].
    + destruct (negb _); [sm|]. apply Obj.
    + destruct (has_sub cur); [sm|]. apply sim_bind; [apply tree_self|intro; sm].
    + destruct (snd g) as [| | | | | | |[v|]| | | | | | | | |]; try (sm; fail). now apply IHv.
    + assert (Ea : match cur' with CArgs fs _ => Some fs | _ => None end = match cur with CArgs fs _ => Some fs | _ => None end) by (destruct C; reflexivity). rewrite Ea.
      destruct istype, (snd g); try (sm; fail); try (match goal with x : option N |- _ => destruct x end; [|sm; fail]);
      (apply sim_bind; [apply args_self|]; intros [[av c] cut]; destruct c; [sm|]; destruct (fst g); [sm|]).
      all: apply sim_bind; [apply sim_lift; rsims|intro w]; apply sim_bind; [apply sim_lift; rsims|intro p]; apply sim_bind; [apply sim_lift; rsims|intros [w' outs]].
      all: apply sim_bind; [apply sim_lift; rsims|intros _]; apply sim_bind; [destruct errnr; [|sm]; apply sim_bind; [apply sim_lift; rsims|]; intro a; destruct a as [| | | | | | | | | | | | | |[|]| |]; sm|intros _].
      all: destruct (x_ctxerr X w'); [sm|]; apply sim_bind; [apply sim_lift; rsims|]; intro v; apply IHv; destruct C; [|constructor; auto|constructor].
      all: destruct cut as [[|? ?]|]; constructor; auto; constructor.
    + apply sim_bind; [apply sim_lift; rsims|]. intro e. apply sim_bind; [apply enum_self|intro; sm].
    + destruct (fst g); [sm|]. destruct (snd g); sm.
    + destruct (negb _); [sm|]. destruct (slookup _ _) as [t|]; [|sm]. destruct (snd g) as [| | | | | | | | | | |[[[tn pkg] v]|]| | | | |]; try (sm; fail). destruct (k =? 255); [sm|]. destruct (find _ _) as [[? impl]|]; [now apply IHv|sm].
    + destruct (negb _); [sm|]. destruct (snd g) as [| | | | | | | | | | |[[[tn pkg] v]|]| | | | |]; try (sm; fail). destruct (k =? 255); [sm|]. destruct (find _ _) as [[? impl]|]; [now apply IHv|sm].
  - intros o d g k n t b b' Fr Fg R. rewrite spread_step, inline_step. cbn [b_directives]. apply sim_bind; [sm|]. intros [sk c]. destruct (c || sk); [sm|].
    rewrite (frag_exact n t b Fr Fg). rewrite skipn_all. destruct (negb _); [sm|now apply IHs].
Qed.
End Run.
