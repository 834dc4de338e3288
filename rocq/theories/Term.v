(** * Requests with fragments that do not use themselves come to an end (proofs) *)
From Coq Require Import String Arith NArith ZArith Bool List Lia Relations.
From Verif Require Import Base Json Ast ReqModel Schema ResModel Interp SpecLit SpecVal SpecArgs SpecRun Valid.
Import ListNotations.
Open Scope N_scope.
Notation SN := Datatypes.S.

(** what parse.go 482-503 registers as implementation of an interface is an object *)
Definition is_object (o : obj) : Prop := match o with OObj _ _ | OObjRef _ => True | _ => False end.
Definition objects_implement (S : schema) : Prop := forall n nm fs is a impl, slookup (s_ifaces S) n = Some (OIface nm fs is) -> In (a, impl) is -> is_object impl.

(** ** Programs that take a number of steps *)
Section T.
Context {W : Type}.
Notation st := (rst W).
Notation bm := (@bm W).
Notation rm := (@rm W).
(** with enough steps the result is not "out of steps", and always the same *)
Definition T {A} (F : nat -> bm A) (s : st) : Prop := exists r, r <> BNoFuel /\ exists n, forall m, (n <= m)%nat -> F m s = r.
Definition rT {A} (F : nat -> rm A) (s : st) : Prop := exists r, r <> RNoFuel /\ exists n, forall m, (n <= m)%nat -> F m s = r.
Definition nof {A} (m : rm A) : Prop := forall s, m s <> RNoFuel.
Lemma T_bind : forall A B (F : nat -> bm A) (G : nat -> A -> bm B) s, T F s -> (forall a s', T (fun n => G n a) s') -> T (fun n => bbind (F n) (G n)) s.
Proof.
  intros A B F G s (r & N & n & H) K. destruct r as [a s'| | |]; [|exists BPanic|congruence|exists BOut].
  - destruct (K a s') as (r' & N' & n' & H'). exists r'. split; auto. exists (n + n')%nat. intros m L. unfold bbind. rewrite H by lia. apply H'. lia.
  - split; [discriminate|]. exists n. intros m L. unfold bbind. now rewrite H.
  - split; [discriminate|]. exists n. intros m L. unfold bbind. now rewrite H.
Qed.
Lemma T_step : forall A (F H : nat -> bm A) s, (forall n, F (SN n) = H n) -> T H s -> T F s.
Proof. intros A F H s E (r & N & n & K). exists r. split; auto. exists (SN n). intros m L. destruct m as [|m]; [lia|]. rewrite E. apply K. lia. Qed.
Lemma T_comp : forall A (F : nat -> bm A) h s, (forall n, n <= h n)%nat -> T F s -> T (fun n => F (h n)) s.
Proof. intros A F h s Hh (r & N & n & K). exists r. split; auto. exists n. intros m L. apply K. specialize (Hh m). lia. Qed.
Lemma rT_ext : forall A (F H : nat -> rm A) s, (forall n, F n s = H n s) -> rT H s -> rT F s.
Proof. intros A F H s E (r & N & n & K). exists r. split; auto. exists n. intros m L. rewrite E. auto. Qed.
Lemma T_ext : forall A (F H : nat -> bm A) s, (forall n, F n s = H n s) -> T H s -> T F s.
Proof. intros A F H s E (r & N & n & K). exists r. split; auto. exists n. intros m L. rewrite E. auto. Qed.
Lemma T_ret : forall A (a : A) s, T (fun _ => bret a) s. Proof. intros. exists (BOk a s). split; [discriminate|]. exists O. reflexivity. Qed.
Lemma T_panic : forall A s, T (fun _ => @bpanic W A) s. Proof. intros. exists BPanic. split; [discriminate|]. exists O. reflexivity. Qed.
Lemma T_nope : forall A s, T (fun _ => @bnope W A) s. Proof. intros. exists BOut. split; [discriminate|]. exists O. reflexivity. Qed.
Lemma T_lift : forall A (F : nat -> rm A) s, rT F s -> T (fun n => lift (F n)) s.
Proof.
  intros A F s (r & N & n & H). destruct r as [a s'| |]; [exists (BOk a s')|exists BPanic|congruence]; (split; [discriminate|]); exists n; intros m L; unfold lift; now rewrite H.
Qed.
Lemma rT_nof : forall A (m : rm A) s, nof m -> rT (fun _ => m) s. Proof. intros A m s H. exists (m s). split; [apply H|]. exists O. reflexivity. Qed.
Lemma T_nof : forall A (m : rm A) s, nof m -> T (fun _ => lift m) s. Proof. intros. apply T_lift. now apply rT_nof. Qed.
Lemma rT_bind : forall A B (F : nat -> rm A) (G : nat -> A -> rm B) s, rT F s -> (forall a s', rT (fun n => G n a) s') -> rT (fun n => bind (F n) (G n)) s.
Proof.
  intros A B F G s (r & N & n & H) K. destruct r as [a s'| |]; [|exists RPanic|congruence].
  - destruct (K a s') as (r' & N' & n' & H'). exists r'. split; auto. exists (n + n')%nat. intros m L. unfold bind. rewrite H by lia. apply H'. lia.
  - split; [discriminate|]. exists n. intros m L. unfold bind. now rewrite H.
Qed.
Lemma rT_step : forall A (F H : nat -> rm A) s, (forall n, F (SN n) = H n) -> rT H s -> rT F s.
Proof. intros A F H s E (r & N & n & K). exists r. split; auto. exists (SN n). intros m L. destruct m as [|m]; [lia|]. rewrite E. apply K. lia. Qed.
Lemma nof_bind : forall A B (m : rm A) (f : A -> rm B), nof m -> (forall a, nof (f a)) -> nof (bind m f).
Proof. intros A B m f H K s. unfold bind. specialize (H s). destruct (m s) as [a s'| |]; [apply K|discriminate|congruence]. Qed.
Lemma nof_ret : forall A (a : A), nof (ret a). Proof. intros A a s. discriminate. Qed.
Lemma nof_panic : forall A, nof (@panic W A). Proof. intros A s. discriminate. Qed.
Lemma nof_err : forall m, nof (err m). Proof. intros m s. discriminate. Qed.
Lemma nof_opt : forall A (o : option A), nof (of_opt o). Proof. intros A [a|] s; discriminate. Qed.
End T.
Ltac nofs :=
  repeat match goal with
  | |- nof (ResModel.bind _ _) => apply nof_bind
  | |- nof (ret _) => apply nof_ret
  | |- nof panic => apply nof_panic
  | |- nof (err _) => apply nof_err
  | |- nof (of_opt _) => apply nof_opt
  | |- forall _, nof _ => intro
  | |- nof (let '(_, _) := ?a in _) => destruct a
  | |- nof (match ?x with _ => _ end) => destruct x
  | |- nof (ResModel.fail _ _) => unfold ResModel.fail
  | |- nof (okay _) => unfold okay
  | |- nof (set_any _ _) => unfold set_any
  | |- nof (set_int _ _) => unfold set_int
  | |- nof (set_uint _ _) => unfold set_uint
  | |- nof (set_bool _ _) => unfold set_bool
  | |- nof (set_string _ _) => unfold set_string
  | |- nof (set_float _ _ _) => unfold set_float
  | |- nof (field_of _ _) => unfold field_of
  | |- nof (content_of _ _) => unfold content_of
  | |- nof (assign_enum _ _ _) => unfold assign_enum
  | |- nof (assign_id _ _) => unfold assign_id
  | |- nof (assign_time _ _) => unfold assign_time
  | |- nof (type_mismatch _ _ _) => unfold type_mismatch
  | |- nof (same_enum_value _ _ _) => unfold same_enum_value
  | |- nof get_path => let s := fresh in intro s; discriminate
  | |- nof (put_path _) => let s := fresh in intro s; discriminate
  | |- nof get_world => let s := fresh in intro s; discriminate
  | |- nof (put_world _) => let s := fresh in intro s; discriminate
  | |- nof get_vars => let s := fresh in intro s; discriminate
  | |- nof (put_vars _) => let s := fresh in intro s; discriminate
  end.
Section Prims.
Context {W : Type}.
Variable X : externals W.
Variable S : schema.
Variable rawvars : bytes.
Lemma nof_assign_file : forall g s, nof (assign_file X g s).
Proof. intros g s st. unfold assign_file. destruct (x_formfile X) as [get|]; [|discriminate]. destruct (get (r_world st) s) as [w [f|e]]; [|discriminate]. unfold set_any, bind, okay, panic, ret. destruct (fst g); discriminate. Qed.
Lemma nof_assign_string : forall g i s, nof (assign_string X S g i s).
Proof. intros. unfold assign_string. nofs; apply nof_assign_file. Qed.
Lemma nof_int_literal : forall g l, nof (int_literal X g l).
Proof. intros. unfold int_literal. nofs. Qed.
Lemma nof_number : forall g raw, nof (number_part X g raw).
Proof. intros. unfold number_part, json_number. nofs. Qed.

(** ** Variables *)
Fixpoint fj_size (j : fj) : nat :=
  match j with
  | FArray l => SN (fold_right (fun x n => fj_size x + n)%nat O l)
  | FObject m => SN (fold_right (fun x n => fj_size (snd x) + n)%nat O m)
  | _ => 1%nat
  end.
Lemma fj_size_pos : forall j, (1 <= fj_size j)%nat. Proof. destruct j; cbn [fj_size]; lia. Qed.
Lemma elem_ind : forall P : input -> Prop, (forall i, (forall e, i_elem i = Some e -> P e) -> P i) -> forall i, P i.
Proof.
  intros P H. fix IH 1. intros i. apply H. intros e. destruct i as [a b c d e1 f [e2|] g h j k]; cbn [i_elem]; intro E; [|discriminate]. injection E. intros <-. apply IH.
Qed.
Lemma json_T : forall n j i g s, (fj_size j <= n)%nat -> rT (fun f => bind_json X S f g i j) s.
Proof.
  induction n as [|n IHn]; intros j i g s L; [pose proof (fj_size_pos j); lia|]. revert g s. induction i as [i IHi] using elem_ind. intros g s.
  eapply rT_step; [intro f; apply json_step|].
  assert (B : rT (fun f => j_body X S f g i j) s).
  { unfold j_body. destruct (special_b i); [apply rT_nof; destruct j; nofs; apply nof_assign_file|]. destruct j as [| | |raw|str|l|m]; try (apply rT_nof; solve [nofs]).
    - apply rT_nof. apply nof_number.
    - apply rT_nof. apply nof_assign_string.
    - destruct (kind_of (snd g)); try (apply rT_nof; solve [nofs]). assert (Ls : forall x, In x l -> (fj_size x <= n)%nat).
      { intros x I. enough (fj_size x <= fold_right (fun x n => fj_size x + n) O l)%nat by (cbn [fj_size] in L; lia). clear - I. induction l as [|y l IH]; [contradiction|]. cbn. destruct I as [->|I]; [lia|]. apply IH in I. lia. }
      clear L IHi. revert s. generalize (@nil gval). induction l as [|x l IHl]; intros acc s; [apply rT_nof; cbn [j_elems]; nofs|]. cbn [j_elems].
      apply rT_bind; [apply rT_nof; nofs|]. intros ei s1. apply rT_bind; [apply IHn; apply Ls; now left|]. intros [[ev b] crit] s2. destruct crit; [apply rT_nof; nofs|].
      apply IHl. intros y Iy. apply Ls. now right.
    - destruct (kind_of (snd g)); try (apply rT_nof; solve [nofs]). assert (Ls : forall k x, In (k, x) m -> (fj_size x <= n)%nat).
      { intros k x I. enough (fj_size x <= fold_right (fun x n => fj_size (snd x) + n) O m)%nat by (cbn [fj_size] in L; lia). clear - I. induction m as [|y l IH]; [contradiction|]. cbn. destruct I as [->|I]; [cbn; lia|]. apply IH in I. lia. }
      apply rT_bind; [apply rT_nof; nofs|]. intros c s1. clear L IHi. revert s1. generalize (snd g). induction m as [|[k x] l IHl]; intros acc s1; [apply rT_nof; cbn [j_members]; nofs|]. cbn [j_members].
      destruct (slookup c k); [|apply rT_nof; nofs]. apply rT_bind; [apply rT_nof; nofs|]. intros f s2. apply rT_bind; [eapply IHn; eapply Ls; left; reflexivity|]. intros [[fv b] crit] s3. cbv zeta. destruct crit; [apply rT_nof; nofs|].
      apply IHl. intros k' y Iy. eapply Ls. right. exact Iy. }
  unfold through_ptr. destruct (i_kind i); try exact B. destruct (i_isfile i); [exact B|].
  destruct (i_elem i) as [e|] eqn:Ee; [|apply (rT_ext _ _ (fun _ => panic)); [reflexivity|apply rT_nof; nofs]].
  eapply rT_ext with (H := fun f => bind (bind_json X S f (false, i_zero e) e j) _); [intro f; reflexivity|].
  apply rT_bind; [now apply IHi|]. intros [[v b] crit] s1. apply rT_nof. nofs.
Qed.
Lemma ext_T : forall g i n s, rT (fun f => bind_external X S rawvars f g i n) s.
Proof.
  intros g i n s. unfold bind_external. apply rT_bind; [apply rT_nof; nofs|]. intros vars s1.
  assert (F : forall v s, rT (fun f => match var_get v n with None => ret (snd g, false, false, false) | Some j => bind (bind_json X S f g i j) (fun '(v, set_, crit) => ret (v, set_, true, crit)) end) s).
  { intros v s'. destruct (var_get v n); [|apply rT_nof; nofs]. apply rT_bind; [eapply json_T; apply Nat.le_refl|]. intros [[? ?] ?] s2. apply rT_nof; nofs. }
  destruct vars as [v|]; [apply F|]. destruct rawvars; [apply rT_nof; nofs|]. destruct (x_parse X _) as [v|e]; [|apply rT_nof; nofs]. apply rT_bind; [apply rT_nof; nofs|]. intros [] s2. destruct v; try (apply rT_nof; solve [nofs]). apply F.
Qed.

(** ** Literals *)
Section Op.
Variable decls : option (list oparg).
Variable fdefs : list (bytes * bytes * list sel).
Notation b_input := (b_input X S rawvars decls).
Notation b_oparg := (b_oparg X S rawvars decls).
Lemma find_T : forall n s, T (fun f => @b_find_arg W decls f n) s.
Proof.
  intros n s. unfold b_find_arg. destruct decls as [l|]; [|apply T_ret]. induction l as [|a r IH]; (eapply T_step; [intro f; reflexivity|]); cbn [b_find]; [apply T_ret|].
  destruct (beqb (oa_name a) n); [apply T_ret|apply IH].
Qed.
Lemma marks_T : forall t i n s, T (fun f => @b_marks W f i t n) s.
Proof.
  induction t as [m nn|t IH nn]; intros i n s; [apply (T_ext _ _ (fun _ => bret (Some i, m))); [intros []; reflexivity|apply T_ret]|].
  eapply T_step; [intro f; reflexivity|]. cbn [b_marks]. destruct (i_kind i); try (apply T_bind; [apply T_nof; nofs|intros; apply T_ret]).
  apply T_bind; [apply T_nof; nofs|]. intros e s1. apply IH.
Qed.
Lemma walk_T : forall A (f : nat -> A -> bytes -> Ast.value -> @bm W (A * bool)) ms, (forall k v, In (k, v) ms -> forall a s, T (fun n => f n a k v) s) ->
  forall a s, T (fun n => b_walk n (f n) ms a) s.
Proof.
  intros A f ms H. enough (E : forall h : nat -> nat, (forall n, (n <= h n)%nat) -> forall a s, T (fun n => b_walk n (f (h n)) ms a) s) by (apply (E (fun n => n)); auto).
  induction ms as [|[k v] r IH]; intros h Hh a s; (eapply T_step; [intro n; reflexivity|]); cbn [b_walk]; [apply T_ret|].
  assert (Hh' : forall n, (n <= h (SN n))%nat) by (intro n; specialize (Hh (SN n)); lia).
  apply T_bind; [apply (T_comp _ (fun n => f n a k v) (fun n => h (SN n))); [exact Hh'|apply H; now left]|].
  intros [a' crit] s1. destruct crit; [apply T_ret|]. destruct (is_list v); [eapply T_step; [intro n; reflexivity|apply T_ret]|].
  apply (IH (fun k v I => H k v (or_intror I)) (fun n => h (SN n)) Hh').
Qed.
Fixpoint v_size (v : Ast.value) : nat :=
  match v with
  | VList l => SN (fold_right (fun x n => v_size x + n)%nat O l)
  | VObj m => SN (fold_right (fun x n => v_size (snd x) + n)%nat O m)
  | _ => 1%nat
  end.
Lemma v_size_pos : forall j, (1 <= v_size j)%nat. Proof. destruct j; cbn [v_size]; lia. Qed.
Lemma input_T : forall ok, (ok = true -> forall g i n a s, T (fun f => b_oparg f g i n a) s) -> forall n v i g s, (v_size v <= n)%nat -> T (fun f => b_input f g i v ok) s.
Proof.
  intros ok Hok. induction n as [|n IHn]; intros v i g s L; [pose proof (v_size_pos v); lia|]. revert g s. induction i as [i IHi] using elem_ind. intros g s.
  eapply T_step; [intro f; apply input_step|].
  assert (B : T (fun f => b_body X S rawvars decls f g i v ok) s).
  { unfold b_body. destruct v as [nm|l|l|str|b| |nm|vs|ms]; try (apply T_nof; solve [nofs]).
    - destruct ok; cbn [negb]; [|apply T_nof; nofs]. apply T_bind; [apply find_T|]. intros [a|] s1; [now apply Hok|apply T_nof; nofs].
    - apply T_nof. apply nof_int_literal.
    - destruct (kind_of (snd g)); try (apply T_nof; solve [nofs]). destruct (x_parse_float X l); [|apply T_nof; nofs]. apply T_bind; [apply T_nof; nofs|]. intros; apply T_ret.
    - apply T_nof. apply nof_assign_string.
    - destruct (kind_of (snd g)); try (apply T_nof; solve [nofs]). apply T_bind; [apply T_nof; nofs|]. intros; apply T_ret.
    - apply T_ret.
    - destruct (i_enum i); [|apply T_nof; nofs]. apply T_bind; [apply T_nof; nofs|]. intros; apply T_nof; nofs.
    - destruct (kind_of (snd g)); try (apply T_nof; solve [nofs]). assert (Ls : forall x, In x vs -> (v_size x <= n)%nat).
      { intros x I. enough (v_size x <= fold_right (fun x n => v_size x + n) O vs)%nat by (cbn [v_size] in L; lia). clear - I. induction vs as [|y l IH]; [contradiction|]. cbn. destruct I as [->|I]; [lia|]. apply IH in I. lia. }
      clear L IHi. enough (E : forall h : nat -> nat, (forall n, (n <= h n)%nat) -> forall acc s, T (fun f => b_elems X S rawvars decls (h f) g i ok f vs acc) s) by (apply (E (fun n => n)); auto).
      induction vs as [|x l IHl]; intros h Hh acc s1; [apply (T_ext _ _ (fun _ => bbind (lift (set_any g (GSlice (Some acc)))) (fun v => bret (v, true, false)))); [intros []; reflexivity|apply T_bind; [apply T_nof; nofs|intros; apply T_ret]]|].
      eapply T_step; [intro f; reflexivity|]. cbn [b_elems]. assert (Hh' : forall n, (n <= h (SN n))%nat) by (intro m; specialize (Hh (SN m)); lia).
      apply T_bind; [apply T_nof; nofs|]. intros ei s2. apply T_bind; [apply (T_comp _ (fun f => b_input f (false, i_zero ei) ei x ok) (fun f => h (SN f))); [exact Hh'|apply IHn; apply Ls; now left]|].
      intros [[ev b] crit] s3. destruct crit; [apply T_ret|]. destruct (is_list x || _); [apply T_nope|].
      apply (IHl (fun y Iy => Ls y (or_intror Iy)) (fun f => h (SN f)) Hh').
    - destruct (kind_of (snd g)); try (apply T_nof; solve [nofs]). assert (Ls : forall k x, In (k, x) ms -> (v_size x <= n)%nat).
      { intros k x I. enough (v_size x <= fold_right (fun x n => v_size (snd x) + n) O ms)%nat by (cbn [v_size] in L; lia). clear - I. induction ms as [|y l IH]; [contradiction|]. cbn. destruct I as [->|I]; [cbn; lia|]. apply IH in I. lia. }
      apply T_bind; [apply T_nof; nofs|]. intros c s1. apply T_bind.
      + apply (walk_T _ (fun f => on_member X S rawvars decls f (fst g) c ok)). intros k x I [v0 b0] s2. unfold on_member. destruct (slookup c k); [|apply T_bind; [apply T_nof; nofs|intros; apply T_ret]].
        apply T_bind; [apply T_nof; nofs|]. intros f s3. apply T_bind; [eapply IHn; eapply Ls; exact I|]. intros [[? ?] ?] s4. apply T_ret.
      + intros [[[? ?] ?] cut] s2. destruct cut; [apply T_nope|apply T_ret]. }
  unfold b_ptr. destruct (i_kind i); try exact B. destruct (i_isfile i); [exact B|].
  destruct (i_elem i) as [e|] eqn:Ee; [|apply (T_ext _ _ (fun _ => bpanic)); [reflexivity|apply T_panic]].
  eapply T_ext with (H := fun f => bbind (match v with VNull => bret (snd (false, i_zero e), false, false) | _ => b_input f (false, i_zero e) e v ok end) _); [intro f; reflexivity|].
  apply T_bind; [destruct v; try (now apply IHi); apply T_ret|]. intros [[v' b] crit] s1. destruct crit; [apply T_ret|]. destruct b; [apply T_bind; [apply T_nof; nofs|intros; apply T_ret]|apply T_ret].
Qed.
Lemma oparg_T : forall g i n a s, T (fun f => b_oparg f g i n a) s.
Proof.
  intros g i n a s. eapply T_step; [intro f; apply oparg_step|]. apply T_bind; [apply marks_T|]. intros [[ri|] tn] s1; [|apply T_ret].
  apply T_bind; [apply T_nof; nofs|]. intros [m|] s2; [apply T_nof; nofs|]. apply T_bind; [apply T_lift; apply ext_T|]. intros [[[v b] found] crit] s3. destruct crit; [apply T_ret|]. destruct found; [apply T_ret|].
  destruct (oa_default a); [|apply T_nof; nofs]. eapply input_T; [discriminate|apply Nat.le_refl].
Qed.
Lemma args_T : forall ins infs args s, T (fun f => b_args X S rawvars decls f ins infs args) s.
Proof.
  intros ins infs args s. eapply T_ext; [intro f; now rewrite args_step|]. cbv beta. destruct args as [ms|]; [|apply T_ret]. apply (walk_T _ (fun f => on_arg X S rawvars decls f infs)).
  intros k v _ a s1. unfold on_arg. destruct (slookup infs k) as [[n i]|]; [|apply T_bind; [apply T_nof; nofs|intros; apply T_ret]].
  apply T_bind; [apply T_nof; nofs|]. intros x s2. apply T_bind; [apply T_nof; nofs|]. intros f s3. apply T_bind; [eapply input_T; [intros _; apply oparg_T|apply Nat.le_refl]|]. intros [[? ?] ?] s4. apply T_ret.
Qed.
Lemma dirs_T : forall loc l s, T (fun f => b_directives X S rawvars decls f loc l) s.
Proof.
  intros loc l. induction l as [|x r IH]; intros s; [apply T_ret|]. cbn [b_directives]. apply T_bind.
  - unfold b_directive. destruct (nlookup (s_dirs S) loc); [|apply T_bind; [apply T_nof; nofs|intros; apply T_ret]]. destruct (find _ _) as [d|]; [|apply T_bind; [apply T_nof; nofs|intros; apply T_ret]].
    apply T_bind; [apply args_T|]. intros [[args crit] cut] s1. destruct crit; [apply T_ret|]. destruct cut; [apply T_nope|]. destruct (dd_fn d).
    1-2: repeat match goal with |- T (fun _ => match ?x with _ => _ end) _ => destruct x end; first [apply T_ret|apply T_panic].
    apply T_bind; [apply T_nof; nofs|]. intros w s2. apply T_bind; [apply T_nof; nofs|]. intros p s3. apply T_bind; [apply T_nof; nofs|]. intros [w' b] s4. apply T_bind; [apply T_nof; nofs|]. intros [] s5. apply T_ret.
  - intros [sk crit] s1. destruct (crit || sk); [apply T_ret|apply IH].
Qed.
(** ** Selections *)
Notation b_sels := (b_sels X S rawvars decls fdefs).
Notation b_inline := (b_inline X S rawvars decls fdefs).
Notation b_spread := (b_spread X S rawvars decls fdefs).
Notation b_field := (b_field X S rawvars decls fdefs).
Notation b_value := (b_value X S rawvars decls fdefs).
Hypothesis impls : objects_implement S.
Lemma T_err : forall A m (f : bool -> A) (s : rst W), T (fun _ => bbind (lift (err m)) (fun b => bret (f b))) s.
Proof. intros. apply T_bind; [apply T_nof; nofs|intros; apply T_ret]. Qed.
Definition sels_T (ss : list sel) : Prop := forall o d g k s, T (fun f => b_sels f o d g k ss) s.
Definition cur_T (c : cursor) : Prop := match c with CArgs _ ss => sels_T ss | CSels ss => sels_T ss | CLost => True end.
Lemma nil_T : sels_T [].
Proof. intros o d g k s. eapply T_step; [intro f; apply sels_step|]. apply T_ret. Qed.
Lemma object_T : forall o, is_object o -> forall cur d g k s, cur_T cur -> T (fun f => b_value f o d g k cur) s.
Proof.
  intros o Ho cur d g k s C. eapply T_step; [intro f; apply value_step|]. destruct (bad_args o cur); [apply T_err|].
  assert (O : forall t, T (fun f => if (d + 1) mod 256 =? s_maxdepth S then bbind (lift (err (bs "reached max dept"))) (fun b => bret (TNull, b))
                  else match cur with
                    | CSels subs => bbind (b_sels f t ((d + 1) mod 256) g k subs) (fun '(ms, crit) => bret (TObj ms, crit))
                    | CLost => match f with O => bnofuel | SN _ => bbind (lift (err (bs "unsupported operation u"))) (fun b => bret (TObj [], b)) end
                    | CArgs _ _ => bpanic end) s).
  { intro t. destruct (_ =? _); [apply T_err|]. destruct cur as [fs ss|ss|]; [apply T_panic|apply T_bind; [apply C|intros [? ?] ?; apply T_ret]|eapply T_step; [intro f; reflexivity|apply T_err]]. }
  destruct o; try contradiction; unfold v_body.
  - destruct (negb _); [apply T_err|]. destruct (slookup _ _) as [t|]; [apply O|apply T_ret].
  - destruct (negb _); [apply T_err|]. apply O.
Qed.
Fixpoint obj_size (o : obj) : nat :=
  match o with
  | OArray e => SN (obj_size e)
  | OPtr e => SN (obj_size e)
  | OMethod (Method _ _ _ _ _ out) => SN (obj_size out)
  | OIface _ _ is => SN (fold_right (fun x n => obj_size (snd x) + n)%nat O is)
  | _ => 1%nat
  end.
Lemma tree_T : forall v kd s, T (fun _ => @value_tree W v kd) s.
Proof. intros v kd s. unfold value_tree. repeat match goal with |- T (fun _ => match ?x with _ => _ end) _ => destruct x end; first [apply T_ret|apply T_panic]. Qed.
Lemma enum_T : forall k v es s, T (fun _ => @enum_tree W k v es) s.
Proof. intros k v es. induction es as [|[n e] r IH]; intro s; cbn [enum_tree]; [apply T_ret|]. apply T_bind; [apply T_nof; nofs|]. intros [] s1; [apply T_ret|apply IH]. Qed.
Lemma value_T : forall n o, (obj_size o <= n)%nat -> forall cur d g k s, cur_T cur -> T (fun f => b_value f o d g k cur) s.
Proof.
  induction n as [|n IH]; intros o L cur d g k s C; [destruct o as [| | | | | |[]| | | |]; cbn [obj_size] in L; lia|].
  destruct o as [|e|nm|nm fs|isid kd|e|[istype ins infs outnr errnr out]|i| |nm|nm fs is]; try (apply object_T; [exact Logic.I|exact C]);
  (eapply T_step; [intro f; apply value_step|]); (destruct (bad_args _ cur); [apply T_err|]); unfold v_body; cbn [obj_size] in L.
  - apply T_ret.
  - assert (B : forall ro k l i s, T (fun f => b_list X S rawvars decls fdefs f e d ro k cur i l) s).
    { intros ro k' l. induction l as [|v r IHl]; intros i s1; cbn [b_list]; [apply T_ret|]. apply T_bind; [apply T_nof; nofs|]. intros p s2. apply T_bind; [apply T_nof; nofs|]. intros _ s3.
      apply T_bind; [apply IH; [lia|exact C]|]. intros [t c] s4. apply T_bind; [apply T_nof; nofs|]. intros _ s5. apply T_bind; [apply IHl|]. intros; apply T_ret. }
    destruct (snd g) as [| | | | |[l|]|l| | | | | | | | | |]; try apply T_panic; try apply T_ret; (destruct (k =? 255); [apply T_nope|]); (apply T_bind; [apply B|intros; apply T_ret]).
  - destruct (has_sub cur); [apply T_err|]. apply T_bind; [apply tree_T|]. intros; apply T_ret.
  - destruct (snd g) as [| | | | | | |[v|]| | | | | | | | |]; try apply T_panic; try apply T_ret. apply IH; [lia|exact C].
  - assert (B : T (fun f => bbind (b_args X S rawvars decls f ins infs match cur with CArgs fs _ => Some fs | _ => None end) (fun '(av, crit, cut) =>
         if crit : bool then bret (THole, true) else let cur0 := match cur with CArgs _ subs => after_args cut subs | _ => cur end in
         if fst g then bpanic else bbind (lift get_world) (fun w => bbind (lift get_path) (fun p => bbind (lift (of_opt (x_call X w (snd g) av p))) (fun '(w, outs) =>
         bbind (lift (put_world w)) (fun _ => bbind (match errnr with None => bret tt | Some n => bbind (lift (of_opt (nth_error outs n))) (fun e =>
            match e with GErr None => bret tt | GErr (Some m) => bbind (lift (err m)) (fun _ => bret tt) | _ => bpanic end) end) (fun _ =>
         match x_ctxerr X w with Some m => bbind (lift (err m)) (fun _ => bret (TNull, false))
         | None => bbind (lift (of_opt (nth_error outs outnr))) (fun v => b_value f out d (false, v) k cur0) end))))))) s).
    { apply T_bind; [apply args_T|]. intros [[av crit] cut] s1. destruct crit; [apply T_ret|]. cbv zeta. destruct (fst g); [apply T_panic|].
      apply T_bind; [apply T_nof; nofs|]. intros w s2. apply T_bind; [apply T_nof; nofs|]. intros p s3. apply T_bind; [apply T_nof; nofs|]. intros [w' outs] s4. apply T_bind; [apply T_nof; nofs|]. intros _ s5.
      apply T_bind.
      { destruct errnr; [|apply T_ret]. apply T_bind; [apply T_nof; nofs|]. intros e s6. destruct e as [| | | | | | | | | | | | | |[m|]| |]; try apply T_panic; [apply T_bind; [apply T_nof; nofs|intros; apply T_ret]|apply T_ret]. }
      intros _ s6. destruct (x_ctxerr X w'); [apply T_bind; [apply T_nof; nofs|intros; apply T_ret]|]. apply T_bind; [apply T_nof; nofs|]. intros v s7. apply IH; [lia|].
      destruct cur; auto. destruct cut as [[|]|]; cbn; auto. exact nil_T. }
    destruct istype, (snd g); try apply T_panic; try exact B. match goal with x : option N |- _ => destruct x end; [exact B|apply T_ret].
  - apply T_bind; [apply T_nof; nofs|]. intros e s1. apply T_bind; [apply enum_T|]. intros; apply T_ret.
  - destruct (fst g); [apply T_panic|]. destruct (snd g); apply T_ret.
  - destruct (negb _); [apply T_err|]. destruct (slookup _ _) as [t|] eqn:Es; [|apply T_ret]. destruct (snd g) as [| | | | | | | | | | |[[[tn pkg] v]|]| | | | |]; try apply T_panic; try apply T_ret. destruct (k =? 255); [apply T_nope|].
    destruct (find _ _) as [[a impl]|] eqn:F; [|apply T_ret]. apply find_some in F. destruct F as [F _]. destruct t; try contradiction. apply object_T; [|exact C]. eapply impls; eauto.
  - destruct (negb _); [apply T_err|]. destruct (snd g) as [| | | | | | | | | | |[[[tn pkg] v]|]| | | | |]; try apply T_panic; try apply T_ret. destruct (k =? 255); [apply T_nope|].
    destruct (find _ _) as [[a impl]|] eqn:F; [|apply T_ret]. apply find_some in F. destruct F as [F _]. apply IH; [|exact C].
    enough (obj_size impl <= fold_right (fun x n => obj_size (snd x) + n) O is)%nat by lia. clear - F. induction is as [|y l IHl]; [contradiction|]. cbn. destruct F as [->|F]; [cbn; lia|]. apply IHl in F. lia.
Qed.
(** the selections of a fragment, by name *)
Definition frag_T (n : bytes) : Prop := forall t ss, In (n, t, ss) fdefs -> sels_T ss.
Fixpoint sel_size (x : sel) : nat :=
  match x with SField _ _ _ _ ss => SN (fold_right (fun x n => sel_size x + n)%nat O ss) | SInline _ _ ss => SN (fold_right (fun x n => sel_size x + n)%nat O ss) | SSpread _ _ => 1%nat end.
Definition sels_size (ss : list sel) : nat := fold_right (fun x n => sel_size x + n)%nat O ss.
Lemma prefix_exact : forall a b, is_prefix a b = true -> skipn (length a) b = [] -> b = a.
Proof.
  induction a as [|x a IH]; intros b H K; [destruct b; [reflexivity|discriminate]|]. destruct b as [|y b]; [discriminate|]. cbn in H. apply andb_prop in H. destruct H as [H1 H2]. apply N.eqb_eq in H1. subst. f_equal. now apply IH.
Qed.
Lemma run_T : forall n ss, (sels_size ss <= n)%nat -> (forall m ds, within (SSpread m ds) ss -> frag_T m) -> sels_T ss.
Proof.
  induction n as [|n IH]; intros ss L F.
  - destruct ss as [|[] ?]; [apply nil_T|cbn in L; lia|cbn in L; lia|cbn in L; lia].
  - induction ss as [|x r IHr]; [apply nil_T|]. intros o d g k s. eapply T_step; [intro f; apply sels_step|].
    assert (Hr : sels_T r). { apply IHr; [change (sels_size (x :: r)) with (sel_size x + sels_size r)%nat in L; lia|]. intros m ds H. apply (F m ds). inversion H; subst; [apply within_here; now right|eapply within_field; [right; eauto|auto]|eapply within_inline; [right; eauto|auto]]. }
    apply T_bind; [|intros [ms c] s1; destruct c; [apply T_ret|]; apply T_bind; [apply Hr|intros [? ?] ?; apply T_ret]].
    destruct x as [al nm ds args subs|nm ds|tn ds subs].
    + assert (Hs : sels_T subs). { apply IH; [change (sels_size (SField al nm ds args subs :: r)) with (SN (sels_size subs) + sels_size r)%nat in L; lia|]. intros m ds' H. apply (F m ds'). eapply within_field; [now left|auto]. }
      eapply T_step; [intro f; apply field_step|]. apply T_bind; [apply T_nof; nofs|]. intros p s1. apply T_bind; [apply T_nof; nofs|]. intros _ s2. apply T_bind; [apply dirs_T|]. intros [sk c] s3.
      destruct (c || sk); [apply T_bind; [apply T_nof; nofs|intros; apply T_ret]|]. apply T_bind; [|intros [t c'] s4; apply T_bind; [apply T_nof; nofs|intros; apply T_ret]].
      unfold at_field. destruct (nlookup _ _) as [[fo custom idx fn hd]|].
      * apply T_bind. { destruct custom; [apply T_ret|]. destruct fo as [| | | | | |[[]]| | | |]; try apply T_ret; apply T_nof; nofs. }
        intros v s4. destruct (k =? 255); [apply T_nope|]. eapply value_T; [apply Nat.le_refl|]. destruct args; exact Hs.
      * destruct (beqb _ _); [|apply T_err]. destruct (has_sub _); [apply T_err|apply T_ret].
    + eapply T_step; [intro f; apply spread_step|]. apply T_bind; [apply dirs_T|]. intros [sk c] s1. destruct (c || sk); [apply T_ret|].
      destruct (b_fragment fdefs nm) as [[[m t] ss]|] eqn:Ef; [|apply T_err]. unfold b_fragment in Ef. apply find_some in Ef. destruct Ef as [I Pf]. cbn in Pf.
      destruct (skipn (length nm) m) as [|c0 rest] eqn:Es; [|destruct (negb _); [apply T_ret|apply T_nope]]. destruct (negb _); [apply T_ret|].
      apply (prefix_exact _ _ Pf) in Es. subst m. eapply (F nm ds); [apply within_here; now left|exact I].
    + eapply T_step; [intro f; apply inline_step|]. apply T_bind; [apply dirs_T|]. intros [sk c] s1. destruct (c || sk); [apply T_ret|]. destruct (negb _); [apply T_ret|].
      apply IH; [change (sels_size (SInline tn ds subs :: r)) with (SN (sels_size subs) + sels_size r)%nat in L; lia|]. intros m ds' H. apply (F m ds'). eapply within_inline; [now left|auto].
Qed.
(** the fragment [f] contains a spread of [n] *)
Definition mentions (f n : bytes) : Prop := exists t ss ds, In (f, t, ss) fdefs /\ within (SSpread n ds) ss.
Lemma frags_T : forall n, Acc (fun n f => mentions f n) n -> frag_T n.
Proof.
  induction 1 as [n _ IH]. intros t ss I. eapply run_T; [apply Nat.le_refl|]. intros m ds H. apply IH. exists t, ss, ds. auto.
Qed.
(** with finitely many fragments: no cycle, no infinite chain *)
Lemma no_cycle_acc : (forall n, ~ clos_trans _ mentions n n) -> forall n, Acc (fun n f => mentions f n) n.
Proof.
  intro NC. set (L := map (fun f => fst (fst f)) fdefs).
  assert (InL : forall f n, mentions f n -> In f L) by (intros f n (t & ss & ds & I & _); apply in_map_iff; eexists; split; [|exact I]; reflexivity).
  enough (E : forall k vis, NoDup vis -> incl vis L -> (length L - length vis <= k)%nat -> forall n, (forall v, In v vis -> clos_trans _ mentions v n) -> Acc (fun n f => mentions f n) n).
  { intro n. apply (E (length L) []); [constructor|intros ? []|cbn; lia|intros ? []]. }
  induction k as [|k IH]; intros vis ND Inc Le n V; constructor; intros m M.
  - exfalso. assert (~ In n vis) by (intro I; exact (NC n (V n I))). assert (In n L) by (eapply InL; eauto).
    assert (NoDup (n :: vis)) by (now constructor). assert (incl (n :: vis) L) by (intros y [<-|Iy]; auto). pose proof (NoDup_incl_length H1 H2). cbn in H3. lia.
  - assert (~ In n vis) by (intro I; exact (NC n (V n I))). apply (IH (n :: vis)); [now constructor| | |].
    + intros y [<-|Iy]; [eapply InL; eauto|auto].
    + cbn. assert (incl (n :: vis) L) by (intros y [<-|Iy]; [eapply InL; eauto|auto]). assert (NoDup (n :: vis)) by (now constructor). pose proof (NoDup_incl_length H1 H0). cbn in H2. lia.
    + intros v [<-|Iv]; [now apply t_step|]. eapply t_trans; [apply V; exact Iv|now apply t_step].
Qed.
End Op.

Theorem operation_T : objects_implement S -> forall d op s, (forall n, ~ clos_trans _ (mentions (frag_defs d)) n n) -> T (b_operation X S rawvars d op) s.
Proof.
  intros Im d op s NC. destruct op as [kd nm decls ds ss|]; [|apply (T_ext _ _ (fun _ => bpanic)); [reflexivity|apply T_panic]].
  cbn [b_operation]. assert (E : forall m, T (fun _ : nat => bbind (lift (err m)) (fun b => @bret W _ (@nil (bytes * rt), b))) s) by (intro; apply T_err).
  assert (R : forall o g, T (fun f => b_sels X S rawvars decls (frag_defs d) f o 0 g 0 ss) s).
  { intros o g. eapply run_T; [exact Im|apply Nat.le_refl|]. intros m ds' H. apply frags_T; [exact Im|]. now apply no_cycle_acc. }
  destruct kd; try apply E; (destruct ds; [apply R|apply E]).
Qed.
End Prims.
