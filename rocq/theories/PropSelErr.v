(** * C17, C18 for answers with errors *)
From Coq Require Import String Arith NArith ZArith Bool List Lia Relations.
From Verif Require Import Base Json JsonModel Ast ParserModel Grammar RefParser RefGrammar ParserFacts ReqModel Schema ResModel EnvModel Samples Interp RunSim Facts Valid DocRun Indep PropEnv Spec SpecRun SpecDoc Regular PropExec FuelMono Rewrite RewriteErr Term PropSel PropTerm.
Import ListNotations.
Open Scope N_scope.

(** [q] is a text of the document [d], that is not too long and has no NUL byte in its strings *)
Definition text_of (q : bytes) (d : document) : Prop := g_doc d q /\ nul_free d /\ N.of_nat (length (enc_doc d)) < 4294967296.
(** no name of a fragment is the beginning of the name of another *)
Definition names_apart (d : document) : Prop := forall n m t t' ss ss', In (DFrag n t ss) d -> In (DFrag m t' ss') d -> is_prefix n m = true -> m = n.
(** with enough steps both requests are answered, and the answers are the same: response, errors and calls of resolvers *)
Definition same_answer {W} (X : externals W) (S : schema) (o : ropts) (w : W) (q q' : bytes) : Prop :=
  exists n, forall fuel vals vals', (n <= fuel)%nat ->
    answer (resolve X S fuel o vals w q) = answer (resolve X S fuel o vals' w q') /\ resolve X S fuel o vals w q <> ROutOfFuel.

Lemma frag_defs_in : forall d f, In f (frag_defs d) <-> In (DFrag (fst (fst f)) (snd (fst f)) (snd f)) d.
Proof.
  intros d [[n t] ss]. cbn [fst snd]. unfold frag_defs. rewrite in_flat_map. split.
  - intros ([|f t' ss'] & I & J); [contradiction|]. destruct J as [J|[]]. injection J; intros; subst. exact I.
  - intro I. exists (DFrag n t ss). split; [exact I|now left].
Qed.
Lemma operation_sim_err : forall W (X : externals W) S rawvars dirs frags d op d' op' fuel, standard S -> (frags = true -> names_apart d) -> rewritten X rawvars dirs frags d op d' op' ->
  sim X rawvars (b_operation X S rawvars d op fuel) (b_operation X S rawvars d' op' fuel).
Proof.
  intros W X S rawvars dirs frags d op d' op' fuel St Ap R. destruct op as [k n decls ds ss|]; [|contradiction]. destruct op' as [k' n' decls' ds' ss'|]; [|contradiction].
  destruct R as (-> & -> & -> & R & F). cbn [b_operation].
  assert (A : frags = true -> forall f g, In f (frag_defs d) -> In g (frag_defs d) -> is_prefix (fst (fst f)) (fst (fst g)) = true -> fst (fst g) = fst (fst f)).
  { intros Fr f g If Ig. apply frag_defs_in in If, Ig. exact (Ap Fr _ _ _ _ _ _ If Ig). }
  pose proof (proj1 (run_err_sim X S rawvars decls (frag_defs d) (frag_defs d') dirs frags St F A fuel)) as H.
  destruct k; destruct ds; try (apply H; exact R);
  repeat match goal with |- sim _ _ (bbind _ _) _ => apply sim_bind | |- sim _ _ (lift _) _ => apply sim_lift; solve [rsims] | |- sim _ _ (bret _) _ => apply sim_ret | |- forall _ : bool, _ => intro end.
Qed.
Lemma rewritten_same_answer : forall W (X : externals W) S dirs frags o q d op q' d' op' w,
  standard S -> objects_implement S -> text_of q d -> text_of q' d' -> no_cycle d -> (frags = true -> names_apart d) -> runs o d op -> runs o d' op' -> limits X S o d op w ->
  rewritten X (op_vars o) dirs frags d op d' op' -> same_answer X S o w q q'.
Proof.
  intros W X S dirs frags o q d op q' d' op' w St Im (G & Nf & Sz) (G' & Nf' & Sz') NC Ap U U' Lm Rw.
  assert (NC' : forall n, ~ clos_trans _ (mentions (frag_defs d)) n n).
  { intros n C. apply (NC n). enough (E : forall a b, clos_trans _ (mentions (frag_defs d)) a b -> clos_trans _ (spreads d) a b) by (apply E; exact C). clear. intros a b C. induction C as [x y (t & ss & ds & I & Wi)|x y z _ IH1 _ IH2]; [|eapply t_trans; eauto]. apply t_step. exists t, ss, ds. split; [|exact Wi].
    apply frag_defs_in in I. exact I. }
  destruct (operation_T X S (op_vars o) Im d op (s0 w) NC') as (r & Nr & n & K). exists n. intros fuel vals vals' L.
  pose proof (resolve_doc W X S fuel o vals w q d op G Nf Sz U) as R. pose proof (resolve_doc W X S fuel o vals' w q' d' op' G' Nf' Sz' U') as R'.
  pose proof (operation_sim_err W X S (op_vars o) dirs frags d op d' op' fuel St Ap Rw (s0 w) (s0 w)) as H.
  pose proof (Lm fuel) as Sc. unfold in_scope in Sc. rewrite (K fuel L) in *.
  assert (N : near X (op_vars o) (s0 w) (s0 w)) by (apply near_refl; now left). specialize (H N).
  destruct r as [[ms c] s'| | |]; try congruence.
  - destruct (b_operation X S (op_vars o) d' op' fuel (s0 w)) as [[ms' c'] t| | |]; try contradiction. destruct H as [E (Er & _ & Wo & _)]. injection E; intros; subst. rewrite Er, Wo in R'.
    destruct R as (v1 & ->). destruct R' as (v2 & ->). split; [reflexivity|discriminate].
  - destruct (b_operation X S (op_vars o) d' op' fuel (s0 w)) as [[ms' c'] t| | |]; try contradiction. rewrite R, R'. split; [reflexivity|discriminate].
Qed.

(** ** C18 *)
(** A document [d'] that is [d] without the selections that @skip(if: true) or @include(if: false) leaves out, and
    without the directives @skip(if: false) and @include(if: true), has the same answer, also where there are errors. *)
Theorem C18_same_answer_with_errors : forall W (X : externals W) S o q d op q' d' op' w,
  standard S -> objects_implement S -> text_of q d -> text_of q' d' -> no_cycle d -> runs o d op -> runs o d' op' -> limits X S o d op w ->
  rewritten X (op_vars o) true false d op d' op' -> same_answer X S o w q q'.
Proof. intros W X S o q d op q' d' op' w St Im T T' NC U U' Lm Rw. eapply (rewritten_same_answer W X S true false); eauto. discriminate. Qed.
Print Assumptions C18_same_answer_with_errors.

(** ** C17 *)
(** A document [d'] that is [d] where spreads [...f] are replaced by [... on T {body}] with the fragment definition
    whose name is [f] has the same answer, also where there are errors, if no fragment name is the beginning of another. *)
Theorem C17_same_answer_with_errors : forall W (X : externals W) S o q d op q' d' op' w,
  standard S -> objects_implement S -> text_of q d -> text_of q' d' -> no_cycle d -> names_apart d -> runs o d op -> runs o d' op' -> limits X S o d op w ->
  rewritten X (op_vars o) false true d op d' op' -> same_answer X S o w q q'.
Proof. intros W X S o q d op q' d' op' w St Im T T' NC Ap U U' Lm Rw. eapply (rewritten_same_answer W X S false true); eauto. Qed.
Print Assumptions C17_same_answer_with_errors.

(** ** Examples: a field of the document does not exist *)
Definition q18e : bytes := bs "query($v:Boolean){get @include(if:$v){id @skip(if:false) ...f @skip(if:true)} hello @skip(if:$v) nosuch @include(if:true)} fragment f on User{name @skip(if:true)}".
Definition q18e' : bytes := bs "query($v:Boolean){get{id} nosuch} fragment f on User{}".
Definition d18e : document := Eval vm_compute in parsed q18e.
Definition d18e' : document := Eval vm_compute in parsed q18e'.
Definition errors_and_calls (r : rresult world) : option (nat * nat) := match r with RDone _ es _ w => Some (length es, length w) | _ => None end.
Lemma text_of_regular : forall S q d, regular S q d -> text_of q d. Proof. intros S q d [Rt Rn Rs _ _ _ _]. split; auto. Qed.
Example C18_errors_case : standard sample_schema /\ objects_implement sample_schema /\ text_of q18e d18e /\ text_of q18e' d18e' /\ no_cycle d18e /\
  runs o18 d18e (first_of d18e) /\ runs o18 d18e' (first_of d18e') /\ limits x18 sample_schema o18 d18e (first_of d18e) [] /\
  rewritten x18 (op_vars o18) true false d18e (first_of d18e) d18e' (first_of d18e') /\
  texts (run x18 sample_schema o18 q18e) = texts (run x18 sample_schema o18 q18e') /\
  errors_and_calls (run x18 sample_schema o18 q18e) = Some (1%nat, 1%nat).
Proof.
  split; [apply standard_builtin|]. split; [intros n nm fs is a impl H; discriminate|].
  split; [apply (text_of_regular sample_schema); apply regularb_ok; vm_compute; reflexivity|]. split; [apply (text_of_regular sample_schema); apply regularb_ok; vm_compute; reflexivity|].
  split; [apply (no_cycle_by_rank _ (fun _ => O)); intros f n (t & ss & ds & I & Wi); exfalso; apply within_in in Wi; destruct I as [I|[I|[]]]; try discriminate; injection I; intros; subst; cbn in Wi; intuition discriminate|].
  split; [apply runs_only; [vm_compute; reflexivity|vm_compute; auto]|]. split; [apply runs_only; [vm_compute; reflexivity|vm_compute; auto]|].
  split; [apply (limits_at _ _ _ _ _ _ 1000); intro H; vm_compute in H; discriminate|].
  split; [rwd|]. split; vm_compute; reflexivity.
Qed.
Definition q17e : bytes := bs "{get{...w} me{...w nosuch}} fragment u on User{name} fragment w on User{id ...u}".
Definition q17e' : bytes := bs "{get{...on User{id ...on User{name}}} me{...w nosuch}} fragment u on User{name} fragment w on User{id ...u}".
Definition d17e : document := Eval vm_compute in parsed q17e.
Definition d17e' : document := Eval vm_compute in parsed q17e'.
Example C17_errors_case : standard sample_schema /\ objects_implement sample_schema /\ text_of q17e d17e /\ text_of q17e' d17e' /\ no_cycle d17e /\ names_apart d17e /\
  runs no_opts d17e (first_of d17e) /\ runs no_opts d17e' (first_of d17e') /\ limits sample_x sample_schema no_opts d17e (first_of d17e) [] /\
  rewritten sample_x (op_vars no_opts) false true d17e (first_of d17e) d17e' (first_of d17e') /\
  texts (run sample_x sample_schema no_opts q17e) = texts (run sample_x sample_schema no_opts q17e') /\
  errors_and_calls (run sample_x sample_schema no_opts q17e) = Some (1%nat, 1%nat).
Proof.
  split; [apply standard_builtin|]. split; [intros n nm fs is a impl H; discriminate|].
  split; [apply (text_of_regular sample_schema); apply regularb_ok; vm_compute; reflexivity|]. split; [apply (text_of_regular sample_schema); apply regularb_ok; vm_compute; reflexivity|].
  split. { apply (no_cycle_by_rank _ (fun n => if beqb n (bs "w") then 1%nat else 0%nat)). intros f n (t & ss & ds & I & Wi).
    apply within_in in Wi. destruct I as [I|[I|[I|[]]]]; try discriminate; injection I; intros; subst; cbn in Wi; repeat (destruct Wi as [Wi|Wi]; try discriminate); try contradiction. injection Wi; intros; subst. cbn. lia. }
  split. { intros n m t t' ss ss' I J P. destruct I as [I|[I|[I|[]]]]; try discriminate; injection I; intros; subst; (destruct J as [J|[J|[J|[]]]]; try discriminate; injection J; intros; subst); auto; discriminate. }
  split; [apply runs_only; [vm_compute; reflexivity|vm_compute; auto]|]. split; [apply runs_only; [vm_compute; reflexivity|vm_compute; auto]|].
  split; [apply (limits_at _ _ _ _ _ _ 1000); intro H; vm_compute in H; discriminate|].
  split; [rwd|]. split; vm_compute; reflexivity.
Qed.
