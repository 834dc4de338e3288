(** * C20: requests return *)
From Coq Require Import String Arith NArith ZArith Bool List Lia Relations.
From Verif Require Import Base Json JsonModel Ast ParserModel Grammar RefParser RefGrammar ParserFacts ReqModel Schema ResModel EnvModel Samples Interp RunSim Facts Valid DocRun PropEnv Spec SpecRun SpecDoc Regular PropExec FuelMono Term PropSel.
Import ListNotations.
Open Scope N_scope.

(** the fragment [f] contains, at any depth, a spread of [n] *)
Definition spreads (d : document) (f n : bytes) : Prop := exists t ss ds, In (DFrag f t ss) d /\ within (SSpread n ds) ss.
(** no fragment contains a spread of itself, directly or through other fragments *)
Definition no_cycle (d : document) : Prop := forall n, ~ clos_trans _ (spreads d) n n.

Lemma runs_or_not : forall q (o : ropts) d, g_doc d q -> (exists op, runs o d op) \/ Forall (fun x => ~ selected (target_of o) x) d.
Proof.
  intros q o d G. destruct (denotes_accepted q (target_of o) d G) as (s & P & E & R & Fr & T).
  pose proof (target_chosen q (target_of o) d s G P) as C. destruct (p_tgt s) as [n|]; [|now right].
  destruct C as (d1 & x & d2 & -> & Sx & Fx & _). left. exists x, d1, d2. auto.
Qed.
(** Every request returns: there is a number of steps that is enough, whatever is left in the buffers by earlier
    requests.  For accepted queries this asks that the fragments have no cycle. *)
Theorem C20_requests_return : forall W (X : externals W) S o w q,
  objects_implement S ->
  (forall d, g_doc d q -> nul_free d /\ N.of_nat (length (enc_doc d)) < 4294967296 /\ no_cycle d /\ forall op, runs o d op -> limits X S o d op w) ->
  exists n, forall fuel vals, (n <= fuel)%nat -> resolve X S fuel o vals w q <> ROutOfFuel.
Proof.
  intros W X S o w q Im H. destruct (ref_parse q) as [d|] eqn:P.
  - apply ref_parse_spec in P. destruct (H d P) as (N & Sz & NC & Lm). destruct (runs_or_not q o d P) as [(op & U)|F].
    + assert (NC' : forall n, ~ clos_trans _ (mentions (frag_defs d)) n n).
      { intros n C. apply (NC n). enough (E : forall a b, clos_trans _ (mentions (frag_defs d)) a b -> clos_trans _ (spreads d) a b) by (apply E; exact C). clear. intros a b C. induction C as [x y (t & ss & ds & I & Wi)|x y z _ IH1 _ IH2]; [|eapply t_trans; eauto]. apply t_step. exists t, ss, ds. split; [|exact Wi].
        unfold frag_defs in I. apply in_flat_map in I. destruct I as ([|f t' ss'] & I & J); [contradiction|]. destruct J as [J|[]]. injection J; intros; subst. exact I. }
      destruct (operation_T X S (op_vars o) Im d op (s0 w) NC') as (r & Nr & n & K). exists n. intros fuel vals L.
      pose proof (resolve_doc W X S fuel o vals w q d op P N Sz U) as R. rewrite (K fuel L) in R. pose proof (Lm op U fuel) as Sc. unfold in_scope in Sc. rewrite (K fuel L) in Sc.
      destruct r as [[ms c] s'| | |]; try congruence. destruct R as (vals' & ->). discriminate.
    + exists O. intros fuel vals _. destruct (C08_no_such_operation W X S fuel o vals w q d P F) as (t & m & -> & _). discriminate.
  - exists O. intros fuel vals _. assert (Nd : ~ exists d, g_doc d q) by (intros (d & G); apply ref_parse_spec in G; congruence).
    destruct (C05_rejected_query_is_not_executed W X S fuel o vals w q Nd) as (es & t & -> & _). discriminate.
Qed.
Print Assumptions C20_requests_return.

(** With a cycle it is false: the request never returns, whatever the number of steps. *)
Definition q20 : bytes := bs "{...a} fragment a on Query{...a}".
Definition d20 : document := Eval vm_compute in parsed q20.
Lemma loops : forall fuel o d k g s, o_name o = bs "Query" ->
  b_sels sample_x sample_schema [] None (frag_defs d20) fuel o d g k [SSpread (bs "a") []] s = BNoFuel /\
  b_spread sample_x sample_schema [] None (frag_defs d20) fuel o d g k (bs "a") [] s = BNoFuel.
Proof.
  induction fuel as [|fuel IH]; intros o d k g s E; [split; reflexivity|]. split.
  - rewrite sels_step. unfold bbind. now rewrite (proj2 (IH o d k g s E)).
  - rewrite spread_step. cbn [b_directives]. unfold bbind, bret. change (false || false) with false. cbv iota.
    change (b_fragment (frag_defs d20) (bs "a")) with (Some (bs "a", bs "Query", [SSpread (bs "a") []])). cbv iota. change (skipn (length (bs "a")) (bs "a")) with (@nil N). cbv iota.
    rewrite E. change (negb (beqb (bs "Query") (bs "Query"))) with false. cbv iota. apply IH. exact E.
Qed.
Theorem C20_cycle_refuted : exists q d, g_doc d q /\ nul_free d /\ N.of_nat (length (enc_doc d)) < 4294967296 /\ objects_implement sample_schema /\
  forall fuel vals, resolve sample_x sample_schema fuel no_opts vals [] q = ROutOfFuel.
Proof.
  exists q20, d20. assert (R : regular sample_schema q20 d20) by (apply regularb_ok; vm_compute; reflexivity). destruct R as [Rt Rn Rs _ _ _ _].
  split; [exact Rt|]. split; [exact Rn|]. split; [exact Rs|]. split; [intros n nm fs is a impl H; discriminate|]. intros fuel vals.
  assert (U : runs no_opts d20 (first_of d20)) by (apply runs_only; [vm_compute; reflexivity|vm_compute; auto]).
  pose proof (resolve_doc world sample_x sample_schema fuel no_opts vals [] q20 d20 (first_of d20) Rt Rn Rs U) as H.
  change (b_operation sample_x sample_schema (op_vars no_opts) d20 (first_of d20) fuel (s0 [])) with
    (b_sels sample_x sample_schema [] None (frag_defs d20) fuel t_query 0 (false, v_query) 0 [SSpread (bs "a") []] (s0 [])) in H.
  rewrite (proj1 (loops fuel t_query 0 0 (false, v_query) (s0 []) eq_refl)) in H. exact H.
Qed.
Print Assumptions C20_cycle_refuted.

(** fragments that use each other without a cycle *)
Definition q20a : bytes := bs "{me{...w} get{...u ...w}} fragment u on User{name} fragment w on User{id friend{...u}}".
Lemma no_cycle_by_rank : forall d (rank : bytes -> nat), (forall f n, spreads d f n -> (rank n < rank f)%nat) -> no_cycle d.
Proof. intros d rank H n C. assert (L : forall x y, clos_trans _ (spreads d) x y -> (rank y < rank x)%nat) by (induction 1; [auto|lia]). specialize (L n n C). lia. Qed.
Example C20_case : objects_implement sample_schema /\
  (forall d, g_doc d q20a -> nul_free d /\ N.of_nat (length (enc_doc d)) < 4294967296 /\ no_cycle d /\ forall op, runs no_opts d op -> limits sample_x sample_schema no_opts d op []) /\
  texts (run sample_x sample_schema no_opts q20a) = Some ("{""data"":{""me"":{""id"":""1"",""friend"":{""name"":""bob""}},""get"":{""name"":""got"",""id"":""9"",""friend"":null}}}"%string, 1%nat).
Proof.
  split; [intros n nm fs is a impl H; discriminate|]. split; [|vm_compute; reflexivity]. intros d G. apply ref_parse_spec in G.
  assert (R : regular sample_schema q20a d) by (apply regularb_ok; [exact G|vm_compute in G; injection G; intros <-; vm_compute; reflexivity]).
  destruct R as [Rt Rn Rs _ _ _ _]. split; [exact Rn|]. split; [exact Rs|]. vm_compute in G. injection G; intros <-. split.
  - apply (no_cycle_by_rank _ (fun n => if beqb n (bs "w") then 1%nat else 0%nat)). intros f n (t & ss & ds & I & Wi).
    apply within_in in Wi. destruct I as [I|[I|[I|[]]]]; try discriminate; injection I; intros; subst; cbn in Wi; repeat (destruct Wi as [Wi|Wi]; try discriminate); try contradiction. injection Wi; intros; subst. cbn. lia.
  - intros op (d1 & d2 & E & Sel & _).
    assert (Iop : In op (d1 ++ op :: d2)) by (apply in_or_app; right; now left). rewrite <- E in Iop.
    destruct Iop as [<-|[<-|[<-|[]]]]; try (cbn in Sel; contradiction).
    apply (limits_at _ _ _ _ _ _ 1000); intro H; vm_compute in H; discriminate.
Qed.
