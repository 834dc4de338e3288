(** * The schema of a Go program and the one that introspection tells (proofs for C56) *)
From Coq Require Import String Arith NArith ZArith Bool List Lia Sorted Permutation.
From Verif Require Import Base JsonModel NameModel Ast Schema Interp GoTypes ParseModel SchemaSpec IntroModel IntroSpec AnswerSpec AnswerProof.
Import ListNotations.
Open Scope nat_scope.

(** a response that conforms to a schema conforms to one with more types, fields and values *)
Record gql_le (G G' : gql) : Prop := {
  le_object n : q_object G n -> q_object G' n;
  le_field n f r : q_field G n f r -> q_field G' n f r;
  le_possible n n' : q_possible G n n' -> q_possible G' n n';
  le_value n v : q_value G n v -> q_value G' n v }.
Lemma conform_le G G' ints fr a : gql_le G G' ->
  (forall r ss x, conforms G ints fr a r ss x -> conforms G' ints fr a r ss x) /\ (forall r ss l, conform_all G ints fr a r ss l -> conform_all G' ints fr a r ss l) /\
  (forall n ss ms, members_conform G ints fr a n ss ms -> members_conform G' ints fr a n ss ms).
Proof.
  intros [Ho Hf Hp Hv]. apply (conform_ind G ints fr a); intros.
  - now apply cf_failed.
  - now apply cf_null.
  - now apply cf_nonnull.
  - now apply cf_list.
  - now apply cf_scalar.
  - apply cf_enum. auto.
  - apply cf_object; auto.
  - eapply cf_interface; eauto.
  - apply ca_nil.
  - apply ca_cons; auto.
  - apply mc_nil.
  - eapply mc_typename; eauto.
  - eapply mc_field; eauto.
  - eapply mc_failed; eauto.
Qed.

Section Told.
Variable P : program.
Notation decls := (g_decls P).
Variables (qt mt : gtype) (inj : option (gval * gval)) (p : pschema) (own iown inown : bytes -> option gtype).
Notation roots := (roots_of P qt mt (if inj then true else false)).
Hypothesis SR : schema_reads P own iown inown qt mt inj p.
Hypothesis AN : all_named P roots.
Lemma own_one n n' t : own n = Some t -> own n' = Some t -> n = n'.
Proof.
  intros H H'. destruct (sr_own _ _ _ _ _ _ _ _ SR n t H) as (_ & K & _ & Re & N & _). destruct (sr_own _ _ _ _ _ _ _ _ SR n' t H') as (_ & _ & _ & _ & N' & _).
  pose proof (AN t Re K). rewrite N, N' by auto. reflexivity.
Qed.
Lemma iown_one n n' t : iown n = Some t -> iown n' = Some t -> n = n'.
Proof.
  intros H H'. destruct (sr_iown _ _ _ _ _ _ _ _ SR n t H) as (_ & _ & _ & _ & ->). destruct (sr_iown _ _ _ _ _ _ _ _ SR n' t H') as (_ & _ & _ & _ & ->). reflexivity.
Qed.
Lemma kinds_of_enum t : enum_like P t -> basic (t_kind decls t).
Proof. intros (_ & _ & K). destruct (t_kind decls t); try contradiction; exact Logic.I. Qed.
Ltac clash := exfalso; repeat match goal with
  | E : enum_like P ?t, K : t_kind _ ?t = _ |- _ => apply kinds_of_enum in E
  | B : basic (t_kind _ ?t), K : t_kind _ ?t = _ |- _ => rewrite K in B; contradiction
  | B : basic (t_kind _ ?t), K : t_kind _ ?t = _ \/ _ |- _ => destruct K as [K|K]; rewrite K in B; contradiction
  | K : t_kind _ ?t = _ \/ _ |- _ => destruct K as [K|K]
  end; congruence.
Lemma go_ref_one t h r : go_ref P own iown t h r -> forall r', go_ref P own iown t h r' -> r = r'.
Proof.
  induction 1 as [t h T|t n T K O|t n T K O|t e h r T K E H IH|t e h r T K E H IH|t h i T L A|t h T B N]; intros r' H'; inversion H'; subst; try reflexivity; try congruence; try clash.
  - do 2 f_equal. eapply own_one; eauto.
  - f_equal. eapply iown_one; eauto.
  - f_equal. apply IH. congruence.
  - f_equal. apply IH. congruence.
  - exfalso. match goal with X : enum_like _ _ -> forall _, ~ _ |- _ => exact (X L i A) end.
  - exfalso. eapply N; eauto.
Qed.
Lemma only_one {A} (Q : A -> Prop) l i a j b : only_at Q l i a -> only_at Q l j b -> i = j /\ a = b.
Proof. intros (E & Qa & H) (E' & Qb & H'). assert (i = j) by eauto. subst. split; congruence. Qed.
Lemma member_ref_one m r r' : member_ref P own iown m r -> member_ref P own iown m r' -> r = r'.
Proof.
  destruct m as [i ft isid|i ft]; cbn [member_ref].
  - destruct (match t_kind decls ft with KFunc => true | _ => false end); [|intros; eapply go_ref_one; eauto].
    intros (a & t & r0 & O & G & ->) (a' & t' & r0' & O' & G' & ->). destruct (only_one _ _ _ _ _ _ O O') as [<- <-]. f_equal. eapply go_ref_one; eauto.
  - intros (a & t & O & G) (a' & t' & O' & G'). destruct (only_one _ _ _ _ _ _ O O') as [<- <-]. eapply go_ref_one; eauto.
Qed.
Lemma keys_names t : keys_apart P t -> NoDup (map fst (exposed P t)).
Proof.
  unfold keys_apart. rewrite map_app. generalize (map fnv1 [bs "__schema"; bs "__type"]). intros k. generalize (map fst (exposed P t)). induction l as [|a l IH]; [constructor|].
  cbn [map app]. intro H. inversion H as [|x y N D]; subst. constructor; auto. intro I. apply N. apply in_or_app. left. now apply in_map.
Qed.
Lemma nodup_fst {A B} (l : list (A * B)) a b b' : NoDup (map fst l) -> In (a, b) l -> In (a, b') l -> b = b'.
Proof.
  induction l as [|[x y] l IH]; [contradiction|]. cbn. intros H [E|I] [E'|I']; inversion H; subst.
  - congruence.
  - injection E as -> ->. exfalso. apply H2. change a with (fst (a, b')). now apply in_map.
  - injection E' as -> ->. exfalso. apply H2. change a with (fst (a, b)). now apply in_map.
  - eauto.
Qed.
Variables (enums : bool) (ins : member -> list gtype) (I : ischema) (c : icache).
Hypothesis DS : described P own iown inown qt mt enums ins I c.
Hypothesis KA : forall t, SchemaSpec.reach P roots t -> keys_apart P t.
Theorem told_all b : gql_le (go_gql P own iown (p_query p) b) (told_gql (fun n f r => b = true /\ n = p_query p /\ query_extra P own iown f r) I c).
Proof.
  constructor; cbn [go_gql told_gql q_object q_field q_possible q_value].
  - intros n H. destruct (own n) as [t|] eqn:O; [|congruence]. destruct (sr_own _ _ _ _ _ _ _ _ SR n t O) as (_ & _ & _ & Re & _).
    destruct (ds_struct _ _ _ _ _ _ _ _ _ _ DS n t O (KA t Re)) as (f & is & l & A & _). eauto.
  - intros n f r [(t & m & O & E & M)|H]; [|now left]. right. destruct (sr_own _ _ _ _ _ _ _ _ SR n t O) as (_ & _ & _ & Re & _).
    destruct (ds_struct _ _ _ _ _ _ _ _ _ _ DS n t O (KA t Re)) as (g & is & l & A & _ & (_ & Pm & F) & G).
    assert (In f (map qf_name l)) as J by (eapply Permutation_in; [apply Permutation_sym; exact Pm|change f with (fst (f, m)); now apply in_map]).
    apply in_map_iff in J. destruct J as (a & <- & Ia). destruct (F a Ia) as (m' & E' & M' & _). exists is, g, l, a. split; [exact A|]. split; [apply G|]. split; [exact Ia|]. split; [reflexivity|].
    assert (m' = m) as -> by (apply (nodup_fst (exposed P t) (qf_name a)); [apply keys_names, KA, Re|exact E'|exact E]). eapply member_ref_one; eauto.
  - intros n n' (i & t & Oi & O & J). destruct (sr_iown _ _ _ _ _ _ _ _ SR n i Oi) as (_ & _ & _ & Re & _).
    destruct (ds_iface _ _ _ _ _ _ _ _ _ _ DS n i Oi (KA i Re)) as (f & g & l & ts & A & _ & _ & St & G). unfold shows_types in St.
    assert (exists q, In q ts /\ exists n, own n = Some t /\ ref_of q = Named n) as (q & Iq & n2 & O2 & Rq).
    { clear A G. revert J. induction St as [|a q la lq H St IH]; [intros []|]. intros [J|J].
      - subst. exists q. split; [now left|exact H].
      - destruct (IH J) as (q' & X & Y). exists q'. split; [now right|exact Y]. }
    exists f, g, ts, q. split; [exact A|]. split; [apply G|]. split; [exact Iq|]. rewrite Rq. f_equal. eapply own_one; eauto.
  - intros n v (e & Ie & <- & Iv). destruct (ds_enum _ _ _ _ _ _ _ _ _ _ DS e Ie) as (f & l & A & _ & Pm & G). exists f, l. split; [exact A|]. split; [apply G|].
    eapply Permutation_in; [apply Permutation_sym; exact Pm|exact Iv].
Qed.
End Told.
