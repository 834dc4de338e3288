(** * The response to a whole request and the specification (proofs) *)
From Coq Require Import String Arith NArith ZArith Bool List Lia.
From Verif Require Import Base Json JsonModel Ast Grammar ReqModel Schema ResModel EnvModel Interp RunSim Facts Valid DocRun PropEnv Spec SpecLit SpecJson SpecVal SpecArgs SpecRun.
Import ListNotations.
Open Scope N_scope.

(** the field [n] of a type: by its name *)
Definition fname_of (f : Schema.field) : bytes := match f with Field _ _ _ n _ => n end.
Definition field_named (o : obj) (n : bytes) : option Schema.field :=
  option_map snd (find (fun e => beqb (fname_of (snd e)) n) (o_fields o)).
(** the fields of the schema are stored under the hash of their names (parse.go 428, 536) *)
Definition keyed (S : schema) : Prop := forall o e, reach S o -> In e (o_fields o) -> fst e = fnv1 (fname_of (snd e)).
(** [unambiguous S d]: no field name in the document has the hash of another name of a field *)
Definition unambiguous (S : schema) (d : document) : Prop := forall o e a n ds args subs, reach S o -> In e (o_fields o) ->
  in_doc (SField a n ds args subs) d -> fnv1 n = fnv1 (fname_of (snd e)) -> n = fname_of (snd e).
(** no fragment name is a proper prefix of the name of another fragment, where it is used *)
Definition spreads_exact (d : document) : Prop := forall n ds f, in_doc (SSpread n ds) d -> In f (frag_defs d) ->
  is_prefix n (fst (fst f)) = true -> fst (fst f) = n.
(** a list literal is only the last argument of a field without sub-selection *)
Definition lists_at_end (d : document) : Prop := forall a n ds args subs, in_doc (SField a n ds args subs) d -> lists_last (given args) subs.

Lemma lookup_named : forall l n, (forall e, In e l -> fst e = fnv1 (fname_of (snd e))) -> (forall e, In e l -> fnv1 n = fnv1 (fname_of (snd e)) -> n = fname_of (snd e)) ->
  nlookup l (fnv1 n) = option_map snd (find (fun e => beqb (fname_of (snd e)) n) l).
Proof.
  induction l as [|[h f] r IH]; intros n K U; [reflexivity|]. cbn [nlookup find snd]. assert (Kf : h = fnv1 (fname_of f)) by (apply (K (h, f)); now left). subst h.
  destruct (beqb (fname_of f) n) eqn:E.
  - apply beqb_eq in E. subst n. rewrite N.eqb_refl. reflexivity.
  - destruct (fnv1 n =? fnv1 (fname_of f)) eqn:E2.
    + apply N.eqb_eq in E2. apply (U (fnv1 (fname_of f), f)) in E2; [|now left]. cbn in E2. subst n. rewrite beqb_refl in E. discriminate.
    + apply IH; intros; [apply K|apply U]; auto; now right.
Qed.

Section Doc.
Context {W : Type}.
Variable X : externals W.
Variable S : schema.
Variable d : document.
Variable rawvars : bytes.
Hypothesis Hk : keyed S.
Hypothesis Hu : unambiguous S d.
Hypothesis Hs : spreads_exact d.
Hypothesis Hl : lists_at_end d.
Definition doc_name (n : bytes) : Prop := exists a ds args subs, in_doc (SField a n ds args subs) d.

Lemma look_doc : forall o n, reach S o -> doc_name n -> nlookup (o_fields o) (fnv1 n) = field_named o n.
Proof. intros o n R (a & ds & args & subs & I). apply lookup_named; intros; eauto. Qed.
Lemma fits_doc : forall y, In y d -> fits (frag_defs d) doc_name (sels_of y).
Proof.
  intros y I x Hx. assert (J : in_doc x d) by (exists y; auto). destruct x as [a n ds args subs|n ds|n ds subs]; cbn [fits_here]; auto.
  - split; [now exists a, ds, args, subs|]. now apply (Hl a n ds args subs).
  - intros f If P. now apply (Hs n ds).
Qed.
Lemma frags_fit_doc : forall f, In f (frag_defs d) -> fits (frag_defs d) doc_name (snd f).
Proof.
  intros f I. unfold frag_defs in I. apply in_flat_map in I. destruct I as (y & I & J). destruct y as [|n t ss]; [contradiction|]. destruct J as [<-|[]]. exact (fits_doc _ I).
Qed.
Lemma fine0 : forall w : W, vars_fine X rawvars (s0 w). Proof. left. reflexivity. Qed.

Lemma operation_fwd : forall op w ms w', In op d -> operation X S rawvars field_named d op w ms w' ->
  exists n, forall fuel, (n <= fuel)%nat -> exists s', b_operation X S rawvars d op fuel (s0 w) = BOk (ms, false) s' /\ r_errs s' = [] /\ r_world s' = w'.
Proof.
  intros op w ms w' I H. destruct op as [kd n decls [|? ?] ss|]; cbn [operation] in H; try contradiction. destruct H as [Nk H].
  destruct (proj1 (run_fwd X S rawvars decls (frag_defs d) field_named doc_name look_doc frags_fit_doc) _ _ _ _ _ _ _ _ _ H) as (m & Hm).
  - destruct kd; cbn; constructor.
  - exact (fits_doc _ I).
  - lia.
  - lia.
  - exists m. intros fuel L. destruct (Hm fuel L (s0 w) (fine0 w) eq_refl eq_refl) as (s' & E & (_ & Ee & _) & Ew). exists s'. cbn [b_operation]. destruct kd; [| |now contradiction Nk]; cbn in E; auto.
Qed.
Lemma operation_bwd : forall op w fuel ms c s', In op d -> b_operation X S rawvars d op fuel (s0 w) = BOk (ms, c) s' -> r_errs s' = [] ->
  c = false /\ operation X S rawvars field_named d op w ms (r_world s').
Proof.
  intros op w fuel ms c s' I H E. destruct op as [kd n decls ds ss|]; [|discriminate H]. cbn [b_operation] in H.
  assert (G : forall A (x : bytes) (f : bool -> @bm W A) a, bbind (lift (err x)) f (s0 w) = BOk a s' -> (forall b s, exists y, f b s = BOk y s) -> False).
  { intros A x f a Hx Hf. unfold bbind, lift in Hx. cbn in Hx. edestruct Hf as (y & Ey). rewrite Ey in Hx. injection Hx. intros <- _. discriminate E. }
  assert (Go : forall r rv0, reach S r -> b_sels X S rawvars decls (frag_defs d) fuel r 0 (false, rv0) 0 ss (s0 w) = BOk (ms, c) s' -> c = false /\ sels X S rawvars decls (frag_defs d) field_named [] r 0 (false, rv0) 0 w ss ms (r_world s')).
  { intros r rv0 R B. destruct (proj1 (run_bwd X S rawvars decls (frag_defs d) field_named doc_name look_doc frags_fit_doc fuel) [] r 0 (false, rv0) 0 w ss R (fits_doc _ I) ltac:(lia) ltac:(lia) (s0 w) _ _ (fine0 w) eq_refl eq_refl B E) as (_ & C & Hs'). auto. }
  cbn [operation]. destruct kd; destruct ds as [|? ?].
  1: { destruct (Go _ _ (reach_query S) H). split; auto. split; [discriminate|auto]. }
  2: { destruct (Go _ _ (reach_method S) H). split; auto. split; [discriminate|auto]. }
  all: exfalso; eapply G; [exact H|intros; eexists; reflexivity].
Qed.
End Doc.
