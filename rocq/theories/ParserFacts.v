(** * Consequences of the parser proofs in the form of the property list (proofs) *)
From Coq Require Import String Arith NArith Bool Lia ZifyBool ZifyN ZifyNat List.
From Verif Require Import Base ParserModel ParserSafe Ast Grammar RefParser RefLemmas RefGrammar SimDoc Printer PrinterProof TextPos ParserPos.
Import ListNotations.
Open Scope N_scope.

(** ** Accepted texts *)
Lemma accepted_denotes : forall q target s, parse_query q target = Parsed s -> p_errs s = [] ->
  exists d, g_doc d q /\ p_res s = enc_doc d /\ p_frags s = frag_locs 0 d /\ p_tgt s = target_loc target 0 d None.
Proof.
  intros q target s H E. destruct (parse_query_ref q target) as (s' & H' & R). rewrite H in H'. inversion H'; subst s'.
  destruct (ref_parse q) as [d|] eqn:P; [|contradiction]. exists d. apply ref_parse_spec in P. tauto.
Qed.
Lemma denotes_accepted : forall q target d, g_doc d q ->
  exists s, parse_query q target = Parsed s /\ p_errs s = [] /\ p_res s = enc_doc d /\ p_frags s = frag_locs 0 d /\
            p_tgt s = target_loc target 0 d None.
Proof.
  intros q target d G. apply ref_parse_spec in G. destruct (parse_query_ref q target) as (s & H & R). rewrite G in R. exists s. tauto.
Qed.
Lemma rejected : forall q target, (~ exists d, g_doc d q) -> exists s, parse_query q target = Parsed s /\ p_errs s <> [].
Proof.
  intros q target N. destruct (parse_query_ref q target) as (s & H & R). exists s. split; auto.
  destruct (ref_parse q) as [d|] eqn:P; auto. exfalso. apply N. exists d. now apply ref_parse_spec.
Qed.

(** ** The selected operation *)
Definition selected (target : option bytes) (x : definition) : Prop :=
  match x with
  | DFrag _ _ _ => False
  | DOp _ name _ _ _ => match target with None | Some [] => True | Some t => name = t end
  end.
Lemma op_selected_iff : forall t x, op_selected t x = true <-> selected t x.
Proof.
  intros t [k n a ds ss|]; cbn; [|split; [discriminate|tauto]]. destruct t as [[|c t]|]; try tauto.
  destruct (bytes_eq_dec n (c :: t)); split; auto; try discriminate; intros; contradiction.
Qed.
(** the last operation that is selected, and its place in the bytecode *)
Definition last_selected (target : option bytes) (d : document) (at_ : nat) : Prop :=
  exists d1 x d2, d = d1 ++ x :: d2 /\ selected target x /\ Forall (fun y => ~ selected target y) d2 /\ at_ = length (enc_doc d1).
Lemma target_loc_spec : forall target d off cur,
  match target_loc target off d cur with
  | Some n => (exists m, last_selected target d m /\ n = (off + m)%nat) \/ (Forall (fun y => ~ selected target y) d /\ cur = Some n)
  | None => Forall (fun y => ~ selected target y) d /\ cur = None
  end.
Proof.
  induction d as [|x d IH]; intros off cur; cbn [target_loc].
  - destruct cur; auto.
  - specialize (IH (off + length (enc_def x))%nat (if op_selected target x then Some off else cur)).
    destruct (target_loc _ _ _ _) as [n|].
    + destruct IH as [(m & (d1 & y & d2 & -> & S & F & ->) & ->)|[F E]].
      * left. exists (length (enc_doc (x :: d1))). split; [exists (x :: d1), y, d2; auto|]. unfold enc_doc. cbn [flat_map]. rewrite app_length. lia.
      * destruct (op_selected target x) eqn:S.
        { left. inversion E; subst. exists O. split; [|lia]. exists [], x, d. apply op_selected_iff in S. auto. }
        right. split; auto. constructor; auto. rewrite <- op_selected_iff. congruence.
    + destruct IH as [F E]. destruct (op_selected target x) eqn:S; [discriminate|]. split; auto. constructor; auto. rewrite <- op_selected_iff. congruence.
Qed.
Lemma target_chosen : forall q target d s, g_doc d q -> parse_query q target = Parsed s ->
  match p_tgt s with
  | Some n => last_selected target d n
  | None => Forall (fun y => ~ selected target y) d
  end.
Proof.
  intros q target d s G H. destruct (denotes_accepted q target d G) as (s' & H' & _ & _ & _ & T). rewrite H in H'. inversion H'; subst s'.
  rewrite T. pose proof (target_loc_spec target d 0 None) as L. destruct (target_loc target 0 d None).
  - destruct L as [(m & L & ->)|[_ L]]; [exact L|discriminate].
  - tauto.
Qed.

(** ** Locations *)
Lemma error_places : forall q target s e, parse_query q target = Parsed s -> In e (p_errs s) ->
  exists before, (exists after, q = before ++ after) /\ text_pos before (e_line e) (e_col e).
Proof.
  intros q target s e H I. destruct (parse_query_safe q target) as (s' & H' & L). rewrite H in H'. inversion H'; subst s'.
  rewrite Forall_forall in L. destruct (L e I) as (p & E). exists (firstn p q). split.
  - exists (skipn p q). symmetry. apply firstn_skipn.
  - now apply loc_text_pos.
Qed.
Lemma stop_place : forall q target s, parse_query q target = Parsed s ->
  (exists e es, p_errs s = es ++ [e] /\ text_pos (firstn (p_pos s) q) (e_line e) (e_col e)) \/ (length q <= p_pos s)%nat.
Proof.
  intros q target s H. destruct (parse_stop q target s H) as [(e & es & E & L)|L]; auto. left. exists e, es. split; auto. now apply loc_text_pos.
Qed.

(** ** Print then parse *)
Lemma print_parse : forall w d target, ignored w -> legal_doc d ->
  exists s, parse_query (print_doc w d) target = Parsed s /\ p_errs s = [] /\ p_res s = enc_doc d /\ p_frags s = frag_locs 0 d /\
            p_tgt s = target_loc target 0 d None.
Proof. intros. apply denotes_accepted. now apply print_in_grammar. Qed.

(** ** Arguments behind directives *)
Lemma g_dirs_closed : forall ds l r, g_dirs ds l r -> (exists x, r = cLPAR :: x) -> closed_dirs ds.
Proof.
  induction 1; intros; cbn; auto; try tauto.
  - destruct ds; [|now apply IHg_dirs]. inversion H3; subst. rewrite (skip_ign_again _ _ _ H1) in H5. destruct H4 as [x E]. inversion E; inversion H5; congruence.
  - destruct ds; [discriminate|now apply IHg_dirs].
Qed.
Lemma args_need_closed : forall al n ds fs ss l r, g_sel (SField al n ds (Some fs) ss) l r -> closed_dirs ds.
Proof. intros. inversion H; subst. eapply g_dirs_closed; eauto. inversion H10; subst. eauto. Qed.
