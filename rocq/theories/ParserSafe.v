(** * The parser model neither panics nor runs out of fuel (proofs) *)
From Coq Require Import String Arith NArith Bool Lia ZifyBool ZifyN ZifyNat List.
From Verif Require Import Base ParserModel.
Import ListNotations.
Open Scope N_scope.

(** ** Lists *)
Lemma upd_some : forall l n v, (n < length l)%nat -> exists r, upd l n v = Some r /\ length r = length l.
Proof.
  induction l; simpl; intros; [lia|]. destruct n; [eauto|].
  destruct (IHl n v ltac:(lia)) as (r & E & L). rewrite E. exists (a :: r). simpl. auto.
Qed.
Lemma upd_app_r : forall l n v r, upd (l ++ r) (length l + n) v =
  match upd r n v with Some r' => Some (l ++ r') | None => None end.
Proof. induction l; simpl; intros; [destruct (upd r n v); auto|]. rewrite IHl. destruct (upd r n v); auto. Qed.

Section Safe.
Variable q : bytes.
Variable target : option bytes.
Notation QL := (length q).

Definition located (e : perr) : Prop := exists p, loc_loop q 0 p None 1 0 = (e_line e, e_col e).

(** errors only grow, and every new one has a location *)
Definition eext (s s' : pst) : Prop := exists es, p_errs s' = p_errs s ++ es /\ Forall located es.
Definition eexts (s s' : pst) : Prop := exists es, p_errs s' = p_errs s ++ es /\ Forall located es /\ es <> [].
Definition ext (s s' : pst) : Prop :=
  (length (p_res s) <= length (p_res s'))%nat /\ (p_pos s <= p_pos s')%nat /\ eext s s'.
Definition crit (s s' : pst) : Prop :=
  (length (p_res s) <= length (p_res s'))%nat /\ (p_pos s <= p_pos s')%nat /\ eexts s s'.

Lemma eext_refl : forall s, eext s s.
Proof. intros. exists []. rewrite app_nil_r. auto. Qed.
Lemma eext_errs : forall s s', p_errs s' = p_errs s -> eext s s'.
Proof. intros. exists []. rewrite app_nil_r. auto. Qed.
Lemma eext_trans : forall a b c, eext a b -> eext b c -> eext a c.
Proof.
  intros a b c (e1 & H1 & F1) (e2 & H2 & F2). exists (e1 ++ e2). rewrite H2, H1, app_assoc. split; auto.
  now apply Forall_app.
Qed.
Lemma eexts_trans_r : forall a b c, eext a b -> eexts b c -> eexts a c.
Proof.
  intros a b c (e1 & H1 & F1) (e2 & H2 & F2 & N2). exists (e1 ++ e2). rewrite H2, H1, app_assoc. repeat split; auto.
  - now apply Forall_app.
  - destruct e1; simpl; auto; discriminate.
Qed.
Lemma eexts_eext : forall a b, eexts a b -> eext a b.
Proof. intros a b (e & H & F & N). exists e; auto. Qed.
Lemma ext_refl : forall s, ext s s.
Proof. intros. repeat split; auto. apply eext_refl. Qed.
Lemma ext_trans : forall a b c, ext a b -> ext b c -> ext a c.
Proof. unfold ext. intuition; try lia. eapply eext_trans; eauto. Qed.
Lemma crit_trans : forall a b c, ext a b -> crit b c -> crit a c.
Proof. unfold ext, crit. intuition; try lia. eapply eexts_trans_r; eauto. Qed.

(** ** Weakest preconditions *)
Definition wp {A} (m : M A) (s : pst) (Q : A -> pst -> Prop) (C : pst -> Prop) : Prop :=
  match m s with Ok a s' => Q a s' | Crit s' => C s' | Panic => False | NoFuel => False end.

Lemma wp_bind : forall A B (m : M A) (k : A -> M B) s Q C,
  wp m s (fun a s' => wp (k a) s' Q C) C -> wp (bind m k) s Q C.
Proof. unfold wp, bind. intros. destruct (m s); auto. Qed.
Lemma wp_mono : forall A (m : M A) s (Q Q' : A -> pst -> Prop) C,
  wp m s Q' C -> (forall a s', Q' a s' -> Q a s') -> wp m s Q C.
Proof. unfold wp. intros. destruct (m s); auto. Qed.
Lemma wp_crit : forall A (m : M A) s Q (C C' : pst -> Prop),
  wp m s Q C' -> (forall s', C' s' -> C s') -> wp m s Q C.
Proof. unfold wp. intros. destruct (m s); auto. Qed.
(** using a specification relative to the current state in a context with an older one *)
Lemma wp_use : forall A (m : M A) b s (Q Q' : A -> pst -> Prop),
  wp m s Q' (crit s) -> ext b s -> (forall a s', Q' a s' -> Q a s') -> wp m s Q (crit b).
Proof.
  intros. eapply wp_crit; [eapply wp_mono; eauto|]. intros. eapply crit_trans; eauto.
Qed.

Lemma wp_ret : forall A (a : A) s (Q : A -> pst -> Prop) (C : pst -> Prop), Q a s -> wp (ret a) s Q C.
Proof. auto. Qed.
Lemma wp_append : forall b s (Q : unit -> pst -> Prop) (C : pst -> Prop), Q tt (set_res (p_res s ++ b) s) -> wp (append b) s Q C.
Proof. auto. Qed.
Lemma wp_res_len : forall s (Q : nat -> pst -> Prop) (C : pst -> Prop), Q (length (p_res s)) s -> wp res_len s Q C.
Proof. auto. Qed.
Lemma wp_advance : forall s (Q : unit -> pst -> Prop) (C : pst -> Prop), Q tt (set_pos (S (p_pos s)) s) -> wp advance s Q C.
Proof. auto. Qed.
Lemma wp_retreat : forall s (Q : unit -> pst -> Prop) (C : pst -> Prop), Q tt (set_pos (pred (p_pos s)) s) -> wp retreat s Q C.
Proof. auto. Qed.
Lemma wp_get_pos : forall s (Q : nat -> pst -> Prop) (C : pst -> Prop), Q (p_pos s) s -> wp get_pos s Q C.
Proof. auto. Qed.
Lemma wp_put_pos : forall n s (Q : unit -> pst -> Prop) (C : pst -> Prop), Q tt (set_pos n s) -> wp (put_pos n) s Q C.
Proof. auto. Qed.
Lemma wp_peek : forall s (Q : option N -> pst -> Prop) (C : pst -> Prop), Q (nth_error q (p_pos s)) s -> wp (peek q) s Q C.
Proof. auto. Qed.
Lemma wp_peek_next : forall s (Q : option N -> pst -> Prop) (C : pst -> Prop), Q (nth_error q (S (p_pos s))) s -> wp (peek_next q) s Q C.
Proof. auto. Qed.
Lemma wp_store : forall n v s (Q : unit -> pst -> Prop) C, (n < length (p_res s))%nat ->
  (forall r, length r = length (p_res s) -> Q tt (set_res r s)) -> wp (store n v) s Q C.
Proof. unfold wp, store. intros. destruct (upd_some (p_res s) n v H) as (r & E & L). rewrite E. auto. Qed.
Lemma wp_current : forall s (Q : N -> pst -> Prop) C, (p_pos s < QL)%nat ->
  (forall c, nth_error q (p_pos s) = Some c -> Q c s) -> wp (current_c q) s Q C.
Proof.
  unfold wp, current_c, check_c. intros. destruct (nth_error q (p_pos s)) eqn:E; auto.
  apply nth_error_None in E. lia.
Qed.
Lemma wp_err : forall A msg b s (Q : A -> pst -> Prop), ext b s -> wp (err q msg) s Q (crit b).
Proof.
  unfold wp, err. intros. destruct (loc_loop q 0 (p_pos s) None 1 0) as [ln co] eqn:E.
  eapply crit_trans; eauto. repeat split; simpl; auto. exists [PErr msg ln co]. repeat split; try easy.
  repeat constructor. exists (p_pos s). simpl. auto.
Qed.
Lemma wp_eof : forall A b s (Q : A -> pst -> Prop), ext b s -> wp (unexpected_eof q) s Q (crit b).
Proof. intros. now apply wp_err. Qed.
Lemma wp_err_cur : forall A x y b s (Q : A -> pst -> Prop), ext b s -> (p_pos s < QL)%nat ->
  wp (err_cur q x y) s Q (crit b).
Proof. intros. unfold err_cur. apply wp_bind. apply wp_current; auto. intros. now apply wp_err. Qed.

Lemma trim_rev_kept : forall x pre, exists l y, trim_rev (rev (pre ++ [0] ++ x)) = Some l /\ rev l = pre ++ [0] ++ y.
Proof.
  intros. rewrite app_assoc, rev_app_distr.
  assert (H : forall z, exists l y, trim_rev (z ++ rev (pre ++ [0])) = Some l /\ l = y ++ rev (pre ++ [0])).
  { induction z; simpl.
    - rewrite rev_app_distr. simpl. eexists; exists []; split; eauto.
    - destruct ((a =? cLF) || (a =? cCR) || (a =? cSP)); auto. eexists; exists (a :: z); split; eauto. }
  destruct (H (rev x)) as (l & y & E1 & E2). exists l, (rev y). split; auto.
  rewrite E2, rev_app_distr, rev_involutive. now rewrite <- app_assoc.
Qed.

Lemma wp_trim_end : forall pre x s (Q : unit -> pst -> Prop) (C : pst -> Prop), p_res s = pre ++ [0] ++ x ->
  (forall y, Q tt (set_res (pre ++ [0] ++ y) s)) -> wp block_trim_end s Q C.
Proof.
  intros. unfold wp, block_trim_end. rewrite H. destruct (trim_rev_kept x pre) as (l & y & E1 & E2).
  rewrite E1, E2. auto.
Qed.
Lemma wp_with_count : forall n (m : M unit) s (Q : bool -> pst -> Prop) C,
  wp m s (fun _ s' => Q false s') (fun s' => Q true s') -> wp (with_count n m) s Q C.
Proof. unfold wp, with_count. intros. destruct (m s); auto. Qed.

Lemma wp_catch : forall (m : M unit) s (Q : unit -> pst -> Prop) C,
  wp m s Q (fun s' => Q tt s') -> wp (catch m) s Q C.
Proof. unfold wp, catch. intros. destruct (m s) as [[]| | |]; auto. Qed.

Lemma wp_drop12 : forall s (Q : unit -> pst -> Prop) (C : pst -> Prop), (12 <= length (p_res s))%nat ->
  (forall r, length r = (length (p_res s) - 12)%nat -> Q tt (set_res r s)) -> wp drop12 s Q C.
Proof.
  intros. unfold wp, drop12. replace (12 <=? length (p_res s))%nat with true by lia. apply H0.
  rewrite firstn_length. lia.
Qed.
Lemma wp_hash0 : forall from n at_ s (Q : unit -> pst -> Prop) C, (from + n <= length (p_res s))%nat ->
  (forall v, wp (write32 v at_) s Q C) -> wp (hash_name from n at_) s Q C.
Proof.
  intros. unfold wp, hash_name. replace (from + n <=? length (p_res s))%nat with true by lia. apply H0.
Qed.
Lemma wp_raise : forall A s (Q : A -> pst -> Prop) (C : pst -> Prop), C s -> wp (fun s => Crit s) s Q C.
Proof. auto. Qed.
Lemma wp_from : forall n s (Q : bytes -> pst -> Prop) (C : pst -> Prop), Q (skipn n (p_res s)) s -> wp (res_from n) s Q C.
Proof. auto. Qed.
Lemma wp_set_target : forall n s (Q : unit -> pst -> Prop) (C : pst -> Prop),
  Q tt (PS (p_res s) (p_frags s) (p_pos s) (p_errs s) (Some n)) -> wp (set_target n) s Q C.
Proof. auto. Qed.
Lemma wp_push : forall s (Q : unit -> pst -> Prop) (C : pst -> Prop),
  (forall fr, Q tt (PS (p_res s) fr (p_pos s) (p_errs s) (p_tgt s))) -> wp push_fragment s Q C.
Proof. intros. apply H. Qed.
Opaque wp.

Ltac st := cbn [set_res set_pos p_res p_pos p_errs p_frags p_tgt] in *.

Lemma ext_set : forall b s r p, ext b s -> (length (p_res b) <= length r)%nat -> (p_pos b <= p)%nat ->
  ext b (PS r (p_frags s) p (p_errs s) (p_tgt s)).
Proof. unfold ext. intros. st. intuition. Qed.
Lemma ext_set_pos : forall b s p, ext b s -> (p_pos b <= p)%nat -> ext b (set_pos p s).
Proof. intros. apply ext_set; auto. destruct H; auto. Qed.
Lemma ext_set_res : forall b s r, ext b s -> (length (p_res b) <= length r)%nat -> ext b (set_res r s).
Proof. intros. apply ext_set; auto. unfold ext in H. intuition. Qed.
Lemma ext_res : forall b s, ext b s -> (length (p_res b) <= length (p_res s))%nat.
Proof. unfold ext; intuition. Qed.
Lemma ext_pos : forall b s, ext b s -> (p_pos b <= p_pos s)%nat.
Proof. unfold ext; intuition. Qed.

(** collects the arithmetic of all [ext] hypotheses and solves *)
Ltac facts :=
  repeat match goal with
  | H : ext ?a ?b |- _ =>
      lazymatch goal with
      | _ : (length (p_res a) <= length (p_res b))%nat |- _ => fail
      | _ => pose proof (ext_res _ _ H); pose proof (ext_pos _ _ H)
      end
  end.
Ltac arith := facts; st; rewrite ?app_length in *; cbn [length] in *; rewrite ?app_length in *; cbn [length] in *; lia.
Ltac ex :=
  solve [ apply ext_refl
        | eassumption
        | match goal with
          | |- ext ?b (set_pos ?p ?s) => apply ext_set_pos; [ex | arith]
          | |- ext ?b (set_res ?r ?s) => apply ext_set_res; [ex | arith]
          | H : ext ?a ?s |- ext ?b ?s => tryif constr_eq a b then fail else (apply (ext_trans b a s); [ex | exact H])
          end ].

Lemma wp_next_char : forall b s (Q : N -> pst -> Prop), ext b s ->
  (forall c, nth_error q (p_pos s) = Some c -> (p_pos s < QL)%nat -> Q c s) -> wp (next_char q) s Q (crit b).
Proof.
  intros. unfold next_char. apply wp_bind, wp_peek. destruct (nth_error q (p_pos s)) eqn:E.
  - apply wp_ret, H0; auto. apply nth_error_Some. congruence.
  - now apply wp_eof.
Qed.

(** ** Ignored tokens *)
Definition moved (s s' : pst) (p : nat) : Prop := s' = set_pos p s /\ (p_pos s <= p)%nat.

Lemma wp_line_term : forall s C (Q : bool -> pst -> Prop), (p_pos s < QL)%nat ->
  (forall t p, (p_pos s <= p < QL)%nat -> (t = false -> p = p_pos s) -> Q t (set_pos p s)) ->
  wp (is_line_terminator q) s Q C.
Proof.
  intros. unfold is_line_terminator. apply wp_bind, wp_current; auto. intros.
  assert (E : set_pos (p_pos s) s = s) by (destruct s; reflexivity).
  assert (D : forall t, Q t s) by (intros; rewrite <- E; apply H0; auto; lia).
  destruct (c =? cLF). { now apply wp_ret. }
  destruct (c =? cCR). 2:{ now apply wp_ret. }
  apply wp_bind, wp_peek_next. apply wp_bind. destruct (nth_error q (S (p_pos s))) eqn:E2.
  - destruct (n =? cLF).
    + apply wp_advance, wp_ret. apply H0; [|easy]. assert (S (p_pos s) < QL)%nat by (apply nth_error_Some; congruence). lia.
    + now apply wp_ret, wp_ret.
  - now apply wp_ret, wp_ret.
Qed.

Lemma wp_comment : forall f s C (Q : unit -> pst -> Prop), (QL - p_pos s < f)%nat ->
  (forall p, (p_pos s <= p)%nat -> Q tt (set_pos p s)) -> wp (parse_comment q f) s Q C.
Proof.
  induction f; intros; [lia|]. cbn [parse_comment]. apply wp_bind, wp_peek.
  assert (E : set_pos (p_pos s) s = s) by (destruct s; reflexivity).
  destruct (nth_error q (p_pos s)) eqn:E1.
  - assert (p_pos s < QL)%nat by (apply nth_error_Some; congruence).
    apply wp_bind, wp_line_term; auto. intros. destruct t.
    + apply wp_ret. apply H0. lia.
    + apply wp_bind, wp_advance. apply IHf; st; try lia. intros. apply H0. lia.
  - apply wp_ret. rewrite <- E. apply H0. lia.
Qed.

Lemma wp_is_comment : forall s C (Q : bool -> pst -> Prop), (p_pos s < QL)%nat ->
  (forall t p, (p_pos s <= p)%nat -> (t = false -> p = p_pos s) -> Q t (set_pos p s)) ->
  wp (is_comment q) s Q C.
Proof.
  intros. unfold is_comment. apply wp_bind, wp_current; auto. intros.
  assert (E : set_pos (p_pos s) s = s) by (destruct s; reflexivity).
  destruct (c =? cHASH).
  - apply wp_bind, wp_comment. { unfold char_fuel. lia. } intros. apply wp_ret. apply H0; [auto|easy].
  - apply wp_ret. rewrite <- E. apply H0; auto.
Qed.

Lemma wp_ignored : forall c s C (Q : bool -> pst -> Prop), (p_pos s < QL)%nat ->
  (forall t p, (p_pos s <= p)%nat -> (t = false -> p = p_pos s) -> Q t (set_pos p s)) ->
  wp (is_ignored_token q c) s Q C.
Proof.
  intros. unfold is_ignored_token.
  assert (E : set_pos (p_pos s) s = s) by (destruct s; reflexivity).
  destruct ((c =? cSP) || (c =? cTAB)). { apply wp_ret. rewrite <- E. apply H0; auto. }
  apply wp_bind, wp_line_term; auto. intros. destruct t. { apply wp_ret, H0; [lia|easy]. }
  rewrite H2, E by auto. apply wp_bind, wp_is_comment; auto. intros. destruct t. { apply wp_ret, H0; [lia|easy]. }
  apply wp_ret, H0; [lia|auto].
Qed.

Lemma wp_skip_loop : forall f s C (Q : option N -> pst -> Prop), (QL - p_pos s < f)%nat ->
  (forall o p, (p_pos s <= p)%nat -> (o <> None -> p < QL)%nat -> o = nth_error q p -> Q o (set_pos p s)) ->
  wp (skip_ignored_loop q f) s Q C.
Proof.
  induction f; intros; [lia|]. cbn [skip_ignored_loop]. apply wp_bind, wp_peek.
  assert (E : set_pos (p_pos s) s = s) by (destruct s; reflexivity).
  destruct (nth_error q (p_pos s)) eqn:E1.
  - assert (p_pos s < QL)%nat by (apply nth_error_Some; congruence).
    apply wp_bind, wp_ignored; auto. intros. destruct t.
    + apply wp_bind, wp_advance. apply IHf; st; try lia. intros. apply H0; auto. lia.
    + apply wp_ret. apply H0; try lia. rewrite H3; auto.
  - apply wp_ret. rewrite <- E. apply H0; auto. easy.
Qed.
Lemma wp_might_ignore : forall s C (Q : option N -> pst -> Prop),
  (forall o p, (p_pos s <= p)%nat -> (o <> None -> p < QL)%nat -> o = nth_error q p -> Q o (set_pos p s)) ->
  wp (might_ignore q) s Q C.
Proof. intros. apply wp_skip_loop; auto. unfold char_fuel. lia. Qed.
Lemma wp_next_token : forall b s (Q : N -> pst -> Prop), ext b s ->
  (forall c p, (p_pos s <= p < QL)%nat -> nth_error q p = Some c -> ext b (set_pos p s) -> Q c (set_pos p s)) ->
  wp (next_token q) s Q (crit b).
Proof.
  intros. unfold next_token. apply wp_bind, wp_might_ignore. intros. destruct o.
  - apply wp_ret, H0; auto. { split; auto. apply H2. discriminate. } ex.
  - apply wp_eof. ex.
Qed.

(** ** Keywords and names *)
Lemma wp_matches1_loop : forall key start s C (Q : bool -> pst -> Prop), key <> [] ->
  (forall p, (p_pos s < p)%nat -> Q true (set_pos p s)) -> Q false (set_pos start s) ->
  wp (matches1_loop q start key) s Q C.
Proof.
  induction key; intros; [easy|]. cbn [matches1_loop]. apply wp_bind, wp_peek.
  destruct (nth_error q (p_pos s)). 2:{ now apply wp_bind, wp_put_pos, wp_ret. }
  destruct (negb (a =? n)). { now apply wp_bind, wp_put_pos, wp_ret. }
  destruct key.
  - apply wp_bind, wp_advance, wp_ret. apply H0. lia.
  - apply wp_bind, wp_advance. apply IHkey; [easy| |]; st; intros.
    + apply H0. lia.
    + assumption.
Qed.
Lemma wp_matches1 : forall key s C (Q : bool -> pst -> Prop), bs key <> [] ->
  (forall p, (p_pos s < p)%nat -> Q true (set_pos p s)) -> Q false s ->
  wp (matches1 q key) s Q C.
Proof.
  intros. unfold matches1. apply wp_bind, wp_get_pos. apply wp_matches1_loop; auto.
  destruct s; exact H1.
Qed.

Lemma wp_matchesN_loop : forall f start keys last s C (Q : option nat -> pst -> Prop), (QL - p_pos s < f)%nat ->
  (forall i p, (p_pos s < p)%nat -> Q (Some i) (set_pos p s)) -> Q None (set_pos start s) ->
  wp (matchesN_loop q f start keys last) s Q C.
Proof.
  induction f; intros; [lia|]. cbn [matchesN_loop]. apply wp_bind, wp_get_pos, wp_bind, wp_peek.
  destruct (nth_error q (p_pos s)) eqn:E. 2:{ now apply wp_bind, wp_put_pos, wp_ret. }
  assert (p_pos s < QL)%nat by (apply nth_error_Some; congruence).
  destruct (match_round keys 0 (p_pos s - start) n) as [[keys' ch] [i|]].
  - apply wp_bind, wp_advance, wp_ret. apply H0. lia.
  - destruct (last || ch).
    + apply wp_bind, wp_advance. apply IHf; st; try lia.
      * intros. apply H0. lia.
      * assumption.
    + now apply wp_bind, wp_put_pos, wp_ret.
Qed.
Lemma wp_matchesN : forall keys s C (Q : option nat -> pst -> Prop),
  (forall i p, (p_pos s < p)%nat -> Q (Some i) (set_pos p s)) -> Q None s ->
  wp (matchesN q keys) s Q C.
Proof.
  intros. unfold matchesN. apply wp_bind, wp_get_pos. apply wp_matchesN_loop; auto.
  - unfold char_fuel; lia.
  - destruct s; exact H0.
Qed.
Lemma wp_word_check : forall A start (a none : A) s C (Q : A -> pst -> Prop),
  Q a s -> Q none (set_pos start s) -> wp (word_check q start a none) s Q C.
Proof.
  intros. unfold word_check. apply wp_bind, wp_peek. destruct (nth_error q (p_pos s)).
  - destruct (name_char n). + now apply wp_bind, wp_put_pos, wp_ret. + now apply wp_ret.
  - now apply wp_ret.
Qed.
Lemma wp_matches_word1 : forall key s C (Q : bool -> pst -> Prop), bs key <> [] ->
  (forall p, (p_pos s < p)%nat -> Q true (set_pos p s)) -> Q false s -> wp (matches_word1 q key) s Q C.
Proof.
  intros. unfold matches_word1. apply wp_bind, wp_get_pos, wp_bind, wp_matches1; auto.
  - intros. apply wp_word_check; auto. destruct s; exact H1.
Qed.
Lemma wp_matches_wordN : forall keys s C (Q : option nat -> pst -> Prop),
  (forall i p, (p_pos s < p)%nat -> Q (Some i) (set_pos p s)) -> Q None s -> wp (matches_wordN q keys) s Q C.
Proof.
  intros. unfold matches_wordN. apply wp_bind, wp_get_pos, wp_bind, wp_matchesN; auto.
  - intros. apply wp_word_check; auto. destruct s; exact H0.
Qed.

Lemma wp_name_loop : forall f n b s (Q : N -> pst -> Prop), ext b s -> (QL - p_pos s < f)%nat -> n < 255 ->
  (forall n' r p, n <= n' -> n' < 255 -> length r = (length (p_res s) + N.to_nat n' - N.to_nat n)%nat ->
     (p_pos s <= p < QL)%nat -> ext b (PS r (p_frags s) p (p_errs s) (p_tgt s)) ->
     Q n' (PS r (p_frags s) p (p_errs s) (p_tgt s))) ->
  wp (name_loop q f n) s Q (crit b).
Proof.
  induction f; intros; [lia|]. cbn [name_loop]. apply wp_bind, wp_next_char; auto. intros.
  destruct (name_char c).
  - apply wp_bind, wp_append, wp_bind, wp_advance. destruct (n + 1 =? 255) eqn:E.
    + apply wp_err. ex.
    + apply IHf; st; try lia.
      * change (ext b (set_pos (S (p_pos s)) (set_res (p_res s ++ [c]) s))). ex.
      * intros. apply H2; auto; try lia. rewrite app_length in H7; simpl in H7. lia.
  - apply wp_ret. assert (E : s = PS (p_res s) (p_frags s) (p_pos s) (p_errs s) (p_tgt s)) by (destruct s; reflexivity).
    rewrite E at 1. apply H2; auto; try lia.
Qed.
Lemma wp_name : forall b s (Q : N -> pst -> Prop), ext b s ->
  ((p_pos s < QL)%nat -> Q 0 s) ->
  (forall n' r p, 0 < n' -> n' < 255 -> length r = (length (p_res s) + N.to_nat n')%nat ->
     (p_pos s < p < QL)%nat -> ext b (PS r (p_frags s) p (p_errs s) (p_tgt s)) ->
     Q n' (PS r (p_frags s) p (p_errs s) (p_tgt s))) ->
  wp (parse_name q) s Q (crit b).
Proof.
  intros. unfold parse_name. apply wp_bind, wp_next_char; auto. intros. destruct (name_start c).
  - apply wp_bind, wp_append, wp_bind, wp_advance.
    apply wp_name_loop; st; try (unfold char_fuel; lia).
    + change (ext b (set_pos (S (p_pos s)) (set_res (p_res s ++ [c]) s))). ex.
    + intros. apply H1; auto; try lia. rewrite app_length in H6; simpl in H6. lia.
  - apply wp_ret; auto.
Qed.

Lemma wp_write32 : forall v n s (Q : unit -> pst -> Prop) C, (n + 3 < length (p_res s))%nat ->
  (forall r, length r = length (p_res s) -> Q tt (set_res r s)) -> wp (write32 v n) s Q C.
Proof.
  intros. unfold write32.
  apply wp_bind, wp_store; [lia|]. intros. apply wp_bind, wp_store; [st; lia|]. intros.
  apply wp_bind, wp_store; [st; lia|]. intros. apply wp_store; [st; lia|]. intros.
  st. apply H0. lia.
Qed.
Lemma wp_write_len : forall start back s (Q : unit -> pst -> Prop) C,
  (start <= length (p_res s))%nat -> (4 <= back <= start)%nat ->
  (forall r, length r = length (p_res s) -> Q tt (set_res r s)) -> wp (write_len start back) s Q C.
Proof. intros. unfold write_len. apply wp_bind, wp_res_len, wp_write32; auto. lia. Qed.

(** ** Numbers *)
Definition ended (s : pst) : Prop := True.

Lemma wp_num_end : forall c b s (Q : bool -> pst -> Prop), ext b s -> (p_pos s < QL)%nat ->
  (forall t s', ext s s' -> length (p_res s') = length (p_res s) -> Q t s') ->
  wp (if is_punctuator c then ret true else
        ig <- is_ignored_token q c ;; if ig : bool then ret true else ret (c =? cCOMMA)) s Q (crit b).
Proof.
  intros. destruct (is_punctuator c). { apply wp_ret, H1; auto. apply ext_refl. }
  apply wp_bind, wp_ignored; auto. intros.
  destruct t; apply wp_ret, H1; auto; ex.
Qed.

Lemma wp_num_int : forall f c b s (Q : option N -> pst -> Prop), ext b s -> (p_pos s < QL)%nat ->
  (QL - p_pos s < f)%nat ->
  (forall o s', ext s s' -> ext b s' -> (o <> None -> p_pos s' < QL)%nat ->
     (digit c = true -> p_pos s < p_pos s')%nat -> (c = cDOT -> o <> None) -> Q o s') ->
  wp (num_int_loop q f c) s Q (crit b).
Proof.
  induction f; intros; [lia|]. cbn [num_int_loop]. cbv zeta.
  assert (K : forall s1 (Q1 : option N -> pst -> Prop), ext b s1 -> ext s s1 -> p_pos s1 = p_pos s ->
    (forall o s', ext s s' -> ext b s' -> (o <> None -> p_pos s' < QL)%nat -> (p_pos s < p_pos s')%nat -> Q1 o s') ->
    wp (advance;;; (c' <- next_char q;; num_int_loop q f c')) s1 Q1 (crit b)).
  { intros. apply wp_bind, wp_advance, wp_bind, wp_next_char; [ex|]. intros.
    apply IHf; st; try lia; [ex|]. intros. apply H6; auto; [ex|arith]. }
  destruct (digit c) eqn:Ed.
  - apply wp_bind, wp_append. apply K; [ex|ex|reflexivity|]. intros. apply H2; auto. intros; subst; discriminate.
  - destruct ((c =? cDOT) || (c =? 101) || (c =? 69)) eqn:Ee.
    + apply wp_ret, H2; auto; try easy. apply ext_refl.
    + destruct (c =? cUND) eqn:Eu.
      * apply K; [auto|apply ext_refl|reflexivity|]. intros. apply H2; auto. intros; subst; discriminate.
      * apply wp_bind. apply wp_num_end; auto. intros. destruct t.
        -- apply wp_ret, H2; auto; try easy. ex. intros; subst; discriminate.
        -- apply wp_err. ex.
Qed.
Lemma wp_num_frac : forall f b s (Q : option N -> pst -> Prop), ext b s ->
  (QL - p_pos s < f)%nat ->
  (forall o s', ext s s' -> ext b s' -> (o <> None -> p_pos s' < QL)%nat -> (p_pos s < p_pos s')%nat -> Q o s') ->
  wp (num_frac_loop q f) s Q (crit b).
Proof.
  induction f; intros; [lia|]. cbn [num_frac_loop].
  apply wp_bind, wp_advance, wp_bind, wp_next_char; [ex|]. intros. st.
  assert (K : forall s1, ext b s1 -> ext s s1 -> p_pos s1 = S (p_pos s) -> wp (num_frac_loop q f) s1 Q (crit b)).
  { intros. apply IHf; auto; [lia|]. intros. apply H1; auto; [ex|]. arith. }
  destruct (digit c). { apply wp_bind, wp_append. apply K; auto; ex. }
  destruct ((c =? 101) || (c =? 69)). { apply wp_ret, H1; auto; try ex. }
  destruct (c =? cUND). { apply K; auto; ex. }
  destruct (c =? cDOT). { apply wp_err. ex. }
  apply wp_bind. apply wp_num_end; st; auto; [ex|]. intros. destruct t.
  - apply wp_ret, H1; try easy. 3: arith. all: (eapply ext_trans; [|eassumption]); ex.
  - apply wp_err. eapply ext_trans; [|eassumption]. ex.
Qed.
Lemma wp_num_exp : forall f c b s (Q : unit -> pst -> Prop), ext b s -> (p_pos s < QL)%nat ->
  (QL - p_pos s < f)%nat ->
  (forall s', ext s s' -> ext b s' -> Q tt s') ->
  wp (num_exp_loop q f c) s Q (crit b).
Proof.
  induction f; intros; [lia|]. cbn [num_exp_loop]. cbv zeta.
  assert (K : forall s1, ext b s1 -> ext s s1 -> p_pos s1 = p_pos s ->
    wp (advance;;; (c' <- next_char q;; num_exp_loop q f c')) s1 Q (crit b)).
  { intros. apply wp_bind, wp_advance, wp_bind, wp_next_char; [ex|]. intros.
    apply IHf; st; try lia; [ex|]. intros. apply H2; auto.
    ex. }
  destruct (digit c) eqn:Ed. { apply wp_bind, wp_append. apply K; [ex|ex|reflexivity]. }
  destruct ((c =? 101) || (c =? 69) || (c =? cDOT)) eqn:Ee. { apply wp_err. auto. }
  destruct (c =? cUND) eqn:Eu. { apply K; [auto|apply ext_refl|reflexivity]. }
  apply wp_bind. apply wp_num_end; auto. intros. destruct t.
  - apply wp_ret, H2; auto; ex.
  - apply wp_err. ex.
Qed.

(** the specification of a step that consumes something *)
Definition eats {A} (b s : pst) (Q : A -> pst -> Prop) : Prop :=
  forall a s', ext s s' -> ext b s' -> (p_pos s < p_pos s')%nat -> Q a s'.

Lemma wp_number : forall b s (Q : unit -> pst -> Prop) c, ext b s -> (p_pos s < QL)%nat ->
  nth_error q (p_pos s) = Some c -> (c =? cMINUS) || (c =? cPLUS) || (c =? cDOT) || digit c = true ->
  eats b s Q -> wp (parse_number q) s Q (crit b).
Proof.
  intros. unfold parse_number. apply wp_bind, wp_append, wp_bind, wp_res_len. cbv zeta.
  apply wp_bind, wp_current; [auto|]. intros c0 Hc. st. rewrite H1 in Hc. injection Hc as <-.
  set (start := length (p_res s ++ [0; 118; 105; 0; 0; 0; 0])) in *.
  assert (Hs : (start = length (p_res s) + 7)%nat) by (unfold start; rewrite app_length; simpl; lia).
  clearbody start. apply wp_bind.
  assert (K : forall c1 s1, ext s s1 -> ext b s1 -> (start <= length (p_res s1))%nat -> (p_pos s1 < QL)%nat ->
     (digit c1 = true \/ c1 = cDOT \/ p_pos s < p_pos s1)%nat ->
     wp (stop <- num_int_loop q (char_fuel q) c1;;
  match stop with
  | Some c2 =>
      stop0 <-
      (if c2 =? cDOT
       then store (start - 5) 102;;; (append [cDOT];;; num_frac_loop q (char_fuel q))
       else ret (Some c2));;
      match stop0 with
      | Some _ =>
          store (start - 5) 102;;;
          (append [69];;;
           (advance;;;
            (c3 <- next_char q;;
             c4 <-
             (if (c3 =? cPLUS) || (c3 =? cMINUS)
              then (if c3 =? cMINUS then append [c3] else ret tt);;; (advance;;; next_char q)
              else ret c3);; num_exp_loop q (char_fuel q) c4;;; write_len start 4)))
      | None => write_len start 4
      end
  | None => write_len start 4
  end) s1 Q (crit b)).
  { intros. apply wp_bind, wp_num_int; auto. { unfold char_fuel. lia. } intros o s2 E2 E3 O2 D2 N2.
    assert (W : forall s3, ext s1 s3 -> ext b s3 -> (p_pos s < p_pos s3)%nat -> wp (write_len start 4) s3 Q (crit b)).
    { intros. apply wp_write_len; [arith|arith|]. intros. apply H3; try ex. }
    destruct o as [c2|].
    2:{ apply W; auto. destruct H8 as [H8|[H8|H8]]; [|exfalso; apply N2; auto|]; [apply D2 in H8|]; arith. }
    apply wp_bind.
    assert (X : forall s3, ext s1 s3 -> ext b s3 -> (p_pos s3 < QL)%nat -> wp
       (store (start - 5) 102;;;
          (append [69];;;
           (advance;;;
            (c3 <- next_char q;;
             c4 <-
             (if (c3 =? cPLUS) || (c3 =? cMINUS)
              then (if c3 =? cMINUS then append [c3] else ret tt);;; (advance;;; next_char q)
              else ret c3);; num_exp_loop q (char_fuel q) c4;;; write_len start 4)))) s3 Q (crit b)).
    { intros. apply wp_bind, wp_store; [arith|]. intros. apply wp_bind, wp_append, wp_bind, wp_advance, wp_bind, wp_next_char.
      { ex. }
      intros c3 Hc3 Lc3. apply wp_bind. assert (Y : forall c4 s4, ext s3 s4 -> ext b s4 -> (p_pos s4 < QL)%nat -> (p_pos s3 < p_pos s4)%nat ->
         wp (num_exp_loop q (char_fuel q) c4;;; write_len start 4) s4 Q (crit b)).
      { intros. apply wp_bind, wp_num_exp; auto. { unfold char_fuel; lia. } intros. apply W; auto; [ex|arith]. }
      destruct ((c3 =? cPLUS) || (c3 =? cMINUS)).
      - apply wp_bind. destruct (c3 =? cMINUS).
        + apply wp_append, wp_bind, wp_advance, wp_next_char; [ex|]. intros. apply Y; auto; try ex; try arith.
        + apply wp_ret, wp_bind, wp_advance, wp_next_char; [ex|]. intros. apply Y; auto; try ex; try arith.
      - apply wp_ret. apply Y; auto; try ex; try arith. }
    destruct (c2 =? cDOT).
    - apply wp_bind, wp_store; [arith|]. intros. apply wp_bind, wp_append, wp_num_frac; [ex|unfold char_fuel; lia|]. intros.
      assert (ext s1 s') by (eapply ext_trans; [|exact H10]; ex).
      destruct o.
      + apply X; auto. apply H12. discriminate.
      + apply W; auto. arith.
    - apply wp_ret. apply X; auto. apply O2. discriminate. }
  destruct (c =? cMINUS) eqn:E1.
  - apply wp_bind, wp_advance, wp_bind, wp_append, wp_next_char; [ex|]. intros. apply K; try ex; auto; arith.
  - destruct (c =? cPLUS) eqn:E2.
    + apply wp_bind, wp_advance, wp_next_char; [ex|]. intros. apply K; try ex; auto; arith.
    + cbn [orb] in H2. assert (H2' : digit c = true \/ c = cDOT).
      { apply orb_true_iff in H2 as [H2|H2]; auto. right. now apply N.eqb_eq. }
      apply wp_ret. apply K; try ex; auto; try arith.
Qed.

(** ** Strings *)
(** [kept pre es s]: what was written so far keeps the prefix [pre], followed by a zero; the errors are [es] *)
Definition kept (pre : bytes) (es : list perr) (s : pst) : Prop := (exists x, p_res s = pre ++ [0] ++ x) /\ p_errs s = es.

Lemma kept_app : forall pre es s x, kept pre es s -> kept pre es (set_res (p_res s ++ x) s).
Proof. intros pre es s x [[y E] H]. split; auto. exists (y ++ x). st. rewrite E. now rewrite <- !app_assoc. Qed.
Lemma kept_pos : forall pre es s p, kept pre es s -> kept pre es (set_pos p s).
Proof. auto. Qed.

Lemma wp_trim_line : forall f b s (Q : unit -> pst -> Prop), ext b s -> (QL - p_pos s < f)%nat ->
  (forall p, (p_pos s <= p < QL)%nat -> Q tt (set_pos p s)) -> wp (block_trim_line q f) s Q (crit b).
Proof.
  induction f; intros; [lia|]. cbn [block_trim_line]. apply wp_bind, wp_advance, wp_bind, wp_next_char; [ex|]. intros. st.
  destruct ((c =? cSP) || (c =? cTAB)).
  - apply IHf; st; [ex|lia|]. intros. apply H1. lia.
  - apply wp_retreat. st. apply H1. lia.
Qed.
Lemma wp_trim_start : forall f b s (Q : unit -> pst -> Prop), ext b s -> (QL - p_pos s < f)%nat -> (p_pos b < p_pos s)%nat ->
  (forall p, (pred (p_pos s) <= p < QL)%nat -> Q tt (set_pos p s)) -> wp (block_trim_start q f) s Q (crit b).
Proof.
  induction f; intros; [lia|]. cbn [block_trim_start]. apply wp_bind, wp_next_char; [ex|]. intros. st.
  destruct ((c =? cSP) || (c =? cTAB) || (c =? cLF) || (c =? cCR)).
  - apply wp_bind, wp_advance. apply IHf; st; [ex|lia|lia|]. intros. apply H2. lia.
  - apply wp_retreat. st. apply H2. lia.
Qed.

Lemma wp_unicode : forall pre es b s (Q : unit -> pst -> Prop), ext b s -> kept pre es s ->
  (forall s', ext s s' -> ext b s' -> kept pre es s' -> Q tt s') -> wp (unicode_escape q) s Q (crit b).
Proof.
  intros. unfold unicode_escape.
  apply wp_bind, wp_advance, wp_bind, wp_peek, wp_bind, wp_advance, wp_bind, wp_peek,
    wp_bind, wp_advance, wp_bind, wp_peek, wp_bind, wp_advance, wp_bind, wp_peek. st.
  destruct (nth_error q (S (S (S (S (p_pos s)))))).
  - match goal with |- context [hex_val ?x] => destruct (hex_val x) end; [|apply wp_err; ex].
    match goal with |- context [hex_val ?x] => destruct (hex_val x) end; [|apply wp_err; ex].
    match goal with |- context [hex_val ?x] => destruct (hex_val x) end; [|apply wp_err; ex].
    match goal with |- context [hex_val ?x] => destruct (hex_val x) end; [|apply wp_err; ex].
    apply wp_append. apply H1; try ex. now apply kept_app.
  - apply wp_eof. ex.
Qed.
Lemma wp_escape : forall pre es b s (Q : unit -> pst -> Prop), ext b s -> kept pre es s ->
  (forall s', ext s s' -> ext b s' -> kept pre es s' -> (p_pos s < p_pos s')%nat -> Q tt s') -> wp (string_escape q) s Q (crit b).
Proof.
  intros. unfold string_escape. apply wp_bind, wp_advance, wp_bind, wp_next_char; [ex|]. intros. st.
  assert (A : forall x, wp (append x) (set_pos (S (p_pos s)) s) Q (crit b)).
  { intros. apply wp_append. apply H1; try ex; [|arith]. now apply (kept_app pre es (set_pos (S (p_pos s)) s)). }
  destruct (c =? 0). { apply wp_ret. apply H1; try ex; auto. }
  destruct ((c =? cLF) || (c =? cCR)). { apply wp_err; ex. }
  destruct (c =? 98); [apply A|]. destruct (c =? 102); [apply A|]. destruct (c =? 110); [apply A|].
  destruct (c =? 114); [apply A|]. destruct (c =? 116); [apply A|].
  destruct (c =? 117).
  - eapply wp_unicode with (pre := pre) (es := es); [ex|auto|]. intros. apply H1; auto; [|arith].
    eapply ext_trans; [|exact H4]. ex.
  - apply A.
Qed.

Lemma wp_string_loop : forall f blk pre es b s (Q : unit -> pst -> Prop), ext b s ->
  kept pre es s -> (length (p_res b) <= length pre)%nat -> (3 <= length pre)%nat -> (QL - p_pos s < f)%nat ->
  (forall s', (length pre < length (p_res s'))%nat -> ext b s' -> (p_pos s < p_pos s')%nat -> p_errs s' = es -> Q tt s') ->
  wp (string_loop q f blk (S (length pre))) s Q (crit b).
Proof.
  induction f; intros blk pre es b s Q E K Lb Lp F H; [lia|]. cbn [string_loop].
  apply wp_bind, wp_advance, wp_bind, wp_next_char; [ex|]. intros c Hc Lc. st.
  assert (KL : forall s1, kept pre es s1 -> (length pre < length (p_res s1))%nat).
  { intros s1 [[x Ex] _]. rewrite Ex, !app_length. simpl. lia. }
  assert (R : forall s1, ext b s1 -> kept pre es s1 -> (p_pos s < p_pos s1)%nat ->
            wp (string_loop q f blk (S (length pre))) s1 Q (crit b)).
  { intros. eapply IHf; eauto; [lia|]. intros. apply H; auto. lia. }
  assert (W : forall s1, ext b s1 -> kept pre es s1 -> (p_pos s < p_pos s1)%nat ->
            wp (write_len (S (length pre)) 4) s1 Q (crit b)).
  { intros s1 E1 K1 P1. pose proof (KL _ K1). apply wp_write_len; [lia|lia|]. intros. apply H; st; auto; [lia|ex|apply K1]. }
  destruct (c =? 0). { apply R; [ex|auto|arith]. }
  destruct ((c =? cLF) || (c =? cCR)).
  { destruct (negb blk). { apply wp_err. ex. }
    apply wp_bind, wp_append. apply wp_bind.
    assert (T : forall s1, ext b s1 -> kept pre es s1 -> (p_pos s < p_pos s1)%nat ->
       wp (block_trim_line q (char_fuel q);;; string_loop q f blk (S (length pre))) s1 Q (crit b)).
    { intros. apply wp_bind, wp_trim_line; auto. { unfold char_fuel; lia. } intros. apply R; auto. ex. arith. }
    destruct (c =? cCR).
    - apply wp_bind, wp_peek_next. st. destruct (nth_error q (S (S (p_pos s)))).
      + destruct (n =? cLF).
        * apply wp_bind, wp_append, wp_advance. apply T; [ex| |arith].
          apply kept_pos. apply (kept_app pre es (set_res (p_res s ++ [c]) (set_pos (S (p_pos s)) s))).
          now apply (kept_app pre es (set_pos (S (p_pos s)) s)).
        * apply wp_ret. apply T; [ex|now apply (kept_app pre es (set_pos (S (p_pos s)) s))|arith].
      + apply wp_ret. apply T; [ex|now apply (kept_app pre es (set_pos (S (p_pos s)) s))|arith].
    - apply wp_ret. apply T; [ex|now apply (kept_app pre es (set_pos (S (p_pos s)) s))|arith]. }
  cbv zeta.
  assert (O : wp (if c =? cBSL then string_escape q;;; string_loop q f blk (S (length pre))
                  else append [c];;; string_loop q f blk (S (length pre))) (set_pos (S (p_pos s)) s) Q (crit b)).
  { destruct (c =? cBSL).
    - apply wp_bind. apply wp_escape with (pre := pre) (es := es); [ex|auto|]. intros. apply R; auto. arith.
    - apply wp_bind, wp_append. apply R; [ex|now apply (kept_app pre es (set_pos (S (p_pos s)) s))|arith]. }
  destruct (c =? cQUOT); [|exact O].
  destruct (negb blk).
  - apply wp_bind, wp_advance. apply W; [ex|auto|arith].
  - apply wp_bind, wp_matches1; [discriminate| |exact O]. intros. apply wp_bind.
    destruct K as [[x Kx] Ke]. eapply wp_trim_end; [st; exact Kx|]. intros.
    apply W; [|split; [exists y; reflexivity|exact Ke]|arith].
    apply ext_set_res; [ex|]. rewrite app_length. lia.
Qed.

Lemma wp_string : forall b s (Q : unit -> pst -> Prop), ext b s -> (p_pos s < QL)%nat ->
  eats b s Q -> wp (parse_string q) s Q (crit b).
Proof.
  intros. unfold parse_string. apply wp_bind, wp_append, wp_bind, wp_res_len. st.
  pose (pre := p_res s ++ [0; 118; 115; 0; 0; 0]).
  replace (length (p_res s ++ [0; 118; 115; 0; 0; 0; 0])) with (S (length pre)) by (unfold pre; rewrite !app_length; simpl; lia).
  assert (Lp : (length pre = length (p_res s) + 6)%nat) by (unfold pre; rewrite app_length; reflexivity).
  assert (K : kept pre (p_errs s) (set_res (p_res s ++ [0; 118; 115; 0; 0; 0; 0]) s)).
  { split; auto. exists []. st. unfold pre. now rewrite <- app_assoc. }
  apply wp_bind.
  assert (T : forall blk s1, ext b s1 -> kept pre (p_errs s) s1 -> (p_pos s <= p_pos s1)%nat ->
     wp (string_loop q (char_fuel q) blk (S (length pre))) s1 Q (crit b)).
  { intros. eapply wp_string_loop; eauto.
    - arith.
    - lia.
    - unfold char_fuel; lia.
    - intros. apply H1; auto; [|lia]. repeat split; try lia. now apply eext_errs. }
  apply wp_matches1; [discriminate| |].
  - intros. apply wp_bind, wp_trim_start; [ex|unfold char_fuel; lia|arith|]. intros. st. apply T; [ex|exact K|arith].
  - apply wp_bind, wp_ret. apply T; [ex|exact K|arith].
Qed.

(** ** Values *)
Lemma set_pos_id : forall s, set_pos (p_pos s) s = s.
Proof. destruct s; reflexivity. Qed.

Ltac len := unfold char_fuel in *; arith.
Ltac tok := apply wp_bind; apply wp_next_token; [ex|intros; st].

Lemma wp_named : forall b s (pre post : string) (Q : unit -> pst -> Prop) (start : nat), ext b s ->
  (4 <= start <= length (p_res s))%nat ->
  eats b s Q ->
  wp (n <- parse_name q ;; if n =? 0 then err_cur q pre post else write_len start 4) s Q (crit b).
Proof.
  intros. apply wp_bind, wp_name; auto.
  - intros. rewrite N.eqb_refl. now apply wp_err_cur.
  - intros. replace (n' =? 0) with false by lia. apply wp_write_len; [st; lia|lia|]. intros. apply H1; st.
    + unfold ext; st. repeat split; try lia. now apply eext_errs.
    + apply ext_set_res; auto. arith.
    + lia.
Qed.

Lemma wp_value_all : forall f,
  (forall b s (Q : unit -> pst -> Prop), ext b s -> (3 * (QL - p_pos s) + 1 <= f)%nat -> eats b s Q ->
     wp (parse_value q f) s Q (crit b)) /\
  (forall b s (Q : unit -> pst -> Prop) start, ext b s -> (3 * (QL - p_pos s) + 2 <= f)%nat ->
     (4 <= start <= length (p_res s))%nat -> eats b s Q ->
     wp (parse_list q f start) s Q (crit b)) /\
  (forall b s (Q : unit -> pst -> Prop) cl, ext b s -> (3 * (QL - p_pos s) + 2 <= f)%nat -> eats b s Q ->
     wp (parse_assignments q f cl) s Q (crit b)) /\
  (forall b s (Q : unit -> pst -> Prop) cl start, ext b s -> (3 * (QL - p_pos s) + 1 <= f)%nat ->
     (4 <= start <= length (p_res s))%nat -> eats b s Q ->
     wp (parse_assignment_list q f cl start) s Q (crit b)).
Proof.
  induction f as [|f (IHv & IHl & IHa & IHf)]; [repeat split; intros; lia|].
  repeat split; intros.
  - cbn [parse_value]. tok.
    destruct (c =? cDOLLAR) eqn:E1.
    { apply wp_bind, wp_advance, wp_bind, wp_append, wp_bind, wp_res_len. apply wp_named; [ex|len|].
      intros a s' X1 X2 X3. apply H1; [ex|ex|len]. }
    destruct ((c =? cMINUS) || (c =? cPLUS) || (c =? cDOT) || digit c) eqn:E2.
    { apply wp_number with (c := c); st; auto; [lia|]. intros a s' X1 X2 X3. apply H1; [ex|ex|len]. }
    destruct (c =? cQUOT) eqn:E3.
    { apply wp_string; st; auto; [lia|]. intros a s' X1 X2 X3. apply H1; [ex|ex|len]. }
    destruct (c =? cLBRK) eqn:E4.
    { apply wp_bind, wp_advance, wp_bind, wp_append, wp_bind, wp_res_len. tok.
      destruct (c0 =? cRBRK).
      - apply wp_bind, wp_advance, wp_bind, wp_append. apply wp_write_len; [len|len|]. intros. apply H1; [ex|ex|len].
      - apply IHl; [ex|len|len|]. intros a s' X1 X2 X3. apply H1; [ex|ex|len]. }
    destruct (c =? cLBR) eqn:E5.
    { apply wp_bind, wp_advance. apply IHa; [ex|len|]. intros a s' X1 X2 X3. apply H1; [ex|ex|len]. }
    apply wp_bind.
    assert (K : forall (kw : bool) s1, ext s s1 -> ext b s1 -> (kw = true -> p_pos s < p_pos s1)%nat ->
      wp (if kw then ret tt else
          inst_value 101 ;;;
          start <- res_len ;;
          n <- parse_name q ;;
          if n =? 0 then err_cur q "unknown value kind, got character: """ """"
          else write_len start 4) s1 Q (crit b)).
    { intros. destruct kw. { apply wp_ret, H1; auto. }
      apply wp_bind, wp_append, wp_bind, wp_res_len. apply wp_named; [ex|len|].
      intros a s' X1 X2 X3. apply H1; [ex|ex|len]. }
    destruct ((c =? 116) || (c =? 102)).
    { apply wp_bind. apply wp_matches_wordN.
      - intros. apply wp_bind, wp_append, wp_ret. apply (K true); [ex|ex|intros; len].
      - apply wp_ret. apply (K false); [ex|ex|easy]. }
    destruct (c =? 110).
    { apply wp_bind. apply wp_matches_word1; [discriminate| |].
      - intros. apply wp_bind, wp_append, wp_ret. apply (K true); [ex|ex|intros; len].
      - apply wp_ret. apply (K false); [ex|ex|easy]. }
    apply wp_ret. apply (K false); [ex|ex|easy].
  - cbn [parse_list]. apply wp_bind, IHv; [ex|lia|]. intros a s1 X1 X2 X3. tok. apply wp_bind.
    assert (K : forall c s2, ext s1 s2 -> ext b s2 -> wp
       (if c =? cRBRK then advance ;;; inst_end ;;; write_len start 4 else parse_list q f start) s2 Q (crit b)).
    { intros. destruct (c0 =? cRBRK).
      - apply wp_bind, wp_advance, wp_bind, wp_append. apply wp_write_len; [len|len|]. intros. apply H2; [ex|ex|len].
      - apply IHl; [ex|len|len|]. intros a2 s' Y1 Y2 Y3. apply H2; [ex|ex|len]. }
    destruct (c =? cCOMMA).
    + apply wp_bind, wp_advance. apply wp_next_token; [ex|]. intros. apply K; ex.
    + apply wp_ret. apply K; ex.
  - cbn [parse_assignments]. apply wp_bind, wp_append, wp_bind, wp_res_len. tok. destruct (c =? cl).
    + apply wp_bind, wp_append, wp_bind, wp_advance. apply wp_write_len; [len|len|]. intros. apply H1; [ex|ex|len].
    + apply IHf; [ex|len|len|]. intros a2 s' Y1 Y2 Y3. apply H1; [ex|ex|len].
  - cbn [parse_assignment_list]. apply wp_bind, wp_append, wp_bind, wp_name; [ex| |].
    { intros. cbn [N.eqb]. apply wp_err_cur; [ex|auto]. }
    intros n' r p Hn Hn2 Hr Hp Hx. st. replace (n' =? 0) with false by lia.
    assert (X0 : ext s (PS r (p_frags s) p (p_errs s) (p_tgt s))).
    { unfold ext; st. repeat split; try len. now apply eext_errs. }
    set (s1 := PS r (p_frags s) p (p_errs s) (p_tgt s)) in *.
    assert (P1 : p_pos s1 = p) by reflexivity. assert (R1 : p_res s1 = r) by reflexivity. clearbody s1. subst p r.
    apply wp_bind, wp_next_token; [ex|]. intros. st.
    destruct (c =? cCOLON); cbn [negb]; [|apply wp_err; ex].
    apply wp_bind, wp_advance, wp_bind. apply IHv; [ex|len|]. intros a s2 Y1 Y2 Y3. tok. apply wp_bind.
    assert (K : forall c s3, ext s2 s3 -> ext b s3 -> wp
       (if c =? cl then inst_end ;;; advance ;;; write_len start 4 else parse_assignment_list q f cl start) s3 Q (crit b)).
    { intros. destruct (c1 =? cl).
      - apply wp_bind, wp_append, wp_bind, wp_advance. apply wp_write_len; [len|len|]. intros. apply H2; [ex|ex|len].
      - apply IHf; [ex|len|len|]. intros a2 s' Z1 Z2 Z3. apply H2; [ex|ex|len]. }
    destruct (c0 =? cCOMMA).
    + apply wp_bind, wp_advance. apply wp_next_token; [ex|]. intros. apply K; ex.
    + apply wp_ret. apply K; ex.
Qed.
Lemma wp_value : forall f b s (Q : unit -> pst -> Prop), ext b s -> (3 * (QL - p_pos s) + 1 <= f)%nat -> eats b s Q ->
     wp (parse_value q f) s Q (crit b).
Proof. intros f. apply wp_value_all. Qed.
Lemma wp_assignments : forall f b s (Q : unit -> pst -> Prop) cl, ext b s -> (3 * (QL - p_pos s) + 2 <= f)%nat -> eats b s Q ->
     wp (parse_assignments q f cl) s Q (crit b).
Proof. intros f. apply wp_value_all. Qed.

(** ** Directives *)
Lemma crit_ext : forall a b, crit a b -> ext a b.
Proof. unfold crit, ext. intuition. now apply eexts_eext. Qed.

(** the loop never ends with a critical error of its own: it reports it *)
Lemma wp_directives_loop : forall f n b s (Q : N * bool -> pst -> Prop) C, ext b s -> (3 * (QL - p_pos s) + 3 <= f)%nat ->
  (forall n' s', ext b s' -> (p_pos s' < QL)%nat -> (p_pos s <= p_pos s')%nat -> Q (n', false) s') ->
  (forall n' s', crit b s' -> Q (n', true) s') ->
  wp (directives_loop q f n) s Q C.
Proof.
  induction f; intros; [lia|]. cbn [directives_loop]. apply wp_bind, wp_might_ignore. intros. destruct o as [c|].
  2:{ apply wp_bind, wp_with_count. apply wp_crit with (C' := crit b). { apply wp_eof. ex. } intros. apply wp_ret, H2; auto. }
  specialize (H4 ltac:(discriminate)).
  destruct (c =? cAT); cbn [negb]. 2:{ apply wp_ret, H1; auto. ex. }
  destruct (n =? 255).
  { apply wp_bind, wp_with_count. apply wp_crit with (C' := crit b). { apply wp_err. ex. } intros. apply wp_ret, H2; auto. }
  cbv zeta. apply wp_bind, wp_advance, wp_bind, wp_append, wp_bind, wp_res_len. st.
  apply wp_bind, wp_with_count. apply wp_crit with (C' := crit b). 2:{ intros. now apply wp_ret, H2. }
  assert (K : forall s1, ext s s1 -> ext b s1 -> (p_pos s < p_pos s1)%nat ->
     wp (directives_loop q f (n + 1)) s1 Q C).
  { intros. apply IHf with (b := b); auto; [lia|]. intros. apply H1; auto; lia. }
  apply wp_bind, wp_name; [ex| |].
  { intros. cbn [N.eqb]. apply wp_err_cur; [ex|auto]. }
  intros n' r p0 Hn Hn2 Hr Hp Hx. st. replace (n' =? 0) with false by lia.
  assert (X0 : ext s (PS r (p_frags s) p0 (p_errs s) (p_tgt s))).
  { unfold ext; st. repeat split; try len. now apply eext_errs. }
  set (s1 := PS r (p_frags s) p0 (p_errs s) (p_tgt s)) in *.
  assert (P1 : p_pos s1 = p0) by reflexivity. assert (R1 : p_res s1 = r) by reflexivity. clearbody s1. subst p0 r.
  apply wp_bind, wp_next_token; [ex|]. intros. st.
  destruct (c0 =? cLPAR); cbn [negb].
  - apply wp_bind, wp_store; [len|]. intros. apply wp_bind, wp_advance. apply wp_assignments; [ex|len|].
    intros a s' Y1 Y2 Y3. apply K; [ex|ex|len].
  - apply wp_ret. apply K; [ex|ex|len].
Qed.

Lemma wp_directives : forall f at_ b s (Q : unit -> pst -> Prop), ext b s -> (3 * (QL - p_pos s) + 3 <= f)%nat ->
  (at_ < length (p_res s))%nat ->
  (forall s', ext s s' -> ext b s' -> (p_pos s' < QL)%nat -> Q tt s') ->
  wp (parse_directives q f at_) s Q (crit b).
Proof.
  intros. unfold parse_directives, finally. apply wp_bind, wp_bind. apply wp_directives_loop with (b := s); auto.
  - apply ext_refl.
  - intros. apply wp_bind, wp_store; [len|]. intros. apply wp_ret, wp_ret. apply H2; auto; ex.
  - intros. apply wp_bind, wp_store; [apply crit_ext in H3; len|]. intros. apply wp_raise.
    eapply crit_trans; eauto. unfold crit in *. st. intuition lia.
Qed.

(** ** Selection sets *)
Lemma wp_hash : forall from n at_ s (Q : unit -> pst -> Prop) C, (from + n <= length (p_res s))%nat ->
  (at_ + 3 < length (p_res s))%nat ->
  (forall r, length r = length (p_res s) -> Q tt (set_res r s)) -> wp (hash_name from n at_) s Q C.
Proof.
  intros. apply wp_hash0; auto. intros. now apply wp_write32.
Qed.
Lemma wp_opt_comma : forall c b s (Q : N -> pst -> Prop), ext b s ->
  (forall c' s', ext s s' -> ext b s' -> Q c' s') -> wp (opt_comma q c) s Q (crit b).
Proof.
  intros. unfold opt_comma. destruct (c =? cCOMMA).
  - apply wp_bind, wp_advance, wp_next_token; [ex|]. intros. apply H0; ex.
  - apply wp_ret, H0; auto. apply ext_refl.
Qed.

(** forgets how a state was made, keeping what was shown about it *)
Ltac named_state s b r p s1 :=
  assert (ext s (PS r (p_frags s) p (p_errs s) (p_tgt s))) by (unfold ext; st; repeat split; try len; now apply eext_errs);
  set (s1 := PS r (p_frags s) p (p_errs s) (p_tgt s)) in *;
  assert (p_pos s1 = p) by reflexivity; assert (p_res s1 = r) by reflexivity; clearbody s1; subst p r.

Lemma wp_selection_all : forall f,
  (forall b s (Q : unit -> pst -> Prop), ext b s -> (3 * (QL - p_pos s) + 5 <= f)%nat -> eats b s Q ->
     wp (parse_selection_set q f) s Q (crit b)) /\
  (forall b s (Q : unit -> pst -> Prop), ext b s -> (3 * (QL - p_pos s) + 4 <= f)%nat -> eats b s Q ->
     wp (selection_loop q f) s Q (crit b)).
Proof.
  induction f as [|f (IHs & IHl)]; [split; intros; lia|]. split; intros.
  - cbn [parse_selection_set]. tok. destruct (c =? cRBR).
    + apply wp_advance. apply H1; [ex|ex|len].
    + apply IHl; [ex|len|]. intros a s' X1 X2 X3. apply H1; [ex|ex|len].
  - cbn [selection_loop]. cbv zeta.
    match goal with |- context [catch (?F f)] => change F with (parse_selection_set q) end.
    assert (T : forall c s1, ext s s1 -> ext b s1 -> (p_pos s < p_pos s1)%nat -> (p_pos s < QL)%nat ->
       wp (c0 <- opt_comma q c;; (if c0 =? cRBR then advance else selection_loop q f)) s1 Q (crit b)).
    { intros. apply wp_bind, wp_opt_comma; auto. intros. destruct (c' =? cRBR).
      - apply wp_advance. apply H1; [ex|ex|len].
      - apply IHl; [ex|len|]. intros a s2 X1 X2 X3. apply H1; [ex|ex|len]. }
    apply wp_bind, wp_append, wp_bind, wp_res_len, wp_bind, wp_append. st.
    set (sf := length (p_res s ++ [0; 102; 0; 0; 0; 0; 0; 0; 0; 0; 0])).
    assert (Lsf : sf = (length (p_res s) + 11)%nat) by (unfold sf; rewrite app_length; reflexivity). clearbody sf.
    apply wp_bind, wp_name; [ex| |].
    + (* no name: a spread *)
      intros Lq. st. apply wp_bind, wp_store; [len|]. intros r Hr. st. cbn [N.eqb].
      rewrite !app_length in Hr. cbn [length] in Hr.
      apply wp_bind, wp_drop12; [st; lia|]. intros r0 Lr0. st. assert (length r0 = length (p_res s)) by lia. change (set_res r0 _) with (set_res r0 s). clear Hr Lr0 r.
      apply wp_bind. apply wp_matches1; [discriminate| |].
      2:{ apply wp_err_cur; [|st; auto]. apply ext_set; [ex|len|len]. }
      intros p Hp. st.
      assert (E0 : ext s (PS r0 (p_frags s) p (p_errs s) (p_tgt s))).
      { apply ext_set; [ex|len|len]. }
      set (s1 := PS r0 (p_frags s) p (p_errs s) (p_tgt s)) in *.
      assert (P1 : p_pos s1 = p) by reflexivity. assert (R1 : p_res s1 = r0) by reflexivity.
      change (set_pos p (set_res r0 s)) with s1. clearbody s1. subst p r0.
      apply wp_bind, wp_next_token; [ex|]. intros c p Hp2 Hc Hx.
      apply wp_bind. 
      assert (K : forall (inline : bool) s2, ext s s2 -> ext b s2 -> (p_pos s < p_pos s2)%nat ->
        wp ((if inline then next_token q;;; ret tt else ret tt);;;
      (inst_spread inline;;;
       (start_fragment <- res_len;;
        nlen <- parse_name q;;
        c <- next_token q;;
        (if nlen =? 0
         then
          if inline
          then err q (msg_c "expected fragment type name but got char: """ c """")
          else err q (msg_c "expected fragment name but got char: """ c """")
         else
          c0 <- (if c =? cAT then parse_directives q f (start_fragment - 5);;; current_c q else ret c);;
          c1 <-
          (if inline
           then
            if negb (c0 =? cLBR)
            then err q (msg_c "expected selection set open (""{"") on inline fragment but got """ c0 """")
            else advance;;; (catch (parse_selection_set q f);;; (inst_end;;; next_token q))
           else ret c0);;
          write_len start_fragment 4;;;
          (c2 <- opt_comma q c1;; (if c2 =? cRBR then advance else selection_loop q f)))))) s2 Q (crit b)).
      { intros inline s2 E1 E2 E3. apply wp_bind.
        apply wp_use with (Q' := fun _ s' => ext s2 s'); [|ex|].
        { destruct inline.
          - apply wp_bind, wp_next_token; [ex|]. intros. apply wp_ret. ex.
          - apply wp_ret. ex. }
        intros _ s3 E4. apply wp_bind, wp_append, wp_bind, wp_res_len. st.
        set (sg := length (p_res s3 ++ [0; 115; (if inline then 116 else 102); 0; 0; 0; 0; 0])).
        assert (Lsg : sg = (length (p_res s3) + 8)%nat) by (unfold sg; rewrite app_length; reflexivity). clearbody sg.
        apply wp_bind. apply wp_name; [ex| |].
        { intros. tok. cbn [N.eqb]. destruct inline; apply wp_err; ex. }
        intros n' r p3 Hn1 Hn2 Hr Hp3 Hx3. st. named_state s3 b r p3 s4.
        apply wp_bind, wp_next_token; [ex|]. intros c4 p4 Hp4 Hc4 Hx4. st. replace (n' =? 0) with false by lia.
        assert (K2 : forall c5 s5, ext s4 s5 -> ext b s5 -> (p_pos s5 < QL)%nat ->
           wp (c1 <-
          (if inline
           then
            if negb (c5 =? cLBR)
            then err q (msg_c "expected selection set open (""{"") on inline fragment but got """ c5 """")
            else advance;;; (catch (parse_selection_set q f);;; (inst_end;;; next_token q))
           else ret c5);;
          write_len sg 4;;;
          (c2 <- opt_comma q c1;; (if c2 =? cRBR then advance else selection_loop q f))) s5 Q (crit b)).
        { intros c5 s5 E5 E6 E7. apply wp_bind.
          assert (K3 : forall c6 s6, ext s4 s6 -> ext b s6 -> wp (write_len sg 4;;;
          (c2 <- opt_comma q c6;; (if c2 =? cRBR then advance else selection_loop q f))) s6 Q (crit b)).
          { intros c6 s6 E8 E9. apply wp_bind, wp_write_len; [len|len|]. intros. apply T; [ex|ex|len|len]. }
          destruct inline; [|apply wp_ret; apply K3; ex].
          destruct (c5 =? cLBR); cbn [negb]; [|apply wp_err; ex].
          apply wp_bind, wp_advance, wp_bind, wp_catch.
          assert (K4 : forall s6, ext s4 s6 -> ext b s6 ->
             wp (inst_end;;; next_token q) s6 (fun a s' => wp (write_len sg 4;;;
          (c2 <- opt_comma q a;; (if c2 =? cRBR then advance else selection_loop q f))) s' Q (crit b)) (crit b)).
          { intros s6 E8 E9. apply wp_bind, wp_append, wp_next_token; [ex|]. intros. apply K3; ex. }
          apply wp_crit with (C' := crit (set_pos (S (p_pos s5)) s5)).
          - apply IHs; [ex|len|]. intros a s6 Y1 Y2 Y3. apply K4; [ex|]. ex.
          - intros s6 Y. apply crit_ext in Y. apply K4; ex. }
        apply wp_bind. destruct (c4 =? cAT).
        - apply wp_bind, wp_directives; [ex|len|len|]. intros s5 Y1 Y2 Y3. apply wp_current; auto. intros. apply K2; auto. ex.
        - apply wp_ret. apply K2; [ex|ex|len]. }
      apply wp_matches_word1; [discriminate| |].
      * intros p2 Hp2'. st. apply (K true); [ex|ex|len].
      * apply (K false); [ex|ex|len].
    + (* a field *)
      intros n' r p Hn Hn2 Hr Hp Hx. st. rewrite !app_length in Hr. cbn [length] in Hr.
      named_state s b r p s1.
      apply wp_bind, wp_store; [len|]. intros r1 Hr1. replace (n' =? 0) with false by lia.
      apply wp_bind, wp_next_token; [ex|]. intros c p1 Hp1 Hc1 Hx1. st.
      apply wp_bind, wp_res_len, wp_bind, wp_append. st.
      assert (K : forall c2 s2, ext s1 s2 -> ext b s2 -> (p_pos s2 < QL)%nat -> wp
        (c1 <- (if c2 =? cAT then parse_directives q f (sf - 9);;; current_c q else ret c2);;
         c3 <-
         (if c1 =? cLPAR
          then advance;;; (next_token q;;; (parse_assignments q f cRPAR;;; next_token q))
          else ret c1);;
         c4 <- (if c3 =? cLBR then advance;;; (parse_selection_set q f;;; next_token q) else ret c3);;
         inst_end;;; (write_len sf 8;;; (c5 <- opt_comma q c4;; (if c5 =? cRBR then advance else selection_loop q f)))) s2 Q (crit b)).
      { intros c2 s2 E1 E2 E3. apply wp_bind.
        apply wp_use with (Q' := fun _ s' => ext s2 s'); [|ex|].
        { destruct (c2 =? cAT).
          - apply wp_bind, wp_directives; [ex|len|len|]. intros. apply wp_current; auto.
          - apply wp_ret. ex. }
        intros c3 s3 E4. apply wp_bind. apply wp_use with (Q' := fun _ s' => ext s3 s'); [|ex|].
        { destruct (c3 =? cLPAR).
          - apply wp_bind, wp_advance, wp_bind, wp_next_token; [ex|]. intros. st. apply wp_bind, wp_assignments; [ex|len|].
            intros a s' Y1 Y2 Y3. apply wp_next_token; [ex|]. intros. ex.
          - apply wp_ret. ex. }
        intros c4 s4 E5. apply wp_bind. apply wp_use with (Q' := fun _ s' => ext s4 s'); [|ex|].
        { destruct (c4 =? cLBR).
          - apply wp_bind, wp_advance, wp_bind. apply IHs; [ex|len|].
            intros a s' Y1 Y2 Y3. apply wp_next_token; [ex|]. intros. ex.
          - apply wp_ret. ex. }
        intros c5 s5 E6. apply wp_bind, wp_append, wp_bind. apply wp_write_len; [len|len|]. intros. apply T; [ex|ex|len|len]. }
      apply wp_bind. destruct (c =? cCOLON).
      * apply wp_bind, wp_advance. tok. apply wp_bind, wp_name; [ex| |].
        { intros. cbn [N.eqb]. apply wp_err. ex. }
        intros n3 r3 p3 Hn3 Hn3' Hr3 Hp3 Hx3. st. rewrite !app_length in Hr3. cbn [length] in Hr3.
        named_state s1 b r3 p3 s3. replace (n3 =? 0) with false by lia.
        apply wp_bind, wp_store; [len|]. intros. tok. apply wp_bind, wp_hash; [len|len|]. intros. apply wp_ret. apply K; [ex|ex|len].
      * apply wp_bind, wp_hash; [len|len|]. intros. apply wp_ret. apply K; [ex|ex|len].
Qed.
Lemma wp_selection_set : forall f b s (Q : unit -> pst -> Prop), ext b s -> (3 * (QL - p_pos s) + 5 <= f)%nat -> eats b s Q ->
     wp (parse_selection_set q f) s Q (crit b).
Proof. intros f. apply wp_selection_all. Qed.

(** ** Operation arguments *)
Lemma wp_type : forall f c b s (Q : unit -> pst -> Prop), ext b s -> (QL - p_pos s + 1 <= f)%nat ->
  (forall s', ext s s' -> ext b s' -> Q tt s') -> wp (parse_type q f c) s Q (crit b).
Proof.
  induction f; intros; [lia|]. cbn [parse_type]. apply wp_bind, wp_res_len. destruct (c =? cLBRK).
  - apply wp_bind, wp_append, wp_bind, wp_advance. tok. apply wp_bind. apply IHf; [ex|len|]. intros s1 X1 X2. tok.
    destruct (c1 =? cRBRK); cbn [negb]; [|apply wp_err; ex].
    apply wp_bind, wp_advance, wp_bind, wp_next_char; [ex|]. intros.
    destruct (c2 =? cBANG).
    + apply wp_bind, wp_store; [len|]. intros. apply wp_advance. apply H1; ex.
    + apply wp_ret. apply H1; ex.
  - apply wp_bind, wp_append, wp_bind, wp_name; [ex| |].
    { intros. cbn [N.eqb]. apply wp_err_cur; [ex|auto]. }
    intros n' r p Hn1 Hn2 Hr Hp Hx. st. rewrite !app_length in Hr. cbn [length] in Hr. named_state s b r p s1.
    replace (n' =? 0) with false by lia. apply wp_bind, wp_next_token; [ex|]. intros. destruct (c0 =? cBANG).
    + apply wp_bind, wp_store; [len|]. intros. apply wp_advance. apply H1; ex.
    + apply wp_ret. apply H1; ex.
Qed.

Lemma wp_operator_arg : forall f b s (Q : unit -> pst -> Prop), ext b s -> (3 * (QL - p_pos s) + 1 <= f)%nat ->
  (forall s', ext s s' -> ext b s' -> Q tt s') -> wp (parse_operator_arg q f) s Q (crit b).
Proof.
  intros. unfold parse_operator_arg. cbv zeta. apply wp_bind, wp_res_len. apply wp_bind. unfold inst_operation_arg.
  apply wp_bind, wp_append, wp_bind, wp_res_len, wp_ret. st.
  set (la := (length (p_res s ++ ([0; 97; 0; 0; 0; 0]%N)) - 4)%nat).
  assert (Lla : la = (length (p_res s) + 2)%nat) by (unfold la; rewrite app_length; cbn [length]; lia). clearbody la.
  apply wp_bind, wp_name; [ex| |].
  { intros. cbn [N.eqb]. apply wp_err_cur; [ex|auto]. }
  intros n' r p Hn1 Hn2 Hr Hp Hx. st. rewrite !app_length in Hr. cbn [length] in Hr. named_state s b r p s1.
  replace (n' =? 0) with false by lia. apply wp_bind, wp_next_token; [ex|]. intros.
  destruct (c =? cCOLON); cbn [negb]; [|apply wp_err_cur; [ex|len]].
  apply wp_bind, wp_advance, wp_bind, wp_append. tok. apply wp_bind, wp_type; [ex|len|]. intros s2 X1 X2.
  apply wp_bind, wp_append. tok. apply wp_bind.
  assert (K : forall s3, ext s1 s3 -> ext b s3 ->
    wp (l <- res_len;; write32 (N.of_nat (l - (length (p_res s) + 1))) la) s3 Q (crit b)).
  { intros. apply wp_bind, wp_res_len, wp_write32; [len|]. intros. apply H1; ex. }
  destruct (c1 =? cEQ).
  - apply wp_bind, wp_append, wp_bind, wp_advance. tok. apply wp_value; [ex|len|]. intros a s3 Y1 Y2 Y3. apply K; ex.
  - apply wp_append. apply K; ex.
Qed.

Lemma wp_operator_args_loop : forall f b s (Q : unit -> pst -> Prop), ext b s -> (3 * (QL - p_pos s) + 2 <= f)%nat ->
  (forall s', ext s s' -> ext b s' -> Q tt s') -> wp (operator_args_loop q f) s Q (crit b).
Proof.
  induction f; intros; [lia|]. cbn [operator_args_loop]. tok. apply wp_bind, wp_opt_comma; [ex|]. intros.
  destruct (c' =? cRPAR). { apply wp_bind, wp_advance, wp_append. apply H1; ex. }
  destruct (c' =? cDOLLAR); cbn [negb]; [|apply wp_err; ex].
  apply wp_bind, wp_advance, wp_bind, wp_operator_arg; [ex|len|]. intros.
  apply IHf; [ex|len|]. intros. apply H1; ex.
Qed.

(** ** Definitions *)
Lemma ext_tgt : forall b s t f, ext b s -> ext b (PS (p_res s) f (p_pos s) (p_errs s) t).
Proof. intros. exact H. Qed.

Lemma wp_operation_header : forall f start kw b s (Q : unit -> pst -> Prop), ext b s -> (3 * (QL - p_pos s) + 3 <= f)%nat ->
  (forall s', ext s s' -> ext b s' -> Q tt s') -> wp (parse_operation_header q target f start kw) s Q (crit b).
Proof.
  intros. unfold parse_operation_header. cbv zeta. apply wp_bind.
  apply wp_use with (Q' := fun _ s' => ext s s'); [|ex|].
  { destruct (negb (has_target target)); [apply wp_set_target|apply wp_ret]; first [apply ext_refl|apply ext_tgt, ext_refl]. }
  intros _ s1 E1. apply wp_bind, wp_append, wp_bind, wp_res_len. st.
  set (l := length (p_res s1 ++ _)). assert (Ll : l = (length (p_res s1) + 5)%nat) by (unfold l; rewrite app_length; reflexivity).
  clearbody l. apply wp_bind, wp_next_token; [ex|]. intros c1 p1 Hp1 Hc1 Hx1. st.
  apply wp_bind, wp_res_len, wp_bind.
  apply wp_use with (Q' := fun _ s' => ext s1 s' /\ (length (p_res s1) + 5 <= length (p_res s'))%nat); [|ex|].
  { apply wp_name; [ex| |].
    - intros. split; [ex|len].
    - intros n' r p Hn1 Hn2 Hr Hp Hx. st. rewrite !app_length in Hr. cbn [length] in Hr. split; [|st; lia].
      unfold ext; st. repeat split; try lia. now apply eext_errs. }
  intros _ s2 [E2 L2]. apply wp_bind, wp_from, wp_bind.
  apply wp_use with (Q' := fun _ s' => ext s2 s'); [|ex|].
  { match goal with |- context [match ?x with [] => _ | _ => _ end] => destruct x end; [apply wp_ret, ext_refl|].
    destruct target as [t|]; [|apply wp_ret, ext_refl].
    match goal with |- context [if ?x then _ else _] => destruct x end; [apply wp_set_target|apply wp_ret]; first [apply ext_refl|apply ext_tgt, ext_refl]. }
  intros _ s3 E3. apply wp_bind, wp_next_token; [ex|]. intros c4 p4 Hp4 Hc4 Hx4. st. apply wp_bind.
  apply wp_use with (Q' := fun _ s' => ext (set_pos p4 s3) s'); [|ex|].
  { destruct (c4 =? cLPAR).
    - apply wp_bind, wp_store; [len|]. intros. apply wp_bind, wp_append, wp_bind, wp_res_len. st.
      apply wp_bind, wp_advance, wp_bind. unfold parse_operator_args. apply wp_bind, wp_append.
      apply wp_operator_args_loop; [ex|len|]. intros. apply wp_bind, wp_res_len, wp_write32; [len|]. intros. ex.
    - apply wp_ret, ext_refl. }
  intros _ s5 E5. apply wp_bind, wp_directives; [ex|len|len|]. intros s6 E6 E7 L6.
  apply wp_bind, wp_current; auto. intros. destruct (c =? cLBR); cbn [negb].
  - apply wp_ret. apply H1; ex.
  - apply wp_err. ex.
Qed.

Lemma wp_fragment_header : forall b s (Q : unit -> pst -> Prop), ext b s ->
  (forall s', ext s s' -> ext b s' -> Q tt s') -> wp (parse_fragment_header q) s Q (crit b).
Proof.
  intros. unfold parse_fragment_header. apply wp_bind, wp_push. intros fr.
  assert (E0 : ext s (PS (p_res s) fr (p_pos s) (p_errs s) (p_tgt s))) by (apply ext_tgt, ext_refl).
  set (s0 := PS (p_res s) fr (p_pos s) (p_errs s) (p_tgt s)) in *. clearbody s0.
  apply wp_bind, wp_append. tok. apply wp_bind, wp_name; [ex| |].
  { intros. cbn [N.eqb]. apply wp_err_cur; [ex|auto]. }
  intros n' r p' Hn1 Hn2 Hr Hp Hx. st. rewrite !app_length in Hr. cbn [length] in Hr. named_state s0 b r p' s1.
  replace (n' =? 0) with false by lia. apply wp_bind, wp_next_token; [ex|]. intros.
  destruct (c0 =? 111); cbn [negb]; [|apply wp_err; ex].
  apply wp_bind, wp_advance, wp_bind, wp_next_char; [ex|]. intros.
  destruct (c1 =? 110); cbn [negb]; [|apply wp_err; ex].
  apply wp_bind, wp_advance. tok. apply wp_bind, wp_append, wp_bind, wp_name; [ex| |].
  { intros. cbn [N.eqb]. apply wp_err_cur; [ex|auto]. }
  intros n2 r2 p2 Hn3 Hn4 Hr2 Hp2 Hx2. st. rewrite !app_length in Hr2. cbn [length] in Hr2. named_state s1 b r2 p2 s2.
  replace (n2 =? 0) with false by lia. apply wp_bind, wp_next_token; [ex|]. intros.
  destruct (c3 =? cLBR); cbn [negb]; [|apply wp_err; ex]. apply wp_ret. apply H0; ex.
Qed.

Lemma wp_definition : forall f b s (Q : bool -> pst -> Prop), ext b s -> (3 * QL + 5 <= f)%nat ->
  (forall t s', ext s s' -> ext b s' -> (t = false -> (p_pos s < p_pos s')%nat /\ (p_pos s < QL)%nat) -> Q t s') ->
  wp (parse_definition q target f) s Q (crit b).
Proof.
  intros. unfold parse_definition. apply wp_bind, wp_might_ignore. intros o p Hp Ho Hn.
  destruct o as [c|]. 2:{ apply wp_ret, H1; [ex|ex|easy]. }
  specialize (Ho ltac:(discriminate)). apply wp_bind, wp_res_len, wp_bind.
  assert (K : forall s1, ext (set_pos p s) s1 -> ext b s1 ->
     wp (advance;;; (parse_selection_set q f;;; (inst_end;;; ret false))) s1 Q (crit b)).
  { intros. apply wp_bind, wp_advance, wp_bind, wp_selection_set; [ex|len|]. intros a s2 X1 X2 X3.
    apply wp_bind, wp_append, wp_ret, H1; [ex|ex|]. intros _. len. }
  destruct (c =? cLBR).
  - apply wp_bind. destruct (negb (has_target target)).
    + apply wp_set_target, wp_append. apply K; apply ext_set_res; try len; apply ext_tgt; ex.
    + apply wp_ret, wp_append. apply K; ex.
  - apply wp_bind, wp_matchesN.
    + intros. st. apply wp_operation_header; [ex|len|]. intros. apply K; ex.
    + apply wp_bind, wp_matches1; [discriminate| |apply wp_err; ex].
      intros. apply wp_fragment_header; [ex|]. intros. apply K; ex.
Qed.

Lemma wp_definitions : forall n f b s (Q : unit -> pst -> Prop), ext b s -> (3 * QL + 5 <= f)%nat -> (QL - p_pos s < n)%nat ->
  (forall s', ext b s' -> Q tt s') -> wp (definitions_loop q target n f) s Q (crit b).
Proof.
  induction n; intros; [lia|]. cbn [definitions_loop]. apply wp_bind, wp_definition; auto. intros. destruct t.
  - apply wp_ret; auto.
  - specialize (H5 eq_refl). apply IHn; auto. lia.
Qed.

(** ** The whole parser *)
Transparent wp.
Lemma parse_query_safe : exists s, parse_query q target = Parsed s /\ Forall located (p_errs s).
Proof.
  pose proof (wp_definitions (char_fuel q) (value_fuel q) init_pst init_pst (fun _ s => ext init_pst s)
    (ext_refl _) ltac:(unfold value_fuel; lia) ltac:(unfold char_fuel; st; lia) (fun s H => H)) as H.
  unfold wp in H. unfold parse_query. destruct (definitions_loop q target (char_fuel q) (value_fuel q) init_pst) as [a s|s| |].
  - exists s. split; auto. destruct H as (_ & _ & es & E & F). simpl in E. now rewrite E.
  - exists s. split; auto. destruct H as (_ & _ & es & E & F & _). simpl in E. now rewrite E.
  - easy.
  - easy.
Qed.
End Safe.
