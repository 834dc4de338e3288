(** * The parser model follows the reference parser: calculus and ignored tokens (proofs) *)
From Coq Require Import String Arith NArith Bool Lia ZifyBool ZifyN ZifyNat List.
From Verif Require Import Base ParserModel Ast Grammar RefParser RefLemmas ParserSafe ParserMono.
Import ListNotations.
Open Scope N_scope.

(** ** Outcomes against results of the reference parser *)
Definition sim {A X} (n : nat) (o : out A) (R : option X) (good : X -> A -> pst -> Prop) : Prop :=
  match R with
  | Some x => match o with Ok a s => good x a s | _ => False end
  | None => bad n o
  end.

Lemma sim_some : forall A X n (o : out A) (x : X) good, sim n o (Some x) good -> exists a s, o = Ok a s /\ good x a s.
Proof. unfold sim. intros. destruct o; try contradiction. eauto. Qed.
Lemma sim_none : forall A B X Y n (m : M A) (k : A -> M B) s (g : X -> A -> pst -> Prop) (g' : Y -> B -> pst -> Prop),
  sim n (m s) None g -> (forall a, mono (k a)) -> sim n (bind m k s) None g'.
Proof. unfold sim. intros. now apply bad_bind. Qed.
Lemma bad_sim : forall A B Y n (m : M A) (k : A -> M B) s (g' : Y -> B -> pst -> Prop),
  bad n (m s) -> (forall a, mono (k a)) -> sim n (bind m k s) None g'.
Proof. unfold sim. intros. now apply bad_bind. Qed.
Lemma bind_eq : forall A B (m : M A) (k : A -> M B) s a s1, m s = Ok a s1 -> bind m k s = k a s1.
Proof. unfold bind. intros. now rewrite H. Qed.
Lemma bind_assoc : forall A B C (m : M A) (k : A -> M B) (k2 : B -> M C) s,
  bind (bind m k) k2 s = bind m (fun a => bind (k a) k2) s.
Proof. unfold bind. intros. destruct (m s); auto. Qed.

(** ** Lists *)
Lemma skipn_cons : forall (l : bytes) p c r, skipn p l = c :: r ->
  nth_error l p = Some c /\ skipn (S p) l = r /\ (p < length l)%nat.
Proof.
  induction l; intros; [destruct p; discriminate|]. destruct p.
  - simpl in *. inversion H; subst. repeat split; auto. lia.
  - simpl in H. destruct (IHl _ _ _ H) as (A & B & C). repeat split; auto. simpl. lia.
Qed.
Lemma skipn_nil : forall (l : bytes) p, skipn p l = [] -> nth_error l p = None /\ skipn (S p) l = [] /\ (length l <= p)%nat.
Proof.
  intros. assert (length l <= p)%nat by (pose proof (skipn_length p l); rewrite H in H0; simpl in H0; lia).
  repeat split; auto. now apply nth_error_None. apply skipn_all2. lia.
Qed.
Lemma skipn_app_ex : forall (l : bytes) p x y, skipn p l = x ++ y -> skipn (p + length x) l = y.
Proof.
  intros l p x. revert p. induction x; intros; simpl in *.
  - now rewrite Nat.add_0_r.
  - destruct (skipn_cons _ _ _ _ H) as (_ & E & _). rewrite <- Nat.add_succ_comm. now apply IHx.
Qed.
Lemma upd_at : forall (a b : bytes) x v, upd (a ++ x :: b) (length a) v = Some (a ++ v :: b).
Proof. intros. replace (length a) with (length a + 0)%nat by lia. rewrite upd_app_r. reflexivity. Qed.

Arguments skipn : simpl never.
Section Sim.
Variable q : bytes.
Variable fr : list nat.
Variable es : list perr.
Variable t : option nat.
Notation St r p := (PS r fr p es t).
Notation txt p := (skipn p q).
Notation ne := (length es).

(** ** Primitives *)
Lemma b_append : forall B b (k : unit -> M B) r p, bind (append b) k (St r p) = k tt (St (r ++ b) p).
Proof. reflexivity. Qed.
Lemma b_res_len : forall B (k : nat -> M B) r p, bind res_len k (St r p) = k (length r) (St r p).
Proof. reflexivity. Qed.
Lemma b_advance : forall B (k : unit -> M B) r p, bind advance k (St r p) = k tt (St r (S p)).
Proof. reflexivity. Qed.
Lemma b_retreat : forall B (k : unit -> M B) r p, bind retreat k (St r (S p)) = k tt (St r p).
Proof. reflexivity. Qed.
Lemma b_get_pos : forall B (k : nat -> M B) r p, bind get_pos k (St r p) = k p (St r p).
Proof. reflexivity. Qed.
Lemma b_put_pos : forall B n (k : unit -> M B) r p, bind (put_pos n) k (St r p) = k tt (St r n).
Proof. reflexivity. Qed.
Lemma b_ret : forall A B (a : A) (k : A -> M B) s, bind (ret a) k s = k a s.
Proof. reflexivity. Qed.
Lemma b_peek : forall B (k : option N -> M B) r p, bind (peek q) k (St r p) = k (nth_error q p) (St r p).
Proof. reflexivity. Qed.
Lemma b_peek_next : forall B (k : option N -> M B) r p, bind (peek_next q) k (St r p) = k (nth_error q (S p)) (St r p).
Proof. reflexivity. Qed.
Lemma b_current : forall B (k : N -> M B) r p c l, txt p = c :: l -> bind (current_c q) k (St r p) = k c (St r p).
Proof. intros. unfold bind, current_c, check_c. cbn [p_pos]. now rewrite (proj1 (skipn_cons _ _ _ _ H)). Qed.
Lemma next_char_ok : forall r p c l, txt p = c :: l -> next_char q (St r p) = Ok c (St r p).
Proof. intros. unfold next_char. rewrite b_peek. now rewrite (proj1 (skipn_cons _ _ _ _ H)). Qed.
Lemma b_next_char : forall B (k : N -> M B) r p c l, txt p = c :: l -> bind (next_char q) k (St r p) = k c (St r p).
Proof. intros. apply bind_eq. eapply next_char_ok; eauto. Qed.
Lemma next_char_eof : forall r p, txt p = [] -> bad ne (next_char q (St r p)).
Proof.
  intros. unfold next_char. rewrite b_peek. rewrite (proj1 (skipn_nil _ _ H)). apply bad_err with (s := St r p).
Qed.
Lemma err_bad : forall A m r p, bad ne (@err q A m (St r p)).
Proof. intros. apply bad_err with (s := St r p). Qed.
Lemma err_cur_bad : forall A a b r p, bad ne (@err_cur q A a b (St r p)).
Proof.
  intros. unfold err_cur, bind, current_c, check_c. cbn [p_pos]. destruct (nth_error q p); [apply err_bad|exact I].
Qed.
Lemma b_store : forall B (k : unit -> M B) a x b v p n, n = length a ->
  bind (store n v) k (St (a ++ x :: b) p) = k tt (St (a ++ v :: b) p).
Proof. intros. subst. unfold bind, store. cbn [p_res]. now rewrite upd_at. Qed.
Lemma store_ok : forall a x b v p n, n = length a -> store n v (St (a ++ x :: b) p) = Ok tt (St (a ++ v :: b) p).
Proof. intros. subst. unfold store. cbn [p_res]. now rewrite upd_at. Qed.
Lemma write32_ok : forall a w x y z b v p n, n = length a ->
  write32 v n (St (a ++ w :: x :: y :: z :: b) p) = Ok tt (St (a ++ le32 v ++ b) p).
Proof.
  intros. subst. unfold write32. rewrite b_store by reflexivity.
  change (a ++ v mod 256 :: x :: y :: z :: b) with (a ++ [v mod 256] ++ x :: y :: z :: b). rewrite app_assoc.
  rewrite b_store by (rewrite app_length; reflexivity).
  change ((a ++ [v mod 256]) ++ (v / 256) mod 256 :: y :: z :: b) with ((a ++ [v mod 256]) ++ [(v / 256) mod 256] ++ y :: z :: b).
  rewrite app_assoc. rewrite b_store by (rewrite !app_length; simpl; lia).
  change (((a ++ [v mod 256]) ++ [(v / 256) mod 256]) ++ (v / 65536) mod 256 :: z :: b) with
    (((a ++ [v mod 256]) ++ [(v / 256) mod 256]) ++ [(v / 65536) mod 256] ++ z :: b).
  rewrite app_assoc. rewrite store_ok by (rewrite !app_length; simpl; lia).
  rewrite <- !app_assoc. reflexivity.
Qed.
Lemma write_len_ok : forall a w x y z b p start, start = (length a + 4)%nat ->
  write_len start 4 (St (a ++ w :: x :: y :: z :: b) p) = Ok tt (St (a ++ le32 (nlen b) ++ b) p).
Proof.
  intros. unfold write_len. rewrite b_res_len. rewrite write32_ok by lia.
  do 4 f_equal. unfold nlen. f_equal. rewrite app_length. simpl. lia.
Qed.

(** ** Ignored tokens *)
Definition has (p : nat) (l : bytes) : Prop := txt p = l.

Lemma line_term_lf : forall r p l, txt p = cLF :: l -> is_line_terminator q (St r p) = Ok true (St r p).
Proof. intros. unfold is_line_terminator. now rewrite (b_current _ _ _ _ _ _ H); cbv beta iota. Qed.
Lemma line_term_cr : forall r p l, txt p = cCR :: l -> exists p', is_line_terminator q (St r p) = Ok true (St r p') /\
  (p <= p')%nat /\ skip_ign (txt (S p')) = skip_ign l /\ skip_ign (txt p') = skip_ign l.
Proof.
  intros. unfold is_line_terminator. rewrite (b_current _ _ _ _ _ _ H); cbv beta iota.
  change (cCR =? cLF) with false. change (cCR =? cCR) with true. cbv beta iota.
  rewrite b_peek_next. destruct (skipn_cons _ _ _ _ H) as (E1 & E2 & E3).
  destruct l as [|c2 l].
  - rewrite (proj1 (skipn_nil _ _ E2)). exists p. split; [reflexivity|]. split; auto. rewrite E2, H. auto.
  - destruct (skipn_cons _ _ _ _ E2) as (F1 & F2 & F3). rewrite F1. destruct (c2 =? cLF) eqn:E.
    + apply N.eqb_eq in E. subst c2. exists (S p). split; [reflexivity|]. split; auto. rewrite F2, E2. auto.
    + exists p. split; [reflexivity|]. split; auto. rewrite E2, H. auto.
Qed.
Lemma line_term_no : forall r p c l, txt p = c :: l -> c <> cLF -> c <> cCR ->
  is_line_terminator q (St r p) = Ok false (St r p).
Proof.
  intros. unfold is_line_terminator. rewrite (b_current _ _ _ _ _ _ H); cbv beta iota.
  rewrite (proj2 (N.eqb_neq _ _) H0), (proj2 (N.eqb_neq _ _) H1). reflexivity.
Qed.

Lemma comment_sim : forall f r p, (length q - p < f)%nat -> exists p', parse_comment q f (St r p) = Ok tt (St r p') /\
  (p <= p')%nat /\ skip_ign (txt (S p')) = skip_comment (txt p) /\ skip_ign (txt p') = skip_comment (txt p).
Proof.
  induction f; intros; [lia|]. cbn [parse_comment]. rewrite b_peek. destruct (txt p) as [|c l] eqn:E.
  - destruct (skipn_nil _ _ E) as (E1 & E2 & E3). rewrite E1. exists p. rewrite E2, E. auto.
  - destruct (skipn_cons _ _ _ _ E) as (E1 & E2 & E3). rewrite E1.
    destruct (N.eq_dec c cLF); [|destruct (N.eq_dec c cCR)].
    + subst c. erewrite bind_eq by (eapply line_term_lf; eauto); cbv beta iota. exists p. rewrite E2, E. auto.
    + subst c. destruct (line_term_cr r _ _ E) as (p' & H1 & H2 & H3 & H4).
      erewrite bind_eq by exact H1; cbv beta iota. exists p'. auto.
    + erewrite bind_eq by (eapply line_term_no; eauto); cbv beta iota. rewrite b_advance.
      destruct (IHf r (S p) ltac:(lia)) as (p' & A1 & A2 & A3 & A4). rewrite E2 in A3, A4. exists p'.
      split; auto. split; [lia|]. cbn [skip_comment].
      rewrite (proj2 (N.eqb_neq _ _) n), (proj2 (N.eqb_neq _ _) n0). auto.
Qed.

Lemma ignored_sim : forall r p c l, txt p = c :: l -> exists p', is_ignored_token q c (St r p) = Ok (ign_charb c) (St r p') /\
  (p <= p')%nat /\
  (ign_charb c = false -> p' = p) /\
  (ign_charb c = true -> skip_ign (txt (S p')) = skip_ign (c :: l) /\ skip_ign (txt p') = skip_ign (c :: l)).
Proof.
  intros. unfold is_ignored_token. destruct (skipn_cons _ _ _ _ H) as (E1 & E2 & E3).
  assert (D : ign_charb c = true -> c =? cHASH = false -> skip_ign (c :: l) = skip_ign l).
  { intros A B. cbn [skip_ign]. unfold ign_charb in A. rewrite B, orb_false_r in A. now rewrite A. }
  destruct ((c =? cSP) || (c =? cTAB)) eqn:X.
  { exists p. replace (ign_charb c) with true in * by (unfold ign_charb; now rewrite X).
    repeat split; auto; intros; try discriminate;
      [rewrite E2, D; auto; destruct (N.eqb_spec c cHASH); auto; subst; discriminate | now rewrite H]. }
  destruct (N.eq_dec c cLF); [|destruct (N.eq_dec c cCR)].
  - subst c. erewrite bind_eq by (eapply line_term_lf; eauto); cbv beta iota. exists p. rewrite E2, H.
    repeat split; auto; try discriminate.
  - subst c. destruct (line_term_cr r _ _ H) as (p' & H1 & H2 & H3 & H4).
    erewrite bind_eq by exact H1; cbv beta iota. exists p'. repeat split; auto; try discriminate.
  - erewrite bind_eq by (eapply line_term_no; eauto); cbv beta iota. unfold is_comment. rewrite bind_assoc.
    rewrite (b_current _ _ _ _ _ _ H); cbv beta iota. destruct (c =? cHASH) eqn:Y.
    + rewrite bind_assoc. destruct (comment_sim (char_fuel q) r p ltac:(unfold char_fuel; lia)) as (p' & A1 & A2 & A3 & A4).
      erewrite bind_eq by exact A1; cbv beta iota. exists p'. apply N.eqb_eq in Y. subst c. rewrite H in A3, A4.
      repeat split; auto; try discriminate.
    + exists p. replace (ign_charb c) with (c =? cNUL).
      * repeat split; auto; intros.
        -- rewrite E2. symmetry. apply D; auto. unfold ign_charb. rewrite H0. now rewrite !orb_true_r.
        -- now rewrite H.
      * unfold ign_charb. lia.
Qed.

Lemma skip_loop_sim : forall f r p, (length q - p < f)%nat -> exists p',
  skip_ignored_loop q f (St r p) = Ok (hd_error (skip_ign (txt p))) (St r p') /\ txt p' = skip_ign (txt p) /\ (p <= p')%nat.
Proof.
  induction f; intros; [lia|]. cbn [skip_ignored_loop]. rewrite b_peek. destruct (txt p) as [|c l] eqn:E.
  - destruct (skipn_nil _ _ E) as (E1 & E2 & E3). rewrite E1. exists p. auto.
  - destruct (skipn_cons _ _ _ _ E) as (E1 & E2 & E3). rewrite E1.
    destruct (ignored_sim r _ _ _ E) as (p' & A1 & A2 & A3 & A4). erewrite bind_eq by exact A1; cbv beta iota.
    destruct (ign_charb c) eqn:X.
    + rewrite b_advance. destruct A4 as [A4 A5]; auto. destruct (IHf r (S p') ltac:(lia)) as (p2 & B1 & B2 & B3).
      rewrite A4 in B1, B2. exists p2. repeat split; auto. lia.
    + rewrite A3 by auto. rewrite skip_ign_token by auto. exists p. auto.
Qed.
Lemma might_sim : forall r p, exists p',
  might_ignore q (St r p) = Ok (hd_error (skip_ign (txt p))) (St r p') /\ txt p' = skip_ign (txt p).
Proof.
  intros. destruct (skip_loop_sim (char_fuel q) r p ltac:(unfold char_fuel; lia)) as (p' & A & B & _). eauto.
Qed.
Lemma next_token_ok : forall r p c l, skip_ign (txt p) = c :: l ->
  exists p', next_token q (St r p) = Ok c (St r p') /\ txt p' = c :: l.
Proof.
  intros. destruct (might_sim r p) as (p' & A & B). rewrite H in A, B. exists p'. split; auto.
  unfold next_token. erewrite bind_eq by exact A; cbv beta iota. reflexivity.
Qed.
Lemma next_token_eof : forall r p, skip_ign (txt p) = [] -> bad ne (next_token q (St r p)).
Proof.
  intros. destruct (might_sim r p) as (p' & A & B). rewrite H in A, B.
  unfold next_token. erewrite bind_eq by exact A; cbv beta iota. apply err_bad.
Qed.
(** at a token nothing is skipped *)
Lemma next_token_here : forall r p c l, txt p = c :: l -> ign_charb c = false -> next_token q (St r p) = Ok c (St r p).
Proof.
  intros. unfold next_token, might_ignore. destruct (char_fuel q) eqn:F; [discriminate|].
  rewrite bind_eq with (a := Some c) (s1 := St r p); [reflexivity|].
  cbn [skip_ignored_loop]. rewrite b_peek. rewrite (proj1 (skipn_cons _ _ _ _ H)).
  destruct (ignored_sim r _ _ _ H) as (p' & A1 & A2 & A3 & A4). erewrite bind_eq by exact A1; cbv beta iota.
  rewrite H0 in *. rewrite A3 by auto. reflexivity.
Qed.
Lemma opt_comma_sim : forall r p c l, skip_ign (txt p) = c :: l ->
  match sep (txt p) with
  | [] => bad ne (bind (next_token q) (opt_comma q) (St r p))
  | c' :: l' => exists p', bind (next_token q) (opt_comma q) (St r p) = Ok c' (St r p') /\ txt p' = c' :: l'
  end.
Proof.
  intros. destruct (next_token_ok r p _ _ H) as (p1 & A & B). rewrite (bind_eq _ _ _ _ _ _ _ A); cbv beta iota.
  unfold opt_comma, sep. rewrite H. destruct (c =? cCOMMA).
  - rewrite b_advance. destruct (skipn_cons _ _ _ _ B) as (_ & C & _). destruct (skip_ign l) as [|c' l'] eqn:E.
    + apply next_token_eof. now rewrite C.
    + apply next_token_ok. now rewrite C.
  - exists p1. auto.
Qed.

(** ** Keywords *)
Lemma matches1_loop_sim : forall key start r p, key <> [] ->
  match strip key (txt p) with
  | Some x => exists p', matches1_loop q start key (St r p) = Ok true (St r p') /\ txt p' = x
  | None => matches1_loop q start key (St r p) = Ok false (St r start)
  end.
Proof.
  induction key; intros; [congruence|]. cbn [matches1_loop strip]. rewrite b_peek.
  destruct (txt p) as [|c l] eqn:E.
  - rewrite (proj1 (skipn_nil _ _ E)). reflexivity.
  - destruct (skipn_cons _ _ _ _ E) as (E1 & E2 & E3). rewrite E1. destruct (a =? c) eqn:X; cbn [negb].
    + destruct key as [|k key].
      * rewrite b_advance. exists (S p). rewrite E2. auto.
      * rewrite b_advance. specialize (IHkey start r (S p) ltac:(discriminate)). now rewrite E2 in IHkey.
    + reflexivity.
Qed.
Lemma matches1_sim : forall key r p, bs key <> [] ->
  match strip (bs key) (txt p) with
  | Some x => exists p', matches1 q key (St r p) = Ok true (St r p') /\ txt p' = x
  | None => matches1 q key (St r p) = Ok false (St r p)
  end.
Proof. intros. unfold matches1. rewrite b_get_pos. now apply matches1_loop_sim. Qed.

Lemma name_charE : forall c, name_char c = ncharb c. Proof. reflexivity. Qed.
Lemma name_startE : forall c, name_start c = letterb c. Proof. reflexivity. Qed.

Lemma word_check_sim : forall A start (a none : A) r p,
  word_check q start a none (St r p) = if no_name_followsb (txt p) then Ok a (St r p) else Ok none (St r start).
Proof.
  intros. unfold word_check. rewrite b_peek. destruct (txt p) as [|c l] eqn:E.
  - rewrite (proj1 (skipn_nil _ _ E)). reflexivity.
  - rewrite (proj1 (skipn_cons _ _ _ _ E)). cbn [no_name_followsb]. rewrite name_charE. destruct (ncharb c); reflexivity.
Qed.
Lemma word1_sim : forall key r p, bs key <> [] ->
  match r_word (bs key) (txt p) with
  | Some x => exists p', matches_word1 q key (St r p) = Ok true (St r p') /\ txt p' = x
  | None => matches_word1 q key (St r p) = Ok false (St r p)
  end.
Proof.
  intros. unfold matches_word1, r_word. rewrite b_get_pos. pose proof (matches1_sim key r p H).
  destruct (strip (bs key) (txt p)).
  - destruct H0 as (p' & A & B). rewrite (bind_eq _ _ _ _ _ _ _ A); cbv beta iota. rewrite word_check_sim, B.
    destruct (no_name_followsb b); eauto.
  - rewrite (bind_eq _ _ _ _ _ _ _ H0); cbv beta iota. reflexivity.
Qed.
End Sim.
