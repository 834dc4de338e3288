(** * Texts with the same tokens read as the same documents (proofs) *)
From Coq Require Import String Arith NArith Bool Lia ZifyBool ZifyN ZifyNat List.
From Verif Require Import Base Ast Grammar RefParser RefLemmas RefGrammar Printer PrinterProof GapSpec.
Import ListNotations.
Open Scope N_scope.

(** ** Strings *)
Lemma chars_move : forall d l r, g_chars d l r -> exists t, l = t ++ r /\ t <> [] /\ forall r', g_chars d (t ++ r') r'.
Proof.
  induction 1.
  - exists [cQUOT]. split; [reflexivity|]. split; [discriminate|]. intros. constructor.
  - destruct IHg_chars as (t & -> & N & F). exists (0 :: t). split; [reflexivity|]. split; [discriminate|]. intros. now apply gc_nul.
  - destruct IHg_chars as (t & -> & N & F). exists (cBSL :: x ++ t). split; [cbn; now rewrite <- app_assoc|]. split; [discriminate|].
    intros. cbn [app]. rewrite <- app_assoc. now apply gc_esc.
  - destruct IHg_chars as (t & -> & N & F). exists (c :: t). split; [reflexivity|]. split; [discriminate|]. intros. now apply gc_plain.
Qed.
Lemma drop_blank_split : forall l, exists b, l = b ++ drop_blank l /\ Forall (fun c => (c =? cSP) || (c =? cTAB) = true) b /\ head_not (fun c => (c =? cSP) || (c =? cTAB)) (drop_blank l).
Proof.
  induction l as [|c l IH]; cbn [drop_blank]. { exists []. cbn. auto. }
  destruct ((c =? cSP) || (c =? cTAB)) eqn:E.
  - destruct IH as (b & Hb & F & N). exists (c :: b). cbn. rewrite <- Hb. auto.
  - exists []. cbn. rewrite E. auto.
Qed.
Lemma drop_blank_app : forall b l, Forall (fun c => (c =? cSP) || (c =? cTAB) = true) b -> head_not (fun c => (c =? cSP) || (c =? cTAB)) l -> drop_blank (b ++ l) = l.
Proof.
  induction 1; intros N; cbn [app drop_blank].
  - destruct l; auto. cbn in N |- *. now rewrite N.
  - rewrite H. auto.
Qed.
Lemma drop_white_split : forall l, exists b, l = b ++ drop_white l /\ Forall (fun c => (c =? cSP) || (c =? cTAB) || (c =? cLF) || (c =? cCR) = true) b /\
  head_not (fun c => (c =? cSP) || (c =? cTAB) || (c =? cLF) || (c =? cCR)) (drop_white l).
Proof.
  induction l as [|c l IH]; cbn [drop_white]. { exists []. cbn. auto. }
  destruct ((c =? cSP) || (c =? cTAB) || (c =? cLF) || (c =? cCR)) eqn:E.
  - destruct IH as (b & Hb & F & N). exists (c :: b). cbn. rewrite <- Hb. auto.
  - exists []. cbn. rewrite E. auto.
Qed.
Lemma drop_white_app : forall b l, Forall (fun c => (c =? cSP) || (c =? cTAB) || (c =? cLF) || (c =? cCR) = true) b ->
  head_not (fun c => (c =? cSP) || (c =? cTAB) || (c =? cLF) || (c =? cCR)) l -> drop_white (b ++ l) = l.
Proof.
  induction 1; intros N; cbn [app drop_white].
  - destruct l; auto. cbn in N |- *. now rewrite N.
  - rewrite H. auto.
Qed.
Lemma head_same : forall p (t r r' : bytes), t <> [] -> head_not p (t ++ r) -> head_not p (t ++ r').
Proof. intros p [|c t] r r' N H; [congruence|exact H]. Qed.
Lemma triple_same : forall t r r', (3 <= length t)%nat -> starts_with triple (t ++ r) -> starts_with triple (t ++ r').
Proof.
  intros t r r' L [x E]. destruct t as [|a [|b [|c t]]]; cbn in L; try lia. cbn in E. inversion E; subst. eexists. reflexivity.
Qed.
Lemma block_move : forall d l r, g_block d l r -> exists t, l = t ++ r /\ (3 <= length t)%nat /\ forall r', g_block d (t ++ r') r'.
Proof.
  induction 1.
  - exists triple. split; [reflexivity|]. split; [cbn; lia|]. intros. constructor.
  - destruct IHg_block as (t & -> & N & F). exists (0 :: t). split; [reflexivity|]. split; [cbn; lia|]. intros. now apply gb_nul.
  - destruct IHg_block as (t & -> & N & F). exists (cQUOT :: t). split; [reflexivity|]. split; [cbn; lia|]. intros. apply gb_quot; auto.
    intros Q. apply H. change (cQUOT :: t ++ r) with ((cQUOT :: t) ++ r). eapply triple_same; [cbn; lia|exact Q].
  - destruct IHg_block as (t & -> & N & F). exists (cBSL :: x ++ t). split; [cbn; now rewrite <- app_assoc|]. split; [cbn; rewrite app_length; lia|].
    intros. cbn [app]. rewrite <- app_assoc. now apply gb_esc.
  - destruct IHg_block as (t & E & N & F). destruct (drop_blank_split l) as (b & Hb & Fb & Nb). exists (10 :: b ++ t).
    split; [cbn; rewrite <- app_assoc, <- E, <- Hb; reflexivity|]. split; [cbn; rewrite app_length; lia|]. intros. cbn [app]. rewrite <- app_assoc.
    apply gb_lf. rewrite drop_blank_app; auto. rewrite E in Nb. eapply head_same; [|exact Nb]. now destruct t.
  - destruct IHg_block as (t & E & N & F). destruct (drop_blank_split l) as (b & Hb & Fb & Nb). exists (13 :: 10 :: b ++ t).
    split; [cbn; rewrite <- app_assoc, <- E, <- Hb; reflexivity|]. split; [cbn; rewrite app_length; lia|]. intros. cbn [app]. rewrite <- app_assoc.
    apply gb_crlf. rewrite drop_blank_app; auto. rewrite E in Nb. eapply head_same; [|exact Nb]. now destruct t.
  - destruct IHg_block as (t & E & N & F). destruct (drop_blank_split l) as (b & Hb & Fb & Nb). exists (13 :: b ++ t).
    split; [cbn; rewrite <- app_assoc, <- E, <- Hb; reflexivity|]. split; [cbn; rewrite app_length; lia|]. intros. cbn [app]. rewrite <- app_assoc.
    apply gb_cr.
    + intros [x Q]. apply H. rewrite Hb, E, app_assoc. rewrite app_assoc in Q. destruct (b ++ t) as [|a bt] eqn:Q2.
      { destruct b; [destruct t; [cbn in N; lia|discriminate]|discriminate]. }
      cbn in Q. inversion Q; subst. eexists. reflexivity.
    + rewrite drop_blank_app; auto. rewrite E in Nb. eapply head_same; [|exact Nb]. now destruct t.
  - destruct IHg_block as (t & -> & N & F). exists (c :: t). split; [reflexivity|]. split; [cbn; lia|]. intros. now apply gb_plain.
Qed.

Lemma string_det : forall d d' l r r', g_string d l r -> g_string d' l r' -> d = d' /\ r = r'.
Proof. intros. apply r_string_complete in H, H0. rewrite H in H0. inversion H0. auto. Qed.
Lemma app_same_len : forall (A : Type) (a b x y : list A), length x = length y -> a ++ x = b ++ y -> a = b /\ x = y.
Proof.
  intros A a. induction a; intros b x y L E; destruct b; cbn in E.
  - auto.
  - subst x. cbn in L. rewrite app_length in L. lia.
  - subst y. cbn in L. rewrite app_length in L. lia.
  - inversion E; subst. destruct (IHa _ _ _ L H1); subst. auto.
Qed.
(** the opening of a string token does not depend on what follows *)
Definition plain_end (t r : bytes) : Prop := t = [cQUOT; cQUOT] -> ~ starts_with [cQUOT] r.
Lemma string_split : forall d t r, g_string d (t ++ r) r ->
  (1 < length t)%nat /\ (exists x, t = cQUOT :: x) /\ plain_end t r /\ forall r', plain_end t r' -> g_string d (t ++ r') r'.
Proof.
  intros d t r H. inversion H as [d1 l1 r1 H1 H3 H2 H0|d1 l1 r1 H3 H1 H0]; subst.
  - destruct (chars_move _ _ _ H3) as (x & -> & N & F). change (cQUOT :: x ++ r) with ((cQUOT :: x) ++ r) in H0.
    apply app_inv_tail in H0. subst t. split; [destruct x; cbn; [congruence|lia]|]. split; [eauto|]. split.
    + intros E [y Q]. apply H1. inversion E; subst. eexists. reflexivity.
    + intros r' P. cbn [app]. constructor; auto. intros Q. destruct x as [|a [|b x]]; [congruence| |].
      * destruct Q as [y Q]. cbn in Q. inversion Q; subst. apply P; [reflexivity|]. eexists. reflexivity.
      * apply H1. change (cQUOT :: (a :: b :: x) ++ r) with ((cQUOT :: a :: b :: x) ++ r). eapply triple_same; [cbn; lia|exact Q].
  - destruct (block_move _ _ _ H3) as (x & E & N & F). destruct (drop_white_split l1) as (b & Hb & Fb & Nb).
    rewrite Hb, E in H0. rewrite !app_assoc in H0. change (cQUOT :: cQUOT :: cQUOT :: (b ++ x) ++ r) with ((triple ++ b ++ x) ++ r) in H0.
    apply app_inv_tail in H0. subst t.
    split; [cbn; lia|]. split; [eexists; reflexivity|]. split.
    + intros Q. exfalso. cbn in Q. inversion Q.
    + intros r' _. rewrite <- !app_assoc. apply g_string_block. rewrite drop_white_app; auto. rewrite E in Nb. eapply head_same; [|exact Nb]. now destruct x.
Qed.
Lemma string_det2 : forall d d' t r r', g_string d (t ++ r) r -> g_string d' (t ++ r') r' -> d = d'.
Proof.
  intros d d' t r r' H H'. destruct (string_split _ _ _ H) as (_ & _ & _ & F). destruct (string_split _ _ _ H') as (_ & _ & P & _).
  exact (proj1 (string_det _ _ _ _ _ (F _ P) H')).
Qed.

(** ** Tokens *)
Lemma span_unique : forall p (a b x y : bytes), Forall (fun c => p c = true) a -> Forall (fun c => p c = true) b -> head_not p x -> head_not p y ->
  a ++ x = b ++ y -> a = b /\ x = y.
Proof. intros p a b x y A B X Y E. pose proof (span_app p a x A X) as S. rewrite E, (span_app p b y B Y) in S. inversion S. auto. Qed.

Lemma token_head : forall t r, token t r -> exists c x, t = c :: x /\ ign_charb c = false.
Proof.
  destruct 1.
  - exists c, t. split; auto. now apply letter_token.
  - exists c, t. split; auto. unfold num_start, is_digit, ign_charb in *. lia.
  - destruct (string_split _ _ _ H) as (_ & (x & ->) & _). exists cQUOT, x. auto.
  - eexists _, _. split; reflexivity.
  - exists c, []. split; auto. cbn in H. unfold ign_charb. lia.
Qed.
Lemma token_skip : forall t r x, token t r -> skip_ign (t ++ x) = t ++ x.
Proof. intros. destruct (token_head _ _ H) as (c & y & -> & E). cbn [app]. now apply skip_ign_token. Qed.
Lemma token_punct : forall t r c x, token t r -> t ++ r = c :: x -> In c (bs "!$&():=@[]{|},") -> t = [c] /\ r = x.
Proof.
  intros t r c x T E I. inversion T; subst.
  - cbn in E. inversion E; subst. unfold is_letter in H. cbn in I. lia.
  - cbn in E. inversion E; subst. unfold num_start, is_digit in H. cbn in I. lia.
  - destruct (string_split _ _ _ H) as (_ & (y & ->) & _). cbn in E. inversion E; subst. cbn in I. lia.
  - cbn in E. inversion E; subst. cbn in I. lia.
  - cbn in E. inversion E; subst. auto.
Qed.
Lemma token_name : forall t r c x, token t r -> t ++ r = c :: x -> is_letter c ->
  exists y, t = c :: y /\ Forall is_name_char y /\ no_name_follows r.
Proof.
  intros t r c x T E L. inversion T; subst.
  - cbn in E. inversion E; subst. eauto.
  - cbn in E. inversion E; subst. unfold num_start, is_digit, is_letter in *. lia.
  - destruct (string_split _ _ _ H) as (_ & (y & ->) & _). cbn in E. inversion E; subst. unfold is_letter in L. lia.
  - cbn in E. inversion E; subst. unfold is_letter in L. lia.
  - cbn in E. inversion E; subst. unfold is_letter in L. cbn in H. lia.
Qed.
Lemma token_str : forall t r x, token t r -> t ++ r = cQUOT :: x -> exists d, g_string d (t ++ r) r.
Proof.
  intros t r x T E. inversion T; subst.
  - cbn in E. inversion E; subst. unfold is_letter in H. lia.
  - cbn in E. inversion E; subst. unfold num_start, is_digit in *. lia.
  - eauto.
  - cbn in E. inversion E.
  - cbn in E. inversion E; subst. cbn in H. lia.
Qed.
Lemma token_num : forall t r c x, token t r -> t ++ r = c :: x -> num_start c -> ~ starts_with (bs "...") (c :: x) ->
  exists y, t = c :: y /\ Forall (fun x => is_digit x \/ In x (bs "_.eE+-")) y /\ match r with [] => True | x :: _ => num_stop x end.
Proof.
  intros t r c x T E L D. inversion T; subst.
  - cbn in E. inversion E; subst. unfold num_start, is_digit, is_letter in *. lia.
  - cbn in E. inversion E; subst. eauto.
  - destruct (string_split _ _ _ H) as (_ & (y & ->) & _). cbn in E. inversion E; subst. unfold num_start, is_digit in L. lia.
  - exfalso. apply D. rewrite <- E. eexists. reflexivity.
  - cbn in E. inversion E; subst. unfold num_start, is_digit in *. cbn in H. lia.
Qed.
Lemma token_next : forall t c r r', token t (c :: r) -> token t (c :: r').
Proof.
  intros. inversion H; subst; try (econstructor; eauto; fail).
  apply tk_str with (d := d). destruct (string_split _ _ _ H0) as (_ & _ & P & F). apply F. intros E [y Q]. apply (P E). cbn in Q. inversion Q; subst. eexists. reflexivity.
Qed.
Lemma token_gap : forall t r c r', token t r -> In c [cSP; cTAB; cLF; cCR; cHASH] -> token t (c :: r').
Proof.
  intros. inversion H; subst; try (econstructor; eauto; fail).
  - apply tk_name; auto. cbn. now apply ign_head_not_name.
  - apply tk_num; auto. now apply ign_head_num_stop.
  - apply tk_str with (d := d). destruct (string_split _ _ _ H1) as (_ & _ & P & F). apply F. intros E [y Q]. cbn in Q. inversion Q; subst. cbn in H0. lia.
Qed.

(** ** The relation *)
Lemma glue_refl : forall t r, glue t r r.
Proof. constructor; tauto. Qed.
Lemma glue_sym : forall t r r', glue t r r' -> glue t r' r.
Proof. intros t r r' [A B C]. constructor; intros; symmetry; auto. Qed.
Lemma same_refl : forall l, same l l.
Proof. intros. now apply same_rest. Qed.
Lemma same_sym : forall l l', same l l' -> same l' l.
Proof. induction 1; [apply same_rest; auto|]. eapply same_token; eauto. now apply glue_sym. Qed.

(** both texts start at a token *)
Definition at_ (l l' : bytes) : Prop := same l l' /\ skip_ign l = l /\ skip_ign l' = l'.
Lemma at_same : forall l l', at_ l l' -> same l l'.
Proof. now intros l l' [A _]. Qed.
Lemma same_skip : forall l l', same l l' -> at_ (skip_ign l) (skip_ign l').
Proof.
  intros l l' H. split; [|split; apply skip_ign_idem]. inversion H; subst.
  - apply same_rest. now rewrite !skip_ign_idem.
  - eapply same_token; try rewrite skip_ign_idem; eauto.
Qed.
Lemma same_head : forall l l' c r, same l l' -> skip_ign l = c :: r -> exists r', skip_ign l' = c :: r' /\ at_ (c :: r) (c :: r').
Proof.
  intros l l' c r H E. pose proof (same_skip _ _ H) as K. rewrite E in K. inversion H; subst.
  - rewrite <- H0, E. exists r. rewrite <- H0, E in K. auto.
  - rewrite H0 in E. destruct (token_head _ _ H2) as (c0 & x & -> & _). cbn in E. inversion E; subst. rewrite H1 in *. cbn in K |- *. eauto.
Qed.
Lemma same_nil : forall l l', same l l' -> skip_ign l = [] -> skip_ign l' = [].
Proof.
  intros l l' H E. inversion H; subst; [congruence|]. rewrite H0 in E. destruct (token_head _ _ H2) as (c0 & x & -> & _). discriminate.
Qed.
Lemma same_punct : forall l l' c r, same l l' -> skip_ign l = c :: r -> In c (bs "!$&():=@[]{|},") ->
  exists r', skip_ign l' = c :: r' /\ same r r' /\ glue [c] r r'.
Proof.
  intros l l' c r H E I. inversion H; subst.
  - exists r. rewrite <- H0. repeat split; auto using same_refl; tauto.
  - rewrite H0 in E. destruct (token_punct _ _ _ _ H2 E I) as [-> ->]. exists r'. auto.
Qed.
Lemma at_punct : forall l' c r, at_ (c :: r) l' -> In c (bs "!$&():=@[]{|},") -> exists r', l' = c :: r' /\ same r r' /\ glue [c] r r'.
Proof.
  intros l' c r (H & A & B) I. destruct (same_punct _ _ _ _ H A I) as (r' & C & D & E). rewrite B in C. eauto.
Qed.
Lemma valid_chars : forall n, valid_name n -> Forall (fun c => ncharb c = true) n.
Proof.
  intros n V. destruct V. constructor; [apply ncharb_iff; now left|]. eapply Forall_impl; [|exact H0]. intros. now apply ncharb_iff.
Qed.
Lemma name_head : forall l, no_name_follows l -> head_not ncharb l.
Proof. intros [|c l] H; cbn in *; auto. now apply ncharb_false. Qed.
Lemma letter_name : forall c t r, token (c :: t) r -> is_letter c -> no_name_follows r.
Proof.
  intros c t r T L. destruct (token_name _ _ c (t ++ r) T eq_refl L) as (y & E & F & N). auto.
Qed.
Lemma at_name : forall n l l' r, at_ l l' -> g_name n l r -> exists r', g_name n l' r' /\ same r r'.
Proof.
  intros n l l' r (H & A & B) G. destruct H as [l l' E|l l' t r1 r2 E1 E2 T1 T2 Gl S].
  - rewrite A, B in E. subst. eauto using same_refl.
  - rewrite A in E1. rewrite B in E2. subst l l'. remember (t ++ r1) as l eqn:El. destruct G as [n c r V N].
    pose proof (valid_chars _ V) as Vc. destruct V as [c0 n0 L F Len].
    destruct (token_name _ _ c0 (n0 ++ c :: r) T1 (eq_sym El) L) as (y & -> & Fy & Nr).
    assert (V' : Forall (fun c => ncharb c = true) (c0 :: y)).
    { inversion Vc; subst. constructor; auto. eapply Forall_impl; [|exact Fy]. intros. now apply ncharb_iff. }
    destruct (span_unique _ _ _ _ _ Vc V' (name_head (c :: r) N) (name_head _ Nr) El) as [Q1 Q2].
    rewrite <- Q1 in *. subst r1. destruct r2 as [|c' r2].
    { exfalso. destruct (gl_end _ _ _ Gl) as [_ Z]. { intros Q. inversion Q; subst. unfold is_letter in L. lia. } discriminate (Z eq_refl). }
    exists (c' :: r2). split; auto. constructor; [now constructor|]. exact (letter_name _ _ _ T2 L).
Qed.
Lemma same_name : forall n l l' r, same l l' -> g_name n (skip_ign l) r -> exists r', g_name n (skip_ign l') r' /\ same r r'.
Proof. intros. eapply at_name; eauto. now apply same_skip. Qed.
(** behind $ and @ *)
Lemma glued_name : forall n c l l' r, same l l' -> glue [c] l l' -> c = cDOLLAR \/ c = cAT -> g_name n l r -> exists r', g_name n l' r' /\ same r r'.
Proof.
  intros n c l l' r H G C N. assert (A : skip_ign l = l).
  { inversion N; subst. destruct H0. cbn. apply skip_ign_token. now apply letter_token. }
  eapply at_name; eauto. split; [|split]; auto. apply (gl_name _ _ _ G); auto. destruct C as [-> | ->]; auto.
Qed.

Lemma word_chars : forall p, forallb ncharb p = true -> Forall is_name_char p.
Proof. intros p H. rewrite forallb_forall in H. apply Forall_forall. intros x I. apply ncharb_iff. auto. Qed.
(** a keyword at the beginning of a name *)
Lemma at_word : forall p l l', at_ (p ++ l) l' -> p <> [] -> (exists c x, p = c :: x /\ is_letter c) -> Forall is_name_char p ->
  exists m, l' = p ++ m /\ ((exists c x x', l = c :: x /\ m = c :: x' /\ is_digit c) \/ (same l m /\ (no_name_follows l -> no_name_follows m))).
Proof.
  intros p l l' (H & A & B) Np (c & x & Ep & L) F. remember (p ++ l) as k eqn:Ek. destruct H as [l0 l' E|l0 l' t r1 r2 E1 E2 T1 T2 Gl S].
  - rewrite A, B in E. subst l'. exists l. split; auto. right. split; auto using same_refl.
  - rewrite A in E1. rewrite B in E2. subst l'. rewrite Ek, Ep in E1. cbn in E1.
    destruct (token_name _ _ _ _ T1 (eq_sym E1) L) as (y & -> & Fy & Nr). pose proof (letter_name _ _ _ T2 L) as Nr2.
    assert (exists z, c :: y = p ++ z /\ l = z ++ r1) as (z & Ez & El).
    { subst p. inversion F; subst. clear - E1 H2 Nr Fy. cbn in E1. inversion E1 as [E]. clear E1. revert x y E H2 Fy. induction x as [|a x IH]; intros y E H2 Fy.
      - exists y. auto.
      - destruct y as [|b y].
        + cbn in E. rewrite <- E in Nr. inversion H2; subst. contradiction.
        + cbn in E. inversion E; subst. inversion H2; subst. inversion Fy; subst. destruct (IH y H1 H4 H6) as (z & Q & Q2).
          inversion Q. exists z. cbn. auto. }
    exists (z ++ r2). rewrite Ez, <- app_assoc. split; auto. subst l.
    destruct z as [|a z].
    + right. cbn. auto.
    + assert (Fa : Forall is_name_char (c :: y)) by (constructor; [now left|auto]). rewrite Ez in Fa. apply Forall_app in Fa as [_ Fa].
      inversion Fa; subst. destruct H1 as [La|Da].
      * right. split; [|intros Q; exact Q]. eapply same_token with (t := a :: z) (r := r1) (r' := r2); auto.
        { cbn. apply skip_ign_token. now apply letter_token. }
        { cbn. apply skip_ign_token. now apply letter_token. }
        { now apply tk_name. }
        { now apply tk_name. }
        constructor.
        { intros [Q|Q]; inversion Q; subst; unfold is_letter in La; lia. }
        { intros Q; inversion Q; subst; unfold is_letter in La; lia. }
        { intros _. apply (gl_end _ _ _ Gl). intros Q. inversion Q; subst. unfold is_letter in L. lia. }
      * left. exists a, (z ++ r1), (z ++ r2). auto.
Qed.
(** the whole word *)
Lemma same_on : forall l l' r, same l l' -> skip_ign l = bs "on" ++ r -> no_name_follows r ->
  exists r', skip_ign l' = bs "on" ++ r' /\ no_name_follows r' /\ same r r'.
Proof.
  intros l l' r H E N. pose proof (same_skip _ _ H) as K. rewrite E in K.
  destruct (at_word (bs "on") r _ K) as (m & Em & D).
  - discriminate.
  - exists 111, (bs "n"). split; [reflexivity|]. unfold is_letter. lia.
  - now apply word_chars.
  - exists m. split; auto. destruct D as [(c & x & x' & -> & -> & D)|[S I]]; [|auto]. exfalso. apply N. now right.
Qed.

(** ** Numbers *)
Definition num_char (c : N) : Prop := is_digit c \/ In c (bs "_.eE+-").
Lemma run_chars : forall d, digit_run d -> Forall num_char d.
Proof. intros d. apply Forall_impl. intros a [H | ->]; [now left|]. right. cbn. auto. Qed.
Lemma sign_chars : forall s s', g_sign s s' -> Forall num_char s.
Proof. destruct 1; repeat constructor; right; cbn; auto 10. Qed.
Lemma exp_chars : forall s s', g_exp s s' -> Forall num_char s.
Proof.
  destruct 1; constructor.
  - right. cbn. lia.
  - apply Forall_app. split; [eapply sign_chars; eauto|now apply run_chars].
Qed.
Lemma number_move : forall v l r, g_number v l r -> exists t, l = t ++ r /\ Forall num_char t /\ (exists c x, r = c :: x /\ num_stop c) /\
  forall c x, num_stop c -> g_number v (t ++ c :: x) (c :: x).
Proof.
  destruct 1.
  - exists (sgn ++ d). rewrite <- app_assoc. split; auto. split; [apply Forall_app; split; [eapply sign_chars; eauto|now apply run_chars]|].
    split; [eauto|]. intros. rewrite <- app_assoc. now apply g_number_int.
  - exists (sgn ++ d ++ e). rewrite <- !app_assoc. split; auto.
    split; [repeat (apply Forall_app; split); eauto using sign_chars, run_chars, exp_chars|].
    split; [eauto|]. intros. rewrite <- !app_assoc. now apply g_number_exp.
  - exists (sgn ++ d ++ cDOT :: f ++ e). rewrite <- !app_assoc. cbn [app]. rewrite <- app_assoc. split; auto.
    split. { apply Forall_app. split; [eapply sign_chars; eauto|]. apply Forall_app. split; [now apply run_chars|]. constructor; [right; cbn; auto|]. apply Forall_app; eauto using run_chars, exp_chars. }
    split; [eauto|]. intros. rewrite <- !app_assoc. cbn [app]. rewrite <- app_assoc. now apply g_number_float.
Qed.
Definition num_charb (c : N) : bool := digitb c || existsb (N.eqb c) (bs "_.eE+-").
Lemma num_charb_iff : forall c, num_charb c = true <-> num_char c.
Proof. intros. unfold num_charb, num_char, digitb, is_digit. cbn. lia. Qed.
Lemma num_stop_char : forall c, num_stop c -> num_charb c = false.
Proof. intros. unfold num_stop, num_charb, digitb in *. cbn in *. lia. Qed.
Lemma dots_no_number : forall v l r, ~ g_number v (bs "..." ++ l) r.
Proof.
  intros v l r H. apply r_number_complete in H. cbn in H. discriminate.
Qed.
Lemma same_number : forall v c l l' r, at_ (c :: l) l' -> num_start c -> g_number v (c :: l) r ->
  exists x' r', l' = c :: x' /\ g_number v l' r' /\ same r r'.
Proof.
  intros v c l l' r (H & A & B) St G. remember (c :: l) as l0 eqn:E0. destruct H as [l0 l' E|l0 l' t r1 r2 E1 E2 T1 T2 Gl S].
  - rewrite A, B in E. subst. exists l, r. eauto using same_refl.
  - rewrite A in E1. rewrite B in E2. subst l'. rewrite E1 in E0, G. clear A E1 l0.
    assert (D : ~ starts_with (bs "...") (c :: l)).
    { rewrite <- E0. intros [z Q]. rewrite Q in G. now apply dots_no_number in G. }
    destruct (token_num _ _ _ _ T1 E0 St D) as (y & -> & Fy & Sr).
    destruct (number_move _ _ _ G) as (t & Et & Ft & (c1 & x & -> & Sc) & M).
    assert (Q : c :: y = t /\ r1 = c1 :: x).
    { apply (span_unique num_charb); auto.
      - constructor. { apply num_charb_iff. unfold num_start in St. unfold num_char. cbn. intuition. } eapply Forall_impl; [|exact Fy]. intros. now apply num_charb_iff.
      - eapply Forall_impl; [|exact Ft]. intros. now apply num_charb_iff.
      - destruct r1; cbn; auto. now apply num_stop_char.
      - cbn. now apply num_stop_char. }
    destruct Q as [<- ->]. destruct r2 as [|c2 r2].
    { exfalso. destruct (gl_end _ _ _ Gl) as [_ Z]. { intros Q. inversion Q; subst. unfold num_start, is_digit in St. lia. } discriminate (Z eq_refl). }
    exists (y ++ c2 :: r2), (c2 :: r2). split; [reflexivity|]. split; auto. apply M.
    assert (D2 : ~ starts_with (bs "...") (c :: y ++ c2 :: r2)).
    { intros Q. inversion T2 as [c3 t3 r3 K1 K2 K3|c3 t3 r3 K1 K2 K3 K4|d3 t3 r3 K1|r3 K1|c3 r3 K1]; subst.
      - unfold is_letter, num_start, is_digit in *. lia.
      - destruct y as [|y1 [|y2 y]].
        + destruct Q as [z Q]. cbn in Q. inversion Q; subst. unfold num_stop in K4. cbn in K4. lia.
        + destruct Q as [z Q]. cbn in Q. inversion Q; subst. unfold num_stop in K4. cbn in K4. lia.
        + apply K3. destruct Q as [z Q]. cbn in Q. inversion Q; subst. eexists. reflexivity.
      - destruct (string_split _ _ _ K1) as (_ & (z & Qz) & _). inversion Qz; subst. unfold num_start, is_digit in *. lia.
      - apply D. eexists. cbn in E0. rewrite <- E0. reflexivity.
      - unfold num_start, is_digit in St. cbn in K1. lia. }
    destruct (token_num _ _ c (y ++ c2 :: r2) T2 eq_refl St D2) as (y' & Qy & _ & Sr2). exact Sr2.
Qed.
Lemma same_string : forall d l l' r, at_ (cQUOT :: l) l' -> g_string d (cQUOT :: l) r ->
  exists x' r', l' = cQUOT :: x' /\ g_string d l' r' /\ same r r'.
Proof.
  intros d l l' r (H & A & B) G. remember (cQUOT :: l) as l0 eqn:E0. destruct H as [l0 l' E|l0 l' t r1 r2 E1 E2 T1 T2 Gl S].
  - rewrite A, B in E. subst. exists l, r. eauto using same_refl.
  - rewrite A in E1. rewrite B in E2. subst l'. rewrite E1 in E0, G. clear A E1 l0.
    destruct (token_str _ _ _ T1 E0) as (d1 & G1). destruct (string_split _ _ _ G1) as (_ & (z & ->) & _).
    destruct (token_str _ _ (z ++ r2) T2 eq_refl) as (d2 & G2).
    destruct (string_det _ _ _ _ _ G G1) as [-> ->]. rewrite (string_det2 _ _ _ _ _ G1 G2). exists (z ++ r2), r2. auto.
Qed.
Lemma same_sep : forall l l' c r, same l l' -> sep l = c :: r -> exists r', sep l' = c :: r' /\ at_ (c :: r) (c :: r').
Proof.
  intros l l' c r H E. unfold sep in *. destruct (skip_ign l) as [|c0 r0] eqn:E0; [discriminate|].
  destruct (same_head _ _ _ _ H E0) as (r0' & E0' & K). rewrite E0'. destruct (c0 =? cCOMMA) eqn:C.
  - apply N.eqb_eq in C. subst c0. destruct (at_punct _ _ _ K) as (r1 & Q & S & _); [cbn; auto 20|]. inversion Q; subst.
    eapply same_head; eauto.
  - inversion E; subst. eauto.
Qed.
