(** * RefParser.v agrees with Grammar.v: lexical part (proofs) *)
From Coq Require Import String Arith NArith Bool Lia ZifyBool ZifyN ZifyNat List.
From Verif Require Import Base Ast Grammar RefParser.
Import ListNotations.
Open Scope N_scope.

Lemma letterb_iff : forall c, letterb c = true <-> is_letter c.
Proof. intros. unfold letterb, is_letter. lia. Qed.
Lemma digitb_iff : forall c, digitb c = true <-> is_digit c.
Proof. intros. unfold digitb, is_digit. lia. Qed.
Lemma ncharb_iff : forall c, ncharb c = true <-> is_name_char c.
Proof. intros. unfold ncharb, is_name_char. rewrite orb_true_iff, letterb_iff, digitb_iff. tauto. Qed.
Lemma ncharb_false : forall c, ncharb c = false <-> ~ is_name_char c.
Proof. intros. rewrite <- ncharb_iff. destruct (ncharb c); split; congruence. Qed.
Lemma letterb_false : forall c, letterb c = false <-> ~ is_letter c.
Proof. intros. rewrite <- letterb_iff. destruct (letterb c); split; congruence. Qed.
Lemma dugb_iff : forall c, dugb c = true <-> (is_digit c \/ c = cUND).
Proof. intros. unfold dugb. rewrite orb_true_iff, digitb_iff, N.eqb_eq. tauto. Qed.

Definition head_not (p : N -> bool) (l : bytes) : Prop := match l with [] => True | c :: _ => p c = false end.

Lemma span_spec : forall p l a b, span p l = (a, b) ->
  l = a ++ b /\ Forall (fun c => p c = true) a /\ head_not p b.
Proof.
  induction l; simpl; intros.
  - inversion H; subst. simpl. auto.
  - destruct (p a) eqn:E.
    + destruct (span p l) as [x y] eqn:E2. inversion H; subst.
      destruct (IHl x b eq_refl) as (H1 & H2 & H3). subst. repeat split; auto.
    + inversion H; subst. simpl. auto.
Qed.

Lemma span_app : forall p a b, Forall (fun c => p c = true) a -> head_not p b -> span p (a ++ b) = (a, b).
Proof.
  induction a; simpl; intros.
  - destruct b; simpl in *; auto. now rewrite H0.
  - inversion H; subst. rewrite H3. rewrite IHa; auto.
Qed.

Lemma r_name_spec : forall l n r, r_name l = Some (n, r) <-> g_name n l r.
Proof.
  split; intros.
  - unfold r_name in H. destruct l as [|c l]; [easy|]. destruct (letterb c) eqn:E; [|easy].
    destruct (span ncharb (c :: l)) as [n' r'] eqn:E2.
    destruct r' as [|c' r']; [easy|]. destruct (Nat.leb (length n') 254) eqn:E3; [|easy].
    inversion H; subst. apply span_spec in E2 as (H1 & H2 & H3). simpl in H3.
    rewrite H1. constructor.
    + destruct n. { simpl in H1. inversion H1; subst. unfold ncharb in H3. now rewrite E in H3. }
      inversion H1; subst. constructor.
      * now apply letterb_iff.
      * inversion H2; subst. eapply Forall_impl; [|exact H6]. intros; now apply ncharb_iff.
      * apply Nat.leb_le in E3. exact E3.
    + now apply ncharb_false.
  - inversion H; subst. inversion H0; subst. unfold r_name. cbn [app].
    rewrite (proj2 (letterb_iff _) H2).
    change (c0 :: n0 ++ c :: r0) with ((c0 :: n0) ++ c :: r0).
    rewrite span_app.
    + rewrite (proj2 (Nat.leb_le _ _) H4). reflexivity.
    + constructor; [apply ncharb_iff; now left|]. eapply Forall_impl; [|exact H3]. intros; now apply ncharb_iff.
    + simpl. now apply ncharb_false.
Qed.

Lemma strip_spec : forall p l r, strip p l = Some r <-> l = p ++ r.
Proof.
  induction p; simpl; intros.
  - split; congruence.
  - destruct l as [|y l].
    + split; intros; discriminate.
    + destruct (a =? y) eqn:E.
      * apply N.eqb_eq in E. subst. rewrite IHp. split; congruence.
      * split; intros; try discriminate. inversion H; subst. now rewrite N.eqb_refl in E.
Qed.
Lemma strip_app : forall p r, strip p (p ++ r) = Some r.
Proof. intros. now apply strip_spec. Qed.
Lemma strip_None : forall p l, strip p l = None <-> ~ starts_with p l.
Proof.
  intros. split; intros.
  - intros [r E]. apply strip_spec in E. congruence.
  - destruct (strip p l) eqn:E; auto. apply strip_spec in E. exfalso. apply H. now exists b.
Qed.

(** ** Ignored tokens *)
Fixpoint skip_ign_len (l : bytes) : (length (skip_ign l) <= length l)%nat
with skip_comment_len (l : bytes) : (length (skip_comment l) <= length l)%nat.
Proof.
  - destruct l as [|c r]; simpl; auto.
    destruct ((c =? cSP) || (c =? cTAB) || (c =? cLF) || (c =? cCR) || (c =? cNUL)).
    + specialize (skip_ign_len r). lia.
    + destruct (c =? cHASH); [specialize (skip_comment_len r); lia | simpl; lia].
  - destruct l as [|c r]; simpl; auto.
    destruct ((c =? cLF) || (c =? cCR)).
    + specialize (skip_ign_len r). lia.
    + specialize (skip_comment_len r). lia.
Qed.

Definition ign_charb (c : N) : bool :=
  (c =? cSP) || (c =? cTAB) || (c =? cLF) || (c =? cCR) || (c =? cNUL) || (c =? cHASH).

Fixpoint skip_ign_head (l : bytes) : head_not ign_charb (skip_ign l)
with skip_comment_head (l : bytes) : head_not ign_charb (skip_comment l).
Proof.
  - destruct l as [|c r]; simpl; auto.
    destruct ((c =? cSP) || (c =? cTAB) || (c =? cLF) || (c =? cCR) || (c =? cNUL)) eqn:E.
    + apply skip_ign_head.
    + destruct (c =? cHASH) eqn:E2; [apply skip_comment_head|]. simpl. unfold ign_charb. now rewrite E, E2.
  - destruct l as [|c r]; simpl; auto.
    destruct ((c =? cLF) || (c =? cCR)); [apply skip_ign_head | apply skip_comment_head].
Qed.

Lemma skip_ign_token : forall c l, ign_charb c = false -> skip_ign (c :: l) = c :: l.
Proof.
  intros. unfold ign_charb in H. simpl.
  apply orb_false_iff in H as [H1 H2]. now rewrite H1, H2.
Qed.
Lemma skip_ign_idem : forall l, skip_ign (skip_ign l) = skip_ign l.
Proof.
  intros. pose proof (skip_ign_head l). destruct (skip_ign l); auto. simpl in H. now apply skip_ign_token.
Qed.
Lemma skip_ign_cons_inv : forall l c r, skip_ign l = c :: r -> ign_charb c = false.
Proof. intros. pose proof (skip_ign_head l). rewrite H in H0. exact H0. Qed.
Lemma skip_ign_len_eq : forall l c r, skip_ign l = c :: r -> (S (length r) <= length l)%nat.
Proof. intros. pose proof (skip_ign_len l). rewrite H in H0. exact H0. Qed.
Lemma skip_ign_again : forall l c r, skip_ign l = c :: r -> skip_ign (c :: r) = c :: r.
Proof. intros. rewrite <- H. apply skip_ign_idem. Qed.

Lemma sep_len : forall l c r, sep l = c :: r -> (S (length r) <= length l)%nat.
Proof.
  unfold sep. intros. pose proof (skip_ign_len l). destruct (skip_ign l) as [|c' r'] eqn:E; [easy|].
  destruct (c' =? cCOMMA).
  - pose proof (skip_ign_len r'). rewrite H in H1. simpl in *. lia.
  - inversion H; subst. simpl in *. lia.
Qed.
Lemma sep_token : forall l c r, sep l = c :: r -> ign_charb c = false.
Proof.
  unfold sep. intros. destruct (skip_ign l) as [|c' r'] eqn:E; [easy|].
  destruct (c' =? cCOMMA).
  - eapply skip_ign_cons_inv; eauto.
  - inversion H; subst. eapply skip_ign_cons_inv; eauto.
Qed.
Lemma sep_skip : forall l l', skip_ign l = skip_ign l' -> sep l = sep l'.
Proof. unfold sep. intros. now rewrite H. Qed.

Lemma letter_token : forall c, is_letter c -> ign_charb c = false.
Proof. intros. unfold is_letter, ign_charb in *. lia. Qed.

(** ** Lengths *)
Lemma g_name_len : forall n l r, g_name n l r -> (S (length r) <= length l)%nat.
Proof. intros. inversion H; subst. inversion H0; subst. simpl. rewrite app_length. simpl. lia. Qed.

(** ** Numbers *)
Lemma num_stop_iff : forall c, num_stopb c = true <-> num_stop c.
Proof.
  intros. unfold num_stopb, num_stop. simpl. lia.
Qed.
Lemma r_sign_spec : forall l s r, r_sign l = (s, r) -> exists x, l = x ++ r /\ g_sign x s.
Proof.
  unfold r_sign. intros. destruct l as [|c l].
  - inversion H; subst. exists []. split; auto. constructor.
  - destruct (c =? cMINUS) eqn:E1; [|destruct (c =? cPLUS) eqn:E2]; inversion H; subst.
    + exists [c]. apply N.eqb_eq in E1. subst. split; auto. constructor.
    + exists [c]. apply N.eqb_eq in E2. subst. split; auto. constructor.
    + exists []. split; auto. constructor.
Qed.
Lemma r_sign_app : forall x s c r, g_sign x s -> c <> cMINUS -> c <> cPLUS -> r_sign (x ++ c :: r) = (s, c :: r).
Proof.
  intros. inversion H; subst; simpl; auto.
  apply N.eqb_neq in H0, H1. now rewrite H0, H1.
Qed.
Lemma dug_run : forall d, digit_run d <-> Forall (fun c => dugb c = true) d.
Proof. unfold digit_run. intros; split; apply Forall_impl; intros; now apply dugb_iff. Qed.

Lemma stopped_spec : forall l, stopped l = true -> exists c r, l = c :: r /\ num_stop c.
Proof. destruct l; simpl; intros; [easy|]. exists n, l. split; auto. now apply num_stop_iff. Qed.

Lemma r_exp_tail_sound : forall e0 l e r, r_exp_tail l = Some (e, r) -> e0 = 101 \/ e0 = 69 ->
  exists x, g_exp x e /\ e0 :: l = x ++ r /\ x <> [] /\ stopped r = true.
Proof.
  unfold r_exp_tail. intros. destruct (r_sign l) as [s l1] eqn:E1. destruct (span dugb l1) as [d l2] eqn:E2.
  destruct (stopped l2) eqn:E3; [|easy]. inversion H; subst.
  apply r_sign_spec in E1 as (x & Hx & Hs). apply span_spec in E2 as (Hl & Hd & Hh). subst.
  exists (e0 :: x ++ d). repeat split; auto.
  - constructor; auto. now apply dug_run.
  - simpl. now rewrite app_assoc.
  - discriminate.
Qed.
Lemma num_stop_not : forall c, num_stop c -> dugb c = false /\ c <> 101 /\ c <> 69 /\ c <> cDOT /\ c <> cMINUS /\ c <> cPLUS.
Proof. intros. apply num_stop_iff in H. unfold num_stopb, dugb, digitb in *. lia. Qed.

Lemma digit_run_head : forall d c r, digit_run d -> c <> cMINUS -> c <> cPLUS ->
  exists c' r', d ++ c :: r = c' :: r' /\ c' <> cMINUS /\ c' <> cPLUS.
Proof.
  intros. destruct d; simpl.
  - eauto.
  - inversion H; subst. exists n, (d ++ c :: r). split; auto. unfold is_digit in *. lia.
Qed.

Lemma r_exp_tail_complete : forall e0 x e c r, g_exp (e0 :: x) e -> num_stop c -> r_exp_tail (x ++ c :: r) = Some (e, c :: r).
Proof.
  intros. inversion H; subst. unfold r_exp_tail.
  apply num_stop_not in H0 as Hn. destruct Hn as (N1 & N2 & N3 & N4 & N5 & N6).
  rewrite <- app_assoc.
  destruct (digit_run_head d c r H6 N5 N6) as (c' & r' & E & E1 & E2).
  rewrite E. erewrite r_sign_app by eauto. rewrite <- E.
  rewrite span_app; [|now apply dug_run | exact N1].
  simpl. rewrite (proj2 (num_stop_iff c) H0). reflexivity.
Qed.

Lemma app_comm_cons' : forall (A : Type) (a b : list A) x, a ++ x :: b = (a ++ [x]) ++ b.
Proof. intros. now rewrite <- app_assoc. Qed.

Lemma r_number_sound : forall l v r, r_number l = Some (v, r) -> g_number v l r.
Proof.
  unfold r_number. intros. destruct (r_sign l) as [s l1] eqn:E1. destruct (span dugb l1) as [d l2] eqn:E2.
  apply r_sign_spec in E1 as (x & Hx & Hs). apply span_spec in E2 as (Hl & Hd & Hh). subst. apply dug_run in Hd.
  destruct l2 as [|c l3]; [easy|].
  destruct ((c =? 101) || (c =? 69)) eqn:Ee.
  { destruct (r_exp_tail l3) as [[e r']|] eqn:Et; [|easy]. inversion H; subst.
    eapply (r_exp_tail_sound c) in Et as (y & Hy & Hl & Hn & Hst); [|lia].
    apply stopped_spec in Hst as (c' & r'' & -> & Hc'). rewrite Hl.
    eapply g_number_exp; eauto. }
  destruct (c =? cDOT) eqn:Edot.
  { apply N.eqb_eq in Edot. subst c. destruct (span dugb l3) as [f l4] eqn:E2.
    apply span_spec in E2 as (Hl & Hf & Hh2). subst. apply dug_run in Hf.
    destruct l4 as [|c l5]; [easy|].
    destruct ((c =? 101) || (c =? 69)) eqn:Ee2.
    { destruct (r_exp_tail l5) as [[e r']|] eqn:Et; [|easy]. inversion H; subst.
      eapply (r_exp_tail_sound c) in Et as (y & Hy & Hl & Hn & Hst); [|lia].
      apply stopped_spec in Hst as (c' & r'' & -> & Hc'). rewrite Hl.
      eapply g_number_float; eauto. }
    destruct (num_stopb c) eqn:Es; [|easy]. inversion H; subst. apply num_stop_iff in Es.
    pose proof (g_number_float x s d f [] [] c l5 Hs Hd Hf g_exp_none Es) as G.
    rewrite app_nil_r in G. exact G. }
  destruct (num_stopb c) eqn:Es; [|easy]. inversion H; subst. apply num_stop_iff in Es.
  constructor; auto.
Qed.

Lemma r_number_complete : forall l v r, g_number v l r -> r_number l = Some (v, r).
Proof.
  intros. inversion H; subst; unfold r_number.
  - apply num_stop_not in H2 as Hn. destruct Hn as (N1 & N2 & N3 & N4 & N5 & N6).
    destruct (digit_run_head d c r0 H1 N5 N6) as (c' & r' & E & Ea & Eb).
    rewrite E. erewrite r_sign_app by eauto. rewrite <- E.
    rewrite span_app; [|now apply dug_run | exact N1].
    apply N.eqb_neq in N2, N3, N4. rewrite N2, N3, N4. simpl. now rewrite (proj2 (num_stop_iff c) H2).
  - apply num_stop_not in H4 as Hn. destruct Hn as (N1 & N2 & N3 & N4 & N5 & N6).
    destruct e as [|e0 e]; [easy|].
    assert (He : e0 = 101 \/ e0 = 69) by (inversion H2; auto).
    assert (Hm : e0 <> cMINUS) by lia. assert (Hp : e0 <> cPLUS) by lia.
    cbn [app].
    destruct (digit_run_head d e0 (e ++ c :: r0) H1 Hm Hp) as (c' & r' & E & Ea & Eb).
    rewrite E. erewrite r_sign_app by eauto. rewrite <- E.
    rewrite span_app; [|now apply dug_run | simpl; unfold dugb, digitb; lia].
    replace ((e0 =? 101) || (e0 =? 69)) with true by lia.
    now rewrite (r_exp_tail_complete e0 e e' c r0).
  - apply num_stop_not in H4 as Hn. destruct Hn as (N1 & N2 & N3 & N4 & N5 & N6).
    destruct (digit_run_head d cDOT (f ++ e ++ c :: r0) H1 ltac:(lia) ltac:(lia)) as (c' & r' & E & Ea & Eb).
    rewrite E. erewrite r_sign_app by eauto. rewrite <- E.
    rewrite span_app; [|now apply dug_run | simpl; unfold dugb, digitb; lia].
    cbn [N.eqb Pos.eqb orb].
    destruct e as [|e0 e].
    + cbn [app]. inversion H3; subst. rewrite span_app; [|now apply dug_run | exact N1].
      apply N.eqb_neq in N2, N3. rewrite N2, N3. simpl orb. rewrite (proj2 (num_stop_iff c) H4), app_nil_r. reflexivity.
    + assert (He : e0 = 101 \/ e0 = 69) by (inversion H3; auto).
      cbn [app]. rewrite span_app; [|now apply dug_run | simpl; unfold dugb, digitb; lia].
      replace ((e0 =? 101) || (e0 =? 69)) with true by lia.
      now rewrite (r_exp_tail_complete e0 e e' c r0).
Qed.

Lemma g_number_len : forall v l r, g_number v l r -> (length r <= length l)%nat.
Proof. intros. inversion H; subst; rewrite ?app_length; simpl; rewrite ?app_length; simpl; rewrite ?app_length; simpl; lia. Qed.
Lemma g_number_stop : forall v l r, g_number v l r -> stopped r = true.
Proof. intros. inversion H; subst; simpl; now apply num_stop_iff. Qed.

(** ** Strings *)
Lemma hexv_iff : forall c v, hexv c = Some v <-> hex_digit c v.
Proof.
  intros. unfold hexv, hex_digit, digitb.
  destruct ((48 <=? c) && (c <=? 57)) eqn:E1; [|destruct ((97 <=? c) && (c <=? 102)) eqn:E2;
   [|destruct ((65 <=? c) && (c <=? 70)) eqn:E3]]; split; intros.
  all: try (inversion H; subst; lia).
  all: try (f_equal; lia).
  all: try lia.
Qed.

Lemma r_escape_sound : forall l e r, r_escape l = Some (e, r) -> exists x, l = x ++ r /\ g_escape e x /\ x <> [].
Proof.
  unfold r_escape. intros. destruct l as [|c l]; [easy|].
  destruct (c =? 0) eqn:E0. { inversion H; subst. exists [c]. apply N.eqb_eq in E0; subst. repeat split; try constructor; discriminate. }
  destruct ((c =? 10) || (c =? 13)) eqn:E1; [easy|].
  destruct (c =? 98) eqn:E2. { inversion H; subst. exists [c]. apply N.eqb_eq in E2; subst. repeat split; try constructor; discriminate. }
  destruct (c =? 102) eqn:E3. { inversion H; subst. exists [c]. apply N.eqb_eq in E3; subst. repeat split; try constructor; discriminate. }
  destruct (c =? 110) eqn:E4. { inversion H; subst. exists [c]. apply N.eqb_eq in E4; subst. repeat split; try constructor; discriminate. }
  destruct (c =? 114) eqn:E5. { inversion H; subst. exists [c]. apply N.eqb_eq in E5; subst. repeat split; try constructor; discriminate. }
  destruct (c =? 116) eqn:E6. { inversion H; subst. exists [c]. apply N.eqb_eq in E6; subst. repeat split; try constructor; discriminate. }
  destruct (c =? 117) eqn:E7.
  { apply N.eqb_eq in E7; subst.
    destruct l as [|c1 [|c2 [|c3 [|c4 l]]]]; try easy.
    destruct (hexv c1) eqn:H1; [|easy]. destruct (hexv c2) eqn:H2; [|easy].
    destruct (hexv c3) eqn:H3; [|easy]. destruct (hexv c4) eqn:H4; [|easy].
    inversion H; subst. exists [117; c1; c2; c3; c4]. split; auto. split; [|discriminate].
    constructor; now apply hexv_iff. }
  inversion H; subst. exists [c]. split; auto. split; [|discriminate]. constructor. simpl. lia.
Qed.
Lemma r_escape_complete : forall e x r, g_escape e x -> r_escape (x ++ r) = Some (e, r).
Proof.
  intros. inversion H; subst; try reflexivity.
  - apply hexv_iff in H0, H1, H2, H3. simpl. now rewrite H0, H1, H2, H3.
  - simpl in H0. unfold r_escape. cbn [app].
    repeat match goal with |- context [?a =? ?b] => replace (a =? b) with false by lia end. reflexivity.
Qed.
Lemma g_escape_ne : forall e x, g_escape e x -> (1 <= length x)%nat.
Proof. intros. inversion H; subst; simpl; lia. Qed.

Lemma r_chars_sound : forall f l d r, r_chars f l = Some (d, r) -> g_chars d l r.
Proof.
  induction f; simpl; intros; [easy|]. destruct l as [|c l]; [easy|].
  destruct (c =? 0) eqn:E0. { apply N.eqb_eq in E0; subst. constructor. auto. }
  destruct ((c =? 10) || (c =? 13)) eqn:E1; [easy|].
  destruct (c =? cQUOT) eqn:E2. { apply N.eqb_eq in E2; inversion H; subst. constructor. }
  destruct (c =? cBSL) eqn:E3.
  { apply N.eqb_eq in E3; subst. destruct (r_escape l) as [[e r']|] eqn:E; [|easy].
    destruct (r_chars f r') as [[d' x]|] eqn:E4; [|easy]. inversion H; subst.
    apply r_escape_sound in E as (y & -> & Hy & _). constructor; auto. }
  destruct (r_chars f l) as [[d' x]|] eqn:E4; [|easy]. inversion H; subst. constructor; auto. simpl. lia.
Qed.
Lemma r_chars_complete : forall d l r, g_chars d l r -> forall f, (length l < f)%nat -> r_chars f l = Some (d, r).
Proof.
  induction 1; intros; (destruct f as [|f]; [lia|]).
  - reflexivity.
  - simpl in *. apply IHg_chars. lia.
  - cbn [r_chars N.eqb Pos.eqb orb]. rewrite (r_escape_complete e x l H). simpl in H1. rewrite app_length in H1.
    rewrite IHg_chars; auto. lia.
  - simpl in H. cbn [r_chars].
    repeat match goal with |- context [?a =? ?b] => replace (a =? b) with false by lia end. simpl in *.
    rewrite IHg_chars; auto. lia.
Qed.
Lemma g_chars_len : forall d l r, g_chars d l r -> (S (length r) <= length l)%nat.
Proof. induction 1; simpl in *; rewrite ?app_length; lia. Qed.

Lemma drop_blank_len : forall l, (length (drop_blank l) <= length l)%nat.
Proof. induction l; simpl; auto. destruct (_ || _); simpl; lia. Qed.
Lemma drop_white_len : forall l, (length (drop_white l) <= length l)%nat.
Proof. induction l; simpl; auto. destruct (_ || _ || _ || _); simpl; lia. Qed.

Lemma r_block_sound : forall f l d r, r_block f l = Some (d, r) -> g_block d l r.
Proof.
  induction f; intros; [easy|]. destruct l as [|c l]; [easy|]. cbn [r_block] in H.
  destruct (c =? 0) eqn:E0. { apply N.eqb_eq in E0; subst. constructor. auto. }
  destruct (c =? 10) eqn:E1.
  { apply N.eqb_eq in E1; subst. destruct (r_block f (drop_blank l)) as [[d' x]|] eqn:E; [|easy].
    inversion H; subst. simpl. constructor. auto. }
  destruct (c =? 13) eqn:E2.
  { apply N.eqb_eq in E2; subst. destruct (strip [10] l) as [l'|] eqn:Es.
    - apply strip_spec in Es. subst. destruct (r_block f (drop_blank l')) as [[d' x]|] eqn:E; [|easy].
      inversion H; subst. simpl. apply gb_crlf. auto.
    - destruct (r_block f (drop_blank l)) as [[d' x]|] eqn:E; [|easy].
      inversion H; subst. simpl. apply gb_cr; auto. now apply strip_None. }
  destruct (c =? cQUOT) eqn:E3.
  { apply N.eqb_eq in E3; subst. destruct (strip triple (cQUOT :: l)) as [l'|] eqn:Es.
    - inversion H; subst. apply strip_spec in Es. rewrite Es. constructor.
    - destruct (r_block f l) as [[d' x]|] eqn:E; [|easy]. inversion H; subst. simpl. apply gb_quot; auto.
      now apply strip_None. }
  destruct (c =? cBSL) eqn:E4.
  { apply N.eqb_eq in E4; subst. destruct (r_escape l) as [[e r']|] eqn:E; [|easy].
    destruct (r_block f r') as [[d' x]|] eqn:E5; [|easy]. inversion H; subst.
    apply r_escape_sound in E as (y & -> & Hy & _). apply gb_esc; auto. }
  destruct (r_block f l) as [[d' x]|] eqn:E; [|easy]. inversion H; subst. simpl. apply gb_plain; auto. simpl. lia.
Qed.
Lemma r_block_complete : forall d l r, g_block d l r -> forall f, (length l < f)%nat -> r_block f l = Some (d, r).
Proof.
  induction 1; intros; (destruct f as [|f]; [lia|]).
  - reflexivity.
  - cbn [r_block]. simpl in *. apply IHg_block. lia.
  - cbn [r_block N.eqb Pos.eqb]. apply strip_None in H. rewrite H. rewrite IHg_block; auto. simpl in *; lia.
  - cbn [r_block N.eqb Pos.eqb]. rewrite (r_escape_complete e x l H). simpl in H1. rewrite app_length in H1.
    rewrite IHg_block; auto. lia.
  - cbn [r_block N.eqb Pos.eqb]. rewrite IHg_block; auto. pose proof (drop_blank_len l). simpl in *; lia.
  - cbn [r_block N.eqb Pos.eqb strip]. rewrite IHg_block; auto. pose proof (drop_blank_len l). simpl in *; lia.
  - cbn [r_block N.eqb Pos.eqb]. apply strip_None in H. rewrite H. rewrite IHg_block; auto.
    pose proof (drop_blank_len l). simpl in *; lia.
  - simpl in H. cbn [r_block].
    repeat match goal with |- context [?a =? ?b] => replace (a =? b) with false by lia end.
    rewrite IHg_block; auto. simpl in *; lia.
Qed.
Lemma g_block_len : forall d l r, g_block d l r -> (S (length r) <= length l)%nat.
Proof.
  induction 1; simpl in *; rewrite ?app_length; try lia.
  all: pose proof (drop_blank_len l); lia.
Qed.

Lemma r_string_sound : forall l d r, r_string (cQUOT :: l) = Some (d, r) -> g_string d (cQUOT :: l) r.
Proof.
  unfold r_string. intros. destruct (strip triple (cQUOT :: l)) as [x|] eqn:E.
  - destruct (r_block _ _) as [[d' y]|] eqn:E2; [|easy]. inversion H; subst.
    apply strip_spec in E. rewrite E. apply g_string_block. eapply r_block_sound; eauto.
  - constructor. { now apply strip_None. } eapply r_chars_sound; eauto.
Qed.
Lemma r_string_complete : forall d l r, g_string d l r -> r_string l = Some (d, r).
Proof.
  intros. inversion H; subst; unfold r_string.
  - rewrite (proj2 (strip_None _ _) H0). apply r_chars_complete; auto.
  - rewrite strip_app. rewrite (r_block_complete d0 _ r); auto.
    pose proof (drop_white_len l0). simpl. lia.
Qed.
Lemma g_string_len : forall d l r, g_string d l r -> (S (length r) <= length l)%nat.
Proof.
  intros. inversion H; subst.
  - apply g_chars_len in H1. simpl; lia.
  - apply g_block_len in H0. pose proof (drop_white_len l0). simpl; lia.
Qed.

(** ** Words *)
Lemma no_name_iff : forall l, no_name_followsb l = true <-> no_name_follows l.
Proof.
  destruct l; simpl; [easy|]. rewrite negb_true_iff. apply ncharb_false.
Qed.
Lemma r_word_spec : forall w l r, r_word w l = Some r <-> (l = w ++ r /\ no_name_follows r).
Proof.
  unfold r_word. intros. destruct (strip w l) as [x|] eqn:E.
  - apply strip_spec in E. subst. destruct (no_name_followsb x) eqn:E2.
    + apply no_name_iff in E2. split; intros.
      * inversion H; subst; auto.
      * destruct H as [H _]. apply app_inv_head in H. congruence.
    + split; intros; [easy|]. destruct H as [H H1]. apply app_inv_head in H. subst.
      apply no_name_iff in H1. congruence.
  - split; intros; [easy|]. destruct H as [H _]. apply strip_spec in H. congruence.
Qed.
Lemma r_word_None : forall w l, r_word w l = None -> ~ exists r, l = w ++ r /\ no_name_follows r.
Proof. intros w l H [r Hr]. apply r_word_spec in Hr. congruence. Qed.

Lemma num_start_iff : forall c, num_startb c = true <-> num_start c.
Proof. intros. unfold num_startb, num_start. rewrite !orb_true_iff, digitb_iff, !N.eqb_eq. tauto. Qed.
