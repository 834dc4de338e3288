(** * RefParser.v agrees with Grammar.v: values, selections, documents (proofs) *)
From Coq Require Import String Arith NArith Bool Lia ZifyBool ZifyN ZifyNat List.
From Verif Require Import Base Ast Grammar RefParser RefLemmas.
Import ListNotations.
Open Scope N_scope.

(** ** Soundness: what the reference parser reads is in the grammar *)

Ltac inv H := inversion H; subst; clear H.

Lemma r_scalar_sound : forall l c l1 v r, skip_ign l = c :: l1 -> r_scalar c l1 = Some (v, r) -> g_value v l r.
Proof.
  unfold r_scalar. intros.
  destruct (c =? cDOLLAR) eqn:E0.
  { apply N.eqb_eq in E0; subst. destruct (r_name l1) as [[n x]|] eqn:E; [|easy]. inv H0.
    apply r_name_spec in E. eapply gv_var; eauto. }
  destruct (num_startb c) eqn:E1.
  { eapply gv_num; eauto. now apply num_start_iff. now apply r_number_sound. }
  destruct (c =? cQUOT) eqn:E2.
  { apply N.eqb_eq in E2; subst. destruct (r_string _) as [[d x]|] eqn:E; [|easy]. inv H0.
    eapply gv_str; eauto. now apply r_string_sound. }
  destruct (r_word (bs "true") (c :: l1)) as [x|] eqn:Et.
  { inv H0. apply r_word_spec in Et as [Et Hn]. apply gv_true; congruence. }
  destruct (r_word (bs "false") (c :: l1)) as [x|] eqn:Ef.
  { inv H0. apply r_word_spec in Ef as [Ef Hn]. apply gv_false; congruence. }
  destruct (r_word (bs "null") (c :: l1)) as [x|] eqn:En.
  { inv H0. apply r_word_spec in En as [En Hn]. apply gv_null; congruence. }
  destruct (r_name (c :: l1)) as [[n x]|] eqn:E; [|easy]. inv H0. apply r_name_spec in E.
  apply gv_enum. { now rewrite H. }
  inv E. intros Hin. simpl in Hin.
  assert (Hw : forall w, w = n -> r_word w (c :: l1) = None -> False).
  { intros w -> Hw. rewrite <- H0 in Hw. apply r_word_None in Hw. apply Hw. exists (c0 :: r0). split; auto. }
  destruct Hin as [Hin|[Hin|[Hin|[]]]]; eapply Hw; eauto.
Qed.

Lemma value_sound : forall f,
  (forall l v r, r_value f l = Some (v, r) -> g_value v l r) /\
  (forall l vs r, r_items f l = Some (vs, r) -> g_items vs l r) /\
  (forall cl l fs r, r_assign f cl l = Some (fs, r) -> g_assign cl fs l r) /\
  (forall cl l fs r, r_fields f cl l = Some (fs, r) -> g_fields cl fs l r).
Proof.
  induction f as [|f (IHv & IHi & IHa & IHf)]; [repeat split; intros; easy|].
  repeat split; intros.
  - cbn [r_value] in H. destruct (skip_ign l) as [|c l1] eqn:E; [easy|].
    destruct (c =? cLBRK) eqn:E1.
    { apply N.eqb_eq in E1; subst. destruct (skip_ign l1) as [|c2 l2] eqn:E2; [easy|].
      destruct (c2 =? cRBRK) eqn:E3.
      - apply N.eqb_eq in E3; subst. inv H. eapply gv_list0; eauto.
      - destruct (r_items f (c2 :: l2)) as [[vs x]|] eqn:E4; [|easy]. inv H.
        eapply gv_list; eauto. lia. }
    destruct (c =? cLBR) eqn:E2.
    { apply N.eqb_eq in E2; subst. destruct (r_assign f cRBR l1) as [[fs x]|] eqn:E3; [|easy]. inv H.
      eapply gv_obj; eauto. }
    eapply r_scalar_sound; eauto.
  - cbn [r_items] in H. destruct (r_value f l) as [[v l1]|] eqn:E; [|easy].
    destruct (sep l1) as [|c l2] eqn:E2; [easy|]. destruct (c =? cRBRK) eqn:E3.
    + apply N.eqb_eq in E3; subst. inv H. eapply gi_last; eauto.
    + destruct (r_items f (c :: l2)) as [[vs' x]|] eqn:E4; [|easy]. inv H. eapply gi_more; eauto. lia.
  - cbn [r_assign] in H. destruct (skip_ign l) as [|c l1] eqn:E; [easy|]. destruct (c =? cl) eqn:E2.
    + apply N.eqb_eq in E2; subst. inv H. now apply ga_none.
    + eapply ga_some; eauto. lia.
  - cbn [r_fields] in H. destruct (r_name l) as [[n l1]|] eqn:E; [|easy]. apply r_name_spec in E.
    destruct (skip_ign l1) as [|c l2] eqn:E2; [easy|]. destruct (c =? cCOLON) eqn:E3; [|easy].
    apply N.eqb_eq in E3; subst.
    destruct (r_value f l2) as [[v l3]|] eqn:E4; [|easy].
    destruct (sep l3) as [|c l4] eqn:E5; [easy|]. destruct (c =? cl) eqn:E6.
    + apply N.eqb_eq in E6; subst. inv H. eapply gf_last; eauto.
    + destruct (r_fields f cl (c :: l4)) as [[fs' x]|] eqn:E7; [|easy]. inv H. eapply gf_more; eauto. lia.
Qed.
Lemma r_value_sound : forall f l v r, r_value f l = Some (v, r) -> g_value v l r.
Proof. intros f. apply value_sound. Qed.
Lemma r_assign_sound : forall f cl l fs r, r_assign f cl l = Some (fs, r) -> g_assign cl fs l r.
Proof. intros f. apply value_sound. Qed.

Lemma r_dirs_sound : forall f n l ds r, r_dirs f n l = Some (ds, r) -> n <= 255 ->
  g_dirs ds l r /\ (N.of_nat (length ds) + n <= 255)%N.
Proof.
  induction f; intros; [easy|]. cbn [r_dirs] in H.
  destruct (skip_ign l) as [|c l1] eqn:E; [easy|]. destruct (c =? cAT) eqn:E1.
  2:{ simpl in H. inv H. split; [|simpl; lia]. apply gd_none; auto. lia. }
  simpl in H. apply N.eqb_eq in E1; subst. destruct (n =? 255) eqn:E2; [easy|].
  destruct (r_name l1) as [[nm l2]|] eqn:E3; [|easy]. apply r_name_spec in E3.
  destruct (skip_ign l2) as [|c l3] eqn:E4; [easy|]. destruct (c =? cLPAR) eqn:E5; cbn [negb] in H.
  - apply N.eqb_eq in E5; subst.
    destruct (r_assign f cRPAR l3) as [[fs l4]|] eqn:E6; [|easy].
    destruct (r_dirs f (n + 1) l4) as [[ds' x]|] eqn:E7; [|easy]. inv H.
    apply IHf in E7 as [E7 E8]; [|lia]. split; [|simpl length; lia].
    eapply gd_args; eauto. eapply r_assign_sound; eauto.
  - destruct (r_dirs f (n + 1) (c :: l3)) as [[ds' x]|] eqn:E7; [|easy]. inv H.
    apply IHf in E7 as [E7 E8]; [|lia]. split; [|simpl length; lia].
    eapply gd_plain; eauto. lia.
Qed.
Lemma r_dirs_sound0 : forall f l ds r, r_dirs f 0 l = Some (ds, r) -> g_dirs ds l r /\ few ds.
Proof. intros. apply r_dirs_sound in H; [|lia]. unfold few. intuition lia. Qed.

Lemma r_alias_sound : forall l al n r, r_alias l = Some (al, n, r) -> g_alias al n l r.
Proof.
  unfold r_alias. intros. destruct (r_name l) as [[a l1]|] eqn:E; [|easy]. apply r_name_spec in E.
  destruct (skip_ign l1) as [|c l2] eqn:E2; [easy|]. destruct (c =? cCOLON) eqn:E3.
  - apply N.eqb_eq in E3; subst. destruct (r_name (skip_ign l2)) as [[b l3]|] eqn:E4; [|easy]. apply r_name_spec in E4.
    destruct (skip_ign l3) as [|c l4] eqn:E5; [easy|]. inv H. eapply gal_some; eauto.
  - inv H. eapply gal_none; eauto. lia.
Qed.

Lemma r_opt_args_sound : forall f l a r, r_opt_args f l = Some (a, r) -> g_opt_args a l r.
Proof.
  unfold r_opt_args. intros. destruct l as [|c l]; [easy|]. destruct (c =? cLPAR) eqn:E.
  - apply N.eqb_eq in E; subst. destruct (r_assign f cRPAR l) as [[fs l2]|] eqn:E1; [|easy].
    apply r_assign_sound in E1. destruct (skip_ign l2) as [|c l3] eqn:E2; [easy|]. inv H. econstructor; eauto.
  - inv H. constructor. lia.
Qed.

Lemma r_odirs_sound : forall f l ds r, r_odirs f l = Some (ds, r) -> g_dirs ds l r /\ few ds.
Proof.
  unfold r_odirs. intros. destruct (skip_ign l) as [|c l1] eqn:E; [easy|]. destruct (c =? cAT) eqn:E1.
  - eapply r_dirs_sound0; eauto.
  - inv H. split; [|unfold few; simpl; lia]. apply gd_none; auto. lia.
Qed.

Lemma sel_sound : forall f,
  (forall l ss r, r_selset f l = Some (ss, r) -> g_selset ss l r) /\
  (forall l ss r, r_sels f l = Some (ss, r) -> g_sels ss l r).
Proof.
  induction f as [|f (IHs & IHl)]; [repeat split; intros; easy|]. split; intros.
  - cbn [r_selset] in H. destruct (skip_ign l) as [|c l1] eqn:E; [easy|]. destruct (c =? cRBR) eqn:E1.
    + apply N.eqb_eq in E1; subst. inv H. now apply gss_empty.
    + eapply gss_some; eauto. lia.
  - cbn [r_sels] in H. cbv zeta in H.
    match type of H with match ?x with _ => _ end = _ => destruct x as [[s l1]|] eqn:E; [|easy] end.
    assert (G : g_sel s l l1).
    { clear H. destruct l as [|c l']; [easy|]. destruct (letterb c) eqn:El.
      - destruct (r_alias (c :: l')) as [[[al n] x1]|] eqn:E1; [|easy]. apply r_alias_sound in E1.
        destruct (r_odirs f x1) as [[ds x2]|] eqn:E2; [|easy]. apply r_odirs_sound in E2 as [E2 E2'].
        destruct (r_opt_args f x2) as [[args x3]|] eqn:E3; [|easy]. apply r_opt_args_sound in E3.
        destruct x3 as [|c3 x4]; [easy|]. destruct (c3 =? cLBR) eqn:E4.
        + apply N.eqb_eq in E4; subst. destruct (r_selset f x4) as [[ss' x5]|] eqn:E5; [|easy]. apply IHs in E5.
          destruct (skip_ign x5) as [|c5 x6] eqn:E6; [easy|]. inv E. econstructor; eauto. econstructor; eauto.
        + inv E. econstructor; eauto. constructor. lia.
      - destruct (strip (bs "...") (c :: l')) as [x1|] eqn:E1; [|easy]. apply strip_spec in E1. rewrite E1.
        destruct (r_word (bs "on") (skip_ign x1)) as [x2|] eqn:E2.
        + apply r_word_spec in E2 as [E2 E2'].
          destruct (r_name (skip_ign x2)) as [[n x3]|] eqn:E3; [|easy]. apply r_name_spec in E3.
          destruct (r_odirs f x3) as [[ds x4]|] eqn:E4; [|easy]. apply r_odirs_sound in E4 as [E4 E4'].
          destruct x4 as [|c4 x5]; [easy|]. destruct (c4 =? cLBR) eqn:E5; [|easy]. apply N.eqb_eq in E5; subst.
          destruct (r_selset f x5) as [[ss' x6]|] eqn:E6; [|easy]. apply IHs in E6.
          destruct (skip_ign x6) as [|c7 x7] eqn:E7; [easy|]. inv E. eapply gs_inline; eauto.
        + apply r_word_None in E2.
          destruct (r_name (skip_ign x1)) as [[n x3]|] eqn:E3; [|easy]. apply r_name_spec in E3.
          destruct (r_odirs f x3) as [[ds x4]|] eqn:E4; [|easy]. apply r_odirs_sound in E4 as [E4 E4'].
          inv E. eapply gs_spread; eauto. }
    destruct (sep l1) as [|c l2] eqn:E2; [easy|]. destruct (c =? cRBR) eqn:E3.
    + apply N.eqb_eq in E3; subst. inv H. eapply gsl_last; eauto.
    + destruct (r_sels f (c :: l2)) as [[ss' x]|] eqn:E4; [|easy]. inv H. eapply gsl_more; eauto. lia.
Qed.
Lemma r_selset_sound : forall f l ss r, r_selset f l = Some (ss, r) -> g_selset ss l r.
Proof. intros f. apply sel_sound. Qed.

Lemma r_type_sound : forall f l t r, r_type f l = Some (t, r) -> g_type t l r.
Proof.
  induction f; intros; [easy|]. cbn [r_type] in H. destruct l as [|c l]; [easy|]. destruct (c =? cLBRK) eqn:E.
  - apply N.eqb_eq in E; subst. destruct (r_type f (skip_ign l)) as [[t' l2]|] eqn:E1; [|easy]. apply IHf in E1.
    destruct (skip_ign l2) as [|c1 [|c2 l3]] eqn:E2; try easy. destruct (c1 =? cRBRK) eqn:E3; [|easy].
    apply N.eqb_eq in E3; subst. destruct (c2 =? cBANG) eqn:E4.
    + apply N.eqb_eq in E4; subst. inv H. eapply gt_list_nn; eauto.
    + inv H. eapply gt_list; eauto. lia.
  - destruct (r_name (c :: l)) as [[n l2]|] eqn:E1; [|easy]. apply r_name_spec in E1.
    destruct (skip_ign l2) as [|c1 l3] eqn:E2; [easy|]. destruct (c1 =? cBANG) eqn:E4.
    + apply N.eqb_eq in E4; subst. inv H. eapply gt_name_nn; eauto.
    + inv H. eapply gt_name; eauto. lia.
Qed.

Lemma r_default_sound : forall f l d r, r_default f l = Some (d, r) -> g_default d l r.
Proof.
  unfold r_default. intros. destruct (skip_ign l) as [|c l1] eqn:E; [easy|]. destruct (c =? cEQ) eqn:E1.
  - apply N.eqb_eq in E1; subst. destruct (r_value f l1) as [[v x]|] eqn:E2; [|easy]. inv H.
    eapply gdf_some; eauto. eapply r_value_sound; eauto.
  - inv H. apply gdf_none; auto. lia.
Qed.

Lemma r_opargs_sound : forall f l a r, r_opargs f l = Some (a, r) -> g_opargs a l r.
Proof.
  induction f; intros; [easy|]. cbn [r_opargs] in H. destruct (sep l) as [|c l1] eqn:E; [easy|].
  destruct (c =? cRPAR) eqn:E1. { apply N.eqb_eq in E1; subst. inv H. now apply gop_end. }
  destruct (c =? cDOLLAR) eqn:E2; [|easy]. apply N.eqb_eq in E2; subst.
  destruct (r_oparg f l1) as [[o l2]|] eqn:E3; [|easy].
  destruct (r_opargs f l2) as [[os x]|] eqn:E4; [|easy]. inv H. apply IHf in E4.
  unfold r_oparg in E3. destruct (r_name l1) as [[n y1]|] eqn:F1; [|easy]. apply r_name_spec in F1.
  destruct (skip_ign y1) as [|c y2] eqn:F2; [easy|]. destruct (c =? cCOLON) eqn:F3; [|easy]. apply N.eqb_eq in F3; subst.
  destruct (r_type f (skip_ign y2)) as [[t y3]|] eqn:F4; [|easy]. apply r_type_sound in F4.
  destruct (r_default f y3) as [[d y4]|] eqn:F5; [|easy]. apply r_default_sound in F5. inv E3.
  eapply gop_more; eauto.
Qed.

Lemma r_opname_sound : forall l n r, r_opname l = Some (n, r) -> g_opname n l r.
Proof.
  unfold r_opname. intros. destruct l as [|c l]; [easy|]. destruct (letterb c) eqn:E.
  - apply gon_some. now apply r_name_spec.
  - inv H. apply gon_none. now apply letterb_false.
Qed.
Lemma r_opt_opargs_sound : forall f l a r, r_opt_opargs f l = Some (a, r) -> g_opt_opargs a l r.
Proof.
  unfold r_opt_opargs. intros. destruct (skip_ign l) as [|c l1] eqn:E; [easy|]. destruct (c =? cLPAR) eqn:E1.
  - apply N.eqb_eq in E1; subst. destruct (r_opargs f l1) as [[v x]|] eqn:E2; [|easy]. inv H.
    eapply goo_some; eauto. eapply r_opargs_sound; eauto.
  - inv H. apply goo_none; auto. lia.
Qed.

Lemma r_op_sound : forall f k l d r, r_op f k l = Some (d, r) -> g_def d (op_keyword k ++ l) r.
Proof.
  unfold r_op. intros. destruct (r_opname (skip_ign l)) as [[n l1]|] eqn:E1; [|easy]. apply r_opname_sound in E1.
  destruct (r_opt_opargs f l1) as [[a l2]|] eqn:E2; [|easy]. apply r_opt_opargs_sound in E2.
  destruct (r_dirs f 0 l2) as [[ds l3]|] eqn:E3; [|easy]. apply r_dirs_sound0 in E3 as [E3 E3'].
  destruct l3 as [|c l4]; [easy|]. destruct (c =? cLBR) eqn:E4; [|easy]. apply N.eqb_eq in E4; subst.
  destruct (r_selset f l4) as [[ss x]|] eqn:E5; [|easy]. apply r_selset_sound in E5. inv H.
  eapply gdef_op; eauto.
Qed.

Lemma r_def_sound : forall f l d r, r_def f l = Some (d, r) -> g_def d l r.
Proof.
  unfold r_def. intros. destruct l as [|c l1]; [easy|]. destruct (c =? cLBR) eqn:E.
  { apply N.eqb_eq in E; subst. destruct (r_selset f l1) as [[ss x]|] eqn:E5; [|easy]. apply r_selset_sound in E5. inv H.
    now apply gdef_anon. }
  destruct (strip (bs "query") (c :: l1)) as [x|] eqn:E1.
  { apply strip_spec in E1. rewrite E1. now apply (r_op_sound f OpQuery). }
  destruct (strip (bs "mutation") (c :: l1)) as [x|] eqn:E2.
  { apply strip_spec in E2. rewrite E2. now apply (r_op_sound f OpMutation). }
  destruct (strip (bs "subscription") (c :: l1)) as [x|] eqn:E3.
  { apply strip_spec in E3. rewrite E3. now apply (r_op_sound f OpSubscription). }
  destruct (strip (bs "fragment") (c :: l1)) as [x|] eqn:E4; [|easy].
  apply strip_spec in E4. rewrite E4. unfold r_frag in H.
  destruct (r_name (skip_ign x)) as [[n y1]|] eqn:F1; [|easy]. apply r_name_spec in F1.
  destruct (strip (bs "on") (skip_ign y1)) as [y2|] eqn:F2; [|easy]. apply strip_spec in F2.
  destruct (r_name (skip_ign y2)) as [[t y3]|] eqn:F3; [|easy]. apply r_name_spec in F3.
  destruct (skip_ign y3) as [|c1 y4] eqn:F4; [easy|]. destruct (c1 =? cLBR) eqn:F5; [|easy]. apply N.eqb_eq in F5; subst.
  destruct (r_selset f y4) as [[ss z]|] eqn:F6; [|easy]. apply r_selset_sound in F6. inv H.
  eapply gdef_frag; eauto.
Qed.

Lemma r_doc_sound : forall n f l d, r_doc n f l = Some d -> g_doc d l.
Proof.
  induction n; intros; [easy|]. cbn [r_doc] in H. destruct (skip_ign l) as [|c l1] eqn:E.
  - inv H. now apply gdoc_end.
  - destruct (r_def f (c :: l1)) as [[d' x]|] eqn:E1; [|easy]. destruct (r_doc n f x) as [ds|] eqn:E2; [|easy]. inv H.
    eapply gdoc_more; eauto. rewrite E. eapply r_def_sound; eauto.
Qed.

(** ** Lengths *)
Scheme g_value_ind2 := Minimality for g_value Sort Prop
  with g_items_ind2 := Minimality for g_items Sort Prop
  with g_assign_ind2 := Minimality for g_assign Sort Prop
  with g_fields_ind2 := Minimality for g_fields Sort Prop.
Combined Scheme g_value_mut from g_value_ind2, g_items_ind2, g_assign_ind2, g_fields_ind2.

Lemma g_number_suffix : forall v l r, g_number v l r -> exists x, l = x ++ r.
Proof.
  intros. inv H.
  - exists (sgn ++ d). now rewrite <- app_assoc.
  - exists (sgn ++ d ++ e). now rewrite <- !app_assoc.
  - exists (sgn ++ d ++ cDOT :: f ++ e). repeat (rewrite <- app_assoc; cbn [app]). reflexivity.
Qed.
Lemma num_head_len : forall v c l r, num_start c -> g_number v (c :: l) r -> (S (length r) <= length (c :: l))%nat.
Proof.
  intros. destruct (g_number_suffix _ _ _ H0) as [[|x xs] E].
  - exfalso. simpl in E. subst. apply g_number_stop in H0. simpl in H0.
    apply num_stop_iff, num_stop_not in H0. unfold dugb, digitb in H0. unfold num_start, is_digit in H. lia.
  - rewrite E. simpl. rewrite app_length. lia.
Qed.

Ltac lens :=
  repeat match goal with
  | H : skip_ign ?l = _ :: _ |- _ => apply skip_ign_len_eq in H
  | H : sep ?l = _ :: _ |- _ => apply sep_len in H
  | H : g_name _ _ _ |- _ => apply g_name_len in H
  | H : g_string _ _ _ |- _ => apply g_string_len in H
  | H : num_start _, H1 : g_number _ _ _ |- _ => apply (num_head_len _ _ _ _ H) in H1; clear H
  end.
Ltac skl l := let H := fresh "SK" in pose proof (skip_ign_len l) as H.

Lemma value_len :
  (forall v l r, g_value v l r -> (S (length r) <= length l)%nat) /\
  (forall vs l r, g_items vs l r -> (S (length r) <= length l)%nat) /\
  (forall cl fs l r, g_assign cl fs l r -> (S (length r) <= length l)%nat) /\
  (forall cl fs l r, g_fields cl fs l r -> (S (length r) <= length l)%nat).
Proof.
  apply g_value_mut; intros.
  - lens; lia.
  - lens; simpl in *; lia.
  - lens; simpl in *; lia.
  - skl l. rewrite H in SK. simpl in SK. lia.
  - skl l. rewrite H in SK. simpl in SK. lia.
  - skl l. rewrite H in SK. simpl in SK. lia.
  - skl l. lens; lia.
  - lens; lia.
  - lens; simpl in *; lia.
  - lens; lia.
  - lens; lia.
  - lens; simpl in *; lia.
  - lens; lia.
  - lens; simpl in *; lia.
  - lens; lia.
  - lens; simpl in *; lia.
Qed.
Definition g_value_len := proj1 value_len.
Definition g_items_len := proj1 (proj2 value_len).
Definition g_assign_len := proj1 (proj2 (proj2 value_len)).
Definition g_fields_len := proj2 (proj2 (proj2 value_len)).

Lemma g_dirs_len : forall ds l r, g_dirs ds l r -> (length r <= length l)%nat.
Proof.
  induction 1.
  - lens; simpl; lia.
  - lens; simpl in *; lia.
  - apply g_assign_len in H2. lens; lia.
Qed.
Lemma g_dirs_token : forall ds l r, g_dirs ds l r -> exists c r', r = c :: r' /\ ign_charb c = false.
Proof. induction 1; auto. eexists _, _. split; eauto. eapply skip_ign_cons_inv; eauto. Qed.

Lemma g_alias_len : forall a n l r, g_alias a n l r -> (length r < length l)%nat.
Proof.
  intros. inv H.
  - lens; simpl; lia.
  - skl l2. lens; simpl; lia.
Qed.
Lemma g_opt_args_len : forall a l r, g_opt_args a l r -> (length r <= length l)%nat.
Proof. intros. inv H; auto. apply g_assign_len in H0. lens; simpl; lia. Qed.

Scheme g_sel_ind2 := Minimality for g_sel Sort Prop
  with g_opt_set_ind2 := Minimality for g_opt_set Sort Prop
  with g_selset_ind2 := Minimality for g_selset Sort Prop
  with g_sels_ind2 := Minimality for g_sels Sort Prop.
Combined Scheme g_sel_mut from g_sel_ind2, g_opt_set_ind2, g_selset_ind2, g_sels_ind2.

Lemma sel_len :
  (forall s l r, g_sel s l r -> (S (length r) <= length l)%nat) /\
  (forall ss l r, g_opt_set ss l r -> (length r <= length l)%nat) /\
  (forall ss l r, g_selset ss l r -> (S (length r) <= length l)%nat) /\
  (forall ss l r, g_sels ss l r -> (S (length r) <= length l)%nat).
Proof.
  apply g_sel_mut; intros.
  - apply g_alias_len in H. apply g_dirs_len in H0. apply g_opt_args_len in H2. lia.
  - apply g_dirs_len in H1. skl l. lens. simpl. lia.
  - apply g_dirs_len in H2. skl l. rewrite H in SK. skl l1. lens. simpl in *. lia.
  - simpl; lia.
  - lens; simpl in *; lia.
  - lens; lia.
  - lens; simpl in *; lia.
  - lens; lia.
  - lens; simpl in *; lia.
Qed.
Definition g_sel_len := proj1 sel_len.
Definition g_opt_set_len := proj1 (proj2 sel_len).
Definition g_selset_len := proj1 (proj2 (proj2 sel_len)).
Definition g_sels_len := proj2 (proj2 (proj2 sel_len)).

Lemma g_type_len : forall t l r, g_type t l r -> (S (length r) <= length l)%nat.
Proof.
  induction 1.
  - lens; simpl; lia.
  - lens; lia.
  - skl l. lens; simpl in *; lia.
  - skl l. lens; simpl in *; lia.
Qed.
Lemma g_default_len : forall t l r, g_default t l r -> (length r <= length l)%nat.
Proof. intros. inv H; [|apply g_value_len in H1]; lens; simpl in *; lia. Qed.
Lemma g_opargs_len : forall a l r, g_opargs a l r -> (S (length r) <= length l)%nat.
Proof.
  induction 1.
  - lens; lia.
  - apply g_type_len in H2. apply g_default_len in H3. skl l3. lens; lia.
Qed.
Lemma g_opname_len : forall n l r, g_opname n l r -> (length r <= length l)%nat.
Proof. intros. inv H; auto. lens; lia. Qed.
Lemma g_opt_opargs_len : forall a l r, g_opt_opargs a l r -> (length r <= length l)%nat.
Proof. intros. inv H; [|apply g_opargs_len in H1]; lens; simpl in *; lia. Qed.

Lemma g_def_len : forall d l r, g_def d l r -> (S (length r) <= length l)%nat.
Proof.
  intros. inv H.
  - apply g_selset_len in H0. simpl; lia.
  - apply g_opname_len in H0. apply g_opt_opargs_len in H1. apply g_dirs_len in H2. apply g_selset_len in H4. simpl in H2.
    rewrite app_length. skl l0. lia.
  - apply g_selset_len in H4. skl l0. skl l1. rewrite H1 in SK0. rewrite app_length in SK0. skl l2. lens.
    rewrite app_length. lia.
Qed.

(** ** Completeness: the reference parser reads everything in the grammar *)

Lemma eqb_ne : forall a b : N, a <> b -> (a =? b) = false.
Proof. intros. now apply N.eqb_neq. Qed.

Lemma name_chars_dec : forall w, forallb ncharb w = true -> Forall is_name_char w.
Proof. intros. apply Forall_forall. intros. rewrite forallb_forall in H. apply ncharb_iff. auto. Qed.
Lemma keyword_name : forall w c r, In w [bs "true"; bs "false"; bs "null"] -> ~ is_name_char c -> g_name w (w ++ c :: r) (c :: r).
Proof.
  intros. assert (exists c0 w', w = c0 :: w' /\ letterb c0 = true /\ forallb ncharb w' = true /\ (length w <= 254)%nat).
  { simpl in H. destruct H as [<-|[<-|[<-|[]]]]; eexists _, _; repeat split; vm_compute; lia. }
  destruct H1 as (c0 & w' & -> & H1 & H2 & H3). constructor; auto.
  constructor; [now apply letterb_iff|now apply name_chars_dec|auto].
Qed.

Lemma r_scalar_enum : forall l n r, g_name n (skip_ign l) r -> ~ In n [bs "true"; bs "false"; bs "null"] ->
  exists c l1, skip_ign l = c :: l1 /\ r_scalar c l1 = Some (VEnum n, r) /\ c <> cLBRK /\ c <> cLBR.
Proof.
  intros. apply r_name_spec in H as R. inversion H; subst. inversion H2; subst.
  exists c0, (n0 ++ c :: r0). split; [easy|].
  assert (Hw : forall w, In w [bs "true"; bs "false"; bs "null"] -> r_word w (c0 :: n0 ++ c :: r0) = None).
  { intros w Hw. destruct (r_word w (c0 :: n0 ++ c :: r0)) as [x|] eqn:E; auto. exfalso.
    apply r_word_spec in E as [E Hx].
    (* w is a name followed by a non name character: unique *)
    assert (G : g_name w (c0 :: n0 ++ c :: r0) x).
    { destruct x as [|cx x].
      - exfalso. change (c0 :: n0 ++ c :: r0) with ((c0 :: n0) ++ c :: r0) in E. rewrite app_nil_r in E.
        simpl in Hw. assert (Forall is_name_char w).
        { apply name_chars_dec. destruct Hw as [<-|[<-|[<-|[]]]]; reflexivity. }
        rewrite <- E in H7. apply Forall_app in H7 as [_ H7]. inv H7. contradiction.
      - rewrite E. apply keyword_name; auto. }
    apply r_name_spec in G. rewrite <- H1 in R. cbn [app] in R. rewrite R in G. inv G. contradiction. }
  assert (Hl : c0 <> cDOLLAR /\ num_startb c0 = false /\ c0 <> cQUOT /\ c0 <> cLBRK /\ c0 <> cLBR).
  { unfold is_letter, num_startb, digitb in *. lia. }
  destruct Hl as (L1 & L2 & L3 & L4 & L5). repeat split; auto. unfold r_scalar.
  rewrite (eqb_ne _ _ L1), L2, (eqb_ne _ _ L3).
  rewrite !Hw by (simpl; tauto). rewrite <- H1 in R. cbn [app] in R. now rewrite R.
Qed.

Ltac fuelS f := destruct f as [|f]; [lia|].

Lemma value_complete :
  (forall v l r, g_value v l r -> forall f, (3 * length l + 1 <= f)%nat -> r_value f l = Some (v, r)) /\
  (forall vs l r, g_items vs l r -> forall f, (3 * length l + 2 <= f)%nat -> r_items f l = Some (vs, r)) /\
  (forall cl fs l r, g_assign cl fs l r -> forall f, (3 * length l + 2 <= f)%nat -> r_assign f cl l = Some (fs, r)) /\
  (forall cl fs l r, g_fields cl fs l r -> forall f, (3 * length l + 1 <= f)%nat -> r_fields f cl l = Some (fs, r)).
Proof.
  apply g_value_mut; intros.
  - fuelS f. cbn [r_value]. rewrite H. cbn [N.eqb Pos.eqb]. unfold r_scalar. cbn [N.eqb Pos.eqb].
    apply r_name_spec in H0. now rewrite H0.
  - fuelS f. cbn [r_value]. rewrite H.
    assert (c <> cLBRK /\ c <> cLBR /\ c <> cDOLLAR) by (unfold num_start, is_digit in *; lia).
    rewrite !eqb_ne by tauto. unfold r_scalar. rewrite eqb_ne by tauto.
    apply num_start_iff in H0. rewrite H0. now apply r_number_complete.
  - fuelS f. cbn [r_value]. rewrite H. cbn [N.eqb Pos.eqb]. unfold r_scalar.
    rewrite (r_string_complete d _ r) by auto. reflexivity.
  - fuelS f. cbn [r_value]. rewrite H. change (bs "true" ++ r) with (116 :: 114 :: 117 :: 101 :: r).
    assert (E : r_word (bs "true") (bs "true" ++ r) = Some r) by (apply r_word_spec; auto).
    cbn [N.eqb Pos.eqb]. unfold r_scalar. cbn [N.eqb Pos.eqb num_startb digitb orb andb N.leb N.compare Pos.compare Pos.compare_cont].
    change (bs "true" ++ r) with (116 :: 114 :: 117 :: 101 :: r) in *. now rewrite E.
  - fuelS f. cbn [r_value]. rewrite H. change (bs "false" ++ r) with (102 :: 97 :: 108 :: 115 :: 101 :: r).
    assert (E : r_word (bs "false") (bs "false" ++ r) = Some r) by (apply r_word_spec; auto).
    assert (E2 : r_word (bs "true") (bs "false" ++ r) = None) by reflexivity.
    cbn [N.eqb Pos.eqb]. unfold r_scalar. cbn [N.eqb Pos.eqb num_startb digitb orb andb N.leb N.compare Pos.compare Pos.compare_cont].
    change (bs "false" ++ r) with (102 :: 97 :: 108 :: 115 :: 101 :: r) in *. now rewrite E2, E.
  - fuelS f. cbn [r_value]. rewrite H. change (bs "null" ++ r) with (110 :: 117 :: 108 :: 108 :: r).
    assert (E : r_word (bs "null") (bs "null" ++ r) = Some r) by (apply r_word_spec; auto).
    assert (E2 : r_word (bs "true") (bs "null" ++ r) = None) by reflexivity.
    assert (E3 : r_word (bs "false") (bs "null" ++ r) = None) by reflexivity.
    cbn [N.eqb Pos.eqb]. unfold r_scalar. cbn [N.eqb Pos.eqb num_startb digitb orb andb N.leb N.compare Pos.compare Pos.compare_cont].
    change (bs "null" ++ r) with (110 :: 117 :: 108 :: 108 :: r) in *. now rewrite E2, E3, E.
  - fuelS f. cbn [r_value].
    destruct (r_scalar_enum l n r H H0) as (c & l1 & E1 & E2 & E3 & E4). rewrite E1, !eqb_ne by auto. exact E2.
  - fuelS f. cbn [r_value]. rewrite H, H0. reflexivity.
  - fuelS f. cbn [r_value]. rewrite H, H0. cbn [N.eqb Pos.eqb]. rewrite eqb_ne by auto. rewrite H3; auto. lens; simpl in *; lia.
  - fuelS f. cbn [r_value]. rewrite H. cbn [N.eqb Pos.eqb]. rewrite H1; auto. lens; lia.
  - fuelS f. cbn [r_items]. rewrite H0 by lia. rewrite H1. reflexivity.
  - fuelS f. cbn [r_items]. rewrite H0 by lia. rewrite H1. rewrite eqb_ne by auto.
    apply g_value_len in H. rewrite H4; auto. lens; simpl in *; lia.
  - fuelS f. cbn [r_assign]. rewrite H. now rewrite N.eqb_refl.
  - fuelS f. cbn [r_assign]. rewrite H. rewrite eqb_ne by auto. apply H2. lens; simpl in *; lia.
  - fuelS f. cbn [r_fields]. apply r_name_spec in H as H'. rewrite H', H0. cbn [N.eqb Pos.eqb].
    rewrite H2 by (lens; lia). rewrite H3. now rewrite N.eqb_refl.
  - fuelS f. cbn [r_fields]. apply r_name_spec in H as H'. rewrite H', H0. cbn [N.eqb Pos.eqb].
    rewrite H2 by (lens; lia). rewrite H3. rewrite eqb_ne by auto.
    apply g_value_len in H1. rewrite H6; auto. lens; simpl in *; lia.
Qed.
Definition r_value_complete := proj1 value_complete.
Definition r_assign_complete := proj1 (proj2 (proj2 value_complete)).

Lemma r_dirs_complete : forall ds l r, g_dirs ds l r -> forall f n, (3 * length l + 3 <= f)%nat ->
  (N.of_nat (length ds) + n <= 255)%N -> r_dirs f n l = Some (ds, r).
Proof.
  induction 1; intros; fuelS f; cbn [r_dirs].
  - rewrite H. now rewrite eqb_ne by auto.
  - rewrite H. cbn [N.eqb Pos.eqb negb]. replace (n0 =? 255) with false by (simpl length in *; lia).
    apply r_name_spec in H0 as H0'. rewrite H0', H1. rewrite eqb_ne by auto. cbn [negb].
    rewrite IHg_dirs; auto. { lens; simpl in *; lia. } simpl length in *; lia.
  - rewrite H. cbn [N.eqb Pos.eqb negb]. replace (n0 =? 255) with false by (simpl length in *; lia).
    apply r_name_spec in H0 as H0'. rewrite H0', H1. cbn [N.eqb Pos.eqb negb].
    rewrite (r_assign_complete cRPAR fs l3 l4) by (auto; lens; lia).
    apply g_assign_len in H2.
    rewrite IHg_dirs; auto. { lens; simpl in *; lia. } simpl length in *; lia.
Qed.
Lemma r_dirs_complete0 : forall ds l r f, g_dirs ds l r -> few ds -> (3 * length l + 3 <= f)%nat ->
  r_dirs f 0 l = Some (ds, r).
Proof. intros. unfold few in H0. apply r_dirs_complete; auto. lia. Qed.

Lemma r_alias_complete : forall al n l r, g_alias al n l r -> r_alias l = Some (al, n, r).
Proof.
  intros. inv H; unfold r_alias.
  - apply r_name_spec in H0. rewrite H0, H1. now rewrite eqb_ne by auto.
  - apply r_name_spec in H0. rewrite H0, H1. cbn [N.eqb Pos.eqb]. apply r_name_spec in H2. now rewrite H2, H3.
Qed.
Lemma g_alias_head : forall al n l r, g_alias al n l r -> exists c l', l = c :: l' /\ letterb c = true.
Proof.
  intros. assert (H0 : exists n l1, g_name n l l1) by (inv H; eauto). destruct H0 as (n' & l1 & H0).
  inv H0. inv H1. exists c0, (n0 ++ c :: r0). split; auto. now apply letterb_iff.
Qed.
Lemma r_opt_args_complete : forall a l r f, g_opt_args a l r -> (3 * length l + 2 <= f)%nat -> r_opt_args f l = Some (a, r).
Proof.
  intros. inv H; unfold r_opt_args.
  - now rewrite eqb_ne by auto.
  - cbn [N.eqb Pos.eqb]. rewrite (r_assign_complete cRPAR fs l0 l1); auto. { now rewrite H2. } simpl in *; lia.
Qed.

Lemma r_odirs_complete : forall ds l r f, g_dirs ds l r -> few ds -> (3 * length l + 3 <= f)%nat ->
  r_odirs f l = Some (ds, r).
Proof.
  intros. unfold r_odirs. apply (r_dirs_complete0 ds l r f) in H as E; auto.
  inv H; rewrite H2; [now rewrite eqb_ne by auto|exact E|exact E].
Qed.

(** how the reference parser reads one selection, for use in the induction below *)
Lemma sel_complete :
  (forall s l r, g_sel s l r -> forall f l2, (3 * length l + 3 <= f)%nat ->
     sep r = cRBR :: l2 -> r_sels (S f) l = Some ([s], l2)) /\
  (forall s l r, g_sel s l r -> forall f c l2 ss l3, (3 * length l + 3 <= f)%nat ->
     sep r = c :: l2 -> c <> cRBR -> r_sels f (c :: l2) = Some (ss, l3) -> r_sels (S f) l = Some (s :: ss, l3)) /\
  (forall ss l r, g_selset ss l r -> forall f, (3 * length l + 5 <= f)%nat -> r_selset f l = Some (ss, r)).
Proof.
  pose (P := fun (s : sel) (l r : bytes) =>
    (forall f l2, (3 * length l + 3 <= f)%nat -> sep r = cRBR :: l2 -> r_sels (S f) l = Some ([s], l2)) /\
    (forall f c l2 ss l3, (3 * length l + 3 <= f)%nat ->
     sep r = c :: l2 -> c <> cRBR -> r_sels f (c :: l2) = Some (ss, l3) -> r_sels (S f) l = Some (s :: ss, l3))).
  pose (P0 := fun (ss : list sel) (l r : bytes) => forall f, (3 * length l + 2 <= f)%nat ->
     (exists c, l = c :: tl l /\ c <> cLBR /\ ss = [] /\ l = r) \/
     (exists l1, l = cLBR :: l1 /\ exists x, r_selset f l1 = Some (ss, x) /\ skip_ign x = r /\ r <> [])).
  pose (P1 := fun ss l r => forall f, (3 * length l + 5 <= f)%nat -> r_selset f l = Some (ss, r)).
  pose (P2 := fun ss l r => forall f, (3 * length l + 4 <= f)%nat -> r_sels f l = Some (ss, r)).
  assert (A : (forall s l r, g_sel s l r -> P s l r) /\ (forall ss l r, g_opt_set ss l r -> P0 ss l r) /\
              (forall ss l r, g_selset ss l r -> P1 ss l r) /\ (forall ss l r, g_sels ss l r -> P2 ss l r)).
  { apply g_sel_mut; unfold P, P0, P1, P2; intros.
    - (* field *)
      destruct (g_alias_head _ _ _ _ H) as (c0 & l0 & -> & Hc0).
      apply r_alias_complete in H as Ha. apply g_alias_len in H. apply g_dirs_len in H0 as Hd. apply g_opt_args_len in H2 as Ho.
      split; intros; cbn [r_sels]; rewrite Hc0, Ha.
      + rewrite (r_odirs_complete ds l1 l2 f) by (auto; simpl in *; lia).
        rewrite (r_opt_args_complete args l2 l3 f) by (auto; simpl in *; lia).
        destruct (H4 f ltac:(simpl in *; lia)) as [(c & E1 & E2 & E3 & E4)|(l6 & E1 & x & E2 & E3 & E4)].
        * rewrite E1, eqb_ne by auto. rewrite <- E1, E4, E3, H6. reflexivity.
        * rewrite E1. cbn [N.eqb Pos.eqb]. rewrite E2, E3. destruct r; [easy|]. rewrite H6. reflexivity.
      + rewrite (r_odirs_complete ds l1 l2 f) by (auto; simpl in *; lia).
        rewrite (r_opt_args_complete args l2 l3 f) by (auto; simpl in *; lia).
        destruct (H4 f ltac:(simpl in *; lia)) as [(c' & E1 & E2 & E3 & E4)|(l6 & E1 & x & E2 & E3 & E4)].
        * rewrite E1, eqb_ne by auto. rewrite <- E1, E4, E3, H6. rewrite eqb_ne by auto. now rewrite H8.
        * rewrite E1. cbn [N.eqb Pos.eqb]. rewrite E2, E3. destruct r; [easy|]. rewrite H6. rewrite eqb_ne by auto. now rewrite H8.
    - (* spread *)
      assert (Hw : r_word (bs "on") (skip_ign l) = None).
      { destruct (r_word (bs "on") (skip_ign l)) eqn:E; auto. apply r_word_spec in E. exfalso. apply H. eauto. }
      apply r_name_spec in H0 as Hn. apply g_name_len in H0. skl l.
      split; intros; change (bs "..." ++ l) with (46 :: 46 :: 46 :: l) in *; cbn [r_sels];
        change (letterb 46) with false; change (strip (bs "...") (46 :: 46 :: 46 :: l)) with (Some l); cbv iota beta zeta.
      + rewrite Hw, Hn. rewrite (r_odirs_complete ds l1 l2 f) by (auto; simpl in *; lia).
        rewrite H4. reflexivity.
      + rewrite Hw, Hn. rewrite (r_odirs_complete ds l1 l2 f) by (auto; simpl in *; lia).
        rewrite H4. rewrite eqb_ne by auto. now rewrite H6.
    - (* inline *)
      assert (Hw : r_word (bs "on") (skip_ign l) = Some l1) by (apply r_word_spec; auto).
      apply r_name_spec in H1 as Hn. apply g_name_len in H1. skl l. skl l1. rewrite H in SK. rewrite app_length in SK.
      apply g_dirs_len in H2 as Hd. apply skip_ign_len_eq in H6 as Hk. apply g_selset_len in H4 as Hs.
      split; intros; change (bs "..." ++ l) with (46 :: 46 :: 46 :: l) in *; cbn [r_sels];
        change (letterb 46) with false; change (strip (bs "...") (46 :: 46 :: 46 :: l)) with (Some l); cbv iota beta zeta.
      + rewrite Hw, Hn.
        rewrite (r_odirs_complete ds l2 (cLBR :: l3) f) by (auto; simpl in *; lia). cbn [N.eqb Pos.eqb].
        rewrite H5 by (simpl in *; lia). rewrite H6, H8. reflexivity.
      + rewrite Hw, Hn.
        rewrite (r_odirs_complete ds l2 (cLBR :: l3) f) by (auto; simpl in *; lia). cbn [N.eqb Pos.eqb].
        rewrite H5 by (simpl in *; lia). rewrite H6, H8. rewrite eqb_ne by auto. now rewrite H10.
    - left. exists c. auto.
    - right. exists l. split; auto. exists l1. split; [apply H0; simpl in *; lia|]. split; auto. discriminate.
    - fuelS f. cbn [r_selset]. rewrite H. reflexivity.
    - fuelS f. cbn [r_selset]. rewrite H. rewrite eqb_ne by auto. apply H2. lens; simpl in *; lia.
    - fuelS f. apply H0; auto. lia.
    - fuelS f. apply g_sel_len in H. eapply H0; eauto; try lia. apply H4. lens; simpl in *; lia. }
  destruct A as (A & _ & B & _). split; [|split]; intros.
  - destruct (A s l r H) as [A1 A2]. now apply A1.
  - destruct (A s l r H) as [A1 A2]. eapply A2; eauto.
  - now apply B.
Qed.
Definition r_selset_complete := proj2 (proj2 sel_complete).

Lemma r_type_complete : forall t l r, g_type t l r -> forall f, (length l <= f)%nat -> r_type f l = Some (t, r).
Proof.
  induction 1; intros.
  - inversion H; subst. inversion H3; subst. cbn [app length] in *. fuelS f.
    cbn [r_type]. rewrite eqb_ne by (unfold is_letter in *; lia). apply r_name_spec in H. rewrite H, H0. now rewrite eqb_ne by auto.
  - inversion H; subst. inversion H2; subst. cbn [app length] in *. fuelS f.
    cbn [r_type]. rewrite eqb_ne by (unfold is_letter in *; lia). apply r_name_spec in H. rewrite H, H0. reflexivity.
  - cbn [length] in H2. fuelS f. cbn [r_type N.eqb Pos.eqb]. skl l. rewrite IHg_type by lia. rewrite H0. cbn [N.eqb Pos.eqb]. now rewrite eqb_ne by auto.
  - cbn [length] in H1. fuelS f. cbn [r_type N.eqb Pos.eqb]. skl l. rewrite IHg_type by lia. rewrite H0. reflexivity.
Qed.
Lemma r_default_complete : forall d l r f, g_default d l r -> (3 * length l + 1 <= f)%nat -> r_default f l = Some (d, r).
Proof.
  intros. inv H; unfold r_default; rewrite H1.
  - now rewrite eqb_ne by auto.
  - cbn [N.eqb Pos.eqb]. rewrite (r_value_complete v l1 r); auto. lens; lia.
Qed.
Lemma r_opargs_complete : forall a l r, g_opargs a l r -> forall f, (3 * length l + 2 <= f)%nat -> r_opargs f l = Some (a, r).
Proof.
  induction 1; intros; fuelS f; cbn [r_opargs]; rewrite H; cbn [N.eqb Pos.eqb]; auto.
  unfold r_oparg. apply r_name_spec in H0 as Hn. rewrite Hn, H1. cbn [N.eqb Pos.eqb].
  skl l3. apply g_type_len in H2 as Ht. apply g_default_len in H3 as Hd.
  rewrite (r_type_complete t _ l4) by (auto; lens; lia).
  rewrite (r_default_complete d l4 l5) by (auto; lens; lia).
  rewrite IHg_opargs; auto. lens; lia.
Qed.
Lemma r_opname_complete : forall n l r, g_opname n l r -> r_opname l = Some (n, r).
Proof.
  intros. inv H; unfold r_opname.
  - apply letterb_false in H0. now rewrite H0.
  - apply r_name_spec in H0 as H1. inversion H0; subst. inversion H; subst. cbn [app].
    apply letterb_iff in H3. rewrite H3. exact H1.
Qed.
Lemma r_opt_opargs_complete : forall a l r f, g_opt_opargs a l r -> (3 * length l + 2 <= f)%nat -> r_opt_opargs f l = Some (a, r).
Proof.
  intros. inv H; unfold r_opt_opargs; rewrite H1.
  - now rewrite eqb_ne by auto.
  - cbn [N.eqb Pos.eqb]. rewrite (r_opargs_complete args l1 r); auto. lens; lia.
Qed.

Lemma r_op_complete : forall k n args ds ss l l1 l2 l3 r f,
  g_opname n (skip_ign l) l1 -> g_opt_opargs args l1 l2 -> g_dirs ds l2 (cLBR :: l3) -> few ds ->
  g_selset ss l3 r -> (3 * length l + 5 <= f)%nat -> r_op f k l = Some (DOp k n args ds ss, r).
Proof.
  intros. unfold r_op. rewrite (r_opname_complete n _ l1) by auto.
  apply g_opname_len in H. skl l. apply g_opt_opargs_len in H0 as Ho. apply g_dirs_len in H1 as Hd. simpl in Hd.
  rewrite (r_opt_opargs_complete args l1 l2) by (auto; lia).
  rewrite (r_dirs_complete0 ds l2 (cLBR :: l3)) by (auto; lia).
  cbn [N.eqb Pos.eqb]. rewrite (r_selset_complete ss l3 r); auto. lia.
Qed.

Lemma r_def_complete : forall d l r f, g_def d l r -> (3 * length l + 5 <= f)%nat -> r_def f l = Some (d, r).
Proof.
  intros. inv H.
  - unfold r_def. cbn [N.eqb Pos.eqb]. rewrite (r_selset_complete ss l0 r); auto. simpl in *; lia.
  - rewrite app_length in H0. destruct k; cbn [op_keyword bs app] in *; unfold r_def; cbn -[r_op skip_ign r_selset];
      eapply r_op_complete; eauto; simpl in *; lia.
  - rewrite app_length in H0. cbn [bs app] in *. unfold r_def. cbn -[r_frag skip_ign r_selset].
    unfold r_frag. apply r_name_spec in H1 as H1'. rewrite H1'. rewrite H2. cbn -[r_name skip_ign r_selset].
    apply r_name_spec in H3 as H3'. rewrite H3', H4. cbn [N.eqb Pos.eqb]. rewrite (r_selset_complete ss l4 r); auto.
    skl l0. skl l1. rewrite H2 in SK0. simpl in SK0. skl l2. lens. lia.
Qed.
Lemma r_doc_complete : forall d l, g_doc d l -> forall n f, (length l < n)%nat -> (3 * length l + 5 <= f)%nat -> r_doc n f l = Some d.
Proof.
  induction 1; intros; (destruct n as [|n]; [lia|]); cbn [r_doc].
  - now rewrite H.
  - destruct (skip_ign l) as [|c l1] eqn:E. { apply g_def_len in H. simpl in H. lia. }
    skl l. rewrite E in SK. apply g_def_len in H as HL.
    rewrite (r_def_complete d (c :: l1) r) by (auto; lia). rewrite IHg_doc by lia. reflexivity.
Qed.

Lemma ref_parse_spec : forall q d, ref_parse q = Some d <-> g_doc d q.
Proof.
  intros. unfold ref_parse. split; intros.
  - eapply r_doc_sound; eauto.
  - apply r_doc_complete; auto; lia.
Qed.

(** the grammar is unambiguous *)
Lemma g_doc_unique : forall q d d', g_doc d q -> g_doc d' q -> d = d'.
Proof. intros. apply ref_parse_spec in H, H0. congruence. Qed.
