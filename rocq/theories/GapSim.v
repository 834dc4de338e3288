(** * Texts with the same tokens read as the same documents: the simulation (proofs) *)
From Coq Require Import String Arith NArith Bool Lia ZifyBool ZifyN ZifyNat List.
From Verif Require Import Base Ast Grammar RefParser RefLemmas RefGrammar Printer PrinterProof GapSpec GapProof.
Import ListNotations.
Open Scope N_scope.

Ltac punct := cbn; auto 20.
Lemma skip_word : forall p r, match p with [] => false | c :: _ => letterb c end = true -> skip_ign (p ++ r) = p ++ r.
Proof. intros [|c p] r H; [discriminate|]. cbn [app]. apply skip_ign_token. apply letter_token. now apply letterb_iff. Qed.
Lemma same_word : forall p l l' r, same l l' -> skip_ign l = p ++ r -> no_name_follows r ->
  match p with [] => false | c :: _ => letterb c end = true -> forallb ncharb p = true ->
  exists r', skip_ign l' = p ++ r' /\ no_name_follows r' /\ same r r'.
Proof.
  intros p l l' r H E N Hp Fp. pose proof (same_skip _ _ H) as K. rewrite E in K.
  destruct (at_word p r _ K) as (m & Em & D).
  - now destruct p.
  - destruct p as [|c p]; [discriminate|]. exists c, p. split; auto. now apply letterb_iff.
  - now apply word_chars.
  - exists m. split; auto. destruct D as [(c & x & x' & -> & -> & D)|[S I]]; [|auto]. exfalso. apply N. now right.
Qed.

Definition cl_ok (c : N) : Prop := In c (bs "!$&():=@[]{|},").

Lemma value_sim :
  (forall v l r, g_value v l r -> forall l', same l l' -> exists r', g_value v l' r' /\ same r r') /\
  (forall vs l r, g_items vs l r -> forall l', same l l' -> exists r', g_items vs l' r' /\ same r r') /\
  (forall cl fs l r, g_assign cl fs l r -> cl_ok cl -> forall l', same l l' -> exists r', g_assign cl fs l' r' /\ same r r') /\
  (forall cl fs l r, g_fields cl fs l r -> cl_ok cl -> forall l', at_ l l' -> exists r', g_fields cl fs l' r' /\ same r r').
Proof.
  apply g_value_mut.
  - intros l l1 n r E G l' S. destruct (same_punct _ _ _ _ S E) as (m & E' & S1 & Gl); [punct|].
    destruct (glued_name _ _ _ _ _ S1 Gl (or_introl eq_refl) G) as (r' & G' & S'). exists r'. split; auto. eapply gv_var; eauto.
  - intros l c l1 v r E Ns G l' S. destruct (same_head _ _ _ _ S E) as (m & E' & A).
    destruct (same_number _ _ _ _ _ A Ns G) as (x' & r' & Q & G' & S'). exists r'. split; auto. eapply gv_num; eauto.
  - intros l l1 d r E G l' S. destruct (same_head _ _ _ _ S E) as (m & E' & A).
    destruct (same_string _ _ _ _ A G) as (x' & r' & Q & G' & S'). exists r'. split; auto. eapply gv_str; eauto.
  - intros l r E N l' S. destruct (same_word _ _ _ _ S E N) as (r' & E' & N' & S'); auto. exists r'. split; auto. now apply gv_true.
  - intros l r E N l' S. destruct (same_word _ _ _ _ S E N) as (r' & E' & N' & S'); auto. exists r'. split; auto. now apply gv_false.
  - intros l r E N l' S. destruct (same_word _ _ _ _ S E N) as (r' & E' & N' & S'); auto. exists r'. split; auto. now apply gv_null.
  - intros l n r G N l' S. destruct (same_name _ _ _ _ S G) as (r' & G' & S'). exists r'. split; auto. now apply gv_enum.
  - intros l l1 r E E1 l' S. destruct (same_punct _ _ _ _ S E) as (m & E' & S1 & _); [punct|].
    destruct (same_punct _ _ _ _ S1 E1) as (m1 & E1' & S2 & _); [punct|]. exists m1. split; auto. eapply gv_list0; eauto.
  - intros l l1 c l2 vs r E E1 Nc G IH l' S. destruct (same_punct _ _ _ _ S E) as (m & E' & S1 & _); [punct|].
    destruct (same_head _ _ _ _ S1 E1) as (m1 & E1' & A). destruct (IH _ (at_same _ _ A)) as (r' & G' & S'). exists r'. split; auto. eapply gv_list; eauto.
  - intros l l1 fs r E G IH l' S. destruct (same_punct _ _ _ _ S E) as (m & E' & S1 & _); [punct|].
    destruct (IH ltac:(unfold cl_ok; punct) _ S1) as (r' & G' & S'). exists r'. split; auto. eapply gv_obj; eauto.
  - intros v l l1 r G IH E l' S. destruct (IH _ S) as (m & G' & S1). destruct (same_sep _ _ _ _ S1 E) as (r' & E' & A).
    destruct (at_punct _ _ _ A) as (r2 & Q & S2 & _); [punct|]. inversion Q; subst. exists r2. split; auto. eapply gi_last; eauto.
  - intros v vs l l1 c l2 r G IH E Nc G2 IH2 l' S. destruct (IH _ S) as (m & G' & S1). destruct (same_sep _ _ _ _ S1 E) as (m2 & E' & A).
    destruct (IH2 _ (at_same _ _ A)) as (r' & G2' & S'). exists r'. split; auto. eapply gi_more; eauto.
  - intros cl l r E C l' S. destruct (same_punct _ _ _ _ S E C) as (m & E' & S1 & _). exists m. split; auto. now constructor.
  - intros cl l c l1 fs r E Nc G IH C l' S. destruct (same_head _ _ _ _ S E) as (m & E' & A). destruct (IH C _ A) as (r' & G' & S').
    exists r'. split; auto. eapply ga_some; eauto.
  - intros cl n v l l1 l2 l3 r Gn E Gv IH Es C l' A. destruct (at_name _ _ _ _ A Gn) as (m1 & Gn' & S1).
    destruct (same_punct _ _ _ _ S1 E) as (m2 & E' & S2 & _); [punct|]. destruct (IH _ S2) as (m3 & Gv' & S3).
    destruct (same_sep _ _ _ _ S3 Es) as (m4 & Es' & A4). destruct (at_punct _ _ _ A4 C) as (m5 & Q & S5 & _). inversion Q; subst.
    exists m5. split; auto. eapply gf_last; eauto.
  - intros cl n v fs l l1 l2 l3 c l4 r Gn E Gv IH Es Nc G IH2 C l' A. destruct (at_name _ _ _ _ A Gn) as (m1 & Gn' & S1).
    destruct (same_punct _ _ _ _ S1 E) as (m2 & E' & S2 & _); [punct|]. destruct (IH _ S2) as (m3 & Gv' & S3).
    destruct (same_sep _ _ _ _ S3 Es) as (m4 & Es' & A4). destruct (IH2 C _ A4) as (r' & G' & S').
    exists r'. split; auto. eapply gf_more; eauto.
Qed.
Definition sim_value := proj1 value_sim.
Lemma sim_assign : forall cl fs l r, g_assign cl fs l r -> cl_ok cl -> forall l', same l l' -> exists r', g_assign cl fs l' r' /\ same r r'.
Proof. exact (proj1 (proj2 (proj2 value_sim))). Qed.

Lemma sim_dirs : forall ds l r, g_dirs ds l r -> forall l', same l l' -> exists r', g_dirs ds l' r' /\ at_ r r'.
Proof.
  induction 1; intros l' S.
  - destruct (same_head _ _ _ _ S H) as (m & E' & A). exists (c :: m). split; auto. now constructor.
  - destruct (same_punct _ _ _ _ S H) as (m & E' & S1 & Gl); [punct|].
    destruct (glued_name _ _ _ _ _ S1 Gl (or_intror eq_refl) H0) as (m2 & G' & S2).
    destruct (same_head _ _ _ _ S2 H1) as (m3 & E3 & A). destruct (IHg_dirs _ (at_same _ _ A)) as (r' & G2 & S').
    exists r'. split; auto. eapply gd_plain; eauto.
  - destruct (same_punct _ _ _ _ S H) as (m & E' & S1 & Gl); [punct|].
    destruct (glued_name _ _ _ _ _ S1 Gl (or_intror eq_refl) H0) as (m2 & G' & S2).
    destruct (same_punct _ _ _ _ S2 H1) as (m3 & E3 & S3 & _); [punct|].
    destruct (sim_assign _ _ _ _ H2 ltac:(unfold cl_ok; punct) _ S3) as (m4 & G4 & S4). destruct (IHg_dirs _ S4) as (r' & G2 & S').
    exists r'. split; auto. eapply gd_args; eauto.
Qed.
Lemma sim_alias : forall al n l r, g_alias al n l r -> forall l', at_ l l' -> exists r', g_alias al n l' r' /\ at_ r r'.
Proof.
  destruct 1; intros l' A.
  - destruct (at_name _ _ _ _ A H) as (m & G & S). destruct (same_head _ _ _ _ S H0) as (m2 & E & A2). exists (c :: m2). split; auto. eapply gal_none; eauto.
  - destruct (at_name _ _ _ _ A H) as (m & G & S). destruct (same_punct _ _ _ _ S H0) as (m2 & E & S2 & _); [punct|].
    destruct (same_name _ _ _ _ S2 H1) as (m3 & G3 & S3). destruct (same_head _ _ _ _ S3 H2) as (m4 & E4 & A4). exists (c :: m4). split; auto. eapply gal_some; eauto.
Qed.
Lemma at_head : forall c l l', at_ (c :: l) l' -> exists x, l' = c :: x.
Proof. intros c l l' (S & A & B). destruct (same_head _ _ _ _ S A) as (m & E & _). rewrite B in E. eauto. Qed.
Lemma sim_opt_args : forall a l r, g_opt_args a l r -> forall l', at_ l l' -> exists r', g_opt_args a l' r' /\ at_ r r'.
Proof.
  destruct 1; intros l' A.
  - destruct (at_head _ _ _ A) as (x & ->). exists (c :: x). split; auto. now constructor.
  - destruct (at_punct _ _ _ A) as (m & -> & S & _); [punct|]. destruct (sim_assign _ _ _ _ H ltac:(unfold cl_ok; punct) _ S) as (m1 & G1 & S1).
    destruct (same_head _ _ _ _ S1 H0) as (m2 & E & A2). exists (c :: m2). split; auto. econstructor; eauto.
Qed.
Lemma at_dots : forall l l', at_ (bs "..." ++ l) l' -> exists m, l' = bs "..." ++ m /\ same l m.
Proof.
  intros l l' (H & A & B). remember (bs "..." ++ l) as k eqn:Ek. destruct H as [k l' E|k l' t r1 r2 E1 E2 T1 T2 Gl S].
  - rewrite A, B in E. subst. eauto using same_refl.
  - rewrite A in E1. rewrite B in E2. subst l'. rewrite E1 in Ek. clear A E1 k. inversion T1; subst.
    + cbn in Ek. inversion Ek; subst. unfold is_letter in H. lia.
    + exfalso. destruct t0 as [|a [|b t0]]; cbn in Ek; inversion Ek; subst.
      * unfold num_stop in H2. cbn in H2. lia.
      * unfold num_stop in H2. cbn in H2. lia.
      * apply H1. eexists. reflexivity.
    + destruct (string_split _ _ _ H) as (_ & (z & ->) & _). cbn in Ek. inversion Ek.
    + cbn in Ek. inversion Ek; subst. eauto.
    + cbn in Ek. inversion Ek; subst. cbn in H. lia.
Qed.
Lemma no_on : forall l l', same l l' -> (~ exists t, skip_ign l = bs "on" ++ t /\ no_name_follows t) -> ~ exists t, skip_ign l' = bs "on" ++ t /\ no_name_follows t.
Proof.
  intros l l' S N (t & E & F). apply N. destruct (same_on _ _ _ (same_sym _ _ S) E F) as (r' & E' & F' & _). eauto.
Qed.

Lemma sel_sim :
  (forall s l r, g_sel s l r -> forall l', at_ l l' -> exists r', g_sel s l' r' /\ at_ r r') /\
  (forall ss l r, g_opt_set ss l r -> forall l', at_ l l' -> exists r', g_opt_set ss l' r' /\ at_ r r') /\
  (forall ss l r, g_selset ss l r -> forall l', same l l' -> exists r', g_selset ss l' r' /\ same r r') /\
  (forall ss l r, g_sels ss l r -> forall l', at_ l l' -> exists r', g_sels ss l' r' /\ same r r').
Proof.
  apply g_sel_mut.
  - intros al n ds args ss l l1 l2 l3 r Ga Gd F Go Gs IH l' A. destruct (sim_alias _ _ _ _ Ga _ A) as (m1 & Ga' & A1).
    destruct (sim_dirs _ _ _ Gd _ (at_same _ _ A1)) as (m2 & Gd' & A2). destruct (sim_opt_args _ _ _ Go _ A2) as (m3 & Go' & A3).
    destruct (IH _ A3) as (r' & Gs' & A'). exists r'. split; auto. eapply gs_field; eauto.
  - intros n ds l l1 l2 N Gn Gd F l' A. destruct (at_dots _ _ A) as (m & -> & S). destruct (same_name _ _ _ _ S Gn) as (m1 & Gn' & S1).
    destruct (sim_dirs _ _ _ Gd _ S1) as (m2 & Gd' & A2). exists m2. split; auto. eapply gs_spread; eauto. eapply no_on; eauto.
  - intros n ds ss l l1 l2 l3 l4 c r E N Gn Gd F Gs IH E2 l' A. destruct (at_dots _ _ A) as (m & -> & S).
    destruct (same_on _ _ _ S E N) as (m1 & E' & N' & S1). destruct (same_name _ _ _ _ S1 Gn) as (m2 & Gn' & S2).
    destruct (sim_dirs _ _ _ Gd _ S2) as (m3 & Gd' & A3). destruct (at_punct _ _ _ A3) as (m4 & -> & S4 & _); [punct|].
    destruct (IH _ S4) as (m5 & Gs' & S5). destruct (same_head _ _ _ _ S5 E2) as (m6 & E6 & A6). exists (c :: m6). split; auto. eapply gs_inline; eauto.
  - intros c l Nc l' A. destruct (at_head _ _ _ A) as (x & ->). exists (c :: x). split; auto. now constructor.
  - intros l ss l1 c r G IH E l' A. destruct (at_punct _ _ _ A) as (m & -> & S & _); [punct|]. destruct (IH _ S) as (m1 & G1 & S1).
    destruct (same_head _ _ _ _ S1 E) as (m2 & E2 & A2). exists (c :: m2). split; auto. econstructor; eauto.
  - intros l r E l' S. destruct (same_punct _ _ _ _ S E) as (m & E' & S1 & _); [punct|]. exists m. split; auto. now constructor.
  - intros l c l1 ss r E Nc G IH l' S. destruct (same_head _ _ _ _ S E) as (m & E' & A). destruct (IH _ A) as (r' & G' & S'). exists r'. split; auto. eapply gss_some; eauto.
  - intros s l l1 r G IH E l' A. destruct (IH _ A) as (m & G' & A1). destruct (same_sep _ _ _ _ (at_same _ _ A1) E) as (m2 & E2 & A2).
    destruct (at_punct _ _ _ A2) as (m3 & Q & S3 & _); [punct|]. inversion Q; subst. exists m3. split; auto. eapply gsl_last; eauto.
  - intros s ss l l1 c l2 r G IH E Nc G2 IH2 l' A. destruct (IH _ A) as (m & G' & A1). destruct (same_sep _ _ _ _ (at_same _ _ A1) E) as (m2 & E2 & A2).
    destruct (IH2 _ A2) as (r' & G2' & S'). exists r'. split; auto. eapply gsl_more; eauto.
Qed.
Lemma sim_selset : forall ss l r, g_selset ss l r -> forall l', same l l' -> exists r', g_selset ss l' r' /\ same r r'.
Proof. exact (proj1 (proj2 (proj2 sel_sim))). Qed.

Lemma sim_type : forall t l r, g_type t l r -> forall l', at_ l l' -> exists r', g_type t l' r' /\ same r r'.
Proof.
  induction 1; intros l' A.
  - destruct (at_name _ _ _ _ A H) as (m & G & S). destruct (same_head _ _ _ _ S H0) as (m1 & E1 & A1). exists (c :: m1). split; [|now apply at_same]. econstructor; eauto.
  - destruct (at_name _ _ _ _ A H) as (m & G & S). destruct (same_punct _ _ _ _ S H0) as (m1 & E1 & S1 & _); [punct|]. exists m1. split; auto. eapply gt_name_nn; eauto.
  - destruct (at_punct _ _ _ A) as (m & -> & S & _); [punct|]. destruct (IHg_type _ (same_skip _ _ S)) as (m1 & G1 & S1).
    destruct (same_punct _ _ _ _ S1 H0) as (m2 & E2 & S2 & Gl); [punct|]. destruct m2 as [|c2 m2].
    { exfalso. destruct (gl_end _ _ _ Gl) as [_ Z]; [discriminate|]. discriminate (Z eq_refl). }
    exists (c2 :: m2). split; auto. eapply gt_list; eauto. intros ->. destruct (gl_bang _ _ _ Gl eq_refl) as [_ Z].
    destruct Z as [z Z]; [eexists; reflexivity|]. cbn in Z. inversion Z; subst. auto.
  - destruct (at_punct _ _ _ A) as (m & -> & S & _); [punct|]. destruct (IHg_type _ (same_skip _ _ S)) as (m1 & G1 & S1).
    destruct (same_punct _ _ _ _ S1 H0) as (m2 & E2 & S2 & Gl); [punct|]. destruct (gl_bang _ _ _ Gl eq_refl) as [Z _].
    destruct Z as [z Z]; [eexists; reflexivity|]. cbn in Z. subst m2. destruct (same_punct _ _ _ _ S2 (skip_ign_token cBANG r eq_refl)) as (m3 & E3 & S3 & _); [punct|].
    rewrite (skip_ign_token cBANG z eq_refl) in E3. inversion E3; subst. exists m3. split; auto. eapply gt_list_nn; eauto.
Qed.
Lemma sim_default : forall d l r, g_default d l r -> forall l', same l l' -> exists r', g_default d l' r' /\ same r r'.
Proof.
  destruct 1; intros l' S.
  - destruct (same_head _ _ _ _ S H) as (m & E & A). exists (c :: m). split; [|now apply at_same]. now constructor.
  - destruct (same_punct _ _ _ _ S H) as (m & E & S1 & _); [punct|]. destruct (sim_value _ _ _ H0 _ S1) as (r' & G & S'). exists r'. split; auto. econstructor; eauto.
Qed.
Lemma sim_opargs : forall a l r, g_opargs a l r -> forall l', same l l' -> exists r', g_opargs a l' r' /\ same r r'.
Proof.
  induction 1; intros l' S.
  - destruct (same_sep _ _ _ _ S H) as (m & E & A). destruct (at_punct _ _ _ A) as (m1 & Q & S1 & _); [punct|]. inversion Q; subst. exists m1. split; auto. now constructor.
  - destruct (same_sep _ _ _ _ S H) as (m & E & A). destruct (at_punct _ _ _ A) as (m1 & Q & S1 & Gl); [punct|]. inversion Q; subst.
    destruct (glued_name _ _ _ _ _ S1 Gl (or_introl eq_refl) H0) as (m2 & Gn & S2). destruct (same_punct _ _ _ _ S2 H1) as (m3 & E3 & S3 & _); [punct|].
    destruct (sim_type _ _ _ H2 _ (same_skip _ _ S3)) as (m4 & Gt & S4). destruct (sim_default _ _ _ H3 _ S4) as (m5 & Gd & S5).
    destruct (IHg_opargs _ S5) as (r' & G & S'). exists r'. split; auto. econstructor; eauto.
Qed.
Lemma sim_opt_opargs : forall a l r, g_opt_opargs a l r -> forall l', same l l' -> exists r', g_opt_opargs a l' r' /\ same r r'.
Proof.
  destruct 1; intros l' S.
  - destruct (same_head _ _ _ _ S H) as (m & E & A). exists (c :: m). split; [|now apply at_same]. now constructor.
  - destruct (same_punct _ _ _ _ S H) as (m & E & S1 & _); [punct|]. destruct (sim_opargs _ _ _ H0 _ S1) as (r' & G & S'). exists r'. split; auto. econstructor; eauto.
Qed.
Lemma sim_opname : forall n l r, g_opname n l r -> forall l', at_ l l' -> exists r', g_opname n l' r' /\ same r r'.
Proof.
  destruct 1; intros l' A.
  - destruct (at_head _ _ _ A) as (x & ->). exists (c :: x). split; [|now apply at_same]. now constructor.
  - destruct (at_name _ _ _ _ A H) as (r' & G & S). exists r'. split; auto. now constructor.
Qed.
(** a number cannot follow the keyword of an operation *)
Lemma digit_no_op : forall c x n l1 args l2 ds l3, is_digit c -> g_opname n (skip_ign (c :: x)) l1 -> g_opt_opargs args l1 l2 -> g_dirs ds l2 (cLBR :: l3) -> False.
Proof.
  intros c x n l1 args l2 ds l3 D G1 G2 G3. assert (T : ign_charb c = false) by (unfold is_digit, ign_charb in *; lia).
  rewrite (skip_ign_token _ _ T) in G1. remember (c :: x) as l eqn:El. destruct G1 as [c0 l Nl|n l r G].
  - inversion El; subst c0 l. assert (E : l2 = c :: x).
    { inversion G2; subst; match goal with K : skip_ign (c :: x) = _ |- _ => rewrite (skip_ign_token _ _ T) in K; inversion K; subst end; auto.
      unfold is_digit in D. lia. }
    subst l2. inversion G3; subst; match goal with K : skip_ign (c :: x) = _ |- _ => rewrite (skip_ign_token _ _ T) in K; inversion K; subst end; unfold is_digit in D; lia.
  - destruct G as [n c0 r V _]. destruct V as [c1 n1 L _ _]. cbn in El. inversion El; subst. unfold is_letter, is_digit in *. lia.
Qed.
Lemma digit_no_name : forall c x n r, is_digit c -> ~ g_name n (skip_ign (c :: x)) r.
Proof.
  intros c x n r D G. assert (T : ign_charb c = false) by (unfold is_digit, ign_charb in *; lia).
  rewrite (skip_ign_token _ _ T) in G. remember (c :: x) as l eqn:El. destruct G as [n c0 r V _]. destruct V as [c1 n1 L _ _]. cbn in El. inversion El; subst. unfold is_letter, is_digit in *. lia.
Qed.
Lemma at_keyword : forall p l l', at_ (p ++ l) l' -> match p with [] => false | c :: _ => letterb c end = true -> forallb ncharb p = true ->
  exists m, l' = p ++ m /\ ((exists c x, l = c :: x /\ is_digit c) \/ same l m).
Proof.
  intros p l l' A Hp Fp. destruct (at_word p l _ A) as (m & Em & D).
  - now destruct p.
  - destruct p as [|c p]; [discriminate|]. exists c, p. split; auto. now apply letterb_iff.
  - now apply word_chars.
  - exists m. split; auto. destruct D as [(c & x & x' & -> & _ & D)|[S _]]; eauto.
Qed.
Lemma sim_def : forall d l r, g_def d l r -> forall l', at_ l l' -> exists r', g_def d l' r' /\ same r r'.
Proof.
  destruct 1; intros l' A.
  - destruct (at_punct _ _ _ A) as (m & -> & S & _); [punct|]. destruct (sim_selset _ _ _ H _ S) as (r' & G & S'). exists r'. split; auto. now constructor.
  - destruct (at_keyword _ _ _ A) as (m & -> & D); [now destruct k|now destruct k|]. destruct D as [(c & x & -> & D)|S].
    { exfalso. eapply digit_no_op; eauto. }
    destruct (sim_opname _ _ _ H _ (same_skip _ _ S)) as (m1 & G1 & S1). destruct (sim_opt_opargs _ _ _ H0 _ S1) as (m2 & G2 & S2).
    destruct (sim_dirs _ _ _ H1 _ S2) as (m3 & G3 & A3). destruct (at_punct _ _ _ A3) as (m4 & -> & S4 & _); [punct|].
    destruct (sim_selset _ _ _ H3 _ S4) as (r' & G & S'). exists r'. split; auto. eapply gdef_op; eauto.
  - destruct (at_keyword _ _ _ A) as (m & -> & D); [reflexivity|reflexivity|]. destruct D as [(c & x & -> & D)|S].
    { exfalso. eapply digit_no_name; eauto. }
    destruct (same_name _ _ _ _ S H) as (m1 & G1 & S1). pose proof (same_skip _ _ S1) as A1. rewrite H0 in A1.
    destruct (at_keyword _ _ _ A1) as (m2 & E2 & D2); [reflexivity|reflexivity|]. destruct D2 as [(c & x & -> & D2)|S2].
    { exfalso. eapply digit_no_name; eauto. }
    destruct (same_name _ _ _ _ S2 H1) as (m3 & G3 & S3). destruct (same_punct _ _ _ _ S3 H2) as (m4 & E4 & S4 & _); [punct|].
    destruct (sim_selset _ _ _ H3 _ S4) as (r' & G & S'). exists r'. split; auto. eapply gdef_frag; eauto.
Qed.
Lemma sim_doc : forall d l, g_doc d l -> forall l', same l l' -> g_doc d l'.
Proof.
  induction 1; intros l' S.
  - constructor. eapply same_nil; eauto.
  - destruct (sim_def _ _ _ H _ (same_skip _ _ S)) as (r' & G & S'). econstructor; eauto.
Qed.
