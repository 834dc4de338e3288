(** * Printed documents are in the grammar (proofs) *)
From Coq Require Import String Arith NArith Bool Lia ZifyBool ZifyN ZifyNat List.
From Verif Require Import Base Ast Grammar RefParser RefLemmas RefGrammar Printer.
Import ListNotations.
Open Scope N_scope.

Lemma skip_ign_ignored : forall w, ignored w -> forall r, skip_ign (w ++ r) = skip_ign r.
Proof.
  induction 1; intros.
  - simpl in H. intuition; subst; reflexivity.
  - cbn [app skip_ign]. replace ((cHASH =? cSP) || _ || _ || _ || _) with false by reflexivity. cbn [N.eqb Pos.eqb].
    induction H.
    + simpl in H0. intuition; subst; reflexivity.
    + cbn [app skip_comment]. replace ((x =? cLF) || (x =? cCR)) with false. { exact IHForall. }
      cbn in H. lia.
  - rewrite <- app_assoc. now rewrite IHignored1, IHignored2.
Qed.
Lemma ignored_head : forall w, ignored w -> exists c r, w = c :: r /\ In c [cSP; cTAB; cLF; cCR; cHASH].
Proof.
  induction 1.
  - exists c, []. split; auto. simpl in *. intuition.
  - exists cHASH, (body ++ [e]). split; auto. simpl. auto 6.
  - destruct IHignored1 as (c & r & -> & I). exists c, (r ++ b). auto.
Qed.
Lemma ign_head_not_name : forall c, In c [cSP; cTAB; cLF; cCR; cHASH] -> ~ is_name_char c.
Proof. intros. cbn in H. unfold is_name_char, is_letter, is_digit. lia. Qed.
Lemma ign_head_num_stop : forall c, In c [cSP; cTAB; cLF; cCR; cHASH] -> num_stop c.
Proof. intros. unfold num_stop. cbn in *. lia. Qed.

(** induction on values *)
Section ValueInd.
Variable P : value -> Prop.
Hypothesis Pvar : forall n, P (VVar n).
Hypothesis Pint : forall n, P (VInt n).
Hypothesis Pfloat : forall n, P (VFloat n).
Hypothesis Pstr : forall n, P (VStr n).
Hypothesis Pbool : forall n, P (VBool n).
Hypothesis Pnull : P VNull.
Hypothesis Penum : forall n, P (VEnum n).
Hypothesis Plist : forall vs, Forall P vs -> P (VList vs).
Hypothesis Pobj : forall fs, Forall (fun nv => P (snd nv)) fs -> P (VObj fs).
Fixpoint value_ind' (v : value) : P v :=
  match v with
  | VVar n => Pvar n | VInt n => Pint n | VFloat n => Pfloat n | VStr n => Pstr n | VBool n => Pbool n
  | VNull => Pnull | VEnum n => Penum n
  | VList vs => Plist vs ((fix go l : Forall P l := match l with [] => Forall_nil _ | x :: r => Forall_cons _ (value_ind' x) (go r) end) vs)
  | VObj fs => Pobj fs ((fix go l : Forall (fun nv => P (snd nv)) l := match l with [] => Forall_nil _ | x :: r => Forall_cons _ (value_ind' (snd x)) (go r) end) fs)
  end.
End ValueInd.
Section SelInd.
Variable P : sel -> Prop.
Hypothesis Pf : forall al n ds args ss, Forall P ss -> P (SField al n ds args ss).
Hypothesis Ps : forall n ds, P (SSpread n ds).
Hypothesis Pi : forall n ds ss, Forall P ss -> P (SInline n ds ss).
Fixpoint sel_ind' (s : sel) : P s :=
  match s with
  | SField al n ds args ss => Pf al n ds args ss ((fix go l : Forall P l := match l with [] => Forall_nil _ | x :: r => Forall_cons _ (sel_ind' x) (go r) end) ss)
  | SSpread n ds => Ps n ds
  | SInline n ds ss => Pi n ds ss ((fix go l : Forall P l := match l with [] => Forall_nil _ | x :: r => Forall_cons _ (sel_ind' x) (go r) end) ss)
  end.
End SelInd.

Lemma valid_name_head : forall n, valid_name n -> exists c r, n = c :: r /\ is_letter c.
Proof. intros. inversion H; subst. eauto. Qed.
Lemma is_letter_neq : forall c, is_letter c -> ign_charb c = false /\ c <> cLBRK /\ c <> cRBRK /\ c <> cRBR /\ c <> cRPAR /\ c <> cCOMMA /\ c <> cAT /\ c <> cLPAR /\ c <> cLBR /\ c <> cCOLON /\ c <> cBANG.
Proof. intros. unfold is_letter, ign_charb in *. lia. Qed.

Lemma strip_und_digits : forall d, Forall is_digit d -> strip_und d = d.
Proof.
  induction 1; auto. unfold strip_und in *. cbn [filter]. replace (x =? cUND) with false by (unfold is_digit in H; lia). cbn [negb]. now rewrite IHForall.
Qed.
Lemma digits_run : forall d, Forall is_digit d -> digit_run d.
Proof. intros. unfold digit_run. eapply Forall_impl; [|exact H]. intros; cbv beta. auto. Qed.

Lemma g_value_skip : forall v l l' r, skip_ign l = skip_ign l' -> g_value v l r -> g_value v l' r.
Proof.
  intros v l l' r E H. inversion H; subst; try (rewrite E in *; econstructor; solve [eauto]); rewrite E in *.
Qed.

Section P.
Variable w : bytes.
Hypothesis W : ignored w.

Lemma skw : forall r, skip_ign (w ++ r) = skip_ign r.
Proof. now apply skip_ign_ignored. Qed.
Lemma g_name_w : forall n r, valid_name n -> g_name n (n ++ w ++ r) (w ++ r).
Proof.
  intros. destruct (ignored_head _ W) as (c & r' & E & I). rewrite E. cbn [app]. constructor; auto. now apply ign_head_not_name.
Qed.
Lemma skip_name : forall n r, valid_name n -> skip_ign (n ++ r) = n ++ r.
Proof. intros. destruct (valid_name_head _ H) as (c & x & -> & L). cbn [app]. apply skip_ign_token. now apply is_letter_neq. Qed.

Lemma g_sign_ok : forall s, s = [] \/ s = [cMINUS] -> g_sign s s.
Proof. intros s [-> | ->]; constructor. Qed.
Lemma g_exp_ok : forall e, e = [] \/ exp_lit e -> g_exp e e.
Proof.
  intros e [-> | (z & (s & d & S & D & N & ->) & ->)]; [constructor|].
  rewrite <- (strip_und_digits d D) at 2. apply g_exp_some; auto. { now apply g_sign_ok. } now apply digits_run.
Qed.
Lemma int_head : forall z, int_lit z -> exists c x, z = c :: x /\ num_start c /\ ign_charb c = false.
Proof.
  intros z (s & d & S & D & N & ->). destruct S as [-> | ->].
  - destruct d as [|c d]; [congruence|]. exists c, d. inversion D; subst. unfold num_start, is_digit, ign_charb in *. repeat split; auto. lia.
  - exists cMINUS, d. unfold num_start. repeat split; auto.
Qed.
Lemma float_head : forall z, float_lit z -> exists c x, z = c :: x /\ num_start c /\ ign_charb c = false.
Proof.
  intros l (z & I & F). destruct (int_head _ I) as (c & x & -> & A & B).
  destruct F as [(e & _ & ->)|(f & e & _ & _ & ->)]; eexists c, _; repeat split; eauto.
Qed.
Lemma g_int_ok : forall l r, int_lit l -> g_number (VInt l) (l ++ w ++ r) (w ++ r).
Proof.
  intros l r (s & d & S & D & N & ->). destruct (ignored_head _ W) as (c & r' & E & I). rewrite E. cbn [app].
  rewrite <- (strip_und_digits d D) at 1. rewrite <- app_assoc.
  apply g_number_int; [now apply g_sign_ok|now apply digits_run|now apply ign_head_num_stop].
Qed.
Lemma g_float_ok : forall l r, float_lit l -> g_number (VFloat l) (l ++ w ++ r) (w ++ r).
Proof.
  intros l r (z & (s & d & S & D & N & ->) & F). destruct (ignored_head _ W) as (c & r' & E & I). rewrite E. cbn [app].
  destruct F as [(e & X & ->)|(f & e & F & X & ->)].
  - rewrite <- (strip_und_digits d D) at 1. rewrite <- ?app_assoc.
    apply g_number_exp; [now apply g_sign_ok|now apply digits_run|apply g_exp_ok; auto| |now apply ign_head_num_stop].
    destruct X as (? & _ & ->). discriminate.
  - rewrite <- (strip_und_digits d D) at 1. rewrite <- (strip_und_digits f F) at 1. rewrite <- ?app_assoc. cbn [app]. rewrite <- ?app_assoc.
    apply g_number_float; [now apply g_sign_ok|now apply digits_run|now apply digits_run|apply g_exp_ok; auto|now apply ign_head_num_stop].
Qed.

Lemma g_chars_ok : forall s r, g_chars s (flat_map p_char s ++ cQUOT :: r) r.
Proof.
  induction s; intros; cbn [flat_map app]; [constructor|]. unfold p_char at 1.
  assert (H : forall e x, g_escape e x -> g_chars (e ++ s) (cBSL :: x ++ flat_map p_char s ++ cQUOT :: r) r) by (intros; constructor; auto).
  destruct (a =? 0) eqn:E0.
  { apply N.eqb_eq in E0. subst a. rewrite <- app_assoc. apply (H [0] (bs "u0000")).
    change [0] with (utf8_encode (0 * 4096 + 0 * 256 + 0 * 16 + 0)). change (bs "u0000") with [117; 48; 48; 48; 48].
    constructor; unfold hex_digit; lia. }
  destruct (a =? cLF) eqn:E1. { apply N.eqb_eq in E1. subst a. rewrite <- app_assoc. apply (H [10] (bs "n")). constructor. }
  destruct (a =? cCR) eqn:E2. { apply N.eqb_eq in E2. subst a. rewrite <- app_assoc. apply (H [13] (bs "r")). constructor. }
  destruct (a =? cQUOT) eqn:E3. { apply N.eqb_eq in E3. subst a. rewrite <- app_assoc. apply (H [cQUOT] [cQUOT]). constructor. cbn. lia. }
  destruct (a =? cBSL) eqn:E4. { apply N.eqb_eq in E4. subst a. rewrite <- app_assoc. apply (H [cBSL] [cBSL]). constructor. cbn. lia. }
  rewrite <- app_assoc. cbn [app]. apply gc_plain; auto. cbn. lia.
Qed.
Lemma g_string_ok : forall s r, g_string s (cQUOT :: flat_map p_char s ++ cQUOT :: w ++ r) (w ++ r).
Proof.
  intros. apply g_string_plain; [|apply g_chars_ok]. intros (x & E). destruct s as [|a s].
  - destruct (ignored_head _ W) as (c & r' & F & I). rewrite F in E. cbn in E, I. inversion E. lia.
  - cbn [flat_map] in E. injection E as E. unfold p_char in E at 1.
    destruct (a =? 0); [discriminate|]. destruct (a =? cLF); [discriminate|]. destruct (a =? cCR); [discriminate|].
    destruct (a =? cQUOT) eqn:Q; [discriminate|]. destruct (a =? cBSL); [discriminate|]. cbn in E. inversion E. lia.
Qed.

(** first character of a printed value *)
Definition val_head (c : N) : Prop := ign_charb c = false /\ c <> cRBRK /\ c <> cCOMMA.
Lemma p_value_head : forall v r, legal_value v -> exists c x, p_value w v ++ r = c :: x /\ val_head c.
Proof.
  unfold val_head. intros. destruct v; cbn [p_value legal_value] in *.
  - eexists _, _; (split; [reflexivity|]); repeat split; (reflexivity || discriminate).
  - destruct (int_head _ H) as (c & x & -> & A & B). exists c, (x ++ r). repeat split; auto; unfold num_start, is_digit in A; lia.
  - destruct (float_head _ H) as (c & x & -> & A & B). exists c, (x ++ r). repeat split; auto; unfold num_start, is_digit in A; lia.
  - eexists _, _; (split; [reflexivity|]); repeat split; (reflexivity || discriminate).
  - destruct b; eexists _, _; (split; [reflexivity|]); repeat split; (reflexivity || discriminate).
  - eexists _, _; (split; [reflexivity|]); repeat split; (reflexivity || discriminate).
  - destruct (valid_name_head _ (proj1 H)) as (c & x & -> & L). exists c, (x ++ r). apply is_letter_neq in L. intuition.
  - eexists _, _; (split; [reflexivity|]); repeat split; (reflexivity || discriminate).
  - eexists _, _; (split; [reflexivity|]); repeat split; (reflexivity || discriminate).
Qed.

Lemma sep_w_tok : forall r c x, skip_ign r = c :: x -> c <> cCOMMA -> sep (w ++ r) = c :: x.
Proof. intros. unfold sep. rewrite skw, H. replace (c =? cCOMMA) with false by lia. auto. Qed.

Lemma g_fields_ok : forall cl fs, cl = cRPAR \/ cl = cRBR ->
  Forall (fun nv => legal_value (snd nv) -> forall r, g_value (snd nv) (p_value w (snd nv) ++ w ++ r) (w ++ r)) fs ->
  legal_args fs -> forall r, g_assign cl fs (w ++ p_fields w fs ++ cl :: r) r.
Proof.
  intros cl fs CL F L r.
  assert (SC : skip_ign (cl :: r) = cl :: r) by (apply skip_ign_token; destruct CL; subst; reflexivity).
  assert (NC : cl <> cCOMMA) by (destruct CL; subst; discriminate).
  destruct fs as [|nv fs].
  { apply ga_none. rewrite skw. exact SC. }
  assert (G : g_fields cl (nv :: fs) (p_fields w (nv :: fs) ++ cl :: r) r).
  { revert nv F L. induction fs as [|nv2 fs IH]; intros nv F L; destruct nv as [n v]; inversion F; subst; destruct L as (L1 & L2 & L3); cbn [snd] in *.
    - unfold p_fields. cbn [flat_map fst snd]. rewrite app_nil_r, <- ?app_assoc. cbn [app]. rewrite <- ?app_assoc.
      eapply gf_last.
      + now apply g_name_w.
      + rewrite skw. apply skip_ign_token. reflexivity.
      + destruct (p_value_head v (w ++ cl :: r) L2) as (c & x & E & V).
        specialize (H1 L2 (cl :: r)). 
        eapply g_value_skip; [|exact H1]. now rewrite skw.
      + apply sep_w_tok; auto.
    - unfold p_fields. cbn [flat_map fst snd]. rewrite <- ?app_assoc. cbn [app]. rewrite <- ?app_assoc. destruct nv2 as [n2 v2].
      inversion H2; subst. pose proof L3 as (L4 & _ & _).
      specialize (IH (n2, v2) H2 L3). unfold p_fields in IH. cbn [flat_map fst snd] in IH |- *.
      destruct (valid_name_head _ L4) as (c & x & -> & LL). pose proof (is_letter_neq _ LL) as NE.
      cbn [app] in *. rewrite <- ?app_assoc in *. cbn [app] in *. rewrite <- ?app_assoc in *.
      eapply gf_more; [now apply g_name_w|rewrite skw; apply skip_ign_token; reflexivity| | | |exact IH].
      + eapply g_value_skip; [|apply (H1 L2)]. now rewrite skw.
      + apply sep_w_tok; [|intuition]. apply skip_ign_token. intuition.
      + destruct CL; subst; intuition. }
  destruct nv as [n v]. pose proof L as (L1 & _). unfold p_fields in *. cbn [flat_map fst snd] in *.
  destruct (valid_name_head _ L1) as (c & x & -> & L2). cbn [app] in *. eapply ga_some; [| |exact G].
  - rewrite skw. apply skip_ign_token. now apply is_letter_neq.
  - apply is_letter_neq in L2. destruct CL; subst; intuition.
Qed.

Lemma p_value_ok : forall v, legal_value v -> forall r, g_value v (p_value w v ++ w ++ r) (w ++ r).
Proof.
  induction v using value_ind'; intros L r; cbn [p_value] in *.
  - cbn [app]. eapply gv_var. { apply skip_ign_token; reflexivity. } now apply g_name_w.
  - destruct (int_head _ L) as (c & x & E & A & B). pose proof (g_int_ok n r L) as G. rewrite E in *. cbn [app] in *.
    eapply gv_num; [now apply skip_ign_token|auto|exact G].
  - destruct (float_head _ L) as (c & x & E & A & B). pose proof (g_float_ok n r L) as G. rewrite E in *. cbn [app] in *.
    eapply gv_num; [now apply skip_ign_token|auto|exact G].
  - cbn [app]. rewrite <- app_assoc. cbn [app]. eapply gv_str; [apply skip_ign_token; reflexivity|]. apply g_string_ok.
  - destruct (ignored_head _ W) as (c & r' & E & I). destruct n; [apply gv_true|apply gv_false]; try (apply skip_ign_token; reflexivity);
    rewrite E; simpl; now apply ign_head_not_name.
  - destruct (ignored_head _ W) as (c & r' & E & I). apply gv_null. { apply skip_ign_token; reflexivity. } rewrite E; simpl; now apply ign_head_not_name.
  - destruct L as [L1 L2]. apply gv_enum; auto. rewrite skip_name by auto. now apply g_name_w.
  - (* list *)
    destruct vs as [|v vs].
    { cbn [app flat_map]. rewrite <- app_assoc. eapply gv_list0; [apply skip_ign_token; reflexivity|]. rewrite skw. reflexivity. }
    assert (G : g_items (v :: vs) (flat_map (fun v => p_value w v ++ w) (v :: vs) ++ cRBRK :: w ++ r) (w ++ r)).
    { revert v H L. induction vs as [|v2 vs IH]; intros v H L; inversion H; subst; destruct L as [L1 L2]; cbn [flat_map].
      - rewrite app_nil_r, <- app_assoc. eapply gi_last; [now apply H2|]. apply sep_w_tok; [reflexivity|discriminate].
      - rewrite <- ?app_assoc. inversion H3; subst. destruct L2 as [L2 L3]. 
        specialize (IH v2 H3 (conj L2 L3)). cbn [flat_map] in IH. rewrite <- ?app_assoc in IH.
        match type of IH with g_items _ (p_value w v2 ++ ?tl) _ => destruct (p_value_head v2 tl L2) as (c & x & E & V1 & V2 & V3) end.
        eapply gi_more; [now apply H2| | |rewrite E in IH; exact IH].
        + apply sep_w_tok; auto. rewrite E. now apply skip_ign_token.
        + auto. }
    cbn [app]. rewrite <- ?app_assoc. cbn [app]. pose proof L as [L1 _]. cbn [flat_map] in *. rewrite <- ?app_assoc in *.
    match type of G with g_items _ (p_value w v ++ ?tl) _ => destruct (p_value_head v tl L1) as (c & x & E & V1 & V2 & V3) end.
    eapply gv_list; [apply skip_ign_token; reflexivity| |exact V2|rewrite E in G; exact G].
    rewrite skw, E. now apply skip_ign_token.
  - cbn [app]. rewrite <- ?app_assoc. cbn [app]. eapply gv_obj; [apply skip_ign_token; reflexivity|].
    apply (g_fields_ok cRBR); auto.
Qed.

Lemma p_args_ok : forall cl fs r, cl = cRPAR \/ cl = cRBR -> legal_args fs -> g_assign cl fs (w ++ p_fields w fs ++ cl :: r) r.
Proof.
  intros. apply g_fields_ok; auto. apply Forall_forall. intros [n v] _ L r'. now apply p_value_ok.
Qed.

(** directives: what follows is a token other than '@' and '(' *)
Lemma g_dirs_skip : forall ds l l' r, skip_ign l = skip_ign l' -> g_dirs ds l r -> g_dirs ds l' r.
Proof. intros ds l l' r E H. inversion H; subst; rewrite E in *; econstructor; eauto. Qed.

Lemma p_dirs_ok : forall ds r c x, Forall legal_dir ds -> skip_ign r = c :: x -> c <> cAT -> (c = cLPAR -> closed_dirs ds) ->
  g_dirs ds (p_dirs w ds ++ r) (c :: x).
Proof.
  induction ds as [|[n a] ds IH]; intros r c x L S C1 C2.
  - cbn. now apply gd_none.
  - inversion L; subst. destruct H1 as [L1 L2]. cbn [d_name d_args] in *.
    assert (C3 : c = cLPAR -> closed_dirs ds) by (intros E; specialize (C2 E); destruct ds; [exact I|exact C2]).
    specialize (IH r c x H2 S C1 C3).
    unfold p_dirs. cbn [flat_map]. unfold p_dir at 1. cbn [d_name d_args app]. destruct a as [fs|]; cbn [p_opt_args].
    + rewrite <- ?app_assoc. cbn [app]. rewrite <- ?app_assoc. cbn [app]. rewrite <- ?app_assoc.
      eapply gd_args; [apply skip_ign_token; reflexivity|now apply g_name_w|rewrite skw; apply skip_ign_token; reflexivity| |].
      * apply p_args_ok; auto.
      * eapply g_dirs_skip; [|exact IH]. symmetry. apply skw.
    + rewrite app_nil_r, <- ?app_assoc.
      destruct ds as [|d2 ds].
      * cbn [flat_map app]. eapply gd_plain; [apply skip_ign_token; reflexivity|now apply g_name_w|rewrite skw; exact S| |].
        { intros ->. specialize (C2 eq_refl). now apply C2. }
        eapply g_dirs_skip; [|exact IH]. cbn. rewrite S. symmetry. eapply skip_ign_again; eauto.
      * cbn [flat_map] in *. unfold p_dirs, p_dir in IH |- *. cbn [flat_map app] in IH |- *.
        eapply gd_plain; [apply skip_ign_token; reflexivity|now apply g_name_w|rewrite skw; apply skip_ign_token; reflexivity|discriminate|].
        exact IH.
Qed.

Definition sel_follow (c : N) : Prop := c = cRBR \/ is_letter c \/ c = cDOT.
Lemma sel_follow_neq : forall c, sel_follow c -> ign_charb c = false /\ c <> cAT /\ c <> cLPAR /\ c <> cLBR /\ c <> cCOLON /\ c <> cCOMMA.
Proof. intros c [-> | [H | ->]]; try (repeat split; (reflexivity || discriminate)). apply is_letter_neq in H. intuition. Qed.

Lemma p_sel_head : forall s, legal_sel s -> exists c x, p_sel w s = c :: x /\ (is_letter c \/ c = cDOT).
Proof.
  destruct s; intros L; cbn [p_sel legal_sel] in *.
  - destruct L as (L1 & L2 & _). destruct alias as [a|].
    + destruct (valid_name_head _ L1) as (c & x & -> & H). eexists c, _. split; [reflexivity|auto].
    + destruct (valid_name_head _ L2) as (c & x & -> & H). eexists c, _. split; [reflexivity|auto].
  - eexists _, _. split; [reflexivity|auto].
  - eexists _, _. split; [reflexivity|auto].
Qed.

Lemma p_sels_ok : forall ss, Forall (fun s => legal_sel s -> forall r c x, skip_ign r = c :: x -> sel_follow c -> g_sel s (p_sel w s ++ r) (c :: x)) ss ->
  Forall legal_sel ss -> forall r, g_selset ss (w ++ flat_map (p_sel w) ss ++ cRBR :: r) r.
Proof.
  intros ss F L r. destruct ss as [|s ss].
  { apply gss_empty. rewrite skw. reflexivity. }
  assert (G : g_sels (s :: ss) (flat_map (p_sel w) (s :: ss) ++ cRBR :: r) r).
  { revert s F L. induction ss as [|s2 ss IH]; intros s F L; inversion F; subst; inversion L; subst; cbn [flat_map].
    - rewrite app_nil_r. eapply gsl_last; [eapply (H1 H3); [reflexivity|left; reflexivity]|reflexivity].
    - specialize (IH s2 H2 H4). inversion H4; subst. destruct (p_sel_head s2 H5) as (c & x & E & H).
      cbn [flat_map] in IH. rewrite <- ?app_assoc in *. rewrite E in *. cbn [app] in *.
      assert (SF : sel_follow c) by (unfold sel_follow; tauto).
      pose proof (sel_follow_neq _ SF) as (A1 & A2 & A3 & A4 & A5 & A6).
      eapply gsl_more; [eapply (H1 H3); [|exact SF]; now apply skip_ign_token| | |exact IH].
      + unfold sep. rewrite skip_ign_token by auto. replace (c =? cCOMMA) with false by lia. auto.
      + unfold is_letter in H. lia. }
  inversion L; subst. destruct (p_sel_head s H1) as (c & x & E & H). cbn [flat_map] in *. rewrite E in *. cbn [app] in *.
  eapply gss_some; [rewrite skw; apply skip_ign_token; unfold is_letter, ign_charb in *; lia| |exact G]. unfold is_letter in H. lia.
Qed.

Lemma legal_all : forall ss, (fix all l := match l with [] => True | x :: r => legal_sel x /\ all r end) ss -> Forall legal_sel ss.
Proof. induction ss; intros; constructor; destruct H; auto. Qed.

Lemma p_sel_ok : forall s, legal_sel s -> forall r c x, skip_ign r = c :: x -> sel_follow c -> g_sel s (p_sel w s ++ r) (c :: x).
Proof.
  induction s using sel_ind'; intros L r c x S SF; pose proof (sel_follow_neq _ SF) as (A1 & A2 & A3 & A4 & A5 & A6); cbn [p_sel legal_sel] in *.
  - destruct L as (L1 & L2 & (L3 & L3') & L4 & L4' & L5). apply legal_all in L5.
    (* the part behind the directives *)
    assert (B : exists y z l3, skip_ign (p_opt_args w args ++ (match ss with [] => [] | _ => p_set w (flat_map (p_sel w) ss) end) ++ r) = y :: z /\ y <> cAT /\ y <> cCOLON /\
       g_opt_args args (y :: z) l3 /\ g_opt_set ss l3 (c :: x) /\ (y = cLPAR -> exists fs, args = Some fs)).
    { assert (O : exists y z, skip_ign ((match ss with [] => [] | _ => p_set w (flat_map (p_sel w) ss) end) ++ r) = y :: z /\ y <> cAT /\ y <> cCOLON /\ y <> cLPAR /\ g_opt_set ss (y :: z) (c :: x)).
      { destruct ss as [|s ss].
        - exists c, x. cbn [app]. repeat split; auto. now apply gos_none.
        - unfold p_set. cbn [app]. eexists _, _. split; [apply skip_ign_token; reflexivity|]. repeat split; try discriminate.
          rewrite <- ?app_assoc. cbn [app]. eapply gos_some; [apply p_sels_ok; auto|]. now rewrite skw. }
      destruct O as (y & z & O1 & O2 & O3 & O4 & O5). destruct args as [fs|]; cbn [p_opt_args].
      - cbn [app]. eexists _, _, (y :: z). split; [apply skip_ign_token; reflexivity|]. repeat split; try discriminate; auto; eauto.
        rewrite <- ?app_assoc. cbn [app]. eapply goa_some; [apply p_args_ok; auto|]. now rewrite skw.
      - exists y, z, (y :: z). cbn [app]. repeat split; auto. { now apply goa_none. } intros; congruence. }
    destruct B as (y & z & l3 & B1 & B2 & B3 & B4 & B5 & B6).
    (* the part behind the name *)
    pose proof (p_dirs_ok ds _ _ _ L3 B1 B2 ltac:(intros E; destruct (B6 E) as (fs & ->); apply L4'; discriminate)) as GD.
    assert (D : exists y' z', skip_ign (p_dirs w ds ++ p_opt_args w args ++ (match ss with [] => [] | _ => p_set w (flat_map (p_sel w) ss) end) ++ r) = y' :: z' /\ y' <> cCOLON).
    { destruct ds as [|d ds].
      - exists y, z. auto.
      - unfold p_dirs. cbn [flat_map]. unfold p_dir at 1. cbn [app]. eexists _, _. split; [apply skip_ign_token; reflexivity|discriminate]. }
    destruct D as (y' & z' & D1 & D2).
    apply g_dirs_skip with (l' := y' :: z') in GD; [|rewrite D1; symmetry; eapply skip_ign_again; exact D1].
    assert (A : g_alias al n ((match al with None => [] | Some a => a ++ w ++ cCOLON :: w end) ++ n ++ w ++ p_dirs w ds ++ p_opt_args w args ++ (match ss with [] => [] | _ => p_set w (flat_map (p_sel w) ss) end) ++ r) (y' :: z')).
    { destruct al as [a|]; rewrite <- ?app_assoc; cbn [app]; rewrite <- ?app_assoc.
      - eapply gal_some; [now apply g_name_w|rewrite skw; apply skip_ign_token; reflexivity| |].
        + rewrite skw, skip_name by auto. now apply g_name_w.
        + now rewrite skw.
      - eapply gal_none; [now apply g_name_w| |exact D2]. now rewrite skw. }
    rewrite <- ?app_assoc. eapply gs_field; [exact A|exact GD|exact L3'|exact B4|exact B5].
  - destruct L as (L1 & L2 & L3 & L4). rewrite <- ?app_assoc. eapply gs_spread; [| | |exact L4].
    + intros (t & E & N). rewrite skw, skip_name in E by auto. destruct (ignored_head _ W) as (cw & rw & EW & IW).
      pose proof (ign_head_not_name _ IW) as NW.
      destruct n as [|c0 [|c1 [|c2 n]]]; [inversion L1| | |]; cbn in E.
      * rewrite EW in E. cbn in E. injection E as _ E _. rewrite E in NW. apply NW. left. unfold is_letter. lia.
      * injection E as E0 E1 _. apply L2. now rewrite E0, E1.
      * injection E as _ _ E. rewrite <- E in N. inversion L1; subst. inversion H2; subst. inversion H5; subst. now apply N.
    + rewrite skw, skip_name by auto. now apply g_name_w.
    + eapply g_dirs_skip; [symmetry; apply skw|]. apply p_dirs_ok; auto. intros; congruence.
  - destruct L as (L1 & (L2 & L2') & L3). apply legal_all in L3. rewrite <- ?app_assoc. unfold p_set. cbn [app]. rewrite <- ?app_assoc. cbn [app].
    eapply gs_inline; [rewrite skw; reflexivity| | | |exact L2'| |].
    + destruct (ignored_head _ W) as (cw & rw & EW & IW). rewrite EW. cbn. now apply ign_head_not_name.
    + rewrite skw, skip_name by auto. now apply g_name_w.
    + eapply g_dirs_skip; [symmetry; apply skw|]. apply p_dirs_ok; auto; [reflexivity|discriminate|discriminate].
    + apply p_sels_ok; auto.
    + now rewrite skw.
Qed.

Lemma p_selset_ok : forall ss r, Forall legal_sel ss -> g_selset ss (w ++ flat_map (p_sel w) ss ++ cRBR :: r) r.
Proof. intros. apply p_sels_ok; auto. apply Forall_forall. intros s _ L r' c x. now apply p_sel_ok. Qed.

Lemma p_type_ok : forall t r c x, legal_type t -> skip_ign r = c :: x -> c <> cBANG ->
  exists r', g_type t (p_type w t ++ w ++ r) r' /\ skip_ign r' = c :: x.
Proof.
  induction t; intros r c x L S C; cbn [p_type legal_type] in *.
  - destruct nonnull.
    + exists (w ++ r). rewrite skw. split; auto. rewrite <- app_assoc. cbn [app].
      eapply gt_name_nn; [constructor; [auto|unfold is_name_char, is_letter, is_digit; lia]|]. reflexivity.
    + exists (c :: x). rewrite app_nil_r. split; [|eapply skip_ign_again; eauto]. eapply gt_name; [now apply g_name_w|now rewrite skw|auto].
  - destruct (IHt (cRBRK :: (if nonnull then [cBANG] else []) ++ w ++ r) cRBRK ((if nonnull then [cBANG] else []) ++ w ++ r) L ltac:(reflexivity) ltac:(discriminate)) as (r1 & G & E).
    exists (w ++ r). rewrite skw. split; auto. cbn [app]. rewrite <- ?app_assoc. cbn [app].
    assert (HD : skip_ign (w ++ p_type w t ++ w ++ cRBRK :: (if nonnull then [cBANG] else []) ++ w ++ r) = p_type w t ++ w ++ cRBRK :: (if nonnull then [cBANG] else []) ++ w ++ r).
    { rewrite skw. destruct t; cbn [p_type legal_type] in *.
      - rewrite <- app_assoc. now apply skip_name.
      - reflexivity. }
    destruct nonnull; cbn [app] in *.
    + eapply gt_list_nn; [rewrite HD; exact G|exact E].
    + destruct (ignored_head _ W) as (cw & rw & EW & IW). rewrite EW in *. cbn [app] in *. eapply gt_list; [rewrite HD; exact G|exact E|].
      cbn in IW. lia.
Qed.

Lemma g_default_skip : forall v l l' r, skip_ign l = skip_ign l' -> g_default v l r -> g_default v l' r.
Proof. intros v l l' r E H. inversion H; subst; rewrite E in *; econstructor; eauto. Qed.
Lemma g_opargs_skip : forall v l l' r, skip_ign l = skip_ign l' -> g_opargs v l r -> g_opargs v l' r.
Proof.
  intros v l l' r E H. assert (S : sep l = sep l') by (now apply sep_skip). inversion H; subst; rewrite S in *; econstructor; eauto.
Qed.

Lemma p_opargs_ok : forall args r, Forall legal_oparg args -> g_opargs args (w ++ flat_map (p_oparg w) args ++ cRPAR :: r) r.
Proof.
  induction args as [|[n t d] args IH]; intros r L.
  - apply gop_end. apply sep_w_tok; [reflexivity|discriminate].
  - inversion L; subst. destruct H1 as (L1 & L2 & L3). cbn [oa_name oa_type oa_default] in *. specialize (IH r H2).
    cbn [flat_map]. unfold p_oparg at 1. cbn [oa_name oa_type oa_default app]. rewrite <- ?app_assoc. cbn [app]. rewrite <- ?app_assoc.
    (* next token behind the type *)
    assert (T : exists c x, skip_ign ((match d with None => [] | Some v => cEQ :: w ++ p_value w v ++ w end) ++ flat_map (p_oparg w) args ++ cRPAR :: r) = c :: x /\ c <> cBANG /\
       exists l5, g_default d (c :: x) l5 /\ g_opargs args l5 r).
    { destruct d as [v|].
      - cbn [app]. eexists _, _. split; [apply skip_ign_token; reflexivity|]. split; [discriminate|]. rewrite <- ?app_assoc.
        eexists. split.
        + eapply gdf_some; [apply skip_ign_token; reflexivity|]. eapply g_value_skip; [|apply p_value_ok; auto]. now rewrite skw.
        + exact IH.
      - cbn [app]. destruct args as [|a args].
        + cbn [flat_map app]. eexists _, _. split; [apply skip_ign_token; reflexivity|]. split; [discriminate|].
          eexists. split; [apply gdf_none; [apply skip_ign_token; reflexivity|discriminate]|].
          eapply g_opargs_skip; [|exact IH]. now rewrite skw.
        + cbn [flat_map]. unfold p_oparg at 1. cbn [app]. eexists _, _. split; [apply skip_ign_token; reflexivity|]. split; [discriminate|].
          eexists. split; [apply gdf_none; [apply skip_ign_token; reflexivity|discriminate]|].
          eapply g_opargs_skip; [|exact IH]. rewrite skw. reflexivity. }
    destruct T as (c & x & T1 & T2 & l5 & T3 & T4).
    destruct (p_type_ok t _ _ _ L2 T1 T2) as (r1 & G1 & G2).
    eapply gop_more; [apply sep_w_tok; [apply skip_ign_token; reflexivity|discriminate]|now apply g_name_w| rewrite skw; apply skip_ign_token; reflexivity| | |exact T4].
    + rewrite skw. replace (skip_ign (p_type w t ++ _)) with (p_type w t ++ w ++ match d with Some v => cEQ :: w ++ p_value w v ++ w | None => [] end ++ flat_map (p_oparg w) args ++ cRPAR :: r); [exact G1|].
      symmetry. destruct t; cbn [p_type legal_type] in *; [rewrite <- app_assoc; now apply skip_name|reflexivity].
    + eapply g_default_skip; [|exact T3]. rewrite G2. eapply skip_ign_again; eauto.
Qed.

Lemma p_def_ok : forall d r, legal_def d -> exists r', g_def d (p_def w d ++ r) r' /\ r' = w ++ r.
Proof.
  intros d r L. eexists. split; [|reflexivity]. destruct d as [k n args ds ss|n t ss]; cbn [p_def legal_def] in *.
  - destruct L as (L1 & L2 & (L3 & L3') & L4). unfold p_set. rewrite <- ?app_assoc. cbn [app]. rewrite <- ?app_assoc. cbn [app].
    set (tl := cLBR :: w ++ flat_map (p_sel w) ss ++ cRBR :: w ++ r).
    assert (GD : g_dirs ds (p_dirs w ds ++ tl) tl) by (apply p_dirs_ok; auto; try reflexivity; discriminate).
    assert (O : exists c x, skip_ign (match args with None => [] | Some l => cLPAR :: w ++ flat_map (p_oparg w) l ++ cRPAR :: w end ++ p_dirs w ds ++ tl) = c :: x /\ ~ is_letter c
       /\ exists l2, g_opt_opargs args (c :: x) l2 /\ g_dirs ds l2 tl).
    { destruct args as [l|].
      - cbn [app]. eexists _, _. split; [apply skip_ign_token; reflexivity|]. split; [unfold is_letter; lia|]. rewrite <- ?app_assoc. cbn [app].
        eexists. split; [eapply goo_some; [apply skip_ign_token; reflexivity|now apply p_opargs_ok]|]. eapply g_dirs_skip; [|exact GD]. now rewrite skw.
      - cbn [app]. destruct ds as [|d0 ds].
        + eexists _, _. split; [apply skip_ign_token; reflexivity|]. split; [unfold is_letter; lia|].
          eexists. split; [eapply goo_none; [apply skip_ign_token; reflexivity|discriminate]|exact GD].
        + unfold p_dirs in *. cbn [flat_map] in *. unfold p_dir in * at 1. cbn [app] in *.
          eexists _, _. split; [apply skip_ign_token; reflexivity|]. split; [unfold is_letter; lia|].
          eexists. split; [eapply goo_none; [apply skip_ign_token; reflexivity|discriminate]|exact GD]. }
    destruct O as (c & x & O1 & O2 & l2 & O3 & O4).
    assert (O3' : forall l, skip_ign l = c :: x -> g_opt_opargs args l l2).
    { intros l E. inversion O3; subst; match goal with H : skip_ign (c :: x) = _ |- _ => rewrite (skip_ign_again _ _ _ O1) in H; rewrite <- E in H end; econstructor; eauto. }
    destruct L1 as [-> | L1].
    + cbn [app]. eapply gdef_op with (l1 := c :: x); [|apply O3'; eapply skip_ign_again; eauto|exact O4|exact L3'|now apply p_selset_ok].
      rewrite skw, skw, O1. now apply gon_none.
    + eapply gdef_op; [rewrite skw, skip_name by auto; apply gon_some; now apply g_name_w|apply O3'; rewrite skw; exact O1|exact O4|exact L3'|now apply p_selset_ok].
  - destruct L as (L1 & L2 & L3). unfold p_set. rewrite <- ?app_assoc. cbn [app]. rewrite <- ?app_assoc. cbn [app].
    eapply gdef_frag; [rewrite skw, skip_name by auto; now apply g_name_w|rewrite skw; reflexivity|
      rewrite skw, skip_name by auto; now apply g_name_w|rewrite skw; reflexivity|now apply p_selset_ok].
Qed.

Lemma p_def_head : forall d r, legal_def d -> skip_ign (p_def w d ++ r) = p_def w d ++ r.
Proof. intros. destruct d as [[] | ]; reflexivity. Qed.

Theorem print_in_grammar : forall d, legal_doc d -> g_doc d (print_doc w d).
Proof.
  assert (Z : forall d l l', skip_ign l = skip_ign l' -> g_doc d l -> g_doc d l').
  { intros d l l' E H. inversion H; subst; rewrite E in *; econstructor; eauto. }
  induction d; intros L.
  - apply gdoc_end. reflexivity.
  - inversion L; subst. destruct (p_def_ok a (print_doc w d) H1) as (r' & G & ->). unfold print_doc. cbn [flat_map]. eapply gdoc_more.
    + rewrite p_def_head by auto. exact G.
    + eapply Z; [|apply IHd; auto]. now rewrite skw.
Qed.
End P.
