(** * The parser model follows the reference parser: values and directives (proofs) *)
From Coq Require Import String Arith NArith Bool Lia ZifyBool ZifyN ZifyNat List.
From Verif Require Import Base ParserModel Ast Grammar RefParser RefLemmas RefGrammar ParserSafe ParserMono SimBase SimLex SimStr.
Import ListNotations.
Open Scope N_scope.
Arguments skipn : simpl never.

(** discharges the monotonicity premise of a step lemma *)
Ltac cut_mono H := match type of H with ?P -> _ => let X := fresh in assert (X : P) by mono; specialize (H X); clear X end.

Lemma r_value_skip : forall f l l', skip_ign l = skip_ign l' -> r_value f l = r_value f l'.
Proof. destruct f; intros; simpl; auto. now rewrite H. Qed.
Lemma r_assign_skip : forall f cl l l', skip_ign l = skip_ign l' -> r_assign f cl l = r_assign f cl l'.
Proof. destruct f; intros; simpl; auto. now rewrite H. Qed.
Lemma r_dirs_skip : forall f n l l', skip_ign l = skip_ign l' -> r_dirs f n l = r_dirs f n l'.
Proof. destruct f; intros; simpl; auto. now rewrite H. Qed.

Section Sim.
Variable q : bytes.
Variable fr : list nat.
Variable es : list perr.
Variable t : option nat.
Notation St r p := (PS r fr p es t).
Notation txt p := (skipn p q).
Notation ne := (length es).
Notation nc H := (b_next_char q fr es t _ _ _ _ _ _ H).

(** one optional comma and the next token *)
Lemma sep_step : forall B (k : N -> M B) r p, (forall c, mono (k c)) ->
  match sep (txt p) with
  | [] => bad ne ((c <- next_token q ;; c <- (if c =? cCOMMA then advance ;;; next_token q else ret c) ;; k c) (St r p))
  | c' :: l' => exists p', (c <- next_token q ;; c <- (if c =? cCOMMA then advance ;;; next_token q else ret c) ;; k c) (St r p)
                 = k c' (St r p') /\ txt p' = c' :: l'
  end.
Proof.
  intros. unfold sep. destruct (skip_ign (txt p)) as [|c l] eqn:E.
  - apply bad_bind; [now apply next_token_eof|]. mono; auto.
  - destruct (next_token_ok q fr es t r p _ _ E) as (p1 & A & B1). bnd A. destruct (c =? cCOMMA).
    + rewrite bind_assoc. prim. sk B1. destruct (skip_ign l) as [|c' l'] eqn:E2.
      * apply bad_bind; [|auto]. apply next_token_eof. now rewrite Tl.
      * rewrite <- Tl in E2. destruct (next_token_ok q fr es t r _ _ _ E2) as (p2 & A2 & B2). bnd A2. eauto.
    + prim. eauto.
Qed.
Lemma tok_step : forall B (k : N -> M B) r p, (forall c, mono (k c)) ->
  match skip_ign (txt p) with
  | [] => bad ne ((c <- next_token q ;; k c) (St r p))
  | c' :: l' => exists p', (c <- next_token q ;; k c) (St r p) = k c' (St r p') /\ txt p' = c' :: l'
  end.
Proof.
  intros. destruct (skip_ign (txt p)) as [|c l] eqn:E.
  - apply bad_bind; [now apply next_token_eof|]. auto.
  - destruct (next_token_ok q fr es t r p _ _ E) as (p1 & A & B1). bnd A. eauto.
Qed.

Lemma b_word_check : forall A B start (a none : A) (k : A -> M B) r p,
  bind (word_check q start a none) k (St r p) = if no_name_followsb (txt p) then k a (St r p) else k none (St r start).
Proof. intros. unfold bind. rewrite word_check_sim. destruct (no_name_followsb (txt p)); reflexivity. Qed.
Definition kwm (c : N) : M bool :=
  if (c =? 116) || (c =? 102) then
    m <- matches_wordN q ["false"; "true"]%string ;;
    match m with
    | Some i => inst_bool (Nat.eqb i 1) ;;; ret true
    | None => ret false
    end
  else if c =? 110 then
    m <- matches_word1 q "null" ;;
    if m : bool then inst_value 110 ;;; ret true else ret false
  else ret false.

Lemma strip_head : forall k w c l r, strip (k :: w) (c :: l) = Some r -> c = k.
Proof. intros. rewrite strip_cons in H. destruct (k =? c) eqn:E; [|discriminate]. lia. Qed.
Lemma r_word_head : forall k w c l r, r_word (k :: w) (c :: l) = Some r -> c = k.
Proof. unfold r_word. intros. destruct (strip (k :: w) (c :: l)) eqn:E; [|discriminate]. eapply strip_head; eauto. Qed.

Lemma kw_sim : forall r p c l, txt p = c :: l ->
  match (match r_word (bs "true") (c :: l) with
         | Some x => Some (VBool true, x)
         | None => match r_word (bs "false") (c :: l) with
         | Some x => Some (VBool false, x)
         | None => match r_word (bs "null") (c :: l) with
         | Some x => Some (VNull, x)
         | None => None end end end) with
  | Some (v, x) => exists p', kwm c (St r p) = Ok true (St (r ++ enc_value v) p') /\ txt p' = x
  | None => kwm c (St r p) = Ok false (St r p)
  end.
Proof.
  intros. unfold kwm.
  assert (HT : forall x, r_word (bs "true") (c :: l) = Some x -> c = 116) by (intros; eapply r_word_head with (w := bs "rue"); eauto).
  assert (HF : forall x, r_word (bs "false") (c :: l) = Some x -> c = 102) by (intros; eapply r_word_head with (w := bs "alse"); eauto).
  assert (HN : forall x, r_word (bs "null") (c :: l) = Some x -> c = 110) by (intros; eapply r_word_head with (w := bs "ull"); eauto).
  destruct ((c =? 116) || (c =? 102)) eqn:X.
  - assert (NN : r_word (bs "null") (c :: l) = None) by (destruct (r_word (bs "null") (c :: l)) eqn:Y; auto; specialize (HN _ eq_refl); lia).
    rewrite NN. clear HN NN HT HF. unfold matches_wordN. rewrite bind_assoc. prim. rewrite bind_assoc.
    pose proof (bool_words q fr es t r p). rewrite H in H0. unfold r_word.
    destruct (strip (bs "false") (c :: l)) as [x|] eqn:SF.
    + assert (c = 102) by (eapply strip_head with (w := bs "alse"); eauto).
      replace (strip (bs "true") (c :: l)) with (@None bytes)
        by (subst c; reflexivity).
      destruct H0 as (p' & A & B). bnd A. rewrite b_word_check, B. destruct (no_name_followsb x); [|reflexivity].
      exists p'. split; auto.
    + destruct (strip (bs "true") (c :: l)) as [x|] eqn:STR.
      * destruct H0 as (p' & A & B). bnd A. rewrite b_word_check, B. destruct (no_name_followsb x); [|reflexivity].
        exists p'. split; auto.
      * bnd H0. reflexivity.
  - replace (r_word (bs "true") (c :: l)) with (@None bytes) by (destruct (r_word (bs "true") (c :: l)); auto; specialize (HT _ eq_refl); lia).
    replace (r_word (bs "false") (c :: l)) with (@None bytes) by (destruct (r_word (bs "false") (c :: l)); auto; specialize (HF _ eq_refl); lia).
    destruct (c =? 110) eqn:Y.
    + pose proof (word1_sim q fr es t "null" r p ltac:(discriminate)). rewrite H in H0.
      destruct (r_word (bs "null") (c :: l)) as [x|].
      * destruct H0 as (p' & A & B). bnd A. exists p'. split; auto.
      * bnd H0. reflexivity.
    + replace (r_word (bs "null") (c :: l)) with (@None bytes) by (destruct (r_word (bs "null") (c :: l)); auto; specialize (HN _ eq_refl); lia).
      reflexivity.
Qed.

Notation gval := (gval q fr es t).
Notation hd k := [0; 118; k; 0; 0; 0; 0].

Definition enc_fields (fs : list (bytes * value)) : bytes :=
  flat_map (fun nv => [0; 117] ++ fst nv ++ enc_value (snd nv)) fs.

(** a construct that appended [e] and stopped exactly before [x] *)
Definition at_ (e x : bytes) (s : pst) : Prop := exists p', s = St e p' /\ txt p' = x.

Lemma mono_kwm : forall c, mono (kwm c). Proof. intros. unfold kwm. insts. mono. Qed.

(** [sim] with the failing side stated on the term itself *)
Lemma sim_none_intro : forall A X n (o : out A) (g : X -> A -> pst -> Prop), bad n o -> sim n o None g.
Proof. auto. Qed.

Lemma value_all : forall f,
  (forall r p, sim ne (parse_value q f (St r p)) (r_value f (txt p)) (gval r)) /\
  (forall r body p, sim ne (parse_list q f (length (r ++ hd 108)) (St (r ++ hd 108 ++ body) p)) (r_items f (txt p))
     (fun x _ s => at_ (r ++ enc_tagged 108 (body ++ flat_map enc_value (fst x) ++ [0; 101])) (snd x) s)) /\
  (forall cl r p, sim ne (parse_assignments q f cl (St r p)) (r_assign f cl (txt p))
     (fun x _ s => at_ (r ++ enc_args (fst x)) (snd x) s)) /\
  (forall cl r body p, sim ne (parse_assignment_list q f cl (length (r ++ hd 111)) (St (r ++ hd 111 ++ body) p)) (r_fields f cl (txt p))
     (fun x _ s => at_ (r ++ enc_tagged 111 (body ++ enc_fields (fst x) ++ [0; 101])) (snd x) s)).
Proof.
  induction f as [|f (IHv & IHl & IHa & IHf)].
  { repeat split; intros; exact I. }
  split; [|split; [|split]].
  - (* values *)
    intros r p. cbn [parse_value parse_list parse_assignments parse_assignment_list r_value r_items r_assign r_fields].
    fold (parse_value q) (parse_list q) (parse_assignments q) (parse_assignment_list q). insts.
    match goal with |- sim _ ((c <- next_token q ;; @?K c) _) _ _ => pose proof (tok_step _ K r p) as TS; cbv beta in TS end.
    cut_mono TS.
    destruct (skip_ign (txt p)) as [|c l]; [exact TS|].
    destruct TS as (p1 & A & B). rewrite A. clear A. sk B.
    destruct (c =? cDOLLAR) eqn:D.
    { replace (c =? cLBRK) with false by lia. replace (c =? cLBR) with false by lia. unfold r_scalar. rewrite D.
      prim. pose proof (name_req q fr es t (r ++ hd 36) (S p1)) as NR. rewrite Tl in NR.
      destruct (r_name l) as [[n x]|].
      - destruct NR as (p2 & A2 & B2 & C2). bnd A2. rewrite C2. rewrite <- app_assoc. unfold sim. rewrite value_close.
        exists p2. cbn [fst snd]. rewrite B2. auto.
      - apply sim_none_intro. apply (NR _ (err_cur q _ _) (fun _ => write_len _ 4)); intros; [apply err_cur_bad|mono|mono]. }
    change ((c =? cMINUS) || (c =? cPLUS) || (c =? cDOT) || digit c) with (num_startb c).
    destruct (num_startb c) eqn:NS.
    { replace (c =? cLBRK) with false by (unfold num_startb, digitb in NS; lia). replace (c =? cLBR) with false by (unfold num_startb, digitb in NS; lia).
      unfold r_scalar. rewrite D, NS. now apply number_sim. }
    destruct (c =? cQUOT) eqn:Q.
    { replace (c =? cLBRK) with false by lia. replace (c =? cLBR) with false by lia. unfold r_scalar. rewrite D, NS, Q.
      apply N.eqb_eq in Q. subst c. pose proof (string_sim q fr es t r _ _ B) as SS.
      destruct (r_string (cQUOT :: l)) as [[d x]|]; [|exact SS].
      destruct SS as (p2 & A2 & B2). unfold sim. rewrite A2. exists p2. cbn [fst snd]. rewrite B2. auto. }
    destruct (c =? cLBRK) eqn:LB.
    { prim. match goal with |- sim _ ((c <- next_token q ;; @?K c) (St ?r0 ?p0)) _ _ => pose proof (tok_step _ K r0 p0) as TS; cbv beta in TS end.
      cut_mono TS. rewrite Tl in TS.
      destruct (skip_ign l) as [|c2 l2]; [exact TS|].
      destruct TS as (p2 & A2 & B2). rewrite A2. clear A2. sk B2. destruct (c2 =? cRBRK) eqn:RB.
      - prim. rewrite <- app_assoc. unfold sim. rewrite value_close. exists (S p2). cbn [fst snd]. rewrite Tl0. auto.
      - pose proof (IHl r [] p2) as HL. rewrite app_nil_r, B2 in HL.
        destruct (r_items f (c2 :: l2)) as [[vs x]|]; [|exact HL].
        destruct (sim_some _ _ _ _ _ _ HL) as ([] & s & E & (p3 & E2 & E3)). unfold sim. rewrite E. exists p3. cbn [fst snd] in *.
        rewrite E3. auto. }
    destruct (c =? cLBR) eqn:LC.
    { prim. pose proof (IHa cRBR r (S p1)) as HA. rewrite Tl in HA.
      destruct (r_assign f cRBR l) as [[fs x]|]; [|exact HA].
      destruct (sim_some _ _ _ _ _ _ HA) as ([] & s & E & (p3 & E2 & E3)). unfold sim. rewrite E. exists p3. cbn [fst snd] in *.
      rewrite E3. auto. }
    unfold r_scalar. rewrite D, NS, Q.
    match goal with |- sim _ ((kw <- _ ;; @?K kw) ?s) _ _ => change (sim ne ((kw <- kwm c ;; K kw) s)
      (match r_word (bs "true") (c :: l) with
         | Some x => Some (VBool true, x)
         | None => match r_word (bs "false") (c :: l) with
         | Some x => Some (VBool false, x)
         | None => match r_word (bs "null") (c :: l) with
         | Some x => Some (VNull, x)
         | None => match r_name (c :: l) with Some (n, r) => Some (VEnum n, r) | None => None end end end end) (gval r)) end.
    pose proof (kw_sim r _ _ _ B) as KS.
    destruct (r_word (bs "true") (c :: l)) as [x|].
    { destruct KS as (p2 & A2 & B2). bnd A2. exists p2. cbn [fst snd]. rewrite B2. auto. }
    destruct (r_word (bs "false") (c :: l)) as [x|].
    { destruct KS as (p2 & A2 & B2). bnd A2. exists p2. cbn [fst snd]. rewrite B2. auto. }
    destruct (r_word (bs "null") (c :: l)) as [x|].
    { destruct KS as (p2 & A2 & B2). bnd A2. exists p2. cbn [fst snd]. rewrite B2. auto. }
    bnd KS. prim. pose proof (name_req q fr es t (r ++ hd 101) p1) as NR. rewrite B in NR.
    destruct (r_name (c :: l)) as [[n x]|].
    + destruct NR as (p2 & A2 & B2 & C2). bnd A2. rewrite C2. rewrite <- app_assoc. unfold sim. rewrite value_close.
      exists p2. cbn [fst snd]. rewrite B2. auto.
    + apply sim_none_intro. apply (NR _ (err_cur q _ _) (fun _ => write_len _ 4)); intros; [apply err_cur_bad|mono|mono].
  - (* list items *)
    intros r body p. cbn [parse_value parse_list parse_assignments parse_assignment_list r_value r_items r_assign r_fields].
    fold (parse_value q) (parse_list q) (parse_assignments q) (parse_assignment_list q). insts.
    pose proof (IHv (r ++ hd 108 ++ body) p) as HV. destruct (r_value f (txt p)) as [[v x]|].
    2:{ apply bad_sim; [exact HV|mono]. }
    destruct (sim_some _ _ _ _ _ _ HV) as ([] & s & E & (p1 & E2 & E3)). cbn [fst snd] in *. subst s. bnd E.
    match goal with |- sim _ ((c <- next_token q ;; c0 <- _ ;; @?K c0) (St ?r0 ?p0)) _ _ => pose proof (sep_step _ K r0 p0) as TS; cbv beta in TS end.
    cut_mono TS. rewrite (sep_skip _ _ E3) in TS.
    destruct (sep x) as [|c2 l2]; [exact TS|]. destruct TS as (p2 & A2 & B2). rewrite A2. clear A2. sk B2.
    destruct (c2 =? cRBRK).
    + prim. replace (((r ++ hd 108 ++ body) ++ enc_value v) ++ [0; 101]) with (r ++ hd 108 ++ body ++ enc_value v ++ [0; 101]) by (now rewrite <- !app_assoc).
      unfold sim. rewrite value_close. exists (S p2). cbn [fst snd flat_map]. rewrite app_nil_r. auto.
    + pose proof (IHl r (body ++ enc_value v) p2) as HL. rewrite B2 in HL.
      replace ((r ++ hd 108 ++ body) ++ enc_value v) with (r ++ hd 108 ++ body ++ enc_value v) by (now rewrite <- !app_assoc).
      destruct (r_items f (c2 :: l2)) as [[vs y]|]; [|exact HL].
      destruct (sim_some _ _ _ _ _ _ HL) as ([] & s & F & (p3 & F2 & F3)). unfold sim. rewrite F. exists p3. cbn [fst snd flat_map] in *.
      rewrite <- !app_assoc in F2. rewrite <- !app_assoc. auto.
  - (* assignments *)
    intros cl r p. cbn [parse_value parse_list parse_assignments parse_assignment_list r_value r_items r_assign r_fields].
    fold (parse_value q) (parse_list q) (parse_assignments q) (parse_assignment_list q). insts. prim.
    match goal with |- sim _ ((c <- next_token q ;; @?K c) (St ?r0 ?p0)) _ _ => pose proof (tok_step _ K r0 p0) as TS; cbv beta in TS end.
    cut_mono TS.
    destruct (skip_ign (txt p)) as [|c l]; [exact TS|].
    destruct TS as (p1 & A & B). rewrite A. clear A. sk B.
    destruct (c =? cl).
    + prim. rewrite <- app_assoc. unfold sim. rewrite value_close. exists (S p1). cbn [fst snd]. auto.
    + pose proof (IHf cl r [] p1) as HF. rewrite app_nil_r, B in HF.
      destruct (r_fields f cl (c :: l)) as [[fs x]|]; [|exact HF].
      destruct (sim_some _ _ _ _ _ _ HF) as ([] & s & E & (p3 & E2 & E3)). unfold sim. rewrite E. exists p3. auto.
  - (* fields *)
    intros cl r body p. cbn [parse_value parse_list parse_assignments parse_assignment_list r_value r_items r_assign r_fields].
    fold (parse_value q) (parse_list q) (parse_assignments q) (parse_assignment_list q). insts. prim.
    pose proof (name_req q fr es t ((r ++ hd 111 ++ body) ++ [0; 117]) p) as NR.
    destruct (r_name (txt p)) as [[n x]|].
    2:{ apply sim_none_intro. match goal with |- bad _ ((n <- parse_name q ;; (if n =? 0 then ?e else @?k n)) _) => apply (NR _ e k) end;
        intros; [apply err_cur_bad|mono|mono]. }
    destruct NR as (p1 & A1 & B1 & C1). bnd A1. rewrite C1.
    match goal with |- sim _ ((c <- next_token q ;; @?K c) (St ?r0 ?p0)) _ _ => pose proof (tok_step _ K r0 p0) as TS; cbv beta in TS end.
    cut_mono TS. rewrite B1 in TS.
    destruct (skip_ign x) as [|c l]; [exact TS|].
    destruct TS as (p2 & A2 & B2). rewrite A2. clear A2. sk B2.
    destruct (c =? cCOLON); cbn [negb]; [|apply sim_none_intro, err_bad].
    prim. match goal with |- sim _ ((parse_value q f ;;; _) (St ?r0 ?p0)) _ _ => pose proof (IHv r0 p0) as HV end.
    rewrite Tl in HV. destruct (r_value f l) as [[v x2]|].
    2:{ apply bad_sim; [exact HV|mono]. }
    destruct (sim_some _ _ _ _ _ _ HV) as ([] & s & E & (p3 & E2 & E3)). cbn [fst snd] in *. subst s. bnd E.
    match goal with |- sim _ ((c <- next_token q ;; c0 <- _ ;; @?K c0) (St ?r0 ?p0)) _ _ => pose proof (sep_step _ K r0 p0) as TS; cbv beta in TS end.
    cut_mono TS. rewrite (sep_skip _ _ E3) in TS.
    destruct (sep x2) as [|c2 l2]; [exact TS|]. destruct TS as (p4 & A4 & B4). rewrite A4. clear A4. sk B4.
    replace ((((r ++ hd 111 ++ body) ++ [0; 117]) ++ n) ++ enc_value v) with (r ++ hd 111 ++ body ++ [0; 117] ++ n ++ enc_value v) by (now rewrite <- !app_assoc).
    destruct (c2 =? cl).
    + prim. replace ((r ++ hd 111 ++ body ++ [0; 117] ++ n ++ enc_value v) ++ [0; 101]) with (r ++ hd 111 ++ body ++ ([0; 117] ++ n ++ enc_value v) ++ [0; 101]) by (now rewrite <- !app_assoc).
      unfold sim. rewrite value_close. exists (S p4). unfold enc_fields. cbn [fst snd flat_map]. rewrite app_nil_r. auto.
    + pose proof (IHf cl r (body ++ [0; 117] ++ n ++ enc_value v) p4) as HL. rewrite B4 in HL.
      destruct (r_fields f cl (c2 :: l2)) as [[vs y]|]; [|exact HL].
      destruct (sim_some _ _ _ _ _ _ HL) as ([] & s & F & (p5 & F2 & F3)). unfold sim. rewrite F. exists p5. unfold enc_fields in *. cbn [fst snd flat_map] in *.
      rewrite <- !app_assoc in F2. rewrite <- !app_assoc. auto.
Qed.
End Sim.
