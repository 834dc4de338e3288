(** * The parser model follows the reference parser: directives and selections (proofs) *)
From Coq Require Import String Arith NArith Bool Lia ZifyBool ZifyN ZifyNat List.
From Verif Require Import Base ParserModel Ast Grammar RefParser RefLemmas RefGrammar ParserSafe ParserMono SimBase SimLex SimStr SimVal.
Import ListNotations.
Open Scope N_scope.
Arguments skipn : simpl never.

Ltac tok_st := match goal with |- sim _ ((c <- next_token ?q ;; @?K c) (PS ?r0 ?fr ?p0 ?es ?t)) _ _ =>
    let TS := fresh "TS" in pose proof (tok_step q fr es t _ K r0 p0) as TS; cbv beta in TS; cut_mono TS end.
Ltac tok_st' := match goal with |- bad _ ((c <- next_token ?q ;; @?K c) (PS ?r0 ?fr ?p0 ?es ?t)) =>
    let TS := fresh "TS" in pose proof (tok_step q fr es t _ K r0 p0) as TS; cbv beta in TS; cut_mono TS end.

Lemma bad_with_count : forall n k m s, bad n (m s) -> bad n (with_count k m s).
Proof. unfold bad, with_count. intros. destruct (m s); auto. Qed.
Lemma bad_catch : forall n m s, bad n (m s) -> bad n (catch m s).
Proof. unfold bad, catch. intros. destruct (m s); auto. Qed.
Lemma with_count_ok : forall k m s s1, m s = Ok tt s1 -> with_count k m s = Ok false s1.
Proof. unfold with_count. intros. now rewrite H. Qed.
Lemma catch_ok : forall m s s1, m s = Ok tt s1 -> catch m s = Ok tt s1.
Proof. unfold catch. intros. now rewrite H. Qed.

Section Sim.
Variable q : bytes.
Variable fr : list nat.
Variable es : list perr.
Variable t : option nat.
Notation St r p := (PS r fr p es t).
Notation txt p := (skipn p q).
Notation ne := (length es).
Notation at_ := (at_ q fr es t).

Lemma assign_sim : forall f cl r p, sim ne (parse_assignments q f cl (St r p)) (r_assign f cl (txt p))
     (fun x _ s => at_ (r ++ enc_args (fst x)) (snd x) s).
Proof. intros. apply value_all. Qed.

Lemma directives_sim : forall f n r p, sim ne (directives_loop q f n (St r p)) (r_dirs f n (txt p))
  (fun x a s => a = (n + nlen (fst x), false) /\ at_ (r ++ enc_dirs (fst x)) (snd x) s).
Proof.
  induction f; intros; [exact I|]. cbn [directives_loop r_dirs].
  destruct (might_sim q fr es t r p) as (p1 & A & B). bnd A.
  destruct (skip_ign (txt p)) as [|c l]; cbn [hd_error].
  { apply bad_sim; [|mono]. apply bad_with_count. apply err_bad. }
  destruct (c =? cAT) eqn:AT; cbn [negb].
  2:{ unfold sim. cbn [ret fst snd]. split.
      - f_equal. unfold nlen. simpl. lia.
      - exists p1. cbn [enc_dirs flat_map]. rewrite app_nil_r. auto. }
  destruct (n =? 255). { apply bad_sim; [|mono]. apply bad_with_count. apply err_bad. }
  prim. insts. prim. sk B.
  match goal with |- sim _ ((crit <- with_count ?k ?m ;; @?K crit) ?s) _ _ => set (MM := m); set (KK := K) end.
  assert (MK : forall a, mono (KK a)) by (unfold KK; mono).
  assert (NB : bad ne (MM (St (r ++ [0; 100; 102]) (S p1))) -> bad ne ((crit <- with_count (n + 1) MM ;; KK crit) (St (r ++ [0; 100; 102]) (S p1))))
    by (intros; apply bad_bind; [now apply bad_with_count | auto]).
  pose proof (name_req q fr es t (r ++ [0; 100; 102]) (S p1)) as NR. rewrite Tl in NR.
  destruct (r_name l) as [[nm x]|].
  2:{ apply sim_none_intro. apply NB. unfold MM.
      match goal with |- bad _ ((n <- parse_name q ;; (if n =? 0 then ?e else @?k n)) _) => apply (NR _ e k) end;
        intros; [apply err_cur_bad|mono|mono]. }
  destruct NR as (p2 & A2 & B2 & C2).
  destruct (skip_ign x) as [|c2 l2] eqn:SX.
  { apply sim_none_intro. apply NB. unfold MM. bnd A2. rewrite C2.
    apply bad_bind; [|mono]. apply next_token_eof. now rewrite B2. }
  rewrite <- B2 in SX. destruct (next_token_ok q fr es t ((r ++ [0; 100; 102]) ++ nm) p2 _ _ SX) as (p3 & A3 & B3). sk B3.
  destruct (c2 =? cLPAR) eqn:LP; cbn [negb].
  - (* arguments *)
    assert (ME : MM (St (r ++ [0; 100; 102]) (S p1)) = parse_assignments q f cRPAR (St (r ++ [0; 100; 116] ++ nm) (S p3))).
    { unfold MM. bnd A2. rewrite C2. bnd A3. rewrite LP. cbn [negb].
      replace ((r ++ [0; 100; 102]) ++ nm) with ((r ++ [0; 100]) ++ 102 :: nm) by (now rewrite <- !app_assoc).
      rewrite b_store by (rewrite !app_length; simpl; lia). prim. rewrite <- app_assoc. reflexivity. }
    pose proof (assign_sim f cRPAR (r ++ [0; 100; 116] ++ nm) (S p3)) as HA. rewrite Tl0 in HA.
    destruct (r_assign f cRPAR l2) as [[fs x4]|].
    2:{ apply sim_none_intro. apply NB. rewrite ME. exact HA. }
    destruct (sim_some _ _ _ _ _ _ HA) as ([] & s & E & (p4 & E2 & E3)). cbn [fst snd] in *. subst s.
    rewrite (bind_eq _ _ _ _ _ _ _ (with_count_ok _ _ _ _ (eq_trans ME E))). unfold KK. cbv beta iota.
    pose proof (IHf (n + 1) ((r ++ [0; 100; 116] ++ nm) ++ enc_args fs) p4) as HD. rewrite E3 in HD.
    destruct (r_dirs f (n + 1) x4) as [[ds y]|]; [|exact HD].
    destruct (sim_some _ _ _ _ _ _ HD) as (a & s & F & (F1 & p5 & F2 & F3)). unfold sim. rewrite F. cbn [fst snd] in *. split.
    + rewrite F1, nlen_cons. f_equal. lia.
    + exists p5. split; auto. rewrite F2. f_equal. unfold enc_dirs, enc_directive. cbn [flat_map d_args d_name]. rewrite <- !app_assoc. reflexivity.
  - assert (ME : MM (St (r ++ [0; 100; 102]) (S p1)) = Ok tt (St ((r ++ [0; 100; 102]) ++ nm) p3)).
    { unfold MM. bnd A2. rewrite C2. bnd A3. rewrite LP. reflexivity. }
    rewrite (bind_eq _ _ _ _ _ _ _ (with_count_ok _ _ _ _ ME)). unfold KK. cbv beta iota.
    pose proof (IHf (n + 1) ((r ++ [0; 100; 102]) ++ nm) p3) as HD. rewrite B3 in HD.
    destruct (r_dirs f (n + 1) (c2 :: l2)) as [[ds y]|]; [|exact HD].
    destruct (sim_some _ _ _ _ _ _ HD) as (a & s & F & (F1 & p5 & F2 & F3)). unfold sim. rewrite F. cbn [fst snd] in *. split.
    + rewrite F1, nlen_cons. f_equal. lia.
    + exists p5. split; auto. rewrite F2. f_equal. unfold enc_dirs, enc_directive. cbn [flat_map d_args d_name]. rewrite <- !app_assoc. reflexivity.
Qed.

Lemma parse_directives_sim : forall f a b p cnt, cnt = length a -> sim ne (parse_directives q f cnt (St (a ++ 0 :: b) p)) (r_dirs f 0 (txt p))
  (fun x _ s => at_ (a ++ nlen (fst x) :: b ++ enc_dirs (fst x)) (snd x) s).
Proof.
  intros. unfold parse_directives, finally. pose proof (directives_sim f 0 (a ++ 0 :: b) p) as HD.
  destruct (r_dirs f 0 (txt p)) as [[ds x]|].
  - destruct (sim_some _ _ _ _ _ _ HD) as (a1 & s & F & (F1 & p5 & F2 & F3)). rewrite !bind_assoc. bnd F. subst a1 s.
    rewrite <- app_assoc. rewrite <- app_comm_cons. rewrite bind_assoc. rewrite b_store by auto. exists p5. cbn [fst snd]. auto.
  - apply sim_none_intro. rewrite bind_assoc. apply bad_bind; [exact HD|]. mono.
Qed.

(** an optional comma at a token *)
Lemma opt_comma_tok : forall B (k : N -> M B) r p c l, txt p = c :: l -> ign_charb c = false -> (forall c, mono (k c)) ->
  match sep (c :: l) with
  | [] => bad ne ((c <- opt_comma q c ;; k c) (St r p))
  | c' :: l' => exists p', (c <- opt_comma q c ;; k c) (St r p) = k c' (St r p') /\ txt p' = c' :: l'
  end.
Proof.
  intros. unfold sep. rewrite skip_ign_token by auto. unfold opt_comma. destruct (c =? cCOMMA).
  - rewrite bind_assoc. prim. sk H. rewrite <- Tl.
    apply tok_step. auto.
  - prim. eauto.
Qed.

(** the directives of a selection; the next character is given on *)
Lemma odirs_sim : forall B (k : N -> M B) f a b p c l cnt, cnt = length a -> txt p = c :: l -> ign_charb c = false -> (forall c, mono (k c)) ->
  match r_odirs f (c :: l) with
  | None => bad ne ((c <- (if c =? cAT then parse_directives q f cnt ;;; current_c q else ret c) ;; k c) (St (a ++ 0 :: b) p))
  | Some (ds, x) => exists c' x' p', x = c' :: x' /\ txt p' = x /\ ign_charb c' = false /\
      (c <- (if c =? cAT then parse_directives q f cnt ;;; current_c q else ret c) ;; k c) (St (a ++ 0 :: b) p)
      = k c' (St (a ++ nlen ds :: b ++ enc_dirs ds) p')
  end.
Proof.
  intros. unfold r_odirs. rewrite skip_ign_token by auto. destruct (c =? cAT) eqn:AT.
  - rewrite bind_assoc. pose proof (parse_directives_sim f a b p cnt H) as PD. rewrite H0 in PD.
    destruct (r_dirs f 0 (c :: l)) as [[ds x]|] eqn:RD.
    + destruct (sim_some _ _ _ _ _ _ PD) as ([] & s & E & (p1 & E2 & E3)). cbn [fst snd] in *. subst s. bnd E.
      apply r_dirs_sound0 in RD as [RD _]. apply g_dirs_token in RD as (c' & x' & X1 & X2). rewrite X1 in E3.
      erewrite (b_current) by exact E3. exists c', x', p1. rewrite X1. auto.
    + apply bad_bind; [exact PD|]. mono; auto.
  - prim. exists c, l, p. cbn [enc_dirs flat_map nlen length]. rewrite app_nil_r. auto.
Qed.

Lemma hash_ok : forall a w x y z b name c p from at_', at_' = length a -> from = length (a ++ w :: x :: y :: z :: b) ->
  hash_name from (length name) at_' (St (a ++ w :: x :: y :: z :: b ++ name ++ c) p) =
  Ok tt (St (a ++ le32 (fnv1 name) ++ b ++ name ++ c) p).
Proof.
  intros. unfold hash_name. cbn [p_res].
  assert (E : a ++ w :: x :: y :: z :: b ++ name ++ c = (a ++ w :: x :: y :: z :: b) ++ name ++ c) by (rewrite <- app_assoc; reflexivity).
  assert (F : firstn (length name) (skipn from (a ++ w :: x :: y :: z :: b ++ name ++ c)) = name).
  { rewrite E, skipn_app. subst from. rewrite skipn_all, Nat.sub_diag. cbn [app]. change (skipn 0 (name ++ c)) with (name ++ c).
    rewrite firstn_app, firstn_all, Nat.sub_diag. cbn [firstn]. now rewrite app_nil_r. }
  rewrite F. replace (_ <=? _)%nat with true.
  - now apply write32_ok.
  - symmetry. apply Nat.leb_le. rewrite E. subst from. rewrite (app_length (a ++ _)), (app_length name). lia.
Qed.

Lemma field_close : forall B (k : unit -> M B) r nd h body p,
  bind (write_len (length r + 11) 8) k (St (r ++ [0; 102; nd] ++ [0; 0; 0; 0] ++ le32 h ++ body) p)
  = k tt (St (r ++ [0; 102; nd] ++ le32 (nlen body) ++ le32 h ++ body) p).
Proof.
  intros. apply bind_eq. unfold write_len. prim.
  replace (r ++ [0; 102; nd] ++ [0; 0; 0; 0] ++ le32 h ++ body) with ((r ++ [0; 102; nd]) ++ 0 :: 0 :: 0 :: 0 :: le32 h ++ body) by (rewrite <- !app_assoc; reflexivity).
  rewrite write32_ok by (rewrite app_length; simpl; lia). rewrite <- app_assoc. do 6 f_equal.
  unfold nlen. f_equal. rewrite !app_length. simpl. lia.
Qed.
Lemma spread_close : forall B (k : unit -> M B) r i nd body p,
  bind (write_len (length r + 8) 4) k (St (r ++ [0; 115; i; nd] ++ [0; 0; 0; 0] ++ body) p)
  = k tt (St (r ++ [0; 115; i; nd] ++ le32 (nlen body) ++ body) p).
Proof.
  intros. apply bind_eq.
  replace (r ++ [0; 115; i; nd] ++ [0; 0; 0; 0] ++ body) with ((r ++ [0; 115; i; nd]) ++ 0 :: 0 :: 0 :: 0 :: body) by (rewrite <- !app_assoc; reflexivity).
  rewrite write_len_ok by (rewrite app_length; simpl; lia). rewrite <- app_assoc. reflexivity.
Qed.

(** behind a selection *)
Definition sel_tail (f : nat) (c : N) : M unit := c <- opt_comma q c ;; if c =? cRBR then advance else selection_loop q f.
Lemma mono_sel_tail : forall f c, mono (sel_tail f c). Proof. intros. unfold sel_tail. mono. Qed.
Hint Resolve mono_sel_tail : mono.

Definition Psel (f : nat) : Prop := forall r p, sim ne (selection_loop q f (St r p)) (r_sels f (txt p))
     (fun x _ s => at_ (r ++ enc_sels (fst x)) (snd x) s).
Definition Pset (f : nat) : Prop := forall r p, sim ne (parse_selection_set q f (St r p)) (r_selset f (txt p))
     (fun x _ s => at_ (r ++ enc_sels (fst x)) (snd x) s).

Lemma tail_sim : forall f, Psel f -> forall r s p c l, txt p = c :: l -> ign_charb c = false ->
  sim ne (sel_tail f c (St (r ++ enc_sel s) p))
    (match sep (c :: l) with
     | [] => None
     | c :: r => if c =? cRBR then Some ([s], r)
                 else match r_sels f (c :: r) with Some (ss, r) => Some (s :: ss, r) | None => None end
     end)
    (fun x _ s' => at_ (r ++ enc_sels (fst x)) (snd x) s').
Proof.
  intros f P r s p c l H H0. unfold sel_tail.
  match goal with |- sim _ ((c <- opt_comma q _ ;; @?K c) (St ?r0 ?p0)) _ _ => pose proof (opt_comma_tok _ K r0 p0 _ _ H H0) as TS; cbv beta in TS end.
  cut_mono TS. destruct (sep (c :: l)) as [|c' l']; [exact TS|]. destruct TS as (p1 & A & B). rewrite A. sk B.
  destruct (c' =? cRBR).
  - exists (S p1). cbn [fst snd enc_sels flat_map]. rewrite app_nil_r. auto.
  - pose proof (P (r ++ enc_sel s) p1) as HS. rewrite B in HS. destruct (r_sels f (c' :: l')) as [[ss y]|]; [|exact HS].
    destruct (sim_some _ _ _ _ _ _ HS) as ([] & s' & E & (p2 & E2 & E3)). unfold sim. rewrite E. exists p2. cbn [fst snd] in *.
    split; auto. rewrite E2. f_equal. unfold enc_sels. cbn [flat_map]. now rewrite <- app_assoc.
Qed.

Definition field_part (f : nat) (start_field count_at : nat) (alen : N) : M unit :=
  c <- next_token q ;;
  name_len_at <- res_len ;;
  append [0] ;;;
  c <- (if c =? cCOLON then
          advance ;;;
          next_token q ;;;
          nlen <- parse_name q ;;
          if nlen =? 0 then err q (msg_c "unexpected character, expected valid name char but got """ c """")
          else
            store name_len_at nlen ;;;
            c <- next_token q ;;
            hash_name (name_len_at + 1) (N.to_nat nlen) (start_field - 4) ;;; ret c
        else
          hash_name (start_field + 1) (N.to_nat alen) (start_field - 4) ;;; ret c) ;;
  c <- (if c =? cAT then parse_directives q f count_at ;;; current_c q else ret c) ;;
  c <- (if c =? cLPAR then
          advance ;;; next_token q ;;; parse_assignments q f cRPAR ;;; next_token q
        else ret c) ;;
  c <- (if c =? cLBR then
          advance ;;; parse_selection_set q f ;;; next_token q
        else ret c) ;;
  inst_end ;;;
  write_len start_field 8 ;;;
  sel_tail f c.

Definition args_part (f : nat) (c : N) : M N :=
  if c =? cLPAR then advance ;;; next_token q ;;; parse_assignments q f cRPAR ;;; next_token q else ret c.
Definition subs_part (f : nat) (c : N) : M N :=
  if c =? cLBR then advance ;;; parse_selection_set q f ;;; next_token q else ret c.
Lemma mono_args_part : forall f c, mono (args_part f c). Proof. intros. unfold args_part. mono. Qed.
Lemma mono_subs_part : forall f c, mono (subs_part f c). Proof. intros. unfold subs_part. mono. Qed.

Lemma args_sim : forall f r p c l, txt p = c :: l -> ign_charb c = false ->
  match r_opt_args f (c :: l) with
  | None => bad ne (args_part f c (St r p))
  | Some (args, x) => exists c' x' p', x = c' :: x' /\ txt p' = x /\ ign_charb c' = false /\
     args_part f c (St r p) = Ok c' (St (r ++ enc_opt_args args) p')
  end.
Proof.
  intros. unfold args_part, r_opt_args. destruct (c =? cLPAR).
  - prim. sk H. pose proof (tok_step q fr es t _ (fun _ => parse_assignments q f cRPAR;;; next_token q) r (S p)) as TS. cbv beta in TS. cut_mono TS.
    rewrite Tl in TS. destruct (skip_ign l) as [|c1 l1] eqn:SK.
    + replace (r_assign f cRPAR l) with (@None (list (bytes * value) * bytes)) by (destruct f; simpl; [|rewrite SK]; auto). exact TS.
    + destruct TS as (p1 & A & B). rewrite A. pose proof (assign_sim f cRPAR r p1) as HA.
      rewrite (r_assign_skip f cRPAR (txt p1) l) in HA by (rewrite B, SK; eapply skip_ign_again; eauto).
      destruct (r_assign f cRPAR l) as [[fs x]|].
      * destruct (sim_some _ _ _ _ _ _ HA) as ([] & s & E & (p2 & E2 & E3)). cbn [fst snd] in *. subst s. bnd E.
        destruct (skip_ign x) as [|c2 l2] eqn:SX.
        -- apply next_token_eof. now rewrite E3.
        -- rewrite <- E3 in SX. destruct (next_token_ok q fr es t (r ++ enc_args fs) p2 _ _ SX) as (p3 & A3 & B3).
           exists c2, l2, p3. repeat split; auto. eapply skip_ign_cons_inv; eauto.
      * apply bad_bind; [exact HA|mono].
  - exists c, l, p. cbn [enc_opt_args]. rewrite app_nil_r. auto.
Qed.
Lemma subs_sim : forall f, Pset f -> forall r p c l, txt p = c :: l -> ign_charb c = false ->
  match (if c =? cLBR then
           match r_selset f l with
           | None => None
           | Some (ss, l5) => match skip_ign l5 with [] => None | r => Some (ss, r) end
           end
         else Some ([], c :: l)) with
  | None => bad ne (subs_part f c (St r p))
  | Some (ss, x) => exists c' x' p', x = c' :: x' /\ txt p' = x /\ ign_charb c' = false /\
     subs_part f c (St r p) = Ok c' (St (r ++ enc_sels ss) p')
  end.
Proof.
  intros f P r p c l H H0. unfold subs_part. destruct (c =? cLBR).
  - prim. sk H. pose proof (P r (S p)) as HS. rewrite Tl in HS. destruct (r_selset f l) as [[ss x]|].
    + destruct (sim_some _ _ _ _ _ _ HS) as ([] & s & E & (p2 & E2 & E3)). cbn [fst snd] in *. subst s. bnd E.
      destruct (skip_ign x) as [|c2 l2] eqn:SX.
      * apply next_token_eof. now rewrite E3.
      * rewrite <- E3 in SX. destruct (next_token_ok q fr es t (r ++ enc_sels ss) p2 _ _ SX) as (p3 & A3 & B3).
        exists c2, l2, p3. repeat split; auto. eapply skip_ign_cons_inv; eauto.
    + apply bad_bind; [exact HS|mono].
  - exists c, l, p. cbn [enc_sels flat_map]. rewrite app_nil_r. auto.
Qed.

Lemma field_part_sim : forall f, Psel f -> Pset f -> forall r n1 l1 p, txt p = l1 -> (nlen n1 =? 0) = false ->
  sim ne (field_part f (length r + 11) (length r + 2) (nlen n1) (St (r ++ [0; 102; 0; 0; 0; 0; 0; 0; 0; 0; 0] ++ [nlen n1] ++ n1) p))
    (match (match (match skip_ign l1 with
                  | [] => None
                  | c :: r =>
                      if c =? cCOLON then
                        match r_name (skip_ign r) with
                        | None => None
                        | Some (n2, l3) => match skip_ign l3 with [] => None | l4 => Some (Some n1, n2, l4) end
                        end
                      else Some (None, n1, c :: r)
                  end) with
           | None => None
           | Some (al, n, l1) =>
              match r_odirs f l1 with
              | None => None
              | Some (ds, l2) =>
                  match r_opt_args f l2 with
                  | None => None
                  | Some (args, l3) =>
                      match l3 with
                      | [] => None
                      | c :: l4 =>
                          if c =? cLBR then
                            match r_selset f l4 with
                            | None => None
                            | Some (ss, l5) =>
                                match skip_ign l5 with
                                | [] => None
                                | r => Some (SField al n ds args ss, r)
                                end
                            end
                          else Some (SField al n ds args [], l3)
                      end
                  end
              end
           end) with
    | None => None
    | Some (s, l1) =>
        match sep l1 with
        | [] => None
        | c :: r => if c =? cRBR then Some ([s], r)
                    else match r_sels f (c :: r) with Some (ss, r) => Some (s :: ss, r) | None => None end
        end
    end) (fun x _ s => at_ (r ++ enc_sels (fst x)) (snd x) s).
Proof.
  intros f PL PT r n1 l1 p H NZ. unfold field_part.
  change (sim ne ((c <- next_token q;;
     name_len_at <- res_len;;
     append [0];;;
     c0 <- (if c =? cCOLON
      then advance;;; next_token q;;; nlen <- parse_name q;;
        (if nlen =? 0 then err q (msg_c "unexpected character, expected valid name char but got """ c """")
         else store name_len_at nlen;;; c0 <- next_token q;; hash_name (name_len_at + 1) (N.to_nat nlen) (length r + 11 - 4);;; ret c0)
      else hash_name (length r + 11 + 1) (N.to_nat (nlen n1)) (length r + 11 - 4);;; ret c);;
     c1 <- (if c0 =? cAT then parse_directives q f (length r + 2);;; current_c q else ret c0);;
     c2 <- args_part f c1 ;;
     c3 <- subs_part f c2 ;;
     inst_end;;; write_len (length r + 11) 8;;; sel_tail f c3)
    (St (r ++ [0; 102; 0; 0; 0; 0; 0; 0; 0; 0; 0] ++ [nlen n1] ++ n1) p))
    (match (match (match skip_ign l1 with
                  | [] => None
                  | c :: r =>
                      if c =? cCOLON then
                        match r_name (skip_ign r) with
                        | None => None
                        | Some (n2, l3) => match skip_ign l3 with [] => None | l4 => Some (Some n1, n2, l4) end
                        end
                      else Some (None, n1, c :: r)
                  end) with
           | None => None
           | Some (al, n, l1) =>
              match r_odirs f l1 with
              | None => None
              | Some (ds, l2) =>
                  match r_opt_args f l2 with
                  | None => None
                  | Some (args, l3) =>
                      match l3 with
                      | [] => None
                      | c :: l4 =>
                          if c =? cLBR then
                            match r_selset f l4 with
                            | None => None
                            | Some (ss, l5) =>
                                match skip_ign l5 with
                                | [] => None
                                | r => Some (SField al n ds args ss, r)
                                end
                            end
                          else Some (SField al n ds args [], l3)
                      end
                  end
              end
           end) with
    | None => None
    | Some (s, l1) =>
        match sep l1 with
        | [] => None
        | c :: r => if c =? cRBR then Some ([s], r)
                    else match r_sels f (c :: r) with Some (ss, r) => Some (s :: ss, r) | None => None end
        end
    end) (fun x _ s => at_ (r ++ enc_sels (fst x)) (snd x) s)).
  insts.
  (* what follows the names *)
  assert (T : forall al n c l p', txt p' = c :: l -> ign_charb c = false ->
    sim ne ((c1 <- (if c =? cAT then parse_directives q f (length r + 2);;; current_c q else ret c);;
     c2 <- args_part f c1 ;;
     c3 <- subs_part f c2 ;;
     append [0; 101];;; write_len (length r + 11) 8;;; sel_tail f c3)
     (St (r ++ [0; 102; 0] ++ [0; 0; 0; 0] ++ le32 (fnv1 n) ++ enc_names al n) p'))
     (match (match r_odirs f (c :: l) with
              | None => None
              | Some (ds, l2) =>
                  match r_opt_args f l2 with
                  | None => None
                  | Some (args, l3) =>
                      match l3 with
                      | [] => None
                      | c :: l4 =>
                          if c =? cLBR then
                            match r_selset f l4 with
                            | None => None
                            | Some (ss, l5) =>
                                match skip_ign l5 with
                                | [] => None
                                | r => Some (SField al n ds args ss, r)
                                end
                            end
                          else Some (SField al n ds args [], l3)
                      end
                  end
              end) with
      | None => None
      | Some (s, l1) =>
        match sep l1 with
        | [] => None
        | c :: r => if c =? cRBR then Some ([s], r)
                    else match r_sels f (c :: r) with Some (ss, r) => Some (s :: ss, r) | None => None end
        end
      end) (fun x _ s => at_ (r ++ enc_sels (fst x)) (snd x) s)).
  { intros al n c l p1 H1 H2.
    replace (r ++ [0; 102; 0] ++ [0; 0; 0; 0] ++ le32 (fnv1 n) ++ enc_names al n)
      with ((r ++ [0; 102]) ++ 0 :: ([0; 0; 0; 0] ++ le32 (fnv1 n) ++ enc_names al n)) by (rewrite <- !app_assoc; reflexivity).
    match goal with |- sim _ ((c1 <- (if _ then _ else _) ;; @?K c1) (PS (?a ++ 0 :: ?b) _ _ _ _)) _ _ =>
      pose proof (odirs_sim _ K f a b p1 c l (length r + 2)%nat ltac:(rewrite app_length; simpl; lia) H1 H2) as OD; cbv beta in OD end.
    assert (MO : forall c1, mono (c2 <- args_part f c1 ;; c3 <- subs_part f c2 ;;
       append [0; 101];;; write_len (length r + 11) 8;;; sel_tail f c3)).
    { mono. apply mono_args_part. apply mono_subs_part. }
    specialize (OD MO). destruct (r_odirs f (c :: l)) as [[ds x]|]; [|exact OD].
    destruct OD as (c2 & x2 & p2 & X1 & X2 & X3 & X4). rewrite X4. clear X4. rewrite X1 in X2 |- *.
    match goal with |- sim _ (_ (St ?r0 _)) _ _ => pose proof (args_sim f r0 p2 c2 x2 X2 X3) as AS end.
    destruct (r_opt_args f (c2 :: x2)) as [[args l3]|].
    2:{ apply bad_sim; [exact AS|mono]. apply mono_subs_part. }
    destruct AS as (c3 & x3 & p3 & Y1 & Y2 & Y3 & Y4). bnd Y4. clear Y4. rewrite Y1 in Y2 |- *.
    match goal with |- sim _ (_ (St ?r0 _)) _ _ => pose proof (subs_sim f PT r0 p3 c3 x3 Y2 Y3) as SS end.
    match type of SS with match ?E with _ => _ end => destruct E as [[ss xx]|] eqn:RS end.
    2:{ replace (if c3 =? cLBR then _ else _) with (@None (sel * bytes)).
        - apply bad_sim; [exact SS|mono].
        - destruct (c3 =? cLBR); [|discriminate]. destruct (r_selset f x3) as [[ss l5]|]; auto. destruct (skip_ign l5); [auto|discriminate]. }
    replace (if c3 =? cLBR then _ else _) with (Some (SField al n ds args ss, xx)).
    2:{ destruct (c3 =? cLBR); [|inversion RS; auto]. destruct (r_selset f x3) as [[ss' l5]|]; [|discriminate]. destruct (skip_ign l5); inversion RS; auto. }
    destruct SS as (c4 & x4 & p4 & Z1 & Z2 & Z3 & Z4). bnd Z4. clear Z4 RS. rewrite Z1 in Z2 |- *. prim.
    replace (((((r ++ [0; 102]) ++ nlen ds :: ([0; 0; 0; 0] ++ le32 (fnv1 n) ++ enc_names al n) ++ enc_dirs ds) ++ enc_opt_args args) ++ enc_sels ss) ++ [0; 101])
      with (r ++ [0; 102; nlen ds] ++ [0; 0; 0; 0] ++ le32 (fnv1 n) ++ (enc_names al n ++ enc_dirs ds ++ enc_opt_args args ++ enc_sels ss ++ [0; 101]))
      by (repeat rewrite <- ?app_assoc, <- ?app_comm_cons; reflexivity).
    rewrite field_close.
    match goal with |- sim _ (sel_tail f c4 (St ?r0 _)) _ _ => replace r0 with (r ++ enc_sel (SField al n ds args ss)) by reflexivity end.
    apply tail_sim; auto. }
  assert (MONO : forall c, mono (c1 <- (if c =? cAT then parse_directives q f (length r + 2);;; current_c q else ret c);;
     c2 <- args_part f c1 ;; c3 <- subs_part f c2 ;; append [0; 101];;; write_len (length r + 11) 8;;; sel_tail f c3)).
  { mono. apply mono_args_part. apply mono_subs_part. }
  match goal with |- sim _ ((c <- next_token q ;; @?K c) (St ?r0 ?p0)) _ _ => pose proof (tok_step q fr es t _ K r0 p0) as TS; cbv beta in TS end.
  match type of TS with ?P -> _ => let X := fresh in assert (X : P) by (mono; (apply mono_args_part || apply mono_subs_part)); specialize (TS X); clear X end.
  rewrite H in TS. destruct (skip_ign l1) as [|c l] eqn:SK; [exact TS|].
  destruct TS as (p1 & A & B). rewrite A. clear A. prim. sk B.
  destruct (c =? cCOLON) eqn:CO.
  - rewrite bind_assoc. prim. rewrite bind_assoc.
    match goal with |- sim _ ((c <- next_token q ;; @?K c) (St ?r0 ?p0)) _ _ => pose proof (tok_step q fr es t _ K r0 p0) as TS; cbv beta in TS end.
    match type of TS with ?P -> _ => let X := fresh in assert (X : P) by (mono; (apply mono_args_part || apply mono_subs_part)); specialize (TS X); clear X end.
    rewrite Tl in TS. destruct (skip_ign l) as [|c2 l2] eqn:SK2; [exact TS|].
    destruct TS as (p2 & A2 & B2). rewrite A2. clear A2.
    match goal with |- sim _ (_ (St ?r0 _)) _ _ => pose proof (name_req q fr es t r0 p2) as NR end. rewrite B2 in NR.
    destruct (r_name (c2 :: l2)) as [[n2 l3]|].
    2:{ apply bad_sim; [|mono; (apply mono_args_part || apply mono_subs_part)].
        match goal with |- bad _ ((n <- parse_name q ;; (if n =? 0 then ?e else @?k n)) _) => apply (NR _ e k) end; intros; [apply err_bad|mono|mono]. }
    rewrite bind_assoc.
    destruct NR as (p3 & A3 & B3 & C3). bnd A3. rewrite C3. rewrite bind_assoc.
    match goal with |- sim _ (_ (St ?r0 _)) _ _ => replace r0 with ((r ++ [0; 102; 0; 0; 0; 0; 0; 0; 0; 0; 0] ++ [nlen n1] ++ n1) ++ 0 :: n2)
      by (rewrite <- !app_assoc; reflexivity) end.
    rewrite b_store by reflexivity. rewrite bind_assoc.
    match goal with |- sim _ ((c <- next_token q ;; @?K c) (St ?r0 ?p0)) _ _ => pose proof (tok_step q fr es t _ K r0 p0) as TS; cbv beta in TS end.
    match type of TS with ?P -> _ => let X := fresh in assert (X : P) by (mono; (apply mono_args_part || apply mono_subs_part)); specialize (TS X); clear X end.
    rewrite B3 in TS. destruct (skip_ign l3) as [|c4 l4] eqn:SK4; [exact TS|].
    destruct TS as (p4 & A4 & B4). rewrite A4. clear A4. rewrite bind_assoc.
    match goal with |- sim _ (_ (St ?r0 _)) _ _ => replace r0 with ((r ++ [0; 102; 0; 0; 0; 0; 0]) ++ 0 :: 0 :: 0 :: 0 :: ([nlen n1] ++ n1 ++ [nlen n2]) ++ n2 ++ [])
      by (rewrite <- !app_assoc, app_nil_r; reflexivity) end.
    replace (N.to_nat (nlen n2)) with (length n2) by (unfold nlen; lia).
    erewrite bind_eq by (apply hash_ok; rewrite !app_length; simpl; rewrite ?app_length; simpl; lia).
    prim.
    match goal with |- sim _ (_ (St ?r0 _)) _ _ => replace r0 with (r ++ [0; 102; 0] ++ [0; 0; 0; 0] ++ le32 (fnv1 n2) ++ enc_names (Some n1) n2)
      by (unfold enc_names; rewrite <- !app_assoc, app_nil_r; reflexivity) end.
    apply T; auto. eapply skip_ign_cons_inv; eauto.
  - rewrite bind_assoc.
    match goal with |- sim _ (_ (St ?r0 _)) _ _ => replace r0 with ((r ++ [0; 102; 0; 0; 0; 0; 0]) ++ 0 :: 0 :: 0 :: 0 :: [nlen n1] ++ n1 ++ [0])
      by (rewrite <- !app_assoc; reflexivity) end.
    replace (N.to_nat (nlen n1)) with (length n1) by (unfold nlen; lia).
    erewrite bind_eq by (apply hash_ok; rewrite !app_length; simpl; rewrite ?app_length; simpl; lia).
    prim.
    match goal with |- sim _ (_ (St ?r0 _)) _ _ => replace r0 with (r ++ [0; 102; 0] ++ [0; 0; 0; 0] ++ le32 (fnv1 n1) ++ enc_names None n1)
      by (unfold enc_names; rewrite <- !app_assoc; reflexivity) end.
    apply T; auto. eapply skip_ign_cons_inv; eauto.
Qed.

Lemma drop12_ok : forall r x p, length x = 12%nat -> drop12 (St (r ++ x) p) = Ok tt (St r p).
Proof.
  intros. unfold drop12, set_res. cbn [p_res p_frags p_pos p_errs p_tgt]. rewrite app_length.
  replace (12 <=? _)%nat with true by (symmetry; apply Nat.leb_le; lia).
  replace (length r + length x - 12)%nat with (length r + 0)%nat by lia. rewrite firstn_app_2. cbn [firstn]. now rewrite app_nil_r.
Qed.

(** a required name, checked behind the next token *)
Lemma name_late : forall r p, r_name (txt p) = None -> forall B (e : N -> M B) (k : N -> N -> M B),
  (forall c r p, bad ne (e c (St r p))) -> (forall n c, mono (k n c)) -> (forall c, mono (e c)) ->
  bad ne ((n <- parse_name q ;; c <- next_token q ;; if n =? 0 then e c else k n c) (St r p)).
Proof.
  intros. destruct (txt p) as [|c l] eqn:E.
  - apply bad_bind; [|mono; auto]. unfold parse_name. apply bad_bind; [now apply next_char_eof | mono].
  - destruct (letterb c) eqn:L.
    + pose proof (name_sim q fr es t r _ _ _ E L) as N. rewrite H in N. apply bad_bind; [auto|mono; auto].
    + bnd (name_none q fr es t r _ _ _ E L). simpl. 
      pose proof (tok_step q fr es t _ e r p H2) as TS. destruct (skip_ign (txt p)); [exact TS|]. destruct TS as (p' & A & _).
      rewrite A. auto.
Qed.

Definition spread_part (f : nat) : M unit :=
  next_token q ;;;
  inline <- matches_word1 q "on" ;;
  (if inline : bool then next_token q ;;; ret tt else ret tt) ;;;
  inst_spread inline ;;;
  start_fragment <- res_len ;;
  let count_at := (start_fragment - 5)%nat in
  nlen <- parse_name q ;;
  c <- next_token q ;;
  if nlen =? 0 then
    if inline : bool then err q (msg_c "expected fragment type name but got char: """ c """")
    else err q (msg_c "expected fragment name but got char: """ c """")
  else
    c <- (if c =? cAT then parse_directives q f count_at ;;; current_c q else ret c) ;;
    c <- (if inline : bool then
            if negb (c =? cLBR) then
              err q (msg_c "expected selection set open (""{"") on inline fragment but got """ c """")
            else
              advance ;;;
              catch (parse_selection_set q f) ;;;
              inst_end ;;;
              next_token q
          else ret c) ;;
    write_len start_fragment 4 ;;;
    sel_tail f c.

Lemma spread_sim : forall f, Psel f -> Pset f -> forall r p l1, txt p = l1 ->
  sim ne (spread_part f (St r p))
    (match (match r_word (bs "on") (skip_ign l1) with
                  | Some l2 =>
                      match r_name (skip_ign l2) with
                      | None => None
                      | Some (n, l3) =>
                          match r_odirs f l3 with
                          | None => None
                          | Some (ds, l4) =>
                              match l4 with
                              | [] => None
                              | c :: l5 =>
                                  if c =? cLBR then
                                    match r_selset f l5 with
                                    | None => None
                                    | Some (ss, l6) =>
                                        match skip_ign l6 with
                                        | [] => None
                                        | r => Some (SInline n ds ss, r)
                                        end
                                    end
                                  else None
                              end
                          end
                      end
                  | None =>
                      match r_name (skip_ign l1) with
                      | None => None
                      | Some (n, l3) =>
                          match r_odirs f l3 with
                          | None => None
                          | Some (ds, l4) => Some (SSpread n ds, l4)
                          end
                      end
                  end) with
    | None => None
    | Some (s, l1) =>
        match sep l1 with
        | [] => None
        | c :: r => if c =? cRBR then Some ([s], r)
                    else match r_sels f (c :: r) with Some (ss, r) => Some (s :: ss, r) | None => None end
        end
    end) (fun x _ s => at_ (r ++ enc_sels (fst x)) (snd x) s).
Proof.
  intros f PL PT r p l1 H. unfold spread_part. insts. tok_st. rewrite H in TS.
  destruct (skip_ign l1) as [|c l] eqn:SK; [exact TS|]. destruct TS as (p1 & A & B). rewrite A. clear A.
  pose proof (word1_sim q fr es t "on" r p1 ltac:(discriminate)) as W. rewrite B in W.
  destruct (r_word (bs "on") (c :: l)) as [l2|].
  - destruct W as (p2 & A2 & B2). bnd A2. rewrite bind_assoc.
    tok_st. rewrite B2 in TS. destruct (skip_ign l2) as [|c3 l3] eqn:SK2; [exact TS|]. destruct TS as (p3 & A3 & B3). rewrite A3. clear A3. prim.
    pose proof (name_req q fr es t (r ++ [0; 115; 116; 0; 0; 0; 0; 0]) p3) as NR. pose proof (name_late (r ++ [0; 115; 116; 0; 0; 0; 0; 0]) p3) as NL.
    rewrite B3 in NR, NL. destruct (r_name (c3 :: l3)) as [[nm l4]|].
    2:{ apply sim_none_intro.
        match goal with |- bad _ ((n <- parse_name q ;; c <- next_token q ;; (if n =? 0 then @?e c else @?k n c)) _) => apply (NL eq_refl _ e k) end;
        intros; [apply err_bad|mono|mono]. }
    clear NL. destruct NR as (p4 & A4 & B4 & C4). bnd A4. rewrite C4.
    tok_st. rewrite B4 in TS. unfold r_odirs. destruct (skip_ign l4) as [|c5 l5] eqn:SK4; [exact TS|].
    destruct TS as (p5 & A5 & B5). rewrite A5. clear A5.
    assert (I5 : ign_charb c5 = false) by (eapply skip_ign_cons_inv; eauto).
    replace ((r ++ [0; 115; 116; 0; 0; 0; 0; 0]) ++ nm) with ((r ++ [0; 115; 116]) ++ 0 :: ([0; 0; 0; 0] ++ nm)) by (rewrite <- !app_assoc; reflexivity).
    match goal with |- sim _ ((c1 <- (if _ then _ else _) ;; @?K c1) (PS (?a ++ 0 :: ?b) _ _ _ _)) _ _ =>
      pose proof (odirs_sim _ K f a b p5 c5 l5 (length (r ++ ([0; 115; 116; 0; 0; 0; 0; 0])%N) - 5)%nat ltac:(rewrite !app_length; simpl; lia) B5 I5) as OD; cbv beta in OD end.
    cut_mono OD. unfold r_odirs in OD. rewrite (skip_ign_token c5 l5) in OD by auto.
    rewrite (r_dirs_skip f 0 l4 (c5 :: l5)) by (rewrite SK4; symmetry; now apply skip_ign_token).
    match type of OD with match ?E with _ => _ end => destruct E as [[ds x]|]; [|exact OD] end.
    destruct OD as (c6 & x6 & p6 & X1 & X2 & X3 & X4). rewrite X4. clear X4. rewrite X1 in X2 |- *. sk X2.
    destruct (c6 =? cLBR); cbn [negb].
    2:{ apply bad_sim; [apply err_bad|mono]. }
    rewrite bind_assoc. prim. rewrite bind_assoc.
    match goal with |- sim _ (bind _ _ (St ?r0 _)) _ _ => pose proof (PT r0 (S p6)) as HS end. rewrite Tl in HS.
    destruct (r_selset f x6) as [[ss x7]|].
    2:{ apply bad_sim; [now apply bad_catch|mono]. }
    destruct (sim_some _ _ _ _ _ _ HS) as ([] & s & E & (p7 & E2 & E3)). cbn [fst snd] in *. subst s.
    bnd (catch_ok _ _ _ E). rewrite bind_assoc. prim. tok_st. rewrite E3 in TS. destruct (skip_ign x7) as [|c8 x8] eqn:SK7; [exact TS|].
    destruct TS as (p8 & A8 & B8). rewrite A8.
    match goal with |- sim _ (bind _ _ (St ?r0 _)) _ _ => replace r0 with (r ++ [0; 115; 116; nlen ds] ++ [0; 0; 0; 0] ++ (nm ++ enc_dirs ds ++ enc_sels ss ++ [0; 101]))
      by (repeat rewrite <- ?app_assoc, <- ?app_comm_cons; reflexivity) end.
    replace (length (r ++ [0; 115; 116; 0; 0; 0; 0; 0])) with (length r + 8)%nat by (rewrite app_length; reflexivity).
    rewrite spread_close.
    match goal with |- sim _ (sel_tail f c8 (St ?r0 _)) _ _ => replace r0 with (r ++ enc_sel (SInline nm ds ss)) by reflexivity end.
    apply tail_sim; auto. eapply skip_ign_cons_inv; eauto.
  - bnd W. prim.
    pose proof (name_req q fr es t (r ++ [0; 115; 102; 0; 0; 0; 0; 0]) p1) as NR. pose proof (name_late (r ++ [0; 115; 102; 0; 0; 0; 0; 0]) p1) as NL.
    rewrite B in NR, NL. destruct (r_name (c :: l)) as [[nm l4]|].
    2:{ apply sim_none_intro.
        match goal with |- bad _ ((n <- parse_name q ;; c <- next_token q ;; (if n =? 0 then @?e c else @?k n c)) _) => apply (NL eq_refl _ e k) end;
        intros; [apply err_bad|mono|mono]. }
    clear NL. destruct NR as (p4 & A4 & B4 & C4). bnd A4. rewrite C4.
    tok_st. rewrite B4 in TS. unfold r_odirs. destruct (skip_ign l4) as [|c5 l5] eqn:SK4; [exact TS|].
    destruct TS as (p5 & A5 & B5). rewrite A5. clear A5.
    assert (I5 : ign_charb c5 = false) by (eapply skip_ign_cons_inv; eauto).
    replace ((r ++ [0; 115; 102; 0; 0; 0; 0; 0]) ++ nm) with ((r ++ [0; 115; 102]) ++ 0 :: ([0; 0; 0; 0] ++ nm)) by (rewrite <- !app_assoc; reflexivity).
    match goal with |- sim _ ((c1 <- (if _ then _ else _) ;; @?K c1) (PS (?a ++ 0 :: ?b) _ _ _ _)) _ _ =>
      pose proof (odirs_sim _ K f a b p5 c5 l5 (length (r ++ ([0; 115; 102; 0; 0; 0; 0; 0])%N) - 5)%nat ltac:(rewrite !app_length; simpl; lia) B5 I5) as OD; cbv beta in OD end.
    cut_mono OD. unfold r_odirs in OD. rewrite (skip_ign_token c5 l5) in OD by auto.
    rewrite (r_dirs_skip f 0 l4 (c5 :: l5)) by (rewrite SK4; symmetry; now apply skip_ign_token).
    match type of OD with match ?E with _ => _ end => destruct E as [[ds x]|]; [|exact OD] end.
    destruct OD as (c6 & x6 & p6 & X1 & X2 & X3 & X4). rewrite X4. clear X4. rewrite X1 in X2 |- *. prim.
    match goal with |- sim _ (bind _ _ (St ?r0 _)) _ _ => replace r0 with (r ++ [0; 115; 102; nlen ds] ++ [0; 0; 0; 0] ++ (nm ++ enc_dirs ds))
      by (repeat rewrite <- ?app_assoc, <- ?app_comm_cons; reflexivity) end.
    replace (length (r ++ [0; 115; 102; 0; 0; 0; 0; 0])) with (length r + 8)%nat by (rewrite app_length; reflexivity).
    rewrite spread_close.
    match goal with |- sim _ (sel_tail f c6 (St ?r0 _)) _ _ => replace r0 with (r ++ enc_sel (SSpread nm ds)) by reflexivity end.
    apply tail_sim; auto.
Qed.

Lemma selection_all : forall f, Pset f /\ Psel f.
Proof.
  induction f as [|f (PT & PL)]; [split; intros r p; exact I|]. split; intros r p.
  - cbn [parse_selection_set selection_loop r_selset r_sels]. fold (parse_selection_set q) (selection_loop q). tok_st.
    destruct (skip_ign (txt p)) as [|c l]; [exact TS|]. destruct TS as (p1 & A & B). rewrite A. sk B.
    destruct (c =? cRBR).
    + exists (S p1). cbn [fst snd enc_sels flat_map]. rewrite app_nil_r. auto.
    + pose proof (PL r p1) as X. now rewrite B in X.
  - cbn [parse_selection_set selection_loop r_selset r_sels]. fold (parse_selection_set q) (selection_loop q). fold r_selset r_sels. insts. prim.
    replace ((r ++ [0; 102; 0; 0; 0; 0; 0; 0; 0; 0; 0]) ++ [0]) with (r ++ [0; 102; 0; 0; 0; 0; 0; 0; 0; 0; 0; 0]) by (rewrite <- app_assoc; reflexivity).
    assert (LN : length (r ++ [0; 102; 0; 0; 0; 0; 0; 0; 0; 0; 0]) = (length r + 11)%nat) by (rewrite app_length; reflexivity).
    rewrite LN.
    destruct (txt p) as [|c l] eqn:T.
    { apply bad_sim; [|mono]. unfold parse_name. apply bad_bind; [now apply next_char_eof | mono]. }
    destruct (letterb c) eqn:L.
    + pose proof (name_sim q fr es t (r ++ [0; 102; 0; 0; 0; 0; 0; 0; 0; 0; 0; 0]) _ _ _ T L) as NS. unfold r_alias.
      destruct (r_name (c :: l)) as [[n1 l1]|].
      2:{ apply bad_sim; [exact NS|mono]. }
      destruct NS as (p1 & A1 & B1 & C1). bnd A1.
      replace ((r ++ [0; 102; 0; 0; 0; 0; 0; 0; 0; 0; 0; 0]) ++ n1) with ((r ++ [0; 102; 0; 0; 0; 0; 0; 0; 0; 0; 0]) ++ 0 :: n1) by (rewrite <- !app_assoc; reflexivity).
      rewrite b_store by auto. rewrite C1.
      replace ((r ++ [0; 102; 0; 0; 0; 0; 0; 0; 0; 0; 0]) ++ nlen n1 :: n1) with (r ++ [0; 102; 0; 0; 0; 0; 0; 0; 0; 0; 0] ++ [nlen n1] ++ n1) by (rewrite <- !app_assoc; reflexivity).
      replace (length r + 11 - 9)%nat with (length r + 2)%nat by lia.
      pose proof (field_part_sim f PL PT r n1 l1 p1 B1 C1) as FS. unfold field_part, inst_end, sel_tail in FS. exact FS.
    + bnd (name_none q fr es t (r ++ [0; 102; 0; 0; 0; 0; 0; 0; 0; 0; 0; 0]) _ _ _ T L).
      replace (r ++ [0; 102; 0; 0; 0; 0; 0; 0; 0; 0; 0; 0]) with ((r ++ [0; 102; 0; 0; 0; 0; 0; 0; 0; 0; 0]) ++ 0 :: []) by (rewrite <- !app_assoc; reflexivity).
      rewrite b_store by auto. cbn [N.eqb].
      rewrite <- app_assoc. erewrite bind_eq by (apply drop12_ok; reflexivity).
      pose proof (matches1_sim q fr es t "..." r p ltac:(discriminate)) as MS. rewrite T in MS.
      destruct (strip (bs "...") (c :: l)) as [l1|].
      2:{ bnd MS. apply sim_none_intro. apply err_cur_bad. }
      destruct MS as (p1 & A1 & B1). bnd A1.
      pose proof (spread_sim f PL PT r p1 l1 B1) as SS. unfold spread_part, inst_end, inst_spread, sel_tail in SS. exact SS.
Qed.
End Sim.
