(** * The parser model follows the reference parser: definitions and documents (proofs) *)
From Coq Require Import String Arith NArith Bool Lia ZifyBool ZifyN ZifyNat List.
From Verif Require Import Base ParserModel Ast Grammar RefParser RefLemmas RefGrammar ParserSafe ParserMono SimBase SimLex SimStr SimVal SimSel.
Import ListNotations.
Open Scope N_scope.
Arguments skipn : simpl never.

Lemma r_opargs_skip : forall f l l', skip_ign l = skip_ign l' -> r_opargs f l = r_opargs f l'.
Proof. destruct f; auto. intros. cbn [r_opargs]. now rewrite (sep_skip l l'). Qed.

Section Sim.
Variable q : bytes.
Variable fr : list nat.
Variable es : list perr.
Variable t : option nat.
Notation St r p := (PS r fr p es t).
Notation txt p := (skipn p q).
Notation ne := (length es).
Notation at_ := (at_ q fr es t).

Lemma type_sim : forall f r p c l, txt p = c :: l -> sim ne (parse_type q f c (St r p)) (r_type f (c :: l))
  (fun x _ s => at_ (r ++ enc_type (fst x)) (snd x) s).
Proof.
  induction f; intros r p c l H; [exact I|]. cbn [parse_type r_type]. prim. destruct (c =? cLBRK).
  - prim. sk H. tok_st. rewrite Tl in TS. destruct (skip_ign l) as [|c1 l1].
    { destruct f; exact TS. }
    destruct TS as (p1 & A & B). rewrite A. clear A. pose proof (IHf (r ++ [108]) p1 c1 l1 B) as IH.
    destruct (r_type f (c1 :: l1)) as [[ty l2]|]; [|apply bad_sim; [exact IH|mono]].
    destruct (sim_some _ _ _ _ _ _ IH) as ([] & s & E & (p2 & E2 & E3)). cbn [fst snd] in *. subst s. bnd E.
    tok_st. rewrite E3 in TS. destruct (skip_ign l2) as [|c3 l3]; [exact TS|].
    destruct TS as (p3 & A & B3). rewrite A. clear A. sk B3. destruct (c3 =? cRBRK); cbn [negb].
    2:{ destruct l3; apply sim_none_intro; apply err_bad. }
    prim. destruct l3 as [|c4 l4].
    { apply bad_sim; [now apply next_char_eof|mono]. }
    erewrite b_next_char by exact Tl0. cbv beta iota. sk Tl0. destruct (c4 =? cBANG).
    + rewrite <- app_assoc. cbn [app]. rewrite b_store by auto. exists (S (S p3)). cbn [fst snd enc_type]. auto.
    + exists (S p3). cbn [fst snd enc_type]. rewrite <- app_assoc. cbn [app]. auto.
  - prim. pose proof (name_req q fr es t (r ++ [110]) p) as NR. rewrite H in NR.
    destruct (r_name (c :: l)) as [[n l2]|].
    2:{ apply sim_none_intro. match goal with |- bad _ ((n <- parse_name q ;; (if n =? 0 then ?e else @?k n)) _) => apply (NR _ e k) end;
        intros; [apply err_cur_bad|mono|mono]. }
    destruct NR as (p1 & A1 & B1 & C1). bnd A1. rewrite C1. tok_st. rewrite B1 in TS. destruct (skip_ign l2) as [|c3 l3]; [exact TS|].
    destruct TS as (p3 & A & B3). rewrite A. clear A. sk B3. rewrite <- app_assoc. cbn [app]. destruct (c3 =? cBANG).
    + rewrite b_store by auto. exists (S p3). cbn [fst snd enc_type]. auto.
    + exists p3. cbn [fst snd enc_type]. auto.
Qed.

Lemma oparg_sim : forall f r p, sim ne (parse_operator_arg q f (St r p)) (r_oparg f (txt p))
  (fun x _ s => exists p', s = St (r ++ enc_oparg (fst x)) p' /\ skip_ign (txt p') = skip_ign (snd x)).
Proof.
  intros. unfold parse_operator_arg, r_oparg, inst_operation_arg. prim. rewrite bind_assoc. prim. rewrite bind_assoc. prim.
  pose proof (name_req q fr es t (r ++ [0; 97; 0; 0; 0; 0]) p) as NR. destruct (r_name (txt p)) as [[n l2]|].
  2:{ apply sim_none_intro. match goal with |- bad _ ((n <- parse_name q ;; (if n =? 0 then ?e else @?k n)) _) => apply (NR _ e k) end;
        intros; [apply err_cur_bad|mono|mono]. }
  destruct NR as (p1 & A1 & B1 & C1). bnd A1. rewrite C1. tok_st. rewrite B1 in TS. destruct (skip_ign l2) as [|c3 l3]; [exact TS|].
  destruct TS as (p3 & A & B3). rewrite A. clear A. sk B3. destruct (c3 =? cCOLON); cbn [negb].
  2:{ apply sim_none_intro. apply err_cur_bad. }
  prim. tok_st. rewrite Tl in TS. destruct (skip_ign l3) as [|c4 l4].
  { destruct f; exact TS. }
  destruct TS as (p4 & A & B4). rewrite A. clear A.
  match goal with |- sim _ (bind _ _ (St ?r0 _)) _ _ => pose proof (type_sim f r0 p4 c4 l4 B4) as HT end.
  destruct (r_type f (c4 :: l4)) as [[ty l5]|]; [|apply bad_sim; [exact HT|mono]].
  destruct (sim_some _ _ _ _ _ _ HT) as ([] & s & E & (p5 & E2 & E3)). cbn [fst snd] in *. subst s. bnd E. prim.
  tok_st. rewrite E3 in TS. unfold r_default. destruct (skip_ign l5) as [|c6 l6] eqn:SK5; [exact TS|].
  destruct TS as (p6 & A & B6). rewrite A. clear A. sk B6. destruct (c6 =? cEQ).
  - rewrite bind_assoc. prim. rewrite bind_assoc. prim. rewrite bind_assoc. tok_st. rewrite Tl0 in TS.
    destruct (skip_ign l6) as [|c7 l7] eqn:SK6.
    { replace (r_value f l6) with (@None (value * bytes)) by (destruct f; simpl; [|rewrite SK6]; auto). exact TS. }
    destruct TS as (p7 & A & B7). rewrite A. clear A.
    match goal with |- sim _ (bind _ _ (St ?r0 _)) _ _ => pose proof (proj1 (value_all q fr es t f) r0 p7) as HV end.
    rewrite (r_value_skip f (txt p7) l6) in HV by (rewrite B7, SK6; eapply skip_ign_again; eauto).
    destruct (r_value f l6) as [[v l8]|]; [|apply bad_sim; [exact HV|mono]].
    destruct (sim_some _ _ _ _ _ _ HV) as ([] & s & E4 & (p8 & E5 & E6)). subst s. bnd E4. prim.
    match goal with |- sim _ (_ (St ?r0 _)) _ _ => replace r0 with ((r ++ [0; 97]) ++ 0 :: 0 :: 0 :: 0 :: (n ++ [0] ++ enc_type ty ++ [0] ++ 116 :: enc_value v))
      by (repeat rewrite <- ?app_assoc, <- ?app_comm_cons; reflexivity) end.
    unfold sim. rewrite write32_ok by (rewrite !app_length; simpl; lia).
    exists p8. split; auto. cbn [fst snd]. f_equal. unfold enc_oparg. cbn [oa_name oa_type oa_default]. rewrite <- app_assoc. do 4 f_equal.
    unfold nlen. repeat (rewrite !app_length; simpl). lia.
  - rewrite b_append. prim.
    match goal with |- sim _ (_ (St ?r0 _)) _ _ => replace r0 with ((r ++ [0; 97]) ++ 0 :: 0 :: 0 :: 0 :: (n ++ [0] ++ enc_type ty ++ [0] ++ [102]))
      by (repeat rewrite <- ?app_assoc, <- ?app_comm_cons; reflexivity) end.
    unfold sim. rewrite write32_ok by (rewrite !app_length; simpl; lia).
    exists p6. cbn [fst snd]. split; [|now rewrite B6]. f_equal. unfold enc_oparg. cbn [oa_name oa_type oa_default]. rewrite <- app_assoc. do 4 f_equal.
    unfold nlen. repeat (rewrite !app_length; simpl). lia.
Qed.

Lemma opargs_sim : forall f r p, sim ne (operator_args_loop q f (St r p)) (r_opargs f (txt p))
  (fun x _ s => at_ (r ++ flat_map enc_oparg (fst x) ++ [0; 101]) (snd x) s).
Proof.
  induction f; intros r p; [exact I|]. cbn [operator_args_loop r_opargs]. insts.
  match goal with |- sim _ ((c <- next_token q ;; c0 <- opt_comma q c ;; @?K c0) (St ?r0 ?p0)) _ _ => pose proof (sep_step q fr es t _ K r0 p0) as TS; cbv beta in TS end.
  cut_mono TS. unfold opt_comma. destruct (sep (txt p)) as [|c l]; [exact TS|]. destruct TS as (p1 & A & B). rewrite A. clear A. sk B.
  destruct (c =? cRPAR).
  - prim. exists (S p1). cbn [fst snd flat_map app]. auto.
  - destruct (c =? cDOLLAR); cbn [negb].
    2:{ apply sim_none_intro. apply err_bad. }
    prim. pose proof (oparg_sim f r (S p1)) as HO. rewrite Tl in HO. destruct (r_oparg f l) as [[a l2]|].
    2:{ apply bad_sim; [exact HO|mono]. }
    destruct (sim_some _ _ _ _ _ _ HO) as ([] & s & E & (p2 & E2 & E3)). cbn [fst snd] in *. subst s. bnd E.
    pose proof (IHf (r ++ enc_oparg a) p2) as HR. rewrite (r_opargs_skip _ _ _ E3) in HR.
    destruct (r_opargs f l2) as [[aa x]|]; [|exact HR].
    destruct (sim_some _ _ _ _ _ _ HR) as ([] & s & E4 & (p3 & E5 & E6)). unfold sim. rewrite E4. exists p3. split; auto. rewrite E5.
    cbn [fst flat_map]. now rewrite <- !app_assoc.
Qed.
End Sim.

Section Doc.
Variable q : bytes.
Variable target : option bytes.
Variable es : list perr.
Notation txt p := (skipn p q).
Notation ne := (length es).

Lemma op_selectedE : forall k n a ds ss, op_selected target (DOp k n a ds ss) =
  if has_target target then match n, target with _ :: _, Some tg => beqb n tg | _, _ => false end else true.
Proof.
  intros. unfold op_selected, has_target. destruct target as [[|x tg]|]; auto.
  destruct (bytes_eq_dec n (x :: tg)) as [->|NE].
  - now rewrite beqb_refl.
  - destruct n; auto. symmetry. now apply beqb_neq.
Qed.

Definition kind_of (kw : nat) : opkind := match kw with O => OpQuery | S O => OpMutation | _ => OpSubscription end.

Lemma op_header_sim : forall f kw r fr t p, sim ne (parse_operation_header q target f (length r) kw (PS r fr p es t))
  (match r_opname (skip_ign (txt p)) with
   | None => None
   | Some (n, l1) =>
      match r_opt_opargs f l1 with
      | None => None
      | Some (args, l2) =>
          match r_dirs f 0 l2 with
          | None => None
          | Some (ds, l3) => match l3 with [] => None | c :: l4 => if c =? cLBR then Some (n, args, ds, l4) else None end
          end
      end
   end)
  (fun x _ s => let '(n, args, ds, l4) := x in exists p',
     s = PS (r ++ [0; 111; kind_byte (kind_of kw); (match args with None => 102 | Some _ => 116 end); nlen ds] ++ n ++ enc_opargs args ++ enc_dirs ds) fr p' es
          (if op_selected target (DOp (kind_of kw) n args ds []) then Some (length r) else t)
     /\ txt (S p') = l4).
Proof.
  intros. unfold parse_operation_header, parse_operator_args. insts.
  set (t1 := if has_target target then t else Some (length r)).
  match goal with |- sim _ ((_ <- _ ;; ?K) _) _ _ => 
    replace ((_ <- (if negb (has_target target) then set_target (length r) else ret tt) ;; K) (PS r fr p es t)) with (K (PS r fr p es t1)) by (unfold t1; destruct (has_target target); reflexivity) end.
  replace (match kw with 0%nat => 113 | 1%nat => 109 | _ => 115 end) with (kind_byte (kind_of kw)) by (destruct kw as [|[|]]; reflexivity).
  set (kb := kind_byte (kind_of kw)). prim.
  match goal with |- sim _ ((c <- next_token q ;; @?K c) (PS ?r0 ?fr ?p0 ?es ?t)) _ _ =>
    pose proof (tok_step q fr es t _ K r0 p0) as TS; cbv beta in TS; cut_mono TS end.
  destruct (skip_ign (txt p)) as [|c l]; [exact TS|]. destruct TS as (p1 & A & B). rewrite A. clear A. prim. sk B.
  assert (NM : match r_opname (c :: l) with
    | None => bad ne (parse_name q (PS (r ++ [0; 111; kb; 102; 0]) fr p1 es t1))
    | Some (n, l1) => exists z p2, parse_name q (PS (r ++ [0; 111; kb; 102; 0]) fr p1 es t1) = Ok z (PS ((r ++ [0; 111; kb; 102; 0]) ++ n) fr p2 es t1) /\ txt p2 = l1
    end).
  { unfold r_opname. destruct (letterb c) eqn:L.
    - pose proof (name_sim q fr es t1 (r ++ [0; 111; kb; 102; 0]) _ _ _ B L) as NS. destruct (r_name (c :: l)) as [[n x]|]; auto.
      destruct NS as (p2 & A2 & B2 & _). eauto.
    - exists 0, p1. rewrite app_nil_r. split; [eapply name_none; eauto|auto]. }
  destruct (r_opname (c :: l)) as [[n l1]|]; [|apply bad_sim; [exact NM|mono]].
  destruct NM as (z & p2 & A2 & B2). bnd A2.
  assert (RF : res_from (length (r ++ [0; 111; kb; 102; 0])) (PS ((r ++ [0; 111; kb; 102; 0]) ++ n) fr p2 es t1) = Ok n (PS ((r ++ [0; 111; kb; 102; 0]) ++ n) fr p2 es t1)).
  { unfold res_from. cbn [p_res]. rewrite skipn_app, skipn_all, Nat.sub_diag. reflexivity. }
  bnd RF. clear RF.
  set (t2 := if op_selected target (DOp (kind_of kw) n None [] []) then Some (length r) else t).
  match goal with |- sim _ ((_ <- _ ;; ?K) ?s) _ _ => 
    match goal with |- sim _ ?T _ _ => replace T with (K (PS ((r ++ [0; 111; kb; 102; 0]) ++ n) fr p2 es t2)) end end.
  2:{ unfold t2, t1. rewrite op_selectedE. destruct (has_target target); cbn [negb andb].
      - destruct n as [|x n]; [reflexivity|]. destruct target as [tg|]; [|reflexivity]. destruct (beqb (x :: n) tg); reflexivity.
      - destruct n as [|x n]; [reflexivity|]. destruct target; reflexivity. }
  match goal with |- sim _ ((c <- next_token q ;; @?K c) (PS ?r0 ?fr ?p0 ?es ?t)) _ _ =>
    pose proof (tok_step q fr es t _ K r0 p0) as TS; cbv beta in TS; cut_mono TS end.
  rewrite B2 in TS. unfold r_opt_opargs. destruct (skip_ign l1) as [|c3 l3] eqn:SK1; [exact TS|].
  destruct TS as (p3 & A & B3). rewrite A. clear A. sk B3.
  assert (FIN : forall args p4 l2, txt p4 = l2 ->
    sim ne ((parse_directives q f (length (r ++ [0; 111; kb; 102; 0]) - 1) ;;; c0 <- current_c q ;; (if negb (c0 =? cLBR) then err q (msg_c "expected selection set opener (""{"") but got """ c0 """") else ret tt))
       (PS (r ++ [0; 111; kb; (match args with None => 102 | Some _ => 116 end); 0] ++ n ++ enc_opargs args) fr p4 es t2))
     (match r_dirs f 0 l2 with
      | None => None
      | Some (ds, l3) => match l3 with [] => None | c :: l4 => if c =? cLBR then Some (n, args, ds, l4) else None end
      end)
     (fun x _ s => let '(n, args, ds, l4) := x in exists p',
     s = PS (r ++ [0; 111; kb; (match args with None => 102 | Some _ => 116 end); nlen ds] ++ n ++ enc_opargs args ++ enc_dirs ds) fr p' es
          (if op_selected target (DOp (kind_of kw) n args ds []) then Some (length r) else t)
     /\ txt (S p') = l4)).
  { intros args p4 l2 E. set (fl := match args with None => 102 | Some _ => 116 end).
    replace (r ++ [0; 111; kb; fl; 0] ++ n ++ enc_opargs args) with ((r ++ [0; 111; kb; fl]) ++ 0 :: (n ++ enc_opargs args)) by (rewrite <- !app_assoc; reflexivity).
    pose proof (parse_directives_sim q fr es t2 f (r ++ [0; 111; kb; fl]) (n ++ enc_opargs args) p4 (length (r ++ ([0; 111; kb; 102; 0])%N) - 1)%nat
       ltac:(rewrite !app_length; simpl; lia)) as PD. rewrite E in PD.
    destruct (r_dirs f 0 l2) as [[ds x]|] eqn:RD.
    2:{ apply bad_sim; [exact PD|mono]. }
    destruct (sim_some _ _ _ _ _ _ PD) as ([] & s & E1 & (p5 & E2 & E3)). cbn [fst snd] in *. subst s. bnd E1.
    apply r_dirs_sound0 in RD as [RD _]. apply g_dirs_token in RD as (c' & x' & X1 & X2). rewrite X1 in E3 |- *.
    erewrite b_current by exact E3. sk E3. destruct (c' =? cLBR); cbn [negb].
    2:{ apply sim_none_intro. apply err_bad. }
    exists p5. split; auto. f_equal.
    repeat rewrite <- ?app_assoc, <- ?app_comm_cons; reflexivity. }
  destruct (c3 =? cLPAR).
  - rewrite bind_assoc.
    replace ((r ++ [0; 111; kb; 102; 0]) ++ n) with ((r ++ [0; 111; kb]) ++ 102 :: 0 :: n) by (rewrite <- !app_assoc; reflexivity).
    rewrite b_store by (rewrite !app_length; simpl; lia). rewrite bind_assoc. prim. rewrite bind_assoc. prim. rewrite bind_assoc. prim. rewrite bind_assoc.
    rewrite bind_assoc. prim.
    match goal with |- sim _ (bind _ _ (PS ?r0 _ _ _ _)) _ _ => pose proof (opargs_sim q fr es t2 f r0 (S p3)) as HO end. rewrite Tl0 in HO.
    destruct (r_opargs f l3) as [[args l5]|]; [|apply bad_sim; [exact HO|mono]].
    destruct (sim_some _ _ _ _ _ _ HO) as ([] & s & E1 & (p5 & E2 & E3)). cbn [fst snd] in *. subst s. bnd E1. rewrite bind_assoc. prim.
    match goal with |- sim _ (bind _ _ (PS ?r0 _ _ _ _)) _ _ => replace r0 with ((r ++ [0; 111; kb; 116; 0] ++ n ++ [0]) ++ 0 :: 0 :: 0 :: 0 :: ([0; 65] ++ flat_map enc_oparg args ++ [0; 101]))
      by (repeat rewrite <- ?app_assoc, <- ?app_comm_cons; reflexivity) end.
    erewrite bind_eq by (apply write32_ok; repeat (rewrite ?app_length; simpl); lia).
    match goal with |- sim _ (bind _ _ (PS ?r0 _ _ _ _)) _ _ => replace r0 with (r ++ [0; 111; kb; 116; 0] ++ n ++ enc_opargs (Some args)) end.
    + apply (FIN (Some args) p5 l5 E3).
    + unfold enc_opargs. rewrite <- !app_assoc. do 5 f_equal. unfold nlen. repeat (rewrite ?app_length; simpl). f_equal. lia.
  - prim. pose proof (FIN None p3 _ B3) as FF. cbn [enc_opargs] in FF. rewrite app_nil_r in FF. rewrite <- app_assoc. exact FF.
Qed.

Lemma frag_header_sim : forall r fr t p, sim ne (parse_fragment_header q (PS r fr p es t))
  (match r_name (skip_ign (txt p)) with
   | None => None
   | Some (n, l1) =>
      match strip (bs "on") (skip_ign l1) with
      | None => None
      | Some l2 =>
          match r_name (skip_ign l2) with
          | None => None
          | Some (tn, l3) => match skip_ign l3 with [] => None | c :: l4 => if c =? cLBR then Some (n, tn, l4) else None end
          end
      end
   end)
  (fun x _ s => let '(n, tn, l4) := x in exists p',
     s = PS (r ++ [0; 70] ++ n ++ [0] ++ tn) (fr ++ [length r + 1]%nat) p' es t /\ txt (S p') = l4).
Proof.
  intros. unfold parse_fragment_header. insts.
  match goal with |- sim _ ((_ <- push_fragment ;; ?K) _) _ _ => change ((_ <- push_fragment ;; K) (PS r fr p es t)) with (K (PS r (fr ++ [length r + 1]%nat) p es t)) end.
  set (fr' := fr ++ [(length r + 1)%nat]). prim. tok_st. destruct (skip_ign (txt p)) as [|c l]; [exact TS|].
  destruct TS as (p1 & A & B). rewrite A. clear A.
  pose proof (name_req q fr' es t (r ++ [0; 70]) p1) as NR. rewrite B in NR. destruct (r_name (c :: l)) as [[n l2]|].
  2:{ apply sim_none_intro. match goal with |- bad _ ((n <- parse_name q ;; (if n =? 0 then ?e else @?k n)) _) => apply (NR _ e k) end;
        intros; [apply err_cur_bad|mono|mono]. }
  destruct NR as (p2 & A2 & B2 & C2). bnd A2. rewrite C2. tok_st. rewrite B2 in TS. destruct (skip_ign l2) as [|c3 l3]; [exact TS|].
  destruct TS as (p3 & A & B3). rewrite A. clear A. sk B3. change (bs "on") with [111; 110]. rewrite strip_cons, (N.eqb_sym 111).
  destruct (c3 =? 111); cbn [negb].
  2:{ apply sim_none_intro. apply err_bad. }
  prim. destruct l3 as [|c4 l4].
  { apply bad_sim; [now apply next_char_eof|mono]. }
  erewrite b_next_char by exact Tl. cbv beta iota. sk Tl. rewrite strip_cons, (N.eqb_sym 110). destruct (c4 =? 110); cbn [negb strip].
  2:{ apply sim_none_intro. apply err_bad. }
  prim. tok_st. rewrite Tl0 in TS. destruct (skip_ign l4) as [|c5 l5]; [exact TS|]. destruct TS as (p5 & A & B5). rewrite A. clear A. prim.
  match goal with |- sim _ (bind _ _ (PS ?r0 _ _ _ _)) _ _ => pose proof (name_req q fr' es t r0 p5) as NR end. rewrite B5 in NR. destruct (r_name (c5 :: l5)) as [[tn l6]|].
  2:{ apply sim_none_intro. match goal with |- bad _ ((n <- parse_name q ;; (if n =? 0 then ?e else @?k n)) _) => apply (NR _ e k) end;
        intros; [apply err_cur_bad|mono|mono]. }
  destruct NR as (p6 & A6 & B6 & C6). bnd A6. rewrite C6. tok_st. rewrite B6 in TS. destruct (skip_ign l6) as [|c7 l7]; [exact TS|].
  destruct TS as (p7 & A & B7). rewrite A. clear A. sk B7. destruct (c7 =? cLBR); cbn [negb].
  2:{ apply sim_none_intro. apply err_bad. }
  exists p7. repeat split; auto. f_equal. now rewrite <- !app_assoc.
Qed.

Definition def_good (r : bytes) (fr : list nat) (t : option nat) (x : definition * bytes) (a : bool) (s : pst) : Prop :=
  a = false /\ exists p', s = PS (r ++ enc_def (fst x)) (fr ++ match fst x with DFrag _ _ _ => [length r + 1]%nat | _ => [] end) p' es
     (if op_selected target (fst x) then Some (length r) else t) /\ txt p' = snd x.

Lemma sels_tail : forall f r fr t p d l (mk : list sel -> definition),
  (forall ss, enc_def (mk ss) = d ++ enc_sels ss ++ [0; 101]) -> txt p = l ->
  sim ne ((parse_selection_set q f ;;; append [0; 101] ;;; ret false) (PS (r ++ d) fr p es t))
    (match r_selset f l with Some (ss, x) => Some (mk ss, x) | None => None end)
    (fun x a s => a = false /\ exists p', s = PS (r ++ enc_def (fst x)) fr p' es t /\ txt p' = snd x).
Proof.
  intros. pose proof (proj1 (selection_all q fr es t f) (r ++ d) p) as HS. rewrite H0 in HS.
  destruct (r_selset f l) as [[ss x]|].
  - destruct (sim_some _ _ _ _ _ _ HS) as ([] & s & E & (p2 & E2 & E3)). cbn [fst snd] in *. subst s. bnd E. prim.
    split; auto. exists p2. split; auto. cbn [fst]. rewrite H. now rewrite <- !app_assoc.
  - apply bad_sim; [exact HS|mono].
Qed.

Lemma definition_sim : forall f r fr t p,
  match skip_ign (txt p) with
  | [] => exists p', parse_definition q target f (PS r fr p es t) = Ok true (PS r fr p' es t)
  | l => sim ne (parse_definition q target f (PS r fr p es t)) (r_def f l) (def_good r fr t)
  end.
Proof.
  intros. unfold parse_definition. insts. destruct (might_sim q fr es t r p) as (p1 & A & B). bnd A.
  destruct (skip_ign (txt p)) as [|c l]; cbn [hd_error]; [exists p1; reflexivity|].
  prim. sk B. cbn [r_def]. destruct (c =? cLBR).
  - set (t1 := if has_target target then t else Some (length r)).
    match goal with |- sim _ (bind ?M ?K _) _ _ => replace (bind M K (PS r fr p1 es t)) with (K tt (PS (r ++ [0; 111; 113; 102; 0]) fr p1 es t1)) by (unfold t1; destruct (has_target target); reflexivity) end.
    prim. pose proof (sels_tail f r fr t1 (S p1) [0; 111; 113; 102; 0] l (DOp OpQuery [] None []) ltac:(reflexivity) Tl) as ST.
    destruct (r_selset f l) as [[ss x]|]; [|exact ST].
    destruct (sim_some _ _ _ _ _ _ ST) as (a & s & E & (-> & p2 & E2 & E3)). cbn [fst snd] in *. unfold sim. rewrite E. split; auto. exists p2. cbn [fst snd].
    split; auto. rewrite E2. rewrite app_nil_r, op_selectedE. unfold t1. destruct (has_target target); reflexivity.
  - pose proof (op_words q fr es t r p1) as OW. rewrite B in OW.
    assert (OP : forall kw p2 l2, txt p2 = l2 -> sim ne ((_ <- parse_operation_header q target f (length r) kw ;; advance ;;; parse_selection_set q f;;; append [0; 101];;; ret false) (PS r fr p2 es t))
       (r_op f (kind_of kw) l2) (def_good r fr t)).
    { intros kw p2 l2 E. unfold r_op. pose proof (op_header_sim f kw r fr t p2) as OH. rewrite E in OH.
      destruct (r_opname (skip_ign l2)) as [[n l3]|]; [|apply bad_sim; [exact OH|mono]].
      destruct (r_opt_opargs f l3) as [[args l4]|]; [|apply bad_sim; [exact OH|mono]].
      destruct (r_dirs f 0 l4) as [[ds l5]|]; [|apply bad_sim; [exact OH|mono]].
      destruct l5 as [|c6 l6]; [apply bad_sim; [exact OH|mono]|].
      destruct (c6 =? cLBR); [|apply bad_sim; [exact OH|mono]].
      destruct (sim_some _ _ _ _ _ _ OH) as ([] & s & E1 & (p6 & E2 & E3)). subst s. bnd E1. prim.
      match goal with |- sim _ (_ (PS (_ ++ ?dd) _ _ _ ?t2)) _ _ => pose proof (sels_tail f r fr t2 (S p6) dd l6 (DOp (kind_of kw) n args ds)) as ST end.
      specialize (ST ltac:(intros; cbn [enc_def]; now rewrite <- !app_assoc) E3).
      destruct (r_selset f l6) as [[ss x]|]; [|exact ST].
      destruct (sim_some _ _ _ _ _ _ ST) as (a & s & E7 & (-> & p7 & E5 & E6)). cbn [fst snd] in *. unfold sim. rewrite E7. split; auto. exists p7. cbn [fst snd].
      rewrite app_nil_r. split; auto. }
    destruct (strip (bs "query") (c :: l)) as [x|].
    { destruct OW as (p2 & A2 & B2). rewrite bind_assoc. bnd A2. now apply (OP 0%nat). }
    destruct (strip (bs "mutation") (c :: l)) as [x|].
    { destruct OW as (p2 & A2 & B2). rewrite bind_assoc. bnd A2. now apply (OP 1%nat). }
    destruct (strip (bs "subscription") (c :: l)) as [x|].
    { destruct OW as (p2 & A2 & B2). rewrite bind_assoc. bnd A2. now apply (OP 2%nat). }
    rewrite bind_assoc. bnd OW. rewrite bind_assoc.
    pose proof (matches1_sim q fr es t "fragment" r p1 ltac:(discriminate)) as MS. rewrite B in MS.
    destruct (strip (bs "fragment") (c :: l)) as [x|].
    2:{ bnd MS. apply bad_sim; [apply err_bad|mono]. }
    destruct MS as (p2 & A2 & B2). bnd A2.
    unfold r_frag. pose proof (frag_header_sim r fr t p2) as FH. rewrite B2 in FH.
    destruct (r_name (skip_ign x)) as [[n l3]|]; [|apply bad_sim; [exact FH|mono]].
    destruct (strip (bs "on") (skip_ign l3)) as [l4|]; [|apply bad_sim; [exact FH|mono]].
    destruct (r_name (skip_ign l4)) as [[tn l5]|]; [|apply bad_sim; [exact FH|mono]].
    destruct (skip_ign l5) as [|c6 l6]; [apply bad_sim; [exact FH|mono]|].
    destruct (c6 =? cLBR); [|apply bad_sim; [exact FH|mono]].
    destruct (sim_some _ _ _ _ _ _ FH) as ([] & s & E1 & (p6 & E2 & E3)). subst s. bnd E1. prim.
    match goal with |- sim _ (_ (PS (_ ++ ?dd) ?fr' _ _ ?t2)) _ _ => pose proof (sels_tail f r fr' t2 (S p6) dd l6 (DFrag n tn)) as ST end.
    specialize (ST ltac:(intros; cbn [enc_def]; now rewrite <- !app_assoc) E3).
    destruct (r_selset f l6) as [[ss y]|]; [|exact ST].
    destruct (sim_some _ _ _ _ _ _ ST) as (a & s & E & (-> & p7 & E5 & E6)). cbn [fst snd] in *. unfold sim. rewrite E. split; auto. exists p7. cbn [fst snd].
    split; auto.
Qed.

Lemma definitions_sim : forall n f r fr t p,
  sim ne (definitions_loop q target n f (PS r fr p es t)) (r_doc n f (txt p))
    (fun d _ s => exists p', s = PS (r ++ enc_doc d) (fr ++ frag_locs (length r) d) p' es (target_loc target (length r) d t)).
Proof.
  induction n; intros; [exact I|]. cbn [definitions_loop r_doc]. pose proof (definition_sim f r fr t p) as D.
  destruct (skip_ign (txt p)) as [|c l].
  - destruct D as (p' & E). bnd E. exists p'. cbn. now rewrite !app_nil_r.
  - destruct (r_def f (c :: l)) as [[d x]|]; [|apply bad_sim; [exact D|]].
    + destruct (sim_some _ _ _ _ _ _ D) as (a & s & E & (-> & p2 & E2 & E3)). cbn [fst snd] in *. subst s. bnd E.
      match goal with |- sim _ (_ _ _ _ _ (PS ?r0 ?fr0 _ _ ?t0)) _ _ => pose proof (IHn f r0 fr0 t0 p2) as IH end. rewrite E3 in IH.
      destruct (r_doc n f x) as [ds|]; [|exact IH].
      destruct (sim_some _ _ _ _ _ _ IH) as ([] & s & E4 & (p3 & E5)). unfold sim. rewrite E4. exists p3. rewrite E5.
      cbn [enc_doc flat_map frag_locs target_loc]. rewrite app_length, <- !app_assoc. reflexivity.
    + intros [|]; [mono|]. apply mono_definitions.
Qed.
End Doc.

(** the whole parser *)
Theorem parse_query_ref : forall q target,
  exists s, parse_query q target = Parsed s /\
  match ref_parse q with
  | Some d => p_errs s = [] /\ p_res s = enc_doc d /\ p_frags s = frag_locs 0 d /\ p_tgt s = target_loc target 0 d None
  | None => p_errs s <> []
  end.
Proof.
  intros. destruct (parse_query_safe q target) as (s & P & _). exists s. split; auto.
  unfold ref_parse. pose proof (definitions_sim q target [] (char_fuel q) (value_fuel q) [] [] None 0) as D.
  unfold char_fuel, value_fuel in D. change (skipn 0 q) with q in D. unfold parse_query, char_fuel, value_fuel, init_pst in P.
  destruct (r_doc _ _ q) as [d|].
  - destruct (sim_some _ _ _ _ _ _ D) as (a & s' & E & (p' & E2)). rewrite E in P. injection P as <-. subst s'. cbn. auto.
  - unfold sim, bad in D. destruct (definitions_loop _ _ _ _ _); try discriminate; injection P as <-; unfold nerrs in D; simpl in D;
      intro Z; rewrite Z in D; simpl in D; lia.
Qed.
