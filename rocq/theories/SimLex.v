(** * The parser model follows the reference parser: names, keywords, numbers, strings (proofs) *)
From Coq Require Import String Arith NArith Bool Lia ZifyBool ZifyN ZifyNat List.
From Verif Require Import Base ParserModel Ast Grammar RefParser RefLemmas RefGrammar ParserSafe ParserMono SimBase.
Import ListNotations.
Open Scope N_scope.
Arguments skipn : simpl never.

Ltac insts := unfold inst_operation, inst_operation_args, inst_operation_arg, inst_fragment, inst_field, inst_spread,
  inst_directive, inst_value, inst_bool, inst_object_field, inst_end.
(** uses an equation [m s = Ok a s'] on the head of a bind *)
Ltac bnd H := rewrite (bind_eq _ _ _ _ _ _ _ H); cbv beta iota zeta.
Ltac prim :=
  repeat (first [ rewrite b_append | rewrite b_res_len | rewrite b_advance | rewrite b_get_pos
                | rewrite b_put_pos | rewrite b_ret | rewrite b_peek | rewrite b_peek_next ]; cbv beta iota zeta).
Ltac sk H := let E1 := fresh "Nth" in let E2 := fresh "Tl" in let E3 := fresh "Lt" in
  destruct (skipn_cons _ _ _ _ H) as (E1 & E2 & E3).

Lemma nlen_app : forall A (a b : list A), nlen (a ++ b) = nlen a + nlen b.
Proof. intros. unfold nlen. rewrite app_length. lia. Qed.
Lemma nlen_cons : forall A (a : A) b, nlen (a :: b) = 1 + nlen b.
Proof. intros. unfold nlen. simpl length. lia. Qed.

Section Sim.
Variable q : bytes.
Variable fr : list nat.
Variable es : list perr.
Variable t : option nat.
Notation St r p := (PS r fr p es t).
Notation txt p := (skipn p q).
Notation ne := (length es).

(** ** Names *)
Lemma name_loop_sim : forall f n r p a b, (length q - p < f)%nat -> n < 255 -> span ncharb (txt p) = (a, b) ->
  if (match b with [] => false | _ => true end) && (n + nlen a <=? 254)
  then exists p', name_loop q f n (St r p) = Ok (n + nlen a) (St (r ++ a) p') /\ txt p' = b
  else bad ne (name_loop q f n (St r p)).
Proof.
  induction f; intros n r p a b F L H; [lia|]. cbn [name_loop]. destruct (txt p) as [|c l] eqn:E.
  - injection H as <- <-. simpl. apply bad_bind; [now apply next_char_eof | mono].
  - rewrite (b_next_char _ _ _ _ _ _ _ _ _ _ E); cbv beta iota zeta. sk E. rewrite name_charE. cbn [span] in H.
    destruct (ncharb c) eqn:X.
    + destruct (span ncharb l) as [a1 b1] eqn:Y. injection H as <- <-. prim.
      destruct (n + 1 =? 255) eqn:Z.
      * replace (n + nlen (c :: a1) <=? 254) with false by (rewrite nlen_cons; lia). rewrite andb_false_r. apply err_bad.
      * rewrite <- Tl in Y. specialize (IHf (n + 1) (r ++ [c]) (S p) a1 b1 ltac:(lia) ltac:(lia)).
        rewrite nlen_cons. replace (n + (1 + nlen a1)) with (n + 1 + nlen a1) by lia.
        rewrite <- app_assoc in IHf. simpl app in IHf. apply IHf. auto.
    + injection H as <- <-. replace (n + nlen []) with n by (unfold nlen; simpl; lia).
      replace (n <=? 254) with true by lia. exists p. rewrite app_nil_r. auto.
Qed.

Lemma name_sim : forall r p c l, txt p = c :: l -> letterb c = true ->
  match r_name (c :: l) with
  | Some (n, x) => exists p', parse_name q (St r p) = Ok (nlen n) (St (r ++ n) p') /\ txt p' = x /\ (nlen n =? 0) = false
  | None => bad ne (parse_name q (St r p))
  end.
Proof.
  intros. unfold parse_name, r_name. rewrite (b_next_char _ _ _ _ _ _ _ _ _ _ H); cbv beta iota zeta. change (name_start c) with (letterb c); rewrite H0. prim. sk H.
  cbn [span]. assert (X : ncharb c = true) by (unfold ncharb; now rewrite H0). rewrite X.
  destruct (span ncharb l) as [a b] eqn:Y. rewrite <- Tl in Y.
  pose proof (name_loop_sim (char_fuel q) 1 (r ++ [c]) (S p) a b ltac:(unfold char_fuel; lia) ltac:(lia) Y).
  destruct b as [|b0 b]; [exact H1|]. cbn [andb] in H1.
  destruct (length (c :: a) <=? 254)%nat eqn:Z.
  - replace (1 + nlen a <=? 254) with true in H1 by (unfold nlen; simpl in Z; lia).
    destruct H1 as (p' & A & B). exists p'. rewrite nlen_cons. rewrite A. rewrite <- app_assoc. repeat split; auto. lia.
  - replace (1 + nlen a <=? 254) with false in H1 by (unfold nlen; simpl in Z; lia). exact H1.
Qed.
Lemma name_none : forall r p c l, txt p = c :: l -> letterb c = false -> parse_name q (St r p) = Ok 0 (St r p).
Proof. intros. unfold parse_name. rewrite (b_next_char _ _ _ _ _ _ _ _ _ _ H); cbv beta iota zeta. now change (name_start c) with (letterb c); rewrite H0. Qed.
(** a required name *)
Lemma name_req : forall r p,
  match r_name (txt p) with
  | Some (n, x) => exists p', parse_name q (St r p) = Ok (nlen n) (St (r ++ n) p') /\ txt p' = x /\ (nlen n =? 0) = false
  | None => forall B (e : M B) (k : N -> M B), (forall r p, bad ne (e (St r p))) -> (forall n, mono (k n)) -> mono e ->
              bad ne (bind (parse_name q) (fun n => if n =? 0 then e else k n) (St r p))
  end.
Proof.
  intros. destruct (txt p) as [|c l] eqn:E.
  - simpl. intros. apply bad_bind; [|mono; auto]. unfold parse_name. apply bad_bind; [now apply next_char_eof | mono].
  - destruct (letterb c) eqn:L.
    + pose proof (name_sim r _ _ _ E L). destruct (r_name (c :: l)) as [[n x]|]; auto.
      intros. apply bad_bind; [auto|mono; auto].
    + replace (r_name (c :: l)) with (@None (bytes * bytes)) by (unfold r_name; now rewrite L).
      intros. rewrite (bind_eq _ _ _ _ _ _ _ (name_none r _ _ _ E L)). simpl. auto.
Qed.

(** ** Keyword lists *)
Lemma round_dead : forall b idx off c, match_round (repeat [] b) idx off c = (repeat [] b, false, None).
Proof. induction b; intros; simpl; auto. rewrite IHb. reflexivity. Qed.
Lemma round_skip : forall a ks idx off c, match_round (repeat [] a ++ ks) idx off c =
  let '(r', ch, m) := match_round ks (idx + a) off c in (repeat [] a ++ r', ch, m).
Proof.
  induction a; intros; simpl.
  - rewrite Nat.add_0_r. destruct (match_round ks idx off c) as [[? ?] ?]; auto.
  - rewrite IHa. replace (idx + S a)%nat with (S idx + a)%nat by lia.
    destruct (match_round ks (S idx + a) off c) as [[? ?] ?]; auto.
Qed.
Lemma matchesN_dead : forall f start n r p, (length q - p < f)%nat ->
  matchesN_loop q f start (repeat [] n) true (St r p) = Ok None (St r start).
Proof.
  induction f; intros; [lia|]. cbn [matchesN_loop]. prim. destruct (nth_error q p) eqn:E; [|reflexivity].
  rewrite round_dead. cbn [orb]. prim. apply IHf.
  assert (p < length q)%nat by (apply nth_error_Some; congruence). lia.
Qed.
Lemma matchesN_one : forall k2 k1 f start a b r p, (length q - p < f)%nat -> k2 <> [] -> p = (start + length k1)%nat ->
  match strip k2 (txt p) with
  | Some x => exists p', matchesN_loop q f start (repeat [] a ++ (k1 ++ k2) :: repeat [] b) true (St r p) = Ok (Some a) (St r p') /\ txt p' = x
  | None => matchesN_loop q f start (repeat [] a ++ (k1 ++ k2) :: repeat [] b) true (St r p) = Ok None (St r start)
  end.
Proof.
  induction k2 as [|k k2]; intros k1 f start a b r p F NE P; [congruence|]. destruct f; [lia|].
  cbn [matchesN_loop strip]. prim. destruct (txt p) as [|c l] eqn:E.
  - rewrite (proj1 (skipn_nil _ _ E)). reflexivity.
  - sk E. rewrite Nth. rewrite round_skip. cbn [match_round].
    replace (p - start)%nat with (length k1) by lia.
    replace (length k1 <? length (k1 ++ k :: k2))%nat with true by (rewrite app_length; simpl; lia).
    replace (nth (length k1) (k1 ++ k :: k2) 0) with k by (rewrite app_nth2, Nat.sub_diag; auto).
    destruct (k =? c) eqn:X; cbn [negb].
    + destruct k2 as [|k' k2].
      * replace (length (k1 ++ [k]) =? length k1 + 1)%nat with true by (rewrite app_length; simpl; lia).
        prim. exists (S p). simpl. auto.
      * replace (length (k1 ++ k :: k' :: k2) =? length k1 + 1)%nat with false by (rewrite app_length; simpl; lia).
        rewrite round_dead. cbn [orb]. prim.
        specialize (IHk2 (k1 ++ [k]) f start a b r (S p) ltac:(lia) ltac:(discriminate) ltac:(rewrite app_length; simpl; lia)).
        rewrite <- app_assoc, Tl in IHk2. exact IHk2.
    + rewrite round_dead. cbn [orb]. prim.
      change ([] :: repeat [] b) with (@repeat bytes [] (S b)). rewrite <- repeat_app. apply matchesN_dead. lia.
Qed.

Lemma strip_cons : forall x p y l, strip (x :: p) (y :: l) = if x =? y then strip p l else None.
Proof. reflexivity. Qed.
Ltac evens := repeat match goal with
  | |- context [N.eqb ?a ?b] => let v := eval vm_compute in (N.eqb a b) in
       lazymatch v with true => change (N.eqb a b) with true | false => change (N.eqb a b) with false end
  end.
Lemma bool_words : forall r p,
  match strip (bs "false") (txt p), strip (bs "true") (txt p) with
  | Some x, _ => exists p', matchesN q ["false"; "true"]%string (St r p) = Ok (Some 0%nat) (St r p') /\ txt p' = x
  | None, Some x => exists p', matchesN q ["false"; "true"]%string (St r p) = Ok (Some 1%nat) (St r p') /\ txt p' = x
  | None, None => matchesN q ["false"; "true"]%string (St r p) = Ok None (St r p)
  end.
Proof.
  intros. unfold matchesN. prim. unfold char_fuel. cbn [matchesN_loop map]. prim.
  change (bs "false") with [102;97;108;115;101]. change (bs "true") with [116;114;117;101].
  rewrite Nat.sub_diag. destruct (txt p) as [|c l] eqn:E.
  { rewrite (proj1 (skipn_nil _ _ E)). simpl. reflexivity. }
  sk E. rewrite Nth. cbn [match_round length Nat.ltb Nat.leb nth Nat.eqb Nat.add].
  rewrite !strip_cons. destruct (102 =? c) eqn:X.
  - apply N.eqb_eq in X. subst c. evens. cbn [negb orb]. prim.
    pose proof (matchesN_one [97;108;115;101] [102] (S (length q)) p 0 1 r (S p) ltac:(lia) ltac:(discriminate) ltac:(simpl; lia)).
    rewrite Tl in H. simpl app in H. destruct (strip [97; 108; 115; 101] l); auto.
  - destruct (116 =? c) eqn:Y; cbn [negb orb].
    + prim.
      pose proof (matchesN_one [114;117;101] [116] (S (length q)) p 1 0 r (S p) ltac:(lia) ltac:(discriminate) ltac:(simpl; lia)).
      rewrite Tl in H. simpl app in H. exact H.
    + prim. reflexivity.
Qed.
Lemma op_words : forall r p,
  match strip (bs "query") (txt p), strip (bs "mutation") (txt p), strip (bs "subscription") (txt p) with
  | Some x, _, _ => exists p', matchesN q ["query"; "mutation"; "subscription"]%string (St r p) = Ok (Some 0%nat) (St r p') /\ txt p' = x
  | None, Some x, _ => exists p', matchesN q ["query"; "mutation"; "subscription"]%string (St r p) = Ok (Some 1%nat) (St r p') /\ txt p' = x
  | None, None, Some x => exists p', matchesN q ["query"; "mutation"; "subscription"]%string (St r p) = Ok (Some 2%nat) (St r p') /\ txt p' = x
  | None, None, None => matchesN q ["query"; "mutation"; "subscription"]%string (St r p) = Ok None (St r p)
  end.
Proof.
  intros. unfold matchesN. prim. unfold char_fuel. cbn [matchesN_loop map]. prim.
  change (bs "query") with [113;117;101;114;121]. change (bs "mutation") with [109;117;116;97;116;105;111;110].
  change (bs "subscription") with [115;117;98;115;99;114;105;112;116;105;111;110].
  rewrite Nat.sub_diag. destruct (txt p) as [|c l] eqn:E.
  { rewrite (proj1 (skipn_nil _ _ E)). simpl. reflexivity. }
  sk E. rewrite Nth. cbn [match_round length Nat.ltb Nat.leb nth Nat.eqb Nat.add].
  rewrite !strip_cons. destruct (113 =? c) eqn:X.
  - apply N.eqb_eq in X. subst c. evens. cbn [negb orb]. prim.
    pose proof (matchesN_one [117;101;114;121] [113] (S (length q)) p 0 2 r (S p) ltac:(lia) ltac:(discriminate) ltac:(simpl; lia)).
    rewrite Tl in H. simpl app in H. destruct (strip _ l); auto.
  - destruct (109 =? c) eqn:Y.
    + apply N.eqb_eq in Y. subst c. evens. cbn [negb orb]. prim.
      pose proof (matchesN_one [117;116;97;116;105;111;110] [109] (S (length q)) p 1 1 r (S p) ltac:(lia) ltac:(discriminate) ltac:(simpl; lia)).
      rewrite Tl in H. simpl app in H. destruct (strip _ l); auto.
    + destruct (115 =? c) eqn:Z; cbn [negb orb].
      * prim.
        pose proof (matchesN_one [117;98;115;99;114;105;112;116;105;111;110] [115] (S (length q)) p 2 0 r (S p) ltac:(lia) ltac:(discriminate) ltac:(simpl; lia)).
        rewrite Tl in H. simpl app in H. exact H.
      * prim. reflexivity.
Qed.

(** ** Numbers *)
Definition num_end (c : N) : M bool :=
  if is_punctuator c then ret true else ig <- is_ignored_token q c ;; if ig : bool then ret true else ret (c =? cCOMMA).
Lemma num_end_sim : forall c r p l, txt p = c :: l -> c <> cDOT -> exists p',
  num_end c (St r p) = Ok (num_stopb c) (St r p') /\ (num_stopb c = true -> skip_ign (txt p') = skip_ign (c :: l)).
Proof.
  intros. unfold num_end. destruct (is_punctuator c) eqn:P.
  - exists p. replace (num_stopb c) with true; [split; auto; now rewrite H|].
    unfold is_punctuator in P. unfold num_stopb. lia.
  - destruct (ignored_sim q fr es t r _ _ _ H) as (p' & A & B & C & D). bnd A.
    destruct (ign_charb c) eqn:I.
    + exists p'. replace (num_stopb c) with true.
      * split; auto. intros. now apply D.
      * unfold ign_charb in I. unfold num_stopb. lia.
    + rewrite C by auto. exists p. replace (num_stopb c) with (c =? cCOMMA).
      * split; auto. intros. now rewrite H.
      * unfold ign_charb in I. unfold is_punctuator in P. unfold num_stopb. lia.
Qed.
Lemma mono_num_end : forall c, mono (num_end c). Proof. intros. unfold num_end. mono. Qed.

Lemma dig_not : forall c, dugb c = false -> digit c = false /\ (c =? cUND) = false.
Proof. unfold dugb, digitb, digit. intros. lia. Qed.
Lemma strip_und_cons : forall c d, strip_und (c :: d) = if c =? cUND then strip_und d else c :: strip_und d.
Proof. intros. unfold strip_und. simpl. destruct (c =? cUND); auto. Qed.

Lemma num_int_sim : forall f r p c l d l2, (length q - p < f)%nat -> txt p = c :: l -> span dugb (c :: l) = (d, l2) ->
  match l2 with
  | [] => bad ne (num_int_loop q f c (St r p))
  | c2 :: l3 =>
      if (c2 =? cDOT) || (c2 =? 101) || (c2 =? 69) then
        exists p', num_int_loop q f c (St r p) = Ok (Some c2) (St (r ++ strip_und d) p') /\ txt p' = l2
      else if num_stopb c2 then
        exists p', num_int_loop q f c (St r p) = Ok None (St (r ++ strip_und d) p') /\ skip_ign (txt p') = skip_ign l2
      else bad ne (num_int_loop q f c (St r p))
  end.
Proof.
  induction f; intros r p c l d l2 F H S; [lia|]. cbn [num_int_loop]. cbv zeta. sk H. cbn [span] in S.
  assert (R : forall r d' l2', span dugb l = (d', l2') ->
    match l2' with
    | [] => bad ne ((advance;;; (c' <- next_char q;; num_int_loop q f c')) (St r p))
    | c2 :: l3 =>
        if (c2 =? cDOT) || (c2 =? 101) || (c2 =? 69) then
          exists p', (advance;;; (c' <- next_char q;; num_int_loop q f c')) (St r p) = Ok (Some c2) (St (r ++ strip_und d') p') /\ txt p' = l2'
        else if num_stopb c2 then
          exists p', (advance;;; (c' <- next_char q;; num_int_loop q f c')) (St r p) = Ok None (St (r ++ strip_und d') p') /\ skip_ign (txt p') = skip_ign l2'
        else bad ne ((advance;;; (c' <- next_char q;; num_int_loop q f c')) (St r p))
    end).
  { intros r0 d' l2' E. prim. destruct l as [|c1 l].
    - injection E as <- <-. apply bad_bind; [now apply next_char_eof | mono].
    - rewrite (b_next_char _ _ _ _ _ _ _ _ _ _ Tl); cbv beta iota zeta. apply IHf with (l := l); auto. lia. }
  destruct (dugb c) eqn:D.
  - destruct (span dugb l) as [d' l2'] eqn:E. injection S as <- <-. rewrite strip_und_cons.
    destruct (digit c) eqn:G.
    + replace (c =? cUND) with false by (unfold digit in G; lia). prim.
      specialize (R (r ++ [c]) _ _ eq_refl). rewrite <- app_assoc in R. exact R.
    + replace (c =? cUND) with true by (unfold dugb, digitb, digit in *; lia).
      replace ((c =? cDOT) || (c =? 101) || (c =? 69)) with false by (unfold dugb, digitb, digit in *; lia).
      apply R. auto.
  - injection S as <- <-. destruct (dig_not _ D) as [D1 D2]. rewrite D1.
    destruct ((c =? cDOT) || (c =? 101) || (c =? 69)) eqn:X.
    + exists p. simpl. rewrite app_nil_r. auto.
    + rewrite D2. destruct (num_end_sim c r p _ H ltac:(lia)) as (p' & A & B). bnd A.
      destruct (num_stopb c); [|apply err_bad]. exists p'. simpl. rewrite app_nil_r. auto.
Qed.
Lemma num_frac_sim : forall f r p l d l2, (length q - p < f)%nat -> txt (S p) = l -> span dugb l = (d, l2) ->
  match l2 with
  | [] => bad ne (num_frac_loop q f (St r p))
  | c2 :: l3 =>
      if (c2 =? 101) || (c2 =? 69) then
        exists p', num_frac_loop q f (St r p) = Ok (Some c2) (St (r ++ strip_und d) p') /\ txt p' = l2
      else if num_stopb c2 then
        exists p', num_frac_loop q f (St r p) = Ok None (St (r ++ strip_und d) p') /\ skip_ign (txt p') = skip_ign l2
      else bad ne (num_frac_loop q f (St r p))
  end.
Proof.
  induction f; intros r p l d l2 F H E; [lia|]. cbn [num_frac_loop]. prim. destruct l as [|c l].
  { injection E as <- <-. apply bad_bind; [now apply next_char_eof | mono]. }
  rewrite (b_next_char _ _ _ _ _ _ _ _ _ _ H); cbv beta iota zeta. sk H. cbn [span] in E.
  destruct (dugb c) eqn:D.
  - destruct (span dugb l) as [d' l2'] eqn:E2. injection E as <- <-. rewrite strip_und_cons.
    destruct (digit c) eqn:G.
    + replace (c =? cUND) with false by (unfold digit in G; lia). prim.
      specialize (IHf (r ++ [c]) (S p) _ d' l2' ltac:(lia) Tl E2). rewrite <- app_assoc in IHf. exact IHf.
    + replace (c =? cUND) with true by (unfold dugb, digitb, digit in *; lia).
      replace ((c =? 101) || (c =? 69)) with false by (unfold dugb, digitb, digit in *; lia).
      apply IHf with (l := l); auto. lia.
  - injection E as <- <-. destruct (dig_not _ D) as [D1 D2]. rewrite D1.
    destruct ((c =? 101) || (c =? 69)) eqn:X.
    + exists (S p). simpl. rewrite app_nil_r. auto.
    + rewrite D2. destruct (c =? cDOT) eqn:Y.
      * apply N.eqb_eq in Y. subst c. simpl. apply err_bad.
      * destruct (num_end_sim c r (S p) _ H ltac:(lia)) as (p' & A & B). bnd A.
        destruct (num_stopb c); [|apply err_bad]. exists p'. simpl. rewrite app_nil_r. auto.
Qed.
Lemma num_exp_sim : forall f r p c l d l2, (length q - p < f)%nat -> txt p = c :: l -> span dugb (c :: l) = (d, l2) ->
  if stopped l2 then
    exists p', num_exp_loop q f c (St r p) = Ok tt (St (r ++ strip_und d) p') /\ skip_ign (txt p') = skip_ign l2
  else bad ne (num_exp_loop q f c (St r p)).
Proof.
  induction f; intros r p c l d l2 F H S; [lia|]. cbn [num_exp_loop]. cbv zeta. sk H. cbn [span] in S.
  assert (R : forall r d' l2', span dugb l = (d', l2') ->
    if stopped l2' then
      exists p', (advance;;; (c' <- next_char q;; num_exp_loop q f c')) (St r p) = Ok tt (St (r ++ strip_und d') p') /\ skip_ign (txt p') = skip_ign l2'
    else bad ne ((advance;;; (c' <- next_char q;; num_exp_loop q f c')) (St r p))).
  { intros r0 d' l2' E. prim. destruct l as [|c1 l].
    - injection E as <- <-. apply bad_bind; [now apply next_char_eof | mono].
    - rewrite (b_next_char _ _ _ _ _ _ _ _ _ _ Tl); cbv beta iota zeta. apply IHf with (l := l); auto. lia. }
  destruct (dugb c) eqn:D.
  - destruct (span dugb l) as [d' l2'] eqn:E. injection S as <- <-. rewrite strip_und_cons.
    destruct (digit c) eqn:G.
    + replace (c =? cUND) with false by (unfold digit in G; lia). prim.
      specialize (R (r ++ [c]) _ _ eq_refl). rewrite <- app_assoc in R. exact R.
    + replace (c =? cUND) with true by (unfold dugb, digitb, digit in *; lia).
      replace ((c =? 101) || (c =? 69) || (c =? cDOT)) with false by (unfold dugb, digitb, digit in *; lia).
      apply R. auto.
  - injection S as <- <-. destruct (dig_not _ D) as [D1 D2]. rewrite D1. cbn [stopped].
    destruct ((c =? 101) || (c =? 69) || (c =? cDOT)) eqn:X.
    + replace (num_stopb c) with false by (unfold num_stopb; lia). apply err_bad.
    + rewrite D2. destruct (num_end_sim c r p _ H ltac:(lia)) as (p' & A & B). bnd A.
      destruct (num_stopb c); [|apply err_bad]. exists p'. simpl. rewrite app_nil_r. auto.
Qed.

(** a value was appended and the rest is known up to ignored tokens *)
Definition gval (r : bytes) (vx : value * bytes) (_ : unit) (s : pst) : Prop :=
  exists p', s = St (r ++ enc_value (fst vx)) p' /\ skip_ign (txt p') = skip_ign (snd vx).

Lemma b_next_char_eof : forall B (k : N -> M B) r p, txt p = [] -> (forall c, mono (k c)) -> bad ne (bind (next_char q) k (St r p)).
Proof. intros. apply bad_bind; auto. now apply next_char_eof. Qed.

(** writing the kind and the length of a number *)
Lemma value_close : forall r k body p, write_len (length (r ++ [0; 118; k; 0; 0; 0; 0])) 4 (St (r ++ [0; 118; k; 0; 0; 0; 0] ++ body) p)
  = Ok tt (St (r ++ enc_tagged k body) p).
Proof.
  intros. replace (r ++ [0; 118; k; 0; 0; 0; 0] ++ body) with ((r ++ [0; 118; k]) ++ 0 :: 0 :: 0 :: 0 :: body) by (now rewrite <- app_assoc).
  rewrite write_len_ok by (rewrite !app_length; simpl; lia). unfold enc_tagged. now rewrite <- !app_assoc.
Qed.
Lemma kind_store : forall B (k : unit -> M B) r x v body p,
  bind (store (length (r ++ [0; 118; x; 0; 0; 0; 0]) - 5) v) k (St (r ++ [0; 118; x; 0; 0; 0; 0] ++ body) p)
  = k tt (St (r ++ [0; 118; v; 0; 0; 0; 0] ++ body) p).
Proof.
  intros. replace (r ++ [0; 118; x; 0; 0; 0; 0] ++ body) with ((r ++ [0; 118]) ++ x :: [0; 0; 0; 0] ++ body) by (now rewrite <- app_assoc).
  rewrite b_store by (rewrite !app_length; simpl; lia). rewrite <- app_assoc. reflexivity.
Qed.
Lemma hdr_len : forall (r : bytes) x y, length (r ++ [0; 118; x; 0; 0; 0; 0]) = length (r ++ [0; 118; y; 0; 0; 0; 0]).
Proof. intros. rewrite !app_length. reflexivity. Qed.

(** the exponent *)
Definition exp_part (start : nat) (type_at : nat) : M unit :=
  store type_at 102 ;;; append [69] ;;;
  advance ;;; c <- next_char q ;;
  c <- (if (c =? cPLUS) || (c =? cMINUS) then
          (if c =? cMINUS then append [c] else ret tt) ;;;
          advance ;;; next_char q
        else ret c) ;;
  num_exp_loop q (char_fuel q) c ;;;
  write_len start 4.
Lemma exp_sim : forall r x body p l, txt (S p) = l ->
  match r_exp_tail l with
  | Some (e, rest) => exists p',
      exp_part (length (r ++ [0; 118; x; 0; 0; 0; 0])) (length (r ++ [0; 118; x; 0; 0; 0; 0]) - 5) (St (r ++ [0; 118; x; 0; 0; 0; 0] ++ body) p)
      = Ok tt (St (r ++ enc_value (VFloat (body ++ e))) p') /\ skip_ign (txt p') = skip_ign rest
  | None => bad ne (exp_part (length (r ++ [0; 118; x; 0; 0; 0; 0])) (length (r ++ [0; 118; x; 0; 0; 0; 0]) - 5) (St (r ++ [0; 118; x; 0; 0; 0; 0] ++ body) p))
  end.
Proof.
  intros r x body p l H. unfold exp_part. rewrite kind_store. prim. unfold r_exp_tail.
  replace ((r ++ [0; 118; 102; 0; 0; 0; 0] ++ body) ++ [69]) with (r ++ [0; 118; 102; 0; 0; 0; 0] ++ body ++ [69]) by (now rewrite <- !app_assoc).
  rewrite (hdr_len r x 102).
  (* after the sign *)
  assert (T : forall s l1 p1, txt p1 = l1 ->
    match (let (d, l2) := span dugb l1 in if stopped l2 then Some (69 :: s ++ strip_und d, l2) else None) with
    | Some (e, rest) => exists p',
        (c <- next_char q ;; (num_exp_loop q (char_fuel q) c ;;; write_len (length (r ++ [0; 118; 102; 0; 0; 0; 0])) 4))
          (St (r ++ [0; 118; 102; 0; 0; 0; 0] ++ body ++ [69] ++ s) p1)
        = Ok tt (St (r ++ enc_value (VFloat (body ++ e))) p') /\ skip_ign (txt p') = skip_ign rest
    | None => bad ne ((c <- next_char q ;; (num_exp_loop q (char_fuel q) c ;;; write_len (length (r ++ [0; 118; 102; 0; 0; 0; 0])) 4))
          (St (r ++ [0; 118; 102; 0; 0; 0; 0] ++ body ++ [69] ++ s) p1))
    end).
  { intros s l1 p1 E. destruct l1 as [|c1 l1].
    - simpl. apply b_next_char_eof; [auto|mono].
    - rewrite (b_next_char _ _ _ _ _ _ _ _ _ _ E); cbv beta iota zeta.
      destruct (span dugb (c1 :: l1)) as [d l2] eqn:SP.
      pose proof (num_exp_sim (char_fuel q) (r ++ [0; 118; 102; 0; 0; 0; 0] ++ body ++ [69] ++ s) p1 c1 l1 d l2 ltac:(unfold char_fuel; lia) E SP).
      destruct (stopped l2).
      + destruct H0 as (p' & A & B). exists p'. bnd A. split; auto.
        rewrite <- (value_close r 102 (body ++ 69 :: s ++ strip_und d)). now rewrite <- ?app_assoc.
      + apply bad_bind; [auto|mono]. }
  destruct l as [|c l].
  { simpl. apply b_next_char_eof; [auto|mono]. }
  rewrite (b_next_char _ _ _ _ _ _ _ _ _ _ H); cbv beta iota zeta. sk H. cbn [r_sign].
  destruct (c =? cMINUS) eqn:MI.
  - rewrite orb_true_r. rewrite bind_assoc. prim. specialize (T [cMINUS] l _ Tl).
    apply N.eqb_eq in MI. subst c. rewrite <- ?app_assoc. exact T.
  - destruct (c =? cPLUS) eqn:PL; cbn [orb].
    + rewrite bind_assoc. prim. specialize (T [] l _ Tl). rewrite app_nil_r in T. rewrite bind_assoc. prim. exact T.
    + specialize (T [] (c :: l) _ H). rewrite app_nil_r in T. rewrite (b_next_char _ _ _ _ _ _ _ _ _ _ H) in T. prim. exact T.
Qed.

Lemma mono_exp_part : forall a b, mono (exp_part a b). Proof. intros. unfold exp_part. mono. Qed.
Lemma number_sim : forall r p c l, txt p = c :: l -> sim ne (parse_number q (St r p)) (r_number (c :: l)) (gval r).
Proof.
  intros r p c l H. unfold parse_number. insts. prim. rewrite (b_current _ _ _ _ _ _ _ _ _ _ H); cbv beta iota zeta. sk H.
  set (hd := r ++ [0; 118; 105; 0; 0; 0; 0]).
  (* after the sign *)
  assert (T : forall s l1 p1, txt p1 = l1 ->
    sim ne
    ((c <- next_char q ;;
      stop <- num_int_loop q (char_fuel q) c;;
      match stop with
      | Some c1 =>
          stop0 <- (if c1 =? cDOT then store (length hd - 5) 102;;; (append [cDOT];;; num_frac_loop q (char_fuel q)) else ret (Some c1));;
          match stop0 with
          | Some _ => exp_part (length hd) (length hd - 5)
          | None => write_len (length hd) 4
          end
      | None => write_len (length hd) 4
      end) (St (hd ++ s) p1))
    (let (d, l2) := span dugb l1 in
     match l2 with
     | [] => None
     | c :: l3 =>
      if (c =? 101) || (c =? 69) then
        match r_exp_tail l3 with
        | Some (e, r) => Some (VFloat (s ++ strip_und d ++ e), r)
        | None => None
        end
      else if c =? cDOT then
        let (f, l4) := span dugb l3 in
        match l4 with
        | [] => None
        | c' :: l5 =>
            if (c' =? 101) || (c' =? 69) then
              match r_exp_tail l5 with
              | Some (e, r) => Some (VFloat (s ++ strip_und d ++ cDOT :: strip_und f ++ e), r)
              | None => None
              end
            else if num_stopb c' then Some (VFloat (s ++ strip_und d ++ cDOT :: strip_und f), l4)
            else None
        end
      else if num_stopb c then Some (VInt (s ++ strip_und d), l2)
      else None
     end) (gval r)).
  { intros s l1 p1 E. destruct l1 as [|c1 l1].
    { simpl. apply b_next_char_eof; [auto|mono; apply mono_exp_part]. }
    rewrite (b_next_char _ _ _ _ _ _ _ _ _ _ E); cbv beta iota zeta. cbv beta.
    destruct (span dugb (c1 :: l1)) as [d l2] eqn:SP.
    pose proof (num_int_sim (char_fuel q) (hd ++ s) p1 c1 l1 d l2 ltac:(unfold char_fuel; lia) E SP) as HI.
    destruct l2 as [|c2 l3]. { apply bad_sim; [auto|mono; apply mono_exp_part]. }
    destruct ((c2 =? 101) || (c2 =? 69)) eqn:EE.
    - replace ((c2 =? cDOT) || (c2 =? 101) || (c2 =? 69)) with true in HI by lia.
      destruct HI as (p2 & A & B). bnd A. replace (c2 =? cDOT) with false by lia. prim. sk B.
      pose proof (exp_sim r 105 (s ++ strip_und d) p2 l3 Tl0) as X. unfold hd in *.
      replace (((r ++ [0; 118; 105; 0; 0; 0; 0]) ++ s) ++ strip_und d) with (r ++ [0; 118; 105; 0; 0; 0; 0] ++ s ++ strip_und d) by (now rewrite <- !app_assoc).
      destruct (r_exp_tail l3) as [[e rest]|]; [|exact X].
      destruct X as (p' & X1 & X2). unfold sim. rewrite X1. exists p'. cbn [fst snd]. rewrite app_assoc. auto.
    - destruct (c2 =? cDOT) eqn:DD.
      + cbn [orb] in HI. destruct HI as (p2 & A & B). bnd A. rewrite DD. rewrite bind_assoc. unfold hd in *.
        replace (((r ++ [0; 118; 105; 0; 0; 0; 0]) ++ s) ++ strip_und d) with (r ++ [0; 118; 105; 0; 0; 0; 0] ++ s ++ strip_und d) by (now rewrite <- !app_assoc).
        rewrite kind_store. rewrite bind_assoc. prim. sk B.
        replace ((r ++ [0; 118; 102; 0; 0; 0; 0] ++ s ++ strip_und d) ++ [cDOT]) with (r ++ [0; 118; 102; 0; 0; 0; 0] ++ s ++ strip_und d ++ [cDOT]) by (now rewrite <- !app_assoc).
        rewrite (hdr_len r 105 102).
        destruct (span dugb l3) as [f l4] eqn:SF.
        pose proof (num_frac_sim (char_fuel q) (r ++ [0; 118; 102; 0; 0; 0; 0] ++ s ++ strip_und d ++ [cDOT]) p2 l3 f l4 ltac:(unfold char_fuel; lia) Tl0 SF) as HF.
        destruct l4 as [|c' l5]. { apply bad_sim; [auto|mono; apply mono_exp_part]. }
        destruct ((c' =? 101) || (c' =? 69)).
        * destruct HF as (p3 & A3 & B3). bnd A3. sk B3.
          pose proof (exp_sim r 102 (s ++ strip_und d ++ cDOT :: strip_und f) p3 l5 Tl1) as X.
          replace ((r ++ [0; 118; 102; 0; 0; 0; 0] ++ s ++ strip_und d ++ [cDOT]) ++ strip_und f) with
            (r ++ [0; 118; 102; 0; 0; 0; 0] ++ s ++ strip_und d ++ cDOT :: strip_und f) by (now rewrite <- !app_assoc).
          destruct (r_exp_tail l5) as [[e rest]|]; [|exact X].
          destruct X as (p' & X1 & X2). unfold sim. rewrite X1. exists p'. cbn [fst snd]. split; auto.
          do 3 f_equal. rewrite <- !app_assoc. reflexivity.
        * destruct (num_stopb c'). 2:{ apply bad_sim; [auto|mono; apply mono_exp_part]. }
          destruct HF as (p3 & A3 & B3). bnd A3.
          replace ((r ++ [0; 118; 102; 0; 0; 0; 0] ++ s ++ strip_und d ++ [cDOT]) ++ strip_und f) with
            (r ++ [0; 118; 102; 0; 0; 0; 0] ++ s ++ strip_und d ++ cDOT :: strip_und f) by (now rewrite <- !app_assoc).
          unfold sim. rewrite value_close. exists p3. auto.
      + cbn [orb] in HI. rewrite EE in HI. destruct (num_stopb c2). 2:{ apply bad_sim; [auto|mono; apply mono_exp_part]. }
        destruct HI as (p2 & A & B). bnd A. unfold hd.
        replace (((r ++ [0; 118; 105; 0; 0; 0; 0]) ++ s) ++ strip_und d) with (r ++ [0; 118; 105; 0; 0; 0; 0] ++ s ++ strip_und d) by (now rewrite <- !app_assoc).
        unfold sim. rewrite value_close. exists p2. auto. }
  unfold r_number. cbn [r_sign]. destruct (c =? cMINUS) eqn:MI.
  - rewrite bind_assoc. prim. rewrite bind_assoc. prim. apply (T [cMINUS] l _ Tl).
  - destruct (c =? cPLUS) eqn:PL.
    + rewrite bind_assoc. prim. specialize (T [] l _ Tl). rewrite app_nil_r in T. exact T.
    + prim. specialize (T [] (c :: l) _ H). rewrite app_nil_r in T. rewrite (b_next_char _ _ _ _ _ _ _ _ _ _ H) in T. exact T.
Qed.
End Sim.
