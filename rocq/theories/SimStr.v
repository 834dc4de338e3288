(** * The parser model follows the reference parser: strings (proofs) *)
From Coq Require Import String Arith NArith Bool Lia ZifyBool ZifyN ZifyNat List.
From Verif Require Import Base ParserModel Ast Grammar RefParser RefLemmas RefGrammar ParserSafe ParserMono SimBase SimLex.
Import ListNotations.
Open Scope N_scope.
Arguments skipn : simpl never.

Lemma hexE : forall c, hex_val c = hexv c. Proof. reflexivity. Qed.

Lemma trim_rev_app : forall y x, trim_rev (y ++ 0 :: x) = Some (drop_trail y ++ 0 :: x).
Proof. induction y; intros; simpl; auto. destruct ((a =? cLF) || (a =? cCR) || (a =? cSP)); auto. Qed.

Section Sim.
Variable q : bytes.
Variable fr : list nat.
Variable es : list perr.
Variable t : option nat.
Notation St r p := (PS r fr p es t).
Notation txt p := (skipn p q).
Notation ne := (length es).
Notation nc H := (b_next_char q fr es t _ _ _ _ _ _ H).

Lemma unicode_sim : forall r p c l, txt p = c :: l ->
  match l with
  | c1 :: c2 :: c3 :: c4 :: r' =>
      match hexv c1, hexv c2, hexv c3, hexv c4 with
      | Some a, Some b, Some d, Some e =>
          exists p', unicode_escape q (St r p) = Ok tt (St (r ++ utf8_encode (a * 4096 + b * 256 + d * 16 + e)) p') /\ txt (S p') = r'
      | _, _, _, _ => bad ne (unicode_escape q (St r p))
      end
  | _ => bad ne (unicode_escape q (St r p))
  end.
Proof.
  intros. unfold unicode_escape. prim. sk H.
  destruct l as [|c1 l]. { destruct (skipn_nil _ _ Tl) as (_ & A & _). destruct (skipn_nil _ _ A) as (_ & B & _).
    destruct (skipn_nil _ _ B) as (_ & C & _). destruct (skipn_nil _ _ C) as (D & _). rewrite D. apply err_bad. }
  sk Tl. destruct l as [|c2 l]. { destruct (skipn_nil _ _ Tl0) as (_ & A & _). destruct (skipn_nil _ _ A) as (_ & B & _).
    destruct (skipn_nil _ _ B) as (D & _). rewrite D. apply err_bad. }
  sk Tl0. destruct l as [|c3 l]. { destruct (skipn_nil _ _ Tl1) as (_ & A & _). destruct (skipn_nil _ _ A) as (D & _).
    rewrite D. apply err_bad. }
  sk Tl1. destruct l as [|c4 l]. { destruct (skipn_nil _ _ Tl2) as (D & _). rewrite D. apply err_bad. }
  sk Tl2. rewrite Nth0, Nth1, Nth2, Nth3. change hex_val with hexv; cbv beta iota zeta.
  destruct (hexv c1), (hexv c2), (hexv c3), (hexv c4); try apply err_bad.
  exists (S (S (S (S p)))). split; [reflexivity|auto].
Qed.

Lemma escape_sim : forall r p c l, txt p = c :: l ->
  match r_escape l with
  | Some (e, x) => exists p', string_escape q (St r p) = Ok tt (St (r ++ e) p') /\ txt (S p') = x
  | None => bad ne (string_escape q (St r p))
  end.
Proof.
  intros. unfold string_escape. prim. sk H. destruct l as [|c1 l].
  { simpl. apply bad_bind; [now apply next_char_eof | mono]. }
  rewrite (nc Tl); cbv beta. sk Tl. cbn [r_escape].
  destruct (c1 =? 0). { exists (S p). rewrite app_nil_r. auto. }
  destruct ((c1 =? 10) || (c1 =? 13)). { apply err_bad. }
  repeat (match goal with |- context [if c1 =? ?k then Some ([_], _) else _] =>
    destruct (c1 =? k); [exists (S p); auto|] end).
  destruct (c1 =? 117). 2:{ exists (S p); auto. }
  pose proof (unicode_sim r _ _ _ Tl). destruct l as [|a1 [|a2 [|a3 [|a4 l]]]]; auto.
  destruct (hexv a1), (hexv a2), (hexv a3), (hexv a4); auto.
Qed.

Notation hd := [0; 118; 115; 0; 0; 0; 0] (only parsing).

Lemma chars_sim : forall f g r b p l, (length q - p < f)%nat -> (length l < g)%nat -> txt (S p) = l ->
  match r_chars g l with
  | Some (d, x) => exists p', string_loop q f false (length (r ++ hd)) (St (r ++ hd ++ b) p) = Ok tt (St (r ++ enc_tagged 115 (b ++ d)) p') /\ txt p' = x
  | None => bad ne (string_loop q f false (length (r ++ hd)) (St (r ++ hd ++ b) p))
  end.
Proof.
  induction f; intros g r b p l F G H; [lia|]. destruct g; [lia|]. cbn [string_loop r_chars]. prim.
  destruct l as [|c l].
  { apply bad_bind; [now apply next_char_eof | mono]. }
  rewrite (nc H); cbv beta zeta. sk H. cbn [length] in G.
  destruct (c =? 0). { apply IHf; auto; lia. }
  destruct ((c =? 10) || (c =? 13)). { cbn [negb]. apply err_bad. }
  destruct (c =? cQUOT) eqn:Q.
  { cbn [negb]. prim. rewrite value_close. exists (S (S p)). rewrite app_nil_r. auto. }
  destruct (c =? cBSL) eqn:B.
  - pose proof (escape_sim (r ++ hd ++ b) _ _ _ H) as ES. destruct (r_escape l) as [[e x]|] eqn:RE.
    + destruct ES as (p' & A & B'). bnd A.
      destruct (r_escape_sound _ _ _ RE) as (y & Y1 & _ & Y3). 
      assert (length x <= length l)%nat by (rewrite Y1, app_length; lia).
      assert (length q - p' < f)%nat.
      { pose proof (skipn_length (S p') q). rewrite B' in H1.
        assert (length l = length q - S (S p))%nat by (rewrite <- Tl, skipn_length; lia). 
        assert (length x < length l)%nat by (rewrite Y1, app_length; destruct y; simpl; [congruence|lia]). lia. }
      specialize (IHf g r (b ++ e) p' x ltac:(lia) ltac:(lia) B').
      replace ((r ++ hd ++ b) ++ e) with (r ++ hd ++ b ++ e) by (now rewrite <- !app_assoc).
      destruct (r_chars g x) as [[d x']|]; auto. rewrite <- app_assoc in IHf. exact IHf.
    + apply bad_bind; [auto|mono].
  - prim. specialize (IHf g r (b ++ [c]) (S p) l ltac:(lia) ltac:(lia) Tl).
    replace ((r ++ hd ++ b) ++ [c]) with (r ++ hd ++ b ++ [c]) by (now rewrite <- !app_assoc).
    destruct (r_chars g l) as [[d x]|]; auto. rewrite <- app_assoc in IHf. exact IHf.
Qed.

Lemma trim_line_sim : forall f r p l, (length q - p < f)%nat -> txt (S p) = l ->
  match drop_blank l with
  | [] => bad ne (block_trim_line q f (St r p))
  | c :: x => exists p', block_trim_line q f (St r p) = Ok tt (St r p') /\ txt (S p') = c :: x
  end.
Proof.
  induction f; intros; [lia|]. cbn [block_trim_line]. prim. destruct l as [|c l].
  { simpl. apply bad_bind; [now apply next_char_eof | mono]. }
  rewrite (nc H0); cbv beta. sk H0. cbn [drop_blank]. destruct ((c =? cSP) || (c =? cTAB)).
  - apply IHf; auto. lia.
  - exists p. auto.
Qed.
Lemma trim_start_sim : forall f r p l, (length q - S p < f)%nat -> txt (S p) = l ->
  match drop_white l with
  | [] => bad ne (block_trim_start q f (St r (S p)))
  | c :: x => exists p', block_trim_start q f (St r (S p)) = Ok tt (St r p') /\ txt (S p') = c :: x
  end.
Proof.
  induction f; intros; [lia|]. cbn [block_trim_start]. destruct l as [|c l].
  { simpl. apply bad_bind; [now apply next_char_eof | mono]. }
  rewrite (nc H0); cbv beta. sk H0. cbn [drop_white]. destruct ((c =? cSP) || (c =? cTAB) || (c =? cLF) || (c =? cCR)).
  - prim. apply IHf; auto. lia.
  - exists p. auto.
Qed.

Lemma trim_end_sim : forall r b p, block_trim_end (St (r ++ hd ++ b) p) = Ok tt (St (r ++ hd ++ trim_end b) p).
Proof.
  intros. unfold block_trim_end. cbn [p_res]. 
  replace (rev (r ++ hd ++ b)) with (rev b ++ 0 :: rev (r ++ [0; 118; 115; 0; 0; 0])).
  - rewrite trim_rev_app. unfold set_res. cbn. do 2 f_equal. unfold trim_end.
    rewrite rev_app_distr. simpl. rewrite rev_involutive. rewrite <- !app_assoc. reflexivity.
  - rewrite !rev_app_distr. simpl. rewrite <- app_assoc. reflexivity.
Qed.

Lemma skip_lt : forall p p' (l l' : bytes), txt p = l -> txt p' = l' -> (p < length q)%nat -> (length l' < length l)%nat -> (length q - p' < length q - p)%nat.
Proof. intros. pose proof (skipn_length p q). pose proof (skipn_length p' q). rewrite H in H3. rewrite H0 in H4. lia. Qed.

Lemma block_sim : forall f g r b p l, (length q - p < f)%nat -> (length l < g)%nat -> txt (S p) = l ->
  match r_block g l with
  | Some (d, x) => exists p', string_loop q f true (length (r ++ hd)) (St (r ++ hd ++ b) p) = Ok tt (St (r ++ enc_tagged 115 (trim_end (b ++ d))) p') /\ txt p' = x
  | None => bad ne (string_loop q f true (length (r ++ hd)) (St (r ++ hd ++ b) p))
  end.
Proof.
  induction f; intros g r b p l F G H; [lia|]. destruct g; [lia|]. cbn [string_loop r_block]. prim.
  destruct l as [|c l].
  { apply bad_bind; [now apply next_char_eof | mono]. }
  rewrite (nc H); cbv beta zeta. sk H. cbn [length] in G.
  (* going on at [p'] behind the read text with [e] appended *)
  assert (K : forall e p' x, (length x <= length l)%nat -> txt (S p') = x ->
    match pre e (r_block g x) with
    | Some (d, x) => exists p'', string_loop q f true (length (r ++ hd)) (St (r ++ hd ++ b ++ e) p') = Ok tt (St (r ++ enc_tagged 115 (trim_end (b ++ d))) p'') /\ txt p'' = x
    | None => bad ne (string_loop q f true (length (r ++ hd)) (St (r ++ hd ++ b ++ e) p'))
    end).
  { intros e p' x L E. 
    assert (length q - p' < f)%nat.
    { assert (length l = length q - S (S p))%nat by (rewrite <- Tl, skipn_length; lia). pose proof (skipn_length (S p') q). rewrite E in H1. lia. }
    specialize (IHf g r (b ++ e) p' x ltac:(lia) ltac:(lia) E).
    destruct (r_block g x) as [[d y]|]; cbn [pre]; auto. rewrite <- app_assoc in IHf. exact IHf. }
  assert (R : forall e, (r ++ hd ++ b) ++ e = r ++ hd ++ b ++ e) by (intros; now rewrite <- !app_assoc).
  (* after a line end *)
  assert (T : forall e p' x, (length x <= length l)%nat -> txt (S p') = x ->
    match pre e (r_block g (drop_blank x)) with
    | Some (d, x) => exists p'', (block_trim_line q (char_fuel q) ;;; string_loop q f true (length (r ++ hd))) (St (r ++ hd ++ b ++ e) p') = Ok tt (St (r ++ enc_tagged 115 (trim_end (b ++ d))) p'') /\ txt p'' = x
    | None => bad ne ((block_trim_line q (char_fuel q) ;;; string_loop q f true (length (r ++ hd))) (St (r ++ hd ++ b ++ e) p'))
    end).
  { intros e p' x L E. pose proof (trim_line_sim (char_fuel q) (r ++ hd ++ b ++ e) p' x ltac:(unfold char_fuel; lia) E) as TL.
    pose proof (drop_blank_len x). destruct (drop_blank x) as [|c1 x'] eqn:DB.
    - destruct g; [lia|]. simpl. apply bad_bind; [auto|mono].
    - destruct TL as (p2 & A & B). bnd A. apply K; auto. lia. }
  destruct (c =? 0).
  { specialize (K [] (S p) l ltac:(lia) Tl). rewrite app_nil_r in K. destruct (r_block g l) as [[d y]|]; exact K. }
  destruct (c =? 10) eqn:LF.
  { cbn [orb negb]. prim. replace (c =? 13) with false by lia. prim. apply N.eqb_eq in LF. subst c.
    rewrite R. apply T; auto. }
  cbn [orb]. destruct (c =? 13) eqn:CR.
  { cbn [negb]. prim. apply N.eqb_eq in CR. subst c. rewrite bind_assoc. prim. rewrite R.
    destruct l as [|c2 l].
    - destruct (skipn_nil _ _ Tl) as (E1 & E2 & E3). rewrite E1. prim. cbn [strip]. apply T; auto.
    - sk Tl. rewrite Nth0. cbn [strip]. rewrite (N.eqb_sym 10 c2). destruct (c2 =? 10) eqn:LF2.
      + rewrite bind_assoc. prim. apply N.eqb_eq in LF2. subst c2.
        replace ((r ++ hd ++ b ++ [13]) ++ [10]) with (r ++ hd ++ b ++ [13; 10]) by (now rewrite <- !app_assoc).
        apply T; auto. simpl. lia.
      + prim. apply T; auto. }
  destruct (c =? cQUOT) eqn:Q.
  - cbn [negb]. pose proof (matches1_sim q fr es t """""""" (r ++ hd ++ b) (S p) ltac:(discriminate)) as MS.
    change (bs """""""") with triple in MS. rewrite H in MS. destruct (strip triple (c :: l)) as [x|] eqn:ST.
    + destruct MS as (p' & A & B). bnd A. bnd (trim_end_sim r b p'). rewrite value_close.
      exists p'. rewrite app_nil_r. auto.
    + bnd MS. replace (c =? cBSL) with false by lia. prim. apply N.eqb_eq in Q. subst c. rewrite R. apply K; auto.
  - destruct (c =? cBSL) eqn:B.
    + pose proof (escape_sim (r ++ hd ++ b) _ _ _ H) as ES. destruct (r_escape l) as [[e x]|] eqn:RE.
      * destruct ES as (p' & A & B'). bnd A. rewrite R. apply K; auto.
        destruct (r_escape_sound _ _ _ RE) as (y & Y1 & _ & Y3). rewrite Y1, app_length. lia.
      * apply bad_bind; [auto|mono].
    + prim. rewrite R. apply K; auto.
Qed.

Lemma string_sim : forall r p l, txt p = cQUOT :: l ->
  match r_string (cQUOT :: l) with
  | Some (d, x) => exists p', parse_string q (St r p) = Ok tt (St (r ++ enc_value (VStr d)) p') /\ txt p' = x
  | None => bad ne (parse_string q (St r p))
  end.
Proof.
  intros. unfold parse_string, r_string. insts. prim. sk H.
  pose proof (matches1_sim q fr es t """""""" (r ++ hd) p ltac:(discriminate)) as MS.
  change (bs """""""") with triple in MS. rewrite H in MS.
  destruct (strip triple (cQUOT :: l)) as [x|] eqn:ST.
  - destruct MS as (p1 & A & B). bnd A. destruct p1 as [|p1].
    { exfalso. apply strip_spec in ST. assert (length (txt p) = length (txt 0 ) + 3)%nat by (rewrite H, ST, B, app_length; simpl; lia).
      rewrite !skipn_length in H0. lia. }
    pose proof (trim_start_sim (char_fuel q) (r ++ hd) p1 x ltac:(unfold char_fuel; lia) B) as TS.
    pose proof (drop_white_len x). destruct (drop_white x) as [|c1 x'] eqn:DW.
    + simpl. apply bad_bind; [auto|mono].
    + destruct TS as (p2 & A2 & B2). bnd A2.
      assert (length x' < length (cQUOT :: l))%nat.
      { apply strip_spec in ST. rewrite ST, app_length. simpl in *. lia. }
      pose proof (block_sim (char_fuel q) (S (length (cQUOT :: l))) r [] p2 (c1 :: x') ltac:(unfold char_fuel; lia)
        ltac:(simpl in *; lia) B2) as BS.
      rewrite app_nil_r in BS. destruct (r_block _ _) as [[d y]|]; auto.
  - bnd MS. prim. pose proof (chars_sim (char_fuel q) (S (length (cQUOT :: l))) r [] p l ltac:(unfold char_fuel; lia)
      ltac:(simpl; lia) Tl) as CS.
    rewrite app_nil_r in CS. destruct (r_chars _ _) as [[d y]|]; auto.
Qed.
End Sim.
