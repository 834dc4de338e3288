(** * Proofs about the differ: two equal lists give an empty diff *)
From Coq Require Import String NArith ZArith Lia Bool List Sorted.
From Verif Require Import Base DiffModel DiffSpec DiffProof DiffBlocks DiffText.
Import ListNotations.
Open Scope nat_scope.

Section same.
  Variables (l : list bytes) (m : matcher).
  Hypothesis G : good l l m.
  Hypothesis J : bJunk m = [].

  Definition tabled (t : nat) : Prop := exists s, nth_error l t = Some s /\ sget (b2j m) s = places 0 l s.
  Definition run_t (i k : nat) : Prop := k <= i /\ forall t, i - k <= t < i -> tabled t.

  Lemma run_cons : forall i k, tabled i -> run_t i k -> run_t (S i) (S k).
  Proof. intros i k T [L H]. split; [lia|]. intros t Ht. destruct (Nat.eq_dec t i); subst; auto. apply H. lia. Qed.
  Lemma run_pred : forall i k, run_t (S i) (S k) -> run_t i k.
  Proof. intros i k [L H]. split; [lia|]. intros. apply H. lia. Qed.
  Lemma run_0 : forall i, run_t i 0.
  Proof. intros. split; lia. Qed.

  Definition row1 (i : nat) (t : imap) : Prop := forall j, 0 < iget t j -> run_t i (iget t j) /\ run_t (S j) (iget t j).
  Definition row2 (i : nat) (t : imap) : Prop := forall k i', i = S i' -> run_t i k -> k <= iget t i'.
  Definition atleast (i : nat) (x : mtch) : Prop := forall i' k, i' <= i -> run_t i' k -> k <= mSize x.

  Lemma scan_same : forall i s t js new best, nth_error l i = Some s -> tabled i -> row1 i t -> row2 i t ->
    (forall j, In j js -> nth_error l j = Some s) -> StronglySorted lt js ->
    row1 (S i) new -> atleast i best -> mA best = mB best ->
    (~ In i js -> atleast (S i) best /\ row2 (S i) new) ->
    let r := scan_js 0 (length l) i t js new best in
    row1 (S i) (fst r) /\ row2 (S i) (fst r) /\ atleast (S i) (snd r) /\ mA (snd r) = mB (snd r).
  Proof.
    induction js as [|j js IH]; intros new best Es T R1 R2 Hin Hs N1 B D P; cbn [scan_js].
    - destruct P as [P1 P2]; [easy|]. cbn. auto.
    - inversion Hs as [|? ? Hs1 Hs2]; subst. rewrite Forall_forall in Hs2. change (j <? 0) with false. cbn iota.
      assert (Ej : nth_error l j = Some s) by (apply Hin; now left).
      assert (Lj : j < length l) by (apply nth_error_Some; congruence).
      replace (length l <=? j) with false by (symmetry; apply Nat.leb_gt; auto).
      fold (kof t j). set (best' := if mSize best <? kof t j then Match (i + 1 - kof t j) (j + 1 - kof t j) (kof t j) else best).
      assert (Tj : tabled j).
      { destruct T as (s' & E1 & E2). rewrite Es in E1; inversion E1; subst. exists s'. auto. }
      assert (K : run_t (S i) (kof t j) /\ run_t (S j) (kof t j)).
      { unfold kof. rewrite Nat.add_1_r. destruct j as [|j']; [split; apply run_cons; auto using run_0|].
        destruct (Nat.eq_dec (iget t j') 0) as [E|E]; [rewrite E; split; apply run_cons; auto using run_0|].
        destruct (R1 j' ltac:(lia)) as [K1 K2]. split; apply run_cons; auto. }
      destruct K as [K1 K2].
      assert (S1 : mSize best <= mSize best') by (unfold best'; destruct (mSize best <? kof t j) eqn:E; auto; apply Nat.ltb_lt in E; cbn [mSize]; lia).
      apply IH; auto.
      + intros; apply Hin; now right.
      + intros j0. cbn [iget]. destruct (j =? j0) eqn:E; [apply Nat.eqb_eq in E; subst; auto|auto].
      + intros i' k Hi Hr. specialize (B i' k Hi Hr). lia.
      + unfold best'. destruct (mSize best <? kof t j) eqn:E; auto. apply Nat.ltb_lt in E. cbn [mA mB].
        enough (j = i) by (subst; auto). destruct (Nat.lt_trichotomy j i) as [Lt|[Eq|Gt]]; auto; exfalso.
        * specialize (B (S j) _ ltac:(lia) K2). lia.
        * destruct P as [P1 _]; [intros [?|I]; [lia|specialize (Hs2 _ I); lia]|]. specialize (P1 (S i) _ ltac:(lia) K1). lia.
      + intros Ni. destruct (Nat.eq_dec j i) as [->|Ne].
        * assert (F : forall k, run_t (S i) k -> k <= kof t i).
          { intros k Hr. destruct k; [lia|]. apply run_pred in Hr. unfold kof. destruct i as [|i']; [destruct Hr; lia|].
            specialize (R2 k i' eq_refl Hr). lia. }
          assert (S2 : kof t i <= mSize best').
          { unfold best'. destruct (mSize best <? kof t i) eqn:E; cbn [mSize]; auto. now apply Nat.ltb_ge in E. }
          split.
          -- intros i' k Hi Hr. destruct (Nat.eq_dec i' (S i)); [subst; specialize (F _ Hr); lia|]. specialize (B i' k ltac:(lia) Hr). lia.
          -- intros k i' E Hr. inversion E; subst. cbn [iget]. rewrite Nat.eqb_refl. auto.
        * destruct P as [P1 P2]; [intros [?|I]; auto|]. split.
          -- intros i' k Hi Hr. specialize (P1 i' k Hi Hr). lia.
          -- intros k i' E Hr. inversion E; subst. cbn [iget]. apply Nat.eqb_neq in Ne. rewrite Ne. apply P2; auto.
  Qed.

  Lemma scan_as_same : forall fuel i t best x, row1 i t -> row2 i t -> atleast i best -> mA best = mB best ->
    scan_as m (length l) 0 (length l) fuel i t best = Some x -> mA x = mB x.
  Proof.
    induction fuel; cbn [scan_as]; intros i t best x R1 R2 B D E; destruct (i =? length l); try (inversion E; subst; auto; fail); try discriminate.
    rewrite (g_a _ _ _ G) in E. destruct (nth_error l i) as [s|] eqn:Es; [cbn [dbind] in E|discriminate].
    destruct (g_in _ _ _ G s) as [Z|Z].
    - assert (Nt : sget (b2j m) s <> places 0 l s).
      { rewrite Z. intros Q. assert (I : In i (places 0 l s)) by (apply places_in; rewrite Nat.sub_0_r; split; auto; lia). now rewrite <- Q in I. }
      rewrite Z in E. cbn [scan_js] in E.
      assert (R0 : forall k, run_t (S i) k -> k = 0).
      { intros k [H1 H2]. destruct k; auto. destruct (H2 i ltac:(lia)) as (s' & E1 & E2). rewrite Es in E1; inversion E1; subst. contradiction. }
      eapply IHfuel; [| | |exact D|exact E].
      + intros j; cbn; lia.
      + intros k i' Q Hr. inversion Q; subst. apply R0 in Hr. lia.
      + intros i' k Hi Hr. destruct (Nat.eq_dec i' (S i)); [subst; apply R0 in Hr; lia|]. apply (B i' k); auto; lia.
    - assert (T : tabled i) by (exists s; auto).
      pose proof (scan_same i s t (sget (b2j m) s) [] best Es T R1 R2) as K. rewrite Z in *.
      destruct (scan_js 0 (length l) i t (places 0 l s) [] best) as [new best'].
      cbn [fst snd] in K. destruct K as (K1 & K2 & K3 & K4); auto.
      + intros j I. apply places_in in I as [_ I]. now rewrite Nat.sub_0_r in I.
      + apply places_sorted.
      + intros j; cbn; lia.
      + intros N. exfalso. apply N. apply places_in. rewrite Nat.sub_0_r. split; auto; lia.
      + eapply IHfuel; [exact K1|exact K2|exact K3|exact K4|exact E].
  Qed.

  Lemma find_same : findLongestMatch m 0 (length l) 0 (length l) = Some (Match 0 0 (length l)).
  Proof.
    unfold findLongestMatch. rewrite (g_a _ _ _ G).
    destruct (scan_as_ok l l m 0 (length l) 0 (length l) G (le_n _) (le_n _) (length l) 0 [] (Match 0 0 0)) as (x & E & X); try lia.
    { intros j; cbn; lia. } { apply start_ok; lia. }
    rewrite E. cbn [dbind].
    apply scan_as_same in E; auto.
    2: { intros j; cbn; lia. } 2: { intros k i' Q; discriminate. } 2: { intros i' k Hi [H _]. cbn. lia. }
    destruct (grow_left_ok l l m 0 (length l) 0 (length l) G (le_n _) (le_n _) false (length l) x) as (y & -> & Y & YL & Y1 & Y2 & Y3); auto; [lia|]. cbn [dbind].
    assert (Ya : mA y = 0).
    { destruct (mA y) eqn:Ea; auto. exfalso. assert (mB y = S n) by lia. pose proof Y as (_ & Y4 & _ & Y5 & _).
      destruct (nth_lt _ l n) as (s & Es); [lia|]. unfold left_end in YL. rewrite Ea, H in YL. cbn [Nat.sub] in YL. rewrite Nat.sub_0_r in YL.
      apply (YL ltac:(lia) ltac:(lia) s); auto. apply no_junk; auto. }
    assert (Yb : mB y = 0) by lia.
    destruct (grow_right_ok l l m 0 (length l) 0 (length l) G (le_n _) (le_n _) false (length l) y) as (z & -> & Z & ZR & Z1 & Z2 & Z3); auto; [lia|]. cbn [dbind].
    assert (z = Match 0 0 (length l)).
    { destruct z as [z1 z2 z3]. cbn [mA mB mSize] in *. subst z1 z2. rewrite Ya, Yb in *. f_equal.
      pose proof Z as (_ & Z4 & _ & Z5 & _). cbn [mA mB mSize] in *. destruct (Nat.eq_dec z3 (length l)); auto. exfalso.
      destruct (nth_lt _ l z3) as (s & Es); [lia|]. unfold right_end in ZR. cbn [mA mB mSize Nat.add] in ZR.
      apply (ZR ltac:(lia) ltac:(lia) s); auto. apply no_junk; auto. }
    subst z. rewrite (junk_left l l m 0 (length l) 0 (length l)) by (auto with arith). cbn [dbind].
    now rewrite (junk_right l l m 0 (length l) 0 (length l)) by (auto with arith).
  Qed.
End same.

Lemma same_codes : forall l, exists m', GetOpCodes (newMatcher None l l) = Some (match l with [] => [] | _ => [Op cE 0 (length l) 0 (length l)] end, m').
Proof.
  intros l. pose proof (find_same l (newMatcher None l l) (new_good _ _ _) eq_refl) as F.
  unfold GetOpCodes. change (opCodes (newMatcher None l l)) with (@None (list op)). cbn iota.
  unfold GetMatchingBlocks. change (matchingBlocks (newMatcher None l l)) with (@None (list mtch)). cbn iota.
  rewrite (g_a _ _ _ (new_good None l l)), (g_b _ _ _ (new_good None l l)). cbn [matchBlocks]. rewrite F. cbn [dbind mA mB mSize].
  destruct l as [|s l].
  - cbn. eexists. reflexivity.
  - change (0 <? length (s :: l)) with true. cbn iota. change (0 <? 0) with false. cbn [andb dbind Nat.add]. rewrite Nat.ltb_irrefl. cbn [andb dbind List.app].
    cbn [collapse mA mB mSize Nat.add]. change (0 =? 0) with true. cbn [andb mSize]. change (0 <? length (s :: l)) with true. cbn iota.
    cbn [List.app fst op_loop mA mB mSize Nat.add]. change (0 <? 0) with false. cbn [andb]. change (0 <? 0)%N with false.
    change (0 <? length (s :: l)) with true. cbn iota. rewrite Nat.ltb_irrefl. cbn [andb]. change (0 <? 0)%N with false. cbn iota. cbn [List.app].
    eexists. reflexivity.
Qed.

Lemma same_empty : forall l, GetUnifiedDiffString l l = Some [].
Proof.
  intros l. unfold GetUnifiedDiffString, GetGroupedOpCodes. destruct (same_codes l) as (m' & ->). cbn [dbind fst snd].
  destruct l as [|s l]; [reflexivity|].
  change (1 <? 0)%Z with false. cbn iota. change (Z.to_nat 1) with 1.
  set (k := length (s :: l)). assert (0 < k) by (unfold k; cbn; lia). clearbody k.
  cbn [fix_first tag I1 I2 J1 J2]. change (cE =? cE)%N with true. cbn iota. cbn [fix_last tag I1 I2 J1 J2]. change (cE =? cE)%N with true. cbn iota.
  cbn [group_loop tag I1 I2 J1 J2]. change (cE =? cE)%N with true. cbn [andb].
  replace (1 + 1 <? _) with false by (symmetry; apply Nat.ltb_ge; lia). reflexivity.
Qed.

Lemma empty_same : forall a b, GetUnifiedDiffString a b = Some [] -> a = b.
Proof.
  intros a b E. destruct (diff_ok a b) as (gs & m' & E2 & S & D). rewrite D in E. destruct gs as [|g gs]; [|discriminate].
  pose proof (groups_read _ _ _ _ _ S 0 ltac:(cbn; lia)) as R. cbn in R. congruence.
Qed.
