(** * Proofs about the differ: blocks, ranges and groups *)
From Coq Require Import String NArith ZArith Lia Bool List Sorted.
From Verif Require Import Base DiffModel DiffSpec DiffProof.
Import ListNotations.
Open Scope nat_scope.

(** ** The list of common runs *)
(** Runs from [(i, j)] to [(hi, hj)] in order; what lies between them satisfies [G]. *)
Inductive chain (a b : list bytes) (G : nat -> nat -> nat -> nat -> Prop) : nat -> nat -> list mtch -> nat -> nat -> Prop :=
| ch_nil : forall i j hi hj, i <= hi -> j <= hj -> G i hi j hj -> chain a b G i j [] hi hj
| ch_cons : forall i j hi hj x r, i <= mA x -> j <= mB x -> 0 < mSize x -> eqrun a b (mA x) (mB x) (mSize x) -> G i (mA x) j (mB x) ->
    chain a b G (mA x + mSize x) (mB x + mSize x) r hi hj -> chain a b G i j (x :: r) hi hj.

Lemma chain_app : forall a b G l1 i j x l2 hi hj, chain a b G i j l1 (mA x) (mB x) -> 0 < mSize x -> eqrun a b (mA x) (mB x) (mSize x) ->
  chain a b G (mA x + mSize x) (mB x + mSize x) l2 hi hj -> chain a b G i j (l1 ++ x :: l2) hi hj.
Proof.
  induction l1; intros * H P E K; inversion H; subst; cbn [List.app]; constructor; auto.
Qed.

(** The lines between two runs have nothing in common when every line is in the table. *)
Definition apart (a b : list bytes) (m : matcher) (i i2 j j2 : nat) : Prop := exactly m -> disjoint a b i i2 j j2.

Lemma find_region : forall a b m alo ahi blo bhi, good a b m -> ahi <= length a -> bhi <= length b -> alo <= ahi -> blo <= bhi ->
  exists x, findLongestMatch m alo ahi blo bhi = Some x /\ ins a b alo ahi blo bhi (mA x) (mB x) (mSize x)
    /\ (mSize x = 0 -> apart a b m alo ahi blo bhi).
Proof.
  intros. destruct (find_ok a b m alo ahi blo bhi) as (x & E & B); auto. exists x. split; auto. split; auto.
  intros Z [J X] p q s P Q Ea Eb. rewrite (g_b _ _ _ H) in X.
  destruct (find_longest a b m alo ahi blo bhi H H0 H1 H2 H3 J (fun _ => True)) as (y & E' & B' & L & _); auto. rewrite E in E'; inversion E'; subst.
  destruct (L p q 1) as [?|[? _]]; try lia. unfold ins. sp; try lia.
  apply eqrun_snoc. rewrite !Nat.add_0_r. split; [apply eqrun_0; lia|]. sp; try lia. congruence.
Qed.

Lemma match_blocks : forall a b m, good a b m -> forall fuel alo ahi blo bhi acc, ahi <= length a -> bhi <= length b -> alo <= ahi -> blo <= bhi -> ahi - alo < fuel ->
  exists l, matchBlocks m fuel alo ahi blo bhi acc = Some (acc ++ l) /\ chain a b (apart a b m) alo blo l ahi bhi.
Proof.
  intros a b m Gd. induction fuel; intros * H1 H2 H3 H4 H5; [lia|]. cbn [matchBlocks].
  destruct (find_region a b m alo ahi blo bhi) as (x & -> & (B1 & B2 & B3 & B4 & B5) & Z); auto. cbn [dbind].
  destruct (0 <? mSize x) eqn:K; [apply Nat.ltb_lt in K|apply Nat.ltb_ge in K].
  2: { exists []. rewrite app_nil_r. split; auto. constructor; auto. apply Z; lia. }
  assert (L : exists l1, (if (alo <? mA x) && (blo <? mB x) then matchBlocks m fuel alo (mA x) blo (mB x) acc else Some acc) = Some (acc ++ l1)
             /\ chain a b (apart a b m) alo blo l1 (mA x) (mB x)).
  { destruct ((alo <? mA x) && (blo <? mB x)) eqn:C.
    - apply andb_true_iff in C as [C1 C2]. apply Nat.ltb_lt in C1, C2. apply IHfuel; lia.
    - exists []. rewrite app_nil_r. split; auto. constructor; auto. intros _ p q s P Q. apply andb_false_iff in C as [C|C]; apply Nat.ltb_ge in C; lia. }
  destruct L as (l1 & -> & L1). cbn [dbind].
  destruct ((mA x + mSize x <? ahi) && (mB x + mSize x <? bhi)) eqn:C.
  - apply andb_true_iff in C as [C1 C2]. apply Nat.ltb_lt in C1, C2.
    destruct (IHfuel (mA x + mSize x) ahi (mB x + mSize x) bhi ((acc ++ l1) ++ [x])) as (l2 & -> & L2); try lia.
    exists (l1 ++ x :: l2). split; [now rewrite <- !app_assoc|]. eapply chain_app; eauto.
  - exists (l1 ++ [x]). split; [now rewrite app_assoc|]. eapply chain_app; eauto. constructor; try lia.
    intros _ p q s P Q. apply andb_false_iff in C as [C|C]; apply Nat.ltb_ge in C; lia.
Qed.

Definition touch (x y : mtch) : Prop := mA x + mSize x = mA y /\ mB x + mSize x = mB y.
Inductive loose : list mtch -> Prop :=
| lo_nil : loose []
| lo_one : forall x, loose [x]
| lo_cons : forall x y r, ~ touch x y -> loose (y :: r) -> loose (x :: y :: r).

Lemma collapse_acc : forall l cur acc, collapse cur l acc = acc ++ collapse cur l [].
Proof.
  induction l; cbn [collapse]; intros.
  - destruct (0 <? mSize cur); auto. now rewrite app_nil_r.
  - destruct (_ && _); auto. rewrite IHl. destruct (0 <? mSize cur); auto.
    rewrite (IHl _ ([] ++ [cur])). now rewrite <- !app_assoc.
Qed.

Lemma collapse_ok : forall a b G hi hj l i j cur, 0 < mSize cur -> chain a b G i j (cur :: l) hi hj ->
  exists x r, collapse cur l [] = x :: r /\ mA x = mA cur /\ mB x = mB cur /\ chain a b G i j (x :: r) hi hj /\ loose (x :: r).
Proof.
  induction l; cbn [collapse]; intros i j cur P H.
  - apply Nat.ltb_lt in P. rewrite P. exists cur, []. cbn [List.app]. repeat split; auto. constructor.
  - inversion H as [|? ? ? ? ? ? A1 A2 A3 A4 A5 A6]; subst. inversion A6 as [|? ? ? ? ? ? B1 B2 B3 B4 B5 B6]; subst.
    destruct (_ && _) eqn:C.
    + apply andb_true_iff in C as [C1 C2]. apply Nat.eqb_eq in C1, C2.
      apply (IHl i j (Match (mA cur) (mB cur) (mSize cur + mSize a0))); cbn [mA mB mSize]; [lia|].
      constructor; cbn [mA mB mSize]; auto; [lia| |].
      * apply eqrun_app; auto. now rewrite C1, C2.
      * rewrite !Nat.add_assoc, C1, C2. auto.
    + rewrite collapse_acc. apply Nat.ltb_lt in P. rewrite P. cbn [List.app].
      destruct (IHl _ _ a0 B3 A6) as (x & r & E & E1 & E2 & E3 & E4). rewrite E. exists cur, (x :: r). repeat split; auto.
      * constructor; auto.
      * constructor; auto. intros [T1 T2]. apply andb_false_iff in C. rewrite E1 in T1. rewrite E2 in T2.
        apply Nat.eqb_eq in T1, T2. destruct C; congruence.
Qed.

Lemma collapse_start : forall a b G l hi hj, chain a b G 0 0 l hi hj ->
  chain a b G 0 0 (collapse (Match 0 0 0) l []) hi hj /\ loose (collapse (Match 0 0 0) l []).
Proof.
  intros * H. destruct l as [|x l]; cbn [collapse]; [cbn; split; auto; constructor|].
  destruct (_ && _) eqn:C.
  - apply andb_true_iff in C as [C1 C2]. apply Nat.eqb_eq in C1, C2. cbn [mA mB mSize Nat.add] in *.
    destruct x as [x1 x2 x3]. cbn [mA mB mSize] in *. subst.
    destruct (collapse_ok a b G hi hj l 0 0 (Match 0 0 x3)) as (y & r & -> & _ & _ & Y1 & Y2); auto.
    inversion H; subst; auto.
  - change (0 <? mSize (Match 0 0 0)) with false. cbn iota.
    destruct (collapse_ok a b G hi hj l 0 0 x) as (y & r & -> & _ & _ & Y1 & Y2); auto. inversion H; subst; auto.
Qed.

Lemma matching_blocks : forall a b m, good a b m -> matchingBlocks m = None ->
  exists l, GetMatchingBlocks m = Some (l ++ [Match (length a) (length b) 0],
      Matcher a b (b2j m) (isJunk m) (bJunk m) (bPopular m) (Some (l ++ [Match (length a) (length b) 0])) (opCodes m))
    /\ chain a b (apart a b m) 0 0 l (length a) (length b) /\ loose l.
Proof.
  intros a b m G N. unfold GetMatchingBlocks. rewrite N, (g_a _ _ _ G), (g_b _ _ _ G).
  destruct (match_blocks a b m G (S (length a)) 0 (length a) 0 (length b) []) as (l & -> & L); try lia. cbn [dbind List.app].
  apply collapse_start in L as [L1 L2]. eauto.
Qed.

(** ** The ranges *)
(** The shape of the list of ranges: as [script], and a range of equal lines never
    follows another, nor a change another change. *)
Inductive walk (a b : list bytes) (G : nat -> nat -> nat -> nat -> Prop) : bool -> nat -> nat -> list op -> Prop :=
| wk_end : forall e, walk a b G e (length a) (length b) []
| wk_equal : forall i j k r, 0 < k -> eqrun a b i j k -> walk a b G false (i + k) (j + k) r -> walk a b G true i j (Op cE i (i + k) j (j + k) :: r)
| wk_change : forall i j i2 j2 t r, i <= i2 -> j <= j2 -> i2 <= length a -> j2 <= length b ->
    ((t = cR /\ i < i2 /\ j < j2) \/ (t = cD /\ i < i2 /\ j = j2) \/ (t = cI /\ i = i2 /\ j < j2)) -> G i i2 j j2 ->
    walk a b G true i2 j2 r -> walk a b G false i j (Op t i i2 j j2 :: r).

Lemma op_loop_ok : forall a b G l i j, chain a b G i j l (length a) (length b) ->
  (match l with [] => True | y :: _ => ~ (i = mA y /\ j = mB y) end) -> loose l ->
  walk a b G false i j (op_loop i j (l ++ [Match (length a) (length b) 0]))
  \/ (i = length a /\ j = length b /\ l = []).
Proof.
  intros a b G. induction l as [|x l IH]; intros i j H N L.
  - inversion H; subst. cbn [List.app op_loop mA mB mSize]. change (0 <? 0) with false. cbn iota. rewrite !app_nil_r.
    destruct (i <? length a) eqn:E1; destruct (j <? length b) eqn:E2; cbn [andb];
      rewrite ?Nat.ltb_lt, ?Nat.ltb_ge in E1; rewrite ?Nat.ltb_lt, ?Nat.ltb_ge in E2.
    + left. change (0 <? cR)%N with true. cbn iota. apply wk_change; auto. constructor.
    + left. change (0 <? cD)%N with true. cbn iota. apply wk_change; auto; [right; left; repeat split; lia|constructor].
    + left. change (0 <? cI)%N with true. cbn iota. apply wk_change; auto; [right; right; repeat split; lia|constructor].
    + right. repeat split; lia.
  - left. cbn [List.app op_loop]. inversion H as [|? ? ? ? ? ? A1 A2 A3 A4 A5 A6]; subst.
    assert (W : walk a b G true (mA x) (mB x) ([Op cE (mA x) (mA x + mSize x) (mB x) (mB x + mSize x)] ++
                op_loop (mA x + mSize x) (mB x + mSize x) (l ++ [Match (length a) (length b) 0]))).
    { cbn [List.app]. constructor; auto.
      assert (L' : loose l) by (inversion L; subst; auto; constructor).
      destruct (IH (mA x + mSize x) (mB x + mSize x)) as [W|(E1 & E2 & E3)]; auto.
      - inversion L; subst; auto.
      - subst l. cbn [List.app op_loop mA mB mSize]. rewrite E1, E2, !Nat.ltb_irrefl. cbn. constructor. }
    assert (W2 : i < mA x \/ j < mB x) by lia.
    pose proof A4 as (A7 & A8 & _).
    apply Nat.ltb_lt in A3. rewrite A3.
    destruct (i <? mA x) eqn:E1; destruct (j <? mB x) eqn:E2; cbn [andb]; rewrite ?Nat.ltb_lt, ?Nat.ltb_ge in E1; rewrite ?Nat.ltb_lt, ?Nat.ltb_ge in E2; try lia.
    + change (0 <? cR)%N with true. cbn iota. apply wk_change; auto; lia.
    + change (0 <? cD)%N with true. cbn iota. apply wk_change; auto; lia.
    + change (0 <? cI)%N with true. cbn iota. apply wk_change; auto; lia.
Qed.

(** From the start: a first range of equal lines is possible. *)
Lemma op_loop_start : forall a b G l, chain a b G 0 0 l (length a) (length b) -> loose l ->
  exists e, walk a b G e 0 0 (op_loop 0 0 (l ++ [Match (length a) (length b) 0])).
Proof.
  intros a b G [|x l] H L.
  - destruct (op_loop_ok a b G [] 0 0 H Logic.I L) as [W|(E1 & E2 & _)]; eauto.
    cbn [List.app op_loop mA mB mSize]. rewrite <- E1, <- E2. cbn. exists false. rewrite E1 at 1. rewrite E2 at 1. constructor.
  - destruct (Nat.eq_dec (mA x) 0) as [Ea|]; [destruct (Nat.eq_dec (mB x) 0) as [Eb|]|].
    2, 3: destruct (op_loop_ok a b G (x :: l) 0 0 H) as [W|(_ & _ & E)]; eauto; [lia|discriminate].
    exists true. inversion H as [|? ? ? ? ? ? A1 A2 A3 A4 A5 A6]; subst.
    destruct x as [x1 x2 k]. cbn [mA mB mSize] in *. subst. cbn [List.app op_loop mA mB mSize Nat.add].
    change (0 <? 0) with false. cbn [andb]. change (0 <? 0)%N with false. cbn iota. cbn [List.app].
    pose proof A3 as A3'. apply Nat.ltb_lt in A3'. rewrite A3'. cbn [List.app].
    change (Op cE 0 k 0 k) with (Op cE 0 (0 + k) 0 (0 + k)). constructor; auto. cbn [Nat.add].
    assert (L' : loose l) by (inversion L; subst; auto; constructor).
    destruct (op_loop_ok a b G l k k) as [W|(E1 & E2 & E3)]; auto.
    + inversion L; subst; auto.
    + subst l. cbn [List.app op_loop mA mB mSize]. rewrite <- E1, <- E2, !Nat.ltb_irrefl. cbn. rewrite E1 at 1. rewrite E2. constructor.
Qed.

Lemma codes_ok : forall a b m, good a b m -> matchingBlocks m = None -> opCodes m = None ->
  exists l m', GetOpCodes m = Some (l, m') /\ opCodes m' = Some l /\ exists e, walk a b (apart a b m) e 0 0 l.
Proof.
  intros a b m G N1 N2. unfold GetOpCodes. rewrite N2. destruct (matching_blocks a b m G N1) as (l & -> & L1 & L2). cbn [dbind fst snd].
  destruct (op_loop_start a b _ l L1 L2) as (e & W). eexists _, _. split; [reflexivity|]. split; [reflexivity|]. eauto.
Qed.

Lemma walk_script : forall a b G e i j l, walk a b G e i j l -> script a b i j l.
Proof.
  induction 1.
  - constructor.
  - constructor; auto. now apply eqrun_common.
  - destruct H3 as [(-> & ? & ?)|[(-> & ? & <-)|(-> & <- & ?)]]; constructor; auto.
Qed.

Lemma walk_bounds : forall a b G e i j l, walk a b G e i j l -> i <= length a /\ j <= length b.
Proof. induction 1; lia. Qed.
