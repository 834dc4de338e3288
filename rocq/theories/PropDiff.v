(** * C55: the diff in a failed assertion *)
From Coq Require Import String NArith ZArith Lia Bool List.
From Verif Require Import Base DiffModel DiffSpec DiffProof DiffBlocks DiffText DiffSame.
Import ListNotations.
Open Scope nat_scope.

(** One letter a line, for the examples. *)
Definition letters (s : string) : list bytes := map (fun c => [c; 10%N]) (bs s).
Definition old_text := letters "abcdefghij".
Definition new_text := letters "abxdefghijkl".

(** Below 200 lines: of all common runs the longest, then the earliest. *)
Theorem C55_longest : forall a b alo ahi blo bhi, length b < 200 -> alo <= ahi <= length a -> blo <= bhi <= length b ->
  exists x, findLongestMatch (newMatcher None a b) alo ahi blo bhi = Some x
    /\ longest a b alo ahi blo bhi (mA x) (mB x) (mSize x).
Proof.
  intros a b alo ahi blo bhi L [A1 A2] [B1 B2]. pose proof (new_exactly a b L) as [J X].
  assert (X' : forall s, sget (b2j (newMatcher None a b)) s = places 0 b s) by (intros; rewrite X, (g_b _ _ _ (new_good None a b)); auto).
  destruct (find_longest a b _ alo ahi blo bhi (new_good None a b) A2 B2 A1 B1 J (fun _ => True) (fun s _ => X' s) (fun _ => Logic.I)) as (x & E & B & M & Z).
  exists x. split; auto. unfold longest. split; [now apply ins_inside|]. split; [|split; auto].
  - intros i' j' k' H. destruct k'; [lia|]. apply ins_inside in H. destruct (M i' j' (S k') ltac:(lia) H) as [?|[? _]]; lia.
  - intros i' j' H. destruct (mSize x) eqn:Q.
    + destruct (Z eq_refl) as [-> ->]. destruct H as (H1 & _ & H2 & _). lia.
    + apply ins_inside in H. destruct (M i' j' (S n) ltac:(lia) H) as [?|[_ K]]; [lia|exact K].
Qed.
Example C55_longest_ex : findLongestMatch (newMatcher None old_text new_text) 0 10 0 12 = Some (Match 3 3 7).
Proof. vm_compute. reflexivity. Qed.
Print Assumptions C55_longest.

(** From 200 lines on the comment of findLongestMatch is wrong: a line that is in both
    lists, four times in the longer one, is not found. *)
Theorem C55_longest_refuted : exists a b x, length b = 200 /\ (forall s, In s a -> count_occ bytes_eq_dec b s <= 4)
  /\ findLongestMatch (newMatcher None a b) 0 (length a) 0 (length b) = Some x
  /\ mSize x = 0 /\ ~ longest a b 0 (length a) 0 (length b) (mA x) (mB x) (mSize x).
Proof.
  exists (letters "yx"), (repeat [122%N; 10%N] 100 ++ repeat [120%N; 10%N] 4 ++ repeat [122%N; 10%N] 96), (Match 0 0 0). split; [reflexivity|].
  split; [intros s [<-|[<-|[]]]; vm_compute; lia|]. split; [vm_compute; reflexivity|]. split; [reflexivity|].
  intros (_ & M & _). specialize (M 1 100 1). enough (1 <= 0) by lia. apply M. unfold inside, common.
  vm_compute. repeat split; repeat constructor.
Qed.
Print Assumptions C55_longest_refuted.

(** For any number of lines: no run of lines that are not frequent is longer. *)
Theorem C55_infrequent : forall a b alo ahi blo bhi, alo <= ahi <= length a -> blo <= bhi <= length b ->
  exists x, findLongestMatch (newMatcher None a b) alo ahi blo bhi = Some x
    /\ inside a b alo ahi blo bhi (mA x) (mB x) (mSize x)
    /\ forall i j k, inside a b alo ahi blo bhi i j k -> Forall (infrequent b) (firstn k (skipn i a)) -> k <= mSize x.
Proof.
  intros a b alo ahi blo bhi [A1 A2] [B1 B2].
  destruct (find_frequent a b _ alo ahi blo bhi (new_good None a b) A2 B2 A1 B1 eq_refl (infrequent b) (new_infrequent a b)) as (x & E & B & M).
  exists x. split; auto. split; [now apply ins_inside|]. intros i j k H F. destruct k; [lia|]. apply ins_inside in H. apply (M i j); auto; [lia|].
  intros t s Ht Es. rewrite Forall_forall in F. apply F. apply (nth_error_In _ (t - i)). rewrite nth_first, nth_skip by lia.
  now replace (i + (t - i)) with t by lia.
Qed.
Example C55_infrequent_ex :
  let b := repeat [120%N; 10%N] 100 ++ letters "pq" ++ repeat [120%N; 10%N] 100 in
  findLongestMatch (newMatcher None (letters "yxpqxz") b) 0 6 0 202 = Some (Match 1 99 4) /\ Forall (infrequent b) (letters "pq").
Proof. cbn zeta. split; [vm_compute; reflexivity|]. repeat constructor; right; vm_compute; repeat constructor. Qed.
Print Assumptions C55_infrequent.

(** For any number of lines: a common run that cannot be made longer. *)
Theorem C55_run : forall a b alo ahi blo bhi, alo <= ahi <= length a -> blo <= bhi <= length b ->
  exists x, findLongestMatch (newMatcher None a b) alo ahi blo bhi = Some x
    /\ inside a b alo ahi blo bhi (mA x) (mB x) (mSize x)
    /\ stuck a b alo ahi blo bhi (mA x) (mB x) (mSize x).
Proof.
  intros a b alo ahi blo bhi [A1 A2] [B1 B2].
  destruct (find_stuck a b _ alo ahi blo bhi (new_good None a b) A2 B2 A1 B1 eq_refl) as (x & E & B & S1 & S2).
  exists x. split; auto. split; [now apply ins_inside|]. split; intros; rewrite <- ins_inside; auto.
Qed.
Example C55_run_ex : findLongestMatch (newMatcher None (letters "yxxz") (repeat [120%N; 10%N] 200)) 1 4 0 200 = Some (Match 1 0 2).
Proof. vm_compute. reflexivity. Qed.
Print Assumptions C55_run.

(** The list of runs: in order in both lists, none empty, none touching the next, and an
    empty one at the ends to close it.  For any notion of junk. *)
Theorem C55_blocks : forall junk a b, exists l m',
  GetMatchingBlocks (newMatcher junk a b) = Some (l ++ [Match (length a) (length b) 0], m') /\ forward a b 0 0 l.
Proof.
  intros. destruct (matching_blocks a b _ (new_good junk a b)) as (l & E & C & L).
  { unfold newMatcher. destruct (chainB b junk) as [[? ?] ?]. reflexivity. }
  eexists _, _. split; [exact E|]. eapply chain_forward; eauto.
Qed.
Example C55_blocks_ex : option_map fst (GetMatchingBlocks (newMatcher None old_text new_text)) = Some [Match 0 0 2; Match 3 3 7; Match 10 12 0].
Proof. vm_compute. reflexivity. Qed.
Print Assumptions C55_blocks.

(** The ranges: they lead from the one list to the other. *)
Theorem C55_opcodes : forall junk a b, exists l m',
  GetOpCodes (newMatcher junk a b) = Some (l, m') /\ script a b 0 0 l /\ concat (map (outcome a b) l) = b.
Proof.
  intros. destruct (codes_ok a b _ (new_good junk a b)) as (l & m' & E & _ & e & W).
  1, 2: unfold newMatcher; destruct (chainB b junk) as [[? ?] ?]; reflexivity.
  exists l, m'. split; auto. split; [eapply walk_script; eauto|].
  exact (walk_outcome _ _ _ _ _ _ _ W).
Qed.
Example C55_opcodes_ex : option_map fst (GetOpCodes (newMatcher None old_text new_text))
  = Some [Op cE 0 2 0 2; Op cR 2 3 2 3; Op cE 3 10 3 10; Op cI 10 10 10 12].
Proof. vm_compute. reflexivity. Qed.
Print Assumptions C55_opcodes.

(** Below 200 lines no line is shown as both removed and added in one place. *)
Theorem C55_no_common : forall a b, length b < 200 -> exists l m',
  GetOpCodes (newMatcher None a b) = Some (l, m')
  /\ forall c, In c l -> is_equal c = false -> disjoint a b (I1 c) (I2 c) (J1 c) (J2 c).
Proof.
  intros a b L. destruct (codes_ok a b _ (new_good None a b) eq_refl eq_refl) as (l & m' & E & _ & e & W).
  exists l, m'. split; auto. intros c I Q. eapply walk_apart; eauto. now apply new_exactly.
Qed.
Example C55_no_common_ex : option_map fst (GetOpCodes (newMatcher None (letters "pabq") (letters "qcap"))) = Some [Op cI 0 0 0 3; Op cE 0 1 3 4; Op cD 1 4 4 4].
Proof. vm_compute. reflexivity. Qed.
Print Assumptions C55_no_common.

(** From 200 lines on a line can be removed and added again in one place. *)
Theorem C55_no_common_refuted : exists a b l m', length b = 200 /\ GetOpCodes (newMatcher None a b) = Some (l, m')
  /\ exists c, In c l /\ is_equal c = false /\ ~ disjoint a b (I1 c) (I2 c) (J1 c) (J2 c).
Proof.
  exists (letters "yx"), (repeat [120%N; 10%N] 200). eexists [Op cR 0 2 0 200], _. split; [reflexivity|]. split; [vm_compute; reflexivity|].
  exists (Op cR 0 2 0 200). split; [now left|]. split; [reflexivity|]. intros D. cbn [I1 I2 J1 J2] in D.
  apply (D 1 0 [120%N; 10%N]); [lia|lia|reflexivity|reflexivity].
Qed.
Print Assumptions C55_no_common_refuted.

(** Groups for any number of context lines (3 when negative): every change is in them, in
    order, and no group has more context than asked for. *)
Theorem C55_groups : forall n a b, exists l m' gs m'',
  GetOpCodes (newMatcher None a b) = Some (l, m')
  /\ GetGroupedOpCodes n (newMatcher None a b) = Some (gs, m'')
  /\ Forall (grouped (if (n <? 0)%Z then 3 else Z.to_nat n)) gs
  /\ filter (fun c => negb (is_equal c)) (concat gs) = filter (fun c => negb (is_equal c)) l.
Proof.
  intros. destruct (grouped_ok a b (newMatcher None a b) n (new_good _ _ _) eq_refl eq_refl) as (l & m' & gs & m'' & E1 & E2 & _ & K1 & K2).
  exists l, m', gs, m''. auto.
Qed.
Example C55_groups_ex : option_map fst (GetGroupedOpCodes 2 (newMatcher None old_text new_text))
  = Some [[Op cE 0 2 0 2; Op cR 2 3 2 3; Op cE 3 5 3 5]; [Op cE 8 10 8 10; Op cI 10 10 10 12]].
Proof. vm_compute. reflexivity. Qed.
Print Assumptions C55_groups.

(** The printed diff, read back as patch reads it, turns the one list into the other. *)
Theorem C55_patch : forall a b, Forall line a -> Forall line b ->
  exists t, GetUnifiedDiffString a b = Some t /\ patch t a = Some b.
Proof. exact patch_ok. Qed.
Example C55_patch_ex : GetUnifiedDiffString (letters "abcde") (letters "abxde") =
  Some (concat (map (fun s => bs s ++ [10%N]) ["--- Expected"; "+++ Actual"; "@@ -2,3 +2,3 @@"; " b"; "-c"; "+x"; " d"]%string)).
Proof. vm_compute. reflexivity. Qed.
Print Assumptions C55_patch.

(** It is empty just when there is nothing to tell. *)
Theorem C55_empty : forall a b, GetUnifiedDiffString a b = Some [] <-> a = b.
Proof. intros. split; [apply empty_same|intros ->; apply same_empty]. Qed.
Example C55_empty_ex : GetUnifiedDiffString old_text old_text = Some [] /\ GetUnifiedDiffString [] (letters "a") <> Some [].
Proof. split; [vm_compute; reflexivity|vm_compute; discriminate]. Qed.
Print Assumptions C55_empty.

(** What assert.Equal prints for two strings. *)
Theorem C55_message : forall expected actual, exists d,
  diff_strings expected actual = Some ([10%N; 10%N] ++ bs "Diff:" ++ [10%N] ++ d)
  /\ patch d (text_lines (expected ++ [10%N])) = Some (text_lines (actual ++ [10%N]))
  /\ (d = [] <-> expected = actual).
Proof.
  intros. unfold diff_strings. rewrite !split_text.
  destruct (patch_ok (text_lines (expected ++ [10%N])) (text_lines (actual ++ [10%N]))) as (t & E & P); try apply lines_of_text.
  exists t. rewrite E. cbn [dbind]. split; [reflexivity|]. split; auto. split.
  - intros ->. apply empty_same in E. apply (f_equal (@concat N)) in E. rewrite !concat_text in E. now apply app_inj_tail in E.
  - intros ->. rewrite same_empty in E. congruence.
Qed.
Example C55_message_ex : diff_strings (bs "one") (bs "two") =
  Some (concat (map (fun s => bs s ++ [10%N]) [""; ""; "Diff:"; "--- Expected"; "+++ Actual"; "@@ -1 +1 @@"; "-one"; "+two"]%string)).
Proof. vm_compute. reflexivity. Qed.
Print Assumptions C55_message.

(** GetGroupedOpCodes cuts the ranges GetOpCodes keeps: asked again, GetOpCodes no longer
    gives a list that turns [a] into [b]. *)
Theorem C55_cache_refuted : exists a b gs m1 l m2,
  GetGroupedOpCodes 1 (newMatcher None a b) = Some (gs, m1) /\ GetOpCodes m1 = Some (l, m2)
  /\ ~ script a b 0 0 l /\ concat (map (outcome a b) l) <> b.
Proof.
  exists old_text, new_text. eexists _, _, [Op cE 1 2 1 2; Op cR 2 3 2 3; Op cE 3 10 3 10; Op cI 10 10 10 12], _.
  split; [vm_compute; reflexivity|]. split; [vm_compute; reflexivity|]. split.
  - intros H. inversion H.
  - vm_compute. discriminate.
Qed.
Print Assumptions C55_cache_refuted.
