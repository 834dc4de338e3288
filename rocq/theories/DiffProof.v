(** * Proofs about the differ: the search for common runs *)
From Coq Require Import String NArith ZArith Lia Bool List Sorted.
From Verif Require Import Base DiffModel DiffSpec.
Import ListNotations.
Open Scope nat_scope.

Ltac sp := repeat (match goal with |- _ /\ _ => split end).

(** ** Runs, line by line *)
Definition eqrun (a b : list bytes) (i j k : nat) : Prop :=
  i + k <= length a /\ j + k <= length b /\ forall t, t < k -> nth_error a (i + t) = nth_error b (j + t).

Lemma nth_skip : forall A (l : list A) i t, nth_error (skipn i l) t = nth_error l (i + t).
Proof. induction l; destruct i; cbn; intros; auto. destruct t; auto. Qed.

Lemma nth_first : forall A (l : list A) k t, t < k -> nth_error (firstn k l) t = nth_error l t.
Proof. induction l; destruct k; cbn; intros; try lia; auto. destruct t; cbn; auto. apply IHl. lia. Qed.

Lemma nth_ext : forall A (l l' : list A), (forall t, nth_error l t = nth_error l' t) -> l = l'.
Proof.
  induction l; destruct l'; intros H; auto; try (specialize (H 0); discriminate).
  pose proof (H 0) as H0. cbn in H0. inversion H0; subst. f_equal. apply IHl. intros t. apply (H (S t)).
Qed.

Lemma eqrun_common : forall a b i j k, eqrun a b i j k <-> common a b i j k.
Proof.
  intros. unfold eqrun, common. split; intros (H1 & H2 & H3); split; auto; split; auto.
  - apply nth_ext. intros t. destruct (Nat.lt_ge_cases t k).
    + rewrite !nth_first, !nth_skip by auto. auto.
    + rewrite !(proj2 (nth_error_None _ _)); auto; rewrite firstn_length, skipn_length; lia.
  - intros t Ht. pose proof (f_equal (fun l => nth_error l t) H3) as E. cbn beta in E.
    rewrite !nth_first, !nth_skip in E by auto. auto.
Qed.

Definition ins (a b : list bytes) (alo ahi blo bhi i j k : nat) : Prop :=
  alo <= i /\ i + k <= ahi /\ blo <= j /\ j + k <= bhi /\ eqrun a b i j k.

Lemma ins_inside : forall a b alo ahi blo bhi i j k, ins a b alo ahi blo bhi i j k <-> inside a b alo ahi blo bhi i j k.
Proof. intros. unfold ins, inside. now rewrite eqrun_common. Qed.

Lemma eqrun_snoc : forall a b i j k, eqrun a b i j (S k) <-> eqrun a b i j k /\ i + k < length a /\ j + k < length b /\ nth_error a (i + k) = nth_error b (j + k).
Proof.
  intros. unfold eqrun. split.
  - intros (H1 & H2 & H3). sp; try lia; auto. all: try (intros; apply H3; lia).
  - intros ((H1 & H2 & H3) & H4 & H5 & H6). sp; try lia. intros. destruct (Nat.eq_dec t k); subst; auto. apply H3; lia.
Qed.

Lemma eqrun_cons : forall a b i j k, eqrun a b i j (S k) <-> eqrun a b (S i) (S j) k /\ i < length a /\ j < length b /\ nth_error a i = nth_error b j.
Proof.
  intros. unfold eqrun. split.
  - intros (H1 & H2 & H3). sp; try lia; auto.
    + intros. specialize (H3 (S t)). rewrite !Nat.add_succ_r in H3. apply H3; lia.
    + specialize (H3 0). rewrite !Nat.add_0_r in H3. apply H3; lia.
  - intros ((H1 & H2 & H3) & H4 & H5 & H6). sp; try lia. intros. destruct t; rewrite ?Nat.add_0_r; auto.
    rewrite !Nat.add_succ_r. apply H3; lia.
Qed.

Lemma eqrun_0 : forall a b i j, i <= length a -> j <= length b -> eqrun a b i j 0.
Proof. unfold eqrun; intros; sp; lia. Qed.

Lemma eqrun_app : forall a b i j k l, eqrun a b i j k -> eqrun a b (i + k) (j + k) l -> eqrun a b i j (k + l).
Proof.
  unfold eqrun; intros * (H1 & H2 & H3) (H4 & H5 & H6). sp; try lia. intros.
  destruct (Nat.lt_ge_cases t k); auto. specialize (H6 (t - k)).
  replace (i + k + (t - k)) with (i + t) in H6 by lia. replace (j + k + (t - k)) with (j + t) in H6 by lia. apply H6; lia.
Qed.

Lemma nth_lt : forall A (l : list A) i, i < length l -> exists x, nth_error l i = Some x.
Proof. intros. destruct (nth_error l i) eqn:E; eauto. apply nth_error_None in E. lia. Qed.

(** ** Where the lines of [b] stand *)
Fixpoint places (i : nat) (b : list bytes) (s : bytes) : list nat :=
  match b with [] => [] | x :: r => if beqb x s then i :: places (S i) r s else places (S i) r s end.

Lemma sget_sput : forall m s v s', sget (sput m s v) s' = if beqb s s' then v else sget m s'.
Proof.
  induction m as [|[k w] m IH]; cbn [sput sget]; intros; auto.
  destruct (beqb k s) eqn:E; cbn [sget].
  - apply beqb_eq in E; subst. destruct (beqb s s'); auto.
  - rewrite IH. destruct (beqb k s') eqn:E2; auto. apply beqb_eq in E2; subst.
    destruct (beqb s s') eqn:E3; auto. apply beqb_eq in E3; subst. rewrite beqb_refl in E. discriminate.
Qed.

Lemma sget_index : forall b i m s, sget (index_lines i b m) s = sget m s ++ places i b s.
Proof.
  induction b; cbn [index_lines places]; intros; [now rewrite app_nil_r|].
  rewrite IHb, sget_sput. destruct (beqb a s) eqn:E; auto. apply beqb_eq in E; subst. now rewrite <- app_assoc.
Qed.

Lemma sget_purge : forall m l s, sget (purge m l) s = if in_set l s then [] else sget m s.
Proof.
  induction m as [|[k v] m IH]; cbn [purge filter sget fst]; intros; [now destruct (in_set l s)|].
  destruct (in_set l k) eqn:E; cbn [negb sget]; unfold purge in IH; rewrite IH.
  - destruct (beqb k s) eqn:E2; auto. apply beqb_eq in E2; subst. now rewrite E.
  - destruct (beqb k s) eqn:E2; auto. apply beqb_eq in E2; subst. now rewrite E.
Qed.

Lemma places_in : forall b i s j, In j (places i b s) <-> i <= j /\ nth_error b (j - i) = Some s.
Proof.
  induction b; cbn [places]; intros.
  - split; [easy|]. intros [_ H]. now destruct (j - i).
  - assert (R : i < j -> nth_error (a :: b) (j - i) = nth_error b (j - S i)).
    { intros. replace (j - i) with (S (j - S i)) by lia. reflexivity. }
    destruct (beqb a s) eqn:E; cbn [In]; rewrite IHb.
    + apply beqb_eq in E; subst. split.
      * intros [->|[H1 H2]]; [split; auto; now rewrite Nat.sub_diag|]. rewrite R by lia. split; auto; lia.
      * intros [H1 H2]. destruct (Nat.eq_dec i j); auto. right. rewrite R in H2 by lia. split; auto; lia.
    + split.
      * intros [H1 H2]. rewrite R by lia. split; auto; lia.
      * intros [H1 H2]. destruct (Nat.eq_dec i j); [|rewrite R in H2 by lia; split; auto; lia].
        subst. rewrite Nat.sub_diag in H2. cbn in H2. inversion H2; subst. rewrite beqb_refl in E. discriminate.
Qed.

Lemma places_sorted : forall b i s, StronglySorted lt (places i b s).
Proof.
  induction b; cbn [places]; intros; [constructor|]. destruct (beqb a s); auto. constructor; auto.
  apply Forall_forall. intros x H. apply places_in in H. lia.
Qed.

(** ** A matcher whose tables belong to its lines *)
Record good (a b : list bytes) (m : matcher) : Prop :=
  { g_a : sa m = a; g_b : sb m = b;
    g_in : forall s, sget (b2j m) s = [] \/ sget (b2j m) s = places 0 b s }.
Definition exactly (m : matcher) : Prop := bJunk m = [] /\ forall s, sget (b2j m) s = places 0 (sb m) s.

Lemma new_good : forall junk a b, good a b (newMatcher junk a b).
Proof.
  intros. unfold newMatcher, chainB. constructor; cbn [sa sb b2j]; auto. intros.
  rewrite !sget_purge, sget_index. cbn [sget List.app].
  destruct (in_set _ s); auto. destruct (in_set _ s); auto.
Qed.

Lemma new_exactly : forall a b, length b < 200 -> exactly (newMatcher None a b).
Proof.
  intros. unfold newMatcher, chainB, exactly. cbn [sa sb b2j bJunk]. split; auto. intros.
  rewrite !sget_purge, sget_index. cbn [sget List.app]. apply Nat.ltb_lt in H. rewrite Nat.leb_antisym, H. reflexivity.
Qed.

Lemma keys_sput : forall m s v, NoDup (map fst m) -> NoDup (map fst (sput m s v)) /\ (forall k, In k (map fst (sput m s v)) -> In k (map fst m) \/ k = s).
Proof.
  induction m as [|[k w] m IH]; cbn [sput map fst]; intros s v H.
  - split; [constructor; auto; constructor|]. intros k [<-|[]]; auto.
  - inversion H; subst. destruct (beqb k s) eqn:E; cbn [map fst].
    + split; auto.
    + destruct (IH s v H3) as [K1 K2]. split.
      * constructor; auto. intros I. destruct (K2 _ I) as [?|Q]; auto. subst. now rewrite beqb_refl in E.
      * intros k' [<-|I]; [left; now left|]. destruct (K2 _ I); auto. left; now right.
Qed.

Lemma keys_index : forall b i m, NoDup (map fst m) -> NoDup (map fst (index_lines i b m)).
Proof. induction b; cbn [index_lines]; intros; auto. apply IHb. now apply keys_sput. Qed.

Lemma sget_in : forall m s v, NoDup (map fst m) -> In (s, v) m -> sget m s = v.
Proof.
  induction m as [|[k w] m IH]; cbn [sget map fst]; intros s v H I; [destruct I|]. destruct I as [E|I]; inversion H; subst.
  - inversion E; subst. now rewrite beqb_refl.
  - destruct (beqb k s) eqn:Q; auto. apply beqb_eq in Q; subst. exfalso. apply H2. apply (in_map fst) in I. exact I.
Qed.

Lemma places_count : forall b i s, length (places i b s) = count_occ bytes_eq_dec b s.
Proof.
  induction b; cbn [places count_occ]; intros; auto. destruct (bytes_eq_dec a s) as [->|N].
  - rewrite beqb_refl. cbn [length]. now rewrite IHb.
  - apply beqb_neq in N. now rewrite N.
Qed.

(** Lines that are not frequent are in the table. *)
Lemma new_infrequent : forall a b s, infrequent b s -> sget (b2j (newMatcher None a b)) s = places 0 b s.
Proof.
  intros a b s H. unfold newMatcher, chainB. cbn [b2j].
  assert (P : purge (index_lines 0 b []) [] = index_lines 0 b []).
  { unfold purge. generalize (index_lines 0 b []). induction s0; cbn [filter]; auto. cbn. now f_equal. }
  rewrite P. rewrite sget_purge, sget_index. cbn [sget List.app].
  destruct (in_set _ s) eqn:E; auto. exfalso. unfold in_set in E. apply existsb_exists in E as (k & I & Q). apply beqb_eq in Q; subst k.
  destruct (200 <=? length b) eqn:L; [|easy]. apply Nat.leb_le in L. destruct H as [?|H]; [lia|].
  apply in_map_iff in I as ([k v] & <- & I). apply filter_In in I as [I C]. cbn [fst snd] in *. apply Nat.ltb_lt in C.
  apply sget_in in I; [|apply keys_index; constructor]. rewrite sget_index in I. cbn [sget List.app] in I. rewrite <- I, places_count in C. lia.
Qed.

Section search.
  Variables (a b : list bytes) (m : matcher) (alo ahi blo bhi : nat).
  Hypothesis G : good a b m.
  Hypothesis Ha : ahi <= length a.
  Hypothesis Hb : bhi <= length b.

  Notation INS := (ins a b alo ahi blo bhi).
  Definition best_ok (x : mtch) : Prop := INS (mA x) (mB x) (mSize x).

  (** the longest run that ends just before row [i] in column [j] *)
  Definition ends (i j k : nat) : Prop := alo + k <= i /\ blo + k <= S j /\ j < bhi /\ eqrun a b (i - k) (S j - k) k.
  Definition row_ok (i : nat) (t : imap) : Prop := forall j, 0 < iget t j -> ends i j (iget t j).

  Lemma ends_next : forall i j k s, i < ahi -> alo <= i -> blo <= j -> j < bhi -> nth_error a i = Some s -> nth_error b j = Some s ->
    (k = 0 \/ exists j', j = S j' /\ ends i j' k) -> ends (S i) j (S k).
  Proof.
    intros * Hi Hi' Hj Hj' Ea Eb [->|(j' & -> & H1 & H2 & H3 & H4)]; unfold ends.
    - sp; try lia. replace (S i - 1) with i by lia. replace (S j - 1) with j by lia.
      apply eqrun_snoc. rewrite !Nat.add_0_r. split; [apply eqrun_0; lia|]. sp; try lia. congruence.
    - sp; try lia. change (S i - S k) with (i - k). change (S (S j') - S k) with (S j' - k). apply eqrun_snoc. split; auto.
      replace (i - k + k) with i by lia. replace (S j' - k + k) with (S j') by lia. sp; try lia. congruence.
  Qed.

  Definition kof (t : imap) (j : nat) : nat := match j with O => 0 | S j' => iget t j' end + 1.

  Lemma kof_ends : forall i t j s, row_ok i t -> alo <= i -> i < ahi -> blo <= j -> j < bhi -> nth_error a i = Some s -> nth_error b j = Some s ->
    ends (S i) j (kof t j).
  Proof.
    intros. unfold kof. rewrite Nat.add_1_r. eapply ends_next; eauto.
    destruct j as [|j']; auto. destruct (iget t j') eqn:E; auto. right. exists j'. split; auto. rewrite <- E. apply H. lia.
  Qed.

  Lemma ends_ins : forall i j k, i < ahi -> ends (S i) j k -> INS (i + 1 - k) (j + 1 - k) k.
  Proof.
    intros * Hi (H1 & H2 & H3 & H4). unfold ins. replace (i + 1 - k) with (S i - k) by lia. replace (j + 1 - k) with (S j - k) by lia.
    sp; try lia; apply H4.
  Qed.

  Lemma scan_js_ok : forall i s t js new best, alo <= i -> i < ahi -> nth_error a i = Some s -> row_ok i t ->
    (forall j, In j js -> nth_error b j = Some s) -> row_ok (S i) new -> best_ok best ->
    let r := scan_js blo bhi i t js new best in row_ok (S i) (fst r) /\ best_ok (snd r).
  Proof.
    induction js; cbn [scan_js]; intros new best H1 H2 H3 H4 H5 H6 H7; [cbn; auto|].
    destruct (a0 <? blo) eqn:L1; [apply IHjs; auto; intros; apply H5; right; auto|]. apply Nat.ltb_ge in L1.
    destruct (bhi <=? a0) eqn:L2; [cbn; auto|]. apply Nat.leb_gt in L2.
    fold (kof t a0). assert (E : ends (S i) a0 (kof t a0)) by (eapply kof_ends; eauto; apply H5; left; auto).
    apply IHjs; auto; [intros; apply H5; right; auto| |].
    - intros j. cbn [iget]. destruct (a0 =? j) eqn:E2; auto. apply Nat.eqb_eq in E2; subst. auto.
    - destruct (mSize best <? kof t a0); auto. unfold best_ok. cbn [mA mB mSize]. apply ends_ins; auto.
  Qed.

  Lemma b2j_in : forall s j, In j (sget (b2j m) s) -> nth_error b j = Some s.
  Proof.
    intros. destruct (g_in _ _ _ G s) as [E|E]; rewrite E in H; [easy|]. apply places_in in H as [_ H]. now rewrite Nat.sub_0_r in H.
  Qed.

  Lemma scan_as_ok : forall fuel i t best, alo <= i -> i <= ahi -> ahi - i <= fuel -> row_ok i t -> best_ok best ->
    exists x, scan_as m ahi blo bhi fuel i t best = Some x /\ best_ok x.
  Proof.
    induction fuel; cbn [scan_as]; intros i t best H1 H2 H3 H4 H5; destruct (i =? ahi) eqn:E; eauto; apply Nat.eqb_neq in E; [lia|].
    destruct (nth_lt _ a i) as (s & Es); [lia|]. rewrite (g_a _ _ _ G), Es. cbn [dbind].
    pose proof (scan_js_ok i s t (sget (b2j m) s) [] best) as K. cbn zeta in K.
    destruct (scan_js blo bhi i t (sget (b2j m) s) [] best) as [new best'].
    destruct K as [K1 K2]; auto; try lia; [intros; now apply b2j_in|intros j; cbn; lia|]. apply IHfuel; auto; lia.
  Qed.

  Lemma ins_grow_left : forall x s, best_ok x -> alo < mA x -> blo < mB x -> nth_error a (mA x - 1) = Some s -> nth_error b (mB x - 1) = Some s ->
    best_ok (Match (mA x - 1) (mB x - 1) (mSize x + 1)).
  Proof.
    unfold best_ok, ins. destruct x as [i j k]; cbn [mA mB mSize]. intros s (H1 & H2 & H3 & H4 & H5) La Lb Ea Eb.
    destruct i as [|i]; [lia|]. destruct j as [|j]; [lia|]. replace (S i - 1) with i in * by lia. replace (S j - 1) with j in * by lia.
    repeat (split; [lia|]). rewrite Nat.add_1_r. apply eqrun_cons. split; auto. sp; try lia. congruence.
  Qed.

  Lemma ins_grow_right : forall x s, best_ok x -> mA x + mSize x < ahi -> mB x + mSize x < bhi ->
    nth_error a (mA x + mSize x) = Some s -> nth_error b (mB x + mSize x) = Some s ->
    best_ok (Match (mA x) (mB x) (mSize x + 1)).
  Proof.
    unfold best_ok, ins. destruct x as [i j k]; cbn [mA mB mSize]. intros s (H1 & H2 & H3 & H4 & H5) La Lb Ea Eb.
    repeat (split; [lia|]). rewrite Nat.add_1_r. apply eqrun_snoc. split; auto. sp; try lia. congruence.
  Qed.

  Definition left_end (want : bool) (x : mtch) : Prop :=
    alo < mA x -> blo < mB x -> forall s, nth_error b (mB x - 1) = Some s -> isBJunk m s = want -> nth_error a (mA x - 1) <> Some s.
  Definition right_end (want : bool) (x : mtch) : Prop :=
    mA x + mSize x < ahi -> mB x + mSize x < bhi -> forall s, nth_error b (mB x + mSize x) = Some s -> isBJunk m s = want -> nth_error a (mA x + mSize x) <> Some s.

  Lemma grow_left_ok : forall want fuel x, best_ok x -> length a - mSize x <= fuel ->
    exists y, grow_left m want alo blo fuel x = Some y /\ best_ok y /\ left_end want y /\ mSize x <= mSize y
      /\ mA y + mSize y = mA x + mSize x /\ mB y + mSize y = mB x + mSize x.
  Proof.
    induction fuel; intros x Hx Hf; cbn [grow_left]; pose proof Hx as (B1 & B2 & B3 & B4 & B5 & B6 & B7);
      (destruct ((alo <? mA x) && (blo <? mB x)) eqn:C;
       [|apply andb_false_iff in C; exists x; split; auto; split; auto; split; [|lia]; intros L1 L2; apply Nat.ltb_lt in L1, L2; destruct C; congruence]);
      apply andb_true_iff in C as [C1 C2]; apply Nat.ltb_lt in C1, C2;
      destruct (nth_lt _ b (mB x - 1)) as (s & Es); [lia| |lia|]; rewrite (g_b _ _ _ G), Es; cbn [dbind];
      (destruct (Bool.eqb (isBJunk m s) want) eqn:W;
       [|exists x; split; auto; split; auto; split; [|lia]; intros _ _ s' Es' W'; rewrite Es in Es'; inversion Es'; subst; now rewrite Bool.eqb_reflx in W]);
      destruct (nth_lt _ a (mA x - 1)) as (s2 & Es2); [lia| |lia|]; rewrite (g_a _ _ _ G), Es2; cbn [dbind];
      (destruct (beqb s2 s) eqn:Q;
       [|exists x; split; auto; split; auto; split; [|lia]; intros _ _ s' Es' W'; rewrite Es in Es'; inversion Es'; subst; rewrite Es2; intros X; inversion X; subst; now rewrite beqb_refl in Q]);
      apply beqb_eq in Q; subst s2.
    - lia.
    - destruct (IHfuel (Match (mA x - 1) (mB x - 1) (mSize x + 1))) as (y & E & Y1 & Y2 & Y3 & Y4 & Y5).
      + eapply ins_grow_left; eauto.
      + cbn [mSize]. lia.
      + cbn [mA mB mSize] in *. exists y. repeat (split; auto); lia.
  Qed.

  Lemma grow_right_ok : forall want fuel x, best_ok x -> length a - mSize x <= fuel ->
    exists y, grow_right m want ahi bhi fuel x = Some y /\ best_ok y /\ right_end want y /\ mSize x <= mSize y
      /\ mA y = mA x /\ mB y = mB x.
  Proof.
    induction fuel; intros x Hx Hf; cbn [grow_right]; pose proof Hx as (B1 & B2 & B3 & B4 & B5 & B6 & B7);
      (destruct ((mA x + mSize x <? ahi) && (mB x + mSize x <? bhi)) eqn:C;
       [|apply andb_false_iff in C; exists x; split; auto; split; auto; split; [|lia]; intros L1 L2; apply Nat.ltb_lt in L1, L2; destruct C; congruence]);
      apply andb_true_iff in C as [C1 C2]; apply Nat.ltb_lt in C1, C2;
      destruct (nth_lt _ b (mB x + mSize x)) as (s & Es); [lia| |lia|]; rewrite (g_b _ _ _ G), Es; cbn [dbind];
      (destruct (Bool.eqb (isBJunk m s) want) eqn:W;
       [|exists x; split; auto; split; auto; split; [|lia]; intros _ _ s' Es' W'; rewrite Es in Es'; inversion Es'; subst; now rewrite Bool.eqb_reflx in W]);
      destruct (nth_lt _ a (mA x + mSize x)) as (s2 & Es2); [lia| |lia|]; rewrite (g_a _ _ _ G), Es2; cbn [dbind];
      (destruct (beqb s2 s) eqn:Q;
       [|exists x; split; auto; split; auto; split; [|lia]; intros _ _ s' Es' W'; rewrite Es in Es'; inversion Es'; subst; rewrite Es2; intros X; inversion X; subst; now rewrite beqb_refl in Q]);
      apply beqb_eq in Q; subst s2.
    - lia.
    - destruct (IHfuel (Match (mA x) (mB x) (mSize x + 1))) as (y & E & Y1 & Y2 & Y3 & Y4 & Y5).
      + eapply ins_grow_right; eauto.
      + cbn [mSize]. lia.
      + cbn [mA mB mSize] in *. exists y. repeat (split; auto); lia.
  Qed.

  Hypothesis La : alo <= ahi.
  Hypothesis Lb : blo <= bhi.

  Lemma start_ok : best_ok (Match alo blo 0).
  Proof. unfold best_ok, ins. cbn [mA mB mSize]. repeat (split; [lia|]). apply eqrun_0; lia. Qed.

  Lemma find_ok : exists x, findLongestMatch m alo ahi blo bhi = Some x /\ best_ok x.
  Proof.
    unfold findLongestMatch. rewrite (g_a _ _ _ G).
    destruct (scan_as_ok (length a) alo [] (Match alo blo 0)) as (x & -> & X); try lia; auto using start_ok; [intros j; cbn; lia|]. cbn [dbind].
    destruct (grow_left_ok false (length a) x) as (y & -> & Y & _); auto; [lia|]. cbn [dbind].
    destruct (grow_right_ok false (length a) y) as (z & -> & Z & _); auto; [lia|]. cbn [dbind].
    destruct (grow_left_ok true (length a) z) as (u & -> & U & _); auto; [lia|]. cbn [dbind].
    destruct (grow_right_ok true (length a) u) as (v & -> & V & _); auto; [lia|]. eauto.
  Qed.

  (** With no junk the run found cannot be made longer. *)
  Hypothesis J : bJunk m = [].

  Lemma no_junk : forall s, isBJunk m s = false.
  Proof. intros. unfold isBJunk. now rewrite J. Qed.

  Lemma junk_left : forall fuel x, best_ok x -> grow_left m true alo blo fuel x = Some x.
  Proof.
    intros. pose proof H as (B1 & B2 & B3 & B4 & B5 & B6 & B7). destruct fuel; cbn [grow_left];
    (destruct ((alo <? mA x) && (blo <? mB x)) eqn:C; auto; apply andb_true_iff in C as [C1 C2]; apply Nat.ltb_lt in C1, C2;
    rewrite (g_b _ _ _ G); destruct (nth_lt _ b (mB x - 1)) as (s & ->); [lia|]; cbn [dbind]; now rewrite no_junk).
  Qed.
  Lemma junk_right : forall fuel x, best_ok x -> grow_right m true ahi bhi fuel x = Some x.
  Proof.
    intros. pose proof H as (B1 & B2 & B3 & B4 & B5 & B6 & B7). destruct fuel; cbn [grow_right];
    (destruct ((mA x + mSize x <? ahi) && (mB x + mSize x <? bhi)) eqn:C; auto; apply andb_true_iff in C as [C1 C2]; apply Nat.ltb_lt in C1, C2;
    rewrite (g_b _ _ _ G); destruct (nth_lt _ b (mB x + mSize x)) as (s & ->); [lia|]; cbn [dbind]; now rewrite no_junk).
  Qed.

  Lemma find_stuck : exists x, findLongestMatch m alo ahi blo bhi = Some x /\ best_ok x
    /\ (forall i' j', S i' = mA x -> S j' = mB x -> ~ INS i' j' (S (mSize x))) /\ ~ INS (mA x) (mB x) (S (mSize x)).
  Proof.
    unfold findLongestMatch. rewrite (g_a _ _ _ G).
    destruct (scan_as_ok (length a) alo [] (Match alo blo 0)) as (x & -> & X); try lia; auto using start_ok; [intros j; cbn; lia|]. cbn [dbind].
    destruct (grow_left_ok false (length a) x) as (y & -> & Y & YL & Y2); auto; [lia|]. cbn [dbind].
    destruct (grow_right_ok false (length a) y) as (z & -> & Z & ZR & _ & ZA & ZB); auto; [lia|]. cbn [dbind].
    rewrite junk_left by auto. cbn [dbind]. rewrite junk_right by auto. exists z. split; auto. split; auto. split.
    - intros i' j' Ei Ej (I1' & I2' & I3 & I4 & I5). apply eqrun_cons in I5 as (_ & I6 & I7 & I8).
      destruct (nth_lt _ b j') as (s & Es); [lia|].
      apply (YL ltac:(lia) ltac:(lia) s); rewrite <- ?ZA, <- ?ZB, <- ?Ei, <- ?Ej; cbn [Nat.sub]; rewrite ?Nat.sub_0_r; auto using no_junk. congruence.
    - intros (I1' & I2' & I3 & I4 & I5). apply eqrun_snoc in I5 as (_ & I6 & I7 & I8).
      destruct (nth_lt _ b (mB z + mSize z)) as (s & Es); [lia|].
      apply (ZR ltac:(lia) ltac:(lia) s); auto using no_junk. congruence.
  Qed.

  (** ** With the lines [U] in the table no run of such lines is better than the one found *)
  Variable U : bytes -> Prop.
  Hypothesis X : forall s, U s -> sget (b2j m) s = places 0 b s.
  Definition urun (i k : nat) : Prop := forall t s, i <= t < i + k -> nth_error a t = Some s -> U s.

  Definition row_full (i : nat) (t : imap) : Prop := forall j k, ends i j k -> urun (i - k) k -> k <= iget t j.
  Definition lex (x : mtch) (i j : nat) : Prop := mA x < i \/ mA x = i /\ mB x <= j.
  (** every run that ends in an earlier row, or in row [i] outside the columns [js], is not better *)
  Definition beats (i : nat) (js : list nat) (x : mtch) : Prop :=
    forall i' j' k, 0 < k -> INS i' j' k -> urun i' k -> (i' + k <= i \/ i' + k = S i /\ ~ In (j' + k - 1) js) ->
      k < mSize x \/ k = mSize x /\ lex x i' j'.
  Definition ended (i : nat) (js : list nat) (x : mtch) : Prop :=
    mSize x = 0 \/ mA x + mSize x <= i \/ mA x + mSize x = S i /\ forall j, In j js -> mB x + mSize x <= j.

  Lemma kof_full : forall i t j k, row_full i t -> ends (S i) j k -> urun (S i - k) k -> k <= kof t j.
  Proof.
    intros * F (H1 & H2 & H3 & H4) HU. unfold kof. destruct k; [lia|].
    apply eqrun_snoc in H4 as (H4 & _).
    destruct j as [|j'].
    - destruct k; [lia|]. lia.
    - specialize (F j' k). enough (k <= iget t j') by lia. apply F; [unfold ends; cbn [Nat.sub] in H4; sp; try lia; apply H4|]. intros u s Hu. apply HU. lia.
  Qed.

  Lemma scan_full : forall i s t js new best, alo <= i -> i < ahi -> nth_error a i = Some s -> row_ok i t -> row_full i t ->
    (forall j, In j js -> nth_error b j = Some s) -> StronglySorted lt js -> best_ok best ->
    beats i js best -> ended i js best ->
    (forall j k, ends (S i) j k -> urun (S i - k) k -> 0 < k -> ~ In j js -> k <= iget new j) ->
    (forall j k, ends (S i) j k -> urun (S i - k) k -> 0 < k -> In j js -> k <= iget (fst (scan_js blo bhi i t js new best)) j)
    /\ (forall j, ~ In j js -> iget (fst (scan_js blo bhi i t js new best)) j = iget new j)
    /\ beats i [] (snd (scan_js blo bhi i t js new best))
    /\ ended i [] (snd (scan_js blo bhi i t js new best)).
  Proof.
    induction js as [|j0 js IH]; cbn [scan_js]; intros new best H1 H2 H3 Hr Hf H4 H5 H6 H7 H8 H9; [cbn; auto|].
    inversion H5 as [|? ? S1 S2]; subst. rewrite Forall_forall in S2.
    assert (N0 : ~ In j0 js) by (intros K; specialize (S2 _ K); lia).
    assert (H4' : forall j, In j js -> nth_error b j = Some s) by (intros; apply H4; right; auto).
    destruct (j0 <? blo) eqn:L1.
    { apply Nat.ltb_lt in L1.
      assert (K7 : beats i js best).
      { intros i' j' k P I V K. destruct (Nat.eq_dec (j' + k - 1) j0); [|apply H7; auto; cbn [In]; intuition lia].
        destruct I as (I1' & I2' & I3 & I4 & I5). lia. }
      destruct (IH new best) as (R1 & R2 & R3 & R4); auto.
      - destruct H8 as [?|[?|[? E]]]; unfold ended; auto. right; right; split; auto. intros; apply E; right; auto.
      - intros j k E V P K. destruct (Nat.eq_dec j j0); [|apply H9; auto; cbn [In]; intuition lia]. destruct E as (E1 & E2 & E3 & E4). lia.
      - sp; auto.
        + intros j k E V P [<-|K]; [destruct E as (E1 & E2 & E3 & E4); lia|auto].
        + intros. apply R2. intros K; apply H; right; auto. }
    apply Nat.ltb_ge in L1. destruct (bhi <=? j0) eqn:L2.
    { apply Nat.leb_le in L2. cbn [fst snd]. sp; auto.
      - intros j k (E1 & E2 & E3 & E4) V P [<-|K]; [lia|]. specialize (S2 _ K). lia.
      - intros i' j' k P I V K. apply H7; auto. destruct K as [?|[? K]]; auto. right; split; auto.
        destruct I as (I1' & I2' & I3 & I4 & I5). intros [E|E]; [lia|]. specialize (S2 _ E). lia.
      - destruct H8 as [?|[?|[? E]]]; unfold ended; auto. right; right; split; auto. intros ? []. }
    apply Nat.leb_gt in L2. fold (kof t j0).
    assert (E0 : ends (S i) j0 (kof t j0)) by (eapply kof_ends; eauto; apply H4; left; auto).
    assert (P0 : 0 < kof t j0) by (unfold kof; lia).
    set (best' := if mSize best <? kof t j0 then Match (i + 1 - kof t j0) (j0 + 1 - kof t j0) (kof t j0) else best).
    pose proof (ends_ins _ _ _ H2 E0) as I0.
    assert (E0' := E0). destruct E0' as (Q1 & Q2 & Q3 & Q4).
    destruct (IH ((j0, kof t j0) :: new) best') as (R1 & R2 & R3 & R4); auto.
    - unfold best'. destruct (mSize best <? kof t j0); auto.
    - intros i' j' k P I V K. destruct (Nat.eq_dec (i' + k) (S i)) as [Ei|Ei]; [destruct (Nat.eq_dec (j' + k - 1) j0) as [Ej|Ej]|].
      + assert (Hk : k <= kof t j0).
        { apply (kof_full i); auto; [|rewrite <- Ei; replace (i' + k - k) with i' by lia; auto]. destruct I as (I1' & I2' & I3 & I4 & I5). unfold ends. rewrite <- Ei.
          replace (S j0 - k) with j' by lia. replace (i' + k - k) with i' by lia. sp; try lia; apply I5. }
        destruct (Nat.eq_dec k (kof t j0)) as [Ek|Ek].
        * unfold best', lex. destruct (mSize best <? kof t j0) eqn:Lt; cbn [mA mB mSize].
          -- right. split; [lia|]. right. lia.
          -- apply Nat.ltb_ge in Lt. destruct (Nat.eq_dec k (mSize best)); [|left; lia]. right. split; auto.
             destruct H8 as [?|[?|[? E]]]; [lia|left; lia|]. specialize (E j0 (or_introl eq_refl)). lia.
        * unfold best'. destruct (mSize best <? kof t j0) eqn:Lt; cbn [mA mB mSize]; [left; lia|]. apply Nat.ltb_ge in Lt. left; lia.
      + destruct (H7 i' j' k P I V) as [K1|[K1 K2]]; [cbn [In]; intuition lia| |];
          unfold best'; destruct (mSize best <? kof t j0) eqn:Lt; cbn [mA mB mSize]; auto; apply Nat.ltb_lt in Lt; left; lia.
      + destruct (H7 i' j' k P I V) as [K1|[K1 K2]]; [left; lia| |];
          unfold best'; destruct (mSize best <? kof t j0) eqn:Lt; cbn [mA mB mSize]; auto; apply Nat.ltb_lt in Lt; left; lia.
    - unfold best'. destruct (mSize best <? kof t j0) eqn:Lt.
      + unfold ended. cbn [mA mB mSize]. right; right. split; [lia|]. intros j Hj. specialize (S2 _ Hj). lia.
      + destruct H8 as [?|[?|[? E]]]; unfold ended; auto. right; right; split; auto. intros; apply E; right; auto.
    - intros j k E V P K. cbn [iget]. destruct (j0 =? j) eqn:Ej; [apply Nat.eqb_eq in Ej; subst; apply (kof_full i); auto|].
      apply Nat.eqb_neq in Ej. apply H9; auto. cbn [In]. intuition.
    - sp; auto.
      + intros j k E V P [<-|K]; auto. rewrite R2 by auto. cbn [iget]. rewrite Nat.eqb_refl. apply (kof_full i); auto.
      + intros j K. rewrite R2 by (intros ?; apply K; right; auto). cbn [iget]. destruct (j0 =? j) eqn:Ej; auto.
        apply Nat.eqb_eq in Ej. exfalso. apply K. left; auto.
  Qed.

  Lemma scan_as_full : forall fuel i t best, alo <= i -> i <= ahi -> ahi - i <= fuel -> row_ok i t -> row_full i t -> best_ok best ->
    (forall i' j' k, 0 < k -> INS i' j' k -> urun i' k -> i' + k <= i -> k < mSize best \/ k = mSize best /\ lex best i' j') ->
    (mSize best = 0 /\ mA best = alo /\ mB best = blo \/ 0 < mSize best /\ mA best + mSize best <= i) ->
    exists x, scan_as m ahi blo bhi fuel i t best = Some x /\ best_ok x
      /\ (forall i' j' k, 0 < k -> INS i' j' k -> urun i' k -> k < mSize x \/ k = mSize x /\ lex x i' j')
      /\ (mSize x = 0 -> mA x = alo /\ mB x = blo).
  Proof.
    induction fuel; cbn [scan_as]; intros i t best H1 H2 H3 H4 H5 H6 H7 H8; destruct (i =? ahi) eqn:E.
    1, 3: apply Nat.eqb_eq in E; subst; exists best; sp; auto; try lia; intros i' j' k P I V; apply H7; auto; apply I.
    all: apply Nat.eqb_neq in E. 1: lia.
    destruct (nth_lt _ a i) as (s & Es); [lia|]. rewrite (g_a _ _ _ G), Es. cbn [dbind].
    assert (Hin : forall j, In j (sget (b2j m) s) -> nth_error b j = Some s) by (intros; now apply b2j_in).
    pose proof (scan_js_ok i s t (sget (b2j m) s) [] best H1 ltac:(lia) Es H4 Hin ltac:(intros j; cbn; lia) H6) as K. cbn zeta in K.
    assert (Hnot : forall j k, ends (S i) j k -> urun (S i - k) k -> 0 < k -> In j (sget (b2j m) s)).
    { intros j k (E1 & E2 & E3 & E4) V P. rewrite X by (apply (V i); auto; lia). apply places_in. split; [lia|]. rewrite Nat.sub_0_r.
      destruct k; [lia|]. apply eqrun_snoc in E4 as (_ & E5 & E6 & E7). cbn [Nat.sub] in E7.
      replace (i - k + k) with i in E7 by lia. replace (j - k + k) with j in E7 by lia. congruence. }
    destruct (scan_full i s t (sget (b2j m) s) [] best) as (F1 & F2 & F3 & F4); auto; try lia.
    - destruct (g_in _ _ _ G s) as [Q|Q]; rewrite Q; [constructor|apply places_sorted].
    - intros i' j' k P I V [Q|[Q N]]; [apply H7; auto|]. exfalso. apply N. apply (Hnot _ k); auto; [|rewrite <- Q; replace (i' + k - k) with i' by lia; auto].
      destruct I as (I1' & I2' & I3 & I4 & I5). unfold ends. rewrite <- Q. replace (i' + k - k) with i' by lia. replace (S (j' + k - 1) - k) with j' by lia.
      sp; try lia; apply I5.
    - unfold ended. intuition lia.
    - intros j k Ek V P N. exfalso. eauto.
    - assert (Z1 : mSize best <= mSize (snd (scan_js blo bhi i t (sget (b2j m) s) [] best))
                   /\ (mSize (snd (scan_js blo bhi i t (sget (b2j m) s) [] best)) = 0 -> snd (scan_js blo bhi i t (sget (b2j m) s) [] best) = best)).
      { clear. generalize (sget (b2j m) s). intros l. generalize ([] : imap). revert best. induction l as [|a0 l IHl]; cbn [scan_js]; intros; auto.
        destruct (a0 <? blo); auto. destruct (bhi <=? a0); auto.
        set (k := match a0 with O => 0 | S j' => iget t j' end + 1). destruct (mSize best <? k) eqn:L.
        - apply Nat.ltb_lt in L. edestruct IHl as [A1 A2]. split; [etransitivity; [|apply A1]; cbn [mSize]; lia|].
          intros Z. rewrite Z in A1. cbn [mSize] in A1. lia.
        - apply IHl. }
      destruct (scan_js blo bhi i t (sget (b2j m) s) [] best) as [new best']. cbn [fst snd] in *.
      destruct K as [K1 K2]. apply IHfuel; auto; try lia.
      + intros j k Ek V. destruct k; [lia|]. apply (F1 j (S k) Ek V ltac:(lia)). apply (Hnot j (S k) Ek V). lia.
      + intros i' j' k P I V Q. apply F3; auto. destruct (Nat.eq_dec (i' + k) (S i)); [right|left; lia]. split; auto.
      + destruct Z1 as [Z1 Z2]. destruct (mSize best') eqn:Eb; [left|right].
        * rewrite (Z2 eq_refl) in *. destruct H8 as [?|[? ?]]; [intuition|lia].
        * destruct F4 as [?|[?|[? _]]]; lia.
  Qed.

  Lemma find_frequent : exists x, findLongestMatch m alo ahi blo bhi = Some x /\ best_ok x
    /\ (forall i' j' k, 0 < k -> INS i' j' k -> urun i' k -> k <= mSize x).
  Proof.
    unfold findLongestMatch. rewrite (g_a _ _ _ G).
    destruct (scan_as_full (length a) alo [] (Match alo blo 0)) as (x & -> & X1 & X2 & X3); try lia; auto using start_ok.
    { intros j; cbn; lia. }
    { intros j k (E1 & E2 & E3 & E4). cbn. lia. }
    { intros i' j' k P (I1' & I2' & I3 & I4 & I5) Q. lia. }
    cbn [dbind].
    destruct (grow_left_ok false (length a) x) as (y & EY & Y & _ & Y1 & Y2 & Y3); auto; [lia|]. rewrite EY. cbn [dbind].
    destruct (grow_right_ok false (length a) y) as (z & EZ & Z & _ & Z1 & Z2 & Z3); auto; [lia|]. rewrite EZ. cbn [dbind].
    rewrite junk_left by auto. cbn [dbind]. rewrite junk_right by auto. exists z. split; auto. split; auto.
    intros i' j' k P I V. destruct (X2 i' j' k P I V) as [?|[? _]]; lia.
  Qed.

  Hypothesis UT : forall s, U s.

  Lemma find_longest : exists x, findLongestMatch m alo ahi blo bhi = Some x /\ best_ok x
    /\ (forall i' j' k, 0 < k -> INS i' j' k -> k < mSize x \/ k = mSize x /\ lex x i' j')
    /\ (mSize x = 0 -> mA x = alo /\ mB x = blo).
  Proof.
    unfold findLongestMatch. rewrite (g_a _ _ _ G).
    destruct (scan_as_full (length a) alo [] (Match alo blo 0)) as (x & -> & X1 & X2 & X3); try lia; auto using start_ok.
    { intros j; cbn; lia. }
    { intros j k (E1 & E2 & E3 & E4). cbn. lia. }
    { intros i' j' k P (I1' & I2' & I3 & I4 & I5) Q. lia. }
    cbn [dbind]. assert (X2' : forall i' j' k, 0 < k -> INS i' j' k -> k < mSize x \/ k = mSize x /\ lex x i' j') by (intros; apply X2; auto; intros ? ? ? ?; apply UT).
    clear X2. rename X2' into X2. destruct (grow_left_ok false (length a) x) as (y & EY & Y & _ & Y1 & Y2 & Y3); auto; [lia|]. rewrite EY. cbn [dbind].
    assert (y = x).
    { destruct (Nat.eq_dec (mSize x) (mSize y)); [destruct x as [x1 x2 x3], y as [y1 y2 y3]; cbn [mA mB mSize] in *; f_equal; lia|].
      exfalso. destruct (X2 _ _ (mSize y) ltac:(lia) Y); lia. }
    subst y.
    destruct (grow_right_ok false (length a) x) as (z & EZ & Z & _ & Z1 & Z2 & Z3); auto; [lia|]. rewrite EZ. cbn [dbind].
    assert (z = x).
    { destruct (Nat.eq_dec (mSize x) (mSize z)); [destruct x as [x1 x2 x3], z as [z1 z2 z3]; cbn [mA mB mSize] in *; f_equal; lia|].
      exfalso. destruct (X2 _ _ (mSize z) ltac:(lia) Z); lia. }
    subst z. rewrite junk_left by auto. cbn [dbind]. rewrite junk_right by auto. eauto.
  Qed.
End search.
