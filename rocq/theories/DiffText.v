(** * Proofs about the differ: groups, and reading the printed diff *)
From Coq Require Import String NArith ZArith Lia Bool List Sorted.
From Verif Require Import Base Json JsonProof DiffModel DiffSpec DiffProof DiffBlocks.
Import ListNotations.
Open Scope nat_scope.

(** ** Groups *)
(** A stretch of ranges from [(i, j)] to [(i2, j2)]. *)
Inductive seg (a b : list bytes) : nat -> nat -> list op -> nat -> nat -> Prop :=
| sg_nil : forall i j, seg a b i j [] i j
| sg_equal : forall i j k r i2 j2, eqrun a b i j k -> seg a b (i + k) (j + k) r i2 j2 -> seg a b i j (Op cE i (i + k) j (j + k) :: r) i2 j2
| sg_change : forall i j i1 j1 t r i2 j2, i <= i1 -> j <= j1 -> i1 <= length a -> j1 <= length b ->
    ((t = cR /\ i < i1 /\ j < j1) \/ (t = cD /\ i < i1 /\ j = j1) \/ (t = cI /\ i = i1 /\ j < j1)) ->
    seg a b i1 j1 r i2 j2 -> seg a b i j (Op t i i1 j j1 :: r) i2 j2.

Lemma seg_snoc : forall a b l i j i1 j1 c i2 j2, seg a b i j l i1 j1 -> seg a b i1 j1 [c] i2 j2 -> seg a b i j (l ++ [c]) i2 j2.
Proof. induction 1; intros K; cbn [List.app]; auto; econstructor; eauto. Qed.

Inductive gscript (a b : list bytes) : nat -> nat -> list (list op) -> Prop :=
| gs_end : forall i j k, eqrun a b i j k -> i + k = length a -> j + k = length b -> gscript a b i j []
| gs_group : forall i j k g i2 j2 r, eqrun a b i j k -> seg a b (i + k) (j + k) g i2 j2 -> g <> [] -> gscript a b i2 j2 r -> gscript a b i j (g :: r).

(** The codes after the last range was cut. *)
Inductive cut (a b : list bytes) (n : nat) : bool -> nat -> nat -> list op -> Prop :=
| ct_end : forall e i j k, eqrun a b i j k -> i + k = length a -> j + k = length b -> cut a b n e i j []
| ct_equal : forall i j k r, eqrun a b i j k -> (r = [] -> k <= n) -> cut a b n false (i + k) (j + k) r -> cut a b n true i j (Op cE i (i + k) j (j + k) :: r)
| ct_change : forall i j i2 j2 t r, i <= i2 -> j <= j2 -> i2 <= length a -> j2 <= length b ->
    ((t = cR /\ i < i2 /\ j < j2) \/ (t = cD /\ i < i2 /\ j = j2) \/ (t = cI /\ i = i2 /\ j < j2)) ->
    cut a b n true i2 j2 r -> cut a b n false i j (Op t i i2 j j2 :: r).

Lemma eqrun_part : forall a b i j k p q, eqrun a b i j k -> p + q <= k -> eqrun a b (i + p) (j + p) q.
Proof.
  unfold eqrun. intros * (H1 & H2 & H3) L. sp; try lia. intros. rewrite <- !Nat.add_assoc. apply H3. lia.
Qed.

Definition change (c : op) : bool := negb (is_equal c).
Definition changes (l : list op) : list op := filter change l.

Lemma fix_last_ok : forall a b G n e i j l, walk a b G e i j l -> cut a b n e i j (fix_last n l) /\ changes (fix_last n l) = changes l /\ (fix_last n l = [] <-> l = []).
Proof.
  induction 1.
  - cbn. split; auto; [|split; [auto|tauto]]. apply (ct_end _ _ _ _ _ _ 0); try lia. apply eqrun_0; lia.
  - cbn [fix_last]. destruct r as [|c r].
    + cbn [tag I1 I2 J1 J2]. change (cE =? cE)%N with true. cbn iota. split; [|split; [reflexivity|easy]].
      replace (Nat.min (i + k) (i + n)) with (i + Nat.min k n) by lia. replace (Nat.min (j + k) (j + n)) with (j + Nat.min k n) by lia.
      constructor; [|lia|].
      * replace i with (i + 0) by lia. replace j with (j + 0) by lia. eapply eqrun_part; eauto. lia.
      * inversion H1; subst. apply (ct_end _ _ _ _ _ _ (k - Nat.min k n)); try lia. eapply eqrun_part; eauto. lia.
    + destruct IHwalk as (W1 & W2 & W3). split; [|split].
      * constructor; auto. intros E. apply W3 in E. discriminate.
      * unfold changes in *. cbn [filter]. destruct (change _); [f_equal|]; auto.
      * easy.
  - assert (T : (t =? cE)%N = false) by (destruct H3 as [(-> & _)|[(-> & _)|(-> & _)]]; reflexivity).
    assert (E : fix_last n (Op t i i2 j j2 :: r) = Op t i i2 j j2 :: fix_last n r).
    { destruct r; auto. cbn [fix_last tag]. now rewrite T. }
    rewrite E. destruct IHwalk as (W1 & W2 & W3). split; [|split].
    + constructor; auto.
    + unfold changes in *. cbn [filter]. destruct (change _); [f_equal|]; auto.
    + easy.
Qed.

Section groups.
  Variables (a b : list bytes) (n : nat).

  Definition haschange (g : list op) : Prop := exists c, In c g /\ is_equal c = false.
  Definition first_ok (g : list op) : Prop := forall c r, g = c :: r -> is_equal c = true -> lines_of c <= n.
  Definition last_ok (g : list op) : Prop := forall c r, g = r ++ [c] -> is_equal c = true -> lines_of c <= n.
  Definition all_ok (g : list op) : Prop := forall c, In c g -> is_equal c = true -> lines_of c <= n + n.

  Lemma change_tag : forall t i i2 j j2, (t = cR /\ i < i2 /\ j < j2) \/ (t = cD /\ i < i2 /\ j = j2) \/ (t = cI /\ i = i2 /\ j < j2) ->
    is_equal (Op t i i2 j j2) = false.
  Proof. intros * [(-> & _)|[(-> & _)|(-> & _)]]; reflexivity. Qed.

  Lemma first_snoc : forall g c, first_ok g -> (g = [] -> is_equal c = true -> lines_of c <= n) -> first_ok (g ++ [c]).
  Proof. intros [|x g] c H K d r E Q; cbn in E; inversion E; subst; auto. eapply H; eauto. Qed.
  Lemma last_snoc : forall g c, (is_equal c = true -> lines_of c <= n) -> last_ok (g ++ [c]).
  Proof. intros g c H d r E Q. apply app_inj_tail in E as [_ ->]. auto. Qed.
  Lemma all_snoc : forall g c, all_ok g -> (is_equal c = true -> lines_of c <= n + n) -> all_ok (g ++ [c]).
  Proof. intros g c H K d I Q. apply in_app_or in I as [I|[<-|[]]]; auto. Qed.
  Lemma has_snoc : forall g c, haschange g -> haschange (g ++ [c]).
  Proof. intros g c (d & I & Q). exists d. split; auto. apply in_or_app; auto. Qed.

  Lemma changes_app : forall g h, changes (g ++ h) = changes g ++ changes h.
  Proof. intros. apply filter_app. Qed.

  Lemma group_ok : forall codes e i j, cut a b n e i j codes -> forall g p1 p2 k groups,
    eqrun a b p1 p2 k -> seg a b (p1 + k) (p2 + k) g i j -> first_ok g -> all_ok g -> (e = true -> haschange g) -> (codes = [] -> last_ok g) ->
    (haschange g \/ length g <= 1) ->
    exists out, group_loop n codes groups g = groups ++ out /\ gscript a b p1 p2 out /\ Forall (grouped n) out
      /\ changes (concat out) = changes g ++ changes codes.
  Proof.
    induction 1 as [e i j k0 C1 C2 C3|i j k0 r C1 C2 C3 IH|i j i2 j2 t r C1 C2 C3 C4 C5 C6 IH]; intros g p1 p2 k groups Hk Hs Hf Ha He Hl Hh.
    - cbn [group_loop].
      assert (D : g = [] \/ (exists c, g = [c] /\ is_equal c = true) \/ (g <> [] /\ haschange g)).
      { destruct g as [|c g]; auto. right. destruct g as [|c' g].
        - destruct (is_equal c) eqn:Q; [left; eauto|right]. split; [easy|]. exists c. split; auto. now left.
        - right. split; [easy|]. destruct Hh as [?|L]; auto. cbn in L. lia. }
      destruct D as [->|[(c & -> & Q)|(N & H)]].
      + exists []. rewrite app_nil_r. inversion Hs; subst. split; [reflexivity|]. split; [|split; [constructor|reflexivity]].
        apply (gs_end _ _ _ _ (k + k0)); try lia. apply eqrun_app; auto.
      + unfold is_equal in Q. rewrite Q. exists []. rewrite app_nil_r. split; [reflexivity|]. split; [|split; [constructor|]].
        * inversion Hs as [|? ? k1 ? ? ? S1 S2|? ? ? ? ? ? ? ? S1 S2 S3 S4 S5]; subst; [inversion S2; subst|cbn in Q; destruct S5 as [(-> & _)|[(-> & _)|(-> & _)]]; discriminate].
          apply (gs_end _ _ _ _ (k + k1 + k0)); try lia.
          apply eqrun_app; [apply eqrun_app; auto|]. now rewrite !Nat.add_assoc.
        * unfold changes. cbn [filter concat]. unfold change, is_equal. now rewrite Q.
      + exists [g]. split; [|split; [|split]].
        * destruct g as [|c [|c' g]]; [easy| |reflexivity]. destruct H as (d & [<-|[]] & Q). unfold is_equal in Q. now rewrite Q.
        * apply (gs_group _ _ _ _ k _ i j); auto. apply (gs_end _ _ _ _ k0); auto.
        * constructor; [|constructor]. split; auto. split; [exact Hf|]. split; [exact (Hl eq_refl)|exact Ha].
        * cbn [concat]. now rewrite app_nil_r, <- changes_app, app_nil_r.
    - cbn [group_loop tag I1 I2 J1 J2]. change (cE =? cE)%N with true. cbn [andb]. specialize (He eq_refl).
      assert (Ng : g <> []) by (destruct He as (d & I & _); destruct g; [destruct I|easy]).
      destruct (n + n <? i + k0 - i) eqn:Big; [apply Nat.ltb_lt in Big|apply Nat.ltb_ge in Big].
      + replace (Nat.min (i + k0) (i + n)) with (i + n) by lia. replace (Nat.min (j + k0) (j + n)) with (j + n) by lia.
        replace (Nat.max i (i + k0 - n)) with (i + (k0 - n)) by lia. replace (Nat.max j (j + k0 - n)) with (j + (k0 - n)) by lia.
        destruct (IH [Op cE (i + (k0 - n)) (i + k0) (j + (k0 - n)) (j + k0)] (i + n) (j + n) (k0 - n - n)
                     (groups ++ [g ++ [Op cE i (i + n) j (j + n)]])) as (out & E & O1 & O2 & O3).
        * eapply eqrun_part; eauto. lia.
        * replace (i + n + (k0 - n - n)) with (i + (k0 - n)) by lia. replace (j + n + (k0 - n - n)) with (j + (k0 - n)) by lia.
          replace (i + k0) with (i + (k0 - n) + n) by lia. replace (j + k0) with (j + (k0 - n) + n) by lia.
          constructor; [|constructor]. eapply eqrun_part; eauto. lia.
        * intros c r0 E Q. inversion E; subst. unfold lines_of. cbn. lia.
        * intros c [<-|[]] Q. unfold lines_of. cbn. lia.
        * discriminate.
        * intros _. apply (last_snoc []). intros _. unfold lines_of. cbn. lia.
        * right. cbn. lia.
        * exists ((g ++ [Op cE i (i + n) j (j + n)]) :: out). rewrite E. split; [now rewrite <- app_assoc|]. split; [|split].
          -- apply (gs_group _ _ _ _ k _ (i + n) (j + n)); auto; [|destruct g; easy]. eapply seg_snoc; eauto. constructor; [|constructor].
             replace i with (i + 0) by lia. replace j with (j + 0) by lia. eapply eqrun_part; eauto. lia.
          -- constructor; auto. split; [now apply has_snoc|]. split; [|split].
             ++ apply first_snoc; auto; congruence.
             ++ apply last_snoc. intros _. unfold lines_of. cbn. lia.
             ++ apply all_snoc; auto. intros _. unfold lines_of. cbn. lia.
          -- cbn [concat]. rewrite changes_app, O3, !changes_app. unfold changes at 2 3 5, change, is_equal. cbn. now rewrite app_nil_r.
      + destruct (IH (g ++ [Op cE i (i + k0) j (j + k0)]) p1 p2 k groups) as (out & E & O1 & O2 & O3); auto.
        * eapply seg_snoc; eauto. constructor; auto. all: constructor.
        * apply first_snoc; auto; congruence.
        * apply all_snoc; auto; intros _; unfold lines_of; cbn [I1 I2]; lia.
        * discriminate.
        * intros Er. apply last_snoc. intros _. unfold lines_of. cbn [I1 I2]. specialize (C2 Er). lia.
        * left. now apply has_snoc.
        * exists out. split; auto. split; auto. split; auto. rewrite O3, changes_app. unfold changes at 2 5, change, is_equal. cbn. now rewrite app_nil_r.
    - pose proof (change_tag _ _ _ _ _ C5) as T. cbn [group_loop]. unfold is_equal in T. cbn [tag] in T |- *. rewrite T. cbn [andb].
      destruct (IH (g ++ [Op t i i2 j j2]) p1 p2 k groups) as (out & E & O1 & O2 & O3); auto.
      + eapply seg_snoc; eauto. constructor; auto. all: constructor.
      + apply first_snoc; auto. unfold is_equal. cbn [tag]. congruence.
      + apply all_snoc; auto. unfold is_equal. cbn [tag]. congruence.
      + intros _. exists (Op t i i2 j j2). split; auto. apply in_or_app. right. now left.
      + intros _. apply last_snoc. unfold is_equal. cbn [tag]. congruence.
      + left. exists (Op t i i2 j j2). split; auto. apply in_or_app. right. now left.
      + exists out. split; auto. split; auto. split; auto. rewrite O3, changes_app, <- app_assoc. f_equal.
        unfold changes. cbn [filter]. unfold change, is_equal. cbn [tag]. rewrite T. reflexivity.
  Qed.
End groups.

Lemma codes_grouped : forall a b G n e l, walk a b G e 0 0 l -> l <> [] ->
  let out := group_loop n (fix_last n (fix_first n l)) [] [] in
  gscript a b 0 0 out /\ Forall (grouped n) out /\ changes (concat out) = changes l.
Proof.
  intros a b G n e l W N. cbn zeta.
  inversion W as [|? ? k r K1 K2 K3|? ? i2 j2 t r K1 K2 K3 K4 K5 K6 K7]; subst; [easy| |].
  - cbn [fix_first tag I1 I2 J1 J2 Nat.add] in *. change (cE =? cE)%N with true. cbn iota. rewrite Nat.max_0_l.
    destruct r as [|c r].
    + inversion K3; subst. cbn [fix_last tag I1 I2 J1 J2]. change (cE =? cE)%N with true. cbn iota.
      cbn [group_loop tag I1 I2 J1 J2]. change (cE =? cE)%N with true. cbn [andb].
      replace (n + n <? _) with false by (symmetry; apply Nat.ltb_ge; lia). cbn [List.app tag]. change (cE =? cE)%N with true. cbn iota.
      split; [|split; [constructor|reflexivity]]. apply (gs_end _ _ _ _ (length a)); auto.
    + change (fix_last n (Op cE (k - n) k (k - n) k :: c :: r)) with (Op cE (k - n) k (k - n) k :: fix_last n (c :: r)).
      destruct (fix_last_ok a b G n _ _ _ _ K3) as (F1 & F2 & F3).
      cbn [group_loop tag I1 I2 J1 J2]. change (cE =? cE)%N with true. cbn [andb].
      replace (n + n <? _) with false by (symmetry; apply Nat.ltb_ge; lia). cbn [List.app].
      destruct (group_ok a b n _ _ _ _ F1 [Op cE (k - n) k (k - n) k] 0 0 (k - n) []) as (out & -> & O1 & O2 & O3); cbn [Nat.add List.app].
      * apply (eqrun_part a b 0 0 k 0 (k - n)); auto. lia.
      * destruct (Nat.le_ge_cases n k).
        -- pose proof (sg_equal a b (k - n) (k - n) n [] k k) as S. replace (k - n + n) with k in S by lia. apply S; [|constructor].
           apply (eqrun_part a b 0 0 k (k - n) n); auto. lia.
        -- replace (k - n) with 0 by lia. apply (sg_equal a b 0 0 k [] k k); auto. constructor.
      * intros c' r0 E Q. inversion E; subst. unfold lines_of. cbn [I1 I2]. lia.
      * intros c' [<-|[]] Q. unfold lines_of. cbn [I1 I2]. lia.
      * discriminate.
      * intros E. apply F3 in E. discriminate.
      * right. cbn. lia.
      * split; auto. split; auto. rewrite O3, F2. reflexivity.
  - assert (T : (t =? cE)%N = false) by (destruct K5 as [(-> & _)|[(-> & _)|(-> & _)]]; reflexivity).
    assert (E1 : fix_first n (Op t 0 i2 0 j2 :: r) = Op t 0 i2 0 j2 :: r) by (cbn [fix_first tag]; now rewrite T).
    rewrite E1. destruct (fix_last_ok a b G n _ _ _ _ W) as (F1 & F2 & F3).
    destruct (group_ok a b n _ _ _ _ F1 [] 0 0 0 []) as (out & -> & O1 & O2 & O3); cbn [Nat.add List.app].
    + apply eqrun_0; lia.
    + constructor.
    + intros c' r0 E; discriminate.
    + intros c' [].
    + discriminate.
    + intros E. apply F3 in E. discriminate.
    + right. cbn. lia.
    + split; auto. split; auto. now rewrite O3, F2.
Qed.

Definition ctx (n : Z) : nat := if (n <? 0)%Z then 3 else Z.to_nat n.

Lemma grouped_ok : forall a b m n, good a b m -> matchingBlocks m = None -> opCodes m = None ->
  exists l m' gs m'', GetOpCodes m = Some (l, m') /\ GetGroupedOpCodes n m = Some (gs, m'')
    /\ gscript a b 0 0 gs /\ Forall (grouped (ctx n)) gs /\ changes (concat gs) = changes l.
Proof.
  intros a b m n G N1 N2. destruct (codes_ok a b m G N1 N2) as (l & m' & E & E2 & e & W).
  exists l, m'. unfold GetGroupedOpCodes. rewrite E. cbn [dbind fst snd]. fold (ctx n). generalize (ctx n). clear n. intros n.
  destruct l as [|c l].
  - assert (L : length a = 0 /\ length b = 0) by (inversion W; auto). destruct L as [L1 L2].
    exists [], m'. repeat split; auto; [|apply (gs_end _ _ _ _ 0); auto; apply eqrun_0; lia].
    do 2 f_equal. destruct n; [reflexivity|]. unfold fix_first. cbn [tag I1 I2 J1 J2]. change (cE =? cE)%N with true. cbn iota.
    unfold fix_last. cbn [tag I1 I2 J1 J2]. change (cE =? cE)%N with true. cbn iota.
    cbn [Nat.sub Nat.max Nat.add Nat.min].
    unfold group_loop. cbn [tag I1 I2 J1 J2]. change (cE =? cE)%N with true. cbn [andb].
    replace (S (n + S n) <? _) with false by (symmetry; apply Nat.ltb_ge; lia). reflexivity.
  - destruct (codes_grouped a b _ n e (c :: l) W) as (K1 & K2 & K3); [easy|]. eauto 10.
Qed.

(** ** Cutting a text into its lines *)
Lemma line_cons : forall c l, c <> 10%N -> line l -> line (c :: l).
Proof. intros c l N (t & -> & H). exists (c :: t). split; auto. intros [E|E]; auto. Qed.

Lemma text_line : forall l t, line l -> text_lines (l ++ t) = l :: text_lines t.
Proof.
  intros l t (x & -> & N). induction x as [|c x IH]; cbn [List.app text_lines]; auto.
  destruct (c =? 10)%N eqn:E; [apply N.eqb_eq in E; subst; exfalso; apply N; now left|].
  cbn [List.app] in IH. rewrite IH; auto. intros K; apply N; now right.
Qed.

Lemma text_concat : forall ls, Forall line ls -> text_lines (concat ls) = ls.
Proof. induction 1; cbn [concat]; auto. rewrite text_line by auto. now f_equal. Qed.

Lemma split_text : forall s, SplitLines s = text_lines (s ++ [10%N]).
Proof.
  induction s as [|c s IH]; cbn [List.app SplitLines text_lines]; auto.
  rewrite <- IH. destruct (c =? 10)%N; auto.
Qed.

Lemma lines_of_text : forall s, text_lines (s ++ [10%N]) <> [] /\ Forall line (text_lines (s ++ [10%N])).
Proof.
  induction s as [|c s [N IH]]; cbn [List.app text_lines].
  - split; [easy|]. constructor; [|constructor]. exists []. split; auto.
  - destruct (c =? 10)%N eqn:E.
    + apply N.eqb_eq in E; subst. split; [easy|]. constructor; auto. exists []. split; auto.
    + apply N.eqb_neq in E. destruct (text_lines (s ++ [10%N])) as [|l r]; [easy|].
      inversion IH; subst. split; [easy|]. constructor; auto. apply line_cons; auto.
Qed.

Lemma concat_text : forall t, concat (text_lines t) = t.
Proof.
  induction t as [|c t IH]; cbn [text_lines]; auto. destruct (c =? 10)%N; cbn [concat List.app]; [now rewrite IH|].
  destruct (text_lines t) as [|l r]; cbn [concat List.app] in *; [now rewrite <- IH|]. now rewrite <- IH.
Qed.

(** ** Reading numbers and head lines *)
Definition starts_digit (t : bytes) : bool := match t with c :: _ => ((48 <=? c) && (c <=? 57))%N | [] => false end.

Lemma read_digits_ok : forall d acc r v, Forall digit d -> starts_digit r = false ->
  fold_left (fun a c => match a with Some v => if ((48 <=? c) && (c <=? 57))%N then Some (v * 10 + (c - 48))%N else None | None => None end) d (Some acc) = Some v ->
  read_digits acc (d ++ r) = (v, r).
Proof.
  induction d as [|c d IH]; intros acc r v D R F; cbn [List.app].
  - cbn [fold_left] in F. inversion F; subst. destruct r; cbn [read_digits]; auto. cbn [starts_digit] in R. now rewrite R.
  - inversion D as [|? ? Dc Dd]; subst. cbn [fold_left] in F. cbn [read_digits]. unfold digit in Dc.
    replace ((48 <=? c) && (c <=? 57))%N with true in * by (symmetry; apply andb_true_iff; split; apply N.leb_le; lia).
    apply IH; auto. replace (10 * acc + (c - 48))%N with (acc * 10 + (c - 48))%N by lia. exact F.
Qed.

Lemma read_number_ok : forall n r, starts_digit r = false -> read_number (dec_of_N (N.of_nat n) ++ r) = Some (n, r).
Proof.
  intros n r R. destruct (dec_of_N_ok (N.of_nat n)) as (V & _ & D & Ne). unfold dec_value in V.
  destruct (dec_of_N (N.of_nat n)) as [|c d]; [easy|]. pose proof (read_digits_ok (c :: d) 0 r _ D R V) as E.
  cbn [List.app] in *. unfold read_number. inversion D as [|? ? Dc Dd]; subst. unfold digit in Dc.
  replace ((48 <=? c) && (c <=? 57))%N with true by (symmetry; apply andb_true_iff; split; apply N.leb_le; lia).
  rewrite E. now rewrite Nat2N.id.
Qed.

Lemma read_range_ok : forall s e r, s <= e -> starts_digit r = false -> (match r with c :: _ => c <> 44%N | [] => True end) ->
  read_range (formatRangeUnified s e ++ r) = Some (s, e - s, r).
Proof.
  intros s e r L R1 R2. unfold formatRangeUnified, read_range.
  destruct (e - s =? 1) eqn:E1.
  - apply Nat.eqb_eq in E1. rewrite read_number_ok by auto. rewrite E1, Nat.add_1_r.
    destruct r as [|c r]; auto. destruct (N.eq_dec c 44); [contradiction|].
    destruct c as [|p]; auto. repeat (destruct p; auto); contradiction.
  - rewrite <- !app_assoc. rewrite read_number_ok by reflexivity. change (bs ",") with [44%N]. cbn [List.app].
    rewrite read_number_ok by auto.
    destruct (e - s =? 0) eqn:E0.
    + apply Nat.eqb_eq in E0. rewrite E0. replace (s + 1 - 1) with s by lia. now destruct s.
    + apply Nat.eqb_neq in E0. destruct (e - s) eqn:E; [lia|]. now rewrite Nat.add_1_r.
Qed.

Lemma expect_ok : forall p t, expect p (p ++ t) = Some t.
Proof. induction p; cbn [expect List.app]; intros; auto. now rewrite N.eqb_refl. Qed.

Definition head_line (s1 e1 s2 e2 : nat) : bytes :=
  bs "@@ -" ++ formatRangeUnified s1 e1 ++ bs " +" ++ formatRangeUnified s2 e2 ++ bs " @@" ++ [10%N].

Lemma read_head_ok : forall s1 e1 s2 e2, s1 <= e1 -> s2 <= e2 -> read_head (head_line s1 e1 s2 e2) = Some (s1, e1 - s1, (s2, e2 - s2)).
Proof.
  intros. unfold read_head, head_line. rewrite expect_ok, read_range_ok by (auto; easy). rewrite expect_ok, read_range_ok by (auto; easy).
  now rewrite beqb_refl.
Qed.

Lemma digits_no_end : forall n, ~ In 10%N (dec_of_N n).
Proof.
  intros n I. destruct (dec_of_N_ok n) as (_ & _ & D & _). rewrite Forall_forall in D. specialize (D _ I). unfold digit in D. lia.
Qed.

Lemma range_no_end : forall s e, ~ In 10%N (formatRangeUnified s e).
Proof.
  intros s e. unfold formatRangeUnified. destruct (_ =? 1); [apply digits_no_end|].
  intros I. apply in_app_or in I as [I|I]; [now apply digits_no_end in I|]. apply in_app_or in I as [I|I]; [|now apply digits_no_end in I].
  cbn in I. destruct I as [I|[]]. discriminate.
Qed.

Lemma head_is_line : forall s1 e1 s2 e2, line (head_line s1 e1 s2 e2).
Proof.
  intros. exists (bs "@@ -" ++ formatRangeUnified s1 e1 ++ bs " +" ++ formatRangeUnified s2 e2 ++ bs " @@"). split.
  - unfold head_line. now rewrite <- !app_assoc.
  - intros I. repeat (apply in_app_or in I as [I|I]); try (now apply range_no_end in I); cbn in I; intuition discriminate.
Qed.

(** ** Reading the body of a group *)
Lemma body_keep : forall (l : list bytes) k1 k2 d a o d' a', read_body k1 k2 d a = Some (o, d', a') ->
  read_body (length l + k1) (length l + k2) (map (cons 32%N) l ++ d) (l ++ a) = Some (l ++ o, d', a').
Proof.
  induction l; cbn [length Nat.add map List.app]; intros; auto. cbn [read_body]. rewrite N.eqb_refl, beqb_refl. now rewrite (IHl _ _ _ _ _ _ _ H).
Qed.
Lemma body_minus : forall (l : list bytes) k1 k2 d a, read_body (length l + k1) k2 (map (cons 45%N) l ++ d) (l ++ a) = read_body k1 k2 d a.
Proof.
  induction l; cbn [length Nat.add map List.app]; intros; auto. cbn [read_body]. change (45 =? 32)%N with false. cbn iota. rewrite N.eqb_refl, beqb_refl. apply IHl.
Qed.
Lemma body_plus : forall (l : list bytes) k1 k2 d a o d' a', read_body k1 k2 d a = Some (o, d', a') ->
  read_body k1 (length l + k2) (map (cons 43%N) l ++ d) a = Some (l ++ o, d', a').
Proof.
  induction l; cbn [length Nat.add map List.app]; intros; auto. specialize (IHl _ _ _ _ _ _ _ H).
  destruct k1; cbn [read_body]; change (43 =? 32)%N with false; change (43 =? 45)%N with false; cbn iota; rewrite N.eqb_refl, IHl; reflexivity.
Qed.

Lemma skipn_skipn : forall A x y (l : list A), skipn x (skipn y l) = skipn (x + y) l.
Proof.
  intros A x y. rewrite Nat.add_comm. induction y; cbn [skipn Nat.add]; intros; auto. destruct l; auto. destruct x; reflexivity.
Qed.

Lemma skip_part : forall (l : list bytes) i e, i <= e -> skipn i l = part l i e ++ skipn e l.
Proof.
  intros. unfold part. rewrite <- (firstn_skipn (e - i) (skipn i l)) at 1. f_equal. rewrite skipn_skipn. f_equal. lia.
Qed.
Lemma part_length : forall (l : list bytes) i e, i <= e -> e <= length l -> length (part l i e) = e - i.
Proof. intros. unfold part. rewrite firstn_length, skipn_length. lia. Qed.
Lemma part_slice : forall (l : list bytes) i e, i <= e -> e <= length l -> slice l i e = Some (part l i e).
Proof. intros. unfold slice. apply Nat.leb_le in H, H0. now rewrite H, H0. Qed.
Lemma part_app : forall (l : list bytes) i e f, i <= e -> e <= f -> part l i f = part l i e ++ part l e f.
Proof.
  intros. unfold part. replace (f - i) with ((e - i) + (f - e)) by lia.
  rewrite <- (firstn_skipn (e - i) (skipn i l)) at 1.
  assert (Q : skipn (e - i) (skipn i l) = skipn e l) by (rewrite skipn_skipn; f_equal; lia). rewrite Q.
  destruct (Nat.le_gt_cases (length (skipn i l)) (e - i)).
  - assert (Z : skipn e l = []) by (apply skipn_all2; rewrite skipn_length in H1; lia). rewrite Z, firstn_nil, !app_nil_r.
    rewrite (firstn_all2 (n := e - i + (f - e))); auto. rewrite firstn_length. lia.
  - rewrite firstn_app. rewrite (firstn_all2 (n := e - i + (f - e))) by (rewrite firstn_length; lia). f_equal. f_equal. rewrite firstn_length. lia.
Qed.

(** The lines a range is written as. *)
Definition op_lines (a b : list bytes) (c : op) : list bytes :=
  if is_equal c then map (cons 32%N) (part a (I1 c) (I2 c))
  else map (cons 45%N) (part a (I1 c) (I2 c)) ++ map (cons 43%N) (part b (J1 c) (J2 c)).

Lemma part_nil : forall (l : list bytes) i, part l i i = [].
Proof. intros. unfold part. now rewrite Nat.sub_diag. Qed.

Lemma signed_concat : forall c l, signed c l = concat (map (cons c) l).
Proof. reflexivity. Qed.

Lemma seg_bounds : forall a b i j g i2 j2, seg a b i j g i2 j2 -> i <= i2 /\ j <= j2.
Proof. induction 1; try lia. Qed.

Lemma seg_write : forall a b i j g i2 j2, seg a b i j g i2 j2 -> write_ops a b g = Some (concat (flat_map (op_lines a b) g)).
Proof.
  induction 1; cbn [write_ops flat_map]; auto; rewrite IHseg; rewrite concat_app.
  - destruct H as (H1 & H2 & _). unfold write_op, op_lines, is_equal. cbn [tag I1 I2 J1 J2]. change (cE =? cE)%N with true. cbn iota.
    rewrite part_slice by lia. reflexivity.
  - unfold write_op, op_lines, is_equal. cbn [tag I1 I2 J1 J2].
    destruct H3 as [(-> & ? & ?)|[(-> & ? & <-)|(-> & <- & ?)]].
    + change (cR =? cE)%N with false. change (cR =? cR)%N with true. cbn [orb]. rewrite !part_slice by lia. cbn [dbind]. now rewrite concat_app.
    + change (cD =? cE)%N with false. change (cD =? cR)%N with false. change (cD =? cD)%N with true. change (cD =? cI)%N with false. cbn [orb].
      rewrite !part_slice by lia. cbn [dbind]. now rewrite part_nil, !app_nil_r.
    + change (cI =? cE)%N with false. change (cI =? cR)%N with false. change (cI =? cD)%N with false. change (cI =? cI)%N with true. cbn [orb].
      rewrite !part_slice by lia. cbn [dbind]. now rewrite part_nil.
Qed.

Lemma eqrun_parts : forall a b i j k, eqrun a b i j k -> part a i (i + k) = part b j (j + k).
Proof. intros * H. apply eqrun_common in H as (_ & _ & E). unfold part. now replace (i + k - i) with k by lia; replace (j + k - j) with k by lia. Qed.

Lemma seg_read : forall a b i j g i2 j2, seg a b i j g i2 j2 -> forall d,
  read_body (i2 - i) (j2 - j) (flat_map (op_lines a b) g ++ d) (skipn i a) = Some (part b j j2, d, skipn i2 a).
Proof.
  induction 1; intros d; cbn [flat_map].
  - rewrite !Nat.sub_diag, part_nil. now destruct d.
  - pose proof (seg_bounds _ _ _ _ _ _ _ H0) as [B1 B2]. pose proof H as (H1 & H2 & _).
    unfold op_lines at 1, is_equal. cbn [tag I1 I2 J1 J2]. change (cE =? cE)%N with true. cbn iota. rewrite <- app_assoc.
    rewrite (skip_part a i (i + k)) by lia. rewrite (part_app b j (j + k) j2) by lia. rewrite <- (eqrun_parts a b i j k) by auto.
    pose proof (part_length a i (i + k) ltac:(lia) ltac:(lia)) as L.
    pose proof (body_keep (part a i (i + k)) _ _ _ _ _ _ _ (IHseg d)) as K. rewrite L in K.
    replace (i + k - i + (i2 - (i + k))) with (i2 - i) in K by lia. replace (i + k - i + (j2 - (j + k))) with (j2 - j) in K by lia. exact K.
  - pose proof (seg_bounds _ _ _ _ _ _ _ H4) as [B1 B2].
    assert (T : is_equal (Op t i i1 j j1) = false) by (eapply change_tag; eauto).
    unfold op_lines at 1. rewrite T. cbn [tag I1 I2 J1 J2]. rewrite <- !app_assoc.
    rewrite (skip_part a i i1) by lia. rewrite (part_app b j j1 j2) by lia.
    pose proof (part_length a i i1 ltac:(lia) ltac:(lia)) as L1. pose proof (part_length b j j1 ltac:(lia) ltac:(lia)) as L2.
    replace (i2 - i) with (length (part a i i1) + (i2 - i1)) by lia. rewrite body_minus.
    replace (j2 - j) with (length (part b j j1) + (j2 - j1)) by lia. apply body_plus. apply IHseg.
Qed.

Lemma seg_first : forall a b i j c g i2 j2, seg a b i j (c :: g) i2 j2 -> I1 c = i /\ J1 c = j.
Proof. intros. inversion H; subst; auto. Qed.
Lemma seg_last : forall a b i j g i2 j2, seg a b i j g i2 j2 -> g <> [] -> exists c, nth_error g (length g - 1) = Some c /\ I2 c = i2 /\ J2 c = j2.
Proof.
  induction 1; intros N; [easy| |].
  - destruct r as [|c r]; [inversion H0; subst; eexists; cbn; eauto|]. destruct IHseg as (x & E & E1 & E2); [easy|]. exists x. split; auto.
    cbn [length Nat.sub] in *. rewrite Nat.sub_0_r in *. auto.
  - destruct r as [|c r]; [inversion H4; subst; eexists; cbn; eauto|]. destruct IHseg as (x & E & E1 & E2); [easy|]. exists x. split; auto.
    cbn [length Nat.sub] in *. rewrite Nat.sub_0_r in *. auto.
Qed.

(** ** The whole diff *)
Definition group_lines (a b : list bytes) (g : list op) : list bytes :=
  match g, nth_error g (length g - 1) with
  | c :: _, Some l => head_line (I1 c) (I2 l) (J1 c) (J2 l) :: flat_map (op_lines a b) g
  | _, _ => []
  end.

Lemma groups_write : forall a b i j gs, gscript a b i j gs -> write_groups a b gs = Some (concat (flat_map (group_lines a b) gs)).
Proof.
  induction 1; cbn [write_groups flat_map]; auto. rewrite IHgscript, concat_app. unfold write_group, group_lines.
  destruct g as [|c g]; [easy|]. cbn [nth_error dbind]. destruct (seg_last _ _ _ _ _ _ _ H0 H1) as (l & -> & E1 & E2). cbn [dbind].
  rewrite (seg_write _ _ _ _ _ _ _ H0). cbn [dbind]. cbn [concat]. unfold head_line. now rewrite <- !app_assoc.
Qed.

Lemma groups_read : forall a b i j gs, gscript a b i j gs -> forall fuel, length gs <= fuel ->
  read_hunks fuel i j (flat_map (group_lines a b) gs) (skipn i a) = Some (skipn j b).
Proof.
  induction 1 as [i j k E L1 L2|i j k g i2 j2 r E S N _ IH]; intros fuel F; cbn [flat_map].
  - destruct fuel; cbn [read_hunks]; f_equal; apply eqrun_common in E as (E1 & E2 & E); rewrite !firstn_all2 in E by (rewrite skipn_length; lia); auto.
  - destruct fuel as [|fuel]; [cbn in F; lia|]. unfold group_lines at 1. destruct g as [|c g]; [easy|].
    destruct (seg_first _ _ _ _ _ _ _ _ S) as [F1 F2]. destruct (seg_last _ _ _ _ _ _ _ S N) as (l & -> & E1 & E2). rewrite F1, F2, E1, E2.
    pose proof (seg_bounds _ _ _ _ _ _ _ S) as [B1 B2]. pose proof E as (G1 & G2 & _).
    cbn [List.app read_hunks]. rewrite read_head_ok by lia.
    replace (i <=? i + k) with true by (symmetry; apply Nat.leb_le; lia).
    replace (i + k - i) with k by lia. rewrite skipn_length. replace (k <=? length a - i) with true by (symmetry; apply Nat.leb_le; lia).
    rewrite Nat.eqb_refl. cbn [andb]. rewrite skipn_skipn. replace (k + i) with (i + k) by lia.
    rewrite (seg_read _ _ _ _ _ _ _ S). replace (i + k + (i2 - (i + k))) with i2 by lia. replace (j + k + (j2 - (j + k))) with j2 by lia.
    rewrite IH by (cbn in F; lia). f_equal. rewrite (skip_part b j (j + k)) by lia. rewrite (skip_part b (j + k) j2) by lia. f_equal.
    apply eqrun_common in E as (_ & _ & E). rewrite E. unfold part. f_equal. lia.
Qed.

Lemma op_lines_line : forall a b c, Forall line a -> Forall line b -> Forall line (op_lines a b c).
Proof.
  intros a b c Ha Hb. assert (P : forall l i e x, x <> 10%N -> Forall line l -> Forall line (map (cons x) (part l i e))).
  { intros l i e x N H. rewrite Forall_map. rewrite Forall_forall in *. intros y Hy. apply line_cons; auto. apply H.
    unfold part in Hy. assert (In y (skipn i l)) by (rewrite <- (firstn_skipn (e - i)); apply in_or_app; auto).
    rewrite <- (firstn_skipn i). apply in_or_app; auto. }
  unfold op_lines. destruct (is_equal c); [apply P; auto; lia|]. apply Forall_app. split; apply P; auto; lia.
Qed.

Lemma groups_line : forall a b gs, Forall line a -> Forall line b -> Forall line (flat_map (group_lines a b) gs).
Proof.
  intros. rewrite flat_map_concat_map. apply Forall_concat. rewrite Forall_map. apply Forall_forall. intros g _.
  unfold group_lines. destruct g as [|c g]; auto. destruct (nth_error _ _); auto. constructor; [apply head_is_line|].
  rewrite flat_map_concat_map. apply Forall_concat. rewrite Forall_map. apply Forall_forall. intros. now apply op_lines_line.
Qed.

Lemma groups_length : forall a b i j gs, gscript a b i j gs -> length gs <= length (flat_map (group_lines a b) gs).
Proof.
  induction 1; cbn [length flat_map]; auto. rewrite app_length. unfold group_lines at 1. destruct g as [|c g]; [easy|].
  destruct (seg_last _ _ _ _ _ _ _ H0 H1) as (l & -> & _). cbn [length]. lia.
Qed.

Lemma diff_ok : forall a b, exists gs m', GetGroupedOpCodes 1 (newMatcher None a b) = Some (gs, m') /\ gscript a b 0 0 gs
  /\ GetUnifiedDiffString a b = Some (match gs with [] => [] | _ => bs "--- Expected" ++ [10%N] ++ bs "+++ Actual" ++ [10%N] ++ concat (flat_map (group_lines a b) gs) end).
Proof.
  intros. destruct (grouped_ok a b (newMatcher None a b) 1 (new_good _ _ _)) as (l & m' & gs & m'' & E & E2 & S & _); auto.
  exists gs, m''. split; auto. split; auto. unfold GetUnifiedDiffString. rewrite E2. cbn [dbind fst]. destruct gs; auto.
  now rewrite (groups_write _ _ _ _ _ S).
Qed.

Lemma patch_ok : forall a b, Forall line a -> Forall line b -> exists t, GetUnifiedDiffString a b = Some t /\ patch t a = Some b.
Proof.
  intros a b Ha Hb. destruct (diff_ok a b) as (gs & m' & E & S & D). eexists. split; [exact D|]. unfold patch.
  pose proof (groups_read _ _ _ _ _ S) as R. cbn [skipn] in R. destruct gs as [|g gs].
  - cbn [text_lines]. specialize (R 0 ltac:(cbn; lia)). cbn in R. auto.
  - rewrite !app_assoc. rewrite <- (app_assoc _ (bs "+++ Actual")). rewrite <- app_assoc.
    rewrite text_line by (exists (bs "--- Expected"); split; auto; cbn; intuition discriminate).
    rewrite text_line by (exists (bs "+++ Actual"); split; auto; cbn; intuition discriminate).
    rewrite text_concat by (now apply groups_line). rewrite !beqb_refl. cbn [andb]. apply R. eapply groups_length; eauto.
Qed.

Lemma chain_forward : forall a b G i j l hi hj, chain a b G i j l hi hj -> loose l -> forward a b i j l.
Proof.
  induction 1; intros L; constructor; auto; [now apply eqrun_common| |].
  - inversion L as [| |? y r' T L']; subst; auto. unfold touch in T. lia.
  - apply IHchain. inversion L; subst; auto. constructor.
Qed.

Lemma walk_outcome : forall a b G e i j l, walk a b G e i j l -> concat (map (outcome a b) l) = skipn j b.
Proof.
  induction 1; cbn [map concat].
  - now rewrite skipn_all.
  - pose proof H0 as (Q1 & Q2 & _). rewrite IHwalk. unfold outcome. cbn [tag I1 I2]. change (cE =? cE)%N with true. cbn iota.
    rewrite (eqrun_parts a b i j k) by auto. rewrite <- skip_part by lia. reflexivity.
  - rewrite IHwalk. unfold outcome. cbn [tag I1 I2 J1 J2]. destruct H3 as [(-> & ? & ?)|[(-> & ? & <-)|(-> & <- & ?)]].
    + change (cR =? cE)%N with false. change (cR =? cD)%N with false. cbn iota. rewrite <- skip_part by lia. reflexivity.
    + reflexivity.
    + change (cI =? cE)%N with false. change (cI =? cD)%N with false. cbn iota. rewrite <- skip_part by lia. reflexivity.
Qed.

Lemma walk_apart : forall a b m e i j l, walk a b (apart a b m) e i j l -> exactly m ->
  forall c, In c l -> is_equal c = false -> disjoint a b (I1 c) (I2 c) (J1 c) (J2 c).
Proof.
  induction 1; intros X c I Q; [easy| |].
  - destruct I as [<-|I]; [discriminate|auto].
  - destruct I as [<-|I]; [|auto]. cbn [I1 I2 J1 J2]. auto.
Qed.
