(** * Traces, errors and JSON (proofs) *)
From Coq Require Import String NArith ZArith QArith Bool List Lia.
From Coq Require Import ZifyBool ZifyNat ZifyN.
From Verif Require Import Base AssertModel AssertSpec AssertProof EqModel EqSpec EqProof ErrModel ErrSpec.
Import ListNotations.
Open Scope N_scope.

(** ** split *)
Lemma in_mid : forall (c : N) p x, In c (p ++ [c] ++ x). Proof. intros c p x. apply in_or_app. right. now left. Qed.
Lemma split_cons : forall c s, exists p t, split c s = p :: t.
Proof. intros c [|x r]; cbn [split]; eauto. destruct (x =? c); eauto. destruct (split c r); eauto. Qed.
Lemma split_last : forall c s, exists pre x, split c s = pre ++ [x] /\ without c x /\ (pre = [] /\ s = x \/ exists p, pre <> [] /\ s = p ++ [c] ++ x /\ split c p = pre).
Proof.
  intros c. induction s as [|x r IH]; cbn [split].
  - exists [], []. split; [reflexivity|]. split; [intros []|]. left. auto.
  - destruct IH as (pre & y & E & W & C). destruct (x =? c) eqn:X.
    + apply N.eqb_eq in X. subst x. exists ([] :: pre), y. rewrite E. split; [reflexivity|]. split; [exact W|]. right. destruct C as [[-> ->]|(p & Np & -> & Ep)].
      * exists []. split; [discriminate|]. split; reflexivity.
      * exists (c :: p). split; [discriminate|]. split; [reflexivity|]. cbn [split]. rewrite N.eqb_refl. now rewrite Ep.
    + rewrite E. destruct C as [[-> ->]|(p & Np & -> & Ep)].
      * exists [], (x :: y). cbn [app]. split; [reflexivity|]. split; [intros [Z|Z]; [subst; rewrite N.eqb_refl in X; discriminate|auto]|]. left. auto.
      * destruct pre as [|q pre]; [destruct Np; reflexivity|]. exists ((x :: q) :: pre), y. split; [reflexivity|]. split; [exact W|]. right. exists (x :: p). split; [discriminate|]. split; [reflexivity|]. cbn [split]. now rewrite X, Ep.
Qed.
Lemma nth_last : forall (l : list bytes) x, nth (length (l ++ [x]) - 1) (l ++ [x]) [] = x.
Proof. intros l x. rewrite app_length. cbn [length]. replace (length l + 1 - 1)%nat with (length l) by lia. rewrite app_nth2 by lia. now rewrite Nat.sub_diag. Qed.
Lemma without_end : forall c (p q x y : bytes), without c x -> without c y -> p ++ [c] ++ x = q ++ [c] ++ y -> p = q /\ x = y.
Proof.
  intros c. induction p as [|a p IH]; intros q x y X Y E; destruct q as [|b q]; cbn [app] in E; inversion E; subst; auto.
  - exfalso. apply X. apply in_or_app. right. now left.
  - exfalso. apply Y. apply in_or_app. right. now left.
  - destruct (IH q x y X Y) as [-> ->]; auto.
Qed.
Lemma short_split : forall name, short_name name (nth (length (split 46 name) - 1) (split 46 name) []).
Proof. intro name. destruct (split_last 46 name) as (pre & x & E & W & C). rewrite E, nth_last. split; [exact W|]. destruct C as [[_ ->]|(p & _ & -> & _)]; eauto. Qed.
Lemma short_unique : forall name s t, short_name name s -> short_name name t -> s = t.
Proof.
  intros name s t [A H] [B G]. destruct H as [->|[p ->]], G as [G|[q G]]; auto.
  - subst. exfalso. apply A. apply in_or_app. right. now left.
  - subst. exfalso. apply B. apply in_or_app. right. now left.
  - now apply without_end in G.
Qed.
Lemma place_split : forall file, (length (split 47 file) <= 1)%nat /\ (forall d f, ~ place file d f) \/
  (1 < length (split 47 file))%nat /\ place file (nth (length (split 47 file) - 2) (split 47 file) []) (nth (length (split 47 file) - 1) (split 47 file) []).
Proof.
  intro file. destruct (split_last 47 file) as (pre & x & E & W & C). rewrite E, nth_last. destruct C as [[-> ->]|(p & Np & -> & Ep)].
  - left. split; [cbn; lia|]. intros d f P. inversion P; subst; apply W; apply in_mid.
  - right. destruct (split_last 47 p) as (pre2 & y & E2 & W2 & C2). rewrite Ep in E2. rewrite E2. rewrite !app_length. cbn [length]. split; [lia|]. replace (length pre2 + 1 + 1 - 2)%nat with (length pre2) by lia. rewrite <- app_assoc, app_nth2 by lia. rewrite Nat.sub_diag. cbn [app nth].
    destruct C2 as [[_ ->]|(q & _ & -> & _)]; [now apply place_short|]. rewrite <- !app_assoc. now apply (place_long q).
Qed.
Lemma place_inv : forall file d f, place file d f -> exists p, file = p ++ [47] ++ f /\ without 47 f /\ without 47 d /\ (p = d \/ exists pre, p = pre ++ [47] ++ d).
Proof. intros file d f P. inversion P; subst; [exists d; auto|]. exists (pre ++ [47] ++ d). split; [now rewrite <- !app_assoc|]. eauto. Qed.
Lemma place_unique : forall file d f d' f', place file d f -> place file d' f' -> d = d' /\ f = f'.
Proof.
  intros file d f d' f' P Q. apply place_inv in P. apply place_inv in Q. destruct P as (p & -> & A & B & C). destruct Q as (q & E & A' & B' & C'). apply without_end in E; auto. destruct E as [-> ->]. split; [|reflexivity].
  destruct C as [->|[r ->]], C' as [C'|[t C']]; auto.
  - subst. exfalso. apply B. apply in_mid.
  - subst. exfalso. apply B'. apply in_mid.
  - now apply without_end in C'.
Qed.
Lemma row_unique : forall f s t, row f s -> row f t -> s = t.
Proof. intros f s t (d & x & P & _ & ->) (d' & x' & Q & _ & ->). now destruct (place_unique _ _ _ _ _ P Q) as [_ ->]. Qed.
Lemma after_spec : forall p s r, after p s = Some r <-> s = p ++ r.
Proof.
  induction p as [|x p IH]; intros [|y s] r; cbn [after app]; try (split; [intro H; inversion H; auto|intro H; now subst]; fail).
  destruct (x =? y) eqn:E; [apply N.eqb_eq in E; subst; rewrite IH; split; [now intros ->|intro H; now inversion H]|]. split; [discriminate|]. intro H. inversion H; subst. rewrite N.eqb_refl in E. discriminate.
Qed.
Lemma is_test_spec : forall lower s p, is_test lower s p = true <-> exists rest, s = p ++ rest /\ (rest = [] \/ lower rest = false).
Proof.
  intros lower s p. unfold is_test. destruct (after p s) as [r|] eqn:A.
  - pose proof A as B. apply after_spec in B. split.
    + intro H. exists r. split; [exact B|]. destruct r; auto. right. now apply negb_true_iff in H.
    + intros (r' & E & H). apply after_spec in E. rewrite A in E. inversion E; subst. destruct H as [->|H]; auto. destruct r'; auto. now rewrite H.
  - split; [discriminate|]. intros (r & E & _). apply after_spec in E. congruence.
Qed.
Lemma a_test_spec : forall lower f name, fr_func f = Some name ->
  (let s := nth (length (split 46 name) - 1) (split 46 name) [] in is_test lower s (bs "Test") || is_test lower s (bs "Benchmark") || is_test lower s (bs "Example")) = true <-> a_test lower f.
Proof.
  intros lower f name E. cbv zeta. pose proof (short_split name) as S. set (s := nth _ _ _) in *. rewrite !orb_true_iff, !is_test_spec. split.
  - intro H. exists name, s. split; [exact E|]. split; [exact S|]. destruct H as [[(r & H)|(r & H)]|(r & H)]; [exists (bs "Test"), r|exists (bs "Benchmark"), r|exists (bs "Example"), r]; (split; [cbn [In]; tauto|exact H]).
  - intros (name' & s' & E' & S' & p & r & I1 & H). rewrite E in E'. inversion E'; subst name'. rewrite (short_unique _ _ _ S S'). cbn [In] in I1. destruct I1 as [<-|[<-|[<-|[]]]]; [left; left|left; right|right]; eauto.
Qed.
Definition row_of (f : frame) : list bytes :=
  let parts := split 47 (fr_file f) in let file := nth (length parts - 1) parts [] in
  if (1 <? length parts)%nat then
    let dir := nth (length parts - 2) parts [] in
    if negb (beqb dir (bs "assert")) && negb (beqb dir (bs "mock")) && negb (beqb dir (bs "require")) || beqb file (bs "mock_test.go")
    then [file ++ bs ":" ++ dec_of_N (fr_line f)] else []
  else [].
Lemma row_of_spec : forall f, (exists text, row_of f = [text] /\ row f text) \/ row_of f = [] /\ forall text, ~ row f text.
Proof.
  intro f. unfold row_of. cbv zeta. destruct (place_split (fr_file f)) as [[L P]|[L P]].
  - right. replace (1 <? length (split 47 (fr_file f)))%nat with false by lia. split; [reflexivity|]. intros t (d & x & Q & _). eapply P; eauto.
  - replace (1 <? length (split 47 (fr_file f)))%nat with true by lia. set (d := nth _ _ _) in *. set (x := nth (_ - 1) _ _) in *.
    assert (C : negb (beqb d (bs "assert")) && negb (beqb d (bs "mock")) && negb (beqb d (bs "require")) || beqb x (bs "mock_test.go") = true <-> ~ In d [bs "assert"; bs "mock"; bs "require"] \/ x = bs "mock_test.go").
    { rewrite orb_true_iff, !andb_true_iff, !negb_true_iff, beqb_eq. cbn [In]. split.
      - intros [[[A B] C]|E]; auto. left. intros [F|[F|[F|[]]]]; subst d; rewrite <- F in *; rewrite beqb_refl in *; discriminate.
      - intros [N1|E]; auto. left. repeat split; match goal with |- beqb ?u ?v = false => destruct (beqb u v) eqn:F; auto; exfalso; apply N1; apply beqb_eq in F; rewrite F; tauto end. }
    destruct (_ || _).
    + left. eexists. split; [reflexivity|]. exists d, x. split; [exact P|]. split; [now apply C|reflexivity].
    + right. split; [reflexivity|]. intros t (d' & x' & Q & H & _). destruct (place_unique _ _ _ _ _ P Q) as [-> ->]. apply C in H. discriminate.
Qed.
Lemma caller_step : forall lower f r, caller_info lower (f :: r) = if beqb (fr_file f) (bs "<autogenerated>") then [] else match fr_func f with None => [] | Some name => if beqb name (bs "testing.tRunner") then [] else
  if (let s := nth (length (split 46 name) - 1) (split 46 name) [] in is_test lower s (bs "Test") || is_test lower s (bs "Benchmark") || is_test lower s (bs "Example")) then row_of f else row_of f ++ caller_info lower r end.
Proof. reflexivity. Qed.
Lemma step_cases : forall lower f r, (outside f /\ caller_info lower (f :: r) = []) \/ (~ outside f /\ a_test lower f /\ caller_info lower (f :: r) = row_of f) \/ (~ outside f /\ ~ a_test lower f /\ caller_info lower (f :: r) = row_of f ++ caller_info lower r).
Proof.
  intros lower f r. rewrite caller_step. destruct (beqb (fr_file f) _) eqn:A; [apply beqb_eq in A; left; split; [now left|reflexivity]|]. destruct (fr_func f) as [name|] eqn:F; [|left; split; [right; now left|reflexivity]].
  destruct (beqb name _) eqn:B; [apply beqb_eq in B; subst; left; split; [right; now right|reflexivity]|]. right.
  assert (O : ~ outside f). { intros [X|[X|X]]; [rewrite X, beqb_refl in A; discriminate|congruence|]. rewrite F in X. inversion X; subst. rewrite beqb_refl in B. discriminate. }
  pose proof (a_test_spec lower f name F) as T. cbv zeta in *. destruct (_ || _ || _); [left|right]; split; auto; split; auto; [now apply T|]. intro X. apply T in X. discriminate.
Qed.
Lemma rows_step : forall f r t, rows r t -> rows (f :: r) (row_of f ++ t).
Proof. intros f r t H. destruct (row_of_spec f) as [(x & -> & R)|[-> R]]; cbn [app]; now constructor. Qed.
Lemma rows_inv : forall f r t, rows (f :: r) t -> exists t', t = row_of f ++ t' /\ rows r t'.
Proof.
  intros f r t H. destruct (row_of_spec f) as [(x & E & R)|[E R]]; rewrite E; inversion H; subst.
  - match goal with X : row f ?y |- _ => rewrite (row_unique _ _ _ X R) end. eexists. split; [reflexivity|auto].
  - match goal with X : forall t, ~ row f t |- _ => destruct (X _ R) end.
  - match goal with X : row f ?y |- _ => destruct (R _ X) end.
  - eexists. split; [reflexivity|auto].
Qed.
Lemma caller_ok : forall lower stack, exists upto rest, stack = upto ++ rest /\ of_test lower upto rest /\ rows upto (caller_info lower stack).
Proof.
  intros lower. induction stack as [|f r IH].
  - exists [], []. split; [reflexivity|]. split; [|constructor]. split; [constructor|]. split; [|now left]. intros [|? ?] ? ? ? X; discriminate.
  - destruct (step_cases lower f r) as [(O & E)|[(O & T & E)|(O & T & E)]]; rewrite E.
    + exists [], (f :: r). split; [reflexivity|]. split; [|constructor]. split; [constructor|]. split; [|right; left; eauto]. intros [|? ?] ? ? ? X; discriminate.
    + exists [f], r. split; [reflexivity|]. split; [|rewrite <- (app_nil_r (row_of f)); apply rows_step; constructor]. split; [constructor; auto|]. split; [|right; right; exists [], f; auto]. intros [|a [|? ?]] ? ? ? X; discriminate.
    + destruct IH as (u & rest & -> & (A & B & C) & R). exists (f :: u), rest. split; [reflexivity|]. split; [|now apply rows_step]. split; [constructor; auto|]. split.
      * intros [|a l] x g q X; inversion X; subst; auto. eapply B. reflexivity.
      * destruct C as [C|[C|(l & x & -> & C)]]; auto. right. right. now exists (f :: l), x.
Qed.
Lemma caller_unique : forall lower upto rest t, of_test lower upto rest -> rows upto t -> caller_info lower (upto ++ rest) = t.
Proof.
  intros lower. induction upto as [|f u IH]; intros rest t (A & B & C) R.
  - inversion R; subst. destruct C as [->|[(f & r & -> & O)|(l & f & E & _)]]; [reflexivity| |destruct l; discriminate]. cbn [app]. destruct (step_cases lower f r) as [(_ & E)|[(X & _)|(X & _)]]; auto; now destruct X.
  - apply rows_inv in R. destruct R as (t' & -> & R). inversion A as [|? ? O A']; subst. cbn [app]. destruct (step_cases lower f (u ++ rest)) as [(X & _)|[(_ & T & E)|(_ & T & E)]]; [now destruct O| |].
    + destruct u as [|g u]; [inversion R; subst; now rewrite app_nil_r|]. exfalso. eapply (B [] f g u); auto.
    + rewrite E. f_equal. apply IH; auto. split; [exact A'|]. split; [intros l x g q X; apply (B (f :: l) x g q); now rewrite X|].
      destruct C as [C|[C|(l & x & X & C)]]; auto. right. right. destruct l as [|a l]; inversion X; subst; [now destruct T|]. eauto.
Qed.

(** ** Errors *)
Section ErrInd.
Variable P : err -> Prop.
Hypothesis H0 : forall i c m f, P (Err i c m f None).
Hypothesis H1 : forall i c m f e, P e -> P (Err i c m f (Some e)).
Fixpoint err_ind' (e : err) : P e := match e with Err i c m f None => H0 i c m f | Err i c m f (Some x) => H1 i c m f x (err_ind' x) end.
End ErrInd.
Lemma is_loop_spec : forall e t, is_loop e t = true <-> exists x, wraps e x /\ matches x t.
Proof.
  intros e t. induction e as [i c m f|i c m f e IH] using err_ind'; cbn [is_loop].
  - split.
    + intro H. exists (Err i c m f None). split; [constructor|]. destruct (e_comparable t && (i =? e_id t)) eqn:A; [apply andb_true_iff in A; destruct A as [A B]; apply N.eqb_eq in B; left; auto|]. destruct f as [g|]; [|discriminate]. destruct (g (e_id t)) eqn:G; [|discriminate]. right. exists g. auto.
    + intros (x & W & [[A B]|(g & A & B)]); inversion W; subst; cbn [e_id e_is] in *; subst; [now rewrite A, N.eqb_refl|]. rewrite B. now destruct (_ && _).
  - split.
    + intro H. destruct (e_comparable t && (i =? e_id t)) eqn:A; [apply andb_true_iff in A; destruct A as [A B]; apply N.eqb_eq in B; eexists; split; [constructor|left; auto]|]. destruct f as [g|].
      * destruct (g (e_id t)) eqn:G; [eexists; split; [constructor|right; exists g; auto]|]. apply IH in H. destruct H as (x & W & M). exists x. split; [now constructor|auto].
      * apply IH in H. destruct H as (x & W & M). exists x. split; [now constructor|auto].
    + intros (x & W & M). inversion W; subst.
      * destruct M as [[A B]|(g & A & B)]; cbn [e_id e_is] in *; subst; [now rewrite A, N.eqb_refl|]. rewrite B. now destruct (_ && _).
      * destruct (_ && _); auto. destruct (match f with Some _ => _ | None => _ end); auto. apply IH. eauto.
Qed.
Lemma chain_all : forall e, exists l, chain e l /\ forall x, In x l <-> wraps e x.
Proof.
  intro e. induction e as [i c m f|i c m f e IH] using err_ind'.
  - eexists. split; [constructor|]. intro x. cbn [In]. split; [intros [<-|[]]; constructor|]. intro W. inversion W; auto.
  - destruct IH as (l & C & W). eexists. split; [constructor; exact C|]. intro x. cbn [In]. rewrite W. split; [intros [<-|X]; now constructor|]. intro X. inversion X; subst; auto.
Qed.
Lemma chain_text : forall quote e l, chain e l -> chain_from quote e = join [10; 9] (map (fun x => quote (e_msg x)) l).
Proof.
  intros quote e l C. induction C; cbn [chain_from map e_msg join]; [now rewrite app_nil_r|]. rewrite IHC. destruct C; reflexivity.
Qed.
Lemma error_as_spec : forall fits e, match error_as fits e with
  | Some x => exists l1 l2, chain e (l1 ++ x :: l2) /\ fits x = true /\ Forall (fun y => fits y = false) l1
  | None => forall x, wraps e x -> fits x = false end.
Proof.
  intros fits e. induction e as [i c m f|i c m f e IH] using err_ind'; cbn [error_as].
  - destruct (fits (Err i c m f None)) eqn:F; [exists [], []; split; [constructor|auto]|]. intros x W. inversion W; subst; auto.
  - destruct (fits (Err i c m f (Some e))) eqn:F.
    + destruct (chain_all e) as (l & C & _). exists [], l. split; [now constructor|auto].
    + destruct (error_as fits e) as [x|].
      * destruct IH as (l1 & l2 & C & X & A). exists (Err i c m f (Some e) :: l1), l2. split; [now constructor|]. split; [exact X|]. constructor; auto.
      * intros x W. inversion W; subst; auto.
Qed.

(** ** JSON *)
Section JInd.
Variable P : jval -> Prop.
Hypothesis Hn : P JNull.
Hypothesis Hb : forall b, P (JBool b).
Hypothesis Hnum : forall b, P (JNum b).
Hypothesis Hs : forall s, P (JStr s).
Hypothesis Ha : forall l, Forall P l -> P (JArr l).
Hypothesis Ho : forall l, Forall (fun kv => P (snd kv)) l -> P (JObj l).
Fixpoint jval_ind' (v : jval) : P v :=
  match v with
  | JNull => Hn | JBool b => Hb b | JNum b => Hnum b | JStr s => Hs s
  | JArr l => Ha l ((fix go l := match l return Forall P l with [] => @Forall_nil _ P | x :: r => @Forall_cons _ P x r (jval_ind' x) (go r) end) l)
  | JObj l => Ho l ((fix go l := match l return Forall (fun kv => P (snd kv)) l with [] => @Forall_nil _ _ | x :: r => @Forall_cons _ (fun kv => P (snd kv)) x r (jval_ind' (snd x)) (go r) end) l)
  end.
End JInd.
Lemma in_put : forall A (m : list (bytes * A)) k v j y, NoDup (map fst m) -> (In (j, y) (put m k v) <-> (j = k /\ y = v) \/ (j <> k /\ In (j, y) m)).
Proof.
  intros A m k v j y. induction m as [|[k' w] m IH]; cbn [put map fst]; intro D.
  - cbn [In]. split; [intros [X|[]]; inversion X; auto|intros [[-> ->]|[_ []]]; auto].
  - inversion D as [|? ? D1 D2]; subst. destruct (beqb k k') eqn:B.
    + apply beqb_eq in B. subst k'. cbn [In]. split.
      * intros [X|X]; [inversion X; auto|]. right. split; [|auto]. intros ->. apply D1. apply (in_map fst) in X. exact X.
      * intros [[-> ->]|[Nk [X|X]]]; auto. inversion X; subst. now destruct Nk.
    + cbn [In]. rewrite IH by auto. split.
      * intros [X|[X|X]]; auto; [|tauto]. inversion X; subst. right. split; [|auto]. intros ->. rewrite beqb_refl in B. discriminate.
      * intros [X|[Nk [X|X]]]; auto.
Qed.
Lemma put_keys : forall A (m : list (bytes * A)) k v j, In j (map fst (put m k v)) <-> j = k \/ In j (map fst m).
Proof.
  intros A m k v j. induction m as [|[k' w] m IH]; cbn [put map fst In]; [intuition|]. destruct (beqb k k') eqn:B; cbn [map fst In].
  - apply beqb_eq in B. subst. intuition.
  - rewrite IH. intuition.
Qed.
Lemma put_nodup : forall A (m : list (bytes * A)) k v, NoDup (map fst m) -> NoDup (map fst (put m k v)).
Proof.
  intros A m k v. induction m as [|[k' w] m IH]; cbn [put map fst]; intro D; [repeat constructor; intros []|]. inversion D as [|? ? D1 D2]; subst. destruct (beqb k k') eqn:B; cbn [map fst]; constructor; auto.
  rewrite put_keys. intros [->|X]; auto. rewrite beqb_refl in B. discriminate.
Qed.
Lemma last_snoc : forall A (l : list (bytes * A)) k v j y, last_of j (l ++ [(k, v)]) y <-> (j = k /\ y = v) \/ (j <> k /\ last_of j l y).
Proof.
  intros A l k v j y. split.
  - intros (l1 & l2 & E & Ni). destruct (@exists_last _ ((j, y) :: l2) ltac:(discriminate)) as (l3 & z & E3). rewrite E3 in E. rewrite app_assoc in E. apply app_inj_tail in E. destruct E as [-> <-]. destruct l3 as [|a l3]; inversion E3; subst; [auto|].
    right. rewrite map_app in Ni. cbn in Ni. split; [intros ->; apply Ni; apply in_or_app; right; now left|]. exists l1, l3. split; [reflexivity|]. intro X. apply Ni. apply in_or_app. now left.
  - intros [[-> ->]|(Nk & l1 & l2 & -> & Ni)]; [exists l, []; auto|]. exists l1, (l2 ++ [(k, v)]). split; [now rewrite <- app_assoc|]. rewrite map_app. intro X. apply in_app_or in X. destruct X as [X|[X|[]]]; auto.
Qed.
Lemma puts_spec : forall A (l : list (bytes * A)), NoDup (map fst (puts l)) /\ (forall k x, In (k, x) (puts l) <-> last_of k l x) /\ forall k, In k (map fst (puts l)) <-> In k (map fst l).
Proof.
  intros A l. induction l as [|[k v] l IH] using rev_ind.
  - split; [constructor|]. split; [|cbn; tauto]. intros k x. cbn. split; [intros []|]. intros ([|? ?] & l2 & E & _); discriminate.
  - destruct IH as (D & I1 & K). unfold puts in *. rewrite fold_left_app. cbn [fold_left fst snd]. split; [now apply put_nodup|]. split.
    + intros j x. rewrite in_put by auto. rewrite I1, last_snoc. reflexivity.
    + intro j. rewrite put_keys, K, map_app, in_app_iff. cbn [map fst In]. intuition.
Qed.
Lemma last_map : forall A B (f : A -> B) l k y, last_of k (map (fun kv => (fst kv, f (snd kv))) l) y <-> exists x, y = f x /\ last_of k l x.
Proof.
  intros A B f l k y. induction l as [|[k' v] l IH] using rev_ind.
  - split; [intros ([|? ?] & l2 & E & _); discriminate|]. intros (x & _ & [|? ?] & l2 & E & _); discriminate.
  - rewrite map_app. cbn [map fst snd]. rewrite last_snoc, IH. split.
    + intros [[-> ->]|(Nk & x & -> & L)]; [exists v|exists x]; rewrite last_snoc; auto.
    + intros (x & -> & L). apply last_snoc in L. destruct L as [[-> ->]|[Nk L]]; eauto.
Qed.
Lemma last_in : forall A (l : list (bytes * A)) k x, last_of k l x -> In (k, x) l.
Proof. intros A l k x (l1 & l2 & -> & _). apply in_or_app. right. now left. Qed.
Definition any_ty := TyBasic 106 KIface.
Lemma decode_not_iface : forall a v t x, decode a v = Some (t, x) -> forall o, x <> VIface o.
Proof. intros a v t x E o. destruct v; inversion E; discriminate. Qed.
Lemma decode_well : forall a v, j_ok v -> match decode a v with None => True | Some (t, x) => well t x end.
Proof.
  intros a v. induction v as [| | | |l IH|l IH] using jval_ind'; intro O; cbn [decode]; auto; inversion O; subst; try (now constructor).
  - apply well_slice with (t := any_ty); [discriminate|]. induction l as [|x l IHl]; cbn [map]; constructor.
    + inversion IH; inversion H0; subst. pose proof (decode_not_iface a x) as NI. destruct (decode a x) as [[t y]|]; [|constructor]. constructor; eauto.
    + inversion IH; inversion H0; subst. apply IHl; auto. now constructor.
  - destruct (puts_spec _ (map (fun kv => (fst kv, VIface (decode a (snd kv)))) l)) as (D & I1 & _). apply well_map with (t := any_ty); [exact D|]. apply Forall_forall. intros [k y] I2. cbn [snd]. apply I1 in I2. apply (last_map _ _ (fun v => VIface (decode a v))) in I2. destruct I2 as (v & -> & L). apply last_in in L.
    rewrite Forall_forall in *. specialize (IH _ L). cbn [snd] in IH. specialize (IH (H0 _ L)). pose proof (decode_not_iface a v) as NI. destruct (decode a v) as [[t y]|]; [|constructor]. constructor; eauto.
Qed.
Lemma same_iface_spec : forall x y, same (VIface x) (VIface y) <-> same_objects x y.
Proof.
  intros [[t x]|] [[u y]|]; cbn [same_objects]; split; intro H; try (now inversion H; auto); try (constructor; fail); try tauto; try (destruct H; now constructor).
Qed.
Lemma Forall2_map_iff : forall A B (f g : A -> B) (R : B -> B -> Prop) (S : A -> A -> Prop) l r, (forall x y, In x l -> In y r -> (R (f x) (g y) <-> S x y)) -> (Forall2 R (map f l) (map g r) <-> Forall2 S l r).
Proof.
  intros A B f g R S. induction l as [|x l IH]; intros [|y r] H; cbn [map]; split; intro F; inversion F; subst; constructor; try (apply H; [now left|now left|auto]); apply (IH r); auto; intros; apply H; now right.
Qed.
Lemma decode_same : forall a b, a <> b -> forall v, j_ok v -> forall w, j_ok w -> (same_objects (decode a v) (decode b w) <-> json_same v w).
Proof.
  intros a b Nab v. induction v as [|c|n|s|l IH|l IH] using jval_ind'; intros O w O'; destruct w as [|c'|n'|s'|r|r]; cbn [decode same_objects];
    try (split; [intro H; try (destruct H; discriminate); try contradiction|intro H; inversion H; fail]; fail).
  - split; constructor.
  - split; [intros [_ H]; inversion H; constructor|]. intro H. inversion H. split; constructor.
  - split; [intros [_ H]; inversion H; subst; econstructor; eauto|]. intro H. inversion H; subst. split; [reflexivity|]. econstructor; eauto.
  - split; [intros [_ H]; inversion H; constructor|]. intro H. inversion H. split; constructor.
  - inversion O as [| | | |? Ol|]; subst. inversion O' as [| | | |? Or|]; subst.
    assert (L : Forall2 same (map (fun x => VIface (decode a x)) l) (map (fun x => VIface (decode b x)) r) <-> Forall2 json_same l r).
    { rewrite Forall_forall in IH, Ol, Or. apply Forall2_map_iff. intros x y Ix Iy. rewrite same_iface_spec. apply IH; auto. }
    split.
    + intros [_ H]. inversion H; subst; [now destruct Nab|]. constructor. now apply L.
    + intro H. inversion H; subst. split; [reflexivity|]. apply same_slice. now apply L.
  - inversion O as [| | | | |? Ol]; subst. inversion O' as [| | | | |? Or]; subst. rewrite Forall_forall in IH, Ol, Or.
    destruct (puts_spec _ (map (fun kv => (fst kv, VIface (decode a (snd kv)))) l)) as (D1 & I1 & K1). destruct (puts_spec _ (map (fun kv => (fst kv, VIface (decode b (snd kv)))) r)) as (D2 & I2 & K2).
    assert (Km : forall c l k, In k (map fst (map (fun kv : bytes * jval => (fst kv, VIface (decode c (snd kv)))) l)) <-> In k (map fst l)) by (intros c l0 k; rewrite map_map; reflexivity).
    split.
    + intros [_ H]. inversion H as [| | | | | | | | | | |? ? ? E|? ? ? ? F G| | | | | | |]; subst; [now destruct Nab|]. constructor.
      * intros k x L. destruct (F k (VIface (decode a x))) as (y & Iy & S). { apply I1. apply (last_map _ _ (fun v => VIface (decode a v))). eauto. }
        apply I2 in Iy. apply (last_map _ _ (fun v => VIface (decode b v))) in Iy. destruct Iy as (y' & -> & Ly). exists y'. split; [exact Ly|]. apply same_iface_spec in S. apply (IH (k, x)); cbn [snd]; auto; [now apply last_in| |]; [exact (Ol _ (last_in _ _ _ _ L))|exact (Or _ (last_in _ _ _ _ Ly))].
      * intros k I3. apply (Km a). apply K1. apply G. apply K2. now apply (Km b).
    + intro H. inversion H as [| | | | |? ? F G]; subst. split; [reflexivity|]. apply same_map.
      * intros k z Iz. apply I1 in Iz. apply (last_map _ _ (fun v => VIface (decode a v))) in Iz. destruct Iz as (x & -> & L). destruct (F k x L) as (y & Ly & S). exists (VIface (decode b y)). split; [apply I2; apply (last_map _ _ (fun v => VIface (decode b v))); eauto|]. apply same_iface_spec. apply (IH (k, x)); cbn [snd]; auto; [now apply last_in| |]; [exact (Ol _ (last_in _ _ _ _ L))|exact (Or _ (last_in _ _ _ _ Ly))].
      * intros k I3. apply K1. apply (Km a). apply G. apply (Km b). now apply K2.
Qed.
