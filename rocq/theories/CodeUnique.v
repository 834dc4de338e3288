(** * No two documents have one bytecode (specification of plain documents, and proofs) *)
From Coq Require Import String Arith NArith ZArith Bool List Lia ZifyBool ZifyN ZifyNat.
From Verif Require Import Base Ast Grammar RefGrammar PrinterProof ResSim DocRun.
Import ListNotations.
Open Scope N_scope.

(** ** Names without zero bytes *)
Fixpoint plain_value (v : value) : Prop :=
  match v with
  | VList vs => (fix f l := match l with [] => True | x :: r => plain_value x /\ f r end) vs
  | VObj fs => (fix f l := match l with [] => True | (k, x) :: r => clean k /\ plain_value x /\ f r end) fs
  | _ => True
  end.
Fixpoint plain_args (fs : list (bytes * value)) : Prop := match fs with [] => True | (k, x) :: r => clean k /\ plain_value x /\ plain_args r end.
Definition plain_opt (a : option (list (bytes * value))) : Prop := match a with None => True | Some fs => plain_args fs end.
Definition plain_dir (d : directive) : Prop := clean (d_name d) /\ plain_opt (d_args d).
Fixpoint plain_sel (x : sel) : Prop :=
  match x with
  | SField alias name ds args subs => name <> [] /\ Forall plain_dir ds /\ plain_opt args /\ (fix f l := match l with [] => True | x :: r => plain_sel x /\ f r end) subs
  | SSpread name ds => clean name /\ Forall plain_dir ds
  | SInline tname ds subs => clean tname /\ Forall plain_dir ds /\ (fix f l := match l with [] => True | x :: r => plain_sel x /\ f r end) subs
  end.
Fixpoint plain_sels (l : list sel) : Prop := match l with [] => True | x :: r => plain_sel x /\ plain_sels r end.
Definition plain_oparg (a : oparg) : Prop := clean (oa_name a) /\ ok_type (oa_type a) /\ match oa_default a with None => True | Some v => plain_value v end.
Definition plain_def (x : definition) : Prop :=
  match x with
  | DOp _ name args ds ss => clean name /\ match args with None => True | Some l => Forall plain_oparg l end /\ Forall plain_dir ds /\ plain_sels ss
  | DFrag n t ss => clean n /\ clean t /\ plain_sels ss
  end.
Definition plain_doc (d : document) : Prop := Forall plain_def d.
Lemma plain_obj fs : plain_value (VObj fs) <-> plain_args fs.
Proof. induction fs as [|[k x] r IH]; cbn in *; [tauto|]. rewrite IH. tauto. Qed.
Lemma plain_subs l : (fix f l := match l with [] => True | x :: r => plain_sel x /\ f r end) l <-> plain_sels l.
Proof. induction l as [|x r IH]; cbn; [tauto|]. rewrite IH. tauto. Qed.

(** ** Accepted documents are plain *)
Lemma plain_value_ok :
  (forall v l r, g_value v l r -> plain_value v) /\ (forall vs l r, g_items vs l r -> plain_value (VList vs)) /\
  (forall cl fs l r, g_assign cl fs l r -> plain_value (VObj fs)) /\ (forall cl fs l r, g_fields cl fs l r -> plain_value (VObj fs)).
Proof.
  apply g_value_mut; intros; try (cbn; exact I); auto.
  - inversion H1; subst; exact I.
  - cbn in *. tauto.
  - split; assumption.
  - cbn. split; [eapply g_name_clean; eauto|]. tauto.
  - split; [eapply g_name_clean; eauto|]. split; assumption.
Qed.
Lemma plain_assign cl fs l r : g_assign cl fs l r -> plain_args fs.
Proof. intro H. apply plain_obj. exact (proj1 (proj2 (proj2 plain_value_ok)) _ _ _ _ H). Qed.
Lemma plain_dirs_ok ds l r : g_dirs ds l r -> Forall plain_dir ds.
Proof.
  induction 1; [constructor| |]; constructor; auto; (split; [eapply g_name_clean; eauto|]); [exact I|]. eapply plain_assign; eauto.
Qed.
Lemma plain_sel_ok :
  (forall s l r, g_sel s l r -> plain_sel s) /\ (forall ss l r, g_opt_set ss l r -> plain_sels ss) /\
  (forall ss l r, g_selset ss l r -> plain_sels ss) /\ (forall ss l r, g_sels ss l r -> plain_sels ss).
Proof.
  apply g_sel_mut; intros; auto; try exact I.
  - split; [inversion H; subst; eapply g_name_ok; eauto|]. split; [eapply plain_dirs_ok; eauto|]. split; [inversion H2; subst; [exact I|eapply plain_assign; eauto]|]. now apply plain_subs.
  - split; [eapply g_name_clean; eauto|eapply plain_dirs_ok; eauto].
  - split; [eapply g_name_clean; eauto|]. split; [eapply plain_dirs_ok; eauto|]. now apply plain_subs.
  - split; [assumption|exact I].
  - split; assumption.
Qed.
Lemma plain_opargs_ok a l r : g_opargs a l r -> Forall plain_oparg a.
Proof.
  induction 1; constructor; auto. split; [eapply g_name_clean; eauto|]. split; [eapply type_ok; eauto|]. cbn. inversion H3; subst; [exact I|]. eapply (proj1 plain_value_ok); eauto.
Qed.
Lemma plain_def_ok x l r : g_def x l r -> plain_def x.
Proof.
  intro H. inversion H; subst; cbn.
  - split; [constructor|]. split; [exact I|]. split; [constructor|]. eapply (proj1 (proj2 (proj2 plain_sel_ok))); eauto.
  - split; [inversion H0; subst; [constructor|eapply g_name_clean; eauto]|]. split; [inversion H1; subst; [exact I|eapply plain_opargs_ok; eauto]|]. split; [eapply plain_dirs_ok; eauto|]. eapply (proj1 (proj2 (proj2 plain_sel_ok))); eauto.
  - split; [eapply g_name_clean; eauto|]. split; [eapply g_name_clean; eauto|]. eapply (proj1 (proj2 (proj2 plain_sel_ok))); eauto.
Qed.
Lemma plain_doc_ok d q : g_doc d q -> plain_doc d.
Proof. induction 1; constructor; auto. eapply plain_def_ok; eauto. Qed.

(** ** Parts can be told apart *)
Notation lim := 4294967296.
Lemma le32_inj a b : a < lim -> b < lim -> le32 a = le32 b -> a = b.
Proof.
  unfold le32. intros A B H. injection H as H0 H1 H2 H3.
  pose proof (N.div_mod a 256 ltac:(lia)). pose proof (N.div_mod b 256 ltac:(lia)).
  pose proof (N.div_mod (a / 256) 256 ltac:(lia)) as Ha. pose proof (N.div_mod (b / 256) 256 ltac:(lia)) as Hb. rewrite !N.div_div in Ha, Hb by lia. change (256 * 256) with 65536 in *.
  pose proof (N.div_mod (a / 65536) 256 ltac:(lia)) as Ga. pose proof (N.div_mod (b / 65536) 256 ltac:(lia)) as Gb. rewrite !N.div_div in Ga, Gb by lia. change (65536 * 256) with 16777216 in *.
  assert (a / 16777216 < 256) by (apply N.div_lt_upper_bound; lia). assert (b / 16777216 < 256) by (apply N.div_lt_upper_bound; lia).
  rewrite (N.mod_small (a / 16777216)) in H3 by assumption. rewrite (N.mod_small (b / 16777216)) in H3 by assumption. lia.
Qed.
Lemma app_same {A} (a b c d : list A) : length a = length b -> a ++ c = b ++ d -> a = b /\ c = d.
Proof. revert b. induction a as [|x a IH]; intros [|y b] L E; try discriminate; [auto|]. cbn in E. injection E as -> E. destruct (IH b ltac:(cbn in L; lia) E) as [-> ->]. auto. Qed.
Lemma nlen_app {A} (a b : list A) : nlen (a ++ b) = nlen a + nlen b.
Proof. unfold nlen. rewrite app_length. lia. Qed.
(** a part with its length in front *)
Lemma sized_inj a b r s : nlen a < lim -> nlen b < lim -> le32 (nlen a) ++ a ++ r = le32 (nlen b) ++ b ++ s -> a = b /\ r = s.
Proof.
  intros A B H. apply app_same in H; [|reflexivity]. destruct H as [H1 H2]. apply le32_inj in H1; [|assumption|assumption]. apply app_same in H2; [exact H2|]. unfold nlen in H1. lia.
Qed.
(** a name ends at a zero *)
Lemma name_inj a b r s : clean a -> clean b -> a ++ 0 :: r = b ++ 0 :: s -> a = b /\ r = s.
Proof.
  revert b. induction a as [|x a IH]; intros [|y b] A B H; cbn in H.
  - injection H as H. auto.
  - injection H as <- _. inversion B; congruence.
  - injection H as -> _. inversion A; congruence.
  - injection H as -> H. inversion A; inversion B; subst. destruct (IH b) as [-> ->]; auto.
Qed.
Lemma tagged_inj k k' a b r s : nlen a < lim -> nlen b < lim -> enc_tagged k a ++ r = enc_tagged k' b ++ s -> k = k' /\ a = b /\ r = s.
Proof.
  unfold enc_tagged. intros A B H. rewrite <- !app_assoc in H. apply app_same in H; [|reflexivity]. destruct H as [H0 H]. injection H0 as ->. split; [reflexivity|]. now apply sized_inj.
Qed.
Lemma enc_value_pay v : enc_value v = enc_tagged (vkind v) (vpay v).
Proof. destruct v; reflexivity. Qed.
Lemma tagged_len k a : nlen (enc_tagged k a) = 7 + nlen a.
Proof. unfold enc_tagged. rewrite !nlen_app. change (nlen [0; 118; k]) with 3. change (nlen (le32 (nlen a))) with 4. lia. Qed.
Lemma flat_len {A} (f : A -> bytes) l : nlen (flat_map f l) = fold_right (fun x n => nlen (f x) + n) 0 l.
Proof. induction l as [|x l IH]; [reflexivity|]. cbn [flat_map fold_right]. rewrite nlen_app. lia. Qed.

Definition value_fits (v : value) : Prop := nlen (enc_value v) < lim.
Definition unique_value (v : value) : Prop := forall v' r s, plain_value v -> plain_value v' -> value_fits v -> value_fits v' -> enc_value v ++ r = enc_value v' ++ s -> v = v' /\ r = s.
Lemma values_inj vs : Forall unique_value vs -> forall vs' r s, plain_value (VList vs) -> plain_value (VList vs') ->
  nlen (flat_map enc_value vs) < lim -> nlen (flat_map enc_value vs') < lim ->
  flat_map enc_value vs ++ [0; 101] ++ r = flat_map enc_value vs' ++ [0; 101] ++ s -> vs = vs' /\ r = s.
Proof.
  induction 1 as [|v vs U F IH]; intros [|v' vs'] r s P P' L L' H; cbn [flat_map List.app] in H.
  - injection H as H. auto.
  - rewrite <- app_assoc, enc_value_pay in H. discriminate.
  - rewrite <- app_assoc, enc_value_pay in H. discriminate.
  - cbn [flat_map] in L, L'. rewrite nlen_app in L, L'. rewrite <- !app_assoc in H. destruct P as [P1 P2], P' as [P1' P2'].
    destruct (U v' _ _ P1 P1' ltac:(unfold value_fits; lia) ltac:(unfold value_fits; lia) H) as [-> H'].
    destruct (IH vs' r s P2 P2' ltac:(lia) ltac:(lia) H') as [-> ->]. auto.
Qed.
Lemma enc_members_cons n v fs : enc_members ((n, v) :: fs) = [0; 117] ++ n ++ enc_value v ++ enc_members fs.
Proof. unfold enc_members. cbn [flat_map fst snd]. now rewrite <- !app_assoc. Qed.
Lemma enc_value_zero v : exists t, enc_value v = 0 :: t.
Proof. rewrite enc_value_pay. unfold enc_tagged. cbn [List.app]. eauto. Qed.
Lemma members_inj fs : Forall (fun nv => unique_value (snd nv)) fs -> forall fs' r s, plain_args fs -> plain_args fs' -> nlen (enc_members fs) < lim -> nlen (enc_members fs') < lim ->
  enc_members fs ++ [0; 101] ++ r = enc_members fs' ++ [0; 101] ++ s -> fs = fs' /\ r = s.
Proof.
  induction 1 as [|[n v] fs U F IH]; intros [|[n' v'] fs'] r s P P' L L' H.
  - cbn in H. injection H as H. auto.
  - rewrite enc_members_cons in H. discriminate.
  - rewrite enc_members_cons in H. discriminate.
  - rewrite enc_members_cons in L, L', H. rewrite enc_members_cons in H. rewrite !nlen_app in L, L'. destruct P as (C & P1 & P2), P' as (C' & P1' & P2'). cbn [snd] in U.
    rewrite <- !app_assoc in H. apply app_same in H; [|reflexivity]. destruct H as [_ H]. destruct (enc_value_zero v) as [t Et], (enc_value_zero v') as [t' Et']. rewrite Et, Et' in H. cbn [List.app] in H.
    apply name_inj in H; [|assumption|assumption]. destruct H as [-> H]. apply (f_equal (cons 0)) in H. rewrite !app_comm_cons, <- Et, <- Et' in H.
    destruct (U v' _ _ P1 P1' ltac:(unfold value_fits; lia) ltac:(unfold value_fits; lia) H) as [-> H'].
    destruct (IH fs' r s P2 P2' ltac:(lia) ltac:(lia) H') as [-> ->]. auto.
Qed.
Lemma value_inj v : unique_value v.
Proof.
  induction v as [n|n|n|n|n| |n|vs Hv|fs Hf] using value_ind'; intros v' r s P P' L L' E; unfold value_fits in *;
  (rewrite (enc_value_pay v') in E, L'; match type of E with enc_value ?v ++ _ = _ => rewrite (enc_value_pay v) in E, L end;
   rewrite tagged_len in L, L'; apply tagged_inj in E; [|lia|lia]; destruct E as (K & B & ->);
   destruct v'; cbn [vkind] in K; try discriminate K; split; try reflexivity; cbn [vpay] in B; try congruence).
  - destruct n, b; congruence.
  - cbn [vpay] in L, L'. rewrite nlen_app in L, L'. destruct (values_inj vs Hv items [] [] P P') as [-> _]; [lia|lia|exact B|reflexivity].
  - cbn [vpay] in L, L'. fold (enc_members fs) in *. fold (enc_members fields) in *. rewrite nlen_app in L, L'. destruct (members_inj fs Hf fields [] []) as [-> _]; [now apply plain_obj|now apply plain_obj|lia|lia|exact B|reflexivity].
Qed.
Lemma args_inj fs fs' r s : plain_args fs -> plain_args fs' -> nlen (enc_args fs) < lim -> nlen (enc_args fs') < lim -> enc_args fs ++ r = enc_args fs' ++ s -> fs = fs' /\ r = s.
Proof. intros P P' L L' H. apply plain_obj in P, P'. destruct (value_inj (VObj fs) (VObj fs') r s P P' L L' H) as [E ->]. injection E as ->. auto. Qed.
(** the next part begins with a zero *)
Definition zero (r : bytes) : Prop := exists t, r = 0 :: t.
Lemma enc_args_next fs r : exists t, enc_args fs ++ r = 0 :: 118 :: t.
Proof. unfold enc_args. rewrite enc_value_pay. unfold enc_tagged. rewrite <- !app_assoc. cbn [List.app]. eexists. reflexivity. Qed.
Lemma dir_inj d d' r s : plain_dir d -> plain_dir d' -> nlen (enc_directive d) < lim -> nlen (enc_directive d') < lim -> zero r -> zero s ->
  enc_directive d ++ r = enc_directive d' ++ s -> d = d' /\ r = s.
Proof.
  intros [C P] [C' P'] L L' [t Er] [t' Es] H. destruct d as [n a], d' as [n' a']; cbn [d_name d_args] in *. unfold enc_directive in *. cbn [d_name d_args] in *.
  destruct a as [fs|], a' as [fs'|]; rewrite <- !app_assoc in H; (apply app_same in H; [|reflexivity]; destruct H as [H0 H]; try discriminate H0; clear H0); rewrite !nlen_app in L, L'.
  - destruct (enc_args_next fs r) as [u Eu], (enc_args_next fs' s) as [u' Eu']. rewrite Eu, Eu' in H. apply name_inj in H; [|assumption|assumption].
    destruct H as [-> H]. apply (f_equal (cons 0)) in H. rewrite <- Eu, <- Eu' in H. apply args_inj in H; [|assumption|assumption|lia|lia]. destruct H as [-> ->]. auto.
  - subst r s. apply name_inj in H; [|assumption|assumption]. destruct H as [-> ->]. auto.
Qed.
Lemma enc_dir_next d r : exists t, enc_directive d ++ r = 0 :: 100 :: t.
Proof. unfold enc_directive. destruct (d_args d); cbn [List.app]; eauto. Qed.
Lemma dirs_zero l u : zero u -> zero (enc_dirs l ++ u).
Proof. destruct l as [|x l]; intros Zu; unfold enc_dirs; cbn [flat_map List.app]; [exact Zu|]. rewrite <- app_assoc. destruct (enc_dir_next x (flat_map enc_directive l ++ u)) as [t ->]. eexists. reflexivity. Qed.
Lemma dirs_inj ds : forall ds' r s, Forall plain_dir ds -> Forall plain_dir ds' -> nlen ds = nlen ds' -> nlen (enc_dirs ds) < lim -> nlen (enc_dirs ds') < lim ->
  zero r -> zero s -> enc_dirs ds ++ r = enc_dirs ds' ++ s -> ds = ds' /\ r = s.
Proof.
  unfold nlen at 1 2. induction ds as [|d ds IH]; intros [|d' ds'] r s P P' Q L L' Z Z' H; try discriminate; [auto|]. unfold enc_dirs in L, L', H. cbn [flat_map] in *. fold (enc_dirs ds) in *. fold (enc_dirs ds') in *. rewrite nlen_app in L, L'. rewrite <- !app_assoc in H. inversion P; inversion P'; subst.
  apply dir_inj in H; [|assumption|assumption|lia|lia|now apply dirs_zero|now apply dirs_zero]. destruct H as [-> H]. cbn [length] in Q. destruct (IH ds' r s) as [-> ->]; auto; lia.
Qed.
(** ** Selections *)
Lemma names_inj al n al' n' r s : n <> [] -> n' <> [] -> enc_names al n ++ r = enc_names al' n' ++ s -> zero r -> zero s -> al = al' /\ n = n' /\ r = s.
Proof.
  intros N N' H Z Z'. assert (Pos : forall x : bytes, x <> [] -> nlen x <> 0) by (intros [|? ?]; unfold nlen; cbn; [congruence|lia]).
  assert (Pre : forall a b r s, (nlen a :: a ++ r = nlen b :: b ++ s) -> a = b /\ r = s) by (intros a b u v E; injection E as E1 E2; apply app_same in E2; [exact E2|unfold nlen in E1; lia]).
  unfold enc_names in H. destruct al as [a|], al' as [a'|]; rewrite <- !app_assoc in H; cbn [List.app] in H; apply Pre in H; destruct H as [-> H].
  - apply Pre in H. destruct H as [-> ->]. auto.
  - rewrite app_comm_cons in H. injection H as H _. exfalso. apply (Pos n N). exact H.
  - injection H as H _. exfalso. apply (Pos n' N'). now symmetry.
  - injection H as ->. auto.
Qed.
Definition sel_fits (x : sel) : Prop := nlen (enc_sel x) < lim.
Definition unique_sel (x : sel) : Prop := forall x' r s, plain_sel x -> plain_sel x' -> sel_fits x -> sel_fits x' -> enc_sel x ++ r = enc_sel x' ++ s -> x = x' /\ r = s.
Definition sel_start (x : sel) : N := match x with SField _ _ _ _ _ => 102 | _ => 115 end.
Lemma enc_sel_next x r : exists t, enc_sel x ++ r = 0 :: sel_start x :: t.
Proof. destruct x; cbn [enc_sel sel_start List.app]; eauto. Qed.
Lemma enc_sels_cons x l : enc_sels (x :: l) = enc_sel x ++ enc_sels l. Proof. reflexivity. Qed.
Lemma sels_inj l : Forall unique_sel l -> forall l' r s, plain_sels l -> plain_sels l' -> nlen (enc_sels l) < lim -> nlen (enc_sels l') < lim ->
  enc_sels l ++ [0; 101] ++ r = enc_sels l' ++ [0; 101] ++ s -> l = l' /\ r = s.
Proof.
  induction 1 as [|x l U F IH]; intros [|x' l'] r s P P' L L' H.
  - cbn in H. injection H as H. auto.
  - rewrite enc_sels_cons, <- app_assoc in H. destruct (enc_sel_next x' (enc_sels l' ++ [0; 101] ++ s)) as [t Et]. rewrite Et in H. destruct x'; discriminate.
  - rewrite enc_sels_cons, <- app_assoc in H. destruct (enc_sel_next x (enc_sels l ++ [0; 101] ++ r)) as [t Et]. rewrite Et in H. destruct x; discriminate.
  - rewrite !enc_sels_cons, <- !app_assoc in H. rewrite enc_sels_cons, nlen_app in L, L'. destruct P as [P1 P2], P' as [P1' P2'].
    destruct (U x' _ _ P1 P1' ltac:(unfold sel_fits; lia) ltac:(unfold sel_fits; lia) H) as [-> H']. destruct (IH l' r s P2 P2' ltac:(lia) ltac:(lia) H') as [-> ->]. auto.
Qed.
Lemma sels_zero l r : zero (enc_sels l ++ [0; 101] ++ r).
Proof. destruct l as [|x l]; [eexists; reflexivity|]. rewrite enc_sels_cons, <- app_assoc. destruct (enc_sel_next x (enc_sels l ++ [0; 101] ++ r)) as [t ->]. eexists. reflexivity. Qed.
Lemma opt_args_inj a a' l l' r s : plain_opt a -> plain_opt a' -> nlen (enc_opt_args a) < lim -> nlen (enc_opt_args a') < lim ->
  enc_opt_args a ++ enc_sels l ++ [0; 101] ++ r = enc_opt_args a' ++ enc_sels l' ++ [0; 101] ++ s -> a = a' /\ enc_sels l ++ [0; 101] ++ r = enc_sels l' ++ [0; 101] ++ s.
Proof.
  intros P P' L L' H. assert (St : forall l r, exists k t, enc_sels l ++ [0; 101] ++ r = 0 :: k :: t /\ k <> 118).
  { intros [|x m] u; [exists 101, u; split; [reflexivity|discriminate]|]. rewrite enc_sels_cons, <- app_assoc. destruct (enc_sel_next x (enc_sels m ++ [0; 101] ++ u)) as [t ->]. exists (sel_start x), t. split; [reflexivity|]. destruct x; discriminate. }
  destruct a as [fs|], a' as [fs'|]; cbn [enc_opt_args List.app] in H, L, L'.
  - apply args_inj in H; auto. destruct H as [-> H]. auto.
  - destruct (St l' s) as (k & t & E & K), (enc_args_next fs (enc_sels l ++ [0; 101] ++ r)) as [u Eu]. cbn [List.app] in E, Eu. rewrite E, Eu in H. congruence.
  - destruct (St l r) as (k & t & E & K), (enc_args_next fs' (enc_sels l' ++ [0; 101] ++ s)) as [u Eu]. cbn [List.app] in E, Eu. rewrite E, Eu in H. congruence.
  - auto.
Qed.
Lemma name_zero a b u v : clean a -> clean b -> zero u -> zero v -> a ++ u = b ++ v -> a = b /\ u = v.
Proof. intros A B [t ->] [t' ->] H. apply name_inj in H; [|assumption|assumption]. destruct H as [-> ->]. auto. Qed.
Lemma sel_inj x : unique_sel x.
Proof.
  induction x as [al n ds a l F|n ds|n ds l F] using sel_ind'; intros [al' n' ds' a' l'|n' ds'|n' ds' l'] r s P P' L L' H; unfold sel_fits in *; cbn [enc_sel] in H, L, L'; rewrite <- !app_assoc in H;
    try (exfalso; discriminate H); (apply app_same in H; [|reflexivity]); destruct H as [H0 H]; try discriminate H0; injection H0 as Q.
  - fold (enc_sels l) in *. fold (enc_sels l') in *. destruct P as (P1 & P2 & P3 & P4), P' as (P1' & P2' & P3' & P4'). apply plain_subs in P4, P4'.
    set (b := enc_names al n ++ enc_dirs ds ++ enc_opt_args a ++ enc_sels l ++ [0; 101]) in *. set (b' := enc_names al' n' ++ enc_dirs ds' ++ enc_opt_args a' ++ enc_sels l' ++ [0; 101]) in *.
    rewrite !nlen_app in L, L'. apply app_same in H; [|reflexivity]. destruct H as [H1 H]. apply app_same in H; [|reflexivity]. destruct H as [_ H]. apply le32_inj in H1; [|lia|lia].
    assert (Lb : nlen b < lim) by lia. assert (Lb' : nlen b' < lim) by lia. unfold b in Lb. unfold b' in Lb'. rewrite !nlen_app in Lb, Lb'.
    assert (Zo : forall a l u, zero (enc_opt_args a ++ enc_sels l ++ [0; 101] ++ u)).
    { intros [fs|] m u; cbn [enc_opt_args]; [destruct (enc_args_next fs (enc_sels m ++ [0; 101] ++ u)) as [t ->]; eexists; reflexivity|apply sels_zero]. }
    apply names_inj in H; [|assumption|assumption|apply dirs_zero, Zo|apply dirs_zero, Zo]. destruct H as (-> & -> & H).
    apply dirs_inj in H; [|assumption|assumption|assumption|lia|lia|apply Zo|apply Zo]. destruct H as [-> H].
    apply opt_args_inj in H; [|assumption|assumption|lia|lia]. destruct H as [-> H].
    apply sels_inj in H; [|assumption|assumption|assumption|lia|lia]. destruct H as [-> ->]. auto.
  - destruct P as [P1 P2], P' as [P1' P2']. rewrite (app_assoc n), (app_assoc n') in H. rewrite nlen_app, (nlen_app (le32 (nlen (n ++ enc_dirs ds)))) in L. rewrite nlen_app, (nlen_app (le32 (nlen (n' ++ enc_dirs ds')))) in L'.
    apply sized_inj in H; [|lia|lia]. destruct H as [H ->]. apply (f_equal (fun u => u ++ [0])) in H. rewrite <- !app_assoc in H. rewrite nlen_app in L, L'.
    assert (Z : zero [0]) by (eexists; reflexivity). apply name_zero in H; [|assumption|assumption|now apply dirs_zero|now apply dirs_zero]. destruct H as [-> H].
    apply dirs_inj in H; [|assumption|assumption|assumption|lia|lia|assumption|assumption]. destruct H as [-> _]. auto.
  - fold (enc_sels l) in *. fold (enc_sels l') in *. destruct P as (P1 & P2 & P4), P' as (P1' & P2' & P4'). apply plain_subs in P4, P4'.
    set (b := n ++ enc_dirs ds ++ enc_sels l ++ [0; 101]) in *. set (b' := n' ++ enc_dirs ds' ++ enc_sels l' ++ [0; 101]) in *.
    rewrite !nlen_app in L, L'. apply app_same in H; [|reflexivity]. destruct H as [H1 H].
    assert (Lb : nlen b < lim) by lia. assert (Lb' : nlen b' < lim) by lia. unfold b in Lb. unfold b' in Lb'. rewrite !nlen_app in Lb, Lb'.
    apply name_zero in H; [|assumption|assumption|apply dirs_zero, sels_zero|apply dirs_zero, sels_zero]. destruct H as [-> H].
    apply dirs_inj in H; [|assumption|assumption|assumption|lia|lia|apply sels_zero|apply sels_zero]. destruct H as [-> H].
    apply sels_inj in H; [|assumption|assumption|assumption|lia|lia]. destruct H as [-> ->]. auto.
Qed.
Lemma set_inj l l' r s : plain_sels l -> plain_sels l' -> nlen (enc_sels l) < lim -> nlen (enc_sels l') < lim -> enc_sels l ++ [0; 101] ++ r = enc_sels l' ++ [0; 101] ++ s -> l = l' /\ r = s.
Proof. apply sels_inj. induction l; constructor; auto. apply sel_inj. Qed.

(** ** Types, variables, definitions *)
Lemma type_inj t : forall t' r s, ok_type t -> ok_type t' -> enc_type t ++ 0 :: r = enc_type t' ++ 0 :: s -> t = t' /\ r = s.
Proof.
  induction t as [n b|t IH b]; intros [n' b'|t' b'] r s P P' H; cbn [enc_type List.app] in H; injection H as H0 H; (assert (b = b') as -> by (destruct b, b'; congruence || discriminate)); try (destruct b'; discriminate).
  - apply name_inj in H; [|assumption|assumption]. destruct H as [-> ->]. auto.
  - apply IH in H; [|assumption|assumption]. destruct H as [-> ->]. auto.
Qed.
Lemma oparg_inj a a' r s : plain_oparg a -> plain_oparg a' -> nlen (enc_oparg a) < lim - 5 -> nlen (enc_oparg a') < lim - 5 -> enc_oparg a ++ r = enc_oparg a' ++ s -> a = a' /\ r = s.
Proof.
  destruct a as [n t d], a' as [n' t' d']; intros (C & T & D) (C' & T' & D') L L' H; unfold enc_oparg in *; cbn [oa_name oa_type oa_default] in *.
  set (b := n ++ [0] ++ enc_type t ++ [0] ++ match d with None => [102] | Some v => 116 :: enc_value v end) in *.
  set (b' := n' ++ [0] ++ enc_type t' ++ [0] ++ match d' with None => [102] | Some v => 116 :: enc_value v end) in *.
  rewrite !nlen_app in L, L'. rewrite <- (app_assoc [0; 97]), <- (app_assoc [0; 97]), <- (app_assoc (le32 _)), <- (app_assoc (le32 _)) in H.
  apply app_same in H; [|reflexivity]. destruct H as [_ H]. apply app_same in H; [|reflexivity]. destruct H as [H1 H]. apply le32_inj in H1; [|lia|lia]. apply app_same in H; [|unfold nlen in H1; lia]. destruct H as [H ->].
  assert (Lb : nlen b < lim) by lia. assert (Lb' : nlen b' < lim) by lia. clear H1 L L'. unfold b in H, Lb. unfold b' in H, Lb'. clear b b'. cbn [List.app] in H. apply name_inj in H; [|assumption|assumption]. destruct H as [-> H].
  apply type_inj in H; [|assumption|assumption]. destruct H as [-> H]. destruct d as [v|], d' as [v'|]; try discriminate; [|auto]. injection H as H. rewrite !nlen_app in Lb, Lb'.
  destruct (value_inj v v' [] []) as [-> _]; auto; try (rewrite !app_nil_r; exact H); unfold value_fits; change (116 :: enc_value v) with ([116] ++ enc_value v) in Lb; change (116 :: enc_value v') with ([116] ++ enc_value v') in Lb'; rewrite nlen_app in Lb, Lb'; lia.
Qed.
Lemma oparg_next a r : exists t, enc_oparg a ++ r = 0 :: 97 :: t.
Proof. unfold enc_oparg. cbn [List.app]. eexists. reflexivity. Qed.
Lemma oparg_list_inj l : forall l' r s, Forall plain_oparg l -> Forall plain_oparg l' -> nlen (flat_map enc_oparg l) < lim - 5 -> nlen (flat_map enc_oparg l') < lim - 5 ->
  flat_map enc_oparg l ++ [0; 101] ++ r = flat_map enc_oparg l' ++ [0; 101] ++ s -> l = l' /\ r = s.
Proof.
  induction l as [|a l IH]; intros [|a' l'] r s P P' L L' H; cbn [flat_map] in *; rewrite <- ?app_assoc in H.
  - injection H as H. auto.
  - destruct (oparg_next a' (flat_map enc_oparg l' ++ [0; 101] ++ s)) as [t Et]. rewrite Et in H. discriminate.
  - destruct (oparg_next a (flat_map enc_oparg l ++ [0; 101] ++ r)) as [t Et]. rewrite Et in H. discriminate.
  - inversion P; inversion P'; subst. rewrite nlen_app in L, L'. apply oparg_inj in H; [|assumption|assumption|lia|lia]. destruct H as [-> H]. apply IH in H; [|assumption|assumption|lia|lia]. destruct H as [-> ->]. auto.
Qed.
Lemma opargs_inj l l' r s : Forall plain_oparg l -> Forall plain_oparg l' -> nlen (enc_opargs (Some l)) < lim -> nlen (enc_opargs (Some l')) < lim ->
  enc_opargs (Some l) ++ r = enc_opargs (Some l') ++ s -> l = l' /\ r = s.
Proof.
  intros P P' L L' H. unfold enc_opargs in *. set (b := [0; 65] ++ flat_map enc_oparg l ++ [0; 101]) in *. set (b' := [0; 65] ++ flat_map enc_oparg l' ++ [0; 101]) in *.
  rewrite <- (app_assoc [0]), <- (app_assoc [0]), <- (app_assoc (le32 _)), <- (app_assoc (le32 _)) in H. rewrite !nlen_app in L, L'. change (nlen [0]) with 1 in *. change (nlen (le32 (nlen b))) with 4 in *. change (nlen (le32 (nlen b'))) with 4 in *.
  apply app_same in H; [|reflexivity]. destruct H as [_ H]. apply sized_inj in H; [|lia|lia]. destruct H as [H ->].
  assert (Lb : nlen b < lim - 5) by lia. assert (Lb' : nlen b' < lim - 5) by lia. unfold b in H, Lb. unfold b' in H, Lb'. clear b b' L L'. rewrite !nlen_app in Lb, Lb'. apply app_same in H; [|reflexivity]. destruct H as [_ H].
  destruct (oparg_list_inj l l' [] [] P P') as [-> _]; auto; lia.
Qed.
Lemma opargs_zero a r : zero r -> zero (enc_opargs a ++ r).
Proof. destruct a; intro Z; [|exact Z]. eexists. reflexivity. Qed.
Lemma def_inj x x' r s : plain_def x -> plain_def x' -> nlen (enc_def x) < lim -> nlen (enc_def x') < lim -> enc_def x ++ r = enc_def x' ++ s -> x = x' /\ r = s.
Proof.
  intros P P' L L' H. destruct x as [k n a ds l|n t l], x' as [k' n' a' ds' l'|n' t' l']; cbn [enc_def] in *; rewrite <- !app_assoc in H; rewrite !nlen_app in L, L'; try discriminate H.
  - destruct P as (P1 & P2 & P3 & P4), P' as (P1' & P2' & P3' & P4'). apply app_same in H; [|reflexivity]. destruct H as [H0 H]. injection H0 as K A Q. assert (k = k') as -> by (destruct k, k'; congruence || discriminate).
    apply name_zero in H; [|assumption|assumption|apply opargs_zero, dirs_zero, sels_zero|apply opargs_zero, dirs_zero, sels_zero]. destruct H as [-> H].
    assert (a = a' /\ enc_dirs ds ++ enc_sels l ++ [0; 101] ++ r = enc_dirs ds' ++ enc_sels l' ++ [0; 101] ++ s) as [-> H'].
    { destruct a as [a|], a' as [a'|]; try discriminate; [|auto]. apply opargs_inj in H; [|assumption|assumption|lia|lia]. destruct H as [-> H]. auto. }
    apply dirs_inj in H'; [|assumption|assumption|assumption|lia|lia|apply sels_zero|apply sels_zero]. destruct H' as [-> H'].
    apply set_inj in H'; [|assumption|assumption|lia|lia]. destruct H' as [-> ->]. auto.
  - destruct P as (P1 & P2 & P3), P' as (P1' & P2' & P3'). apply app_same in H; [|reflexivity]. destruct H as [_ H].
    apply name_inj in H; [|assumption|assumption]. destruct H as [-> H]. apply name_zero in H; [|assumption|assumption|apply sels_zero|apply sels_zero]. destruct H as [-> H].
    apply set_inj in H; [|assumption|assumption|lia|lia]. destruct H as [-> ->]. auto.
Qed.
Lemma enc_doc_cons x d : enc_doc (x :: d) = enc_def x ++ enc_doc d. Proof. reflexivity. Qed.
Lemma doc_inj d : forall d', plain_doc d -> plain_doc d' -> nlen (enc_doc d) < lim -> enc_doc d = enc_doc d' -> d = d'.
Proof.
  assert (Z : forall x r, enc_def x ++ r <> []) by (intros [] r; discriminate).
  induction d as [|x d IH]; intros [|x' d'] P P' L H; [reflexivity| | |].
  - symmetry in H. now apply Z in H.
  - now apply Z in H.
  - pose proof L as L'. rewrite H in L'. rewrite enc_doc_cons in L, L', H. rewrite enc_doc_cons in H. rewrite nlen_app in L, L'. inversion P; inversion P'; subst. apply def_inj in H; [|assumption|assumption|lia|lia]. destruct H as [-> H]. f_equal. apply IH; auto; lia.
Qed.
