(** * Equality and emptiness (proofs) *)
From Coq Require Import String NArith ZArith QArith Bool List Lia.
From Coq Require Import ZifyBool ZifyNat ZifyN.
From Verif Require Import Base FloatSpec FloatModel FloatProof AssertModel AssertSpec AssertProof EqModel EqSpec.
Import ListNotations.
Open Scope N_scope.

Section Ind.
Variable P : rval -> Prop.
Hypothesis Hb : forall v, P (VBool v).
Hypothesis Hn : forall v, P (VNum v).
Hypothesis Hf : forall v, P (VFloat v).
Hypothesis Hs : forall v, P (VStr v).
Hypothesis Hc : forall v, P (VChan v).
Hypothesis Hfn : forall v, P (VFunc v).
Hypothesis Hp0 : P (VPtr None).
Hypothesis Hp : forall p t x, P x -> P (VPtr (Some (p, (t, x)))).
Hypothesis Hi0 : P (VIface None).
Hypothesis Hi : forall t x, P x -> P (VIface (Some (t, x))).
Hypothesis Hl0 : P (VSlice None).
Hypothesis Hl : forall p l, Forall P l -> P (VSlice (Some (p, l))).
Hypothesis Hm0 : P (VMap None).
Hypothesis Hm : forall p l, Forall (fun kv => P (snd kv)) l -> P (VMap (Some (p, l))).
Hypothesis Ha : forall l, Forall P l -> P (VArray l).
Hypothesis Hst : forall l, Forall P l -> P (VStruct l).
Fixpoint rval_ind' (v : rval) : P v :=
  let all := fix all (l : list rval) : Forall P l := match l with [] => Forall_nil _ | x :: r => @Forall_cons _ P x r (rval_ind' x) (all r) end in
  match v with
  | VBool v => Hb v | VNum v => Hn v | VFloat v => Hf v | VStr v => Hs v | VChan v => Hc v | VFunc v => Hfn v
  | VPtr None => Hp0 | VPtr (Some (p, (t, x))) => Hp p t x (rval_ind' x)
  | VIface None => Hi0 | VIface (Some (t, x)) => Hi t x (rval_ind' x)
  | VSlice None => Hl0 | VSlice (Some (p, l)) => Hl p l (all l)
  | VMap None => Hm0
  | VMap (Some (p, l)) => Hm p l ((fix go (l : list (bytes * rval)) : Forall (fun kv => P (snd kv)) l := match l with [] => Forall_nil _ | x :: r => @Forall_cons _ (fun kv => P (snd kv)) x r (rval_ind' (snd x)) (go r) end) l)
  | VArray l => Ha l (all l)
  | VStruct l => Hst l (all l)
  end.
End Ind.

Lemma index_in : forall A (m : list (bytes * A)) k x, NoDup (map fst m) -> (map_index k m = Some x <-> In (k, x) m).
Proof.
  intros A m k x N1. induction m as [|[k' y] m IH]; [split; [discriminate|intros []]|]. cbn [map fst] in N1. inversion N1; subst. cbn [map_index In]. destruct (beqb k k') eqn:E.
  - apply beqb_eq in E. subst k'. split; [intro X; inversion X; auto|]. intros [X|X]; [now inversion X|]. exfalso. apply H1. apply in_map_iff. exists (k, x). auto.
  - rewrite IH by auto. split; [auto|]. intros [X|X]; [|auto]. inversion X; subst. rewrite beqb_refl in E. discriminate.
Qed.
Lemma keys_cover : forall A B (l : list (bytes * A)) (r : list (bytes * B)), NoDup (map fst l) -> NoDup (map fst r) -> (forall k, In k (map fst l) -> In k (map fst r)) ->
  (length l = length r <-> (forall k, In k (map fst r) -> In k (map fst l))).
Proof.
  intros A B l r N1 N2 I1. split; intro H.
  - apply NoDup_length_incl; auto. rewrite !map_length. lia.
  - assert (length (map fst l) <= length (map fst r))%nat by (apply NoDup_incl_length; auto). assert (length (map fst r) <= length (map fst l))%nat by (apply NoDup_incl_length; auto). rewrite !map_length in *. lia.
Qed.
Lemma Forall2_length : forall A B (R : A -> B -> Prop) l r, Forall2 R l r -> length l = length r.
Proof. intros A B R l r H. induction H; cbn; congruence. Qed.
Lemma both_length : forall A (f : A -> A -> bool) l r, both f l r = true -> length l = length r.
Proof. intros A f l. induction l as [|x l IH]; intros [|y r] H; cbn in *; try discriminate; auto. apply andb_true_iff in H. destruct H. f_equal. auto. Qed.
Lemma both_spec : forall A (f : A -> A -> bool) (P Q : A -> Prop) (R : A -> A -> Prop) l r, Forall (fun x => forall y, P x -> Q y -> (f x y = true <-> R x y)) l -> Forall P l -> Forall Q r -> (both f l r = true <-> Forall2 R l r).
Proof.
  intros A f P Q R l r H. revert r. induction H as [|x l G _ IH]; intros [|y r] Pl Qr; cbn [both].
  - split; [constructor|reflexivity].
  - split; [discriminate|inversion 1].
  - split; [discriminate|inversion 1].
  - inversion Pl; subst. inversion Qr; subst. rewrite andb_true_iff, (G y), (IH r) by auto. split; [intros []; now constructor|inversion 1; auto].
Qed.
(** [some t] : of some type *)
Definition some_well (v : rval) : Prop := exists t, well t v.
Lemma all_some : forall t l, Forall (well t) l -> Forall some_well l. Proof. intros t l H. eapply Forall_impl; [|exact H]. intros v W. now exists t. Qed.
Lemma all_some2 : forall ts l, Forall2 well ts l -> Forall some_well l. Proof. intros t l H. induction H; constructor; auto. now exists x. Qed.
Lemma deep_same : forall x y, some_well x -> some_well y -> (deep_equal x y = true <-> same x y).
Proof.
  intro x. induction x as [v|v|v|v|v|v| |p t x IH| |t x IH| |p l IH| |p l IH|l IH|l IH] using rval_ind'; intros y [tx Wx] [ty Wy].
  - destruct y; cbn [deep_equal]; try (split; [discriminate|inversion 1]). rewrite eqb_true_iff. split; [intros ->; constructor|now inversion 1].
  - destruct y; cbn [deep_equal]; try (split; [discriminate|inversion 1]). rewrite Z.eqb_eq. split; [intros ->; constructor|now inversion 1].
  - destruct y; cbn [deep_equal]; try (split; [discriminate|inversion 1]). inversion Wx; inversion Wy; subst. rewrite float_eq_spec by auto. split; [intros (a & b & A & B & C); econstructor; eauto|]. inversion 1; subst. eauto.
  - destruct y; cbn [deep_equal]; try (split; [discriminate|inversion 1]). rewrite beqb_eq. split; [intros ->; constructor|now inversion 1].
  - destruct v as [[p n]|], y as [| | | | | | |[[q m]|]| | | |]; cbn [deep_equal]; try (split; [discriminate|inversion 1]); [|split; [constructor|reflexivity]]. rewrite N.eqb_eq. split; [intros ->; constructor|now inversion 1].
  - destruct v as [p|], y as [| | | | | | | |[q|]| | |]; cbn [deep_equal]; try (split; [discriminate|inversion 1]). split; [constructor|reflexivity].
  - destruct y as [| | | |[[q [u y]]|]| | | | | | |]; cbn [deep_equal]; try (split; [discriminate|inversion 1]). split; [constructor|reflexivity].
  - destruct y as [| | | |[[q [u y]]|]| | | | | | |]; cbn [deep_equal]; try (split; [discriminate|inversion 1]). inversion Wx; inversion Wy; subst. unfold same_type. rewrite orb_true_iff, andb_true_iff, !N.eqb_eq, (IH y) by (eexists; eauto).
    split; [intros [->|[A B]]; constructor; auto|]. inversion 1; subst; auto.
  - destruct y as [| | | | | | | | |[[u y]|]| |]; cbn [deep_equal]; try (split; [discriminate|inversion 1]). split; [constructor|reflexivity].
  - destruct y as [| | | | | | | | |[[u y]|]| |]; cbn [deep_equal]; try (split; [discriminate|inversion 1]). inversion Wx; inversion Wy; subst. unfold same_type. rewrite andb_true_iff, N.eqb_eq, (IH y) by (eexists; eauto).
    split; [intros [A B]; constructor; auto|]. inversion 1; subst; auto.
  - destruct y as [| | | | |[[q r]|]| | | | | |]; cbn [deep_equal]; try (split; [discriminate|inversion 1]). split; [constructor|reflexivity].
  - destruct y as [| | | | |[[q r]|]| | | | | |]; cbn [deep_equal]; try (split; [discriminate|inversion 1]). inversion Wx; inversion Wy; subst.
    assert (B : both deep_equal l r = true <-> Forall2 same l r).
    { apply both_spec with (P := some_well) (Q := some_well); [|eapply all_some; eauto|eapply all_some; eauto]. eapply Forall_impl; [|exact IH]. cbn. auto. }
    rewrite andb_true_iff, orb_true_iff, Nat.eqb_eq, N.eqb_eq, B. split.
    + intros [L [->|X]]; [now apply same_array_of_slice|now apply same_slice].
    + inversion 1; subst; auto. split; [eapply Forall2_length; eauto|auto].
  - destruct y as [| | | | | |[[q r]|]| | | | |]; cbn [deep_equal]; try (split; [discriminate|inversion 1]). split; [constructor|reflexivity].
  - destruct y as [| | | | | |[[q r]|]| | | | |]; cbn [deep_equal]; try (split; [discriminate|inversion 1]). inversion Wx as [| | | | | | | | | | | | |i1 a1 t1 l1 N1 F1| |]; inversion Wy as [| | | | | | | | | | | | |i2 a2 t2 l2 N2 F2| |]; subst.
    assert (B : forallb (fun kv => match map_index (fst kv) r with None => false | Some y => deep_equal (snd kv) y end) l = true <-> (forall k x, In (k, x) l -> exists y, In (k, y) r /\ same x y)).
    { rewrite forallb_forall. rewrite Forall_forall in IH, F1, F2. split.
      - intros H k x I1. specialize (H _ I1). cbn [fst snd] in H. destruct (map_index k r) as [y|] eqn:E; [|discriminate]. apply index_in in E; auto. exists y. split; [exact E|]. apply (IH _ I1) in H; auto; [exists t1; apply (F1 _ I1)|exists t2; apply (F2 _ E)].
      - intros H [k x] I1. destruct (H _ _ I1) as (y & I2 & S). cbn [fst snd]. pose proof I2 as I2'. apply index_in in I2; auto. rewrite I2. apply (IH _ I1); auto; [exists t1; apply (F1 _ I1)|exists t2; apply (F2 _ I2')]. }
    assert (C : (forall k x, In (k, x) l -> exists y, In (k, y) r /\ same x y) -> forall k, In k (map fst l) -> In k (map fst r)).
    { intros H k I1. apply in_map_iff in I1. destruct I1 as ([k' x] & <- & I1). destruct (H _ _ I1) as (y & I2 & _). apply in_map_iff. exists (k', y). auto. }
    rewrite andb_true_iff, orb_true_iff, Nat.eqb_eq, N.eqb_eq, B. split.
    + intros [L [->|X]]; [now apply same_table|]. apply same_map; auto. apply keys_cover; auto.
    + inversion 1; subst; auto. split; [|auto]. apply keys_cover; auto.
  - destruct y as [| | | | | | | | | |r|]; cbn [deep_equal]; try (split; [discriminate|inversion 1]). inversion Wx; inversion Wy; subst.
    assert (B : both deep_equal l r = true <-> Forall2 same l r).
    { apply both_spec with (P := some_well) (Q := some_well); [|eapply all_some; eauto|eapply all_some; eauto]. eapply Forall_impl; [|exact IH]. cbn. auto. }
    rewrite B. split; [constructor; auto|now inversion 1].
  - destruct y as [| | | | | | | | | | |r]; cbn [deep_equal]; try (split; [discriminate|inversion 1]). inversion Wx; inversion Wy; subst.
    assert (B : both deep_equal l r = true <-> Forall2 same l r).
    { apply both_spec with (P := some_well) (Q := some_well); [|eapply all_some2; eauto|eapply all_some2; eauto]. eapply Forall_impl; [|exact IH]. cbn. auto. }
    rewrite B. split; [constructor; auto|now inversion 1].
Qed.
Lemma bytes_same : forall j k l r, Forall (well (TyBasic j KNum)) l -> Forall (well (TyBasic k KNum)) r -> (bytes_equal l r = true <-> Forall2 same l r).
Proof.
  intros j k l r A B. unfold bytes_equal. eapply both_spec; [|exact A|exact B]. apply Forall_forall. intros x _ y X Y. inversion X; inversion Y; subst. rewrite Z.eqb_eq. split; [intros ->; constructor|now inversion 1].
Qed.
Lemma Forall2_refl_num : forall j l, Forall (well (TyBasic j KNum)) l -> Forall2 same l l.
Proof. intros j l H. induction H as [|x l W _ IH]; constructor; auto. inversion W; subst. constructor. Qed.
Lemma objects_same : forall a b, well_object a -> well_object b -> one_heap a b -> (objects_are_equal a b = true <-> same_objects a b).
Proof.
  intros [[t x]|] [[u y]|] Wa Wb Hh; cbn [well_object objects_are_equal same_objects] in *; try (split; [discriminate|contradiction]); [|split; auto].
  destruct Wa as [Wx Nx], Wb as [Wy Ny]. destruct (is_bytes t) eqn:Bt; cbn [negb].
  - destruct t as [i k| |]; try discriminate. destruct k; try discriminate. cbn [is_bytes] in Bt. apply N.eqb_eq in Bt. subst i.
    assert (Sx : x = VSlice None \/ exists a j l, x = VSlice (Some (a, l)) /\ Forall (well (TyBasic j KNum)) l).
    { inversion Wx; subst; auto. right. match goal with H : bytes_id = bytes_id -> _ |- _ => destruct (H eq_refl) as [j ->] end. exists a, j, l. auto. }
    destruct (is_bytes u) eqn:Bu; cbn [negb].
    + destruct u as [i k| |]; try discriminate. destruct k; try discriminate. cbn [is_bytes] in Bu. apply N.eqb_eq in Bu. subst i.
      assert (Sy : y = VSlice None \/ exists a j l, y = VSlice (Some (a, l)) /\ Forall (well (TyBasic j KNum)) l).
      { inversion Wy; subst; auto. right. match goal with H : bytes_id = bytes_id -> _ |- _ => destruct (H eq_refl) as [j ->] end. exists a, j, l. auto. }
      cbn [ty_id]. destruct Sx as [->|(a & j & l & -> & Fl)], Sy as [->|(c & k & r & -> & Fr)].
      * split; [intros _; split; [reflexivity|constructor]|reflexivity].
      * split; [discriminate|intros [_ X]; inversion X].
      * split; [discriminate|intros [_ X]; inversion X].
      * rewrite (bytes_same j k) by auto. split; [intro X; split; [reflexivity|now constructor]|]. intros [_ X]. inversion X; subst; auto. rewrite (Hh _ _ _ _ _ eq_refl eq_refl H0) in *. eapply Forall2_refl_num; eauto.
    + split; [discriminate|]. intros [E X]. exfalso. cbn [ty_id] in E. destruct Sx as [->|(a & j & l & -> & Fl)]; inversion X; subst; inversion Wy; subst; cbn [ty_id is_bytes] in *; subst; discriminate.
  - unfold same_type. rewrite andb_true_iff, N.eqb_eq, deep_same by (eexists; eauto). tauto.
Qed.
Lemma function_spec : forall o, is_function o = true <-> a_function o.
Proof. intros [[[i k| |] v]|]; cbn [is_function]; try (split; [discriminate|intros (? & ? & X); discriminate]). destruct k; try (split; [discriminate|intros (? & ? & X); discriminate]). split; [intros _; exists i, v; reflexivity|reflexivity]. Qed.
Lemma validate_spec : forall a b, validate_equal_args a b = true <-> ~ a_function a /\ ~ a_function b.
Proof.
  intros a b. rewrite <- !function_spec, !not_true_iff_false. unfold validate_equal_args. destruct a as [p|], b as [q|]; cbn [is_function]; rewrite ?negb_true_iff, ?orb_false_iff; try tauto. 
Qed.
(** ** Reflexive and symmetric *)
Lemma number_eq_refl : forall x, number_eq x x. Proof. intros [|q|]; cbn; auto. reflexivity. Qed.
Lemma same_refl : forall x, comparable x -> same x x.
Proof.
  intro x. induction x as [v|v|v|v|v|v| |p t x IH| |t x IH| |p l IH| |p l IH|l IH|l IH] using rval_ind'; intro C; try (now constructor).
  - inversion C; subst. econstructor; eauto. apply number_eq_refl.
  - destruct v as [[p n]|]; constructor.
  - inversion C; subst. constructor.
  - inversion C; subst. constructor; auto.
  - inversion C; subst. constructor. clear C. induction IH; constructor; inversion H0; subst; auto.
  - inversion C; subst. constructor. clear C. induction IH; constructor; inversion H0; subst; auto.
Qed.
Lemma number_eq_sym : forall x y, number_eq x y -> number_eq y x. Proof. intros [|q|] [|r|]; cbn; auto. intro H. now rewrite H. Qed.
Lemma all_sym : forall l, Forall (fun x => forall y, same x y -> same y x) l -> forall r, Forall2 same l r -> Forall2 same r l.
Proof. intros l H. induction H; intros r F; inversion F; subst; constructor; auto. Qed.
Lemma same_sym : forall x, some_well x -> forall y, some_well y -> same x y -> same y x.
Proof.
  assert (AS : forall l r, Forall (fun x => some_well x -> forall y, some_well y -> same x y -> same y x) l -> Forall some_well l -> Forall some_well r -> Forall2 same l r -> Forall2 same r l).
  { intros l r H A B F. revert H A B. induction F; intros H' A B; constructor; inversion H'; inversion A; inversion B; subst; auto. }
  intro x. induction x as [v|v|v|v|v|v| |p t x IH| |t x IH| |p l IH| |p l IH|l IH|l IH] using rval_ind'; intros [tx Wx] y [ty Wy] S; inversion S; subst; try (now constructor); inversion Wx; inversion Wy; subst.
  - econstructor; eauto. now apply number_eq_sym.
  - constructor; auto. apply IH; auto; eexists; eauto.
  - constructor; auto. apply IH; auto; eexists; eauto.
  - apply same_slice. eapply AS; eauto; eapply all_some; eauto.
  - match goal with H : forall k x, In (k, x) l -> _ |- _ => rename H into HL end. match goal with H : forall k, In k (map fst r) -> _ |- _ => rename H into HK end. apply same_map.
    + intros k y I1. assert (K : In k (map fst r)) by (apply in_map_iff; exists (k, y); auto). apply HK in K. apply in_map_iff in K. destruct K as ([k' x] & E & I2). cbn in E. subst k'. exists x. split; [exact I2|]. destruct (HL _ _ I2) as (y' & I3 & S').
      assert (y' = y). { apply index_in in I1; auto. apply index_in in I3; auto. congruence. } subst y'. rewrite Forall_forall in IH. rewrite Forall_forall in *. apply (IH _ I2); auto; [eexists; match goal with H : forall kv, In kv l -> _ |- _ => apply (H _ I2) end|eexists; match goal with H : forall kv, In kv r -> _ |- _ => apply (H _ I1) end].
    + intros k I1. apply in_map_iff in I1. destruct I1 as ([k' x] & <- & I1). destruct (HL _ _ I1) as (y & I2 & _). apply in_map_iff. exists (k', y). auto.
  - constructor. eapply AS; eauto; eapply all_some; eauto.
  - constructor. eapply AS; eauto; eapply all_some2; eauto.
Qed.
(** ** Empty *)
(** ** Transitivity *)
Lemma all_trans : forall m l r s, Forall (fun x => forall y z, lives m x -> lives m y -> lives m z -> same x y -> same y z -> same x z) l ->
  Forall (lives m) l -> Forall (lives m) r -> Forall (lives m) s -> Forall2 same l r -> Forall2 same r s -> Forall2 same l s.
Proof.
  intros m l r s H A B C F. revert s H A B C. induction F as [|x y l r S F IH]; intros s H A B C G; inversion G; subst; constructor; inversion H; inversion A; inversion B; inversion C; subst; eauto.
Qed.
Lemma one_pointer : forall m p a b, lives m (VPtr (Some (p, a))) -> lives m (VPtr (Some (p, b))) -> a = b.
Proof. intros m p a b A B. inversion A; inversion B; subst. congruence. Qed.
Lemma one_slice : forall m p a b, lives m (VSlice (Some (p, a))) -> lives m (VSlice (Some (p, b))) -> length a = length b -> a = b.
Proof. intros m p a b A B L. inversion A; inversion B; subst. congruence. Qed.
Lemma one_map : forall m p a b, lives m (VMap (Some (p, a))) -> lives m (VMap (Some (p, b))) -> a = b.
Proof. intros m p a b A B. inversion A; inversion B; subst. congruence. Qed.
Lemma same_trans : forall m x y z, lives m x -> lives m y -> lives m z -> same x y -> same y z -> same x z.
Proof.
  intros m x. induction x as [v|v|v|v|v|v| |p t x IH| |t x IH| |p l IH| |p l IH|l IH|l IH] using rval_ind'; intros y z Lx Ly Lz S1 S2.
  - inversion S1; subst. exact S2.
  - inversion S1; subst. exact S2.
  - inversion S1 as [| |a b n k A B E| | | | | | | | | | | | | | | | |]; subst. inversion S2 as [| |a' c n' k' A' B' E'| | | | | | | | | | | | | | | | |]; subst.
    apply (same_float _ _ _ _ A B'). apply (number_same _ _ _ _ A B'). etransitivity; [now apply (number_same _ _ _ _ A B)|now apply (number_same _ _ _ _ A' B')].
  - inversion S1; subst. exact S2.
  - inversion S1; subst; inversion S2; subst; constructor.
  - inversion S1; subst. exact S2.
  - inversion S1; subst. exact S2.
  - inversion S1 as [| | | | |a b c| p0 q t0 u x0 y0 Et Sx| | | | | | | | | | | | |]; subst; [now rewrite (one_pointer m p (t, x) c Lx Ly)|].
    inversion S2 as [| | | | |a b c| p1 q1 t1 u1 x1 y1 Et1 Sx1| | | | | | | | | | | | |]; subst; [rewrite <- (one_pointer m q (u, y0) c Ly Lz); now apply same_pointed|].
    apply same_pointed; [congruence|]. inversion Lx; inversion Ly; inversion Lz; subst. eauto.
  - inversion S1; subst. exact S2.
  - inversion S1; subst. inversion S2; subst. inversion Lx; inversion Ly; inversion Lz; subst. apply same_iface; [congruence|eauto].
  - inversion S1; subst. exact S2.
  - inversion S1 as [| | | | | | | |a b c L|a q c r F| | | | | | | | | |]; subst; [now rewrite (one_slice m p l c Lx Ly L)|].
    inversion S2 as [| | | | | | | |a b c L|a q1 c r1 F1| | | | | | | | | |]; subst; [rewrite <- (one_slice m q r c Ly Lz L); now apply same_slice|].
    apply same_slice. inversion Lx; inversion Ly; inversion Lz; subst. eapply all_trans; [exact IH| | | |eassumption|eassumption]; assumption.
  - inversion S1; subst. exact S2.
  - inversion S1 as [| | | | | | | | | | |a b c L|a q c r F K| | | | | | |]; subst; [now rewrite (one_map m p l c Lx Ly)|].
    inversion S2 as [| | | | | | | | | | |a b c L|a q1 c r1 F1 K1| | | | | | |]; subst; [rewrite <- (one_map m q r c Ly Lz); now apply same_map|].
    apply same_map; [|auto]. intros k x Ix. destruct (F k x Ix) as (y & Iy & Sy). destruct (F1 k y Iy) as (z & Iz & Sz). exists z. split; [exact Iz|].
    inversion Lx as [| | | | | | | | | | |a' l' _ All| | | |]; subst. inversion Ly as [| | | | | | | | | | |a' l' _ All1| | | |]; subst. inversion Lz as [| | | | | | | | | | |a' l' _ All2| | | |]; subst.
    rewrite Forall_forall in IH, All, All1, All2. exact (IH (k, x) Ix y z (All (k, x) Ix) (All1 (k, y) Iy) (All2 (k, z) Iz) Sy Sz).
  - inversion S1; subst. inversion S2; subst. apply same_array. inversion Lx; inversion Ly; inversion Lz; subst. eapply all_trans; [exact IH| | | |eassumption|eassumption]; assumption.
  - inversion S1; subst. inversion S2; subst. apply same_struct. inversion Lx; inversion Ly; inversion Lz; subst. eapply all_trans; [exact IH| | | |eassumption|eassumption]; assumption.
Qed.
Lemma zero_number : exists q, is_number 0 (Number q) /\ (q == 0)%Q.
Proof.
  destruct (bits_number 0) as (x & X); [reflexivity|reflexivity|]. pose proof X as X'. apply number_bits in X'. destruct X' as (neg & a & Ea & La & [(F & v & -> & V)|(-> & Ev)]).
  - eexists. split; [eauto|]. assert (a = 0 /\ neg = false) as [-> ->] by (unfold signed in Ea; rewrite sign64 in Ea; destruct neg; lia). cbn [with_sign]. rewrite V, mag0. unfold rat. cbn. ring.
  - exfalso. unfold signed in Ea. rewrite sign64, inf64 in Ea. destruct neg; lia.
Qed.
Lemma Forall2_repeat : forall A B (R : A -> B -> Prop) l x, Forall (fun y => R y x) l <-> Forall2 R l (repeat x (length l)).
Proof. intros A B R l x. induction l as [|y l IH]; cbn; [split; constructor|]. split; inversion 1; subst; constructor; auto; now apply IH. Qed.
Lemma zero_well : forall t, some_well (zero t).
Proof.
  assert (Z : forall t, well t (zero t)).
  { fix go 1. intros [i k|i n t|i ts]; cbn [zero].
    - destruct k; constructor. reflexivity.
    - assert (E : TyArray i n t = TyArray i (length (repeat (zero t) n)) t) by now rewrite repeat_length. rewrite E. constructor. apply Forall_forall. intros x I1. apply repeat_spec in I1. subst x. apply go.
    - constructor. revert ts. fix go2 1. intros [|t ts]; cbn [map]; constructor; [apply go|apply go2]. }
  intro t. exists t. apply Z.
Qed.
Lemma same_zero : forall v t, well t v -> (same v (zero t) <-> is_zero v).
Proof.
  intro v. induction v as [v|v|v|v|v|v| |p t0 x IH| |t0 x IH| |p l IH| |p l IH|l IH|l IH] using rval_ind'; intros t W; inversion W; subst; cbn [zero]; try (now split; constructor); try (now split; inversion 1; subst; constructor).
  - split; [inversion 1; subst|inversion 1; subst].
    + destruct zero_number as (q & Zq & Eq). assert (T : number_eq x (Number q)) by (apply (number_same v 0 x (Number q)); auto; apply (number_same v 0 x y); auto). destruct x as [|qx|]; cbn in T; try contradiction. econstructor; eauto. now rewrite T.
    + destruct zero_number as (q' & Zq & Eq). econstructor; eauto. cbn. now rewrite Eq.
  - assert (F : Forall2 same l (repeat (zero t0) (length l)) <-> Forall is_zero l).
    { rewrite <- Forall2_repeat. rewrite !Forall_forall. rewrite Forall_forall in IH. assert (W' : forall x, In x l -> well t0 x) by (now apply Forall_forall). split; intros H x I1; apply (IH x I1 t0); auto. }
    split; [inversion 1; subst; constructor; now apply F|inversion 1; subst; constructor; now apply F].
  - assert (F : Forall2 same l (map zero ts) <-> Forall is_zero l).
    { clear W. match goal with H : Forall2 well ts l |- _ => revert IH; induction H as [|t' x ts l W _ IHl]; intro IH end; cbn [map]; [split; constructor|]. inversion IH; subst. split; inversion 1; subst; constructor; try (now apply IHl); match goal with H : forall t, well t x -> _ |- _ => now apply (H t' W) end. }
    split; [inversion 1; subst; constructor; now apply F|inversion 1; subst; constructor; now apply F].
Qed.
Definition pointed (t : rty) (v : rval) : bool := match v with VIface None => true | VIface (Some (w, y)) => empty_value w y | _ => empty_value t v end.
Lemma empty_pointed : forall v t, well t v -> (pointed t v = true <-> nothing_in v).
Proof.
  assert (Z : forall t v, well t v -> (forall l, v <> VArray l) -> (forall p x, v <> VPtr (Some (p, x))) -> (forall o, v <> VIface (Some o)) -> (forall p n, v <> VChan (Some (p, n))) -> (forall p l, v <> VSlice (Some (p, l))) -> (forall p l, v <> VMap (Some (p, l))) -> (deep_equal v (zero t) = true <-> nothing_in v)).
  { intros t v W N1 N2 N3 N4 N5 N6. rewrite deep_same; [|eexists; eauto|apply zero_well]. rewrite same_zero by auto. split; [intro H; now apply nothing_zero|]. inversion 1; subst; auto; exfalso; [eapply N1|eapply N5|eapply N6|eapply N4|eapply N2|eapply N3]; eauto. }
  intro v. induction v as [v|v|v|v|v|v| |p t0 x IH| |t0 x IH| |p l IH| |p l IH|l IH|l IH] using rval_ind'; intros t W; cbn [pointed empty_value]; try (now apply Z).
  - destruct v as [[p n]|]; [|split; [intros _; apply nothing_zero; [constructor|discriminate]|reflexivity]]. rewrite N.eqb_eq. split; [intros ->; constructor|]. inversion 1; subst; auto. match goal with H : is_zero _ |- _ => inversion H end.
  - split; [intros _; apply nothing_zero; [constructor|discriminate]|reflexivity].
  - inversion W; subst. match goal with H : well t0 x |- _ => specialize (IH t0 H) end. change (pointed t0 x = true <-> nothing_in (VPtr (Some (p, (t0, x))))). rewrite IH. split; [now constructor|]. inversion 1; subst; auto. match goal with H : is_zero _ |- _ => inversion H end.
  - split; [intros _; apply nothing_zero; [constructor|discriminate]|reflexivity].
  - inversion W as [| | | | | | | | |i ti xi Wi Ni| | | | | |]; subst. specialize (IH t0 Wi). assert (E : pointed t0 x = empty_value t0 x) by (destruct x; try reflexivity; exfalso; eapply Ni; reflexivity). rewrite E in IH. rewrite IH. split; [now constructor|]. inversion 1; subst; auto. match goal with H : is_zero _ |- _ => inversion H end.
  - split; [intros _; apply nothing_zero; [constructor|discriminate]|reflexivity].
  - destruct l as [|y l]; cbn [length Nat.eqb]; [split; [constructor|reflexivity]|]. split; [discriminate|]. inversion 1; subst. match goal with H : is_zero _ |- _ => inversion H end.
  - split; [intros _; apply nothing_zero; [constructor|discriminate]|reflexivity].
  - destruct l as [|y l]; cbn [length Nat.eqb]; [split; [constructor|reflexivity]|]. split; [discriminate|]. inversion 1; subst. match goal with H : is_zero _ |- _ => inversion H end.
  - destruct l as [|y l]; cbn [length Nat.eqb]; [split; [constructor|reflexivity]|]. split; [discriminate|]. inversion 1; subst. exfalso. match goal with H : forall l, VArray _ <> _ |- _ => eapply H; reflexivity end.
Qed.
Lemma empty_spec : forall v t, well t v -> (forall o, v <> VIface o) -> (empty_value t v = true <-> nothing_in v).
Proof. intros v t W NI. rewrite <- (empty_pointed v t W). destruct v; try reflexivity. exfalso. eapply NI. reflexivity. Qed.
(** ** Maps of numbers *)
Lemma each_map : forall delta actual l, NoDup (map fst actual) -> (each_of_map delta l actual = true <-> forall k x, In (k, x) l -> exists y, In (k, y) actual /\ in_delta delta x y = true).
Proof.
  intros delta actual l N1. induction l as [|[k x] l IH]; cbn [each_of_map]; [split; [intros _ k x []|reflexivity]|]. destruct (map_index k actual) as [y|] eqn:E.
  - destruct (in_delta delta x y) eqn:D.
    + rewrite IH. split; [intros H k' x' [X|X]; [inversion X; subst; exists y; split; [now apply index_in|auto]|auto]|]. intros H k' x' X. apply H. now right.
    + split; [discriminate|]. intro H. destruct (H k x (or_introl eq_refl)) as (y' & I1 & D'). apply index_in in I1; auto. assert (y' = y) by congruence. subst. congruence.
  - split; [discriminate|]. intro H. destruct (H k x (or_introl eq_refl)) as (y' & I1 & D'). apply index_in in I1; auto. congruence.
Qed.
Lemma map_within : forall delta expected actual, NoDup (map fst expected) -> NoDup (map fst actual) -> (in_delta_map delta expected actual = true <-> maps_within (fun x y => in_delta delta x y = true) expected actual).
Proof.
  intros delta expected actual N1 N2. unfold in_delta_map, maps_within.
  assert (C : (forall k x, In (k, x) expected -> exists y, In (k, y) actual /\ in_delta delta x y = true) -> forall k, In k (map fst expected) -> In k (map fst actual)).
  { intros H k I1. apply in_map_iff in I1. destruct I1 as ([k' x] & <- & I1). destruct (H _ _ I1) as (y & I2 & _). apply in_map_iff. exists (k', y). auto. }
  destruct (length expected =? length actual)%nat eqn:L; cbn [negb].
  - apply Nat.eqb_eq in L. rewrite each_map by auto. split; [|tauto]. intro H. split; [exact H|]. apply keys_cover; auto.
  - apply Nat.eqb_neq in L. split; [discriminate|]. intros [H K]. exfalso. apply L. apply keys_cover; auto.
Qed.
(** ** InEpsilon *)
Lemma mag_pos : forall a, 0 < a -> 0 < mag f64 a. Proof. intros a L. apply (mag_mono f64) in L. rewrite mag0 in L. exact L. Qed.
Lemma in_epsilon_bits : forall expected actual na a nb b ne ep, to_float expected = Some (signed f64 na a) -> to_float actual = Some (signed f64 nb b) ->
  0 < a -> a < inf_of f64 -> b < inf_of f64 -> ep < inf_of f64 ->
  let d := round_mag f64 (Z.abs_N (zs na (mag f64 a) - zs nb (mag f64 b))) 1 in
  (inf_of f64 <= d -> in_epsilon (signed f64 ne ep) expected actual = false) /\
  (d < inf_of f64 -> (in_epsilon (signed f64 ne ep) expected actual = true <-> (Z.of_N (round_mag f64 (mag f64 d * 2 ^ scale f64) (mag f64 a)) <= zs ne ep)%Z)).
Proof.
  intros expected actual na a nb b ne ep E1 E2 Pa La Lb Le. cbv zeta. pose proof (inf_lt_sign f64 ok64) as Li. unfold in_epsilon, relative_error. rewrite E1, E2. rewrite !nan_signed by lia.
  replace (inf_of f64 <? ep) with false by lia. replace (inf_of f64 <? a) with false by lia. replace (inf_of f64 <? b) with false by lia.
  assert (Z0 : float_eq (signed f64 na a) 0 = false). { unfold float_eq. rewrite nan_signed, key_signed by lia. change (float_key 0) with 0%Z. unfold zs. destruct na; lia. }
  rewrite Z0. unfold float_sub. rewrite !nan_signed, !abs_of_signed, !units_signed by lia.
  replace (inf_of f64 <? a) with false by lia. replace (inf_of f64 <? b) with false by lia. replace (a =? inf_of f64) with false by lia. replace (b =? inf_of f64) with false by lia. cbn [orb].
  set (z := (zs na (mag f64 a) - zs nb (mag f64 b))%Z). set (d := round_mag f64 (Z.abs_N z) 1). rewrite abs_of_signed by lia. unfold abs_div. replace (inf_of f64 <? N.min (inf_of f64) d) with false by lia. replace (inf_of f64 <? a) with false by lia. cbn [orb]. replace (a =? inf_of f64) with false by lia.
  assert (Lt : forall x, x <= inf_of f64 -> float_lt (signed f64 ne ep) x = (zs ne ep <? Z.of_N x)%Z).
  { intros x Lx. change x with (signed f64 false x). unfold float_lt. rewrite !nan_signed, !key_signed by lia. replace (inf_of f64 <? ep) with false by lia. replace (inf_of f64 <? x) with false by lia. reflexivity. }
  split; intro D.
  - replace (N.min (inf_of f64) d =? inf_of f64) with true by lia. rewrite Lt by lia. unfold zs. destruct ne; lia.
  - replace (N.min (inf_of f64) d) with d by lia. replace (d =? inf_of f64) with false by lia. set (q := round_mag f64 (mag f64 d * 2 ^ scale f64) (mag f64 a)). rewrite Lt by lia. unfold zs. destruct ne; lia.
Qed.
Lemma round_mono : forall p q a, 0 < q -> p <= mag f64 a * q -> round_mag f64 p q <= a.
Proof.
  intros p q a Q L. destruct (N.le_gt_cases (round_mag f64 p q) a) as [|G]; auto. exfalso. apply (mag_mono f64) in G. destruct (round_nearest f64 ok64 p q a) as [D _]; [lia|]. cbv zeta in D. unfold dist in D. nia.
Qed.
Lemma quotient_ratio : forall d a vd va, 0 < a -> (vd == rat (mag f64 d) * unit f64)%Q -> (va == rat (mag f64 a) * unit f64)%Q -> at_ratio f64 (mag f64 d * 2 ^ scale f64) (mag f64 a) (vd / va).
Proof.
  intros d a vd va Pa Vd Va. unfold at_ratio. rewrite Vd, Va. rewrite rat_mul. pose proof (unit_scale f64) as U. pose proof (unit_pos f64) as Up. pose proof (rat_pos _ (mag_pos a Pa)) as Rp.
  setoid_replace (rat (mag f64 d) * rat (2 ^ scale f64) * unit f64)%Q with (rat (mag f64 d) * (unit f64 * rat (2 ^ scale f64)))%Q by ring. rewrite U. field. split; intro X; [rewrite X in Up|rewrite X in Rp]; now apply Qlt_irrefl in Up || now apply Qlt_irrefl in Rp.
Qed.
