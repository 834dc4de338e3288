(** * Resolve on the text of a query, in terms of the reference interpreter (proofs) *)
From Coq Require Import String Arith NArith ZArith Bool List Lia ZifyBool ZifyN ZifyNat.
From Verif Require Import Base JsonModel Ast Grammar RefGrammar ParserModel ParserFacts ReqModel Schema ResModel EnvModel Interp ResFrame ResSim RunSim OpSim.
Import ListNotations.
Open Scope N_scope.

(** ** Documents whose string literals contain no zero byte (specification).  A zero byte can only
    come from the escape sequence backslash u0000. *)
Fixpoint nf_value (v : value) : Prop :=
  match v with
  | VStr s => ~ In 0 s
  | VList vs => (fix f l := match l with [] => True | x :: r => nf_value x /\ f r end) vs
  | VObj fs => (fix f l := match l with [] => True | (_, x) :: r => nf_value x /\ f r end) fs
  | _ => True
  end.
Definition nf_args (fs : list (bytes * value)) : Prop := nf_value (VObj fs).
Definition nf_dir (d : directive) : Prop := match d_args d with None => True | Some fs => nf_args fs end.
Fixpoint nf_sel (x : sel) : Prop :=
  match x with
  | SField _ _ ds args subs =>
      Forall nf_dir ds /\ match args with None => True | Some fs => nf_args fs end /\
      (fix f l := match l with [] => True | x :: r => nf_sel x /\ f r end) subs
  | SSpread _ ds => Forall nf_dir ds
  | SInline _ ds subs => Forall nf_dir ds /\ (fix f l := match l with [] => True | x :: r => nf_sel x /\ f r end) subs
  end.
Fixpoint nf_sels (l : list sel) : Prop := match l with [] => True | x :: r => nf_sel x /\ nf_sels r end.
Definition nf_oparg (a : oparg) : Prop := match oa_default a with None => True | Some v => nf_value v end.
Definition nf_def (x : definition) : Prop :=
  match x with
  | DOp _ _ args _ ss => match args with None => True | Some l => Forall nf_oparg l end /\ nf_sels ss
  | DFrag _ _ ss => nf_sels ss
  end.
Definition nul_free (d : document) : Prop := Forall nf_def d.

(** ** Names and numbers of accepted texts *)
Lemma name_clean : forall n, valid_name n -> clean n /\ n <> [] /\ fnv1 n < 4294967296.
Proof.
  intros n H. inversion H as [c m L F Len E]. subst n. clear Len H.
  assert (A : Forall (fun c => c <> 0 /\ c < 256) (c :: m)).
  { constructor.
    - unfold is_letter in L. lia.
    - eapply Forall_impl; [|exact F]. intros a Ha. unfold is_name_char, is_letter, is_digit in Ha. lia. }
  split; [|split; [discriminate|]].
  - eapply Forall_impl; [|exact A]. intros a Ha. apply Ha.
  - unfold fnv1. generalize (c :: m), A. clear. intros l A. assert (K : 2166136261 < 4294967296) by reflexivity.
    revert K. generalize 2166136261. induction A as [|x l [_ Hx] A IH]; intros h K; [exact K|]. cbn [fold_left]. apply IH.
    unfold fnv1_step. assert (B : h * 16777619 mod 4294967296 < 2 ^ 32) by (apply N.mod_lt; discriminate).
    generalize dependent (h * 16777619 mod 4294967296). intros y B.
    destruct (N.eq_dec (N.lxor y x) 0) as [->|Z]; [reflexivity|].
    apply (N.log2_lt_pow2 (N.lxor y x) 32); [now apply N.neq_0_lt_0|].
    eapply N.le_lt_trans; [apply N.log2_lxor|]. apply N.max_lub_lt.
    + destruct (N.eq_dec y 0) as [->|Z']; [reflexivity|]. apply N.log2_lt_pow2; [now apply N.neq_0_lt_0|exact B].
    + destruct (N.eq_dec x 0) as [->|Z']; [reflexivity|]. apply N.log2_lt_pow2; [now apply N.neq_0_lt_0|]. change (2 ^ 32) with 4294967296. lia.
Qed.
Lemma g_name_ok : forall n l r, g_name n l r -> clean n /\ n <> [] /\ fnv1 n < 4294967296.
Proof. intros n l r H. inversion H; subst. now apply name_clean. Qed.
Lemma g_name_clean : forall n l r, g_name n l r -> clean n.
Proof. intros. eapply g_name_ok; eauto. Qed.
Lemma digit_clean : forall d, digit_run d -> clean (strip_und d).
Proof.
  intros d H. unfold strip_und. induction H as [|c d Hc H IH]; cbn; [constructor|]. destruct (c =? cUND); cbn; auto.
  constructor; auto. unfold is_digit in Hc. lia.
Qed.
Lemma sign_clean : forall a b, g_sign a b -> clean b.
Proof. intros a b H. inversion H; repeat constructor. discriminate. Qed.
Lemma exp_clean : forall a b, g_exp a b -> clean b.
Proof.
  intros a b H. inversion H; subst; [constructor|]. constructor; [discriminate|]. apply clean_app; [eapply sign_clean; eauto|now apply digit_clean].
Qed.
Lemma number_ok : forall v l r, g_number v l r -> ok_value v.
Proof.
  intros v l r H. inversion H; subst; cbn.
  - apply clean_app; [eapply sign_clean; eauto|now apply digit_clean].
  - apply clean_app; [eapply sign_clean; eauto|]. apply clean_app; [now apply digit_clean|eapply exp_clean; eauto].
  - apply clean_app; [eapply sign_clean; eauto|]. apply clean_app; [now apply digit_clean|]. constructor; [discriminate|].
    apply clean_app; [now apply digit_clean|eapply exp_clean; eauto].
Qed.
Lemma not_in_clean : forall s, ~ In 0 s -> clean s.
Proof. intros s H. apply Forall_forall. intros x I ->. contradiction. Qed.

Lemma value_ok :
  (forall v l r, g_value v l r -> nf_value v -> ok_value v) /\
  (forall vs l r, g_items vs l r -> nf_value (VList vs) -> ok_value (VList vs)) /\
  (forall cl fs l r, g_assign cl fs l r -> nf_args fs -> ok_value (VObj fs)) /\
  (forall cl fs l r, g_fields cl fs l r -> nf_args fs -> ok_value (VObj fs)).
Proof.
  apply g_value_mut; intros; try (cbn; exact I); auto.
  - eapply g_name_clean; eauto.
  - eapply number_ok; eauto.
  - apply not_in_clean. exact H1.
  - eapply g_name_clean; eauto.
  - cbn in *. tauto.
  - destruct H5. split; auto. now apply H4.
  - destruct H4. split; [eapply g_name_clean; eauto|]. cbn. tauto.
  - destruct H7. split; [eapply g_name_clean; eauto|]. split; auto. now apply H6.
Qed.
Lemma assign_ok : forall cl fs l r, g_assign cl fs l r -> nf_args fs -> ok_args fs.
Proof. intros. apply ok_obj. eapply (proj1 (proj2 (proj2 value_ok))); eauto. Qed.
Lemma dirs_ok : forall ds l r, g_dirs ds l r -> Forall nf_dir ds -> Forall ok_dir ds.
Proof.
  induction 1; intros F; [constructor| |]; inversion F; subst; constructor; auto.
  - split; [eapply g_name_clean; eauto|exact I].
  - split; [eapply g_name_clean; eauto|]. eapply assign_ok; eauto.
Qed.
Lemma opt_args_ok : forall a l r, g_opt_args a l r -> match a with None => True | Some fs => nf_args fs end ->
  match a with None => True | Some fs => ok_args fs end.
Proof. intros a l r H. inversion H; subst; auto. intros. eapply assign_ok; eauto. Qed.

Lemma sel_ok :
  (forall s l r, g_sel s l r -> nf_sel s -> ok_sel s) /\
  (forall ss l r, g_opt_set ss l r -> nf_sels ss -> ok_sels ss) /\
  (forall ss l r, g_selset ss l r -> nf_sels ss -> ok_sels ss) /\
  (forall ss l r, g_sels ss l r -> nf_sels ss -> ok_sels ss).
Proof.
  apply g_sel_mut; intros; auto.
  - destruct H5 as (A & B & C).
    assert (N : n <> [] /\ fnv1 n < 4294967296) by (inversion H; subst; eapply g_name_ok; eauto).
    split; [apply N|]. split; [apply N|]. split; [eapply dirs_ok; eauto|]. split; [eapply opt_args_ok; eauto|]. now apply H4.
  - split; [eapply g_name_clean; eauto|]. eapply dirs_ok; eauto.
  - destruct H7 as (A & B). split; [eapply g_name_clean; eauto|]. split; [eapply dirs_ok; eauto|]. now apply H5.
  - destruct H2. split; auto.
  - destruct H5. split; auto.
Qed.
Lemma type_ok : forall t l r, g_type t l r -> ok_type t.
Proof. induction 1; cbn; auto; eapply g_name_clean; eauto. Qed.
Lemma opargs_ok : forall a l r, g_opargs a l r -> Forall nf_oparg a -> Forall ok_oparg a.
Proof.
  induction 1; intros F; [constructor|]. inversion F; subst. constructor; auto. split; [eapply g_name_clean; eauto|].
  split; [eapply type_ok; eauto|]. cbn in *. inversion H3; subst; auto. unfold nf_oparg in H7. cbn in H7. eapply (proj1 value_ok); eauto.
Qed.
Lemma def_ok : forall x l r, g_def x l r -> nf_def x -> ok_def x.
Proof.
  intros x l r H F. inversion H; subst; cbn in *.
  - split; [constructor|]. split; auto. eapply (proj1 (proj2 (proj2 sel_ok))); eauto. tauto.
  - split; [inversion H0; subst; [constructor|eapply g_name_clean; eauto]|]. split; [|eapply (proj1 (proj2 (proj2 sel_ok))); eauto; tauto].
    destruct F as [F _]. inversion H1; subst; auto. eapply opargs_ok; eauto.
  - split; [eapply g_name_clean; eauto|]. split; [eapply g_name_clean; eauto|]. eapply (proj1 (proj2 (proj2 sel_ok))); eauto.
Qed.
Lemma doc_ok : forall d q, g_doc d q -> nul_free d -> ok_doc d.
Proof. induction 1; intros F; [constructor|]. inversion F; subst. constructor; [eapply def_ok; eauto|apply IHg_doc; auto]. Qed.

(** ** Resolve *)
Definition start_of (o : ropts) : bytes := if op_nometa o then [] else data_start.
Definition finish_of (o : ropts) (out : bytes) (es : list qerr) : bytes := if op_nometa o then out else out ++ envelope_end es (op_trace o).
Definition s0 {W} (w : W) : rst W := RS O [] [] [] (fun _ => (false, GOther)) 0 None w.

(** the operation that is run: the last one that is selected *)
Definition runs (o : ropts) (d : document) (op : definition) : Prop :=
  exists d1 d2, d = d1 ++ op :: d2 /\ selected (target_of o) op /\ Forall (fun y => ~ selected (target_of o) y) d2.

Theorem resolve_doc : forall W (X : externals W) S fuel o vals w q d op,
  g_doc d q -> nul_free d -> N.of_nat (length (enc_doc d)) < 4294967296 -> runs o d op ->
  match b_operation X S (op_vars o) d op fuel (s0 w) with
  | BOk (ms, _) s' =>
      let es := map ERun (r_errs s') in
      exists vals', resolve X S fuel o vals w q =
        RDone (finish_of o (start_of o ++ [123] ++ render_members (x_float_json X) ms ++ [125]) es) es vals' (r_world s')
  | BPanic => resolve X S fuel o vals w q = RPanicked
  | BNoFuel => resolve X S fuel o vals w q = ROutOfFuel
  | BOut => True
  end.
Proof.
  intros W X S fuel o vals w q d op G F Sm (d1 & d2 & E & Sel & Last).
  destruct (denotes_accepted q (target_of o) d G) as (p & P & Pe & Pr & Pf & Pt).
  assert (T : p_tgt p = Some (length (enc_doc d1))).
  { pose proof (target_chosen q (target_of o) d p G P) as T. destruct (p_tgt p) as [n|].
    - destruct T as (e1 & x & e2 & E' & Sx & Fx & ->). f_equal.
      rewrite E in E'. clear - E' Sel Last Sx Fx.
      revert e1 E'. induction d1 as [|a d1 IH]; intros [|b e1] E'; cbn in E'.
      + reflexivity.
      + inversion E'; subst. apply Forall_app in Last. destruct Last as [_ L]. inversion L; subst. contradiction.
      + inversion E'; subst. apply Forall_app in Fx. destruct Fx as [_ L]. inversion L; subst. contradiction.
      + inversion E'; subst. cbn [enc_doc flat_map]. fold (enc_doc e1). fold (enc_doc d1). rewrite !app_length. f_equal. apply IH; auto.
    - rewrite E in T. apply Forall_app in T. destruct T as [_ T]. inversion T; subst. contradiction. }
  pose proof (operation_sim W X S (op_vars o) fuel d d1 op d2 (length (enc_doc d1)) (start_of o ++ [123]) vals (s0 w)
    E (doc_ok d q G F) Sm eq_refl) as Sim.
  assert (Op : match op with DOp _ _ _ _ _ => True | _ => False end) by (destruct op; auto). specialize (Sim Op). clear Op.
  unfold resolve. rewrite P. unfold resolve_parsed. rewrite Pe, T, Pr, Pf. cbv zeta. change (if op_nometa o then [] else data_start) with (start_of o).
  change (RS (length (enc_doc d1)) (start_of o ++ [123]) [] [] vals 0 None w) with (fr (length (enc_doc d1)) (start_of o ++ [123]) vals 0 (s0 w)).
  destruct (b_operation X S (op_vars o) d op fuel (s0 w)) as [[ms c] s'| | |]; cbn [sim] in Sim; auto.
  - destruct Sim as (x & t & Rt & _ & p' & v' & Et). rewrite Rt. exists v'. rewrite Et. cbn [fr r_errs r_out r_vals r_world fst].
    unfold finish_of. repeat (progress (rewrite <- ?app_assoc; cbn [app])). reflexivity.
  - rewrite Sim. reflexivity.
  - rewrite Sim. reflexivity.
Qed.
