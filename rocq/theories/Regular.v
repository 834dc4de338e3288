(** * Regular requests: what the theorems about execution ask of a document and a schema (specification and a test for it) *)
From Coq Require Import String Arith NArith ZArith Bool List Lia.
From Verif Require Import Base Ast Grammar RefParser RefGrammar ParserFacts ReqModel Schema ResModel EnvModel Interp Facts Valid DocRun PropEnv PropValid Spec SpecDoc.
Import ListNotations.
Open Scope N_scope.
Local Notation value := Ast.value.
Local Notation field := Schema.field.

(** The part of the documents and schemas for which Spec.v describes the response. *)
Record regular (S : schema) (q : bytes) (d : document) : Prop := Regular {
  rg_text : g_doc d q;                                              (* [d] is what the text [q] denotes *)
  rg_nul : nul_free d;                                              (* no \u0000 in a string literal *)
  rg_size : N.of_nat (length (enc_doc d)) < 4294967296;
  rg_keyed : keyed S;
  rg_names : unambiguous S d;
  rg_spreads : spreads_exact d;
  rg_lists : lists_at_end d }.
Lemma runs_in : forall o d op, runs o d op -> In op d.
Proof. intros o d op (d1 & d2 & -> & _). apply in_or_app. right. now left. Qed.

(** ** A test *)
Fixpoint nf_valueb (v : value) : bool :=
  match v with
  | VStr s => negb (existsb (N.eqb 0) s)
  | VList vs => forallb nf_valueb vs
  | VObj fs => forallb (fun x => nf_valueb (snd x)) fs
  | _ => true
  end.
Lemma nf_valueb_ok : forall v, nf_valueb v = true -> nf_value v.
Proof.
  fix IH 1. intros [n|n|n|s|b| |n|vs|fs] H; cbn in *; auto.
  - intro I. rewrite negb_true_iff in H. assert (existsb (N.eqb 0) s = true) by (apply existsb_exists; exists 0; auto). congruence.
  - revert vs H. fix IH2 1. intros [|x r] H; auto. cbn in H. apply andb_prop in H. destruct H. split; [now apply IH|now apply IH2].
  - revert fs H. fix IH2 1. intros [|[k x] r] H; auto. cbn in H. apply andb_prop in H. destruct H. split; [now apply IH|now apply IH2].
Qed.
Definition nf_argsb (a : option (list (bytes * value))) : bool := match a with None => true | Some fs => nf_valueb (VObj fs) end.
Definition nf_dirb (d : directive) : bool := nf_argsb (d_args d).
Fixpoint nf_selb (x : sel) : bool :=
  match x with
  | SField _ _ ds args subs => forallb nf_dirb ds && nf_argsb args && forallb nf_selb subs
  | SSpread _ ds => forallb nf_dirb ds
  | SInline _ ds subs => forallb nf_dirb ds && forallb nf_selb subs
  end.
Lemma nf_argsb_ok : forall a, nf_argsb a = true -> match a with None => True | Some fs => nf_args fs end.
Proof. intros [fs|] H; auto. now apply nf_valueb_ok. Qed.
Lemma nf_dirsb_ok : forall ds, forallb nf_dirb ds = true -> Forall nf_dir ds.
Proof. intros ds H. apply Forall_forall. intros d I. eapply forallb_forall in H; eauto. now apply nf_argsb_ok. Qed.
Lemma nf_selb_ok : forall x, nf_selb x = true -> nf_sel x.
Proof.
  fix IH 1. intros [a n ds args subs|n ds|n ds subs] H; cbn in H.
  - apply andb_prop in H. destruct H as [H Hs]. apply andb_prop in H. destruct H as [Hd Ha]. split; [now apply nf_dirsb_ok|]. split; [now apply nf_argsb_ok|].
    revert subs Hs. fix IH2 1. intros [|x r] Hs; auto. cbn in Hs. apply andb_prop in Hs. destruct Hs. split; [now apply IH|now apply IH2].
  - now apply nf_dirsb_ok.
  - apply andb_prop in H. destruct H as [Hd Hs]. split; [now apply nf_dirsb_ok|].
    revert subs Hs. fix IH2 1. intros [|x r] Hs; auto. cbn in Hs. apply andb_prop in Hs. destruct Hs. split; [now apply IH|now apply IH2].
Qed.
Lemma nf_selsb_ok : forall l, forallb nf_selb l = true -> nf_sels l.
Proof. induction l as [|x r IH]; intro H; cbn; auto. cbn in H. apply andb_prop in H. destruct H. split; [now apply nf_selb_ok|auto]. Qed.
Definition nf_defb (x : definition) : bool :=
  match x with
  | DOp _ _ args _ ss => match args with None => true | Some l => forallb (fun a => match oa_default a with None => true | Some v => nf_valueb v end) l end && forallb nf_selb ss
  | DFrag _ _ ss => forallb nf_selb ss
  end.
Lemma nul_freeb_ok : forall d, forallb nf_defb d = true -> nul_free d.
Proof.
  intros d H. apply Forall_forall. intros x I. eapply forallb_forall in H; eauto. destruct x as [k n args ds ss|n t ss]; cbn in *.
  - apply andb_prop in H. destruct H as [Ha Hs]. split; [|now apply nf_selsb_ok]. destruct args as [l|]; auto. apply Forall_forall. intros a Ia. eapply forallb_forall in Ha; eauto. unfold nf_oparg. destruct (oa_default a); auto. now apply nf_valueb_ok.
  - now apply nf_selsb_ok.
Qed.

(** all lists of fields of a schema *)
Section Deep.
Variable chk : list (N * field) -> bool.
Fixpoint deep (o : obj) : bool :=
  match o with
  | OUndef | OData _ _ | OEnum _ | OTime | OObjRef _ | OIfaceRef _ => true
  | OArray e => deep e
  | OPtr e => deep e
  | OObj n fs => chk fs && forallb (fun x => deep_field (snd x)) fs
  | OIface n fs is => chk fs && forallb (fun x => deep_field (snd x)) fs && forallb (fun x => deep (snd x)) is
  | OMethod m => deep_method m
  end
with deep_field (f : field) : bool := match f with Field o _ _ _ _ => deep o end
with deep_method (m : method) : bool := match m with Method _ _ _ _ _ o => deep o end.
Definition deep_schema (S : schema) : bool :=
  deep (s_query S) && deep (s_method S) && forallb (fun x => deep (snd x)) (s_types S) && forallb (fun x => deep (snd x)) (s_ifaces S).
Lemma deep_ok : forall S, chk [] = true -> deep_schema S = true -> forall o, reach S o -> chk (o_fields o) = true.
Proof.
  intros S E H. unfold deep_schema in H. repeat (apply andb_prop in H; destruct H as [H ?]).
  assert (R : forall o, reach S o -> deep o = true).
  { induction 1 as [| |n o El|n o El|o h fo c i n hd R IH El|e R IH|e R IH|a b c d e o R IH|n fs is x R IH I]; auto.
    - apply slookup_in in El. destruct El as (k & El). eapply forallb_forall in H1; eauto. exact H1.
    - apply slookup_in in El. destruct El as (k & El). eapply forallb_forall in H0; eauto. exact H0.
    - apply nlookup_in in El. destruct El as (k & El). destruct o; try contradiction; cbn in IH, El.
      + apply andb_prop in IH. destruct IH as [_ IH]. eapply forallb_forall in IH; eauto. exact IH.
      + apply andb_prop in IH. destruct IH as [IH _]. apply andb_prop in IH. destruct IH as [_ IH]. eapply forallb_forall in IH; eauto. exact IH.
    - cbn in IH. apply andb_prop in IH. destruct IH as [_ IH]. eapply forallb_forall in IH; eauto. }
  intros o Ro. apply R in Ro. destruct o; cbn in *; auto; repeat (apply andb_prop in Ro; destruct Ro as [Ro ?]); auto.
Qed.
End Deep.
(** all selections of a document *)
Fixpoint sels_in (x : sel) : list sel :=
  x :: match x with SField _ _ _ _ subs => flat_map sels_in subs | SInline _ _ subs => flat_map sels_in subs | SSpread _ _ => [] end.
Definition all_sels (d : document) : list sel := flat_map (fun y => flat_map sels_in (sels_of y)) d.
Lemma within_in : forall x ss, within x ss -> In x (flat_map sels_in ss).
Proof.
  induction 1 as [ss I|a n ds args subs ss I _ IH|n ds subs ss I _ IH]; apply in_flat_map.
  - exists x. split; auto. destruct x; now left.
  - eexists. split; [exact I|]. now right.
  - eexists. split; [exact I|]. now right.
Qed.
Lemma in_all : forall x d, in_doc x d -> In x (all_sels d).
Proof. intros x d (y & I & Wy). apply in_flat_map. exists y. split; auto. now apply within_in. Qed.

Fixpoint lists_lastb (args : list (bytes * value)) (subs : list sel) : bool :=
  match args with
  | [] => true
  | (_, VList _) :: [] => match subs with [] => true | _ => false end
  | (_, VList _) :: _ => false
  | _ :: r => lists_lastb r subs
  end.
Lemma lists_lastb_ok : forall args subs, lists_lastb args subs = true -> lists_last args subs.
Proof.
  induction args as [|[k v] r IH]; intros subs H a k' l b E; [destruct a; discriminate|]. destruct a as [|[k2 v2] a]; cbn in E.
  - injection E; intros; subst. cbn in H. destruct b; [|discriminate]. destruct subs; [auto|discriminate].
  - injection E; intros; subst. eapply IH; [|reflexivity]. destruct v2; auto. cbn in H. destruct a; discriminate.
Qed.
Definition keyedb (fs : list (N * field)) : bool := forallb (fun e => fst e =? fnv1 (fname_of (snd e))) fs.
Definition apartb (names : list bytes) (fs : list (N * field)) : bool :=
  forallb (fun e => forallb (fun n => negb (fnv1 n =? fst e) || beqb n (fname_of (snd e))) names) fs.
Definition names_of (d : document) : list bytes := flat_map (fun x => match x with SField _ n _ _ _ => [n] | _ => [] end) (all_sels d).
Definition regularb (S : schema) (q : bytes) (d : document) : bool :=
  forallb nf_defb d && (N.of_nat (length (enc_doc d)) <? 4294967296) && deep_schema keyedb S && deep_schema (apartb (names_of d)) S &&
  forallb (fun x => match x with SSpread n _ => forallb (fun f => negb (is_prefix n (fst (fst f))) || beqb (fst (fst f)) n) (frag_defs d) | SField _ _ _ args subs => lists_lastb (given args) subs | _ => true end) (all_sels d).
Theorem regularb_ok : forall S q d, ref_parse q = Some d -> regularb S q d = true -> regular S q d.
Proof.
  intros S q d P H. unfold regularb in H. repeat (apply andb_prop in H; destruct H as [H ?]). rename H into Hn, H0 into Hs, H1 into Ha, H2 into Hk, H3 into Hz.
  assert (K : keyed S). { intros o e R I. pose proof (deep_ok keyedb S eq_refl Hk o R) as K. unfold keyedb in K. eapply forallb_forall in K; eauto. now apply N.eqb_eq in K. }
  constructor.
  - now apply ref_parse_spec.
  - now apply nul_freeb_ok.
  - now apply N.ltb_lt.
  - exact K.
  - intros o e a n ds args subs R I J E. pose proof (deep_ok (apartb (names_of d)) S eq_refl Ha o R) as A. unfold apartb in A. eapply forallb_forall in A; eauto.
    assert (In n (names_of d)) as In' by (apply in_flat_map; eexists; split; [apply in_all; exact J|now left]). eapply forallb_forall in A; eauto.
    rewrite (K o e R I), E, N.eqb_refl in A. cbn in A. now apply beqb_eq in A.
  - intros n ds f J If Pf. apply in_all in J. eapply forallb_forall in Hs; eauto. cbn in Hs. eapply forallb_forall in Hs; eauto. rewrite Pf in Hs. cbn in Hs. now apply beqb_eq in Hs.
  - intros a n ds args subs J. apply in_all in J. eapply forallb_forall in Hs; eauto. cbn in Hs. now apply lists_lastb_ok.
Qed.
(** the operation that is run *)
Lemma runs_only : forall o d op, filter (fun x => match x with DOp _ _ _ _ _ => true | _ => false end) d = [op] -> selected (target_of o) op -> runs o d op.
Proof.
  intros o d op. induction d as [|x d IH]; [discriminate|]. intros F Sel. destruct x as [k n a ds ss|n t ss]; cbn in F.
  - injection F; intros Fd <-. exists [], d. split; [reflexivity|]. split; auto. apply Forall_forall. intros y Iy.
    assert (N : match y with DOp _ _ _ _ _ => false | _ => true end = true). { destruct y as [k2 n2 a2 ds2 ss2|]; auto. assert (In (DOp k2 n2 a2 ds2 ss2) (filter (fun x => match x with DOp _ _ _ _ _ => true | _ => false end) d)) as C by (apply filter_In; auto). rewrite Fd in C. contradiction. }
    destruct y; [discriminate|]. cbn. tauto.
  - destruct (IH F Sel) as (d1 & d2 & -> & A & B). exists (DFrag n t ss :: d1), d2. auto.
Qed.
