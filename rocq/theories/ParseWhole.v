(** * The whole schema that Parse builds is the one of SchemaSpec *)
From Coq Require Import String Arith NArith ZArith Bool List Lia.
From Verif Require Import Base JsonModel NameModel Schema GoTypes ParseModel ParseFacts SchemaSpec ParseSound InputSound.
Import ListNotations.
Local Open Scope pm_scope.
Open Scope nat_scope.

Lemma post_fatal {A} (m : pm A) (Q : A -> pst -> Prop) s : post m Q s -> post (fatal m) Q s.
Proof. unfold post, fatal. destruct (m s); auto. Qed.
Lemma numbered_in {A B} (f : nat -> A -> list B) l : forall i x, In x l -> exists k, forall y, In y (f k x) -> In y (numbered f i l).
Proof.
  induction l as [|a l IH]; intros i x I; [contradiction|]. cbn [numbered]. destruct I as [->|I].
  - exists i. intros y J. apply in_or_app. now left.
  - destruct (IH (S i) x I) as [k Hk]. exists k. intros y J. apply in_or_app. right. auto.
Qed.
Lemma Forall2_in_l {A B} (R : A -> B -> Prop) l l' a : Forall2 R l l' -> In a l -> exists b, In b l' /\ R a b.
Proof. induction 1 as [|x y l l' H HS IH]; intros I; [contradiction|]. destruct I as [->|I]; [exists y; split; [now left|exact H]|]. destruct (IH I) as [b [J K]]. exists b. split; [now right|exact K]. Qed.
Lemma Forall2_nth_l {A B} (R : A -> B -> Prop) l l' : Forall2 R l l' -> forall k a, nth_error l k = Some a -> exists b, nth_error l' k = Some b /\ R a b.
Proof. induction 1 as [|x y l l' H HS IH]; intros [|k] a E; try discriminate; cbn in E; [injection E as <-; exists y; auto|]. apply (IH k a E). Qed.
Lemma Forall2_in_r {A B} (R : A -> B -> Prop) l l' b : Forall2 R l l' -> In b l' -> exists a, In a l /\ R a b.
Proof. induction 1 as [|x y l l' H HS IH]; intros I; [contradiction|]. destruct I as [->|I]; [exists x; split; [now left|exact H]|]. destruct (IH I) as [a [J K]]. exists a. split; [now right|exact K]. Qed.

Section Whole.
Variable P : program.
Variable qt mt : gtype.
Variable same : bool.
Variable inj : option (gval * gval).
Notation decls := (g_decls P).
Notation b := (match inj with Some _ => true | None => false end).
Notation roots := (roots_of P qt mt b).
Notation more := (more_of P b).
Hypothesis NA : named_apart P roots.
Hypothesis IA : inputs_apart P roots more.

Definition with_extra (n : bytes) (l : list pfield) : bytes -> list pfield := fun m => if beqb m n then l else [].
Lemma is_data_spec t : is_data P t = true <-> data_result P t.
Proof.
  unfold is_data, data_result. rewrite andb_true_iff, !negb_true_iff.
  split; intros [A B]; split; try exact A.
  - intros [K E]. rewrite K, E in B. discriminate.
  - destruct (t_kind decls t); try reflexivity. destruct (is_error decls t); [exfalso; auto|reflexivity].
Qed.
Lemma good_init : good P roots more (fun _ => []) (fun _ => None, fun _ => None) [] [] new_pst.
Proof. constructor; cbn; try discriminate; try reflexivity; try congruence; try contradiction. Qed.
Lemma good_same_extra xf xf' W TP IP s : (forall n, xf n = xf' n) -> good P roots more xf W TP IP s -> good P roots more xf' W TP IP s.
Proof.
  intros E [H1 H2 H3 H4 H5 H6 H7]. constructor; auto.
  - intros n r El. destruct (H1 n r El) as [t [A [B1 [B2 [B3 B4]]]]]. exists t. split; [exact A|]. do 3 (split; [assumption|]). rewrite <- E. exact B4.
  - intros n. rewrite <- E. apply H6.
Qed.
Lemma add_field_sound l q f W s : good P roots more (with_extra q l) W [] [] s -> fst W q <> None ->
  post (add_field q f) (fun _ s' => good P roots more (with_extra q (l ++ [f])) W [] [] s' /\ ps_methods s' = ps_methods s) s.
Proof.
  intros [H1 H2 H3 H4 H5 H6 H7] Hq. unfold add_field. apply post_bind. unfold post at 1, get at 1.
  destruct (slookup (ps_types s) q) as [t|] eqn:El; [|exact Logic.I]. unfold post, set_type. split; [|reflexivity].
  constructor; cbn [ps_types ps_ifaces ps_methods ps_intypes ps_unk]; auto.
  - intros n r E. rewrite slookup_sset in E. destruct (beqb n q) eqn:En.
    + apply beqb_eq in En. subst n. injection E as <-. destruct (H1 q t El) as [u [A [B1 [B2 [B3 B4]]]]]. exists u. split; [exact A|].
      cbn [pt_name pt_goname pt_pkg]. do 3 (split; [assumption|]). intro N. destruct (B4 N) as [C1 [C2 [C3 [C4 C5]]]].
      cbn [pt_name pt_goname pt_pkg pt_fields pt_impls]. do 3 (split; [assumption|]). split; [|exact C5].
      destruct C4 as [fl [F Ky]]. exists fl. split; [exact F|]. unfold with_extra in *. rewrite beqb_refl in *. cbn [pt_fields].
      rewrite app_assoc. now apply keyed_snoc.
    + destruct (H1 n r E) as [u [A B]]. exists u. split; [exact A|]. unfold rec_ok, with_extra in *. rewrite En in *. exact B.
  - intros n u E. destruct (H3 n u E) as [A B]. split; [|exact B]. cbn. rewrite slookup_sset. destruct (beqb n q); [discriminate|exact A].
  - intros n. unfold with_extra. destruct (beqb n q) eqn:En; [|congruence]. apply beqb_eq in En. subst. intros _. exact Hq.
Qed.
Definition extra_ok (W : world) (ms : list pmethod) (extra : list pfield) : Prop :=
  match inj with
  | None => extra = []
  | Some (sv, tf) =>
      exists o k fn, extra = [PField o 0 (bs "__schema") true (Some sv); PField (PMethod k) 0 (bs "__type") true (Some tf)] /\
        type_reads P (fst W) (snd W) (g_qlschema P) false o /\ nth_error ms k = Some fn /\
        fun_reads P (fst W) (snd W) false (fun_ins_of (under decls (g_typefn P))) (fun_outs (under decls (g_typefn P))) false fn
  end.
Lemma inject_sound fuel q sv tf W s : inj = Some (sv, tf) -> good P roots more (with_extra q []) W [] [] s -> fst W q <> None ->
  post (inject P fuel q sv tf) (fun _ s' => exists W' extra, ext W W' /\ good P roots more (with_extra q extra) W' [] [] s' /\
    extra_ok W' (ps_methods s') extra) s.
Proof.
  intros Ei G Hq. unfold inject. apply post_bind. apply post_fatal.
  pose proof (check_sound P roots more (with_extra q []) NA fuel (g_qlschema P) false W [] [] s) as S1.
  eapply post_mono; [|apply S1; [|exact G]].
  2:{ apply reach_root. rewrite Ei. cbn. auto. }
  clear S1. intros o s1 [W1 [E1 [Pr1 [G1 R1]]]].
  assert (fst W1 q <> None) as Hq1. { destruct (fst W q) as [u|] eqn:Eu; [|congruence]. destruct E1 as [E1 _]. rewrite (E1 q u Eu). discriminate. }
  apply post_bind. eapply post_mono; [|apply (add_field_sound [] q _ W1 s1 G1 Hq1)]. intros _ s2 [G2 M2]. cbn [app] in G2.
  apply post_bind. apply post_fatal.
  match type of G2 with good _ _ _ ?x _ _ _ _ => set (x2 := x) in * end.
  pose proof (check_function_sound P roots more x2 (check P fuel) (under decls (g_typefn P)) (fun_ins_of (under decls (g_typefn P))) false false W1 [] [] s2
                (check_sound P roots more x2 NA fuel) G2) as S2.
  eapply post_mono; [|apply S2].
  2:{ intros t I D. apply reach_root. rewrite Ei. unfold roots_of. do 3 right. apply filter_In. split; [exact I|]. now apply is_data_spec. }
  2:{ left. split; [reflexivity|]. rewrite Ei. now left. }
  clear S2. intros k s3 [W3 [E3 [Pr3 [G3 [fn [N3 F3]]]]]].
  assert (fst W3 q <> None) as Hq3. { destruct (fst W1 q) as [u|] eqn:Eu; [|congruence]. destruct E3 as [E3 _]. rewrite (E3 q u Eu). discriminate. }
  eapply post_mono; [|apply (add_field_sound _ q _ W3 s3 G3 Hq3)]. intros _ s4 [G4 M4].
  exists W3. eexists. split; [eapply ext_trans; eauto|]. split; [exact G4|]. unfold extra_ok. rewrite Ei.
  exists o, k, fn. split; [reflexivity|]. split; [eapply reads_ext; eauto|]. rewrite M4. auto.
Qed.

Lemma fun_completes own iown inown it ins outs h m m' : completes P inown m m' -> fun_reads P own iown it ins outs h m -> fun_reads P own iown it ins outs h m'.
Proof. intros [E _] [H1 H2 H3 H4]. rewrite E. constructor; cbn; auto. Qed.
Lemma member_completes own iown inown ms ms' t m f : Forall2 (completes P inown) ms ms' -> member_reads P own iown ms t m f -> member_reads P own iown ms' t m f.
Proof.
  intros F [H1 [H2 [H3 H4]]]. do 3 (split; [assumption|]).
  destruct (snd m) as [i ft h|i ft]; destruct H4 as [Hi H4]; (split; [exact Hi|]).
  - destruct (match t_kind decls ft with KFunc => true | _ => false end); [|exact H4].
    destruct H4 as [k [fn [A [B C]]]]. destruct (Forall2_nth_l _ _ _ F k fn B) as [fn' [B' D]]. exists k, fn'. split; [exact A|]. split; [exact B'|]. eapply fun_completes; eauto.
  - destruct H4 as [k [fn [A [B C]]]]. destruct (Forall2_nth_l _ _ _ F k fn B) as [fn' [B' D]]. exists k, fn'. split; [exact A|]. split; [exact B'|]. eapply fun_completes; eauto.
Qed.
Lemma describes_completes own iown inown ms ms' t ex fs : Forall2 (completes P inown) ms ms' -> describes P own iown ms t ex fs -> describes P own iown ms' t ex fs.
Proof. intros F [l [H K]]. exists l. split; [|exact K]. eapply Forall2_mono; [|exact H]. intros. eapply member_completes; eauto. Qed.

(** ** Everything that is part of the schema is in it *)
Section Complete.
Variable own iown : bytes -> option gtype.
Variable ms : list pmethod.
Variable types ifaces : list (bytes * ptype).
Hypothesis Htypes : forall n r, slookup types n = Some r -> exists t ex, own n = Some t /\ struct_reads P own iown ms n t ex r.
Hypothesis Hifaces : forall n r, slookup ifaces n = Some r -> exists t, iown n = Some t /\ iface_reads P own iown ms n t r.
Hypothesis Hown : forall n t, own n = Some t -> slookup types n <> None.
Hypothesis Hiown : forall n t, iown n = Some t -> slookup ifaces n <> None.
Lemma struct_desc n t : own n = Some t -> exists ex r, struct_reads P own iown ms n t ex r.
Proof.
  intro E. pose proof (Hown n t E) as H. destruct (slookup types n) as [r|] eqn:El; [|congruence].
  destruct (Htypes n r El) as [t' [ex [E' R]]]. exists ex, r. congruence.
Qed.
Lemma iface_desc n t : iown n = Some t -> exists r, iface_reads P own iown ms n t r.
Proof.
  intro E. pose proof (Hiown n t E) as H. destruct (slookup ifaces n) as [r|] eqn:El; [|congruence].
  destruct (Hifaces n r El) as [t' [E' R]]. exists r. congruence.
Qed.
Lemma seen_struct t h o : type_reads P own iown t h o -> is_time decls t = false -> t_kind decls t = KStruct -> exists n, own n = Some t.
Proof.
  intros R T K. inversion R; subst; eauto; try congruence.
  - intuition congruence.
  - match goal with H : enum_like _ _ |- _ => destruct H as [_ [_ H]]; rewrite K in H; contradiction end.
  - match goal with H : basic _ |- _ => rewrite K in H; contradiction end.
Qed.
Lemma seen_iface t h o : type_reads P own iown t h o -> is_time decls t = false -> t_kind decls t = KInterface -> exists n, iown n = Some t.
Proof.
  intros R T K. inversion R; subst; eauto; try congruence.
  - intuition congruence.
  - match goal with H : enum_like _ _ |- _ => destruct H as [_ [_ H]]; rewrite K in H; contradiction end.
  - match goal with H : basic _ |- _ => rewrite K in H; contradiction end.
Qed.
Definition seen (t : gtype) : Prop := exists h o, type_reads P own iown t h o.
Lemma fun_seen it ins outs h m t : fun_reads P own iown it ins outs h m -> In t outs -> data_result P t -> seen t.
Proof.
  intros [_ _ [u [[A [B C]] R]] _] I D. apply In_nth_error in I. destruct I as [j Ej]. pose proof (C j t Ej D) as ->.
  assert (u = t) as -> by congruence. eexists _, _. exact R.
Qed.
Lemma desc_seen t ex fs n m t' : describes P own iown ms t ex fs -> In (n, m) (exposed P t) -> member_type P m t' -> seen t'.
Proof.
  intros [l [F _]] I M. destruct (Forall2_in_l _ _ _ _ F I) as [f [_ [_ [_ [_ R]]]]]. cbn [snd] in R.
  destruct m as [i ft h|i ft]; cbn [member_type] in M; destruct R as [_ R].
  - destruct (match t_kind decls ft with KFunc => true | _ => false end).
    + destruct R as [k [fn [_ [_ R]]]]. destruct M as [M1 M2]. eapply fun_seen; eauto.
    + subst t'. eexists _, _. exact R.
  - destruct R as [k [fn [_ [_ R]]]]. destruct M as [M1 M2]. eapply fun_seen; eauto.
Qed.
Lemma seen_asks t t' : seen t -> asks P t t' -> seen t'.
Proof.
  intros [h [o R]] A. destruct A as [t e T K E|t n m t' T K I M|t i T K I|i t T K I].
  - inversion R; subst; try congruence; try (intuition congruence).
    + assert (e0 = e) as -> by congruence. eexists _, _. eassumption.
    + assert (e0 = e) as -> by congruence. eexists _, _. eassumption.
    + match goal with H : enum_like _ _ |- _ => destruct H as [_ [_ H]] end. destruct K as [K|[K|K]]; rewrite K in *; contradiction.
    + destruct K as [K|[K|K]]; rewrite K in *; contradiction.
  - destruct K as [K|K].
    + destruct (seen_struct t h o R T K) as [nm O]. destruct (struct_desc nm t O) as [ex [r [_ [_ [_ [D _]]]]]]. eapply desc_seen; eauto.
    + destruct (seen_iface t h o R T K) as [nm O]. destruct (iface_desc nm t O) as [r [_ [_ [_ [D _]]]]]. eapply desc_seen; eauto.
  - destruct (seen_struct t h o R T K) as [nm O]. destruct (struct_desc nm t O) as [ex [r [_ [_ [_ [_ F]]]]]].
    destruct (Forall2_in_l _ _ _ _ F I) as [o' [_ R']]. eexists _, _. exact R'.
  - destruct (seen_iface i h o R T K) as [nm O]. destruct (iface_desc nm i O) as [r [_ [_ [_ [_ F]]]]].
    destruct (Forall2_in_l _ _ _ _ F I) as [o' [_ [_ [_ R']]]]. eexists _, _. exact R'.
Qed.
Lemma all_seen rs t : (forall r, In r rs -> seen r) -> reach P rs t -> seen t.
Proof. intros H R. induction R; [auto|]. eapply seen_asks; eauto. Qed.

Variable inown : bytes -> option gtype.
Hypothesis Hfuns : forall m, In m ms -> args_read P inown (method_args (pm_istype m) (pm_type m)) (pm_ins m) (pm_infields m).
Lemma desc_fun t ex fs n m it ins : describes P own iown ms t ex fs -> In (n, m) (exposed P t) -> member_fun P t m it ins ->
  exists i f, args_read P inown (method_args it ins) i f.
Proof.
  intros [l [F _]] I M. destruct (Forall2_in_l _ _ _ _ F I) as [f [_ [_ [_ [_ R]]]]]. cbn [snd] in R.
  assert (forall k fn, nth_error ms k = Some fn -> pm_istype fn = it -> pm_type fn = ins -> exists i f, args_read P inown (method_args it ins) i f) as X.
  { intros k fn E <- <-. eexists _, _. apply Hfuns. eapply nth_error_In; eauto. }
  destruct m as [i ft h|i ft]; cbn [member_fun] in M; destruct R as [_ R].
  - destruct M as [M1 [M2 M3]]. rewrite M1 in R. destruct R as [k [fn [_ [E R]]]]. eapply X; [exact E| |]; [rewrite (fr_istype _ _ _ _ _ _ _ _ R)|rewrite (fr_ins _ _ _ _ _ _ _ _ R)]; congruence.
  - destruct M as [M1 M2]. destruct R as [k [fn [_ [E R]]]]. eapply X; [exact E| |]; [rewrite (fr_istype _ _ _ _ _ _ _ _ R)|rewrite (fr_ins _ _ _ _ _ _ _ _ R)]; congruence.
Qed.
Lemma args_seen ts i fs a f x t h : args_read P inown ts i fs -> In a ts -> struct_arg P a -> In (f, (x, t, h)) (input_members P a) -> exists j, input_reads P inown t h j.
Proof.
  intros [_ [l [F _]]] I [_ K] J. destruct (numbered_in (arg_members P) ts 0 a I) as [k Hk].
  assert (In (f, (k, (x, t, h))) (numbered (arg_members P) 0 ts)) as M.
  { apply Hk. unfold arg_members. rewrite K. change (f, (k, (x, t, h))) with ((fun m : bytes * (nat * gtype * bool) => (fst m, (k, snd m))) (f, (x, t, h))).
    now apply in_map. }
  destruct (Forall2_in_l _ _ _ _ F M) as [e [_ [_ [_ [R _]]]]]. eauto.
Qed.
End Complete.

Theorem parse_sound fuel p s :
  parse P fuel qt mt same inj new_pst = POk p s ->
  s = p_st p /\ exists own iown inown, schema_reads P own iown inown qt mt inj p.
Proof.
  intro Hp.
  set (Done := fun (p : pschema) (s : pst) => s = p_st p /\ exists own iown inown, schema_reads P own iown inown qt mt inj p).
  enough (post (parse P fuel qt mt same inj) Done new_pst) as X by (unfold post in X; rewrite Hp in X; exact X).
  clear Hp p s. unfold parse.
  assert (reach P roots qt) as Rq by (apply reach_root; now left). assert (reach P roots mt) as Rm by (apply reach_root; right; now left).
  apply post_bind. eapply post_mono; [|apply (check_sound P roots more (fun _ => []) NA fuel qt false _ [] [] new_pst Rq good_init)].
  intros q s1 [W1 [E1 [_ [G1 R1]]]]. destruct q as [|qn qg qp| | | | | |]; try exact Logic.I.
  apply post_bind. eapply post_mono; [|apply (check_sound P roots more (fun _ => []) NA fuel mt false W1 [] [] s1 Rm G1)].
  intros m s2 [W2 [E2 [_ [G2 R2]]]]. destruct m as [|mn mg mp| | | | | |]; try exact Logic.I.
  destruct (negb same && beqb (qp ++ qg) (mp ++ mg)); [exact Logic.I|].
  assert (fst W2 qn = Some qt) as Oq. { apply E2. inversion R1; subst. assumption. }
  assert (fst W2 mn = Some mt) as Om. { inversion R2; subst. assumption. }
  apply post_bind. eapply post_mono with
    (Q := fun _ s' => exists W' extra, ext W2 W' /\ good P roots more (with_extra qn extra) W' [] [] s' /\ extra_ok W' (ps_methods s') extra).
  2:{ assert (good P roots more (with_extra qn []) W2 [] [] s2) as G2'.
      { eapply good_same_extra; [|exact G2]. intro n. unfold with_extra. now destruct (beqb n qn). }
      match goal with |- post _ ?X _ => set (Q := X) end.
      assert (forall sv tf, inj = Some (sv, tf) -> post (inject P fuel qn sv tf) Q s2) as A1.
      { intros sv tf Ei. apply inject_sound; [exact Ei|exact G2'|congruence]. }
      assert (inj = None -> post (pret tt) Q s2) as A2.
      { intro Ei. exists W2, []. split; [apply ext_refl|]. split; [exact G2'|]. unfold extra_ok. rewrite Ei. reflexivity. }
      clearbody Q. clear - A1 A2. destruct inj as [[sv tf]|]; auto. }
  intros [] s3 [W [extra [E3 [G3 Ex]]]]. assert (fst W qn = Some qt /\ fst W mn = Some mt) as [Oq3 Om3] by (split; apply E3; assumption). clear Oq Om.
  apply post_bind. unfold post at 1, get at 1.
  assert (igood P roots more s3 (fun _ => None) [] s3) as I0.
  { constructor; try discriminate; [|repeat split; reflexivity]. intros n j. rewrite (g_in _ _ _ _ _ _ _ _ G3). discriminate. }
  apply post_bind. eapply post_mono; [|apply (methods_ins_sound P roots more IA s3 fuel (ps_methods s3) (g_funs _ _ _ _ _ _ _ _ G3) (fun _ => None) [] s3 I0)].
  intros ms s4 [W4 [_ [I4 F4]]].
  set (s4' := PSt (ps_types s4) (ps_ifaces s4) (ps_intypes s4) (ps_unk s4) (ps_unkin s4) ms).
  apply post_bind. unfold post at 1. fold s4'.
  (* igood does not look at the methods except in i_same *)
  set (s3' := PSt (ps_types s3) (ps_ifaces s3) (ps_intypes s3) (ps_unk s3) (ps_unkin s3) ms).
  assert (igood P roots more s3' W4 [] s4') as I4'.
  { destruct I4 as [H1 H2 H3]. constructor; auto. destruct H3 as [A [B [C D]]]. repeat split; assumption. }
  apply post_bind. eapply post_mono; [|apply (dirs_ins_sound P roots more IA s3' fuel (g_dirs P)) with (W := W4) (op := []); [|exact I4']].
  2:{ intros d I. unfold more_of. apply in_or_app. right. now apply in_map. }
  intros ds s5 [W5 [E5 [I5 F5]]]. apply post_bind. unfold post at 1, get at 1. unfold post, pret. split; [reflexivity|].
  destruct (i_same _ _ _ _ _ _ _ I5) as [T5 [J5 [M5 U5]]]. cbn [s3' ps_types ps_ifaces ps_methods ps_unk] in *.
  assert (Forall2 (completes P W5) (ps_methods s3) ms) as F4'.
  { eapply Forall2_mono; [|exact F4]. intros a c [X Y]. split; [exact X|]. eapply args_ext; eauto. }
  assert (forall n r, slookup (ps_types s3) n = Some r -> exists t, fst W n = Some t /\
     struct_reads P (fst W) (snd W) ms n t (if beqb n qn then extra else []) r) as Ty.
  { intros n r El. destruct (g_types _ _ _ _ _ _ _ _ G3 n r El) as [t [A [_ [_ [_ B]]]]]. exists t. split; [exact A|].
    destruct (B (fun x => x)) as [C1 [C2 [C3 [C4 C5]]]]. do 3 (split; [assumption|]). split; [|exact C5]. eapply describes_completes; eauto. }
  assert (forall n r, slookup (ps_ifaces s3) n = Some r -> exists t, snd W n = Some t /\ iface_reads P (fst W) (snd W) ms n t r) as Ti.
  { intros n r El. destruct (g_ifaces _ _ _ _ _ _ _ _ G3 n r El) as [t [A [_ [_ [_ B]]]]]. exists t. split; [exact A|].
    destruct (B (fun x => x)) as [C1 [C2 [C3 [C4 C5]]]]. do 3 (split; [assumption|]). split; [|exact C5]. eapply describes_completes; eauto. }
  assert (extra_ok W ms extra) as Ex'.
  { unfold extra_ok in *. destruct inj as [[sv tf]|]; [|exact Ex]. destruct Ex as [o [k [fn [X1 [X2 [X3 X4]]]]]].
    destruct (Forall2_nth_l _ _ _ F4' k fn X3) as [fn' [Y1 Y2]]. exists o, k, fn'. do 3 (split; [assumption|]). eapply fun_completes; eauto. }
  assert (forall m, In m ms -> args_read P W5 (method_args (pm_istype m) (pm_type m)) (pm_ins m) (pm_infields m)) as Fa.
  { intros m' I. destruct (Forall2_in_r _ _ _ _ F4' I) as [m0 [_ [X Y]]]. rewrite X. cbn. exact Y. }
  assert (forall n t, fst W n = Some t -> slookup (ps_types s3) n <> None) as Ho by (intros n t E; apply (g_own _ _ _ _ _ _ _ _ G3 n t E)).
  assert (forall n t, snd W n = Some t -> slookup (ps_ifaces s3) n <> None) as Hio by (intros n t E; apply (g_iown _ _ _ _ _ _ _ _ G3 n t E)).
  assert (forall n r, slookup (ps_types s3) n = Some r -> exists t ex, fst W n = Some t /\ struct_reads P (fst W) (snd W) ms n t ex r) as Ty'.
  { intros n r E. destruct (Ty n r E) as [t [A B]]. eauto. }
  assert (forall t, reach P roots t -> seen (fst W) (snd W) t) as Sn.
  { intros t. apply (all_seen (fst W) (snd W) ms (ps_types s3) (ps_ifaces s3) Ty' Ti Ho Hio). intros r [<-|[<-|I]].
    - eexists _, _. eapply reads_ext; [|exact R1]. eapply ext_trans; [exact E2|exact E3].
    - eexists _, _. eapply reads_ext; [exact E3|exact R2].
    - unfold extra_ok in Ex'. destruct inj as [[sv tf]|]; [|contradiction]. destruct Ex' as [o [k [fn [_ [X2 [_ X4]]]]]].
      destruct I as [<-|I]; [eexists _, _; exact X2|]. apply filter_In in I. destruct I as [I D]. eapply fun_seen; [exact X4|exact I|]. now apply is_data_spec. }
  exists (fst W), (snd W), W5. constructor; cbn [p_st p_query p_method p_dirs]; rewrite ?T5, ?J5, ?M5; auto.
  - exists extra. split; [|exact Ty]. exact Ex'.
  - intros n j El. destruct (i_table _ _ _ _ _ _ _ I5 n j El) as [t [A B]]. exists t. split; [exact A|]. apply B. intros [].
  - intros n t E. destruct (g_own _ _ _ _ _ _ _ _ G3 n t E) as [A1 [A2 [A3 [A4 [A5 A6]]]]]. do 5 (split; [assumption|]).
    intro Nn. destruct (A6 Nn) as [k [_ Hk]]. eauto.
  - intros n t E. apply (g_iown _ _ _ _ _ _ _ _ G3 n t E).
  - intros n t E. destruct (i_own _ _ _ _ _ _ _ I5 n t E) as [A1 [A2 [A3 [A4 [A5 A6]]]]]. do 4 (split; [assumption|]). split.
    + intro Nn. rewrite (A5 Nn). unfold in_name. cbn [s3' ps_types]. destruct (slookup (ps_types s3) (rename P (t_name decls t))); [reflexivity|now rewrite app_nil_r].
    + intro Nn. destruct (A6 Nn) as [k [_ Hk]]. eauto.
  - intros t R T. destruct (Sn t R) as [h [o O]]. split; intro K; [eapply seen_struct|eapply seen_iface]; eauto.
  - intros t R T K.
    assert (forall t, in_reach P roots more t -> exists h j, input_reads P W5 t h j) as In.
    { clear t R T K. assert (forall n t j, W5 n = Some t -> slookup (ps_intypes s5) n = Some j -> input_struct_reads P W5 n t j) as Hs.
      { intros n t j E El. destruct (i_table _ _ _ _ _ _ _ I5 n j El) as [t' [A B]]. assert (t' = t) as -> by congruence. apply B. intros []. }
      intros t R. induction R as [it ins a f i t h Sf Ia Sa If|t e R IH K E Fh|t n i t' h R IH K T If].
      - assert (exists i f, args_read P W5 (method_args it ins) i f) as [ii [ff Ar]].
        { destruct Sf as [[-> Im]|[t0 [n [m0 [R0 [T0 [K0 [I0' M0]]]]]]]].
          - unfold more_of in Im. apply in_app_or in Im. destruct Im as [Im|Im].
            + unfold extra_ok in Ex'. destruct inj as [[sv tf]|]; [|contradiction]. destruct Im as [<-|[]].
              destruct Ex' as [o [k [fn [_ [_ [X3 X4]]]]]]. eexists _, _. rewrite <- (fr_ins _ _ _ _ _ _ _ _ X4), <- (fr_istype _ _ _ _ _ _ _ _ X4).
              apply Fa. eapply nth_error_In; eauto.
            + apply in_map_iff in Im. destruct Im as [d [<- Id]]. destruct (Forall2_in_l _ _ _ _ F5 Id) as [d' [_ [_ [_ A]]]]. eauto.
          - destruct (Sn t0 R0) as [h0 [o0 O0]]. destruct K0 as [K0|K0].
            + destruct (seen_struct _ _ t0 h0 o0 O0 T0 K0) as [nm On]. destruct (struct_desc _ _ _ _ Ty' Ho nm t0 On) as [x [r [_ [_ [_ [D _]]]]]].
              eapply desc_fun; eauto.
            + destruct (seen_iface _ _ t0 h0 o0 O0 T0 K0) as [nm On]. destruct (iface_desc _ _ _ _ Ti Hio nm t0 On) as [r [_ [_ [_ [D _]]]]].
              eapply desc_fun; eauto. }
        exists h. eapply args_seen; eauto.
      - destruct IH as [h [j J]]. inversion J; subst; try congruence; try (rewrite (Fh eq_refl) in *; congruence);
          try (intuition congruence).
        + destruct K as [K|[K|K]]; rewrite K in *; contradiction.
        + destruct K as [K|[K|K]]; rewrite K in *; contradiction.
        + assert (e0 = e) as -> by congruence. eauto.
        + assert (e0 = e) as -> by congruence. eauto.
      - destruct IH as [h0 [j J]]. assert (exists nm, W5 nm = Some t) as [nm On].
        { inversion J; subst; eauto; try congruence; try (rewrite K in *; contradiction). intuition congruence. }
        destruct (i_own _ _ _ _ _ _ _ I5 nm t On) as [A1 _]. destruct (slookup (ps_intypes s5) nm) as [j'|] eqn:El; [|congruence].
        destruct (Hs nm t j' On El) as [l [c [z [_ [_ [F _]]]]]]. destruct (Forall2_in_l _ _ _ _ F If) as [e [_ [_ [X _]]]]. eauto. }
    destruct (In t R) as [h [j J]]. inversion J; subst; eauto; try congruence; try (rewrite K in *; contradiction). intuition congruence.
Qed.
End Whole.
