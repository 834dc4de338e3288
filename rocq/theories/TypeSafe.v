(** * Resolving does not panic (proofs for C50) *)
From Coq Require Import String Arith NArith ZArith Bool List Lia.
From Verif Require Import Base JsonModel NameModel Ast ReqModel Schema ResModel Interp GoTypes ParseModel SchemaSpec ParseWhole PropSchema TypeSpec TypeArgs.
Import ListNotations.
Open Scope nat_scope.

Section Safe.
Variables (P : program) (qt mt : gtype) (inj : option (gval * gval)) (p : pschema).
Notation decls := (g_decls P).
Notation b := (match inj with Some _ => true | None => false end).
Notation roots := (roots_of P qt mt b).
Notation more := (more_of P b).
Variables own iown inown : bytes -> option gtype.
Hypothesis SR : schema_reads P own iown inown qt mt inj p.
Variables (qv mv : gval) (d : N).
Notation S := (view P p qv mv d).
Notation ms := (ps_methods (p_st p)).
Context {W : Type}.
Variable X : externals W.
Variable R : gtype -> gval -> Prop.
Hypothesis TY : typing P R.
Variable inv : W -> Prop.
Hypothesis BH : behaves P X R inv.
Notation rp := (@rp W inv _).
Notation bp := (@bp W inv _).
Hypothesis GF : go_facts P.
Hypothesis CA : careful P roots more.
Hypothesis FI : x_formfile X = None -> no_files P roots more.
Hypothesis INJ : forall sv tf, inj = Some (sv, tf) -> R (g_qlschema P) sv /\ R (g_typefn P) tf /\ is_time decls (g_typefn P) = false /\ t_kind decls (g_typefn P) = KFunc.
Variables (rawvars : bytes) (opargs : option (list oparg)) (fdefs : list (bytes * bytes * list sel)).
Notation bm := (@bm W).

Lemma SI : forall n t, inown n = Some t -> exists j, slookup (s_intypes S) n = Some j /\ input_struct_reads P inown n t j.
Proof.
  intros n t O. destruct (sr_inown _ _ _ _ _ _ _ _ SR n t O) as [N _]. cbn [view s_intypes]. destruct (slookup (ps_intypes (p_st p)) n) as [j|] eqn:E; [|congruence].
  exists j. split; [reflexivity|]. destruct (sr_inputs _ _ _ _ _ _ _ _ SR n j E) as [t' [O' H]]. congruence.
Qed.
Lemma s_args fuel it ins0 ins fs args : schema_fun P roots more it ins0 -> args_read P inown (method_args it ins0) ins fs ->
  bp (b_args X S rawvars opargs fuel ins fs args) (fun r => Forall2 (arg_ok P) (method_args it ins0) (fst (fst r))).
Proof. apply (p_args P X S roots more inown GF CA FI eq_refl SI inv (bh_file _ _ _ _ BH)). Qed.

(** ** Directives *)
Lemma s_directive fuel loc x : bp (b_directive X S rawvars opargs fuel loc x) (fun _ => True).
Proof.
  assert (U : bp (bbind (lift (err (bs "unknown directive " ++ d_name x))) (fun b => bret (false, b))) (fun _ => True)).
  { eapply bp_bind; [apply bp_lift, rp_err|]. intros. now apply bp_ret. }
  unfold b_directive. destruct (nlookup (s_dirs S) loc) as [ds|] eqn:L; [|exact U]. destruct (find _ ds) as [dd|] eqn:F; [|exact U].
  apply find_some in F. destruct F as [F _].
  assert (I : In dd (p_dirs p)).
  { cbn [view s_dirs] in L. revert L F. generalize (g_dirlocs P). induction l as [|[a v] l IH]; [discriminate|]. cbn [map nlookup fst snd]. destruct (loc =? a)%N; [|exact IH].
    intro E. injection E as <-. intro F. apply in_flat_map in F. destruct F as [i [_ F]]. destruct (nth_error (p_dirs p) i) eqn:E; [|contradiction]. destruct F as [<-|[]]. eapply nth_error_In; eauto. }
  destruct (Forall2_in_r _ _ _ _ (sr_dirs _ _ _ _ _ _ _ _ SR) I) as [pd [Ip [_ [Ef Ar]]]].
  eapply bp_bind; [apply (s_args fuel false (pd_type pd)); [|exact Ar]|].
  { left. split; [reflexivity|]. unfold more_of. apply in_or_app. right. now apply in_map. }
  intros [[args crit] cut] Fa. cbn [fst method_args] in Fa. destruct crit; [now apply bp_ret|]. destruct cut; [apply bp_nope|].
  assert (Sk : pd_fn pd = DSkip \/ pd_fn pd = DInclude -> exists e b, args = [GStruct [(e, GBool b)]]).
  { intro K. destruct (gf_skip _ GF pd Ip K) as (t & nm & an & ex & tg & bt & Et & Tt & Ut & Ub). rewrite Et in Fa.
    inversion Fa as [|t0 a ts as_ Ha Fa']; subst. inversion Fa'; subst. destruct Ha as [[[Kt _] _]|[_ Ha]]; [unfold t_kind in Kt; rewrite Ut in Kt; discriminate|].
    inversion Ha; subst; try congruence; [|rewrite Ut in *; contradiction]. match goal with E : under decls t = TStruct _ |- _ => rewrite Ut in E; injection E as <- end.
    match goal with E : Forall2 _ [_] _ |- _ => inversion E as [|? y ? ? Hy E']; subst; inversion E'; subst end. destruct y as [e v]. destruct Hy as [_ Hy]. cbn [snd f_type] in Hy.
    assert (is_time decls bt = false) by (apply (basic_time P GF); unfold t_kind; rewrite Ub; exact Logic.I).
    inversion Hy; subst; try congruence; [eauto|]. rewrite Ub in *. cbn in *. tauto. }
  rewrite Ef. destruct (pd_fn pd) as [| |f] eqn:Efn.
  - destruct (Sk (or_introl eq_refl)) as [e [bb ->]]. now apply bp_ret.
  - destruct (Sk (or_intror eq_refl)) as [e [bb ->]]. now apply bp_ret.
  - eapply bp_bind; [apply bp_lift, rp_get_world|]. intros w Iw.
    eapply bp_bind with (Q := fun _ => True); [apply bp_lift, rp_quiet; intro; reflexivity|]. intros q _.
    destruct (bh_dir _ _ _ _ BH w f pd args q Iw Ip Efn Fa) as [w' [bb [E Iw']]]. rewrite E. eapply bp_bind; [apply bp_lift, rp_ret; exact (eq_refl (w', bb))|]. intros ? <-.
    eapply bp_bind; [apply bp_lift, rp_put_world; exact Iw'|]. intros. now apply bp_ret.
Qed.
Lemma s_directives fuel loc l : bp (b_directives X S rawvars opargs fuel loc l) (fun _ => True).
Proof.
  induction l as [|x l IH]; cbn [b_directives]; [now apply bp_ret|]. eapply bp_bind; [apply s_directive|]. intros [sk cr] _. destruct (cr || sk)%bool; [now apply bp_ret|exact IH].
Qed.

(** ** Types *)
Lemma quiet_step t t' : quiet P t -> asks P t t' -> quiet P t'.
Proof.
  intros H A x Rx. apply H. clear H. induction Rx as [x [<-|[]]|x y Rx IH Ay]; [|eapply reach_step; eauto].
  eapply reach_step; [apply reach_root; now left|exact A].
Qed.
Notation tr := (type_reads P own iown).
Lemma plain_not_method t h o : tr t h o -> is_method (plain o) = false /\ is_method (behind_ptr (plain o)) = false.
Proof. induction 1; cbn [plain behind_ptr is_method]; auto. split; [reflexivity|]. apply IHtype_reads. Qed.
Lemma exposed_field t n i ft h : In (n, MField i ft h) (exposed P t) -> exists f, nth_error (t_fields decls t) i = Some f /\ f_type f = ft /\ shown f.
Proof.
  intro I. apply in_app_or in I. destruct I as [I|I].
  - revert I. generalize (t_fields decls t). assert (forall l k, In (n, MField i ft h) (numbered field_member k l) -> exists j f, i = k + j /\ nth_error l j = Some f /\ f_type f = ft /\ shown f) as G.
    { induction l as [|f l IH]; intros k I; [contradiction|]. cbn [numbered] in I. apply in_app_or in I. destruct I as [I|I].
      - exists 0, f. unfold field_member in I. destruct f as [nm an ex tg x]. destruct an; [contradiction|]. destruct (parse_tag tg) eqn:T; try contradiction.
        destruct I as [I|[]]. injection I as _ <- <- <-. split; [lia|]. split; [reflexivity|]. split; [reflexivity|]. cbn. eauto.
      - destruct (IH _ I) as (j & f' & -> & H). exists (Datatypes.S j), f'. split; [lia|exact H]. }
    intros l I. destruct (G l 0 I) as (j & f & -> & H). exists f. exact H.
  - exfalso. revert I. generalize (t_methods decls t) 0. induction l as [|m l IH]; intros k I; [contradiction|]. cbn [numbered] in I. apply in_app_or in I. destruct I as [I|I]; [|eauto].
    unfold method_member in I. destruct (expose_method (fst m)); try contradiction. destruct I as [I|[]]. discriminate.
Qed.
Lemma exposed_method t n i ft : In (n, MMethod i ft) (exposed P t) -> exists nm, nth_error (t_methods decls t) i = Some (nm, ft).
Proof.
  intro I. apply in_app_or in I. destruct I as [I|I].
  - exfalso. revert I. generalize (t_fields decls t) 0. induction l as [|m l IH]; intros k I; [contradiction|]. cbn [numbered] in I. apply in_app_or in I. destruct I as [I|I]; [|eauto].
    unfold field_member in I. destruct m as [nm an ex tg x]. destruct an; [contradiction|]. destruct (parse_tag tg); try contradiction. destruct I as [I|[]]. discriminate.
  - revert I. generalize (t_methods decls t). assert (forall l k, In (n, MMethod i ft) (numbered method_member k l) -> exists j nm, i = k + j /\ nth_error l j = Some (nm, ft)) as G.
    { induction l as [|f l IH]; intros k I; [contradiction|]. cbn [numbered] in I. apply in_app_or in I. destruct I as [I|I].
      - exists 0. unfold method_member in I. destruct f as [nm x]. cbn [fst snd] in I. destruct (expose_method nm); try contradiction.
        destruct I as [I|[]]. injection I as _ <- <-. exists nm. split; [lia|reflexivity].
      - destruct (IH _ I) as (j & f' & -> & H). exists (Datatypes.S j), f'. split; [lia|exact H]. }
    intros l I. destruct (G l 0 I) as (j & f & -> & H). exists f. exact H.
Qed.

(** ** Values *)
(** what is needed of a function value *)
Record callable (it : bool) (ins outs : list gtype) (g : rv) : Prop := {
  cb_exported : fst g = false;
  cb_shape : (it = true /\ exists u i, snd g = GMethod u i) \/ (it = false /\ exists f, snd g = GFunc f);
  cb_call w args q : inv w -> snd g <> GFunc None -> Forall2 (arg_ok P) (method_args it ins) args ->
    exists w' rs, x_call X w (snd g) args q = Some (w', rs) /\ inv w' /\ Forall2 (result_ok P R) outs rs;
  cb_fun : schema_fun P roots more it ins;
  cb_outs t : In t outs -> data_result P t -> reach P roots t }.
Definition value_ok (t : gtype) (g : rv) : Prop := reach P roots t /\ R t (snd g) /\ (fst g = true -> quiet P t).
Definition safe_value (fuel : nat) : Prop := forall t h o g dept k cur, tr t h o -> value_ok t g ->
  bp (b_value X S rawvars opargs fdefs fuel (plain o) dept g k cur) (fun _ => True).
Definition safe_method (fuel : nat) : Prop := forall kk fn it ins outs h g dept k cur, nth_error ms kk = Some fn -> fun_reads P own iown it ins outs h fn ->
  callable it ins outs g -> bp (b_value X S rawvars opargs fdefs fuel (view_obj ms (PMethod kk)) dept g k cur) (fun _ => True).
Definition safe_sels (fuel : nat) : Prop := forall n r t g dept k ss, own n = Some t -> slookup (ps_types (p_st p)) n = Some r -> value_ok t g ->
  bp (b_sels X S rawvars opargs fdefs fuel (view_type ms r) dept g k ss) (fun _ => True).

Lemma get_path_ok : bp (lift get_path) (fun _ => True). Proof. apply bp_lift, rp_quiet. intro; reflexivity. Qed.
Lemma put_path_ok q : bp (lift (put_path q)) (fun _ => True). Proof. apply bp_lift, rp_quiet. intro; reflexivity. Qed.
Lemma err_ok {A} m (f : bool -> A) : bp (bbind (lift (err m)) (fun b => bret (f b))) (fun _ => True).
Proof. eapply bp_bind; [apply bp_lift, rp_err|]. intros. now apply bp_ret. Qed.

Lemma enum_ok k es v : (forall n e, In (n, e) es -> kind_of e = k) -> kind_of v = k -> bp (enum_tree k v es) (fun _ => True).
Proof.
  induction es as [|[n e] es IH]; intros H K; cbn [enum_tree]; [now apply bp_ret|].
  eapply bp_bind with (Q := fun _ => True).
  - apply bp_lift. pose proof (H n e (or_introl eq_refl)) as E. unfold same_enum_value. rewrite <- K in E |- *. clear H K IH. destruct v; cbn [kind_of] in E |- *; try (now apply rp_ret); destruct e; cbn [kind_of] in E; try discriminate; now apply rp_ret.
  - intros [|] _; [now apply bp_ret|]. apply IH; [|exact K]. intros n' e' I. eapply H. right. exact I.
Qed.
Lemma tree_ok k v : basic k -> kind_of v = k -> bp (value_tree v k) (fun _ => True).
Proof. intros B <-. destruct v; cbn in B |- *; try contradiction; now apply bp_ret. Qed.

Lemma step_method fuel : safe_value fuel -> safe_method (Datatypes.S fuel).
Proof.
  intros SV kk fn it ins outs h g dept k cur En Fr CB. cbn [view_obj]. rewrite En. cbn [b_value is_method negb andb]. rewrite !andb_false_r.
  destruct CB as [Ce Cs Cc Cf Co]. pose proof (fr_istype _ _ _ _ _ _ _ _ Fr) as Ei. rewrite Ei.
  pose proof (sr_funs _ _ _ _ _ _ _ _ SR fn (nth_error_In _ _ En)) as Ar. rewrite Ei, (fr_ins _ _ _ _ _ _ _ _ Fr) in Ar.
  match goal with |- bp ?m _ => enough (G : snd g <> GFunc None -> bp m (fun _ => True)) end.
  { destruct Cs as [[-> [u [i E]]]|[-> [f E]]]; rewrite E in *; [apply G; discriminate|]. destruct f; [apply G; discriminate|now apply bp_ret]. }
  intro NN.
  assert (forall A (x y z : bm A), (snd g <> GFunc None) -> bp z (fun _ => True) ->
    bp (match it, snd g with false, GFunc None => x | false, GFunc (Some _) | true, GMethod _ _ => z | _, _ => y end) (fun _ => True)) as Sel.
  { intros A x y z Nn Hz. destruct Cs as [[-> [u [i E]]]|[-> [f E]]]; rewrite E in *; [exact Hz|]. destruct f; [exact Hz|congruence]. }
  apply Sel; [exact NN|]. clear Sel.
  eapply bp_bind; [apply (s_args fuel it ins _ _ _ Cf Ar)|]. intros [[av crit] cut] Fa. cbn [fst] in Fa. destruct crit; [now apply bp_ret|].
  rewrite Ce.
  eapply bp_bind; [apply bp_lift, rp_get_world|]. intros w Iw.
  eapply bp_bind; [apply get_path_ok|]. intros q _. destruct (Cc w av q Iw NN Fa) as (w' & rs & E & Iw' & Fo). rewrite E. cbn [of_opt].
  eapply bp_bind; [apply bp_lift, rp_ret; exact (eq_refl (w', rs))|]. intros a <-.
  eapply bp_bind; [apply bp_lift, rp_put_world; exact Iw'|]. intros _ _.
  eapply bp_bind with (Q := fun _ => True).
  { pose proof (fr_err _ _ _ _ _ _ _ _ Fr) as Er. destruct (pm_errnr fn) as [j|]; [|now apply bp_ret]. destruct Er as (t & Ej & (A1 & A2 & A3) & _).
    destruct (Forall2_nth_l _ _ _ Fo j t Ej) as (v & Ev & Rv). rewrite Ev. cbn [of_opt]. eapply bp_bind; [apply bp_lift, rp_ret; exact (eq_refl v)|]. intros a <-.
    unfold result_ok in Rv. rewrite A1, A2, A3 in Rv. destruct Rv as [[m|] ->]; [|now apply bp_ret]. eapply bp_bind; [apply bp_lift, rp_err|]. intros. now apply bp_ret. }
  intros _ _. destruct (x_ctxerr X w') as [m|]; [eapply bp_bind; [apply bp_lift, rp_err|]; intros; now apply bp_ret|].
  destruct (fr_out _ _ _ _ _ _ _ _ Fr) as (t & (Eo & [D1 D2] & _) & Tr). destruct (Forall2_nth_l _ _ _ Fo _ t Eo) as (v & Ev & Rv). rewrite Ev. cbn [of_opt].
  eapply bp_bind; [apply bp_lift, rp_ret; exact (eq_refl v)|]. intros a <-. eapply SV; [exact Tr|]. split; [|split].
  - apply Co; [eapply nth_error_In; exact Eo|split; assumption].
  - cbn [snd]. unfold result_ok in Rv. rewrite D1 in Rv. destruct (t_kind decls t) eqn:K; try exact Rv. destruct (is_error decls t); [exfalso; apply D2; split; reflexivity|exact Rv].
  - discriminate.
Qed.

Lemma field_ok t g i f : R t (snd g) -> is_time decls t = false -> t_kind decls t = KStruct -> nth_error (t_fields decls t) i = Some f ->
  exists x, field_of (W:=W) g i = ret (fst g || negb (f_exported f), x) /\ R (f_type f) x.
Proof.
  intros Hv T K En. destruct (ty_struct _ _ TY t (snd g) Hv T K) as (l & E & F). unfold field_of. rewrite E.
  destruct (Forall2_nth_l _ _ _ F i f En) as ([e x] & Ex & Ee & Rx). cbn [fst snd] in *. rewrite Ex, Ee. eauto.
Qed.

Lemma orb_cases a c (A : Prop) : (a = true -> A) -> (c = false -> A) -> (a || negb c)%bool = true -> A.
Proof. destruct a, c; cbn; auto; discriminate. Qed.

Lemma view_lookup (fs : list (N * pfield)) k : nlookup (view_fields ms fs) k = match nlookup fs k with
     | Some f => Some (Field (view_obj ms (pf_obj f)) (pf_custom f) (pf_idx f) (pf_name f) (pf_hidden f)) | None => None end.
Proof. unfold view_fields. induction fs as [|[a f] fs IH]; [reflexivity|]. cbn [map nlookup fst snd]. destruct (k =? a)%N; [reflexivity|exact IH]. Qed.
Lemma not_istype kk fn : nth_error ms kk = Some fn -> pm_istype fn = false -> forall A (x y : A), match view_obj ms (PMethod kk) with OMethod (Method true _ _ _ _ _) => x | _ => y end = y.
Proof. intros E I A x y. cbn [view_obj]. now rewrite E, I. Qed.
Lemma yes_istype kk fn : nth_error ms kk = Some fn -> pm_istype fn = true -> forall A (x y : A), match view_obj ms (PMethod kk) with OMethod (Method true _ _ _ _ _) => x | _ => y end = x.
Proof. intros E I A x y. cbn [view_obj]. now rewrite E, I. Qed.
Lemma fun_type_time t : t_kind decls t = KFunc -> is_time decls t = false.
Proof. intro K. apply (kind_time P GF). congruence. Qed.

(** what a field of a struct leads to *)
Lemma step_field fuel n r t g dept k alias name ds args subs : safe_value fuel -> safe_method fuel ->
  own n = Some t -> slookup (ps_types (p_st p)) n = Some r -> value_ok t g ->
  bp (b_field X S rawvars opargs fdefs (Datatypes.S fuel) (view_type ms r) dept g k alias name ds args subs) (fun _ => True).
Proof.
  intros SV SM On Er (Rt & Rv & Qt). cbn [b_field]. eapply bp_bind; [apply get_path_ok|]. intros path _.
  eapply bp_bind; [apply put_path_ok|]. intros _ _. eapply bp_bind; [apply s_directives|]. intros [sk cr] _.
  destruct (cr || sk)%bool; [eapply bp_bind; [apply put_path_ok|]; intros; now apply bp_ret|].
  eapply bp_bind with (Q := fun _ => True); [|intros [t1 c1] _; eapply bp_bind; [apply put_path_ok|]; intros; now apply bp_ret].
  destruct (sr_own _ _ _ _ _ _ _ _ SR n t On) as (_ & K & T & _).
  destruct (sr_types _ _ _ _ _ _ _ _ SR) as [ex [Xe H]]. destruct (H n r Er) as [t' [O' [_ [_ [_ [[l [F [Nd Kb]]] _]]]]]]. assert (t' = t) as -> by congruence. clear H O'.
  cbn [view_type o_fields o_name].
  rewrite view_lookup. destruct (nlookup (pt_fields r) (fnv1 name)) as [f|] eqn:L.
  2:{ destruct (beqb name (bs "__typename")); [|apply err_ok]. destruct (has_sub _); [apply err_ok|now apply bp_ret]. }
  rewrite Kb in L. apply find_some in L. destruct L as [L _]. apply in_rev in L.
  assert (forall (o : obj) v, bp (b_value X S rawvars opargs fdefs fuel o dept v (k + 1)%N (cur_of args subs)) (fun _ => True) ->
    bp (if (k =? 255)%N then bnope else b_value X S rawvars opargs fdefs fuel o dept v (k + 1)%N (cur_of args subs)) (fun _ => True)) as Kk
    by (intros; destruct (k =? 255)%N; [apply bp_nope|assumption]).
  apply in_app_or in L. destruct L as [L|L].
  - destruct (Forall2_in_r _ _ _ _ F L) as [[mn m] [Im [_ [_ [Ec Hm]]]]]. rewrite Ec. cbn [snd] in Hm. destruct m as [i ft h|i ft]; destruct Hm as [<- Hm].
    + destruct (exposed_field t mn (pf_idx f) ft h Im) as (gf & En & <- & Sh). destruct (field_ok t g _ gf Rv T K En) as (x & Ef & Rx).
      destruct (match t_kind decls (f_type gf) with KFunc => true | _ => false end) eqn:Kf.
      * assert (KF : t_kind decls (f_type gf) = KFunc) by (destruct (t_kind decls (f_type gf)); congruence). clear Kf.
        destruct Hm as (kk & fn & Eo & Enk & Fr). rewrite Eo. rewrite (not_istype kk fn Enk) by (now rewrite (fr_istype _ _ _ _ _ _ _ _ Fr)).
        rewrite Ef. eapply bp_bind; [apply bp_lift, rp_ret; exact (eq_refl (fst g || negb (f_exported gf), x)%bool)|]. intros a <-. apply Kk.
        assert (Ex : (fst g || negb (f_exported gf))%bool = false).
        { destruct (fst g || negb (f_exported gf))%bool eqn:E; [|reflexivity]. exfalso. revert E. apply orb_cases.
          - intro G. destruct (Qt G t (reach_root _ _ _ (in_eq _ _))) as (_ & _ & Q). exact (Q K mn _ Im KF).
          - intro G. pose proof (ca_fields _ _ _ CA t gf Rt T K (nth_error_In _ _ En) Sh G) as Q. destruct (Q (f_type gf) (reach_root _ _ _ (in_eq _ _))) as (_ & Q' & _). contradiction. }
        apply fun_type_time in KF as KT. destruct (under decls (f_type gf)) eqn:U; try (unfold t_kind in KF; rewrite U in KF; cbn in KF; try discriminate; destruct (fr_out _ _ _ _ _ _ _ _ Fr) as (t0 & (E0 & _) & _); cbn in E0; destruct (pm_outnr fn); discriminate).
        cbn [fun_ins_of fun_outs] in Fr.
        eapply SM; [exact Enk|exact Fr|]. constructor.
        -- exact Ex.
        -- right. split; [reflexivity|]. exact (ty_func _ _ TY _ _ Rx KT KF).
        -- cbn [snd method_args]. intros w av q Iw NN Fa. destruct (ty_func _ _ TY _ _ Rx KT KF) as [[fi|] ->]; [|congruence]. eapply bh_func; eauto.
        -- right. exists t, mn. eexists. split; [exact Rt|]. split; [exact T|]. split; [now left|]. split; [exact Im|]. cbn [member_fun]. rewrite U. auto.
        -- intros t0 I0 D0. eapply reach_step; [exact Rt|]. eapply ask_member; [exact T|now left|exact Im|]. cbn [member_type]. rewrite KF, U. auto.
      * assert (Nm : forall A (x y : A), match view_obj ms (pf_obj f) with OMethod (Method true _ _ _ _ _) => x | _ => y end = y).
        { intros. replace (view_obj ms (pf_obj f)) with (plain (pf_obj f)) by (destruct (pf_obj f); try reflexivity; inversion Hm). destruct (plain_not_method _ _ _ Hm) as [N _]. destruct (plain (pf_obj f)); try reflexivity; discriminate. }
        rewrite Nm, Ef. eapply bp_bind; [apply bp_lift, rp_ret; exact (eq_refl (fst g || negb (f_exported gf), x)%bool)|]. intros a <-. apply Kk.
        replace (view_obj ms (pf_obj f)) with (plain (pf_obj f)) by (destruct (pf_obj f); try reflexivity; inversion Hm).
        eapply SV; [exact Hm|]. assert (A : asks P t (f_type gf)) by (eapply ask_member; [exact T|now left|exact Im|]; cbn [member_type]; now rewrite Kf).
        split; [eapply reach_step; eauto|]. split; [exact Rx|]. cbn [fst]. apply orb_cases.
        -- intro G. eapply quiet_step; eauto.
        -- intro G. exact (ca_fields _ _ _ CA t gf Rt T K (nth_error_In _ _ En) Sh G).
    + destruct Hm as (kk & fn & Eo & Enk & Fr). rewrite Eo. rewrite (yes_istype kk fn Enk) by (now rewrite (fr_istype _ _ _ _ _ _ _ _ Fr)).
      eapply bp_bind; [apply bp_ret; exact (eq_refl (fst g, GMethod (snd g) (pf_idx f)))|]. intros a <-. apply Kk.
      destruct (exposed_method t mn (pf_idx f) ft Im) as [nm En].
      destruct ft as [ | | | | | |ins0 outs0 va| |]; try (destruct (fr_out _ _ _ _ _ _ _ _ Fr) as (t0 & (E0 & _) & _); cbn in E0; destruct (pm_outnr fn); discriminate).
      assert (Ei : method_args true (method_ins decls t (TFunc ins0 outs0 va)) = ins0) by (cbn [method_ins]; rewrite K; reflexivity).
      eapply SM; [exact Enk|exact Fr|]. constructor.
      * cbn [fst]. destruct (fst g) eqn:G; [|reflexivity]. exfalso. destruct (Qt eq_refl t (reach_root _ _ _ (in_eq _ _))) as (_ & _ & Q). exact (Q K mn _ Im).
      * left. split; [reflexivity|]. cbn [snd]. eauto.
      * cbn [snd]. intros w av q Iw _ Fa. rewrite Ei in Fa. eapply bh_method; eauto.
      * right. exists t, mn. eexists. split; [exact Rt|]. split; [exact T|]. split; [now left|]. split; [exact Im|]. cbn [member_fun]. auto.
      * intros t0 I0 D0. eapply reach_step; [exact Rt|]. eapply ask_member; [exact T|now left|exact Im|]. cbn [member_type]. auto.
  - destruct (beqb n (p_query p)); [|contradiction].
    assert (Hx : ex = [] \/ exists sv tf o k fn, inj = Some (sv, tf) /\ ex = [PField o 0 (bs "__schema") true (Some sv); PField (PMethod k) 0 (bs "__type") true (Some tf)] /\
          tr (g_qlschema P) false o /\ nth_error ms k = Some fn /\
          fun_reads P own iown false (fun_ins_of (under decls (g_typefn P))) (fun_outs (under decls (g_typefn P))) false fn).
    { clear - Xe. destruct inj as [[sv tf]|]; [right|left; exact Xe]. destruct Xe as (o & kk & fn & H). exists sv, tf, o, kk, fn. tauto. }
    destruct Hx as [->|(sv & tf & o & kk & fn & Ei & -> & To & Enk & Fr)]; [contradiction|].
    assert (Rr : forall x, In x (g_qlschema P :: filter (is_data P) (fun_outs (under decls (g_typefn P)))) -> reach P roots x).
    { intros x Ix. apply reach_root. right. right. now rewrite Ei. }
    destruct (INJ sv tf Ei) as (I1 & I2 & I3 & I4). destruct L as [<-|[<-|[]]]; cbn [pf_custom pf_obj].
    + eapply bp_bind; [apply bp_ret; exact (eq_refl (false, sv))|]. intros a <-. apply Kk. replace (view_obj ms o) with (plain o) by (destruct o; try reflexivity; inversion To).
      eapply SV; [exact To|]. split; [apply Rr; left; reflexivity|]. split; [exact I1|discriminate].
    + eapply bp_bind; [apply bp_ret; exact (eq_refl (false, tf))|]. intros a <-. apply Kk.
      destruct (under decls (g_typefn P)) eqn:U; try (unfold t_kind in I4; rewrite U in I4; cbn in I4; try discriminate; destruct (fr_out _ _ _ _ _ _ _ _ Fr) as (t0 & (E0 & _) & _); cbn in E0; destruct (pm_outnr fn); discriminate).
      cbn [fun_ins_of fun_outs] in Fr. eapply SM; [exact Enk|exact Fr|]. constructor.
      * reflexivity.
      * right. split; [reflexivity|]. exact (ty_func _ _ TY _ _ I2 I3 I4).
      * cbn [snd method_args]. intros w av q Iw NN Fa. destruct (ty_func _ _ TY _ _ I2 I3 I4) as [[fi|] ->]; [|congruence]. eapply bh_func; eauto.
      * left. split; [reflexivity|]. unfold more_of. rewrite Ei, U. left. reflexivity.
      * intros t0 I0 D0. apply Rr. right. apply filter_In. split; [exact I0|]. unfold is_data. destruct D0 as [D1 D2]. rewrite D1. cbn [negb andb].
        destruct (t_kind decls t0); try reflexivity. destruct (is_error decls t0); [exfalso; apply D2; auto|reflexivity].
Qed.

Lemma step_value fuel : safe_value fuel -> safe_sels fuel -> safe_value (Datatypes.S fuel).
Proof.
  intros SV SS t h o g dept k cur Tr (Rt & Rv & Qt). cbn [b_value]. destruct (plain_not_method _ _ _ Tr) as [N1 N2]. rewrite N1, N2. cbn [negb]. rewrite !andb_true_r.
  destruct (match cur with CArgs _ _ => true | _ => false end) eqn:Cu; [apply err_ok|].
  inversion Tr as [t0 h0 T|t0 n T K On Nn|t0 n T K On Nn|t0 e h0 o' T K Ee Te|t0 e h0 o' T K Ee Te|t0 h0 i T El Ea|t0 h0 T B Ne Hid]; subst; cbn [plain].
  - assert (fst g = false) as ->. { destruct (fst g); [|reflexivity]. destruct (Qt eq_refl t (reach_root _ _ _ (in_eq _ _))) as (Q & _). congruence. }
    destruct (ty_time _ _ TY _ _ Rv T) as [x ->]. now apply bp_ret.
  - destruct (negb (has_sub cur)); [apply err_ok|]. cbn [view s_types]. rewrite slookup_map. destruct (slookup (ps_types (p_st p)) n) as [r|] eqn:Er; [|now apply bp_ret].
    match goal with |- bp (if ?c then _ else _) _ => destruct c end; [apply err_ok|]. destruct cur as [| |]; try discriminate.
    + eapply bp_bind; [eapply SS; [exact On|exact Er|split; [exact Rt|split; [exact Rv|exact Qt]]]|]. intros [m c] _. now apply bp_ret.
    + destruct fuel; [apply bp_nofuel|apply err_ok].
  - destruct (negb (has_sub cur)); [apply err_ok|]. cbn [view s_ifaces]. rewrite slookup_map. destruct (slookup (ps_ifaces (p_st p)) _) as [r|] eqn:Er; [|now apply bp_ret].
    destruct (sr_ifaces _ _ _ _ _ _ _ _ SR _ r Er) as [t' [O' [_ [_ [_ [_ Fi]]]]]]. assert (t' = t) as -> by congruence.
    destruct (ty_iface _ _ TY _ _ Rv T K) as [->|(ty & u & -> & Ru)]; [now apply bp_ret|].
    destruct (k =? 255)%N; [apply bp_nope|]. cbn [view_iface]. destruct (find _ (map view_impl (pt_impls r))) as [[nm impl]|] eqn:Ef; [|now apply bp_ret].
    apply find_some in Ef. destruct Ef as [If Ef]. apply in_map_iff in If. destruct If as [po [Ep Ip]]. destruct (Forall2_in_r _ _ _ _ Fi Ip) as [i [Ii [Ki [[Ni _] Ti]]]].
    assert (view_impl po = (t_name decls i, t_pkg decls i, plain po)) as Ev.
    { inversion Ti; subst; cbn [view_impl]; try reflexivity; try congruence; try (rewrite Ki in *; intuition discriminate).
      - match goal with E : is_time decls i = true |- _ => unfold is_time, is_type in E; apply andb_true_iff in E; destruct E as [E1 E2]; apply beqb_eq in E1; apply beqb_eq in E2; rewrite E1, E2; reflexivity end.
      - match goal with E : enum_like P i |- _ => destruct E as (_ & _ & E); rewrite Ki in E; contradiction end.
      - rewrite Ki in *. contradiction. }
    rewrite Ev in Ep. injection Ep as <- <-. cbn [fst snd] in Ef. apply andb_true_iff in Ef. destruct Ef as [E1 E2]. apply beqb_eq in E1. apply beqb_eq in E2.
    assert (i = ty) as <- by (apply (gf_names _ GF); auto).
    assert (asks P t i) as As by (apply ask_impl; auto). eapply SV; [exact Ti|]. split; [eapply reach_step; eauto|]. split; [exact Ru|]. intro G. eapply quiet_step; eauto.
  - assert (asks P t e) as As by (eapply ask_elem; [exact T|tauto|exact Ee]).
    destruct (ty_list _ _ TY t e _ Rv T K Ee) as [->|(l & El & Fl)]; [now apply bp_ret|].
    assert (G : bp (if (k =? 255)%N then bnope else
      bbind ((fix elems (n : N) (l : list gval) : bm (list rt) :=
                           match l with
                           | [] => bret []
                           | v :: r =>
                               bbind (lift get_path) (fun path =>
                               bbind (lift (put_path (path ++ [44%N] ++ dec_of_N n))) (fun _ =>
                               bbind (b_value X S rawvars opargs fdefs fuel (plain o') dept (fst g, v) (k + 1)%N cur) (fun '(t, _) =>
                               bbind (lift (put_path path)) (fun _ =>
                               bbind (elems (n + 1)%N r) (fun ts => bret (t :: ts))))))
                           end) 0%N l) (fun ts => bret (TArr ts, false))) (fun _ => True)).
    { destruct (k =? 255)%N; [apply bp_nope|]. eapply bp_bind with (Q := fun _ => True); [|intros; now apply bp_ret]. clear El. generalize 0%N. induction Fl as [|v l Hv Fl IH]; intro nn; [now apply bp_ret|].
      eapply bp_bind; [apply get_path_ok|]. intros path _. eapply bp_bind; [apply put_path_ok|]. intros _ _. eapply bp_bind; [eapply SV; [exact Te|]|].
      { split; [eapply reach_step; eauto|]. split; [exact Hv|]. intro Q. eapply quiet_step; eauto. }
      intros [t1 c1] _. eapply bp_bind; [apply put_path_ok|]. intros _ _. eapply bp_bind; [apply IH|]. intros. now apply bp_ret. }
    destruct El as [->| ->]; exact G.
  - assert (asks P t e) as As by (eapply ask_elem; [exact T|tauto|exact Ee]).
    destruct (ty_ptr _ _ TY t e _ Rv T K Ee) as [->|(u & -> & Ru)]; [now apply bp_ret|].
    eapply SV; [exact Te|]. split; [eapply reach_step; eauto|]. split; [exact Ru|]. intro Q. eapply quiet_step; eauto.
  - destruct Ea as [[e [Ee Ne]] _]. cbn [view s_enums]. rewrite Ee. cbn [of_opt]. eapply bp_bind; [apply bp_lift, rp_ret; exact (eq_refl e)|]. intros a <-.
    assert (Ie : In e (g_enums P)) by (eapply nth_error_In; exact Ee).
    pose proof (ca_enum _ _ _ CA e t Ie (or_introl Rt) El (eq_sym Ne)) as Ke.
    eapply bp_bind with (Q := fun _ => True); [|intros; now apply bp_ret]. apply enum_ok.
    + intros n v I. exact (gf_enum _ GF e n v Ie I).
    + rewrite <- Ke. apply (ty_basic _ _ TY); auto. destruct El as (_ & _ & El). unfold basic. destruct (t_kind decls t); auto.
  - destruct (has_sub cur); [apply err_ok|]. eapply bp_bind; [apply tree_ok; [exact B|apply (ty_basic _ _ TY); auto]|]. intros. now apply bp_ret.
Qed.

Lemma step_sels fuel : safe_value fuel -> safe_method fuel -> safe_sels fuel -> (forall f, f < fuel -> safe_value f /\ safe_method f /\ safe_sels f) -> safe_sels (Datatypes.S fuel).
Proof.
  intros SV SM SS Lt n r t g dept k ss On Er Hv. cbn [b_sels]. destruct ss as [|x ss]; [now apply bp_ret|].
  eapply bp_bind with (Q := fun _ => True).
  2:{ intros [m c] _. destruct c; [now apply bp_ret|]. eapply bp_bind; [eapply SS; eauto|]. intros [m' c'] _. now apply bp_ret. }
  destruct fuel as [|fuel]; [destruct x; apply bp_nofuel|]. destruct (Lt fuel ltac:(lia)) as (SV' & SM' & SS').
  destruct x as [alias name ds args subs|name ds|tname ds subs].
  - eapply step_field; eauto.
  - cbn [b_spread]. eapply bp_bind; [apply s_directives|]. intros [sk cr] _. destruct (cr || sk)%bool; [now apply bp_ret|].
    destruct (b_fragment fdefs name) as [[[fn tn] fs]|]; [|apply err_ok]. destruct (skipn (length name) fn).
    + destruct (negb _); [now apply bp_ret|]. eapply SS'; eauto.
    + destruct (negb _); [now apply bp_ret|apply bp_nope].
  - cbn [b_inline]. eapply bp_bind; [apply s_directives|]. intros [sk cr] _. destruct (cr || sk)%bool; [now apply bp_ret|].
    destruct (negb _); [now apply bp_ret|]. eapply SS'; eauto.
Qed.

Theorem safe fuel : safe_value fuel /\ safe_method fuel /\ safe_sels fuel.
Proof.
  induction fuel as [fuel IH] using lt_wf_ind. destruct fuel as [|fuel].
  - split; [|split]; repeat intro; exact Logic.I.
  - destruct (IH fuel ltac:(lia)) as (SV & SM & SS). split; [now apply step_value|]. split; [now apply step_method|]. apply step_sels; auto.
Qed.
End Safe.
