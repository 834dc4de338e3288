(** * Responses conform to the announced types (proofs for C56) *)
From Coq Require Import String Arith NArith ZArith Bool List Lia.
From Verif Require Import Base JsonModel NameModel Ast ReqModel Schema ResModel Interp Facts Valid GoTypes ParseModel SchemaSpec ParseWhole PropSchema IntroModel IntroSpec TypeSpec TypeArgs TypeSafe AnswerSpec.
Import ListNotations.
Open Scope nat_scope.
Notation reach := SchemaSpec.reach.
Notation value_ok := TypeSafe.value_ok.
Notation field_ok := TypeSafe.field_ok.

(** ** Conformity *)
Section Conf.
Variables (G : gql) (ints : Z -> Prop) (fr : list (bytes * bytes * list sel)).
Notation conforms := (conforms G ints fr).
Notation members_conform := (members_conform G ints fr).
Notation conform_all := (conform_all G ints fr).
Scheme conforms_mut := Minimality for AnswerSpec.conforms Sort Prop
  with conform_all_mut := Minimality for AnswerSpec.conform_all Sort Prop
  with members_mut := Minimality for AnswerSpec.members_conform Sort Prop.
Combined Scheme conform_ind from conforms_mut, conform_all_mut, members_mut.

Lemma conform_weak a b : (b = true -> a = true) ->
  (forall r ss x, conforms a r ss x -> conforms b r ss x) /\ (forall r ss l, conform_all a r ss l -> conform_all b r ss l) /\
  (forall n ss ms, members_conform a n ss ms -> members_conform b n ss ms).
Proof.
  intro H. apply (conform_ind G ints fr a); intros; try (now econstructor; eauto).
  - apply cf_failed; [|assumption]. destruct b; [|reflexivity]. rewrite H in H0; [discriminate|reflexivity].
  - eapply mc_failed; eauto. destruct b; [|reflexivity]. rewrite H in H0; [discriminate|reflexivity].
Qed.
Lemma conforms_weak a b r ss x : (b = true -> a = true) -> conforms a r ss x -> conforms b r ss x.
Proof. intro H. apply (conform_weak a b H). Qed.
Lemma members_weak a b n ss ms : (b = true -> a = true) -> members_conform a n ss ms -> members_conform b n ss ms.
Proof. intro H. apply (conform_weak a b H). Qed.
Lemma members_wider a n ss ss' ms : (forall al nm subs, selects fr n ss al nm subs -> selects fr n ss' al nm subs) -> members_conform a n ss ms -> members_conform a n ss' ms.
Proof. intros H M. revert H. induction M; intros; [apply mc_nil|eapply mc_typename|eapply mc_field|eapply mc_failed]; eauto. Qed.
Lemma members_app a n ss ms ms' : members_conform a n ss ms -> members_conform a n ss ms' -> members_conform a n ss (ms ++ ms').
Proof. intros M N. revert N. induction M; intros; cbn; [auto|eapply mc_typename|eapply mc_field|eapply mc_failed]; eauto. Qed.
Lemma selects_here n x r al nm subs : selects fr n [x] al nm subs -> selects fr n (x :: r) al nm subs.
Proof. intro H. inversion H as [ss a n0 ds args s I|ss ds i a n0 s I H1|ss f ds i a n0 s I H1 H2]; subst; destruct I as [->|[]]; [eapply sel_field|eapply sel_inline|eapply sel_spread]; try (left; reflexivity); eauto. Qed.
Lemma selects_later n x r al nm subs : selects fr n r al nm subs -> selects fr n (x :: r) al nm subs.
Proof. intro H. inversion H; subst; [eapply sel_field|eapply sel_inline|eapply sel_spread]; try (right; eassumption); eauto. Qed.
Lemma conforms_nullable a r ss x : conforms a r ss x -> conforms a (nullable r) ss x.
Proof. intro H. destruct r; auto. cbn. inversion H; subst; auto; [now apply cf_failed|contradiction]. Qed.
Lemma failed a r ss x : a = false -> x = TNull \/ x = THole -> conforms a r ss x.
Proof. intros. now apply cf_failed. Qed.
End Conf.

(** ** Errors and results of parts of a run *)
Section Triples.
Context {W : Type}.
Notation bm := (@bm W).
Definition clean {A} (es : list A) : bool := match es with [] => true | _ => false end.
Lemma clean_app {A} (a b : list A) : clean (a ++ b) = (clean a && clean b)%bool.
Proof. now destruct a. Qed.
(** whenever [m] ends, its errors are appended and its result is right: [Q clean result] *)
Definition bt0 {A} (m : bm A) (Q : bool -> A -> Prop) : Prop := forall s,
  match m s with BOk a t => exists es, r_errs t = r_errs s ++ es /\ Q (clean es) a | _ => True end.
(** and [inv] holds of the world if it did before *)
Variable inv : W -> Prop.
Definition bt {A} (m : bm A) (Q : bool -> A -> Prop) : Prop := forall s, inv (r_world s) ->
  match m s with BOk a t => inv (r_world t) /\ exists es, r_errs t = r_errs s ++ es /\ Q (clean es) a | _ => True end.
Lemma bt_bind A B (f : bm A) (g : A -> bm B) Q1 Q : bt f Q1 -> (forall c a, Q1 c a -> bt (g a) (fun c' b => Q (c && c')%bool b)) -> bt (bbind f g) Q.
Proof.
  intros F H s I. unfold bbind. specialize (F s I). destruct (f s) as [a t| | |]; auto. destruct F as (It & e1 & E1 & Q1').
  specialize (H _ a Q1' t It). destruct (g a t) as [b u| | |]; auto. destruct H as (Iu & e2 & E2 & Q2). split; [exact Iu|]. exists (e1 ++ e2). rewrite E2, E1, app_assoc. split; [reflexivity|]. now rewrite clean_app.
Qed.
Lemma bt_mono A (f : bm A) (Q Q' : bool -> A -> Prop) : bt f Q -> (forall c a, Q c a -> Q' c a) -> bt f Q'.
Proof. intros F H s I. specialize (F s I). destruct (f s) as [a t| | |]; auto. destruct F as (It & es & E & Hq). eauto. Qed.
Lemma bt_ret A (a : A) (Q : bool -> A -> Prop) : Q true a -> bt (bret a) Q.
Proof. intros H s I. split; [exact I|]. exists []. rewrite app_nil_r. auto. Qed.
Lemma bt_no A Q : bt (A := A) bnope Q /\ bt (A := A) bpanic Q /\ bt (A := A) bnofuel Q.
Proof. repeat split; intros s _; exact Logic.I. Qed.
(** steps without errors that leave the world alone *)
Lemma bt_quiet A (f : @rm W A) (Q : A -> Prop) : (forall s, match f s with ROk a t => r_world t = r_world s /\ r_errs t = r_errs s /\ Q a | _ => True end) -> bt (lift f) (fun c a => c = true /\ Q a).
Proof. intros H s I. unfold lift. specialize (H s). destruct (f s) as [a t| |]; auto. destruct H as (Ew & E & Hq). rewrite Ew. split; [exact I|]. exists []. rewrite app_nil_r. auto. Qed.
Lemma bt_path : bt (lift get_path) (fun c _ => c = true).
Proof. eapply bt_mono; [apply (bt_quiet _ _ (fun _ => True)); intro; cbn; auto|cbn; tauto]. Qed.
Lemma bt_put_path q : bt (lift (put_path q)) (fun c _ => c = true).
Proof. eapply bt_mono; [apply (bt_quiet _ _ (fun _ => True)); intro; cbn; auto|cbn; tauto]. Qed.
Lemma bt_get_world : bt (lift get_world) (fun c w => c = true /\ inv w).
Proof. intros s I. cbn. split; [exact I|]. exists []. rewrite app_nil_r. auto. Qed.
Lemma bt_put_world w : inv w -> bt (lift (put_world w)) (fun c _ => c = true).
Proof. intros H s I. cbn. split; [exact H|]. exists []. rewrite app_nil_r. auto. Qed.
Lemma bt_err m : bt (lift (err m)) (fun c _ => c = false).
Proof. intros s I. cbn. split; [exact I|]. eexists. split; reflexivity. Qed.
Lemma bt_of_opt A (o : option A) : bt (lift (of_opt o)) (fun c a => c = true /\ o = Some a).
Proof. apply bt_quiet. intro s. destruct o; cbn; auto. Qed.
Lemma bt_failed A m (f : bool -> A) (Q : bool -> A -> Prop) : (forall b, Q false (f b)) -> bt (bbind (lift (err m)) (fun b => bret (f b))) Q.
Proof. intro H. eapply bt_bind; [apply bt_err|]. intros c b ->. apply bt_ret. apply H. Qed.
(** together with what is known otherwise *)
Lemma bt_both A (f : bm A) Q1 Q2 : bp inv f Q1 -> bt0 f Q2 -> bt f (fun c a => Q1 a /\ Q2 c a).
Proof. intros F H s I. specialize (F s I). specialize (H s). destruct (f s); auto. destruct F as [It F]. destruct H as (es & E & Hq). split; [exact It|]. exists es. auto. Qed.
Lemma bt_barg A (X : externals W) raw (f : bm A) (Q : A -> list rerr -> Prop) : barg X raw f Q -> bt0 f (fun c a => exists es, c = clean es /\ Q a es).
Proof. intros F s. specialize (F s). destruct (f s); auto. destruct F as (es & (_ & E & _) & _ & H). exists es. eauto. Qed.
End Triples.

(** ** Types *)
Section Refs.
Variable P : program.
Notation decls := (g_decls P).
(** the type that is announced for an entry of the schema *)
Fixpoint oref (o : pobj) : tref :=
  match o with
  | PTime => NonNull (Named (bs "Time"))
  | PRef n _ _ => NonNull (Named n)
  | PIRef n _ _ => Named n
  | PArray o => ListOf (oref o)
  | PPtr o => nullable (oref o)
  | PEnum i => NonNull (Named (match nth_error (g_enums P) i with Some e => en_name e | None => [] end))
  | PData h k => NonNull (Named (scalar_of h k))
  | _ => Named []
  end.
Variable own iown : bytes -> option gtype.
Lemma oref_ok t h o : type_reads P own iown t h o -> go_ref P own iown t h (oref o) /\ may_be_null (nullable (oref o)).
Proof.
  induction 1 as [t h T|t n T K O _|t n T K O _|t e h o T K E R IH|t e h o T K E R IH|t h i T EL EA|t h T B NE ID]; cbn [oref nullable].
  - split; [now constructor|exact Logic.I].
  - split; [now constructor|exact Logic.I].
  - split; [now constructor|exact Logic.I].
  - split; [econstructor; eauto; tauto|exact Logic.I].
  - destruct IH as [A B]. split; [econstructor; eauto|]. destruct (oref o); cbn in *; auto. destruct t0; cbn in *; auto; contradiction.
  - pose proof EA as [[e [N NM]] _]. rewrite N, NM. split; [eapply GREnum; eauto|exact Logic.I].
  - split; [now constructor|exact Logic.I].
Qed.
End Refs.

Section Answer.
Variables (P : program) (qt mt : gtype) (inj : option (gval * gval)) (p : pschema).
Notation decls := (g_decls P).
Notation b := (match inj with Some _ => true | None => false end).
Notation roots := (roots_of P qt mt b).
Notation more := (more_of P b).
Variables own iown inown : bytes -> option gtype.
Hypothesis SR : schema_reads P own iown inown qt mt inj p.
Variables (qv mv : gval) (d : N).
Notation S := (view P p qv mv d).
Notation ms := (ps_methods (p_st p)).
Context {W : Type}.
Variable X : externals W.
Variable R : gtype -> gval -> Prop.
Hypothesis TY : typing P R.
Variable inv : W -> Prop.
Hypothesis BH : behaves P X R inv.
Notation bt := (@bt W inv _).
Hypothesis GF : go_facts P.
Hypothesis CA : careful P roots more.
Hypothesis FI : x_formfile X = None -> no_files P roots more.
Hypothesis INJ : forall sv tf, inj = Some (sv, tf) -> R (g_qlschema P) sv /\ R (g_typefn P) tf /\ is_time decls (g_typefn P) = false /\ t_kind decls (g_typefn P) = KFunc.
Hypothesis TA : time_apart P.
Hypothesis EV : enum_values P roots R.
Variables (rawvars : bytes) (opargs : option (list oparg)) (doc : document).
Notation fdefs := (frag_defs doc).
Hypothesis NT : names_told P roots doc.
Notation bm := (@bm W).
Notation tr := (type_reads P own iown).
Notation G := (go_gql P own iown (p_query p) b).
Notation any_int := (fun _ : Z => True).
Notation conforms := (conforms G any_int fdefs).
Notation members := (members_conform G any_int fdefs).
Notation callable := (callable P qt mt inj X R inv).
Notation value_ok := (value_ok P qt mt inj R).
Notation oref := (oref P).

Definition in_it (ss : list sel) : Prop := forall x, within x ss -> in_doc x doc.
Definition cur_in (ss : list sel) (cur : cursor) : Prop := match cur with CArgs _ s => s = ss | CSels s => s = ss \/ s = [] | CLost => True end.
(** values of structs are objects of their type *)
Definition object (c : bool) (o : pobj) (ss : list sel) (x : rt) : Prop :=
  match o with PRef n _ _ => c = false /\ (x = TNull \/ x = THole) \/ exists m, x = TObj m /\ members c n ss m | _ => True end.
Definition shape_value (fuel : nat) : Prop := forall t h o g dept k cur ss, tr t h o -> value_ok t g -> cur_in ss cur -> in_it ss ->
  bt (b_value X S rawvars opargs fdefs fuel (plain o) dept g k cur) (fun c a => conforms c (oref o) ss (fst a) /\ object c o ss (fst a)).
Definition shape_method (fuel : nat) : Prop := forall kk fn it ins outs h g dept k cur ss, nth_error ms kk = Some fn -> fun_reads P own iown it ins outs h fn ->
  callable it ins outs g -> cur_in ss cur -> in_it ss ->
  bt (b_value X S rawvars opargs fdefs fuel (view_obj ms (PMethod kk)) dept g k cur) (fun c a => conforms c (if it then oref (pm_out fn) else nullable (oref (pm_out fn))) ss (fst a)).
Definition shape_sels (fuel : nat) : Prop := forall n r t g dept k ss, own n = Some t -> slookup (ps_types (p_st p)) n = Some r -> value_ok t g -> in_it ss ->
  bt (b_sels X S rawvars opargs fdefs fuel (view_type ms r) dept g k ss) (fun c a => members c n ss (fst a)).

Lemma after_in st subs : cur_in subs (after_args st subs).
Proof. destruct st as [[|? ?]|]; cbn; auto. Qed.
Lemma t_dirs fuel loc l : bt (b_directives X S rawvars opargs fuel loc l) (fun c a => snd a = true -> c = false).
Proof.
  eapply bt_mono; [eapply bt_both; [apply (s_directives P qt mt inj p own iown inown SR qv mv d X R inv BH GF CA FI rawvars opargs)|eapply bt_barg, f_directives]|].
  intros c a [_ (es & -> & H)] E. specialize (H E). destruct es; [contradiction|reflexivity]. Qed.

Lemma shape_m fuel : shape_value fuel -> shape_method (Datatypes.S fuel).
Proof.
  intros SV kk fn it ins outs h g dept k cur ss En Fr CB Ci Ii. cbn [view_obj]. rewrite En. cbn [b_value is_method negb andb]. rewrite !andb_false_r.
  destruct CB as [Ce Cs Cc Cf Co]. pose proof (fr_istype _ _ _ _ _ _ _ _ Fr) as Ei. rewrite Ei.
  pose proof (sr_funs _ _ _ _ _ _ _ _ SR fn (nth_error_In _ _ En)) as Ar. rewrite Ei, (fr_ins _ _ _ _ _ _ _ _ Fr) in Ar.
  destruct (fr_out _ _ _ _ _ _ _ _ Fr) as (t & (Eo & [D1 D2] & _) & Tr). destruct (oref_ok P own iown _ _ _ Tr) as [_ Mn].
  match goal with |- bt ?m _ => enough (Gl : snd g <> GFunc None -> bt m (fun c a => conforms c (oref (pm_out fn)) ss (fst a))) end.
  { assert (Gl' : snd g <> GFunc None -> forall x, (match it with true => True | false => x = nullable (oref (pm_out fn)) end) -> True) by auto. clear Gl'.
    destruct Cs as [[-> [u [i E]]]|[-> [f E]]]; rewrite E in *; [apply Gl; discriminate|].
    destruct f; [eapply bt_mono; [apply Gl; discriminate|]; intros c a H; now apply conforms_nullable|]. apply bt_ret. now apply cf_null. }
  intro NN.
  assert (forall A (x y z : bm A) Q, (snd g <> GFunc None) -> bt z Q ->
    bt (match it, snd g with false, GFunc None => x | false, GFunc (Some _) | true, GMethod _ _ => z | _, _ => y end) Q) as Sel.
  { intros A x y z Q Nn Hz. destruct Cs as [[-> [u [i E]]]|[-> [f E]]]; rewrite E in *; [exact Hz|]. destruct f; [exact Hz|congruence]. }
  apply Sel; [exact NN|]. clear Sel.
  eapply bt_bind.
  { eapply bt_both; [apply (s_args P qt mt inj p own iown inown SR qv mv d X R inv BH GF CA FI rawvars opargs fuel it ins _ _ _ Cf Ar)|eapply bt_barg, f_args]. }
  intros c1 [[av crit] cut] [Fa (es & -> & Hc)]. cbn [fst] in Fa. unfold nc3 in Hc. cbn [fst snd] in Hc.
  destruct crit. { apply bt_ret. apply failed; [|now right]. destruct es; [now specialize (Hc eq_refl)|reflexivity]. }
  rewrite Ce. generalize (clean es). clear es Hc. intro c1.
  eapply bt_bind; [apply bt_get_world|]. intros ? w [-> Iw]. eapply bt_bind; [apply bt_path|]. intros ? q ->.
  destruct (Cc w av q Iw NN Fa) as (w' & rs & E & Iw' & Fo). rewrite E.
  eapply bt_bind; [apply bt_of_opt|]. intros ? [w2 rs2] [-> Ew]. injection Ew as <- <-.
  eapply bt_bind; [apply bt_put_world; exact Iw'|]. intros ? ? ->. cbn [andb].
  eapply bt_bind with (Q1 := fun _ _ => True).
  { destruct (pm_errnr fn) as [j|]; [|now apply bt_ret]. eapply bt_bind; [apply bt_of_opt|]. intros ? e [-> _].
    destruct e as [| | | | | | | | | | | | | |[m|]| |]; try apply bt_no; try (now apply bt_ret). eapply bt_bind; [apply bt_err|]. intros. now apply bt_ret. }
  intros c2 _ _. destruct (x_ctxerr X w') as [m|].
  { eapply bt_bind; [apply bt_err|]. intros ? ? ->. apply bt_ret. apply failed; [|now left]. now rewrite !andb_false_r. }
  eapply bt_bind; [apply bt_of_opt|]. intros ? v [-> Ev]. destruct (Forall2_nth_l _ _ _ Fo _ t Eo) as (v' & Ev' & Rv). assert (v' = v) as -> by congruence.
  eapply bt_mono; [eapply SV; [exact Tr| | |exact Ii]|].
  - split; [apply Co; [eapply nth_error_In; exact Eo|split; assumption]|]. split; [|discriminate].
    cbn [snd]. unfold result_ok in Rv. rewrite D1 in Rv. destruct (t_kind decls t) eqn:K; try exact Rv. destruct (is_error decls t); [exfalso; apply D2; split; reflexivity|exact Rv].
  - destruct cur; cbn in Ci |- *; auto. subst. apply after_in.
  - intros c y [H _]. eapply conforms_weak; [|exact H]. clear. destruct c, c1, c2; cbn; auto; discriminate.
Qed.

Lemma in_field alias name ds args subs ss : in_it ss -> In (SField alias name ds args subs) ss -> in_it subs.
Proof. intros H I x Hx. apply H. eapply within_field; eauto. Qed.
Lemma cur_of_in args subs : cur_in subs (cur_of args subs). Proof. destruct args; cbn; auto. Qed.
Lemma plain_view t h o : tr t h o -> view_obj ms o = plain o.
Proof. intro H. destruct o; try reflexivity; inversion H. Qed.

Lemma shape_f fuel n r t g dept k alias name ds args subs ss : shape_value fuel -> shape_method fuel ->
  own n = Some t -> slookup (ps_types (p_st p)) n = Some r -> value_ok t g -> in_it ss -> In (SField alias name ds args subs) ss ->
  bt (b_field X S rawvars opargs fdefs (Datatypes.S fuel) (view_type ms r) dept g k alias name ds args subs) (fun c a => members c n ss (fst a)).
Proof.
  intros SV SM On Er (Rt & Rv & Qt) Ii Iss. pose proof (in_field _ _ _ _ _ _ Ii Iss) as Is.
  assert (Sl : selects fdefs n ss alias name subs) by (eapply sel_field; eauto).
  assert (Wr : in_doc (SField alias name ds args subs) doc) by (apply Ii; now apply within_here).
  cbn [b_field]. eapply bt_bind; [apply bt_path|]. intros ? path ->.
  eapply bt_bind; [apply bt_put_path|]. intros ? _ ->. eapply bt_bind; [apply t_dirs|]. intros c0 [sk cr] _.
  destruct (cr || sk)%bool; [eapply bt_bind; [apply bt_put_path|]; intros; apply bt_ret, mc_nil|].
  eapply bt_bind with (Q1 := fun c a => members c n ss [(key_of alias name, fst a)]).
  2:{ intros c1 [t1 cr1] H. eapply bt_bind; [apply bt_put_path|]. intros ? _ ->. apply bt_ret. eapply members_weak; [|exact H]. cbn. intro Z. apply andb_true_iff in Z. rewrite andb_true_r in Z. tauto. }
  assert (Fail : forall x, x = TNull \/ x = THole -> members false n ss [(key_of alias name, x)]).
  { intros x Hx. eapply mc_failed; eauto. apply mc_nil. }
  assert (One : forall rr (m : bm (rt * bool)), q_field G n name rr -> bt m (fun c a => conforms c rr subs (fst a)) -> bt m (fun c a => members c n ss [(key_of alias name, fst a)])).
  { intros rr m Hq H. eapply bt_mono; [exact H|]. intros c a Ha. eapply mc_field; eauto. apply mc_nil. }
  destruct (sr_own _ _ _ _ _ _ _ _ SR n t On) as (_ & K & T & _).
  destruct (sr_types _ _ _ _ _ _ _ _ SR) as [ex [Xe H]]. destruct (H n r Er) as [t' [O' [Nr [_ [_ [[l [F [Nd Kb]]] _]]]]]]. assert (t' = t) as -> by congruence. clear H O'.
  cbn [view_type o_fields o_name].
  rewrite view_lookup. destruct (nlookup (pt_fields r) (fnv1 name)) as [f|] eqn:L.
  2:{ destruct (beqb name (bs "__typename")) eqn:Tn; [|apply bt_failed; intro; apply Fail; now left]. apply beqb_eq in Tn. subst name.
      destruct (has_sub _); [apply bt_failed; intro; apply Fail; now right|]. apply bt_ret. rewrite Nr. eapply mc_typename; [exact Sl|apply mc_nil]. }
  rewrite Kb in L. apply find_some in L. destruct L as [L Hk]. apply N.eqb_eq in Hk. apply in_rev in L.
  assert (Kk : forall (o : obj) v Q, bt (b_value X S rawvars opargs fdefs fuel o dept v (k + 1)%N (cur_of args subs)) Q ->
    bt (if (k =? 255)%N then bnope else b_value X S rawvars opargs fdefs fuel o dept v (k + 1)%N (cur_of args subs)) Q)
    by (intros; destruct (k =? 255)%N; [apply bt_no|assumption]).
  pose proof (cur_of_in args subs) as Ci.
  apply in_app_or in L. destruct L as [L|L].
  - destruct (Forall2_in_r _ _ _ _ F L) as [[mn m] [Im [En1 [_ [Ec Hm]]]]]. rewrite Ec. cbn [snd fst] in *.
    assert (name = mn) as ->.
    { eapply NT; [exact Rt| |exact Wr|rewrite <- Hk, En1; reflexivity]. apply in_or_app. left. apply in_map_iff. exists (mn, m). auto. }
    destruct m as [i ft h|i ft]; destruct Hm as [<- Hm].
    + destruct (exposed_field P inj qv R INJ t mn (pf_idx f) ft h Im) as (gf & En & <- & Sh). destruct (field_ok P (W:=W) R TY t g _ gf Rv T K En) as (x & Ef & Rx).
      destruct (match t_kind decls (f_type gf) with KFunc => true | _ => false end) eqn:Kf.
      * assert (KF : t_kind decls (f_type gf) = KFunc) by (destruct (t_kind decls (f_type gf)); congruence).
        destruct Hm as (kk & fn & Eo & Enk & Fr). rewrite Eo. rewrite (not_istype p kk fn Enk) by (now rewrite (fr_istype _ _ _ _ _ _ _ _ Fr)).
        rewrite Ef. eapply bt_bind; [apply bt_quiet with (Q := fun a => a = (fst g || negb (f_exported gf), x)%bool); intro; cbn; auto|]. intros ? y [-> ->]. apply Kk.
        assert (Ex : (fst g || negb (f_exported gf))%bool = false).
        { destruct (fst g || negb (f_exported gf))%bool eqn:E; [|reflexivity]. exfalso. revert E. apply orb_cases.
          - intro Gq. destruct (Qt Gq t (reach_root _ _ _ (in_eq _ _))) as (_ & _ & Q). exact (Q K mn _ Im KF).
          - intro Gq. pose proof (ca_fields _ _ _ CA t gf Rt T K (nth_error_In _ _ En) Sh Gq) as Q. destruct (Q (f_type gf) (reach_root _ _ _ (in_eq _ _))) as (_ & Q' & _). contradiction. }
        apply (fun_type_time P GF) in KF as KT.
        apply (One (nullable (oref (pm_out fn)))).
        { left. exists t. eexists. split; [exact On|]. split; [exact Im|]. cbn [member_ref]. rewrite Kf. destruct (fr_out _ _ _ _ _ _ _ _ Fr) as (t0 & Eo0 & Tr0).
          exists (pm_outnr fn), t0, (oref (pm_out fn)). split; [exact Eo0|]. split; [apply (oref_ok P own iown _ _ _ Tr0)|reflexivity]. }
        destruct (under decls (f_type gf)) eqn:U; try (unfold t_kind in KF; rewrite U in KF; cbn in KF; try discriminate; destruct (fr_out _ _ _ _ _ _ _ _ Fr) as (t0 & (E0 & _) & _); cbn in E0; destruct (pm_outnr fn); discriminate).
        cbn [fun_ins_of fun_outs] in Fr.
        refine (SM kk fn false _ _ _ _ _ _ _ subs Enk Fr _ Ci Is). constructor.
        -- exact Ex.
        -- right. split; [reflexivity|]. exact (ty_func _ _ TY _ _ Rx KT KF).
        -- cbn [snd method_args]. intros w av q Iw NN Fa. destruct (ty_func _ _ TY _ _ Rx KT KF) as [[fi|] ->]; [|congruence]. eapply bh_func; eauto.
        -- right. exists t, mn. eexists. split; [exact Rt|]. split; [exact T|]. split; [now left|]. split; [exact Im|]. cbn [member_fun]. rewrite U. auto.
        -- intros t0 I0 D0. eapply reach_step; [exact Rt|]. eapply ask_member; [exact T|now left|exact Im|]. cbn [SchemaSpec.member_type]. rewrite KF, U. auto.
      * assert (Nm : forall A (x y : A), match view_obj ms (pf_obj f) with OMethod (Method true _ _ _ _ _) => x | _ => y end = y).
        { intros. rewrite (plain_view _ _ _ Hm). destruct (plain_not_method _ _ _ _ _ _ Hm) as [N _]. destruct (plain (pf_obj f)); try reflexivity; discriminate. }
        rewrite Nm, Ef. eapply bt_bind; [apply bt_quiet with (Q := fun a => a = (fst g || negb (f_exported gf), x)%bool); intro; cbn; auto|]. intros ? y [-> ->]. apply Kk.
        rewrite (plain_view _ _ _ Hm). apply (One (oref (pf_obj f))).
        { left. exists t. eexists. split; [exact On|]. split; [exact Im|]. cbn [member_ref]. rewrite Kf. apply (oref_ok P own iown _ _ _ Hm). }
        eapply bt_mono; [eapply SV; [exact Hm| |exact Ci|exact Is]|cbn; tauto]. assert (A : asks P t (f_type gf)) by (eapply ask_member; [exact T|now left|exact Im|]; cbn [SchemaSpec.member_type]; now rewrite Kf).
        split; [eapply reach_step; eauto|]. split; [exact Rx|]. cbn [fst]. apply orb_cases.
        -- intro Gq. eapply quiet_step; eauto.
        -- intro Gq. exact (ca_fields _ _ _ CA t gf Rt T K (nth_error_In _ _ En) Sh Gq).
    + destruct Hm as (kk & fn & Eo & Enk & Fr). rewrite Eo. rewrite (yes_istype p kk fn Enk) by (now rewrite (fr_istype _ _ _ _ _ _ _ _ Fr)).
      eapply bt_bind; [apply bt_ret with (Q := fun c a => c = true /\ a = (fst g, GMethod (snd g) (pf_idx f))); auto|]. intros ? y [-> ->]. apply Kk.
      destruct (exposed_method P inj qv R INJ t mn (pf_idx f) ft Im) as [nm En].
      apply (One (oref (pm_out fn))).
      { left. exists t. eexists. split; [exact On|]. split; [exact Im|]. cbn [member_ref]. destruct (fr_out _ _ _ _ _ _ _ _ Fr) as (t0 & Eo0 & Tr0).
        exists (pm_outnr fn), t0. split; [exact Eo0|]. apply (oref_ok P own iown _ _ _ Tr0). }
      destruct ft as [ | | | | | |ins0 outs0 va| |]; try (destruct (fr_out _ _ _ _ _ _ _ _ Fr) as (t0 & (E0 & _) & _); cbn in E0; destruct (pm_outnr fn); discriminate).
      assert (Ei : method_args true (method_ins decls t (TFunc ins0 outs0 va)) = ins0) by (cbn [method_ins]; rewrite K; reflexivity).
      refine (SM kk fn true _ _ _ _ _ _ _ subs Enk Fr _ Ci Is). constructor.
      * cbn [fst]. destruct (fst g) eqn:Gq; [|reflexivity]. exfalso. destruct (Qt eq_refl t (reach_root _ _ _ (in_eq _ _))) as (_ & _ & Q). exact (Q K mn _ Im).
      * left. split; [reflexivity|]. cbn [snd]. eauto.
      * cbn [snd]. intros w av q Iw _ Fa. rewrite Ei in Fa. eapply bh_method; eauto.
      * right. exists t, mn. eexists. split; [exact Rt|]. split; [exact T|]. split; [now left|]. split; [exact Im|]. cbn [member_fun]. auto.
      * intros t0 I0 D0. eapply reach_step; [exact Rt|]. eapply ask_member; [exact T|now left|exact Im|]. cbn [SchemaSpec.member_type]. auto.
  - destruct (beqb n (p_query p)) eqn:Nq; [|contradiction]. apply beqb_eq in Nq.
    assert (Hx : ex = [] \/ exists sv tf o k fn, inj = Some (sv, tf) /\ ex = [PField o 0 (bs "__schema") true (Some sv); PField (PMethod k) 0 (bs "__type") true (Some tf)] /\
          tr (g_qlschema P) false o /\ nth_error ms k = Some fn /\
          fun_reads P own iown false (fun_ins_of (under decls (g_typefn P))) (fun_outs (under decls (g_typefn P))) false fn).
    { clear - Xe. destruct inj as [[sv tf]|]; [right|left; exact Xe]. destruct Xe as (o & kk & fn & H). exists sv, tf, o, kk, fn. tauto. }
    destruct Hx as [->|(sv & tf & o & kk & fn & Ei & -> & To & Enk & Fr)]; [contradiction|].
    assert (Rr : forall x, In x (g_qlschema P :: filter (is_data P) (fun_outs (under decls (g_typefn P)))) -> reach P roots x).
    { intros x Ix. apply reach_root. right. right. now rewrite Ei. }
    assert (Bt : b = true) by now rewrite Ei.
    destruct (INJ sv tf Ei) as (I1 & I2 & I3 & I4). destruct L as [<-|[<-|[]]]; cbn [pf_custom pf_obj pf_name] in *.
    + assert (name = bs "__schema") as -> by (eapply NT; [exact Rt| |exact Wr|now rewrite <- Hk]; apply in_or_app; right; now left).
      eapply bt_bind; [apply bt_ret with (Q := fun c a => c = true /\ a = (false, sv)); auto|]. intros ? y [-> ->]. apply Kk. rewrite (plain_view _ _ _ To).
      apply (One (oref o)). { right. split; [exact Bt|]. split; [exact Nq|]. left. split; [reflexivity|]. apply (oref_ok P own iown _ _ _ To). }
      eapply bt_mono; [eapply SV; [exact To| |exact Ci|exact Is]|cbn; tauto]. split; [apply Rr; left; reflexivity|]. split; [exact I1|discriminate].
    + assert (name = bs "__type") as -> by (eapply NT; [exact Rt| |exact Wr|now rewrite <- Hk]; apply in_or_app; right; right; now left).
      eapply bt_bind; [apply bt_ret with (Q := fun c a => c = true /\ a = (false, tf)); auto|]. intros ? y [-> ->]. apply Kk.
      apply (One (nullable (oref (pm_out fn)))).
      { right. split; [exact Bt|]. split; [exact Nq|]. right. split; [reflexivity|]. destruct (fr_out _ _ _ _ _ _ _ _ Fr) as (t0 & Eo0 & Tr0). exists (pm_outnr fn), t0, (oref (pm_out fn)).
        split; [exact Eo0|]. split; [apply (oref_ok P own iown _ _ _ Tr0)|reflexivity]. }
      destruct (under decls (g_typefn P)) eqn:U; try (unfold t_kind in I4; rewrite U in I4; cbn in I4; try discriminate; destruct (fr_out _ _ _ _ _ _ _ _ Fr) as (t0 & (E0 & _) & _); cbn in E0; destruct (pm_outnr fn); discriminate).
      cbn [fun_ins_of fun_outs] in Fr. refine (SM kk fn false _ _ _ _ _ _ _ subs Enk Fr _ Ci Is). constructor.
      * reflexivity.
      * right. split; [reflexivity|]. exact (ty_func _ _ TY _ _ I2 I3 I4).
      * cbn [snd method_args]. intros w av q Iw NN Fa. destruct (ty_func _ _ TY _ _ I2 I3 I4) as [[fi|] ->]; [|congruence]. eapply bh_func; eauto.
      * left. split; [reflexivity|]. unfold more_of. rewrite Ei, U. left. reflexivity.
      * intros t0 I0 D0. apply Rr. right. apply filter_In. split; [exact I0|]. unfold is_data. destruct D0 as [D1 D2]. rewrite D1. cbn [negb andb].
        destruct (t_kind decls t0); try reflexivity. destruct (is_error decls t0); [exfalso; apply D2; auto|reflexivity].
Qed.

Lemma same_value k v : kind_of v = k -> match k with KInt _ | KUint _ | KString => True | _ => False end -> forall s : rst W, same_enum_value k v v s = ROk true s.
Proof.
  intros <-. destruct v; cbn; try contradiction; intros _ s0; unfold ret; f_equal; [apply Z.eqb_refl|apply N.eqb_refl|apply beqb_refl].
Qed.
Lemma shape_enum k v es : kind_of v = k -> match k with KInt _ | KUint _ | KString => True | _ => False end -> (exists n, In (n, v) es) ->
  bt (enum_tree k v es) (fun c t => exists n, In n (map fst es) /\ t = TName n).
Proof.
  intros K B. induction es as [|[n e] es IH]; intros [m I]; [contradiction|]. cbn [enum_tree].
  intros s0 I0. unfold bbind, lift. destruct I as [I|I].
  - injection I as -> ->. rewrite (same_value k v K B). split; [exact I0|]. exists []. rewrite app_nil_r. split; [reflexivity|]. exists m. split; [now left|reflexivity].
  - assert (Q : same_enum_value k v e s0 = ROk true s0 \/ same_enum_value k v e s0 = ROk false s0 \/ same_enum_value k v e s0 = RPanic).
    { unfold same_enum_value, ret, panic. destruct k, v, e; auto; match goal with |- context [ROk ?x s0] => destruct x; auto end. }
    destruct Q as [->|[->| ->]]; [| |exact Logic.I].
    + split; [exact I0|]. exists []. rewrite app_nil_r. split; [reflexivity|]. exists n. split; [now left|reflexivity].
    + specialize (IH (ex_intro _ m I) s0 I0). destruct (enum_tree k v es s0) as [t u| | |]; auto. destruct IH as (It & es' & E & x & Ix & Et). split; [exact It|]. exists es'. split; [exact E|]. exists x. split; [now right|exact Et].
Qed.
Lemma shape_tree k v h : basic k -> kind_of v = k -> (h = true -> id_able k) ->
  bt (bbind (value_tree v k) (fun t => bret (if h && negb (match k with KString => true | _ => false end) then TQuoted t else t, false)))
    (fun c a => c = true /\ fst a <> TNull /\ scalar_value any_int (scalar_of h k) (fst a)).
Proof.
  intros B <- H. destruct v; cbn [kind_of] in B, H |- *; try contradiction; intros s0 I0; (split; [exact I0|]); exists []; rewrite app_nil_r;
    (split; [reflexivity|]); (split; [reflexivity|]); destruct h; cbn; try (specialize (H eq_refl); contradiction); (split; [discriminate|constructor; exact Logic.I]).
Qed.

Lemma shape_v fuel : shape_value fuel -> shape_sels fuel -> shape_value (Datatypes.S fuel).
Proof.
  intros SV SS t h o g dept k cur ss Tr (Rt & Rv & Qt) Ci Ii. cbn [b_value]. destruct (plain_not_method _ _ _ _ _ _ Tr) as [N1 N2]. rewrite N1, N2. cbn [negb]. rewrite !andb_true_r.
  assert (Fail : forall m (f : bool -> bool), bt (bbind (lift (err m)) (fun b => bret (TNull, f b))) (fun c a => conforms c (oref o) ss (fst a) /\ object c o ss (fst a))).
  { intros m f. apply bt_failed. intro. split; [apply failed; [reflexivity|now left]|]. destruct o; try exact Logic.I. left. split; [reflexivity|now left]. }
  destruct (match cur with CArgs _ _ => true | _ => false end) eqn:Cu; [apply (Fail _ (fun b => b))|].
  inversion Tr as [t0 h0 T|t0 n T K On Nn|t0 n T K On Nn|t0 e h0 o' T K Ee Te|t0 e h0 o' T K Ee Te|t0 h0 i T El Ea|t0 h0 T B Ne Hid]; subst; cbn [plain object].
  - destruct (fst g); [apply bt_no|]. destruct (ty_time _ _ TY _ _ Rv T) as [x ->]. apply bt_ret. split; [|exact Logic.I]. apply cf_nonnull; [discriminate|]. apply cf_scalar. constructor.
  - destruct (negb (has_sub cur)) eqn:Hs; [apply (Fail _ (fun b => b))|]. cbn [view s_types]. rewrite slookup_map. destruct (slookup (ps_types (p_st p)) n) as [r|] eqn:Er.
    2:{ destruct (sr_own _ _ _ _ _ _ _ _ SR n t On) as (Ns & _). contradiction. }
    match goal with |- bt (if ?c then _ else _) _ => destruct c end; [apply (Fail _ (fun b => b))|]. destruct cur as [|s1|]; try discriminate.
    + assert (s1 = ss) as -> by (destruct Ci as [E| ->]; [exact E|discriminate]).
      eapply bt_bind; [eapply SS; [exact On|exact Er|split; [exact Rt|split; [exact Rv|exact Qt]]|exact Ii]|]. intros c [m cr] H. apply bt_ret. cbn [fst] in *. rewrite andb_true_r.
      split; [|right; eauto]. apply cf_nonnull; [discriminate|]. apply cf_object; [cbn; congruence|exact H].
    + destruct fuel; [apply bt_no|]. apply bt_failed. intro. cbn [fst]. split; [|right; eexists; split; [reflexivity|apply mc_nil]]. apply cf_nonnull; [discriminate|]. apply cf_object; [cbn; congruence|apply mc_nil].
  - destruct (negb (has_sub cur)); [apply (Fail _ (fun b => b))|].
    assert (Null : conforms true (oref (PIRef (rename P (t_name decls t)) (t_name decls t) (t_pkg decls t))) ss TNull) by (apply cf_null; exact Logic.I).
    cbn [view s_ifaces]. rewrite slookup_map. destruct (slookup (ps_ifaces (p_st p)) _) as [r|] eqn:Er; [|now apply bt_ret].
    destruct (sr_ifaces _ _ _ _ _ _ _ _ SR _ r Er) as [t' [O' [_ [_ [_ [_ Fi]]]]]]. assert (t' = t) as -> by congruence.
    destruct (ty_iface _ _ TY _ _ Rv T K) as [->|(ty & u & -> & Ru)]; [now apply bt_ret|].
    destruct (k =? 255)%N; [apply bt_no|]. cbn [view_iface]. destruct (find _ (map view_impl (pt_impls r))) as [[nm impl]|] eqn:Ef; [|now apply bt_ret].
    apply find_some in Ef. destruct Ef as [If Ef]. apply in_map_iff in If. destruct If as [po [Ep Ip]]. destruct (Forall2_in_r _ _ _ _ Fi Ip) as [i [Ii' [Ki [[Ni _] Ti]]]].
    assert (Tm : is_time decls i = false).
    { unfold implementations_of, types_of in Ii'. destruct (slookup (g_implemented P) (t_name decls t)) as [ts|] eqn:Es; [|contradiction]. eapply (proj2 TA); [eapply slookup_in; exact Es|exact Ii']. }
    assert (exists n, own n = Some i /\ po = PRef n (t_name decls i) (t_pkg decls i)) as (n' & On' & ->).
    { inversion Ti; subst; eauto; try congruence; try (rewrite Ki in *; intuition discriminate).
      - match goal with E : enum_like P i |- _ => destruct E as (_ & _ & E); rewrite Ki in E; contradiction end.
      - rewrite Ki in *. contradiction. }
    cbn [view_impl plain] in Ep. injection Ep as <- <-. cbn [fst snd] in Ef. apply andb_true_iff in Ef. destruct Ef as [E1 E2]. apply beqb_eq in E1. apply beqb_eq in E2.
    assert (i = ty) as <- by (apply (gf_names _ GF); auto).
    assert (asks P t i) as As by (apply ask_impl; auto).
    eapply bt_mono; [refine (SV i false (PRef n' (t_name decls i) (t_pkg decls i)) _ _ _ _ ss Ti _ Ci Ii); split; [eapply reach_step; eauto|]; split; [exact Ru|]; intro Gq; eapply quiet_step; eauto|].
    intros c y [_ H]. split; [|exact Logic.I]. cbn [object oref] in H |- *. destruct H as [[E H]|(m & -> & H)]; [now apply failed|].
    eapply cf_interface; [|cbn; rewrite On'; discriminate|exact H]. exists t, i. auto.
  - assert (asks P t e) as As by (eapply ask_elem; [exact T|tauto|exact Ee]).
    destruct (ty_list _ _ TY t e _ Rv T K Ee) as [->|(l & El & Fl)]; [apply bt_ret; split; [now apply cf_null|exact Logic.I]|].
    assert (Gl : bt (if (k =? 255)%N then bnope else
      bbind ((fix elems (n : N) (l : list gval) : bm (list rt) :=
                           match l with
                           | [] => bret []
                           | v :: r =>
                               bbind (lift get_path) (fun path =>
                               bbind (lift (put_path (path ++ [44%N] ++ dec_of_N n))) (fun _ =>
                               bbind (b_value X S rawvars opargs fdefs fuel (plain o') dept (fst g, v) (k + 1)%N cur) (fun '(t, _) =>
                               bbind (lift (put_path path)) (fun _ =>
                               bbind (elems (n + 1)%N r) (fun ts => bret (t :: ts))))))
                           end) 0%N l) (fun ts => bret (TArr ts, false))) (fun c a => conforms c (oref (PArray o')) ss (fst a) /\ True)).
    { destruct (k =? 255)%N; [apply bt_no|]. eapply bt_bind with (Q1 := fun c ts => conform_all G any_int fdefs c (oref o') ss ts).
      2:{ intros c ts H. apply bt_ret. split; [|exact Logic.I]. cbn. apply cf_list. now rewrite andb_true_r. }
      clear El. generalize 0%N. induction Fl as [|v l Hv Fl IH]; intro nn; [apply bt_ret; apply ca_nil|].
      eapply bt_bind; [apply bt_path|]. intros ? path ->. eapply bt_bind; [apply bt_put_path|]. intros ? ? ->. eapply bt_bind; [eapply SV; [exact Te| |exact Ci|exact Ii]|].
      { split; [eapply reach_step; eauto|]. split; [exact Hv|]. intro Q. eapply quiet_step; eauto. }
      intros c1 [t1 cr1] [H1 _]. eapply bt_bind; [apply bt_put_path|]. intros ? ? ->. eapply bt_bind; [apply IH|]. intros c2 ts H2. apply bt_ret. cbn [andb fst] in *.
      apply ca_cons; [eapply conforms_weak; [|exact H1]|eapply (conform_weak G any_int fdefs c2); [|exact H2]]; destruct c1, c2; cbn; auto; discriminate. }
    destruct El as [->| ->]; exact Gl.
  - assert (asks P t e) as As by (eapply ask_elem; [exact T|tauto|exact Ee]). destruct (oref_ok P own iown _ _ _ Te) as [_ Mn].
    destruct (ty_ptr _ _ TY t e _ Rv T K Ee) as [->|(u & -> & Ru)]; [apply bt_ret; split; [now apply cf_null|exact Logic.I]|].
    eapply bt_mono; [eapply SV; [exact Te| |exact Ci|exact Ii]|].
    + split; [eapply reach_step; eauto|]. split; [exact Ru|]. intro Q. eapply quiet_step; eauto.
    + intros c y [H _]. split; [|exact Logic.I]. now apply conforms_nullable.
  - destruct Ea as [[e [Ee Ne]] _]. cbn [view s_enums]. rewrite Ee. eapply bt_bind; [apply bt_of_opt|]. intros ? e' [-> E']. injection E' as <-.
    assert (Ie : In e (g_enums P)) by (eapply nth_error_In; exact Ee).
    pose proof (ca_enum _ _ _ CA e t Ie (or_introl Rt) El (eq_sym Ne)) as Ke.
    assert (Kv : kind_of (snd g) = en_kind e). { rewrite <- Ke. apply (ty_basic _ _ TY); auto. destruct El as (_ & _ & El). unfold basic. destruct (t_kind decls t); auto. }
    eapply bt_bind; [apply shape_enum; [exact Kv|rewrite <- Ke; exact (proj2 (proj2 El))|exact (EV t (snd g) e Rt Rv El Ie Ne)]|].
    intros c y (n & In' & ->). apply bt_ret. split; [|exact Logic.I]. cbn [fst oref]. rewrite Ee. apply cf_nonnull; [discriminate|]. apply cf_enum. exists e. auto.
  - destruct (has_sub cur); [apply (Fail _ (fun b => b))|].
    eapply bt_mono; [apply shape_tree; [exact B|apply (ty_basic _ _ TY); auto|exact Hid]|]. intros c y (-> & Hn & Hs). split; [|exact Logic.I].
    apply cf_nonnull; [exact Hn|]. apply cf_scalar. exact Hs.
Qed.

Lemma is_prefix_all a : forall c, is_prefix a c = true -> skipn (length a) c = [] -> a = c.
Proof.
  induction a as [|x a IH]; intros [|y c] H K; cbn in *; try discriminate; auto. apply andb_true_iff in H. destruct H as [E H]. apply N.eqb_eq in E. subst. f_equal. auto.
Qed.
Lemma shape_s fuel : shape_value fuel -> shape_method fuel -> shape_sels fuel -> (forall f, f < fuel -> shape_value f /\ shape_method f /\ shape_sels f) -> shape_sels (Datatypes.S fuel).
Proof.
  intros SV SM SS Lt n r t g dept k ss On Er Hv Ii. cbn [b_sels]. destruct ss as [|x ss]; [apply bt_ret; apply mc_nil|].
  assert (Nr : o_name (view_type ms r) = n). { destruct (sr_types _ _ _ _ _ _ _ _ SR) as [ex [_ H]]. destruct (H n r Er) as [t' [_ [Nr _]]]. exact Nr. }
  assert (I1 : in_it [x]). { intros y Hy. apply Ii. inversion Hy as [? I|? ? ? ? ? ? I Hw|? ? ? ? I Hw]; subst; destruct I as [->|[]]; [apply within_here; now left|eapply within_field; [now left|exact Hw]|eapply within_inline; [now left|exact Hw]]. }
  assert (I2 : in_it ss). { intros y Hy. apply Ii. inversion Hy; subst; [apply within_here; now right|eapply within_field; [right; eassumption|assumption]|eapply within_inline; [right; eassumption|assumption]]. }
  eapply bt_bind with (Q1 := fun c a => members c n [x] (fst a)).
  2:{ intros c1 [m cr] H1. cbn [fst] in H1. pose proof (members_wider _ _ _ _ _ _ (x :: ss) _ (fun al nm subs => selects_here fdefs n x ss al nm subs) H1) as H1'.
      destruct cr; [apply bt_ret; cbn [fst]; eapply members_weak; [|exact H1']; now rewrite andb_true_r|].
      eapply bt_bind; [eapply SS; eauto|]. intros c2 [m' cr'] H2. apply bt_ret. cbn [fst] in H2 |- *.
      pose proof (members_wider _ _ _ _ _ _ (x :: ss) _ (fun al nm subs => selects_later fdefs n x ss al nm subs) H2) as H2'.
      apply members_app; [eapply members_weak; [|exact H1']|eapply members_weak; [|exact H2']]; destruct c1, c2; cbn; auto; discriminate. }
  destruct fuel as [|fuel]; [destruct x; apply bt_no|]. destruct (Lt fuel ltac:(lia)) as (SV' & SM' & SS').
  assert (Nil : forall m (f : bool -> bool), bt (bbind (lift (err m)) (fun b => bret ([], f b))) (fun c a => members c n [x] (fst a))) by (intros; apply bt_failed; intro; apply mc_nil).
  assert (Sub : forall inner c1, in_it inner -> (forall al nm subs, selects fdefs n inner al nm subs -> selects fdefs n [x] al nm subs) ->
    bt (b_sels X S rawvars opargs fdefs fuel (view_type ms r) dept g k inner) (fun c a => members (c1 && c)%bool n [x] (fst a))).
  { intros inner c1 In' Hs. eapply bt_mono; [eapply SS'; eauto|]. intros c y H. cbn [fst] in *. eapply members_weak; [|eapply members_wider; [exact Hs|exact H]]. destruct c1, c; cbn; auto; discriminate. }
  destruct x as [alias name ds args subs|name ds|tname ds subs].
  - eapply shape_f; eauto. now left.
  - cbn [b_spread]. eapply bt_bind; [apply t_dirs|]. intros c1 [sk cr] _. destruct (cr || sk)%bool; [apply bt_ret; apply mc_nil|].
    destruct (b_fragment fdefs name) as [[[fn tn] fs]|] eqn:Ef; [|apply bt_failed; intro; apply mc_nil]. unfold b_fragment in Ef. apply find_some in Ef. destruct Ef as [If Pf]. cbn [fst] in Pf.
    destruct (skipn (length name) fn) eqn:Sk; [|destruct (negb _); [apply bt_ret; apply mc_nil|apply bt_no]].
    apply (is_prefix_all _ _ Pf) in Sk. subst fn. rewrite Nr. destruct (beqb n tn) eqn:Bn; cbn [negb]; [|apply bt_ret; apply mc_nil]. apply beqb_eq in Bn. subst tn.
    apply Sub; [|intros; eapply sel_spread; [now left|exact If|assumption]].
    intros y Hy. unfold frag_defs in If. apply in_flat_map in If. destruct If as [df [Id If]]. destruct df as [|fn tn fs']; [contradiction|]. destruct If as [If|[]]. injection If as -> -> ->. exists (DFrag name n fs). auto.
  - cbn [b_inline]. eapply bt_bind; [apply t_dirs|]. intros c1 [sk cr] _. destruct (cr || sk)%bool; [apply bt_ret; apply mc_nil|].
    rewrite Nr. destruct (beqb n tname) eqn:Bn; cbn [negb]; [|apply bt_ret; apply mc_nil]. apply beqb_eq in Bn. subst tname.
    apply Sub; [|intros; eapply sel_inline; [now left|assumption]]. intros y Hy. apply I1. eapply within_inline; [now left|exact Hy].
Qed.

Theorem shape fuel : shape_value fuel /\ shape_method fuel /\ shape_sels fuel.
Proof.
  induction fuel as [fuel IH] using lt_wf_ind. destruct fuel as [|fuel].
  - split; [|split]; repeat intro; exact Logic.I.
  - destruct (IH fuel ltac:(lia)) as (SV & SM & SS). split; [now apply shape_v|]. split; [now apply shape_m|]. apply shape_s; auto.
Qed.
End Answer.
