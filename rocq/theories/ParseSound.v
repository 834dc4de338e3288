(** * The schema that parse.go builds is the one of SchemaSpec *)
From Coq Require Import String Arith NArith ZArith Bool List Lia.
From Verif Require Import Base JsonModel JsonProof NameModel Schema GoTypes ParseModel ParseFacts SchemaSpec.
Import ListNotations.
Local Open Scope pm_scope.
Open Scope nat_scope.

Lemma unknown_inj a b : unknown_name a = unknown_name b -> a = b.
Proof.
  unfold unknown_name. intro E. apply app_inv_head in E.
  destruct (dec_of_N_ok (N.of_nat a)) as [Ha _], (dec_of_N_ok (N.of_nat b)) as [Hb _]. rewrite E in Ha. rewrite Ha in Hb.
  injection Hb as Hb. lia.
Qed.
Lemma beqb_false a b : beqb a b = false <-> a <> b.
Proof. split; [intros E ->; rewrite beqb_refl in E; discriminate|intro N; destruct (beqb a b) eqn:E; [apply beqb_eq in E; congruence|reflexivity]]. Qed.

(** ** Tables of fields *)
Fixpoint key_in {A} (k : N) (l : list (N * A)) : bool :=
  match l with [] => false | (k', _) :: r => (k =? k')%N || key_in k r end.
Lemma nset_keys {A} (l : list (N * A)) k v k' : In k' (map fst (nset l k v)) -> k' = k \/ In k' (map fst l).
Proof.
  induction l as [|[a b] l IH]; cbn [nset]; [cbn; intuition|].
  destruct (k =? a)%N eqn:E; cbn [map fst In]; [apply N.eqb_eq in E; subst; intuition|]. intros [H|H]; [auto|]. specialize (IH H). tauto.
Qed.
Lemma nset_nodup {A} (l : list (N * A)) k v : NoDup (map fst l) -> NoDup (map fst (nset l k v)).
Proof.
  induction l as [|[a b] l IH]; cbn [nset]; intro H; [repeat constructor; auto|].
  cbn [map fst] in H. apply NoDup_cons_iff in H. destruct H as [H1 H2].
  destruct (k =? a)%N eqn:E; cbn [map fst]; constructor; auto.
  - apply N.eqb_eq in E. subst. exact H1.
  - intro I. apply nset_keys in I. destruct I as [->|I]; [|contradiction]. rewrite N.eqb_refl in E. discriminate.
Qed.
Lemma find_app {A} (p : A -> bool) l l' : find p (l ++ l') = match find p l with Some x => Some x | None => find p l' end.
Proof. induction l as [|a l IH]; [reflexivity|]. cbn. destruct (p a); [reflexivity|apply IH]. Qed.
Lemma keyed_nil : keyed_by_name [] [].
Proof. split; [constructor|reflexivity]. Qed.
Lemma keyed_snoc l fields f : keyed_by_name l fields -> keyed_by_name (l ++ [f]) (nset fields (fnv1 (pf_name f)) f).
Proof.
  intros [H K]. split; [now apply nset_nodup|]. intro k. rewrite nlookup_nset, rev_app_distr. cbn [rev app find].
  rewrite (N.eqb_sym k). destruct (fnv1 (pf_name f) =? k)%N; [reflexivity|apply K].
Qed.

Section Sound.
Variable P : program.
Variable roots : list gtype.
Variable more : list (list gtype).
(** fields that types have besides those of their Go types *)
Variable xf : bytes -> list pfield.
Notation decls := (g_decls P).
Hypothesis NA : named_apart P roots.

(** ** Worlds: which Go types the recorded names stand for *)
Definition world : Type := (bytes -> option gtype) * (bytes -> option gtype).
Definition ext (W W' : world) : Prop :=
  (forall n t, fst W n = Some t -> fst W' n = Some t) /\ (forall n t, snd W n = Some t -> snd W' n = Some t).
Definition prefix {A} (l l' : list A) : Prop := exists r, l' = l ++ r.
Lemma ext_refl W : ext W W. Proof. split; auto. Qed.
Lemma ext_trans a b c : ext a b -> ext b c -> ext a c.
Proof. intros [H1 H2] [K1 K2]. split; auto. Qed.
Lemma prefix_refl {A} (l : list A) : prefix l l. Proof. exists []. now rewrite app_nil_r. Qed.
Lemma prefix_trans {A} (a b c : list A) : prefix a b -> prefix b c -> prefix a c.
Proof. intros [x ->] [y ->]. exists (x ++ y). now rewrite app_assoc. Qed.
Lemma prefix_nth {A} (l l' : list A) i x : prefix l l' -> nth_error l i = Some x -> nth_error l' i = Some x.
Proof. intros [r ->] E. rewrite nth_error_app1; [exact E|]. apply nth_error_Some. congruence. Qed.

Notation reads W := (type_reads P (fst W) (snd W)).
Notation fun_ok W := (fun_reads P (fst W) (snd W)).
Notation mem_ok W ms := (member_reads P (fst W) (snd W) ms).
Notation desc W ms := (describes P (fst W) (snd W) ms).

Lemma reads_ext W W' t h o : ext W W' -> reads W t h o -> reads W' t h o.
Proof. intros [E1 E2] H. induction H; econstructor; eauto. Qed.
Lemma fun_ext W W' it ins outs h m : ext W W' -> fun_ok W it ins outs h m -> fun_ok W' it ins outs h m.
Proof. intros E [H1 H2 [t [H3 H4]] H5]. constructor; auto. exists t. split; [exact H3|eapply reads_ext; eauto]. Qed.
Lemma mem_ext W W' ms ms' t m f : ext W W' -> prefix ms ms' -> mem_ok W ms t m f -> mem_ok W' ms' t m f.
Proof.
  intros E Pr [H1 [H2 [H3 H4]]]. repeat (split; [assumption|]). destruct (snd m) as [i ft isid|i ft]; destruct H4 as [H4 H5]; split; auto.
  - destruct (match t_kind decls ft with KFunc => true | _ => false end).
    + destruct H5 as [k [fn [A [B C]]]]. exists k, fn. split; [exact A|]. split; [eapply prefix_nth; eauto|eapply fun_ext; eauto].
    + eapply reads_ext; eauto.
  - destruct H5 as [k [fn [A [B C]]]]. exists k, fn. split; [exact A|]. split; [eapply prefix_nth; eauto|eapply fun_ext; eauto].
Qed.
Lemma Forall2_mono {A B} (R R' : A -> B -> Prop) l l' : (forall a b, R a b -> R' a b) -> Forall2 R l l' -> Forall2 R' l l'.
Proof. intros H F. induction F; constructor; auto. Qed.
Lemma desc_ext W W' ms ms' t ex fs : ext W W' -> prefix ms ms' -> desc W ms t ex fs -> desc W' ms' t ex fs.
Proof. intros E Pr [l [F K]]. exists l. split; [|exact K]. eapply Forall2_mono; [|exact F]. intros. eapply mem_ext; eauto. Qed.

(** ** The invariant; [TP] and [IP] are the names of types that are being looked at *)
Definition rec_ok (W : world) (ms : list pmethod) (n : bytes) (t : gtype) (r : ptype) (open : Prop) : Prop :=
  pt_name r = n /\ pt_goname r = t_name decls t /\ pt_pkg r = t_pkg decls t /\
  (~ open -> struct_reads P (fst W) (snd W) ms n t (xf n) r).
Definition irec_ok (W : world) (ms : list pmethod) (n : bytes) (t : gtype) (r : ptype) (open : Prop) : Prop :=
  pt_name r = n /\ pt_goname r = t_name decls t /\ pt_pkg r = t_pkg decls t /\
  (~ open -> iface_reads P (fst W) (snd W) ms n t r).
Definition own_ok (s : pst) (n : bytes) (t : gtype) : Prop :=
  slookup (ps_types s) n <> None /\ t_kind decls t = KStruct /\ is_time decls t = false /\ reach P roots t /\
  (t_name decls t <> [] -> n = rename P (t_name decls t)) /\
  (t_name decls t = [] -> exists k, k <= ps_unk s /\ n = unknown_name k).
Definition iown_ok (s : pst) (n : bytes) (t : gtype) : Prop :=
  slookup (ps_ifaces s) n <> None /\ t_kind decls t = KInterface /\ is_time decls t = false /\ reach P roots t /\
  n = rename P (t_name decls t).
Record good (W : world) (TP IP : list bytes) (s : pst) : Prop := {
  g_types n r : slookup (ps_types s) n = Some r -> exists t, fst W n = Some t /\ rec_ok W (ps_methods s) n t r (In n TP);
  g_ifaces n r : slookup (ps_ifaces s) n = Some r -> exists t, snd W n = Some t /\ irec_ok W (ps_methods s) n t r (In n IP);
  g_own n t : fst W n = Some t -> own_ok s n t;
  g_iown n t : snd W n = Some t -> iown_ok s n t;
  g_funs m : In m (ps_methods s) -> schema_fun P roots more (pm_istype m) (pm_type m);
  g_extra n : xf n <> [] -> fst W n <> None;
  g_in : ps_intypes s = [] }.

Lemma struct_ext W W' ms ms' n t ex r : ext W W' -> prefix ms ms' ->
  struct_reads P (fst W) (snd W) ms n t ex r -> struct_reads P (fst W') (snd W') ms' n t ex r.
Proof.
  intros E Pr [H1 [H2 [H3 [H4 H5]]]]. repeat (split; [assumption|]). split; [eapply desc_ext; eauto|].
  eapply Forall2_mono; [|exact H5]. intros. eapply reads_ext; eauto.
Qed.
Lemma iface_ext W W' ms ms' n t r : ext W W' -> prefix ms ms' ->
  iface_reads P (fst W) (snd W) ms n t r -> iface_reads P (fst W') (snd W') ms' n t r.
Proof.
  intros E Pr [H1 [H2 [H3 [H4 H5]]]]. repeat (split; [assumption|]). split; [eapply desc_ext; eauto|].
  eapply Forall2_mono; [|exact H5]. intros a b [A1 [A2 A3]]. repeat (split; [assumption|]). eapply reads_ext; eauto.
Qed.
Lemma rec_ext W W' ms ms' n t r (open open' : Prop) : rec_ok W ms n t r open -> ext W W' -> prefix ms ms' -> (open -> open') -> rec_ok W' ms' n t r open'.
Proof. intros [H1 [H2 [H3 H4]]] E Pr O. do 3 (split; [assumption|]). intro N. eapply struct_ext; eauto. Qed.
Lemma irec_ext W W' ms ms' n t r (open open' : Prop) : irec_ok W ms n t r open -> ext W W' -> prefix ms ms' -> (open -> open') -> irec_ok W' ms' n t r open'.
Proof. intros [H1 [H2 [H3 H4]]] E Pr O. do 3 (split; [assumption|]). intro N. eapply iface_ext; eauto. Qed.

(** what a step does: the world grows, and [Q] holds *)
Definition goes (W : world) (TP IP : list bytes) (s : pst) {A} (Q : world -> list pmethod -> A -> Prop) : A -> pst -> Prop :=
  fun a s' => exists W', ext W W' /\ prefix (ps_methods s) (ps_methods s') /\ good W' TP IP s' /\ Q W' (ps_methods s') a.
Definition step (W : world) (TP IP : list bytes) (s : pst) {A} (m : pm A) (Q : world -> list pmethod -> A -> Prop) : Prop :=
  post m (goes W TP IP s Q) s.
Lemma step_ret W TP IP s {A} (a : A) (Q : world -> list pmethod -> A -> Prop) : good W TP IP s -> Q W (ps_methods s) a -> step W TP IP s (pret a) Q.
Proof. intros G H. exists W. split; [apply ext_refl|]. split; [apply prefix_refl|]. auto. Qed.
Lemma step_bind W TP IP s {A B} (m : pm A) (k : A -> pm B) (Q : world -> list pmethod -> A -> Prop) (R : world -> list pmethod -> B -> Prop) :
  step W TP IP s m Q ->
  (forall a W' s', ext W W' -> prefix (ps_methods s) (ps_methods s') -> good W' TP IP s' -> Q W' (ps_methods s') a -> step W' TP IP s' (k a) R) ->
  step W TP IP s (pbind m k) R.
Proof.
  intros H K. unfold step in *. apply post_bind. eapply post_mono; [|exact H]. intros a s' [W' [E [Pr [G HQ]]]].
  specialize (K a W' s' E Pr G HQ). eapply post_mono; [|exact K]. intros b s2 [W2 [E2 [Pr2 [G2 HR]]]].
  exists W2. split; [eapply ext_trans; eauto|]. split; [eapply prefix_trans; eauto|]. auto.
Qed.
Lemma step_mono W TP IP s {A} (m : pm A) (Q R : world -> list pmethod -> A -> Prop) :
  (forall W' ms a, ext W W' -> prefix (ps_methods s) ms -> Q W' ms a -> R W' ms a) -> step W TP IP s m Q -> step W TP IP s m R.
Proof.
  intros H K. eapply post_mono; [|exact K]. intros a s' [W' [E [Pr [G HQ]]]]. exists W'. auto.
Qed.
Lemma step_get W TP IP s {B} (k : pst -> pm B) (R : world -> list pmethod -> B -> Prop) : step W TP IP s (k s) R -> step W TP IP s (pbind get k) R.
Proof. exact (fun H => H). Qed.

(** ** check, given that the recursive calls are right *)
Definition checks (c : gtype -> bool -> pm pobj) : Prop :=
  forall t h W TP IP s, reach P roots t -> good W TP IP s -> step W TP IP s (c t h) (fun W' _ o => reads W' t h o).

Lemma outs_loop_ok outs : forall i o e isid o' e' isid',
  outs_loop P i outs o e isid = Some (o', e', isid') ->
  isid' = isid || existsb (is_attr_id decls) outs /\
  match o with
  | Some x => o' = Some x /\ forall t, In t outs -> ~ data_result P t
  | None => match o' with
            | Some x => exists j t, x = i + j /\ only_at (data_result P) outs j t
            | None => forall t, In t outs -> ~ data_result P t
            end
  end /\
  match e with
  | Some x => e' = Some x /\ forall t, In t outs -> ~ error_result P t
  | None => match e' with
            | Some x => exists j t, x = i + j /\ only_at (error_result P) outs j t
            | None => forall t, In t outs -> ~ error_result P t
            end
  end.
Proof.
  assert (forall (Q : gtype -> Prop) t l j a, ~ Q t -> only_at Q l j a -> only_at Q (t :: l) (S j) a) as Skip.
  { intros Q t l j a N [H1 [H2 H3]]. split; [exact H1|]. split; [exact H2|]. intros [|j'] b E Qb; [injection E as <-; contradiction|].
    f_equal. eapply H3; eauto. }
  assert (forall (Q : gtype -> Prop) t l, Q t -> (forall u, In u l -> ~ Q u) -> only_at Q (t :: l) 0 t) as Here.
  { intros Q t l H N. split; [reflexivity|]. split; [exact H|]. intros [|j] b E Qb; [reflexivity|]. exfalso. apply (N b); [eapply nth_error_In; eauto|exact Qb]. }
  induction outs as [|t outs IH]; intros i o e isid o' e' isid' H; cbn [outs_loop] in H.
  - injection H as <- <- <-. rewrite orb_false_r. split; [reflexivity|]. split; [destruct o|destruct e]; try (split; [reflexivity|]); intros u [].
  - destruct (is_attr_id decls t) eqn:Ea.
    + apply IH in H. destruct H as [H1 [H2 H3]].
      assert (~ data_result P t) as Nd by (intros [A _]; congruence). assert (~ error_result P t) as Ne by (intros [A _]; congruence).
      split; [cbn [existsb]; rewrite Ea; cbn; rewrite orb_true_r; exact H1|]. split.
      * destruct o; [destruct H2 as [-> H2]; split; [reflexivity|]; intros u [<-|I]; auto|].
        destruct o'; [destruct H2 as [j [u [-> H2]]]; exists (S j), u; split; [lia|auto]|intros u [<-|I]; auto].
      * destruct e; [destruct H3 as [-> H3]; split; [reflexivity|]; intros u [<-|I]; auto|].
        destruct e'; [destruct H3 as [j [u [-> H3]]]; exists (S j), u; split; [lia|auto]|intros u [<-|I]; auto].
    + cbn [existsb]. rewrite Ea. cbn [orb].
      destruct (match t_kind decls t with KInterface => is_error decls t | _ => false end) eqn:Ee.
      * assert (error_result P t) as He by (split; [exact Ea|]; destruct (t_kind decls t); try discriminate; auto).
        assert (~ data_result P t) as Nd by (destruct He as [_ [A B]]; intros [_ C]; tauto).
        destruct e as [x|]; [discriminate|]. apply IH in H. destruct H as [H1 [H2 [H3 H4]]]. split; [exact H1|]. split.
        -- destruct o; [destruct H2 as [-> H2]; split; [reflexivity|]; intros u [<-|I]; auto|].
           destruct o'; [destruct H2 as [j [u [-> H2]]]; exists (S j), u; split; [lia|auto]|intros u [<-|I]; auto].
        -- subst e'. exists 0, t. split; [lia|]. apply Here; auto.
      * assert (data_result P t) as Hd. { split; [exact Ea|]. intros [A B]. rewrite A, B in Ee. discriminate. }
        assert (~ error_result P t) as Ne by (intros [_ [A B]]; rewrite A, B in Ee; discriminate).
        destruct o as [x|]; [discriminate|]. apply IH in H. destruct H as [H1 [[H2 H2'] H3]]. split; [exact H1|]. split.
        -- subst o'. exists 0, t. split; [lia|]. apply Here; auto.
        -- destruct e; [destruct H3 as [-> H3]; split; [reflexivity|]; intros u [<-|I]; auto|].
           destruct e'; [destruct H3 as [j [u [-> H3]]]; exists (S j), u; split; [lia|auto]|intros u [<-|I]; auto].
Qed.

Definition is_func (k : kind) : bool := match k with KFunc => true | _ => false end.
Lemma good_methods W TP IP s m : good W TP IP s -> schema_fun P roots more (pm_istype m) (pm_type m) ->
  good W TP IP (PSt (ps_types s) (ps_ifaces s) (ps_intypes s) (ps_unk s) (ps_unkin s) (ps_methods s ++ [m])).
Proof.
  intros [H1 H2 H3 H4 H5 H6 H7] Fm. constructor; cbn; auto.
  3:{ intros m0 I. apply in_app_or in I. destruct I as [I|[<-|[]]]; auto. }
  - intros n r E. destruct (H1 n r E) as [t [A B]]. exists t. split; [exact A|]. eapply rec_ext; [exact B|apply ext_refl| |auto]. now exists [m].
  - intros n r E. destruct (H2 n r E) as [t [A B]]. exists t. split; [exact A|]. eapply irec_ext; [exact B|apply ext_refl| |auto]. now exists [m].
Qed.
Lemma check_function_sound c f ins it h W TP IP s : checks c -> good W TP IP s ->
  (forall t, In t (fun_outs f) -> data_result P t -> reach P roots t) -> schema_fun P roots more it ins ->
  step W TP IP s (check_function P c f ins it h) (fun W' ms k => exists fn, nth_error ms k = Some fn /\ fun_ok W' it ins (fun_outs f) h fn).
Proof.
  intros C G R Fm. unfold check_function. destruct f; try exact Logic.I. destruct variadic; [exact Logic.I|].
  destruct outs as [|o0 outs0]; [exact Logic.I|]. set (outs := o0 :: outs0) in *.
  destruct (outs_loop P 0 outs None None h) as [[[[nr|] e] isid]|] eqn:Eo; try exact Logic.I.
  apply outs_loop_ok in Eo. destruct Eo as [Ei [[j [t0 [Ej Ho]]] He]]. cbn [Nat.add] in Ej. subst j.
  pose proof Ho as [Hnth [Hd _]]. fold outs. rewrite Hnth.
  eapply step_bind; [apply (C t0 isid W TP IP s); [apply R; [exact (nth_error_In _ _ Hnth)|exact Hd]|exact G]|].
  intros out W' s' E Pr G' HR. unfold step, post, add_method. cbn.
  exists W'. split; [apply ext_refl|]. split; [eexists; reflexivity|]. split; [apply good_methods; [exact G'|exact Fm]|].
  eexists. split; [cbn; rewrite nth_error_app2; [rewrite Nat.sub_diag; reflexivity|lia]|].
  constructor; cbn; auto.
  - exists t0. split; [exact Ho|]. rewrite Ei in HR. exact HR.
  - destruct e as [x|]; [|exact He]. destruct He as [j [t [-> H]]]. exists t. exact H.
Qed.

Lemma check_field_sound c t f i W TP IP s : checks c -> good W TP IP s -> is_time decls t = false -> t_kind decls t = KStruct ->
  reach P roots t -> (forall m, In m (field_member i f) -> In m (exposed P t)) ->
  step W TP IP s (check_field P c f i) (fun W' ms o =>
    match o with Some pf => exists m, field_member i f = [m] /\ mem_ok W' ms t m pf | None => field_member i f = [] end).
Proof.
  intros C G T K R I. unfold check_field, field_member in *. destruct f as [name anon ex tag ft].
  destruct anon; [now apply step_ret|]. destruct (parse_tag tag) as [| |cn isid]; [now apply step_ret|exact Logic.I|].
  set (nm := match cn with Some n => n | None => format_go_name name end) in *.
  specialize (I _ (or_introl eq_refl)).
  assert (forall t', member_type P (MField i ft isid) t' -> reach P roots t') as R'.
  { intros t' M. eapply reach_step; [exact R|]. eapply ask_member; eauto. }
  eapply step_bind with (Q := fun W' ms o =>
      if is_func (t_kind decls ft) then exists k fn, o = PMethod k /\ nth_error ms k = Some fn /\
         fun_ok W' false (fun_ins_of (under decls ft)) (fun_outs (under decls ft)) isid fn
      else reads W' ft isid o).
  - assert (is_func (t_kind decls ft) = false -> step W TP IP s (c ft isid) (fun W' ms o => reads W' ft isid o)) as D.
    { intro N. apply C; [apply R'; cbn; unfold is_func in N; rewrite N; reflexivity|exact G]. }
    destruct (t_kind decls ft) eqn:Kf; cbn [is_func] in *; try (now apply D).
    eapply step_bind; [apply (check_function_sound c) with (W := W) (TP := TP) (IP := IP)|].
    + exact C.
    + exact G.
    + intros t' I1 I2. apply R'. cbn. rewrite Kf. auto.
    + right. exists t, nm, (MField i ft isid). split; [exact R|]. split; [exact T|]. split; [now left|]. split; [exact I|].
      split; [exact Kf|]. split; [reflexivity|]. unfold fun_ins_of. destruct (under decls ft); reflexivity.
    + intros k W' s' _ _ G' [fn [A B]]. apply step_ret; [exact G'|]. exists k, fn. split; [reflexivity|]. split; [exact A|].
      unfold fun_ins_of, fun_outs in *. destruct (under decls ft); exact B.
  - intros o W' s' _ _ G' H. apply step_ret; [exact G'|]. eexists. split; [reflexivity|].
    unfold member_reads. cbn [fst snd pf_name pf_hidden pf_custom pf_idx pf_obj]. repeat (split; [reflexivity|]).
    unfold is_func in H. destruct (match t_kind decls ft with KFunc => true | _ => false end); exact H.
Qed.
Lemma check_fields_sound c t l : checks c -> is_time decls t = false -> t_kind decls t = KStruct -> reach P roots t ->
  forall i acc fl W TP IP s, good W TP IP s -> (forall m, In m (numbered field_member i l) -> In m (exposed P t)) ->
  keyed_by_name fl acc ->
  step W TP IP s (check_fields P c l i acc) (fun W' ms fs =>
    exists fl', Forall2 (mem_ok W' ms t) (numbered field_member i l) fl' /\ keyed_by_name (fl ++ fl') fs).
Proof.
  intros C T K R. induction l as [|f l IH]; intros i acc fl W TP IP s G I Ky; cbn [check_fields numbered] in *.
  - apply step_ret; [exact G|]. exists []. rewrite app_nil_r. auto.
  - eapply step_bind; [apply (check_field_sound c t f i); auto|].
    { intros m J. apply I. apply in_or_app. now left. }
    intros o W' s' E Pr G' H. destruct o as [pf|].
    + destruct H as [m [Em Hm]]. rewrite Em in *.
      eapply step_mono; [|apply (IH (S i) _ (fl ++ [pf]) W' TP IP s' G'); [intros m' J; apply I; now right|now apply keyed_snoc]].
      intros W2 ms fs E2 Pr2 [fl' [F Ky']]. exists (pf :: fl'). split.
      * cbn [app]. constructor; [eapply mem_ext; eauto|exact F].
      * rewrite <- app_assoc in Ky'. exact Ky'.
    + rewrite H in *. apply (IH (S i) acc fl W' TP IP s' G'); auto.
Qed.
Lemma check_methods_sound c t l : checks c -> is_time decls t = false -> t_kind decls t = KStruct \/ t_kind decls t = KInterface -> reach P roots t ->
  forall i acc fl W TP IP s, good W TP IP s -> (forall m, In m (numbered method_member i l) -> In m (exposed P t)) ->
  keyed_by_name fl acc ->
  step W TP IP s (check_methods P c t l i acc) (fun W' ms fs =>
    exists fl', Forall2 (mem_ok W' ms t) (numbered method_member i l) fl' /\ keyed_by_name (fl ++ fl') fs).
Proof.
  intros C T K R. induction l as [|[n f] l IH]; intros i acc fl W TP IP s G I Ky; cbn [check_methods numbered] in *.
  - apply step_ret; [exact G|]. exists []. rewrite app_nil_r. auto.
  - unfold method_member at 1 in I. unfold method_member at 1. cbn [fst snd] in *.
    destruct (expose_method n) as [| |qn]; [apply IH; auto|exact Logic.I|].
    eapply step_bind; [apply (check_function_sound c f (method_ins decls t f) true false W TP IP s C G)|].
    { intros t' J D. eapply reach_step; [exact R|]. eapply ask_member; eauto. { apply I. now left. } cbn. auto. }
    { right. exists t, qn, (MMethod i f). split; [exact R|]. split; [exact T|]. split; [exact K|]. split; [apply I; now left|].
      split; reflexivity. }
    intros k W' s' E Pr G' [fn [A B]].
    eapply step_mono; [|apply (IH (S i) _ (fl ++ [PField (PMethod k) i qn false None]) W' TP IP s' G'); [intros m' J; apply I; now right|]].
    + intros W2 ms fs E2 Pr2 [fl' [F Ky']]. exists (PField (PMethod k) i qn false None :: fl'). split.
      * cbn [app]. constructor; [|exact F]. repeat (split; [reflexivity|]). exists k, fn. split; [reflexivity|].
        split; [eapply prefix_nth; eauto|eapply fun_ext; eauto].
      * rewrite <- app_assoc in Ky'. exact Ky'.
    + apply (keyed_snoc fl acc (PField (PMethod k) i qn false None)). exact Ky.
Qed.

(** ** Recording *)
Definition upd (f : bytes -> option gtype) (n : bytes) (t : gtype) : bytes -> option gtype := fun m => if beqb m n then Some t else f m.
Lemma good_set_type W TP IP s n t r TP' :
  good W TP IP s -> (forall t', fst W n = Some t' -> t' = t) ->
  own_ok (PSt (sset (ps_types s) n r) (ps_ifaces s) (ps_intypes s) (ps_unk s) (ps_unkin s) (ps_methods s)) n t ->
  rec_ok (upd (fst W) n t, snd W) (ps_methods s) n t r (In n TP') ->
  (forall m, In m TP -> m <> n -> In m TP') ->
  ext W (upd (fst W) n t, snd W) /\
  good (upd (fst W) n t, snd W) TP' IP (PSt (sset (ps_types s) n r) (ps_ifaces s) (ps_intypes s) (ps_unk s) (ps_unkin s) (ps_methods s)).
Proof.
  intros [H1 H2 H3 H4 H5 H6 H7] Un Ow Rc Tp.
  assert (ext W (upd (fst W) n t, snd W)) as E.
  { split; cbn; auto. intros m u Hm. unfold upd. destruct (beqb m n) eqn:Em; [|exact Hm]. apply beqb_eq in Em. subst m. now rewrite (Un u Hm). }
  split; [exact E|]. constructor; cbn [ps_types ps_ifaces ps_methods fst snd].
  - intros m r' El. rewrite slookup_sset in El. unfold upd at 1. destruct (beqb m n) eqn:Em.
    + apply beqb_eq in Em. subst m. injection El as <-. exists t. split; [reflexivity|exact Rc].
    + destruct (H1 m r' El) as [u [A B]]. exists u. split; [exact A|]. eapply rec_ext; [exact B|exact E|apply prefix_refl| ].
      intro J. apply Tp; [exact J|]. apply beqb_false. exact Em.
  - intros m r' El. destruct (H2 m r' El) as [u [A B]]. exists u. split; [exact A|]. eapply irec_ext; [exact B|exact E|apply prefix_refl|auto].
  - intros m u Hm. unfold upd in Hm. destruct (beqb m n) eqn:Em.
    + apply beqb_eq in Em. subst m. injection Hm as <-. exact Ow.
    + destruct (H3 m u Hm) as [A B]. split; [|exact B]. cbn. rewrite slookup_sset, Em. exact A.
  - intros m u Hm. apply (H4 m u Hm).
  - exact H5.
  - intros m Hm. unfold upd. destruct (beqb m n); [discriminate|now apply H6].
  - exact H7.
Qed.
Lemma good_set_iface W TP IP s n t r IP' :
  good W TP IP s -> (forall t', snd W n = Some t' -> t' = t) ->
  iown_ok (PSt (ps_types s) (sset (ps_ifaces s) n r) (ps_intypes s) (ps_unk s) (ps_unkin s) (ps_methods s)) n t ->
  irec_ok (fst W, upd (snd W) n t) (ps_methods s) n t r (In n IP') ->
  (forall m, In m IP -> m <> n -> In m IP') ->
  ext W (fst W, upd (snd W) n t) /\
  good (fst W, upd (snd W) n t) TP IP' (PSt (ps_types s) (sset (ps_ifaces s) n r) (ps_intypes s) (ps_unk s) (ps_unkin s) (ps_methods s)).
Proof.
  intros [H1 H2 H3 H4 H5 H6 H7] Un Ow Rc Tp.
  assert (ext W (fst W, upd (snd W) n t)) as E.
  { split; cbn; auto. intros m u Hm. unfold upd. destruct (beqb m n) eqn:Em; [|exact Hm]. apply beqb_eq in Em. subst m. now rewrite (Un u Hm). }
  split; [exact E|]. constructor; cbn [ps_types ps_ifaces ps_methods fst snd].
  - intros m r' El. destruct (H1 m r' El) as [u [A B]]. exists u. split; [exact A|]. eapply rec_ext; [exact B|exact E|apply prefix_refl|auto].
  - intros m r' El. rewrite slookup_sset in El. unfold upd at 1. destruct (beqb m n) eqn:Em.
    + apply beqb_eq in Em. subst m. injection El as <-. exists t. split; [reflexivity|exact Rc].
    + destruct (H2 m r' El) as [u [A B]]. exists u. split; [exact A|]. eapply irec_ext; [exact B|exact E|apply prefix_refl| ].
      intro J. apply Tp; [exact J|]. apply beqb_false. exact Em.
  - intros m u Hm. apply (H3 m u Hm).
  - intros m u Hm. unfold upd in Hm. destruct (beqb m n) eqn:Em.
    + apply beqb_eq in Em. subst m. injection Hm as <-. exact Ow.
    + destruct (H4 m u Hm) as [A B]. split; [|exact B]. cbn. rewrite slookup_sset, Em. exact A.
  - exact H5.
  - exact H6.
  - exact H7.
Qed.
Lemma good_weaken W TP IP s TP' IP' : (forall n, In n TP -> In n TP') -> (forall n, In n IP -> In n IP') -> good W TP IP s -> good W TP' IP' s.
Proof.
  intros A B [H1 H2 H3 H4 H5 H6 H7]. constructor; auto.
  - intros n r E. destruct (H1 n r E) as [t [C D]]. exists t. split; [exact C|]. eapply rec_ext; [exact D|apply ext_refl|apply prefix_refl|apply A].
  - intros n r E. destruct (H2 n r E) as [t [C D]]. exists t. split; [exact C|]. eapply irec_ext; [exact D|apply ext_refl|apply prefix_refl|apply B].
Qed.

Lemma check_struct_sound c t n is W TP IP s : checks c -> good W TP IP s -> is_time decls t = false -> t_kind decls t = KStruct ->
  reach P roots t -> (forall t', fst W n = Some t' -> t' = t) ->
  (t_name decls t <> [] -> n = rename P (t_name decls t)) -> (t_name decls t = [] -> exists k, k <= ps_unk s /\ n = unknown_name k) ->
  Forall2 (fun i o => reads W i false o) (interfaces_of P t) is -> xf n = [] ->
  step W TP IP s (check_struct P c t n is) (fun W' _ o => reads W' t false o).
Proof.
  intros C G T K R Un Nm Uk Im Nx. unfold check_struct. unfold step. apply post_bind. unfold post at 1, set_type at 1.
  set (r0 := PType n (t_name decls t) (t_pkg decls t) [] is).
  set (s1 := PSt (sset (ps_types s) n r0) (ps_ifaces s) (ps_intypes s) (ps_unk s) (ps_unkin s) (ps_methods s)).
  destruct (good_set_type W TP IP s n t r0 (n :: TP) G Un) as [E1 G1].
  { split; [cbn; rewrite slookup_sset, beqb_refl; discriminate|]. auto. }
  { do 3 (split; [reflexivity|]). intro N. exfalso. apply N. now left. }
  { intros. now right. }
  set (W1 := (upd (fst W) n t, snd W)) in *. fold s1 in G1.
  assert (step W1 (n :: TP) IP s1 (check_fields P c (t_fields decls t) 0 []) (fun W' ms fs =>
    exists fl', Forall2 (mem_ok W' ms t) (numbered field_member 0 (t_fields decls t)) fl' /\ keyed_by_name ([] ++ fl') fs)) as S2.
  { apply (check_fields_sound c t _ C T K R 0 [] [] W1 (n :: TP) IP s1 G1); [|apply keyed_nil]. intros m I. apply in_or_app. now left. }
  apply post_bind. eapply post_mono; [|exact S2]. clear S2. intros fs s2 [W2 [E2 [Pr2 [G2 [fl [F2 Ky2]]]]]]. cbn [app] in Ky2.
  assert (step W2 (n :: TP) IP s2 (check_methods P c t (t_methods decls t) 0 fs) (fun W' ms fs' =>
    exists fl', Forall2 (mem_ok W' ms t) (numbered method_member 0 (t_methods decls t)) fl' /\ keyed_by_name (fl ++ fl') fs')) as S3.
  { apply (check_methods_sound c t _ C T (or_introl K) R 0 fs fl W2 (n :: TP) IP s2 G2); [|exact Ky2]. intros m I. apply in_or_app. now right. }
  apply post_bind. eapply post_mono; [|exact S3]. clear S3. intros fs3 s3 [W3 [E3 [Pr3 [G3 [fl3 [F3 Ky3]]]]]].
  apply post_bind. unfold post at 1, set_type at 1.
  set (r3 := PType n (t_name decls t) (t_pkg decls t) fs3 is).
  assert (fst W3 n = Some t) as On.
  { apply E3. apply E2. unfold W1, upd. cbn. now rewrite beqb_refl. }
  assert (ext W W3) as E03 by (eapply ext_trans; [exact E1|]; eapply ext_trans; eauto).
  assert (ext W3 (upd (fst W3) n t, snd W3)) as E34.
  { split; cbn; auto. intros m u Hm. unfold upd. destruct (beqb m n) eqn:Em; [|exact Hm]. apply beqb_eq in Em. subst m. congruence. }
  destruct (good_set_type W3 (n :: TP) IP s3 n t r3 TP G3) as [_ G4].
  { intros t' E. congruence. }
  { destruct (g_own _ _ _ _ G3 n t On) as [_ [_ [_ [_ [O1 O2]]]]]. split; [cbn; rewrite slookup_sset, beqb_refl; discriminate|]. auto 10. }
  { do 3 (split; [reflexivity|]). intros _. do 3 (split; [reflexivity|]). split.
    - exists (fl ++ fl3). cbn [pt_fields r3]. split; [|rewrite Nx, app_nil_r; exact Ky3]. unfold exposed. apply Forall2_app.
      + eapply Forall2_mono; [|exact F2]. intros a b M. eapply mem_ext; [|exact Pr3|exact M]. eapply ext_trans; [exact E3|exact E34].
      + eapply Forall2_mono; [|exact F3]. intros a b M. eapply mem_ext; [exact E34|apply prefix_refl|exact M].
    - eapply Forall2_mono; [|exact Im]. intros a b M. eapply reads_ext; [|exact M]. eapply ext_trans; [exact E03|exact E34]. }
  { intros m [<-|I] N; [congruence|exact I]. }
  cbn. exists (upd (fst W3) n t, snd W3). split; [eapply ext_trans; [exact E03|exact E34]|].
  split; [cbn; eapply prefix_trans; [exact Pr2|exact Pr3]|]. split; [exact G4|].
  constructor; auto. cbn. unfold upd. now rewrite beqb_refl.
Qed.
Lemma mapm_sound {A B} (f : A -> pm B) (Q : world -> A -> B -> Prop) l :
  (forall W W' a b, ext W W' -> Q W a b -> Q W' a b) ->
  (forall a, In a l -> forall W TP IP s, good W TP IP s -> step W TP IP s (f a) (fun W' _ b => Q W' a b)) ->
  forall W TP IP s, good W TP IP s -> step W TP IP s (mapm f l) (fun W' _ bs => Forall2 (Q W') l bs).
Proof.
  intros Mo. induction l as [|a l IH]; intros H W TP IP s G; cbn [mapm]; [apply step_ret; [exact G|constructor]|].
  eapply step_bind; [apply H; [now left|exact G]|]. intros b W' s' E Pr G' Hb.
  eapply step_bind; [apply IH; [intros; apply H; [now right|assumption]|exact G']|]. intros bs W2 s2 E2 Pr2 G2 Hbs.
  apply step_ret; [exact G2|]. constructor; [eapply Mo; eauto|exact Hbs].
Qed.

Lemma check_sound fuel : checks (check P fuel).
Proof.
  induction fuel as [|fuel C]; intros t h W TP IP s R G; [exact Logic.I|]. cbn [check].
  destruct (is_time decls t) eqn:T; [apply step_ret; [exact G|]; now constructor|].
  assert (basic (t_kind decls t) -> step W TP IP s
     match enum_of P t with
     | Some i => pret (PEnum i)
     | None => if h && negb (id_kind (t_kind decls t)) then perr else pret (PData h (t_kind decls t))
     end (fun W' _ o => reads W' t h o)) as B.
  { intro Hb. assert (forall es i j, find_enum es (t_name decls t) i = Some j ->
        exists k, j = i + k /\ (exists e, nth_error es k = Some e /\ en_name e = t_name decls t) /\
                  forall k' e, k' < k -> nth_error es k' = Some e -> en_name e <> t_name decls t) as Fs.
    { induction es as [|e es IH]; intros i j; cbn [find_enum]; [discriminate|]. destruct (beqb (en_name e) (t_name decls t)) eqn:E.
      - intro H. injection H as <-. apply beqb_eq in E. exists 0. split; [lia|]. split; [exists e; auto|]. intros k' e' L. lia.
      - intro H. apply IH in H. destruct H as [k [-> [H1 H2]]]. exists (S k). split; [lia|]. split; [exact H1|].
        intros [|k'] e' L El; [injection El as <-; now apply beqb_false|]. eapply H2; [|exact El]. lia. }
    assert (forall es i, find_enum es (t_name decls t) i = None -> forall k e, nth_error es k = Some e -> en_name e <> t_name decls t) as Fn.
    { induction es as [|e es IH]; intros i H k e' El; [destruct k; discriminate|]. cbn [find_enum] in H.
      destruct (beqb (en_name e) (t_name decls t)) eqn:E; [discriminate|]. destruct k; [injection El as <-; now apply beqb_false|]. eapply IH; eauto. }
    destruct (enum_of P t) as [i|] eqn:Ee.
    - apply step_ret; [exact G|]. unfold enum_of in Ee. destruct (t_pkg decls t) as [|p0 p] eqn:Ep; [discriminate|].
      destruct (t_name decls t) as [|n0 nn] eqn:En; [discriminate|]. destruct (enum_kind (t_kind decls t)) eqn:Ek; [|discriminate].
      rewrite <- En in Ee, Fs. apply Fs in Ee. destruct Ee as [k [-> [H1 H2]]]. apply TREnum; auto.
      + split; [congruence|]. split; [congruence|]. destruct (t_kind decls t); try discriminate; auto.
      + split; assumption.
    - destruct (h && negb (id_kind (t_kind decls t))) eqn:Eh; [exact Logic.I|]. apply step_ret; [exact G|].
      apply TRData; auto.
      + intros [Hp [Hm Hk]] i [[e [E1 E2]] _]. unfold enum_of in Ee. destruct (t_pkg decls t) as [|p0 p] eqn:Ep; [congruence|].
        assert (enum_kind (t_kind decls t) = true) as Ek by (destruct (t_kind decls t); try contradiction; reflexivity). rewrite Ek in Ee.
        destruct (t_name decls t) as [|n0 nn] eqn:En; [congruence|]. apply (Fn _ _ Ee i e E1 E2).
      + intro E. rewrite E in Eh. cbn in Eh. destruct (t_kind decls t); try discriminate; exact Logic.I. }
  assert (forall e (h' : bool), t_kind decls t = KSlice \/ t_kind decls t = KArray \/ t_kind decls t = KPtr -> t_elem decls t = Some e ->
            step W TP IP s (check P fuel e h') (fun W' _ o => reads W' e h' o)) as Rec.
  { intros e h' K E. apply C; [|exact G]. eapply reach_step; [exact R|]. eapply ask_elem; eauto. }
  destruct (t_kind decls t) eqn:K; try (apply B; exact Logic.I); try exact Logic.I.
  - destruct (t_elem decls t) as [e|] eqn:Ee; [|exact Logic.I]. eapply step_bind; [apply Rec; auto|].
    intros o W' s' E Pr G' H. apply step_ret; [exact G'|]. eapply TRList; eauto.
  - destruct (t_elem decls t) as [e|] eqn:Ee; [|exact Logic.I]. eapply step_bind; [apply Rec; auto|].
    intros o W' s' E Pr G' H. apply step_ret; [exact G'|]. eapply TRList; eauto.
  - destruct (t_elem decls t) as [e|] eqn:Ee; [|exact Logic.I]. eapply step_bind; [apply (Rec e h); auto|].
    intros o W' s' E Pr G' H. apply step_ret; [exact G'|]. eapply TRPtr; eauto.
  - destruct h; [exact Logic.I|]. destruct (t_name decls t) as [|b nm] eqn:En.
    + (* a struct without name *)
      unfold step. apply post_bind. unfold post at 1, next_unknown at 1.
      fold (unknown_name (S (ps_unk s))). set (n := unknown_name (S (ps_unk s))).
      set (s1 := PSt (ps_types s) (ps_ifaces s) (ps_intypes s) (S (ps_unk s)) (ps_unkin s) (ps_methods s)).
      assert (good W TP IP s1) as G1.
      { destruct G as [H1 H2 H3 H4 H5 H6 H7]. constructor; auto. intros m u Hm. destruct (H3 m u Hm) as [A1 [A2 [A3 [A4 [A5 A6]]]]].
        do 5 (split; [assumption|]). intro E. destruct (A6 E) as [k [L ->]]. exists k. split; [cbn; lia|reflexivity]. }
      assert (forall t', fst W n = Some t' -> t' = t) as Un.
      { intros t' Hm. exfalso. destruct (g_own _ _ _ _ G n t' Hm) as [_ [A2 [_ [A4 [A5 A6]]]]].
        destruct (t_name decls t') as [|b' nm'] eqn:En'.
        - destruct (A6 eq_refl) as [k [L E]]. apply unknown_inj in E. lia.
        - apply (na_unknown _ _ NA t' (S (ps_unk s)) A4 A2); [congruence|]. rewrite En'. symmetry. apply A5. discriminate. }
      assert (xf n = []) as Nx.
      { destruct (xf n) eqn:Ex; [reflexivity|]. exfalso. assert (fst W n <> None) as X by (apply (g_extra _ _ _ _ G); congruence).
        destruct (fst W n) as [u|] eqn:Eu; [|congruence]. rewrite (Un u eq_refl) in Eu.
        destruct (g_own _ _ _ _ G n t Eu) as [_ [_ [_ [_ [_ A6]]]]]. destruct (A6 En) as [k [L E]]. apply unknown_inj in E. lia. }
      pose proof (check_struct_sound (check P fuel) t n [] W TP IP s1 C G1 T K R Un) as S1.
      assert (step W TP IP s1 (check_struct P (check P fuel) t n []) (fun W' _ o => reads W' t false o)) as S2.
      { apply S1.
        - rewrite En. congruence.
        - intros _. exists (S (ps_unk s)). split; [cbn; lia|reflexivity].
        - unfold interfaces_of. rewrite En. constructor.
        - exact Nx. }
      exact S2.
    + apply step_get. set (n := rename P (b :: nm)).
      destruct (slookup (ps_types s) n) as [v|] eqn:El.
      * destruct (beqb (pt_pkg v) (t_pkg decls t)) eqn:Eb; [|exact Logic.I]. apply beqb_eq in Eb.
        destruct (g_types _ _ _ _ G n v El) as [u [Hu [R1 [R2 [R3 _]]]]].
        destruct (g_own _ _ _ _ G n u Hu) as [_ [A2 [A3 [A4 [A5 A6]]]]].
        assert (u = t) as ->.
        { destruct (t_name decls u) as [|b' nm'] eqn:En'.
          - exfalso. destruct (A6 eq_refl) as [k [_ E]]. apply (na_unknown _ _ NA t k R K); [congruence|]. rewrite En. exact E.
          - apply (na_struct _ _ NA u t A4 R A2 K); [congruence|congruence| |congruence]. rewrite En, En'. symmetry. apply A5. discriminate. }
        apply step_ret; [exact G|]. rewrite R2, Eb. apply TRStruct; auto.
      * assert (fst W n = None) as On.
        { destruct (fst W n) as [u|] eqn:Eu; [|reflexivity]. destruct (g_own _ _ _ _ G n u Eu) as [A1 _]. congruence. }
        assert (xf n = []) as Nx by (destruct (xf n) eqn:Ex; [reflexivity|]; exfalso; apply (g_extra _ _ _ _ G n); congruence).
        assert (interfaces_of P t = types_of (g_implements P) (b :: nm)) as Ei by (unfold interfaces_of; now rewrite En).
        destruct (types_of (g_implements P) (b :: nm)) as [|i0 il] eqn:Et.
        -- cbn [mapm]. unfold step, pbind at 1, pret at 1. apply (check_struct_sound (check P fuel) t n [] W TP IP s); auto.
           ++ intros t' E. congruence.
           ++ rewrite En. auto.
           ++ congruence.
           ++ rewrite Ei. constructor.
        -- rewrite <- Ei.
           eapply step_bind; [apply (mapm_sound (fun i => check P fuel i false) (fun W' i o => reads W' i false o) (interfaces_of P t)); [| |exact G]|].
           ++ intros. eapply reads_ext; eauto.
           ++ intros a I W0 TP0 IP0 s0 G0. apply C; [|exact G0]. eapply reach_step; [exact R|]. now apply ask_iface.
           ++ intros is W' s' E Pr G' H. apply check_struct_sound; auto.
              ** intros t' Hm. destruct (g_own _ _ _ _ G' n t' Hm) as [_ [A2 [A3 [A4 [A5 A6]]]]].
                 assert (t_name decls t' <> []) as Nn.
                 { intro En'. destruct (A6 En') as [k [_ E']]. apply (na_unknown _ _ NA t k R K); [congruence|]. rewrite En. exact E'. }
                 symmetry. apply (na_registered _ _ NA t t' R A4 K A2); [congruence|exact Nn|]. rewrite En. now apply A5.
              ** rewrite En. auto.
              ** congruence.
  - destruct h; [exact Logic.I|]. destruct (t_name decls t) as [|b nm] eqn:En; [exact Logic.I|].
    apply step_get. set (n := rename P (b :: nm)).
    destruct (slookup (ps_ifaces s) n) as [v|] eqn:El.
    + destruct (beqb (pt_pkg v) (t_pkg decls t)) eqn:Eb; [|exact Logic.I]. apply beqb_eq in Eb.
      destruct (g_ifaces _ _ _ _ G n v El) as [u [Hu [R1 [R2 [R3 _]]]]].
      destruct (g_iown _ _ _ _ G n u Hu) as [_ [A2 [A3 [A4 A5]]]].
      assert (u = t) as ->. { apply (na_iface _ _ NA u t A4 R A2 K); [|congruence]. rewrite En. symmetry. exact A5. }
      apply step_ret; [exact G|]. rewrite R2, Eb. apply TRIface; auto.
    + assert (snd W n = None) as On.
      { destruct (snd W n) as [u|] eqn:Eu; [|reflexivity]. destruct (g_iown _ _ _ _ G n u Eu) as [A1 _]. congruence. }
      unfold check_iface. rewrite En. unfold step. apply post_bind. unfold post at 1, set_iface at 1.
      set (r0 := PType n (b :: nm) (t_pkg decls t) [] []).
      set (s1 := PSt (ps_types s) (sset (ps_ifaces s) n r0) (ps_intypes s) (ps_unk s) (ps_unkin s) (ps_methods s)).
      destruct (good_set_iface W TP IP s n t r0 (n :: IP) G) as [E1 G1].
      { intros t' E. congruence. }
      { split; [cbn; rewrite slookup_sset, beqb_refl; discriminate|]. rewrite En. auto. }
      { split; [reflexivity|]. split; [symmetry; exact En|]. split; [reflexivity|]. intro N. exfalso. apply N. now left. }
      { intros. now right. }
      set (W1 := (fst W, upd (snd W) n t)) in *. fold s1 in G1.
      destruct (slookup (g_implemented P) (b :: nm)) as [ts|] eqn:Ets; [|exact Logic.I].
      assert (implementations_of P t = ts) as Ei by (unfold implementations_of, types_of; rewrite En, Ets; reflexivity).
      pose proof (mapm_sound (check_impl P (check P fuel) t)
         (fun W' i o => t_kind decls i = KStruct /\ (t_name decls i <> [] /\ implements decls i t = true) /\ reads W' i false o) ts) as S2.
      assert (step W1 TP (n :: IP) s1 (mapm (check_impl P (check P fuel) t) ts) (fun W' _ os =>
         Forall2 (fun i o => t_kind decls i = KStruct /\ (t_name decls i <> [] /\ implements decls i t = true) /\ reads W' i false o) ts os)) as S2'.
      { apply S2; [| |exact G1].
        - intros W0 W0' a o E [X1 [X2 X3]]. do 2 (split; [assumption|]). eapply reads_ext; eauto.
        - intros a I W0 TP0 IP0 s0 G0. unfold check_impl. destruct (t_kind decls a) eqn:Ka; try exact Logic.I.
          destruct (t_name decls a) eqn:Na; [exact Logic.I|]. destruct (implements decls a t); [|exact Logic.I].
          eapply step_mono; [|apply C; [|exact G0]].
          + intros W' ms o _ _ H. split; [reflexivity|]. split; [split; [congruence|reflexivity]|exact H].
          + eapply reach_step; [exact R|]. apply ask_impl; auto. rewrite Ei. exact I. }
      clear S2. apply post_bind. eapply post_mono; [|exact S2']. clear S2'. intros is s2 [W2 [E2 [Pr2 [G2 Im]]]].
      assert (step W2 TP (n :: IP) s2 (check_methods P (check P fuel) t (t_methods decls t) 0 []) (fun W' ms fs =>
        exists fl', Forall2 (mem_ok W' ms t) (numbered method_member 0 (t_methods decls t)) fl' /\ keyed_by_name ([] ++ fl') fs)) as S3.
      { apply (check_methods_sound (check P fuel) t _ C T (or_intror K) R 0 [] [] W2 TP (n :: IP) s2 G2); [|apply keyed_nil].
        intros m I. apply in_or_app. now right. }
      apply post_bind. eapply post_mono; [|exact S3]. clear S3. intros fs3 s3 [W3 [E3 [Pr3 [G3 [fl3 [F3 Ky3]]]]]]. cbn [app] in Ky3.
      apply post_bind. unfold post at 1, set_iface at 1.
      set (r3 := PType n (b :: nm) (t_pkg decls t) fs3 is).
      assert (snd W3 n = Some t) as On3.
      { apply E3. apply E2. unfold W1, upd. cbn. now rewrite beqb_refl. }
      assert (ext W W3) as E03 by (eapply ext_trans; [exact E1|]; eapply ext_trans; eauto).
      assert (ext W3 (fst W3, upd (snd W3) n t)) as E34.
      { split; cbn; auto. intros m u Hm. unfold upd. destruct (beqb m n) eqn:Em; [|exact Hm]. apply beqb_eq in Em. subst m. congruence. }
      destruct (good_set_iface W3 TP (n :: IP) s3 n t r3 IP G3) as [_ G4].
      { intros t' E. congruence. }
      { split; [cbn; rewrite slookup_sset, beqb_refl; discriminate|]. rewrite En. auto. }
      { split; [reflexivity|]. split; [symmetry; exact En|]. split; [reflexivity|]. intros _.
        split; [reflexivity|]. split; [symmetry; exact En|]. split; [reflexivity|]. split.
        - exists fl3. cbn [pt_fields r3]. split; [|rewrite app_nil_r; exact Ky3].
          assert (exposed P t = numbered method_member 0 (t_methods decls t)) as Ex.
          { unfold exposed. assert (t_fields decls t = []) as ->; [|reflexivity]. unfold t_fields. unfold t_kind in K.
            destruct (under decls t); try reflexivity. discriminate. }
          rewrite Ex. eapply Forall2_mono; [|exact F3]. intros a0 b0 M. eapply mem_ext; [exact E34|apply prefix_refl|exact M].
        - rewrite Ei. eapply Forall2_mono; [|exact Im]. intros a0 b0 [X1 [X2 X3]]. do 2 (split; [assumption|]).
          eapply reads_ext; [|exact X3]. eapply ext_trans; [exact E3|exact E34]. }
      { intros m [<-|I] N; [congruence|exact I]. }
      cbn. exists (fst W3, upd (snd W3) n t). split; [eapply ext_trans; [exact E03|exact E34]|].
      split; [cbn; eapply prefix_trans; [exact Pr2|exact Pr3]|]. split; [exact G4|].
      rewrite <- En. apply TRIface; auto.
      * cbn. unfold upd. now rewrite beqb_refl.
      * unfold n. now rewrite En.
Qed.
End Sound.
