(** * Introspection of a parsed schema (proofs) *)
From Coq Require Import String Arith NArith ZArith Bool List Lia Sorted Permutation.
From Verif Require Import Base JsonModel NameModel Schema GoTypes ParseModel ParseFacts ParseTerm SchemaSpec ParseSound ParseWhole IntroModel IntroProof IntroSpec IntroTables.
Import ListNotations.
Open Scope nat_scope.
Local Notation SN := Datatypes.S.

(** ** Sorting *)
Lemma bleb_total a : forall b, bleb a b = false -> bleb b a = true.
Proof.
  induction a as [|x a IH]; intros [|y b]; cbn; try discriminate; auto.
  destruct (x <? y)%N eqn:L; [discriminate|]. destruct (y <? x)%N eqn:L'; [auto|]. apply IH.
Qed.
Lemma bleb_trans a : forall b c, bleb a b = true -> bleb b c = true -> bleb a c = true.
Proof.
  induction a as [|x a IH]; intros [|y b] [|z c]; cbn; try discriminate; auto.
  destruct (x <? y)%N eqn:L1; destruct (y <? z)%N eqn:L2; destruct (y <? x)%N eqn:L3; destruct (z <? y)%N eqn:L4;
  destruct (x <? z)%N eqn:L5; destruct (z <? x)%N eqn:L6; try discriminate; auto; try (apply IH);
  repeat match goal with H : (_ <? _)%N = true |- _ => apply N.ltb_lt in H | H : (_ <? _)%N = false |- _ => apply N.ltb_ge in H end; intros; try lia.
Qed.
Lemma insert_perm {A} (key : A -> bytes) x l : Permutation (insert key x l) (x :: l).
Proof. induction l as [|y l IH]; cbn; [reflexivity|]. destruct (bleb _ _); [reflexivity|]. rewrite IH. apply perm_swap. Qed.
Lemma sort_perm {A} (key : A -> bytes) l : Permutation (sort_by key l) l.
Proof. induction l as [|x l IH]; cbn; [reflexivity|]. rewrite insert_perm. now constructor. Qed.
Lemma insert_sorted {A} (key : A -> bytes) x l : by_name key l -> by_name key (insert key x l).
Proof.
  unfold by_name. induction 1 as [|y l S IH F]; cbn; [repeat constructor|]. destruct (bleb (key x) (key y)) eqn:L.
  - constructor; [now constructor|]. constructor; [exact L|]. eapply Forall_impl; [|exact F]. intros z Z. now apply (bleb_trans _ (key y)).
  - constructor; [exact IH|]. rewrite Forall_forall in *. intros z Z. apply (Permutation_in _ (insert_perm key x l)) in Z. destruct Z as [<-|Z]; [now apply bleb_total|auto].
Qed.
Lemma sort_sorted {A} (key : A -> bytes) l : by_name key (sort_by key l).
Proof. induction l as [|x l IH]; cbn; [constructor|]. now apply insert_sorted. Qed.

(** ** Results of loops *)
Lemma all_some_Forall2 {A B} (f : A -> option B) l r : all_some (map f l) = Some r <-> Forall2 (fun a b => f a = Some b) l r.
Proof.
  split.
  - revert r. induction l as [|a l IH]; cbn; intros r; [intros [= <-]; constructor|]. destruct (f a) as [b|] eqn:E; [|discriminate].
    destruct (all_some (map f l)) as [bs|]; [|discriminate]. intros [= <-]. constructor; auto.
  - induction 1 as [|a b l r E F IH]; cbn; [reflexivity|]. now rewrite E, IH.
Qed.
Lemma all_some_ok {A B} (f : A -> option B) l : (forall a, In a l -> f a <> None) -> exists r, all_some (map f l) = Some r.
Proof.
  induction l as [|a l IH]; cbn; intro H; [eauto|]. destruct (f a) as [b|] eqn:E; [|exfalso; apply (H a); auto].
  destruct IH as [r ->]; [intros; apply H; auto|]. eauto.
Qed.
Lemma filter_perm {A} (g : A -> bool) l l' : Permutation l l' -> Permutation (filter g l) (filter g l').
Proof. induction 1; cbn; auto; [destruct (g x); auto|destruct (g x), (g y); auto; apply perm_swap|etransitivity; eauto]. Qed.
Lemma filter_map_comm {A B} (g : A -> bool) (f : B -> A) l : filter g (map f l) = map f (filter (fun b => g (f b)) l).
Proof. induction l as [|b l IH]; cbn; [reflexivity|]. destruct (g (f b)); cbn; now rewrite IH. Qed.
Lemma filter_all {A} (g : A -> bool) l : (forall a, In a l -> g a = true) -> filter g l = l.
Proof. induction l as [|a l IH]; cbn; intro H; [reflexivity|]. rewrite H by auto. f_equal. auto. Qed.
Lemma filter_none {A} (g : A -> bool) l : (forall a, In a l -> g a = false) -> filter g l = [].
Proof. induction l as [|a l IH]; cbn; intro H; [reflexivity|]. rewrite H by auto. auto. Qed.

(** ** Tables found by hash or name *)
Lemma nlookup_in {A} (l : list (N * A)) k v : nlookup l k = Some v -> In (k, v) l.
Proof. induction l as [|[k' v'] l IH]; cbn; [discriminate|]. destruct (k =? k')%N eqn:E; [apply N.eqb_eq in E as ->; intros [= ->]; now left|auto]. Qed.
Lemma in_nlookup {A} (l : list (N * A)) k v : NoDup (map fst l) -> In (k, v) l -> nlookup l k = Some v.
Proof.
  induction l as [|[k' v'] l IH]; cbn; intros D H; [contradiction|]. inversion D as [|x m NI D' E]; subst x m.
  destruct H as [[= -> ->]|H]; [now rewrite N.eqb_refl|]. destruct (k =? k')%N eqn:E; [|auto]. apply N.eqb_eq in E. subst k'. exfalso. apply NI. now apply (in_map fst) in H.
Qed.
Lemma keyed_perm L F : keyed_by_name L F -> NoDup (map (fun f => fnv1 (pf_name f)) L) -> Permutation (map snd F) L.
Proof.
  intros [D K] ND.
  assert (KEY : forall k f, In (k, f) F -> fnv1 (pf_name f) = k /\ In f L).
  { intros k f H. apply in_nlookup in H; [|exact D]. rewrite K in H. apply find_some in H. destruct H as [H E]. apply N.eqb_eq in E. split; [exact E|now apply in_rev]. }
  apply NoDup_Permutation.
  - clear K ND. induction F as [|[k f] F IH]; cbn; [constructor|]. inversion D as [|x m NI D' E]; subst x m. constructor; [|apply IH; auto; intros; apply KEY; now right].
    intro H. apply in_map_iff in H. destruct H as [[k' f'] [E H]]. cbn in E. subst f'. apply NI.
    destruct (KEY k f) as [<- _]; [now left|]. destruct (KEY k' f) as [E _]; [now right|]. cbn. rewrite E. now apply (in_map fst) in H.
  - clear - ND. induction L as [|f L IH]; [constructor|]. inversion ND as [|x m NI D E]; subst x m. constructor; [|auto]. intro H. apply NI. now apply (in_map (fun f => fnv1 (pf_name f))) in H.
  - intro f. split.
    + intro H. apply in_map_iff in H. destruct H as [[k f'] [E H]]. cbn in E. subst f'. now apply KEY in H.
    + intro H. assert (E : nlookup F (fnv1 (pf_name f)) = Some f).
      { rewrite K. destruct (find _ (rev L)) as [g|] eqn:G.
        - apply find_some in G. destruct G as [G E]. apply N.eqb_eq in E. apply in_rev in G. f_equal.
          clear - ND H G E. induction L as [|x L IH]; [contradiction|]. inversion ND as [|y m NI D E']; subst y m. destruct H as [->|H], G as [->|G]; auto.
          + exfalso. apply NI. rewrite <- E. now apply (in_map (fun f => fnv1 (pf_name f))) in G.
          + exfalso. apply NI. rewrite E. now apply (in_map (fun f => fnv1 (pf_name f))) in H.
        - exfalso. apply find_none with (x := f) in G; [now rewrite N.eqb_refl in G|now apply -> in_rev]. }
      apply nlookup_in in E. now apply (in_map snd) in E.
Qed.
Lemma sindex_slookup {A} (l : list (bytes * A)) k : forall i, match slookup l k with Some v => exists j, sindex l k i = Some (i + j, v) /\ nth_error l j = Some (k, v) | None => sindex l k i = None end.
Proof.
  induction l as [|[k' v'] l IH]; intro i; cbn; [reflexivity|]. destruct (beqb k k') eqn:E.
  - apply beqb_eq in E. subst. exists 0. rewrite Nat.add_0_r. auto.
  - specialize (IH (SN i)). destruct (slookup l k) as [v|]; [|exact IH]. destruct IH as [j [-> N]]. exists (SN j). cbn. split; [f_equal; f_equal; lia|exact N].
Qed.

Section Described.
Variables (P : program) (own iown inown : bytes -> option gtype) (qt mt : gtype) (inj : option (gval * gval)) (p : pschema).
Notation decls := (g_decls P).
Hypothesis SR : schema_reads P own iown inown qt mt inj p.
Hypothesis RG : registered P.
Hypothesis TI' : time_apart P.
Let TI := proj1 TI'.
Notation I := (original P p).
Notation s := (p_st p).

Lemma iface_shown n t : iown n = Some t -> exists q, iface_ref I n = Some q /\ ref_of q = Named n.
Proof.
  intro H. unfold iface_ref. cbn. pose proof (sindex_slookup (ps_ifaces s) n 0) as X. destruct (sr_iown _ _ _ _ _ _ _ _ SR _ _ H) as [E _].
  destruct (slookup (ps_ifaces s) n) as [v|] eqn:L; [|contradiction]. destruct X as [j [-> _]]. eexists. split; [reflexivity|]. cbn.
  destruct (sr_ifaces _ _ _ _ _ _ _ _ SR _ _ L) as [t' [_ [-> _]]]. reflexivity.
Qed.
Lemma obj_shown n v : slookup (ps_types s) n = Some v -> forall i, exists is, obj_type I i v =
  Some (Qlt TkObject (Some n) (Some []) (Some (false, FObjFields i)) (Some is) None None None None None) /\
  exists t, own n = Some t /\ Forall2 (fun it q => exists m, iown m = Some it /\ ref_of q = Named m) (interfaces_of P t) is.
Proof.
  intros L i. destruct (sr_types _ _ _ _ _ _ _ _ SR) as [extra [_ T]]. destruct (T _ _ L) as [t [O [E [_ [_ [_ F]]]]]]. unfold obj_type.
  assert (R : exists r, all_some (map (fun o => match o with PIRef n _ _ => iface_ref I n | _ => None end) (pt_impls v)) = Some r /\
     Forall2 (fun it q => exists m, iown m = Some it /\ ref_of q = Named m) (interfaces_of P t) r).
  { assert (K : forall it, In it (interfaces_of P t) -> t_kind decls it = KInterface).
    { intros it Hi. unfold interfaces_of in Hi. destruct (t_name decls t) as [|a b] eqn:TN; [contradiction|]. unfold types_of in Hi.
      destruct (slookup (g_implements P) (a :: b)) as [ts|] eqn:LL; [|contradiction]. exact (RG _ _ _ (slookup_in _ _ _ LL) Hi). }
    clear - F K SR TI'. pose proof (proj1 TI') as TI. induction F as [|it o l l' R F IH]; [exists []; cbn; auto|]. destruct IH as [r [E G]]; [intros; apply K; now right|].
    assert (KI := K it (or_introl eq_refl)).
    inversion R; subst; try congruence; try (exfalso; now apply (TI it)); try (exfalso; destruct H0; congruence);
      try (match goal with H : enum_like _ _ |- _ => destruct H as [_ [_ H]]; rewrite KI in H; contradiction end);
      try (match goal with H : basic _ |- _ => rewrite KI in H; contradiction end).
    match goal with H : iown ?m = Some it |- _ => destruct (iface_shown _ _ H) as [q [Q RQ]]; exists (q :: r); cbn; rewrite Q, E; split; [reflexivity|constructor; [|exact G]]; exists m; auto end. }
  destruct R as [r [-> G]]. exists r. rewrite E. split; [reflexivity|]. eauto.
Qed.
Definition ok_ref (r : tref) : Prop := match r with NonNull _ => False | _ => True end.
Lemma ref_non_null q nn : ref_of (non_null (q, nn)) = if nn : bool then NonNull (ref_of q) else ref_of q.
Proof. unfold non_null. cbn. now destruct nn. Qed.
Lemma type_shown t h o : type_reads P own iown t h o -> exists q nn, type_of I o = Some (q, nn) /\ ok_ref (ref_of q) /\ go_ref P own iown t h (ref_of (non_null (q, nn))).
Proof.
  induction 1 as [t h T|t n T K O _|t n T K O _|t e h o T K E R IH|t e h o T K E R IH|t h i T EL EA|t h T B NE ID].
  - exists ql_time, true. cbn. split; [reflexivity|]. split; [exact Logic.I|]. now constructor.
  - destruct (sr_own _ _ _ _ _ _ _ _ SR _ _ O) as [L _]. destruct (slookup (ps_types s) n) as [v|] eqn:V; [|contradiction].
    cbn. pose proof (sindex_slookup (ps_types s) n 0) as X. rewrite V in X. destruct X as [j [-> _]].
    destruct (obj_shown n v V (0 + j)) as [is [-> _]]. eexists _, true. split; [reflexivity|]. split; [exact Logic.I|]. cbn. now constructor.
  - destruct (iface_shown n t O) as [q [Q RQ]]. exists q, false. cbn [type_of]. rewrite Q. split; [reflexivity|]. rewrite ref_non_null, RQ. split; [exact Logic.I|]. now constructor.
  - destruct IH as [q [nn [Q [_ G]]]]. eexists _, false. cbn. rewrite Q. split; [reflexivity|]. cbn. split; [exact Logic.I|]. eapply GRList; eauto.
  - destruct IH as [q [nn [Q [OK G]]]]. exists q, false. cbn [type_of]. rewrite Q. split; [reflexivity|]. split; [exact OK|]. rewrite ref_non_null in *.
    replace (ref_of q) with (nullable (if nn then NonNull (ref_of q) else ref_of q)); [eapply GRPtr; eauto|]. destruct nn; [reflexivity|]. now destruct (ref_of q).
  - destruct EA as [[e [N NM]] EA]. exists (enum_type I i e), true. cbn. rewrite N. split; [reflexivity|]. split; [exact Logic.I|]. rewrite NM. eapply GREnum; eauto. split; eauto.
  - exists (data_type h (t_kind decls t)), true. split; [reflexivity|]. rewrite ref_non_null.
    assert (E : ref_of (data_type h (t_kind decls t)) = Named (scalar_of h (t_kind decls t))).
    { destruct h; [reflexivity|]. unfold data_type, scalar_of. destruct (t_kind decls t); try reflexivity; contradiction. }
    rewrite E. split; [exact Logic.I|]. now constructor.
Qed.

(** ** Arguments *)
Lemma input_shown t h j : input_reads P inown t h j -> ok_ref (ref_of (fst (input_type I FNoInput j))) /\ in_ref P inown false t h (ref_of (non_null (input_type I FNoInput j))).
Proof.
  assert (D : forall t h x en z, basic (t_kind decls t) -> ref_of (fst (input_type I FNoInput (Input (t_kind decls t) en h false false x None false [] [] z))) = Named (scalar_of h (t_kind decls t)) /\
     snd (input_type I FNoInput (Input (t_kind decls t) en h false false x None false [] [] z)) = true).
  { intros t0 h0 x en z B. destruct h0; cbn; [auto|]. destruct (t_kind decls t0); try contradiction; auto. }
  induction 1 as [t h i x z B EL EA Z|t h x z B NE ID Z|t e h x z K E FH Z|t e h j x z K E FH R IH Z|t e h j x z K E R IH Z|t h x z K T Z|t h n x z K T O Z].
  - destruct (D t false x (Some i) z B) as [D1 D2]. destruct (input_type I FNoInput _) as [q nn]. cbn [fst snd] in *. subst nn. rewrite ref_non_null, D1. split; [exact Logic.I|].
    exact (NREnum P inown false t h i B EL EA).
  - destruct (D t h x None z B) as [D1 D2]. destruct (input_type I FNoInput _) as [q nn]. cbn [fst snd] in *. subst nn. rewrite ref_non_null, D1. split; [exact Logic.I|]. now constructor.
  - cbn. split; [exact Logic.I|]. eapply NRFile; eauto.
  - destruct IH as [OK G]. cbn [input_type]. cbn [fst snd]. split; [exact OK|]. rewrite ref_non_null. destruct (input_type I FNoInput j) as [q nn]. cbn [fst] in *. rewrite ref_non_null in G.
    replace (ref_of q) with (nullable (if nn then NonNull (ref_of q) else ref_of q)); [eapply NRPtr; eauto|]. destruct nn; [reflexivity|]. now destruct (ref_of q).
  - destruct IH as [OK G].
    assert (X : input_type I FNoInput (Input (t_kind decls t) None false false false x (Some j) false [] [] z) =
      (Qlt TkList None None None None None None None (Some (non_null (input_type I FNoInput j))) None, false)) by (cbn; destruct K as [-> | ->]; reflexivity).
    rewrite X. split; [exact Logic.I|]. cbn. eapply NRList; eauto.
  - cbn. split; [exact Logic.I|]. now constructor.
  - cbn. split; [exact Logic.I|]. now constructor.
Qed.

Lemma rev_find_in {A} (f : A -> bool) l a : find f (rev l) = Some a -> In a l /\ f a = true.
Proof. intro H. apply find_some in H. destruct H as [H E]. apply in_rev in H. auto. Qed.
Lemma rev_find_has {A} (f : A -> bool) l a : In a l -> f a = true -> find f (rev l) <> None.
Proof. intros H E N. apply find_none with (x := a) in N; [congruence|now apply -> in_rev]. Qed.
Lemma in_slookup_eq {A} (l : list (bytes * A)) k v : NoDup (map fst l) -> In (k, v) l -> slookup l k = Some v.
Proof.
  induction l as [|[k' v'] l IH]; cbn [slookup map fst]; intros D H; [contradiction|]. inversion D as [|x m NI D' E]; subst x m.
  destruct H as [[= -> ->]|H]; [now rewrite beqb_refl|]. destruct (beqb k k') eqn:E; [|auto]. apply beqb_eq in E. subst k'. exfalso. apply NI. now apply (in_map fst) in H.
Qed.
Lemma named_entry {A} (l c : list (bytes * A)) : named_by l c -> forall k v, In (k, v) c -> In (k, v) l.
Proof.
  intros [D K] k v H. apply in_slookup_eq in H; [|exact D]. rewrite K in H. destruct (find _ (rev l)) as [[k' v']|] eqn:F; [|discriminate]. injection H as ->.
  apply rev_find_in in F. destruct F as [F E]. cbn in E. apply beqb_eq in E. now subst.
Qed.
Lemma named_keys {A} (l c : list (bytes * A)) : named_by l c -> forall k, In k (map fst l) <-> In k (map fst c).
Proof.
  intros N k. split; intro H; apply in_map_iff in H; destruct H as [[k' v] [E H]]; cbn in E; subst k'.
  - destruct N as [D K]. specialize (K k). destruct (find _ (rev l)) as [e|] eqn:F; [|exfalso; exact (rev_find_has (fun e => beqb (fst e) k) l _ H (beqb_refl k) F)].
    apply slookup_in in K. now apply (in_map fst) in K.
  - eapply named_entry in H; [|exact N]. now apply (in_map fst) in H.
Qed.
Lemma inputs_shown {B} (g : B -> input) (ms : list (bytes * (gtype * bool))) (l c : list (bytes * B)) :
  Forall2 (fun m e => fst e = fst m /\ input_reads P inown (fst (snd m)) (snd (snd m)) (g (snd e))) ms l -> named_by l c ->
  shows_inputs P inown false ms (sort_by qi_name (map (fun e => QInput (fst e) (non_null (input_type I FNoInput (g (snd e))))) c)).
Proof.
  intros F N. set (L := map _ c). assert (PL := sort_perm qi_name L).
  assert (NL : map qi_name L = map fst c) by (unfold L; rewrite map_map; reflexivity).
  assert (NM : map fst l = map fst ms) by (clear - F; induction F as [|m e ms l [E _] F IH]; cbn; congruence).
  split; [apply sort_sorted|]. split; [|split].
  - eapply Permutation_NoDup; [apply Permutation_sym, Permutation_map, PL|]. rewrite NL. apply N.
  - intro n. rewrite <- NM, (named_keys _ _ N), <- NL. split; apply Permutation_in; [apply Permutation_sym|]; apply Permutation_map, PL.
  - intros a H. apply (Permutation_in _ PL) in H. unfold L in H. apply in_map_iff in H. destruct H as [[k v] [<- H]]. cbn [qi_name qi_type fst snd]. apply (named_entry _ _ N) in H.
    clear - F H SR RG TI'. induction F as [|[n [t h]] e ms l [E R] F IH]; [contradiction|]. destruct H as [->|H].
    + exists t, h. cbn [fst snd] in *. subst k. split; [now left|]. now apply input_shown.
    + destruct (IH H) as [t' [h' [H' R']]]. exists t', h'. split; [now right|exact R'].
Qed.
Lemma args_numbered ts : forall k, map (fun m => match m with (n, (_, (_, t, h))) => (n, (t, h)) end) (numbered (arg_members P) k ts) = args_of P ts.
Proof.
  induction ts as [|t ts IH]; intro k; cbn [numbered args_of flat_map]; [reflexivity|]. rewrite map_app, IH. f_equal. unfold arg_members, members_of.
  destruct (t_kind decls t); try reflexivity. rewrite map_map. apply map_ext. now intros [n [[i t'] h]].
Qed.
Lemma args_shown ts ins infields : args_read P inown ts ins infields -> shows_inputs P inown false (args_of P ts) (method_args_ql I infields).
Proof.
  intros [_ [l [F N]]]. unfold method_args_ql. apply (inputs_shown snd _ l); [|exact N]. rewrite <- (args_numbered ts 0).
  clear - F. induction F as [|[n [nr [[i t] h]]] e ms l [E [_ [R _]]] F IH]; cbn [map]; constructor; [|exact IH]. auto.
Qed.
Definition no_args_shown : shows_inputs P inown false [] [].
Proof. split; [constructor|]. split; [constructor|]. split; [tauto|]. intros a []. Qed.
Lemma fun_shown k fn it ins outs isid : nth_error (ps_methods s) k = Some fn -> fun_reads P own iown it ins outs isid fn ->
  exists q nn i t, member_type I (PMethod k) = Some (q, if it then nn else false) /\ ok_ref (ref_of q) /\
    only_at (data_result P) outs i t /\ go_ref P own iown t (isid || existsb (is_attr_id decls) outs) (ref_of (non_null (q, nn))) /\
    shows_inputs P inown false (args_of P (method_args it ins)) (object_args I (PMethod k)).
Proof.
  intros E [F1 F2 [t [O R]] _]. cbn [member_type object_args]. cbn [original is_p]. rewrite E. destruct (type_shown _ _ _ R) as [q [nn [-> [OK G]]]]. rewrite F1.
  exists q, nn, (pm_outnr fn), t. split; [reflexivity|]. repeat (split; [assumption|]). rewrite <- F1, <- F2. apply args_shown with (ins := pm_ins fn).
  eapply sr_funs; [exact SR|]. now apply nth_error_In in E.
Qed.
Lemma drop_nn q nn : ok_ref (ref_of q) -> ref_of (non_null (q, false)) = nullable (ref_of (non_null (q, nn))).
Proof. intro K. rewrite !ref_non_null. destruct nn; [reflexivity|]. now destruct (ref_of q). Qed.
Definition ins_of (t : gtype) : member -> list gtype := match t_kind decls t with KStruct => member_ins P | _ => args_after_first P end.
Lemma member_shown t m f : t_kind decls t = KStruct \/ t_kind decls t = KInterface -> member_reads P own iown (ps_methods s) t m f ->
  exists q, field_ql I f = Some q /\ qf_name q = fst m /\ member_ref P own iown (snd m) (ref_of (qf_type q)) /\
    shows_inputs P inown false (args_of P (ins_of t (snd m))) (qf_args q).
Proof.
  intros KT [N [_ [_ M]]]. unfold field_ql. destruct (snd m) as [i ft isid|i ft]; cbn [member_ref].
  - assert (INS : args_of P (ins_of t (MField i ft isid)) = args_of P (member_ins P (MField i ft isid))) by (unfold ins_of; now destruct KT as [-> | ->]).
    rewrite INS. cbn [member_ins]. destruct M as [_ M]. destruct (match t_kind decls ft with KFunc => true | _ => false end).
    + destruct M as [k [fn [-> [E R]]]]. destruct (fun_shown _ _ _ _ _ _ E R) as [q [nn [j [t' [Q [OK [O [G S]]]]]]]]. rewrite Q. eexists. split; [reflexivity|]. cbn [qf_name qf_type qf_args].
      split; [exact N|]. split; [|exact S]. exists j, t'. eexists. split; [exact O|]. split; [exact G|]. now apply drop_nn.
    + destruct (type_shown _ _ _ M) as [q [nn [Q [_ G]]]].
      assert (X : member_type I (pf_obj f) = type_of I (pf_obj f) /\ object_args I (pf_obj f) = []) by (destruct M; split; reflexivity).
      destruct X as [-> ->]. rewrite Q. eexists. split; [reflexivity|]. cbn [qf_name qf_type qf_args]. split; [exact N|]. split; [exact G|]. exact no_args_shown.
  - destruct M as [_ [k [fn [-> [E R]]]]]. destruct (fun_shown _ _ _ _ _ _ E R) as [q [nn [j [t' [Q [OK [O [G S]]]]]]]]. rewrite Q. eexists. split; [reflexivity|]. cbn [qf_name qf_type qf_args].
    split; [exact N|]. split; [exists j, t'; auto|].
    assert (INS : ins_of t (MMethod i ft) = method_args true (method_ins decls t ft)).
    { unfold ins_of, method_ins, args_after_first, member_ins, fun_ins_of, method_args. destruct KT as [-> | ->]; destruct ft; reflexivity. }
    rewrite INS. exact S.
Qed.
Definition name_keys (t : gtype) (extra : list bytes) : list N := map fnv1 (map fst (exposed P t) ++ extra).
Lemma fields_shown t extra F : t_kind decls t = KStruct \/ t_kind decls t = KInterface ->
  describes P own iown (ps_methods s) t extra F -> (forall f, In f extra -> pf_hidden f = true) ->
  NoDup (name_keys t (map pf_name extra)) ->
  exists l, fields_ql I (shown F) = Some l /\ shows_fields P own iown inown false (ins_of t) (exposed P t) l.
Proof.
  intros KT [L [FL K]] HX ND.
  assert (NL : map pf_name L = map fst (exposed P t)) by (clear - FL; induction FL as [|m f ms l [E _] F IH]; cbn; congruence).
  assert (PS : Permutation (map snd F) (L ++ extra)).
  { apply keyed_perm; [exact K|]. unfold name_keys in ND. rewrite <- NL, <- map_app, map_map in ND. exact ND. }
  assert (SH : Permutation (map snd (shown F)) L).
  { unfold shown. rewrite <- (filter_map_comm (fun f => negb (pf_hidden f)) snd F). etransitivity; [apply filter_perm, PS|]. rewrite filter_app, (filter_none _ extra), (filter_all _ L), app_nil_r; [reflexivity| |].
    - intros f H. clear - FL H. induction FL as [|m g ms l [_ [E _]] _ IH]; [contradiction|]. destruct H as [->|H]; [now rewrite E|auto].
    - intros f H. now rewrite HX. }
  assert (FQ : forall f, In f L -> exists m q, In m (exposed P t) /\ field_ql I f = Some q /\ qf_name q = fst m /\ qf_name q = pf_name f /\ member_ref P own iown (snd m) (ref_of (qf_type q)) /\
      shows_inputs P inown false (args_of P (ins_of t (snd m))) (qf_args q)).
  { intros f H. clear - FL H SR KT RG TI'. induction FL as [|m g ms l R _ IH]; [contradiction|]. destruct H as [->|H].
    - destruct (member_shown _ _ _ KT R) as [q [Q [E [G S]]]]. exists m, q. split; [now left|]. repeat (split; [assumption|]). destruct R as [N _]. split; [congruence|auto].
    - destruct (IH H) as [m' [q [M X]]]. exists m', q. split; [now right|exact X]. }
  unfold fields_ql.
  destruct (all_some_ok (fun f : N * pfield => field_ql I (snd f)) (shown F)) as [r E].
  { intros a Ha. apply (in_map snd), (Permutation_in _ SH) in Ha. destruct (FQ _ Ha) as [m [q [_ [-> _]]]]. discriminate. }
  rewrite E. eexists. split; [reflexivity|]. apply all_some_Forall2 in E. assert (PR := sort_perm qf_name r).
  split; [apply sort_sorted|]. split.
  - etransitivity; [apply Permutation_map, PR|]. rewrite <- NL. etransitivity; [|apply Permutation_map, SH].
    assert (X : map qf_name r = map pf_name (map snd (shown F))); [|now rewrite X].
    assert (FQ' : forall f, In f (shown F) -> exists m q, In m (exposed P t) /\ field_ql I (snd f) = Some q /\ qf_name q = pf_name (snd f)).
    { intros f Hf. apply (in_map snd), (Permutation_in _ SH) in Hf. destruct (FQ _ Hf) as [m [q [? [? [? [? _]]]]]]. eauto 6. }
    clear - E FQ'. induction E as [|a b la lb Q _ IH]; cbn; [reflexivity|]. f_equal; [|apply IH; intros; apply FQ'; now right].
    destruct (FQ' a (or_introl eq_refl)) as [m [q [_ [Q' E]]]]. congruence.
  - intros q H. apply (Permutation_in _ PR) in H.
    assert (X : exists a, In a (shown F) /\ field_ql I (snd a) = Some q).
    { clear - E H. induction E as [|a b la lb Q _ IH]; [contradiction|]. destruct H as [->|H]; [exists a; split; [now left|exact Q]|]. destruct (IH H) as [a' [? ?]]. exists a'. split; [now right|assumption]. }
    destruct X as [a [Ha Q]]. apply (in_map snd), (Permutation_in _ SH) in Ha. destruct (FQ _ Ha) as [m [q' [M [Q' [N [_ [G S]]]]]]]. rewrite Q in Q'. injection Q' as <-.
    exists (snd m). rewrite N, <- surjective_pairing. auto.
Qed.

(** ** All types *)
Lemma indexed_in {A B} (f : nat -> A -> B) l : forall k i a, nth_error l i = Some a -> In (f (k + i) a) (indexed f k l).
Proof.
  induction l as [|x l IH]; intros k [|i] a E; try discriminate; cbn in *.
  - injection E as ->. left. now rewrite Nat.add_0_r.
  - right. replace (k + SN i) with (SN k + i) by lia. now apply IH.
Qed.
Lemma indexed_map {A B C} (f : nat -> A -> B) (g : B -> C) (h : A -> C) l : (forall i a, In a l -> g (f i a) = h a) -> forall k, map g (indexed f k l) = map h l.
Proof. induction l as [|x l IH]; intros H k; cbn; [reflexivity|]. rewrite H by now left. f_equal. apply IH. intros; apply H. now right. Qed.
Lemma objects_shown l : (forall e, In e l -> slookup (ps_types s) (fst e) = Some (snd e)) -> forall k,
  exists ts, all_some (indexed (fun i t => obj_type I i (snd t)) k l) = Some ts /\ map q_name ts = map (fun e => Some (fst e)) l /\
    forall i e, nth_error l i = Some e -> exists is, In (Qlt TkObject (Some (fst e)) (Some []) (Some (false, FObjFields (k + i))) (Some is) None None None None None) ts /\
      exists t, own (fst e) = Some t /\ shows_types iown (interfaces_of P t) is.
Proof.
  induction l as [|e l IH]; intros H k; cbn [indexed all_some].
  - exists []. split; [reflexivity|]. split; [reflexivity|]. intros [|i] e E; discriminate.
  - destruct (obj_shown (fst e) (snd e) (H e (or_introl eq_refl)) k) as [is [-> X]]. destruct (IH (fun a Ha => H a (or_intror Ha)) (SN k)) as [ts [-> [N G]]].
    eexists. split; [reflexivity|]. split; [cbn; now rewrite N|]. intros [|i] e' E; cbn in E.
    + injection E as <-. exists is. rewrite Nat.add_0_r. split; [now left|exact X].
    + destruct (G i e' E) as [is' [G1 G2]]. exists is'. replace (k + SN i) with (SN k + i) by lia. split; [now right|exact G2].
Qed.
Lemma type_map_off l n : forall m, ~ In n (map name_or l) -> slookup (fold_left (fun m t => sset m (name_or t) t) l m) n = slookup m n.
Proof.
  induction l as [|q l IH]; intros m H; cbn; [reflexivity|]. rewrite IH; [|intro; apply H; now right]. rewrite slookup_sset.
  destruct (beqb n (name_or q)) eqn:B; [|reflexivity]. apply beqb_eq in B. exfalso. apply H. now left.
Qed.
Lemma type_map_in l q : forall m, NoDup (map name_or l) -> In q l -> slookup (fold_left (fun m t => sset m (name_or t) t) l m) (name_or q) = Some q.
Proof.
  induction l as [|q' l IH]; intros m D H; [contradiction|]. cbn. inversion D as [|x y NI D' E]; subst x y. destruct H as [->|H]; [|now apply IH].
  rewrite type_map_off by exact NI. now rewrite slookup_sset, beqb_refl.
Qed.

Hypothesis TB : tables_ok s.
Hypothesis AP : all_apart P p.
Lemma all_names : NoDup (map fst (ps_types s)) /\ (forall n, In n (map fst (ps_types s)) -> ~ In n (map fst (ps_ifaces s))).
Proof.
  split; [apply TB|]. intros n H H'. unfold all_apart in AP.
  assert (D : forall l l' : list bytes, NoDup (l ++ l') -> In n l -> In n l' -> False).
  { induction l as [|a l IH]; intros l' D K K'; [contradiction|]. cbn in D. inversion D as [|x y NI D' E]; subst x y. destruct K as [->|K]; [apply NI, in_or_app; now right|eauto]. }
  apply (D _ _ AP H). rewrite !in_app_iff. auto 6.
Qed.
Record type_list (l : list qlt) : Prop := {
  tl_all : all_types I = Some l;
  tl_sorted : by_name name_or l;
  tl_names : Permutation (map q_name l) (map Some (map fst (ps_types s) ++ map fst (ps_intypes s) ++ map en_name (g_enums P) ++ scalar_names ++ map fst (ps_ifaces s)));
  tl_obj i n v : nth_error (ps_types s) i = Some (n, v) ->
     exists is, In (Qlt TkObject (Some n) (Some []) (Some (false, FObjFields i)) (Some is) None None None None None) l /\ exists t, own n = Some t /\ shows_types iown (interfaces_of P t) is;
  tl_in i n j : nth_error (ps_intypes s) i = Some (n, j) -> In (Qlt TkInput (Some n) (Some []) None None None None (Some (false, FInput i)) None None) l;
  tl_enum i e : nth_error (g_enums P) i = Some e -> In (Qlt TkEnum (Some (en_name e)) (Some []) None None None (Some (false, FEnumValues i)) None None None) l;
  tl_iface i n v : nth_error (ps_ifaces s) i = Some (n, v) -> In (Qlt TkInterface (Some n) (Some []) (Some (false, FIfaceFields i)) (Some []) (Some (false, FPossible i)) None None None None) l }.
Lemma types_shown : exists l, type_list l.
Proof.
  destruct TB as [D1 D2 D3 F1 F2 F3]. rewrite Forall_forall in F1, F2, F3.
  destruct (objects_shown (ps_types s)) with (k := 0) as [ts [E [N G]]]; [intros [n v] H; now apply in_slookup_eq|].
  assert (IT : forall i n j, In (n, j) (ps_intypes s) -> fst (input_type I (FInput i) j) = Qlt TkInput (Some n) (Some []) None None None None (Some (false, FInput i)) None None).
  { intros i n j H. apply F3 in H. unfold in_ok in H. cbn in H. destruct j. destruct H as [-> [-> [-> [-> ->]]]]. reflexivity. }
  set (L := ts ++ indexed (fun i x => fst (input_type I (FInput i) (snd x))) 0 (ps_intypes s) ++ indexed (enum_type I) 0 (g_enums P) ++ scalars ++ indexed (fun i t => iface_type I i (snd t)) 0 (ps_ifaces s)).
  exists (sort_by name_or L). assert (PL := sort_perm name_or L).
  assert (IN : forall q, In q L -> In q (sort_by name_or L)) by (intro q; apply Permutation_in; now apply Permutation_sym).
  constructor.
  - unfold all_types. cbn [original is_p]. rewrite E. reflexivity.
  - apply sort_sorted.
  - etransitivity; [apply Permutation_map, PL|]. unfold L. rewrite !map_app, N, !map_map.
    rewrite (indexed_map _ q_name (fun e => Some (fst e))); [|intros i [n j] H; cbn [fst snd]; now rewrite (IT i n j H)].
    rewrite (indexed_map _ q_name (fun e => Some (en_name e))); [|reflexivity].
    rewrite (indexed_map _ q_name (fun e => Some (fst e))); [reflexivity|]. intros i [n v] H. cbn. apply F2 in H. unfold key_ok in H. cbn in H. now rewrite H.
  - intros i n v H. destruct (G i _ H) as [is [G1 G2]]. exists is. split; [|exact G2]. apply IN. unfold L. apply in_or_app. now left.
  - intros i n j H. apply IN. unfold L. apply in_or_app. right. apply in_or_app. left. rewrite <- (IT i n j) by (now apply nth_error_In in H).
    exact (indexed_in (fun i x => fst (input_type I (FInput i) (snd x))) (ps_intypes s) 0 i _ H).
  - intros i e H. apply IN. unfold L. rewrite !in_app_iff. do 2 right. left. exact (indexed_in (enum_type I) (g_enums P) 0 i _ H).
  - intros i n v H. apply IN. unfold L. rewrite !in_app_iff. do 4 right. pose proof (indexed_in (fun i t => iface_type I i (snd t)) (ps_ifaces s) 0 i _ H) as X.
    apply nth_error_In, F2 in H. unfold key_ok in H. cbn in H. cbv beta in X. unfold iface_type in X. cbn [snd Nat.add] in X. rewrite H in X. exact X.
Qed.
Lemma same_names : names_ok I.
Proof.
  destruct TB as [D1 D2 _ F1 F2 _]. rewrite Forall_forall in F1, F2. unfold key_ok in *. destruct all_names as [_ NB].
  constructor; cbn; intros n t n' t' H H' E; assert (X := H); assert (X' := H').
  1,2: (apply F1 in X || apply F2 in X); (apply F1 in X' || apply F2 in X'); cbn in X, X'; assert (NN : n' = n) by congruence; rewrite NN in H';
       apply in_slookup_eq in H; apply in_slookup_eq in H'; auto; congruence.
  apply F1 in X. apply F2 in X'. cbn in X, X'. apply (in_map fst) in H, H'. cbn in H, H'. apply (NB n); [exact H|]. congruence.
Qed.
Lemma keys_of t extra : keys_apart P t -> extra = [] \/ (exists a b, extra = [a; b] /\ pf_name a = bs "__schema" /\ pf_name b = bs "__type") -> NoDup (name_keys t (map pf_name extra)).
Proof.
  unfold keys_apart, name_keys. rewrite !map_app. intros D [-> | [a [b [-> [E1 E2]]]]]; cbn [map]; [|rewrite E1, E2; exact D].
  rewrite app_nil_r. clear - D. revert D. generalize (map fnv1 [bs "__schema"; bs "__type"]). intros l2. induction (map fnv1 (map fst (exposed P t))) as [|x l IH]; cbn; [constructor|].
  intro D. inversion D as [|y m NI D' E]; subst y m. constructor; [|auto]. intro H. apply NI, in_or_app. now left.
Qed.
Lemma struct_fields n v t : slookup (ps_types s) n = Some v -> own n = Some t -> keys_apart P t ->
  exists l, fields_ql I (shown (pt_fields v)) = Some l /\ shows_fields P own iown inown false (member_ins P) (exposed P t) l.
Proof.
  intros L O KA. destruct (sr_types _ _ _ _ _ _ _ _ SR) as [extra [X T]]. destruct (T _ _ L) as [t' [O' [_ [_ [_ [D _]]]]]]. rewrite O in O'. injection O' as <-.
  destruct (sr_own _ _ _ _ _ _ _ _ SR _ _ O) as [_ [KS _]].
  assert (EX : extra = [] \/ exists a b, extra = [a; b] /\ pf_name a = bs "__schema" /\ pf_name b = bs "__type" /\ pf_hidden a = true /\ pf_hidden b = true).
  { destruct inj as [[sv tf]|]; [|now left]. destruct X as [o [k [fn [-> _]]]]. right. eexists _, _. repeat split. }
  destruct (fields_shown t (if beqb n (p_query p) then extra else []) (pt_fields v) (or_introl KS) D) as [l [E S]].
  - destruct (beqb n (p_query p)); [|intros f []]. destruct EX as [-> | [a [b [-> [_ [_ [Ha Hb]]]]]]]; [intros f []|]. intros f [<-|[<-|[]]]; assumption.
  - apply keys_of; [exact KA|]. destruct (beqb n (p_query p)); [|now left]. destruct EX as [-> | [a [b [-> [Ea [Eb _]]]]]]; [now left|right; eauto].
  - exists l. split; [exact E|]. unfold ins_of in S. now rewrite KS in S.
Qed.
Lemma iface_fields n v t : slookup (ps_ifaces s) n = Some v -> iown n = Some t -> keys_apart P t ->
  exists l, fields_ql I (pt_fields v) = Some l /\ shows_fields P own iown inown false (args_after_first P) (exposed P t) l.
Proof.
  intros L O KA. destruct (sr_ifaces _ _ _ _ _ _ _ _ SR _ _ L) as [t' [O' [_ [_ [_ [D _]]]]]]. rewrite O in O'. injection O' as <-.
  destruct (sr_iown _ _ _ _ _ _ _ _ SR _ _ O) as [_ [KI _]].
  destruct (fields_shown t [] (pt_fields v) (or_intror KI) D) as [l [E S]]; [intros f []|now apply keys_of; [|left]|].
  exists l. split; [|unfold ins_of in S; now rewrite KI in S]. rewrite <- E. f_equal. unfold shown. symmetry. apply filter_all. intros f Hf.
  destruct D as [L' [FL [D K]]]. destruct f as [k f]. cbn. apply in_nlookup in Hf; [|exact D]. rewrite K in Hf. apply rev_find_in in Hf. destruct Hf as [Hf _]. rewrite app_nil_r in Hf.
  clear - FL Hf. induction FL as [|m g ms l [_ [E _]] _ IH]; [contradiction|]. destruct Hf as [->|Hf]; [now rewrite E|auto].
Qed.
Lemma slookup_nth {A} (l : list (bytes * A)) n v : slookup l n = Some v -> exists i, nth_error l i = Some (n, v).
Proof. intro H. apply slookup_in, In_nth_error in H. exact H. Qed.

Variable c : icache.
Hypothesis CK : cache_ok I c.
Theorem all_described : described P own iown inown qt mt false (args_after_first P) I c.
Proof.
  destruct types_shown as [l TL]. pose proof same_names as NO.
  assert (ND : NoDup (map name_or l)).
  { assert (X : map name_or l = map (fun o => match o with Some n => n | None => [] end) (map q_name l)) by (rewrite map_map; reflexivity).
    rewrite X. eapply Permutation_NoDup; [apply Permutation_sym, Permutation_map, (tl_names _ TL)|]. rewrite map_map, map_id. exact AP. }
  assert (NDQ : NoDup (map q_name l)).
  { eapply Permutation_NoDup; [apply Permutation_sym, (tl_names _ TL)|]. apply FinFun.Injective_map_NoDup; [intros a b [= ->]; reflexivity|exact AP]. }
  assert (FT : forall q n, q_name q = Some n -> In q l -> answers I c FType (name_arg n) (GPtr (Some (g_type q)))).
  { intros q n E H. pose proof (get_type_ok I c n CK) as G. rewrite (tl_all _ TL) in G. destruct G as [c' [G _]]. exists c'. cbn [call_intro name_arg]. rewrite G.
    unfold type_map. assert (NN : n = name_or q) by (unfold name_or; now rewrite E). now rewrite NN, type_map_in. }
  assert (OF : forall n v t, slookup (ps_types s) n = Some v -> own n = Some t -> keys_apart P t -> exists fl,
     shows_fields P own iown inown false (member_ins P) (exposed P t) fl /\ exists c', get_fields I c (pt_name v) (pt_name v) (shown (pt_fields v)) = Some (c', fl)).
  { intros n v t L O KA. destruct (struct_fields n v t L O KA) as [fl [E S]]. exists fl. split; [exact S|]. pose proof (get_fields_type I NO c n v CK (slookup_in _ _ _ L)) as G.
    rewrite E in G. destruct G as [c' [G _]]. eauto. }
  assert (ROOT : forall n t, own n = Some t -> exists v, slookup (ps_types s) n = Some v).
  { intros n t O. destruct (sr_own _ _ _ _ _ _ _ _ SR _ _ O) as [L _]. destruct (slookup (ps_types s) n) as [v|]; [eauto|contradiction]. }
  assert (NAMES : forall m, In m (map fst (ps_types s) ++ map fst (ps_intypes s) ++ map en_name (g_enums P) ++ scalar_names ++ map fst (ps_ifaces s)) <->
     own m <> None \/ iown m <> None \/ inown m <> None \/ In m (map en_name (g_enums P)) \/ In m scalar_names).
  { assert (KEY : forall A (tb : list (bytes * A)) m, In m (map fst tb) <-> slookup tb m <> None).
    { intros A tb m. split.
      - intro H. induction tb as [|[k w] tb IH]; [contradiction|]. cbn [slookup]. destruct (beqb m k) eqn:B; [discriminate|]. destruct H as [H|H]; [cbn in H; subst; rewrite beqb_refl in B; discriminate|auto].
      - destruct (slookup tb m) as [w|] eqn:E; [|contradiction]. intros _. apply slookup_in in E. now apply (in_map fst) in E. }
    intro m. rewrite !in_app_iff, !KEY.
    assert (E1 : slookup (ps_types s) m <> None <-> own m <> None).
    { split; intro H; [destruct (slookup (ps_types s) m) as [v|] eqn:E; [|contradiction]; destruct (sr_types _ _ _ _ _ _ _ _ SR) as [extra [_ T]]; destruct (T _ _ E) as [t [-> _]]; discriminate|].
      destruct (own m) as [t|] eqn:E; [|contradiction]. now apply (sr_own _ _ _ _ _ _ _ _ SR) in E. }
    assert (E2 : slookup (ps_ifaces s) m <> None <-> iown m <> None).
    { split; intro H; [destruct (slookup (ps_ifaces s) m) as [v|] eqn:E; [|contradiction]; destruct (sr_ifaces _ _ _ _ _ _ _ _ SR _ _ E) as [t [-> _]]; discriminate|].
      destruct (iown m) as [t|] eqn:E; [|contradiction]. now apply (sr_iown _ _ _ _ _ _ _ _ SR) in E. }
    assert (E3 : slookup (ps_intypes s) m <> None <-> inown m <> None).
    { split; intro H; [destruct (slookup (ps_intypes s) m) as [v|] eqn:E; [|contradiction]; destruct (sr_inputs _ _ _ _ _ _ _ _ SR _ _ E) as [t [-> _]]; discriminate|].
      destruct (inown m) as [t|] eqn:E; [|contradiction]. now apply (sr_inown _ _ _ _ _ _ _ _ SR) in E. }
    rewrite E1, E2, E3. tauto. }
  constructor.
  - intros n t O KA. destruct (ROOT _ _ O) as [v L]. destruct (slookup_nth _ _ _ L) as [i NI]. destruct (tl_obj _ TL i n v NI) as [is [Hq [t' [O' SI]]]]. rewrite O in O'. injection O' as <-.
    destruct (OF n v t L O KA) as [fl [S [c' G]]]. exists (FObjFields i), is, fl. split; [now apply FT|]. split; [exact SI|]. split; [exact S|]. intro args. exists c'. cbn [call_intro]. cbn [original is_p]. rewrite NI, G. reflexivity.
  - intros n t O KA. destruct (sr_iown _ _ _ _ _ _ _ _ SR _ _ O) as [L _]. destruct (slookup (ps_ifaces s) n) as [v|] eqn:E; [|contradiction]. clear L.
    destruct (slookup_nth _ _ _ E) as [i NI]. pose proof (tl_iface _ TL i n v NI) as Hq. destruct (iface_fields n v t E O KA) as [fl [EF S]].
    pose proof (get_fields_iface I NO c n v CK (slookup_in _ _ _ E)) as G. rewrite EF in G. destruct G as [c' [G _]].
    destruct (sr_ifaces _ _ _ _ _ _ _ _ SR _ _ E) as [t' [O' [_ [_ [_ [_ IM]]]]]]. rewrite O in O'. injection O' as <-.
    assert (X : exists ts, all_some (map (type_of I) (pt_impls v)) = Some ts /\ shows_types own (implementations_of P t) (map fst ts)).
    { assert (NT : forall it, In it (implementations_of P t) -> is_time decls it = false).
      { intros it Hi. unfold implementations_of, types_of in Hi. destruct (slookup (g_implemented P) (t_name decls t)) as [ts|] eqn:LL; [|contradiction]. exact (proj2 TI' _ _ _ (slookup_in _ _ _ LL) Hi). }
      clear - IM SR RG TI' NT. induction IM as [|it o ts os [KS [_ R]] _ IH]; [exists []; split; [reflexivity|constructor]|]. destruct IH as [r [Er Sr]]; [intros; apply NT; now right|]. cbn [map all_some]. assert (TF := NT it (or_introl eq_refl)).
      inversion R; subst; try congruence;
        try (match goal with H : enum_like _ _ |- _ => destruct H as [_ [_ H]]; rewrite KS in H; contradiction end);
        try (match goal with H : basic _ |- _ => rewrite KS in H; contradiction end).
      - match goal with H : own ?m = Some it |- _ => destruct (type_shown _ _ _ R) as [q [nn [Q [_ G]]]]; rewrite Q, Er; eexists; split; [reflexivity|]; constructor; [|exact Sr]; exists m; split; [exact H|] end.
        cbn [fst]. rewrite ref_non_null in G. cbn [type_of] in Q. destruct (sindex _ _ _) as [[i' v']|] eqn:SI; [|discriminate]. unfold obj_type in Q. match type of Q with match (match ?x with _ => _ end) with _ => _ end = _ => destruct x; [|discriminate] end.
        injection Q as <- <-. pose proof (sindex_slookup (ps_types s) n 0) as X. cbn [original is_p] in SI. rewrite SI in X. destruct (slookup (ps_types s) n) as [w|] eqn:LW; [|discriminate].
        destruct X as [jj [[= _ ->] _]]. destruct (sr_types _ _ _ _ _ _ _ _ SR) as [extra [_ T]]. destruct (T _ _ LW) as [t0 [_ [-> _]]]. reflexivity.
      - exfalso. match goal with H : _ = KSlice \/ _ |- _ => destruct H; congruence end. }
    destruct X as [ts [ET ST]]. exists (FIfaceFields i), (FPossible i), fl, (map fst ts). split; [now apply FT|]. split; [exact S|].
    split; [intro args; exists c'; cbn [call_intro]; cbn [original is_p]; rewrite NI, G; reflexivity|]. split; [exact ST|].
    intro args. exists c. cbn [call_intro]. cbn [original is_p]. rewrite NI, ET, map_map. reflexivity.
  - intros n t O. destruct (sr_inown _ _ _ _ _ _ _ _ SR _ _ O) as [L _]. destruct (slookup (ps_intypes s) n) as [j|] eqn:E; [|contradiction]. clear L.
    destruct (slookup_nth _ _ _ E) as [i NI]. pose proof (tl_in _ TL i n j NI) as Hq. destruct (sr_inputs _ _ _ _ _ _ _ _ SR _ _ E) as [t' [O' [fs [ct [z [-> [_ [FM NB]]]]]]]]. rewrite O in O'. injection O' as <-.
    eexists (FInput i), _. split; [now apply FT|]. split.
    + apply (inputs_shown (fun j => j) _ fs ct); [|exact NB]. unfold members_of. clear - FM. induction FM as [|[n' [[i' t'] h]] e ms l' [E [R _]] F IH]; cbn [map]; constructor; auto.
    + intro args. exists c. cbn [call_intro]. cbn [original is_p]. rewrite NI. reflexivity.
  - intros e He. destruct (In_nth_error _ _ He) as [i NI]. pose proof (tl_enum _ TL i e NI) as Hq. eexists (FEnumValues i), _. split; [now apply FT|]. split; [apply sort_sorted|]. split; [apply sort_perm|].
    intro args. exists c. cbn [call_intro]. cbn [original is_enums]. rewrite NI. reflexivity.
  - exists l. split; [|split; [apply (tl_sorted _ TL)|split; [exact NDQ|]]].
    + intro args. pose proof (get_all_ok I c CK) as G. rewrite (tl_all _ TL) in G. destruct G as [c' [G _]]. exists c'. cbn [call_intro]. now rewrite G.
    + intro n. split; intro H.
      * apply (Permutation_in _ (tl_names _ TL)), in_map_iff in H. destruct H as [m [<- H]]. exists m. split; [reflexivity|]. now apply NAMES.
      * destruct H as [m [-> H]]. apply (Permutation_in _ (Permutation_sym (tl_names _ TL))), in_map. now apply NAMES.
  - intros n O IO INO NE NS. pose proof (get_type_ok I c n CK) as G. rewrite (tl_all _ TL) in G. destruct G as [c' [G _]]. exists c'. cbn [call_intro name_arg]. rewrite G.
    unfold type_map. rewrite type_map_off; [reflexivity|]. intro H.
    assert (H' : In (Some n) (map q_name l) \/ n = [] /\ exists q, In q l /\ q_name q = None).
    { apply in_map_iff in H. destruct H as [q [E H]]. unfold name_or in E. destruct (q_name q) as [m|] eqn:Q; [left; subst m; rewrite <- Q; now apply in_map|right; eauto]. }
    destruct H' as [H'|[_ [q [H' Q]]]].
    + apply (Permutation_in _ (tl_names _ TL)), in_map_iff in H'. destruct H' as [m [[= ->] H']]. apply NAMES in H'. tauto.
    + apply (in_map q_name), (Permutation_in _ (tl_names _ TL)), in_map_iff in H'. destruct H' as [m [E _]]. rewrite Q in E. discriminate.
  - intro KA. destruct (ROOT _ _ (sr_query _ _ _ _ _ _ _ _ SR)) as [v L]. destruct (OF _ _ _ L (sr_query _ _ _ _ _ _ _ _ SR) KA) as [fl [S [c' G]]].
    exists fl. split; [exact S|]. intro args. exists c'. cbn [call_intro]. cbn [original is_p]. rewrite L, G. reflexivity.
  - intro KA. destruct (ROOT _ _ (sr_query _ _ _ _ _ _ _ _ SR)) as [vq Lq]. destruct (ROOT _ _ (sr_method _ _ _ _ _ _ _ _ SR)) as [v L].
    destruct (OF _ _ _ L (sr_method _ _ _ _ _ _ _ _ SR) KA) as [fl [S [c' G]]]. exists fl. split; [exact S|]. intro args. cbn [call_intro].
    unfold answers. cbn [call_intro original is_p]. rewrite L, Lq. unfold get_fields in *. destruct (slookup (ic_fields c) (pt_name v)) as [x|].
    + injection G as _ ->. eexists. reflexivity.
    + destruct (fields_ql I (shown (pt_fields v))) as [x|]; [|discriminate]. injection G as _ ->. eexists. reflexivity.
Qed.
End Described.
