(** * The values of introspection have their Go types and its functions do not panic (proofs for C57) *)
From Coq Require Import String Arith NArith ZArith Bool List Lia Permutation.
From Verif Require Import Base JsonModel NameModel Schema ResModel GoTypes ParseModel ParseFacts ParseTerm SchemaSpec ParseWhole IntroModel IntroProof IntroSpec IntroTables IntroFacts
  SampleProg SampleIntro TypeSpec TypeCheck.
Import ListNotations.
Open Scope nat_scope.
Local Notation SN := Datatypes.S.

(** the types of the functions in grahql_types.go 79-109 and of __type *)
Definition fields_fn := TFunc [y_depr] [TSlice y_field] false.
Definition types_fn := TFunc [] [TSlice y_type] false.
Definition values_fn := TFunc [y_depr] [TSlice y_enumvalue] false.
Definition inputs_fn := TFunc [] [TSlice y_input] false.
Definition type_fn := TFunc [TPtr y_ctx; TStruct [fd "Name" str]] [TPtr y_type] false.

Lemma sindex_nth {A} (l : list (bytes * A)) k : forall i j v, sindex l k i = Some (j, v) -> exists m, j = i + m /\ m < length l.
Proof.
  induction l as [|[k' v'] l IH]; intros i j v E; cbn in E; [discriminate|]. destruct (beqb k k'); [injection E as <- _; exists 0; cbn; lia|].
  destruct (IH _ _ _ E) as [m [-> H]]. exists (SN m). cbn. lia.
Qed.
Lemma in_indexed {A C} (f : nat -> A -> C) l : forall k x, In x (indexed f k l) -> exists i a, x = f (k + i) a /\ In a l /\ i < length l.
Proof.
  induction l as [|a l IH]; intros k x H; [contradiction|]. destruct H as [<-|H].
  - exists 0, a. rewrite Nat.add_0_r. cbn. split; [reflexivity|]. split; [now left|lia].
  - destruct (IH _ _ H) as [i [b [-> [J K]]]]. exists (SN i), b. split; [f_equal; lia|]. split; [now right|cbn; lia].
Qed.

Section Typed.
Variables (ds : list gdecl) (renamed : list (bytes * bytes)) (impls impled : list (bytes * list gtype)) (es : list enum) (dirs : list pdir) (locs : list (N * list nat)).
Definition PP : program := with_yarql ds renamed impls impled es dirs locs.
Notation P := PP.
Notation decls := (g_decls P).
Variable p : pschema.
Notation s := (p_st p).

(** the type of a function of introspection, if there is what it is about *)
Definition within_ (n i : nat) (t : gtype) : option gtype := if i <? n then Some t else None.
Definition sig (f : ifun) : option gtype :=
  match f with
  | FTypes => Some types_fn
  | FQuery | FMethod => Some fields_fn
  | FObjFields i => within_ (length (ps_types s)) i fields_fn
  | FIfaceFields i => within_ (length (ps_ifaces s)) i fields_fn
  | FPossible i => within_ (length (ps_ifaces s)) i types_fn
  | FEnumValues i => within_ (length (g_enums P)) i values_fn
  | FInput i => within_ (length (ps_intypes s)) i inputs_fn
  | FNoInput => Some inputs_fn
  | FType => Some type_fn
  end.
Definition slot (t : gtype) (c : option clo) : Prop := match c with Some (_, f) => sig f = Some t | None => True end.
Fixpoint qlt_ok (q : qlt) : Prop :=
  match q with
  | Qlt _ _ _ fs is ps es ins o _ =>
      slot fields_fn fs /\ match is with Some l => (fix all l := match l with [] => True | x :: r => qlt_ok x /\ all r end) l | None => True end /\
      slot types_fn ps /\ slot values_fn es /\ slot inputs_fn ins /\ match o with Some t => qlt_ok t | None => True end
  end.
Definition input_ok (i : qlinput) : Prop := qlt_ok (qi_type i).
Definition qfield_ok (f : qlfield) : Prop := Forall input_ok (qf_args f) /\ qlt_ok (qf_type f).
Record kept (c : icache) : Prop := {
  kp_map m : ic_map c = Some m -> Forall (fun e => qlt_ok (snd e)) m;
  kp_list l : ic_list c = Some l -> Forall qlt_ok l;
  kp_fields : Forall (fun e => Forall qfield_ok (snd e)) (ic_fields c) }.

(** ** Types of values *)
Variable B : gtype -> gval -> Prop.
Variable Fu : gtype -> N -> Prop.
(** the functions of a type: those of introspection and others *)
Definition funs (t : gtype) (n : N) : Prop := match clo_of n with Some (_, f) => sig f = Some t | None => Fu t n end.
Notation R := (has_type P B funs).
Hypothesis BK : forall k, B y_kind (GUint W8 (tkind_code k)).
Hypothesis BL : forall l, B y_loc (GUint W8 (ql_location l)).
Hypothesis BS : forall n, B str (GString n).
Hypothesis BB : forall b, B boolean (GBool b).

Lemma R_str n : R str (GString n). Proof. apply HBasic; [reflexivity|exact Logic.I|reflexivity|apply BS]. Qed.
Lemma R_bool n : R boolean (GBool n). Proof. apply HBasic; [reflexivity|exact Logic.I|reflexivity|apply BB]. Qed.
Lemma R_gstr n : R (TPtr str) (g_str n).
Proof. destruct n; [eapply HPtr; [reflexivity|reflexivity|reflexivity|apply R_str]|apply HNilPtr; reflexivity]. Qed.
Lemma R_fun ins outs va c : slot (TFunc ins outs va) c -> R (TFunc ins outs va) (g_fun c).
Proof.
  destruct c as [[self f]|]; intro H; [|apply HNilFunc; reflexivity]. unfold g_fun. apply HFunc; [reflexivity|reflexivity|]. unfold funs. now rewrite clo_code_back.
Qed.
Lemma R_slice t l : Forall (R t) l -> R (TSlice t) (GSlice (Some l)).
Proof. intro H. eapply HSlice; [reflexivity|reflexivity|reflexivity|exact H]. Qed.
Lemma R_nil t : R (TSlice t) (GSlice None). Proof. apply HNilSlice; reflexivity. Qed.
Ltac fields := apply HStruct; [reflexivity|reflexivity|]; unfold g_fields; cbn [map]; repeat (apply Forall2_cons; [split; [reflexivity|cbn [snd f_type fd fdt]]|]); try apply Forall2_nil.
Lemma R_type : forall q, qlt_ok q -> R y_type (g_type q).
Proof.
  fix IH 1. intros [k n d fs is ps es' ins o u] H. cbn [qlt_ok] in H. destruct H as (H1 & H2 & H3 & H4 & H5 & H6). cbn [g_type].
  fields; [|apply R_gstr|apply R_gstr|now apply R_fun| |now apply R_fun|now apply R_fun|now apply R_fun| |apply R_gstr|apply R_str|apply R_nil|apply R_nil].
  - apply HBasic; [reflexivity|exact Logic.I|reflexivity|apply BK].
  - destruct is as [l|]; [|apply R_nil]. apply R_slice. clear - IH H2. revert l H2. fix IHl 1. intros [|x l] H2; [constructor|]. destruct H2 as [H2 H3]. cbn [map]. constructor; [exact (IH x H2)|exact (IHl l H3)].
  - destruct o as [t|]; [|apply HNilPtr; reflexivity]. eapply HPtr; [reflexivity|reflexivity|reflexivity|]. exact (IH t H6).
Qed.
Lemma Forall_maps {A} (Q : A -> Prop) (f : A -> gval) t l : (forall a, Q a -> R t (f a)) -> Forall Q l -> Forall (R t) (map f l).
Proof. intros H F. induction F; cbn; constructor; auto. Qed.
Lemma R_input i : input_ok i -> R y_input (g_input i).
Proof. intro H. unfold g_input. fields; [apply R_str|apply R_gstr|now apply R_type|apply R_gstr]. Qed.
Lemma R_field f : qfield_ok f -> R y_field (g_field f).
Proof. intros [H1 H2]. unfold g_field. fields; [apply R_str|apply R_gstr|apply R_slice; eapply Forall_maps; [apply R_input|exact H1]|now apply R_type|apply R_bool|apply R_gstr]. Qed.
Lemma R_enumvalue n : R y_enumvalue (g_enumvalue n).
Proof. unfold g_enumvalue. fields; [apply R_str|apply R_gstr|apply R_bool|apply R_gstr]. Qed.

(** ** The value of __schema *)
Lemma sorted_forall {A} (key : A -> bytes) (Q : A -> Prop) l : Forall Q l -> Forall Q (sort_by key l).
Proof. intro H. eapply Permutation_Forall; [apply Permutation_sym, sort_perm|exact H]. Qed.
Definition dir_ok (d : qldir) : Prop := qd_args d = [] /\ Forall (fun l => exists x, l = ql_location x) (qd_locs d).
Lemma dirs_ok : Forall dir_ok (directives_ql P).
Proof.
  unfold directives_ql. apply sorted_forall. match goal with |- Forall _ (fold_left ?f ?l _) => enough (G : forall res, Forall dir_ok res -> Forall dir_ok (fold_left f l res)) by (apply G; constructor) end.
  induction (flat_map snd (g_dirlocs P)) as [|i l IH]; intros res H; cbn [fold_left]; [exact H|]. apply IH. destruct (nth_error (g_dirs P) i) as [d|]; [|exact H].
  destruct (existsb _ res); [exact H|]. apply Forall_app. split; [exact H|]. constructor; [|constructor]. split; [reflexivity|]. cbn [qd_locs]. unfold dir_locs.
  induction (pd_where d) as [|e le IHe]; cbn [map]; [constructor|]. constructor; [eauto|exact IHe].
Qed.
Lemma R_dir d : dir_ok d -> R y_dir (g_dir d).
Proof.
  intros [E H]. unfold g_dir. rewrite E. fields; [apply R_str|apply R_gstr| |apply R_nil|apply R_slice; constructor].
  apply R_slice. induction H as [|l ls [x ->] H IH]; cbn [map]; constructor; [|exact IH]. apply HBasic; [reflexivity|exact Logic.I|reflexivity|apply BL].
Qed.
Lemma R_root n f : sig f = Some fields_fn -> R (TPtr y_type) (GPtr (Some (g_type (root_type n f)))).
Proof. intro H. eapply HPtr; [reflexivity|reflexivity|reflexivity|]. apply R_type. cbn [qlt_ok root_type slot]. auto 10. Qed.
Theorem R_schema qn mn : R (g_qlschema P) (schema_value P qn mn).
Proof.
  unfold schema_value. change (g_qlschema P) with y_schema.
  fields; [now apply R_fun|apply R_nil|now apply R_root|now apply R_root|apply HNilPtr; reflexivity|]. apply R_slice. eapply Forall_maps; [apply R_dir|apply dirs_ok].
Qed.
Theorem R_typefn : R (g_typefn P) type_function. Proof. change (g_typefn P) with type_fn. now apply R_fun. Qed.

(** ** The results of the functions: what there is has its type *)
Section Parts.
Variable I : ischema.
Hypothesis L1 : length (ps_types (p_st (is_p I))) = length (ps_types s).
Hypothesis L2 : length (ps_ifaces (p_st (is_p I))) = length (ps_ifaces s).
Hypothesis L3 : length (ps_intypes (p_st (is_p I))) = length (ps_intypes s).
Hypothesis L4 : is_enums I = g_enums P.
Lemma nth_within {A} (l : list A) i a n t : nth_error l i = Some a -> length l = n -> within_ n i t = Some t.
Proof. intros H <-. unfold within_. assert (X : nth_error l i <> None) by congruence. apply nth_error_Some in X. clear H. rename X into H. apply Nat.ltb_lt in H. now rewrite H. Qed.

Lemma all_some_forall {A} (Q : A -> Prop) l : forall r, all_some l = Some r -> (forall a, In (Some a) l -> Q a) -> Forall Q r.
Proof.
  induction l as [|[a|] l IH]; intros r E H; cbn in E; [injection E as <-; constructor| |discriminate]. destruct (all_some l) as [r'|]; [|discriminate]. injection E as <-.
  constructor; [apply H; now left|]. apply IH; [reflexivity|]. intros; apply H; now right.
Qed.
Lemma ok_list l : Forall qlt_ok l -> (fix all l := match l with [] => True | x :: r => qlt_ok x /\ all r end) l.
Proof. induction 1; cbn; auto. Qed.
Lemma scalar_ok n d u : qlt_ok (scalar n d u). Proof. cbn. auto 10. Qed.
Lemma blank_ok k n d : qlt_ok (Qlt k n d None None None None None None None). Proof. cbn. auto 10. Qed.
Lemma of_ok k t u : qlt_ok t -> qlt_ok (Qlt k None None None None None None None (Some t) u). Proof. cbn. auto 10. Qed.
Lemma non_null_ok t : qlt_ok (fst t) -> qlt_ok (non_null t). Proof. unfold non_null. destruct (snd t); [apply of_ok|auto]. Qed.
Lemma input_type_ok : forall j f, sig f = Some inputs_fn -> qlt_ok (fst (input_type I f j)).
Proof.
  fix IH 1. intros [k en isid isf ist fl [e|] z sn ct zv] f H; cbn [input_type]; (destruct isid; [apply scalar_ok|]); (destruct ist; [apply scalar_ok|]); (destruct isf; [apply scalar_ok|]);
    destruct k; cbn [fst]; try apply blank_ok; try exact (scalar_ok _ _ _); try solve [cbn [qlt_ok slot mine]; auto 10].
  - apply of_ok, non_null_ok, IH. reflexivity.
  - apply of_ok, non_null_ok, IH. reflexivity.
Qed.
Lemma args_ok o : Forall input_ok (object_args I o).
Proof.
  unfold object_args. destruct o as [| | | |k| | |]; try constructor. destruct (nth_error _ k) as [m|]; [|constructor]. unfold method_args_ql. apply sorted_forall. apply Forall_forall. intros x Hx.
  apply in_map_iff in Hx. destruct Hx as [e [<- _]]. unfold input_ok. cbn [qi_type]. apply non_null_ok, input_type_ok. reflexivity.
Qed.
Lemma in_within n i t : i < n -> within_ n i t = Some t. Proof. unfold within_. intro H. apply Nat.ltb_lt in H. now rewrite H. Qed.
Lemma iface_type_ok i t : i < length (ps_ifaces s) -> qlt_ok (iface_type I i t).
Proof. intro H. cbn [qlt_ok iface_type slot mine]. unfold sig. rewrite !in_within by exact H. auto 10. Qed.
Lemma iface_ref_ok n q : iface_ref I n = Some q -> qlt_ok q.
Proof.
  unfold iface_ref. destruct (sindex _ n 0) as [[i t]|] eqn:E; [|discriminate]. intros [= <-]. apply sindex_nth in E. destruct E as [m [-> H]]. apply iface_type_ok. rewrite <- L2. exact H.
Qed.
Lemma obj_type_ok i t q : i < length (ps_types s) -> obj_type I i t = Some q -> qlt_ok q.
Proof.
  intro H. unfold obj_type. destruct (all_some _) as [is|] eqn:E; [|discriminate]. intros [= <-]. cbn [qlt_ok slot mine]. unfold sig. rewrite in_within by exact H. split; [reflexivity|]. split; [|auto].
  apply ok_list. eapply all_some_forall; [exact E|]. intros a Ha. apply in_map_iff in Ha. destruct Ha as [o [Ho _]]. destruct o; try discriminate. eapply iface_ref_ok; eauto.
Qed.
Lemma enum_type_ok i e : i < length (g_enums P) -> qlt_ok (enum_type I i e).
Proof. intro H. cbn [qlt_ok enum_type slot mine]. unfold sig. rewrite in_within by exact H. auto 10. Qed.
Lemma type_of_ok o : forall t, type_of I o = Some t -> qlt_ok (fst t).
Proof.
  induction o as [e IH|n gn pk|h k|e IH|k|i| |n gn pk]; intros t E; cbn [type_of] in E.
  - destruct (type_of I e) as [u|]; [|discriminate]. injection E as <-. cbn [fst]. apply of_ok, non_null_ok, IH. reflexivity.
  - destruct (sindex _ n 0) as [[i v]|] eqn:S; [|discriminate]. destruct (obj_type I i v) as [q|] eqn:O; [|discriminate]. injection E as <-. apply sindex_nth in S. destruct S as [m [-> H]].
    eapply obj_type_ok; [|exact O]. rewrite <- L1. exact H.
  - injection E as <-. unfold data_type. cbn [fst]. destruct h; [apply scalar_ok|]. destruct k; first [apply blank_ok|exact (scalar_ok _ _ _)].
  - destruct (type_of I e) as [u|]; [|discriminate]. injection E as <-. cbn [fst]. now apply IH.
  - discriminate.
  - destruct (nth_error (is_enums I) i) as [e|] eqn:N; [|discriminate]. injection E as <-. apply enum_type_ok. rewrite <- L4. apply nth_error_Some. congruence.
  - injection E as <-. apply scalar_ok.
  - destruct (iface_ref I n) as [q|] eqn:Q; [|discriminate]. injection E as <-. eapply iface_ref_ok; eauto.
Qed.
Lemma member_type_ok o t : member_type I o = Some t -> qlt_ok (fst t).
Proof.
  destruct o as [| | | |k| | |]; try apply type_of_ok. cbn [member_type]. destruct (nth_error _ k) as [m|]; [|discriminate]. destruct (type_of I (pm_out m)) as [u|] eqn:E; [|discriminate].
  intros [= <-]. cbn [fst]. eapply type_of_ok; eauto.
Qed.
Lemma fields_ok fs l : fields_ql I fs = Some l -> Forall qfield_ok l.
Proof.
  unfold fields_ql. destruct (all_some _) as [r|] eqn:E; [|discriminate]. intros [= <-]. apply sorted_forall. eapply all_some_forall; [exact E|]. intros a Ha.
  apply in_map_iff in Ha. destruct Ha as [f [Hf _]]. unfold field_ql in Hf. destruct (member_type I (pf_obj (snd f))) as [t|] eqn:M; [|discriminate]. injection Hf as <-.
  split; [apply args_ok|]. cbn [qf_type]. eapply non_null_ok, member_type_ok; eauto.
Qed.
Lemma all_types_ok l : all_types I = Some l -> Forall qlt_ok l.
Proof.
  unfold all_types. destruct (all_some _) as [ts|] eqn:E; [|discriminate]. intros [= <-]. apply sorted_forall. apply Forall_app; split; [|apply Forall_app; split; [|apply Forall_app; split; [|do 7 (apply Forall_cons; [apply scalar_ok|])]]].
  - eapply all_some_forall; [exact E|]. intros a Ha. apply in_indexed in Ha. destruct Ha as [i [t [Q [_ H]]]]. symmetry in Q. eapply obj_type_ok; [|exact Q]. rewrite <- L1. exact H.
  - apply Forall_forall. intros x Hx. apply in_indexed in Hx. destruct Hx as [i [t [-> [_ H]]]]. apply input_type_ok. unfold sig. rewrite in_within; [reflexivity|]. rewrite <- L3. exact H.
  - apply Forall_forall. intros x Hx. apply in_indexed in Hx. destruct Hx as [i [t [-> [_ H]]]]. apply enum_type_ok. rewrite <- L4. exact H.
  - apply Forall_forall. intros x Hx. apply in_indexed in Hx. destruct Hx as [i [t [-> [_ H]]]]. apply iface_type_ok. rewrite <- L2. exact H.
Qed.

Lemma sset_all {A} (Q : bytes * A -> Prop) l k v : Forall Q l -> Q (k, v) -> Forall Q (sset l k v).
Proof. induction 1 as [|[a b] l H F IH]; cbn; intro K; [auto|]. destruct (beqb k a); constructor; auto. Qed.
Lemma type_map_ok l : Forall qlt_ok l -> Forall (fun e => qlt_ok (snd e)) (type_map l).
Proof.
  unfold type_map. intro H. enough (G : forall m, Forall (fun e : bytes * qlt => qlt_ok (snd e)) m -> Forall (fun e => qlt_ok (snd e)) (fold_left (fun m t => sset m (name_or t) t) l m)) by (apply G; constructor).
  induction H as [|q l Hq H IH]; intros m Hm; cbn [fold_left]; [exact Hm|]. apply IH. now apply sset_all.
Qed.
Lemma slookup_all {A} (Q : A -> Prop) (l : list (bytes * A)) k v : Forall (fun e => Q (snd e)) l -> slookup l k = Some v -> Q v.
Proof. intros H E. rewrite Forall_forall in H. apply slookup_in in E. exact (H _ E). Qed.
Lemma kept_all c c' l : kept c -> get_all I c = Some (c', l) -> kept c' /\ Forall qlt_ok l.
Proof.
  intros [K1 K2 K3]. unfold get_all. destruct (ic_list c) as [l0|] eqn:E; [intros [= <- <-]; split; [now constructor; [|rewrite E|]|auto]|].
  destruct (all_types I) as [l0|] eqn:A; [|discriminate]. intros [= <- <-]. apply all_types_ok in A. split; [|exact A]. constructor; cbn; auto. now intros l [= <-].
Qed.
Lemma kept_type c c' n q : kept c -> get_type I c n = Some (c', q) -> kept c' /\ match q with Some q => qlt_ok q | None => True end.
Proof.
  intros K. unfold get_type. destruct (ic_map c) as [m|] eqn:E.
  - intros [= <- <-]. split; [exact K|]. destruct (slookup m n) as [q|] eqn:S; [|exact Logic.I]. eapply slookup_all; [apply (kp_map _ K _ E)|exact S].
  - destruct (get_all I c) as [[c1 l]|] eqn:G; [|discriminate]. intros [= <- <-]. destruct (kept_all _ _ _ K G) as [[K1 K2 K3] Hl]. pose proof (type_map_ok l Hl) as M. split.
    + constructor; cbn; auto. now intros m [= <-].
    + destruct (slookup (type_map l) n) as [q|] eqn:S; [|exact Logic.I]. eapply slookup_all; eauto.
Qed.
Lemma kept_get c c' k k' fs l : kept c -> get_fields I c k k' fs = Some (c', l) -> kept c' /\ Forall qfield_ok l.
Proof.
  intros K. unfold get_fields. destruct (slookup (ic_fields c) k) as [l0|] eqn:S.
  - intros [= <- <-]. split; [exact K|]. exact (slookup_all (Forall qfield_ok) _ _ _ (kp_fields _ K) S).
  - destruct (fields_ql I fs) as [l0|] eqn:F; [|discriminate]. intros [= <- <-]. apply fields_ok in F. split; [|exact F]. destruct K. constructor; cbn; auto. now apply sset_all.
Qed.
(** a function that returns something returns a value of its type *)
Lemma call_typed c f ins o args c' v : kept c -> sig f = Some (TFunc ins [o] false) -> call_intro I c f args = Some (c', v) -> kept c' /\ R o v.
Proof.
  intros K S E.
  assert (LF : forall k k' fs, list_of (get_fields I c k k' fs) = Some (c', v) -> kept c' /\ R (TSlice y_field) v).
  { intros k k' fs H. unfold list_of in H. destruct (get_fields I c k k' fs) as [[c1 l]|] eqn:G; [|discriminate]. injection H as <- <-. destruct (kept_get _ _ _ _ _ _ K G) as [K' F].
    split; [exact K'|]. apply R_slice. eapply Forall_maps; [apply R_field|exact F]. }
  assert (SI : forall n i t, within_ n i t = Some (TFunc ins [o] false) -> t = TFunc ins [o] false) by (unfold within_; intros n i t; destruct (i <? n); congruence).
  destruct f; cbn [sig] in S; try apply SI in S; cbn [call_intro] in E.
  - injection S as <- <-. destruct (get_all I c) as [[c1 l]|] eqn:G; [|discriminate]. injection E as <- <-. destruct (kept_all _ _ _ K G) as [K' F]. split; [exact K'|]. apply R_slice. eapply Forall_maps; [apply R_type|exact F].
  - injection S as <- <-. destruct (slookup _ _); [|discriminate]. eapply LF; eauto.
  - injection S as <- <-. destruct (slookup _ _); [|discriminate]. destruct (slookup _ (p_query _)); [|discriminate]. eapply LF; eauto.
  - injection S as <- <-. destruct (nth_error _ _) as [[? ?]|]; [|discriminate]. eapply LF; eauto.
  - injection S as <- <-. destruct (nth_error _ _) as [[? ?]|]; [|discriminate]. eapply LF; eauto.
  - injection S as <- <-. destruct (nth_error _ _) as [[? t]|]; [|discriminate]. destruct (all_some _) as [l|] eqn:A; [|discriminate]. injection E as <- <-. split; [exact K|]. apply R_slice.
    apply (Forall_maps (fun q => qlt_ok (fst q))); [intros; now apply R_type|]. eapply all_some_forall; [exact A|]. intros a Ha. apply in_map_iff in Ha. destruct Ha as [x [Hx _]]. eapply type_of_ok; eauto.
  - injection S as <- <-. destruct (nth_error _ _) as [e|]; [|discriminate]. injection E as <- <-. split; [exact K|]. apply R_slice. apply (Forall_maps (fun _ => True)); [intros; apply R_enumvalue|]. apply Forall_forall. auto.
  - injection S as <- <-. destruct (nth_error _ _) as [[? j]|]; [|discriminate]. injection E as <- <-. split; [exact K|]. apply R_slice. apply (Forall_maps input_ok); [apply R_input|]. apply sorted_forall, Forall_forall.
    intros x Hx. apply in_map_iff in Hx. destruct Hx as [m [<- _]]. unfold input_ok. cbn [qi_type]. apply non_null_ok, input_type_ok. reflexivity.
  - injection S as <- <-. injection E as <- <-. split; [exact K|]. apply R_slice. constructor.
  - injection S as <- <-. repeat match type of E with (match ?x with _ => _ end) = _ => is_var x; destruct x; try discriminate E end.
    match type of E with context[get_type I c ?n] => destruct (get_type I c n) as [[c1 q]|] eqn:G; [|discriminate] end. injection E as <- <-. destruct (kept_type _ _ _ _ K G) as [K' F]. split; [exact K'|].
    destruct q as [q|]; [|apply HNilPtr; reflexivity]. eapply HPtr; [reflexivity|reflexivity|reflexivity|]. now apply R_type.
Qed.
End Parts.

(** ** The functions do not panic *)
Section Answered.
Variables (own iown inown : bytes -> option gtype) (qt mt : gtype) (inj : option (gval * gval)).
Hypothesis SR : schema_reads P own iown inown qt mt inj p.
Hypothesis RG : registered P.
Hypothesis TI : time_apart P.
Hypothesis TB : tables_ok s.
(** [I] is the schema or a copy *)
Variable I : ischema.
Definition like (l l' : list (bytes * ptype)) : Prop := map fst l' = map fst l /\ length l' = length l /\ forall n t, In (n, t) l' -> exists v, In (n, v) l /\ pt_impls t = pt_impls v /\
  forall kf, In kf (pt_fields t) -> exists kf', In kf' (pt_fields v) /\ pf_obj (snd kf) = pf_obj (snd kf').
Hypothesis A1 : like (ps_types s) (ps_types (p_st (is_p I))).
Hypothesis A2 : like (ps_ifaces s) (ps_ifaces (p_st (is_p I))).
Hypothesis A3 : ps_methods (p_st (is_p I)) = ps_methods s.
Hypothesis A4 : ps_intypes (p_st (is_p I)) = ps_intypes s.
Hypothesis A5 : is_enums I = g_enums P.
Hypothesis A6 : p_query (is_p I) = p_query p /\ p_method (is_p I) = p_method p.

Lemma some_all {A} (l : list (option A)) : ~ In None l -> all_some l <> None.
Proof.
  induction l as [|[a|] l IH]; cbn; intro H; [discriminate| |exfalso; apply H; now left]. destruct (all_some l); [discriminate|]. exfalso. apply IH; [|reflexivity]. intro; apply H; now right.
Qed.
Lemma keys_there {A C} (l : list (bytes * A)) (l' : list (bytes * C)) n : map fst l' = map fst l -> slookup l n <> None -> slookup l' n <> None.
Proof.
  revert l'. induction l as [|[k v] l IH]; intros [|[k' v'] l'] E H; cbn in E; try discriminate; [now contradiction H|]. injection E as -> E. cbn [slookup] in *.
  destruct (beqb n k); [discriminate|]. now apply IH.
Qed.
Lemma sindex_some {A} (l : list (bytes * A)) n : slookup l n <> None -> exists i v, sindex l n 0 = Some (i, v) /\ In (n, v) l /\ i < length l.
Proof.
  intro H. pose proof (sindex_slookup l n 0) as X. destruct (slookup l n) as [v|]; [|contradiction]. destruct X as [j [E N]]. exists (0 + j), v. split; [exact E|]. split; [now apply nth_error_In in N|].
  cbn. apply nth_error_Some. congruence.
Qed.
Lemma iface_there n t : iown n = Some t -> iface_ref I n <> None.
Proof.
  intro H. destruct (sr_iown _ _ _ _ _ _ _ _ SR _ _ H) as [E _]. apply (keys_there _ _ _ (proj1 A2)) in E. destruct (sindex_some _ _ E) as (i & v & X & _). unfold iface_ref. rewrite X. discriminate.
Qed.
Lemma impls_there n v : In (n, v) (ps_types s) -> ~ In None (map (fun o => match o with PIRef n _ _ => iface_ref I n | _ => None end) (pt_impls v)).
Proof.
  intros H K. apply in_slookup_eq in H; [|apply TB]. destruct (sr_types _ _ _ _ _ _ _ _ SR) as [extra [_ T]]. destruct (T _ _ H) as [t [_ [_ [_ [_ [_ F]]]]]].
  assert (KI : forall it, In it (interfaces_of P t) -> t_kind decls it = KInterface).
  { intros it Hi. unfold interfaces_of in Hi. destruct (t_name decls t) as [|a b] eqn:TN; [contradiction|]. unfold types_of in Hi.
    destruct (slookup (g_implements P) (a :: b)) as [ts|] eqn:LL; [|contradiction]. exact (RG _ _ _ (slookup_in _ _ _ LL) Hi). }
  clear - F KI K SR TI A2. induction F as [|it o l l' R F IH]; [contradiction|]. cbn [map] in K. destruct K as [K|K]; [|apply IH; auto; intros; apply KI; now right].
  assert (KK := KI it (or_introl eq_refl)).
  inversion R; subst; try congruence; try (now apply (proj1 TI it)); try (match goal with H : _ = KSlice \/ _ |- _ => destruct H; congruence end);
    try (match goal with H : enum_like _ _ |- _ => destruct H as [_ [_ H]]; rewrite KK in H; contradiction end);
    try (match goal with H : basic _ |- _ => rewrite KK in H; contradiction end).
  match goal with H : iown ?m = Some it |- _ => exact (iface_there _ _ H K) end.
Qed.
Lemma obj_there i n t : In (n, t) (ps_types (p_st (is_p I))) -> obj_type I i t <> None.
Proof.
  intro H. destruct (proj2 (proj2 A1) _ _ H) as (v & V & E & _). unfold obj_type. rewrite E. pose proof (some_all _ (impls_there n v V)) as X. destruct (all_some _); [discriminate|contradiction].
Qed.
Lemma type_there t h o : type_reads P own iown t h o -> type_of I o <> None.
Proof.
  induction 1 as [t h T|t n T K Ow _|t n T K Ow _|t e h o T K E R IH|t e h o T K E R IH|t h i T EL EA|t h T Bs NE ID]; cbn [type_of]; try discriminate.
  - destruct (sr_own _ _ _ _ _ _ _ _ SR _ _ Ow) as [E _]. apply (keys_there _ _ _ (proj1 A1)) in E. destruct (sindex_some _ _ E) as (i & v & X & V & _). rewrite X.
    pose proof (obj_there i n v V). destruct (obj_type I i v); [discriminate|contradiction].
  - pose proof (iface_there _ _ Ow). destruct (iface_ref I n); [discriminate|contradiction].
  - destruct (type_of I o); [discriminate|contradiction].
  - destruct (type_of I o); [discriminate|contradiction].
  - rewrite A5. destruct EA as [[e [N _]] _]. rewrite N. discriminate.
Qed.
Lemma fun_there k fn it ins outs isid : nth_error (ps_methods s) k = Some fn -> fun_reads P own iown it ins outs isid fn -> IntroModel.member_type I (PMethod k) <> None.
Proof.
  intros E [_ _ [t [_ X]] _]. cbn [IntroModel.member_type]. rewrite A3, E. pose proof (type_there _ _ _ X) as Y. destruct (type_of I (pm_out fn)); [discriminate|contradiction].
Qed.
Lemma plain_member t h o : type_reads P own iown t h o -> IntroModel.member_type I o = type_of I o.
Proof. destruct 1; reflexivity. Qed.
Lemma member_there t m f : member_reads P own iown (ps_methods s) t m f -> IntroModel.member_type I (pf_obj f) <> None.
Proof.
  intros [_ [_ [_ M]]]. destruct (snd m) as [i ft isid|i ft].
  - destruct M as [_ M]. destruct (match t_kind decls ft with KFunc => true | _ => false end); [destruct M as (k & fn & -> & E & X); eapply fun_there; eauto|].
    rewrite (plain_member _ _ _ M). eapply type_there; eauto.
  - destruct M as [_ (k & fn & -> & E & X)]. eapply fun_there; eauto.
Qed.
Lemma described_there t extra F : describes P own iown (ps_methods s) t extra F -> (forall f, In f extra -> IntroModel.member_type I (pf_obj f) <> None) ->
  forall kf, In kf F -> IntroModel.member_type I (pf_obj (snd kf)) <> None.
Proof.
  intros [L [FL [D K]]] X [k f] H. apply in_nlookup in H; [|exact D]. rewrite K in H. apply find_some in H. destruct H as [H _]. apply in_rev, in_app_or in H. cbn [snd].
  destruct H as [H|H]; [|auto]. clear - FL H SR RG TI TB A1 A2 A3 A5. induction FL as [|m g ms l M _ IH]; [contradiction|]. destruct H as [<-|H]; [eapply member_there; eauto|auto].
Qed.
Lemma struct_there n v kf : In (n, v) (ps_types s) -> In kf (pt_fields v) -> IntroModel.member_type I (pf_obj (snd kf)) <> None.
Proof.
  intros H Hk. apply in_slookup_eq in H; [|apply TB]. destruct (sr_types _ _ _ _ _ _ _ _ SR) as [extra [X T]]. destruct (T _ _ H) as [t [_ [_ [_ [_ [D _]]]]]].
  eapply described_there; [exact D| |exact Hk]. destruct (beqb n (p_query p)); [|intros f []].
  assert (Y : extra = [] \/ exists o k fn sv tf, extra = [PField o 0 (bs "__schema") true (Some sv); PField (PMethod k) 0 (bs "__type") true (Some tf)] /\
    type_reads P own iown (g_qlschema P) false o /\ nth_error (ps_methods s) k = Some fn /\ fun_reads P own iown false (fun_ins_of (under decls (g_typefn P))) (fun_outs (under decls (g_typefn P))) false fn).
  { clear - X. destruct inj as [[sv tf]|]; [right|now left]. destruct X as (o & k & fn & X). exists o, k, fn, sv, tf. exact X. }
  destruct Y as [->|(o & k & fn & sv & tf & -> & Ty & E & Fn)]; [intros f []|]. intros f [<-|[<-|[]]]; cbn [pf_obj]; [rewrite (plain_member _ _ _ Ty); eapply type_there; eauto|eapply fun_there; eauto].
Qed.
Lemma iface_field_there n v kf : In (n, v) (ps_ifaces s) -> In kf (pt_fields v) -> IntroModel.member_type I (pf_obj (snd kf)) <> None.
Proof.
  intros H Hk. apply in_slookup_eq in H; [|apply TB]. destruct (sr_ifaces _ _ _ _ _ _ _ _ SR _ _ H) as [t [_ [_ [_ [_ [D _]]]]]]. eapply described_there; [exact D|intros f []|exact Hk].
Qed.
Lemma fields_there fs : (forall kf, In kf fs -> IntroModel.member_type I (pf_obj (snd kf)) <> None) -> fields_ql I fs <> None.
Proof.
  intro H. unfold fields_ql. assert (X : all_some (map (fun f : N * pfield => field_ql I (snd f)) fs) <> None); [|destruct (all_some _); [discriminate|contradiction]].
  apply some_all. intro K. apply in_map_iff in K. destruct K as [kf [E Hk]]. unfold field_ql in E. specialize (H kf Hk). destruct (IntroModel.member_type I (pf_obj (snd kf))); [discriminate|contradiction].
Qed.
Lemma types_fields n t : In (n, t) (ps_types (p_st (is_p I))) -> fields_ql I (IntroModel.shown (pt_fields t)) <> None.
Proof.
  intro H. destruct (proj2 (proj2 A1) _ _ H) as (v & V & _ & F). apply fields_there. intros kf Hk. apply filter_In in Hk. destruct Hk as [Hk _]. destruct (F kf Hk) as (kf' & Hk' & ->). eapply struct_there; eauto.
Qed.
Lemma ifaces_fields n t : In (n, t) (ps_ifaces (p_st (is_p I))) -> fields_ql I (pt_fields t) <> None.
Proof.
  intro H. destruct (proj2 (proj2 A2) _ _ H) as (v & V & _ & F). apply fields_there. intros kf Hk. destruct (F kf Hk) as (kf' & Hk' & ->). eapply iface_field_there; eauto.
Qed.
Lemma all_there : all_types I <> None.
Proof.
  unfold all_types. match goal with |- match ?x with _ => _ end <> _ => assert (X : x <> None); [|destruct x; [discriminate|contradiction]] end.
  apply some_all. intro H. apply in_indexed in H. destruct H as (i & [n t] & E & H & _). exact (obj_there _ _ _ H (eq_sym E)).
Qed.
Lemma get_all_there c : get_all I c <> None.
Proof. unfold get_all. destruct (ic_list c); [discriminate|]. pose proof all_there. destruct (all_types I); [discriminate|contradiction]. Qed.
Lemma get_there c k k' fs : fields_ql I fs <> None -> list_of (get_fields I c k k' fs) <> None.
Proof. intro H. unfold get_fields. destruct (slookup _ k); [discriminate|]. destruct (fields_ql I fs); [discriminate|contradiction]. Qed.
Lemma range_nth {A} (l : list A) n i t t' : within_ n i t = Some t' -> length l = n -> exists a, nth_error l i = Some a.
Proof.
  unfold within_. destruct (i <? n) eqn:L; [|discriminate]. intros _ E. apply Nat.ltb_lt in L. rewrite <- E in L. apply nth_error_Some in L. destruct (nth_error l i); [eauto|contradiction].
Qed.
Lemma root_there n t : own n = Some t -> exists v, slookup (ps_types (p_st (is_p I))) n = Some v /\ In (n, v) (ps_types (p_st (is_p I))).
Proof.
  intro H. destruct (sr_own _ _ _ _ _ _ _ _ SR _ _ H) as [E _]. apply (keys_there _ _ _ (proj1 A1)) in E. destruct (slookup (ps_types (p_st (is_p I))) n) as [v|] eqn:V; [|contradiction].
  exists v. split; [reflexivity|now apply slookup_in].
Qed.
Lemma call_there c f ins o args : sig f = Some (TFunc ins [o] false) -> Forall2 (arg_ok P) ins args -> call_intro I c f args <> None.
Proof.
  intros S Ha. destruct f as [| | |i|i|i|i|i| |]; cbn [sig] in S; cbn [call_intro].
  - pose proof (get_all_there c). destruct (get_all I c) as [[? ?]|]; [discriminate|contradiction].
  - rewrite (proj1 A6). destruct (root_there _ _ (sr_query _ _ _ _ _ _ _ _ SR)) as (v & -> & V). apply get_there. eapply types_fields; eauto.
  - rewrite (proj1 A6), (proj2 A6). destruct (root_there _ _ (sr_query _ _ _ _ _ _ _ _ SR)) as (v & -> & V). destruct (root_there _ _ (sr_method _ _ _ _ _ _ _ _ SR)) as (u & -> & U). apply get_there. eapply types_fields; eauto.
  - destruct (range_nth _ _ _ _ _ S (proj1 (proj2 A1))) as [[n t] E]. rewrite E. apply get_there. eapply types_fields, nth_error_In; eauto.
  - destruct (range_nth _ _ _ _ _ S (proj1 (proj2 A2))) as [[n t] E]. rewrite E. apply get_there. eapply ifaces_fields, nth_error_In; eauto.
  - destruct (range_nth _ _ _ _ _ S (proj1 (proj2 A2))) as [[n t] E]. rewrite E. apply nth_error_In in E. destruct (proj2 (proj2 A2) _ _ E) as (v & V & -> & _).
    assert (X : all_some (map (type_of I) (pt_impls v)) <> None); [|destruct (all_some _); [discriminate|contradiction]]. apply some_all. intro K. apply in_map_iff in K. destruct K as [ob [Q K]].
    apply in_slookup_eq in V; [|apply TB]. destruct (sr_ifaces _ _ _ _ _ _ _ _ SR _ _ V) as [t' [_ [_ [_ [_ [_ F]]]]]].
    clear - F K Q SR RG TI TB A1 A2 A3 A5. induction F as [|it ob' l l' (_ & _ & Ty) F IH]; [contradiction|]. destruct K as [->|K]; [exact (type_there _ _ _ Ty Q)|auto].
  - rewrite A5. destruct (range_nth (g_enums P) _ _ _ _ S eq_refl) as [e E]. rewrite E. discriminate.
  - rewrite A4. destruct (range_nth (ps_intypes s) _ _ _ _ S eq_refl) as [[n j] E]. rewrite E. discriminate.
  - discriminate.
  - injection S as <- <-. inversion Ha as [|? a1 ? l1 H1 Ha1]; subst. inversion Ha1 as [|? a2 ? l2 H2 Ha2]; subst. inversion Ha2; subst.
    destruct H1 as [[_ ->]|[[_ K] _]]; [|discriminate]. destruct H2 as [[[K _] _]|[_ AV]]; [discriminate|].
    inversion AV; subst; try discriminate; try contradiction.
    match goal with U : under _ _ = TStruct ?fs, F : Forall2 _ ?fs ?l |- _ => cbn in U; injection U as <-; inversion F as [|? [b x] ? l3 [_ X] F3]; subst; inversion F3; subst end.
    cbn [snd f_type fd] in X. inversion X; subst; try discriminate; try contradiction; [|exfalso; match goal with U : match under _ _ with _ => _ end |- _ => exact (U Logic.I) end]. unfold get_type. destruct (ic_map c); [discriminate|]. pose proof (get_all_there c). destruct (get_all I c) as [[? ?]|]; [discriminate|contradiction].
Qed.
End Answered.

(** ** Introspection next to other code *)
Lemma like_refl l : like l l. Proof. split; [reflexivity|]. split; [reflexivity|]. eauto 10. Qed.
Lemma like_copy l : like l (copy_types l).
Proof.
  split; [unfold copy_types; rewrite map_map; reflexivity|]. split; [apply map_length|]. intros n t H. apply in_map_iff in H. destruct H as [[n' v] [[= -> <-] H]]. exists v. split; [exact H|]. split; [reflexivity|].
  cbn [copy_type pt_fields fst snd]. intros kf Hk. apply in_map_iff in Hk. destruct Hk as [kf' [<- Hk]]. exists kf'. split; [exact Hk|reflexivity].
Qed.
(** what yarql keeps in the schema and its copies, and what the other code keeps *)
Definition all_kept {W} (inv : W -> Prop) (w : heap * W) : Prop := (forall j, kept (fst w j)) /\ inv (snd w).
(** [behaves] of TypeSpec.v, for the functions that are not those of introspection *)
Record user_behaves {W} (X : externals W) (inv : W -> Prop) : Prop := {
  ub_func w n t ins outs va args q : inv w -> clo_of n = None -> R t (GFunc (Some n)) -> under decls t = TFunc ins outs va -> Forall2 (arg_ok P) ins args ->
    exists w' rs, x_call X w (GFunc (Some n)) args q = Some (w', rs) /\ inv w' /\ Forall2 (result_ok P R) outs rs;
  ub_method w t v i name ins outs va args q : inv w -> R t v -> is_time decls t = false -> t_kind decls t = KStruct -> nth_error (t_methods decls t) i = Some (name, TFunc ins outs va) -> Forall2 (arg_ok P) ins args ->
    exists w' rs, x_call X w (GMethod v i) args q = Some (w', rs) /\ inv w' /\ Forall2 (result_ok P R) outs rs;
  ub_dir w f d args q : inv w -> In d (g_dirs P) -> pd_fn d = DUser f -> Forall2 (arg_ok P) (pd_type d) args ->
    exists w' b, x_dir X w f args q = Some (w', b) /\ inv w';
  ub_file get w n : inv w -> x_formfile X = Some get -> inv (fst (get w n)) }.
Section Env.
Variables (own iown inown : bytes -> option gtype) (qt mt : gtype) (inj : option (gval * gval)).
Hypothesis SR : schema_reads P own iown inown qt mt inj p.
Hypothesis RG : registered P.
Hypothesis TI : time_apart P.
Hypothesis TB : tables_ok s.
Lemma sig_one f t : sig f = Some t -> exists ins o, t = TFunc ins [o] false /\ is_attr_id decls o = false /\ t_kind decls o <> KInterface.
Proof.
  destruct f as [| | |i|i|i|i|i| |]; cbn [sig]; unfold within_; try (destruct (_ <? _); [|discriminate]); intros [= <-]; eexists _, _; (split; [reflexivity|]); (split; [reflexivity|discriminate]).
Qed.
Lemma call_fine me c f ins o args : kept c -> sig f = Some (TFunc ins [o] false) -> Forall2 (arg_ok P) ins args ->
  exists c' v, call_intro (itself P p me) c f args = Some (c', v) /\ kept c' /\ R o v.
Proof.
  intros K S Ha.
  assert (A1 : like (ps_types s) (ps_types (p_st (is_p (itself P p me))))) by (destruct me; [apply like_refl|apply like_copy]).
  assert (A2 : like (ps_ifaces s) (ps_ifaces (p_st (is_p (itself P p me))))) by (destruct me; [apply like_refl|apply like_copy]).
  assert (A3 : ps_methods (p_st (is_p (itself P p me))) = ps_methods s) by (destruct me; reflexivity).
  assert (A4 : ps_intypes (p_st (is_p (itself P p me))) = ps_intypes s) by (destruct me; reflexivity).
  assert (A5 : is_enums (itself P p me) = g_enums P) by (destruct me; reflexivity).
  assert (A6 : p_query (is_p (itself P p me)) = p_query p /\ p_method (is_p (itself P p me)) = p_method p) by (destruct me; split; reflexivity).
  pose proof (call_there own iown inown qt mt inj SR RG TI TB _ A1 A2 A3 A4 A5 A6 c f ins o args S Ha) as E.
  destruct (call_intro (itself P p me) c f args) as [[c' v]|] eqn:Q; [|contradiction]. exists c', v. split; [reflexivity|].
  exact (call_typed _ (proj1 (proj2 A1)) (proj1 (proj2 A2)) (f_equal (@length _) A4) A5 c f ins o args c' v K S Q).
Qed.
Theorem intro_behaves W (X : externals W) inv me : user_behaves X inv -> behaves P (intro_env P p me any_call X) R (all_kept inv).
Proof.
  intros [UF UM UD UI]. constructor.
  - intros [h w] n t ins outs va args q [Hh Iw] Rt U Ha. cbn [intro_env x_call intro_call fst snd] in *.
    destruct (clo_of n) as [[self f]|] eqn:C.
    + assert (S : sig f = Some t).
      { inversion Rt; subst; [match goal with Bs : basic _, K : kind_of _ = _ |- _ => rewrite <- K in Bs; contradiction end|]. match goal with F : funs _ _ |- _ => unfold funs in F; rewrite C in F; exact F end. }
      destruct (sig_one _ _ S) as (ins' & o & -> & AI & NI). cbn in U. injection U as <- <- <-. unfold intro_call. rewrite C. unfold any_call. cbn [fst snd].
      assert (G : exists c' v, call_intro (if self then itself P p me else original P p) (h (if self then me else 0)) f args = Some (c', v) /\ kept c' /\ R o v).
      { destruct self; [now apply call_fine with (ins := ins')|]. now apply (call_fine 0) with (ins := ins'). }
      destruct G as (c' & v & -> & K & Rv). eexists _, _. split; [reflexivity|]. split; [split; [|exact Iw]|].
      * cbn [fst]. intro j. unfold put. destruct (Nat.eqb j _); [exact K|apply Hh].
      * constructor; [|constructor]. unfold result_ok. rewrite AI. destruct (t_kind decls o); try exact Rv. contradiction.
    + unfold intro_call. rewrite C. cbn [fst snd]. destruct (UF w n t ins outs va args q Iw C Rt U Ha) as (w' & rs & -> & Iw' & F). eexists _, _. split; [reflexivity|]. split; [split; [exact Hh|exact Iw']|exact F].
  - intros [h w] t v i name ins outs va args q [Hh Iw] Rt T K En Ha. cbn [intro_env x_call intro_call fst snd] in *.
    destruct (UM w t v i name ins outs va args q Iw Rt T K En Ha) as (w' & rs & -> & Iw' & F). eexists _, _. split; [reflexivity|]. split; [split; [exact Hh|exact Iw']|exact F].
  - intros [h w] f d args q [Hh Iw] Id Ef Ha. cbn [intro_env x_dir fst snd] in *. destruct (UD w f d args q Iw Id Ef Ha) as (w' & b & -> & Iw'). eexists _, _. split; [reflexivity|]. split; [exact Hh|exact Iw'].
  - intros get [h w] n [Hh Iw]. cbn [intro_env x_formfile fst snd] in *. destruct (x_formfile X) as [g|] eqn:E; [|discriminate]. intros [= <-]. split; [exact Hh|]. cbn [fst snd]. now apply UI.
Qed.
Lemma nothing_kept {W} (inv : W -> Prop) w : inv w -> all_kept inv (fresh, w).
Proof. intro H. split; [|exact H]. intro j. constructor; cbn; try discriminate. constructor. Qed.
End Env.
End Typed.
