(** * C59: which types implement which interfaces, and what the types are called *)
From Coq Require Import String Arith NArith ZArith Bool List Lia ZifyBool ZifyN ZifyNat.
From Verif Require Import Base Json JsonModel JsonProof NameModel Schema ResModel EnvModel Samples GoTypes ParseModel ParseTerm SchemaSpec ParseWhole SchemaCheck
  IntroModel IntroProof IntroTables IntroSpec IntroFacts SampleProg SampleIntro PropIntro PropDescribe PropKinds LinkModel.
Import ListNotations.
Open Scope N_scope.

(** ** Specification *)
(** a declared type of a package: name, package and what it stands for *)
Definition declared (decls : list gdecl) (t : gtype) (d : gdecl) : Prop := exists k, t = TNamed k /\ nth_error decls k = Some d /\ td_name d <> [] /\ td_pkg d <> [].
(** a type of kind pointer to [i] *)
Definition points_to (decls : list gdecl) (p i : gtype) : Prop := t_kind decls p = KPtr /\ t_elem decls p = Some i.
(** a call of Implements with a nil pointer to the interface and an empty struct is a call for the interface [i] and the struct [t]: both are declared in packages, and [t] has the methods of [i] *)
Definition legal_call (decls : list gdecl) (iv tv : option gtype) (i t : gtype) : Prop :=
  (exists p, iv = Some p /\ points_to decls p i) /\ tv = Some t /\
  (exists d, declared decls i d) /\ t_kind decls i = KInterface /\ (exists d, declared decls t d) /\ t_kind decls t = KStruct /\
  forall n f, has_method decls i n f -> has_method decls t n f.
(** [t] was registered as an implementation of [i] by one of the calls *)
Definition made (decls : list gdecl) (l : list (option gtype * option gtype)) (i t : gtype) : Prop := exists p, In (Some p, Some t) l /\ points_to decls p i.
(** interfaces of one name are one, and so are structs of one name *)
Definition calls_apart (decls : list gdecl) (l : list (option gtype * option gtype)) : Prop := forall i t i' t', made decls l i t -> made decls l i' t' ->
  (t_name decls i = t_name decls i' -> i = i') /\ (t_name decls t = t_name decls t' -> t = t').

(** ** Proof *)
Section Proof.
Variable decls : list gdecl.
Notation call := (implements_call decls). Notation calls := (implements_calls decls).
Lemma slookup_set {A} (s : list (bytes * A)) k v n : slookup (sset s k v) n = if beqb n k then Some v else slookup s n.
Proof.
  induction s as [|[k' v'] r IH]; cbn [sset slookup].
  - destruct (beqb n k) eqn:E; reflexivity.
  - destruct (beqb k k') eqn:E.
    + apply beqb_eq in E. subst k'. cbn [slookup]. destruct (beqb n k); reflexivity.
    + cbn [slookup]. rewrite IH. destruct (beqb n k') eqn:F; [|reflexivity]. apply beqb_eq in F. subst k'. destruct (beqb n k) eqn:G; [|reflexivity]. apply beqb_eq in G. subst k. rewrite beqb_refl in E. discriminate.
Qed.
Lemma types_set s k v n : types_of (sset s k v) n = if beqb n k then v else types_of s n.
Proof. unfold types_of. rewrite slookup_set. destruct (beqb n k); reflexivity. Qed.
Lemma nameless_iff t : nameless decls t = false <-> (exists d, declared decls t d).
Proof.
  unfold nameless, declared. split.
  - destruct t; cbn [t_name t_pkg]; try (destruct (kind_string k); discriminate); try discriminate. destruct (nth_error decls n) as [d|] eqn:E; [|discriminate].
    destruct (td_name d) eqn:N; [discriminate|]. destruct (td_pkg d) eqn:Q; [discriminate|]. intros _. exists d, n. rewrite N, Q. repeat split; auto; discriminate.
  - intros (d & k & -> & E & N & Q). cbn [t_name t_pkg]. rewrite E. destruct (td_name d); [congruence|]. destruct (td_pkg d); [congruence|reflexivity].
Qed.

Theorem C59_call : forall s iv tv, (exists s', call s iv tv = Some s') <-> exists i t, legal_call decls iv tv i t.
Proof.
  intros s iv tv. unfold implements_call. split.
  - intros [s' H]. destruct iv as [p|]; [|discriminate]. destruct (t_kind decls p) eqn:Kp; try discriminate. destruct (t_elem decls p) as [i|] eqn:Ep; [|discriminate].
    destruct (t_kind decls i) eqn:Ki; try discriminate. destruct (nameless decls i) eqn:Ni; [discriminate|]. destruct tv as [t|]; [|discriminate]. destruct (t_kind decls t) eqn:Kt; try discriminate.
    destruct (nameless decls t) eqn:Nt; [discriminate|]. destruct (implements decls t i) eqn:Im; [|discriminate]. exists i, t. split; [exists p; split; [reflexivity|split; assumption]|].
    split; [reflexivity|]. split; [now apply nameless_iff|]. split; [exact Ki|]. split; [now apply nameless_iff|]. split; [exact Kt|]. apply (proj2 (C48_special_types decls t)). exact Im.
  - intros (i & t & (p & -> & Kp & Ep) & -> & Di & Ki & Dt & Kt & M). rewrite Kp, Ep, Ki. apply nameless_iff in Di, Dt. rewrite Di, Kt, Dt. apply (proj2 (C48_special_types decls t)) in M. rewrite M. cbn [negb].
    destruct (existsb _ _); eauto.
Qed.
(** one step: what a call changes *)
Lemma call_cases s iv tv s' : call s iv tv = Some s' -> exists p i t, iv = Some p /\ tv = Some t /\ points_to decls p i /\ t_kind decls i = KInterface /\ t_kind decls t = KStruct /\
  ((s' = s /\ exists u, In u (types_of (lk_implemented s) (t_name decls i)) /\ t_name decls u = t_name decls t /\ t_pkg decls u = t_pkg decls t) \/
   (forall u, In u (types_of (lk_implemented s) (t_name decls i)) -> ~ (t_name decls u = t_name decls t /\ t_pkg decls u = t_pkg decls t)) /\
   (forall n, types_of (lk_implemented s') n = types_of (lk_implemented s) n ++ if beqb n (t_name decls i) then [t] else []) /\
   (forall n, types_of (lk_implements s') n = types_of (lk_implements s) n ++ if beqb n (t_name decls t) then [i] else []) /\
   (forall n ts u, In (n, ts) (lk_implements s') -> In u ts -> u = i \/ exists m ts', In (m, ts') (lk_implements s) /\ In u ts')).
Proof.
  unfold implements_call. intro H. destruct iv as [p|]; [|discriminate]. destruct (t_kind decls p) eqn:Kp; try discriminate. destruct (t_elem decls p) as [i|] eqn:Ep; [|discriminate].
  destruct (t_kind decls i) eqn:Ki; try discriminate. destruct (nameless decls i) eqn:Ni; [discriminate|]. destruct tv as [t|]; [|discriminate]. destruct (t_kind decls t) eqn:Kt; try discriminate.
  destruct (nameless decls t) eqn:Nt; [discriminate|]. destruct (implements decls t i) eqn:Im; [|discriminate]. cbn [negb] in H. exists p, i, t. do 2 (split; [reflexivity|]). split; [split; assumption|]. split; [exact Ki|]. split; [exact Kt|].
  destruct (existsb _ _) eqn:Ex; injection H as <-.
  - left. split; [reflexivity|]. apply existsb_exists in Ex. destruct Ex as (u & Iu & Su). unfold same_name in Su. apply andb_prop in Su. destruct Su as [S1 S2]. apply beqb_eq in S1, S2. eauto.
  - right. split; [|split; [|split]].
    + intros u Iu [S1 S2]. assert (T : existsb (same_name decls t) (types_of (lk_implemented s) (t_name decls i)) = true); [|congruence].
      apply existsb_exists. exists u. split; [exact Iu|]. unfold same_name. now rewrite S1, S2, !beqb_refl.
    + intro n. cbn [lk_implemented]. rewrite types_set. destruct (beqb n (t_name decls i)) eqn:E; [|now rewrite app_nil_r]. apply beqb_eq in E. now subst n.
    + intro n. cbn [lk_implements]. rewrite types_set. destruct (beqb n (t_name decls t)) eqn:E; [|now rewrite app_nil_r]. apply beqb_eq in E. now subst n.
    + cbn [lk_implements]. intros n ts u. set (v := types_of _ _ ++ [i]). assert (V : forall x, In x v -> x = i \/ exists m ts', In (m, ts') (lk_implements s) /\ In x ts').
      { intros x Ix. unfold v in Ix. apply in_app_or in Ix. destruct Ix as [Ix|[<-|[]]]; [|now left]. right. unfold types_of in Ix. destruct (slookup (lk_implements s) (t_name decls t)) as [l|] eqn:L; [|destruct Ix]. apply slookup_in in L. eauto. }
      clearbody v. clear - V. intros I J. assert (G : In (n, ts) (lk_implements s) \/ ts = v).
      { revert I. clear. induction (lk_implements s) as [|[k w] r IH]; cbn [sset]; [intros [E|[]]; injection E as <- <-; now right|]. destruct (beqb _ k); intros [E|I]; try (injection E as <- <-); cbn; auto. destruct (IH I); auto. }
      destruct G as [G| ->]; [right; eauto|now apply V].
Qed.
(** what the calls leave, by induction from the end *)
Lemma calls_app l1 l2 s : calls s (l1 ++ l2) = match calls s l1 with Some s' => calls s' l2 | None => None end.
Proof. revert s. induction l1 as [|[i t] r IH]; intros s; [reflexivity|]. cbn [List.app implements_calls]. destruct (call s i t); [apply IH|reflexivity]. Qed.
Record links_ok (l : list (option gtype * option gtype)) (s : links) : Prop := {
  lo_made n t : In t (types_of (lk_implemented s) n) -> exists i, made decls l i t /\ t_name decls i = n;
  lo_all i t : made decls l i t -> exists u, In u (types_of (lk_implemented s) (t_name decls i)) /\ t_name decls u = t_name decls t /\ t_pkg decls u = t_pkg decls t;
  lo_back n i : In i (types_of (lk_implements s) n) -> exists t, made decls l i t /\ t_name decls t = n;
  lo_there n t : In t (types_of (lk_implemented s) n) -> exists i, made decls l i t /\ t_name decls i = n /\ In i (types_of (lk_implements s) (t_name decls t));
  lo_once n : NoDup (map (fun t => (t_name decls t, t_pkg decls t)) (types_of (lk_implemented s) n));
  lo_kinds i t : made decls l i t -> t_kind decls i = KInterface /\ t_kind decls t = KStruct;
  lo_ifaces n ts i : In (n, ts) (lk_implements s) -> In i ts -> t_kind decls i = KInterface;
  (** the interfaces of a struct name are as many as there are structs of the name in the lists of their names *)
  lo_twice n : calls_apart decls l -> NoDup (types_of (lk_implements s) n) }.
Lemma made_app l1 l2 i t : made decls (l1 ++ l2) i t <-> made decls l1 i t \/ made decls l2 i t.
Proof.
  unfold made. split.
  - intros (p & I & Q). apply in_app_or in I. destruct I; [left|right]; eauto.
  - intros [(p & I & Q)|(p & I & Q)]; exists p; (split; [apply in_or_app; auto|exact Q]).
Qed.
Lemma made_one p t0 i0 i t : points_to decls p i0 -> made decls [(Some p, Some t0)] i t <-> i = i0 /\ t = t0.
Proof.
  intros [K E]. unfold made. split.
  - intros (q & [H|[]] & K' & E'). injection H as -> ->. split; congruence.
  - intros [-> ->]. exists p. split; [now left|split; assumption].
Qed.
Lemma nodup_snoc {A} (l : list A) x : NoDup l -> ~ In x l -> NoDup (l ++ [x]).
Proof. induction 1 as [|a l N D IH]; intro H; cbn [List.app]; [constructor; [exact H|constructor]|]. constructor; [|apply IH; intro; apply H; now right]. intro I. apply in_app_or in I. destruct I as [I|[<-|[]]]; [auto|]. apply H. now left. Qed.
Lemma calls_ok l s : calls no_links l = Some s -> links_ok l s.
Proof.
  revert s. induction l as [|[iv tv] l IH] using rev_ind; intros s H.
  - injection H as <-. constructor; try (intros; exfalso; cbn in *; contradiction); try (intros i t (p & [] & _)); intros; constructor.
  - rewrite calls_app in H. destruct (calls no_links l) as [s0|] eqn:E; [|discriminate]. specialize (IH s0 eq_refl). cbn [implements_calls] in H. destruct (call s0 iv tv) as [s1|] eqn:C; [|discriminate]. injection H as ->.
    destruct (call_cases _ _ _ _ C) as (p & i & t & -> & -> & Pt & Ki & Kt & D). destruct IH as [A1 A2 A3 A4 A5 A6 A7 A8].
    assert (M : forall i' t', made decls (l ++ [(Some p, Some t)]) i' t' <-> made decls l i' t' \/ (i' = i /\ t' = t)) by (intros; rewrite made_app, (made_one p t i); [reflexivity|exact Pt]).
    assert (Ap : calls_apart decls (l ++ [(Some p, Some t)]) -> calls_apart decls l) by (intros H a b c d H1 H2; apply H; apply M; auto).
    assert (K6 : forall i' t', made decls (l ++ [(Some p, Some t)]) i' t' -> t_kind decls i' = KInterface /\ t_kind decls t' = KStruct) by (intros i' t' H; apply M in H; destruct H as [H|[-> ->]]; [eauto|auto]).
    destruct D as [[-> (u & Iu & Nu & Pu)]|(Nn & F1 & F2 & F3)].
    + constructor; auto.
      * intros n x I. destruct (A1 _ _ I) as (j & J & N). exists j. rewrite M. auto.
      * intros j x H. apply M in H. destruct H as [H|[-> ->]]; [auto|]. exists u. auto.
      * intros n j I. destruct (A3 _ _ I) as (x & J & N). exists x. rewrite M. auto.
      * intros n x I. destruct (A4 _ _ I) as (j & J & N & Q). exists j. rewrite M. auto.
    + constructor; auto.
      * intros n x I. rewrite F1 in I. apply in_app_or in I. destruct I as [I|I]; [destruct (A1 _ _ I) as (j & J & N); exists j; rewrite M; auto|].
        destruct (beqb n (t_name decls i)) eqn:En; [|destruct I]. apply beqb_eq in En. destruct I as [<-|[]]. exists i. rewrite M. auto.
      * intros j x H. apply M in H. destruct H as [H|[-> ->]].
        -- destruct (A2 _ _ H) as (u & Iu & N). exists u. split; [|exact N]. rewrite F1. apply in_or_app. now left.
        -- exists t. split; [|auto]. rewrite F1, beqb_refl. apply in_or_app. right. now left.
      * intros n j I. rewrite F2 in I. apply in_app_or in I. destruct I as [I|I]; [destruct (A3 _ _ I) as (x & J & N); exists x; rewrite M; auto|].
        destruct (beqb n (t_name decls t)) eqn:En; [|destruct I]. apply beqb_eq in En. destruct I as [<-|[]]. exists t. rewrite M. auto.
      * intros n x I. rewrite F1 in I. apply in_app_or in I. destruct I as [I|I].
        -- destruct (A4 _ _ I) as (j & J & N & Q). exists j. rewrite M. split; [auto|]. split; [exact N|]. rewrite F2. apply in_or_app. now left.
        -- destruct (beqb n (t_name decls i)) eqn:En; [|destruct I]. apply beqb_eq in En. destruct I as [<-|[]]. exists i. rewrite M. split; [auto|]. split; [auto|]. rewrite F2, beqb_refl. apply in_or_app. right. now left.
      * intro n. rewrite F1. destruct (beqb n (t_name decls i)) eqn:En; [|rewrite app_nil_r; apply A5]. apply beqb_eq in En. subst n. rewrite map_app. apply nodup_snoc; [apply A5|].
        intro I. apply in_map_iff in I. destruct I as (u & E' & Iu). injection E' as E1 E2. apply (Nn u Iu). auto.
      * intros n ts j I J. destruct (F3 _ _ _ I J) as [->|(m & ts' & I' & J')]; [exact Ki|eauto].
      * intros n Hap. rewrite F2. destruct (beqb n (t_name decls t)) eqn:En; [|rewrite app_nil_r; auto]. apply beqb_eq in En. subst n. apply nodup_snoc; [auto|].
        intro I. destruct (A3 _ _ I) as (x & Mx & Nx). destruct (Hap i t i x) as [_ Q]; [apply M; auto|apply M; auto|]. rewrite <- (Q (eq_sym Nx)) in Mx.
        destruct (A2 _ _ Mx) as (u & Iu & Nu & Pu). apply (Nn u Iu). auto.
Qed.
End Proof.
Print Assumptions C59_call.
(** After calls of Implements none of which panicked, in any order and with repetitions: a struct is in the list of an interface, and the
    interface in that of the struct, exactly if one of the calls was for the two; no list has a type twice. *)
Theorem C59_links : forall decls l s, implements_calls decls no_links l = Some s -> calls_apart decls l ->
  (forall i t, made decls l i t -> In t (types_of (lk_implemented s) (t_name decls i)) /\ In i (types_of (lk_implements s) (t_name decls t))) /\
  (forall n t, In t (types_of (lk_implemented s) n) -> exists i, t_name decls i = n /\ made decls l i t) /\
  (forall n i, In i (types_of (lk_implements s) n) -> exists t, t_name decls t = n /\ made decls l i t) /\
  (forall n, NoDup (types_of (lk_implemented s) n)) /\ (forall n, NoDup (types_of (lk_implements s) n)).
Proof.
  intros decls l s H Ap. destruct (calls_ok decls l s H) as [A1 A2 A3 A4 A5 A6 A7 A8]. split; [|split; [|split; [|split]]].
  - intros i t M. destruct (A2 _ _ M) as (u & Iu & Nu & _). destruct (A4 _ _ Iu) as (j & Mj & Nj & Ij).
    destruct (Ap _ _ _ _ M Mj) as [Q1 Q2]. rewrite <- (Q1 (eq_sym Nj)), <- (Q2 (eq_sym Nu)) in *. auto.
  - intros n t I. destruct (A1 _ _ I) as (i & M & N). eauto.
  - intros n i I. destruct (A3 _ _ I) as (t & M & N). eauto.
  - intro n. eapply NoDup_map_inv. apply A5.
  - auto.
Qed.
Print Assumptions C59_links.
(** Also if names occur in several packages, every struct is in the list under the name of its interface, once, and nothing else is. *)
Theorem C59_listed : forall decls l s, implements_calls decls no_links l = Some s ->
  (forall i t, made decls l i t -> exists u, In u (types_of (lk_implemented s) (t_name decls i)) /\ t_name decls u = t_name decls t /\ t_pkg decls u = t_pkg decls t) /\
  (forall n t, In t (types_of (lk_implemented s) n) -> exists i, t_name decls i = n /\ made decls l i t) /\
  (forall n, NoDup (map (fun t => (t_name decls t, t_pkg decls t)) (types_of (lk_implemented s) n))).
Proof.
  intros decls l s H. destruct (calls_ok decls l s H) as [A1 A2 _ _ A5 _ _ _]. split; [exact A2|]. split; [|exact A5]. intros n t I. destruct (A1 _ _ I) as (i & M & N). eauto.
Qed.
Print Assumptions C59_listed.
(** the program [P] has the tables that the calls leave *)
Definition linked (P : program) (l : list (option gtype * option gtype)) : Prop :=
  exists s, implements_calls (g_decls P) no_links l = Some s /\ g_implements P = lk_implements s /\ g_implemented P = lk_implemented s.
(** such a program meets the hypothesis on registrations of the other properties *)
Theorem C59_registered : forall P l, linked P l -> registered P.
Proof. intros P l (s & H & E & _). unfold registered. rewrite E. apply (lo_ifaces _ _ _ (calls_ok _ _ _ H)). Qed.
Print Assumptions C59_registered.
(** Introspection tells exactly the implementations that were registered: possibleTypes of an interface the structs that one of the calls
    was for, and interfaces of a struct the interfaces. *)
Theorem C59_told : forall W P l qt mt same inj fuel p st h, linked P l -> calls_apart (g_decls P) l ->
  let b := match inj with Some _ => true | None => false end in
  named_apart P (roots_of P qt mt b) -> inputs_apart P (roots_of P qt mt b) (more_of P b) -> time_apart P ->
  parse P fuel qt mt same inj new_pst = POk p st -> all_apart P p -> @history W P p h ->
  exists own iown inown, schema_reads P own iown inown qt mt inj p /\
    (forall n i, iown n = Some i -> keys_apart P i -> forall t0, made (g_decls P) l i t0 ->
       exists f g ts, answers (original P p) (h 0%nat) FType (name_arg n) (GPtr (Some (g_type (Qlt TkInterface (Some n) (Some []) (Some (false, f)) (Some []) (Some (false, g)) None None None None)))) /\
         (forall args, answers (original P p) (h 0%nat) g args (GSlice (Some (map g_type ts)))) /\
         (forall t, made (g_decls P) l i t -> exists m q, In q ts /\ ref_of q = Named m /\ own m = Some t) /\
         (forall q, In q ts -> exists m t, ref_of q = Named m /\ own m = Some t /\ made (g_decls P) l i t)) /\
    (forall n t, own n = Some t -> keys_apart P t -> forall i0, made (g_decls P) l i0 t ->
       exists f is, answers (original P p) (h 0%nat) FType (name_arg n) (GPtr (Some (g_type (Qlt TkObject (Some n) (Some []) (Some (false, f)) (Some is) None None None None None)))) /\
         (forall i, made (g_decls P) l i t -> exists m q, In q is /\ ref_of q = Named m /\ iown m = Some i) /\
         (forall q, In q is -> exists m i, ref_of q = Named m /\ iown m = Some i /\ made (g_decls P) l i t)).
Proof.
  intros W P l qt mt same inj fuel p st h LK AP b NA IA TA PA AL HI. pose proof (C59_registered P l LK) as RG. destruct LK as (s & HC & E1 & E2).
  destruct (C49_introspection_describes_the_program W P qt mt same inj fuel p st h NA IA RG TA PA AL HI) as (own & iown & inown & SR & DS).
  destruct (C59_links _ _ _ HC AP) as (L1 & L2 & L3 & _). exists own, iown, inown. split; [exact SR|].
  assert (Fl : forall names ts l0, shows_types names ts l0 -> forall t, In t ts -> exists m q, In q l0 /\ ref_of q = Named m /\ names m = Some t).
  { intros names ts l0 F. induction F as [|t q ts qs (n & N & R) F IH]; intros u I; [destruct I|]. destruct I as [<-|I]; [exists n, q; cbn; auto|]. destruct (IH _ I) as (m & q' & I' & H). exists m, q'. cbn. auto. }
  assert (Fr : forall names ts l0, shows_types names ts l0 -> forall q, In q l0 -> exists m t, ref_of q = Named m /\ names m = Some t /\ In t ts).
  { intros names ts l0 F. induction F as [|t q ts qs (n & N & R) F IH]; intros u I; [destruct I|]. destruct I as [<-|I]; [exists n, t; cbn; auto|]. destruct (IH _ I) as (m & q' & H1 & H2 & I'). exists m, q'. cbn. auto. }
  assert (Nm : forall i t, made (g_decls P) l i t -> t_name (g_decls P) t <> []).
  { intros i t (q & I & _). clear - HC I. revert HC. generalize no_links. induction l as [|[iv tv] r IH]; intros s0 HC; [destruct I|]. cbn [implements_calls] in HC. destruct (implements_call (g_decls P) s0 iv tv) as [s1|] eqn:C; [|discriminate].
    destruct I as [E|I]; [|eapply IH; eauto]. injection E as -> ->. destruct (proj1 (C59_call (g_decls P) s0 (Some q) (Some t)) (ex_intro _ _ C)) as (i0 & t' & _ & Et & _ & _ & (d & k & -> & D & N & _) & _). injection Et as ->.
    cbn [t_name]. now rewrite D. }
  split.
  - intros n i O K t0 M0. destruct (ds_iface _ _ _ _ _ _ _ _ _ _ DS n i O K) as (f & g & l0 & ts & An & _ & _ & Sh & Ag). exists f, g, ts. split; [exact An|]. split; [exact Ag|]. split.
    + intros t M. apply (Fl _ _ _ Sh). unfold implementations_of. rewrite E2. now apply L1.
    + intros q Iq. destruct (Fr _ _ _ Sh q Iq) as (m & t & R & O' & It). exists m, t. split; [exact R|]. split; [exact O'|]. unfold implementations_of in It. rewrite E2 in It. destruct (L2 _ _ It) as (j & Nj & Mj).
      destruct (AP _ _ _ _ M0 Mj) as [Q _]. now rewrite (Q (eq_sym Nj)).
  - intros n t O K i0 M0. destruct (ds_struct _ _ _ _ _ _ _ _ _ _ DS n t O K) as (f & is & l0 & An & Sh & _). exists f, is. split; [exact An|].
    assert (IO : interfaces_of P t = types_of (lk_implements s) (t_name (g_decls P) t)).
    { unfold interfaces_of. rewrite E1. pose proof (Nm _ _ M0) as N. destruct (t_name (g_decls P) t); [congruence|reflexivity]. }
    rewrite IO in Sh. split.
    + intros i M. apply (Fl _ _ _ Sh). now apply L1.
    + intros q Iq. destruct (Fr _ _ _ Sh q Iq) as (m & i & R & O' & It). exists m, i. split; [exact R|]. split; [exact O'|]. destruct (L3 _ _ It) as (u & Nu & Mu).
      destruct (AP _ _ _ _ M0 Mu) as [_ Q]. now rewrite (Q (eq_sym Nu)).
Qed.
Print Assumptions C59_told.

(** ** Names *)
(** white space around a text is taken away *)
Inductive spaces (codes : list bytes) : bytes -> Prop :=
| sp_none : spaces codes []
| sp_more c r : In c codes -> spaces codes r -> spaces codes (c ++ r).
Definition trimmed (s r : bytes) : Prop := exists p q, s = p ++ r ++ q /\ spaces space_codes p /\ spaces space_codes q /\
  (forall c x, In c space_codes -> r <> c ++ x) /\ (forall c x, In c space_codes -> r <> x ++ c).
(** a name of GraphQL that does not begin with an underscore *)
Definition letter (c : N) : Prop := 65 <= c <= 90 \/ 97 <= c <= 122.
Definition gql_name (n : bytes) : Prop := exists c r, n = c :: r /\ letter c /\ Forall (fun c => letter c \/ 48 <= c <= 57 \/ c = 95) r.
Lemma strip_prefix_iff p s t : strip_prefix p s = Some t <-> s = p ++ t.
Proof.
  revert s. induction p as [|x p IH]; intros s; cbn [strip_prefix List.app]; [split; congruence|]. destruct s as [|y s]; [split; discriminate|].
  destruct (x =? y) eqn:E; [apply N.eqb_eq in E; subst; rewrite IH; split; congruence|apply N.eqb_neq in E; split; congruence].
Qed.
Lemma strip_any_some codes s t : strip_any codes s = Some t -> exists c, In c codes /\ s = c ++ t.
Proof. induction codes as [|c r IH]; [discriminate|]. cbn [strip_any]. destruct (strip_prefix c s) as [u|] eqn:E; [intro H; injection H as <-; apply strip_prefix_iff in E; exists c; cbn; auto|]. intro H. destruct (IH H) as (d & I & Q). exists d. cbn. auto. Qed.
Lemma strip_any_none codes s : strip_any codes s = None -> forall c x, In c codes -> s <> c ++ x.
Proof. induction codes as [|c r IH]; intros H d x I; [destruct I|]. cbn [strip_any] in H. destruct (strip_prefix c s) as [u|] eqn:E; [discriminate|]. destruct I as [<-|I]; [|now apply IH]. intro Q. apply strip_prefix_iff in Q. congruence. Qed.
Lemma trim_left_spec codes : (forall c, In c codes -> c <> []) -> forall f s, (length s <= f)%nat ->
  exists p, s = p ++ trim_left f codes s /\ spaces codes p /\ forall c x, In c codes -> trim_left f codes s <> c ++ x.
Proof.
  intros Ne. induction f as [|f IH]; intros s L.
  - destruct s; [|cbn in L; lia]. exists []. split; [reflexivity|]. split; [constructor|]. intros c x I. cbn [trim_left]. intro E. apply (Ne c I). destruct c; [reflexivity|discriminate].
  - cbn [trim_left]. destruct (strip_any codes s) as [t|] eqn:E.
    + destruct (strip_any_some _ _ _ E) as (c & I & ->). assert (Lt : (length t <= f)%nat) by (rewrite app_length in L; specialize (Ne c I); destruct c; [congruence|cbn in L; lia]).
      destruct (IH t Lt) as (p & Q & S & N). exists (c ++ p). split; [rewrite <- app_assoc; congruence|]. split; [now constructor|exact N].
    + exists []. split; [reflexivity|]. split; [constructor|]. now apply strip_any_none.
Qed.
Lemma spaces_app codes a b : spaces codes a -> spaces codes b -> spaces codes (a ++ b).
Proof. induction 1; intro; [assumption|]. rewrite <- app_assoc. constructor; auto. Qed.
Lemma spaces_rev codes p : spaces (map (@rev N) codes) p -> spaces codes (rev p).
Proof.
  induction 1 as [|c r I S IH]; [constructor|]. rewrite rev_app_distr. apply in_map_iff in I. destruct I as (d & <- & I). rewrite rev_involutive. apply spaces_app; [exact IH|]. rewrite <- (app_nil_r d). constructor; [exact I|constructor].
Qed.
Lemma trim_space_spec s : trimmed s (trim_space s).
Proof.
  assert (Ne : forall c, In c space_codes -> c <> []) by (intros c I; cbn in I; intuition (subst; discriminate)).
  assert (Ne' : forall c, In c (map (@rev N) space_codes) -> c <> []) by (intros c I; cbn in I; intuition (subst; discriminate)).
  unfold trim_space. destruct (trim_left_spec space_codes Ne (length s) s (le_n _)) as (p & E & Sp & Nn). set (l := trim_left (length s) space_codes s) in *. cbv zeta.
  assert (Lr : (length (rev l) <= length l)%nat) by (rewrite rev_length; lia).
  destruct (trim_left_spec (map (@rev N) space_codes) Ne' (length l) (rev l) Lr) as (q & E' & Sp' & Nn'). set (m := trim_left (length l) (map (@rev N) space_codes) (rev l)) in *.
  assert (El : l = rev m ++ rev q) by (rewrite <- rev_app_distr, <- E'; symmetry; apply rev_involutive).
  exists p, (rev q). split; [congruence|]. split; [exact Sp|]. split; [now apply spaces_rev|]. split.
  - intros c x I Q. apply (Nn c (x ++ rev q) I). rewrite El, Q. now rewrite <- app_assoc.
  - intros c x I Q. apply (Nn' (rev c) (rev x)); [now apply in_map|]. rewrite <- rev_app_distr, <- Q. symmetry. apply rev_involutive.
Qed.
Lemma letter_iff c : is_upper c || is_lower c = true <-> letter c.
Proof. unfold is_upper, is_lower, letter. lia. Qed.
Lemma gql_name_iff n : valid_gql_name n = true <-> gql_name n.
Proof.
  unfold gql_name. split.
  - destruct n as [|c r]; [discriminate|]. cbn [valid_gql_name]. intro H. apply andb_prop in H. destruct H as [H1 H2]. apply letter_iff in H1. exists c, r. split; [reflexivity|]. split; [exact H1|].
    rewrite forallb_forall in H2. apply Forall_forall. intros x I. specialize (H2 x I). unfold valid_rest, is_upper, is_lower in H2. unfold letter. lia.
  - intros (c & r & -> & L & F). cbn [valid_gql_name]. apply letter_iff in L. rewrite L. cbn [andb]. apply forallb_forall. intros x I. rewrite Forall_forall in F. specialize (F x I). unfold valid_rest, is_upper, is_lower. unfold letter in F. lia.
Qed.
(** TypeRename either gives the types of this Go name the new name, without the white space around it, and leaves all other names, or panics: for nil,
    for a type without a name, for a type that is no struct, for a blank name and, unless it is forced, for what is no name of GraphQL *)
Theorem C59_rename : forall decls s t new force,
  match type_rename decls s t new force with
  | Some s' => exists ty n, t = Some ty /\ t_kind decls ty = KStruct /\ t_name decls ty <> [] /\ trimmed new n /\ n <> [] /\ (hd false force = false -> gql_name n) /\
      slookup s' (t_name decls ty) = Some n /\ forall m, m <> t_name decls ty -> slookup s' m = slookup s m
  | None => forall ty, t = Some ty -> t_kind decls ty = KStruct -> t_name decls ty <> [] -> exists n, trimmed new n /\ (n = [] \/ hd false force = false /\ ~ gql_name n)
  end.
Proof.
  intros decls s t new force. unfold type_rename. destruct t as [ty|]; [|discriminate]. pose proof (trim_space_spec new) as T.
  destruct (t_name decls ty) as [|c0 nm] eqn:Nm; [intros ty' H; injection H as <-; congruence|].
  destruct (t_kind decls ty) eqn:K; try (intros ty' H; injection H as <-; congruence).
  destruct (trim_space new) as [|c n] eqn:Tr; [intros ty' _ _ _; exists []; auto|]. pose proof (gql_name_iff (c :: n)) as V. destruct (_ && _) eqn:F.
  - intros ty' _ _ _. exists (c :: n). split; [exact T|]. right. apply andb_prop in F. destruct F as [F1 F2]. apply negb_true_iff in F2. split; [destruct force as [|[] f]; [reflexivity|discriminate|reflexivity]|]. rewrite <- V. congruence.
  - exists ty, (c :: n). split; [reflexivity|]. split; [exact K|]. rewrite Nm. split; [discriminate|]. split; [exact T|]. split; [discriminate|]. split.
    + intro Hf. rewrite <- V. destruct (valid_gql_name (c :: n)); [reflexivity|]. destruct force as [|[] f]; cbn in F, Hf; discriminate.
    + rewrite slookup_set, beqb_refl. split; [reflexivity|]. intros m Hm. rewrite slookup_set. destruct (beqb m (c0 :: nm)) eqn:B; [apply beqb_eq in B; congruence|reflexivity].
Qed.
Print Assumptions C59_rename.
(** no more is taken away than white space, and all of it: the trimmed text is the only one *)
Section Unique.
Variable codes : list bytes.
Hypothesis nonempty : forall c, In c codes -> c <> [].
Hypothesis prefix_free : forall c d x, In c codes -> In d codes -> d = c ++ x -> x = [].
(** no code begins inside of another *)
Hypothesis no_overlap : forall c r y d, In c codes -> In d codes -> r <> [] -> y <> [] -> c = r ++ y -> (forall x, y <> d ++ x) /\ (forall x, d <> y ++ x).
Lemma split_two {A} (a b c d : list A) : a ++ b = c ++ d -> (exists x, a = c ++ x /\ d = x ++ b) \/ (exists x, c = a ++ x /\ b = x ++ d).
Proof.
  revert c. induction a as [|h a IH]; intros c H; cbn [List.app] in H; [right; exists c; auto|]. destruct c as [|k c]; [left; exists (h :: a); cbn; auto|].
  injection H as <- H. destruct (IH c H) as [(x & -> & ->)|(x & -> & ->)]; [left|right]; exists x; auto.
Qed.
Lemma same_code c d x y : In c codes -> In d codes -> c ++ x = d ++ y -> c = d /\ x = y.
Proof.
  intros Ic Id H. destruct (split_two _ _ _ _ H) as [(z & -> & ->)|(z & -> & ->)].
  - pose proof (prefix_free d (d ++ z) z Id Ic eq_refl) as ->. now rewrite app_nil_r.
  - pose proof (prefix_free c (c ++ z) z Ic Id eq_refl) as ->. now rewrite app_nil_r.
Qed.
Lemma spaces_tail q c x : spaces codes q -> In c codes -> q = c ++ x -> spaces codes x.
Proof.
  intros Sq Ic H. destruct Sq as [|d r Id Sr]; [|destruct (same_code d c r x Id Ic H) as [-> ->]; exact Sr].
  specialize (nonempty c Ic). destruct c; [congruence|discriminate].
Qed.
Lemma spaces_after p : spaces codes p -> forall q x, spaces codes q -> q = p ++ x -> spaces codes x.
Proof. induction 1 as [|c r I Sp IH]; intros q x Sq E; [now subst|]. rewrite <- app_assoc in E. apply (IH (r ++ x)); [|reflexivity]. eapply spaces_tail; eauto. Qed.
Lemma no_begin r q c z : r <> [] -> (forall x, r <> c ++ x) -> spaces codes q -> In c codes -> r ++ q = c ++ z -> False.
Proof.
  intros Nr Nb Sq Ic H. destruct (split_two _ _ _ _ H) as [(x & E & _)|(y & E & Q)]; [now apply (Nb x)|].
  destruct y as [|y0 y]; [apply (Nb []); rewrite app_nil_r in *; now symmetry|].
  destruct Sq as [|d r' Id Sr]; [discriminate|]. destruct (no_overlap c r (y0 :: y) d Ic Id Nr ltac:(discriminate) E) as [O1 O2].
  destruct (split_two _ _ _ _ Q) as [(x & E1 & _)|(x & E1 & _)]; [now apply (O2 x)|now apply (O1 x)].
Qed.
Lemma all_spaces r q s : spaces codes s -> s = r ++ q -> spaces codes q -> (forall c x, In c codes -> r <> c ++ x) -> r = [].
Proof.
  intros Ss E Sq Nb. destruct r as [|a r]; [reflexivity|]. exfalso. destruct Ss as [|c z Ic Sz]; [discriminate|].
  refine (no_begin (a :: r) q c z _ _ Sq Ic (eq_sym E)); [discriminate|intros x; now apply Nb].
Qed.
Lemma left_unique p : spaces codes p -> forall p' r q r' q', spaces codes p' -> spaces codes q -> spaces codes q' ->
  (forall c x, In c codes -> r <> c ++ x) -> (forall c x, In c codes -> r' <> c ++ x) -> p ++ r ++ q = p' ++ r' ++ q' -> (r = [] /\ r' = []) \/ (r ++ q = r' ++ q').
Proof.
  induction 1 as [|c p Ic Sp IH]; intros p' r q r' q' Sp' Sq Sq' Nr Nr' E.
  - destruct Sp' as [|c' p' Ic' Sp']; [right; exact E|]. left. cbn [List.app] in E. destruct r as [|a r].
    + split; [reflexivity|]. cbn [List.app] in E. pose proof (spaces_after (c' ++ p') (sp_more _ _ _ Ic' Sp') q _ Sq E) as S2. exact (all_spaces r' q' _ S2 eq_refl Sq' Nr').
    + exfalso. rewrite <- app_assoc in E. refine (no_begin (a :: r) q c' _ _ _ Sq Ic' E); [discriminate|intros x; now apply Nr].
  - destruct Sp' as [|c' p' Ic' Sp'].
    + left. cbn [List.app] in E. destruct r' as [|a r'].
      * split; [|reflexivity]. cbn [List.app] in E. symmetry in E. pose proof (spaces_after (c ++ p) (sp_more _ _ _ Ic Sp) q' _ Sq' E) as S2. exact (all_spaces r q _ S2 eq_refl Sq Nr).
      * exfalso. rewrite <- app_assoc in E. symmetry in E. refine (no_begin (a :: r') q' c _ _ _ Sq' Ic E); [discriminate|intros x; now apply Nr'].
    + rewrite <- !app_assoc in E. destruct (same_code c c' _ _ Ic Ic' E) as [_ E']. exact (IH p' r q r' q' Sp' Sq Sq' Nr Nr' E').
Qed.
End Unique.
(** the hypotheses hold for the white space characters, forwards and backwards *)
Fixpoint halves (l : bytes) : list (bytes * bytes) := match l with [] => [([], [])] | a :: r => ([], l) :: map (fun e => (a :: fst e, snd e)) (halves r) end.
Lemma halves_all r y : In (r, y) (halves (r ++ y)).
Proof. induction r as [|a r IH]; [destruct y; cbn; auto|]. cbn [List.app halves]. right. apply in_map_iff. exists (r, y). auto. Qed.
Definition code_like (codes : list bytes) : bool :=
  forallb (fun c => negb (beqb c []) && forallb (fun d => match strip_prefix c d with Some (_ :: _) => false | _ => true end &&
     forallb (fun e => match e with ([], _) | (_, []) => true | (_, y) => match strip_prefix d y, strip_prefix y d with None, None => true | _, _ => false end end) (halves c)) codes) codes.
Lemma code_like_ok codes : code_like codes = true -> (forall c, In c codes -> c <> []) /\ (forall c d x, In c codes -> In d codes -> d = c ++ x -> x = []) /\
  (forall c r y d, In c codes -> In d codes -> r <> [] -> y <> [] -> c = r ++ y -> (forall x, y <> d ++ x) /\ (forall x, d <> y ++ x)).
Proof.
  intro H. unfold code_like in H. rewrite forallb_forall in H. split; [|split].
  - intros c I ->. specialize (H _ I). discriminate.
  - intros c d x Ic Id E. specialize (H _ Ic). apply andb_prop in H. destruct H as [_ H]. rewrite forallb_forall in H. specialize (H _ Id). apply andb_prop in H. destruct H as [H _]. apply strip_prefix_iff in E. rewrite E in H. destruct x; [reflexivity|discriminate].
  - intros c r y d Ic Id Nr Ny E. specialize (H _ Ic). apply andb_prop in H. destruct H as [_ H]. rewrite forallb_forall in H. specialize (H _ Id). apply andb_prop in H. destruct H as [_ H]. rewrite forallb_forall in H.
    specialize (H (r, y)). rewrite E in H. specialize (H (halves_all r y)). destruct r; [congruence|]. destruct y as [|y0 y]; [congruence|].
    destruct (strip_prefix d (y0 :: y)) eqn:P1; [discriminate|]. destruct (strip_prefix (y0 :: y) d) eqn:P2; [discriminate|].
    split; intros x Q; apply strip_prefix_iff in Q; congruence.
Qed.
Lemma spaces_back codes p : spaces codes p -> spaces (map (@rev N) codes) (rev p).
Proof. induction 1 as [|c r I Sp IH]; [constructor|]. rewrite rev_app_distr. apply spaces_app; [exact IH|]. rewrite <- (app_nil_r (rev c)). constructor; [now apply in_map|constructor]. Qed.
Theorem C59_trimmed_once : forall s r r', trimmed s r -> trimmed s r' -> r = r'.
Proof.
  intros s r r' (p & q & -> & Sp & Sq & B & F) (p' & q' & E & Sp' & Sq' & B' & F').
  destruct (code_like_ok space_codes ltac:(vm_compute; reflexivity)) as (U1 & U2 & U3).
  destruct (code_like_ok (map (@rev N) space_codes) ltac:(vm_compute; reflexivity)) as (V1 & V2 & V3).
  destruct (left_unique _ U1 U2 U3 p Sp p' r q r' q' Sp' Sq Sq' B B' E) as [[-> ->]|E']; [reflexivity|].
  apply (f_equal (@rev N)) in E'. rewrite !rev_app_distr in E'.
  assert (Fb : forall u, (forall c x, In c space_codes -> u <> x ++ c) -> forall c x, In c (map (@rev N) space_codes) -> rev u <> c ++ x).
  { intros u Fu c x I Q. apply in_map_iff in I. destruct I as (d & <- & I). apply (Fu d (rev x) I). rewrite <- (rev_involutive u), Q, rev_app_distr. now rewrite rev_involutive. }
  destruct (left_unique _ V1 V2 V3 (rev q) (spaces_back _ _ Sq) (rev q') (rev r) [] (rev r') [] (spaces_back _ _ Sq') (sp_none _) (sp_none _) (Fb _ F) (Fb _ F')) as [[H1 H2]|H].
  - rewrite !app_nil_r. exact E'.
  - apply (f_equal (@rev N)) in H1, H2. rewrite rev_involutive in H1, H2. congruence.
  - rewrite !app_nil_r in H. apply (f_equal (@rev N)) in H. now rewrite !rev_involutive in H.
Qed.
Print Assumptions C59_trimmed_once.
(** ** Examples *)
(** Dog is registered twice for Animal *)
Definition app_calls : list (option gtype * option gtype) := [(Some (TPtr a_animal), Some a_dog); (Some (TPtr a_animal), Some a_dog)].
Lemma app_calls_made i t : made (g_decls SampleIntro.app) app_calls i t -> i = a_animal /\ t = a_dog.
Proof. intros (p & [H|[H|[]]] & _ & E); injection H as <- <-; injection E as <-; auto. Qed.
Example C59_case : let P := SampleIntro.app in let inj := intro_args P "Query" "Mutation" in
  linked P app_calls /\ calls_apart (g_decls P) app_calls /\ made (g_decls P) app_calls a_animal a_dog /\ legal_call (g_decls P) (Some (TPtr a_animal)) (Some a_dog) a_animal a_dog /\
  named_apart P (roots_of P a_query a_meth true) /\ inputs_apart P (roots_of P a_query a_meth true) (more_of P true) /\ time_apart P /\
  (exists s, parse P 60 a_query a_meth false inj new_pst = POk app_schema s) /\ all_apart P app_schema /\
  @history world P app_schema (heap_of (ask P app_schema app_value no_mutation_fields 0 fresh first_request)) /\ keys_apart P a_animal /\ keys_apart P a_dog /\
  implements_call (g_decls P) no_links (Some (TPtr a_animal)) (Some a_user) = None /\ implements_call (g_decls P) no_links (Some a_animal) (Some a_dog) = None.
Proof.
  cbv zeta. destruct C49_introspection_describes_the_program_case as (A1 & A2 & _ & A4 & A5 & A6 & A7 & _ & _ & _ & A8 & A9 & _).
  split; [exists (Links [(bs "Animal", [a_dog])] [(bs "Dog", [a_animal])]); split; [vm_compute; reflexivity|split; reflexivity]|].
  split; [intros i t i' t' H H'; apply app_calls_made in H, H'; destruct H as [-> ->], H' as [-> ->]; auto|].
  split; [exists (TPtr a_animal); split; [now left|split; reflexivity]|].
  split.
  { split; [exists (TPtr a_animal); split; [reflexivity|split; reflexivity]|]. split; [reflexivity|].
    split; [eexists; exists 13%nat; split; [reflexivity|]; split; [reflexivity|split; discriminate]|]. split; [reflexivity|].
    split; [eexists; exists 14%nat; split; [reflexivity|]; split; [reflexivity|split; discriminate]|]. split; [reflexivity|]. apply (proj2 (C48_special_types _ _)). vm_compute. reflexivity. }
  split; [exact A1|]. split; [exact A2|]. split; [exact A4|]. split; [exact A5|]. split; [exact A6|]. split; [exact A7|]. split; [exact A8|]. split; [exact A9|]. split; vm_compute; reflexivity.
Qed.
Example C59_rename_case : type_rename (g_decls SampleIntro.app) [] (Some a_user) (bs "  Person ") [] = Some [(bs "User", bs "Person")] /\
  type_rename (g_decls SampleIntro.app) [] (Some a_user) (bs "__Person") [false] = None /\ type_rename (g_decls SampleIntro.app) [] (Some a_user) (bs "__Person") [true] = Some [(bs "User", bs "__Person")] /\
  type_rename (g_decls SampleIntro.app) [] (Some a_animal) (bs "Pet") [] = None /\ trimmed (bs "  Person ") (bs "Person").
Proof.
  do 4 (split; [vm_compute; reflexivity|]). exact (trim_space_spec (bs "  Person ")).
Qed.

(** ** What goes wrong: the tables have the Go names without the packages *)
(** two interfaces Animal: the second call does not panic and does nothing *)
Definition two_animals : list gdecl := [
  Decl (bs "Query") app_pkg (TStruct [fd "Pet" (TNamed 13); fd "Beast" (TNamed 12)]) []; Decl (bs "Mutation") app_pkg (TStruct []) [];
  Decl (bs "Animal") app_pkg (TIface [method "ResolveName" [] [str]]) []; Decl (bs "Dog") app_pkg (TStruct [fd "Age" int]) [method "ResolveName" [] [str]; method "ResolveWild" [] [boolean]];
  Decl (bs "Animal") lib_pkg (TIface [method "ResolveWild" [] [boolean]]) [] ].
Theorem C59_interfaces_of_one_name_refuted : exists decls l s i t, implements_calls decls no_links l = Some s /\ made decls l i t /\
  legal_call decls (Some (TPtr i)) (Some t) i t /\ ~ In i (types_of (lk_implements s) (t_name decls t)).
Proof.
  exists (yarql_decls ++ two_animals), [(Some (TPtr (TNamed 12)), Some (TNamed 13)); (Some (TPtr (TNamed 14)), Some (TNamed 13))].
  eexists. exists (TNamed 14), (TNamed 13). split; [vm_compute; reflexivity|]. split; [exists (TPtr (TNamed 14)); split; [right; now left|split; reflexivity]|]. split.
  { split; [exists (TPtr (TNamed 14)); split; [reflexivity|split; reflexivity]|]. split; [reflexivity|].
    split; [eexists; exists 14%nat; split; [reflexivity|]; split; [reflexivity|split; discriminate]|]. split; [reflexivity|].
    split; [eexists; exists 13%nat; split; [reflexivity|]; split; [reflexivity|split; discriminate]|]. split; [reflexivity|]. apply (proj2 (C48_special_types _ _)). vm_compute. reflexivity. }
  intro H. vm_compute in H. destruct H as [H|[]]. discriminate.
Qed.
Print Assumptions C59_interfaces_of_one_name_refuted.
(** two structs Dog: introspection says of one that it implements an interface that it does not implement *)
Definition two_dogs : list gdecl := [
  Decl (bs "Query") app_pkg (TStruct [fd "Dog" (TNamed 13)]) []; Decl (bs "Mutation") app_pkg (TStruct []) [];
  Decl (bs "Animal") app_pkg (TIface [method "ResolveName" [] [str]]) []; Decl (bs "Dog") app_pkg (TStruct [fd "Age" int]) [method "ResolveName" [] [str]];
  Decl (bs "Fast") lib_pkg (TIface [method "ResolveSpeed" [] [int]]) []; Decl (bs "Dog") lib_pkg (TStruct []) [method "ResolveSpeed" [] [int]] ].
Definition dog_calls : list (option gtype * option gtype) := [(Some (TPtr (TNamed 12)), Some (TNamed 13)); (Some (TPtr (TNamed 14)), Some (TNamed 15))].
Definition dog_links : links := Eval vm_compute in match implements_calls (yarql_decls ++ two_dogs) no_links dog_calls with Some s => s | None => no_links end.
Definition dogs : program := with_yarql two_dogs [] (lk_implements dog_links) (lk_implemented dog_links) [] [] yarql_locs.
Definition dogs_schema : pschema := Eval vm_compute in parsed_app dogs "Query" "Mutation".
Definition dogs_value : gval := GStruct [(true, GStruct [(true, GInt WInt 3)])].
Theorem C59_structs_of_one_name_refuted : exists P l p v q t i, linked P l /\ (exists s, parse P 60 (TNamed 10) (TNamed 11) false (intro_args P "Query" "Mutation") new_pst = POk p s) /\
  t_name (g_decls P) t = bs "Dog" /\ In (fd "Dog" t) (t_fields (g_decls P) (TNamed 10)) /\ t_name (g_decls P) i = bs "Fast" /\ ~ made (g_decls P) l i t /\
  has_method (g_decls P) i (bs "ResolveSpeed") (TFunc [] [int] false) /\ ~ has_method (g_decls P) t (bs "ResolveSpeed") (TFunc [] [int] false) /\
  told P p v q = json "{'data':{'__type':{'interfaces':[{'name':'Animal'},{'name':'Fast'}],'fields':[{'name':'age'},{'name':'name'}]}}}".
Proof.
  exists dogs, dog_calls, dogs_schema, dogs_value, "{__type(name:'Dog'){interfaces{name} fields{name}}}"%string, (TNamed 13), (TNamed 14).
  split; [exists dog_links; split; [vm_compute; reflexivity|split; reflexivity]|]. split; [eexists; vm_compute; reflexivity|]. split; [reflexivity|]. split; [now left|]. split; [reflexivity|].
  split; [intros (p & [H|[H|[]]] & _ & E); inversion H; subst; discriminate|].
  split; [apply has_method_iff; vm_compute; now left|]. split; [|vm_compute; reflexivity].
  intro H. apply has_method_iff in H. vm_compute in H. destruct H as [H|[]]. discriminate.
Qed.
Print Assumptions C59_structs_of_one_name_refuted.
(** renaming the struct User of another package renames that of the application *)
Definition users_decls := app_decls ++ [Decl (bs "User") lib_pkg (TStruct []) []].
Definition users : program := with_yarql users_decls [(bs "User", bs "Person")] [(bs "Dog", [a_animal])] [(bs "Animal", [a_dog])] [Enum KString (bs "Mood") [(bs "GOOD", GString (bs "good"))]] [] yarql_locs.
Definition users_schema : pschema := Eval vm_compute in parsed_app users "Query" "Mutation".
Definition users_value : gval := GStruct [(true, GString []); (true, GPtr (Some (GStruct [(true, GInt WInt 1); (true, GString (bs "Sam")); (true, GSlice None); (true, GString (bs "good"))]))); (true, GIface None); (true, GString [])].
Theorem C59_rename_refuted : exists P p v q other mine, type_rename (g_decls P) yarql_renamed (Some other) (bs "Person") [] = Some (g_renamed P) /\
  (exists s, parse P 60 (TNamed 10) (TNamed 11) false (intro_args P "Query" "Mutation") new_pst = POk p s) /\
  other <> mine /\ t_pkg (g_decls P) other = lib_pkg /\ t_pkg (g_decls P) mine = app_pkg /\ In (fd "Me" (TPtr mine)) (t_fields (g_decls P) (TNamed 10)) /\
  told P p v q = json "{'data':{'me':{'__typename':'Person','name':'Sam'}}}".
Proof.
  exists users, users_schema, users_value, "{me{__typename name}}"%string, (TNamed 18), a_user. split; [vm_compute; reflexivity|]. split; [eexists; vm_compute; reflexivity|].
  split; [discriminate|]. split; [reflexivity|]. split; [reflexivity|]. split; [right; now left|]. vm_compute. reflexivity.
Qed.
Print Assumptions C59_rename_refuted.
