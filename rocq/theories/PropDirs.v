(** * C58: introspection tells which directives can be used where *)
From Coq Require Import String Arith NArith ZArith Bool List Lia ZifyBool ZifyN ZifyNat Permutation.
From Verif Require Import RegModel PropReg Base Json JsonModel NameModel Ast Grammar RefParser RefGrammar ParserModel ReqModel Schema ResModel EnvModel Samples
  Interp RunSim OpSim Facts DocRun Valid PropEnv Spec SpecRun SpecDoc Regular PropExec PropSel ArgRun PropArgs PropOut PropUnknown
  GoTypes ParseModel ParseTerm SchemaSpec ParseWhole SchemaCheck IntroModel IntroProof IntroTables IntroSpec IntroFacts SampleProg SampleIntro PropSchema PropIntro.
Import ListNotations.
Open Scope N_scope.

(** ** Specification *)
(** the directives [ds] were registered in a new schema one after the other, each without an error; [s] is the table this leaves *)
Inductive registrations : list RegModel.directive -> directives -> Prop :=
| rg_new : registrations [skip_directive; include_directive] new_directives
| rg_more ds s d s' : registrations ds s -> register_directive false s d = RegOk s' -> registrations (ds ++ [d]) s'.
(** the program [P] has these directives and this table (parse.go 57), with the locations in any order *)
Definition at_loc (P : program) (l : N) : list nat := match nlookup (g_dirlocs P) l with Some ids => ids | None => [] end.
Record has_directives (P : program) (ds : list RegModel.directive) (s : directives) : Prop := {
  hd_same : Forall2 (fun d e => pd_name e = dr_name d /\ dr_where d = Some (pd_where e)) ds (g_dirs P);
  hd_keys : NoDup (map fst (g_dirlocs P));
  hd_table l : Forall2 (fun i d => nth_error ds i = Some d) (at_loc P l) (dirs_at s l) }.
(** the places of directives in a query have these names in GraphQL *)
Definition place_name (l : N) : bytes := match l with 0 => bs "FIELD" | 1 => bs "FRAGMENT_SPREAD" | _ => bs "INLINE_FRAGMENT" end.
(** all are for fields, fragment spreads and inline fragments *)
Definition known_places (ds : list RegModel.directive) : Prop := forall d l w, In d ds -> dr_where d = Some w -> In l w -> l < 3.
(** [v] is a value of __Schema and lists a directive with this name, description and place; [es] are the names of __DirectiveLocation *)
Definition lists (es : list (bytes * gval)) (v : gval) (name : bytes) (descr : gval) (place : bytes) : Prop :=
  exists a b c d e ds i j locs args n x, v = GStruct [a; b; c; d; e; (true, GSlice (Some ds))] /\ In (GStruct [(true, GString name); (i, descr); (j, GSlice (Some locs)); x; args]) ds /\
    In n locs /\ In (place, n) es.
Definition location_names : list (bytes * gval) := match nth_error yarql_enums 1 with Some e => en_entries e | None => [] end.

(** ** Registration *)
Lemma reg_reachable ds s : registrations ds s -> reachable s.
Proof. induction 1; [apply reach_new|eapply reach_ok; eauto]. Qed.
(** a directive is at a location exactly if it was registered for it *)
Lemma reg_at ds s : registrations ds s -> forall l d, In d (dirs_at s l) <-> exists w, In d ds /\ dr_where d = Some w /\ In l w.
Proof.
  induction 1 as [|ds s d0 s' H IH E]; intros l d.
  - unfold new_directives. cbn [dirs_at]. destruct (0 =? l) eqn:E0; [|destruct (1 =? l) eqn:E1; [|destruct (2 =? l) eqn:E2]].
    1,2,3: split; [intros [<-|[<-|[]]]; exists [0; 1; 2]; (split; [cbn; auto|split; [reflexivity|cbn; lia]])|intros (w & Hd & _); exact Hd].
    split; [intros []|]. intros (w & [<-|[<-|[]]] & Ew & Hl); cbn in Ew; injection Ew as <-; cbn in Hl; lia.
  - destruct (C43_success_registers_everywhere _ _ _ _ E) as (w0 & Ew0 & A & _ & B). split.
    + intro I. destruct (register_ext _ _ _ _ (or_introl E) l) as (x & Ex & Hx). rewrite Ex in I. apply in_app_or in I. destruct I as [I|I].
      * apply IH in I. destruct I as (w & I & J). exists w. split; [apply in_or_app; now left|exact J].
      * assert (Nx : x <> []) by (intro Z; rewrite Z in I; destruct I). destruct (Hx Nx) as (-> & Hl & _). destruct I as [<-|[]].
        rewrite Ew0 in Hl. exists w0. split; [apply in_or_app; right; now left|]. auto.
    + intros (w & I & Ew & Hl). apply in_app_or in I. destruct I as [I|[<-|[]]].
      * apply B. apply IH. eauto.
      * rewrite Ew in Ew0. injection Ew0 as <-. now apply A.
Qed.

(** ** What is told *)
Section Told.
Variables (P : program) (ds : list RegModel.directive) (s : directives).
Hypothesis RG : registrations ds s.
Hypothesis HD : has_directives P ds s.
Hypothesis KP : known_places ds.
Definition shown_as (e : pdir) : qldir := QDir (pd_name e) (check_str_ptr (pd_descr e)) (dir_locs e) [].
Lemma ql_location_inj l l' : l < 3 -> l' < 3 -> ql_location l = ql_location l' -> l = l'.
Proof. intros H H' E. assert (A : l = 0 \/ l = 1 \/ l = 2) by lia. assert (A' : l' = 0 \/ l' = 1 \/ l' = 2) by lia. destruct A as [->|[->| ->]], A' as [->|[->| ->]]; try reflexivity; discriminate. Qed.
Lemma entry_of i d : nth_error ds i = Some d -> exists e, nth_error (g_dirs P) i = Some e /\ pd_name e = dr_name d /\ dr_where d = Some (pd_where e).
Proof.
  pose proof (hd_same _ _ _ HD) as F. clear - F. revert i. induction F as [|d0 e0 ds' es' [H1 H2] F IH]; intros [|i] E; try discriminate; [|exact (IH _ E)]. injection E as <-. exists e0. auto.
Qed.
Lemma entry_back i e : nth_error (g_dirs P) i = Some e -> exists d, nth_error ds i = Some d /\ pd_name e = dr_name d /\ dr_where d = Some (pd_where e).
Proof.
  pose proof (hd_same _ _ _ HD) as F. clear - F. revert i. induction F as [|d0 e0 ds' es' [H1 H2] F IH]; intros [|i] E; try discriminate; [|exact (IH _ E)]. injection E as <-. exists d0. auto.
Qed.
Lemma in_ids i : In i (flat_map snd (g_dirlocs P)) <-> exists l, In i (at_loc P l).
Proof.
  unfold at_loc. rewrite in_flat_map. split.
  - intros ([l ids] & I & J). exists l. rewrite (in_nlookup _ _ _ (hd_keys _ _ _ HD) I). exact J.
  - intros [l I]. destruct (nlookup (g_dirlocs P) l) as [ids|] eqn:L; [|destruct I]. apply nlookup_in in L. eauto.
Qed.
Lemma forall2_in_l {A B} (R : A -> B -> Prop) l l' x : Forall2 R l l' -> In x l -> exists y, In y l' /\ R x y.
Proof. induction 1 as [|a b l l' H F IH]; intros I; [destruct I|]. destruct I as [<-|I]; [exists b; cbn; auto|]. destruct (IH I) as (y & Iy & Hy). exists y. cbn. auto. Qed.
Lemma forall2_in_r {A B} (R : A -> B -> Prop) l l' y : Forall2 R l l' -> In y l' -> exists x, In x l /\ R x y.
Proof. induction 1 as [|a b l l' H F IH]; intros I; [destruct I|]. destruct I as [<-|I]; [exists a; cbn; auto|]. destruct (IH I) as (x & Ix & Hx). exists x. cbn. auto. Qed.
(** the entries that are registered at a location *)
Lemma at_entry i l : In i (at_loc P l) -> exists e d, nth_error (g_dirs P) i = Some e /\ In d (dirs_at s l) /\ pd_name e = dr_name d /\ dr_where d = Some (pd_where e) /\ In l (pd_where e).
Proof.
  intro I. destruct (forall2_in_l _ _ _ _ (hd_table _ _ _ HD l) I) as (d & Id & E). destruct (entry_of _ _ E) as (e & Ee & H1 & H2). exists e, d.
  split; [exact Ee|]. split; [exact Id|]. split; [exact H1|]. split; [exact H2|]. apply (reg_at _ _ RG) in Id. destruct Id as (w & _ & Ew & Hl). congruence.
Qed.
(** two of one name that share a location are one *)
Lemma one_entry e e' i i' l l' : nth_error (g_dirs P) i = Some e -> nth_error (g_dirs P) i' = Some e' -> In i (at_loc P l) -> In i' (at_loc P l') ->
  pd_name e = pd_name e' -> shares (dir_locs e) (dir_locs e') = true -> pd_where e = pd_where e'.
Proof.
  intros E E' I I' N S. unfold shares, dir_locs in S. apply existsb_exists in S. destruct S as (c & Ic & S). apply existsb_exists in S. destruct S as (c' & Ic' & S). apply N.eqb_eq in S. subst c'.
  apply in_map_iff in Ic, Ic'. destruct Ic as (k & Ek & Ik), Ic' as (k' & Ek' & Ik').
  destruct (entry_back _ _ E) as (d & Ed & N1 & W1), (entry_back _ _ E') as (d' & Ed' & N2 & W2).
  assert (k = k') as <-.
  { apply ql_location_inj; [eapply KP; [exact (nth_error_In _ _ Ed)|exact W1|exact Ik]|eapply KP; [exact (nth_error_In _ _ Ed')|exact W2|exact Ik']|congruence]. }
  assert (J : In d (dirs_at s k)) by (apply (reg_at _ _ RG); exists (pd_where e); eauto using nth_error_In).
  assert (J' : In d' (dirs_at s k)) by (apply (reg_at _ _ RG); exists (pd_where e'); eauto using nth_error_In).
  assert (d = d') as <-; [|congruence].
  pose proof (C43_names_are_unique s k (reg_reachable _ _ RG)) as U. assert (Nd : dr_name d = dr_name d') by congruence. clear - U J J' Nd.
  induction (dirs_at s k) as [|x r IH]; [destruct J|]. cbn in U. inversion U as [|? ? Nx U']; subst. destruct J as [->|J], J' as [->|J']; auto.
  - exfalso. apply Nx. rewrite Nd. now apply in_map.
  - exfalso. apply Nx. rewrite <- Nd. now apply in_map.
Qed.
Lemma told_list :
  (forall q, In q (directives_ql P) -> exists i e l, In i (at_loc P l) /\ nth_error (g_dirs P) i = Some e /\ q = shown_as e) /\
  (forall i e l, In i (at_loc P l) -> nth_error (g_dirs P) i = Some e -> exists q, In q (directives_ql P) /\ qd_name q = pd_name e /\ qd_locs q = dir_locs e).
Proof.
  unfold directives_ql. match goal with |- context [fold_left ?f ?l []] => set (step := f); set (r := fold_left step l []) end.
  assert (G : forall ids res, (forall i, In i ids -> exists l, In i (at_loc P l)) ->
    (forall q, In q res -> exists i e l, In i (at_loc P l) /\ nth_error (g_dirs P) i = Some e /\ q = shown_as e) ->
    (forall q, In q (fold_left step ids res) -> exists i e l, In i (at_loc P l) /\ nth_error (g_dirs P) i = Some e /\ q = shown_as e) /\
    (forall q, In q res -> In q (fold_left step ids res)) /\
    (forall i e, In i ids -> nth_error (g_dirs P) i = Some e -> exists q, In q (fold_left step ids res) /\ qd_name q = pd_name e /\ qd_locs q = dir_locs e)).
  { induction ids as [|i ids IH]; intros res Hi Hr; cbn [fold_left]; [split; [exact Hr|split; [auto|intros ? ? []]]|].
    destruct (Hi i (or_introl eq_refl)) as [l Il]. destruct (at_entry _ _ Il) as (e & d & Ee & _).
    assert (Hr' : forall q, In q (step res i) -> exists i e l, In i (at_loc P l) /\ nth_error (g_dirs P) i = Some e /\ q = shown_as e).
    { intros q. unfold step. rewrite Ee. destruct (existsb _ res); [apply Hr|]. intro I. apply in_app_or in I. destruct I as [I|[<-|[]]]; [now apply Hr|]. exists i, e, l. auto. }
    destruct (IH (step res i) (fun j J => Hi j (or_intror J)) Hr') as (G1 & G2 & G3). split; [exact G1|].
    assert (K : forall q, In q res -> In q (step res i)).
    { intros q I. unfold step. rewrite Ee. destruct (existsb _ res); [exact I|]. apply in_or_app. now left. }
    split; [auto|]. intros j ej [<-|J] Ej; [|eauto]. rewrite Ee in Ej. injection Ej as <-.
    destruct (existsb (fun e0 => beqb (qd_name e0) (pd_name e) && shares (dir_locs e) (qd_locs e0)) res) eqn:Ex.
    - apply existsb_exists in Ex. destruct Ex as (q & Iq & Hq). apply andb_prop in Hq. destruct Hq as [Q1 Q2]. apply beqb_eq in Q1. exists q. split; [auto|]. split; [exact Q1|].
      destruct (Hr _ Iq) as (i' & e' & l' & Il' & Ee' & ->). cbn [shown_as qd_name qd_locs] in *. unfold dir_locs. f_equal. symmetry. eapply one_entry; eauto.
    - exists (shown_as e). split; [|split; reflexivity]. apply G2. unfold step. rewrite Ee, Ex. apply in_or_app. right. now left. }
  destruct (G (flat_map snd (g_dirlocs P)) []) as (G1 & _ & G3); [intros i I; now apply in_ids|intros q []|].
  assert (PR := sort_perm qd_name r). split.
  - intros q I. apply (Permutation_in _ PR) in I. auto.
  - intros i e l I E. destruct (G3 i e) as (q & Iq & Hq); [apply in_ids; eauto|exact E|]. exists q. split; [exact (Permutation_in _ (Permutation_sym PR) Iq)|exact Hq].
Qed.
Lemma names_of_locations l n : In (n, GUint W8 (ql_location l)) location_names <-> n = place_name (if l <? 3 then l else 0).
Proof.
  assert (A : l = 0 \/ l = 1 \/ l = 2 \/ 3 <= l) by lia.
  assert (D : ql_location l = ql_location (if l <? 3 then l else 0)).
  { destruct (l <? 3) eqn:E; [reflexivity|]. unfold ql_location. destruct l as [|[p|[p|p|]|]]; try reflexivity; lia. }
  rewrite D. assert (B : (if l <? 3 then l else 0) < 3) by (destruct (l <? 3) eqn:E; lia). revert B. generalize (if l <? 3 then l else 0). clear. intros k B.
  assert (A : k = 0 \/ k = 1 \/ k = 2) by lia. destruct A as [->|[->| ->]]; vm_compute; (split; [intuition congruence|intros ->; intuition]).
Qed.
End Told.
(** Whatever directives were registered: __schema lists a directive for a place exactly if one of that name is registered for it, with
    the description it was registered with, and nothing else. *)
Theorem C58_directives_told : forall P ds s qn mn, registrations ds s -> has_directives P ds s -> known_places ds ->
  (forall n l, l < 3 -> (exists t, lists location_names (schema_value P qn mn) n t (place_name l)) <-> (exists d, In d (dirs_at s l) /\ dr_name d = n)) /\
  (forall n t pl, lists location_names (schema_value P qn mn) n t pl -> exists l e, l < 3 /\ pl = place_name l /\ In e (g_dirs P) /\ pd_name e = n /\ In l (pd_where e) /\
     t = GPtr (match pd_descr e with [] => None | _ => Some (GString (pd_descr e)) end)).
Proof.
  intros P ds s qn mn RG HD KP. destruct (told_list P ds s RG HD KP) as [T1 T2].
  assert (Dn : forall n t pl, lists location_names (schema_value P qn mn) n t pl -> exists q l, In q (directives_ql P) /\ qd_name q = n /\ t = g_str (qd_descr q) /\ In (GUint W8 l) (map (GUint W8) (qd_locs q)) /\ In (pl, GUint W8 l) location_names).
  { intros n t pl (a & b & c & d & e & dl & i & j & locs & args & v & x & E & I & Iv & Ip). unfold schema_value, g_fields in E. cbn [map] in E. injection E as <- <- <- <- <- <-.
    apply in_map_iff in I. destruct I as (q & Eq & Iq). unfold g_dir, g_fields in Eq. cbn [map] in Eq. injection Eq as <- _ <- _ <- _ _.
    apply in_map_iff in Iv. destruct Iv as (l & <- & Il). exists q, l. split; [exact Iq|]. split; [reflexivity|]. split; [reflexivity|]. split; [apply in_map; exact Il|exact Ip]. }
  assert (Wl : forall q n t pl l, In q (directives_ql P) -> qd_name q = n -> t = g_str (qd_descr q) -> In l (qd_locs q) -> In (pl, GUint W8 l) location_names -> lists location_names (schema_value P qn mn) n t pl).
  { intros q n t pl l Iq <- -> Il Ip. unfold lists, schema_value, g_fields. cbn [map]. do 12 eexists. split; [reflexivity|]. split; [apply in_map_iff; exists q; split; [reflexivity|exact Iq]|].
    split; [apply in_map; exact Il|exact Ip]. }
  assert (Le : forall l k, l < 3 -> k < 3 -> place_name l = place_name k -> l = k).
  { intros l k Hl Hk. assert (A : l = 0 \/ l = 1 \/ l = 2) by lia. assert (B : k = 0 \/ k = 1 \/ k = 2) by lia. destruct A as [->|[->| ->]], B as [->|[->| ->]]; try reflexivity; discriminate. }
  assert (Ll : forall e i, nth_error (g_dirs P) i = Some e -> forall c, In c (dir_locs e) -> exists l, c = ql_location l /\ l < 3 /\ In l (pd_where e)).
  { intros e i E c I. unfold dir_locs in I. apply in_map_iff in I. destruct I as (l & <- & I). exists l. split; [reflexivity|]. split; [|exact I].
    destruct (entry_back P ds s HD _ _ E) as (d & Ed & _ & W). eapply KP; [exact (nth_error_In _ _ Ed)|exact W|exact I]. }
  assert (Both : forall n t pl, lists location_names (schema_value P qn mn) n t pl -> exists l i e, l < 3 /\ pl = place_name l /\ nth_error (g_dirs P) i = Some e /\ pd_name e = n /\ In l (pd_where e) /\ t = g_str (check_str_ptr (pd_descr e))).
  { intros n t pl H. destruct (Dn _ _ _ H) as (q & c & Iq & <- & -> & Ic & Ip). destruct (T1 _ Iq) as (i & e & l0 & Il & Ee & ->). apply in_map_iff in Ic. destruct Ic as (c' & E & Ic). injection E as ->.
    cbn [shown_as qd_locs] in Ic. destruct (Ll _ _ Ee _ Ic) as (l & -> & Hl & Iw). exists l, i, e. apply names_of_locations in Ip. replace (l <? 3) with true in Ip by lia.
    split; [exact Hl|]. split; [exact Ip|]. split; [exact Ee|]. split; [reflexivity|]. split; [exact Iw|reflexivity]. }
  split.
  - intros n l Hl. split.
    + intros [t H]. destruct (Both _ _ _ H) as (l' & i & e & Hl' & Ep & Ee & <- & Iw & _). apply Le in Ep; auto. subst l'.
      destruct (entry_back P ds s HD _ _ Ee) as (d & Ed & N & W). exists d. split; [|congruence]. apply (reg_at _ _ RG). exists (pd_where e). eauto using nth_error_In.
    + intros (d & Id & <-). destruct (forall2_in_r _ _ _ _ (hd_table _ _ _ HD l) Id) as (i & Ii & Ei). destruct (entry_of P ds s HD _ _ Ei) as (e & Ee & N & W).
      destruct (T2 _ _ _ Ii Ee) as (q & Iq & Nq & Lq). exists (g_str (qd_descr q)). apply (Wl q _ _ _ (ql_location l) Iq); [congruence|reflexivity| |apply names_of_locations; now replace (l <? 3) with true by lia].
      rewrite Lq. unfold dir_locs. apply in_map. apply (reg_at _ _ RG) in Id. destruct Id as (w & _ & Ew & Hw). congruence.
  - intros n t pl H. destruct (Both _ _ _ H) as (l & i & e & Hl & Ep & Ee & Hn & Iw & ->). exists l, e. split; [exact Hl|]. split; [exact Ep|]. split; [exact (nth_error_In _ _ Ee)|]. split; [exact Hn|].
    split; [exact Iw|]. unfold check_str_ptr, g_str. destruct (pd_descr e); reflexivity.
Qed.
Print Assumptions C58_directives_told.

(** ** What can be used *)
(** a directive of this name is there for this place *)
Definition usable (S : schema) (l : N) (n : bytes) : Prop := exists dl d, nlookup (s_dirs S) l = Some dl /\ In d dl /\ dd_name d = n.
(** the parsed schema and its copies have the registered directives *)
Lemma usable_view P ds s qt mt same inj fuel p st qv mv md : registrations ds s -> has_directives P ds s ->
  named_apart P (roots_of P qt mt (match inj with Some _ => true | None => false end)) -> inputs_apart P (roots_of P qt mt (match inj with Some _ => true | None => false end)) (more_of P (match inj with Some _ => true | None => false end)) ->
  parse P fuel qt mt same inj new_pst = POk p st ->
  forall l n, usable (view P p qv mv md) l n <-> exists d, In d (dirs_at s l) /\ dr_name d = n.
Proof.
  intros RG HD NA IA PA l n. destruct (parse_sound P qt mt same inj NA IA fuel p st PA) as [_ [own [iown [inown SR]]]]. pose proof (sr_dirs _ _ _ _ _ _ _ _ SR) as F.
  assert (N1 : forall i e, nth_error (g_dirs P) i = Some e -> exists d, nth_error (p_dirs p) i = Some d /\ dd_name d = pd_name e).
  { clear - F. induction F as [|e d es dl [H _] F IH]; intros [|i] e0 E; try discriminate; [injection E as <-; exists d; split; [reflexivity|exact H]|exact (IH _ _ E)]. }
  assert (N2 : forall i d, nth_error (p_dirs p) i = Some d -> exists e, nth_error (g_dirs P) i = Some e /\ dd_name d = pd_name e).
  { clear - F. induction F as [|e d es dl [H _] F IH]; intros [|i] d0 E; try discriminate; [injection E as <-; exists e; split; [reflexivity|exact H]|exact (IH _ _ E)]. }
  unfold usable. cbn [view s_dirs]. set (f := flat_map _).
  assert (L : forall t, nlookup (map (fun e : N * list nat => (fst e, f (snd e))) t) l = match nlookup t l with Some ids => Some (f ids) | None => None end).
  { induction t as [|[k v] t IH]; [reflexivity|]. cbn [map nlookup fst snd]. destruct (l =? k); [reflexivity|exact IH]. }
  rewrite L. pose proof (hd_table _ _ _ HD l) as T. unfold at_loc in T. destruct (nlookup (g_dirlocs P) l) as [ids|].
  - split.
    + intros (dl & d & E & I & <-). injection E as <-. apply in_flat_map in I. destruct I as (i & Ii & I). destruct (nth_error (p_dirs p) i) as [d0|] eqn:Ed; [|destruct I]. destruct I as [->|[]].
      destruct (N2 _ _ Ed) as (e & Ee & ->). destruct (forall2_in_l _ _ _ _ T Ii) as (x & Ix & Ex). destruct (entry_of P ds s HD _ _ Ex) as (e' & Ee' & Nm & _). exists x. split; [exact Ix|congruence].
    + intros (x & Ix & <-). destruct (forall2_in_r _ _ _ _ T Ix) as (i & Ii & Ex). destruct (entry_of P ds s HD _ _ Ex) as (e & Ee & Nm & _). destruct (N1 _ _ Ee) as (d & Ed & Nd).
      exists (f ids), d. split; [reflexivity|]. split; [|congruence]. apply in_flat_map. exists i. split; [exact Ii|]. rewrite Ed. now left.
  - inversion T as [Et|]. split; [intros (dl & d & E & _); discriminate|intros (x & Ix & _); destruct Ix].
Qed.
(** [misused S frags o v ss]: among the selections [ss] on the object [v] of type [o] there is, at some depth of the selections and of
    the data, one whose first directive is not there for such selections *)
Inductive misused (S : schema) (frags : list (bytes * bytes * list sel)) : obj -> gval -> list sel -> Prop :=
| mu_field : forall o v alias n x xs args subs ss, In (SField alias n (x :: xs) args subs) ss -> ~ usable S 0 (d_name x) -> misused S frags o v ss
| mu_spread : forall o v n x xs ss, In (SSpread n (x :: xs)) ss -> ~ usable S 1 (d_name x) -> misused S frags o v ss
| mu_inline : forall o v tn x xs sub ss, In (SInline tn (x :: xs) sub) ss -> ~ usable S 2 (d_name x) -> misused S frags o v ss
| mu_in_inline : forall o v sub ss, In (SInline (o_name o) [] sub) ss -> misused S frags o v sub -> misused S frags o v ss
| mu_in_spread : forall o v n sub ss, In (SSpread n []) ss -> fragment frags n = Some (o_name o, sub) -> misused S frags o v sub -> misused S frags o v ss
| mu_below : forall o fs alias n subs ss h fo idx hd e v t x, In (SField alias n [] None subs) ss ->
    In (h, Field fo None idx n hd) (o_fields o) -> (forall f, In f (o_fields o) -> fname_of (snd f) = n -> snd f = Field fo None idx n hd) ->
    nth_error fs idx = Some (e, v) -> inside S fo v t x -> misused S frags t x subs -> misused S frags o (GStruct fs) ss.
Section Uses.
Context {W : Type} (X : externals W) (S : schema) (rawvars : bytes) (decls : option (list oparg)) (fdefs : list (bytes * bytes * list sel)).
Notation sels := (sels X S rawvars decls fdefs field_named).
Notation field := (Spec.field X S rawvars decls fdefs field_named).
Lemma says_usable p l w x xs w' b : dirs_say X S rawvars decls p l w (x :: xs) w' b -> usable S l (d_name x).
Proof.
  assert (Q : forall w w' b, dir_says X S rawvars decls p l w x w' b -> usable S l (d_name x)).
  { intros w0 w0' b0 H. inversion H as [? ? dl d ? ? ? L F|? ? dl d ? ? ? L F|? ? dl d ? ? ? ? ? L F]; subst; apply find_some in F; destruct F as [I N]; apply beqb_eq in N; exists dl, d; auto. }
  intro H. inversion H; subst; eauto.
Qed.
Lemma each_dirs : forall p o d g k w ss ms w', sels p o d g k w ss ms w' -> forall x, In x ss ->
  match x with
  | SField alias n ds args subs => exists w1 ms1 w2, field p o d g k w1 alias n ds args subs ms1 w2
  | SInline tn ds sub => exists w1 w2 b, dirs_say X S rawvars decls p 2 w1 ds w2 b
  | SSpread n ds => exists w1 w2 b, dirs_say X S rawvars decls p 1 w1 ds w2 b
  end.
Proof. intros p o d g k w ss ms w' H. induction H; intros x I; try contradiction; (destruct I as [E|I]; [subst; eauto|first [now apply IHsels|now apply IHsels2]]). Qed.
Lemma misused_fails : forall o v ss, misused S fdefs o v ss -> forall p d ro k w ms w', ~ sels p o d (ro, v) k w ss ms w'.
Proof.
  intros o v ss H. induction H as [o v alias n x xs args subs ss I U|o v n x xs ss I U|o v tn x xs sub ss I U|o v sub ss I U IH|o v n sub ss I F U IH|o fs alias n subs ss h fo idx hd e v t x I Fi Fu Nt In U IH];
    intros p d ro k w ms w' H'; pose proof (each_dirs _ _ _ _ _ _ _ _ _ H' _ I) as E; pose proof (each _ _ _ _ _ _ _ _ _ _ _ _ _ _ H' _ I) as E'; cbv beta iota in E, E'.
  - apply U. destruct E as (w1 & ms1 & w2 & E). inversion E; subst; eapply says_usable; eauto.
  - apply U. destruct E as (w1 & w2 & b & E). eapply says_usable; eauto.
  - apply U. destruct E as (w1 & w2 & b & E). eapply says_usable; eauto.
  - destruct E' as (w1 & ms1 & w2 & E'); auto. eapply IH; eauto.
  - destruct (E' sub) as (w1 & ms1 & w2 & E''); auto. eapply IH; eauto.
  - destruct E as (w1 & ms1 & w2 & E). pose proof (is_named _ _ _ _ _ _ Fi Fu) as L. inversion E; subst.
    + match goal with D : dirs_say _ _ _ _ _ _ _ _ _ _ |- _ => apply no_dirs in D; discriminate end.
    + congruence.
    + match goal with A : field_named _ _ = Some _ |- _ => rewrite L in A; injection A; intros; subst end.
      match goal with A : field_place _ _ _ _ _ |- _ => destruct (place_of _ _ _ _ _ _ _ Nt (not_method _ _ _ _ _ In) A) as (ro' & ->) end.
      match goal with A : Spec.value _ _ _ _ _ _ _ _ _ _ _ _ _ _ _ _ |- _ => destruct (object _ _ _ _ _ _ _ _ _ In _ _ _ _ _ _ _ _ A) as (p1 & d1 & k1 & w30 & ms0 & w4 & Z) end. eapply IH; eauto.
Qed.
End Uses.

(** ** What is told can be used, and nothing else can *)
Theorem C58_told_is_usable : forall P ds s qt mt same qn mn fuel p st qv mv md, registrations ds s -> has_directives P ds s -> known_places ds ->
  named_apart P (roots_of P qt mt true) -> inputs_apart P (roots_of P qt mt true) (more_of P true) ->
  parse P fuel qt mt same (Some (schema_value P qn mn, type_function)) new_pst = POk p st ->
  forall n l, l < 3 -> (exists t, lists location_names (schema_value P qn mn) n t (place_name l)) <-> usable (view P p qv mv md) l n.
Proof.
  intros P ds s qt mt same qn mn fuel p st qv mv md RG HD KP NA IA PA n l Hl. destruct (C58_directives_told P ds s qn mn RG HD KP) as [T _]. rewrite (T n l Hl). symmetry.
  exact (usable_view P ds s qt mt same (Some (schema_value P qn mn, type_function)) fuel p st qv mv md RG HD NA IA PA l n).
Qed.
Print Assumptions C58_told_is_usable.
(** the directives of a selection, the place they are at, and the path of errors there *)
Definition sel_dirs (x : sel) : list directive := match x with SField _ _ ds _ _ => ds | SSpread _ ds => ds | SInline _ ds _ => ds end.
Definition sel_place (x : sel) : N := match x with SField _ _ _ _ _ => 0 | SSpread _ _ => 1 | SInline _ _ _ => 2 end.
Definition sel_path (x : sel) : option bytes := match x with SField alias n _ _ _ => Some (quoted (match alias with Some a => a | None => n end)) | _ => None end.
(** a request for one selection whose first directive cannot be used there is answered with one error that names it, and nothing is called *)
Theorem C58_unknown : forall W (X : externals W) S o kd nm decls x d1 ds q d w fuel vals,
  g_doc d q -> nul_free d -> N.of_nat (length (enc_doc d)) < 4294967296 -> kd <> OpSubscription -> runs o d (DOp kd nm decls [] [x]) ->
  sel_dirs x = d1 :: ds -> ~ usable S (sel_place x) (d_name d1) -> (3 <= fuel)%nat ->
  let es := [ERun (RErr (bs "unknown directive " ++ d_name d1) (sel_path x))] in
  exists vals', resolve X S fuel o vals w q = RDone (finish_of o (start_of o ++ bs "{}") es) es vals' w.
Proof.
  intros W X S o kd nm decls x d1 ds q d w fuel vals G Nu Sz Nk U D Us Lf es. pose proof (resolve_doc W X S fuel o vals w q d _ G Nu Sz U) as Rd.
  assert (Bd : forall m l s, ~ usable S l (d_name d1) -> b_directives X S (op_vars o) decls m l (d1 :: ds) s =
     BOk (true, true) (set_errs (r_errs s ++ [RErr (bs "unknown directive " ++ d_name d1) (match r_path s with [] => None | _ :: p => Some p end)]) s)).
  { intros m l s U'. cbn [b_directives]. unfold bbind at 1, b_directive. destruct (nlookup (s_dirs S) l) as [dl|] eqn:L; [|reflexivity].
    destruct (find _ dl) as [dd|] eqn:F; [|reflexivity]. apply find_some in F. destruct F as [I N]. apply beqb_eq in N. exfalso. apply U'. exists dl, dd. auto. }
  assert (B : b_operation X S (op_vars o) d (DOp kd nm decls [] [x]) fuel (s0 w) = BOk ([], true) (set_errs [RErr (bs "unknown directive " ++ d_name d1) (sel_path x)] (s0 w))).
  { replace fuel with (Datatypes.S (Datatypes.S (Datatypes.S (fuel - 3)))) by lia. generalize (fuel - 3)%nat. clear Rd Lf. intro m.
    assert (B : forall oo v, b_sels X S (op_vars o) decls (frag_defs d) (Datatypes.S (Datatypes.S (Datatypes.S m))) oo 0 (false, v) 0 [x] (s0 w) =
       BOk ([], true) (set_errs [RErr (bs "unknown directive " ++ d_name d1) (sel_path x)] (s0 w))).
    { intros oo v. rewrite (sels_step X S (op_vars o) decls (frag_defs d)). unfold bbind at 1.
      destruct x as [alias n ds' args subs|n ds'|tn ds' subs]; cbn [sel_dirs sel_place sel_path] in *; subst ds'.
      - rewrite (field_step X S (op_vars o) decls (frag_defs d)). rewrite get_path_at, put_path_at. unfold bbind at 1. rewrite Bd by exact Us. destruct alias; reflexivity.
      - rewrite (spread_step X S (op_vars o) decls (frag_defs d)). unfold bbind at 1. rewrite Bd by exact Us. reflexivity.
      - rewrite (inline_step X S (op_vars o) decls (frag_defs d)). unfold bbind at 1. rewrite Bd by exact Us. reflexivity. }
    destruct kd; cbn [b_operation root fst snd] in *; try contradiction; apply B. }
  rewrite B in Rd. cbv zeta in Rd. destruct Rd as (vals' & Rd). exists vals'. rewrite Rd. reflexivity.
Qed.
Print Assumptions C58_unknown.
(** with any other selections beside, above and around it, in fragments, below pointers and in lists: there is an error *)
Theorem C58_reported : forall W (X : externals W) S o q d kd nm decls ss w fuel vals out es vals' w',
  regular S q d -> runs o d (DOp kd nm decls [] ss) -> in_scope X S o d (DOp kd nm decls [] ss) fuel w ->
  misused S (frag_defs d) (fst (root S kd)) (snd (root S kd)) ss ->
  resolve X S fuel o vals w q = RDone out es vals' w' -> es <> [].
Proof.
  intros W X S o q d kd nm decls ss w fuel vals out es vals' w' R U L Uk H ->.
  destruct (C16_only_the_document_is_executed _ X S q d o _ w fuel vals out vals' w' R U L H) as (ms & Op & _). cbn [operation] in Op. destruct Op as [_ Op]. eapply misused_fails; eauto.
Qed.
Print Assumptions C58_reported.

(** ** Example: beside @skip and @include there are @note for fields, another @note for inline fragments, and @hide for fields and spreads *)
Definition note_dir := RegModel.Dir (bs "note") (Some [0]) (MkFunc [true]).
Definition note_dir' := RegModel.Dir (bs "note") (Some [2]) (MkFunc [true]).
Definition hide_dir := RegModel.Dir (bs "hide") (Some [0; 1]) (MkFunc [true]).
Definition dir_regs := [skip_directive; include_directive; note_dir; note_dir'; hide_dir].
Definition dir_table : directives := Eval vm_compute in
  fold_left (fun s d => match register_directive false s d with RegOk s' => s' | _ => s end) [note_dir; note_dir'; hide_dir] new_directives.
Definition dir_app : program := with_yarql app_decls [(bs "Animal", bs "Pet")] [(bs "Dog", [a_animal])] [(bs "Animal", [a_dog])]
  [Enum KString (bs "Mood") [(bs "GOOD", GString (bs "good")); (bs "BAD", GString (bs "bad"))]]
  [PDir (bs "note") [TStruct [fd "Text" str]] (DUser 0) [0] (bs "a note"); PDir (bs "note") [] (DUser 1) [2] []; PDir (bs "hide") [] (DUser 2) [0; 1] []]
  [(2, [0; 1; 3]%nat); (0, [0; 1; 2; 4]%nat); (1, [0; 1; 4]%nat)].
Definition dir_schema : pschema := Eval vm_compute in parsed_app dir_app "Query" "Mutation".
Definition dir_sees : schema := view dir_app dir_schema app_value (GStruct []) 255.
Lemma three (Q : N -> Prop) : Q 0 -> Q 1 -> Q 2 -> (forall l, 2 < l -> Q l) -> forall l, Q l.
Proof. intros A B C D l. destruct (2 <? l) eqn:E; [apply D; lia|]. assert (H : l = 0 \/ l = 1 \/ l = 2) by lia. destruct H as [->|[->| ->]]; assumption. Qed.
Lemma dir_has : has_directives dir_app dir_regs dir_table.
Proof.
  constructor.
  - repeat constructor.
  - cbn. repeat constructor; cbn; intuition discriminate.
  - apply three; [repeat constructor|repeat constructor|repeat constructor|]. intros l H. unfold at_loc, dir_app, with_yarql, dir_table. cbn [g_dirlocs nlookup dirs_at].
    replace (l =? 2) with false by lia. replace (l =? 0) with false by lia. replace (l =? 1) with false by lia. replace (0 =? l) with false by lia. replace (1 =? l) with false by lia. replace (2 =? l) with false by lia. constructor.
Qed.
Lemma dir_registered : registrations dir_regs dir_table.
Proof.
  apply (rg_more ([skip_directive; include_directive; note_dir] ++ [note_dir']) _ hide_dir _ (rg_more ([skip_directive; include_directive] ++ [note_dir]) _ note_dir' _ (rg_more _ _ note_dir _ rg_new eq_refl) eq_refl)). reflexivity.
Qed.
Lemma dir_known : known_places dir_regs.
Proof. intros d l w I W Il. cbn in I. intuition (subst d; cbn in W; injection W as <-; cbn in Il; lia). Qed.
Definition q58 : bytes := bs "{hello ...f} fragment f on Query{me{id} ...on Query@hide{x:hello}}".
Definition d58 : document := Eval vm_compute in parsed q58.
Definition dir_env := intro_env dir_app dir_schema 0 any_call sample_x.
Example C58_case :
  registrations dir_regs dir_table /\ has_directives dir_app dir_regs dir_table /\ known_places dir_regs /\
  named_apart dir_app (roots_of dir_app a_query a_meth true) /\ inputs_apart dir_app (roots_of dir_app a_query a_meth true) (more_of dir_app true) /\
  (exists st, parse dir_app 60 a_query a_meth false (Some (schema_value dir_app (bs "Query") (bs "Mutation"), type_function)) new_pst = POk dir_schema st) /\
  (* what is told *)
  text_of (ask dir_app dir_schema app_value any_call 0 fresh "{__schema{directives{name description locations}}}") = Some
    "{""data"":{""__schema"":{""directives"":[{""name"":""hide"",""description"":null,""locations"":[""FIELD"",""FRAGMENT_SPREAD""]},{""name"":""include"",""description"":""Directs the executor to include this field or fragment only when the `if` argument is true."",""locations"":[""FIELD"",""FRAGMENT_SPREAD"",""INLINE_FRAGMENT""]},{""name"":""note"",""description"":null,""locations"":[""INLINE_FRAGMENT""]},{""name"":""note"",""description"":""a note"",""locations"":[""FIELD""]},{""name"":""skip"",""description"":""Directs the executor to skip this field or fragment when the `if` argument is true."",""locations"":[""FIELD"",""FRAGMENT_SPREAD"",""INLINE_FRAGMENT""]}]}}}"%string /\
  (* what can be used *)
  text_of (ask dir_app dir_schema app_value any_call 0 fresh "{a:hello @hide b:hello @note(text:'x') ...on Query@note{c:hello} ...f@hide} fragment f on Query{d:hello}") =
    Some "{""data"":{""a"":""world"",""b"":""world"",""d"":""world""}}"%string /\
  (* and what cannot *)
  (exists x ds vals st, sel_dirs x = Ast.Dir (bs "hide") None :: ds /\ sel_place x = 2 /\ g_doc [DOp OpQuery [] None [] [x]] (bs "{...on Query@hide{x:hello}}") /\ ~ usable dir_sees 2 (bs "hide") /\
     resolve dir_env dir_sees 3000 no_opts no_vals (fresh, []) (bs "{...on Query@hide{x:hello}}") =
       RDone (q2 "{'data':{},'errors':[{'message':'unknown directive hide'}],'extensions':{}}") [ERun (RErr (bs "unknown directive hide") None)] vals st) /\
  regular dir_sees q58 d58 /\ runs no_opts d58 (first_of d58) /\ in_scope dir_env dir_sees no_opts d58 (first_of d58) 3000 (fresh, []) /\
  (exists ss, first_of d58 = DOp OpQuery [] None [] ss /\ misused dir_sees (frag_defs d58) (fst (root dir_sees OpQuery)) (snd (root dir_sees OpQuery)) ss).
Proof.
  assert (U : ~ usable dir_sees 2 (bs "hide")).
  { intros (dl & d & L & I & N). vm_compute in L. injection L as <-. destruct I as [<-|[<-|[<-|[]]]]; discriminate. }
  split; [exact dir_registered|]. split; [exact dir_has|]. split; [exact dir_known|].
  assert (A : named_apart dir_app (roots_of dir_app a_query a_meth true) /\ inputs_apart dir_app (roots_of dir_app a_query a_meth true) (more_of dir_app true)) by (apply (apart_ok dir_app a_query a_meth true 30); vm_compute; reflexivity).
  split; [apply A|]. split; [apply A|]. split; [eexists; vm_compute; reflexivity|]. split; [vm_compute; reflexivity|]. split; [vm_compute; reflexivity|]. split.
  { eexists (SInline _ [_] _), [], _, _. split; [reflexivity|]. split; [reflexivity|]. split; [apply RefGrammar.ref_parse_spec; vm_compute; reflexivity|]. split; [exact U|]. vm_compute. reflexivity. }
  split; [apply regularb_ok; vm_compute; reflexivity|]. split; [apply runs_only; [vm_compute; reflexivity|vm_compute; auto]|]. split; [intro H; vm_compute in H; discriminate|].
  eexists. split; [reflexivity|]. eapply mu_in_spread; [right; left; reflexivity|reflexivity|]. eapply mu_inline; [right; left; reflexivity|]. exact U.
Qed.
(** the directives of a schema without more are in the sample program of the other properties *)
Example C58_new_case : registrations [skip_directive; include_directive] new_directives /\ has_directives app [skip_directive; include_directive] new_directives.
Proof.
  split; [constructor|]. constructor.
  - repeat constructor.
  - cbn. repeat constructor; cbn; intuition discriminate.
  - apply three; [repeat constructor|repeat constructor|repeat constructor|]. intros l H. unfold at_loc, app, with_yarql, new_directives, yarql_locs. cbn [g_dirlocs nlookup dirs_at].
    replace (l =? 2) with false by lia. replace (l =? 0) with false by lia. replace (l =? 1) with false by lia. replace (0 =? l) with false by lia. replace (1 =? l) with false by lia. replace (2 =? l) with false by lia. constructor.
Qed.

(** ** Where the statement is false *)
Ltac table := constructor; [repeat constructor|cbn; repeat constructor; cbn; intuition discriminate|].
Definition dirs_program (dirs : list pdir) (locs : list (N * list nat)) : program := with_yarql [] [] [] [] [] dirs locs.
(** after a registration that failed, which leaves the directive at the places before the one that was taken: depending on the order in
    which Go walks over the places, it is told for a place where it cannot be used, or not told for one where it can *)
Theorem C58_failed_registration_refuted : exists P P' ds s d s', registrations ds s /\ known_places (ds ++ [d]) /\ register_directive false s d = RegErr s' /\
  has_directives P (ds ++ [d]) s' /\ has_directives P' (ds ++ [d]) s' /\
  (exists n t, lists location_names (schema_value P (bs "Q") (bs "M")) n t (bs "FRAGMENT_SPREAD") /\ forall x, In x (dirs_at s' 1) -> dr_name x <> n) /\
  (exists x, In x (dirs_at s' 0) /\ forall t, ~ lists location_names (schema_value P' (bs "Q") (bs "M")) (dr_name x) t (bs "FIELD")).
Proof.
  pose (a := RegModel.Dir (bs "note") (Some [2]) (MkFunc [true])). pose (b := RegModel.Dir (bs "note") (Some [0; 2; 1]) (MkFunc [true])).
  pose (es := [PDir (bs "note") [] (DUser 0) [2] []; PDir (bs "note") [] (DUser 1) [0; 2; 1] []]).
  exists (dirs_program es [(0, [0; 1; 3]%nat); (1, [0; 1]%nat); (2, [0; 1; 2]%nat)]), (dirs_program es [(2, [0; 1; 2]%nat); (0, [0; 1; 3]%nat); (1, [0; 1]%nat)]), ([skip_directive; include_directive] ++ [a]). eexists. exists b. eexists.
  split; [eapply rg_more; [constructor|reflexivity]|]. split; [intros d l w I W Il; cbn in I; intuition (subst d; cbn in W; injection W as <-; cbn in Il; lia)|]. split; [vm_compute; reflexivity|].
  split; [|split; [|split]].
  - table. apply three; [repeat constructor|repeat constructor|repeat constructor|]. intros l H. unfold at_loc, dirs_program, with_yarql. cbn [g_dirlocs nlookup dirs_at].
    replace (l =? 2) with false by lia. replace (l =? 0) with false by lia. replace (l =? 1) with false by lia. replace (0 =? l) with false by lia. replace (1 =? l) with false by lia. replace (2 =? l) with false by lia. constructor.
  - table. apply three; [repeat constructor|repeat constructor|repeat constructor|]. intros l H. unfold at_loc, dirs_program, with_yarql. cbn [g_dirlocs nlookup dirs_at].
    replace (l =? 2) with false by lia. replace (l =? 0) with false by lia. replace (l =? 1) with false by lia. replace (0 =? l) with false by lia. replace (1 =? l) with false by lia. replace (2 =? l) with false by lia. constructor.
  - exists (bs "note"), (GPtr None). split.
    + unfold lists. do 12 eexists. split; [vm_compute; reflexivity|]. split; [right; left; reflexivity|]. split; [right; right; left; reflexivity|]. vm_compute. repeat (first [left; reflexivity|right]).
    + intros x I. cbn in I. intuition (subst x; discriminate).
  - exists b. split; [right; right; left; reflexivity|]. intros t (? & ? & ? & ? & ? & dl & i & j & locs & args & n & x & E & I & In & Ip). vm_compute in E. injection E as <- <- <- <- <- <-.
    destruct I as [I|[I|[I|[]]]]; try discriminate. injection I as _ <- _ <- _ _. destruct In as [<-|[]]. vm_compute in Ip. intuition discriminate.
Qed.
Print Assumptions C58_failed_registration_refuted.
(** a place that is none of the three is accepted and told as FIELD *)
Theorem C58_places_refuted : exists P ds s n t, registrations ds s /\ has_directives P ds s /\
  lists location_names (schema_value P (bs "Q") (bs "M")) n t (bs "FIELD") /\ forall x, In x (dirs_at s 0) -> dr_name x <> n.
Proof.
  pose (a := RegModel.Dir (bs "note") (Some [3]) (MkFunc [true])).
  exists (dirs_program [PDir (bs "note") [] (DUser 0) [3] []] (yarql_locs ++ [(3, [2]%nat)])), ([skip_directive; include_directive] ++ [a]). eexists. exists (bs "note"), (GPtr None).
  split; [eapply rg_more; [constructor|reflexivity]|]. split; [|split].
  - table. apply three; [repeat constructor|repeat constructor|repeat constructor|]. intros l H. unfold at_loc, dirs_program, with_yarql, yarql_locs. cbn [g_dirlocs List.app nlookup].
    replace (l =? 2) with false by lia. replace (l =? 0) with false by lia. replace (l =? 1) with false by lia. destruct (l =? 3) eqn:E.
    + apply N.eqb_eq in E. subst l. repeat constructor.
    + match goal with |- Forall2 _ _ (dirs_at ?t _) => let t' := eval vm_compute in t in change t with t' end. cbn [dirs_at]. replace (0 =? l) with false by lia. replace (1 =? l) with false by lia. replace (2 =? l) with false by lia. replace (3 =? l) with false by lia. constructor.
  - unfold lists. do 12 eexists. split; [vm_compute; reflexivity|]. split; [right; left; reflexivity|]. split; [left; reflexivity|]. vm_compute. repeat (first [left; reflexivity|right]).
  - intros x I. cbn in I. intuition (subst x; discriminate).
Qed.
Print Assumptions C58_places_refuted.
(** in GraphQL the names of directives are different; here one name may be told twice, with two descriptions *)
Theorem C58_names_refuted : exists P ds s n t t', registrations ds s /\ has_directives P ds s /\ known_places ds /\
  lists location_names (schema_value P (bs "Q") (bs "M")) n t (bs "FIELD") /\ lists location_names (schema_value P (bs "Q") (bs "M")) n t' (bs "INLINE_FRAGMENT") /\ t <> t'.
Proof.
  exists dir_app, dir_regs, dir_table, (bs "note"), (GPtr (Some (GString (bs "a note")))), (GPtr None). split; [exact dir_registered|]. split; [exact dir_has|]. split; [exact dir_known|].
  split; [|split; [|discriminate]].
  - unfold lists. do 12 eexists. split; [vm_compute; reflexivity|]. split; [right; right; right; left; reflexivity|]. split; [left; reflexivity|]. vm_compute. repeat (first [left; reflexivity|right]).
  - unfold lists. do 12 eexists. split; [vm_compute; reflexivity|]. split; [right; right; left; reflexivity|]. split; [left; reflexivity|]. vm_compute. repeat (first [left; reflexivity|right]).
Qed.
Print Assumptions C58_names_refuted.
