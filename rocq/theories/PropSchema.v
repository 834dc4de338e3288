(** * C44 and C48: schemas built from Go types *)
From Coq Require Import String Arith NArith ZArith Bool List Lia.
From Verif Require Import Base JsonModel NameModel Schema GoTypes ParseModel ParseFacts ParseTerm SpecDoc SchemaSpec ParseSound InputSound ParseWhole SchemaCheck SampleProg.
From Verif Require Facts.
Import ListNotations.
Open Scope nat_scope.

(** ** C44: parsing returns *)
Definition all_named (P : program) : Prop := forall n, nth_error (g_decls P) n <> None -> t_name (g_decls P) (TNamed n) <> [].
Theorem C44_parsing_returns : forall P qt mt same inj,
  ranked (g_decls P) -> sized (g_decls P) -> registered P -> all_named P ->
  exists r, r <> PNoFuel /\ exists f, forall fuel, f <= fuel -> parse P fuel qt mt same inj new_pst = r.
Proof.
  intros P qt mt same inj Hr Hz Hi Hn. destruct (parse_ends P Hr Hi Hn Hz qt mt same inj new_pst) as [n H].
  exists (parse P n qt mt same inj new_pst). split; [exact H|]. exists n. intros fuel L. now apply parse_mono.
Qed.
Print Assumptions C44_parsing_returns.
(** the sample program has a type that contains itself (User) and meets the hypotheses *)
Lemma decl_case (l : list gdecl) n d : nth_error l n = Some d -> In (n, d) (combine (seq 0 (length l)) l).
Proof.
  assert (forall l k, nth_error l n = Some d -> In (k + n, d) (combine (seq k (length l)) l)) as H.
  { clear l. intro l. revert n. induction l as [|x l IH]; intros [|n] k E; try discriminate; cbn in E |- *.
    - injection E as ->. left. f_equal. lia.
    - right. replace (k + S n) with (S k + n) by lia. now apply IH. }
  intro E. exact (H l 0 E).
Qed.
Example C44_parsing_returns_case :
  ranked sample_decls /\ sized sample_decls /\ registered sample_prog /\ all_named sample_prog /\
  exists p s, parse sample_prog 20 g_query g_meth false None new_pst = POk p s /\
    map fst (ps_types s) = [bs "QueryRoot"; bs "User"; bs "__UnknownType1"; bs "Dog"; bs "MethodRoot"] /\
    map fst (ps_intypes s) = [bs "UserFilter"; bs "User__input"; bs "__UnknownInput1"].
Proof.
  split; [|split; [|split; [|split]]].
  - exists (fun _ => 0). intros n d E O m I Om. apply decl_case in E. repeat (destruct E as [E|E]; [injection E as <- <-;
      try (exfalso; destruct O as [O1 O2]; vm_compute in O1, O2; congruence); try (cbn in I; contradiction)|]). contradiction.
  - exists (fun n => match n with 0 | 1 => 3 | 2 | 8 => 2 | 5 => 0 | 6 => 0 | _ => 1 end). intros n d E m I. apply decl_case in E.
    repeat (destruct E as [E|E]; [injection E as <- <-; cbn in I; repeat (destruct I as [<-|I]; [lia|]); contradiction|]). contradiction.
  - intros n ts t I J. cbn in I. destruct I as [I|[]]. injection I as <- <-. destruct J as [<-|[]]. reflexivity.
  - intros n N E. destruct (nth_error (g_decls sample_prog) n) as [d|] eqn:Ed; [|congruence]. cbn [t_name] in E. rewrite Ed in E.
    apply decl_case in Ed. repeat (destruct Ed as [Ed|Ed]; [injection Ed as <- <-; discriminate|]). contradiction.
  - eexists _, _. vm_compute. repeat split; reflexivity.
Qed.

(** It does not return for all Go programs: there are cycles of declarations without struct or interface.
    [type L []L] *)
Definition loop_prog : program :=
  Prog [Decl (bs "Q") app_pkg (TStruct [fd "L" (TNamed 2)]) []; Decl (bs "M") app_pkg (TStruct []) []; Decl (bs "L") app_pkg (TSlice (TNamed 2)) []]
    [] [] [] [] [] [] TOther TOther.
Theorem C44_parsing_returns_refuted : exists P qt mt,
  sized (g_decls P) /\ registered P /\ all_named P /\ forall fuel, parse P fuel qt mt false None new_pst = PNoFuel.
Proof.
  exists loop_prog, (TNamed 0), (TNamed 1). split; [|split; [|split]].
  - exists (fun n => match n with 0 => 1 | _ => 0 end). intros n d E m I. apply decl_case in E.
    repeat (destruct E as [E|E]; [injection E as <- <-; cbn in I; repeat (destruct I as [<-|I]; [lia|]); contradiction|]). contradiction.
  - intros n ts t [].
  - intros n N E. destruct (nth_error (g_decls loop_prog) n) as [d|] eqn:Ed; [|congruence]. cbn [t_name] in E. rewrite Ed in E.
    apply decl_case in Ed. repeat (destruct Ed as [Ed|Ed]; [injection Ed as <- <-; discriminate|]). contradiction.
  - assert (forall fuel h s, check loop_prog fuel (TNamed 2) h s = PNoFuel) as L.
    { induction fuel as [|fuel IH]; intros h s; [reflexivity|]. cbn. unfold pbind. now rewrite IH. }
    intros [|fuel]; [reflexivity|]. unfold parse, pbind at 1. 
    assert (check loop_prog (S fuel) (TNamed 0) false new_pst = PNoFuel) as ->; [|reflexivity].
    cbn. unfold check_struct, pbind, set_type. cbn. unfold pbind. now rewrite L.
Qed.
Print Assumptions C44_parsing_returns_refuted.

(** ** C44: names *)
(** Two structs of a schema that was built have different names, whatever their packages are.  Packages are allowed to
    declare types with names of other packages: then Parse reports an error.  Not allowed by [named_apart]: giving the
    name of a type to another one of the same package with TypeRename, types declared in functions, and the
    two cases of the counterexamples below. *)
Theorem C44_struct_names_are_unique : forall P qt mt same inj fuel p s t t',
  let b := match inj with Some _ => true | None => false end in
  named_apart P (roots_of P qt mt b) -> inputs_apart P (roots_of P qt mt b) (more_of P b) ->
  parse P fuel qt mt same inj new_pst = POk p s ->
  reach P (roots_of P qt mt b) t -> reach P (roots_of P qt mt b) t' ->
  t_kind (g_decls P) t = KStruct -> t_kind (g_decls P) t' = KStruct -> is_time (g_decls P) t = false -> is_time (g_decls P) t' = false ->
  t_name (g_decls P) t <> [] -> t_name (g_decls P) t' <> [] ->
  rename P (t_name (g_decls P) t) = rename P (t_name (g_decls P) t') -> t = t'.
Proof.
  intros P qt mt same inj fuel p s t t' b NA IA Hp R R' K K' T T' N N' E. unfold b in *.
  destruct (parse_sound P qt mt same inj NA IA fuel p s Hp) as [_ [own [iown [inown SR]]]].
  destruct (proj1 (sr_reach _ _ _ _ _ _ _ _ SR t R T) K) as [n O]. destruct (proj1 (sr_reach _ _ _ _ _ _ _ _ SR t' R' T') K') as [n' O'].
  destruct (sr_own _ _ _ _ _ _ _ _ SR n t O) as [_ [_ [_ [_ [E1 _]]]]]. destruct (sr_own _ _ _ _ _ _ _ _ SR n' t' O') as [_ [_ [_ [_ [E2 _]]]]].
  rewrite (E1 N), (E2 N') in *. congruence.
Qed.
Print Assumptions C44_struct_names_are_unique.
(** a schema with two structs T of different packages: the hypotheses on the program hold, so the schema is not built *)
Definition two_T : program :=
  Prog [Decl (bs "Q") app_pkg (TStruct [fd "A" (TNamed 2); fd "B" (TNamed 3)]) []; Decl (bs "M") app_pkg (TStruct []) [];
        Decl (bs "T") app_pkg (TStruct [fd "X" int]) []; Decl (bs "T") lib_pkg (TStruct [fd "Y" str]) []]
    [] [] [] [] [] [] TOther TOther.
Example C44_struct_names_are_unique_case :
  named_apart two_T (roots_of two_T (TNamed 0) (TNamed 1) false) /\ inputs_apart two_T (roots_of two_T (TNamed 0) (TNamed 1) false) (more_of two_T false) /\
  reach two_T (roots_of two_T (TNamed 0) (TNamed 1) false) (TNamed 2) /\ reach two_T (roots_of two_T (TNamed 0) (TNamed 1) false) (TNamed 3) /\
  (forall fuel p s, parse two_T fuel (TNamed 0) (TNamed 1) false None new_pst <> POk p s) /\
  named_apart sample_prog (roots_of sample_prog g_query g_meth false) /\
  inputs_apart sample_prog (roots_of sample_prog g_query g_meth false) (more_of sample_prog false).
Proof.
  destruct (apart_ok two_T (TNamed 0) (TNamed 1) false 4) as [NA IA]; [vm_compute; reflexivity|].
  destruct (apart_ok sample_prog g_query g_meth false 10) as [NA' IA']; [vm_compute; reflexivity|].
  assert (reach two_T (roots_of two_T (TNamed 0) (TNamed 1) false) (TNamed 2)) as R2.
  { eapply reach_step; [apply reach_root; left; reflexivity|]. eapply ask_member; [reflexivity|left; reflexivity|left; reflexivity|reflexivity]. }
  assert (reach two_T (roots_of two_T (TNamed 0) (TNamed 1) false) (TNamed 3)) as R3.
  { eapply reach_step; [apply reach_root; left; reflexivity|]. eapply ask_member; [reflexivity|left; reflexivity|right; left; reflexivity|reflexivity]. }
  do 4 (split; [assumption|]). split; [|auto]. intros fuel p s H.
  assert (TNamed 2 = TNamed 3) as E; [|discriminate].
  eapply (C44_struct_names_are_unique two_T (TNamed 0) (TNamed 1) false None fuel p s); eauto; discriminate.
Qed.

(** Argument structs of different packages with the same name are taken for the same type *)
Definition two_in : program :=
  Prog [Decl (bs "Q") app_pkg (TStruct []) [method "ResolveF" [TStruct [fd "A" (TNamed 2); fd "B" (TNamed 3)]] [int]]; Decl (bs "M") app_pkg (TStruct []) [];
        Decl (bs "T") app_pkg (TStruct [fd "X" int]) []; Decl (bs "T") lib_pkg (TStruct [fd "Y" str]) []]
    [] [] [] [] [] [] TOther TOther.
Theorem C44_argument_names_are_unique_refuted : exists P qt mt p s t t',
  parse P 20 qt mt false None new_pst = POk p s /\
  in_reach P (roots_of P qt mt false) (more_of P false) t /\ in_reach P (roots_of P qt mt false) (more_of P false) t' /\
  t_kind (g_decls P) t = KStruct /\ t_kind (g_decls P) t' = KStruct /\ t_pkg (g_decls P) t <> t_pkg (g_decls P) t' /\
  (* the only type for arguments has the member of the first *)
  (exists j, ps_intypes s = [(bs "T", j)] /\ map fst (i_content j) = [bs "x"]) /\
  (* and it is used for the second, too *)
  exists m j, ps_methods s = [m] /\ nth_error (pm_infields m) 1 = Some (bs "b", (0, j)) /\ i_structptr j = true /\ i_structname j = bs "T".
Proof.
  exists two_in, (TNamed 0), (TNamed 1). eexists _, _. exists (TNamed 2), (TNamed 3). split; [vm_compute; reflexivity|].
  assert (schema_fun two_in (roots_of two_in (TNamed 0) (TNamed 1) false) (more_of two_in false) true [TNamed 0; TStruct [fd "A" (TNamed 2); fd "B" (TNamed 3)]]) as F.
  { right. exists (TNamed 0), (bs "f"). eexists. split; [apply reach_root; now left|]. split; [reflexivity|]. split; [left; reflexivity|].
    split; [left; reflexivity|]. split; reflexivity. }
  split; [eapply in_root; [exact F|left; reflexivity|split; reflexivity|left; reflexivity]|].
  split; [eapply in_root; [exact F|left; reflexivity|split; reflexivity|right; left; reflexivity]|].
  split; [reflexivity|]. split; [reflexivity|]. split; [discriminate|].
  split; [eexists; split; reflexivity|]. eexists _, _. repeat split; reflexivity.
Qed.
Print Assumptions C44_argument_names_are_unique_refuted.
(** A struct loses its place to one of another package if an interface was registered for its name: the record of
    lib.T, which implements I, is replaced by that of app.T *)
Definition lost_T : program :=
  Prog [Decl (bs "Q") app_pkg (TStruct [fd "A" (TNamed 2); fd "I" (TNamed 4)]) []; Decl (bs "M") app_pkg (TStruct []) [];
        Decl (bs "T") app_pkg (TStruct [fd "X" int]) []; Decl (bs "T") lib_pkg (TStruct [fd "Y" str]) [method "ResolveName" [] [str]];
        Decl (bs "I") lib_pkg (TIface [method "ResolveName" [] [str]]) []]
    [] [(bs "T", [TNamed 4])] [(bs "I", [TNamed 3])] [] [] [] TOther TOther.
Theorem C44_struct_names_are_unique_refuted : exists P qt mt p s t t',
  parse P 20 qt mt false None new_pst = POk p s /\
  reach P (roots_of P qt mt false) t /\ reach P (roots_of P qt mt false) t' /\
  t_kind (g_decls P) t = KStruct /\ t_kind (g_decls P) t' = KStruct /\ t_pkg (g_decls P) t <> t_pkg (g_decls P) t' /\
  rename P (t_name (g_decls P) t) = bs "T" /\ rename P (t_name (g_decls P) t') = bs "T" /\
  (* both are in the schema, as T of their package; the fields of T are those of the first *)
  (exists q f, slookup (ps_types s) (p_query p) = Some q /\ nlookup (pt_fields q) (fnv1 (bs "a")) = Some f /\ pf_obj f = PRef (bs "T") (bs "T") (t_pkg (g_decls P) t)) /\
  (exists i, slookup (ps_ifaces s) (bs "I") = Some i /\ pt_impls i = [PRef (bs "T") (bs "T") (t_pkg (g_decls P) t')]) /\
  exists r, slookup (ps_types s) (bs "T") = Some r /\ map (fun f => pf_name (snd f)) (pt_fields r) = [bs "x"].
Proof.
  exists lost_T, (TNamed 0), (TNamed 1). eexists _, _. exists (TNamed 2), (TNamed 3). split; [vm_compute; reflexivity|].
  assert (reach lost_T (roots_of lost_T (TNamed 0) (TNamed 1) false) (TNamed 0)) as R0 by (apply reach_root; left; reflexivity).
  split; [eapply reach_step; [exact R0|]; eapply ask_member; [reflexivity|left; reflexivity|left; reflexivity|reflexivity]|].
  split.
  { eapply reach_step with (t := TNamed 4); [eapply reach_step; [exact R0|]; eapply ask_member; [reflexivity|left; reflexivity|right; left; reflexivity|reflexivity]|].
    apply ask_impl; [reflexivity|reflexivity|left; reflexivity]. }
  split; [reflexivity|]. split; [reflexivity|]. split; [discriminate|]. split; [reflexivity|]. split; [reflexivity|].
  split; [eexists _, _; vm_compute; repeat split; reflexivity|]. split; [eexists; vm_compute; split; reflexivity|]. eexists. vm_compute. split; reflexivity.
Qed.
Print Assumptions C44_struct_names_are_unique_refuted.
(** Types without names are recorded again each time they are met *)
Definition twice : program :=
  Prog [Decl (bs "Q") app_pkg (TStruct [fd "A" (TStruct [fd "X" int]); fd "B" (TStruct [fd "X" int])]) []; Decl (bs "M") app_pkg (TStruct []) []]
    [] [] [] [] [] [] TOther TOther.
Theorem C44_recorded_once_refuted : exists P qt mt p s n n' r r',
  parse P 20 qt mt false None new_pst = POk p s /\ n <> n' /\
  slookup (ps_types s) n = Some r /\ slookup (ps_types s) n' = Some r' /\ pt_fields r = pt_fields r' /\ pt_fields r <> [].
Proof.
  exists twice, (TNamed 0), (TNamed 1). eexists _, _. exists (bs "__UnknownType1"), (bs "__UnknownType2"). eexists _, _.
  split; [vm_compute; reflexivity|]. split; [discriminate|]. split; [vm_compute; reflexivity|]. split; [vm_compute; reflexivity|]. split; [reflexivity|]. vm_compute. discriminate.
Qed.
Print Assumptions C44_recorded_once_refuted.

(** ** C48: the schema has what the Go types have *)
Theorem C48_schema_describes_types : forall P qt mt same inj fuel p s,
  let b := match inj with Some _ => true | None => false end in
  named_apart P (roots_of P qt mt b) -> inputs_apart P (roots_of P qt mt b) (more_of P b) ->
  parse P fuel qt mt same inj new_pst = POk p s ->
  exists own iown inown, schema_reads P own iown inown qt mt inj p.
Proof. intros P qt mt same inj fuel p s b NA IA H. apply (parse_sound P qt mt same inj NA IA fuel p s H). Qed.
Print Assumptions C48_schema_describes_types.
(** the sample program: names apart by C44_struct_names_are_unique_case; what comes out of it *)
Example C48_schema_describes_types_case : exists p s,
  parse sample_prog 20 g_query g_meth false None new_pst = POk p s /\
  (exists r, slookup (ps_types s) (bs "User") = Some r /\
     map (fun f => (pf_name (snd f), pf_idx (snd f), pf_obj (snd f))) (pt_fields r) =
       [(bs "id", 0, PData true (KInt WInt)); (bs "name", 1, PData false KString); (bs "friends", 2, PArray (PRef (bs "User") (bs "User") app_pkg));
        (bs "born", 3, PTime); (bs "mood", 4, PEnum 0); (bs "extra", 5, PRef (bs "__UnknownType1") [] [])]) /\
  (exists r, slookup (ps_ifaces s) (bs "Pet") = Some r /\ pt_impls r = [PRef (bs "Dog") (bs "Dog") app_pkg]).
Proof. eexists _, _. split; [vm_compute; reflexivity|]. split; eexists; vm_compute; split; reflexivity. Qed.

(** What Resolve can rely on *)
Section Closed.
Variable S : schema.
(** the type of a value: every name and number stands for something *)
Inductive ok_type : obj -> Prop :=
| ok_data isid k : basic k -> (isid = true -> id_able k) -> ok_type (OData isid k)
| ok_time : ok_type OTime
| ok_enum i e : nth_error (s_enums S) i = Some e -> ok_type (OEnum i)
| ok_array o : ok_type o -> ok_type (OArray o)
| ok_ptr o : ok_type o -> ok_type (OPtr o)
| ok_ref n fs : slookup (s_types S) n = Some (OObj n fs) -> ok_type (OObjRef n)
| ok_iref n fs is : slookup (s_ifaces S) n = Some (OIface n fs is) -> ok_type (OIfaceRef n).
Inductive ok_input : input -> Prop :=
| ok_in_struct n x z j : slookup (s_intypes S) n = Some j -> i_structptr j = false -> i_kind j = KStruct ->
    ok_input (Input KStruct None false false false x None true n [] z)
| ok_in_elem k x z j : k = KPtr \/ k = KSlice \/ k = KArray -> ok_input j -> ok_input (Input k None false false false x (Some j) false [] [] z)
| ok_in_file x z : ok_input (Input KPtr None false true false x None false [] [] z)
| ok_in_time x z : ok_input (Input KString None false false true x None false [] [] z)
| ok_in_enum k i e x z : basic k -> nth_error (s_enums S) i = Some e -> ok_input (Input k (Some i) false false false x None false [] [] z)
| ok_in_data k h x z : basic k -> (h = true -> id_able k) -> ok_input (Input k None h false false x None false [] [] z).
(** every GraphQL argument has its Go argument *)
Definition ok_args (ins : list (option gval)) (infields : list (bytes * (nat * input))) : Prop :=
  NoDup (map fst infields) /\ forall n nr j, In (n, (nr, j)) infields -> ok_input j /\ exists z, nth_error ins nr = Some (Some z).
Definition ok_value (o : obj) : Prop :=
  match o with OMethod (Method _ ins infields _ _ out) => ok_type out /\ ok_args ins infields | _ => ok_type o end.
Definition ok_fields (fs : list (N * field)) : Prop :=
  NoDup (map fst fs) /\ forall h f, In (h, f) fs -> h = fnv1 (fname_of f) /\ match f with Field fo _ _ _ _ => ok_value fo end.
Definition ok_obj (o : obj) : Prop :=
  match o with
  | OObj _ fs => ok_fields fs
  | OIface _ fs is => ok_fields fs /\ forall x, In x is -> ok_type (snd x)
  | _ => ok_value o
  end.
Record closed : Prop := {
  cl_query : exists n fs, s_query S = OObj n fs;
  cl_method : exists n fs, s_method S = OObj n fs;
  cl_obj o : Facts.reach S o -> ok_obj o;
  cl_input n j : slookup (s_intypes S) n = Some j ->
    exists c z, j = Input KStruct None false false false 0 None false n c z /\ NoDup (map fst c) /\ forall m i, In (m, i) c -> ok_input i;
  cl_dir loc ds d : In (loc, ds) (s_dirs S) -> In d ds -> ok_args (dd_ins d) (dd_infields d) }.
End Closed.

Lemma slookup_map {A B} (f : A -> B) (l : list (bytes * A)) k :
  slookup (map (fun e => (fst e, f (snd e))) l) k = match slookup l k with Some v => Some (f v) | None => None end.
Proof. induction l as [|[a v] l IH]; [reflexivity|]. cbn. destruct (beqb k a); [reflexivity|exact IH]. Qed.
Lemma slookup_nodup {A} (l : list (bytes * A)) k v : NoDup (map fst l) -> In (k, v) l -> slookup l k = Some v.
Proof.
  induction l as [|[a w] l IH]; intros N I; [contradiction|]. cbn [map fst] in N. apply NoDup_cons_iff in N. destruct N as [N1 N2]. cbn [slookup].
  destruct I as [I|I]; [injection I as -> ->; now rewrite beqb_refl|]. destruct (beqb k a) eqn:E; [|auto].
  apply beqb_eq in E. subst. exfalso. apply N1. change a with (fst (a, v)). now apply in_map.
Qed.
Lemma nlookup_nodup {A} (l : list (N * A)) k v : NoDup (map fst l) -> In (k, v) l -> nlookup l k = Some v.
Proof.
  induction l as [|[a w] l IH]; intros N I; [contradiction|]. cbn [map fst] in N. apply NoDup_cons_iff in N. destruct N as [N1 N2]. cbn [nlookup].
  destruct I as [I|I]; [injection I as -> ->; now rewrite N.eqb_refl|]. destruct (k =? a)%N eqn:E; [|auto].
  apply N.eqb_eq in E. subst. exfalso. apply N1. change a with (fst (a, v)). now apply in_map.
Qed.
Lemma named_by_in {A} (l table : list (bytes * A)) k v : named_by l table -> In (k, v) table -> In (k, v) l.
Proof.
  intros [N H] I. pose proof (slookup_nodup _ _ _ N I) as E. rewrite H in E. destruct (find _ (rev l)) as [[a w]|] eqn:F; [|discriminate].
  apply find_some in F. destruct F as [F1 F2]. cbn in F2, E. apply beqb_eq in F2. injection E as ->. subst. now apply in_rev.
Qed.
Section ViewOk.
Variables (P : program) (qt mt : gtype) (inj : option (gval * gval)) (p : pschema).
Variables own iown inown : bytes -> option gtype.
Hypothesis SR : schema_reads P own iown inown qt mt inj p.
Variables (qv mv : gval) (d : N).
Notation S := (view P p qv mv d).
Lemma own_type n t : own n = Some t -> exists fs, slookup (s_types S) n = Some (OObj n fs).
Proof.
  intro O. destruct (sr_own _ _ _ _ _ _ _ _ SR n t O) as [N _]. destruct (slookup (ps_types (p_st p)) n) as [r|] eqn:E; [|congruence].
  destruct (sr_types _ _ _ _ _ _ _ _ SR) as [ex [_ H]]. destruct (H n r E) as [_ [_ [E1 _]]]. cbn. rewrite slookup_map, E. unfold view_type. rewrite E1. eauto.
Qed.
Lemma type_ok t h o : type_reads P own iown t h o -> ok_type S (plain o).
Proof.
  induction 1; cbn [plain]; try (econstructor; eauto; fail).
  - destruct (own_type n t H1) as [fs E]. econstructor. exact E.
  - destruct (sr_iown _ _ _ _ _ _ _ _ SR n t H1) as [N _]. destruct (slookup (ps_ifaces (p_st p)) n) as [r|] eqn:E; [|congruence].
    destruct (sr_ifaces _ _ _ _ _ _ _ _ SR n r E) as [_ [_ [E1 _]]]. eapply ok_iref. cbn. rewrite slookup_map, E. unfold view_iface. rewrite E1. reflexivity.
  - destruct H1 as [[e [E _]] _]. econstructor. exact E.
Qed.
Lemma input_ok t h j : input_reads P inown t h j -> ok_input S j.
Proof.
  induction 1.
  - destruct H1 as [[e [E _]] _]. eapply ok_in_enum; eauto.
  - apply ok_in_data; auto.
  - apply ok_in_file.
  - apply ok_in_elem; auto.
  - apply ok_in_elem; [intuition|auto].
  - apply ok_in_time.
  - destruct (sr_inown _ _ _ _ _ _ _ _ SR n t H1) as [N _]. destruct (slookup (ps_intypes (p_st p)) n) as [i|] eqn:E; [|congruence].
    destruct (sr_inputs _ _ _ _ _ _ _ _ SR n i E) as [_ [_ [l [c [z' [-> _]]]]]]. eapply ok_in_struct; [exact E|reflexivity|reflexivity].
Qed.
Lemma args_ok ts ins fs : args_read P inown ts ins fs -> ok_args S ins fs.
Proof.
  intros [F [l [G N]]]. split; [apply N|]. intros n nr j I. apply (named_by_in l fs n (nr, j) N) in I.
  destruct (Forall2_in_r _ _ _ _ G I) as [[m [k [[i t] h]]] [J [E1 [E2 E3]]]]. cbn in E1, E2, E3. subst m k. destruct E3 as [E3 _]. split; [eapply input_ok; exact E3|].
  assert (forall ts i0, In (n, (nr, (i, t, h))) (numbered (arg_members P) i0 ts) -> exists a k, nr = i0 + k /\ nth_error ts k = Some a /\ In (n, (nr, (i, t, h))) (arg_members P nr a)) as X.
  { induction ts0 as [|a ts0 IH]; intros i0 H; [contradiction|]. cbn [numbered] in H. apply in_app_or in H. destruct H as [H|H].
    - exists a, 0. assert (nr = i0) as -> by (unfold arg_members in H; destruct (t_kind (g_decls P) a); try contradiction; apply in_map_iff in H; destruct H as [y [H _]]; now inversion H).
      split; [lia|]. split; [reflexivity|exact H].
    - destruct (IH (Datatypes.S i0) H) as [b [k [-> [B C]]]]. exists b, (Datatypes.S k). split; [lia|]. split; [exact B|]. exact C. }
  destruct (X ts 0 J) as [a [k [-> [B C]]]]. cbn [plus] in *. destruct (Forall2_nth_l _ _ _ F k a B) as [o [E O]]. destruct o as [z|]; [eauto|].
  exfalso. destruct O as [K _]. unfold arg_members in C. rewrite K in C. contradiction.
Qed.
Lemma value_ok_fun k fn it ins outs h : nth_error (ps_methods (p_st p)) k = Some fn -> fun_reads P own iown it ins outs h fn ->
  ok_value S (view_obj (ps_methods (p_st p)) (PMethod k)).
Proof.
  intros E F. cbn [view_obj]. rewrite E. cbn [ok_value]. destruct (fr_out _ _ _ _ _ _ _ _ F) as [t [_ R]].
  split; [eapply type_ok; exact R|]. eapply args_ok. apply (sr_funs _ _ _ _ _ _ _ _ SR). eapply nth_error_In; eauto.
Qed.
Lemma value_ok_type t h o : type_reads P own iown t h o -> ok_value S (view_obj (ps_methods (p_st p)) o).
Proof.
  intro R. pose proof (type_ok t h o R) as H. destruct o; try exact H. inversion R.
Qed.
Lemma member_ok t m f : member_reads P own iown (ps_methods (p_st p)) t m f -> ok_value S (view_obj (ps_methods (p_st p)) (pf_obj f)).
Proof.
  intros [_ [_ [_ H]]]. destruct (snd m) as [i ft h|i ft]; destruct H as [_ H].
  - destruct (match t_kind (g_decls P) ft with KFunc => true | _ => false end).
    + destruct H as [k [fn [-> [E F]]]]. eapply value_ok_fun; eauto.
    + eapply value_ok_type; eauto.
  - destruct H as [k [fn [-> [E F]]]]. eapply value_ok_fun; eauto.
Qed.
Lemma fields_ok t ex fs : (forall f, In f ex -> ok_value S (view_obj (ps_methods (p_st p)) (pf_obj f))) ->
  describes P own iown (ps_methods (p_st p)) t ex fs -> ok_fields S (view_fields (ps_methods (p_st p)) fs).
Proof.
  intros X [l [F [N K]]]. split.
  { unfold view_fields. rewrite map_map. cbn [fst]. exact N. }
  intros h f I. unfold view_fields in I. apply in_map_iff in I. destruct I as [[h' f'] [E I]]. cbn [fst snd] in E. injection E as <- <-.
  pose proof (nlookup_nodup _ _ _ N I) as L. rewrite K in L. apply find_some in L. destruct L as [L1 L2]. apply N.eqb_eq in L2. cbn [fname_of].
  split; [now symmetry|]. apply in_rev in L1. apply in_app_or in L1. destruct L1 as [L1|L1]; [|auto].
  destruct (Forall2_in_r _ _ _ _ F L1) as [m [_ M]]. eapply member_ok; exact M.
Qed.
Lemma view_closed : closed S.
Proof.
  assert (forall n r, slookup (ps_types (p_st p)) n = Some r -> ok_fields S (view_fields (ps_methods (p_st p)) (pt_fields r))) as Ty.
  { intros n r E. destruct (sr_types _ _ _ _ _ _ _ _ SR) as [ex [X H]]. destruct (H n r E) as [t [_ [_ [_ [_ [D _]]]]]]. eapply fields_ok; [|exact D].
    pose proof value_ok_type as V1. pose proof value_ok_fun as V2.
    intros f I. destruct (beqb n (p_query p)); [|contradiction]. clear - X I V1 V2. destruct inj as [[sv tf]|]; [|subst; contradiction].
    destruct X as [o [k [fn [-> [X1 [X2 X3]]]]]]. destruct I as [<-|[<-|[]]]; cbn [pf_obj]; [eapply V1; exact X1|eapply V2; eauto]. }
  assert (forall n t, own n = Some t -> exists m fs, or_undef (slookup (s_types S) n) = OObj m fs) as Rt.
  { intros n t O. destruct (own_type n t O) as [fs E]. rewrite E. cbn. eauto. }
  constructor.
  - apply (Rt _ _ (sr_query _ _ _ _ _ _ _ _ SR)).
  - apply (Rt _ _ (sr_method _ _ _ _ _ _ _ _ SR)).
  - assert (forall n o, slookup (s_types S) n = Some o -> ok_obj S o) as A1.
    { intros n o E. cbn in E. rewrite slookup_map in E. destruct (slookup (ps_types (p_st p)) n) as [r|] eqn:Er; [|discriminate].
      injection E as <-. cbn. eauto. }
    intros o R. induction R as [| |n o E|n o E|o h fo c i n hd R IH E|e R IH|e R IH|a b c dd e o R IH|n fs is x R IH I].
    + destruct (own_type _ _ (sr_query _ _ _ _ _ _ _ _ SR)) as [fs E]. pose proof (A1 _ _ E) as X. cbn [s_query view]. cbn [s_types view] in E. rewrite E. exact X.
    + destruct (own_type _ _ (sr_method _ _ _ _ _ _ _ _ SR)) as [fs E]. pose proof (A1 _ _ E) as X. cbn [s_method view]. cbn [s_types view] in E. rewrite E. exact X.
    + eauto.
    + cbn in E. rewrite slookup_map in E. destruct (slookup (ps_ifaces (p_st p)) n) as [r|] eqn:Er; [|discriminate]. injection E as <-.
      destruct (sr_ifaces _ _ _ _ _ _ _ _ SR n r Er) as [t [_ [_ [_ [_ [D Im]]]]]]. cbn. split; [eapply fields_ok; [|exact D]; intros f []|].
      intros x I. apply in_map_iff in I. destruct I as [o [<- I]]. destruct (Forall2_in_r _ _ _ _ Im I) as [t' [_ [_ [_ R]]]].
      pose proof (type_ok _ _ _ R) as X. destruct o; exact X.
    + assert (ok_fields S (o_fields o)) as F.
      { destruct o; cbn [o_fields]; try (split; [constructor|intros ? ? []]); [exact IH|apply IH]. }
      assert (In (h, Field fo c i n hd) (o_fields o)) as I.
      { clear - E. induction (o_fields o) as [|[k f] l IHl]; [discriminate|]. cbn in E. destruct (h =? k)%N eqn:Eh; [apply N.eqb_eq in Eh; injection E as ->; left; congruence|right; auto]. }
      destruct F as [_ F]. destruct (F _ _ I) as [_ V]. destruct fo; try exact V; inversion V.
    + cbn in IH. inversion IH as [| | |o0 V|o0 V| |]; subst. destruct e; try exact V; inversion V.
    + cbn in IH. inversion IH as [| | |o0 V|o0 V| |]; subst. destruct e; try exact V; inversion V.
    + cbn in IH. destruct IH as [V _]. destruct o; try exact V; inversion V.
    + cbn in IH. destruct IH as [_ V]. specialize (V x I). destruct (snd x); try exact V; inversion V.
  - intros n j E. destruct (sr_inputs _ _ _ _ _ _ _ _ SR n j E) as [t [_ [l [c [z [-> [_ [F N]]]]]]]]. exists c, z. split; [reflexivity|]. split; [apply N|].
    intros m i I. apply (named_by_in l c m i N) in I. destruct (Forall2_in_r _ _ _ _ F I) as [[m' [[x t'] h]] [_ [_ [R _]]]]. eapply input_ok; exact R.
  - intros loc ds dd I J. cbn in I. apply in_map_iff in I. destruct I as [[l is] [E I]]. cbn in E. injection E as <- <-.
    apply in_flat_map in J. destruct J as [i [_ J]]. destruct (nth_error (p_dirs p) i) as [d0|] eqn:Ed; [|contradiction]. destruct J as [<-|[]].
    destruct (Forall2_in_r _ _ _ _ (sr_dirs _ _ _ _ _ _ _ _ SR) (nth_error_In _ _ Ed)) as [x [_ [_ [_ A]]]]. eapply args_ok; exact A.
Qed.
End ViewOk.

Theorem C48_parsed_schemas_are_closed : forall P qt mt same inj fuel p s qv mv d,
  let b := match inj with Some _ => true | None => false end in
  named_apart P (roots_of P qt mt b) -> inputs_apart P (roots_of P qt mt b) (more_of P b) ->
  parse P fuel qt mt same inj new_pst = POk p s -> closed (view P p qv mv d) /\ keyed (view P p qv mv d).
Proof.
  intros P qt mt same inj fuel p s qv mv d b NA IA H. destruct (parse_sound P qt mt same inj NA IA fuel p s H) as [_ [own [iown [inown SR]]]].
  pose proof (view_closed P qt mt inj p own iown inown SR qv mv d) as C. split; [exact C|].
  intros o [h f] R I. pose proof (cl_obj _ C o R) as O. cbn [fst snd].
  destruct o; cbn [o_fields] in I; try contradiction; [apply (proj2 O h f I)|apply (proj2 (proj1 O) h f I)].
Qed.
Print Assumptions C48_parsed_schemas_are_closed.
Example C48_parsed_schemas_are_closed_case : exists p s, parse sample_prog 20 g_query g_meth false None new_pst = POk p s /\
  let S := view sample_prog p (GStruct []) (GStruct []) 0 in
  closed S /\ keyed S /\ length (s_types S) = 5 /\ length (s_intypes S) = 3 /\ length (s_ifaces S) = 1.
Proof.
  eexists _, _. split; [vm_compute; reflexivity|]. cbv zeta. destruct (apart_ok sample_prog g_query g_meth false 10) as [NA IA]; [vm_compute; reflexivity|].
  match goal with |- closed (view _ ?p _ _ _) /\ _ => assert (closed (view sample_prog p (GStruct []) (GStruct []) 0) /\ keyed (view sample_prog p (GStruct []) (GStruct []) 0)) as [C K] end.
  { eapply (C48_parsed_schemas_are_closed sample_prog g_query g_meth false None 20); [exact NA|exact IA|vm_compute; reflexivity]. }
  split; [exact C|]. split; [exact K|]. repeat split; vm_compute; reflexivity.
Qed.
