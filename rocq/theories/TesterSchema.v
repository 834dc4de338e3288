(** * The part of a parsed schema that the tester's query uses (proofs) *)
From Coq Require Import String Arith NArith ZArith Bool List Lia.
From Verif Require Import Base JsonModel NameModel Schema GoTypes ParseModel ParseFacts ParseTerm SchemaSpec ParseSound ParseWhole SampleProg IntroModel IntroProof IntroSpec IntroFacts SampleIntro.
Import ListNotations.
Open Scope nat_scope.
Local Notation SN := Datatypes.S.

(** a program with the types of grahql_types.go (declarations 0 to 9), their names, enums and the function behind __type *)
Record yarql_program (P : program) : Prop := {
  yp_decls : exists ds, g_decls P = yarql_decls ++ ds;
  yp_renamed : exists rn, g_renamed P = yarql_renamed ++ rn;
  yp_enums : exists es, g_enums P = yarql_enums ++ es;
  yp_schema : g_qlschema P = y_schema;
  yp_typefn : g_typefn P = TFunc [TPtr y_ctx; TStruct [fd "Name" str]] [TPtr y_type] false }.

Lemma nodup_keys (l : list N) : (fix nd l := match l with [] => true | a :: r => negb (existsb (N.eqb a) r) && nd r end) l = true -> NoDup l.
Proof.
  induction l as [|a l IH]; [constructor|]. intro H. apply andb_prop in H. destruct H as [H1 H2]. constructor; [|auto]. intro K. apply negb_true_iff in H1.
  assert (X : existsb (N.eqb a) l = true) by (apply existsb_exists; exists a; split; [exact K|apply N.eqb_refl]). congruence.
Qed.
Section Reads.
Variables (P : program) (own iown inown : bytes -> option gtype) (qt mt : gtype) (sv tf : gval) (p : pschema).
Hypothesis Y : yarql_program P.
Hypothesis SR : schema_reads P own iown inown qt mt (Some (sv, tf)) p.
Notation decls := (g_decls P).
Lemma y_nth n : n < 10 -> nth_error decls n = nth_error yarql_decls n.
Proof. intro L. destruct (yp_decls P Y) as [ds ->]. apply nth_error_app1. exact L. Qed.
Ltac yc := unfold y_schema, y_depr, y_kind, y_type, y_field, y_ctx in *; unfold is_time, is_attr_id, is_file_header, is_ctx, is_error, t_methods, is_type, t_pkg, t_name, t_kind, under; rewrite ?y_nth by (cbn; lia); try reflexivity.
Lemma y_rename n m : slookup yarql_renamed n = Some m -> rename P n = m.
Proof. intro H. unfold rename. destruct (yp_renamed P Y) as [rn ->]. induction yarql_renamed as [|[k v] l IH]; [discriminate|]. cbn in *. destruct (beqb n k); [now injection H as ->|auto]. Qed.
Lemma y_kind_enum : enum_at P (bs "__TypeKind") 0.
Proof.
  destruct (yp_enums P Y) as [es E]. split; [|intros j e L; lia]. rewrite E. eexists. split; reflexivity.
Qed.
(** what type_reads says for these types *)
Lemma reads_str o : type_reads P own iown str false o -> o = PData false KString.
Proof.
  intro H. inversion H; subst; try (cbn in *; discriminate); try (cbn in *; match goal with H : _ \/ _ |- _ => destruct H; discriminate end).
  - match goal with H : enum_like _ _ |- _ => destruct H as [H _]; now destruct H end.
  - reflexivity.
Qed.
Lemma reads_ptr e o : type_reads P own iown (TPtr e) false o -> exists o', o = PPtr o' /\ type_reads P own iown e false o'.
Proof.
  intro H. inversion H; subst; try (cbn in *; discriminate); try (cbn in *; match goal with H : _ \/ _ |- _ => destruct H; discriminate end).
  - match goal with H : t_elem _ _ = Some _ |- _ => injection H as <- end. eauto.
  - match goal with H : enum_like _ _ |- _ => destruct H as [_ [_ H]]; contradiction end.
  - match goal with H : basic _ |- _ => contradiction end.
Qed.
Lemma reads_list e o : type_reads P own iown (TSlice e) false o -> exists o', o = PArray o' /\ type_reads P own iown e false o'.
Proof.
  intro H. inversion H; subst; try (cbn in *; discriminate); try (cbn in *; match goal with H : _ \/ _ |- _ => destruct H; discriminate end).
  - match goal with H : t_elem _ _ = Some _ |- _ => injection H as <- end. eauto.
  - match goal with H : enum_like _ _ |- _ => destruct H as [_ [_ H]]; contradiction end.
  - match goal with H : basic _ |- _ => contradiction end.
Qed.
Lemma reads_named n o : t_kind decls (TNamed n) = KStruct -> is_time decls (TNamed n) = false -> t_name decls (TNamed n) <> [] -> type_reads P own iown (TNamed n) false o ->
  exists g k, o = PRef (rename P (t_name decls (TNamed n))) g k /\ own (rename P (t_name decls (TNamed n))) = Some (TNamed n).
Proof.
  intros K T N H. inversion H; subst; try congruence.
  - match goal with H : _ -> ?m = rename _ _ |- _ => rewrite <- (H N) end. eauto.
  - destruct H1; congruence.
  - match goal with H : enum_like _ _ |- _ => destruct H as [_ [_ H]]; rewrite K in H; contradiction end.
  - match goal with H : basic _ |- _ => rewrite K in H; contradiction end.
Qed.
Lemma reads_kind o : type_reads P own iown y_kind false o -> o = PEnum 0.
Proof.
  assert (K : t_kind decls y_kind = KUint W8) by yc. assert (NM : t_name decls y_kind = bs "__TypeKind") by yc.
  assert (EL : enum_like P y_kind). { split; [|split]; [unfold y_kind; yc; discriminate|rewrite NM; discriminate|rewrite K; exact I]. }
  intro H. inversion H; subst; try congruence; try (destruct H1; congruence).
  - assert (T : is_time decls y_kind = false) by yc. congruence.
  - f_equal. rewrite NM in *. pose proof y_kind_enum as [[e [E1 E2]] _]. match goal with H : enum_at _ _ i |- _ => destruct H as [[e' [E3 E4]] H] end. destruct i as [|i]; auto. exfalso. exact (H2 0 e ltac:(lia) E1 E2).
  - exfalso. match goal with H : enum_like _ _ -> _ |- _ => apply (H EL 0) end. rewrite NM. apply y_kind_enum.
Qed.
(** results of functions *)
Lemma only_result t i u : only_at (data_result P) [t] i u -> i = 0 /\ u = t.
Proof. intros [H _]. destruct i as [|[|i]]; cbn in H; [injection H as <-; auto|discriminate|discriminate]. Qed.
Lemma no_error t m : t_kind decls t <> KInterface -> match pm_errnr m with Some j => exists u, only_at (error_result P) [t] j u | None => forall u, In u [t] -> ~ error_result P u end -> pm_errnr m = None.
Proof.
  intros K H. destruct (pm_errnr m) as [j|]; [|reflexivity]. destruct H as [u [H [[_ [E _]] _]]]. destruct j as [|[|j]]; cbn in H; try discriminate. injection H as <-. contradiction.
Qed.
(** the fields of the types *)
Lemma nodup_inj {A B} (f : A -> B) l a b : NoDup (map f l) -> In a l -> In b l -> f a = f b -> a = b.
Proof.
  induction l as [|x l IH]; [contradiction|]. cbn. intros D Ha Hb E. inversion D as [|y m NI D' E']; subst y m.
  destruct Ha as [->|Ha], Hb as [->|Hb]; auto; exfalso; apply NI; [rewrite E|rewrite <- E]; now apply in_map.
Qed.
Lemma member_at n r t nm m : slookup (ps_types (p_st p)) n = Some r -> own n = Some t -> keys_apart P t -> In (nm, m) (exposed P t) ->
  exists f, nlookup (pt_fields r) (fnv1 nm) = Some f /\ member_reads P own iown (ps_methods (p_st p)) t (nm, m) f.
Proof.
  intros L O KA IN. destruct (sr_types _ _ _ _ _ _ _ _ SR) as [extra [[o [k [fn [-> _]]]] T]]. destruct (T _ _ L) as [t' [O' [_ [_ [_ [[l [FL [_ KB]]] _]]]]]].
  rewrite O in O'. injection O' as <-. set (ex := if beqb n (p_query p) then _ else _) in KB.
  assert (NE : map pf_name l = map fst (exposed P t)) by (clear - FL; induction FL as [|a b x y [E _] _ IH]; cbn; congruence).
  assert (ND : NoDup (map (fun f => fnv1 (pf_name f)) (l ++ ex))).
  { rewrite <- map_map, map_app, NE. assert (X : exists y, map pf_name ex ++ y = [bs "__schema"; bs "__type"]) by (unfold ex; destruct (beqb _ _); [exists []|eexists]; reflexivity).
    destruct X as [y X]. unfold keys_apart in KA. rewrite <- X, app_assoc, map_app in KA. revert KA. generalize (map fnv1 y). generalize (map fnv1 (map fst (exposed P t) ++ map pf_name ex)).
    clear. induction l as [|a l IH]; intros l2 D; [constructor|]. inversion D as [|b q NI D' E]; subst b q. constructor; [|eauto]. intro H. apply NI, in_or_app. now left. }
  assert (F : exists f, In f l /\ member_reads P own iown (ps_methods (p_st p)) t (nm, m) f).
  { clear - FL IN. induction FL as [|a b x y E _ IH]; [contradiction|]. destruct IN as [->|IN]; [exists b; split; [now left|exact E]|]. destruct (IH IN) as [f [H1 H2]]. exists f. split; [now right|exact H2]. }
  destruct F as [f [F MR]]. exists f. split; [|exact MR]. rewrite KB. destruct (find _ _) as [g|] eqn:G.
  - apply find_some in G. destruct G as [G1 G2]. apply in_rev in G1. apply N.eqb_eq in G2. f_equal. apply (nodup_inj (fun f => fnv1 (pf_name f)) (l ++ ex)); auto; [now apply in_or_app; left|].
    rewrite G2. destruct MR as [-> _]. reflexivity.
  - exfalso. apply (fun H => find_none _ _ G f (proj1 (in_rev _ _) (in_or_app _ _ _ (or_introl H)))) in F. destruct MR as [E _]. cbn in E, F. rewrite E, N.eqb_refl in F. discriminate.
Qed.
Notation S := (view P p).
Lemma y_exposed n : n < 10 -> exposed P (TNamed n) = exposed app (TNamed n).
Proof. intro L. unfold exposed, t_fields, t_methods, under. rewrite y_nth by exact L. assert (E : nth_error (g_decls app) n = nth_error yarql_decls n) by (apply nth_error_app1; exact L). now rewrite E. Qed.
Lemma view_nlookup ms fs k : nlookup (view_fields ms fs) k = match nlookup fs k with Some f => Some (Field (view_obj ms (pf_obj f)) (pf_custom f) (pf_idx f) (pf_name f) (pf_hidden f)) | None => None end.
Proof. induction fs as [|[k' f] fs IH]; [reflexivity|]. cbn. destruct (N.eqb k k'); auto. Qed.
(** the parts of the schema *)
Record tester_schema (S : schema) : Prop := {
  ts_query : exists b, nlookup (o_fields (s_query S)) (fnv1 (bs "__type")) =
    Some (Field (OMethod (Method false [None; Some (GStruct [(true, GString [])])] [(bs "name", (1, Input KString None false false false 0 None false [] [] (GString [])))] 0 None (OPtr (OObjRef (bs "__Type")))))
                (Some tf) 0 (bs "__type") b);
  ts_type : exists n fs, slookup (s_types S) (bs "__Type") = Some (OObj n fs) /\
    (exists b, nlookup fs (fnv1 (bs "kind")) = Some (Field (OEnum 0) None 0 (bs "kind") b)) /\
    exists ins infields b, nlookup fs (fnv1 (bs "fields")) = Some (Field (OMethod (Method false ins infields 0 None (OArray (OObjRef (bs "__Field"))))) None 3 (bs "fields") b);
  ts_field : exists n fs, slookup (s_types S) (bs "__Field") = Some (OObj n fs) /\
    exists b, nlookup fs (fnv1 (bs "name")) = Some (Field (OData false KString) None 0 (bs "name") b) }.
Lemma named_single {A} n (v : A) infs : named_by [(n, v)] infs -> infs = [(n, v)].
Proof.
  intros [D H]. destruct infs as [|[k x] infs].
  - specialize (H n). cbn in H. rewrite beqb_refl in H. discriminate.
  - assert (E : (k, x) = (n, v)). { specialize (H k). cbn in H. rewrite beqb_refl in H. destruct (beqb n k) eqn:B; [|discriminate]. apply beqb_eq in B. cbn in H. congruence. }
    injection E as -> ->. f_equal. destruct infs as [|[k x] infs]; [reflexivity|]. exfalso. inversion D as [|a l NI _ E]; subst a l. specialize (H k). cbn in H.
    destruct (beqb k n) eqn:B; [apply beqb_eq in B; subst k; apply NI; now left|]. rewrite beqb_refl in H. destruct (beqb n k) eqn:B'; [|discriminate]. apply beqb_eq in B'. subst k. apply NI. now left.
Qed.
Lemma zero_name z : zero_val P (TStruct [fd "Name" str]) z -> z = GStruct [(true, GString [])].
Proof. intros [[|[|n]] H]; [discriminate|discriminate|]. cbn in H. now injection H as <-. Qed.
Lemma zero_str z : zero_val P str z -> z = GString [].
Proof. intros [[|n] H]; [discriminate|]. cbn in H. now injection H as <-. Qed.
Lemma in_str j : input_reads P inown str false j -> j = Input KString None false false false (i_field j) None false [] [] (GString []).
Proof.
  intro H. inversion H; subst; try (cbn in *; discriminate); try (cbn in *; match goal with H : _ \/ _ |- _ => destruct H; discriminate end).
  - match goal with H : enum_like _ _ |- _ => destruct H as [H _]; now destruct H end.
  - match goal with H : zero_val _ _ _ |- _ => apply zero_str in H as -> end. reflexivity.
Qed.
Lemma args_name ins infs : args_read P inown [TPtr y_ctx; TStruct [fd "Name" str]] ins infs ->
  ins = [None; Some (GStruct [(true, GString [])])] /\ infs = [(bs "name", (1, Input KString None false false false 0 None false [] [] (GString [])))].
Proof.
  intros [FI [l [FL NB]]]. split.
  - inversion FI as [|a i1 b i F1 FI' E1 E2]; subst. inversion FI' as [|a' i2 b' i' F2 FI'' E1 E2]; subst. inversion FI''; subst.
    destruct i1 as [z|]; [destruct F1 as [[_ F1] _]; discriminate|]. destruct i2 as [z|]; [|destruct F2 as [F2 _]; discriminate]. destruct F2 as [_ F2]. apply zero_name in F2 as ->. reflexivity.
  - change (SchemaSpec.numbered (arg_members P) 0 [TPtr y_ctx; TStruct [fd "Name" str]]) with [(bs "name", (1, (0, str, false)))] in FL. inversion FL as [|a e b l' F FL' E1 E2]; subst. inversion FL'; subst.
    destruct e as [n [k j]]. cbn [fst snd] in F. destruct F as [-> [-> [F E]]]. apply in_str in F. rewrite E in F. subst j. now apply named_single.
Qed.
Lemma schema_for_tester qv mv d : tester_schema (S qv mv d).
Proof.
  pose proof (sr_query _ _ _ _ _ _ _ _ SR) as QO. destruct (sr_types _ _ _ _ _ _ _ _ SR) as [extra [[o [k [fn [EX [_ [KN FR]]]]]] T]].
  destruct (sr_own _ _ _ _ _ _ _ _ SR _ _ QO) as [QL _]. destruct (slookup (ps_types (p_st p)) (p_query p)) as [r|] eqn:QR; [clear QL|contradiction].
  rewrite (yp_typefn P Y) in FR. cbn [fun_ins_of fun_outs under] in FR. destruct FR as [F1 F2 [u [FO FT]] FE].
  apply only_result in FO. destruct FO as [ON ->]. apply no_error in FE; [|discriminate].
  assert (AT : is_attr_id decls (TPtr y_type) = false) by yc. cbn [existsb] in FT. rewrite AT in FT. apply reads_ptr in FT. destruct FT as [o1 [PO RT]].
  apply reads_named in RT; [|yc|yc|yc; discriminate].
  assert (RN : rename P (t_name decls y_type) = bs "__Type") by (apply y_rename; yc). fold y_type in RT. rewrite RN in RT. destruct RT as [g1 [k1 [-> OT]]].
  destruct (sr_own _ _ _ _ _ _ _ _ SR _ _ OT) as [TL _]. destruct (slookup (ps_types (p_st p)) (bs "__Type")) as [rt|] eqn:TR; [clear TL|contradiction].
  assert (KT : keys_apart P y_type). { unfold keys_apart, y_type. rewrite y_exposed by lia. apply nodup_keys. vm_compute. reflexivity. }
  assert (KF : keys_apart P y_field). { unfold keys_apart, y_field. rewrite y_exposed by lia. apply nodup_keys. vm_compute. reflexivity. }
  destruct (member_at _ _ _ (bs "kind") (MField 0 y_kind false) TR OT KT) as [fk [LK [NK [_ [CK [IK MK]]]]]]; [unfold y_type; rewrite y_exposed by lia; now left|].
  destruct (member_at _ _ _ (bs "fields") (MField 3 (TFunc [y_depr] [TSlice y_field] false) false) TR OT KT) as [ff [LF [NF [_ [CF [IF MF]]]]]];
    [unfold y_type; rewrite y_exposed by lia; do 3 right; now left|].
  cbn [snd fst] in *. assert (K2 : t_kind decls y_kind = KUint W8) by yc. rewrite K2 in MK. apply reads_kind in MK.
  cbn [t_kind under] in MF. destruct MF as [kf [fnf [OF [NTF [M1 M2 [u2 [MO MT]] ME]]]]]. cbn [fun_outs under] in MO, ME, MT.
  apply only_result in MO. destruct MO as [MN ->]. apply no_error in ME; [|discriminate].
  assert (AT2 : is_attr_id decls (TSlice y_field) = false) by yc. cbn [existsb orb] in MT. rewrite AT2 in MT. apply reads_list in MT. destruct MT as [o2 [PF RF]].
  apply reads_named in RF; [|yc|yc|yc; discriminate].
  assert (RNF : rename P (t_name decls y_field) = bs "__Field") by (apply y_rename; yc). fold y_field in RF. rewrite RNF in RF. destruct RF as [g2 [k2 [-> OFL]]].
  destruct (sr_own _ _ _ _ _ _ _ _ SR _ _ OFL) as [FLL _]. destruct (slookup (ps_types (p_st p)) (bs "__Field")) as [rf|] eqn:FR; [clear FLL|contradiction].
  destruct (member_at _ _ _ (bs "name") (MField 0 str false) FR OFL KF) as [fnm [LN [NN [_ [CN [IN MNM]]]]]]; [unfold y_field; rewrite y_exposed by lia; now left|].
  cbn [snd fst] in *. cbn [t_kind under str] in MNM. apply reads_str in MNM.
  constructor.
  - cbn [view s_query]. rewrite slookup_view, QR. cbn [or_undef view_type o_fields]. exists true. rewrite view_nlookup.
    destruct (T _ _ QR) as [t' [_ [_ [_ [_ [[l [_ [_ KB]]] _]]]]]]. rewrite beqb_refl, EX in KB. rewrite KB, rev_app_distr. cbn [rev List.app find pf_name].
    change (fnv1 (bs "__type") =? fnv1 (bs "__type"))%N with true. cbv iota. cbn [pf_obj pf_custom pf_idx pf_name pf_hidden view_obj]. rewrite KN.
    pose proof (sr_funs _ _ _ _ _ _ _ _ SR fn (nth_error_In _ _ KN)) as AR. rewrite F1, F2 in AR. cbn [method_args] in AR. apply args_name in AR. destruct AR as [-> ->].
    rewrite F1, ON, FE, PO. reflexivity.
  - cbn [view s_types]. rewrite slookup_view, TR. cbn [view_type]. eexists _, _. split; [reflexivity|]. split.
    + rewrite view_nlookup, LK, CK, IK, NK, MK. cbn [view_obj plain]. eauto.
    + rewrite view_nlookup, LF, CF, IF, NF, OF. cbn [view_obj]. rewrite NTF, M1, MN, ME, PF. cbn [plain]. eauto.
  - cbn [view s_types]. rewrite slookup_view, FR. cbn [view_type]. eexists _, _. split; [reflexivity|]. rewrite view_nlookup, LN, CN, IN, NN, MNM. cbn [view_obj plain]. eauto.
Qed.
End Reads.
