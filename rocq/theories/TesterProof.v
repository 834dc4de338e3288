(** * What the query of the tester gets (proofs) *)
From Coq Require Import String Arith NArith ZArith Bool List Lia Sorted Permutation.
From Verif Require Import Base Json JsonModel JsonProof NameModel ParserModel ReqModel Schema ResModel EnvModel GoTypes ParseModel ParseFacts ParseTerm SchemaSpec ParseWhole
  SampleProg IntroModel IntroProof IntroTables IntroSpec IntroFacts SampleIntro PropIntro TesterModel TesterSchema.
From Verif Require Import Ast Grammar RefGrammar Interp RunSim Facts DocRun Spec SpecLit SpecVal SpecArgs SpecRun ArgRun.
Import ListNotations.
Open Scope N_scope.
Local Notation value := Ast.value.
Local Notation SN := Datatypes.S.
Local Notation g_type := IntroModel.g_type.
Local Notation g_input := IntroModel.g_input.
Local Notation g_field := IntroModel.g_field.

(** the document of the query *)
Definition name_sel : sel := SField None (bs "name") [] None [].
Definition type_sels : list sel := [SField None (bs "kind") [] None []; SField None (bs "fields") [] None [name_sel]].
Definition tester_op : definition :=
  DOp OpQuery [] (Some [OpArg (bs "typename") (TyName (bs "String") false) None]) [] [SField None (bs "__type") [] (Some [(bs "name", VVar (bs "typename"))]) type_sels].
Lemma tester_doc : g_doc [tester_op] tester_query.
Proof. apply ref_parse_spec. vm_compute. reflexivity. Qed.

Section Run.
Context {W : Type} (P : program) (p : pschema) (X : externals W) (S : schema) (vars : bytes) (tf : gval).
Notation E := (intro_env P p 0 any_call X).
Variable decls : option (list oparg).
Notation b_value := (b_value E S vars decls []).
Notation b_sels := (b_sels E S vars decls []).
Notation b_field := (b_field E S vars decls []).
Hypothesis TS : tester_schema tf S.
Lemma path_back : forall q (s : rst (heap * W)), set_path (r_path s) (set_path q s) = s. Proof. intros q []; reflexivity. Qed.
(** a selected field without directives and arguments, whose value leaves the state as it is but for the world *)
Lemma field_at fuel o d g k name subs fo idx fn hd fs e v t w' (s : rst (heap * W)) :
  nlookup (o_fields o) (fnv1 name) = Some (Field fo None idx fn hd) -> snd g = GStruct fs -> fst g = false -> nth_error fs idx = Some (e, v) -> e = true ->
  (match fo with OMethod (Method true _ _ _ _ _) => False | _ => True end) -> k < 255 ->
  (forall q, b_value fuel fo d (false, v) (k + 1) (CSels subs) (set_path q s) = BOk (t, false) (set_world w' (set_path q s))) ->
  b_field (SN fuel) o d g k None name [] None subs s = BOk ([(name, t)], false) (set_world w' s).
Proof.
  intros L G R N -> M K B. rewrite field_step, get_path_at, put_path_at. cbn [b_directives]. unfold bbind at 1, bret at 1. cbv beta iota. cbn [orb]. unfold bbind at 1. unfold at_field. rewrite L.
  assert (F : forall s : rst (heap * W), (match fo with OMethod (Method true _ _ _ _ _) => bret (fst g, GMethod (snd g) idx) | _ => lift (field_of g idx) end) s = BOk (false, v) s).
  { intro s'. assert (Q : @field_of (heap * W) g idx s' = ROk (false, v) s') by (unfold field_of; rewrite G, N, R; reflexivity).
    destruct fo as [| | | | | |[[] ? ? ? ? ?]| | | |]; try contradiction; unfold lift; rewrite Q; reflexivity. }
  unfold bbind at 1. rewrite F. replace (k =? 255) with false by lia. cbn [cur_of]. rewrite B. unfold bbind, lift, put_path, bret. cbv beta iota. destruct s; reflexivity.
Qed.
Lemma same_world (s : rst (heap * W)) : set_world (r_world s) s = s. Proof. destruct s; reflexivity. Qed.
(** the names of fields *)
Definition name_tree (f : qlfield) : rt := TObj [(bs "name", TStr (qf_name f))].
Lemma one_name fuel d f k s : (5 <= fuel)%nat -> k < 255 -> (d + 1) mod 256 <> s_maxdepth S ->
  b_value fuel (OObjRef (bs "__Field")) d (false, g_field f) k (CSels [name_sel]) s = BOk (name_tree f, false) s.
Proof.
  intros L K D. destruct (ts_field _ _ TS) as [n [fs [F1 [b F2]]]]. do 5 (destruct fuel as [|fuel]; [lia|]). rewrite value_step. change (bad_args _ _) with false. cbv iota. unfold v_body.
  cbn [has_sub negb]. rewrite F1. replace ((d + 1) mod 256 =? s_maxdepth S) with false by (symmetry; now apply N.eqb_neq). unfold bbind at 1. rewrite sels_step. unfold bbind at 1. unfold name_sel.
  rewrite (field_at _ _ _ _ _ _ _ (OData false KString) 0%nat (bs "name") b (map (fun v => (true, v)) [GString (qf_name f); g_str None; GSlice (Some (map g_input (qf_args f))); g_type (qf_type f); GBool false; g_str None]) true (GString (qf_name f)) (TStr (qf_name f)) (r_world s)).
  - cbv beta iota. unfold bbind at 1. rewrite sels_step. unfold bret. cbv beta iota. rewrite same_world. reflexivity.
  - exact F2.
  - reflexivity.
  - reflexivity.
  - reflexivity.
  - reflexivity.
  - exact I.
  - exact K.
  - intro q. rewrite value_step. destruct s; reflexivity.
Qed.
Lemma all_names_shown fuel d l k s : (6 <= fuel)%nat -> k < 254 -> (d + 1) mod 256 <> s_maxdepth S ->
  b_value fuel (OArray (OObjRef (bs "__Field"))) d (false, GSlice (Some (map g_field l))) k (CSels [name_sel]) s = BOk (TArr (map name_tree l), false) s.
Proof.
  intros L K D. destruct fuel as [|fuel]; [lia|]. rewrite value_step. change (bad_args _ _) with false. cbv iota. unfold v_body. cbn [snd fst]. replace (k =? 255) with false by lia. unfold bbind at 1.
  assert (B : forall n, b_list E S vars decls [] fuel (OObjRef (bs "__Field")) d false (k + 1) (CSels [name_sel]) n (map g_field l) s = BOk (map name_tree l) s).
  { induction l as [|f l IH]; intro n; [reflexivity|]. cbn [map b_list]. rewrite get_path_at, put_path_at. unfold bbind at 1. rewrite one_name by lia || auto. cbv beta iota. rewrite put_path_at, path_back.
    unfold bbind at 1. fold (b_list E S vars decls [] fuel (OObjRef (bs "__Field")) d false (k + 1) (CSels [name_sel])). rewrite IH. reflexivity. }
  rewrite B. reflexivity.
Qed.
(** a type; [names] is [None] if it has no function for its fields *)
Definition kind_name (k : tkind) : bytes :=
  bs match k with TkScalar => "SCALAR" | TkObject => "OBJECT" | TkInterface => "INTERFACE" | TkUnion => "UNION" | TkEnum => "ENUM" | TkInput => "INPUT_OBJECT" | TkList => "LIST" | TkNonNull => "NON_NULL" end.
Definition q_kind (q : qlt) : tkind := match q with Qlt k _ _ _ _ _ _ _ _ _ => k end.
Definition q_fields (q : qlt) : option clo := match q with Qlt _ _ _ f _ _ _ _ _ _ => f end.
Definition fields_tree (fs : option (list qlfield)) : rt := match fs with Some l => TArr (map name_tree l) | None => TNull end.
Definition type_tree (q : qlt) (fs : option (list qlfield)) : rt := TObj [(bs "kind", TName (kind_name (q_kind q))); (bs "fields", fields_tree fs)].
Hypothesis EN : nth_error (s_enums S) 0 = nth_error yarql_enums 0.
Hypothesis CTX : forall w, x_ctxerr X w = None.
(** what the function of the fields gives *)
Definition fields_given (h : heap) (q : qlt) (fs : option (list qlfield)) (h' : heap) : Prop :=
  match q_fields q with
  | None => fs = None /\ h' = h
  | Some (self, f) => self = false /\ exists l, fs = Some l /\ exists c, (forall args, call_intro (original P p) (h 0%nat) f args = Some (c, GSlice (Some (map g_field l)))) /\ h' = put h 0 c
  end.
Lemma type_shown fuel d q fs h' k s : (20 <= fuel)%nat -> k < 250 -> (d + 1) mod 256 <> s_maxdepth S -> ((d + 1) mod 256 + 1) mod 256 <> s_maxdepth S ->
  fields_given (fst (r_world s)) q fs h' ->
  b_value fuel (OObjRef (bs "__Type")) d (false, g_type q) k (CSels type_sels) s = BOk (type_tree q fs, false) (set_world (h', snd (r_world s)) s).
Proof.
  intros L K D1 D2 G. destruct (ts_type _ _ TS) as [n [fl [F1 [[b1 F2] [ins [infs [b2 F3]]]]]]]. destruct fuel as [|fuel]; [lia|].
  rewrite value_step. change (bad_args _ _) with false. cbv iota. unfold v_body. cbn [has_sub negb type_sels]. rewrite F1. replace ((d + 1) mod 256 =? s_maxdepth S) with false by (symmetry; now apply N.eqb_neq).
  set (d1 := (d + 1) mod 256) in *. destruct fuel as [|fuel]; [lia|]. destruct fuel as [|fuel]; [lia|].
  assert (Q : exists l, g_type q = GStruct l /\ nth_error l 0 = Some (true, GUint W8 (tkind_code (q_kind q))) /\ nth_error l 3 = Some (true, g_fun (q_fields q))).
  { destruct q. eexists. repeat split. }
  destruct Q as [l0 [Q [Q0 Q3]]]. assert (KK : k < 255) by lia.
  unfold bbind at 1. unfold type_sels. rewrite sels_step. cbv beta iota. unfold bbind at 1.
  rewrite (field_at _ (OObj n fl) _ (false, g_type q) _ (bs "kind") _ (OEnum 0) 0%nat (bs "kind") b1 l0 true (GUint W8 (tkind_code (q_kind q))) (TName (kind_name (q_kind q))) (r_world s) s F2 Q eq_refl Q0 eq_refl I KK).
  2:{ intro x. destruct fuel as [|fuel]; [lia|]. rewrite value_step. change (bad_args _ _) with false. cbv iota. unfold v_body. rewrite EN. destruct s, q as [[] ? ? ? ? ? ? ? ? ?]; reflexivity. }
  rewrite same_world. cbv beta iota. unfold bbind at 1. rewrite sels_step. unfold bbind at 1. destruct fuel as [|fuel]; [lia|].
  rewrite (field_at _ (OObj n fl) _ (false, g_type q) _ (bs "fields") _ (OMethod (Method false ins infs 0 None (OArray (OObjRef (bs "__Field"))))) 3%nat (bs "fields") b2 l0 true (g_fun (q_fields q)) (fields_tree fs) (h', snd (r_world s)) s F3 Q eq_refl Q3 eq_refl I KK).
  2:{ intro x. destruct fuel as [|fuel]; [lia|]. rewrite value_step. change (bad_args _ _) with false. cbv iota. unfold v_body. unfold fields_given in G. destruct (q_fields q) as [[self f]|].
    - destruct G as [-> [l [-> [c [G ->]]]]]. cbn [g_fun snd fst]. cbn [b_args]. unfold bbind at 1, bret at 1. cbv beta iota zeta. unfold bbind at 1, lift at 1, get_world. cbv beta iota. rewrite get_path_at. cbn [r_world set_path r_path].
      cbn [intro_env x_call x_ctxerr]. unfold intro_call. unfold g_fun at 1. rewrite clo_code_back. cbv beta iota. unfold any_call. cbv iota. rewrite G. unfold bbind at 1. cbn [lift of_opt ret]. cbv beta iota. unfold bbind at 1. cbn [lift put_world]. unfold bbind at 1, bret at 1. cbn [snd].
      rewrite CTX. unfold bbind at 1. cbn [nth_error lift of_opt ret]. apply all_names_shown; auto; lia.
    - destruct G as [-> ->]. cbn [g_fun snd]. unfold bret. destruct s as [? ? ? ? ? ? ? []]; reflexivity. }
  cbv beta iota. unfold bbind at 1. rewrite sels_step. unfold bret. cbv beta iota. reflexivity.
Qed.
End Run.
(** the whole request *)
Section Whole.
Context {W : Type} (P : program) (p : pschema) (X : externals W) (S : schema) (vars : bytes).
Notation E := (intro_env P p 0 any_call X).
Hypothesis TS : tester_schema type_function S.
Hypothesis EN : nth_error (s_enums S) 0 = nth_error yarql_enums 0.
Hypothesis CTX : forall w, x_ctxerr X w = None.
Hypothesis DP : s_maxdepth S <> 1 /\ s_maxdepth S <> 2.
Variable n : bytes.
Hypothesis VN : vars <> [].
Hypothesis VP : x_parse X vars = inl (FObject [(bs "typename", FString n)]).
Notation ops := (Some [OpArg (bs "typename") (TyName (bs "String") false) None]).
Definition name_in : input := Input KString None false false false 0 None false [] [] (GString []).
Lemma bbind_ok {A B} (m : bm A) (f : A -> bm B) (s s' : rst (heap * W)) a : m s = BOk a s' -> bbind m f s = f a s'.
Proof. intro H. unfold bbind. now rewrite H. Qed.
Lemma walk_one {A} fuel (onkey : A -> bytes -> value -> bm (A * bool)) k v a a' (s s' : rst (heap * W)) :
  onkey a k v s = BOk (a', false) s' -> is_list v = false -> b_walk (SN (SN fuel)) onkey [(k, v)] a s = BOk (a', false, None) s'.
Proof. intros H L. cbn [b_walk]. erewrite bbind_ok; [|exact H]. cbv beta iota. now rewrite L. Qed.
Lemma name_bound fuel (s : rst (heap * W)) : (6 <= fuel)%nat -> r_vars s = None ->
  b_args E S vars ops fuel [None; Some (GStruct [(true, GString [])])] [(bs "name", (1%nat, name_in))] (Some [(bs "name", VVar (bs "typename"))]) s =
  BOk (name_arg n, false, None) (set_vars (Some (Some (FObject [(bs "typename", FString n)]))) s).
Proof.
  intros L V. do 6 (destruct fuel as [|fuel]; [lia|]).
  assert (B : @bind_external _ E S vars (SN (SN (SN (SN fuel)))) (false, GString []) name_in (bs "typename") s = ROk (GString n, true, true, false) (set_vars (Some (Some (FObject [(bs "typename", FString n)]))) s)).
  { destruct s as [s1 s2 s3 s4 s5 s6 s7 s8]. cbn [r_vars] in V. subst s7. unfold bind_external, get_vars. destruct vars as [|v0 vs] eqn:EV; [congruence|]. cbn [intro_env x_parse]. cbn [bind r_vars].
    rewrite VP. reflexivity. }
  unfold b_args. eapply walk_one; [|reflexivity].
  change (slookup [(bs "name", (1%nat, name_in))] (bs "name")) with (Some (1%nat, name_in)). cbv beta iota.
  erewrite bbind_ok; [|reflexivity]. erewrite bbind_ok; [|reflexivity]. erewrite bbind_ok.
  2:{ rewrite (var_start E S vars ops _ _ _ _ (OpArg (bs "typename") (TyName (bs "String") false) None)); [|reflexivity|reflexivity|cbn; lia].
      rewrite oparg_step. erewrite bbind_ok; [|reflexivity].
      cbv beta iota. rewrite (bbind_ok _ _ s s None); [|reflexivity]. cbv beta iota. erewrite bbind_ok; [|unfold lift; change (fst (false, GStruct [(true, GString [])]) || negb true) with false; rewrite B; reflexivity]. reflexivity. }
  reflexivity.
Qed.
Definition answer_of (t : option qlt) : gval := GPtr (match t with Some q => Some (g_type q) | None => None end).
Lemma query_run fuel h w c t ft : (30 <= fuel)%nat -> call_intro (original P p) (h 0%nat) FType (name_arg n) = Some (c, answer_of t) ->
  match t with Some q => exists fs h', fields_given P p (put h 0 c) q fs h' /\ ft = type_tree q fs | None => ft = TNull end ->
  exists s', b_operation E S vars [tester_op] tester_op fuel (s0 (h, w)) = BOk ([(bs "__type", ft)], false) s' /\ r_errs s' = [].
Proof.
  intros L C F. destruct (ts_query _ _ TS) as [b Q]. unfold b_operation, tester_op. change (frag_defs _) with (@nil (bytes * bytes * list sel)). do 5 (destruct fuel as [|fuel]; [lia|]).
  set (s := s0 (h, w)). assert (R : exists s', b_field E S vars ops [] (SN (SN (SN (SN fuel)))) (s_query S) 0 (false, s_qvalue S) 0 None (bs "__type") [] (Some [(bs "name", VVar (bs "typename"))]) type_sels s = BOk ([(bs "__type", ft)], false) s' /\ r_errs s' = []).
  { rewrite field_step, get_path_at, put_path_at. cbn [b_directives]. erewrite bbind_ok; [|reflexivity]. cbv beta iota. cbn [orb]. unfold at_field. rewrite Q.
    match goal with |- context[set_path ?x s] => set (s1 := set_path x s) end. assert (R : exists s2, b_value E S vars ops [] (SN (SN (SN fuel))) (OMethod (Method false [None; Some (GStruct [(true, GString [])])] [(bs "name", (1%nat, name_in))] 0 None (OPtr (OObjRef (bs "__Type"))))) 0
        (false, type_function) 1 (CArgs [(bs "name", VVar (bs "typename"))] type_sels) s1 = BOk (ft, false) s2 /\ r_errs s2 = []).
    { rewrite value_step. change (bad_args _ _) with false. cbv iota. unfold v_body. cbn [snd type_function g_fun fst]. erewrite bbind_ok; [|apply name_bound; [lia|reflexivity]]. cbv beta iota zeta. cbn [after_args].
      unfold bbind at 1, lift at 1, get_world. cbv beta iota. rewrite get_path_at.  cbn [intro_env x_call x_ctxerr]. unfold intro_call. unfold type_function, g_fun. rewrite clo_code_back. cbv beta iota. unfold any_call. cbv iota. cbn [fst snd itself].
      match goal with |- context[set_vars ?x s1] => change (r_world (set_vars x s1)) with (h, w); set (s2 := set_vars x s1) end. cbn [fst snd]. rewrite C. unfold bbind at 1. cbn [lift of_opt ret]. cbv beta iota. unfold bbind at 1. cbn [lift put_world]. unfold bbind at 1, bret at 1. cbn [snd]. rewrite CTX. unfold bbind at 1. cbn [nth_error lift of_opt ret].
      rewrite value_step. change (bad_args _ _) with false. cbv iota. unfold v_body. cbn [snd fst answer_of]. destruct t as [q|].
      - destruct F as [fs [h' [F ->]]]. erewrite type_shown with (h' := h'); [|eassumption|eassumption|eassumption|lia|lia|cbn; destruct DP; auto|cbn; destruct DP; auto|exact F]. eexists. split; [reflexivity|]. reflexivity.
      - subst ft. eexists. split; reflexivity. }
    destruct R as [s2 [R ER]]. eexists. split; [erewrite bbind_ok; [|exact R]; reflexivity|exact ER]. }
  destruct R as [s' [R ER]]. exists s'. split; [|exact ER]. rewrite sels_step. erewrite bbind_ok; [|exact R]. reflexivity.
Qed.
End Whole.
