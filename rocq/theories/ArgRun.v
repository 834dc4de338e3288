(** * Requests that call one resolver with arguments: what the resolver receives (proofs) *)
From Coq Require Import String Arith NArith ZArith Bool List Lia.
From Verif Require Import Base Json JsonModel Ast Grammar ReqModel Schema ResModel EnvModel Interp RunSim Facts Valid DocRun Spec SpecLit SpecVal SpecArgs SpecRun FuelMono.
Import ListNotations.
Open Scope N_scope.
Local Notation value := Ast.value.
Local Notation SN := Datatypes.S.

(** a field [f] of the query type that is a resolver: it notes its arguments with [seen] and returns true *)
Record probe {W} (X : externals W) (S : schema) (f : bytes) (ins : list (option gval)) (infs : list (bytes * (nat * input))) (seen : W -> list gval -> W) : Prop := {
  probe_field : exists idx fn hd, nlookup (o_fields (s_query S)) (fnv1 f) = Some (Field (OMethod (Method true ins infs 0 None (OData false KBool))) None idx fn hd) /\
    forall w args p, x_call X w (GMethod (s_qvalue S) idx) args p = Some (seen w args, [GBool true]);
  probe_ctx : forall w, x_ctxerr X w = None
}.
(** [q] asks only for [f(args)], with declared variables [decls] *)
Definition asks (o : ropts) (decls : option (list oparg)) (f : bytes) (args : list (bytes * value)) (q : bytes) : Prop :=
  exists d nm, g_doc d q /\ nul_free d /\ N.of_nat (length (enc_doc d)) < 4294967296 /\ runs o d (DOp OpQuery nm decls [] [SField None f [] (Some args) []]).
(** the request is answered without errors and the resolver was called once, with these arguments *)
Definition received {W} (X : externals W) (S : schema) (o : ropts) (seen : W -> list gval -> W) (q : bytes) (w : W) (args : list gval) : Prop :=
  exists n out, forall fuel vals, (n <= fuel)%nat -> exists vals', resolve X S fuel o vals w q = RDone out [] vals' (seen w args).
(** the request has an error and the resolver was not called *)
Definition refused {W} (X : externals W) (S : schema) (o : ropts) (q : bytes) (w : W) : Prop :=
  exists n out e es, forall fuel vals, (n <= fuel)%nat -> exists vals', resolve X S fuel o vals w q = RDone out (e :: es) vals' w.

Section Probe.
Context {W : Type}.
Variable X : externals W.
Variable S : schema.
Variable o : ropts.
Variable decls : option (list oparg).
Variable f : bytes.
Variable ins : list (option gval).
Variable infs : list (bytes * (nat * input)).
Variable seen : W -> list gval -> W.
Hypothesis P : probe X S f ins infs seen.
Notation b_args := (b_args X S (op_vars o) decls).
Definition at_f (w : W) : rst W := set_path ([44; 34] ++ f ++ [34]) (s0 w).
Definition ask (nm : bytes) (args : list (bytes * value)) : definition := DOp OpQuery nm decls [] [SField None f [] (Some args) []].
(** what comes after the arguments *)
Definition after_call (d : document) (n : nat) (r : list gval * bool * option (list (bytes * value))) (s : rst W) :=
  let '(L, crit, cut) := r in
  if crit : bool then BOk ([(f, THole)], true) (set_path [] s)
  else
  match b_value X S (op_vars o) decls (frag_defs d) (1 + n) (OData false KBool) 0 (false, GBool true) 1 (after_args cut []) (set_world (seen (r_world s) L) s) with
  | BOk (t, crit) s => if crit then BOk ([(f, t)], true) (set_path [] s) else match b_sels X S (op_vars o) decls (frag_defs d) (3 + n) (s_query S) 0 (false, s_qvalue S) 0 [] (set_path [] s) with BOk (ms, c) s => BOk ((f, t) :: ms, c) s | BPanic => BPanic | BNoFuel => BNoFuel | BOut => BOut end
  | BPanic => BPanic | BNoFuel => BNoFuel | BOut => BOut
  end.
Lemma probe_op : forall d nm args n w, b_operation X S (op_vars o) d (ask nm args) (4 + n) (s0 w) =
  match b_args (1 + n) ins infs (Some args) (at_f w) with
  | BOk r s => after_call d n r s
  | BPanic => BPanic | BNoFuel => BNoFuel | BOut => BOut
  end.
Proof.
  intros d nm args n w. destruct P as [(idx & fn & hd & Lk & Call) Ctx]. unfold ask, after_call. cbn [b_operation].
  rewrite (sels_step X S (op_vars o) decls (frag_defs d) (3 + n)). unfold bbind at 1. change (3 + n)%nat with (SN (2 + n)). rewrite (field_step X S (op_vars o) decls (frag_defs d) (2 + n)).
  rewrite get_path_at, put_path_at. cbn [b_directives]. unfold bbind at 1, bret at 1. cbv beta iota. cbn [orb]. unfold bbind at 1. unfold at_field. rewrite Lk. cbv beta iota.
  unfold bbind at 1, bret at 1. change (0 =? 255) with false. cbv beta iota. change (2 + n)%nat with (SN (1 + n)). rewrite (value_step X S (op_vars o) decls (frag_defs d) (1 + n)).
  change (bad_args (OMethod (Method true ins infs 0 None (OData false KBool))) (cur_of (Some args) [])) with false. cbv beta iota.
  unfold v_body. cbn [snd fst cur_of]. unfold bbind at 1. change (set_path (r_path (s0 w) ++ [44; 34] ++ response_key None f ++ [34]) (s0 w)) with (at_f w).
  destruct (b_args (1 + n) ins infs (Some args) (at_f w)) as [[[L crit] cut] s| | |]; try reflexivity. cbv beta iota. destruct crit; [reflexivity|].
  unfold bbind at 1, lift at 1, get_world at 1. cbv beta iota. unfold bbind at 1, lift at 1, get_path at 1. cbv beta iota. rewrite Call. unfold of_opt. unfold bbind at 1, lift at 1, ret at 1. cbv beta iota.
  unfold bbind at 1, lift at 1, put_world at 1. cbv beta iota. unfold bbind at 1, bret at 1. cbv beta iota. rewrite Ctx. unfold bbind at 1. cbn [nth_error]. unfold lift at 1, ret at 1. cbv beta iota.
  change (0 + 1) with 1. destruct (b_value X S (op_vars o) decls (frag_defs d) (1 + n) (OData false KBool) 0 (false, GBool true) 1 (after_args cut []) (set_world (seen (r_world s) L) s)) as [[t c] s1| | |]; try reflexivity.
  destruct c; reflexivity.
Qed.
Lemma probe_received : forall args q w L n cut, asks o decls f args q -> after_args cut [] = CSels [] ->
  (forall fuel, (n <= fuel)%nat -> to X (op_vars o) ([44; 34] ++ f ++ [34]) (b_args fuel ins infs (Some args)) w (L, false, cut) w) -> received X S o seen q w L.
Proof.
  intros args q w L n cut (d & nm & G & Nf & Sz & U) C H.
  exists (4 + n)%nat, (finish_of o (start_of o ++ [123] ++ render_members (x_float_json X) [(f, TBool true)] ++ [125]) []). intros fuel vals Lf.
  pose proof (resolve_doc W X S fuel o vals w q d _ G Nf Sz U) as R. replace fuel with (4 + (fuel - 4))%nat in R by lia. fold (ask nm args) in R. rewrite probe_op in R.
  destruct (H (1 + (fuel - 4))%nat ltac:(lia) (at_f w)) as (s1 & E & (Pp & Er & _) & Wo); [now left|reflexivity|reflexivity|].
  rewrite E in R. unfold after_call in R. rewrite C in R. rewrite Wo in R.
  change (b_value X S (op_vars o) decls (frag_defs d) (1 + (fuel - 4)) (OData false KBool) 0 (false, GBool true) 1 (CSels []) (set_world (seen w L) s1)) with (@BOk W (rt * bool) (TBool true, false) (set_world (seen w L) s1)) in R.
  cbv beta iota in R. change (3 + (fuel - 4))%nat with (SN (2 + (fuel - 4))) in R.
  rewrite (sels_step X S (op_vars o) decls (frag_defs d) (2 + (fuel - 4))) in R. cbn [bret] in R. unfold bret in R. cbv beta iota in R. cbn [set_path set_world r_errs r_world] in R. rewrite Er in R. cbn [at_f s0 set_path r_errs map] in R.
  replace (4 + (fuel - 4))%nat with fuel in R by lia. exact R.
Qed.
Lemma probe_refused : forall args q w n L cut s1, asks o decls f args q ->
  (forall fuel, (n <= fuel)%nat -> b_args fuel ins infs (Some args) (at_f w) = BOk (L, true, cut) s1) -> r_errs s1 <> [] -> r_world s1 = w -> refused X S o q w.
Proof.
  intros args q w n L cut s1 (d & nm & G & Nf & Sz & U) H Er Wo. destruct (r_errs s1) as [|e es] eqn:Es; [contradiction|].
  exists (4 + n)%nat, (finish_of o (start_of o ++ [123] ++ render_members (x_float_json X) [(f, THole)] ++ [125]) (map ERun (e :: es))), (ERun e), (map ERun es). intros fuel vals Lf.
  pose proof (resolve_doc W X S fuel o vals w q d _ G Nf Sz U) as R. replace fuel with (4 + (fuel - 4))%nat in R by lia. fold (ask nm args) in R. rewrite probe_op in R.
  rewrite H in R by lia. unfold after_call in R. cbv beta iota in R. cbn [set_path r_errs r_world] in R. rewrite Es, Wo in R. replace (4 + (fuel - 4))%nat with fuel in R by lia. exact R.
Qed.

(** ** One argument *)
(** the argument [a] is bound to a field of an argument struct: [i] is its description, [old] its zero value *)
Definition place (a : bytes) (i : input) (old : gval) : Prop := exists n fs, slookup infs a = Some (n, i) /\ nth_error (fresh_args ins) n = Some (GStruct fs) /\ nth_error fs (i_field i) = Some (true, old).
(** the arguments of the call when only [a] is given, with value [y] *)
Definition args_with (a : bytes) (y : gval) : list gval :=
  match slookup infs a with
  | Some (n, i) => match nth_error (fresh_args ins) n with Some (GStruct fs) => with_arg (fresh_args ins) n (GStruct (with_field fs (i_field i) y)) | _ => [] end
  | None => []
  end.
Lemma one_received : forall a i old x q w y b, place a i old -> asks o decls f [(a, x)] q -> lit_sets X S (op_vars o) decls true w (false, old) i x w y b ->
  received X S o seen q w (args_with a y).
Proof.
  intros a i old x q w y b (n & fs & Lk & Ln & Lf) A H.
  assert (As : args_set X S (op_vars o) decls infs w (fresh_args ins) [(a, x)] w (args_with a y)). { unfold args_with. rewrite Lk, Ln. eapply as_cons; eauto. constructor. }
  assert (Ll : lists_last [(a, x)] []). { intros u k l v E. destruct u as [|z u]; [injection E; intros; subst; auto|]. destruct u; discriminate. }
  destruct (args_fwd X S (op_vars o) decls _ _ _ _ _ _ As [] Ll) as (m & cut & C & _ & R).
  eapply (probe_received [(a, x)] q w _ (m + 3) cut A C). intros fuel L. rewrite args_step. rewrite zero_fresh. apply R; [lia|]. cbn. lia.
Qed.
Lemma one_refused : forall a i old x q w n y b s1, place a i old -> asks o decls f [(a, x)] q ->
  (forall fuel, (n <= fuel)%nat -> b_input X S (op_vars o) decls fuel (false, old) i x true (at_f w) = BOk (y, b, true) s1) -> r_errs s1 <> [] -> r_world s1 = w ->
  refused X S o q w.
Proof.
  intros a i old x q w n y b s1 (m & fs & Lk & Ln & Lf) A H Er Wo.
  eapply (probe_refused [(a, x)] q w (1 + n) _ _ s1 A); [|exact Er|exact Wo]. intros fuel L. rewrite args_step, zero_fresh. destruct fuel as [|fuel]; [lia|]. cbn [b_walk].
  unfold on_arg. rewrite Lk. unfold bbind at 1. unfold bbind at 1. rewrite Ln. unfold lift at 1, of_opt at 1, ret at 1. unfold bbind at 1. unfold lift at 1, field_of at 1. cbn [snd fst]. rewrite Lf. unfold ret at 1. cbn [orb negb].
  unfold bbind at 1. rewrite H by lia. reflexivity.
Qed.
End Probe.

(** ** Values that are not accepted *)
Section No.
Context {W : Type}.
Variable X : externals W.
Variable S : schema.
(** a step that reports an error, or succeeds without one *)
Definition no_or_yes (g : rv) (m : @rm W bres) : Prop := (exists e, forall s, m s = fail g e s) \/ (exists v, forall s, m s = ROk (v, true, false) s).
Ltac noy := first [left; eexists; intro; reflexivity | right; eexists; intro; reflexivity].
Lemma int_noy : forall x t, no_or_yes (false, x) (int_literal X (false, x) t).
Proof.
  intros x t. unfold int_literal. cbn [snd]. destruct x; cbn [kind_of]; try noy; try (destruct (parse_int t); noy).
  - destruct (parse_int t) as [y| |]; [destruct (fits_int w y)| |]; noy.
  - destruct (parse_uint t) as [y| |]; [destruct (fits_uint w y)| |]; noy.
Qed.
Lemma int_no : forall x t (s : rst W), (forall v, ~ int_sets X (false, x) t v) -> exists m, forall s : rst W, int_literal X (false, x) t s = fail (false, x) m s.
Proof.
  intros x t s0 H. destruct (int_noy x t) as [C|(v & C)]; [exact C|]. exfalso. apply (H v). eapply (int_iff X (false, x) t s0 v true false s0). split; auto.
Qed.
Lemma num_noy : forall x t, no_or_yes (false, x) (number_part X (false, x) t).
Proof.
  intros x t. unfold number_part, json_number. cbn [snd]. destruct x; cbn [kind_of]; try noy; try (destruct (json_int t) as [y|]; [|noy]); try noy.
  all: repeat match goal with |- context [if ?c then _ else _] => destruct c end; try noy.
Qed.
Lemma num_no : forall x t (s : rst W), (forall v, ~ num_sets X (false, x) t v) -> exists m, forall s : rst W, number_part X (false, x) t s = fail (false, x) m s.
Proof.
  intros x t s0 H. destruct (num_noy x t) as [C|(v & C)]; [exact C|]. exfalso. apply (H v). eapply (num_iff X (false, x) t s0 v true false s0). split; auto.
Qed.
Lemma id_noy : forall x t, no_or_yes (false, x) (@assign_id W (false, x) t).
Proof.
  intros x t. unfold assign_id. cbn [snd]. destruct x; cbn [kind_of]; try noy; try (destruct (parse_int t) as [y| |]; try noy). destruct (y <? 0)%Z; noy.
Qed.
Lemma id_no : forall x t (s : rst W), (forall v, ~ id_sets (false, x) t v) -> exists m, forall s : rst W, assign_id (false, x) t s = fail (false, x) m s.
Proof.
  intros x t s0 H. destruct (id_noy x t) as [C|(v & C)]; [exact C|]. exfalso. apply (H v). eapply (id_iff (false, x) t s0 v true false s0). split; auto.
Qed.

(** ** Refusal *)
Variable rawvars : bytes.
Variable decls : option (list oparg).
Notation b_input := (b_input X S rawvars decls).
Notation vars_fine := (vars_fine X rawvars).
Lemma input_same : forall n m g i v ok s r s1, (n <= m)%nat -> b_input n g i v ok s = BOk r s1 -> b_input m g i v ok s = BOk r s1.
Proof.
  intros n m g i v ok s r s1 L H. induction L as [|m L IH]; auto. destruct (proj1 (input_mono X S rawvars decls m) g i v ok s) as [E|E]; rewrite IH in E; [discriminate|exact E].
Qed.
(** the binding fails with an error and without side effects *)
Definition no (m : @bm W bres) (s : rst W) : Prop := exists y b s1, m s = BOk (y, b, true) s1 /\ r_errs s1 <> [] /\ r_world s1 = r_world s.
Lemma no_fail : forall g e s, no (lift (fail g e)) s.
Proof. intros g e s. exists (snd g), false. eexists. split; [reflexivity|]. split; [|reflexivity]. cbn. intro H. apply (f_equal (@length _)) in H. rewrite app_length in H. cbn in H. lia. Qed.
Lemma no_lit_int : forall x i t s, is_ptr i = false -> (forall v, ~ int_sets X (false, x) t v) -> no (b_input 1 (false, x) i (VInt t) true) s.
Proof.
  intros x i t s P H. destruct (int_no x t s H) as (m & E). unfold no. rewrite input_step, bptr_no by auto. unfold b_body, lift. rewrite E. apply no_fail.
Qed.
(** a variable *)
Lemma no_undeclared : forall g i n s, is_ptr i = false -> declared decls n = None -> no (b_input (2 + decl_count decls) g i (VVar n) true) s.
Proof.
  intros g i n s P D. unfold no. change (2 + decl_count decls)%nat with (SN (1 + decl_count decls)). rewrite input_step, bptr_no by auto. unfold b_body. cbn [negb].
  unfold bbind at 1. rewrite find_arg_run by lia. rewrite D. apply no_fail.
Qed.
(** the declaration is found *)
Lemma var_start : forall fuel g i n a s, is_ptr i = false -> declared decls n = Some a -> (decl_count decls < fuel)%nat ->
  b_input (SN fuel) g i (VVar n) true s = b_oparg X S rawvars decls fuel g i n a s.
Proof.
  intros fuel g i n a s P D L. rewrite input_step, bptr_no by auto. unfold b_body. cbn [negb]. unfold bbind at 1. rewrite find_arg_run by lia. now rewrite D.
Qed.
(** the descriptions of list elements, and the enums, exist *)
Inductive elem_of : input -> input -> Prop :=
| eo_self : forall i, elem_of i i
| eo_elem : forall i e j, i_elem i = Some e -> elem_of e j -> elem_of i j.
Definition input_fine (i : input) : Prop := forall j, elem_of i j -> (i_kind j = KSlice -> i_elem j <> None) /\ (forall k, i_enum j = Some k -> nth_error (s_enums S) k <> None).
Lemma mismatch_total : forall i n, (forall k, i_enum i = Some k -> nth_error (s_enums S) k <> None) -> exists r, forall s : rst W, type_mismatch S i n s = ROk r s.
Proof.
  intros i n H. unfold type_mismatch. destruct (i_enum i) as [k|]; [destruct (nth_error (s_enums S) k) eqn:E; [eexists; reflexivity|exfalso; eapply H; eauto]|].
  destruct (i_isid i), (i_isfile i), (i_istime i), (i_kind i); eexists; reflexivity.
Qed.
Lemma marks_total : forall t i n, input_fine i -> exists m, forall fuel, (m <= fuel)%nat ->
  (exists i' n', elem_of i i' /\ (type_fits S i t <-> name_fits S i' n') /\ forall s, @b_marks W fuel i t n s = BOk (Some i', n') s) \/
  (~ type_fits S i t /\ forall s, exists s1, @b_marks W fuel i t n s = BOk (None, []) s1 /\ r_errs s1 <> [] /\ r_world s1 = r_world s).
Proof.
  intros t. induction t as [x nn|t IH nn]; intros i n F.
  - exists O. intros fuel _. left. exists i, x. split; [constructor|]. split; [split; [intro H; inversion H; auto|apply tf_name]|]. intro s. destruct fuel; reflexivity.
  - assert (D : i_kind i = KSlice \/ i_kind i <> KSlice) by (destruct (i_kind i); auto; right; discriminate). destruct D as [K|K].
    + destruct (i_elem i) as [e|] eqn:Ee; [|exfalso; destruct (F i (eo_self i)) as [F1 _]; now apply F1].
      destruct (IH e n) as (m & Hm); [intros j Hj; apply F; eapply eo_elem; eauto|]. exists (SN m). intros [|fuel] L; [lia|]. destruct (Hm fuel ltac:(lia)) as [(i' & n' & Eo & T & R)|(T & R)].
      * left. exists i', n'. split; [eapply eo_elem; eauto|]. split.
        -- rewrite <- T. split; [intro H; inversion H; subst; congruence|intro H; eapply tf_list; eauto].
        -- intro s. cbn [b_marks]. rewrite K, Ee. apply R.
      * right. split; [intro H; inversion H; subst; apply T; congruence|]. intro s. cbn [b_marks]. rewrite K, Ee. apply R.
    + exists 1%nat. intros [|fuel] L; [lia|]. right. split; [intro H; inversion H; subst; contradiction|]. intro s. cbn [b_marks].
      destruct (i_kind i); try contradiction; (eexists; split; [reflexivity|]; split; [|reflexivity]; cbn; intro H; apply (f_equal (@length _)) in H; rewrite app_length in H; cbn in H; lia).
Qed.
(** another type *)
Lemma no_type : forall g i n a, is_ptr i = false -> input_fine i -> declared decls n = Some a -> ~ type_fits S i (oa_type a) -> exists fuel, forall s, no (b_input fuel g i (VVar n) true) s.
Proof.
  intros g i n a P F D T. destruct (marks_total (oa_type a) i n F) as (m & Hm). exists (3 + decl_count decls + m)%nat. intro s. unfold no.
  change (3 + decl_count decls + m)%nat with (SN (2 + decl_count decls + m)). rewrite (var_start _ _ _ _ _ _ P D) by lia. change (2 + decl_count decls + m)%nat with (SN (1 + decl_count decls + m)). cbn [b_oparg].
  destruct (Hm (1 + decl_count decls + m)%nat ltac:(lia)) as [(i' & n' & Eo & Q & R)|(_ & R)].
  - unfold bbind at 1. rewrite R. cbv beta iota. destruct (mismatch_total i' n') as (r & Hr); [apply F; exact Eo|]. unfold bbind at 1. unfold lift at 1. rewrite Hr. destruct r as [e|]; [apply no_fail|].
    exfalso. apply T. apply Q. apply (proj1 (mismatch_iff S i' n' s s)). apply Hr.
  - destruct (R s) as (s1 & E & Er & Ew). unfold bbind at 1. rewrite E. cbv beta iota. exists (snd g), false, s1. split; [reflexivity|auto].
Qed.
(** up to the value *)
Lemma var_middle : forall g i n a, is_ptr i = false -> declared decls n = Some a -> type_fits S i (oa_type a) -> exists m, forall fuel s, (m <= fuel)%nat ->
  b_input (2 + fuel) g i (VVar n) true s =
  bbind (lift (bind_external X S rawvars fuel g i n)) (fun '(v, set_, found, crit) =>
    if crit : bool then bret (v, set_, true)
    else if found : bool then bret (v, set_, false)
    else match oa_default a with
         | None => lift (fail g (bs "variable has no value nor default"))
         | Some d => b_input fuel g i d false
         end) s.
Proof.
  intros g i n a P D T. destruct (@marks_run W S _ _ T) as (k & K). exists (1 + decl_count decls + k)%nat. intros fuel s L. change (2 + fuel)%nat with (SN (SN fuel)). rewrite (var_start _ _ _ _ _ _ P D) by lia.
  cbn [b_oparg]. destruct (K fuel ltac:(lia) n) as (i' & n' & F & R). unfold bbind at 1. rewrite R. cbv beta iota. unfold bbind at 1. unfold lift at 1. rewrite (proj2 (mismatch_iff S i' n' s s)) by auto. reflexivity.
Qed.
Lemma no_value : forall g i n a w, is_ptr i = false -> declared decls n = Some a -> type_fits S i (oa_type a) -> jvar X rawvars n None -> oa_default a = None ->
  exists fuel, forall s, vars_fine s -> r_world s = w -> no (b_input fuel g i (VVar n) true) s.
Proof.
  intros g i n a w P D T J N. destruct (var_middle g i n a P D T) as (m & H). exists (2 + m)%nat. intros s V Ew. unfold no. rewrite H by lia. unfold bbind at 1.
  destruct (external_not X S rawvars w g i n J m (r_path s) s V eq_refl Ew) as (s1 & E & _ & Ew1). rewrite E. cbv beta iota. rewrite N. rewrite <- Ew in Ew1. rewrite <- Ew1. apply no_fail.
Qed.
Lemma no_json : forall g i n a j w e k, is_ptr i = false -> declared decls n = Some a -> type_fits S i (oa_type a) -> jvar X rawvars n (Some j) ->
  (forall s, bind_json X S k g i j s = fail g e s) ->
  exists fuel, forall s, vars_fine s -> r_world s = w -> no (b_input fuel g i (VVar n) true) s.
Proof.
  intros g i n a j w e k P D T J B. destruct (var_middle g i n a P D T) as (m & H). exists (2 + (k + m))%nat. intros s V Ew. unfold no. rewrite H by lia.
  assert (B' : forall s, bind_json X S (k + m) g i j s = fail g e s).
  { intro s'. rewrite <- (B s'). clear - B. induction m as [|m IH]; [now rewrite Nat.add_0_r|]. rewrite Nat.add_succ_r. destruct (j_mono X S (k + m) g i j s') as [E|E]; rewrite IH in E; [rewrite B in E; discriminate|exact E]. }
  inversion J as [|n' l R Pm G]; subst. unfold bbind at 1. unfold lift at 1. destruct (external_obj X S rawvars (k + m) g i n s l V R Pm) as (s1 & E1 & _ & Ew1). rewrite E1. unfold found_in.
  match goal with Ej : fj_get _ _ = _ |- _ => rewrite Ej end. unfold bind. rewrite B'. rewrite <- Ew1. destruct (no_fail g e s1) as (y & b & s2 & E2 & Q). unfold lift, fail, bind, err in *. unfold no in *.
  cbn [snd ret] in *. exists (snd g), false. eexists. split; [reflexivity|]. injection E2. intros <- _ _. exact Q.
Qed.
(** the variables are not a JSON object *)
Lemma no_variables : forall g i n a w, is_ptr i = false -> declared decls n = Some a -> type_fits S i (oa_type a) -> rawvars <> [] -> (forall m, x_parse X rawvars <> inl (FObject m)) ->
  exists fuel, forall s : rst W, r_vars s = None -> r_world s = w -> no (b_input fuel g i (VVar n) true) s.
Proof.
  intros g i n a w P D T N B. destruct (var_middle g i n a P D T) as (m & H). exists (2 + m)%nat. intros s V Ew. unfold no. rewrite H by lia. unfold bbind at 1. unfold lift at 1.
  assert (Z : forall A (l : list A) x, l ++ [x] <> []) by (intros A l x Hl; apply (f_equal (@length _)) in Hl; rewrite app_length in Hl; cbn in Hl; lia).
  unfold bind_external, get_vars. unfold bind at 1. rewrite V. destruct rawvars as [|c r] eqn:Er; [contradiction|]. rewrite <- Er in *.
  destruct (x_parse X rawvars) as [x|e] eqn:Px.
  - destruct x; try (exfalso; eapply B; reflexivity); (eexists; eexists; eexists; split; [reflexivity|]; split; [apply Z|reflexivity]).
  - eexists; eexists; eexists; split; [reflexivity|]; split; [apply Z|reflexivity].
Qed.
End No.

Lemma refused_no : forall W (X : externals W) S o decls f ins infs seen, probe X S f ins infs seen -> forall a i old x q w, place ins infs a i old -> asks o decls f [(a, x)] q ->
  (exists n, no (b_input X S (op_vars o) decls n (false, old) i x true) (at_f f w)) -> refused X S o q w.
Proof.
  intros W X S o decls f ins infs seen P a i old x q w Pl A (n & y & b & s1 & E & Er & Ew).
  eapply (one_refused X S o decls f ins infs seen P a i old x q w n y b s1 Pl A); [|exact Er|exact Ew]. intros fuel L. eapply input_same; eauto.
Qed.

(** ** The text of such a request *)
Definition ask_text (f a t : bytes) : bytes := bs "{" ++ f ++ bs "(" ++ a ++ bs ":" ++ t ++ bs ")}".
Definition ask_var_text (f a v ty : bytes) : bytes := bs "query($" ++ v ++ bs ":" ++ ty ++ bs "){" ++ f ++ bs "(" ++ a ++ bs ":$" ++ v ++ bs ")}".
Lemma ign_self : forall c l, ~ In c [cSP; cTAB; cLF; cCR; cNUL; cHASH] -> skip_ign (c :: l) = c :: l.
Proof.
  intros c l H. cbn [In] in H. cbn [skip_ign].
  destruct (c =? cSP) eqn:E1; [apply N.eqb_eq in E1; exfalso; apply H; auto 10|]. destruct (c =? cTAB) eqn:E2; [apply N.eqb_eq in E2; exfalso; apply H; auto 10|].
  destruct (c =? cLF) eqn:E3; [apply N.eqb_eq in E3; exfalso; apply H; auto 10|]. destruct (c =? cCR) eqn:E4; [apply N.eqb_eq in E4; exfalso; apply H; auto 10|].
  destruct (c =? cNUL) eqn:E5; [apply N.eqb_eq in E5; exfalso; apply H; auto 10|]. destruct (c =? cHASH) eqn:E6; [apply N.eqb_eq in E6; exfalso; apply H; auto 10|]. reflexivity.
Qed.
Lemma name_start : forall n, valid_name n -> exists c m, n = c :: m /\ is_letter c.
Proof. intros n H. inversion H; subst. eauto. Qed.
Lemma ign_name : forall n l, valid_name n -> skip_ign (n ++ l) = n ++ l.
Proof.
  intros n l H. destruct (name_start n H) as (c & m & -> & L). cbn [app]. apply ign_self. unfold is_letter in *. cbn [In]. lia.
Qed.
Ltac stopc := let H := fresh in intro H; unfold is_name_char, is_letter, is_digit in H; lia.
Ltac gname := match goal with |- g_name ?n (?n ++ ?c :: ?r) _ => apply g_name_intro; [assumption|stopc] end.
Lemma sel_text : forall f a t v, valid_name f -> valid_name a -> g_value v (t ++ bs ")}") (bs ")}") ->
  g_selset [SField None f [] (Some [(a, v)]) []] (f ++ bs "(" ++ a ++ bs ":" ++ t ++ bs ")}") [].
Proof.
  intros f a t v Vf Va G. destruct (name_start f Vf) as (c & m & Ef & L).
  assert (E : f ++ bs "(" ++ a ++ bs ":" ++ t ++ bs ")}" = c :: (m ++ bs "(" ++ a ++ bs ":" ++ t ++ bs ")}")) by (rewrite Ef; reflexivity).
  eapply gss_some; [rewrite ign_name by auto; exact E| |]; [unfold is_letter in L; lia|]. rewrite <- E.
  eapply gsl_last with (l1 := bs "}"); [|reflexivity]. change (bs "(") with [cLPAR]. cbn [app].
  eapply gs_field with (l2 := cLPAR :: a ++ bs ":" ++ t ++ bs ")}").
  - eapply gal_none; [gname|apply ign_self; cbv; intuition discriminate|discriminate].
  - apply gd_none; [apply ign_self; cbv; intuition discriminate|discriminate].
  - cbv. lia.
  - eapply goa_some with (l1 := bs "}"); [|reflexivity]. destruct (name_start a Va) as (c' & m' & Ea & L').
    assert (E' : a ++ bs ":" ++ t ++ bs ")}" = c' :: (m' ++ bs ":" ++ t ++ bs ")}")) by (rewrite Ea; reflexivity).
    eapply ga_some; [rewrite ign_name by auto; exact E'| |]; [unfold is_letter in L'; lia|]. rewrite <- E'. change (bs ":") with [cCOLON]. cbn [app].
    eapply gf_last; [gname|apply ign_self; cbv; intuition discriminate|exact G|]. reflexivity.
  - apply gos_none. discriminate.
Qed.
Lemma doc_size : forall f a v decls, (length (enc_doc [DOp OpQuery [] decls [] [SField None f [] (Some [(a, v)]) []]]) = 33 + length f + length a + length (enc_opargs decls) + length (enc_value v))%nat.
Proof.
  intros f a v decls. unfold enc_doc. cbn [flat_map enc_def]. unfold enc_sels, enc_dirs. cbn [flat_map enc_sel]. unfold enc_names, enc_opt_args, enc_args, enc_dirs. cbn [flat_map enc_value fst snd]. unfold enc_tagged, le32.
  rewrite ?app_nil_r. repeat (rewrite ?app_length; cbn [length app]). lia.
Qed.
Lemma asks_text : forall o f a t v, valid_name f -> valid_name a -> op_target o = [] -> g_value v (t ++ bs ")}") (bs ")}") ->
  nf_value v -> N.of_nat (length (enc_value v)) < 4000000000 ->
  asks o None f [(a, v)] (ask_text f a t).
Proof.
  intros o f a t v Vf Va T G Nf Sz. exists [DOp OpQuery [] None [] [SField None f [] (Some [(a, v)]) []]], []. split; [|split; [|split]].
  - eapply gdoc_more with (r := []); [|now apply gdoc_end]. unfold ask_text. change (bs "{") with [cLBR]. cbn [app]. rewrite ign_self by (cbv; intuition discriminate). apply gdef_anon. now apply sel_text.
  - constructor; [|constructor]. cbn. repeat split; auto.
  - rewrite doc_size. assert (B : forall n, valid_name n -> (length n <= 254)%nat) by (intros n H; inversion H; auto). apply B in Vf, Va. cbn [enc_opargs length]. lia.
  - exists [], []. split; [reflexivity|]. split; [|constructor]. unfold target_of. rewrite T. exact Logic.I.
Qed.
Lemma asks_var_text : forall o f a v ty, valid_name f -> valid_name a -> valid_name v -> valid_name ty -> op_target o = [] ->
  asks o (Some [OpArg v (TyName ty false) None]) f [(a, VVar v)] (ask_var_text f a v ty).
Proof.
  intros o f a v ty Vf Va Vv Vt T. exists [DOp OpQuery [] (Some [OpArg v (TyName ty false) None]) [] [SField None f [] (Some [(a, VVar v)]) []]], []. split; [|split; [|split]].
  - eapply gdoc_more with (r := []); [|now apply gdoc_end]. unfold ask_var_text.
    change (skip_ign (bs "query($" ++ v ++ bs ":" ++ ty ++ bs "){" ++ f ++ bs "(" ++ a ++ bs ":$" ++ v ++ bs ")}")) with (op_keyword OpQuery ++ bs "($" ++ v ++ bs ":" ++ ty ++ bs "){" ++ f ++ bs "(" ++ a ++ bs ":$" ++ v ++ bs ")}").
    change (bs "($") with [40; 36]. change (bs ":") with [58]. change (bs "){") with [41; 123]. change (bs "(") with [40]. change (bs ":$") with [58; 36]. change (bs ")}") with [41; 125].
    eapply gdef_op with (l1 := [40; 36] ++ v ++ [58] ++ ty ++ [41; 123] ++ f ++ [40] ++ a ++ [58; 36] ++ v ++ [41; 125])
      (l2 := [123] ++ f ++ [40] ++ a ++ [58; 36] ++ v ++ [41; 125]) (l3 := f ++ [40] ++ a ++ [58] ++ ([36] ++ v) ++ [41; 125]).
    + cbn [app]. rewrite ign_self by (cbv; intuition discriminate). apply gon_none. stopc.
    + cbn [app]. eapply goo_some; [apply ign_self; cbv; intuition discriminate|]. eapply gop_more with (l4 := [41; 123] ++ f ++ [40] ++ a ++ [58; 36] ++ v ++ [41; 125]) (l5 := [41; 123] ++ f ++ [40] ++ a ++ [58; 36] ++ v ++ [41; 125]).
      * reflexivity.
      * gname.
      * apply ign_self; cbv; intuition discriminate.
      * rewrite ign_name by auto. eapply gt_name; [gname|apply ign_self; cbv; intuition discriminate|discriminate].
      * apply gdf_none; [apply ign_self; cbv; intuition discriminate|discriminate].
      * apply gop_end. unfold sep. cbn [app]. rewrite ign_self by (cbv; intuition discriminate). reflexivity.
    + apply gd_none; [cbn [app]; rewrite ign_self by (cbv; intuition discriminate); reflexivity|discriminate].
    + cbv; lia.
    + apply (sel_text f a ([36] ++ v)); auto. eapply gv_var with (l1 := v ++ [41; 125]); [reflexivity|]. change (bs ")}") with [41; 125]. gname.
  - constructor; [|constructor]. cbn. split; [constructor; [exact Logic.I|constructor]|]. repeat split; auto.
  - rewrite doc_size. assert (B : forall n, valid_name n -> (length n <= 254)%nat) by (intros n H; inversion H; auto).
    apply B in Vf, Va, Vv, Vt. cbn [enc_opargs enc_oparg oa_name oa_type oa_default enc_type enc_value flat_map]. unfold enc_tagged, enc_oparg. cbn [oa_name oa_type oa_default enc_type]. rewrite ?app_length. unfold le32. cbn [length app]. rewrite ?app_length. cbn [length]. rewrite ?app_length. cbn [length]. lia.
  - exists [], []. split; [reflexivity|]. split; [|constructor]. unfold target_of. rewrite T. exact Logic.I.
Qed.

(** the argument [a] has a type T or a pointer to T; [i] describes T, [old] is its zero value and [wr] makes the argument from a value of T *)
Inductive slot (ins : list (option gval)) (infs : list (bytes * (nat * input))) (a : bytes) : input -> gval -> (gval -> gval) -> Prop :=
| slot_value : forall i old, place ins infs a i old -> is_ptr i = false -> slot ins infs a i old (fun v => v)
| slot_pointer : forall p i old, place ins infs a p old -> is_ptr p = true -> i_elem p = Some i -> is_ptr i = false -> slot ins infs a i (i_zero i) (fun v => GPtr (Some v)).
Lemma slot_direct : forall ins infs a i old wr, slot ins infs a i old wr -> is_ptr i = false.
Proof. intros ins infs a i old wr H. inversion H; auto. Qed.
Section Slot.
Context {W : Type}.
Variable X : externals W.
Variable S : schema.
Variable o : ropts.
Variable decls : option (list oparg).
Variable f : bytes.
Variable ins : list (option gval).
Variable infs : list (bytes * (nat * input)).
Variable seen : W -> list gval -> W.
Hypothesis P : probe X S f ins infs seen.
Lemma slot_received : forall a i old wr x q w y, slot ins infs a i old wr -> asks o decls f [(a, x)] q -> x <> VNull ->
  lit_sets X S (op_vars o) decls true w (false, old) i x w y true -> received X S o seen q w (args_with ins infs a (wr y)).
Proof.
  intros a i old wr x q w y Sl A N H. inversion Sl as [i' old' Pl Np E1 E2 E3|p i' old' Pl Ip El Np E1 E2 E3]; subst.
  - eapply one_received; eauto.
  - eapply one_received; [exact P|exact Pl|exact A|]. eapply ls_ptr; eauto.
Qed.
Lemma slot_refused : forall a i old wr x q w, slot ins infs a i old wr -> asks o decls f [(a, x)] q -> x <> VNull ->
  (exists n, no (b_input X S (op_vars o) decls n (false, old) i x true) (at_f f w)) -> refused X S o q w.
Proof.
  intros a i old wr x q w Sl A N (n & y & b & s1 & E & Er & Ew). inversion Sl as [i' old' Pl Np E1 E2 E3|p i' old' Pl Ip El Np E1 E2 E3]; subst.
  - eapply refused_no; [exact P|exact Pl|exact A|]. exists n, y, b, s1. auto.
  - eapply refused_no; [exact P|exact Pl|exact A|]. exists (SN n), old', false, s1. split; [|auto]. rewrite input_step, bptr_yes by auto. unfold bbind at 1. rewrite El. unfold lift at 1, of_opt at 1, ret at 1. cbv beta iota.
    rewrite not_null by auto. unfold bbind at 1. rewrite E. reflexivity.
Qed.
End Slot.
