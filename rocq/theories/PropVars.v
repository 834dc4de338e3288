(** * Property C28: variables *)
From Coq Require Import String Arith NArith ZArith Bool List Lia.
From Verif Require Import Base Json JsonModel Ast Grammar ReqModel Schema ResModel EnvModel Samples Interp Facts DocRun Spec SpecLit SpecVal ArgRun PropArgs.
Import ListNotations.
Open Scope N_scope.

(** the type that a variable for an argument must have in GraphQL *)
Inductive right_type (S : schema) : input -> tyref -> Prop :=
| rt_enum : forall i k e nn, i_enum i = Some k -> nth_error (s_enums S) k = Some e -> right_type S i (TyName (en_name e) nn)
| rt_id : forall i nn, i_enum i = None -> i_isid i = true -> right_type S i (TyName (bs "ID") nn)
| rt_file : forall i nn, i_enum i = None -> i_isid i = false -> i_isfile i = true -> right_type S i (TyName (bs "File") nn)
| rt_time : forall i nn, i_enum i = None -> i_isid i = false -> i_isfile i = false -> i_istime i = true -> right_type S i (TyName (bs "Time") nn)
| rt_bool : forall i nn, ~ special i -> i_kind i = KBool -> right_type S i (TyName (bs "Boolean") nn)
| rt_int : forall i k nn, ~ special i -> i_kind i = KInt k \/ i_kind i = KUint k -> right_type S i (TyName (bs "Int") nn)
| rt_float : forall i k nn, ~ special i -> i_kind i = KFloat k -> right_type S i (TyName (bs "Float") nn)
| rt_string : forall i nn, ~ special i -> i_kind i = KString -> right_type S i (TyName (bs "String") nn)
| rt_struct : forall i nn, ~ special i -> i_kind i = KStruct -> right_type S i (TyName (i_structname i) nn)
| rt_list : forall i e t nn, i_kind i = KSlice -> i_elem i = Some e -> right_type S e t -> right_type S i (TyList t nn).
(** what the code accepts besides: any type name for a boolean; String for enums, IDs, files and times; the
    name List for lists *)
Inductive lenient : input -> tyref -> Prop :=
| le_bool : forall i n nn, ~ special i -> i_kind i = KBool -> lenient i (TyName n nn)
| le_string : forall i nn, special i -> lenient i (TyName (bs "String") nn)
| le_list : forall i nn, ~ special i -> i_kind i = KSlice \/ i_kind i = KArray -> lenient i (TyName (bs "List") nn)
| le_elem : forall i e t nn, i_kind i = KSlice -> i_elem i = Some e -> lenient e t -> lenient i (TyList t nn).
Lemma right_fits : forall S i t, right_type S i t -> type_fits S i t.
Proof.
  intros S i t H. induction H.
  - apply tf_name. eapply nf_enum; eauto. left; auto.
  - apply tf_name. apply nf_id; auto. left; auto.
  - apply tf_name. apply nf_file; auto. left; auto.
  - apply tf_name. apply nf_time; auto. left; auto.
  - apply tf_name. apply nf_kind; auto. rewrite H0. exact Logic.I.
  - apply tf_name. apply nf_kind; auto. destruct H0 as [-> | ->]; reflexivity.
  - apply tf_name. apply nf_kind; auto. rewrite H0. reflexivity.
  - apply tf_name. apply nf_kind; auto. rewrite H0. reflexivity.
  - apply tf_name. apply nf_kind; auto. rewrite H0. reflexivity.
  - eapply tf_list; eauto.
Qed.
Lemma lenient_fits : forall S i t, input_fine S i -> lenient i t -> type_fits S i t.
Proof.
  intros S i t F H. induction H.
  - apply tf_name. apply nf_kind; auto. rewrite H0. exact Logic.I.
  - apply tf_name. destruct (i_enum i) as [k|] eqn:En.
    + destruct (F i (eo_self i)) as [_ Fe]. specialize (Fe k En). destruct (nth_error (s_enums S) k) as [e|] eqn:Ee; [|contradiction]. eapply nf_enum; eauto. right; left; auto.
    + destruct (i_isid i) eqn:E1; [apply nf_id; auto; right; left; auto|]. destruct (i_isfile i) eqn:E2; [apply nf_file; auto; right; left; auto|]. destruct (i_istime i) eqn:E3; [apply nf_time; auto; right; left; auto|].
      exfalso. destruct H as [H|[H|[H|H]]]; congruence.
  - apply tf_name. apply nf_kind; auto. destruct H0 as [-> | ->]; reflexivity.
  - eapply tf_list; eauto. apply IHlenient. intros j Hj. apply F. eapply eo_elem; eauto.
Qed.
Lemma fits_right : forall S i t, type_fits S i t -> right_type S i t \/ lenient i t.
Proof.
  intros S i t H. induction H as [i n nn F|i e t nn K E _ IH].
  - inversion F as [i' k e n' En Ee O|i' n' En Id O|i' n' En Id Fi O|i' n' En Id Fi Ti O|i' n' Ns M]; subst.
    + destruct O as [<-|[<-|[]]]; [left; eapply rt_enum; eauto|right; apply le_string; left; congruence].
    + destruct O as [<-|[<-|[]]]; [left; now apply rt_id|right; apply le_string; right; left; auto].
    + destruct O as [<-|[<-|[]]]; [left; now apply rt_file|right; apply le_string; right; right; left; auto].
    + destruct O as [<-|[<-|[]]]; [left; now apply rt_time|right; apply le_string; right; right; right; auto].
    + destruct (i_kind i) eqn:K; try contradiction; subst.
      * right; now apply le_bool.
      * left; eapply rt_int; eauto.
      * left; eapply rt_int; eauto.
      * left; eapply rt_float; eauto.
      * left; now apply rt_string.
      * right; apply le_list; auto.
      * right; apply le_list; auto.
      * left; now apply rt_struct.
  - destruct IH as [R|L]; [left; eapply rt_list; eauto|right; eapply le_elem; eauto].
Qed.

Section C28.
Context {W : Type} (X : externals W) (S : schema) (o : ropts) (decls : option (list oparg)).
Context (f : bytes) (ins : list (option gval)) (infs : list (bytes * (nat * input))) (seen : W -> list gval -> W).
(** the value in the JSON variables is used if there is one *)
Theorem C28_value : forall a i old wr v d j y q w,
  probe X S f ins infs seen -> slot ins infs a i old wr -> asks o decls f [(a, VVar v)] q ->
  declared decls v = Some d -> right_type S i (oa_type d) -> jvar X (op_vars o) v (Some j) ->
  json_sets X S w (false, old) i j w y true ->
  received X S o seen q w (args_with ins infs a (wr y)).
Proof.
  intros a i old wr v d j y q w P Sl A D T J H. eapply slot_received; eauto; [discriminate|]. eapply ls_var; eauto; [eapply slot_direct; eauto|now apply right_fits].
Qed.
(** otherwise the default value *)
Theorem C28_default : forall a i old wr v d x y q w,
  probe X S f ins infs seen -> slot ins infs a i old wr -> asks o decls f [(a, VVar v)] q ->
  declared decls v = Some d -> right_type S i (oa_type d) -> jvar X (op_vars o) v None -> oa_default d = Some x ->
  lit_sets X S (op_vars o) decls false w (false, old) i x w y true ->
  received X S o seen q w (args_with ins infs a (wr y)).
Proof.
  intros a i old wr v d x y q w P Sl A D T J E H. eapply slot_received; eauto; [discriminate|]. eapply ls_default; eauto; [eapply slot_direct; eauto|now apply right_fits].
Qed.
(** without a value and a default it is refused *)
Theorem C28_no_value : forall a i old wr v d q w,
  probe X S f ins infs seen -> slot ins infs a i old wr -> asks o decls f [(a, VVar v)] q ->
  declared decls v = Some d -> right_type S i (oa_type d) -> jvar X (op_vars o) v None -> oa_default d = None ->
  refused X S o q w.
Proof.
  intros a i old wr v d q w P Sl A D T J E. eapply slot_refused; eauto; [discriminate|].
  destruct (no_value X S (op_vars o) decls (false, old) i v d w (slot_direct _ _ _ _ _ _ Sl) D (right_fits _ _ _ T) J E) as (n & N). exists n. apply N; [apply at_f_fine|reflexivity].
Qed.
(** an undeclared variable is refused *)
Theorem C28_undeclared : forall a i old wr v q w,
  probe X S f ins infs seen -> slot ins infs a i old wr -> asks o decls f [(a, VVar v)] q -> declared decls v = None -> refused X S o q w.
Proof.
  intros a i old wr v q w P Sl A D. eapply slot_refused; eauto; [discriminate|]. eexists. apply no_undeclared; auto. eapply slot_direct; eauto.
Qed.
(** a variable of another type is refused, except for what [lenient] says *)
Theorem C28_other_type_partial : forall a i old wr v d q w,
  probe X S f ins infs seen -> slot ins infs a i old wr -> input_fine S i -> asks o decls f [(a, VVar v)] q ->
  declared decls v = Some d -> ~ right_type S i (oa_type d) -> ~ lenient i (oa_type d) -> refused X S o q w.
Proof.
  intros a i old wr v d q w P Sl F A D T L. eapply slot_refused; eauto; [discriminate|].
  destruct (no_type X S (op_vars o) decls (false, old) i v d (slot_direct _ _ _ _ _ _ Sl) F D) as (n & N); [intro H; apply fits_right in H; tauto|]. exists n. apply N.
Qed.
(** what [lenient] says is taken like the right type *)
Theorem C28_lenient : forall a i old wr v d j y q w,
  probe X S f ins infs seen -> slot ins infs a i old wr -> input_fine S i -> asks o decls f [(a, VVar v)] q ->
  declared decls v = Some d -> lenient i (oa_type d) -> jvar X (op_vars o) v (Some j) ->
  json_sets X S w (false, old) i j w y true ->
  received X S o seen q w (args_with ins infs a (wr y)).
Proof.
  intros a i old wr v d j y q w P Sl F A D T J H. eapply slot_received; eauto; [discriminate|]. eapply ls_var; eauto; [eapply slot_direct; eauto|now apply lenient_fits].
Qed.
(** variables that are not a JSON object are refused *)
Theorem C28_no_object : forall a i old wr v d q w,
  probe X S f ins infs seen -> slot ins infs a i old wr -> asks o decls f [(a, VVar v)] q ->
  declared decls v = Some d -> right_type S i (oa_type d) -> op_vars o <> [] -> (forall m, x_parse X (op_vars o) <> inl (FObject m)) ->
  refused X S o q w.
Proof.
  intros a i old wr v d q w P Sl A D T N B. eapply slot_refused; eauto; [discriminate|].
  destruct (no_variables X S (op_vars o) decls (false, old) i v d w (slot_direct _ _ _ _ _ _ Sl) D (right_fits _ _ _ T) N B) as (n & Nn). exists n. apply Nn; reflexivity.
Qed.
End C28.
Print Assumptions C28_value.
Print Assumptions C28_default.
Print Assumptions C28_no_value.
Print Assumptions C28_undeclared.
Print Assumptions C28_other_type_partial.
Print Assumptions C28_lenient.
Print Assumptions C28_no_object.

(** ** Cases: a string argument *)
Definition str_in : input := inp KString 0 (GString []).
Definition bool_in : input := inp KBool 0 (GBool false).
Definition var_q (ty : string) : bytes := ask_var_text (bs "f") (bs "a") (bs "v") (bs ty).
Definition decl_of (ty : string) : oparg := OpArg (bs "v") (TyName (bs ty) false) None.
Lemma plain_str : ~ special str_in. Proof. intros [H|[H|[H|H]]]; try discriminate; now apply H. Qed.
Lemma plain_bool : ~ special bool_in. Proof. intros [H|[H|[H|H]]]; try discriminate; now apply H. Qed.
Lemma fine_str : forall S, input_fine S str_in. Proof. intros S j H. inversion H as [|i e j' E Hj]; subst; [split; discriminate|discriminate]. Qed.
Lemma fine_bool : forall S, input_fine S bool_in. Proof. intros S j H. inversion H as [|i e j' E Hj]; subst; [split; discriminate|discriminate]. Qed.
Lemma has_v : forall j, jvar (note_x (FObject [(bs "v", j)])) (op_vars with_vars) (bs "v") (Some j).
Proof. intro j. apply (jv_some (note_x (FObject [(bs "v", j)])) (op_vars with_vars) (bs "v") [(bs "v", j)]); [discriminate|reflexivity]. Qed.
Lemma has_no_v : jvar (note_x (FObject [])) (op_vars with_vars) (bs "v") None.
Proof. apply (jv_some (note_x (FObject [])) (op_vars with_vars) (bs "v") []); [discriminate|reflexivity]. Qed.
(** a default value in the text: query($v:String= "d"){f(a:$v)} *)
Definition dflt_q : bytes := q2 "query($v:String='d'){f(a:$v)}".
Definition dflt_decl : oparg := OpArg (bs "v") (TyName (bs "String") false) (Some (VStr (bs "d"))).
Lemma dflt_asks : asks with_vars (Some [dflt_decl]) (bs "f") [(bs "a", VVar (bs "v"))] dflt_q.
Proof.
  exists [DOp OpQuery [] (Some [dflt_decl]) [] [SField None (bs "f") [] (Some [(bs "a", VVar (bs "v"))]) []]], []. split; [|split; [|split]].
  - eapply gdoc_more with (r := []); [|now apply gdoc_end].
    apply (gdef_op OpQuery [] (Some [dflt_decl]) [] _ (q2 "($v:String='d'){f(a:$v)}") (q2 "($v:String='d'){f(a:$v)}") (bs "{f(a:$v)}") (bs "f(a:$v)}") []).
    + vm_compute. apply gon_none. unfold is_letter. lia.
    + apply (goo_some _ (q2 "$v:String='d'){f(a:$v)}") [dflt_decl] (bs "{f(a:$v)}")); [reflexivity|].
      eapply (gop_more _ (q2 "v:String='d'){f(a:$v)}") (bs "v") (q2 ":String='d'){f(a:$v)}") (q2 "String='d'){f(a:$v)}") (TyName (bs "String") false) (q2 "='d'){f(a:$v)}") (Some (VStr (bs "d"))) (bs "){f(a:$v)}")); try reflexivity.
      * vm_compute; apply (g_name_intro [118]); [vname|unfold is_name_char, is_letter, is_digit; lia].
      * apply (gt_name (bs "String") _ (q2 "='d'){f(a:$v)}")); [vm_compute; apply (g_name_intro [83; 116; 114; 105; 110; 103]); [vname|unfold is_name_char, is_letter, is_digit; lia]|reflexivity|discriminate].
      * apply (gdf_some _ (q2 "'d'){f(a:$v)}")); [reflexivity|]. eapply gv_str; [reflexivity|]. apply g_string_plain; [intros (r & E); discriminate|].
        apply gc_plain; [cbv; intuition discriminate|]. apply gc_end.
      * apply gop_end. reflexivity.
    + apply gd_none; [reflexivity|discriminate].
    + cbv; lia.
    + apply (sel_text (bs "f") (bs "a") (bs "$v")); [apply f_name|apply a_name|]. apply (gv_var _ (bs "v)}")); [reflexivity|]. vm_compute; apply (g_name_intro [118]); [vname|unfold is_name_char, is_letter, is_digit; lia].
  - constructor; [|constructor]. cbn. split; [constructor; [|constructor]; cbn; intuition discriminate|]. repeat split; auto.
  - reflexivity.
  - exists [], []. split; [reflexivity|]. split; [exact Logic.I|constructor].
Qed.
Example C28_case :
  received (note_x (FObject [(bs "v", FString (bs "x"))])) (one_schema str_in (GString [])) with_vars note dflt_q [] [GStruct [(true, GString (bs "x"))]] /\
  received (note_x (FObject [])) (one_schema str_in (GString [])) with_vars note dflt_q [] [GStruct [(true, GString (bs "d"))]] /\
  refused (note_x (FObject [])) (one_schema str_in (GString [])) with_vars (var_q "String") [] /\
  refused (note_x (FObject [(bs "v", FString (bs "x"))])) (one_schema str_in (GString [])) with_vars (bs "{f(a:$v)}") [] /\
  refused (note_x (FObject [(bs "v", FString (bs "x"))])) (one_schema str_in (GString [])) with_vars (var_q "Int") [] /\
  refused (note_x (FArray [])) (one_schema str_in (GString [])) with_vars (var_q "String") [].
Proof.
  assert (Rt : right_type (one_schema str_in (GString [])) str_in (TyName (bs "String") false)) by (apply rt_string; [apply plain_str|reflexivity]).
  split; [|split; [|split; [|split; [|split]]]].
  - apply (C28_value (note_x (FObject [(bs "v", FString (bs "x"))])) (one_schema str_in (GString [])) with_vars (Some [dflt_decl]) (bs "f") (one_ins (GString [])) (one_infs str_in) note (bs "a") str_in (GString []) (fun v => v) (bs "v") dflt_decl (FString (bs "x")) (GString (bs "x")) dflt_q []
      (one_probe _ _ _) (one_slot str_in _ eq_refl eq_refl) dflt_asks eq_refl Rt (has_v _)). apply js_string; [reflexivity|apply plain_str|]. now apply ss_string.
  - apply (C28_default (note_x (FObject [])) (one_schema str_in (GString [])) with_vars (Some [dflt_decl]) (bs "f") (one_ins (GString [])) (one_infs str_in) note (bs "a") str_in (GString []) (fun v => v) (bs "v") dflt_decl (VStr (bs "d")) (GString (bs "d")) dflt_q []
      (one_probe _ _ _) (one_slot str_in _ eq_refl eq_refl) dflt_asks eq_refl Rt has_no_v eq_refl). apply ls_str; [reflexivity|]. now apply ss_string.
  - apply (C28_no_value (note_x (FObject [])) (one_schema str_in (GString [])) with_vars (Some [decl_of "String"]) (bs "f") (one_ins (GString [])) (one_infs str_in) note (bs "a") str_in (GString []) (fun v => v) (bs "v") (decl_of "String") (var_q "String") []
      (one_probe _ _ _) (one_slot str_in _ eq_refl eq_refl) (var_asks (bs "String") ltac:(vname)) eq_refl Rt has_no_v eq_refl).
  - apply (C28_undeclared (note_x (FObject [(bs "v", FString (bs "x"))])) (one_schema str_in (GString [])) with_vars None (bs "f") (one_ins (GString [])) (one_infs str_in) note (bs "a") str_in (GString []) (fun v => v) (bs "v") (bs "{f(a:$v)}") []
      (one_probe _ _ _) (one_slot str_in _ eq_refl eq_refl)); [|reflexivity]. apply (asks_text with_vars (bs "f") (bs "a") (bs "$v") (VVar (bs "v"))); [apply f_name|apply a_name|reflexivity| |exact Logic.I|reflexivity].
    apply (gv_var _ (bs "v)}")); [reflexivity|]. vm_compute; apply (g_name_intro [118]); [vname|unfold is_name_char, is_letter, is_digit; lia].
  - apply (C28_other_type_partial (note_x (FObject [(bs "v", FString (bs "x"))])) (one_schema str_in (GString [])) with_vars (Some [decl_of "Int"]) (bs "f") (one_ins (GString [])) (one_infs str_in) note (bs "a") str_in (GString []) (fun v => v) (bs "v") (decl_of "Int") (var_q "Int") []
      (one_probe _ _ _) (one_slot str_in _ eq_refl eq_refl) (fine_str _) (var_asks (bs "Int") ltac:(vname)) eq_refl); intro H; inversion H; subst; try discriminate.
    match goal with K : i_kind _ = _ \/ _ |- _ => destruct K; discriminate end.
  - apply (C28_no_object (note_x (FArray [])) (one_schema str_in (GString [])) with_vars (Some [decl_of "String"]) (bs "f") (one_ins (GString [])) (one_infs str_in) note (bs "a") str_in (GString []) (fun v => v) (bs "v") (decl_of "String") (var_q "String") []
      (one_probe _ _ _) (one_slot str_in _ eq_refl eq_refl) (var_asks (bs "String") ltac:(vname)) eq_refl Rt); [discriminate|]. intros m H. discriminate.
Qed.
(** a boolean argument takes a variable of any declared type *)
Theorem C28_other_type_refuted : exists i ty, ~ right_type (one_schema i (i_zero i)) i (TyName (bs ty) false) /\
  received (note_x (FObject [(bs "v", FTrue)])) (one_schema i (i_zero i)) with_vars note (var_q ty) [] [GStruct [(true, GBool true)]].
Proof.
  exists bool_in, "Float"%string. split.
  - intro H. inversion H; subst; try discriminate.
  - apply (C28_lenient (note_x (FObject [(bs "v", FTrue)])) (one_schema bool_in (GBool false)) with_vars (Some [decl_of "Float"]) (bs "f") (one_ins (GBool false)) (one_infs bool_in) note (bs "a") bool_in (GBool false) (fun v => v) (bs "v") (decl_of "Float") FTrue (GBool true) (var_q "Float") []
      (one_probe _ _ _) (one_slot bool_in _ eq_refl eq_refl) (fine_bool _) (var_asks (bs "Float") ltac:(vname)) eq_refl); [apply le_bool; [apply plain_bool|reflexivity]|apply has_v|]. apply js_true; [reflexivity|apply plain_bool].
Qed.
Print Assumptions C28_other_type_refuted.
