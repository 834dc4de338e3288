(** * Property C64: what a copy of a schema shares with it *)
From Coq Require Import String NArith ZArith Bool List Lia.
From Verif Require Import Base CopyModel CopySpec CopyProof.
Import ListNotations.
Open Scope N_scope.
Open Scope string_scope. Open Scope list_scope.

(** A schema with an object type that has a hidden field and a method with inputs, an enum with a description, a directive, and a
    context with a tracer; its cells have the addresses below 100 *)
Definition sample_in : rin := RIn 25 false 0 false false false 0 (bs "where") (Some (1, RIn 24 false 0 true false false 1 (bs "id") None false [] None)) false (bs "Where")
  (Some (2, [(bs "id", RIn 24 false 0 true false false 1 (bs "id") None false [] None)])).
Definition leaf (name : string) (at_ : N) (hid : bool) : robj := RObj 3 [] None [] [] (Some (at_, bs name)) hid false None None 0 None 24 None 0 None.
Definition sample_method : rmethod robj := RMethod false (bs "ResolveUser") 7 (Some (3, [RBase true None; RBase false (Some (4, 8))])) (Some (5, [(bs "where", (1%Z, sample_in))])) true 0%Z (leaf "user" 50 false) (Some (6, 1%Z)).
Definition sample_type (at_ : N) : robj := RObj 1 (bs "User") (Some (51, bs "User")) (bs "User") (bs "main") None false false
  (Some (at_, [(11, Some (at_ + 1, leaf "name" 52 false)); (12, Some (at_ + 2, leaf "secret" 53 true))])) (Some (54, 9)) 0 (Some (at_ + 3, leaf "inner" 55 false)) 0
  (Some (at_ + 4, sample_method)) 0 (Some (at_ + 5, [Some (at_ + 6, leaf "impl" 56 false)])).
Definition sample_enum : renum := REnum 1 24 (bs "Color") (Some (30, [REntry (Some (57, bs "RED")) (bs "RED") 1])) (RQl 4 (Some (31, bs "Color")) (Some (32, bs "")) None None None (Some 3) None None None).
Definition sample_dir : rdir := RDir (bs "skip") (Some (58, [1; 2])) 4 5 (Some (33, RMethod false [] 7 None None true 0%Z (leaf "" 59 false) None)) (bs "Skips").
Definition sample_ctx : rctx := RCtx 34 0 (Some 60) 35 None false 0 true 36 0 (bs "{}") true 37 (Some 38) 2 39 (Some 40).
Definition sample : rschema := RSchema true (Some (70, [(bs "User", Some (71, sample_type 10))])) (Some (72, [(bs "Where", Some (73, sample_in))])) None (Some (74, leaf "Query" 61 false)) 1 (Some (75, leaf "Mutation" 62 false)) 2 255
  (Some (76, [sample_enum])) (Some (77, [(1, Some (78, [Some (79, sample_dir)]))])) (Some (80, sample_ctx)) (Some (81, bs "{}")) (Some 82) (Some 83) (Some 84).
Definition sample_copy : rschema := match copy_schema_record sample 100 with Some (s, _) => s | None => sample end.

(** C64: a copy contains what the schema contains, at every depth, except for two things: no field is hidden in it, and its enums have
    no descriptions. *)
Theorem C64_content : forall s n s' n', copy_schema_record s n = Some (s', n') ->
  schema_content (fun hidden => hidden) (on_cell (fun text => text)) s' = schema_content (fun _ => false) (fun _ => None) s.
Proof. intros s n s' n' E. exact (proj1 (good_schema s n s' n' E)). Qed.
Print Assumptions C64_content.
Example C64_content_case : (exists n', copy_schema_record sample 100 = Some (sample_copy, n')) /\
  schema_content (fun hidden => hidden) (on_cell (fun text => text)) sample_copy <> schema_content (fun hidden => hidden) (on_cell (fun text => text)) sample.
Proof. split; [eexists; vm_compute; reflexivity|]. vm_compute. discriminate. Qed.

(** No cell that holds data of the copy is one of the original: all are new, and no two of them are the same. *)
Theorem C64_apart : forall s n s' n', copy_schema_record s n = Some (s', n') ->
  fresh n n' (schema_cells s') /\ (Forall (fun a => a < n) (schema_cells s ++ schema_shared s) -> forall a, In a (schema_cells s') -> ~ In a (schema_cells s ++ schema_shared s)).
Proof.
  intros s n s' n' E. destruct (good_schema s n s' n' E) as (_ & (_ & F) & _). split; [exact F|]. intros L a I1 I2. destruct F as (F & _). rewrite Forall_forall in F, L. specialize (F _ I1). specialize (L _ I2). lia.
Qed.
Print Assumptions C64_apart.
Example C64_apart_case : Forall (fun a => a < 100) (schema_cells sample ++ schema_shared sample) /\ length (schema_cells sample) = 41%nat /\ length (schema_cells sample_copy) = 36%nat.
Proof. split; [apply Forall_forall; intros a H; apply N.ltb_lt; revert a H; apply forallb_forall; vm_compute; reflexivity|]. split; vm_compute; reflexivity. Qed.

(** Two copies of one schema have no such cell in common either, nor have a copy and a copy of it. *)
Theorem C64_copies_apart : forall s n s1 n1 s2 n2, copy_schema_record s n = Some (s1, n1) -> (copy_schema_record s n1 = Some (s2, n2) \/ copy_schema_record s1 n1 = Some (s2, n2)) ->
  forall a, In a (schema_cells s1) -> ~ In a (schema_cells s2).
Proof.
  intros s n s1 n1 s2 n2 E1 E2 a I1 I2. destruct (good_schema _ _ _ _ E1) as (_ & (_ & F1 & _) & _).
  assert (F2 : Forall (fun a => n1 <= a < n2) (schema_cells s2)) by (destruct E2 as [E2|E2]; destruct (good_schema _ _ _ _ E2) as (_ & (_ & F & _) & _); exact F).
  rewrite Forall_forall in F1, F2. specialize (F1 _ I1). specialize (F2 _ I2). lia.
Qed.
Print Assumptions C64_copies_apart.
Example C64_copies_apart_case : exists n1 s2 n2, copy_schema_record sample 100 = Some (sample_copy, n1) /\ copy_schema_record sample n1 = Some (s2, n2).
Proof. do 3 eexists. split; vm_compute; reflexivity. Qed.

(** A copy refers to the same arrays of bytes of names, places of directives and Go values of introspection, and to no others. *)
Theorem C64_shared : forall s n s' n', copy_schema_record s n = Some (s', n') -> schema_shared s' = schema_shared s.
Proof. intros s n s' n' E. exact (proj1 (proj2 (proj2 (good_schema s n s' n' E)))). Qed.
Print Assumptions C64_shared.
Example C64_shared_case : schema_shared sample_copy = [51; 54; 55; 50; 52; 53; 56; 57; 58; 59; 61; 62].
Proof. vm_compute. reflexivity. Qed.

(** What a copy has lost is lost at the first copy: a copy can always be copied again, and its copies contain what it contains. *)
Theorem C64_again : forall s n s1 n1 m, copy_schema_record s n = Some (s1, n1) ->
  exists s2 n2, copy_schema_record s1 m = Some (s2, n2) /\
    schema_content (fun hidden => hidden) (on_cell (fun text => text)) s2 = schema_content (fun hidden => hidden) (on_cell (fun text => text)) s1.
Proof.
  intros s n s1 n1 m E1. destruct (copy_schema_record s1 m) as [[s2 n2]|] eqn:E2; [|exfalso; eapply copied_again; eauto]. exists s2, n2. split; [reflexivity|].
  rewrite (C64_content _ _ _ _ E2), (C64_content _ _ _ _ E1).
  transitivity (schema_content (fun _ => false) (fun _ => None) (schema_content (fun hidden => hidden) (on_cell (fun text => text)) s1)).
  - rewrite schema_twice. reflexivity.
  - rewrite (C64_content _ _ _ _ E1). rewrite schema_twice. reflexivity.
Qed.
Print Assumptions C64_again.
Example C64_again_case : exists n1 s2 n2, copy_schema_record sample 100 = Some (sample_copy, n1) /\ copy_schema_record sample_copy 1000 = Some (s2, n2).
Proof. do 3 eexists. split; vm_compute; reflexivity. Qed.

(** Copying panics exactly for a schema that is not parsed, and where an enum (or a type it refers to) has a description but no name. *)
Theorem C64_panics : forall s n, copy_schema_record s n = None <-> s_parsed s = false \/ (exists a l e, s_definedEnums s = Some (a, l) /\ In e l /\ ql_named (e_qlType e) = false).
Proof. exact schema_none. Qed.
Print Assumptions C64_panics.
Example C64_panics_case : ql_named (RQl 4 None (Some (1, bs "text")) None None None None None None None) = false /\ ql_named (e_qlType sample_enum) = true.
Proof. split; vm_compute; reflexivity. Qed.

(** The tracer of a copy is that of the schema, for every schema with a context: of the cells that requests write to, this one is shared. *)
Theorem C64_tracer : forall s n s' n', copy_schema_record s n = Some (s', n') -> tracer_of s' = tracer_of s.
Proof. intros s n s' n' E. exact (proj2 (proj2 (proj2 (good_schema s n s' n' E)))). Qed.
Print Assumptions C64_tracer.
(** REFUTED: a request to a copy writes to no cell that a request to the original writes to. *)
Definition request_cells (s : rschema) : list N := opt (tracer_of s) ++ schema_cells s.
Theorem C64_tracer_refuted : exists s n s' n', copy_schema_record s n = Some (s', n') /\ Forall (fun a => a < n) (request_cells s ++ schema_shared s) /\
  exists a, In a (request_cells s) /\ In a (request_cells s').
Proof.
  exists sample, 100, sample_copy. eexists. split; [vm_compute; reflexivity|]. split; [apply Forall_forall; intros a H; apply N.ltb_lt; revert a H; apply forallb_forall; vm_compute; reflexivity|].
  exists 36. split; left; reflexivity.
Qed.
Print Assumptions C64_tracer_refuted.
(** it is the only one *)
Theorem C64_only_tracer : forall s n s' n', copy_schema_record s n = Some (s', n') -> Forall (fun a => a < n) (request_cells s) ->
  forall a, In a (request_cells s) -> In a (request_cells s') -> tracer_of s = Some a.
Proof.
  intros s n s' n' E L a I1 I2. unfold request_cells in I2. apply in_app_or in I2. destruct I2 as [I2|I2].
  - rewrite (C64_tracer _ _ _ _ E) in I2. destruct (tracer_of s); [|destruct I2]. destruct I2 as [<-|[]]. reflexivity.
  - destruct (C64_apart _ _ _ _ E) as ((F & _) & _). rewrite Forall_forall in F, L. specialize (F _ I2). specialize (L _ I1). lia.
Qed.
Print Assumptions C64_only_tracer.
Example C64_only_tracer_case : tracer_of sample = Some 36 /\ In 36 (request_cells sample) /\ In 36 (request_cells sample_copy).
Proof. split; [reflexivity|]. split; left; reflexivity. Qed.

(** A copy starts without the data of requests: no Go context, no values and no parsed variables, no introspection caches, a result of
    the same length that is all zeros; whether tracing is on stays as it was. *)
Definition no_request (s : rschema) : Prop :=
  s_graphqlTypesMap s = None /\ s_graphqlTypesList s = None /\ (forall a l, s_result s = Some (a, l) -> forall x, In x l -> x = 0) /\
  forall a c, s_ctx s = Some (a, c) -> c_context c = None /\ c_values c = None /\ c_variables c = None /\ c_variablesParsed c = false /\ c_currentReflectValueIdx c = 0.
Theorem C64_state : forall s n s' n', copy_schema_record s n = Some (s', n') -> no_request s' /\
  (exists a l, s_result s' = Some (a, l) /\ length l = match s_result s with None => 0%nat | Some (_, r) => length r end) /\
  match s_ctx s, s_ctx s' with None, None => True | Some (_, c), Some (_, c') => c_tracingEnabled c' = c_tracingEnabled c | _, _ => False end.
Proof.
  intros s n s' n' E. unfold copy_schema_record in E. destruct (s_parsed s); cbn [negb] in E; [|discriminate].
  destruct (copy_map (copy_cell copy_obj) (s_types s) n) as [ty' n1]. destruct (copy_map (copy_cell copy_obj) (s_interfaces s) n1) as [itf' n2].
  destruct (copy_opt_list copy_enum (match s_definedEnums s with None => [] | Some (_, l) => l end) (n2 + 1)) as [[en n3]|]; [|discriminate].
  destruct (copy_map (copy_made (copy_cell copy_dir)) (s_definedDirectives s) n3) as [di' n4]. destruct (copy_map (copy_cell copy_in) (s_inTypes s) n4) as [it' n5]. destruct (copy_cell copy_obj (s_rootQuery s) n5) as [rq' n6]. destruct (copy_cell copy_obj (s_rootMethod s) n6) as [rm' n7].
  destruct (copy_cell copy_ctx (s_ctx s) (n7 + 2)) as [cx n8] eqn:C. injection E as <- <-. unfold no_request. cbn [s_graphqlTypesMap s_graphqlTypesList s_result s_ctx].
  assert (X : match s_ctx s, cx with None, None => True | Some (_, c), Some (_, c') => exists m, c' = fst (copy_ctx c m) | _, _ => False end).
  { destruct (s_ctx s) as [[a c]|]; cbn [copy_cell] in C; [|injection C as <- <-; exact I]. destruct (copy_ctx c (n7 + 2 + 1)) as [c' m] eqn:D. injection C as <- <-. exists (n7 + 2 + 1). now rewrite D. }
  split; [split; [reflexivity|]; split; [reflexivity|]; split|split].
  - intros a l E x I1. injection E as <- <-. destruct (s_result s) as [[a r]|]; [|destruct I1]. now apply repeat_spec in I1.
  - intros a c E. subst cx. destruct (s_ctx s) as [[a0 c0]|]; [|destruct X]. destruct X as (m & ->). cbn. auto.
  - eexists; eexists. split; [reflexivity|]. destruct (s_result s) as [[a r]|]; [apply repeat_length|reflexivity].
  - destruct (s_ctx s) as [[a c]|], cx as [[a' c']|]; try exact X. destruct X as (m & ->). reflexivity.
Qed.
Print Assumptions C64_state.
Example C64_state_case : (exists n', copy_schema_record sample 100 = Some (sample_copy, n')) /\ ~ no_request sample.
Proof. split; [eexists; vm_compute; reflexivity|]. intros (H & _). discriminate. Qed.
