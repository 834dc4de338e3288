(** * C16: execution follows the document *)
From Coq Require Import String Arith NArith ZArith Bool List Lia.
From Verif Require Import Base Json JsonModel Ast Grammar RefParser RefGrammar ParserFacts ReqModel Schema ResModel EnvModel Samples Interp RunSim Facts Valid DocRun PropEnv Spec SpecDoc Regular.
Import ListNotations.
Open Scope N_scope.

(** What Spec.v prescribes is what [Resolve] answers, given enough steps; the world is the one that results
    from the prescribed calls, in the prescribed order. *)
Theorem C16_document_is_executed : forall W (X : externals W) S q d o op w ms w',
  regular S q d -> runs o d op -> operation X S (op_vars o) field_named d op w ms w' ->
  exists n, forall fuel vals, (n <= fuel)%nat ->
  exists vals', resolve X S fuel o vals w q = RDone (finish_of o (start_of o ++ render (x_float_json X) (TObj ms)) []) [] vals' w'.
Proof.
  intros W X S q d o op w ms w' [G N L K U P Ls] R H.
  destruct (operation_fwd X S d (op_vars o) K U P Ls op w ms w' (runs_in _ _ _ R) H) as (n & Hn). exists n. intros fuel vals Lf.
  destruct (Hn fuel Lf) as (s' & E & Ee & Ew). pose proof (resolve_doc W X S fuel o vals w q d op G N L R) as A. rewrite E in A. cbv zeta in A. rewrite Ee, Ew in A.
  destruct A as (v & A). exists v. rewrite A. rewrite render_obj. reflexivity.
Qed.
Print Assumptions C16_document_is_executed.

(** And nothing else is answered without an error. *)
Theorem C16_only_the_document_is_executed : forall W (X : externals W) S q d o op w fuel vals out vals' w',
  regular S q d -> runs o d op -> in_scope X S o d op fuel w ->
  resolve X S fuel o vals w q = RDone out [] vals' w' ->
  exists ms, operation X S (op_vars o) field_named d op w ms w' /\ out = finish_of o (start_of o ++ render (x_float_json X) (TObj ms)) [].
Proof.
  intros W X S q d o op w fuel vals out vals' w' [G N L K U P Ls] R Sc H.
  pose proof (resolve_doc W X S fuel o vals w q d op G N L R) as A. unfold in_scope in Sc.
  destruct (b_operation X S (op_vars o) d op fuel (s0 w)) as [[ms c] s'| | |] eqn:E; try contradiction.
  - cbv zeta in A. destruct A as (v & A). rewrite H in A. apply done_inj in A. destruct A as (Eo & Ee & _ & Ew).
    assert (Ee' : r_errs s' = []) by (destruct (r_errs s'); [reflexivity|discriminate Ee]).
    destruct (operation_bwd X S d (op_vars o) K U P Ls op w fuel ms c s' (runs_in _ _ _ R) E Ee') as [_ Op]. exists ms. subst w'. split; auto. rewrite Eo, Ee', render_obj. reflexivity.
  - rewrite H in A. discriminate.
  - rewrite H in A. discriminate.
Qed.
Print Assumptions C16_only_the_document_is_executed.

(** The response is determined. *)
Theorem C16_response_is_determined : forall W (X : externals W) S q d o op w ms1 w1 ms2 w2,
  regular S q d -> runs o d op -> operation X S (op_vars o) field_named d op w ms1 w1 -> operation X S (op_vars o) field_named d op w ms2 w2 ->
  ms1 = ms2 /\ w1 = w2.
Proof.
  intros W X S q d o op w ms1 w1 ms2 w2 [G N L K U P Ls] R H1 H2.
  destruct (operation_fwd X S d (op_vars o) K U P Ls op w ms1 w1 (runs_in _ _ _ R) H1) as (n1 & A).
  destruct (operation_fwd X S d (op_vars o) K U P Ls op w ms2 w2 (runs_in _ _ _ R) H2) as (n2 & B).
  destruct (A (max n1 n2) ltac:(lia)) as (s1 & E1 & _ & <-). destruct (B (max n1 n2) ltac:(lia)) as (s2 & E2 & _ & <-). rewrite E1 in E2. injection E2. intros; subst. auto.
Qed.
Print Assumptions C16_response_is_determined.

(** The hypotheses are met: a request with aliases, a fragment, an inline fragment, lists, resolvers with
    arguments and directives, and the response that Spec.v prescribes for it: each resolver was called once
    for each occurrence, in document order, with the written arguments. *)
Definition doc16 := q2 "query($v:Int){x:hello ...f all{name ...u} c:call(a:7 s:'t' id:'4') call @skip(if:true) me{friend{friend{name}} ... on User{__typename}}} fragment u on User{id} fragment f on Query{get(a:-8){name}}".
Definition op16 := nth 0 (parsed doc16) (DFrag [] [] []).
Example C16_case : regular sample_schema doc16 (parsed doc16) /\ runs no_opts (parsed doc16) op16 /\ in_scope sample_x sample_schema no_opts (parsed doc16) op16 1000 [] /\
  exists ms vals w, operation sample_x sample_schema (op_vars no_opts) field_named (parsed doc16) op16 [] ms w /\
    resolve sample_x sample_schema 1000 no_opts no_vals [] doc16 =
      RDone (q2 "{'data':{'x':'world','get':{'name':'got'},'all':[{'name':'x','id':'3'},{'name':'y','id':'4'}],'c':7,'me':{'friend':{'friend':null},'__typename':'User'}}}") [] vals w /\
    w = [(GMethod v_query 1, [GCtx; GStruct [(true, GInt W8 (-8)); (true, GString []); (true, GSlice None); (true, GInt W64 0)]], q2 ",'get'");
         (GMethod v_query 0, [GCtx; GStruct [(true, GInt W8 7); (true, GString (bs "t")); (true, GSlice None); (true, GInt W64 4)]], q2 ",'c'")].
Proof.
  assert (R : regular sample_schema doc16 (parsed doc16)) by (apply regularb_ok; vm_compute; reflexivity).
  assert (U : runs no_opts (parsed doc16) op16) by (apply runs_only; [vm_compute; reflexivity|vm_compute; auto]).
  assert (Sc : in_scope sample_x sample_schema no_opts (parsed doc16) op16 1000 []) by (intro H; vm_compute in H; discriminate).
  split; [exact R|]. split; [exact U|]. split; [exact Sc|].
  assert (E : exists vals, resolve sample_x sample_schema 1000 no_opts no_vals [] doc16 = RDone (q2 "{'data':{'x':'world','get':{'name':'got'},'all':[{'name':'x','id':'3'},{'name':'y','id':'4'}],'c':7,'me':{'friend':{'friend':null},'__typename':'User'}}}") [] vals
    [(GMethod v_query 1, [GCtx; GStruct [(true, GInt W8 (-8)); (true, GString []); (true, GSlice None); (true, GInt W64 0)]], q2 ",'get'");
     (GMethod v_query 0, [GCtx; GStruct [(true, GInt W8 7); (true, GString (bs "t")); (true, GSlice None); (true, GInt W64 4)]], q2 ",'c'")]) by (eexists; vm_compute; reflexivity).
  destruct E as (vals & E). destruct (C16_only_the_document_is_executed world sample_x sample_schema doc16 (parsed doc16) no_opts op16 [] 1000 no_vals _ vals _ R U Sc E) as (ms & Op & _). exists ms, vals. eexists. split; [exact Op|]. split; [exact E|reflexivity].
Qed.

(** Of a response with an error the statement is false: after an error in the arguments of a field the
    selections that follow it are not executed, and have no entry. *)
Theorem C16_after_an_error_refuted : exists q d op ss1 ss2 out es vals w,
  regular sample_schema q d /\ d = [op] /\ op = DOp OpQuery [] None [] (ss1 ++ SField None (bs "hello") [] None [] :: ss2) /\
  run sample_x sample_schema no_opts q = RDone out es vals w /\ es <> [] /\
  out = q2 "{'data':{'call':},'errors':[{'message':'undefined input: nope','path':['call']}],'extensions':{}}".
Proof.
  exists (bs "{call(nope:1) hello}"), (parsed (bs "{call(nope:1) hello}")). do 7 eexists. split; [apply regularb_ok; vm_compute; reflexivity|].
  split; [vm_compute; reflexivity|]. split; [vm_compute; instantiate (2 := [_]); reflexivity|]. split; [vm_compute; reflexivity|]. split; [discriminate|vm_compute; reflexivity].
Qed.
Print Assumptions C16_after_an_error_refuted.
