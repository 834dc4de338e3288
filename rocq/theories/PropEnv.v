(** * Properties of Resolve as a whole: rejected queries (C05), the choice of the operation (C08),
    the errors in the response (C15) and the independence of requests (C30) *)
From Coq Require Import String Arith NArith ZArith Bool List Lia.
From Verif Require Import Base Json JsonModel JsonProof Ast Grammar RefParser RefGrammar ParserModel ParserSafe ParserFacts CacheModel CacheProof
  ReqModel Schema ResModel EnvModel HistModel Samples Interp OpSim DocRun Indep Grow.
Import ListNotations.
Open Scope N_scope.

(** ** C05: a rejected query is not executed *)
(** [W] is everything the user's code can observe or change and [X] all of the user's code: the world is
    returned unchanged, so no user code has run. *)
Theorem C05_rejected_query_is_not_executed : forall W (X : externals W) S fuel o vals w q,
  (~ exists d, g_doc d q) ->
  exists es text, resolve X S fuel o vals w q = RDone text es vals w /\
    es <> [] /\ Forall (fun e => exists p, e = EParse p) es /\
    (op_nometa o = true -> text = bs "{}") /\
    (op_nometa o = false -> exists rest, text = q2 "{'data':{},'errors':[" ++ rest).
Proof.
  intros W X S fuel o vals w q H. destruct (rejected q (target_of o) H) as (s & P & E).
  unfold resolve. rewrite P. unfold resolve_parsed. destruct (p_errs s) as [|e es] eqn:Es; [contradiction|].
  do 2 eexists. split; [reflexivity|]. split; [discriminate|]. split.
  - apply Forall_forall. intros x I. apply in_map_iff in I. destruct I as (p & <- & _). eauto.
  - split; intros ->; [reflexivity|]. cbn [map]. unfold envelope_end. rewrite <- !app_assoc.
    destruct (op_trace o); eexists; reflexivity.
Qed.
Print Assumptions C05_rejected_query_is_not_executed.

(** the same said about the parser: whenever it reports an error *)
Theorem C05_parser_error_means_no_execution : forall W (X : externals W) S fuel o vals w q s,
  parse_query q (target_of o) = Parsed s -> p_errs s <> [] ->
  exists text, resolve X S fuel o vals w q = RDone text (map EParse (p_errs s)) vals w /\
    (op_nometa o = true -> text = bs "{}") /\
    (op_nometa o = false -> exists rest, text = q2 "{'data':{},'errors':[" ++ rest).
Proof.
  intros W X S fuel o vals w q s P E.
  unfold resolve. rewrite P. unfold resolve_parsed. destruct (p_errs s) as [|e es] eqn:Es; [contradiction|].
  eexists. split; [reflexivity|].
  split; intros ->; [reflexivity|]. cbn [map]. unfold envelope_end. rewrite <- !app_assoc.
  destruct (op_trace o); eexists; reflexivity.
Qed.
Print Assumptions C05_parser_error_means_no_execution.

(** a query that starts well, with two resolvers in it, and then goes wrong; without the last brace it would be run *)
Example C05_case :
  (~ exists d, g_doc d (bs "{call get{name}}}")) /\ texts (run sample_x sample_schema no_opts (bs "{call get{name}}}")) =
    Some (string_of_list_ascii (map Ascii.ascii_of_N (q2 "{'data':{},'errors':[{'message':'expected query, mutation, subscription or a simple query (\'{...}\') but got \'}\'','locations':[{'line':1,'column':16}]}],'extensions':{}}")), 0%nat)
  /\ option_map snd (texts (run sample_x sample_schema no_opts (bs "{call get{name}}"))) = Some 2%nat.
Proof.
  split; [|vm_compute; split; reflexivity]. intros (d & G). apply ref_parse_spec in G.
  assert (E : ref_parse (bs "{call get{name}}}") = None) by (vm_compute; reflexivity). rewrite E in G. discriminate.
Qed.

(** ** C08: which operation is executed *)
(** no operation with the name: an error, empty data, and no user code runs *)
Theorem C08_no_such_operation : forall W (X : externals W) S fuel o vals w q d,
  g_doc d q -> Forall (fun x => ~ selected (target_of o) x) d ->
  exists text m, resolve X S fuel o vals w q = RDone text [ERun (RErr m None)] vals w /\
    (op_nometa o = true -> text = bs "{}") /\
    (op_nometa o = false -> exists rest, text = q2 "{'data':{},'errors':[" ++ rest).
Proof.
  intros W X S fuel o vals w q d G F.
  destruct (denotes_accepted q (target_of o) d G) as (s & P & E & R & Fr & T).
  pose proof (target_chosen q (target_of o) d s G P) as C. destruct (p_tgt s) as [n|] eqn:Tg.
  { exfalso. destruct C as (d1 & x & d2 & -> & Sx & _). apply Forall_app in F. destruct F as [_ F]. inversion F; subst. contradiction. }
  unfold resolve. rewrite P. unfold resolve_parsed. rewrite E, Tg. do 2 eexists. split; [reflexivity|].
  split; intros ->; [reflexivity|]. unfold envelope_end. rewrite <- !app_assoc. destruct (op_trace o); eexists; reflexivity.
Qed.
Print Assumptions C08_no_such_operation.

(** The executed operation is the last one with the wanted name ([runs], DocRun.v): the answer is the same
    as for any other document in which that operation is the executed one and which has the same fragments;
    in particular for the document of that operation alone.  [in_scope]: the run stays inside the part of
    the interpreter that Interp.v describes. *)
Definition fragments_of (d : document) : document := filter (fun x => match x with DFrag _ _ _ => true | _ => false end) d.
Definition in_scope {W} (X : externals W) (S : schema) (o : ropts) (d : document) (op : definition) (fuel : nat) (w : W) : Prop :=
  b_operation X S (op_vars o) d op fuel (s0 w) <> BOut.
Lemma fragments_only : forall d d', fragments_of d = fragments_of d' -> frag_defs d = frag_defs d'.
Proof.
  assert (H : forall d, frag_defs d = frag_defs (fragments_of d)).
  { induction d as [|[] d IH]; auto. cbn. unfold frag_defs in *. cbn. f_equal. exact IH. }
  intros d d' E. rewrite (H d), (H d'), E. reflexivity.
Qed.
Theorem C08_last_selected_operation_is_executed : forall W (X : externals W) S fuel o o' vals w q q' d d' op,
  g_doc d q -> nul_free d -> N.of_nat (length (enc_doc d)) < 4294967296 -> runs o d op ->
  g_doc d' q' -> nul_free d' -> N.of_nat (length (enc_doc d')) < 4294967296 -> runs o' d' op ->
  fragments_of d = fragments_of d' -> op_vars o = op_vars o' -> op_nometa o = op_nometa o' -> op_trace o = op_trace o' ->
  in_scope X S o d op fuel w ->
  answer (resolve X S fuel o vals w q) = answer (resolve X S fuel o' vals w q').
Proof.
  intros W X S fuel o o' vals w q q' d d' op G1 N1 L1 R1 G2 N2 L2 R2 Fr Ev En Et Sc.
  pose proof (resolve_doc W X S fuel o vals w q d op G1 N1 L1 R1) as A.
  pose proof (resolve_doc W X S fuel o' vals w q' d' op G2 N2 L2 R2) as B.
  assert (Eb : b_operation X S (op_vars o') d' op fuel (s0 w) = b_operation X S (op_vars o) d op fuel (s0 w)).
  { unfold b_operation. rewrite (fragments_only _ _ Fr), Ev. reflexivity. }
  rewrite Eb in B. unfold in_scope in Sc. destruct (b_operation X S (op_vars o) d op fuel (s0 w)) as [[ms c] s'| | |].
  - destruct A as (v1 & ->), B as (v2 & ->). cbn. unfold finish_of, start_of. rewrite En, Et. reflexivity.
  - rewrite A, B. reflexivity.
  - rewrite A, B. reflexivity.
  - contradiction.
Qed.
Print Assumptions C08_last_selected_operation_is_executed.

(** three operations of which two have the same name: the second [b] is run for the target [b], the last one without a target *)
Definition doc3 := bs "query b{hello} query b{x:hello ...f} query c{me{id}} fragment f on Query{me{name}}".
Definition opts_t (t : bytes) : ropts := ROpts false t [] None.
Definition parsed (q : bytes) : document := match ref_parse q with Some d => d | None => [] end.
Example C08_case :
  texts (run sample_x sample_schema (opts_t (bs "b")) doc3) = texts (run sample_x sample_schema no_opts (bs "query b{x:hello ...f} fragment f on Query{me{name}}")) /\
  texts (run sample_x sample_schema no_opts doc3) = texts (run sample_x sample_schema no_opts (bs "{me{id}}")) /\
  texts (run sample_x sample_schema no_opts doc3) <> texts (run sample_x sample_schema (opts_t (bs "b")) doc3) /\
  texts (run sample_x sample_schema (opts_t (bs "bb")) doc3) =
    Some (string_of_list_ascii (map Ascii.ascii_of_N (q2 "{'data':{},'errors':[{'message':'no operator with name bb found'}],'extensions':{}}")), 0%nat).
Proof. vm_compute. repeat split; discriminate. Qed.
(** the hypotheses of the theorem hold for it *)
Example C08_case_hypotheses : exists op,
  g_doc (parsed doc3) doc3 /\ nul_free (parsed doc3) /\ N.of_nat (length (enc_doc (parsed doc3))) < 4294967296 /\
  runs (opts_t (bs "b")) (parsed doc3) op /\ in_scope sample_x sample_schema (opts_t (bs "b")) (parsed doc3) op 1000 [].
Proof.
  exists (nth 1 (parsed doc3) (DFrag [] [] [])). split; [apply ref_parse_spec; vm_compute; reflexivity|].
  split; [vm_compute; repeat constructor|]. split; [vm_compute; reflexivity|].
  split; [|intro H; vm_compute in H; discriminate].
  exists (firstn 1 (parsed doc3)), (skipn 2 (parsed doc3)). split; [vm_compute; reflexivity|]. split; [vm_compute; reflexivity|].
  vm_compute. repeat constructor; auto. discriminate.
Qed.

(** ** C15: the errors of the response are the returned errors *)
(** how an error is shown: its message as JSON string, and its place in the query (parser errors, in decimal)
    or its path *)
Definition message (e : qerr) : bytes := match e with EParse p => e_msg p | ERun r => re_msg r end.
Inductive place : qerr -> bytes -> Prop :=
| pl_parse : forall e l c, jnumber l -> int_value l = Some (Z.of_N (e_line e)) -> jnumber c -> int_value c = Some (Z.of_N (e_col e)) ->
    place (EParse e) (q2 ",'locations':[{'line':" ++ l ++ q2 ",'column':" ++ c ++ q2 "}]")
| pl_path : forall m p, p <> [] -> place (ERun (RErr m (Some p))) (q2 ",'path':[" ++ p ++ q2 "]")
| pl_nopath : forall m, place (ERun (RErr m None)) []
| pl_emptypath : forall m, place (ERun (RErr m (Some []))) [].
Definition shown (e : qerr) (t : bytes) : Prop := exists text m p,
  codepoints (message e) text /\ jstring text m /\ place e p /\ t = q2 "{'message':" ++ m ++ p ++ q2 "}".
(** the errors one by one, separated by commas *)
Inductive listed : list qerr -> bytes -> Prop :=
| li_one : forall e t, shown e t -> listed [e] t
| li_more : forall e t es u, shown e t -> listed es u -> listed (e :: es) (t ++ q2 "," ++ u).
Lemma err_shown : forall e, shown e (err_json e).
Proof.
  intros [e|[m p]].
  - destruct (string_to_json_ok (e_msg e)) as (l & A & B).
    exists l, (string_to_json (e_msg e)), (q2 ",'locations':[{'line':" ++ uint_to_json (e_line e) ++ q2 ",'column':" ++ uint_to_json (e_col e) ++ q2 "}]").
    split; [exact A|]. split; [exact B|]. split.
    + destruct (int_to_json_ok (Z.of_N (e_line e))) as (V1 & J1). destruct (int_to_json_ok (Z.of_N (e_col e))) as (V2 & J2).
      assert (U : forall n, int_to_json (Z.of_N n) = uint_to_json n) by (intros []; reflexivity). rewrite U in *.
      constructor; auto.
    + unfold err_json. rewrite <- !app_assoc. reflexivity.
  - destruct (string_to_json_ok m) as (l & A & B). exists l, (string_to_json m).
    destruct p as [[|c p]|].
    + exists []. split; [exact A|]. split; [exact B|]. split; [constructor|]. unfold err_json. cbn [re_msg re_path]. rewrite <- !app_assoc. reflexivity.
    + exists (q2 ",'path':[" ++ (c :: p) ++ q2 "]"). split; [exact A|]. split; [exact B|]. split; [constructor; discriminate|].
      unfold err_json. cbn [re_msg re_path]. rewrite <- !app_assoc. reflexivity.
    + exists []. split; [exact A|]. split; [exact B|]. split; [constructor|]. unfold err_json. cbn [re_msg re_path]. rewrite <- !app_assoc. reflexivity.
Qed.
Lemma errs_listed : forall es, es <> [] -> listed es (errs_json es).
Proof.
  induction es as [|e [|e' es] IH]; intros H; [contradiction| |].
  - constructor. apply err_shown.
  - change (errs_json (e :: e' :: es)) with (err_json e ++ q2 "," ++ errs_json (e' :: es)). constructor; [apply err_shown|apply IH; discriminate].
Qed.
Lemma done_inj : forall W a b c d a' b' c' d', @RDone W a b c d = RDone a' b' c' d' -> a = a' /\ b = b' /\ c = c' /\ d = d'.
Proof. intros. inversion H. auto. Qed.
(** every response that is made, for every request *)
Theorem C15_errors_of_the_response_are_the_returned_errors : forall W (X : externals W) S fuel o vals w q out es vals' w',
  resolve X S fuel o vals w q = RDone out es vals' w' -> op_nometa o = false ->
  exists data tail, out = q2 "{'data':" ++ data ++ tail /\
    match es, op_trace o with
    | [], None => tail = q2 "}"
    | [], Some t => tail = q2 ",'extensions':{'tracing':" ++ t ++ q2 "}}"
    | _, None => exists u, listed es u /\ tail = q2 ",'errors':[" ++ u ++ q2 "],'extensions':{}}"
    | _, Some t => exists u, listed es u /\ tail = q2 ",'errors':[" ++ u ++ q2 "],'extensions':{'tracing':" ++ t ++ q2 "}}"
    end.
Proof.
  intros W X S fuel o vals w q out es vals' w' H Nm.
  assert (K : exists data, out = data_start ++ data ++ envelope_end es (op_trace o)).
  { unfold resolve in H. destruct (parse_query q (target_of o)) as [s| |]; try discriminate. unfold resolve_parsed in H. rewrite Nm in H.
    destruct (p_errs s) as [|e0 es0]; [destruct (p_tgt s) as [n|]|].
    - destruct (resolve_operation _ _ _ _ _ _ _) as [c s'| |] eqn:R; try discriminate. injection H as <- <- <- <-.
      assert (P : exists d, r_out s' = data_start ++ d).
      { pose proof (operation_grows W X S (p_res s) (p_frags s) (op_vars o) fuel (RS n (data_start ++ [123]) [] [] vals 0 None w)) as O. rewrite R in O.
        destruct O as ((d & O) & _). exists ([123] ++ d). rewrite O. cbn [r_out]. now rewrite <- app_assoc. }
      destruct P as (d & ->). exists (d ++ [125]). rewrite <- !app_assoc. reflexivity.
    - apply done_inj in H. destruct H as (<- & <- & _). exists [123; 125]. rewrite <- !app_assoc. reflexivity.
    - apply done_inj in H. destruct H as (<- & <- & _). exists [123; 125]. rewrite <- !app_assoc. reflexivity. }
  destruct K as (data & ->). exists data, (envelope_end es (op_trace o)). split; [reflexivity|]. unfold envelope_end.
  destruct es as [|e es].
  - destruct (op_trace o); reflexivity.
  - destruct (op_trace o); exists (errs_json (e :: es)); (split; [apply errs_listed; discriminate|]); rewrite <- !app_assoc; reflexivity.
Qed.
Print Assumptions C15_errors_of_the_response_are_the_returned_errors.

(** a request with three errors: two from resolvers in a list, and one from the interpreter, and data *)
Definition calls_err (n : N) (a : list gval) : list gval :=
  match n with 0 => [GInt WInt 7; GErr (Some (q2 "a 'quote'"))] | _ => [user "got" 9 None] end.
Definition x_err : externals world := sample_ext calls_err (fun _ => inl (FObject [])) false.
Example C15_case : exists es vals w,
  run x_err sample_schema no_opts (bs "{call b:call all{id nope} hello}") =
    RDone (q2 "{'data':{'call':7,'b':7,'all':[{'id':'3','nope':null},{'id':'4','nope':null}],'hello':'world'},'errors':[" ++
           q2 "{'message':'a " ++ [92; 34] ++ bs "quote" ++ [92; 34; 34] ++ q2 ",'path':['call']}," ++
           q2 "{'message':'a " ++ [92; 34] ++ bs "quote" ++ [92; 34; 34] ++ q2 ",'path':['b']}," ++
           q2 "{'message':'nope does not exists on User','path':['all',0,'nope']}," ++
           q2 "{'message':'nope does not exists on User','path':['all',1,'nope']}],'extensions':{}}") es vals w /\
  length es = 4%nat.
Proof. vm_compute. do 3 eexists. split; reflexivity. Qed.

(** ** C30: requests do not depend on earlier requests *)
(** [vals] and [p] are everything a schema keeps from earlier requests: [vals] is arbitrary, [p] is the
    parser context after any history [cs] of parses.  Within a request the world [w] stands for the state of the
    user's own code. *)
Theorem C30_requests_are_independent : forall W grow (X : externals W) S fuel cs os p vals min dels o w q,
  history grow new_pctx cs = Some (os, p) ->
  (length q <= min)%nat \/                                                            (* the query is not cached *)
  (forall d x, g_doc d q -> In x d -> match x with DFrag _ _ _ => False | _ => True end) \/   (* or has no fragments *)
  (forall k l e, In (k, l) (pc_cache p) -> In e l -> (en_query e, en_target e) <> (q, target_of o)) ->   (* or is not in the cache *)
  answer (fst (resolve_on grow X S fuel min dels p vals o w q)) = answer (resolve X S fuel o no_vals w q).
Proof.
  intros W grow X S fuel cs os p vals min dels o w q Hh Hc.
  destruct (history_ok grow cs _ new_pctx_good) as (os' & p' & E' & G & _ & _). rewrite Hh in E'. injection E' as <- <-.
  destruct (parse_cached_ok grow p (Call q (target_of o) min dels) G) as (u & p2 & v & E2 & U & _ & A1 & A2 & A3 & A4 & A5 & _).
  unfold resolve_on. rewrite E2. cbn [fst]. cbn [c_query c_target c_min] in *.
  destruct (o_errs v) as [|e0 es0] eqn:Ev.
  2: { unfold uncached in U. cbn [c_query c_target] in U. unfold resolve. destruct (parse_query q (target_of o)) as [s| |]; try discriminate.
       injection U as <-. cbn [o_errs] in *. rewrite Ev, A3. reflexivity. }
  assert (Eu : u = v).
  { destruct Hc as [Hc|[Hc|Hc]].
    - apply A5. left. exact Hc.
    - assert (Hf : o_frags v = []).
      { unfold uncached in U. cbn [c_query c_target] in U. destruct (parse_query q (target_of o)) as [s| |] eqn:P; try discriminate. injection U as <-. cbn [o_frags] in *.
        destruct (accepted_denotes q (target_of o) s P Ev) as (d & Gd & _ & Ef & _). rewrite Ef.
        assert (L : forall d n, (forall x, In x d -> match x with DFrag _ _ _ => False | _ => True end) -> frag_locs n d = []).
        { induction d0 as [|[] d0 IH]; intros n0 Hx; cbn [frag_locs]; auto; [apply IH; intros; apply Hx; now right|]. destruct (Hx _ (or_introl eq_refl)). }
        apply L. intros x I. exact (Hc d x Gd I). }
      rewrite Hf in A4. destruct u as [a b c e], v as [a' b' c' e']. cbn in *. subst. destruct b; auto. discriminate.
    - apply A5. right. destruct (get_entry (pc_cache p) q (target_of o)) as [e|] eqn:Ge; auto. exfalso.
      unfold get_entry in Ge. destruct (bucket (pc_cache p) (length q)) as [l|] eqn:B; [|discriminate].
      apply bucket_in in B. apply find_some in Ge. destruct Ge as [I Y]. apply andb_prop in Y. destruct Y as [Y Z].
      apply beqb_eq in Y. apply target_eqb_spec in Z. apply (Hc _ _ _ B I). rewrite Y, <- Z. reflexivity. }
  subst u. unfold uncached in U. cbn [c_query c_target] in U.
  replace (answer (resolve X S fuel o no_vals w q)) with (answer (resolve X S fuel o vals w q)) by apply resolve_indep.
  unfold resolve. destruct (parse_query q (target_of o)) as [s| |]; try discriminate. injection U as <-. reflexivity.
Qed.
Print Assumptions C30_requests_are_independent.

(** the full claim is false, because of the shared fragment table of the cache (C11): the same request, twice,
    with another one in between *)
Definition long (s : string) : bytes := repeat 32 300 ++ bs s.
Definition request_a := long "{...f} fragment f on Query{hello}".
Definition request_b := long "{hello hello hello ...f} fragment f on Query{hello}".
Definition on (p : pctx) (q : bytes) := resolve_on (fun n => 2 * n)%nat sample_x sample_schema 1000 300 [] p no_vals no_opts [] q.
Definition then_ (r : rresult world * option pctx) (q : bytes) := match snd r with Some p => on p q | None => r end.
Theorem C30_with_fragments_and_cache_refuted : exists q1 q2,
  answer (fst (then_ (then_ (on new_pctx q1) q2) q1)) <> answer (fst (on new_pctx q1)).
Proof. exists request_a, request_b. vm_compute. discriminate. Qed.
Print Assumptions C30_with_fragments_and_cache_refuted.

(** a cached query without fragments, after another request *)
Example C30_case : exists os p,
  history (fun n => 2 * n)%nat new_pctx [Call (long "{call all{id}}") None 300 []; Call request_a None 300 []] = Some (os, p) /\
  length (pc_cache p) = 2%nat /\ exists r vals w, fst (on p (long "{call all{id}}")) = RDone r [] vals w /\ length w = 1%nat.
Proof.
  destruct (history (fun n => 2 * n)%nat new_pctx [Call (long "{call all{id}}") None 300 []; Call request_a None 300 []]) as [[os p]|] eqn:E.
  2: { vm_compute in E. discriminate. }
  exists os, p. split; auto. vm_compute in E. injection E as <- <-. split; [reflexivity|]. vm_compute. do 3 eexists. split; reflexivity.
Qed.
