(** * Property C53: tracing *)
From Coq Require Import String Arith NArith ZArith Bool List Lia Sorted.
From Verif Require Import RegModel IntroModel GoTypes ParseModel SchemaSpec ParseSound SchemaCheck SampleProg PropSchema PropReg.
From Verif Require Import Base Json JsonModel JsonProof Ast Grammar RefParser RefGrammar ParserModel ParserSafe ParserFacts ReqModel Schema ResModel EnvModel Samples Interp RunSim OpSim DocRun Facts Valid PropEnv PropValid TraceModel TraceSpec TraceProof TraceTime.
Import ListNotations.
Open Scope N_scope.

(** the same options with another trace text, or none *)
Definition with_trace (o : ropts) (t : option bytes) : ropts := ROpts (op_nometa o) (op_target o) (op_vars o) t.
(** the query has a field with this response key and this name *)
Definition asked (d : document) (k n : bytes) : Prop := exists al ds args subs, in_doc (SField al n ds args subs) d /\ k = match al with Some a => a | None => n end.
Definition failed (es : list qerr) (p : list pitem) : Prop := exists e, In (ERun e) es /\ re_path e = strip (path_text p).
Definition root_of (S : schema) (op : definition) : obj := match op with DOp OpMutation _ _ _ _ => s_method S | _ => s_query S end.
(** a clock that does not go back *)
Definition never_back (now : nat -> Z) : Prop := forall i j, (i <= j)%nat -> (now i <= now j)%Z.

Section Operation.
Context {W : Type}.
Variable X : externals W.
Variable S : schema.
Variable rawvars : bytes.
Variable d : document.
Variable op : definition.
Variable now : nat -> Z.
Lemma erase_operation : forall fuel, types_named S -> erases (t_operation X S rawvars d op now fuel) (b_operation X S rawvars d op fuel).
Proof.
  intros fuel N. destruct op as [[] n args [|x ds] ss|]; cbn [t_operation b_operation].
  1, 3: apply (erase_run X S rawvars args (frag_defs d) now N fuel); constructor.
  5: apply e_panic. all: apply e_bind; [apply e_lift|intro; apply e_ret].
Qed.
Lemma content_operation : forall fuel t s, In op d -> r_path s = [] ->
  match t_operation X S rawvars d op now fuel t s with
  | BOk ((ms, _), t') s' => exists new, ts_log t' = ts_log t ++ new /\ rec_members S (asked d) (err_at (r_errs s')) [] (root_of S op) ms new
  | _ => True
  end.
Proof.
  intros fuel t s I P.
  assert (Fd : forall y, In y d -> from (asked d) (sels_of y)) by (intros y Iy al n ds args subs Hw; exists al, ds, args, subs; split; [exists y; auto|reflexivity]).
  assert (Ff : forall n tn ss, In (n, tn, ss) (frag_defs d) -> from (asked d) ss).
  { intros n tn ss H. unfold frag_defs in H. apply in_flat_map in H. destruct H as (y & Iy & H). destruct y as [|fn ft fs]; [contradiction|]. destruct H as [H|[]].
    injection H as _ _ <-. exact (Fd _ Iy). }
  assert (K : forall args o g ss, from (asked d) ss -> match t_sels X S rawvars args (frag_defs d) now fuel o 0 g 0 ss t s with
    | BOk ((ms, _), t') s' => exists new, ts_log t' = ts_log t ++ new /\ rec_members S (asked d) (err_at (r_errs s')) [] o ms new | _ => True end).
  { intros args o g ss F. pose proof (proj1 (content_run X S rawvars args (frag_defs d) now (asked d) Ff fuel) o 0 g 0 ss F [] t s P) as H.
    destruct (t_sels _ _ _ _ _ _ _ _ _ _ _ _ t s) as [[[ms c] t'] s'| | |]; auto. destruct H as (_ & new & L & M). exists new. auto. }
  destruct op as [[] n args [|x ds] ss|]; cbn [t_operation root_of]; try exact Logic.I.
  1, 3: apply K; exact (Fd _ I).
  all: cbn; exists []; rewrite app_nil_r; split; [reflexivity|constructor].
Qed.
Lemma times_operation : forall fuel t s, never_back now -> timely now t ->
  match t_operation X S rawvars d op now fuel t s with
  | BOk (_, t') s' => ordered now t t' /\ fresh now t t'
  | _ => True
  end.
Proof.
  intros fuel t s C T. destruct op as [[] n args [|x ds] ss|]; cbn [t_operation]; try exact Logic.I; try (cbn; split; [apply o_refl|apply f_refl]).
  - pose proof (ordered_run X S rawvars args (frag_defs d) now C fuel (s_query S) 0 (false, s_qvalue S) 0 ss t s) as A. pose proof (fresh_run X S rawvars args (frag_defs d) now C fuel (s_query S) 0 (false, s_qvalue S) 0 ss t s) as B.
    destruct (t_sels _ _ _ _ _ _ _ _ _ _ _ _ t s) as [[a t'] s'| | |]; auto.
  - pose proof (ordered_run X S rawvars args (frag_defs d) now C fuel (s_method S) 0 (false, s_mvalue S) 0 ss t s) as A. pose proof (fresh_run X S rawvars args (frag_defs d) now C fuel (s_method S) 0 (false, s_mvalue S) 0 ss t s) as B.
    destruct (t_sels _ _ _ _ _ _ _ _ _ _ _ _ t s) as [[a t'] s'| | |]; auto.
Qed.
End Operation.

(** ** Tracing changes nothing but the trace *)
(** With and without tracing a request gives the same data, the same errors and the same effects; and Resolve as the other
    properties describe it gives this response, if it is given the text of this trace. *)
Theorem C53_same_answer : forall W (X : externals W) S now str day fuel o w q d op,
  types_named S -> g_doc d q -> runs o d op -> readable X S o fuel w q ->
  match resolve_traced str day X S now fuel o w d op with
  | TDone out es w' tr =>
      forall vals, exists vals' out0,
        resolve X S fuel (with_trace o (Some (trace_json str day tr))) vals w q = RDone out es vals' w' /\
        resolve X S fuel (with_trace o None) vals w q = RDone out0 es vals' w' /\
        if op_nometa o then out = out0
        else exists body, out = body ++ [44; 34] ++ bs "extensions" ++ [34; 58; 123; 34] ++ bs "tracing" ++ [34; 58] ++ trace_json str day tr ++ [125; 125] /\
             out0 = body ++ (if es then [125] else [44; 34] ++ bs "extensions" ++ [34; 58; 123; 125; 125])
  | TPanicked => forall vals t, resolve X S fuel (with_trace o t) vals w q = RPanicked
  | TOutOfFuel => forall vals t, resolve X S fuel (with_trace o t) vals w q = ROutOfFuel
  | TNoDoc => False
  end.
Proof.
  intros W X S now str day fuel o w q d op N G U Rd. destruct (Rd d op G U) as (Nf & Sz & Sc).
  assert (U' : forall t, runs (with_trace o t) d op) by (intro t; exact U).
  assert (D : forall t vals, match b_operation X S (op_vars o) d op fuel (s0 w) with
    | BOk (ms, _) s' => let es := map ERun (r_errs s') in
        exists vals', resolve X S fuel (with_trace o t) vals w q = RDone (finish_of (with_trace o t) (start_of o ++ [123] ++ render_members (x_float_json X) ms ++ [125]) es) es vals' (r_world s')
    | BPanic => resolve X S fuel (with_trace o t) vals w q = RPanicked
    | BNoFuel => resolve X S fuel (with_trace o t) vals w q = ROutOfFuel
    | BOut => True end) by (intros t vals; exact (resolve_doc W X S fuel (with_trace o t) vals w q d op G Nf Sz (U' t))).
  unfold resolve_traced. pose proof (erase_operation X S (op_vars o) d op now fuel N (trace_begin now) (s0 w)) as E. fold (s0 w).
  unfold in_scope in Sc. destruct (t_operation X S (op_vars o) d op now fuel (trace_begin now) (s0 w)) as [[[ms c] t] s| | |].
  - cbn [fst] in E. rewrite E in D. cbv zeta in D |- *. set (tr := trace_end now t) in *. set (es := map ERun (r_errs s)) in *. intro vals.
    destruct (D (Some (trace_json str day tr)) vals) as (v1 & D1). destruct (D None vals) as (v2 & D2).
    assert (V : v1 = v2). { clear - D1 D2. unfold resolve, with_trace, target_of, op_target, resolve_parsed, op_vars, op_nometa, op_trace in *.
      destruct o as [nm tg vr tc]. destruct (parse_query q _) as [p| |]; try discriminate. destruct (p_errs p); [|injection D1; injection D2; congruence].
      destruct (p_tgt p) as [n|]; [|injection D1; injection D2; congruence].
      destruct (resolve_operation _ _ _ _ _ _ _) as [u s3| |]; try discriminate. injection D1; injection D2; congruence. }
    subst v2. exists v1. eexists. split; [|split; [exact D2|]].
    + rewrite D1. unfold finish_of, start_of, with_trace. cbn [op_nometa op_trace]. destruct (op_nometa o); reflexivity.
    + unfold finish_of, start_of, with_trace. cbn [op_nometa op_trace]. destruct (op_nometa o); [reflexivity|].
      exists ((data_start ++ [123] ++ render_members (x_float_json X) ms ++ [125]) ++ match es with [] => [] | _ => [44; 34] ++ bs "errors" ++ [34; 58; 91] ++ errs_json es ++ [93] end).
      unfold envelope_end. destruct es; split; rewrite <- ?app_assoc; reflexivity.
  - rewrite E in D. intros vals t. apply D.
  - rewrite E in D. intros vals t. apply D.
  - rewrite E in Sc. now apply Sc.
Qed.
Print Assumptions C53_same_answer.
(** every parsed schema names its types *)
Lemma ok_type_named : forall S o, ok_type S o -> ql_type S o <> None.
Proof.
  intros S o H. induction H as [isid k B I| |i e E|o H IH|o H IH|n fs E|n fs is E]; cbn [ql_type]; try discriminate; try (rewrite E; discriminate);
    destruct (ql_type S o); try discriminate; contradiction.
Qed.
Theorem C53_parsed : forall P qt mt same inj fuel p s qv mv md,
  let b := match inj with Some _ => true | None => false end in
  named_apart P (roots_of P qt mt b) -> inputs_apart P (roots_of P qt mt b) (more_of P b) ->
  parse P fuel qt mt same inj new_pst = POk p s -> types_named (view P p qv mv md).
Proof.
  intros P qt mt same inj fuel p s qv mv md b NA IA H. destruct (C48_parsed_schemas_are_closed P qt mt same inj fuel p s qv mv md NA IA H) as [C _].
  intros o h fo c i n hd R L. pose proof (cl_obj _ C o R) as O. set (V := view P p qv mv md) in *.
  assert (F : ok_value V fo).
  { apply nlookup_in in L. destruct L as (k & L). destruct o; cbn [o_fields] in L; try contradiction; cbn [ok_obj] in O.
    - exact (proj2 (proj2 O _ _ L)).
    - exact (proj2 (proj2 (proj1 O) _ _ L)). }
  unfold return_type. assert (Q : ql_type V fo <> None).
  { destruct fo as [| | | | | |[ist ins infs onr enr out]| | | |]; cbn [ok_value] in F; try (apply ok_type_named; exact F).
    destruct F as [F _]. apply ok_type_named in F. cbn [ql_type]. destruct (ql_type V out); [discriminate|contradiction]. }
  destruct (ql_type V fo); [discriminate|contradiction].
Qed.
Print Assumptions C53_parsed.

(** ** What is recorded *)
(** The trace lists the members of the response with the right path, parent type, field and return type, each after
    those inside of it; only [__typename] and members that the errors are about are left out. *)
Theorem C53_recorded : forall W (X : externals W) S now str day fuel o w d op out es w' tr,
  runs o d op -> resolve_traced str day X S now fuel o w d op = TDone out es w' tr ->
  exists ms rest, out = (if op_nometa o then [] else data_start) ++ render (x_float_json X) (TObj ms) ++ rest /\
    rec_members S (asked d) (failed es) [] (root_of S op) ms (tr_resolvers tr).
Proof.
  intros W X S now str day fuel o w d op out es w' tr (d1 & d2 & Ed & _) H.
  assert (I : In op d) by (rewrite Ed; apply in_or_app; right; now left).
  unfold resolve_traced in H. pose proof (content_operation X S (op_vars o) d op now fuel (trace_begin now) (s0 w) I eq_refl) as K. fold (s0 w) in H.
  destruct (t_operation X S (op_vars o) d op now fuel (trace_begin now) (s0 w)) as [[[ms c] t] s| | |]; try discriminate H.
  cbv zeta in H. injection H as <- <- <- <-. destruct K as (new & L & M). exists ms. cbn [trace_begin ts_log app] in L. cbn [trace_end tr_resolvers]. rewrite L.
  exists (if op_nometa o then [] else envelope_end (map ERun (r_errs s)) (Some (trace_json str day (trace_end now t)))). split.
  - rewrite render_obj. destruct (op_nometa o); [cbn [app]; rewrite app_nil_r; reflexivity|]. rewrite <- !app_assoc. cbn [app]. rewrite <- app_assoc. reflexivity.
  - eapply (proj2 (proj2 (rec_mono S (asked d) _ _ _))). exact M. Unshelve. intros p (e & Ie & Ep). exists e. split; [apply in_map; exact Ie|exact Ep].
Qed.
Print Assumptions C53_recorded.
Section Once.
Variable S : schema.
Variable asked : bytes -> bytes -> Prop.
Hypothesis no_typename : forall k, ~ asked k (bs "__typename").
Lemma recorded_paths :
  (forall p o v es, rec_value S asked (fun _ => False) p o v es -> map te_path es = map (fun q => get_path_json (path_text q)) (member_paths p v)) /\
  (forall p n o l es, rec_elems S asked (fun _ => False) p n o l es -> map te_path es = map (fun q => get_path_json (path_text q))
     ((fix elems (n : N) l := match l with [] => [] | x :: r => member_paths (p ++ [PIdx n]) x ++ elems (n + 1) r end) n l)) /\
  (forall p t m es, rec_members S asked (fun _ => False) p t m es -> map te_path es = map (fun q => get_path_json (path_text q)) (member_paths p (TObj m))).
Proof.
  apply recorded_ind; intros; auto.
  - destruct v; try contradiction; reflexivity.
  - rewrite !map_app. f_equal; auto.
  - destruct o as [->|[]]. exfalso. eapply no_typename; eauto.
  - cbn [member_paths] in *. rewrite !map_app. f_equal; [assumption|]. cbn [map]. f_equal; [|assumption]. apply e2.
Qed.
End Once.
(** without errors and [__typename]: one entry for every member, inner ones first *)
Theorem C53_every_field_once : forall W (X : externals W) S now str day fuel o w d op out w' tr,
  runs o d op -> resolve_traced str day X S now fuel o w d op = TDone out [] w' tr -> (forall k, ~ asked d k (bs "__typename")) ->
  exists ms rest, out = (if op_nometa o then [] else data_start) ++ render (x_float_json X) (TObj ms) ++ rest /\
    map te_path (tr_resolvers tr) = map (fun p => get_path_json (path_text p)) (member_paths [] (TObj ms)).
Proof.
  intros W X S now str day fuel o w d op out w' tr U H N. destruct (C53_recorded W X S now str day fuel o w d op out [] w' tr U H) as (ms & rest & E & R).
  exists ms, rest. split; [exact E|]. apply (proj2 (proj2 (recorded_paths S (asked d) N)) [] (root_of S op) ms).
  eapply (proj2 (proj2 (rec_mono S (asked d) _ _ _))). exact R. Unshelve. intros p (e & [] & _).
Qed.
Print Assumptions C53_every_field_once.
(** the return type is written as GraphQL writes it, if it is not a list (C45 has the lists) *)
Theorem C53_return_type : forall S o n b, named_type S o n b -> return_type S o = Some (n ++ if b then [33] else []).
Proof.
  assert (Q : forall S o n b, named_type S o n b -> ql_type S o = Some (QNamed (Some n), b)).
  { intros S o n b H. induction H; cbn [ql_type]; try (rewrite H; reflexivity); try reflexivity; try (rewrite IHnamed_type; reflexivity). }
  intros S o n b H. unfold return_type. rewrite (Q S o n b H). destruct b; cbn; rewrite ?app_nil_r; reflexivity.
Qed.
Print Assumptions C53_return_type.

(** ** Times *)
(** With a clock that does not go back all durations are from 0 on, all spans lie between the end of parsing and the end of
    the request, and no entry starts or ends before the entry in front of it. *)
Theorem C53_times : forall W (X : externals W) S now str day fuel o w d op out es w' tr,
  never_back now -> resolve_traced str day X S now fuel o w d op = TDone out es w' tr ->
  let parsed := (fst (tr_parsing tr) + snd (tr_parsing tr))%Z in
  (0 <= fst (tr_parsing tr) /\ 0 <= snd (tr_parsing tr) /\ parsed <= tr_dur tr /\ tr_dur tr = tr_end tr - tr_start tr)%Z /\
  Forall (fun e => (parsed <= te_start e /\ 0 <= te_dur e /\ te_end e <= tr_dur tr)%Z) (tr_resolvers tr) /\ in_order (tr_resolvers tr).
Proof.
  intros W X S now str day fuel o w d op out es w' tr C H. unfold resolve_traced in H. fold (s0 w) in H.
  assert (T : timely now (trace_begin now)) by (split; apply C; cbn; lia).
  pose proof (times_operation X S (op_vars o) d op now fuel (trace_begin now) (s0 w) C T) as K.
  destruct (t_operation X S (op_vars o) d op now fuel (trace_begin now) (s0 w)) as [[[ms c] t] s| | |]; try discriminate H.
  cbv zeta in H. injection H as _ _ _ <-. destruct K as (O & F). destruct (O T) as (_ & _ & Rd & new & L & Or & Fo). destruct (F T) as (_ & _ & new' & L' & Ff).
  cbn [trace_begin ts_log ts_reads ts_pref app] in *. rewrite L' in L. subst new'. cbn [trace_end tr_parsing tr_dur tr_end tr_start tr_resolvers trace_parsing fst snd]. rewrite L'.
  pose proof (C 0 1 ltac:(lia))%nat. pose proof (C 1 2 ltac:(lia))%nat. pose proof (C 2 4 ltac:(lia))%nat. pose proof (C 2 (ts_reads t) ltac:(lia))%nat.
  split; [lia|]. split; [|exact Or]. apply Forall_forall. intros e Ie. eapply Forall_forall in Fo; [|exact Ie]. eapply Forall_forall in Ff; [|exact Ie]. cbn beta in *. lia.
Qed.
Print Assumptions C53_times.
(** One field, anywhere in a run.  Its entry ends with the reading of the clock that is made when its value is written.  If no
    object was written, it starts with the reading made before the directives and the value; if a member was written, it starts
    with a later reading, one that was made for a field inside of it. *)
Theorem C53_field : forall W (X : externals W) S rawvars opargs fdefs now fuel o dept g k al n ds args subs fo c i fn hd t s ms cr t' s',
  nlookup (o_fields o) (fnv1 n) = Some (Field fo c i fn hd) ->
  t_field X S rawvars opargs fdefs now fuel o dept g k al n ds args subs t s = BOk ((ms, cr), t') s' ->
  (ms = [] /\ ts_log t' = ts_log t) \/
  exists v inner e last, ms = [(match al with Some a => a | None => n end, v)] /\ ts_log t' = ts_log t ++ inner ++ [e] /\
    te_end e = (now last - now O)%Z /\ (ts_reads t < last)%nat /\ ts_reads t' = Datatypes.S last /\
    (flat v -> inner = [] /\ te_start e = (now (ts_reads t) - now O)%Z /\ last = Datatypes.S (ts_reads t)) /\
    (has_member v -> exists first, (ts_reads t < first < last)%nat /\ te_start e = (now first - now O)%Z).
Proof.
  intros W X S rawvars opargs fdefs now fuel o dept g k al n ds args subs fo c i fn hd t s ms cr t' s' L H.
  destruct (field_times X S rawvars opargs fdefs now fuel o dept g k al n ds args subs fo c i fn hd t s ms cr t' s' L H) as [A|(v & inner & e & Em & Lg & St & En & Rd & Fl & Hm)]; [left; exact A|right].
  exists v, inner, e, (pred (ts_reads t')). split; [exact Em|]. split; [exact Lg|]. split; [exact En|]. split; [exact Rd|]. split; [lia|]. split.
  - intro F. destruct (Fl F) as (-> & Ep & Er). rewrite St, Ep. repeat split; lia.
  - intro M. destruct (Hm M) as (j & J & Ep). exists j. split; [exact J|]. now rewrite St, Ep.
Qed.
Print Assumptions C53_field.

(** ** The text *)
Section Json.
Variable str : bytes -> bytes.
Variable day : Z -> bytes.
Hypothesis str_json : forall s, exists l, jstring l (str s).
Definition value_text (t : bytes) : Prop := exists v, jtext v t.
Lemma int_text : forall z, value_text (int_to_json z). Proof. intro z. eexists. apply jt_num. apply int_to_json_ok. Qed.
Lemma object_text : forall l, Forall (fun x => exists k t, x = jfield k t /\ Forall plain_char (bs k) /\ value_text t) l -> value_text (jobject l).
Proof.
  intros l H. assert (M : exists m, jmembers m (commas l) /\ length m = length l).
  { induction H as [|x l (k & t & -> & K & v & V) H (m & M & L)]; [exists []; split; [constructor|reflexivity]|].
    pose proof (key_string (bs k) K) as Ks. destruct l as [|y l].
    - exists [(bs k, v)]. split; [|reflexivity]. cbn [commas]. unfold jfield. replace ([34] ++ bs k ++ [34; 58] ++ t) with (([34] ++ bs k ++ [34]) ++ 58 :: t) by (rewrite <- !app_assoc; reflexivity). now constructor.
    - exists ((bs k, v) :: m). split; [|cbn; now rewrite L]. change (commas (jfield k t :: y :: l)) with (jfield k t ++ [44] ++ commas (y :: l)). unfold jfield.
      replace (([34] ++ bs k ++ [34; 58] ++ t) ++ [44] ++ commas (y :: l)) with (([34] ++ bs k ++ [34]) ++ 58 :: t ++ 44 :: commas (y :: l)) by (rewrite <- !app_assoc; cbn [app]; rewrite <- ?app_assoc; reflexivity).
      constructor; auto. destruct m; [discriminate|discriminate]. }
  destruct M as (m & M & _). exists (JObj m). unfold jobject. change ([123] ++ commas l ++ [125]) with (123 :: commas l ++ [125]). now constructor.
Qed.
Lemma list_text : forall l, Forall value_text l -> value_text ([91] ++ commas l ++ [93]).
Proof.
  intros l H. assert (M : exists m, jelems m (commas l) /\ length m = length l).
  { induction H as [|x l (v & V) H (m & M & L)]; [exists []; split; [constructor|reflexivity]|]. destruct l as [|y l].
    - exists [v]. split; [now constructor|reflexivity].
    - exists (v :: m). split; [|cbn; now rewrite L]. change (commas (x :: y :: l)) with (x ++ 44 :: commas (y :: l)). constructor; auto. destruct m; discriminate. }
  destruct M as (m & M & _). exists (JArr m). change ([91] ++ commas l ++ [93]) with (91 :: commas l ++ [93]). now constructor.
Qed.
Lemma string_text : forall s, value_text (str s). Proof. intro s. destruct (str_json s) as (l & H). exists (JStr l). now constructor. Qed.
Ltac members := apply object_text; repeat constructor; eexists; eexists; (split; [reflexivity|]); (split; [plain|]).
Lemma span_text : forall x, value_text (span_json x).
Proof. intro x. unfold span_json. members; apply int_text. Qed.
Lemma trace_text : forall t, Forall (fun e => value_text (te_path e)) (tr_resolvers t) -> value_text (trace_json str day t).
Proof.
  intros t H. unfold trace_json. members; try apply int_text; try apply string_text; try apply span_text.
  - eexists. apply jt_num. apply jnumber_nat.
  - members. apply list_text. apply Forall_forall. intros x I. apply in_map_iff in I. destruct I as (e & <- & I). eapply Forall_forall in H; [|exact I].
    unfold entry_json. members; try apply int_text; try apply string_text. exact H.
Qed.
End Json.

(** the paths that are recorded consist of response keys of the query and of indexes *)
Lemma recorded_keys : forall S (asked : bytes -> bytes -> Prop) (failed_at : list pitem -> Prop) (good : list pitem -> Prop), (forall p k n, good p -> asked k n -> good (p ++ [PKey k])) -> (forall p n, good p -> good (p ++ [PIdx n])) ->
  (forall p o v es, rec_value S asked failed_at p o v es -> good p -> Forall (fun e => exists q i, te_path e = get_path_json (path_text (q ++ [i])) /\ good (q ++ [i])) es) /\
  (forall p n o l es, rec_elems S asked failed_at p n o l es -> good p -> Forall (fun e => exists q i, te_path e = get_path_json (path_text (q ++ [i])) /\ good (q ++ [i])) es) /\
  (forall p t m es, rec_members S asked failed_at p t m es -> good p -> Forall (fun e => exists q i, te_path e = get_path_json (path_text (q ++ [i])) /\ good (q ++ [i])) es).
Proof.
  intros S asked failed_at good K I. apply recorded_ind; intros; auto.
  - apply Forall_app. split; auto.
  - apply Forall_app. split; [eauto|]. constructor; [|auto]. exists p, (PKey k). split; [apply e2|eauto].
Qed.
(** The trace of an accepted query is a JSON text, if encoding/json writes strings as JSON strings. *)
Theorem C53_trace_is_json : forall W (X : externals W) S now str day fuel o w q d op out es w' tr,
  (forall s, exists l, jstring l (str s)) -> g_doc d q -> runs o d op ->
  resolve_traced str day X S now fuel o w d op = TDone out es w' tr -> exists v, jtext v (trace_json str day tr).
Proof.
  intros W X S now str day fuel o w q d op out es w' tr Hs G U H. destruct (C53_recorded W X S now str day fuel o w d op out es w' tr U H) as (ms & rest & _ & R).
  apply trace_text; [exact Hs|]. set (good := fun p : list pitem => forall k, In (PKey k) p -> nice k).
  eapply (proj2 (proj2 (recorded_keys S (asked d) (failed es) good _ _))) in R; [|intros k []]. Unshelve.
  - eapply Forall_impl; [|exact R]. cbn beta. intros e (p & i & E & Gd). rewrite E.
    destruct (items_text (p ++ [i]) ltac:(destruct p; discriminate) Gd) as (vs & t & St & J & _ & _).
    destruct (path_text (p ++ [i])) as [|c r]; [discriminate|]. cbn [strip] in St. injection St as ->. cbn [get_path_json]. exists (JArr vs). change ([91] ++ t ++ [93]) with (91 :: t ++ [93]). now constructor.
  - intros p k n Gp (al & ds & args & subs & I & ->) k' Ik. apply in_app_or in Ik. destruct Ik as [Ik|[Ik|[]]]; [auto|]. injection Ik as <-.
    pose proof (doc_nice d q _ G I) as Kn. cbn in Kn. apply Kn.
  - intros p n Gp k Ik. apply in_app_or in Ik. destruct Ik as [Ik|[Ik|[]]]; [auto|discriminate].
Qed.
Print Assumptions C53_trace_is_json.

(** So the whole response to a traced request is one JSON object, whenever it is one without tracing according to C14. *)
Theorem C53_response_is_json : forall W (X : externals W) S now str day fuel o w q d op out es w' tr,
  types_named S -> g_doc d q -> runs o d op -> readable X S o fuel w q -> nice_schema S -> (forall a b, jnumber (x_float_json X a b)) ->
  (forall s, exists l, jstring l (str s)) -> resolve_traced str day X S now fuel o w d op = TDone out es w' tr ->
  es = [] \/ (forall d', g_doc d' q -> no_holes d') -> exists m, jtext (JObj m) out.
Proof.
  intros W X S now str day fuel o w q d op out es w' tr N G U Rd Ns Fl Hs H Hh. pose proof (C53_same_answer W X S now str day fuel o w q d op N G U Rd) as A. rewrite H in A.
  destruct (A (fun _ => (false, GOther))) as (vals' & out0 & A1 & _). eapply (C14_response_is_json W X S fuel (with_trace o (Some (trace_json str day tr)))); eauto.
  intros t E. cbn [with_trace op_trace] in E. injection E as <-. exact (C53_trace_is_json W X S now str day fuel o w q d op out es w' tr Hs G U H).
Qed.
Print Assumptions C53_response_is_json.

(** ** A text for which nothing is executed *)
(** If the text is no document, or has no operation with the wanted name, then the answer with tracing is the one without it
    and a trace; nothing of the user runs; the trace has no entry for a field, and its times lie in the request. *)
Definition not_executed (o : ropts) (q : bytes) : Prop :=
  (~ exists d, g_doc d q) \/ exists d, g_doc d q /\ Forall (fun x => ~ selected (target_of o) x) d.
Lemma unrun_shape : forall W (X : externals W) S now str day fuel o (w : W) q, not_executed o q ->
  exists out es, let tr := trace_end now (trace_begin now) in
    resolve_traced_unrun str day now o w q = Some (TDone out es w tr) /\ es <> [] /\ Forall err_ok es /\
    out = finish_of (with_trace o (Some (trace_json str day tr))) (start_of o ++ [123; 125]) es /\
    forall t vals, resolve X S fuel (with_trace o t) vals w q = RDone (finish_of (with_trace o t) (start_of o ++ [123; 125]) es) es vals w.
Proof.
  intros W X S now str day fuel o w q [R|(d & G & F)].
  - destruct (rejected q (target_of o) R) as (s & P & E). unfold resolve_traced_unrun. rewrite P.
    destruct (p_errs s) as [|e es] eqn:Es; [contradiction|]. do 2 eexists. cbv zeta. split; [destruct (p_tgt s); reflexivity|]. split; [discriminate|].
    split; [apply Forall_forall; intros x I; apply in_map_iff in I; destruct I as (p & <- & _); exact Logic.I|]. split.
    + unfold finish_of, start_of, with_trace. cbn [op_nometa op_trace]. destruct (op_nometa o); rewrite <- ?app_assoc; reflexivity.
    + intros t vals. unfold resolve. change (target_of (with_trace o t)) with (target_of o). rewrite P. unfold resolve_parsed. rewrite Es.
      unfold finish_of, start_of, with_trace. cbn [op_nometa op_trace]. destruct (op_nometa o); reflexivity.
  - destruct (denotes_accepted q (target_of o) d G) as (s & P & E & _ & _ & _).
    pose proof (target_chosen q (target_of o) d s G P) as C. destruct (p_tgt s) as [n|] eqn:Tg.
    { exfalso. destruct C as (d1 & x & d2 & -> & Sx & _). apply Forall_app in F. destruct F as [_ F]. inversion F; subst. contradiction. }
    unfold resolve_traced_unrun. rewrite P, E, Tg. do 2 eexists. cbv zeta. split; [reflexivity|]. split; [discriminate|]. split; [repeat constructor|]. split.
    + unfold finish_of, start_of, with_trace. cbn [op_nometa op_trace]. destruct (op_nometa o); rewrite <- ?app_assoc; reflexivity.
    + intros t vals. unfold resolve. change (target_of (with_trace o t)) with (target_of o). rewrite P. unfold resolve_parsed. rewrite E, Tg.
      unfold finish_of, start_of, with_trace. cbn [op_nometa op_trace op_target]. destruct (op_nometa o); reflexivity.
Qed.
Theorem C53_not_executed : forall W (X : externals W) S now str day fuel o (w : W) q, never_back now -> not_executed o q ->
  exists out es tr, resolve_traced_unrun str day now o w q = Some (TDone out es w tr) /\ es <> [] /\ tr_resolvers tr = [] /\
    (0 <= fst (tr_parsing tr) /\ 0 <= snd (tr_parsing tr) /\ fst (tr_parsing tr) + snd (tr_parsing tr) <= tr_dur tr /\ tr_dur tr = tr_end tr - tr_start tr)%Z /\
    (forall vals, resolve X S fuel (with_trace o (Some (trace_json str day tr))) vals w q = RDone out es vals w) /\
    (op_nometa o = true -> out = bs "{}") /\
    (op_nometa o = false -> exists body, out = body ++ q2 ",'extensions':{'tracing':" ++ trace_json str day tr ++ bs "}}" /\
       forall vals, resolve X S fuel (with_trace o None) vals w q = RDone (body ++ q2 ",'extensions':{}}") es vals w) /\
    ((forall s, exists l, jstring l (str s)) -> exists m, jtext (JObj m) out).
Proof.
  intros W X S now str day fuel o w q C N. destruct (unrun_shape W X S now str day fuel o w q N) as (out & es & T & Ne & Ok & Eo & R).
  exists out, es, (trace_end now (trace_begin now)). split; [exact T|]. split; [exact Ne|]. split; [reflexivity|]. split.
  { cbn [trace_end trace_begin tr_parsing tr_dur tr_end tr_start ts_reads trace_parsing fst snd]. pose proof (C 0 1 ltac:(lia))%nat. pose proof (C 1 2 ltac:(lia))%nat. pose proof (C 2 4 ltac:(lia))%nat. lia. }
  split; [intro vals; rewrite R, Eo; reflexivity|].
  split; [|split]; [intro M; rewrite Eo; unfold finish_of, start_of, with_trace; cbn [op_nometa op_trace]; rewrite ?M; [reflexivity..]| |].
  2: { intro Hs. rewrite Eo. unfold finish_of, start_of, with_trace. cbn [op_nometa op_trace]. destruct (op_nometa o); [exists []; exact (jt_obj _ _ jm_nil)|].
       rewrite <- app_assoc. apply envelope_text; [exists (JObj []); exact (jt_obj _ _ jm_nil)|exact Ok|]. apply trace_text; [exact Hs|constructor]. }
  intro M; rewrite Eo; unfold finish_of, start_of, with_trace; cbn [op_nometa op_trace]; rewrite ?M.
  exists ((data_start ++ [123; 125]) ++ [44; 34] ++ bs "errors" ++ [34; 58; 91] ++ errs_json es ++ [93]). destruct es as [|e es]; [contradiction|]. split.
  - unfold envelope_end. rewrite <- !app_assoc. reflexivity.
  - intro vals. pose proof (R None vals) as R0. unfold finish_of, start_of, with_trace in R0. cbn [op_nometa op_trace] in R0. rewrite M in R0. rewrite R0.
    unfold envelope_end. rewrite <- !app_assoc. reflexivity.
Qed.
Print Assumptions C53_not_executed.

(** ** Cases *)
(** a test for [types_named] *)
Fixpoint obj_named (S : schema) (o : obj) : bool :=
  match o with
  | OUndef | OData _ _ | OEnum _ | OTime | OObjRef _ | OIfaceRef _ => true
  | OArray e => obj_named S e
  | OPtr e => obj_named S e
  | OObj n fs => forallb (fun x => field_named S (snd x)) fs
  | OIface n fs is => forallb (fun x => field_named S (snd x)) fs && forallb (fun x => obj_named S (snd x)) is
  | OMethod m => method_named S m
  end
with field_named (S : schema) (f : field) : bool := match f with Field o _ _ _ _ => match return_type S o with Some _ => obj_named S o | None => false end end
with method_named (S : schema) (m : method) : bool := match m with Method _ _ _ _ _ o => obj_named S o end.
Definition schema_named (S : schema) : bool :=
  obj_named S (s_query S) && obj_named S (s_method S) && forallb (fun x => obj_named S (snd x)) (s_types S) && forallb (fun x => obj_named S (snd x)) (s_ifaces S).
Lemma schema_named_ok : forall S, schema_named S = true -> types_named S.
Proof.
  intros S H. unfold schema_named in H. repeat (apply andb_prop in H; destruct H as [H ?]).
  assert (F : forall o h f, obj_named S o = true -> nlookup (o_fields o) h = Some f -> field_named S f = true).
  { intros o h f O E. apply nlookup_in in E. destruct E as (k & E). destruct o; try contradiction; cbn in O, E; [|apply andb_prop in O; destruct O as [O _]]; eapply forallb_forall in O; eauto; exact O. }
  assert (R : forall o, reach S o -> obj_named S o = true).
  { induction 1 as [| |n o E|n o E|o h fo c i n hd R IH E|e R IH|e R IH|a b c d e o R IH|n fs is x R IH I]; auto.
    - apply slookup_in in E. destruct E as (k & E). eapply forallb_forall in H1; eauto. exact H1.
    - apply slookup_in in E. destruct E as (k & E). eapply forallb_forall in H0; eauto. exact H0.
    - pose proof (F _ _ _ IH E) as K. cbn in K. destruct (return_type S fo); [exact K|discriminate].
    - cbn in IH. apply andb_prop in IH. destruct IH as [_ IH]. eapply forallb_forall in IH; eauto. }
  intros o h fo c i n hd Ro E. pose proof (F _ _ _ (R o Ro) E) as K. cbn in K. destruct (return_type S fo); discriminate.
Qed.
Definition ticks (n : nat) : Z := (10 * Z.of_nat n)%Z.
Lemma ticks_back : never_back ticks. Proof. intros i j H. unfold ticks. lia. Qed.
Definition sday (z : Z) : bytes := bs "day".
Definition q53 : bytes := bs "{hello me{n:name friend{id}} all{name} nope}".
Definition d53 : document := parsed q53.
Definition op53 : definition := hd (DFrag [] [] []) d53.
Definition run53 (now : nat -> Z) : tresult world := resolve_traced string_to_json sday sample_x sample_schema now 100 no_opts [] d53 op53.
Definition row (e : tentry) : bytes * bytes * bytes * bytes * Z * Z := (te_path e, te_parent e, te_field e, te_return e, te_start e, te_end e).
Lemma parsed53 : g_doc d53 q53. Proof. apply ref_parse_spec. vm_compute. reflexivity. Qed.
Lemma runs53 : runs no_opts d53 op53. Proof. exists [], []. split; [vm_compute; reflexivity|]. split; [vm_compute; exact Logic.I|constructor]. Qed.
Lemma readable53 : readable sample_x sample_schema no_opts 100 [] q53.
Proof.
  intros d op G R. apply ref_parse_spec in G. assert (P : ref_parse q53 = Some (parsed q53)) by (vm_compute; reflexivity). rewrite P in G. injection G as <-.
  split; [vm_compute; repeat constructor|]. split; [vm_compute; reflexivity|].
  destruct R as (d1 & d2 & E & Sx & F). vm_compute in E. destruct d1 as [|x [|y d1]]; cbn in E; injection E; intros; subst; [|discriminate|discriminate].
  intro Hb. vm_compute in Hb. discriminate.
Qed.
(** the hypotheses of all theorems above are met together, with nested objects, a list, an alias and an unknown field, and this is what is recorded *)
Example C53_case : exists out es w' tr, run53 ticks = TDone out es w' tr /\ length es = 1%nat /\
  types_named sample_schema /\ g_doc d53 q53 /\ runs no_opts d53 op53 /\ readable sample_x sample_schema no_opts 100 [] q53 /\ nice_schema sample_schema /\
  (forall s, exists l, jstring l (string_to_json s)) /\ (forall a b, jnumber (x_float_json sample_x a b)) /\ (forall d', g_doc d' q53 -> no_holes d') /\ never_back ticks /\
  tr_parsing tr = (10, 10)%Z /\ tr_dur tr = 210%Z /\
  map row (tr_resolvers tr) =
    [(q2 "['hello']", bs "Query", bs "hello", bs "String!", 40, 50)%Z; (q2 "['me','n']", bs "User", bs "name", bs "String!", 70, 80)%Z;
     (q2 "['me','friend','id']", bs "User", bs "id", bs "ID!", 100, 110)%Z; (q2 "['me','friend']", bs "User", bs "friend", bs "User", 100, 120)%Z;
     (q2 "['me']", bs "Query", bs "me", bs "User!", 100, 130)%Z; (q2 "['all',0,'name']", bs "User", bs "name", bs "String!", 150, 160)%Z;
     (q2 "['all',1,'name']", bs "User", bs "name", bs "String!", 170, 180)%Z; (q2 "['all']", bs "Query", bs "all", bs "[User]!", 170, 190)%Z].
Proof.
  do 4 eexists. split; [vm_compute; reflexivity|]. split; [reflexivity|]. split; [apply schema_named_ok; vm_compute; reflexivity|]. split; [exact parsed53|].
  split; [exact runs53|]. split; [exact readable53|]. split; [apply schema_plain_nice; vm_compute; reflexivity|].
  split; [intro s; destruct (string_to_json_ok s) as (l & _ & J); eauto|].
  split. { intros a b. exists [], [48], [46; 48], []. split; [reflexivity|]. split; [now left|]. split; [now left|].
    split; [right; exists [48]; split; [reflexivity|split; [discriminate|repeat constructor; discriminate]]|now left]. }
  split. { intros d G. apply ref_parse_spec in G. assert (P : ref_parse q53 = Some (parsed q53)) by (vm_compute; reflexivity). rewrite P in G. injection G as <-. apply holeless_ok. vm_compute. reflexivity. }
  split; [exact ticks_back|]. split; [reflexivity|]. split; reflexivity.
Qed.
(** without errors, every field of the response is recorded once: a request with a list and a resolver *)
Definition q53b : bytes := bs "{get{name} all{friend{name} name}}".
Example C53_every_field_once_case : exists out w' tr,
  resolve_traced string_to_json sday sample_x sample_schema ticks 100 no_opts [] (parsed q53b) (hd (DFrag [] [] []) (parsed q53b)) = TDone out [] w' tr /\
  g_doc (parsed q53b) q53b /\ runs no_opts (parsed q53b) (hd (DFrag [] [] []) (parsed q53b)) /\ (forall k, ~ asked (parsed q53b) k (bs "__typename")) /\ length w' = 1%nat /\
  map te_path (tr_resolvers tr) = map q2 ["['get','name']"; "['get']"; "['all',0,'friend']"; "['all',0,'name']"; "['all',1,'friend']"; "['all',1,'name']"; "['all']"]%string.
Proof.
  do 3 eexists. split; [vm_compute; reflexivity|]. split; [apply ref_parse_spec; vm_compute; reflexivity|].
  split. { exists [], []. split; [vm_compute; reflexivity|]. split; [vm_compute; exact Logic.I|constructor]. }
  split; [|split; vm_compute; reflexivity].
  intros k (al & ds & args & subs & (y & Iy & Wy) & _).
  assert (N : forallb (fun y => forallb (fix named x := match x with SField _ n _ _ subs => negb (beqb n (bs "__typename")) && forallb named subs | SSpread _ _ => true | SInline _ _ subs => forallb named subs end) (sels_of y)) (parsed q53b) = true) by (vm_compute; reflexivity).
  eapply forallb_forall in N; [|exact Iy]. revert N. generalize dependent (sels_of y). clear. intros ss Wy N.
  remember (SField al (bs "__typename") ds args subs) as x eqn:Ex.
  induction Wy as [ss I|a' n' ds' args' subs' ss I Wy IH|n' ds' subs' ss I Wy IH].
  - subst x. eapply forallb_forall in N; [|exact I]. discriminate N.
  - apply IH. eapply forallb_forall in N; [|exact I]. apply andb_prop in N. apply N.
  - apply IH. eapply forallb_forall in N; [|exact I]. exact N.
Qed.
(** parsed schemas: one with lists, pointers, enums, interfaces and methods *)
Example C53_parsed_case : exists p s, parse sample_prog 20 g_query g_meth false None new_pst = POk p s /\
  named_apart sample_prog (roots_of sample_prog g_query g_meth false) /\ inputs_apart sample_prog (roots_of sample_prog g_query g_meth false) (more_of sample_prog false) /\
  types_named (view sample_prog p (GStruct []) (GStruct []) 0).
Proof.
  eexists _, _. split; [vm_compute; reflexivity|]. destruct (apart_ok sample_prog g_query g_meth false 10) as [NA IA]; [vm_compute; reflexivity|].
  split; [exact NA|]. split; [exact IA|]. eapply (C53_parsed sample_prog g_query g_meth false None 20); [exact NA|exact IA|vm_compute; reflexivity].
Qed.
Example C53_return_type_case : named_type sample_schema (OPtr (OObjRef (bs "User"))) (bs "User") false /\ named_type sample_schema (OData true (KInt WInt)) (bs "ID") true /\
  named_type sample_schema (OMethod (Method true args1 infields1 0 None (OObjRef (bs "User")))) (bs "User") true.
Proof. split; [|split]; repeat (econstructor; try (vm_compute; reflexivity)). Qed.
(** a field with members and one without *)
Example C53_field_case : exists ms cr t' s', t_field sample_x sample_schema [] None [] ticks 100 t_query 0 (false, v_query) 0 None (bs "me") [] None
    [SField None (bs "name") [] None []; SField None (bs "id") [] None []] (TS 7 5 []) (s0 []) = BOk ((ms, cr), t') s' /\
  map row (ts_log t') = [(q2 "['me','name']", bs "User", bs "name", bs "String!", 80, 90)%Z; (q2 "['me','id']", bs "User", bs "id", bs "ID!", 100, 110)%Z; (q2 "['me']", bs "Query", bs "me", bs "User!", 100, 120)%Z].
Proof. do 4 eexists. split; vm_compute; reflexivity. Qed.

(** a text that is no document, and one without the wanted operation *)
Example C53_not_executed_case : not_executed no_opts (bs "{hello me{name}}}") /\ not_executed (ROpts false (bs "b") [] None) (bs "query a{hello}") /\ never_back ticks /\
  match resolve_traced_unrun string_to_json sday ticks no_opts ([] : world) (bs "{hello}}"), resolve_traced_unrun string_to_json sday ticks (ROpts false (bs "b") [] None) ([] : world) (bs "query a{hello}") with
  | Some (TDone o1 e1 _ t1), Some (TDone o2 e2 _ t2) => length e1 = 1%nat /\ tr_dur t1 = 40%Z /\ tr_parsing t1 = (10, 10)%Z /\ o2 = q2 "{'data':{},'errors':[{'message':'no operator with name b found'}],'extensions':{'tracing':" ++ trace_json string_to_json sday t2 ++ bs "}}"
  | _, _ => False
  end.
Proof.
  split; [left; intros (d & G); apply ref_parse_spec in G; vm_compute in G; discriminate|]. split.
  { right. exists (parsed (bs "query a{hello}")). split; [apply ref_parse_spec; vm_compute; reflexivity|]. vm_compute. constructor; [|constructor]. intro H. vm_compute in H. discriminate. }
  split; [exact ticks_back|]. vm_compute. repeat split.
Qed.

(** ** What does not hold *)
(** An entry need not span the entries of the fields inside it: it starts with the last field that was started inside it. *)
Theorem C53_parents_span_children_refuted : exists now out es w' tr child parent, never_back now /\ run53 now = TDone out es w' tr /\
  In child (tr_resolvers tr) /\ In parent (tr_resolvers tr) /\
  te_path child = get_path_json (path_text [PKey (bs "me"); PKey (bs "n")]) /\ te_path parent = get_path_json (path_text [PKey (bs "me")]) /\
  (te_start child < te_end child /\ te_end child < te_start parent)%Z.
Proof.
  exists ticks. do 4 eexists. exists (TEntry (q2 "['me','n']") (bs "User") (bs "name") (bs "String!") 70 10), (TEntry (q2 "['me']") (bs "Query") (bs "me") (bs "User!") 100 30).
  split; [exact ticks_back|]. split; [vm_compute; reflexivity|]. split; [right; left; reflexivity|]. split; [do 4 right; left; reflexivity|]. split; [reflexivity|]. split; [reflexivity|]. vm_compute. split; reflexivity.
Qed.
Print Assumptions C53_parents_span_children_refuted.
(** Validation does not start when parsing has ended: its offset is counted from the start of parsing. *)
Definition late (n : nat) : Z := (if Nat.eqb n 0 then 0 else 100 + 10 * Z.of_nat n)%Z.
Theorem C53_validation_follows_parsing_refuted : exists now out es w' tr, never_back now /\ run53 now = TDone out es w' tr /\
  (fst (tr_validation tr) < fst (tr_parsing tr) /\ fst (tr_validation tr) < fst (tr_parsing tr) + snd (tr_parsing tr))%Z.
Proof.
  exists late. do 4 eexists. split. { intros i j H. unfold late. destruct i as [|i], j as [|j]; cbn [Nat.eqb]; lia. }
  split; [vm_compute; reflexivity|]. vm_compute. split; reflexivity.
Qed.
Print Assumptions C53_validation_follows_parsing_refuted.
(** The type of a list is not written in the notation of GraphQL (as C45): for a list of required users, [[User]!] *)
Theorem C53_list_type_refuted : exists o t, ql_type sample_schema o = Some (t, false) /\ nlookup (o_fields t_query) (fnv1 (bs "all")) = Some (Field o None 2 (bs "all") false) /\
  notation t = bs "[User!]" /\ return_type sample_schema o = Some (bs "[User]!").
Proof. exists (OArray (OObjRef (bs "User"))), (QList (QNonNull (QNamed (Some (bs "User"))))). repeat split; vm_compute; reflexivity. Qed.
Print Assumptions C53_list_type_refuted.
