(** * The paths that resolvers and directives see (C23) *)
From Coq Require Import String Arith NArith ZArith Bool List Lia.
From Verif Require Import Base Json JsonModel JsonProof Ast Grammar RefParser RefGrammar ParserModel ParserSafe ParserFacts
  ReqModel Schema ResModel EnvModel Samples Interp RunSim OpSim DocRun Facts Valid PropEnv PropValid PathLog.
Import ListNotations.
Open Scope N_scope.

(** resolver.go 124-130: GetPath of a Ctx with this path *)
Definition get_path (path : bytes) : bytes :=
  match path with
  | [] => [91; 93]
  | _ :: r => [91] ++ r ++ [93]
  end.

(** resolver.go 636 (Value.Call of a resolver) and 366-431 (call of a directive): user code that writes
    down the path it sees before it does what it does anyway *)
Definition recording {W} (X : externals W) : externals (W * list entry) :=
  {| x_call := fun w f a p => match x_call X (fst w) f a p with Some (w', r) => Some ((w', snd w ++ [(true, p)]), r) | None => None end;
     x_dir := fun w f a p => match x_dir X (fst w) f a p with Some (w', b) => Some ((w', snd w ++ [(false, p)]), b) | None => None end;
     x_ctxerr := fun w => x_ctxerr X (fst w);
     x_formfile := option_map (fun get => fun w s => let '(w', r) := get (fst w) s in ((w', snd w), r)) (x_formfile X);
     x_parse := x_parse X; x_parse_float := x_parse_float X; x_json_float := x_json_float X; x_json_int_err := x_json_int_err X;
     x_of_int := x_of_int X; x_to32 := x_to32 X; x_float_json := x_float_json X; x_gostring := x_gostring X |}.
(** any user code can be observed in this way *)
Theorem C23_recording : forall W (X : externals W), keeps_log (recording X) snd.
Proof.
  intros W X. split; [|split].
  - intros w f a p w' r H. cbn [recording x_call] in H. destruct w as [w l]. cbn [fst snd] in *. destruct (x_call X w f a p) as [[w2 r2]|]; [|discriminate H]. injection H. intros _ <-. reflexivity.
  - intros w f a p w' b H. cbn [recording x_dir] in H. destruct w as [w l]. cbn [fst snd] in *. destruct (x_dir X w f a p) as [[w2 r2]|]; [|discriminate H]. injection H. intros _ <-. reflexivity.
  - intros get w s H. cbn in H. destruct (x_formfile X) as [g|]; [|discriminate]. injection H as <-. destruct w as [w l]. cbn [fst snd]. destruct (g w s). reflexivity.
Qed.
Print Assumptions C23_recording.

(** [k] is the response key (alias or name) of a field of the document *)
Definition response_key (d : document) (k : bytes) : Prop :=
  exists alias n ds args subs, in_doc (SField alias n ds args subs) d /\ key_of alias n = k.
(** Every resolver that is called in a request sees the path of a value in the response: the keys and
    indices that lead to it, whatever errors there are.  A directive sees such a path or the path of a
    field that is left out because of its directives.  All keys are response keys of the document. *)
Theorem C23_resolver_paths : forall W (X : externals W) log S fuel o vals w q d op out es vals' w',
  keeps_log X log ->
  resolve X S fuel o vals w q = RDone out es vals' w' -> g_doc d q -> runs o d op ->
  readable X S o fuel w q ->
  exists ms calls, out = finish_of o (start_of o ++ render (x_float_json X) (TObj ms)) es /\
    log w' = log w ++ calls /\
    forall resolver path, In (resolver, path) calls -> exists p,
      path = path_text p /\ (forall k, In (PKey k) p -> response_key d k) /\
      (leads (TObj ms) p \/ resolver = false /\ names_value (TObj ms) (with_directives d) p).
Proof.
  intros W X log S fuel o vals w q d op out es vals' w' KL H G Rn Rd. destruct (Rd d op G Rn) as (Nf & Sz & Sc).
  pose proof (resolve_doc W X S fuel o vals w q d op G Nf Sz Rn) as D.
  assert (Fine : Forall (def_fine (response_key d) (with_directives d) True) d).
  { apply Forall_forall. intros y Iy. assert (K : sels_fine (response_key d) (with_directives d) True (sels_of y)).
    { apply within_fine. intros x Hx. assert (Ix : in_doc x d) by (exists y; auto).
      destruct x as [a n ds args subs| |]; cbn; auto. split; [exists a, n, ds, args, subs; auto|]. split; [|auto]. intros Nd. exists a, n, ds, args, subs. auto. }
    destruct y; exact K. }
  assert (Iop : In op d) by (destruct Rn as (d1 & d2 & -> & _); apply in_or_app; right; now left).
  pose proof (l_operation (response_key d) (with_directives d) W X S (op_vars o) log d op fuel KL Fine Iop (s0 w)) as F.
  unfold in_scope in Sc. destruct (b_operation X S (op_vars o) d op fuel (s0 w)) as [[ms c] s'| | |]; [|rewrite D in H; discriminate|rewrite D in H; discriminate|contradiction].
  destruct D as (vals2 & D). rewrite D in H. apply done_inj in H. destruct H as (<- & <- & _ & <-).
  destruct F as (calls & _ & Lg & Se). cbn [s0 r_world r_path] in *. exists ms, calls. split; [f_equal; f_equal; rewrite render_obj; reflexivity|].
  split; [exact Lg|]. intros b path I. unfold members_seen in Se. eapply Forall_forall in Se; [|exact I]. destruct Se as (p & E & O & P). cbn [fst snd app] in *.
  exists p. split; [exact E|]. split; [exact O|]. destruct P as [P|(-> & P)]; [left; exact P|right]. split; [reflexivity|]. right. exact P.
Qed.
Print Assumptions C23_resolver_paths.

(** When the object has a method or function for a field, it is called with the path of this field: the
    path of the object and the response key.  Before it only the directives of this field run, with the
    same path; what runs later belongs to the value it returned and sees longer paths. *)
Theorem C23_resolver_of_a_field : forall W (X : externals W) log S rawvars opargs fdefs fuel o dept g k alias name ds args subs m cst idx fn hd s ms c s',
  keeps_log X log ->
  nlookup (o_fields o) (fnv1 name) = Some (Field (OMethod m) cst idx fn hd) ->
  b_field X S rawvars opargs fdefs fuel o dept g k alias name ds args subs s = BOk (ms, c) s' ->
  let path := r_path s ++ path_text [PKey (match alias with Some a => a | None => name end)] in
  r_path s' = r_path s /\
  exists n calls, log (r_world s') = log (r_world s) ++ repeat (false, path) n ++ calls /\
    (calls = [] \/ exists later, calls = (true, path) :: later /\ forall b p, In (b, p) later -> exists rest, p = path ++ path_text rest).
Proof.
  intros W X log S rawvars opargs fdefs fuel o dept g k alias name ds args subs m cst idx fn hd s ms c s' KL El H path.
  assert (Fs : forall ss, sels_fine (fun _ => True) (fun _ => True) True ss) by (intro; apply within_fine; intros [] _; cbn; auto).
  destruct fuel as [|fuel]; [discriminate|].
  pose proof (l_own X S rawvars log KL opargs (fun _ => True) (fun _ => True) fdefs (fun _ _ ss _ => Fs ss) (Datatypes.S fuel) o dept g k alias name ds args subs m cst idx fn hd (Fs subs) El s) as F.
  pose proof (l_run X S rawvars log KL opargs (fun _ => True) (fun _ => True) fdefs (fun _ _ ss _ => Fs ss) fuel) as (_ & _ & _ & _ & V).
  pose proof (l_field X S rawvars log KL opargs (fun _ => True) (fun _ => True) fdefs fuel V o dept g k alias name ds args subs (proj1 (Fs [SField alias name ds args subs])) s) as F2.
  rewrite H in F, F2. destruct F as (es & P & L & e1 & e2 & Ee & A & O). destruct F2 as (es2 & _ & L2 & _ & U).
  assert (es2 = es) by (rewrite L in L2; now apply app_inv_head in L2). subst es2.
  change (match alias with Some a => a | None => name end) with (key_of alias name) in *. fold path in A, O.
  split; [exact P|]. exists (length e1), e2. split.
  - rewrite L, Ee. f_equal. f_equal. clear - A. induction A as [|x l Hx A IH]; [reflexivity|]. cbn. now rewrite <- IH, Hx.
  - destruct O as [O|(r & O)]; [left; exact O|right]. exists r. split; [exact O|]. intros b p I.
    eapply Forall_forall in U; [|rewrite Ee; apply in_or_app; right; rewrite O; right; exact I].
    destruct U as (q & Eq). cbn [snd] in Eq. exists q. rewrite Eq. unfold path. rewrite <- app_assoc, <- path_text_app. reflexivity.
Qed.
Print Assumptions C23_resolver_of_a_field.

(** GetPath gives these keys and indices as a JSON list *)
Inductive item_value : pitem -> jval -> Prop :=
| iv_key : forall k l, jchars l k -> item_value (PKey k) (JStr l)
| iv_idx : forall n t, dec_value t = Some n -> item_value (PIdx n) (JNum t).
Theorem C23_get_path : forall p d q, g_doc d q -> (forall k, In (PKey k) p -> response_key d k) ->
  exists l, Forall2 item_value p l /\ jtext (JArr l) (get_path (path_text p)).
Proof.
  intros p d q G K.
  assert (I : forall i, In i p -> exists v, item_value i v /\ jtext v (item_text i)).
  { intros [k|n] Hi; cbn [item_text].
    - destruct (K k Hi) as (a & n & ds & args & subs & Ix & <-). pose proof (doc_nice d q _ G Ix) as Nk. destruct Nk as [(l & J) _].
      exists (JStr l). split; [now constructor|]. apply jt_str. exists (key_of a n). auto.
    - exists (JNum (dec_of_N n)). split; [constructor; apply dec_of_N_ok|]. apply jt_num, jnumber_nat. }
  clear K G.
  assert (E : p = [] \/ exists l t, path_text p = 44 :: t /\ Forall2 item_value p l /\ jelems l t /\ l <> []).
  { induction p as [|i p IH]; [left; reflexivity|right]. destruct (I i (or_introl eq_refl)) as (v & V & T).
    destruct (IH (fun j Hj => I j (or_intror Hj))) as [->|(l & t & Ep & F & J & Nl)].
    - exists [v], (item_text i). cbn. rewrite app_nil_r. repeat split; auto; [now constructor|discriminate].
    - exists (v :: l), (item_text i ++ 44 :: t). unfold path_text in *. cbn [flat_map]. rewrite Ep. split; [reflexivity|]. split; [now constructor|]. split; [now constructor|discriminate]. }
  destruct E as [->|(l & t & Ep & F & J & _)].
  - exists []. split; [constructor|]. exact (jt_arr [] [] je_nil).
  - exists l. split; [exact F|]. rewrite Ep. cbn [get_path]. exact (jt_arr l t J).
Qed.
Print Assumptions C23_get_path.

(** the hypotheses are met: a list of objects with a resolver that has an error, a resolver at the top,
    fields that do not exist, a directive that leaves fields out (1) and one that does not (2) *)
Definition path_schema : schema :=
  let m := Method true args1 infields1 0 (Some 1%nat) (OData false (KInt WInt)) in
  let item := OObj (bs "Item") [fld "name" (OData false KString) 0; fld "call" (OMethod m) 0] in
  let d (n : string) (f : N) : dirdef := DirDef (bs n) [] [] (DUser f) in
  Schema [(bs "Item", item)] [] []
    (OObj (bs "Query") [fld "hello" (OData false KString) 0; fld "all" (OArray (OObjRef (bs "Item"))) 2; fld "call" (OMethod m) 0])
    v_query (OObj (bs "M") []) (GStruct []) 255 [] [(0, [d "gone"%string 1%N; d "see"%string 2%N])].
Definition doc23 := bs "{all{c:call @see nope} call h:hello @gone name @see}".
Example C23_calls_case : exists out es vals w,
  resolve (recording x_err) path_schema 1000 no_opts no_vals ([], []) doc23 = RDone out es vals w /\
  map (fun e => (fst e, get_path (snd e))) (snd w) =
    [(false, q2 "['all',0,'c']"); (true, q2 "['all',0,'c']"); (false, q2 "['all',1,'c']"); (true, q2 "['all',1,'c']");
     (true, q2 "['call']"); (false, q2 "['h']"); (false, q2 "['name']")] /\
  length es = 6%nat /\ readable (recording x_err) path_schema no_opts 1000 ([], []) doc23 /\
  exists d op, g_doc d doc23 /\ runs no_opts d op.
Proof.
  do 4 eexists. split; [vm_compute; reflexivity|]. split; [vm_compute; reflexivity|]. split; [reflexivity|].
  assert (P : ref_parse doc23 = Some (parsed doc23)) by (vm_compute; reflexivity). split.
  - intros d op G R. apply ref_parse_spec in G. rewrite P in G. injection G as <-.
    split; [vm_compute; repeat constructor|]. split; [vm_compute; reflexivity|].
    destruct R as (d1 & d2 & E & Sx & F). vm_compute in E. destruct d1 as [|x [|y d1]]; cbn in E; injection E; intros; subst.
    + intro Hb. vm_compute in Hb. discriminate.
    + discriminate.
    + discriminate.
  - destruct (parsed doc23) as [|op [|]] eqn:Ed; [vm_compute in Ed; discriminate| |vm_compute in Ed; discriminate].
    exists [op], op. split; [apply ref_parse_spec; exact P|]. exists [], []. split; [reflexivity|]. split; [|constructor].
    vm_compute in Ed. injection Ed as <-. exact Logic.I.
Qed.
(** ... and for the field [c:call @see] of the second item *)
Example C23_resolver_case : exists o m cst idx fn hd ms c s',
  slookup (s_types path_schema) (bs "Item") = Some o /\
  nlookup (o_fields o) (fnv1 (bs "call")) = Some (Field (OMethod m) cst idx fn hd) /\
  b_field (recording x_err) path_schema [] None [] 100 o 0 (false, user "y" 4 None) 0 (Some (bs "c")) (bs "call") [Dir (bs "see") None] None []
    (set_path (q2 ",'all',1") (s0 ([], []))) = BOk (ms, c) s' /\
  snd (r_world s') = [(false, q2 ",'all',1,'c'"); (true, q2 ",'all',1,'c'")].
Proof. do 9 eexists. split; [vm_compute; reflexivity|]. split; [vm_compute; reflexivity|]. split; vm_compute; reflexivity. Qed.
