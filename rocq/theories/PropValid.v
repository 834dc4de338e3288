(** * The response as JSON text (C14) and the paths of errors (C23) *)
From Coq Require Import String Arith NArith ZArith Bool List Lia.
From Verif Require Import Base Json JsonModel JsonProof JsonUnique Ast Grammar RefParser RefGrammar ParserModel ParserSafe ParserFacts
  ReqModel Schema ResModel EnvModel Samples Interp RunSim OpSim DocRun Facts Valid PropEnv.
Import ListNotations.
Open Scope N_scope.

(** ** What is asked of a schema: its names can be written into a JSON string as they are *)
Definition nice_schema (S : schema) : Prop :=
  (forall o, reach S o -> nice (o_name o)) /\ (forall e n v, In e (s_enums S) -> In (n, v) (en_entries e) -> nice n).
(** a test that is enough for it: only plain ASCII in all names *)
Definition plainb (n : bytes) : bool := forallb (fun c => (32 <=? c) && (c <? 128) && negb (c =? 34) && negb (c =? 92)) n.
Fixpoint obj_plain (o : obj) : bool :=
  match o with
  | OUndef | OData _ _ | OEnum _ | OTime => true
  | OArray e => obj_plain e
  | OPtr e => obj_plain e
  | OObjRef n => plainb n
  | OIfaceRef n => plainb n
  | OObj n fs => plainb n && forallb (fun x => field_plain (snd x)) fs
  | OIface n fs is => plainb n && forallb (fun x => field_plain (snd x)) fs && forallb (fun x => obj_plain (snd x)) is
  | OMethod m => method_plain m
  end
with field_plain (f : field) : bool := match f with Field o _ _ _ _ => obj_plain o end
with method_plain (m : method) : bool := match m with Method _ _ _ _ _ o => obj_plain o end.
Definition schema_plain (S : schema) : bool :=
  obj_plain (s_query S) && obj_plain (s_method S) && forallb (fun x => obj_plain (snd x)) (s_types S) &&
  forallb (fun x => obj_plain (snd x)) (s_ifaces S) && forallb (fun e => forallb (fun x => plainb (fst x)) (en_entries e)) (s_enums S).
Lemma plainb_nice : forall n, plainb n = true -> nice n.
Proof.
  intros n H. apply plain_nice. unfold plainb in H. rewrite forallb_forall in H. apply Forall_forall. intros c I. specialize (H c I).
  unfold plain_char. repeat (apply andb_prop in H; destruct H as [H ?]). rewrite negb_true_iff in *. rewrite N.eqb_neq in *. lia.
Qed.
Lemma slookup_in : forall A (l : list (bytes * A)) k v, slookup l k = Some v -> exists k', In (k', v) l.
Proof.
  induction l as [|[k' x] l IH]; intros k v H; cbn in H; [discriminate|]. destruct (beqb k k').
  - injection H as <-. eexists. left; reflexivity.
  - destruct (IH k v H) as (k2 & I). eexists. right; eauto.
Qed.
Lemma nlookup_in : forall A (l : list (N * A)) k v, nlookup l k = Some v -> exists k', In (k', v) l.
Proof.
  induction l as [|[k' x] l IH]; intros k v H; cbn in H; [discriminate|]. destruct (k =? k').
  - injection H as <-. eexists. left; reflexivity.
  - destruct (IH k v H) as (k2 & I). eexists. right; eauto.
Qed.
Lemma schema_plain_nice : forall S, schema_plain S = true -> nice_schema S.
Proof.
  intros S H. unfold schema_plain in H. repeat (apply andb_prop in H; destruct H as [H ?]).
  assert (R : forall o, reach S o -> obj_plain o = true).
  { induction 1 as [| |n o E|n o E|o h fo c i n hd R IH E|e R IH|e R IH|a b c d e o R IH|n fs is x R IH I]; auto.
    - apply slookup_in in E. destruct E as (k & E). eapply forallb_forall in H2; eauto. exact H2.
    - apply slookup_in in E. destruct E as (k & E). eapply forallb_forall in H1; eauto. exact H1.
    - apply nlookup_in in E. destruct E as (k & E). destruct o; try contradiction; cbn in IH, E.
      + apply andb_prop in IH. destruct IH as [_ IH]. eapply forallb_forall in IH; eauto. exact IH.
      + apply andb_prop in IH. destruct IH as [IH _]. apply andb_prop in IH. destruct IH as [_ IH]. eapply forallb_forall in IH; eauto. exact IH.
    - cbn in IH. apply andb_prop in IH. destruct IH as [_ IH]. eapply forallb_forall in IH; eauto. }
  split.
  - intros o Ro. apply R in Ro. destruct o; cbn in *; try (exists []; constructor); try (now apply plainb_nice);
    repeat (apply andb_prop in Ro; destruct Ro as [Ro ?]); now apply plainb_nice.
  - intros e n v I J. eapply forallb_forall in H0; eauto. eapply forallb_forall in H0; eauto. now apply plainb_nice.
Qed.

(** ** C14 *)
(** the two constructs whose failure leaves a hole in the text: arguments, and a sub-selection on [__typename] *)
Definition no_holes (d : document) : Prop := forall a n ds args subs, in_doc (SField a n ds args subs) d ->
  args = None /\ (n = bs "__typename" -> subs = []).
(** the run stays inside the part of the interpreter that Interp.v describes *)
Definition readable {W} (X : externals W) (S : schema) (o : ropts) (fuel : nat) (w : W) (q : bytes) : Prop :=
  forall d op, g_doc d q -> runs o d op ->
    nul_free d /\ N.of_nat (length (enc_doc d)) < 4294967296 /\ in_scope X S o d op fuel w.
(** Every response without errors is one well-formed JSON object, and every response to a request that
    is rejected or has neither arguments nor a sub-selection on [__typename], whatever goes wrong.
    [X], that is resolvers, directives and their errors, is arbitrary, apart from FloatToJSON giving numbers. *)
Theorem C14_response_is_json : forall W (X : externals W) S fuel o vals w q out es vals' w',
  resolve X S fuel o vals w q = RDone out es vals' w' ->
  readable X S o fuel w q ->
  nice_schema S -> (forall a b, jnumber (x_float_json X a b)) ->
  (forall t, op_trace o = Some t -> exists v, jtext v t) ->
  es = [] \/ (forall d, g_doc d q -> no_holes d) ->
  exists m, jtext (JObj m) out.
Proof.
  intros W X S fuel o vals w q out es vals' w' H Rd (Hn & He) Hf Ht Hh.
  assert (Tr : match op_trace o with Some t => exists v, jtext v t | None => True end) by (destruct (op_trace o); auto).
  assert (Empty : exists v, jtext v [123; 125]) by (exists (JObj []); exact (jt_obj _ _ jm_nil)).
  assert (Fin : forall data es, (exists m, jtext (JObj m) data) -> Forall err_ok es -> exists m, jtext (JObj m) (finish_of o (start_of o ++ data) es)).
  { intros data es0 D E. unfold finish_of, start_of. destruct (op_nometa o); [exact D|]. rewrite <- app_assoc. apply envelope_text; auto. destruct D; eauto. }
  assert (E0 : exists m, jtext (JObj m) [123; 125]) by (exists []; exact (jt_obj _ _ jm_nil)).
  destruct (ref_parse q) as [d|] eqn:Er.
  2: { assert (N : ~ exists d, g_doc d q) by (intros (d & G); apply ref_parse_spec in G; rewrite Er in G; discriminate).
       destruct (rejected q (target_of o) N) as (s & P & E). unfold resolve in H. rewrite P in H. unfold resolve_parsed in H.
       destruct (p_errs s) as [|e0 es0]; [contradiction|]. apply done_inj in H. destruct H as (<- & _).
       change (if op_nometa o then [] else data_start) with (start_of o).
       match goal with |- exists m, jtext _ ?t => change t with (finish_of o (start_of o ++ [123; 125]) (map EParse (e0 :: es0))) end.
       apply Fin; auto. apply Forall_forall. intros x I. apply in_map_iff in I. destruct I as (p & <- & _). exact I. }
  apply ref_parse_spec in Er. rename Er into G.
  assert (Cases : (exists op, runs o d op) \/ Forall (fun x => ~ selected (target_of o) x) d).
  { destruct (denotes_accepted q (target_of o) d G) as (s & P & _). pose proof (target_chosen q (target_of o) d s G P) as C.
    destruct (p_tgt s) as [n|]; [left|right; exact C]. destruct C as (d1 & x & d2 & E & Sx & Fx & _). exists x, d1, d2. auto. }
  destruct Cases as [(op & Rn)|No].
  2: { destruct (denotes_accepted q (target_of o) d G) as (s & P & E & R & Fr & T).
       pose proof (target_chosen q (target_of o) d s G P) as C. destruct (p_tgt s) as [n|] eqn:Tg.
       { exfalso. destruct C as (d1 & x & d2 & -> & Sx & _). apply Forall_app in No. destruct No as [_ F]. inversion F; subst. contradiction. }
       unfold resolve in H. rewrite P in H. unfold resolve_parsed in H. rewrite E, Tg in H. apply done_inj in H. destruct H as (<- & _).
       match goal with |- exists m, jtext _ ?t => change t with (finish_of o (start_of o ++ [123; 125]) [ERun (RErr (match op_target o with
                               | [] => bs "no operator found"
                               | tt0 => bs "no operator with name " ++ tt0 ++ bs " found"
                               end) None)]) end.
       apply Fin; auto. repeat constructor. }
  destruct (Rd d op G Rn) as (Nf & Sz & Sc).
  pose proof (resolve_doc W X S fuel o vals w q d op G Nf Sz Rn) as D.
  set (dk := fun k => nice k).
  set (hl := es = [] -> False).
  assert (Fine : Forall (def_fine nice nice (~ no_holes d)) d).
  { apply Forall_forall. intros y Iy. assert (K : sels_fine nice nice (~ no_holes d) (sels_of y)).
    { apply within_fine. intros x Hx. assert (Ix : in_doc x d) by (exists y; auto). pose proof (doc_nice d q x G Ix) as Kx.
      destruct x as [a n ds args subs| |]; cbn; auto. destruct Kx as [Kx _]. repeat split; auto.
      - intros Na Hno. destruct (Hno _ _ _ _ _ Ix) as [A _]. contradiction.
      - intros Nt Ns Hno. destruct (Hno _ _ _ _ _ Ix) as [_ A]. apply Ns. auto. }
    destruct y; exact K. }
  assert (Iop : In op d) by (destruct Rn as (d1 & d2 & -> & _); apply in_or_app; right; now left).
  pose proof (f_operation nice nice (~ no_holes d) W X S (op_vars o) d op fuel Hn He Fine Iop (s0 w)) as F.
  unfold in_scope in Sc. destruct (b_operation X S (op_vars o) d op fuel (s0 w)) as [[ms c] s'| | |]; [|rewrite D in H; discriminate|rewrite D in H; discriminate|contradiction].
  destruct D as (vals2 & D). rewrite D in H. apply done_inj in H. destruct H as (<- & <- & _).
  destruct F as (es' & (_ & Ee & _) & Om & _ & Pl). cbn [fst s0 r_errs r_path app] in *. rewrite Ee.
  rewrite Ee in Hh. apply Fin.
  - apply obj_text; [exact Hf|]. change (okt nice False (TObj ms)); refine (okt_impl nice _ False (TObj ms) _ Om). intros [Nh Ne]. destruct Hh as [Hh|Hh]; [destruct es'; [contradiction|discriminate]|]. apply Nh. auto.
  - apply Forall_forall. intros x I. apply in_map_iff in I. destruct I as (e & <- & I). eapply Forall_forall in Pl; [|exact I].
    destruct (placed_nice nice _ _ _ Pl Om (fun k K => K)) as [Pn|(vs & p & Ep & J & _)]; unfold err_ok; [rewrite Pn; exact Logic.I|].
    rewrite Ep. destruct p; [exact Logic.I|]. eauto.
Qed.
Print Assumptions C14_response_is_json.

(** and there is only one way to read it *)
Theorem C14_one_value : forall v v' t, jtext v t -> jtext v' t -> v = v'.
Proof. exact jtext_unique. Qed.
Print Assumptions C14_one_value.
Example C14_one_value_case : jtext (JObj [(bs "a", JArr [JNum (bs "1"); JStr [228]]); (bs "b", JNull)]) (bs "{""a"":[1,""\u00e4""],""b"":null}").
Proof.
  change (bs "{""a"":[1,""\u00e4""],""b"":null}") with (123 :: ((34 :: bs "a" ++ [34]) ++ 58 :: (91 :: (bs "1" ++ 44 :: (34 :: [92; 117; 48; 48; 101; 52] ++ [34])) ++ [93]) ++ 44 :: ((34 :: bs "b" ++ [34]) ++ 58 :: bs "null")) ++ [125]).
  constructor. apply jm_cons; [|constructor|apply jm_one; [|constructor]|discriminate].
  - exists (bs "a"). split; [reflexivity|]. apply (jc_raw 97 [] []); [left|..|constructor]; lia.
  - apply je_cons; [constructor|apply je_one; constructor|discriminate].
    + exists [], (bs "1"), [], []. split; [reflexivity|]. split; [now left|]. split; [right; exists 49, []; repeat split; auto; lia|]. split; now left.
    + exists [92; 117; 48; 48; 101; 52]. split; [reflexivity|]. apply (jc_hex 48 48 101 52 228 [] []); [|left; lia|constructor]. exists 0, 0, 14, 4. repeat split.
  - exists (bs "b"). split; [reflexivity|]. apply (jc_raw 98 [] []); [left|..|constructor]; lia.
Qed.

(** The full claim is false: an argument that does not fit its type, and a sub-selection on [__typename] *)
Theorem C14_argument_error_refuted : exists q out es vals w,
  run sample_x sample_schema no_opts q = RDone out es vals w /\ ~ exists v, jtext v out.
Proof. exists (bs "{call(a:500) hello}"). do 4 eexists. split; [vm_compute; reflexivity|]. apply not_json. vm_compute. reflexivity. Qed.
Print Assumptions C14_argument_error_refuted.
Theorem C14_typename_selection_refuted : exists q out es vals w,
  run sample_x sample_schema no_opts q = RDone out es vals w /\ ~ exists v, jtext v out.
Proof. exists (bs "{me{__typename{x}}}"). do 4 eexists. split; [vm_compute; reflexivity|]. apply not_json. vm_compute. reflexivity. Qed.
Print Assumptions C14_typename_selection_refuted.

(** a test for it *)
Fixpoint holeless (x : sel) : bool :=
  match x with
  | SField _ n _ args subs =>
      (match args with None => true | Some _ => false end) && (negb (beqb n (bs "__typename")) || match subs with [] => true | _ => false end) &&
      forallb holeless subs
  | SSpread _ _ => true
  | SInline _ _ subs => forallb holeless subs
  end.
Lemma holeless_ok : forall d, forallb (fun y => forallb holeless (sels_of y)) d = true -> no_holes d.
Proof.
  intros d H a n ds args subs (y & Iy & Wy). eapply forallb_forall in H; [|exact Iy].
  revert H. generalize dependent (sels_of y). clear. intros ss Wy H.
  assert (K : holeless (SField a n ds args subs) = true).
  { induction Wy as [ss I|a' n' ds' args' subs' ss I Wy IH|n' ds' subs' ss I Wy IH].
    - eapply forallb_forall in H; eauto.
    - apply IH. eapply forallb_forall in H; eauto. cbn in H. now apply andb_prop in H.
    - apply IH. eapply forallb_forall in H; eauto. exact H. }
  cbn in K. apply andb_prop in K. destruct K as [K _]. apply andb_prop in K. destruct K as [K1 K2]. split; [destruct args; [discriminate|reflexivity]|].
  intros ->. destruct subs; auto. discriminate K2.
Qed.
(** the hypotheses are met, by a request with aliases, lists, resolvers with errors, directives that are
    wrong and fields that do not exist *)
Definition doc14 := bs "{call all{__typename ...f @skip(no:1)} x:me{id nope} ...f} fragment f on User{name}".
Example C14_case : exists out es vals w,
  run x_err sample_schema no_opts doc14 = RDone out es vals w /\ length es = 4%nat /\
  readable x_err sample_schema no_opts 1000 [] doc14 /\ nice_schema sample_schema /\
  (forall a b, jnumber (x_float_json x_err a b)) /\ (forall d, g_doc d doc14 -> no_holes d).
Proof.
  do 4 eexists. split; [vm_compute; reflexivity|]. split; [reflexivity|].
  assert (P : ref_parse doc14 = Some (parsed doc14)) by (vm_compute; reflexivity).
  split; [|split; [|split]].
  - intros d op G R. apply ref_parse_spec in G. rewrite P in G. injection G as <-.
    split; [vm_compute; repeat constructor|]. split; [vm_compute; reflexivity|].
    destruct R as (d1 & d2 & E & Sx & F). vm_compute in E. destruct d1 as [|x [|y [|z d1]]]; cbn in E; injection E; intros; subst.
    + intro Hb. vm_compute in Hb. discriminate.
    + cbn in Sx. contradiction.
    + discriminate.
    + discriminate.
  - apply schema_plain_nice. vm_compute. reflexivity.
  - intros a b. exists [], [48], [46; 48], []. split; [reflexivity|]. split; [now left|]. split; [now left|].
    split; [right; exists [48]; split; [reflexivity|split; [discriminate|repeat constructor; discriminate]]|now left].
  - intros d G. apply ref_parse_spec in G. rewrite P in G. injection G as <-. apply holeless_ok. vm_compute. reflexivity.
Qed.

(** ** C23: the paths of errors *)
(** [names_value t skipped p]: the keys and indices [p] lead to a value in the response [t], or to a
    field that was left out because of its directives *)
Definition names_value (t : rt) (skipped : bytes -> Prop) (p : list pitem) : Prop :=
  leads t p \/ exists p' k, p = p' ++ [PKey k] /\ leads t p' /\ skipped k.
Definition with_directives (d : document) (k : bytes) : Prop :=
  exists alias n ds args subs, in_doc (SField alias n ds args subs) d /\ ds <> [] /\ key_of alias n = k.
(** Every error comes with the path (items separated by commas) of a value in the response, or of a
    field with directives that is left out; errors at the root have no path. *)
Theorem C23_error_paths : forall W (X : externals W) S fuel o vals w q d op out es vals' w',
  resolve X S fuel o vals w q = RDone out es vals' w' -> g_doc d q -> runs o d op ->
  readable X S o fuel w q ->
  exists ms, out = finish_of o (start_of o ++ render (x_float_json X) (TObj ms)) es /\
    Forall (fun x => exists e p, x = ERun e /\ names_value (TObj ms) (with_directives d) p /\
      re_path e = match path_text p with [] => None | _ :: t => Some t end) es.
Proof.
  intros W X S fuel o vals w q d op out es vals' w' H G Rn Rd. destruct (Rd d op G Rn) as (Nf & Sz & Sc).
  pose proof (resolve_doc W X S fuel o vals w q d op G Nf Sz Rn) as D.
  assert (Fine : Forall (def_fine (fun _ => True) (with_directives d) True) d).
  { apply Forall_forall. intros y Iy. assert (K : sels_fine (fun _ => True) (with_directives d) True (sels_of y)).
    { apply within_fine. intros x Hx. assert (Ix : in_doc x d) by (exists y; auto).
      destruct x as [a n ds args subs| |]; cbn; auto. split; auto. split; [|auto]. intros Nd. exists a, n, ds, args, subs. auto. }
    destruct y; exact K. }
  assert (Iop : In op d) by (destruct Rn as (d1 & d2 & -> & _); apply in_or_app; right; now left).
  pose proof (f_operation (fun _ => True) (with_directives d) True W X S (op_vars o) d op fuel (fun _ _ => Logic.I) (fun _ _ _ _ _ => Logic.I) Fine Iop (s0 w)) as F.
  unfold in_scope in Sc. destruct (b_operation X S (op_vars o) d op fuel (s0 w)) as [[ms c] s'| | |]; [|rewrite D in H; discriminate|rewrite D in H; discriminate|contradiction].
  destruct D as (vals2 & D). rewrite D in H. apply done_inj in H. destruct H as (<- & <- & _).
  destruct F as (es' & (_ & Ee & _) & _ & _ & Pl). cbn [fst s0 r_errs r_path app] in *. rewrite Ee. exists ms. split.
  - f_equal. f_equal. clear. rewrite render_obj. reflexivity.
  - apply Forall_forall. intros x I. apply in_map_iff in I. destruct I as (e & <- & I). eapply Forall_forall in Pl; [|exact I].
    destruct Pl as (p & Ep & Hp). exists e, p. split; [reflexivity|]. split; [exact Hp|exact Ep].
Qed.
Print Assumptions C23_error_paths.
(** ... and the errors raised while one field is resolved all have paths that begin with the path of
    this field: the path of the object and the response key; afterwards the path is as it was before. *)
Theorem C23_errors_of_a_field : forall W (X : externals W) S rawvars opargs fdefs fuel o dept g k alias name ds args subs s ms c s',
  reach S o ->
  b_field X S rawvars opargs fdefs fuel o dept g k alias name ds args subs s = BOk (ms, c) s' ->
  r_path s' = r_path s /\
  exists es, r_errs s' = r_errs s ++ es /\
    Forall (fun e => exists p, re_path e = strip (r_path s ++ path_text (PKey (match alias with Some a => a | None => name end) :: p))) es.
Proof.
  intros W X S rawvars opargs fdefs fuel o dept g k alias name ds args subs s ms c s' R H.
  assert (Fs : forall ss, sels_fine (fun _ => True) (fun _ => True) True ss) by (intro; apply within_fine; intros [] _; cbn; auto).
  destruct fuel as [|fuel]; [discriminate|].
  pose proof (f_run (fun _ => True) (fun _ => True) True X S rawvars opargs fdefs (fun _ _ => Logic.I) (fun _ _ _ _ _ => Logic.I) (fun _ _ ss _ => Fs ss) fuel) as (_ & _ & _ & _ & V).
  pose proof (f_field (fun _ => True) (fun _ => True) True X S rawvars opargs fdefs (fun _ _ => Logic.I) fuel V o dept g k alias name ds args subs R) as F.
  specialize (F (proj1 (Fs [SField alias name ds args subs])) s). rewrite H in F. destruct F as (es & (P & E & _) & _ & B).
  split; auto. exists es. split; auto.
Qed.
Print Assumptions C23_errors_of_a_field.
(** the hypotheses are met, as C14_case shows for this request; these are its paths *)
Example C23_case : exists out es vals w, run x_err sample_schema no_opts doc14 = RDone out es vals w /\
  map (fun e => match e with ERun r => re_path r | _ => None end) es =
  map (fun s => Some (q2 s)) ["'call'"; "'all',0"; "'all',1"; "'x','nope'"]%string.
Proof. do 4 eexists. split; [vm_compute; reflexivity|]. vm_compute. reflexivity. Qed.
Example C23_field_case : exists ms c s', reach sample_schema (s_query sample_schema) /\
  b_field sample_x sample_schema [] None [] 100 (s_query sample_schema) 0 (false, s_qvalue sample_schema) 0 (Some (bs "x")) (bs "me") [] None
    [SField None (bs "nope") [] None []] (set_path (bs ",0") (s0 [])) = BOk (ms, c) s' /\
  map (fun e => re_path e) (r_errs s') = [Some (q2 "0,'x','nope'")].
Proof. do 3 eexists. split; [constructor|]. split; [vm_compute; reflexivity|]. vm_compute. reflexivity. Qed.
