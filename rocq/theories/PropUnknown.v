(** * Property C21: names that are not fields *)
From Coq Require Import String Arith NArith ZArith Bool List Lia.
From Verif Require Import Base Json JsonModel Ast Grammar RefGrammar ReqModel Schema ResModel EnvModel Samples Interp RunSim Facts DocRun PropEnv Spec SpecRun SpecDoc Regular PropExec PropSel ArgRun PropArgs PropOut.
Import ListNotations.
Open Scope N_scope.
Local Notation SN := Datatypes.S.

(** ** Specification *)
(** the type [o] has no field [n] *)
Definition no_field (o : obj) (n : bytes) : Prop := n <> bs "__typename" /\ forall e, In e (o_fields o) -> fname_of (snd e) <> n.
(** the hash of [n] is not that of a field of [o] *)
Definition no_collision (o : obj) (n : bytes) : Prop := forall e, In e (o_fields o) -> fnv1 (fname_of (snd e)) <> fnv1 n.
(** [q] asks the query or mutation object for one field, with or without alias, arguments and selections *)
Definition asks_only (o : ropts) (kd : opkind) (alias : option bytes) (n : bytes) (q : bytes) : Prop :=
  exists d nm decls args subs, g_doc d q /\ nul_free d /\ N.of_nat (length (enc_doc d)) < 4294967296 /\ kd <> OpSubscription /\
    runs o d (DOp kd nm decls [] [SField alias n [] args subs]).
(** [inside S o v t x]: in the value [v] of type [o] there is the object [x] of type [t] *)
Inductive inside (S : schema) : obj -> gval -> obj -> gval -> Prop :=
| in_obj : forall n fs v, inside S (OObj n fs) v (OObj n fs) v
| in_named : forall n t v, slookup (s_types S) n = Some t -> inside S (OObjRef n) v t v
| in_ptr : forall o v t x, inside S o v t x -> inside S (OPtr o) (GPtr (Some v)) t x
| in_slice : forall o l v t x, In v l -> inside S o v t x -> inside S (OArray o) (GSlice (Some l)) t x
| in_array : forall o l v t x, In v l -> inside S o v t x -> inside S (OArray o) (GArray l) t x.
(** [unknown S frags o v ss]: among the selections [ss] on the object [v] of type [o] there is, at some depth of the
    selections and of the data, one of a name that is not a field of the type of the object there *)
Inductive unknown (S : schema) (frags : list (bytes * bytes * list sel)) : obj -> gval -> list sel -> Prop :=
| uk_here : forall o v alias n args subs ss, In (SField alias n [] args subs) ss -> no_field o n -> unknown S frags o v ss
| uk_inline : forall o v sub ss, In (SInline (o_name o) [] sub) ss -> unknown S frags o v sub -> unknown S frags o v ss
| uk_spread : forall o v n sub ss, In (SSpread n []) ss -> fragment frags n = Some (o_name o, sub) -> unknown S frags o v sub -> unknown S frags o v ss
| uk_below : forall o fs alias n subs ss h fo idx hd e v t x, In (SField alias n [] None subs) ss ->
    In (h, Field fo None idx n hd) (o_fields o) -> (forall f, In f (o_fields o) -> fname_of (snd f) = n -> snd f = Field fo None idx n hd) ->
    nth_error fs idx = Some (e, v) -> inside S fo v t x -> unknown S frags t x subs -> unknown S frags o (GStruct fs) ss.

(** ** Proof *)
Lemma not_looked_up : forall l n, (forall e, In e l -> fst e = fnv1 (fname_of (snd e))) -> (forall e, In e l -> fnv1 (fname_of (snd e)) <> fnv1 n) -> nlookup l (fnv1 n) = None.
Proof.
  induction l as [|[h f] r IH]; intros n K U; [reflexivity|]. cbn [nlookup]. assert (Kf : h = fnv1 (fname_of f)) by (apply (K (h, f)); now left). subst h.
  destruct (fnv1 n =? fnv1 (fname_of f)) eqn:E; [apply N.eqb_eq in E; exfalso; apply (U (fnv1 (fname_of f), f)); auto; now left|].
  apply IH; intros; [apply K|apply U]; now right.
Qed.
Lemma not_named : forall o n, no_field o n -> field_named o n = None.
Proof.
  intros o n [_ H]. unfold field_named. destruct (find _ _) as [e|] eqn:E; [|reflexivity]. apply find_some in E. destruct E as [I E]. apply beqb_eq in E. exfalso. eapply H; eauto.
Qed.
Lemma is_named : forall o n h fo idx hd, In (h, Field fo None idx n hd) (o_fields o) -> (forall f, In f (o_fields o) -> fname_of (snd f) = n -> snd f = Field fo None idx n hd) ->
  field_named o n = Some (Field fo None idx n hd).
Proof.
  intros o n h fo idx hd I H. unfold field_named. destruct (find _ _) as [e|] eqn:E.
  - apply find_some in E. destruct E as [Ie E]. apply beqb_eq in E. cbn. f_equal. apply H; auto.
  - exfalso. apply find_none with (x := (h, Field fo None idx n hd)) in E; auto. cbn in E. rewrite beqb_refl in E. discriminate.
Qed.
Section Below.
Context {W : Type} (X : externals W) (S : schema) (rawvars : bytes) (decls : option (list oparg)) (fdefs : list (bytes * bytes * list sel)).
Notation sels := (sels X S rawvars decls fdefs field_named).
Notation field := (Spec.field X S rawvars decls fdefs field_named).
Notation value := (Spec.value X S rawvars decls fdefs field_named).
Notation elems := (elems X S rawvars decls fdefs field_named).
Lemma no_dirs : forall p loc w w' b, dirs_say X S rawvars decls p loc w [] w' b -> b = false.
Proof. intros p loc w w' b H. inversion H; reflexivity. Qed.
Lemma each : forall p o d g k w ss ms w', sels p o d g k w ss ms w' -> forall x, In x ss ->
  match x with
  | SField alias n ds args subs => exists w1 ms1 w2, field p o d g k w1 alias n ds args subs ms1 w2
  | SInline tn ds sub => ds = [] -> tn = o_name o -> exists w1 ms1 w2, sels p o d g k w1 sub ms1 w2
  | SSpread n ds => forall sub, ds = [] -> fragment fdefs n = Some (o_name o, sub) -> exists w1 ms1 w2, sels p o d g k w1 sub ms1 w2
  end.
Proof.
  intros p o d g k w ss ms w' H. induction H; intros x I; try contradiction; (destruct I as [E|I]; [subst|first [now apply IHsels|now apply IHsels2]]); eauto; intros; subst; try (match goal with D : dirs_say _ _ _ _ _ _ _ _ _ _ |- _ => apply no_dirs in D; discriminate end); try congruence; eauto.
  match goal with A : fragment _ _ = Some _, B : fragment _ _ = Some _ |- _ => rewrite A in B; injection B; intros; subst end. eauto.
Qed.
Lemma each_elem : forall p o d ro n l k w subs ts w', elems p o d ro n l k w subs ts w' -> forall v, In v l -> exists p1 w1 t1 w2, value p1 o d (ro, v) k w1 None subs t1 w2.
Proof. intros p o d ro n l k w subs ts w' H. induction H; intros x I; [contradiction|]. destruct I as [->|I]; eauto 6. Qed.
Lemma object : forall o v t x, inside S o v t x -> forall p d ro k w subs r w', value p o d (ro, v) k w None subs r w' -> exists p1 d1 k1 w1 ms w2, sels p1 t d1 (ro, x) k1 w1 subs ms w2.
Proof.
  intros o v t x H. induction H; intros p d ro k w subs r w' V; inversion V; subst; try contradiction; eauto 8.
  - match goal with E : type_of _ _ = Some _ |- _ => cbn in E; injection E; intros; subst end. eauto 8.
  - match goal with E : type_of _ _ = Some _ |- _ => cbn in E; rewrite H in E; injection E; intros; subst end. eauto 8.
  - match goal with E : type_of _ _ = None |- _ => cbn in E; rewrite H in E; discriminate end.
  - match goal with E : elems _ _ _ _ _ _ _ _ _ _ _ |- _ => destruct (each_elem _ _ _ _ _ _ _ _ _ _ _ E _ H) as (p1 & w1 & t1 & w2 & V1) end. eapply IHinside; eauto.
  - match goal with E : elems _ _ _ _ _ _ _ _ _ _ _ |- _ => destruct (each_elem _ _ _ _ _ _ _ _ _ _ _ E _ H) as (p1 & w1 & t1 & w2 & V1) end. eapply IHinside; eauto.
Qed.
Lemma place_of : forall ro fs fo idx e v v', nth_error fs idx = Some (e, v) -> match fo with OMethod _ => False | _ => True end -> field_place (ro, GStruct fs) fo None idx v' -> exists ro', v' = (ro', v).
Proof. intros ro fs fo idx e v v' N M H. inversion H; subst; try contradiction. rewrite N in *. match goal with E : Some _ = Some _ |- _ => injection E; intros; subst end. eauto. Qed.
Lemma not_method : forall o v t x, inside S o v t x -> match o with OMethod _ => False | _ => True end.
Proof. intros o v t x H. inversion H; exact Logic.I. Qed.
Lemma unknown_fails : forall o v ss, unknown S fdefs o v ss -> forall p d ro k w ms w', ~ sels p o d (ro, v) k w ss ms w'.
Proof.
  intros o v ss H. induction H as [o v alias n args subs ss I N|o v sub ss I U IH|o v n sub ss I F U IH|o fs alias n subs ss h fo idx hd e v t x I Fi Fu Nt In U IH]; intros p d ro k w ms w' H'; pose proof (each _ _ _ _ _ _ _ _ _ H' _ I) as E; cbv beta iota in E.
  - destruct E as (w1 & ms1 & w2 & E). inversion E; subst.
    + match goal with D : dirs_say _ _ _ _ _ _ _ _ _ _ |- _ => apply no_dirs in D; discriminate end.
    + destruct N as [N _]. now apply N.
    + rewrite (not_named _ _ N) in *. discriminate.
  - destruct E as (w1 & ms1 & w2 & E); auto. eapply IH; eauto.
  - destruct (E sub) as (w1 & ms1 & w2 & E'); auto. eapply IH; eauto.
  - destruct E as (w1 & ms1 & w2 & E). pose proof (is_named _ _ _ _ _ _ Fi Fu) as L. inversion E; subst.
    + match goal with D : dirs_say _ _ _ _ _ _ _ _ _ _ |- _ => apply no_dirs in D; discriminate end.
    + congruence.
    + match goal with A : field_named _ _ = Some _ |- _ => rewrite L in A; injection A; intros; subst end.
      match goal with A : field_place _ _ _ _ _ |- _ => destruct (place_of _ _ _ _ _ _ _ Nt (not_method _ _ _ _ In) A) as (ro' & ->) end.
      match goal with A : value _ _ _ _ _ _ _ _ _ _ |- _ => destruct (object _ _ _ _ In _ _ _ _ _ _ _ _ A) as (p1 & d1 & k1 & w30 & ms0 & w4 & Z) end. eapply IH; eauto.
Qed.
End Below.

Section C21.
Context {W : Type} (X : externals W) (S : schema) (o : ropts).
(** a name that is not a field, and has not the hash of one, gives null and one error that names it, at its place *)
Theorem C21_unknown : forall kd alias n q w fuel vals, keyed S -> asks_only o kd alias n q ->
  no_field (fst (root S kd)) n -> no_collision (fst (root S kd)) n -> (3 <= fuel)%nat ->
  let key := match alias with Some a => a | None => n end in
  let es := [ERun (RErr (n ++ bs " does not exists on " ++ o_name (fst (root S kd))) (Some (quoted key)))] in
  exists vals', resolve X S fuel o vals w q = RDone (finish_of o (start_of o ++ bs "{" ++ quoted key ++ bs ":null}") es) es vals' w.
Proof.
  intros kd alias n q w fuel vals K (d & nm & decls & args & subs & G & Nu & Sz & Nk & U) [Nt _] Nc Lf key es.
  assert (Rr : reach S (fst (root S kd))) by (destruct kd; constructor).
  assert (Lk : nlookup (o_fields (fst (root S kd))) (fnv1 n) = None) by (apply not_looked_up; [intros e I; exact (K _ e Rr I)|exact Nc]).
  assert (Nt' : beqb n (bs "__typename") = false) by (apply not_true_iff_false; rewrite beqb_eq; exact Nt).
  pose proof (resolve_doc W X S fuel o vals w q d _ G Nu Sz U) as Rd.
  assert (B : b_operation X S (op_vars o) d (DOp kd nm decls [] [SField alias n [] args subs]) fuel (s0 w) =
    BOk ([(response_key alias n, TNull)], true) (set_errs [RErr (n ++ bs " does not exists on " ++ o_name (fst (root S kd))) (Some (quoted key))] (s0 w))).
  { replace fuel with (SN (SN (SN (fuel - 3)))) by lia. generalize (fuel - 3)%nat. clear Rd Lf. intro m.
    assert (B : forall oo v, nlookup (o_fields oo) (fnv1 n) = None -> b_sels X S (op_vars o) decls (frag_defs d) (SN (SN (SN m))) oo 0 (false, v) 0 [SField alias n [] args subs] (s0 w) =
       BOk ([(response_key alias n, TNull)], true) (set_errs [RErr (n ++ bs " does not exists on " ++ o_name oo) (Some (quoted key))] (s0 w))).
    { clear Lk. intros oo v Lk. rewrite (sels_step X S (op_vars o) decls (frag_defs d)). unfold bbind at 1. rewrite (field_step X S (op_vars o) decls (frag_defs d)). rewrite get_path_at, put_path_at. cbn [b_directives].
      unfold bbind at 1, bret at 1. cbv beta iota. cbn [orb]. unfold bbind at 1. unfold at_field. rewrite Lk, Nt'. cbn [s0 r_path app]. reflexivity. }
    destruct kd; cbn [b_operation root fst snd] in *; try contradiction; apply B; auto. }
  rewrite B in Rd. cbv zeta in Rd. destruct Rd as (vals' & Rd). exists vals'. rewrite Rd. unfold es, key. cbn [s0 r_errs set_errs map r_world]. f_equal. f_equal.
  unfold quoted. change (bs "{") with [123]. change (bs """") with [34]. change (bs ":null}") with ([58] ++ bs "null" ++ [125]). unfold render_members. cbn [render]. destruct alias; rewrite <- !app_assoc; reflexivity.
Qed.
(** with any other selections beside, above and around it, in fragments, below pointers and in lists: there is an error *)
Theorem C21_reported : forall q d kd nm decls ss w fuel vals out es vals' w',
  regular S q d -> runs o d (DOp kd nm decls [] ss) -> in_scope X S o d (DOp kd nm decls [] ss) fuel w ->
  unknown S (frag_defs d) (fst (root S kd)) (snd (root S kd)) ss ->
  resolve X S fuel o vals w q = RDone out es vals' w' -> es <> [].
Proof.
  intros q d kd nm decls ss w fuel vals out es vals' w' R U L Uk H ->.
  destruct (C16_only_the_document_is_executed _ X S q d o _ w fuel vals out vals' w' R U L H) as (ms & Op & _). cbn [operation] in Op. destruct Op as [_ Op]. eapply unknown_fails; eauto.
Qed.
End C21.
Print Assumptions C21_unknown.
Print Assumptions C21_reported.

(** ** Examples *)
Definition t_account : obj := OObj (bs "Account") [fld "id" (OData true (KInt W64)) 0; fld "password" (OData false KString) 1].
Definition v_account : gval := GStruct [(true, GInt W64 7); (true, GString (bs "hunter2"))].
Definition account_schema : schema :=
  mk_schema (OObj (bs "Query") [fld "me" (OPtr (OObjRef (bs "Account"))) 0; fld "all" (OArray (OObjRef (bs "Account"))) 1; fld "token" (OData false KString) 2])
    (GStruct [(true, GPtr (Some v_account)); (true, GSlice (Some [v_account])); (true, GString (bs "t0k3n"))]) [(bs "Account", t_account)] [] [].
Definition account_run (q : bytes) : option (bytes * nat) :=
  match resolve sample_x account_schema 100 (ROpts true [] [] None) no_vals [] q with RDone out es _ _ => Some (out, length es) | _ => None end.
Lemma account_keyed : keyed account_schema.
Proof. refine (rg_keyed _ (bs "{me{id}}") [DOp OpQuery [] None [] [SField None (bs "me") [] None [SField None (bs "id") [] None []]]] _). apply regularb_ok; vm_compute; reflexivity. Qed.
Definition q21 : bytes := bs "{token ...f} fragment f on Query{all{id me:passwort}}".
Definition d21 : document := Eval vm_compute in parsed q21.
Example C21_case :
  (keyed account_schema /\ asks_only no_opts OpQuery (Some (bs "x")) (bs "tokem") (bs "{x:tokem(a:1){b}}") /\ no_field (fst (root account_schema OpQuery)) (bs "tokem") /\ no_collision (fst (root account_schema OpQuery)) (bs "tokem") /\
   account_run (bs "{x:tokem(a:1){b}}") = Some (q2 "{'x':null}", 1%nat)) /\
  (regular account_schema q21 d21 /\ runs no_opts d21 (first_of d21) /\ in_scope sample_x account_schema no_opts d21 (first_of d21) 1000 [] /\
   (exists ss, first_of d21 = DOp OpQuery [] None [] ss /\ unknown account_schema (frag_defs d21) (fst (root account_schema OpQuery)) (snd (root account_schema OpQuery)) ss) /\
   account_run q21 = Some (q2 "{'token':'t0k3n','all':[{'id':'7','me':null}]}", 1%nat)).
Proof.
  split.
  - split; [apply account_keyed|]. split.
    { do 5 eexists. split; [apply RefGrammar.ref_parse_spec; vm_compute; reflexivity|]. split; [repeat constructor; cbn; intuition discriminate|]. split; [vm_compute; reflexivity|]. split; [discriminate|]. exists [], []. split; [reflexivity|]. split; [exact Logic.I|constructor]. }
    split; [split; [discriminate|intros e I; cbn in I; intuition (subst; discriminate)]|]. split; [intros e I; cbn in I; intuition (subst; vm_compute in *; discriminate)|]. vm_compute. reflexivity.
  - split; [apply regularb_ok; vm_compute; reflexivity|]. split; [apply runs_only; [vm_compute; reflexivity|vm_compute; auto]|]. split; [intro H; vm_compute in H; discriminate|]. split; [|vm_compute; reflexivity].
    eexists. split; [reflexivity|]. eapply uk_spread; [right; left; reflexivity|reflexivity|].
    eapply (uk_below _ _ _ _ _ _ _ _ _ _ _ _ _ _ t_account v_account); [left; reflexivity|right; left; reflexivity| |reflexivity| |].
    + intros f I E. cbn in I. intuition (subst; try discriminate; reflexivity).
    + apply (in_slice _ _ _ v_account); [now left|]. now apply in_named.
    + eapply uk_here; [right; left; reflexivity|]. split; [discriminate|]. intros e I. cbn in I. intuition (subst; discriminate).
Qed.
(** ** The statement is false for names with the hash of a field: its value is served under the wrong name, without error *)
Theorem C21_collision_refuted : exists S v (q : bytes) n f out vals w,
  keyed S /\ asks_only no_opts OpQuery None n q /\ no_field (fst (root S OpQuery)) n /\ n <> f /\ has_field S f (OData false KString) (GString v) /\
  run sample_x S no_opts q = RDone out [] vals w /\ out = q2 "{'data':{'aokhely':'t0k3n'}}".
Proof.
  exists account_schema, (bs "t0k3n"), (bs "{aokhely}"), (bs "aokhely"), (bs "token"). do 3 eexists. split; [apply account_keyed|]. split.
  { do 5 eexists. split; [apply RefGrammar.ref_parse_spec; vm_compute; reflexivity|]. split; [repeat constructor; cbn; intuition discriminate|]. split; [vm_compute; reflexivity|]. split; [discriminate|]. exists [], []. split; [reflexivity|]. split; [exact Logic.I|constructor]. }
  split; [split; [discriminate|intros e I; cbn in I; intuition (subst; discriminate)]|]. split; [discriminate|]. split; [do 5 eexists; split; [vm_compute; reflexivity|split; reflexivity]|].
  split; [|reflexivity]. vm_compute. reflexivity.
Qed.
Print Assumptions C21_collision_refuted.
