(** * C17, C18, C22: fragments, directives and siblings *)
From Coq Require Import String Arith NArith ZArith Bool List Lia.
From Verif Require Import Base Json JsonModel Ast Grammar RefParser RefGrammar ParserFacts ReqModel Schema ResModel EnvModel Samples Interp RunSim Facts Valid DocRun PropEnv Spec SpecDoc Regular PropExec FuelMono Rewrite.
Import ListNotations.
Open Scope N_scope.

(** the run stays inside the part of the interpreter that Interp.v describes (at most 255 values inside each
    other, no lists inside list or object literals), with any number of steps *)
Definition limits {W} (X : externals W) (S : schema) (o : ropts) (d : document) (op : definition) (w : W) : Prop := forall fuel, in_scope X S o d op fuel w.
(** enough to know it for one number of steps that is enough *)
Lemma limits_at : forall W (X : externals W) S o d op fuel w, in_scope X S o d op fuel w -> b_operation X S (op_vars o) d op fuel (s0 w) <> BNoFuel -> limits X S o d op w.
Proof.
  intros W X S o d op fuel w H N f E. unfold in_scope in *. destruct (Nat.le_ge_cases f fuel) as [L|L].
  - destruct (operation_mono X S (op_vars o) d op f fuel L (s0 w)); congruence.
  - destruct (operation_mono X S (op_vars o) d op fuel f L (s0 w)); congruence.
Qed.
(** [answers X S o q w out w']: with enough steps, the answer to [q] is [out], without errors, and leaves the world [w'] *)
Definition answers {W} (X : externals W) (S : schema) (o : ropts) (q : bytes) (w : W) (out : bytes) (w' : W) : Prop :=
  exists n, forall fuel vals, (n <= fuel)%nat -> exists vals', resolve X S fuel o vals w q = RDone out [] vals' w'.
Definition page {W} (X : externals W) (o : ropts) (ms : list (bytes * rt)) : bytes := finish_of o (start_of o ++ render (x_float_json X) (TObj ms)) [].
Lemma answers_iff : forall W (X : externals W) S q d o op w out w', regular S q d -> runs o d op -> limits X S o d op w ->
  (answers X S o q w out w' <-> exists ms, operation X S (op_vars o) field_named d op w ms w' /\ out = page X o ms).
Proof.
  intros W X S q d o op w out w' R U L. split.
  - intros (n & H). destruct (H n no_vals (le_n n)) as (v & E). eapply C16_only_the_document_is_executed; eauto.
  - intros (ms & Op & ->). eapply C16_document_is_executed; eauto.
Qed.

(** ** Rewriting a document: everywhere in the selected operation and in the fragments *)
Definition rewritten {W} (X : externals W) (rawvars : bytes) (dirs frags : bool) (d : document) (op : definition) (d' : document) (op' : definition) : Prop :=
  match op, op' with
  | DOp k _ decls ds ss, DOp k' _ decls' ds' ss' =>
      k' = k /\ decls' = decls /\ ds' = ds /\ rw X rawvars decls (frag_defs d) dirs frags ss ss' /\
      Forall2 (fun f f' => fst f' = fst f /\ rw X rawvars decls (frag_defs d) dirs frags (snd f) (snd f')) (frag_defs d) (frag_defs d')
  | _, _ => False
  end.
Lemma rewritten_frags : forall (R : list sel -> list sel -> Prop) l l' n, Forall2 (fun f f' : bytes * bytes * list sel => fst f' = fst f /\ R (snd f) (snd f')) l l' ->
  match fragment l n, fragment l' n with Some (t, ss), Some (t', ss') => t' = t /\ R ss ss' | None, None => True | _, _ => False end.
Proof.
  intros R l l' n H. unfold fragment. induction H as [|[[m t] ss] [[m' t'] ss'] l l' [E Hr] H IH]; [exact Logic.I|]. cbn [fst snd] in *. injection E; intros; subst.
  cbn [find fst]. destruct (beqb m n); [cbn; auto|exact IH].
Qed.
Theorem rewritten_same : forall W (X : externals W) S dirs frags rawvars d op d' op' w ms w',
  standard S -> rewritten X rawvars dirs frags d op d' op' ->
  (operation X S rawvars field_named d op w ms w' <-> operation X S rawvars field_named d' op' w ms w').
Proof.
  intros W X S dirs frags rawvars d op d' op' w ms w' St R. destruct op as [k n decls ds ss|]; [|contradiction]. destruct op' as [k' n' decls' ds' ss'|]; [|contradiction].
  destruct R as (-> & -> & -> & R & F). cbn [operation]. destruct ds as [|? ?]; [|reflexivity].
  assert (Fr := fun n => rewritten_frags _ _ _ n F).
  split; intros [Nk H]; split; auto.
  - exact (proj1 (rw_fwd X S rawvars decls (frag_defs d) field_named dirs frags (frag_defs d') Fr St) _ _ _ _ _ _ _ _ _ H _ R).
  - exact (proj1 (rw_bwd X S rawvars decls (frag_defs d) field_named dirs frags (frag_defs d') Fr St) _ _ _ _ _ _ _ _ _ H _ R).
Qed.

(** ** C18 *)
(** [d'] is [d] without the selections that @skip(if: true) or @include(if: false) leaves out, and without the
    directives @skip(if: false) and @include(if: true); the condition may be a literal or a variable.  Both give the
    same answer, and the same calls of resolvers. *)
Theorem C18_skip_and_include : forall W (X : externals W) S q d o op q' d' op' w out w',
  standard S -> regular S q d -> runs o d op -> limits X S o d op w -> regular S q' d' -> runs o d' op' -> limits X S o d' op' w ->
  rewritten X (op_vars o) true false d op d' op' ->
  (answers X S o q w out w' <-> answers X S o q' w out w').
Proof.
  intros W X S q d o op q' d' op' w out w' St R U L R' U' L' Rw. rewrite (answers_iff _ _ _ _ _ _ _ _ _ _ R U L), (answers_iff _ _ _ _ _ _ _ _ _ _ R' U' L').
  split; intros (ms & Op & E); exists ms; (split; [|exact E]); apply (rewritten_same W X S true false _ _ _ _ _ _ _ _ St Rw); exact Op.
Qed.
Print Assumptions C18_skip_and_include.

(** ** C17 *)
(** [d'] is [d] where spreads [...f] are replaced by [... on T {body}] with the fragment definition whose name is
    exactly [f]: it gives the same answer.  [regular] asks that no used fragment name is a proper prefix of another. *)
Theorem C17_spread_is_the_fragment_of_that_name : forall W (X : externals W) S q d o op q' d' op' w out w',
  standard S -> regular S q d -> runs o d op -> limits X S o d op w -> regular S q' d' -> runs o d' op' -> limits X S o d' op' w ->
  rewritten X (op_vars o) false true d op d' op' ->
  (answers X S o q w out w' <-> answers X S o q' w out w').
Proof.
  intros W X S q d o op q' d' op' w out w' St R U L R' U' L' Rw. rewrite (answers_iff _ _ _ _ _ _ _ _ _ _ R U L), (answers_iff _ _ _ _ _ _ _ _ _ _ R' U' L').
  split; intros (ms & Op & E); exists ms; (split; [|exact E]); apply (rewritten_same W X S false true _ _ _ _ _ _ _ _ St Rw); exact Op.
Qed.
Print Assumptions C17_spread_is_the_fragment_of_that_name.

(** ** Examples *)
Lemma jvar_is : forall W (X : externals W) rawvars n m j, rawvars <> [] -> x_parse X rawvars = inl (FObject m) -> fj_get m n = j -> jvar X rawvars n j.
Proof. intros W X rawvars n m j H1 H2 <-. now constructor. Qed.
Ltac vd :=
  let bv := first [apply bv_lit | eapply bv_var; [vm_compute; reflexivity|reflexivity|eapply jvar_is; [discriminate|reflexivity|reflexivity]]] in
  let sy := first [apply says_skip; bv | apply (says_include _ _ _ _ true); bv | apply (says_include _ _ _ _ false); bv] in
  repeat first [apply vd_none | apply vd_out; sy | apply vd_next; [sy|]].
Ltac rws :=
  repeat first
   [ apply rw_nil
   | apply rw_out; [reflexivity|solve [vd]|]
   | eapply rw_use; [reflexivity|vm_compute; reflexivity| |]
   | apply rw_spread; [first [left; reflexivity|right; split; [reflexivity|split; [solve [vd]|reflexivity]]]|]
   | apply rw_inline; [first [left; reflexivity|right; split; [reflexivity|split; [solve [vd]|reflexivity]]]| |]
   | apply rw_field; [first [left; reflexivity|right; split; [reflexivity|split; [solve [vd]|reflexivity]]]| |first [discriminate|intros _; reflexivity]|] ].
Ltac rwd :=
  lazymatch goal with |- rewritten ?X ?r ?a ?b ?d ?op ?d' ?op' =>
    let d1 := eval vm_compute in d in let o1 := eval vm_compute in op in let d2 := eval vm_compute in d' in let o2 := eval vm_compute in op' in
    let f1 := eval vm_compute in (frag_defs d1) in let f2 := eval vm_compute in (frag_defs d2) in
    change (rewritten X r a b d1 o1 d2 o2); cbv beta iota delta [rewritten]; change (frag_defs d1) with f1; change (frag_defs d2) with f2 end;
  (split; [reflexivity|]); (split; [reflexivity|]); (split; [reflexivity|]); split; [rws|repeat first [apply Forall2_nil|apply Forall2_cons; [split; [reflexivity|rws]|]]].
Lemma standard_builtin : forall q qv ts is ins, standard (mk_schema q qv ts is ins).
Proof.
  intros q qv ts is ins loc L. assert (E : nlookup builtin_dirs loc = Some [if_dir "skip" DSkip; if_dir "include" DInclude]) by (destruct loc as [|[[p|p|]|[p|p|]|]]; try lia; reflexivity).
  eexists. split; [exact E|].
  assert (I : if_input (inp KBool 0 (GBool false))). { split; [reflexivity|]. split; [intros [H|[H|[H|H]]]; cbn in H; try discriminate; now apply H|]. split; reflexivity. }
  split; do 2 eexists; (split; [reflexivity|exact I]).
Qed.

Definition x18 : externals world := sample_ext sample_calls (fun _ => inl (FObject [(bs "v", FTrue)])) false.
Definition o18 : ropts := ROpts false [] (q2 "{'v':true}") None.
Definition q18 : bytes := bs "query($v:Boolean){hello @skip(if:true) call @include(if:false) me @include(if:$v){name @skip(if:false) ...f @skip(if:$v) friend{...f @include(if:true)}} ...on Query @skip(if:$v){get{id}}} fragment f on User{id name @skip(if:false) @include(if:false)}".
Definition q18' : bytes := bs "query($v:Boolean){me{name friend{...f}}} fragment f on User{id}".
Definition d18 : document := Eval vm_compute in parsed q18.
Definition d18' : document := Eval vm_compute in parsed q18'.
Definition first_of (d : document) : definition := hd (DOp OpQuery [] None [] []) d.
Example C18_case : standard sample_schema /\ regular sample_schema q18 d18 /\ runs o18 d18 (first_of d18) /\ limits x18 sample_schema o18 d18 (first_of d18) [] /\
  regular sample_schema q18' d18' /\ runs o18 d18' (first_of d18') /\ limits x18 sample_schema o18 d18' (first_of d18') [] /\
  rewritten x18 (op_vars o18) true false d18 (first_of d18) d18' (first_of d18') /\
  texts (run x18 sample_schema o18 q18) = Some ("{""data"":{""me"":{""name"":""ann"",""friend"":{""id"":""2""}}}}"%string, 0%nat) /\
  texts (run x18 sample_schema o18 q18') = Some ("{""data"":{""me"":{""name"":""ann"",""friend"":{""id"":""2""}}}}"%string, 0%nat).
Proof.
  split; [apply standard_builtin|]. split; [apply regularb_ok; vm_compute; reflexivity|].
  split; [apply runs_only; [vm_compute; reflexivity|vm_compute; auto]|].
  split; [apply (limits_at _ _ _ _ _ _ 1000); intro H; vm_compute in H; discriminate|].
  split; [apply regularb_ok; vm_compute; reflexivity|]. split; [apply runs_only; [vm_compute; reflexivity|vm_compute; auto]|].
  split; [apply (limits_at _ _ _ _ _ _ 1000); intro H; vm_compute in H; discriminate|].
  split; [rwd|]. split; vm_compute; reflexivity.
Qed.
Definition q17a : bytes := bs "{me{...u friend{...w}} get{...w}} fragment u on User{name} fragment w on User{id ...u}".
Definition q17a' : bytes := bs "{me{...on User{name} friend{...on User{id ...u}}} get{...on User{id ...on User{name}}}} fragment u on User{name} fragment w on User{id ...u}".
Definition d17a : document := Eval vm_compute in parsed q17a.
Definition d17a' : document := Eval vm_compute in parsed q17a'.
Example C17_case : standard sample_schema /\ regular sample_schema q17a d17a /\ runs no_opts d17a (first_of d17a) /\ limits sample_x sample_schema no_opts d17a (first_of d17a) [] /\
  regular sample_schema q17a' d17a' /\ runs no_opts d17a' (first_of d17a') /\ limits sample_x sample_schema no_opts d17a' (first_of d17a') [] /\
  rewritten sample_x (op_vars no_opts) false true d17a (first_of d17a) d17a' (first_of d17a') /\
  texts (run sample_x sample_schema no_opts q17a) = Some ("{""data"":{""me"":{""name"":""ann"",""friend"":{""id"":""2"",""name"":""bob""}},""get"":{""id"":""9"",""name"":""got""}}}"%string, 1%nat).
Proof.
  split; [apply standard_builtin|]. split; [apply regularb_ok; vm_compute; reflexivity|].
  split; [apply runs_only; [vm_compute; reflexivity|vm_compute; auto]|].
  split; [apply (limits_at _ _ _ _ _ _ 1000); intro H; vm_compute in H; discriminate|].
  split; [apply regularb_ok; vm_compute; reflexivity|]. split; [apply runs_only; [vm_compute; reflexivity|vm_compute; auto]|].
  split; [apply (limits_at _ _ _ _ _ _ 1000); intro H; vm_compute in H; discriminate|].
  split; [rwd|]. vm_compute; reflexivity.
Qed.

(** Without [regular] C17 is false: the spread [...u] takes the fragment [uu] that is defined before [u]. *)
Definition q17 : bytes := bs "{me{...u}} fragment uu on User{id} fragment u on User{name}".
Definition q17' : bytes := bs "{me{... on User{name}}} fragment uu on User{id} fragment u on User{name}".
Definition d17 : document := Eval vm_compute in parsed q17.
Definition d17' : document := Eval vm_compute in parsed q17'.
Theorem C17_prefix_refuted : exists q q' d d' op op', g_doc d q /\ g_doc d' q' /\ runs no_opts d op /\ runs no_opts d' op' /\
  rewritten sample_x (op_vars no_opts) false true d op d' op' /\
  texts (run sample_x sample_schema no_opts q) <> texts (run sample_x sample_schema no_opts q').
Proof.
  exists q17, q17', d17, d17', (first_of d17), (first_of d17').
  split; [apply ref_parse_spec; vm_compute; reflexivity|]. split; [apply ref_parse_spec; vm_compute; reflexivity|].
  split; [apply runs_only; [vm_compute; reflexivity|vm_compute; auto]|]. split; [apply runs_only; [vm_compute; reflexivity|vm_compute; auto]|].
  split; [rwd|]. vm_compute. discriminate.
Qed.
Print Assumptions C17_prefix_refuted.

(** ** C22 *)
Section App.
Context {W : Type}.
Variable X : externals W.
Variable S : schema.
Variable rawvars : bytes.
Variable decls : option (list oparg).
Variable fdefs : list (bytes * bytes * list sel).
Variable look : obj -> bytes -> option Schema.field.
Notation Sels := (sels X S rawvars decls fdefs look).
Lemma sels_app : forall ss1 ss2 p o d g k w ms w2, Sels p o d g k w (ss1 ++ ss2) ms w2 <->
  exists ms1 w1 ms2, Sels p o d g k w ss1 ms1 w1 /\ Sels p o d g k w1 ss2 ms2 w2 /\ ms = ms1 ++ ms2.
Proof.
  intros ss1 ss2 p o d g k. split.
  - revert w ms w2. induction ss1 as [|x ss1 IH]; intros w ms w2 H.
    + exists [], w, ms. split; [constructor|]. split; [exact H|reflexivity].
    + cbn [app] in H. inversion H; subst;
      match goal with Hs : Sels _ _ _ _ _ _ (ss1 ++ ss2) _ _ |- _ => apply IH in Hs; destruct Hs as (a & wz & b & Ha & Hb & ->) end.
      * exists (ms1 ++ a), wz, b. split; [eapply s_field; eauto|]. split; [exact Hb|now rewrite app_assoc].
      * exists a, wz, b. split; [eapply s_spread_out; eauto|]. auto.
      * exists a, wz, b. split; [eapply s_spread_other; eauto|]. auto.
      * exists (ms1 ++ a), wz, b. split; [eapply s_spread; eauto|]. split; [exact Hb|now rewrite app_assoc].
      * exists a, wz, b. split; [eapply s_inline_out; eauto|]. auto.
      * exists a, wz, b. split; [eapply s_inline_other; eauto|]. auto.
      * exists (ms1 ++ a), wz, b. split; [eapply s_inline; eauto|]. split; [exact Hb|now rewrite app_assoc].
  - intros (ms1 & w1 & ms2 & H1 & H2 & ->). revert w ms1 H1. induction ss1 as [|x ss1 IH]; intros w ms1 H1.
    + inversion H1; subst. exact H2.
    + cbn [app]. inversion H1; subst; try rewrite <- app_assoc.
      * eapply s_field; eauto.
      * eapply s_spread_out; eauto.
      * eapply s_spread_other; eauto.
      * eapply s_spread; eauto.
      * eapply s_inline_out; eauto.
      * eapply s_inline_other; eauto.
      * eapply s_inline; eauto.
Qed.
End App.
Definition with_sels (op : definition) (ss : list sel) : definition := match op with DOp k n decls ds _ => DOp k n decls ds ss | f => f end.
(** Three requests with the same fragments and the same operation, except that the first selects [ss1], the second
    [ss2] and the third [ss1] and then [ss2].  The answer to the third is the answer to the first followed by the
    answer to the second: what is resolved for [ss1], whatever its depth, does not change what [ss2] is resolved
    from. *)
Theorem C22_siblings_do_not_disturb : forall W (X : externals W) S q d o op ss1 ss2 q1 d1 q2 d2 w w',
  regular S q d -> runs o d (with_sels op (ss1 ++ ss2)) -> limits X S o d (with_sels op (ss1 ++ ss2)) w ->
  regular S q1 d1 -> runs o d1 (with_sels op ss1) -> limits X S o d1 (with_sels op ss1) w ->
  regular S q2 d2 -> runs o d2 (with_sels op ss2) -> (forall w1, limits X S o d2 (with_sels op ss2) w1) ->
  frag_defs d1 = frag_defs d -> frag_defs d2 = frag_defs d ->
  (forall out1 w1 out2, answers X S o q1 w out1 w1 -> answers X S o q2 w1 out2 w' ->
     exists ms1 ms2, out1 = page X o ms1 /\ out2 = page X o ms2 /\ answers X S o q w (page X o (ms1 ++ ms2)) w') /\
  (forall out, answers X S o q w out w' ->
     exists ms1 w1 ms2, answers X S o q1 w (page X o ms1) w1 /\ answers X S o q2 w1 (page X o ms2) w' /\ out = page X o (ms1 ++ ms2)).
Proof.
  intros W X S q d o op ss1 ss2 q1 d1 q2 d2 w w' R U L R1 U1 L1 R2 U2 L2 E1 E2. split.
  - intros out1 w1 out2 A1 A2. apply (answers_iff _ _ _ _ _ _ _ _ _ _ R1 U1 L1) in A1. apply (answers_iff _ _ _ _ _ _ _ _ _ _ R2 U2 (L2 w1)) in A2.
    destruct A1 as (ms1 & H1 & ->), A2 as (ms2 & H2 & ->). exists ms1, ms2. do 2 (split; [reflexivity|]).
    apply (answers_iff _ _ _ _ _ _ _ _ _ _ R U L). exists (ms1 ++ ms2). split; [|reflexivity].
    destruct op as [k n decls ds ss|]; cbn [with_sels operation] in *; [|contradiction]. destruct ds; [|contradiction]. rewrite E1 in H1. rewrite E2 in H2. destruct H1 as [Nk H1], H2 as [_ H2].
    split; [auto|]. apply sels_app. eauto 8.
  - intros out A. apply (answers_iff _ _ _ _ _ _ _ _ _ _ R U L) in A. destruct A as (ms & Op & ->). 
    destruct op as [k n decls ds ss|]; cbn [with_sels operation] in *; [|contradiction]. destruct ds; [|contradiction]. destruct Op as [Nk Op]. apply sels_app in Op. destruct Op as (ms1 & w1 & ms2 & H1 & H2 & ->).
    exists ms1, w1, ms2. rewrite (answers_iff _ _ _ _ _ _ _ _ _ _ R1 U1 L1), (answers_iff _ _ _ _ _ _ _ _ _ _ R2 U2 (L2 w1)).
    cbn [operation]. rewrite E1, E2. split; [eauto|]. split; [eauto|]. auto.
Qed.
Print Assumptions C22_siblings_do_not_disturb.
(** Deeper than [limits] it is false: with 128 lists of objects inside each other the index of the value (a uint8)
    wraps, and the value at index 0, from which the fields of Query are resolved, is overwritten: [v] of the query
    is 300, but after the nested list it is 172. *)
Definition t22 : obj := OObj (bs "Query") [fld "v" (OData false (KInt WInt)) 0; fld "l" (OArray (OObjRef (bs "Query"))) 1].
Fixpoint v22 (n : nat) : gval := GStruct [(true, GInt WInt (Z.of_nat n)); (true, GSlice (match n with O => None | S m => Some [v22 m] end))].
Definition s22 : schema := mk_schema t22 (v22 300) [(bs "Query", t22)] [] [].
Fixpoint deep22 (n : nat) : bytes := match n with O => bs "{v}" | S m => bs "{l" ++ deep22 m ++ bs "}" end.
Definition q22 (n : nat) : bytes := bs "{l" ++ deep22 n ++ bs " v}".
Definition ends (r : rresult world) (b : bytes) : Prop := match r with RDone out [] _ _ => firstn (length b) (rev out) = rev b | _ => False end.
Theorem C22_deep_refuted : exists n ss, let v := SField None (bs "v") [] None [] in
  regular s22 (q22 n) [DOp OpQuery [] None [] [SField None (bs "l") [] None ss; v]] /\ regular s22 (bs "{v}") [DOp OpQuery [] None [] [v]] /\
  ends (run sample_x s22 no_opts (bs "{v}")) (q2 "'v':300}}") /\ ends (run sample_x s22 no_opts (q22 n)) (q2 "'v':172}}").
Proof.
  exists 127%nat. eexists. cbv zeta. split; [|split; [apply regularb_ok; vm_compute; reflexivity|split; vm_compute; reflexivity]].
  apply regularb_ok; [vm_compute; reflexivity|vm_compute; reflexivity].
Qed.
Print Assumptions C22_deep_refuted.
(** below that depth: an example of the theorem *)
Definition d22 (q : bytes) : document := parsed q.
Example C22_case : exists l, let op := DOp OpQuery [] None [] [] in let v := SField None (bs "v") [] None [] in
  regular s22 (q22 5) (d22 (q22 5)) /\ runs no_opts (d22 (q22 5)) (with_sels op ([l] ++ [v])) /\ limits sample_x s22 no_opts (d22 (q22 5)) (with_sels op ([l] ++ [v])) [] /\
  regular s22 (bs "{l" ++ deep22 5 ++ bs "}") (d22 (bs "{l" ++ deep22 5 ++ bs "}")) /\ runs no_opts (d22 (bs "{l" ++ deep22 5 ++ bs "}")) (with_sels op [l]) /\
  limits sample_x s22 no_opts (d22 (bs "{l" ++ deep22 5 ++ bs "}")) (with_sels op [l]) [] /\
  regular s22 (bs "{v}") (d22 (bs "{v}")) /\ runs no_opts (d22 (bs "{v}")) (with_sels op [v]) /\ (forall w1, limits sample_x s22 no_opts (d22 (bs "{v}")) (with_sels op [v]) w1) /\
  ends (run sample_x s22 no_opts (q22 5)) (q2 "'v':300}}").
Proof.
  exists (hd (SSpread [] []) (sels_of (first_of (d22 (q22 5))))). cbv zeta.
  split; [apply regularb_ok; vm_compute; reflexivity|]. split; [apply runs_only; [vm_compute; reflexivity|vm_compute; auto]|].
  split; [apply (limits_at _ _ _ _ _ _ 1000); intro H; vm_compute in H; discriminate|].
  split; [apply regularb_ok; vm_compute; reflexivity|]. split; [apply runs_only; [vm_compute; reflexivity|vm_compute; auto]|].
  split; [apply (limits_at _ _ _ _ _ _ 1000); intro H; vm_compute in H; discriminate|].
  split; [apply regularb_ok; vm_compute; reflexivity|]. split; [apply runs_only; [vm_compute; reflexivity|vm_compute; auto]|].
  split; [intro w1; apply (limits_at _ _ _ _ _ _ 1000); intro H; vm_compute in H; discriminate|]. vm_compute; reflexivity.
Qed.
