(** * C50: requests do not panic *)
From Coq Require Import String Arith NArith ZArith Bool List Lia.
From Verif Require Import Base Json JsonModel NameModel Ast Grammar RefParser RefGrammar ParserModel ParserFacts ReqModel Schema ResModel EnvModel Samples
  Interp OpSim DocRun PropEnv PropValid PropTerm GoTypes ParseModel SchemaSpec ParseWhole SchemaCheck SampleProg PropSchema TypeSpec TypeArgs TypeSafe TypeCheck.
Import ListNotations.
Open Scope nat_scope.

(** a request does not panic and leaves the world as the code wants it *)
Lemma request_fine : forall W (X : externals W) P qt mt same inj fuel p s R inv qv mv d o fuel' vals w q,
  let b := match inj with Some _ => true | None => false end in
  named_apart P (roots_of P qt mt b) -> inputs_apart P (roots_of P qt mt b) (more_of P b) ->
  parse P fuel qt mt same inj new_pst = POk p s ->
  typing P R -> R qt qv -> R mt mv ->
  (forall sv tf, inj = Some (sv, tf) -> R (g_qlschema P) sv /\ R (g_typefn P) tf /\
     is_time (g_decls P) (g_typefn P) = false /\ t_kind (g_decls P) (g_typefn P) = KFunc) ->
  behaves P X R inv -> inv w -> go_facts P -> careful P (roots_of P qt mt b) (more_of P b) ->
  (x_formfile X = None -> no_files P (roots_of P qt mt b) (more_of P b)) ->
  readable X (view P p qv mv d) o fuel' w q ->
  match resolve X (view P p qv mv d) fuel' o vals w q with RDone _ _ _ w' => inv w' | RPanicked => False | ROutOfFuel => True end.
Proof.
  intros W X P qt mt same inj fuel p s R inv qv mv d o fuel' vals w q b NA IA Hp TY Rq Rm INJ BH Iw GF CA FI Rd. unfold b in *.
  destruct (parse_sound P qt mt same inj NA IA fuel p s Hp) as [_ [own [iown [inown SR]]]].
  destruct (ref_parse q) as [doc|] eqn:E.
  2:{ assert (N : ~ exists d, g_doc d q) by (intros [d' G]; apply ref_parse_spec in G; congruence).
      destruct (C05_rejected_query_is_not_executed W X (view P p qv mv d) fuel' o vals w q N) as (es & t & -> & _). exact Iw. }
  apply ref_parse_spec in E. destruct (runs_or_not q o doc E) as [[op Ro]|No].
  2:{ destruct (C08_no_such_operation W X (view P p qv mv d) fuel' o vals w q doc E No) as (t & m & -> & _). exact Iw. }
  destruct (Rd doc op E Ro) as (Nf & Sz & Sc). pose proof (resolve_doc W X (view P p qv mv d) fuel' o vals w q doc op E Nf Sz Ro) as D.
  enough (G : match b_operation X (view P p qv mv d) (op_vars o) doc op fuel' (s0 w) with BOk _ s' => inv (r_world s') | BPanic => False | _ => True end).
  { unfold in_scope in Sc. destruct (b_operation X (view P p qv mv d) (op_vars o) doc op fuel' (s0 w)) as [[ms c] s'| | |]; [|contradiction|rewrite D; exact Logic.I|congruence].
    destruct D as [vals' ->]. exact G. }
  assert (So : selected (target_of o) op) by (destruct Ro as (d1 & d2 & _ & So & _); exact So).
  destruct op as [kd on args ds ss|]; [|contradiction].
  assert (bp inv (b_operation X (view P p qv mv d) (op_vars o) doc (DOp kd on args ds ss) fuel') (fun _ => True)) as B.
  2:{ specialize (B (s0 w) Iw). destruct (b_operation _ _ _ _ _ _ _); [exact (proj1 B)|exact B|exact Logic.I|exact Logic.I]. }
  cbn [b_operation]. assert (Root : forall n t v, own n = Some t -> R t v -> In t [qt; mt] ->
    bp inv (b_sels X (view P p qv mv d) (op_vars o) args (frag_defs doc) fuel' (or_undef (slookup (map (fun e => (fst e, view_type (ps_methods (p_st p)) (snd e))) (ps_types (p_st p))) n)) 0%N (false, v) 0%N ss) (fun _ => True)).
  { intros n t v On Rv It. destruct (sr_own _ _ _ _ _ _ _ _ SR n t On) as [Ns _]. rewrite slookup_map. destruct (slookup (ps_types (p_st p)) n) as [r|] eqn:Er; [|congruence]. cbn [or_undef].
    destruct (safe P qt mt inj p own iown inown SR qv mv d X R TY inv BH GF CA FI INJ (op_vars o) args (frag_defs doc) fuel') as (_ & _ & SS).
    eapply SS; [exact On|exact Er|]. split; [apply reach_root; destruct It as [<-|[<-|[]]]; [now left|right; now left]|]. split; [exact Rv|discriminate]. }
  pose proof (Root _ _ qv (sr_query _ _ _ _ _ _ _ _ SR) Rq (or_introl eq_refl)) as Bq.
  pose proof (Root _ _ mv (sr_method _ _ _ _ _ _ _ _ SR) Rm (or_intror (or_introl eq_refl))) as Bm.
  destruct kd; [| |apply err_ok]; (destruct ds; [|apply err_ok]); [exact Bq|exact Bm].
Qed.
(** For a schema built by Parse: if the values, the resolvers and the directives are as their Go types say, no request makes
    Resolve panic, whatever the query and the variables are.  [R] says which values have which types (the typing of Go is
    TypeCheck.has_type), [inv] is what the code keeps true of its own data between calls. *)
Theorem C50_no_request_panics : forall W (X : externals W) P qt mt same inj fuel p s R inv qv mv d o fuel' vals w q,
  let b := match inj with Some _ => true | None => false end in
  named_apart P (roots_of P qt mt b) -> inputs_apart P (roots_of P qt mt b) (more_of P b) ->
  parse P fuel qt mt same inj new_pst = POk p s ->
  typing P R -> R qt qv -> R mt mv ->
  (forall sv tf, inj = Some (sv, tf) -> R (g_qlschema P) sv /\ R (g_typefn P) tf /\
     is_time (g_decls P) (g_typefn P) = false /\ t_kind (g_decls P) (g_typefn P) = KFunc) ->
  behaves P X R inv -> inv w -> go_facts P -> careful P (roots_of P qt mt b) (more_of P b) ->
  (x_formfile X = None -> no_files P (roots_of P qt mt b) (more_of P b)) ->
  readable X (view P p qv mv d) o fuel' w q ->
  resolve X (view P p qv mv d) fuel' o vals w q <> RPanicked.
Proof.
  intros until q. intros b NA IA Hp TY Rq Rm INJ BH Iw GF CA FI Rd E. pose proof (request_fine W X P qt mt same inj fuel p s R inv qv mv d o fuel' vals w q NA IA Hp TY Rq Rm INJ BH Iw GF CA FI Rd) as H.
  rewrite E in H. exact H.
Qed.
Print Assumptions C50_no_request_panics.

(** ** A program that meets the hypotheses *)
(** with recursive types, an interface, an enum, an unexported field, a function, a directive and arguments *)
Definition g_find : gtype := TFunc [TStruct [fd "Name" str]] [TPtr g_user] false.
Definition safe_decls : list gdecl :=
  Decl (bs "QueryRoot") app_pkg (TStruct [fd "Hello" str; fd "Me" (TPtr g_user); fd "Pet" g_animal; GField (bs "note") false false None (TStruct [fd "Text" str]); fd "Find" g_find])
    [method "ResolveUsers" [TStruct [fd "Filter" g_filter; fd "Max" (TPtr int)]] [TSlice g_user; g_err]] :: tl sample_decls.
Definition safe_prog : program :=
  Prog safe_decls [(bs "Animal", bs "Pet")] [(bs "Dog", [g_animal])] [(bs "Animal", [g_dog])]
    [Enum KString (bs "Mood") [(bs "GOOD", GString (bs "good")); (bs "BAD", GString (bs "bad"))]]
    [PDir (bs "skip") [TStruct [fd "If" (TBasic KBool)]] DSkip [0%N] []; PDir (bs "log") [] (DUser 0) [0%N] []] [(0%N, [0; 1])] TOther TOther.
Definition bob : gval := GStruct [(true, GInt WInt 1); (true, GString (bs "Bob")); (true, GSlice None); (true, GTm zero_time); (true, GString (bs "good")); (true, GStruct [(true, GString [])])].
Definition safe_query : gval :=
  GStruct [(true, GString (bs "hi")); (true, GPtr (Some bob)); (true, GIface (Some (bs "Dog", app_pkg, GStruct [(true, GUint W8 3)])));
           (false, GStruct [(true, GString (bs "n"))]); (true, GFunc (Some 7%N))].
Definition safe_calls (w : world) (f : gval) (a : list gval) (p : bytes) : option (world * list gval) :=
  Some (w, match f with
           | GFunc _ => [GPtr (Some bob)]
           | GMethod (GStruct []) _ => [GInt WInt 1]
           | GMethod (GStruct [_]) _ => [GString (bs "Rex")]
           | _ => [GSlice (Some [bob]); GErr None]
           end).
Definition with_calls (c : world -> gval -> list gval -> bytes -> option (world * list gval)) (json : bytes -> fj + bytes) : externals world :=
  let X := sample_ext (fun _ _ => []) json false in
  Ext world c (x_dir X) (x_ctxerr X) (x_formfile X) (x_parse X) (x_parse_float X) (x_json_float X) (x_json_int_err X) (x_of_int X) (x_to32 X) (x_float_json X) (x_gostring X).
Definition safe_ext : externals world := with_calls safe_calls (fun _ => inr (bs "no JSON")).
(** the values of enum types are the registered ones *)
Definition registered_values (P : program) (t : gtype) (v : gval) : Prop :=
  forall e, In e (g_enums P) -> en_name e = t_name (g_decls P) t -> enum_like P t -> exists n, In (n, v) (en_entries e).
Definition safe_R : gtype -> gval -> Prop := has_type safe_prog (registered_values safe_prog) (fun t n => t = g_find /\ n = 7%N).
Ltac basic_value := first [exact Logic.I | let e := fresh "e" in let I := fresh "I" in let N := fresh "N" in
  intros e I N _; cbn in I; repeat (destruct I as [I|I]; [subst e; first [discriminate N|eexists; cbn; repeat first [left; reflexivity|right]]|]); contradiction].
Ltac typed := repeat first
  [ apply HBasic; [reflexivity|exact Logic.I|reflexivity|basic_value] | apply HTime; reflexivity
  | apply HStruct; [reflexivity|reflexivity|repeat (apply Forall2_cons; [split; [reflexivity|cbn [snd f_type]]|])]
  | apply Forall2_nil | apply HNilSlice; reflexivity | apply HNilPtr; reflexivity
  | eapply HSlice; [reflexivity|reflexivity|reflexivity|] | apply Forall_cons | apply Forall_nil
  | eapply HPtr; [reflexivity|reflexivity|reflexivity|]
  | apply HFunc; [reflexivity|reflexivity|split; reflexivity]
  | eexists; reflexivity ].
Lemma bob_ok F : has_type safe_prog (registered_values safe_prog) F g_user bob. Proof. typed. Qed.
Lemma safe_query_ok : safe_R g_query safe_query.
Proof.
  unfold safe_R, safe_query. apply HStruct; [reflexivity|reflexivity|]. cbn [t_fields under safe_prog g_decls safe_decls nth_error g_query td_under].
  constructor; [split; [reflexivity|typed]|]. constructor; [split; [reflexivity|]|].
  { eapply HPtr; [reflexivity|reflexivity|reflexivity|apply bob_ok]. }
  constructor; [split; [reflexivity|]|]. { apply (HIface safe_prog _ _ g_animal g_dog); [reflexivity|reflexivity|vm_compute; reflexivity|typed]. }
  constructor; [split; [reflexivity|typed]|]. constructor; [split; [reflexivity|typed]|]. constructor.
Qed.
Definition no_inv (w : world) : Prop := True.
Lemma safe_behaves : behaves safe_prog safe_ext safe_R no_inv.
Proof.
  constructor.
  - intros w n t ins outs va args q _ H U Fa. inversion H as [| | | | | | | | | | |t0 n0 T K [Ft _]]; subst; [|].
    + match goal with B : basic _, K : kind_of _ = _ |- _ => rewrite <- K in B; contradiction end.
    + cbn in U. injection U as <- <- <-. eexists _, _. split; [reflexivity|]. split; [exact Logic.I|]. constructor; [|constructor]. cbn. eapply HPtr; [reflexivity|reflexivity|reflexivity|apply bob_ok].
  - intros w t v i name ins outs va args q _ H T K En Fa. cbn [safe_ext with_calls x_call safe_calls].
    destruct (ty_struct _ _ (has_type_typing _ _ _) t v H T K) as (l & -> & Fl).
    unfold t_methods in En. unfold t_kind in K. destruct (under (g_decls safe_prog) t) eqn:U; try discriminate; destruct t; try discriminate; try (destruct i; discriminate).
    { cbn in U. destruct (nth_error safe_decls n) as [dd|] eqn:Ed; [|discriminate]. exfalso. subst k. apply decl_case in Ed.
      repeat (destruct Ed as [Ed|Ed]; [injection Ed as <- <-; discriminate|]). contradiction. }
    cbn in U, En. unfold t_fields in Fl. cbn [under safe_prog g_decls] in Fl. destruct (nth_error safe_decls n) as [dd|] eqn:Ed; [|destruct i; discriminate].
    apply decl_case in Ed. repeat (destruct Ed as [Ed|Ed]; [injection Ed as <- <-; cbn [td_methods td_under method] in En, Fl, U; try discriminate; try (destruct i; discriminate)|]); try contradiction.
    + (* QueryRoot *) destruct i as [|[|]]; try discriminate. injection En as <- <- <- <-. inversion Fl as [|? x1 ? l1 ? F1]; subst. inversion F1 as [|? x2 ? l2 ? F2]; subst.
      eexists _, _. split; [reflexivity|]. split; [exact Logic.I|]. constructor; [|constructor; [cbn; eexists; reflexivity|constructor]]. cbn. eapply HSlice; [reflexivity|reflexivity|reflexivity|]. constructor; [apply bob_ok|constructor].
    + (* MethodRoot *) destruct i as [|[|]]; try discriminate. injection En as <- <- <- <-. inversion Fl; subst. eexists _, _. split; [reflexivity|]. split; [exact Logic.I|]. constructor; [|constructor]. cbn. typed.
    + (* Dog *) destruct i as [|[|]]; try discriminate. injection En as <- <- <- <-. inversion Fl as [|? x1 ? l1 ? F1]; subst. inversion F1; subst. eexists _, _. split; [reflexivity|]. split; [exact Logic.I|]. constructor; [|constructor]. cbn. typed.
  - intros w f dd args q _ I E Fa. eexists _, _. split; [reflexivity|exact Logic.I].
  - intros. exact Logic.I.
Qed.
Definition safe_text : bytes := q2 "query q($n:String='Ann'){hello me{name mood born friends{name}} pet{name} note{text} find(name:$n){id @log} users @skip(if:false) (filter:{name:'a',or:{name:'c'}},max:3) {name extra{note}}}".

Lemma readable_one W (X : externals W) S o fuel w q op : ref_parse q = Some [op] -> nul_free [op] -> (N.of_nat (length (enc_doc [op])) < 4294967296)%N ->
  b_operation X S (op_vars o) [op] op fuel (s0 w) <> BOut -> readable X S o fuel w q.
Proof.
  intros E Nf Sz B d op' G Ro. apply ref_parse_spec in G. rewrite E in G. injection G as <-. split; [exact Nf|]. split; [exact Sz|].
  destruct Ro as (d1 & d2 & Ed & _). destruct d1 as [|x [|y d1]]; cbn in Ed; injection Ed; intros; subst; try discriminate. exact B.
Qed.
Definition the_op (q : bytes) : definition := match parsed q with [op] => op | _ => DFrag [] [] [] end.
Example C50_case : exists p s,
  named_apart safe_prog (roots_of safe_prog g_query g_meth false) /\ inputs_apart safe_prog (roots_of safe_prog g_query g_meth false) (more_of safe_prog false) /\
  parse safe_prog 20 g_query g_meth false None new_pst = POk p s /\
  typing safe_prog safe_R /\ safe_R g_query safe_query /\ safe_R g_meth (GStruct []) /\ behaves safe_prog safe_ext safe_R no_inv /\ go_facts safe_prog /\
  careful safe_prog (roots_of safe_prog g_query g_meth false) (more_of safe_prog false) /\ no_files safe_prog (roots_of safe_prog g_query g_meth false) (more_of safe_prog false) /\
  readable safe_ext (view safe_prog p safe_query (GStruct []) 255) no_opts 1000 [] safe_text /\
  exists out vals w, resolve safe_ext (view safe_prog p safe_query (GStruct []) 255) 1000 no_opts no_vals [] safe_text = RDone out [] vals w /\
    out = q2 "{'data':{'hello':'hi','me':{'name':'Bob','mood':'GOOD','born':'0001-01-01T00:00:00.000Z','friends':null},'pet':{'name':'Rex'},'note':{'text':'n'},'find':{'id':'1'},'users':[{'name':'Bob','extra':{'note':''}}]}}".
Proof.
  destruct (apart_ok safe_prog g_query g_meth false 10) as [NA IA]; [vm_compute; reflexivity|].
  eexists _, _. split; [exact NA|]. split; [exact IA|]. split; [vm_compute; reflexivity|]. split; [apply has_type_typing|]. split; [apply safe_query_ok|].
  split; [unfold safe_R; typed|]. split; [apply safe_behaves|]. split; [apply go_facts_ok; vm_compute; reflexivity|].
  split.
  { constructor; [apply (enum_kinds_ok _ _ _ _ 10)|apply (quiet_fields_ok _ _ _ _ 10)|apply (open_args_ok _ _ _ _ 10)|apply (open_inputs_ok _ _ _ _ 10)]; vm_compute; reflexivity. }
  split; [apply (no_files_ok _ _ _ _ 10); vm_compute; reflexivity|]. split.
  - apply (readable_one _ _ _ _ _ _ _ (the_op safe_text)); [vm_compute; reflexivity|vm_compute; repeat constructor; intuition discriminate|vm_compute; reflexivity|].
    intro H. vm_compute in H. discriminate.
  - eexists _, _, _. split; [vm_compute; reflexivity|]. vm_compute. reflexivity.
Qed.

(** ** What happens without each of the hypotheses *)
(** everything but [careful], [gf_names] and [no_files] *)
Definition set_up (P : program) (p : pschema) (X : externals world) (R : gtype -> gval -> Prop) (qv : gval) (o : ropts) (q : bytes) : Prop :=
  named_apart P (roots_of P (TNamed 0) (TNamed 1) false) /\ inputs_apart P (roots_of P (TNamed 0) (TNamed 1) false) (more_of P false) /\
  (exists s, parse P 20 (TNamed 0) (TNamed 1) false None new_pst = POk p s) /\
  typing P R /\ R (TNamed 0) qv /\ R (TNamed 1) (GStruct []) /\ behaves P X R no_inv /\
  readable X (view P p qv (GStruct []) 255) o 1000 [] q.
Definition panics (P : program) (p : pschema) (X : externals world) (qv : gval) (o : ropts) (q : bytes) : Prop :=
  resolve X (view P p qv (GStruct []) 255) 1000 o no_vals [] q = RPanicked.
Notation rts P := (roots_of P (TNamed 0) (TNamed 1) false).
Notation mre P := (more_of P false).
Definition no_calls : externals world := with_calls (fun w _ _ _ => Some (w, [GInt WInt 1])) (fun _ => inr (bs "no JSON")).
Definition no_funcs (P : program) : gtype -> gval -> Prop := has_type P (fun _ _ => True) (fun _ _ => False).
(** all methods of the program return an int *)
Definition int_methods (P : program) : bool :=
  forallb (fun d => forallb (fun m => match snd m with TFunc _ outs _ => match outs with [TBasic (KInt WInt)] => true | _ => false end | _ => true end) (td_methods d)) (g_decls P).
Lemma int_behaves P json : int_methods P = true -> (forall d, In d (g_dirs P) -> False) ->
  behaves P (with_calls (fun w _ _ _ => Some (w, [GInt WInt 1])) json) (no_funcs P) no_inv.
Proof.
  intros H Nd. unfold int_methods in H. rewrite forallb_forall in H. constructor.
  - intros w n t ins outs va args q _ Ht U Fa. exfalso. inversion Ht as [|t0 v T B K Bt| | | | | | | | | |t0 n0 T K Ft]; subst; [|exact Ft]. rewrite <- K in B. contradiction.
  - intros w t v i name ins outs va args q _ Ht T K En Fa. eexists _, _. split; [reflexivity|]. split; [exact Logic.I|].
    enough (outs = [TBasic (KInt WInt)]) as -> by (constructor; [cbn; apply HBasic; [reflexivity|exact Logic.I|reflexivity|exact Logic.I]|constructor]).
    unfold t_methods in En. unfold t_kind in K. destruct (under (g_decls P) t) eqn:U; try discriminate; destruct t; try (destruct i; discriminate);
      (destruct (nth_error (g_decls P) n) as [dd|] eqn:Ed; [|destruct i; discriminate]; specialize (H dd (nth_error_In _ _ Ed)); rewrite forallb_forall in H;
       specialize (H _ (nth_error_In _ _ En)); cbn [snd] in H; destruct outs as [|[[]| | | | | | | |] [|]]; try discriminate; destruct w0; try discriminate; reflexivity).
  - intros w f dd args q _ I. destruct (Nd dd I).
  - intros. exact Logic.I.
Qed.
Ltac careful_part n := first [apply (enum_kinds_ok _ _ _ _ n)|apply (quiet_fields_ok _ _ _ _ n)|apply (open_args_ok _ _ _ _ n)|apply (open_inputs_ok _ _ _ _ n)|apply (no_files_ok _ _ _ _ n)]; vm_compute; reflexivity.
Ltac setting P q :=
  destruct (apart_ok P (TNamed 0) (TNamed 1) false 6) as [NA IA]; [vm_compute; reflexivity|];
  split; [exact NA|]; split; [exact IA|]; split; [eexists; vm_compute; reflexivity|]; split; [apply has_type_typing|];
  split; [typed|]; split; [typed|]; split; [apply int_behaves; [reflexivity|intros ? []]|];
  apply (readable_one _ _ _ _ _ _ _ (the_op q)); [vm_compute; reflexivity|vm_compute; repeat constructor; intuition discriminate|vm_compute; reflexivity|];
  let H := fresh in intro H; vm_compute in H; discriminate.
Definition hidden (n : string) (t : gtype) : gfield := GField (bs n) false false None t.

(** An unexported field with a time: the resolver asks reflect for the value and is refused.
    [type Q struct { start time.Time }] *)
Definition hidden_time : program :=
  Prog [Decl (bs "Q") app_pkg (TStruct [hidden "start" (TNamed 2)]) []; Decl (bs "M") app_pkg (TStruct []) []; Decl (bs "Time") (bs "time") (TStruct []) []]
    [] [] [] [] [] [] TOther TOther.
Theorem C50_unexported_time_refuted : exists P p X R qv o q, set_up P p X R qv o q /\ go_facts P /\
  enum_kinds P (rts P) (mre P) /\ open_args P (rts P) (mre P) /\ open_inputs P (rts P) (mre P) /\ no_files P (rts P) (mre P) /\
  panics P p X qv o q.
Proof.
  exists hidden_time. eexists. exists no_calls, (no_funcs hidden_time), (GStruct [(false, GTm zero_time)]), no_opts, (bs "{start}").
  split; [setting hidden_time (bs "{start}")|]. split; [apply go_facts_ok; vm_compute; reflexivity|]. repeat (split; [careful_part 6|]). vm_compute. reflexivity.
Qed.
Print Assumptions C50_unexported_time_refuted.
(** The same with a method of a struct in an unexported field.
    [type Q struct { s T }; func (T) ResolveN() int] *)
Definition hidden_method : program :=
  Prog [Decl (bs "Q") app_pkg (TStruct [hidden "s" (TNamed 2)]) []; Decl (bs "M") app_pkg (TStruct []) []; Decl (bs "T") app_pkg (TStruct []) [method "ResolveN" [] [int]]]
    [] [] [] [] [] [] TOther TOther.
Theorem C50_method_in_unexported_field_refuted : exists P p X R qv o q, set_up P p X R qv o q /\ go_facts P /\
  enum_kinds P (rts P) (mre P) /\ open_args P (rts P) (mre P) /\ open_inputs P (rts P) (mre P) /\ no_files P (rts P) (mre P) /\
  panics P p X qv o q.
Proof.
  exists hidden_method. eexists. exists no_calls, (no_funcs hidden_method), (GStruct [(false, GStruct [])]), no_opts, (bs "{s{n}}").
  split; [setting hidden_method (bs "{s{n}}")|]. split; [apply go_facts_ok; vm_compute; reflexivity|]. repeat (split; [careful_part 6|]). vm_compute. reflexivity.
Qed.
Print Assumptions C50_method_in_unexported_field_refuted.
(** An unexported field of an argument struct is offered as argument and can not be set.
    [func (Q) ResolveF(args struct { a int }) int] *)
Definition hidden_arg : program :=
  Prog [Decl (bs "Q") app_pkg (TStruct []) [method "ResolveF" [TStruct [hidden "a" int]] [int]]; Decl (bs "M") app_pkg (TStruct []) []]
    [] [] [] [] [] [] TOther TOther.
Theorem C50_unexported_argument_refuted : exists P p X R qv o q, set_up P p X R qv o q /\ go_facts P /\
  enum_kinds P (rts P) (mre P) /\ quiet_fields P (rts P) /\ open_inputs P (rts P) (mre P) /\ no_files P (rts P) (mre P) /\
  panics P p X qv o q.
Proof.
  exists hidden_arg. eexists. exists no_calls, (no_funcs hidden_arg), (GStruct []), no_opts, (bs "{f(a:1)}").
  split; [setting hidden_arg (bs "{f(a:1)}")|]. split; [apply go_facts_ok; vm_compute; reflexivity|]. repeat (split; [careful_part 6|]). vm_compute. reflexivity.
Qed.
Print Assumptions C50_unexported_argument_refuted.
(** the same one struct further in: [args struct { B struct { a int } }] *)
Definition hidden_input : program :=
  Prog [Decl (bs "Q") app_pkg (TStruct []) [method "ResolveF" [TStruct [fd "B" (TStruct [hidden "a" int])]] [int]]; Decl (bs "M") app_pkg (TStruct []) []]
    [] [] [] [] [] [] TOther TOther.
Theorem C50_unexported_input_field_refuted : exists P p X R qv o q, set_up P p X R qv o q /\ go_facts P /\
  enum_kinds P (rts P) (mre P) /\ quiet_fields P (rts P) /\ open_args P (rts P) (mre P) /\ no_files P (rts P) (mre P) /\
  panics P p X qv o q.
Proof.
  exists hidden_input. eexists. exists no_calls, (no_funcs hidden_input), (GStruct []), no_opts, (bs "{f(b:{a:1})}").
  split; [setting hidden_input (bs "{f(b:{a:1})}")|]. split; [apply go_facts_ok; vm_compute; reflexivity|]. repeat (split; [careful_part 6|]). vm_compute. reflexivity.
Qed.
Print Assumptions C50_unexported_input_field_refuted.
(** Enums are known by the names of their types only: a type lib.Mood that is a string is taken for the enum app.Mood of ints *)
Definition two_moods : program :=
  Prog [Decl (bs "Q") app_pkg (TStruct [fd "M" (TNamed 2)]) []; Decl (bs "M") app_pkg (TStruct []) []; Decl (bs "Mood") lib_pkg (TBasic KString) []]
    [] [] [] [Enum (KInt WInt) (bs "Mood") [(bs "GOOD", GInt WInt 1)]] [] [] TOther TOther.
Theorem C50_enum_of_other_package_refuted : exists P p X R qv o q, set_up P p X R qv o q /\ go_facts P /\
  quiet_fields P (rts P) /\ open_args P (rts P) (mre P) /\ open_inputs P (rts P) (mre P) /\ no_files P (rts P) (mre P) /\
  panics P p X qv o q.
Proof.
  exists two_moods. eexists. exists no_calls, (no_funcs two_moods), (GStruct [(true, GString (bs "x"))]), no_opts, (bs "{m}").
  split; [setting two_moods (bs "{m}")|]. split; [apply go_facts_ok; vm_compute; reflexivity|]. repeat (split; [careful_part 6|]). vm_compute. reflexivity.
Qed.
Print Assumptions C50_enum_of_other_package_refuted.
(** A file is named in the variables and the request came without a function for files (named in the query, there is an error).
    [func (Q) ResolveF(args struct { A *multipart.FileHeader }) int] *)
Definition a_file : program :=
  Prog [Decl (bs "Q") app_pkg (TStruct []) [method "ResolveF" [TStruct [fd "A" (TPtr (TNamed 2))]] [int]]; Decl (bs "M") app_pkg (TStruct []) [];
        Decl (bs "FileHeader") (bs "mime/multipart") (TStruct []) []]
    [] [] [] [] [] [] TOther TOther.
Theorem C50_file_without_function_refuted : exists P p X R qv o q, set_up P p X R qv o q /\ go_facts P /\
  careful P (rts P) (mre P) /\ x_formfile X = None /\ panics P p X qv o q.
Proof.
  exists a_file. eexists. exists (with_calls (fun w _ _ _ => Some (w, [GInt WInt 1])) (fun _ => inl (FObject [(bs "v", FString (bs "x"))]))), (no_funcs a_file), (GStruct []), (ROpts false [] (q2 "{'v':'x'}") None), (bs "query q($v:File){f(a:$v)}").
  split; [setting a_file (bs "query q($v:File){f(a:$v)}")|]. split; [apply go_facts_ok; vm_compute; reflexivity|]. split; [constructor; careful_part 6|].
  split; [reflexivity|]. vm_compute. reflexivity.
Qed.
Print Assumptions C50_file_without_function_refuted.
(** Structs behind interfaces are known by name and package: of two types T declared in functions of one package one is taken
    for the other *)
Definition local_types : program :=
  Prog [Decl (bs "Q") app_pkg (TStruct [fd "I" (TNamed 2)]) []; Decl (bs "M") app_pkg (TStruct []) []; Decl (bs "I") app_pkg (TIface [method "ResolveA" [] [int]]) [];
        Decl (bs "T") app_pkg (TStruct [fd "B" int]) [method "ResolveA" [] [int]]; Decl (bs "T") app_pkg (TStruct [fd "B" str]) [method "ResolveA" [] [int]]]
    [] [(bs "T", [TNamed 2])] [(bs "I", [TNamed 3])] [] [] [] TOther TOther.
Theorem C50_local_types_refuted : exists P p X R qv o q, set_up P p X R qv o q /\
  careful P (rts P) (mre P) /\ no_files P (rts P) (mre P) /\ panics P p X qv o q.
Proof.
  exists local_types. eexists. exists no_calls, (no_funcs local_types), (GStruct [(true, GIface (Some (bs "T", app_pkg, GStruct [(true, GString (bs "x"))])))]), no_opts, (bs "{i{...on T{b}}}").
  split.
  { destruct (apart_ok local_types (TNamed 0) (TNamed 1) false 6) as [NA IA]; [vm_compute; reflexivity|].
    split; [exact NA|]. split; [exact IA|]. split; [eexists; vm_compute; reflexivity|]. split; [apply has_type_typing|].
    split. { typed. apply (HIface local_types _ _ (TNamed 2) (TNamed 4)); [reflexivity|reflexivity|vm_compute; reflexivity|typed]. }
    split; [typed|]. split; [apply int_behaves; [reflexivity|intros ? []]|].
    apply (readable_one _ _ _ _ _ _ _ (the_op (bs "{i{...on T{b}}}"))); [vm_compute; reflexivity|vm_compute; repeat constructor; intuition discriminate|vm_compute; reflexivity|].
    intro H. vm_compute in H. discriminate. }
  split; [constructor; careful_part 6|]. split; [careful_part 6|]. vm_compute. reflexivity.
Qed.
Print Assumptions C50_local_types_refuted.
