(** * C56: responses have the types that the schema announces *)
From Coq Require Import String Arith NArith ZArith Bool List Lia Sorted Permutation.
From Verif Require Import Base Json JsonModel NameModel Ast Grammar RefParser RefGrammar ParserModel ParserFacts ReqModel Schema ResModel EnvModel Samples
  Interp RunSim OpSim DocRun Valid PropEnv PropValid GoTypes ParseModel ParseFacts ParseTerm SchemaSpec ParseWhole SchemaCheck IntroModel IntroProof IntroTables IntroSpec IntroFacts
  SampleProg SampleIntro PropSchema PropIntro PropDescribe TypeSpec TypeArgs TypeSafe TypeCheck PropPanic AnswerSpec AnswerProof.
Import ListNotations.
Open Scope nat_scope.

(** the object type an operation starts at *)
Definition root_name (p : pschema) (op : definition) : bytes := match op with DOp OpMutation _ _ _ _ => p_method p | _ => p_query p end.
(** what C50 asks for, of the program and of the code *)
Record well_typed {W} (X : externals W) (P : program) (qt mt : gtype) (inj : option (gval * gval)) (R : gtype -> gval -> Prop) (inv : W -> Prop) (qv mv : gval) : Prop := {
  wt_typing : typing P R;
  wt_query : R qt qv;
  wt_method : R mt mv;
  wt_inj sv tf : inj = Some (sv, tf) -> R (g_qlschema P) sv /\ R (g_typefn P) tf /\ is_time (g_decls P) (g_typefn P) = false /\ t_kind (g_decls P) (g_typefn P) = KFunc;
  wt_behaves : behaves P X R inv;
  wt_facts : go_facts P;
  wt_careful : careful P (roots_of P qt mt (if inj then true else false)) (more_of P (if inj then true else false));
  wt_files : x_formfile X = None -> no_files P (roots_of P qt mt (if inj then true else false)) (more_of P (if inj then true else false));
  wt_time : time_apart P }.

Lemma operation_shape W (X : externals W) P qt mt inj p own iown inown R inv qv mv d raw doc op fuel :
  schema_reads P own iown inown qt mt inj p -> well_typed X P qt mt inj R inv qv mv -> enum_values P (roots_of P qt mt (if inj then true else false)) R ->
  names_told P (roots_of P qt mt (if inj then true else false)) doc -> In op doc -> (match op with DOp _ _ _ _ _ => True | _ => False end) ->
  bt inv (b_operation X (view P p qv mv d) raw doc op fuel)
    (fun c a => members_conform (go_gql P own iown (p_query p) (if inj then true else false)) (fun _ => True) (frag_defs doc) c (root_name p op) (sels_of op) (fst a)).
Proof.
  intros SR [TY Rq Rm INJ BH GF CA FI TA] EV NT Iop Hop. destruct op as [kd on args ds ss|]; [|contradiction].
  cbn [b_operation root_name sels_of].
  assert (Ii : in_it doc ss) by (intros x Hx; exists (DOp kd on args ds ss); auto).
  assert (Root : forall n t v, own n = Some t -> R t v -> In t [qt; mt] ->
    bt inv (b_sels X (view P p qv mv d) raw args (frag_defs doc) fuel (or_undef (slookup (map (fun e => (fst e, view_type (ps_methods (p_st p)) (snd e))) (ps_types (p_st p))) n)) 0%N (false, v) 0%N ss)
      (fun c a => members_conform (go_gql P own iown (p_query p) (if inj then true else false)) (fun _ => True) (frag_defs doc) c n ss (fst a))).
  { intros n t v On Rv It. destruct (sr_own _ _ _ _ _ _ _ _ SR n t On) as [Ns _]. rewrite slookup_map. destruct (slookup (ps_types (p_st p)) n) as [r|] eqn:Er; [|congruence]. cbn [or_undef].
    destruct (shape P qt mt inj p own iown inown SR qv mv d X R TY inv BH GF CA FI INJ TA EV raw args doc NT fuel) as (_ & _ & SS).
    eapply SS; [exact On|exact Er| |exact Ii]. split; [apply reach_root; destruct It as [<-|[<-|[]]]; [now left|right; now left]|]. split; [exact Rv|discriminate]. }
  pose proof (Root _ _ qv (sr_query _ _ _ _ _ _ _ _ SR) Rq (or_introl eq_refl)) as Bq.
  pose proof (Root _ _ mv (sr_method _ _ _ _ _ _ _ _ SR) Rm (or_intror (or_introl eq_refl))) as Bm.
  destruct kd; [| |apply bt_failed; intro; apply mc_nil]; (destruct ds; [|apply bt_failed; intro; apply mc_nil]); [exact Bq|exact Bm].
Qed.

(** For a schema built by Parse and code as C50 has it, whose enum types have only the registered values: the data of every response
    conforms to the GraphQL schema of the Go program, that is to the types C49 and C48 are about.  A response without errors has no null
    and no gap at a non-null type; one with errors can. *)
Theorem C56_answers_have_the_announced_types : forall W (X : externals W) P qt mt same inj fuel p s R inv qv mv,
  let b := match inj with Some _ => true | None => false end in
  named_apart P (roots_of P qt mt b) -> inputs_apart P (roots_of P qt mt b) (more_of P b) ->
  parse P fuel qt mt same inj new_pst = POk p s -> well_typed X P qt mt inj R inv qv mv -> enum_values P (roots_of P qt mt b) R ->
  exists own iown inown, schema_reads P own iown inown qt mt inj p /\
  forall d fuel' o vals w q out es vals' w' doc op,
    inv w -> resolve X (view P p qv mv d) fuel' o vals w q = RDone out es vals' w' ->
    readable X (view P p qv mv d) o fuel' w q -> g_doc doc q -> runs o doc op -> names_told P (roots_of P qt mt b) doc ->
    exists ms, out = finish_of o (start_of o ++ render (x_float_json X) (TObj ms)) es /\
      members_conform (go_gql P own iown (p_query p) b) (fun _ => True) (frag_defs doc) (match es with [] => true | _ => false end) (root_name p op) (sels_of op) ms.
Proof.
  intros W X P qt mt same inj fuel p s R inv qv mv b NA IA Hp WT EV. unfold b in *.
  destruct (parse_sound P qt mt same inj NA IA fuel p s Hp) as [_ [own [iown [inown SR]]]]. exists own, iown, inown. split; [exact SR|].
  intros d fuel' o vals w q out es vals' w' doc op Iw H Rd Gd Ro NT.
  destruct (Rd doc op Gd Ro) as (Nf & Sz & Sc). pose proof (resolve_doc W X (view P p qv mv d) fuel' o vals w q doc op Gd Nf Sz Ro) as D.
  assert (Iop : In op doc) by (destruct Ro as (d1 & d2 & -> & _); apply in_or_app; right; now left).
  assert (Hop : match op with DOp _ _ _ _ _ => True | _ => False end) by (destruct Ro as (d1 & d2 & _ & So & _); destruct op; [exact Logic.I|exact So]).
  pose proof (operation_shape W X P qt mt inj p own iown inown R inv qv mv d (op_vars o) doc op fuel' SR WT EV NT Iop Hop (s0 w) Iw) as B.
  unfold in_scope in Sc. destruct (b_operation X (view P p qv mv d) (op_vars o) doc op fuel' (s0 w)) as [[ms c] s'| | |]; [|rewrite H in D; discriminate|rewrite H in D; discriminate|congruence].
  destruct D as [v D]. rewrite H in D. injection D as -> -> -> ->. destruct B as (_ & es' & E & B). cbn in E. exists ms. split; [now rewrite render_obj|].
  rewrite E. cbn [fst] in B. destruct es'; exact B.
Qed.
Print Assumptions C56_answers_have_the_announced_types.

(** ** A program that meets the hypotheses *)
Fixpoint sel_names (x : sel) : list bytes :=
  match x with SField _ n _ _ subs => n :: flat_map sel_names subs | SSpread _ _ => [] | SInline _ _ subs => flat_map sel_names subs end.
Lemma within_names alias name ds args subs ss : within (SField alias name ds args subs) ss -> In name (flat_map sel_names ss).
Proof.
  induction 1 as [ss I|a n d ar su ss I W IH|n d su ss I W IH]; apply in_flat_map; eexists; (split; [exact I|]); cbn [sel_names]; [now left|now right|exact IH].
Qed.
Definition told_names (P : program) (l : list gtype) (d : document) : bool :=
  let names := flat_map (fun x => flat_map sel_names (sels_of x)) d in
  let fs := [bs "__schema"; bs "__type"] ++ flat_map (fun t => map fst (exposed P t)) l in
  forallb (fun f => forallb (fun n => negb (fnv1 n =? fnv1 f)%N || beqb n f) names) fs.
Lemma told_names_ok P roots l d : covers P roots l = true -> told_names P l d = true -> names_told P roots d.
Proof.
  intros C H t f alias name ds args subs Re If (y & Iy & Wi) E. unfold told_names in H. rewrite forallb_forall in H.
  assert (J : In f ([bs "__schema"; bs "__type"] ++ flat_map (fun t => map fst (exposed P t)) l)).
  { apply in_app_or in If. apply in_or_app. destruct If as [If|If]; [right|now left]. apply in_flat_map. exists t. split; [now apply (covers_ok P roots l C)|exact If]. }
  specialize (H f J). rewrite forallb_forall in H. assert (K : In name (flat_map (fun x => flat_map sel_names (sels_of x)) d)).
  { apply in_flat_map. exists y. split; [exact Iy|]. eapply within_names; eauto. }
  specialize (H name K). rewrite E, N.eqb_refl in H. now apply beqb_eq.
Qed.
(** with all values of enums being registered ones *)
Lemma registered_only P F roots : go_facts P -> enum_values P roots (has_type P (registered_values P) F).
Proof.
  intros GF t v e _ H L Ie En. destruct (L) as (_ & _ & K). inversion H; subst; try (match goal with Z : t_kind _ _ = _ |- _ => rewrite Z in K; contradiction end).
  - destruct (gf_time _ GF t) as [Z _]; [assumption|]. rewrite Z in K. contradiction.
  - eauto.
Qed.
Definition time_apart_b (P : program) : bool :=
  forallb (fun d => negb (beqb (td_pkg d) (bs "time") && beqb (td_name d) (bs "Time")) || match td_under d with TIface _ | TBasic _ => false | _ => true end) (g_decls P) &&
  forallb (fun e => forallb (fun t => negb (is_time (g_decls P) t)) (snd e)) (g_implemented P).
Lemma time_apart_ok P : time_apart_b P = true -> time_apart P.
Proof.
  intro H. apply andb_prop in H. destruct H as [H1 H2]. rewrite forallb_forall in H1, H2. split.
  - intros t T K. unfold is_time, is_type in T. destruct t; try discriminate. cbn [t_pkg t_name] in T. destruct (nth_error (g_decls P) n) as [d|] eqn:En; [|discriminate].
    specialize (H1 d (nth_error_In _ _ En)). rewrite T in H1. unfold t_kind in K. cbn [under] in K. rewrite En in K. destruct (td_under d); discriminate.
  - intros n ts t Ie It. specialize (H2 _ Ie). cbn [snd] in H2. rewrite forallb_forall in H2. apply negb_true_iff. auto.
Qed.
Example C56_case : exists p s,
  named_apart safe_prog (roots_of safe_prog g_query g_meth false) /\ inputs_apart safe_prog (roots_of safe_prog g_query g_meth false) (more_of safe_prog false) /\
  parse safe_prog 20 g_query g_meth false None new_pst = POk p s /\ well_typed safe_ext safe_prog g_query g_meth None safe_R no_inv safe_query (GStruct []) /\
  enum_values safe_prog (roots_of safe_prog g_query g_meth false) safe_R /\
  exists doc op, g_doc doc safe_text /\ runs no_opts doc op /\ names_told safe_prog (roots_of safe_prog g_query g_meth false) doc /\
    readable safe_ext (view safe_prog p safe_query (GStruct []) 255) no_opts 1000 [] safe_text /\
  exists out vals w, resolve safe_ext (view safe_prog p safe_query (GStruct []) 255) 1000 no_opts no_vals [] safe_text = RDone out [] vals w /\
    out = q2 "{'data':{'hello':'hi','me':{'name':'Bob','mood':'GOOD','born':'0001-01-01T00:00:00.000Z','friends':null},'pet':{'name':'Rex'},'note':{'text':'n'},'find':{'id':'1'},'users':[{'name':'Bob','extra':{'note':''}}]}}".
Proof.
  destruct C50_case as (p & s & NA & IA & Pa & TY & Rq & Rm & BH & GF & CA & FI & Rd & out & vals & w & Rs & Ou).
  exists p, s. split; [exact NA|]. split; [exact IA|]. split; [exact Pa|]. split.
  { constructor; auto; [discriminate|apply time_apart_ok; vm_compute; reflexivity]. }
  split; [now apply registered_only|].
  exists [the_op safe_text], (the_op safe_text). split; [apply ref_parse_spec; vm_compute; reflexivity|]. split.
  { exists [], []. vm_compute. repeat split; auto. }
  split; [apply (told_names_ok _ _ (types_in safe_prog g_query g_meth false 10)); vm_compute; reflexivity|]. split; [exact Rd|]. exists out, vals, w. auto.
Qed.
(** ** Where responses have other types *)
(** [type Query struct { Mood Mood; Big int64; Name Name }], where GOOD and BAD are registered for Mood, and Name has a method
    [ResolveFirst() (string, error)] *)
Definition odd_decls : list gdecl := [
  Decl (bs "Query") app_pkg (TStruct [fd "Mood" (TNamed 12); fd "Big" (TBasic (KInt W64)); fd "Name" (TNamed 13)]) [];
  Decl (bs "Mutation") app_pkg (TStruct []) []; Decl (bs "Mood") app_pkg (TBasic KString) [];
  Decl (bs "Name") app_pkg (TStruct []) [method "ResolveFirst" [] [str; TNamed 14]]; Decl (bs "error") [] (TIface [method "Error" [] [str]]) [] ].
Definition odd : program := with_yarql odd_decls [] [] [] [Enum KString (bs "Mood") [(bs "GOOD", GString (bs "good")); (bs "BAD", GString (bs "bad"))]] [] yarql_locs.
Definition odd_schema : pschema := Eval vm_compute in parsed_app odd "Query" "Mutation".
Definition odd_value : gval := GStruct [(true, GString []); (true, GInt W64 1099511627776); (true, GStruct [])].
Definition odd_env : externals (heap * world) :=
  intro_env odd odd_schema 0 any_call (with_calls (fun w _ _ _ => Some (w, [GString []; GErr (Some (bs "no name"))])) (fun _ => inr (bs "no JSON"))).
Definition odd_answer (q : string) (errors : bool) : option string :=
  match resolve odd_env (view odd odd_schema odd_value (GStruct []) 255) 3000 no_opts no_vals (fresh, []) (q2 q) with
  | RDone o es _ _ => if Bool.eqb errors (match es with [] => false | _ => true end) then Some (string_of_list_ascii (map Ascii.ascii_of_N o)) else None
  | _ => None
  end.
(** A value of an enum type that is not registered, as that of every field nobody has set, is null without an error, though the type is
    said to be non-null. *)
Theorem C56_enum_values_refuted : exists q s,
  parse odd 60 (TNamed 10) (TNamed 11) false (intro_args odd "Query" "Mutation") new_pst = POk odd_schema s /\
  has_type odd (fun _ _ => True) (fun _ _ => False) (TNamed 10) odd_value /\
  odd_answer q false = json "{'data':{'mood':null,'__type':{'fields':[{'name':'big','type':{'kind':'NON_NULL','ofType':{'name':'Int'}}},{'name':'mood','type':{'kind':'NON_NULL','ofType':{'name':'Mood'}}},{'name':'name','type':{'kind':'NON_NULL','ofType':{'name':'Name'}}}]}}}".
Proof.
  exists "{mood __type(name:'Query'){fields{name type{kind ofType{name}}}}}"%string. eexists. split; [vm_compute; reflexivity|]. split; [unfold odd_value; typed|vm_compute; reflexivity].
Qed.
Print Assumptions C56_enum_values_refuted.
(** The GraphQL type Int is for numbers of 32 bits; here it has all Go integers.  So [C56_answers_have_the_announced_types] is false
    if only the former are allowed. *)
Definition int32 (z : Z) : Prop := (-2147483648 <= z <= 2147483647)%Z.
Theorem C56_int_refuted : exists q doc op ms,
  odd_answer q false = json "{'data':{'big':1099511627776}}" /\ q2 "{'data':{'big':1099511627776}}" = finish_of no_opts (start_of no_opts ++ render (x_float_json odd_env) (TObj ms)) [] /\
  g_doc doc (q2 q) /\ runs no_opts doc op /\
  forall own iown inown inj, schema_reads odd own iown inown (TNamed 10) (TNamed 11) inj odd_schema -> forall b,
    ~ members_conform (go_gql odd own iown (p_query odd_schema) b) int32 (frag_defs doc) true (root_name odd_schema op) (sels_of op) ms.
Proof.
  exists "{big}"%string, (parsed (q2 "{big}")), (the_op (q2 "{big}")), [(bs "big", TInt 1099511627776)]. split; [vm_compute; reflexivity|]. split; [vm_compute; reflexivity|].
  split; [apply ref_parse_spec; vm_compute; reflexivity|]. split; [exists [], []; vm_compute; repeat split; auto|].
  intros own iown inown inj SR b M. cut (forall r ss, ~ conforms (go_gql odd own iown (p_query odd_schema) b) int32 (frag_defs (parsed (q2 "{big}"))) true r ss (TInt 1099511627776)).
  - intro C. inversion M; subst; [eapply C; eauto|discriminate].
  - clear. intros r ss C. remember (TInt 1099511627776) as x eqn:E. remember true as ok eqn:O. induction C as [r ss x F _|r ss F|r ss x N C IH|r ss l C|n ss x S|n ss v V|n ss ms' Q C|n n' ss ms' Q Q' C]; try congruence; auto.
    subst. inversion S as [z Hz| | | | | |]. unfold int32 in Hz. lia.
Qed.
Print Assumptions C56_int_refuted.
(** With an error there can be null at a non-null type, where GraphQL wants null for the object that has the field; and if a resolver
    fails, its result is given all the same, where GraphQL wants null. *)
Theorem C56_failed_fields_refuted : exists q q',
  odd_answer q true = json "{'data':{'name':null},'errors':[{'message':'must have a selection','path':['name']}],'extensions':{}}" /\
  odd_answer q' true = json "{'data':{'name':{'first':''}},'errors':[{'message':'no name','path':['name','first']}],'extensions':{}}".
Proof. exists "{name}"%string, "{name{first}}"%string. split; vm_compute; reflexivity. Qed.
Print Assumptions C56_failed_fields_refuted.
