(** * C57: introspection does not panic and returns values of the types it declares *)
From Coq Require Import String Arith NArith ZArith Bool List Lia.
From Verif Require Import Base Json JsonModel NameModel Ast Grammar RefParser RefGrammar ParserModel ReqModel Schema ResModel EnvModel Samples
  Interp OpSim DocRun PropEnv PropValid GoTypes ParseModel ParseTerm SchemaSpec ParseWhole SchemaCheck IntroModel IntroProof IntroTables IntroSpec IntroFacts
  SampleProg SampleIntro PropSchema PropIntro PropDescribe TypeSpec TypeArgs TypeSafe TypeCheck PropPanic IntroTyped.
Import ListNotations.
Open Scope nat_scope.

(** [with_yarql ds renamed impls impled es dirs locs] is a program with the declarations [ds], with the types, enums and directives of yarql.
    [intro_R Fu]: the typing of Go, in which the types of enums have only the registered values; a function of introspection has the type that
    grahql_types.go declares for it, and [Fu] says which other functions a type has. *)
Section Program.
Variables (ds : list gdecl) (renamed : list (bytes * bytes)) (impls impled : list (bytes * list gtype)) (es : list enum) (dirs : list pdir) (locs : list (N * list nat)).
Notation P := (with_yarql ds renamed impls impled es dirs locs).
Definition intro_R (p : pschema) (Fu : gtype -> N -> Prop) : gtype -> gval -> Prop := has_type P (registered_values P) (funs ds renamed impls impled es dirs locs p Fu).
Definition other_code {W} (p : pschema) (Fu : gtype -> N -> Prop) (X : externals W) (inv : W -> Prop) : Prop :=
  user_behaves ds renamed impls impled es dirs locs p (registered_values P) Fu X inv.
(** the state after some requests to the schema and its copies, which are the numbers from 1 *)
Inductive served {W} (X : externals W) (p : pschema) (qv mv : gval) (maxdepth : N) (inv : W -> Prop) : heap -> W -> Prop :=
| sv_start w : inv w -> served X p qv mv maxdepth inv fresh w
| sv_request me fuel o vals h w q out errs vals' h' w' : served X p qv mv maxdepth inv h w ->
    readable (intro_env P p me any_call X) (schema_of P p 0 qv mv maxdepth) o fuel (h, w) q ->
    resolve (intro_env P p me any_call X) (schema_of P p me qv mv maxdepth) fuel o vals (h, w) q = RDone out errs vals' (h', w') ->
    served X p qv mv maxdepth inv h' w'.
Definition kept_all (p : pschema) {W} (inv : W -> Prop) : heap * W -> Prop := all_kept ds renamed impls impled es dirs locs p inv.

Section Given.
Variables (qt mt : gtype) (same : bool) (qn mn : bytes) (fuel : nat) (p : pschema) (s : pst) (Fu : gtype -> N -> Prop).
Hypothesis NA : named_apart P (roots_of P qt mt true).
Hypothesis IA : inputs_apart P (roots_of P qt mt true) (more_of P true).
Hypothesis RG : registered P.
Hypothesis TA : time_apart P.
Hypothesis EN : NoDup (map en_name (g_enums P)).
Hypothesis PA : parse P fuel qt mt same (Some (schema_value P qn mn, type_function)) new_pst = POk p s.
Lemma enum_of (e e' : enum) : In e (g_enums P) -> In e' (g_enums P) -> en_name e = en_name e' -> e = e'.
Proof.
  clear - EN. revert EN. generalize (g_enums P) as l. induction l as [|x l IH]; intros D H K E; [contradiction|]. inversion D as [|y m NI D' E']; subst y m.
  destruct H as [->|H], K as [->|K]; auto; exfalso; apply NI; [rewrite E|rewrite <- E]; now apply in_map.
Qed.
Lemma kinds_ok k : registered_values P y_kind (GUint W8 (tkind_code k)).
Proof. intros e He N _. rewrite (enum_of e (nth 0 yarql_enums e) He (or_introl eq_refl) N). destruct k; eexists; cbn; repeat first [left; reflexivity|right]. Qed.
Lemma locs_ok l : registered_values P y_loc (GUint W8 (ql_location l)).
Proof.
  intros e He N _. rewrite (enum_of e (nth 1 yarql_enums e) He (or_intror (or_introl eq_refl)) N). unfold ql_location.
  destruct l as [|[[[]| |]|[| |]|]]; eexists; cbn; repeat first [left; reflexivity|right].
Qed.
Lemma no_enum t v : t_pkg (g_decls P) t = [] -> registered_values P t v. Proof. intros E e _ _ [H _]. contradiction. Qed.
Lemma all_behaves W (X : externals W) inv me : other_code p Fu X inv -> behaves P (intro_env P p me any_call X) (intro_R p Fu) (kept_all p inv).
Proof.
  intro U. destruct (parse_sound P qt mt same (Some (schema_value P qn mn, type_function)) NA IA fuel p s PA) as [_ [own [iown [inown SR]]]]. pose proof (parsed_tables P _ _ _ _ _ _ _ PA) as TB.
  apply (intro_behaves ds renamed impls impled es dirs locs p (registered_values P) Fu kinds_ok) with (own := own) (iown := iown) (inown := inown) (qt := qt) (mt := mt) (inj := Some (schema_value P qn mn, type_function)); auto;
    intros; now apply no_enum.
Qed.
Lemma injected : forall sv tf, Some (schema_value P qn mn, type_function) = Some (sv, tf) ->
  intro_R p Fu (g_qlschema P) sv /\ intro_R p Fu (g_typefn P) tf /\ is_time (g_decls P) (g_typefn P) = false /\ t_kind (g_decls P) (g_typefn P) = KFunc.
Proof.
  intros sv tf [= <- <-]. split; [|split; [|split; reflexivity]].
  - apply (R_schema ds renamed impls impled es dirs locs p); auto using kinds_ok, locs_ok; intros; now apply no_enum.
  - apply (R_typefn ds renamed impls impled es dirs locs p).
Qed.
Lemma each_fine W (X : externals W) inv qv mv maxdepth h w me fuel' o vals q :
  go_facts P -> careful P (roots_of P qt mt true) (more_of P true) -> (x_formfile X = None -> no_files P (roots_of P qt mt true) (more_of P true)) ->
  other_code p Fu X inv -> intro_R p Fu qt qv -> intro_R p Fu mt mv -> kept_all p inv (h, w) ->
  readable (intro_env P p me any_call X) (schema_of P p 0 qv mv maxdepth) o fuel' (h, w) q ->
  match resolve (intro_env P p me any_call X) (schema_of P p me qv mv maxdepth) fuel' o vals (h, w) q with RDone _ _ _ w' => kept_all p inv w' | RPanicked => False | ROutOfFuel => True end.
Proof.
  intros GF CA NF U Rq Rm K Rd. rewrite C40_copies_answer_alike.
  apply (request_fine (heap * W) (intro_env P p me any_call X) P qt mt same (Some (schema_value P qn mn, type_function)) fuel p s (intro_R p Fu) (kept_all p inv) qv mv maxdepth o fuel' vals (h, w) q); auto.
  - apply has_type_typing.
  - apply injected.
  - now apply all_behaves.
  - cbn [intro_env x_formfile]. intro E. apply NF. destruct (x_formfile X); [discriminate|reflexivity].
Qed.
End Given.
End Program.

Lemma served_kept W (X : externals W) ds renamed impls impled es dirs locs qt mt same qn mn fuel p s Fu inv qv mv maxdepth h w :
  let P := with_yarql ds renamed impls impled es dirs locs in
  named_apart P (roots_of P qt mt true) -> inputs_apart P (roots_of P qt mt true) (more_of P true) -> registered P -> time_apart P -> NoDup (map en_name (g_enums P)) ->
  parse P fuel qt mt same (Some (schema_value P qn mn, type_function)) new_pst = POk p s ->
  go_facts P -> careful P (roots_of P qt mt true) (more_of P true) -> (x_formfile X = None -> no_files P (roots_of P qt mt true) (more_of P true)) ->
  other_code ds renamed impls impled es dirs locs p Fu X inv ->
  intro_R ds renamed impls impled es dirs locs p Fu qt qv -> intro_R ds renamed impls impled es dirs locs p Fu mt mv ->
  served ds renamed impls impled es dirs locs X p qv mv maxdepth inv h w -> kept_all ds renamed impls impled es dirs locs p inv (h, w).
Proof.
  intros P NA IA RG TA EN PA GF CA NF U Rq Rm SV. induction SV as [w Hw|me' fu o' va h w q' out errs va' h' w' SV IH Rd E]; [now apply nothing_kept|].
  pose proof (each_fine ds renamed impls impled es dirs locs qt mt same qn mn fuel p s Fu NA IA RG TA EN PA W X inv qv mv maxdepth h w me' fu o' va q' GF CA NF U Rq Rm IH Rd) as G.
  rewrite E in G. exact G.
Qed.

(** Whatever has been asked before, no request to the schema or to a copy panics, with or without introspection in it. *)
Theorem C57_introspection_does_not_panic : forall W (X : externals W) ds renamed impls impled es dirs locs qt mt same qn mn fuel p s Fu inv qv mv maxdepth h w me fuel' o vals q,
  let P := with_yarql ds renamed impls impled es dirs locs in
  named_apart P (roots_of P qt mt true) -> inputs_apart P (roots_of P qt mt true) (more_of P true) -> registered P -> time_apart P -> NoDup (map en_name (g_enums P)) ->
  parse P fuel qt mt same (Some (schema_value P qn mn, type_function)) new_pst = POk p s ->
  go_facts P -> careful P (roots_of P qt mt true) (more_of P true) -> (x_formfile X = None -> no_files P (roots_of P qt mt true) (more_of P true)) ->
  other_code ds renamed impls impled es dirs locs p Fu X inv ->
  intro_R ds renamed impls impled es dirs locs p Fu qt qv -> intro_R ds renamed impls impled es dirs locs p Fu mt mv ->
  served ds renamed impls impled es dirs locs X p qv mv maxdepth inv h w ->
  readable (intro_env P p me any_call X) (schema_of P p 0 qv mv maxdepth) o fuel' (h, w) q ->
  resolve (intro_env P p me any_call X) (schema_of P p me qv mv maxdepth) fuel' o vals (h, w) q <> RPanicked.
Proof.
  intros W X ds renamed impls impled es dirs locs qt mt same qn mn fuel p s Fu inv qv mv maxdepth h w me fuel' o vals q P NA IA RG TA EN PA GF CA NF U Rq Rm SV Rd.
  assert (K : kept_all ds renamed impls impled es dirs locs p inv (h, w)) by (eapply served_kept; eauto).
  intro E. pose proof (each_fine ds renamed impls impled es dirs locs qt mt same qn mn fuel p s Fu NA IA RG TA EN PA W X inv qv mv maxdepth h w me fuel' o vals q GF CA NF U Rq Rm K Rd) as G.
  unfold P in E. rewrite E in G. exact G.
Qed.
Print Assumptions C57_introspection_does_not_panic.

(** ** A program that meets the hypotheses *)
Definition a_renamed : list (bytes * bytes) := [(bs "Animal", bs "Pet")].
Definition a_impls : list (bytes * list gtype) := [(bs "Dog", [a_animal])].
Definition a_impled : list (bytes * list gtype) := [(bs "Animal", [a_dog])].
Definition a_enums : list enum := [Enum KString (bs "Mood") [(bs "GOOD", GString (bs "good")); (bs "BAD", GString (bs "bad"))]].
Lemma app_is : app = with_yarql app_decls a_renamed a_impls a_impled a_enums [] yarql_locs. Proof. reflexivity. Qed.
Definition ann : gval := GStruct [(true, GInt WInt 1); (true, GString (bs "Ann")); (true, GSlice None); (true, GString (bs "bad"))].
Definition app_root : gval := GStruct [(true, GString (bs "world")); (true, GPtr (Some ann)); (true, GIface (Some (bs "Dog", app_pkg, GStruct [(true, GUint W8 3)]))); (true, GString [])].
Definition app_calls (w : world) (f : gval) (a : list gval) (p : bytes) : option (world * list gval) :=
  match f with
  | GMethod (GStruct []) _ => Some (w, [GInt WInt 2])
  | GMethod (GStruct [_]) _ => Some (w, [GString (bs "Rex")])
  | GMethod (GStruct [_; _; _; _]) _ => Some (w, [GSlice (Some [ann]); GErr None])
  | _ => None
  end.
Definition app_x : externals world := with_calls app_calls (fun _ => inr (bs "no JSON")).
Definition none_else (t : gtype) (n : N) : Prop := False.
Notation app_R := (intro_R app_decls a_renamed a_impls a_impled a_enums [] yarql_locs app_schema none_else).
Lemma ann_ok : app_R a_user ann. Proof. unfold intro_R. typed. Qed.
Lemma app_root_ok : app_R a_query app_root.
Proof.
  unfold intro_R, app_root. apply HStruct; [reflexivity|reflexivity|]. cbn [t_fields under with_yarql g_decls yarql_decls app_decls app nth_error a_query td_under].
  constructor; [split; [reflexivity|typed]|]. constructor; [split; [reflexivity|]|].
  { eapply HPtr; [reflexivity|reflexivity|reflexivity|apply ann_ok]. }
  constructor; [split; [reflexivity|]|]. { apply (HIface (with_yarql app_decls a_renamed a_impls a_impled a_enums [] yarql_locs) _ _ a_animal a_dog); [reflexivity|reflexivity|vm_compute; reflexivity|typed]. }
  constructor; [split; [reflexivity|typed]|]. constructor.
Qed.
Lemma app_methods t i name ins outs va : t_kind (g_decls app) t = KStruct -> nth_error (t_methods (g_decls app) t) i = Some (name, TFunc ins outs va) ->
  (t = a_query /\ outs = [TSlice a_user; a_err]) \/ (t = a_meth /\ outs = [int]) \/ (t = a_dog /\ outs = [str]).
Proof.
  intros K E. destruct t as [k|n| | | | | | |]; try (destruct i; discriminate).
  do 18 (destruct n as [|n]; [cbn in K, E; try discriminate; destruct i as [|[|]]; try discriminate; injection E as <- <- <- <-; auto|]). destruct n; destruct i; discriminate.
Qed.
Ltac parts F := repeat match type of F with Forall2 _ (_ :: _) _ => let y := fresh "y" in let l := fresh "l" in let F' := fresh "F" in inversion F as [|? y ? l ? F']; subst; clear F; rename F' into F end; inversion F; subst.
Lemma app_code : other_code app_decls a_renamed a_impls a_impled a_enums [] yarql_locs app_schema none_else app_x no_inv.
Proof.
  constructor.
  - intros w n t ins outs va args q _ C H U Fa. exfalso. inversion H as [|t0 v T B K Bt| | | | | | | | | |t0 n0 T K Ft]; subst; [rewrite <- K in B; contradiction|]. unfold funs in Ft. rewrite C in Ft. exact Ft.
  - intros w t v i name ins outs va args q _ H T K En Fa. cbn [app_x with_calls x_call].
    destruct (ty_struct _ _ (has_type_typing _ _ _) t v H T K) as (l & -> & Fl).
    destruct (app_methods _ _ _ _ _ _ K En) as [[-> ->]|[[-> ->]|[-> ->]]]; cbn [t_fields under PP with_yarql g_decls yarql_decls app_decls nth_error td_under a_query a_meth a_dog Datatypes.app] in Fl.
    + parts Fl. eexists _, _. split; [reflexivity|]. split; [exact Logic.I|]. constructor; [|constructor; [eexists; reflexivity|constructor]]. eapply HSlice; [reflexivity|reflexivity|reflexivity|]. constructor; [apply ann_ok|constructor].
    + parts Fl. eexists _, _. split; [reflexivity|]. split; [exact Logic.I|]. constructor; [|constructor]. cbn. typed.
    + parts Fl. eexists _, _. split; [reflexivity|]. split; [exact Logic.I|]. constructor; [|constructor]. cbn. typed.
  - intros w f dd args q _ I E Fa. eexists _, _. split; [reflexivity|exact Logic.I].
  - intros. exact Logic.I.
Qed.
Definition look_text : bytes := q2 "{hello me{name mood} pet{name} __schema{types{name kind} queryType{fields{name}} directives{name locations}} __type(name:'User'){fields{name type{kind ofType{name}}}}}".
Definition all_text : bytes := q2 "{__type(name:'Mood'){name enumValues{name}} t:__type(name:'Pet'){possibleTypes{name interfaces{name}}} u:__type(name:'UserFilter'){inputFields{name type{name}}}}".
Notation app_env me := (intro_env app app_schema me any_call app_x).
Notation app_sees me := (schema_of app app_schema me app_root (GStruct []) 255).
Definition looked : rresult (heap * world) := resolve (app_env 1) (app_sees 1) 3000 no_opts no_vals (fresh, []) look_text.
Definition after (r : rresult (heap * world)) : heap * world := match r with RDone _ _ _ w => w | _ => (fresh, []) end.
Lemma app_apart : named_apart app (roots_of app a_query a_meth true) /\ inputs_apart app (roots_of app a_query a_meth true) (more_of app true).
Proof. apply (apart_ok app a_query a_meth true 30). vm_compute. reflexivity. Qed.
Lemma app_registered : registered app. Proof. intros n ts t [[= <- <-]|[]] [<-|[]]; reflexivity. Qed.
Lemma app_time_apart : time_apart app.
Proof.
  split.
  - intros t T K. unfold is_time in T. apply andb_prop in T. destruct T as [T1 T2]. apply beqb_eq in T1, T2. unfold t_kind in K. destruct t; try discriminate.
    cbn in T1. destruct (nth_error _ n) as [d|] eqn:E; [|discriminate]. do 18 (destruct n as [|n]; [injection E as <-; discriminate|]). destruct n; discriminate.
  - intros n ts t [[= <- <-]|[]] [<-|[]]; reflexivity.
Qed.
Lemma app_parse : exists s, parse app 60 a_query a_meth false (intro_args app "Query" "Mutation") new_pst = POk app_schema s.
Proof. eexists. vm_compute. reflexivity. Qed.
Lemma app_facts : go_facts app. Proof. apply go_facts_ok; vm_compute; reflexivity. Qed.
Lemma app_careful : careful app (roots_of app a_query a_meth true) (more_of app true).
Proof. constructor; [apply (enum_kinds_ok _ _ _ _ 30)|apply (quiet_fields_ok _ _ _ _ 30)|apply (open_args_ok _ _ _ _ 30)|apply (open_inputs_ok _ _ _ _ 30)]; vm_compute; reflexivity. Qed.
Lemma app_files : no_files app (roots_of app a_query a_meth true) (more_of app true). Proof. apply (no_files_ok _ _ _ _ 30); vm_compute; reflexivity. Qed.
Lemma look_readable : readable (app_env 1) (app_sees 0) no_opts 3000 (fresh, []) look_text.
Proof.
  apply (readable_one _ _ _ _ _ _ _ (the_op look_text)); [vm_compute; reflexivity|vm_compute; repeat constructor; intuition discriminate|vm_compute; reflexivity|].
  intro H. vm_compute in H. discriminate.
Qed.
Lemma served_one ds renamed impls impled es dirs locs p qv mv me fuel q r : resolve (intro_env (with_yarql ds renamed impls impled es dirs locs) p me any_call app_x) (schema_of (with_yarql ds renamed impls impled es dirs locs) p me qv mv 255) fuel no_opts no_vals (fresh, []) q = r ->
  readable (intro_env (with_yarql ds renamed impls impled es dirs locs) p me any_call app_x) (schema_of (with_yarql ds renamed impls impled es dirs locs) p 0 qv mv 255) no_opts fuel (fresh, []) q ->
  match r with RDone _ _ _ _ => True | _ => False end -> served ds renamed impls impled es dirs locs app_x p qv mv 255 no_inv (fst (after r)) (snd (after r)).
Proof.
  intros E Rd H. destruct r as [o e v [h w]| |]; try contradiction. cbn [after fst snd]. eapply sv_request; [apply sv_start; exact Logic.I|exact Rd|exact E].
Qed.
Lemma served_looked : served app_decls a_renamed a_impls a_impled a_enums [] yarql_locs app_x app_schema app_root (GStruct []) 255 no_inv (fst (after looked)) (snd (after looked)).
Proof.
  apply served_one with (me := 1) (fuel := 3000) (q := look_text); [unfold looked; rewrite app_is; reflexivity|rewrite <- app_is; apply look_readable|vm_compute; exact Logic.I].
Qed.
Example C57_case :
  named_apart app (roots_of app a_query a_meth true) /\ inputs_apart app (roots_of app a_query a_meth true) (more_of app true) /\ registered app /\ time_apart app /\ NoDup (map en_name (g_enums app)) /\
  (exists s, parse app 60 a_query a_meth false (Some (schema_value app (bs "Query") (bs "Mutation"), type_function)) new_pst = POk app_schema s) /\
  go_facts app /\ careful app (roots_of app a_query a_meth true) (more_of app true) /\ no_files app (roots_of app a_query a_meth true) (more_of app true) /\
  other_code app_decls a_renamed a_impls a_impled a_enums [] yarql_locs app_schema none_else app_x no_inv /\ app_R a_query app_root /\ app_R a_meth (GStruct []) /\
  served app_decls a_renamed a_impls a_impled a_enums [] yarql_locs app_x app_schema app_root (GStruct []) 255 no_inv (fst (after looked)) (snd (after looked)) /\
  fst (after looked) <> fresh /\
  readable (app_env 2) (app_sees 0) no_opts 3000 (after looked) all_text /\
  exists vals w, resolve (app_env 2) (app_sees 2) 3000 no_opts no_vals (after looked) all_text = RDone (q2 "{'data':{'__type':{'name':'Mood','enumValues':[{'name':'BAD'},{'name':'GOOD'}]},'t':{'possibleTypes':[{'name':'Dog','interfaces':[{'name':'Pet'}]}]},'u':{'inputFields':[{'name':'name','type':{'name':null}},{'name':'or','type':{'name':'UserFilter'}}]}}}") [] vals w.
Proof.
  split; [apply app_apart|]. split; [apply app_apart|]. split; [apply app_registered|]. split; [apply app_time_apart|]. split; [apply nodup_of; vm_compute; reflexivity|].
  split; [apply app_parse|]. split; [apply app_facts|]. split; [apply app_careful|]. split; [apply app_files|]. split; [apply app_code|]. split; [apply app_root_ok|]. split; [unfold intro_R; typed|].
  split.
  { exact served_looked. }
  split; [intro H; apply (f_equal (fun h => ic_list (h 0))) in H; vm_compute in H; discriminate|].
  split.
  { apply (readable_one _ _ _ _ _ _ _ (the_op all_text)); [vm_compute; reflexivity|vm_compute; repeat constructor; intuition discriminate|vm_compute; reflexivity|].
    intro H. vm_compute in H. discriminate. }
  eexists _, _. vm_compute. reflexivity.
Qed.
