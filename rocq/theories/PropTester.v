(** * C54: the package tester tells what the Go program is *)
From Coq Require Import String Arith NArith ZArith Bool List Lia Sorted Permutation.
From Verif Require Import Base Json JsonModel NameModel ParserModel ReqModel Schema ResModel EnvModel GoTypes ParseModel ParseFacts ParseTerm SchemaSpec ParseWhole SchemaCheck
  IntroModel IntroProof IntroTables IntroSpec IntroFacts SampleProg Samples SampleIntro PropIntro PropDescribe TesterModel TesterSpec TesterSchema TesterGot.
From Verif Require Interp TesterProof.
Import ListNotations.
Open Scope nat_scope.

(** the request of GetTypeByName, to the schema (0) or to a copy of it *)
Definition asked {W} (P : program) (p : pschema) (me : nat) (X : externals W) (qv mv : gval) (d : N) (fuel : nat) (vars : bytes) (vals : N -> rv) (h : heap) (w : W) : rresult (heap * W) :=
  resolve (intro_env P p me any_call X) (schema_of P p me qv mv d) fuel (tester_opts vars) vals (h, w) tester_query.
(** A program whose schema [p] was parsed with introspection and has answered requests, in none of which the function behind
    mutationType.fields was called (see C42).  [vars] is the JSON text with the name [n]; the default depth of 255 is no problem. *)
Record setting {W} (P : program) (qt mt : gtype) (own iown inown : bytes -> option gtype) (p : pschema) (X : externals W) (h : heap) (d : N) (fuel : nat) (vars n : bytes) : Prop := {
  st_program : yarql_program P;
  st_registered : registered P;
  st_time : time_apart P;
  st_parsed : exists pf same sv s, parse P pf qt mt same (Some (sv, type_function)) new_pst = POk p s /\ schema_reads P own iown inown qt mt (Some (sv, type_function)) p;
  st_apart : all_apart P p;
  st_history : @history W P p h;
  st_fuel : 30 <= fuel;
  st_context : forall w, x_ctxerr X w = None;
  st_depth : d <> 1%N /\ d <> 2%N;
  st_vars : vars <> [] /\ x_parse X vars = inl (FObject [(bs "typename", FString n)]);
  st_names : forall t, with_fields own iown n t -> keys_apart P t /\ Forall utf8 (field_names P t) }.

(** Such functions [own], [iown] and [inown] exist for every schema that was parsed, see C48.  Then GetTypeByName gives one result, the
    kind of the type with the name and the names of its fields. *)
Theorem C54_get_type : forall W P qt mt own iown inown p (X : externals W) h d fuel vars n qv mv vals w,
  setting P qt mt own iown inown p X h d fuel vars n ->
  exists r, got (asked P p 0 X qv mv d fuel vars vals h w) r /\ (forall r', got (asked P p 0 X qv mv d fuel vars vals h w) r' -> r' = r) /\ known P own iown inown n r.
Proof.
  intros W P qt mt own iown inown p X h d fuel vars n qv mv vals w [S1 S2 S3 [pf [same [sv [s [PA SR]]]]] S5 S6 S7 S8 [D1 D2] [V1 V2] S11].
  pose proof (parsed_tables P _ _ _ _ _ _ _ PA) as TB.
  destruct (tester_gets W P own iown inown qt mt sv p X fuel vars vals h w n qv mv d S1 SR S2 S3 TB S5 (history_ok P p h (same_names P p TB S5) S6) S7 S8 D1 D2 V1 V2 S11) as [r [G K]].
  exists r. split; [exact G|]. split; [|exact K]. intros r' G'. exact (got_fun _ _ _ G' G).
Qed.
Print Assumptions C54_get_type.
Lemma known_of {W} P qt mt own iown inown p (X : externals W) h d fuel vars n qv mv vals w r :
  setting P qt mt own iown inown p X h d fuel vars n -> got (asked P p 0 X qv mv d fuel vars vals h w) r -> known P own iown inown n r.
Proof. intros S G. destruct (C54_get_type W P qt mt own iown inown p X h d fuel vars n qv mv vals w S) as [rr [_ [U K]]]. rewrite (U r G). exact K. Qed.
Lemma apart_of {W} P qt mt own iown inown p (X : externals W) h d fuel vars n : setting P qt mt own iown inown p X h d fuel vars n ->
  (forall t, own n = Some t -> iown n = None /\ ~ without_fields P inown n) /\ (forall t, iown n = Some t -> own n = None /\ ~ without_fields P inown n) /\
  (inown n <> None -> ~ In n (map en_name (g_enums P)) /\ ~ In n scalar_names) /\ (In n (map en_name (g_enums P)) -> ~ In n scalar_names).
Proof.
  intros [_ _ _ [pf [same [sv [s [_ SR]]]]] S5 _ _ _ _ _ _]. destruct (one_type P own iown inown qt mt _ p SR S5 n) as [A B]. destruct (one_other P own iown inown qt mt _ p SR S5 n) as [C D]. auto.
Qed.

(** HasType says whether there is a type with the name *)
Theorem C54_has_type : forall W P qt mt own iown inown p (X : externals W) h d fuel vars n qv mv vals w r,
  setting P qt mt own iown inown p X h d fuel vars n -> got (asked P p 0 X qv mv d fuel vars vals h w) r ->
  has_type r = true <-> (exists t, with_fields own iown n t) \/ without_fields P inown n.
Proof.
  intros W P qt mt own iown inown p X h d fuel vars n qv mv vals w r S G. destruct (known_of P qt mt own iown inown p X h d fuel vars n qv mv vals w r S G) as [t l O _ _|t l O _ _|t O|E|E|O IO NW];
    clear S G; cbn [has_type]; (split; [intros _|reflexivity]) || (split; [discriminate|]).
  - left. exists t. now left.
  - left. exists t. now right.
  - right. left. congruence.
  - right. right. auto.
  - right. right. auto.
  - intros [[t [A|A]]|A]; [congruence|congruence|contradiction].
Qed.
Print Assumptions C54_has_type.
(** TypeKind gives the kind of GraphQL, and the empty text if there is no type *)
Theorem C54_type_kind : forall W P qt mt own iown inown p (X : externals W) h d fuel vars n qv mv vals w r,
  setting P qt mt own iown inown p X h d fuel vars n -> got (asked P p 0 X qv mv d fuel vars vals h w) r ->
  (own n <> None -> type_kind r = bs "OBJECT") /\ (iown n <> None -> type_kind r = bs "INTERFACE") /\ (inown n <> None -> type_kind r = bs "INPUT_OBJECT") /\
  (In n (map en_name (g_enums P)) -> type_kind r = bs "ENUM") /\ (In n scalar_names -> type_kind r = bs "SCALAR") /\
  ((forall t, ~ with_fields own iown n t) -> ~ without_fields P inown n -> type_kind r = []).
Proof.
  intros W P qt mt own iown inown p X h d fuel vars n qv mv vals w r S G. destruct (apart_of P qt mt own iown inown p X h d fuel vars n S) as [A1 [A2 [A3 A4]]].
  destruct (known_of P qt mt own iown inown p X h d fuel vars n qv mv vals w r S G) as [t l O _ _|t l O _ _|t O|E|E|O IO NW]; clear S G; cbn [type_kind tt_kind]; unfold without_fields, with_fields in *.
  - destruct (A1 t O). repeat split; intros; try reflexivity; exfalso; try tauto. apply (H1 t). auto.
  - destruct (A2 t O). repeat split; intros; try reflexivity; exfalso; try tauto. apply (H1 t). auto.
  - assert (N : inown n <> None) by congruence. repeat split; intros; try reflexivity; exfalso; try tauto.
    + destruct (own n) eqn:F; [|contradiction]. destruct (A1 _ eq_refl). tauto.
    + destruct (iown n) eqn:F; [|contradiction]. destruct (A2 _ eq_refl). tauto.
  - repeat split; intros; try reflexivity; exfalso; try tauto.
    + destruct (own n) eqn:F; [|contradiction]. destruct (A1 _ eq_refl). tauto.
    + destruct (iown n) eqn:F; [|contradiction]. destruct (A2 _ eq_refl). tauto.
  - repeat split; intros; try reflexivity; exfalso; try tauto.
    + destruct (own n) eqn:F; [|contradiction]. destruct (A1 _ eq_refl). tauto.
    + destruct (iown n) eqn:F; [|contradiction]. destruct (A2 _ eq_refl). tauto.
  - repeat split; intros; try reflexivity; exfalso; tauto.
Qed.
Print Assumptions C54_type_kind.
(** HasFields is content if and only if the type is a struct or an interface with all those fields; otherwise it says what is wrong, and
    names the first field that is missing *)
Theorem C54_has_fields : forall W P qt mt own iown inown p (X : externals W) h d fuel vars n qv mv vals w r fs,
  setting P qt mt own iown inown p X h d fuel vars n -> got (asked P p 0 X qv mv d fuel vars vals h w) r ->
  (has_fields r n fs = None <-> exists t, with_fields own iown n t /\ incl fs (field_names P t)) /\
  (forall t pre f post, with_fields own iown n t -> fs = pre ++ f :: post -> incl pre (field_names P t) -> ~ In f (field_names P t) ->
     has_fields r n fs = Some (bs "field " ++ f ++ bs " not found on type " ++ n)) /\
  (without_fields P inown n -> has_fields r n fs = Some (bs "type must be a OBJECT or INTERFACE")) /\
  ((forall t, ~ with_fields own iown n t) -> ~ without_fields P inown n -> has_fields r n fs = Some (bs "type not found")).
Proof.
  intros W P qt mt own iown inown p X h d fuel vars n qv mv vals w r fs S G. destruct (apart_of P qt mt own iown inown p X h d fuel vars n S) as [A1 [A2 _]].
  pose proof (known_of P qt mt own iown inown p X h d fuel vars n qv mv vals w r S G) as K. clear S G.
  assert (F : forall t l k, with_fields own iown n t -> Permutation l (field_names P t) -> k = bs "OBJECT" \/ k = bs "INTERFACE" -> (forall t', with_fields own iown n t' -> t' = t) -> ~ without_fields P inown n ->
    (has_fields (Some (TT k l)) n fs = None <-> exists t, with_fields own iown n t /\ incl fs (field_names P t)) /\
    (forall t pre f post, with_fields own iown n t -> fs = pre ++ f :: post -> incl pre (field_names P t) -> ~ In f (field_names P t) ->
       has_fields (Some (TT k l)) n fs = Some (bs "field " ++ f ++ bs " not found on type " ++ n)) /\
    (without_fields P inown n -> has_fields (Some (TT k l)) n fs = Some (bs "type must be a OBJECT or INTERFACE")) /\
    ((forall t, ~ with_fields own iown n t) -> ~ without_fields P inown n -> has_fields (Some (TT k l)) n fs = Some (bs "type not found"))).
  { intros t l k WF PL KK UN NW.
    assert (HF : has_fields (Some (TT k l)) n fs = match first_unknown fs l with Some f => Some (no_such_field f n) | None => None end) by (destruct KK as [-> | ->]; reflexivity).
    assert (II : forall x, incl x l <-> incl x (field_names P t)).
    { intro x. split; intros Q y Hy; [apply (Permutation_in _ PL)|apply (Permutation_in _ (Permutation_sym PL))]; auto. }
    split; [|split; [|split; [tauto|intro Q; exfalso; exact (Q t WF)]]].
    - rewrite HF. split.
      + intro E. exists t. split; [exact WF|]. apply II, first_unknown_none. destruct (first_unknown fs l); [discriminate|reflexivity].
      + intros [t' [W' I']]. rewrite (UN t' W') in I'. apply II, first_unknown_none in I'. now rewrite I'.
    - intros t' pre f post W' -> I' N'. rewrite (UN t' W') in I', N'. rewrite HF, first_unknown_some; [reflexivity|now apply II|]. intro Q. apply N'. exact (Permutation_in _ PL Q). }
  assert (N : forall k, without_fields P inown n -> k = bs "INPUT_OBJECT" \/ k = bs "ENUM" \/ k = bs "SCALAR" ->
    (has_fields (Some (TT k [])) n fs = None <-> exists t, with_fields own iown n t /\ incl fs (field_names P t)) /\
    (forall t pre f post, with_fields own iown n t -> fs = pre ++ f :: post -> incl pre (field_names P t) -> ~ In f (field_names P t) ->
       has_fields (Some (TT k [])) n fs = Some (bs "field " ++ f ++ bs " not found on type " ++ n)) /\
    (without_fields P inown n -> has_fields (Some (TT k [])) n fs = Some (bs "type must be a OBJECT or INTERFACE")) /\
    ((forall t, ~ with_fields own iown n t) -> ~ without_fields P inown n -> has_fields (Some (TT k [])) n fs = Some (bs "type not found"))).
  { intros k NW KK. assert (HF : has_fields (Some (TT k [])) n fs = Some wrong_kind) by (destruct KK as [-> |[-> | ->]]; reflexivity). rewrite HF.
    assert (NO : forall t, ~ with_fields own iown n t) by (intros t [Q|Q]; [destruct (A1 t Q)|destruct (A2 t Q)]; contradiction).
    split; [split; [discriminate|intros [t [Q _]]; exfalso; exact (NO t Q)]|]. split; [intros t pre f post Q; exfalso; exact (NO t Q)|]. split; [reflexivity|contradiction]. }
  destruct K as [t l O _ PL|t l O _ PL|t O|E|E|O IO NW].
  - destruct (A1 t O) as [B1 B2]. apply (F t); auto; [now left|]. intros t' [Q|Q]; congruence.
  - destruct (A2 t O) as [B1 B2]. apply (F t); auto; [now right|]. intros t' [Q|Q]; congruence.
  - apply N; [left; congruence|auto].
  - apply N; [right; left; auto|auto].
  - apply N; [right; right; auto|auto].
  - assert (NO : forall t, ~ with_fields own iown n t) by (intros t [Q|Q]; congruence). cbn [has_fields].
    split; [split; [discriminate|intros [t [Q _]]; exfalso; exact (NO t Q)]|]. split; [intros t pre f post Q; exfalso; exact (NO t Q)|]. split; [contradiction|reflexivity].
Qed.
Print Assumptions C54_has_fields.
(** OnlyHasFields is content if and only if the type is a struct or an interface with those fields and no others *)
Theorem C54_only_has_fields : forall W P qt mt own iown inown p (X : externals W) h d fuel vars n qv mv vals w r fs,
  setting P qt mt own iown inown p X h d fuel vars n -> got (asked P p 0 X qv mv d fuel vars vals h w) r ->
  (only_has_fields r n fs = None <-> exists t, with_fields own iown n t /\ forall f, In f fs <-> In f (field_names P t)) /\
  (has_fields r n fs <> None -> only_has_fields r n fs = has_fields r n fs) /\
  (forall e, has_fields r n fs = None -> only_has_fields r n fs = Some e ->
     exists t f, with_fields own iown n t /\ In f (field_names P t) /\ ~ In f fs /\ e = bs "found extra field with name " ++ f ++ bs " on type " ++ n).
Proof.
  intros W P qt mt own iown inown p X h d fuel vars n qv mv vals w r fs S G. destruct (C54_has_fields W P qt mt own iown inown p X h d fuel vars n qv mv vals w r fs S G) as [H1 _].
  pose proof (known_of P qt mt own iown inown p X h d fuel vars n qv mv vals w r S G) as K. destruct (apart_of P qt mt own iown inown p X h d fuel vars n S) as [A1 [A2 _]]. clear S G.
  assert (OH : only_has_fields r n fs = match has_fields r n fs with Some e => Some e | None => match r with Some t => match first_unknown (tt_fields t) fs with Some f => Some (extra_field f n) | None => None end | None => None end end).
  { destruct r as [[k l]|]; [|reflexivity]. unfold only_has_fields, has_fields. destruct (_ && _); [reflexivity|]. destruct (first_unknown fs _); reflexivity. }
  assert (R : has_fields r n fs = None -> exists t l k, r = Some (TT k l) /\ with_fields own iown n t /\ Permutation l (field_names P t) /\ (forall t', with_fields own iown n t' -> t' = t)).
  { intro E. destruct K as [t l O _ PL|t l O _ PL|t O|O|O|O IO NW]; try discriminate.
    - exists t, l, (bs "OBJECT"). split; [reflexivity|]. split; [now left|]. split; [exact PL|]. destruct (A1 t O). intros t' [Q|Q]; congruence.
    - exists t, l, (bs "INTERFACE"). split; [reflexivity|]. split; [now right|]. split; [exact PL|]. destruct (A2 t O). intros t' [Q|Q]; congruence. }
  split; [|split].
  - rewrite OH. destruct (has_fields r n fs) as [e|] eqn:E.
    + split; [discriminate|]. intros [t [WF Q]]. assert (X0 : Some e = None) by (apply H1; exists t; split; [exact WF|]; intros f Hf; now apply Q). discriminate.
    + destruct (R eq_refl) as [t [l [k [-> [WF [PL UN]]]]]]. cbn [tt_fields]. destruct (proj1 H1 eq_refl) as [t' [WF' I']]. rewrite (UN t' WF') in I'. split.
      * intro Q. exists t. split; [exact WF|]. intro f. split; [apply I'|]. intro Hf. assert (Q' : first_unknown l fs = None) by (destruct (first_unknown l fs); [discriminate|reflexivity]).
        apply first_unknown_none in Q'. apply Q'. exact (Permutation_in _ (Permutation_sym PL) Hf).
      * intros [t2 [W2 Q]]. rewrite (UN t2 W2) in Q. assert (Q' : incl l fs) by (intros f Hf; apply Q; exact (Permutation_in _ PL Hf)). apply first_unknown_none in Q'. now rewrite Q'.
  - intro Q. rewrite OH. destruct (has_fields r n fs); [reflexivity|contradiction].
  - intros e E Q. rewrite OH, E in Q. destruct (R E) as [t [l [k [-> [WF [PL UN]]]]]]. cbn [tt_fields] in Q. destruct (first_unknown l fs) as [f|] eqn:FU; [|discriminate]. injection Q as <-.
    exists t, f. split; [exact WF|]. assert (X1 : In f l /\ ~ In f fs).
    { clear - FU. induction l as [|g l IH]; [discriminate|]. cbn in FU. destruct (existsb (fun k0 => beqb k0 g) fs) eqn:B; [destruct (IH FU); split; [now right|assumption]|]. injection FU as <-.
      split; [now left|]. intro Q. assert (Z : existsb (fun k0 => beqb k0 g) fs = true) by (apply existsb_exists; exists g; split; [exact Q|apply beqb_refl]). congruence. }
    destruct X1. split; [exact (Permutation_in _ PL H)|]. split; [assumption|reflexivity].
Qed.
Print Assumptions C54_only_has_fields.

(** ** Cases *)
Definition with_name (n : string) : externals world := sample_ext sample_calls (fun _ => inl (FObject [(bs "typename", FString (bs n))])) false.
Definition vars_of (n : string) : bytes := q2 ("{'typename':'" ++ n ++ "'}").
Definition app_heap : heap := heap_of (ask app app_schema app_value no_mutation_fields 0 fresh first_request).
Definition app_asked (me : nat) (h : heap) (n : string) : rresult (heap * world) :=
  asked app app_schema me (with_name n) app_value (GStruct []) 255 1000 (vars_of n) no_vals h [].
Lemma ascii_utf8 s : forallb (fun c => (c <? 128)%N) s = true -> utf8 s.
Proof.
  intro H. exists s. rewrite forallb_forall in H. split; [apply Forall_forall; intros c Hc; apply H, N.ltb_lt in Hc; left; lia|].
  induction s as [|c s IH]; [reflexivity|]. cbn [utf8_of flat_map]. rewrite JsonProof.encode_small by (apply N.ltb_lt, H; now left). cbn. f_equal. apply IH. intros x Hx. apply H. now right.
Qed.
Lemma app_user own iown inown inj t : schema_reads app own iown inown a_query a_meth inj app_schema -> own (bs "User") = Some t -> t = a_user.
Proof.
  intros SR O. destruct (sr_own _ _ _ _ _ _ _ _ SR _ _ O) as [_ [KS [_ [_ [N1 N2]]]]]. destruct t as [b|k| | | | | | |]; try (destruct (N2 eq_refl) as [u E]; discriminate).
  - exfalso. unfold t_kind in KS. cbn in KS. subst b. assert (X : bs "User" = rename app (t_name (g_decls app) (TBasic KStruct))) by (apply N1; vm_compute; discriminate). vm_compute in X. discriminate.
  - do 18 (destruct k as [|k]; [try discriminate KS; try reflexivity; exfalso; assert (N : bs "User" <> []) by discriminate; clear - N1; (assert (X : bs "User" = _) by (apply N1; discriminate)); vm_compute in X; discriminate|]).
    exfalso. destruct k; discriminate KS.
Qed.
Lemma app_pet own iown inown inj t : schema_reads app own iown inown a_query a_meth inj app_schema -> iown (bs "Pet") = Some t -> t = a_animal.
Proof.
  intros SR O. destruct (sr_iown _ _ _ _ _ _ _ _ SR _ _ O) as [_ [KS [_ [_ N1]]]]. destruct t as [b|k| | | | | | |]; try (vm_compute in N1; discriminate N1).
  - exfalso. unfold t_kind in KS. cbn in KS. subst b. vm_compute in N1. discriminate.
  - do 18 (destruct k as [|k]; [try discriminate KS; try reflexivity; exfalso; vm_compute in N1; discriminate|]). exfalso. destruct k; discriminate KS.
Qed.
Lemma app_setting n : In n ["Query"; "User"; "Pet"; "UserFilter"; "Mood"; "Int"; "Nothing"]%string ->
  exists own iown inown, setting app a_query a_meth own iown inown app_schema (with_name n) app_heap 255 1000 (vars_of n) (bs n).
Proof.
  intro I. destruct (apart_ok app a_query a_meth true 30) as [NA IA]; [vm_compute; reflexivity|]. destruct C49_introspection_describes_the_program_case as [_ [_ [RG [TA [[s PA] [AP [HI [KQ [_ [KU [KP _]]]]]]]]]]].
  destruct (parse_sound app a_query a_meth false (intro_args app "Query" "Mutation") NA IA 60 app_schema s PA) as [_ [own [iown [inown SR]]]]. exists own, iown, inown. constructor; auto.
  - constructor; (eexists; reflexivity) || reflexivity.
  - exists 60, false. eexists _, s. split; [exact PA|exact SR].
  - lia.
  - split; discriminate.
  - split; [unfold vars_of, q2; destruct n; discriminate|reflexivity].
  - assert (Q : forall t, with_fields own iown (bs "Query") t -> t = a_query).
    { intros t [O|O]; [pose proof (sr_query _ _ _ _ _ _ _ _ SR) as X; change (p_query app_schema) with (bs "Query") in X; congruence|].
      destruct (sr_iown _ _ _ _ _ _ _ _ SR _ _ O) as [L _]. exfalso. apply L. vm_compute. reflexivity. }
    assert (U : forall t, with_fields own iown (bs "User") t -> t = a_user).
    { intros t [O|O]; [eapply app_user; eauto|]. destruct (sr_iown _ _ _ _ _ _ _ _ SR _ _ O) as [L _]. exfalso. apply L. vm_compute. reflexivity. }
    assert (A : forall t, with_fields own iown (bs "Pet") t -> t = a_animal).
    { intros t [O|O]; [|eapply app_pet; eauto]. destruct (sr_own _ _ _ _ _ _ _ _ SR _ _ O) as [L _]. exfalso. apply L. vm_compute. reflexivity. }
    intros t T. repeat (destruct I as [<-|I]); try contradiction.
    1: rewrite (Q t T). 2: rewrite (U t T). 3: rewrite (A t T).
    1,2,3: (split; [assumption|]; apply Forall_forall; intros x Hx; apply ascii_utf8; revert x Hx; apply Forall_forall; vm_compute; repeat constructor).
    all: exfalso; destruct T as [O|O]; [destruct (sr_own _ _ _ _ _ _ _ _ SR _ _ O) as [L _]|destruct (sr_iown _ _ _ _ _ _ _ _ SR _ _ O) as [L _]]; apply L; vm_compute; reflexivity.
Qed.
(** what is read from a response, by its text *)
Lemma got_of_text {W} (r : rresult W) k fields :
  let ft := TesterProof.type_tree (Qlt k None None None None None None None None None) (option_map (map (fun n => QField (bs n) [] ql_int)) fields) in
  let ns := match fields with Some l => map bs l | None => [] end in
  forallb (forallb (fun c => (c <? 128)%N)) ns = true ->
  match r with RDone out [] _ _ => beqb out ([123%N] ++ Interp.render_members (fun _ _ => []) [(bs "__type", ft)] ++ [125%N]) | _ => false end = true ->
  got r (Some (TT (TesterProof.kind_name k) ns)).
Proof.
  intros ft ns A H. destruct r as [out [|e es] v w| |]; try discriminate. apply beqb_eq in H. unfold got. rewrite H. apply tree_json.
  - exists (Qlt k None None None None None None None None None), (option_map (map (fun n => QField (bs n) [] ql_int)) fields). split; [reflexivity|]. split; [reflexivity|].
    cbn [tt_fields]. unfold ns. destruct fields as [l|]; [|reflexivity]. cbn [option_map]. rewrite map_map. reflexivity.
  - intros r' [= <-]. cbn [tt_fields]. rewrite forallb_forall in A. apply Forall_forall. intros x Hx. apply ascii_utf8. now apply A.
Qed.
Lemma got_nothing {W} (r : rresult W) : match r with RDone out [] _ _ => beqb out (q2 "{'__type':null}") | _ => false end = true -> got r None.
Proof.
  intro H. destruct r as [out [|e es] v w| |]; try discriminate. apply beqb_eq in H. unfold got. rewrite H. change (q2 "{'__type':null}") with ([123%N] ++ Interp.render_members (fun _ _ => []) [(bs "__type", Interp.TNull)] ++ [125%N]).
  apply tree_json; [reflexivity|discriminate].
Qed.
Example C54_get_type_case :
  (exists own iown inown, setting app a_query a_meth own iown inown app_schema (with_name "User") app_heap 255 1000 (vars_of "User") (bs "User")) /\
  got (app_asked 0 app_heap "User") (Some (TT (bs "OBJECT") (map bs ["friends"; "id"; "mood"; "name"]%string))) /\
  got (app_asked 0 app_heap "Query") (Some (TT (bs "OBJECT") (map bs ["hello"; "me"; "pet"; "users"]%string))) /\
  got (app_asked 0 app_heap "Pet") (Some (TT (bs "INTERFACE") [bs "name"])).
Proof.
  split; [apply app_setting; is_in|]. split; [|split].
  - apply (got_of_text _ TkObject (Some ["friends"; "id"; "mood"; "name"]%string)); vm_compute; reflexivity.
  - apply (got_of_text _ TkObject (Some ["hello"; "me"; "pet"; "users"]%string)); vm_compute; reflexivity.
  - apply (got_of_text _ TkInterface (Some ["name"]%string)); vm_compute; reflexivity.
Qed.
Example C54_has_type_case :
  (exists own iown inown, setting app a_query a_meth own iown inown app_schema (with_name "Mood") app_heap 255 1000 (vars_of "Mood") (bs "Mood")) /\
  (exists own iown inown, setting app a_query a_meth own iown inown app_schema (with_name "Nothing") app_heap 255 1000 (vars_of "Nothing") (bs "Nothing")) /\
  (exists r, got (app_asked 0 app_heap "Mood") r /\ has_type r = true) /\ (exists r, got (app_asked 0 app_heap "Nothing") r /\ has_type r = false).
Proof.
  split; [apply app_setting; is_in|]. split; [apply app_setting; is_in|]. split.
  - eexists. split; [apply (got_of_text _ TkEnum None); vm_compute; reflexivity|reflexivity].
  - eexists. split; [apply got_nothing; vm_compute; reflexivity|reflexivity].
Qed.
Example C54_type_kind_case :
  (exists own iown inown, setting app a_query a_meth own iown inown app_schema (with_name "UserFilter") app_heap 255 1000 (vars_of "UserFilter") (bs "UserFilter") /\ inown (bs "UserFilter") <> None) /\
  (exists r, got (app_asked 0 app_heap "UserFilter") r /\ type_kind r = bs "INPUT_OBJECT") /\ (exists r, got (app_asked 0 app_heap "Int") r /\ type_kind r = bs "SCALAR").
Proof.
  split; [|split].
  - destruct (app_setting "UserFilter") as [own [iown [inown S]]]; [is_in|]. exists own, iown, inown. split; [exact S|]. destruct S as [_ _ _ [pf [same [sv [s [_ SR]]]]] _ _ _ _ _ _ _].
    destruct (slookup (ps_intypes (p_st app_schema)) (bs "UserFilter")) as [j|] eqn:L; [|vm_compute in L; discriminate]. destruct (sr_inputs _ _ _ _ _ _ _ _ SR _ _ L) as [t [-> _]]. discriminate.
  - eexists. split; [apply (got_of_text _ TkInput None); vm_compute; reflexivity|reflexivity].
  - eexists. split; [apply (got_of_text _ TkScalar None); vm_compute; reflexivity|reflexivity].
Qed.
Example C54_has_fields_case :
  (exists own iown inown, setting app a_query a_meth own iown inown app_schema (with_name "User") app_heap 255 1000 (vars_of "User") (bs "User") /\ with_fields own iown (bs "User") a_user) /\
  exists r, got (app_asked 0 app_heap "User") r /\ has_fields r (bs "User") [bs "name"; bs "id"] = None /\
    has_fields r (bs "User") [bs "name"; bs "age"; bs "id"] = Some (bs "field age not found on type User").
Proof.
  split.
  - destruct (app_setting "User") as [own [iown [inown S]]]; [is_in|]. exists own, iown, inown. split; [exact S|]. destruct S as [_ _ _ [pf [same [sv [s [_ SR]]]]] _ _ _ _ _ _ _].
    left. destruct (slookup (ps_types (p_st app_schema)) (bs "User")) as [v|] eqn:L; [|vm_compute in L; discriminate]. destruct (sr_types _ _ _ _ _ _ _ _ SR) as [ex [_ T]]. destruct (T _ _ L) as [t [O _]].
    now rewrite (app_user _ _ _ _ _ SR O) in O.
  - eexists. split; [apply (got_of_text _ TkObject (Some ["friends"; "id"; "mood"; "name"]%string)); vm_compute; reflexivity|]. split; vm_compute; reflexivity.
Qed.
Example C54_only_has_fields_case :
  (exists own iown inown, setting app a_query a_meth own iown inown app_schema (with_name "Query") app_heap 255 1000 (vars_of "Query") (bs "Query")) /\
  exists r, got (app_asked 0 app_heap "Query") r /\ only_has_fields r (bs "Query") (map bs ["users"; "me"; "hello"; "pet"]%string) = None /\
    only_has_fields r (bs "Query") (map bs ["users"; "me"; "hello"]%string) = Some (bs "found extra field with name pet on type Query").
Proof.
  split; [apply app_setting; is_in|].
  eexists. split; [apply (got_of_text _ TkObject (Some ["hello"; "me"; "pet"; "users"]%string)); vm_compute; reflexivity|]. split; vm_compute; reflexivity.
Qed.

(** ** Where it is wrong *)
(** On a copy of the schema the query has the fields __schema and __type (see C40), so OnlyHasFields complains about the
    fields the program has. *)
Theorem C54_copies_refuted : exists r n fs,
  got (app_asked 0 fresh n) (Some (TT (bs "OBJECT") fs)) /\ got (app_asked 1 fresh n) r /\
  only_has_fields r (bs n) fs = Some (bs "found extra field with name __schema on type Query").
Proof.
  eexists _, "Query"%string, _. split; [apply (got_of_text _ TkObject (Some ["hello"; "me"; "pet"; "users"]%string)); vm_compute; reflexivity|].
  split; [apply (got_of_text _ TkObject (Some ["__schema"; "__type"; "hello"; "me"; "pet"; "users"]%string)); vm_compute; reflexivity|]. vm_compute. reflexivity.
Qed.
Print Assumptions C54_copies_refuted.
(** After a request for the fields of mutationType the tester finds the fields of the mutation on the query (see C42). *)
Theorem C54_after_mutation_fields_refuted : exists first r n,
  got (app_asked 0 (heap_of (ask app app_schema app_value any_call 0 fresh first)) n) r /\
  has_fields r (bs n) [bs "hello"] = Some (bs "field hello not found on type Query") /\ has_fields r (bs n) [bs "add"] = None.
Proof.
  exists "{__schema{mutationType{fields{name}}}}"%string. eexists _, "Query"%string.
  split; [apply (got_of_text _ TkObject (Some ["add"]%string)); vm_compute; reflexivity|]. split; vm_compute; reflexivity.
Qed.
Print Assumptions C54_after_mutation_fields_refuted.
