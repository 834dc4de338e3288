(** * Arguments get values of their types, and nothing panics on the way (proofs for C50) *)
From Coq Require Import String Arith NArith ZArith Bool List Lia.
From Verif Require Import Base JsonModel NameModel Ast ReqModel Schema ResModel Interp GoTypes ParseModel SchemaSpec ParseWhole TypeSpec.
Import ListNotations.
Open Scope nat_scope.

(** ** Steps that do not panic *)
Section Steps.
Context {W : Type}.
Notation rm := (@rm W).
Notation bm := (@bm W).
Variable inv : W -> Prop.
Definition rp {A} (f : rm A) (Q : A -> Prop) : Prop := forall s, inv (r_world s) -> match f s with ROk a t => inv (r_world t) /\ Q a | RPanic => False | RNoFuel => True end.
Definition bp {A} (f : bm A) (Q : A -> Prop) : Prop := forall s, inv (r_world s) -> match f s with BOk a t => inv (r_world t) /\ Q a | BPanic => False | _ => True end.
Lemma rp_bind A B (f : rm A) (g : A -> rm B) Q Q' : rp f Q -> (forall a, Q a -> rp (g a) Q') -> rp (bind f g) Q'.
Proof. intros F G s H. unfold bind. specialize (F s H). destruct (f s) as [a t| |]; auto. destruct F as [F1 F2]. exact (G a F2 t F1). Qed.
Lemma bp_bind A B (f : bm A) (g : A -> bm B) Q Q' : bp f Q -> (forall a, Q a -> bp (g a) Q') -> bp (bbind f g) Q'.
Proof. intros F G s H. unfold bbind. specialize (F s H). destruct (f s) as [a t| | |]; auto. destruct F as [F1 F2]. exact (G a F2 t F1). Qed.
Lemma rp_mono A (f : rm A) (Q Q' : A -> Prop) : rp f Q -> (forall a, Q a -> Q' a) -> rp f Q'.
Proof. intros F H s I. specialize (F s I). destruct (f s); auto. destruct F; auto. Qed.
Lemma bp_mono A (f : bm A) (Q Q' : A -> Prop) : bp f Q -> (forall a, Q a -> Q' a) -> bp f Q'.
Proof. intros F H s I. specialize (F s I). destruct (f s); auto. destruct F; auto. Qed.
Lemma rp_ret A (a : A) (Q : A -> Prop) : Q a -> rp (ret a) Q. Proof. intros H s I. split; [exact I|exact H]. Qed.
Lemma bp_ret A (a : A) (Q : A -> Prop) : Q a -> bp (bret a) Q. Proof. intros H s I. split; [exact I|exact H]. Qed.
Lemma rp_nofuel A (Q : A -> Prop) : rp nofuel Q. Proof. intros s _. exact Logic.I. Qed.
Lemma bp_nofuel A (Q : A -> Prop) : bp bnofuel Q. Proof. intros s _. exact Logic.I. Qed.
Lemma bp_nope A (Q : A -> Prop) : bp bnope Q. Proof. intros s _. exact Logic.I. Qed.
Lemma bp_lift A (f : rm A) Q : rp f Q -> bp (lift f) Q.
Proof. intros F s I. unfold lift. specialize (F s I). destruct (f s); auto. Qed.
Lemma rp_of_opt A (o : option A) (Q : A -> Prop) a : o = Some a -> Q a -> rp (of_opt o) Q.
Proof. intros -> H s I. split; [exact I|exact H]. Qed.
(** steps that leave the world as it is and cannot fail *)
Lemma rp_quiet A (f : rm A) : (forall s, match f s with ROk _ t => r_world t = r_world s | RPanic => False | RNoFuel => True end) -> rp f (fun _ => True).
Proof. intros H s I. specialize (H s). destruct (f s); auto. rewrite H. auto. Qed.
Lemma rp_err m : rp (err m) (fun _ => True). Proof. apply rp_quiet. intro. reflexivity. Qed.
Lemma rp_get_world : rp get_world inv. Proof. intros s I. split; exact I. Qed.
Lemma rp_put_world w : inv w -> rp (put_world w) (fun _ => True). Proof. intros H s I. split; [exact H|exact Logic.I]. Qed.
End Steps.

Section Args.
Variable P : program.
Notation decls := (g_decls P).
Notation av := (arg_value P).

(** ** Values *)
Lemma wrap_int_range w z : (- 2 ^ (Z.of_N (bits w) - 1) <= wrap_int w z < 2 ^ (Z.of_N (bits w) - 1))%Z.
Proof.
  unfold wrap_int. assert (E : (2 ^ Z.of_N (bits w) = 2 * 2 ^ (Z.of_N (bits w) - 1))%Z) by (destruct w; reflexivity).
  assert (L : (0 < 2 ^ (Z.of_N (bits w) - 1))%Z) by (destruct w; reflexivity). rewrite E. set (m := (2 ^ (Z.of_N (bits w) - 1))%Z) in *. clearbody m.
  pose proof (Z.mod_pos_bound z (2 * m) ltac:(lia)) as B. replace (2 * m / 2)%Z with m by (rewrite Z.mul_comm, Z.div_mul; lia).
  destruct (z mod (2 * m) <? m)%Z eqn:C; [apply Z.ltb_lt in C|apply Z.ltb_ge in C]; lia.
Qed.
Lemma wrap_uint_range w n : (wrap_uint w n < 2 ^ bits w)%N.
Proof. unfold wrap_uint. apply N.mod_lt. destruct w; discriminate. Qed.
Lemma av_basic t v : av t v -> is_time decls t = false -> basic (t_kind decls t) -> kind_of v = t_kind decls t.
Proof.
  intros H T B. unfold t_kind in *. inversion H as [t0 x E|t0 b E U|t0 w z E U L|t0 w z E U L|t0 w z E U|t0 b E U|t0 e f E U F|t0 e E U F|t0 e u E U F A|t0 e E U|t0 e l E U F|t0 n e l E U Ll F|t0 fs l E U F|t0 ins outs va E U|t0 ms E U F|t0 ms E U F|t0 E U]; subst;
    try (rewrite U in *; cbn in B |- *; try contradiction; reflexivity); [congruence|].
  destruct (under decls t); cbn in B; try contradiction.
Qed.
Lemma av_kind t v : av t v -> is_time decls t = false -> match kind_of v with KBool | KInt _ | KUint _ | KFloat _ | KString => t_kind decls t = kind_of v | _ => True end.
Proof.
  intros H T. inversion H; subst; cbn; auto; unfold t_kind; try congruence;
  match goal with U : under decls _ = _ |- _ => rewrite U end; reflexivity.
Qed.
Lemma av_struct t v f : av t v -> is_time decls t = false -> In f (t_fields decls t) ->
  exists l, v = GStruct l /\ Forall2 (fun f x => fst x = f_exported f /\ av (f_type f) (snd x)) (t_fields decls t) l.
Proof.
  intros H T I. unfold t_fields in *. destruct (under decls t) as [ | | | | |fs| | |] eqn:U; try contradiction.
  inversion H; subst; try congruence; [|rewrite U in *; contradiction].
  match goal with E : under decls _ = TStruct _ |- _ => rewrite U in E; injection E as <- end. eauto.
Qed.
Lemma zero_av n : forall t z, zero decls n t = Some z -> av t z.
Proof.
  induction n as [|n IH]; intros t z H; [discriminate|]. cbn [zero] in H.
  destruct (is_time decls t) eqn:T; [injection H as <-; now constructor|].
  destruct (under decls t) as [k|m|e|e|ln e|fs|ins outs va|ms|] eqn:U.
  - destruct k; injection H as <-; try (constructor; auto; fail); try (apply AVOther; [auto|rewrite U; cbn; tauto]).
    + apply AVInt; auto. destruct w; cbn; lia.
    + apply AVUint; auto. destruct w; reflexivity.
  - injection H as <-. apply AVOther; auto. now rewrite U.
  - injection H as <-. destruct (is_file_header decls e) eqn:F; [eapply AVFile; eauto|eapply AVNilPtr; eauto].
  - injection H as <-. eapply AVNilSlice; eauto.
  - destruct (zero decls n e) as [v|] eqn:Z; [|discriminate]. injection H as <-. eapply AVArray; eauto; [apply repeat_length|].
    apply Forall_forall. intros x I. apply repeat_spec in I. subst. now apply IH.
  - assert (G : forall l acc done, Forall2 (fun f x => fst x = f_exported f /\ av (f_type f) (snd x)) done acc -> done ++ l = fs ->
      (fix fields (l : list gfield) (acc : list (bool * gval)) : option gval :=
                  match l with
                  | [] => Some (GStruct acc)
                  | GField _ _ e _ x :: r =>
                      match zero decls n x with Some v => fields r (acc ++ [(e, v)]) | None => None end
                  end) l acc = Some z -> av t z).
    { induction l as [|[nm an ex tg ft] r IHl]; intros acc done F E Hz.
      - injection Hz as <-. rewrite app_nil_r in E. subst done. eapply AVStruct; eauto.
      - destruct (zero decls n ft) as [v|] eqn:Z; [|discriminate]. eapply (IHl (acc ++ [(ex, v)]) (done ++ [GField nm an ex tg ft])); [|now rewrite <- app_assoc|exact Hz].
        apply Forall2_app; [exact F|]. constructor; [|constructor]. cbn. split; [reflexivity|now apply IH]. }
    eapply (G fs [] []); [constructor|reflexivity|exact H].
  - injection H as <-. eapply AVFunc; eauto.
  - injection H as <-. destruct (is_error decls t) eqn:F; [eapply AVErr; eauto|eapply AVIface; eauto].
  - injection H as <-. apply AVOther; auto. now rewrite U.
Qed.

(** ** Binding *)
Context {W : Type}.
Variable X : externals W.
Variable S : schema.
Variable roots : list gtype.
Variable more : list (list gtype).
Variable inown : bytes -> option gtype.
Hypothesis GF : go_facts P.
Hypothesis CA : careful P roots more.
Hypothesis FI : x_formfile X = None -> no_files P roots more.
Hypothesis SE : s_enums S = g_enums P.
Hypothesis SI : forall n t, inown n = Some t -> exists j, slookup (s_intypes S) n = Some j /\ input_struct_reads P inown n t j.
Notation rm := (@rm W).
Notation bm := (@bm W).
Variable inv : W -> Prop.
Hypothesis FF : forall get w n, inv w -> x_formfile X = Some get -> inv (fst (get w n)).
Notation rp := (@rp W inv _).
Notation bp := (@bp W inv _).
Notation inr_ t := (in_reach P roots more t).
Notation reads := (input_reads P inown).
Definition Q (t : gtype) (r : bres) : Prop := av t (fst (fst r)).

Lemma basic_time t : basic (t_kind decls t) -> is_time decls t = false.
Proof. intro B. destruct (is_time decls t) eqn:E; [|reflexivity]. destruct (gf_time _ GF t E) as [K _]. rewrite K in B. contradiction. Qed.
Lemma kind_time t : t_kind decls t <> KStruct -> is_time decls t = false.
Proof. intro B. destruct (is_time decls t) eqn:E; [|reflexivity]. destruct (gf_time _ GF t E) as [K _]. congruence. Qed.

Lemma p_fail t g m : av t (snd g) -> rp (fail g m) (Q t).
Proof. intros H s I. split; [exact I|exact H]. Qed.
Lemma p_okay t v : av t v -> rp (okay v) (Q t).
Proof. intros H s I. split; [exact I|exact H]. Qed.
Lemma p_set_int t v w z : av t v -> kind_of v = KInt w -> rp (set_int (false, v) z) (av t).
Proof. intros H K. destruct v; try discriminate. cbn. apply rp_ret. inversion H; subst. apply AVInt; auto. apply wrap_int_range. Qed.
Lemma p_set_uint t v w z : av t v -> kind_of v = KUint w -> rp (set_uint (false, v) z) (av t).
Proof. intros H K. destruct v; try discriminate. cbn. apply rp_ret. inversion H; subst. apply AVUint; auto. apply wrap_uint_range. Qed.
Lemma p_set_float t v w z : av t v -> kind_of v = KFloat w -> rp (set_float X (false, v) z) (av t).
Proof. intros H K. destruct v; try discriminate. cbn. apply rp_ret. inversion H; subst. now apply AVFloat. Qed.
Lemma p_set_bool t v z : av t v -> kind_of v = KBool -> rp (set_bool (false, v) z) (av t).
Proof. intros H K. destruct v; try discriminate. cbn. apply rp_ret. inversion H; subst. now apply AVBool. Qed.
Lemma p_set_string t v z : av t v -> kind_of v = KString -> rp (set_string (false, v) z) (av t).
Proof. intros H K. destruct v; try discriminate. cbn. apply rp_ret. inversion H; subst. now apply AVString. Qed.
Lemma p_then t (m : rm gval) : rp m (av t) -> rp (bind m (fun v => okay v)) (Q t).
Proof. intro H. eapply rp_bind; [exact H|]. intros. now apply p_okay. Qed.

Lemma slookup_in {A} (l : list (bytes * A)) k v : slookup l k = Some v -> In (k, v) l.
Proof.
  induction l as [|[k' v'] l IH]; intro H; [discriminate|]. cbn in H. destruct (beqb k k') eqn:E; [|right; auto].
  injection H as ->. left. apply beqb_eq in E. congruence.
Qed.
Lemma p_assign_enum t v e name : av t v -> inr_ t -> basic (t_kind decls t) -> enum_like P t -> In e (g_enums P) -> en_name e = t_name decls t ->
  rp (assign_enum (false, v) e name) (Q t).
Proof.
  intros H R B L I N. unfold assign_enum. destruct (slookup (en_entries e) name) as [x|] eqn:El; [|now apply p_fail].
  apply slookup_in in El. pose proof (gf_enum _ GF e _ _ I El) as Kx. pose proof (ca_enum _ _ _ CA e t I (or_intror R) L (eq_sym N)) as Ke.
  pose proof (av_basic t v H (basic_time t B) B) as Kv. rewrite <- Ke, <- Kv in *.
  destruct (kind_of v) eqn:Ek; try (destruct x; now apply p_fail); destruct x; try discriminate; apply p_then.
  - eapply p_set_int; eauto.
  - eapply p_set_uint; eauto.
  - eapply p_set_string; eauto.
Qed.
Lemma p_assign_id t v s : av t v -> rp (assign_id (false, v) s) (Q t).
Proof.
  intro H. unfold assign_id. cbn [snd]. destruct (kind_of v) eqn:K; try now apply p_fail.
  - destruct (parse_int s); try now apply p_fail. apply p_then. eapply p_set_int; eauto.
  - destruct (parse_int s); try now apply p_fail. destruct (a <? 0)%Z; [now apply p_fail|]. apply p_then. eapply p_set_uint; eauto.
  - apply p_then. now apply p_set_string.
Qed.
Lemma p_assign_time t v s : av t v -> is_time decls t = true -> rp (assign_time (false, v) s) (Q t).
Proof. intros H T. unfold assign_time. destruct (parse_iso s); [|now apply p_fail]. apply p_then. apply rp_ret. now apply AVTime. Qed.
Lemma p_assign_file t e v s : av t v -> inr_ t -> t_kind decls t = KPtr -> t_elem decls t = Some e -> is_file_header decls e = true ->
  rp (assign_file X (false, v) s) (Q t).
Proof.
  intros H R K E F. unfold assign_file. destruct (x_formfile X) as [get|] eqn:Ef.
  - intros st Ist. pose proof (FF get (r_world st) s Ist eq_refl) as Iw. destruct (get (r_world st) s) as [w [f|m]]; (split; [exact Iw|]).
    + cbn. unfold Q. cbn [fst]. unfold t_kind, t_elem in *. destruct (under decls t) eqn:U; try discriminate. injection E as ->.
      eapply AVFile; eauto. apply kind_time. unfold t_kind. rewrite U. discriminate.
    + exact H.
  - exfalso. pose proof (FI eq_refl t e R K E). congruence.
Qed.
Lemma enum_in t i : enum_at P (t_name decls t) i -> exists e, nth_error (s_enums S) i = Some e /\ In e (g_enums P) /\ en_name e = t_name decls t.
Proof. intros [[e [E N]] _]. exists e. rewrite SE. split; [exact E|]. split; [eapply nth_error_In; eauto|exact N]. Qed.
Lemma p_assign_string t h i v s : av t v -> inr_ t -> reads t h i -> rp (assign_string X S (false, v) i s) (Q t).
Proof.
  intros H R Rd. unfold assign_string.
  assert (D : rp match kind_of v with KString => bind (set_string (false, v) s) (fun v => okay v) | _ => fail (false, v) (bs "cannot assign string to " ++ x_gostring X v) end (Q t)).
  { destruct (kind_of v) eqn:K; try now apply p_fail. apply p_then. now apply p_set_string. }
  destruct Rd; cbn [i_enum i_isid i_isfile i_istime i_kind]; try exact D.
  - destruct (enum_in t i H2) as [e [E [I N]]]. rewrite E. cbn [of_opt]. eapply rp_bind; [apply rp_ret; exact (eq_refl e)|]. intros a <-. now apply p_assign_enum.
  - destruct h; [now apply p_assign_id|exact D].
  - pose proof (p_assign_file t e v s) as PF. destruct (x_formfile X) eqn:Ef; [|now apply p_fail]. now apply PF.
  - now apply p_assign_time.
Qed.
Lemma p_json_number t v raw : av t v -> rp (json_number X (false, v) raw) (Q t).
Proof.
  intro H. unfold json_number. destruct (json_int raw) as [z|]; [|now apply p_fail]. cbn [snd]. destruct (kind_of v) eqn:K; try now apply p_fail.
  - apply p_then. now apply p_set_bool.
  - destruct (fits_int w z); [|now apply p_fail]. apply p_then. eapply p_set_int; eauto.
  - destruct (z <? 0)%Z; [now apply p_fail|]. apply p_then. eapply p_set_uint; eauto.
Qed.
Lemma p_int_literal t v lit : av t v -> rp (int_literal X (false, v) lit) (Q t).
Proof.
  intro H. unfold int_literal. cbn [snd]. destruct (kind_of v) eqn:K; try now apply p_fail.
  - destruct (parse_int lit); try now apply p_fail. apply p_then. now apply p_set_bool.
  - destruct (parse_int lit); try now apply p_fail. destruct (fits_int w a); [|now apply p_fail]. apply p_then. eapply p_set_int; eauto.
  - destruct (parse_uint lit); try now apply p_fail. destruct (fits_uint w a); [|now apply p_fail]. apply p_then. eapply p_set_uint; eauto.
  - destruct (parse_int lit); try now apply p_fail. apply p_then. eapply p_set_float; eauto.
Qed.

(** the parts of an input *)
Lemma reads_zero t h i : reads t h i -> av t (i_zero i).
Proof. intro H. destruct H; cbn [i_zero]; match goal with Z : zero_val _ _ _ |- _ => destruct Z as [n0 Z]; eapply zero_av; exact Z end. Qed.
Lemma upd_nth_F2 {A B} (R : A -> B -> Prop) l m i a b : Forall2 R l m -> nth_error l i = Some a -> R a b -> Forall2 R l (upd_nth m i b).
Proof.
  intro F. revert i. induction F as [|x y l m H F IH]; intros [|i] E Hb; try discriminate; cbn in *.
  - injection E as ->. now constructor.
  - constructor; auto.
Qed.
Lemma input_member_at t n i ft h : In (n, (i, ft, h)) (input_members P t) ->
  exists f, nth_error (t_fields decls t) i = Some f /\ f_type f = ft /\ shown f.
Proof.
  unfold input_members. enough (G : forall l k, In (n, (i, ft, h)) (numbered input_member k l) -> exists j f, i = k + j /\ nth_error l j = Some f /\ f_type f = ft /\ shown f).
  { intro I. destruct (G _ _ I) as (j & f & -> & H). exists f. exact H. }
  induction l as [|[nm an ex tg x] l IH]; intros k I; [contradiction|]. cbn [numbered] in I. apply in_app_or in I. destruct I as [I|I].
  - cbn [input_member] in I. destruct an; [contradiction|]. destruct (parse_tag tg) eqn:Et; try contradiction. destruct I as [I|[]].
    injection I; intros; subst. exists 0, (GField nm false ex tg ft). split; [lia|]. split; [reflexivity|]. split; [reflexivity|]. cbn. eauto.
  - destruct (IH _ I) as (j & f & -> & H). exists (Datatypes.S j), f. split; [lia|exact H].
Qed.
(** a member of a struct with exported members *)
Lemma p_member t v i f : av t v -> is_time decls t = false -> nth_error (t_fields decls t) i = Some f -> f_exported f = true ->
  exists l x, v = GStruct l /\ field_of (W:=W) (false, v) i = ret (false, x) /\ av (f_type f) x /\ forall y, av (f_type f) y -> av t (put_field v i y).
Proof.
  intros H T E Ex. destruct (av_struct t v f H T (nth_error_In _ _ E)) as (l & -> & F).
  destruct (Forall2_nth_l _ _ _ F i f E) as ([ex x] & Ex2 & Hx & Hv). cbn [fst snd] in *. exists l, x. split; [reflexivity|]. split.
  { unfold field_of. cbn [snd fst]. rewrite Ex2, Hx, Ex. reflexivity. }
  split; [exact Hv|]. intros y Hy. cbn [put_field]. rewrite Ex2. inversion H; subst; [].
  match goal with U : under decls t = TStruct ?fs |- _ => assert (Ef : t_fields decls t = fs) by (unfold t_fields; now rewrite U); eapply AVStruct; [exact T|exact U|] end.
  rewrite Ef in *. eapply upd_nth_F2; [exact F|exact E|]. cbn. auto.
Qed.
Lemma content_ok t h i : reads t h i -> t_kind decls t = KStruct -> is_time decls t = false ->
  exists c, content_of (W:=W) S i = ret c /\
    forall key fi, slookup c key = Some fi -> exists ix ft hh, In (key, (ix, ft, hh)) (input_members P t) /\ reads ft hh fi /\ i_field fi = ix.
Proof.
  intros Rd K T. destruct Rd as [t h i x z B L E Z|t h x z B NE ID Z|t e h x z K' E F Z|t e h j x z K' E F Rd Z|t e h j x z K' E Rd Z|t h x z K' T' Z|t h n x z K' T' O Z];
    try (rewrite K in B; contradiction); try congruence; [destruct K'; congruence|].
  destruct (SI n t O) as (j & El & l & c & z' & -> & _ & F & Nb & Ng). exists c. unfold content_of. cbn [i_structptr i_structname]. rewrite El. split; [reflexivity|].
  intros key fi Sl. rewrite Ng in Sl. destruct (find _ (rev l)) as [[k' fi']|] eqn:Ef; [|discriminate]. cbn [snd] in Sl. injection Sl as ->.
  apply find_some in Ef. destruct Ef as [I Ek]. cbn [fst] in Ek. apply beqb_eq in Ek. subst k'. apply in_rev in I.
  destruct (Forall2_in_r _ _ _ _ F I) as [[k [[ix ft] hh]] [Im [E1 [E2 E3]]]]. cbn [fst snd] in *. subst k. exists ix, ft, hh. auto.
Qed.
(** the kind of an input that is a list or a pointer *)
Lemma reads_elem t h i : reads t h i -> match i_kind i with KSlice | KArray => True | KPtr => i_isfile i = false | _ => False end ->
  exists e h' j, i_elem i = Some j /\ reads e h' j /\ t_elem decls t = Some e /\ t_kind decls t = i_kind i /\
    (i_kind i = KPtr -> is_file_header decls e = false) /\ i_enum i = None /\ i_isid i = false /\ i_isfile i = false /\ i_istime i = false.
Proof.
  intros Rd K. destruct Rd as [t h i x z B L E Z|t h x z B NE ID Z|t e h x z K' E F Z|t e h j x z K' E F Rd Z|t e h j x z K' E Rd Z|t h x z K' T' Z|t h n x z K' T' O Z];
    cbn [i_kind i_isfile] in K; try contradiction; try discriminate.
  - destruct (t_kind decls t); contradiction.
  - destruct (t_kind decls t); contradiction.
  - exists e, h, j. cbn. auto 10.
  - exists e, false, j. cbn. repeat split; auto. intro. destruct K'; congruence.
Qed.
Lemma in_reach_elem t e : inr_ t -> t_kind decls t = KSlice \/ t_kind decls t = KArray \/ t_kind decls t = KPtr -> t_elem decls t = Some e ->
  (t_kind decls t = KPtr -> is_file_header decls e = false) -> inr_ e.
Proof. intros. eapply in_elem; eauto. Qed.
Lemma av_ptr t e v : t_kind decls t = KPtr -> t_elem decls t = Some e -> is_file_header decls e = false -> av e v -> av t (GPtr (Some v)).
Proof.
  intros K E F H. assert (T : is_time decls t = false) by (apply kind_time; congruence). unfold t_kind, t_elem in *.
  destruct (under decls t) eqn:U; try discriminate. injection E as ->. eapply AVPtr; eauto.
Qed.
Lemma av_slice t e l v0 : av t v0 -> kind_of v0 = KSlice -> t_elem decls t = Some e -> Forall (av e) l -> av t (GSlice (Some l)).
Proof.
  intros H K E F. destruct v0; try discriminate. inversion H; subst; unfold t_elem in E; match goal with U : under decls t = _ |- _ => rewrite U in E; injection E as ->; eapply AVSlice; eauto end.
Qed.
Lemma slice_reads t h i v : reads t h i -> av t v -> kind_of v = KSlice -> t_kind decls t = KSlice /\ i_kind i = KSlice.
Proof.
  intros Rd H K. destruct v; try discriminate. assert (Kt : t_kind decls t = KSlice) by (inversion H; subst; unfold t_kind; match goal with U : under decls t = _ |- _ => rewrite U end; reflexivity).
  split; [exact Kt|]. destruct Rd; cbn [i_kind]; try congruence; auto.
Qed.
Lemma struct_reads_time t h i v : reads t h i -> av t v -> kind_of v = KStruct ->
  t_kind decls t = KStruct /\ (is_time decls t = false \/ i_structptr i = false /\ i_content i = []).
Proof.
  intros Rd H K. assert (Kt : t_kind decls t = KStruct).
  { destruct v; try discriminate; inversion H; subst; [unfold t_kind; match goal with U : under decls t = _ |- _ => rewrite U end; reflexivity|]. now apply (gf_time _ GF). }
  split; [exact Kt|]. destruct Rd as [t h i x z B L E Z|t h x z B NE ID Z|t e h x z K' E F Z|t e h j x z K' E F Rd Z|t e h j x z K' E Rd Z|t h x z K' T' Z|t h n x z K' T' O Z]; cbn; auto.
Qed.

Lemma p_through_ptr t h i v f m : av t v -> inr_ t -> reads t h i ->
  (forall e h' j u, av e u -> inr_ e -> reads e h' j -> rp (f (false, u) j) (Q e)) -> rp m (Q t) ->
  rp (through_ptr (false, v) i f m) (Q t).
Proof.
  intros H R Rd Hf Hm. unfold through_ptr. destruct (i_kind i) eqn:K; try exact Hm. destruct (i_isfile i) eqn:F; [exact Hm|].
  destruct (reads_elem t h i Rd) as (e & h' & j & Ej & Re & Et & Ek & Fh & _); [now rewrite K|]. rewrite Ej. cbn [of_opt].
  eapply rp_bind; [apply rp_ret; exact (eq_refl j)|]. intros a <-.
  eapply rp_bind; [apply (Hf e h'); [now apply reads_zero with h'|apply (in_reach_elem t e R); [right; right; congruence|exact Et|intros; apply Fh; congruence]|exact Re]|].
  intros [[u st] cr] Hu. unfold Q in Hu. cbn [fst] in Hu. destruct cr; [now apply rp_ret|]. destruct st; [|now apply rp_ret].
  unfold set_any. cbn [fst]. eapply rp_bind; [apply rp_ret; exact (eq_refl (GPtr (Some u)))|]. intros a <-. apply rp_ret. unfold Q. cbn [fst]. eapply av_ptr; eauto. congruence.
Qed.
Lemma p_bind_json fuel : forall t h i v j, av t v -> inr_ t -> reads t h i -> rp (bind_json X S fuel (false, v) i j) (Q t).
Proof.
  induction fuel as [|fuel IH]; intros t h i v j H R Rd; [apply rp_nofuel|]. cbn [bind_json].
  apply (p_through_ptr t h); auto; [intros; eapply IH; eauto|].
  assert (Pl : i_enum i = None -> i_isid i = false -> i_isfile i = false -> i_istime i = false -> rp
     match j with
       | FNull => ret (snd (false, v), false, false)
       | FObject m =>
           match kind_of (snd (false, v)) with
           | KStruct =>
               bind (content_of S i) (fun c =>
               (fix members (v : gval) (m : list (bytes * fj)) : rm bres :=
                  match m with
                  | [] => okay v
                  | (k, jv) :: r =>
                      match slookup c k with
                      | None => bind (err (bs "undefined property " ++ k)) (fun _ => ret (v, true, true))
                      | Some fi =>
                          bind (field_of (fst (false, v), v) (i_field fi)) (fun f =>
                          bind (bind_json X S fuel f fi jv) (fun '(fv, _, crit) =>
                          let v := put_field v (i_field fi) fv in
                          if crit : bool then ret (v, true, true) else members v r))
                      end
                  end) (snd (false, v)) m)
           | _ => fail (false, v) (bs "cannot assign object to non object value")
           end
       | FArray l =>
           match kind_of (snd (false, v)) with
           | KSlice =>
               (fix elems (l : list fj) (acc : list gval) : rm bres :=
                  match l with
                  | [] => bind (set_any (false, v) (GSlice (Some acc))) (fun v => okay v)
                  | jv :: r =>
                      bind (of_opt (i_elem i)) (fun ei =>
                      bind (bind_json X S fuel (false, i_zero ei) ei jv) (fun '(ev, _, crit) =>
                      if crit : bool then ret (snd (false, v), false, true) else elems r (acc ++ [ev])))
                  end) l []
           | _ => fail (false, v) (bs "cannot assign slice to " ++ x_gostring X (snd (false, v)))
           end
       | FString s => assign_string X S (false, v) i s
       | FNumber raw =>
           match kind_of (snd (false, v)) with
           | KFloat _ => bind (set_float X (false, v) (x_json_float X raw)) (fun v => okay v)
           | _ => json_number X (false, v) raw
           end
       | FTrue => match kind_of (snd (false, v)) with
                  | KBool => bind (set_bool (false, v) true) (fun v => okay v)
                  | _ => fail (false, v) (bs "cannot assign boolean to " ++ x_gostring X (snd (false, v)))
                  end
       | FFalse => match kind_of (snd (false, v)) with
                   | KBool => bind (set_bool (false, v) false) (fun v => okay v)
                   | _ => fail (false, v) (bs "cannot assign boolean to " ++ x_gostring X (snd (false, v)))
                   end
       end (Q t)).
  { intros Ne Ni Nf Nt. destruct j as [| | |raw|s|l|m]; cbn [snd fst].
    - now apply rp_ret.
    - destruct (kind_of v) eqn:K; try now apply p_fail. apply p_then. now apply p_set_bool.
    - destruct (kind_of v) eqn:K; try now apply p_fail. apply p_then. now apply p_set_bool.
    - destruct (kind_of v) eqn:K; try now apply p_json_number. apply p_then. eapply p_set_float; eauto.
    - eapply p_assign_string; eauto.
    - destruct (kind_of v) eqn:K; try now apply p_fail. destruct (slice_reads t h i v Rd H K) as [Kt Ki].
      destruct (reads_elem t h i Rd) as (e & h' & j & Ej & Re & Et & Ek & Fh & _); [now rewrite Ki|]. rewrite Ej. cbn [of_opt].
      assert (Ie : inr_ e) by (eapply in_reach_elem; eauto; congruence).
      assert (Z : av e (i_zero j)) by (eapply reads_zero; eauto).
      enough (L : forall l acc, Forall (av e) acc -> rp ((fix elems (l : list fj) (acc : list gval) : rm bres :=
                  match l with
                  | [] => bind (set_any (false, v) (GSlice (Some acc))) (fun v => okay v)
                  | jv :: r =>
                      bind (ret j) (fun ei =>
                      bind (bind_json X S fuel (false, i_zero ei) ei jv) (fun '(ev, _, crit) =>
                      if crit : bool then ret (v, false, true) else elems r (acc ++ [ev])))
                  end) l acc) (Q t)) by (apply L; constructor).
      clear l. induction l as [|x r IHl]; intros acc Fa.
      + apply p_then. apply rp_ret. eapply av_slice; eauto.
      + eapply rp_bind; [apply rp_ret; exact (eq_refl j)|]. intros a <-. eapply rp_bind; [eapply IH; eauto|]. intros [[ev st] cr] Hv. unfold Q in Hv. cbn [fst] in Hv.
        destruct cr; [now apply rp_ret|]. apply IHl. apply Forall_app. split; [exact Fa|]. constructor; [exact Hv|constructor].
    - destruct (kind_of v) eqn:K; try now apply p_fail. destruct (struct_reads_time t h i v Rd H K) as [Kt Tt].
      destruct (is_time decls t) eqn:T.
      + destruct Tt as [Tt|[Sp Ct]]; [discriminate|]. unfold content_of. rewrite Sp, Ct. eapply rp_bind; [apply rp_ret; exact (eq_refl [])|]. intros c <-.
        destruct m as [|[k x] r]; [now apply p_okay|]. cbn [slookup]. eapply rp_bind; [apply rp_err|]. intros. now apply rp_ret.
      + destruct (content_ok t h i Rd Kt T) as (c & Ec & Mem). rewrite Ec. eapply rp_bind; [apply rp_ret; exact (eq_refl c)|]. intros a <-.
        clear K. revert v H. induction m as [|[k x] r IHm]; intros v H; [now apply p_okay|].
        destruct (slookup c k) as [fi|] eqn:Sl; [|eapply rp_bind; [apply rp_err|]; intros; now apply rp_ret].
        destruct (Mem k fi Sl) as (ix & ft & hh & Im & Rf & <-). destruct (input_member_at t k (i_field fi) ft hh Im) as (f & En & <- & Sh).
        pose proof (ca_inputs _ _ _ CA t f R Kt T (nth_error_In _ _ En) Sh) as Ex.
        destruct (p_member t v (i_field fi) f H T En Ex) as (l & fv & -> & -> & Hfv & Put).
        eapply rp_bind; [apply rp_ret; exact (eq_refl (false, fv))|]. intros a <-.
        eapply rp_bind; [eapply IH; [exact Hfv|eapply in_field; eauto|exact Rf]|]. intros [[ev st] cr] Hv. unfold Q in Hv. cbn [fst] in Hv.
        cbv zeta. destruct cr; [apply rp_ret; now apply Put|]. apply IHm. now apply Put. }
  destruct Rd as [t h i x z B L E Z|t h x z B NE ID Z|t e h x z K' E F Z|t e h j' x z K' E F Rd Z|t e h j' x z K' E Rd Z|t h x z K' T' Z|t h n x z K' T' O Z];
    cbn [i_enum i_isid i_isfile i_istime] in *; try (apply Pl; reflexivity).
  - destruct j; try now apply p_fail. destruct (enum_in t i E) as [e [E' [I N]]]. rewrite E'. cbn [of_opt]. eapply rp_bind; [apply rp_ret; exact (eq_refl e)|]. intros a <-. now apply p_assign_enum.
  - destruct h; [|apply Pl; reflexivity]. destruct j; try now apply p_fail. now apply p_assign_id.
  - destruct j; try now apply p_fail. eapply p_assign_file; eauto.
  - destruct j; try now apply p_fail. now apply p_assign_time.
Qed.
Variable rawvars : bytes.
Lemma p_bind_external fuel t h i v name : av t v -> inr_ t -> reads t h i ->
  rp (bind_external X S rawvars fuel (false, v) i name) (fun r => av t (fst (fst (fst r)))).
Proof.
  intros H R Rd. unfold bind_external. eapply rp_bind with (Q := fun _ => True); [apply rp_quiet; intro; reflexivity|]. intros vars _.
  assert (F : forall x, rp match var_get x name with
    | None => ret (snd (false, v), false, false, false)
    | Some j => bind (bind_json X S fuel (false, v) i j) (fun '(v, set_, crit) => ret (v, set_, true, crit))
    end (fun r => av t (fst (fst (fst r))))).
  { intro x. destruct (var_get x name) as [j|]; [|now apply rp_ret]. eapply rp_bind; [eapply p_bind_json; eauto|]. intros [[u st] cr] Hu. now apply rp_ret. }
  destruct vars as [x|]; [apply F|]. destruct rawvars; [now apply rp_ret|]. destruct (x_parse X (n :: b)) as [x|e].
  - eapply rp_bind with (Q := fun _ => True); [apply rp_quiet; intro; reflexivity|]. intros _ _.
    assert (G : rp (bind (err (bs "variables provided must be of type object")) (fun _ => ret (snd (false, v), false, false, true))) (fun r => av t (fst (fst (fst r))))).
    { eapply rp_bind; [apply rp_err|]. intros. now apply rp_ret. }
    destruct x; first [exact G | apply F].
  - eapply rp_bind with (Q := fun _ => True); [apply rp_quiet; intro; reflexivity|]. intros _ _. eapply rp_bind; [apply rp_err|]. intros. now apply rp_ret.
Qed.

Variable opargs : option (list oparg).
Lemma p_find fuel name l : bp (b_find fuel name l) (fun _ => True).
Proof. revert l. induction fuel as [|fuel IH]; intros l; cbn [b_find]; [apply bp_nofuel|]. destruct l as [|a r]; [now apply bp_ret|]. destruct (beqb (oa_name a) name); [now apply bp_ret|apply IH]. Qed.
Lemma p_find_arg fuel name : bp (b_find_arg opargs fuel name) (fun _ => True).
Proof. unfold b_find_arg. destruct opargs; [apply p_find|now apply bp_ret]. Qed.
Lemma p_marks fuel : forall t h i ty name, reads t h i -> bp (b_marks fuel i ty name) (fun r => match fst r with Some j => exists t' h', reads t' h' j | None => True end).
Proof.
  induction fuel as [|fuel IH]; intros t h i [n b|ty b] name Rd; cbn [b_marks]; try (apply bp_ret; cbn [fst]; eauto; fail); [apply bp_nofuel|].
  assert (G : forall m, bp (bbind (lift (err m)) (fun _ => bret (@None input, @nil N))) (fun r => match fst r with Some j => exists t' h', reads t' h' j | None => True end)).
  { intro m. eapply bp_bind; [apply bp_lift, rp_err|]. intros. now apply bp_ret. }
  destruct (i_kind i) eqn:K; try apply G.
  destruct (reads_elem t h i Rd) as (e & h' & j & Ej & Re & _); [now rewrite K|]. rewrite Ej. cbn [of_opt].
  eapply bp_bind; [apply bp_lift, rp_ret; exact (eq_refl j)|]. intros a <-. eapply IH; eauto.
Qed.
Lemma p_mismatch t h i n : reads t h i -> rp (type_mismatch S i n) (fun _ => True).
Proof.
  intros Rd. unfold type_mismatch. destruct (i_enum i) as [k|] eqn:E.
  - destruct Rd; try discriminate. injection E as <-. destruct (enum_in t i H1) as [e [E' _]]. cbn [i_enum]. rewrite E'. cbn [of_opt]. eapply rp_bind; [apply rp_ret; exact Logic.I|]. intros. now apply rp_ret.
  - destruct (i_isid i); [now apply rp_ret|]. destruct (i_isfile i); [now apply rp_ret|]. destruct (i_istime i); [now apply rp_ret|].
    destruct (i_kind i); now apply rp_ret.
Qed.
Lemma p_walk {A} (I : A -> Prop) (onkey : A -> bytes -> value -> bm (A * bool)) :
  (forall a k v, I a -> bp (onkey a k v) (fun r => I (fst r))) ->
  forall fuel ms a, I a -> bp (b_walk fuel onkey ms a) (fun r => I (fst (fst r))).
Proof.
  intros H. induction fuel as [|fuel IH]; intros ms a Ha; cbn [b_walk]; [apply bp_nofuel|]. destruct ms as [|[k v] r]; [now apply bp_ret|].
  eapply bp_bind; [now apply H|]. intros [b c] Hb. cbn [fst] in Hb. destruct c; [now apply bp_ret|]. destruct (is_list v).
  - destruct fuel; [apply bp_nofuel|now apply bp_ret].
  - now apply IH.
Qed.
Lemma p_ptr t h i v f m : av t v -> inr_ t -> reads t h i ->
  (forall e h' j u, av e u -> inr_ e -> reads e h' j -> bp (f (false, u) j) (Q e)) -> bp m (Q t) ->
  bp (b_ptr (false, v) i f m) (Q t).
Proof.
  intros H R Rd Hf Hm. unfold b_ptr. destruct (i_kind i) eqn:K; try exact Hm. destruct (i_isfile i) eqn:F; [exact Hm|].
  destruct (reads_elem t h i Rd) as (e & h' & j & Ej & Re & Et & Ek & Fh & _); [now rewrite K|]. rewrite Ej. cbn [of_opt].
  eapply bp_bind; [apply bp_lift, rp_ret; exact (eq_refl j)|]. intros a <-.
  eapply bp_bind; [apply (Hf e h'); [now apply reads_zero with h'|apply (in_reach_elem t e R); [right; right; congruence|exact Et|intros; apply Fh; congruence]|exact Re]|].
  intros [[u st] cr] Hu. unfold Q in Hu. cbn [fst] in Hu. destruct cr; [now apply bp_ret|]. destruct st; [|now apply bp_ret].
  unfold set_any. cbn [fst]. eapply bp_bind; [apply bp_lift, rp_ret; exact (eq_refl (GPtr (Some u)))|]. intros a <-. apply bp_ret. unfold Q. cbn [fst]. eapply av_ptr; eauto. congruence.
Qed.
Lemma b_then t (m : rm gval) : rp m (av t) -> bp (bbind (lift m) (fun v => bret (v, true, false))) (Q t).
Proof. intro H. eapply bp_bind; [apply bp_lift, H|]. intros. now apply bp_ret. Qed.

Lemma p_input fuel :
  (forall t h i v x ok, av t v -> inr_ t -> reads t h i -> bp (b_input X S rawvars opargs fuel (false, v) i x ok) (Q t)) /\
  (forall t h i v n a, av t v -> inr_ t -> reads t h i -> bp (b_oparg X S rawvars opargs fuel (false, v) i n a) (Q t)).
Proof.
  induction fuel as [|fuel [IHi IHo]]; [split; intros; apply bp_nofuel|]. split.
  - intros t h i v x ok H R Rd. cbn [b_input]. apply (p_ptr t h); auto.
    { intros e h' j u Hu Ru Ru'. destruct x; try (eapply IHi; eauto; fail). now apply bp_ret. }
    destruct x as [n|lit|lit|s|b| |n|vs|ms].
    + destruct ok; cbn [negb]; [|apply bp_lift; now apply p_fail]. eapply bp_bind; [apply p_find_arg|]. intros [a|] _; [eapply IHo; eauto|apply bp_lift; now apply p_fail].
    + apply bp_lift. now apply p_int_literal.
    + cbn [snd]. destruct (kind_of v) eqn:K; try (apply bp_lift; now apply p_fail). destruct (x_parse_float X lit); [|apply bp_lift; now apply p_fail]. apply b_then. eapply p_set_float; eauto.
    + apply bp_lift. eapply p_assign_string; eauto.
    + cbn [snd]. destruct (kind_of v) eqn:K; try (apply bp_lift; now apply p_fail). apply b_then. now apply p_set_bool.
    + now apply bp_ret.
    + destruct (i_enum i) as [k|] eqn:E; [|apply bp_lift; now apply p_fail]. destruct Rd as [t h i x z B L Ea Z| | | | | |]; try discriminate. injection E as <-. destruct (enum_in t i Ea) as [e [E' [Ie N]]].
      rewrite E'. cbn [of_opt]. eapply bp_bind; [apply bp_lift, rp_ret; exact (eq_refl e)|]. intros a <-. apply bp_lift. now apply p_assign_enum.
    + cbn [snd]. destruct (kind_of v) eqn:K; try (apply bp_lift; now apply p_fail). destruct (slice_reads t h i v Rd H K) as [Kt Ki].
      destruct (reads_elem t h i Rd) as (e & h' & j & Ej & Re & Et & Ek & Fh & _); [now rewrite Ki|].
      assert (Ie : inr_ e) by (apply (in_reach_elem t e R); auto; congruence).
      assert (Z : av e (i_zero j)) by (eapply reads_zero; eauto). rewrite Ej.
      match goal with |- bp (?F fuel vs []) _ => enough (L : forall n vs acc, Forall (av e) acc -> bp (F n vs acc) (Q t)) by (apply L; constructor) end. clear vs.
      induction n as [|n IHl]; intros [|x r] acc Fa.
      * apply b_then. apply rp_ret. eapply av_slice; eauto.
      * apply bp_nofuel.
      * apply b_then. apply rp_ret. eapply av_slice; eauto.
      * eapply bp_bind; [apply bp_lift, rp_ret; exact (eq_refl j)|]. intros a <-. eapply bp_bind; [eapply IHi; eauto|]. intros [[ev st] cr] Hv. unfold Q in Hv. cbn [fst] in Hv.
        destruct cr; [now apply bp_ret|]. match goal with |- bp (if ?c then _ else _) _ => destruct c end; [apply bp_nope|]. apply IHl. apply Forall_app. split; [exact Fa|]. constructor; [exact Hv|constructor].
    + cbn [snd]. destruct (kind_of v) eqn:K; try (apply bp_lift; now apply p_fail). destruct (struct_reads_time t h i v Rd H K) as [Kt Tt].
      assert (C : exists c, content_of (W:=W) S i = ret c /\ forall key fi, slookup c key = Some fi -> is_time decls t = false /\
        exists ix ft hh, In (key, (ix, ft, hh)) (input_members P t) /\ reads ft hh fi /\ i_field fi = ix).
      { destruct (is_time decls t) eqn:T.
        - destruct Tt as [Tt|[Sp Ct]]; [discriminate|]. exists []. unfold content_of. rewrite Sp, Ct. split; [reflexivity|]. intros; discriminate.
        - destruct (content_ok t h i Rd Kt T) as (c & Ec & Mem). exists c. split; [exact Ec|]. eauto. }
      destruct C as (c & Ec & Mem). rewrite Ec. eapply bp_bind; [apply bp_lift, rp_ret; exact (eq_refl c)|]. intros a <-.
      eapply bp_bind; [apply (p_walk (fun a : gval * bool => av t (fst a))); [|exact H]|].
      * intros [u st] key x Hu. cbn [fst] in Hu. destruct (slookup c key) as [fi|] eqn:Sl; [|eapply bp_bind; [apply bp_lift, rp_err|]; intros; now apply bp_ret].
        destruct (Mem key fi Sl) as (T & ix & ft & hh & Im & Rf & <-). destruct (input_member_at t key (i_field fi) ft hh Im) as (f & En & <- & Sh).
        pose proof (ca_inputs _ _ _ CA t f R Kt T (nth_error_In _ _ En) Sh) as Ex.
        destruct (p_member t u (i_field fi) f Hu T En Ex) as (l & fv & -> & Ef & Hfv & Put). cbn [fst]. rewrite Ef.
        eapply bp_bind; [apply bp_lift, rp_ret; exact (eq_refl (false, fv))|]. intros a <-.
        eapply bp_bind; [eapply IHi; [exact Hfv|eapply in_field; eauto|exact Rf]|]. intros [[ev st'] cr] Hv. apply bp_ret. cbn [fst]. now apply Put.
      * intros [[[u st] cr] cut] Hu. cbn [fst] in Hu. destruct cut; [apply bp_nope|now apply bp_ret].
  - intros t h i v n a H R Rd. cbn [b_oparg]. eapply bp_bind; [eapply p_marks; eauto|]. intros [[ri|] tn] Hr; cbn [fst] in Hr; [|now apply bp_ret].
    destruct Hr as (t' & h' & Rr). eapply bp_bind; [apply bp_lift; eapply p_mismatch; eauto|]. intros [m|] _; [apply bp_lift; now apply p_fail|].
    eapply bp_bind; [apply bp_lift; eapply p_bind_external; eauto|]. intros [[[u st] fo] cr] Hu. cbn [fst] in Hu. destruct cr; [now apply bp_ret|]. destruct fo; [now apply bp_ret|].
    destruct (oa_default a); [eapply IHi; eauto|apply bp_lift; now apply p_fail].
Qed.

(** ** The arguments of a function *)
Lemma arg_member_at ts : forall k n nr m, In (n, (nr, m)) (numbered (arg_members P) k ts) ->
  exists j t, nr = k + j /\ nth_error ts j = Some t /\ t_kind decls t = KStruct /\ In (n, m) (input_members P t).
Proof.
  induction ts as [|t ts IH]; intros k n nr m I; [contradiction|]. cbn [numbered] in I. apply in_app_or in I. destruct I as [I|I].
  - exists 0, t. unfold arg_members in I. destruct (t_kind decls t) eqn:K; try contradiction. apply in_map_iff in I. destruct I as [[n' m'] [E I]]. cbn [fst snd] in E. injection E as -> <- ->.
    split; [lia|]. auto.
  - destruct (IH _ _ _ _ I) as (j & t' & -> & H). exists (Datatypes.S j), t'. split; [lia|exact H].
Qed.
Lemma p_args fuel it ins0 ins fs args : schema_fun P roots more it ins0 -> args_read P inown (method_args it ins0) ins fs ->
  bp (b_args X S rawvars opargs fuel ins fs args) (fun r => Forall2 (arg_ok P) (method_args it ins0) (fst (fst r))).
Proof.
  intros SF [F [l [G [_ Ng]]]]. set (ts := method_args it ins0) in *.
  assert (Z : Forall2 (arg_ok P) ts (zero_args ins)).
  { clear - F. unfold zero_args. induction F as [|t z ts zs H F IH]; [constructor|]. cbn [map]. constructor; [|exact IH].
    destruct z as [v|]; [right; destruct H as [A [n B]]; split; [exact A|eapply zero_av; exact B]|left; auto]. }
  unfold b_args. destruct args as [ms|]; [|now apply bp_ret].
  apply (p_walk (fun a => Forall2 (arg_ok P) ts a)); [|exact Z].
  intros a key x Ha. destruct (slookup fs key) as [[n i]|] eqn:Sl; [|eapply bp_bind; [apply bp_lift, rp_err|]; intros; now apply bp_ret].
  rewrite Ng in Sl. destruct (find _ (rev l)) as [[k' e']|] eqn:Ef; [|discriminate]. cbn [snd] in Sl. injection Sl as ->.
  apply find_some in Ef. destruct Ef as [Il Ek]. cbn [fst] in Ek. apply beqb_eq in Ek. subst k'. apply in_rev in Il.
  destruct (Forall2_in_r _ _ _ _ G Il) as [[k [nr [[ix ft] hh]]] [Im [E1 [E2 [E3 E4]]]]]. cbn [fst snd] in *. subst k nr ix.
  destruct (arg_member_at ts 0 key n _ Im) as (j & t & Ej & Et & Kt & It). cbn [plus] in Ej. subst j.
  destruct (Forall2_nth_l _ _ _ Ha n t Et) as (v & Ev & Hv). rewrite Ev. cbn [of_opt]. eapply bp_bind; [apply bp_lift, rp_ret; exact (eq_refl v)|]. intros b <-.
  destruct Hv as [[[K' _] _]|[SA Hv]]; [congruence|].
  destruct (input_member_at t key (i_field i) ft hh It) as (f & En & <- & Sh).
  pose proof (ca_args _ _ _ CA it ins0 t f SF (nth_error_In _ _ Et) SA (nth_error_In _ _ En) Sh) as Ex.
  assert (T : is_time decls t = false).
  { destruct (is_time decls t) eqn:T; [|reflexivity]. destruct (gf_time _ GF t T) as [_ U]. eapply Forall_forall in U; [|eapply nth_error_In; exact En]. congruence. }
  destruct (p_member t v (i_field i) f Hv T En Ex) as (ll & fv & _ & Ef & Hfv & Put). rewrite Ef.
  eapply bp_bind; [apply bp_lift, rp_ret; exact (eq_refl (false, fv))|]. intros b <-.
  eapply bp_bind; [eapply (proj1 (p_input fuel)); [exact Hfv|eapply in_root; eauto; eapply nth_error_In; exact Et|exact E3]|]. intros [[ev st'] cr] Hv'. apply bp_ret. cbn [fst].
  eapply upd_nth_F2; [exact Ha|exact Et|]. right. split; [exact SA|]. now apply Put.
Qed.
End Args.
