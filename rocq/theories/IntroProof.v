(** * Introspection and copies (proofs): what a request does with the caches *)
From Coq Require Import String Arith NArith ZArith Bool List Lia.
From Verif Require Import Base JsonModel ParserModel ReqModel Schema ResModel EnvModel GoTypes ParseModel ParseFacts Same IntroModel.
Import ListNotations.
Open Scope N_scope.
Local Notation SN := Datatypes.S.

(** the numbers of functions can be read back *)
Lemma clo_code_back c : clo_of (clo_code c) = Some c.
Proof.
  assert (K : forall (b : bool) t i, (t < 16)%N ->
    N.even (1 + 2 * ((if b then 1 else 0) + 2 * (t + 16 * N.of_nat i))) = false /\
    N.odd ((1 + 2 * ((if b then 1 else 0) + 2 * (t + 16 * N.of_nat i))) / 2) = b /\
    ((1 + 2 * ((if b then 1 else 0) + 2 * (t + 16 * N.of_nat i))) / 2 / 2) mod 16 = t /\
    N.to_nat ((1 + 2 * ((if b then 1 else 0) + 2 * (t + 16 * N.of_nat i))) / 2 / 2 / 16) = i).
  { intros b t i L. set (m := ((if b then 1 else 0) + 2 * (t + 16 * N.of_nat i))%N).
    assert (E1 : (1 + 2 * m) / 2 = m) by (symmetry; apply (N.div_unique _ _ _ 1); lia). rewrite E1.
    assert (E2 : m / 2 = t + 16 * N.of_nat i) by (unfold m; symmetry; apply (N.div_unique _ _ _ (if b then 1 else 0)); [destruct b; lia|lia]). rewrite E2.
    split; [|split; [|split]].
    - rewrite N.even_add, N.even_mul. reflexivity.
    - unfold m. rewrite N.odd_add, N.odd_mul. now destruct b.
    - symmetry. apply (N.mod_unique _ _ (N.of_nat i)); lia.
    - rewrite <- (N.div_unique (t + 16 * N.of_nat i) 16 (N.of_nat i) t); lia. }
  destruct c as [b f]. unfold clo_code, clo_of. cbn [fst snd].
  destruct f as [| | |i|i|i|i|i| |]; cbn [fun_tag];
  match goal with |- context [(if b then 1 else 0) + 2 * (?t + 16 * N.of_nat ?j)] =>
    destruct (K b t j ltac:(lia)) as [E1 [E2 [E3 E4]]]; rewrite E1; cbv zeta; rewrite E2, E3; try rewrite E4; reflexivity end.
Qed.

(** ** Copies *)
Lemma view_fields_copy ms fs : Forall2 fsame (view_fields ms (map (fun f => (fst f, copy_field (snd f))) fs)) (view_fields ms fs).
Proof. unfold view_fields. rewrite map_map. induction fs as [|[k f] fs IH]; constructor; [|exact IH]. now repeat split. Qed.
Lemma slookup_view {A} (f : A -> obj) (l : list (bytes * A)) n : slookup (map (fun e => (fst e, f (snd e))) l) n = match slookup l n with Some a => Some (f a) | None => None end.
Proof. induction l as [|[k a] l IH]; cbn; [reflexivity|]. destruct (beqb n k); auto. Qed.
Lemma slookup_copy l n : slookup (copy_types l) n = match slookup l n with Some t => Some (copy_type t) | None => None end.
Proof. induction l as [|[k a] l IH]; cbn; [reflexivity|]. destruct (beqb n k); auto. Qed.
Lemma view_copy_same P p qv mv d : ssame (view P (copy_schema p) qv mv d) (view P p qv mv d).
Proof.
  destruct p as [[ts is ins u ui ms] q m ds]. unfold view, copy_schema. cbn.
  assert (T : forall t, osame (view_type ms (copy_type t)) (view_type ms t)) by (intro t; apply os_obj, view_fields_copy).
  assert (TT : tsame (map (fun e => (fst e, view_type ms (snd e))) (copy_types ts)) (map (fun e => (fst e, view_type ms (snd e))) ts)).
  { unfold copy_types. rewrite map_map. induction ts as [|[n t] ts IH]; constructor; [|exact IH]. cbn. split; [reflexivity|now apply T]. }
  assert (L : forall n, osame (or_undef (slookup (map (fun e => (fst e, view_type ms (snd e))) (copy_types ts)) n)) (or_undef (slookup (map (fun e => (fst e, view_type ms (snd e))) ts) n))).
  { intro n. destruct (tsame_lookup _ _ n TT) as [[-> ->]|[o [o' [-> [-> O]]]]]; [constructor|exact O]. }
  constructor; cbn; auto.
  unfold copy_types. rewrite map_map. clear - ms. induction is as [|[n t] is IH]; constructor; [|exact IH]. cbn. split; [reflexivity|]. apply os_iface, view_fields_copy.
Qed.
Lemma xsame_refl {W} (X : externals W) : xsame eq False X X.
Proof.
  constructor; intros; subst; try reflexivity.
  - destruct (x_call X w2 f a p) as [[w r]|]; [eauto|now right].
  - destruct (x_dir X w2 f a p) as [[w r]|]; [eauto|now right].
  - destruct (x_formfile X); auto. intros; subst; auto.
Qed.
Lemma same_result_eq {W} (a b : rresult W) : same_result eq False a b -> a = b.
Proof. destruct a; cbn; [intros [w2 [-> ->]]; reflexivity|intros [[]| ->]; reflexivity|congruence]. Qed.

(** ** Requests with the functions of introspection *)
Section Env.
Context {W : Type}.
Variables (P : program) (p : pschema).
Lemma intro_env_rel (R : heap * W -> heap * W -> Prop) (lenient : Prop) me1 me2 may1 may2 (X : externals W) :
  (forall h1 w1 h2 w2, R (h1, w1) (h2, w2) -> w1 = w2 /\ forall w, R (h1, w) (h2, w)) ->
  (forall h1 h2 w f args p0 self i, R (h1, w) (h2, w) -> (match f with GFunc (Some n) => clo_of n | _ => None end) = Some (self, i) ->
     match intro_call P p me1 may1 X (h1, w) f args p0 with
     | Some (w1', r) => exists w2', intro_call P p me2 may2 X (h2, w) f args p0 = Some (w2', r) /\ R w1' w2'
     | None => lenient \/ intro_call P p me2 may2 X (h2, w) f args p0 = None
     end) ->
  xsame R lenient (intro_env P p me1 may1 X) (intro_env P p me2 may2 X).
Proof.
  intros RW RC. constructor; cbn -[intro_call]; auto.
  - intros [h1 w1] [h2 w2] f a pa Rw. destruct (RW _ _ _ _ Rw) as [<- RA].
    destruct (match f with GFunc (Some n) => clo_of n | _ => None end) as [[self i]|] eqn:E; [apply (RC h1 h2 w1 f a pa self i Rw E)|].
    unfold intro_call. rewrite E. cbn [fst snd]. destruct (x_call X w1 f a pa) as [[w' r]|]; [|now right]. eexists. split; [reflexivity|]. apply RA.
  - intros [h1 w1] [h2 w2] f a pa Rw. destruct (RW _ _ _ _ Rw) as [<- RA]. cbn [fst snd]. destruct (x_dir X w1 f a pa) as [[w' r]|]; [|now right].
    eexists. split; [reflexivity|]. apply RA.
  - intros [h1 w1] [h2 w2] Rw. destruct (RW _ _ _ _ Rw) as [<- RA]. reflexivity.
  - destruct (x_formfile X); auto. intros [h1 w1] [h2 w2] n Rw. destruct (RW _ _ _ _ Rw) as [<- RA]. cbn. split; [reflexivity|apply RA].
Qed.
Definition the_view (me : nat) (qv mv : gval) (d : N) : schema := view P (match me with O => p | SN _ => copy_schema p end) qv mv d.
Lemma the_views me me' qv mv d : ssame (the_view me qv mv d) (the_view me' qv mv d).
Proof.
  assert (S : forall S1 S2, ssame S1 S2 -> ssame S2 S1).
  { assert (F : forall a b, Forall2 fsame a b -> Forall2 fsame b a).
    { induction 1 as [|[k [fo c i n h]] [k' [fo' c' i' n' h']] a b [E H] F IH]; constructor; auto. cbn in *. destruct H as [-> [-> [-> ->]]]. now repeat split. }
    assert (O : forall a b, osame a b -> osame b a) by (intros ? ? []; constructor; auto).
    assert (T : forall a b, tsame a b -> tsame b a) by (induction 1 as [|? ? ? ? [? ?]]; constructor; auto).
    intros S1 S2 []. constructor; auto. }
  unfold the_view. destruct me, me'; try apply ssame_refl; [apply S|]; apply view_copy_same.
Qed.

(** C40: functions that belong to the schema that was parsed do the same whoever calls them *)
Lemma shared_calls me1 me2 (X : externals W) : xsame eq True (intro_env P p me1 (fun c => negb (fst c)) X) (intro_env P p me2 any_call X).
Proof.
  apply intro_env_rel; [intros ? ? ? ? [= -> ->]; auto|]. intros h1 h2 w f args p0 self i [= ->] E. unfold intro_call. rewrite E. unfold any_call. cbn [fst snd].
  destruct self; cbn [negb]; [now left|]. destruct (call_intro _ _ _ _) as [[c v]|]; [eauto|now left].
Qed.
(** C41: functions that belong to the schema that runs use its cache only *)
Lemma own_calls_frame me h0 (X : externals W) : xsame (fun a b : heap * W => a = b /\ forall j, j <> me -> fst a j = h0 j) True (intro_env P p me fst X) (intro_env P p me any_call X).
Proof.
  apply intro_env_rel; [intros ? ? ? ? [[= -> ->] H]; auto|]. intros h1 h2 w f args p0 self i [[= ->] H] E. unfold intro_call. rewrite E. unfold any_call. cbn [fst snd].
  destruct self; [|now left]. destruct (call_intro _ _ _ _) as [[c v]|]; [|now left]. eexists. split; [reflexivity|]. split; [reflexivity|]. intros j N. cbn.
  unfold put. rewrite (proj2 (Nat.eqb_neq j me) N). now apply H.
Qed.
Lemma own_calls_local_strict me (X : externals W) : xsame (fun a b : heap * W => fst a me = fst b me /\ snd a = snd b) True (intro_env P p me fst X) (intro_env P p me fst X).
Proof.
  apply intro_env_rel; [intros h1 w1 h2 w2 [H E]; auto|]. intros h1 h2 w f args p0 self i [H _] E. unfold intro_call. rewrite E. cbn [fst snd] in *.
  destruct self; [|now left]. rewrite <- H. destruct (call_intro _ _ _ _) as [[c v]|]; [|now left]. eexists. split; [reflexivity|]. cbn. unfold put. now rewrite Nat.eqb_refl.
Qed.
Lemma own_calls_local me (X : externals W) : xsame (fun a b : heap * W => fst a me = fst b me /\ snd a = snd b) True (intro_env P p me fst X) (intro_env P p me any_call X).
Proof.
  apply intro_env_rel; [intros h1 w1 h2 w2 [H E]; auto|]. intros h1 h2 w f args p0 self i [H _] E. unfold intro_call. rewrite E. unfold any_call. cbn [fst snd] in *.
  destruct self; [|now left]. rewrite <- H. destruct (call_intro _ _ _ _) as [[c v]|]; [|now left]. eexists. split; [reflexivity|]. cbn. unfold put. now rewrite Nat.eqb_refl.
Qed.
End Env.

(** ** C42: what is in the caches *)
Section Cache.
Variable I : ischema.
Notation s := (p_st (is_p I)).
(** the types and interfaces have different names *)
Record names_ok : Prop := {
  no_types n t n' t' : In (n, t) (ps_types s) -> In (n', t') (ps_types s) -> pt_name t = pt_name t' -> t = t';
  no_ifaces n t n' t' : In (n, t) (ps_ifaces s) -> In (n', t') (ps_ifaces s) -> pt_name t = pt_name t' -> t = t';
  no_both n t n' t' : In (n, t) (ps_types s) -> In (n', t') (ps_ifaces s) -> pt_name t <> pt_name t' }.
Record cache_ok (c : icache) : Prop := {
  co_list l : ic_list c = Some l -> all_types I = Some l;
  co_map m : ic_map c = Some m -> exists l, all_types I = Some l /\ m = type_map l;
  co_types k l n t : slookup (ic_fields c) k = Some l -> In (n, t) (ps_types s) -> pt_name t = k -> fields_ql I (shown (pt_fields t)) = Some l;
  co_ifaces k l n t : slookup (ic_fields c) k = Some l -> In (n, t) (ps_ifaces s) -> pt_name t = k -> fields_ql I (pt_fields t) = Some l }.
Lemma no_cache_ok : cache_ok no_cache.
Proof. constructor; cbn; discriminate. Qed.
Hypothesis N : names_ok.
Definition call_rel (a b : option (icache * gval)) : Prop :=
  match a, b with
  | Some (c, v), Some (c', v') => v = v' /\ cache_ok c /\ cache_ok c'
  | None, None => True
  | _, _ => False
  end.
Lemma get_all_ok c : cache_ok c ->
  match all_types I with
  | Some l => exists c', get_all I c = Some (c', l) /\ cache_ok c'
  | None => get_all I c = None
  end.
Proof.
  intros K. unfold get_all. destruct (ic_list c) as [l|] eqn:E.
  - rewrite (co_list _ K _ E). eauto.
  - destruct (all_types I) as [l|] eqn:A; [|reflexivity]. eexists. split; [reflexivity|]. destruct K as [K1 K2 K3 K4]. constructor; cbn; try assumption. congruence.
Qed.
Lemma get_type_ok c n : cache_ok c ->
  match all_types I with
  | Some l => exists c', get_type I c n = Some (c', slookup (type_map l) n) /\ cache_ok c'
  | None => get_type I c n = None
  end.
Proof.
  intros K. unfold get_type. destruct (ic_map c) as [m|] eqn:E.
  - destruct (co_map _ K _ E) as [l [-> ->]]. eauto.
  - pose proof (get_all_ok c K) as G. destruct (all_types I) as [l|] eqn:A; [|now rewrite G]. destruct G as [c' [-> K']]. cbv zeta. eexists. split; [reflexivity|].
    destruct K' as [K1 K2 K3 K4]. constructor; cbn; try assumption. intros m [= <-]. eauto.
Qed.
Lemma get_fields_type c n t : cache_ok c -> In (n, t) (ps_types s) ->
  match fields_ql I (shown (pt_fields t)) with
  | Some l => exists c', get_fields I c (pt_name t) (pt_name t) (shown (pt_fields t)) = Some (c', l) /\ cache_ok c'
  | None => get_fields I c (pt_name t) (pt_name t) (shown (pt_fields t)) = None
  end.
Proof.
  intros K H. unfold get_fields. destruct (slookup (ic_fields c) (pt_name t)) as [l|] eqn:E.
  - rewrite (co_types _ K _ _ _ _ E H eq_refl). eauto.
  - destruct (fields_ql I (shown (pt_fields t))) as [l|] eqn:F; [|reflexivity]. eexists. split; [reflexivity|]. destruct K as [K1 K2 K3 K4]. constructor; cbn; auto;
      intros k l' n' t' L H' E'; rewrite slookup_sset in L; destruct (beqb k (pt_name t)) eqn:B; eauto.
    + apply beqb_eq in B. injection L as <-. rewrite (no_types N _ _ _ _ H' H); [exact F|congruence].
    + apply beqb_eq in B. exfalso. apply (no_both N _ _ _ _ H H'). congruence.
Qed.
Lemma get_fields_iface c n t : cache_ok c -> In (n, t) (ps_ifaces s) ->
  match fields_ql I (pt_fields t) with
  | Some l => exists c', get_fields I c (pt_name t) (pt_name t) (pt_fields t) = Some (c', l) /\ cache_ok c'
  | None => get_fields I c (pt_name t) (pt_name t) (pt_fields t) = None
  end.
Proof.
  intros K H. unfold get_fields. destruct (slookup (ic_fields c) (pt_name t)) as [l|] eqn:E.
  - rewrite (co_ifaces _ K _ _ _ _ E H eq_refl). eauto.
  - destruct (fields_ql I (pt_fields t)) as [l|] eqn:F; [|reflexivity]. eexists. split; [reflexivity|]. destruct K as [K1 K2 K3 K4]. constructor; cbn; auto;
      intros k l' n' t' L H' E'; rewrite slookup_sset in L; destruct (beqb k (pt_name t)) eqn:B; eauto.
    + apply beqb_eq in B. exfalso. apply (no_both N _ _ _ _ H' H). congruence.
    + apply beqb_eq in B. injection L as <-. rewrite (no_ifaces N _ _ _ _ H' H); [exact F|congruence].
Qed.
Lemma slookup_in {A} (l : list (bytes * A)) k v : slookup l k = Some v -> In (k, v) l.
Proof. induction l as [|[k' v'] l IH]; cbn; [discriminate|]. destruct (beqb k k') eqn:E; [apply beqb_eq in E as ->; intros [= ->]; now left|auto]. Qed.
Theorem call_stable c c' f args : cache_ok c -> cache_ok c' -> f <> FMethod -> call_rel (call_intro I c f args) (call_intro I c' f args).
Proof.
  intros K K' NM. destruct f as [| | |i|i|i|i|i| |]; cbn [call_intro]; try contradiction.
  - pose proof (get_all_ok c K) as G. pose proof (get_all_ok c' K') as G'. destruct (all_types I) as [l|]; [|now rewrite G, G'].
    destruct G as [? [-> ?]], G' as [? [-> ?]]. cbn. auto.
  - destruct (slookup (ps_types s) _) as [t|] eqn:E; [|exact Logic.I]. apply slookup_in in E.
    pose proof (get_fields_type c _ t K E) as G. pose proof (get_fields_type c' _ t K' E) as G'. destruct (fields_ql I _) as [l|]; [|now rewrite G, G'].
    destruct G as [? [-> ?]], G' as [? [-> ?]]. cbn. auto.
  - destruct (nth_error (ps_types s) i) as [[n t]|] eqn:E; [|exact Logic.I]. apply nth_error_In in E.
    pose proof (get_fields_type c _ t K E) as G. pose proof (get_fields_type c' _ t K' E) as G'. destruct (fields_ql I _) as [l|]; [|now rewrite G, G'].
    destruct G as [? [-> ?]], G' as [? [-> ?]]. cbn. auto.
  - destruct (nth_error (ps_ifaces s) i) as [[n t]|] eqn:E; [|exact Logic.I]. apply nth_error_In in E.
    pose proof (get_fields_iface c _ t K E) as G. pose proof (get_fields_iface c' _ t K' E) as G'. destruct (fields_ql I _) as [l|]; [|now rewrite G, G'].
    destruct G as [? [-> ?]], G' as [? [-> ?]]. cbn. auto.
  - destruct (nth_error (ps_ifaces s) i) as [[n t]|]; [|exact Logic.I]. destruct (all_some _); cbn; auto.
  - destruct (nth_error (is_enums I) i); cbn; auto.
  - destruct (nth_error (ps_intypes s) i) as [[n j]|]; cbn; auto.
  - cbn. auto.
  - assert (G : forall n, call_rel (match get_type I c n with Some (c, t) => Some (c, GPtr (match t with Some q => Some (g_type q) | None => None end)) | None => None end)
                                   (match get_type I c' n with Some (c, t) => Some (c, GPtr (match t with Some q => Some (g_type q) | None => None end)) | None => None end)).
    { intro n. pose proof (get_type_ok c n K) as G. pose proof (get_type_ok c' n K') as G'. destruct (all_types I) as [l|]; [|now rewrite G, G'].
      destruct G as [? [-> ?]], G' as [? [-> ?]]. cbn. auto. }
    repeat (match goal with |- call_rel (match ?x with _ => _ end) _ => is_var x; destruct x | |- call_rel (let (_, _) := ?x in _) _ => is_var x; destruct x end; try exact Logic.I); apply G.
Qed.
End Cache.

Section Stable.
Context {W : Type}.
Variables (P : program) (p : pschema).
Lemma names_ok_copy : names_ok (original P p) -> forall me, names_ok (itself P p me).
Proof.
  intros K [|me]; [exact K|]. destruct K as [K1 K2 K3].
  assert (C : forall l n t, In (n, t) (copy_types l) -> exists t0, t = copy_type t0 /\ In (n, t0) l).
  { intros l n t H. apply in_map_iff in H. destruct H as [[n0 t0] [[= <- <-] H]]. eauto. }
  constructor; cbn; intros n t n' t' H H'; destruct (C _ _ _ H) as [t0 [-> G]], (C _ _ _ H') as [t1 [-> G']]; cbn; intro E; try (f_equal; eauto; fail).
  now apply (K3 _ _ _ _ G G').
Qed.
(** the function behind mutationType.fields is not called *)
Definition no_mutation_fields (c : clo) : bool := match snd c with FMethod => false | _ => true end.
Definition heap_ok (h : heap) : Prop := forall j, cache_ok (itself P p j) (h j).
Lemma heap_ok_fresh : heap_ok (fun _ => no_cache).
Proof. intro j. apply no_cache_ok. Qed.
Lemma stable_calls (K : names_ok (original P p)) me (X : externals W) :
  xsame (fun a b : heap * W => snd a = snd b /\ heap_ok (fst a) /\ heap_ok (fst b)) False (intro_env P p me no_mutation_fields X) (intro_env P p me no_mutation_fields X).
Proof.
  apply intro_env_rel; [intros h1 w1 h2 w2 [E H]; cbn in *; auto|]. intros h1 h2 w f args p0 self i [_ [H1 H2]] E. unfold intro_call. rewrite E. cbn [fst snd] in *.
  destruct (no_mutation_fields (self, i)) eqn:M; [|now right].
  assert (NM : i <> FMethod) by (intros ->; discriminate).
  assert (U : forall j k h c, heap_ok h -> cache_ok (itself P p k) c -> cache_ok (itself P p j) (put h k c j)).
  { intros j k h c Hh Hc. unfold put. destruct (Nat.eqb j k) eqn:B; [apply Nat.eqb_eq in B; now subst|apply Hh]. }
  assert (G : exists k, (if self then itself P p me else original P p) = itself P p k /\ k = (if self then me else O)) by (destruct self; [exists me|exists O]; split; reflexivity).
  destruct G as [k [-> <-]].
  pose proof (call_stable _ (names_ok_copy K k) (h1 k) (h2 k) i args (H1 k) (H2 k) NM) as C. unfold call_rel in C.
  destruct (call_intro _ (h1 k) i args) as [[c v]|], (call_intro _ (h2 k) i args) as [[c' v']|]; try contradiction; [|now right].
  destruct C as [<- [C C']]. eexists. split; [reflexivity|]. cbn. split; [reflexivity|]. split; intro j; now apply U.
Qed.
Lemma allowed_calls me (X : externals W) : xsame eq True (intro_env P p me no_mutation_fields X) (intro_env P p me any_call X).
Proof.
  apply intro_env_rel; [intros ? ? ? ? [= -> ->]; auto|]. intros h1 h2 w f args p0 self i [= ->] E. unfold intro_call. rewrite E. unfold any_call. cbn [fst snd].
  destruct (no_mutation_fields _); [|now left]. destruct (call_intro _ _ _ _) as [[c v]|]; [eauto|now left].
Qed.
End Stable.
