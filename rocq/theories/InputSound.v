(** * The arguments in the schema that parse.go builds are those of SchemaSpec *)
From Coq Require Import String Arith NArith ZArith Bool List Lia.
From Verif Require Import Base Json JsonModel JsonProof NameModel Schema GoTypes ParseModel ParseFacts SchemaSpec ParseSound.
Import ListNotations.
Local Open Scope pm_scope.
Open Scope nat_scope.

Lemma unknown_input_inj a b : unknown_input a = unknown_input b -> a = b.
Proof.
  unfold unknown_input. intro E. apply app_inv_head in E.
  destruct (dec_of_N_ok (N.of_nat a)) as [Ha _], (dec_of_N_ok (N.of_nat b)) as [Hb _]. rewrite E in Ha. rewrite Ha in Hb.
  injection Hb as Hb. lia.
Qed.
Lemma unknown_input_suffix n k : n ++ bs "__input" <> unknown_input k.
Proof.
  unfold unknown_input. intro E. destruct (dec_of_N_ok (N.of_nat k)) as [_ [_ [D N]]].
  destruct (exists_last N) as [l [x Ex]]. rewrite Ex in *. rewrite app_assoc in E.
  change (bs "__input") with (bs "__inpu" ++ [116%N]) in E. rewrite app_assoc in E. apply app_inj_tail in E. destruct E as [_ <-].
  apply Forall_app in D. destruct D as [_ D]. inversion D as [|? ? D1 D2]; subst. unfold digit in D1. lia.
Qed.
Lemma sset_keys {A} (l : list (bytes * A)) k v k' : In k' (map fst (sset l k v)) -> k' = k \/ In k' (map fst l).
Proof.
  induction l as [|[a b] l IH]; cbn [sset]; [cbn; intuition|].
  destruct (beqb k a) eqn:E; cbn [map fst In]; [apply beqb_eq in E; subst; intuition|]. intros [H|H]; [auto|]. specialize (IH H). tauto.
Qed.
Lemma sset_nodup {A} (l : list (bytes * A)) k v : NoDup (map fst l) -> NoDup (map fst (sset l k v)).
Proof.
  induction l as [|[a b] l IH]; cbn [sset]; intro H; [repeat constructor; auto|].
  cbn [map fst] in H. apply NoDup_cons_iff in H. destruct H as [H1 H2].
  destruct (beqb k a) eqn:E; cbn [map fst]; constructor; auto.
  - apply beqb_eq in E. subst. exact H1.
  - intro I. apply sset_keys in I. destruct I as [->|I]; [|contradiction]. rewrite beqb_refl in E. discriminate.
Qed.
Lemma beqb_comm a b : beqb a b = beqb b a.
Proof. destruct (beqb a b) eqn:E; symmetry; [apply beqb_eq in E; subst; apply beqb_refl|apply beqb_false; apply beqb_false in E; congruence]. Qed.
Lemma named_nil {A} : named_by (@nil (bytes * A)) [].
Proof. split; [constructor|reflexivity]. Qed.
Lemma named_snoc {A} (l table : list (bytes * A)) n v : named_by l table -> named_by (l ++ [(n, v)]) (sset table n v).
Proof.
  intros [H K]. split; [now apply sset_nodup|]. intro k. rewrite slookup_sset, rev_app_distr. cbn [rev app find fst snd].
  rewrite (beqb_comm k). destruct (beqb n k); [reflexivity|apply K].
Qed.

Section Inputs.
Variable P : program.
Variable roots : list gtype.
Variable more : list (list gtype).
Notation decls := (g_decls P).
Hypothesis IA : inputs_apart P roots more.
(** the state when the arguments are looked at *)
Variable s0 : pst.

Definition iworld : Type := bytes -> option gtype.
Definition iext (W W' : iworld) : Prop := forall n t, W n = Some t -> W' n = Some t.
Lemma iext_refl W : iext W W. Proof. intro; auto. Qed.
Lemma iext_trans a b c : iext a b -> iext b c -> iext a c. Proof. intros H K n t E. auto. Qed.
Notation reads W := (input_reads P W).
Lemma ireads_ext W W' t h j : iext W W' -> reads W t h j -> reads W' t h j.
Proof. intros E H. induction H; econstructor; eauto. Qed.
Lemma input_at_ext W W' m j : iext W W' -> input_at P W m j -> input_at P W' m j.
Proof. unfold input_at. destruct m as [n [[i t] h]]. cbn. intros E [H K]. split; [eapply ireads_ext; eauto|exact K]. Qed.
Lemma istruct_ext W W' n t j : iext W W' -> input_struct_reads P W n t j -> input_struct_reads P W' n t j.
Proof.
  intros E [l [c [z [H1 [H2 [H3 H4]]]]]]. exists l, c, z. repeat (split; [assumption|]). split; [|exact H4].
  eapply Forall2_mono; [|exact H3]. intros a b [X Y]. split; [exact X|eapply input_at_ext; eauto].
Qed.
(** the name of an argument struct that has a name *)
Definition in_name (t : gtype) : bytes :=
  match slookup (ps_types s0) (rename P (t_name decls t)) with
  | Some _ => rename P (t_name decls t) ++ bs "__input"
  | None => rename P (t_name decls t)
  end.
Record igood (W : iworld) (op : list bytes) (s : pst) : Prop := {
  i_table n j : slookup (ps_intypes s) n = Some j -> exists t, W n = Some t /\ (~ In n op -> input_struct_reads P W n t j);
  i_own n t : W n = Some t -> slookup (ps_intypes s) n <> None /\ t_kind decls t = KStruct /\ is_time decls t = false /\ in_reach P roots more t /\
    (t_name decls t <> [] -> n = in_name t) /\ (t_name decls t = [] -> exists k, k <= ps_unkin s /\ n = unknown_input k);
  i_same : ps_types s = ps_types s0 /\ ps_ifaces s = ps_ifaces s0 /\ ps_methods s = ps_methods s0 /\ ps_unk s = ps_unk s0 }.
Definition istep (W : iworld) (op : list bytes) (s : pst) {A} (m : pm A) (Q : iworld -> A -> Prop) : Prop :=
  post m (fun a s' => exists W', iext W W' /\ igood W' op s' /\ Q W' a) s.
Lemma istep_ret W op s {A} (a : A) (Q : iworld -> A -> Prop) : igood W op s -> Q W a -> istep W op s (pret a) Q.
Proof. intros G H. exists W. split; [apply iext_refl|]. auto. Qed.
Lemma istep_bind W op s {A B} (m : pm A) (k : A -> pm B) (Q : iworld -> A -> Prop) (R : iworld -> B -> Prop) :
  istep W op s m Q -> (forall a W' s', iext W W' -> igood W' op s' -> Q W' a -> istep W' op s' (k a) R) -> istep W op s (pbind m k) R.
Proof.
  intros H K. unfold istep in *. apply post_bind. eapply post_mono; [|exact H]. intros a s' [W' [E [G HQ]]].
  eapply post_mono; [|apply (K a W' s' E G HQ)]. intros b s2 [W2 [E2 [G2 HR]]]. exists W2. split; [eapply iext_trans; eauto|]. auto.
Qed.
Lemma istep_mono W op s {A} (m : pm A) (Q R : iworld -> A -> Prop) :
  (forall W' a, iext W W' -> Q W' a -> R W' a) -> istep W op s m Q -> istep W op s m R.
Proof. intros H K. eapply post_mono; [|exact K]. intros a s' [W' [E [G HQ]]]. exists W'. auto. Qed.

Lemma in_name_apart t t' : in_reach P roots more t -> in_reach P roots more t' -> t_kind decls t = KStruct -> t_kind decls t' = KStruct ->
  t_name decls t <> [] -> t_name decls t' <> [] -> in_name t = in_name t' -> t = t'.
Proof.
  intros R R' K K' N N' E. unfold in_name in E.
  destruct (slookup (ps_types s0) (rename P (t_name decls t))), (slookup (ps_types s0) (rename P (t_name decls t'))).
  - apply app_inv_tail in E. apply (ia_struct _ _ _ IA); auto.
  - symmetry. apply (ia_struct _ _ _ IA); auto.
  - apply (ia_struct _ _ _ IA); auto.
  - apply (ia_struct _ _ _ IA); auto.
Qed.
Lemma in_name_known t k : in_reach P roots more t -> t_kind decls t = KStruct -> t_name decls t <> [] -> in_name t <> unknown_input k.
Proof.
  intros R K N. unfold in_name. destruct (slookup (ps_types s0) (rename P (t_name decls t))); [apply unknown_input_suffix|].
  now apply (ia_unknown _ _ _ IA).
Qed.

Definition ichecks (c : gtype -> bool -> pm input) : Prop :=
  forall t h W op s, in_reach P roots more t -> igood W op s -> istep W op s (c t h) (fun W' j => reads W' t h j).

Lemma input_field_sound c i f W op s : ichecks c -> igood W op s ->
  (forall n x t h, In (n, (x, t, h)) (input_member i f) -> in_reach P roots more t) ->
  istep W op s (check_input_field c f i) (fun W' o =>
    match o with Some (n, j) => exists m, input_member i f = [m] /\ n = fst m /\ input_at P W' m j | None => input_member i f = [] end).
Proof.
  intros C G R. unfold check_input_field, input_member in *. destruct f as [name anon ex tag ft].
  destruct anon; [now apply istep_ret|]. destruct (parse_tag tag) as [| |cn isid]; [now apply istep_ret|exact Logic.I|].
  eapply istep_bind; [apply (C ft isid W op s); [eapply R; left; reflexivity|exact G]|].
  intros j W' s' E G' H. apply istep_ret; [exact G'|]. eexists. split; [reflexivity|]. split; [reflexivity|].
  unfold input_at. cbn [snd]. split; [|reflexivity]. inversion H; subst; cbn; econstructor; eauto.
Qed.
Lemma input_fields_sound c l : ichecks c -> forall i acc fl W op s, igood W op s ->
  (forall n x t h, In (n, (x, t, h)) (numbered input_member i l) -> in_reach P roots more t) -> named_by fl acc ->
  istep W op s (check_input_fields c l i acc) (fun W' fs =>
    exists fl', Forall2 (fun m e => fst e = fst m /\ input_at P W' m (snd e)) (numbered input_member i l) fl' /\ named_by (fl ++ fl') fs).
Proof.
  intro C. induction l as [|f l IH]; intros i acc fl W op s G R Ky; cbn [check_input_fields numbered] in *.
  - apply istep_ret; [exact G|]. exists []. rewrite app_nil_r. auto.
  - eapply istep_bind; [apply (input_field_sound c i f W op s C G)|].
    { intros n x t h I. apply (R n x t h). apply in_or_app. now left. }
    intros o W' s' E G' H. destruct o as [[n j]|].
    + destruct H as [m [Em [-> Hm]]]. rewrite Em in *.
      eapply istep_mono; [|apply (IH (S i) _ (fl ++ [(fst m, j)]) W' op s' G'); [intros n x t h I; apply (R n x t h); now right|now apply named_snoc]].
      intros W2 fs E2 [fl' [F Ky']]. exists ((fst m, j) :: fl'). split.
      * cbn [app]. constructor; [|exact F]. split; [reflexivity|]. eapply input_at_ext; eauto.
      * rewrite <- app_assoc in Ky'. exact Ky'.
    + rewrite H in *. apply (IH (S i) acc fl W' op s' G'); auto.
Qed.
Definition iupd (f : iworld) (n : bytes) (t : gtype) : iworld := fun m => if beqb m n then Some t else f m.
Lemma igood_set W op s n t j op' :
  igood W op s -> (forall t', W n = Some t' -> t' = t) ->
  t_kind decls t = KStruct -> is_time decls t = false -> in_reach P roots more t ->
  (t_name decls t <> [] -> n = in_name t) -> (t_name decls t = [] -> exists k, k <= ps_unkin s /\ n = unknown_input k) ->
  (~ In n op' -> input_struct_reads P (iupd W n t) n t j) ->
  (forall m, In m op -> m <> n -> In m op') ->
  iext W (iupd W n t) /\
  igood (iupd W n t) op' (PSt (ps_types s) (ps_ifaces s) (sset (ps_intypes s) n j) (ps_unk s) (ps_unkin s) (ps_methods s)).
Proof.
  intros [H1 H2 H3] Un K T R Nm Uk Rc Tp.
  assert (iext W (iupd W n t)) as E.
  { intros m u Hm. unfold iupd. destruct (beqb m n) eqn:Em; [|exact Hm]. apply beqb_eq in Em. subst m. now rewrite (Un u Hm). }
  split; [exact E|]. constructor; cbn [ps_types ps_ifaces ps_methods ps_intypes ps_unkin ps_unk]; [| |exact H3].
  - intros m r El. rewrite slookup_sset in El. unfold iupd at 1. destruct (beqb m n) eqn:Em.
    + apply beqb_eq in Em. subst m. injection El as <-. exists t. split; [reflexivity|exact Rc].
    + destruct (H1 m r El) as [u [A B]]. exists u. split; [exact A|]. intro N. eapply istruct_ext; [exact E|]. apply B. intro J. apply N.
      apply Tp; [exact J|]. apply beqb_false. exact Em.
  - intros m u Hm. unfold iupd in Hm. rewrite slookup_sset. destruct (beqb m n) eqn:Em.
    + apply beqb_eq in Em. subst m. injection Hm as <-. split; [discriminate|]. auto.
    + apply (H2 m u Hm).
Qed.
Lemma record_sound c t n z W op s : ichecks c -> igood W op s -> t_kind decls t = KStruct -> is_time decls t = false ->
  in_reach P roots more t -> zero_val P t z -> (forall t', W n = Some t' -> t' = t) ->
  (t_name decls t <> [] -> n = in_name t) -> (t_name decls t = [] -> exists k, k <= ps_unkin s /\ n = unknown_input k) ->
  istep W op s
    (match slookup (ps_intypes s) n with
     | Some _ => pret tt
     | None =>
         let j c := Input KStruct None false false false 0 None false n c z in
         set_intype n (j []) ;;;
         cs <- check_input_fields c (t_fields decls t) 0 [] ;;
         set_intype n (j cs)
     end) (fun W' _ => W' n = Some t).
Proof.
  intros C G K T R Z Un Nm Uk. destruct (slookup (ps_intypes s) n) as [j|] eqn:El.
  - apply istep_ret; [exact G|]. destruct (i_table _ _ _ G n j El) as [t' [E _]]. rewrite E. f_equal. now apply Un.
  - cbv zeta. unfold istep. apply post_bind. unfold post at 1, set_intype at 1.
    match goal with |- context [sset (ps_intypes s) n ?j] => set (j0 := j) end.
    destruct (igood_set W op s n t j0 (n :: op) G Un K T R Nm Uk) as [E1 G1].
    { intro N. exfalso. apply N. now left. }
    { intros. now right. }
    match type of G1 with igood _ _ ?x => set (s1 := x) in * end. set (W1 := iupd W n t) in *.
    assert (istep W1 (n :: op) s1 (check_input_fields c (t_fields decls t) 0 []) (fun W' fs =>
      exists fl', Forall2 (fun m e => fst e = fst m /\ input_at P W' m (snd e)) (numbered input_member 0 (t_fields decls t)) fl' /\ named_by ([] ++ fl') fs)) as S2.
    { apply input_fields_sound; auto; [|apply named_nil]. intros m x t' h I. eapply in_field; eauto. }
    apply post_bind. eapply post_mono; [|exact S2]. intros cs s2 [W2 [E2 [G2 [fl [F Ky]]]]]. cbn [app] in Ky.
    unfold post, set_intype. match goal with |- context [sset (ps_intypes s2) n ?j] => set (j2 := j) end.
    assert (W2 n = Some t) as On. { apply E2. unfold W1, iupd. now rewrite beqb_refl. }
    assert (iext W2 (iupd W2 n t)) as E23.
    { intros m u Hm. unfold iupd. destruct (beqb m n) eqn:Em; [|exact Hm]. apply beqb_eq in Em. subst m. congruence. }
    destruct (igood_set W2 (n :: op) s2 n t j2 op G2) as [_ G3]; auto.
    { intros t' E. congruence. }
    { destruct (i_own _ _ _ G2 n t On) as [_ [_ [_ [_ [_ U2]]]]]. exact U2. }
    { intros _. exists fl, cs, z. split; [reflexivity|]. split; [exact Z|]. split; [|exact Ky].
      eapply Forall2_mono; [|exact F]. intros a b [X Y]. split; [exact X|eapply input_at_ext; eauto]. }
    { intros m [<-|I] N; [congruence|exact I]. }
    exists (iupd W2 n t). split; [eapply iext_trans; [exact E1|]; eapply iext_trans; [exact E2|exact E23]|]. split; [exact G3|].
    unfold iupd. now rewrite beqb_refl.
Qed.
Lemma zero_of_sound W op s fuel t : igood W op s -> istep W op s (zero_of P fuel t) (fun _ z => zero_val P t z).
Proof.
  intro G. unfold zero_of. destruct (zero decls fuel t) as [v|] eqn:E; [|exact Logic.I]. apply istep_ret; [exact G|]. exists fuel. exact E.
Qed.
Lemma enum_of_spec t : t_name decls t <> [] \/ enum_of P t <> None -> 
  match enum_of P t with
  | Some i => enum_like P t /\ enum_at P (t_name decls t) i
  | None => enum_like P t -> forall i, ~ enum_at P (t_name decls t) i
  end.
Proof.
  intros _. assert (forall es i j, find_enum es (t_name decls t) i = Some j ->
        exists k, j = i + k /\ (exists e, nth_error es k = Some e /\ en_name e = t_name decls t) /\
                  forall k' e, k' < k -> nth_error es k' = Some e -> en_name e <> t_name decls t) as Fs.
  { induction es as [|e es IH]; intros i j; cbn [find_enum]; [discriminate|]. destruct (beqb (en_name e) (t_name decls t)) eqn:E.
    - intro H. injection H as <-. apply beqb_eq in E. exists 0. split; [lia|]. split; [exists e; auto|]. intros k' e' L. lia.
    - intro H. apply IH in H. destruct H as [k [-> [H1 H2]]]. exists (S k). split; [lia|]. split; [exact H1|].
      intros [|k'] e' L El; [injection El as <-; now apply beqb_false|]. eapply H2; [|exact El]. lia. }
  assert (forall es i, find_enum es (t_name decls t) i = None -> forall k e, nth_error es k = Some e -> en_name e <> t_name decls t) as Fn.
  { induction es as [|e es IH]; intros i H k e' El; [destruct k; discriminate|]. cbn [find_enum] in H.
    destruct (beqb (en_name e) (t_name decls t)) eqn:E; [discriminate|]. destruct k; [injection El as <-; now apply beqb_false|]. eapply IH; eauto. }
  destruct (enum_of P t) as [i|] eqn:Ee.
  - unfold enum_of in Ee. destruct (t_pkg decls t) as [|p0 p] eqn:Ep; [discriminate|].
    destruct (t_name decls t) as [|n0 nn] eqn:En; [discriminate|]. destruct (enum_kind (t_kind decls t)) eqn:Ek; [|discriminate].
    rewrite <- En in Ee, Fs. apply Fs in Ee. destruct Ee as [k [-> [H1 H2]]]. split; [|rewrite <- En; split; assumption].
    split; [congruence|]. split; [congruence|]. destruct (t_kind decls t); try discriminate; exact Logic.I.
  - intros [Hp [Hm Hk]] i [[e [E1 E2]] _]. unfold enum_of in Ee. destruct (t_pkg decls t) as [|p0 p] eqn:Ep; [congruence|].
    assert (enum_kind (t_kind decls t) = true) as Ek by (destruct (t_kind decls t); try contradiction; reflexivity). rewrite Ek in Ee.
    destruct (t_name decls t) as [|n0 nn] eqn:En; [congruence|]. apply (Fn _ _ Ee i e E1 E2).
Qed.
Lemma check_input_sound fuel : ichecks (check_input P fuel).
Proof.
  induction fuel as [|fuel C]; intros t h W op s R G; [exact Logic.I|]. cbn [check_input].
  eapply istep_bind; [apply (zero_of_sound W op s fuel t G)|]. intros z W1 s1 _ G1 Z. clear W s G. rename W1 into W, s1 into s, G1 into G.
  assert (basic (t_kind decls t) -> istep W op s
     (match enum_of P t with
      | Some e => pret (Input (t_kind decls t) (Some e) false false false 0 None false [] [] z)
      | None => if h && negb (id_kind (t_kind decls t)) then perr
                else pret (Input (t_kind decls t) None h false false 0 None false [] [] z)
      end) (fun W' j => reads W' t h j)) as B.
  { intro Hb. assert (t_name decls t <> [] \/ enum_of P t <> None -> match enum_of P t with
      | Some i => enum_like P t /\ enum_at P (t_name decls t) i
      | None => enum_like P t -> forall i, ~ enum_at P (t_name decls t) i end) as Es by apply enum_of_spec.
    destruct (enum_of P t) as [i|] eqn:Ee.
    - destruct Es as [E1 E2]; [right; discriminate|]. apply istep_ret; [exact G|]. now apply IREnum.
    - destruct (h && negb (id_kind (t_kind decls t))) eqn:Eh; [exact Logic.I|]. apply istep_ret; [exact G|]. apply IRData; auto.
      + intros El. apply Es; [left; apply El|exact El].
      + intro E. rewrite E in Eh. cbn in Eh. destruct (t_kind decls t); try discriminate; exact Logic.I. }
  assert (forall e (h' : bool), t_kind decls t = KSlice \/ t_kind decls t = KArray \/ t_kind decls t = KPtr -> t_elem decls t = Some e ->
            (t_kind decls t = KPtr -> is_file_header decls e = false) ->
            istep W op s (check_input P fuel e h') (fun W' j => reads W' e h' j)) as Rec.
  { intros e h' K E Fh. apply C; [|exact G]. eapply in_elem; eauto. }
  destruct (t_kind decls t) eqn:K; try (apply B; exact Logic.I); try exact Logic.I.
  - destruct (t_elem decls t) as [e|] eqn:Ee; [|exact Logic.I]. eapply istep_bind; [apply (Rec e false); auto; congruence|].
    intros j W' s' E G' H. apply istep_ret; [exact G'|]. rewrite <- K. eapply IRList; eauto.
  - destruct (t_elem decls t) as [e|] eqn:Ee; [|exact Logic.I]. eapply istep_bind; [apply (Rec e false); auto; congruence|].
    intros j W' s' E G' H. apply istep_ret; [exact G'|]. rewrite <- K. eapply IRList; eauto.
  - destruct (t_elem decls t) as [e|] eqn:Ee; [|exact Logic.I]. destruct (is_file_header decls e) eqn:Ef.
    + apply istep_ret; [exact G|]. eapply IRFile; eauto.
    + eapply istep_bind; [apply (Rec e h); auto|]. intros j W' s' E G' H. apply istep_ret; [exact G'|]. eapply IRPtr; eauto.
  - destruct (is_time decls t) eqn:T; [apply istep_ret; [exact G|]; now apply IRTime|].
    (* the name *)
    unfold istep. apply post_bind.
    set (Qn := fun (n : bytes) (s' : pst) => igood W op s' /\ (forall t', W n = Some t' -> t' = t) /\
       (t_name decls t <> [] -> n = in_name t) /\ (t_name decls t = [] -> exists k, k <= ps_unkin s' /\ n = unknown_input k)).
    apply post_mono with (Q := Qn).
    + intros n s1 [G1 [Un [Nm Uk]]]. apply post_bind. unfold post at 1, get at 1.
      pose proof (record_sound (check_input P fuel) t n z W op s1 C G1 K T R Z Un Nm Uk) as S1.
      apply post_bind. eapply post_mono; [|exact S1]. intros u s2 [W2 [E2 [G2 On]]]. exists W2. split; [exact E2|]. split; [exact G2|].
      now apply IRStruct.
    + destruct (t_name decls t) as [|b nm] eqn:En.
      * unfold post, next_unknown_in. fold (unknown_input (S (ps_unkin s))). destruct G as [H1 H2 H3]. split; [|split; [|split]].
        -- constructor; auto. intros m u Hm. destruct (H2 m u Hm) as [A1 [A2 [A3 [A4 [A5 A6]]]]]. do 5 (split; [assumption|]).
           intro E. destruct (A6 E) as [k [L ->]]. exists k. split; [cbn; lia|reflexivity].
        -- intros t' Hm. exfalso. destruct (H2 _ t' Hm) as [_ [A2 [A3 [A4 [A5 A6]]]]].
           destruct (t_name decls t') as [|b' nm'] eqn:En'.
           ++ destruct (A6 eq_refl) as [k [L E]]. apply unknown_input_inj in E. lia.
           ++ apply (in_name_known t' (S (ps_unkin s)) A4 A2); [congruence|]. symmetry. apply A5. discriminate.
        -- congruence.
        -- intros _. exists (S (ps_unkin s)). split; [cbn; lia|reflexivity].
      * unfold post, pbind, get, pret. destruct (i_same _ _ _ G) as [Es _]. rewrite Es.
        assert ((match slookup (ps_types s0) (rename P (b :: nm)) with Some _ => rename P (b :: nm) ++ bs "__input" | None => rename P (b :: nm) end) = in_name t) as ->.
        { unfold in_name. rewrite En. reflexivity. }
        split; [exact G|]. split; [|split; [reflexivity|congruence]].
        intros t' Hm. destruct (i_own _ _ _ G _ t' Hm) as [_ [A2 [A3 [A4 [A5 A6]]]]].
        assert (t_name decls t' <> []) as Nn.
        { intro En'. destruct (A6 En') as [k [_ E']]. apply (in_name_known t k R K); [congruence|exact E']. }
        symmetry. apply in_name_apart; auto. congruence.
Qed.

(** ** Functions *)
Lemma arg_fields_sound c l : ichecks c -> forall i nr acc fl W op s, igood W op s ->
  (forall n x t h, In (n, (x, t, h)) (numbered input_member i l) -> in_reach P roots more t) -> named_by fl acc ->
  istep W op s (arg_fields c l i nr acc) (fun W' fs =>
    exists fl', Forall2 (fun m e => fst e = fst m /\ fst (snd e) = fst (snd m) /\ input_at P W' (fst m, snd (snd m)) (snd (snd e)))
      (map (fun m => (fst m, (nr, snd m))) (numbered input_member i l)) fl' /\ named_by (fl ++ fl') fs).
Proof.
  intro C. induction l as [|f l IH]; intros i nr acc fl W op s G R Ky; cbn [arg_fields numbered] in *.
  - apply istep_ret; [exact G|]. exists []. rewrite app_nil_r. split; [constructor|exact Ky].
  - eapply istep_bind; [apply (input_field_sound c i f W op s C G)|].
    { intros n x t h I. apply (R n x t h). apply in_or_app. now left. }
    intros o W' s' E G' H. destruct o as [[n j]|].
    + destruct H as [m [Em [-> Hm]]]. rewrite Em in *.
      eapply istep_mono; [|apply (IH (S i) nr _ (fl ++ [(fst m, (nr, j))]) W' op s' G'); [intros n x t h I; apply (R n x t h); now right|now apply named_snoc]].
      intros W2 fs E2 [fl' [F Ky']]. exists ((fst m, (nr, j)) :: fl'). split.
      * cbn [app map]. constructor; [|exact F]. split; [reflexivity|]. split; [reflexivity|]. cbn [fst snd].
        eapply input_at_ext; [exact E2|]. destruct m; exact Hm.
      * rewrite <- app_assoc in Ky'. exact Ky'.
    + rewrite H in *. apply (IH (S i) nr acc fl W' op s' G'); auto.
Qed.
Definition arg_ok (t : gtype) (i : option gval) : Prop := match i with None => ctx_arg P t | Some z => struct_arg P t /\ zero_val P t z end.
Lemma fun_ins_sound fuel ts : forall nr ins fs fl W op s, igood W op s ->
  (forall a f i t h, In a ts -> struct_arg P a -> In (f, (i, t, h)) (input_members P a) -> in_reach P roots more t) -> named_by fl fs ->
  istep W op s (fun_ins P fuel ts nr ins fs) (fun W' p =>
    exists ins' fl', fst p = ins ++ ins' /\ Forall2 arg_ok ts ins' /\
      Forall2 (fun m e => fst e = fst m /\ fst (snd e) = fst (snd m) /\ input_at P W' (fst m, snd (snd m)) (snd (snd e)))
        (numbered (arg_members P) nr ts) fl' /\ named_by (fl ++ fl') (snd p)).
Proof.
  induction ts as [|t ts IH]; intros nr ins fs fl W op s G R Ky; cbn [fun_ins numbered].
  - apply istep_ret; [exact G|]. exists [], []. rewrite !app_nil_r. cbn. auto.
  - assert (forall a f i t0 h, In a ts -> struct_arg P a -> In (f, (i, t0, h)) (input_members P a) -> in_reach P roots more t0) as R'.
    { intros a f i t0 h I. apply R. now right. }
    destruct (match t_kind decls t, t_elem decls t with KPtr, Some e => is_ctx decls e | _, _ => false end) eqn:Ec.
    + assert (ctx_arg P t /\ arg_members P nr t = []) as [Ca Am].
      { unfold ctx_arg, arg_members. destruct (t_kind decls t); try discriminate. destruct (t_elem decls t) as [e|]; [|discriminate]. eauto. }
      eapply istep_mono; [|apply (IH (S nr) (ins ++ [None]) fs fl W op s G R' Ky)].
      intros W' p E [ins' [fl' [H1 [H2 [H3 H4]]]]]. exists (None :: ins'), fl'. rewrite Am. rewrite H1, <- app_assoc.
      split; [reflexivity|]. split; [constructor; auto|]. auto.
    + destruct (is_ctx decls t) eqn:Ei; [exact Logic.I|]. destruct (t_kind decls t) eqn:K; try exact Logic.I.
      eapply istep_bind; [apply (zero_of_sound W op s fuel t G)|]. intros z W1 s1 E1 G1 Z.
      eapply istep_bind; [apply (arg_fields_sound (check_input P fuel) (t_fields decls t) (check_input_sound fuel) 0 nr fs fl W1 op s1 G1); [|exact Ky]|].
      { intros n x t0 h I. apply (R t n x t0 h); [now left|split; assumption|exact I]. }
      intros fs2 W2 s2 E2 G2 [fl2 [F2 Ky2]].
      eapply istep_mono; [|apply (IH (S nr) (ins ++ [Some z]) fs2 (fl ++ fl2) W2 op s2 G2 R' Ky2)].
      intros W' p E [ins' [fl' [H1 [H2 [H3 H4]]]]]. exists (Some z :: ins'), (fl2 ++ fl'). rewrite H1, <- app_assoc.
      split; [reflexivity|]. split; [constructor; [split; [split; assumption|exact Z]|exact H2]|]. split.
      * apply Forall2_app; [|exact H3]. unfold arg_members, input_members. rewrite K. eapply Forall2_mono; [|exact F2].
        intros a b [X [Y V]]. split; [exact X|]. split; [exact Y|]. eapply input_at_ext; eauto.
      * rewrite <- app_assoc in H4. exact H4.
Qed.
Lemma args_ext W W' ts ins fs : iext W W' -> args_read P W ts ins fs -> args_read P W' ts ins fs.
Proof.
  intros E [H1 [l [H2 H3]]]. split; [exact H1|]. exists l. split; [|exact H3]. eapply Forall2_mono; [|exact H2].
  intros a b [X [Y V]]. split; [exact X|]. split; [exact Y|]. eapply input_at_ext; eauto.
Qed.
Lemma fun_ins_args fuel ts W op s : igood W op s ->
  (forall a f i t h, In a ts -> struct_arg P a -> In (f, (i, t, h)) (input_members P a) -> in_reach P roots more t) ->
  istep W op s (fun_ins P fuel ts 0 [] []) (fun W' p => args_read P W' ts (fst p) (snd p)).
Proof.
  intros G R. eapply istep_mono; [|apply (fun_ins_sound fuel ts 0 [] [] [] W op s G R named_nil)].
  intros W' p E [ins' [fl' [H1 [H2 [H3 H4]]]]]. cbn [app] in *. split; [rewrite H1; exact H2|]. exists fl'. auto.
Qed.
(** a method before and after its arguments are known *)
Definition completes (W : iworld) (m m' : pmethod) : Prop :=
  m' = PMeth (pm_istype m) (pm_type m) (pm_ins m') (pm_infields m') (pm_outnr m) (pm_errnr m) (pm_out m) /\
  args_read P W (method_args (pm_istype m) (pm_type m)) (pm_ins m') (pm_infields m').
Lemma methods_ins_sound fuel l : (forall m, In m l -> schema_fun P roots more (pm_istype m) (pm_type m)) ->
  forall W op s, igood W op s -> istep W op s (methods_ins P fuel l) (fun W' l' => Forall2 (completes W') l l').
Proof.
  induction l as [|m l IH]; intros F W op s G; cbn [methods_ins]; [apply istep_ret; [exact G|constructor]|].
  eapply istep_bind; [apply (fun_ins_args fuel (method_args (pm_istype m) (pm_type m)) W op s G)|].
  { intros a f i t h I A J. eapply in_root; [apply F; now left|exact I|exact A|exact J]. }
  intros p W1 s1 E1 G1 H. eapply istep_bind; [apply (IH (fun m I => F m (or_intror I)) W1 op s1 G1)|].
  intros l' W2 s2 E2 G2 H2. apply istep_ret; [exact G2|]. constructor; [|exact H2]. split; [reflexivity|]. eapply args_ext; eauto.
Qed.
Definition dir_ok (W : iworld) (d : pdir) (d' : dirdef) : Prop :=
  dd_name d' = pd_name d /\ dd_fn d' = pd_fn d /\ args_read P W (pd_type d) (dd_ins d') (dd_infields d').
Lemma dirs_ins_sound fuel l : (forall d, In d l -> In (pd_type d) more) ->
  forall W op s, igood W op s -> istep W op s (dirs_ins P fuel l) (fun W' l' => Forall2 (dir_ok W') l l').
Proof.
  induction l as [|d l IH]; intros F W op s G; cbn [dirs_ins]; [apply istep_ret; [exact G|constructor]|].
  eapply istep_bind; [apply (fun_ins_args fuel (pd_type d) W op s G)|].
  { intros a f i t h I A J. eapply in_root with (it := false); [left; split; [reflexivity|apply F; now left]|exact I|exact A|exact J]. }
  intros p W1 s1 E1 G1 H. eapply istep_bind; [apply (IH (fun m I => F m (or_intror I)) W1 op s1 G1)|].
  intros l' W2 s2 E2 G2 H2. apply istep_ret; [exact G2|]. constructor; [|exact H2]. split; [reflexivity|]. split; [reflexivity|]. eapply args_ext; eauto.
Qed.
End Inputs.
