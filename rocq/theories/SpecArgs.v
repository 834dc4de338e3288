(** * Literals and arguments: from the interpreter to the specification; directives (proofs) *)
From Coq Require Import String Arith NArith ZArith Bool List Lia.
From Verif Require Import Base Json JsonModel JsonProof Ast ReqModel Schema ResModel Interp Facts Spec SpecLit SpecJson SpecVal.
Import ListNotations.
Open Scope N_scope.

Section Args.
Context {W : Type}.
Variable X : externals W.
Variable S : schema.
Variable rawvars : bytes.
Variable decls : option (list oparg).
Notation st := (rst W).
Notation bm := (@bm W).
Notation value := Ast.value.
Notation from := (from X rawvars).
Notation to := (to X rawvars).
Notation b_input := (b_input X S rawvars decls).
Notation b_elems := (b_elems X S rawvars decls).
Notation on_member := (on_member X S rawvars decls).
Notation lit_sets := (lit_sets X S rawvars decls).
Notation lit_elems := (lit_elems X S rawvars decls).
Notation lit_members := (lit_members X S rawvars decls).

Lemma g_input : forall fuel g i v ok, grows (b_input fuel g i v ok).
Proof. intros. eapply (grows_barg X rawvars). apply f_input. Qed.
Ltac g_step := match goal with
  | |- grows (bret _) => apply grows_ret | |- grows bpanic => apply grows_panic | |- grows bnofuel => apply grows_nofuel | |- grows bnope => apply grows_nope
  | |- grows (lift (err _)) => apply grows_err | |- grows (lift (of_opt _)) => apply grows_opt
  | |- grows (lift (fail _ _)) => eapply (grows_spec X rawvars); apply q_fail
  | |- grows (lift (set_any _ _)) => eapply (grows_spec X rawvars); apply q_set_any
  | |- grows (lift (set_float _ _ _)) => eapply (grows_spec X rawvars); apply q_set_float
  | |- grows (lift (set_bool _ _)) => eapply (grows_spec X rawvars); apply q_set_bool
  | |- grows (lift (field_of _ _)) => eapply (grows_spec X rawvars); apply q_field_of
  | |- grows (lift (content_of _ _)) => eapply (grows_spec X rawvars); apply q_content_of
  | |- grows (lift (type_mismatch _ _ _)) => eapply (grows_spec X rawvars); apply q_mismatch
  | |- grows (lift (assign_enum _ _ _)) => eapply (grows_spec X rawvars); apply q_assign_enum
  | |- grows (lift (bind_external _ _ _ _ _ _ _)) => eapply (grows_spec X rawvars); apply q_bind_external
  | |- grows (Interp.b_input _ _ _ _ _ _ _ _ _) => apply g_input
  | |- grows (Interp.b_oparg _ _ _ _ _ _ _ _ _) => eapply (grows_barg X rawvars); apply f_input
  | |- grows (bbind _ _) => apply grows_bind; [|intro]
  | |- grows (match ?x with _ => _ end) => destruct x
  | |- grows (let '(_, _) := ?x in _) => destruct x
  end.
Ltac gr := repeat g_step.
Lemma g_elems : forall fuel g i vo n vs acc, grows (b_elems fuel g i vo n vs acc).
Proof. intros fuel g i vo. induction n as [|n IH]; intros [|x r] acc; cbn [SpecVal.b_elems]; gr. apply IH. Qed.
Lemma g_member : forall fuel ro c vo a k x, grows (on_member fuel ro c vo a k x).
Proof. intros fuel ro c vo [v b] k x. unfold SpecVal.on_member. gr. Qed.
Lemma g_walk : forall A (onkey : A -> bytes -> value -> bm (A * bool)), (forall a k v, grows (onkey a k v)) -> forall fuel ms a, grows (b_walk fuel onkey ms a).
Proof.
  intros A onkey H. induction fuel as [|fuel IH]; intros ms a; cbn [b_walk]; [gr|]. destruct ms as [|[k v] r]; [gr|]. apply grows_bind; [apply H|]. intros [b []]; [gr|].
  destruct (is_list v); [gr|apply IH].
Qed.

Lemma from_set_any : forall p w g v, from p w (lift (set_any g v)) (fun x w' => fst g = false /\ x = v /\ w' = w).
Proof. intros p w g v. apply from_pure. intros s a s' H. unfold set_any in H. destruct (fst g); [discriminate|]. injection H; intros; subst; auto. Qed.
Lemma from_field_of : forall p w g k, from p w (lift (field_of g k)) (fun x w' => w' = w /\ exists fs e old, snd g = GStruct fs /\ nth_error fs k = Some (e, old) /\ x = (fst g || negb e, old)).
Proof.
  intros p w g k. apply from_pure. intros s a s' H. unfold field_of in H. destruct (snd g) eqn:Eg; try discriminate. destruct (nth_error fs k) as [[e old]|] eqn:En; [|discriminate].
  injection H; intros; subst. split; auto. split; auto. exists fs, e, old. auto.
Qed.
Definition lit_ok (vo : bool) (w : W) (g : rv) (i : input) (x : value) (r : bres) (w' : W) : Prop := snd r = false /\ lit_sets vo w g i x w' (fst (fst r)) (snd (fst r)).
Definition oparg_ok (w : W) (g : rv) (i : input) (n : bytes) (a : oparg) (r : bres) (w' : W) : Prop := snd r = false /\ type_fits S i (oa_type a) /\
  ((exists j, jvar X rawvars n (Some j) /\ json_sets X S w g i j w' (fst (fst r)) (snd (fst r))) \/
   (jvar X rawvars n None /\ exists d, oa_default a = Some d /\ lit_sets false w g i d w' (fst (fst r)) (snd (fst r)))).
Lemma oparg_step : forall fuel g i name a, b_oparg X S rawvars decls (Datatypes.S fuel) g i name a =
  bbind (b_marks fuel i (oa_type a) name) (fun '(ri, tname) =>
  match ri with
  | None => bret (snd g, false, true)
  | Some ri =>
      bbind (lift (type_mismatch S ri tname)) (fun mis =>
      match mis with
      | Some m => lift (fail g m)
      | None =>
          bbind (lift (bind_external X S rawvars fuel g i name)) (fun '(v, set_, found, crit) =>
          if crit : bool then bret (v, set_, true)
          else if found : bool then bret (v, set_, false)
          else match oa_default a with
               | None => lift (fail g (bs "variable has no value nor default"))
               | Some d => b_input fuel g i d false
               end)
      end)
  end).
Proof. reflexivity. Qed.
Lemma null_dec : forall x : value, x = VNull \/ x <> VNull. Proof. destruct x; auto; right; discriminate. Qed.
Lemma lit_bwd : forall fuel,
  (forall p w g i x vo, from p w (b_input fuel g i x vo) (lit_ok vo w g i x)) /\
  (forall p w g i n a, from p w (b_oparg X S rawvars decls fuel g i n a) (oparg_ok w g i n a)).
Proof.
  induction fuel as [|fuel [IHi IHo]]; [split; intros; apply from_nofuel|]. split.
  - intros p w g i x vo. rewrite input_step. destruct (is_ptr i) eqn:P.
    + rewrite bptr_yes by auto. eapply from_bind; [apply from_opt| | |]; [gr|intro; gr; destruct x; gr|]. intros e w1 [Ee ->]. destruct (null_dec x) as [->|Nx].
      * eapply from_bind; [eapply (from_ret X rawvars) with (R := fun a w' => a = (i_zero e, false, false) /\ w' = w); auto| | |]; [gr|intro; gr|]. intros r w1 [-> ->]. cbv beta iota. apply from_ret. split; auto. cbn. eapply ls_ptr_null; eauto.
      * rewrite not_null by auto. eapply from_bind; [apply IHi| | |]; [gr|intro; gr|]. intros [[v b] c] w1 [C L]. cbn [fst snd] in C, L. subst c. destruct b.
        -- eapply from_bind; [apply from_set_any| | |]; [gr|intro; gr|]. intros a w2 (G & -> & ->). apply from_ret. split; auto. cbn. destruct g as [ro old]. cbn in G; subst ro. eapply ls_ptr; eauto.
        -- apply from_ret. split; auto. cbn. eapply ls_ptr_unset; eauto.
    + rewrite bptr_no by auto. destruct x as [n|lit|lit|s|b| |n|vs|ms]; unfold b_body.
      * destruct vo; cbn [negb]; [|apply from_fail]. eapply from_bind with (R1 := fun a w' => a = declared decls n /\ w' = w).
        { intros s a s' V Pp E H Q. apply find_arg_iff in H. destruct H as [-> ->]. split; auto. now apply step_refl. }
        { eapply (grows_barg X rawvars); apply f_find_arg. }
        { intro; gr. }
        intros a w1 [-> ->]. destruct (declared decls n) as [a|] eqn:D; [|apply from_fail]. eapply from_weak; [apply IHo|]. intros r w' (C & T & [(j & J & Js)|(J & d & Df & Ls)]); split; auto.
        -- eapply ls_var; eauto.
        -- eapply ls_default; eauto.
      * apply from_lift. intros s [[v b] c] s' E H Q. destruct (proj1 (int_iff _ _ _ _ _ _ _ _) (conj H Q)) as (-> & -> & -> & I). rewrite set_world_same, E. split; auto. split; auto. now apply ls_int.
      * destruct g as [ro x]. cbn [snd]. destruct x; cbn [kind_of]; try apply from_fail. destruct (x_parse_float X lit) eqn:Ef; [|apply from_fail].
        eapply from_bind with (R1 := fun a w' => ro = false /\ a = GFloat is64 (if is64 then n else x_to32 X n) /\ w' = w); [apply from_pure| | |]; [|gr|intro; gr|].
        { intros s a s' H. destruct ro; [discriminate|]. injection H; intros; subst; auto. }
        intros a w1 (-> & -> & ->). apply from_ret. split; auto. now apply ls_float.
      * apply from_lift. intros t [[v b] c] s' E H Q. destruct (proj1 (string_iff _ _ _ _ _ _ _ _ _ _) (conj H Q)) as (A & -> & -> & I). split; auto. split; auto. rewrite <- E. now apply ls_str.
      * destruct g as [ro x]. cbn [snd]. destruct x; cbn [kind_of]; try apply from_fail.
        eapply from_bind with (R1 := fun a w' => ro = false /\ a = GBool b /\ w' = w); [apply from_pure| | |]; [|gr|intro; gr|].
        { intros s a s' H. destruct ro; [discriminate|]. injection H; intros; subst; auto. }
        intros a w1 (-> & -> & ->). apply from_ret. split; auto. now apply ls_bool.
      * apply from_ret. split; auto. now apply ls_null.
      * destruct (i_enum i) as [k|] eqn:En; [|apply from_fail]. eapply from_bind; [apply from_opt| | |]; [gr|intro; gr|]. intros e w1 [Ee ->].
        apply from_lift. intros t [[v b] c] s' E H Q. destruct (proj1 (enum_iff _ _ _ _ _ _ _ _) (conj H Q)) as (-> & -> & -> & I). rewrite set_world_same, E. split; auto. split; auto. eapply ls_enum; eauto.
      * destruct g as [ro y]. cbn [snd]. destruct y; cbn [kind_of]; try apply from_fail. rename l into old.
        assert (D : forall e n vs acc w, (vs <> [] -> i_elem i = Some e) -> from p w (b_elems fuel (ro, GSlice old) i vo n vs acc)
          (fun r w' => snd r = false /\ snd (fst r) = true /\ ro = false /\ exists l, fst (fst r) = GSlice (Some (acc ++ l)) /\ lit_elems vo w e vs w' l)).
        { intro e. induction n as [|n IHn]; intros [|x r] acc w0 He; cbn [SpecVal.b_elems].
          - eapply from_bind; [apply from_set_any| | |]; [gr|intro; gr|]. intros a w2 (G & -> & ->). cbn in G. apply from_ret. repeat (split; auto). exists []. rewrite app_nil_r. split; auto. constructor.
          - apply from_nofuel.
          - eapply from_bind; [apply from_set_any| | |]; [gr|intro; gr|]. intros a w2 (G & -> & ->). cbn in G. apply from_ret. repeat (split; auto). exists []. rewrite app_nil_r. split; auto. constructor.
          - rewrite He by discriminate. eapply from_bind; [apply from_opt| | |]; [gr|intro; gr; apply g_elems|]. intros e' w1 [[= <-] ->].
            eapply from_bind; [apply IHi| | |]; [gr|intro; gr; apply g_elems|]. intros [[v b] c] w1 [C L]. cbn [fst snd] in C, L. subst c.
            destruct (is_list x) eqn:Il; cbn [orb]; [apply from_nope|]. destruct (match x with VNull => is_ptr e | _ => false end) eqn:In; [apply from_nope|].
            eapply from_weak; [apply IHn; intros; apply He; discriminate|]. intros [[v' b'] c'] w2. cbn [fst snd]. intros (-> & -> & Ro & l & -> & Ls). repeat (split; auto).
            exists (v :: l). rewrite <- app_assoc. split; auto. eapply le_cons; eauto. intros Pe ->. congruence. }
        destruct (i_elem i) as [e|] eqn:Ee.
        -- eapply from_weak; [apply (D e); auto|]. intros [[v b] c] w'. cbn [fst snd]. intros (-> & -> & -> & l & -> & Ls). split; auto. cbn [fst snd app]. eapply ls_list; eauto.
        -- destruct vs as [|x r].
           ++ eapply from_weak; [apply (D i); intros N; destruct (N eq_refl)|]. intros [[v b] c] w'. cbn [fst snd]. intros (-> & -> & -> & l & -> & Ls). split; auto. cbn [fst snd app]. eapply (ls_list _ _ _ _ _ _ _ _ _ i); eauto. congruence.
           ++ destruct fuel; cbn [SpecVal.b_elems]; [apply from_nofuel|]. rewrite Ee. intros s a s' _ _ _ H. discriminate.
      * destruct g as [ro v0]. cbn [snd fst]. destruct (kind_of v0) eqn:K; try apply from_fail.
        eapply from_bind with (R1 := fun c w' => contents S i c /\ w' = w); [apply from_pure| | |].
        { intros s c s' H. apply content_iff in H. destruct H; auto. }
        { gr. }
        { intro c. apply grows_bind; [apply g_walk; apply g_member|]. intros [[[v b] cr] cut]. gr. }
        intros c w1 [C ->].
        assert (D : forall cnt ms v0 b0 w, from p w (b_walk cnt (on_member fuel ro c vo) ms (v0, b0))
          (fun r w' => let '(v, b, crit, cut) := r in cut = None -> crit = false /\ lit_members vo w ro c v0 b0 ms w' v b)).
        { clear K. induction cnt as [|cnt IHc]; intros ms0 v1 b0 w0; cbn [b_walk]; [apply from_nofuel|]. destruct ms0 as [|[k x] r].
          { apply from_ret. intros _. split; auto. constructor. }
          eapply from_bind with (R1 := fun r w' => snd r = false /\ exists fi fs e old, slookup c k = Some fi /\ v1 = GStruct fs /\ nth_error fs (i_field fi) = Some (e, old) /\
             exists y b, fst r = (GStruct (with_field fs (i_field fi) y), b) /\ lit_sets vo w0 (ro || negb e, old) fi x w' y b).
          - unfold SpecVal.on_member. destruct (slookup c k) as [fi|] eqn:Lk.
            + eapply from_bind; [apply from_field_of| | |]; [gr|intro; gr|]. intros f w1 (-> & fs & e & old & Es & En & ->). cbn [fst snd] in *. subst v1.
              eapply from_bind; [apply IHi| | |]; [gr|intro; gr|]. intros [[y b] c0] w1 [C0 L]. cbn [fst snd] in C0, L. subst c0. apply from_ret. split; auto.
              exists fi, fs, e, old. repeat (split; auto). exists y, b. split; auto. cbn [fst]. now rewrite (with_field_upd fs (i_field fi) e old).
            + apply from_err. intro; gr.
          - apply g_member.
          - intros [[v b] []]; [gr|]. destruct (is_list x); [gr|]. apply g_walk. apply g_member.
          - intros [[v b] c0] w1 (C0 & fi & fs & e & old & Lk & -> & En & y & b' & Er & L). cbn [fst snd] in *. subst c0. injection Er; intros -> ->.
            destruct (is_list x) eqn:Il.
            + destruct cnt; [apply from_nofuel|]. apply from_ret. discriminate.
            + eapply from_weak; [apply IHc|]. intros [[[v' b''] cr] cut] w2 H N. destruct (H N) as [-> Hm]. split; auto. eapply lm_cons; eauto. }
        eapply from_bind; [apply D| | |]; [apply g_walk; apply g_member|intros [[[v b] cr] cut]; gr|]. intros [[[v b] cr] cut] w1 H. destruct cut; [apply from_nope|]. destruct (H eq_refl) as [-> Hm].
        apply from_ret. split; auto. cbn [fst snd]. eapply ls_obj; eauto.
  - intros p w g i n a. rewrite oparg_step.
    eapply from_bind with (R1 := fun r w' => w' = w /\ exists i', fst r = Some i' /\ (name_fits S i' (snd r) -> type_fits S i (oa_type a))).
    { intros s [ri tn] s' V Pp E H Q. destruct (marks_iff S _ _ _ _ _ _ _ _ H Q) as (-> & i' & -> & F). split; [now apply step_refl|]. split; auto. exists i'. auto. }
    { eapply (grows_barg X rawvars); apply f_marks. }
    { intro; gr. }
    intros [ri tn] w1 (-> & i' & Er & F). cbn [fst snd] in *. subst ri.
    eapply from_bind with (R1 := fun m w' => w' = w /\ (m = None -> name_fits S i' tn)); [|gr|intro; gr|].
    { intros s m s' V Pp E H Q. unfold lift in H. destruct (type_mismatch S i' tn s) as [m' t| |] eqn:T; try discriminate. injection H; intros; subst m' t.
      assert (Z : s' = s).
      { clear -T. unfold type_mismatch in T. destruct (i_enum i') as [k|].
        - destruct (nth_error (s_enums S) k); [|discriminate]. injection T; intros; subst; auto.
        - destruct (i_isid i'), (i_isfile i'), (i_istime i'), (i_kind i'); injection T; intros; subst; auto. }
      subst s'. split; [now apply step_refl|]. split; auto. intros ->. eapply mismatch_iff. exact T. }
    intros [m|] w1 (-> & Fn); [apply from_fail|]. specialize (F (Fn eq_refl)).
    eapply from_bind; [apply external_back| | |]; [gr|intro; gr|]. intros [[[v b] found] crit] w1 [-> H]. destruct found.
    + apply from_ret. split; [reflexivity|]. split; [exact F|]. left. exact H.
    + destruct H as [J ->]. destruct (oa_default a) as [d|] eqn:Df; [|apply from_fail]. eapply from_weak; [apply IHi|]. intros r w' [C L]. split; auto. split; auto. right. split; auto. exists d. auto.
Qed.

(** ** The arguments of a call *)
Definition on_arg (fuel : nat) (infs : list (bytes * (nat * input))) (fi : list gval) (key : bytes) (x : value) : bm (list gval * bool) :=
  match slookup infs key with
  | None => bbind (lift (err (bs "undefined input: " ++ key))) (fun b => bret (fi, b))
  | Some (n, i) =>
      bbind (lift (of_opt (nth_error fi n))) (fun a =>
      bbind (lift (field_of (false, a) (i_field i))) (fun f =>
      bbind (b_input fuel f i x true) (fun '(v, _, crit) =>
      bret (upd_nth fi n (put_field a (i_field i) v), crit))))
  end.
Lemma args_step : forall fuel ins infs args, b_args X S rawvars decls fuel ins infs args =
  match args with Some ms => b_walk fuel (on_arg fuel infs) ms (zero_args ins) | None => bret (zero_args ins, false, None) end.
Proof. reflexivity. Qed.
Lemma zero_fresh : forall ins, zero_args ins = fresh_args ins. Proof. reflexivity. Qed.
Lemma g_on_arg : forall fuel infs fi k x, grows (on_arg fuel infs fi k x).
Proof. intros. unfold on_arg. gr. Qed.
Notation args_set := (args_set X S rawvars decls).
Lemma lists_last_tail : forall a r subs, lists_last (a :: r) subs -> lists_last r subs.
Proof. intros a r subs H x k l b ->. apply (H (a :: x) k l b). reflexivity. Qed.
Lemma is_list_iff : forall x, is_list x = true <-> exists l, x = VList l.
Proof. intros []; cbn; split; try discriminate; eauto; intros (l' & H); discriminate. Qed.
Definition no_lists (args : list (bytes * value)) : Prop := forall k l, ~ In (k, VList l) args.
Lemma args_fwd : forall infs w l args w' l', args_set infs w l args w' l' -> forall subs, lists_last args subs -> exists n cut, after_args cut subs = CSels subs /\ (no_lists args -> cut = None) /\
  forall fuel, (n <= fuel)%nat -> forall p cnt, (length args + 1 < cnt)%nat -> to p (b_walk cnt (on_arg fuel infs) args l) w (l', false, cut) w'.
Proof.
  intros infs w l args w' l' H. induction H as [w l|w l k x r n i fs e old w1 y b w2 l' Lk Ln Lf Lit _ IH]; intros subs L.
  - exists O, None. split; auto. split; auto. intros fuel _ p [|cnt] Lc; [lia|]. cbn [b_walk]. apply to_ret.
  - destruct (IH subs) as (n1 & cut & A & C & R); [eapply lists_last_tail; eauto|]. destruct (proj1 (lit_fwd X S rawvars decls) _ _ _ _ _ _ _ _ Lit) as (n2 & R2).
    assert (Arg : forall fuel, (n2 <= fuel)%nat -> forall p, to p (on_arg fuel infs l k x) w (with_arg l n (GStruct (with_field fs (i_field i) y)), false) w1).
    { intros fuel Lf2 p. unfold on_arg. rewrite Lk. eapply to_bind; [apply to_opt; exact Ln|]. eapply to_bind; [apply to_pure; intro s; unfold field_of; cbn [snd fst]; rewrite Lf; reflexivity|].
      cbn [orb]. eapply to_bind; [apply R2; auto|]. cbv beta iota. rewrite (with_field_upd fs (i_field i) e old) by auto.
      rewrite with_arg_upd by (apply nth_error_Some; congruence). apply to_ret. }
    destruct (is_list x) eqn:Il.
    + apply is_list_iff in Il. destruct Il as (vs & ->). destruct (L [] k vs r eq_refl) as [-> ->]. exists n2, (Some []). split; auto. split; [intro N; exfalso; eapply N; left; reflexivity|].
      intros fuel Lf2 p [|[|cnt]] Lc; cbn in Lc; try lia. cbn [b_walk]. eapply to_bind; [apply Arg; auto|]. cbv beta iota. cbn [is_list].
      pose proof (R (Nat.max n1 fuel) ltac:(lia) p 2%nat ltac:(cbn; lia)) as Rr. cbn [b_walk] in Rr.
      intros s V P E. destruct (Rr s V P E) as (s' & Hs & T & Ww). injection Hs; intros; subst. exists s'. split; auto.
    + exists (Nat.max n1 n2), cut. split; auto. split; [intro N; apply C; intros k' l'' I; eapply N; right; exact I|].
      intros fuel Lf2 p [|cnt] Lc; [lia|]. cbn [b_walk]. eapply to_bind; [apply Arg; lia|]. cbv beta iota. rewrite Il. apply R; [lia|cbn in Lc; lia].
Qed.
Lemma args_bwd : forall infs fuel p subs cnt args l w, lists_last args subs -> from p w (b_walk cnt (on_arg fuel infs) args l) (fun r w' => let '(l', crit, cut) := r in
  crit = false /\ after_args cut subs = CSels subs /\ args_set infs w l args w' l' /\ (cut = None -> no_lists args)).
Proof.
  intros infs fuel p subs. induction cnt as [|cnt IH]; intros args l w L; cbn [b_walk]; [apply from_nofuel|]. destruct args as [|[k x] r].
  { apply from_ret. split; auto. split; auto. split; [constructor|]. intros _ k v []. }
  eapply from_bind with (R1 := fun r w' => snd r = false /\ exists n i fs e old y b, slookup infs k = Some (n, i) /\ nth_error l n = Some (GStruct fs) /\ nth_error fs (i_field i) = Some (e, old) /\
     lit_sets true w (negb e, old) i x w' y b /\ fst r = with_arg l n (GStruct (with_field fs (i_field i) y))).
  - unfold on_arg. destruct (slookup infs k) as [[n i]|] eqn:Lk; [|apply from_err; intro; gr].
    eapply from_bind; [apply from_opt| | |]; [gr|intro; gr|]. intros a w1 [Ln ->].
    eapply from_bind; [apply from_field_of| | |]; [gr|intro; gr|]. intros f w1 (-> & fs & e & old & Es & En & ->). cbn [fst snd orb] in *. subst a.
    eapply from_bind; [apply lit_bwd| | |]; [gr|intro; gr|]. intros [[y b] c0] w1 [C0 Ls]. cbn [fst snd] in C0, Ls. subst c0. apply from_ret. split; auto.
    exists n, i, fs, e, old, y, b. repeat (split; auto). cbn [fst]. rewrite (with_field_upd fs (i_field i) e old) by auto. rewrite with_arg_upd; auto. apply nth_error_Some. congruence.
  - apply g_on_arg.
  - intros [v []]; [gr|]. destruct (is_list x); [gr|]. apply g_walk. apply g_on_arg.
  - intros [v c0] w1 (C0 & n & i & fs & e & old & y & b & Lk & Ln & En & Ls & Ev). cbn [fst snd] in *. subst c0 v. destruct (is_list x) eqn:Il.
    + destruct cnt; [apply from_nofuel|]. apply is_list_iff in Il. destruct Il as (vs & ->). destruct (L [] k vs r eq_refl) as [-> ->]. apply from_ret. split; auto. split; auto. split; [|discriminate].
      eapply as_cons; eauto. constructor.
    + eapply from_weak; [apply IH; eapply lists_last_tail; eauto|]. intros [[l' cr] cut] w2 (-> & A & As & N). split; auto. split; auto. split; [eapply as_cons; eauto|].
      intros Hc k' v' [[= -> ->]|I]; [discriminate|]. eapply N; eauto.
Qed.
(** with a list literal before the end nothing is known, but errors and [cut] are *)
Lemma args_cut : forall infs fuel p cnt args l w, from p w (b_walk cnt (on_arg fuel infs) args l) (fun r w' => let '(l', crit, cut) := r in
  crit = false /\ (cut = None -> no_lists args /\ args_set infs w l args w' l')).
Proof.
  intros infs fuel p. induction cnt as [|cnt IH]; intros args l w; cbn [b_walk]; [apply from_nofuel|]. destruct args as [|[k x] r].
  { apply from_ret. split; auto. intros _. split; [intros k v []|constructor]. }
  eapply from_bind with (R1 := fun r w' => snd r = false /\ exists n i fs e old y b, slookup infs k = Some (n, i) /\ nth_error l n = Some (GStruct fs) /\ nth_error fs (i_field i) = Some (e, old) /\
     lit_sets true w (negb e, old) i x w' y b /\ fst r = with_arg l n (GStruct (with_field fs (i_field i) y))).
  - unfold on_arg. destruct (slookup infs k) as [[n i]|] eqn:Lk; [|apply from_err; intro; gr].
    eapply from_bind; [apply from_opt| | |]; [gr|intro; gr|]. intros a w1 [Ln ->].
    eapply from_bind; [apply from_field_of| | |]; [gr|intro; gr|]. intros f w1 (-> & fs & e & old & Es & En & ->). cbn [fst snd orb] in *. subst a.
    eapply from_bind; [apply lit_bwd| | |]; [gr|intro; gr|]. intros [[y b] c0] w1 [C0 Ls]. cbn [fst snd] in C0, Ls. subst c0. apply from_ret. split; auto.
    exists n, i, fs, e, old, y, b. repeat (split; auto). cbn [fst]. rewrite (with_field_upd fs (i_field i) e old) by auto. rewrite with_arg_upd; auto. apply nth_error_Some. congruence.
  - apply g_on_arg.
  - intros [v []]; [gr|]. destruct (is_list x); [gr|]. apply g_walk. apply g_on_arg.
  - intros [v c0] w1 (C0 & n & i & fs & e & old & y & b & Lk & Ln & En & Ls & Ev). cbn [fst snd] in *. subst c0 v. destruct (is_list x) eqn:Il.
    + destruct cnt; [apply from_nofuel|]. apply from_ret. split; auto. discriminate.
    + eapply from_weak; [apply IH|]. intros [[l' cr] cut] w2 (-> & As). split; auto. intro Hc. destruct (As Hc) as [N As']. split; [|eapply as_cons; eauto].
      intros k' v' [[= -> ->]|I]; [discriminate|]. eapply N; eauto.
Qed.

(** ** Directives *)
Lemma no_lists_last : forall args subs, no_lists args -> lists_last args subs.
Proof. intros args subs N a k l b ->. exfalso. eapply (N k l). apply in_or_app. right. left. reflexivity. Qed.
Lemma dir_args_fwd : forall infs w ins args w' l', args_set infs w (fresh_args ins) (given args) w' l' -> no_lists (given args) ->
  exists n, forall fuel, (n <= fuel)%nat -> forall p, to p (b_args X S rawvars decls fuel ins infs args) w (l', false, None) w'.
Proof.
  intros infs w ins args w' l' H N. destruct (args_fwd _ _ _ _ _ _ H [] (no_lists_last _ _ N)) as (n & cut & A & C & R). rewrite (C N) in R. clear C A cut.
  exists (Nat.max n (length (given args) + 2)). intros fuel L p. rewrite args_step. destruct args as [ms|]; cbn [given] in *; [apply R; lia|].
  inversion H; subst. apply to_ret.
Qed.
Lemma directive_fwd : forall q loc w x w' b, dir_says X S rawvars decls q loc w x w' b -> exists n, forall fuel, (n <= fuel)%nat ->
  to (path_text q) (b_directive X S rawvars decls fuel loc x) w (b, false) w'.
Proof.
  intros q loc w x w' b H.
  inversion H as [w0 x0 ds d w'0 e b0 Hd Hf Hn Hk Ha|w0 x0 ds d w'0 e b0 Hd Hf Hn Hk Ha|w0 x0 ds d w1 args f w'0 b0 Hd Hf Hn Hk Ha Hx]; subst;
    destruct (dir_args_fwd _ _ _ _ _ _ Ha Hn) as (n & R); exists n; intros fuel L; unfold b_directive; rewrite Hd, Hf;
    (eapply to_bind; [apply R; auto|]); cbv beta iota; rewrite Hk; try apply to_ret.
  eapply to_bind; [apply to_lift; intros s E; rewrite sw_id by exact E; unfold get_world; rewrite E; reflexivity|].
  intros s V P E. unfold bbind at 1. cbn [lift get_path]. unfold lift at 1, get_path. rewrite P. revert s V P E. apply (to_bind X rawvars) with (a := (w', b)) (w1 := w1); [apply to_opt; exact Hx|]. cbv beta iota.
  eapply to_bind; [apply to_lift; reflexivity|]. apply to_ret.
Qed.
Lemma directives_fwd : forall q loc w l w' b, dirs_say X S rawvars decls q loc w l w' b -> exists n, forall fuel, (n <= fuel)%nat ->
  to (path_text q) (b_directives X S rawvars decls fuel loc l) w (b, false) w'.
Proof.
  intros q loc w l w' b H. induction H as [w|w x r w' H|w x r w1 w' b H _ (n1 & IH)].
  - exists O. intros fuel _. apply to_ret.
  - destruct (directive_fwd _ _ _ _ _ _ H) as (n & R). exists n. intros fuel L. cbn [b_directives]. eapply to_bind; [apply R; auto|]. cbv beta iota. cbn [orb]. apply to_ret.
  - destruct (directive_fwd _ _ _ _ _ _ H) as (n & R). exists (Nat.max n n1). intros fuel L. cbn [b_directives]. eapply to_bind; [apply R; lia|]. cbv beta iota. cbn [orb]. apply IH. lia.
Qed.
Lemma from_get_path : forall p w, from p w (lift get_path) (fun x w' => x = p /\ w' = w).
Proof. intros p w s a s' V P E H _. injection H; intros; subst. split; auto. now apply step_refl. Qed.
Lemma from_get_world : forall p w, from p w (lift get_world) (fun x w' => x = w /\ w' = w).
Proof. intros p w s a s' V P E H _. injection H; intros; subst. split; auto. now apply step_refl. Qed.
Lemma from_put_world : forall p w x, from p w (lift (put_world x)) (fun _ w' => w' = x).
Proof. intros p w x s a s' V P E H _. injection H; intros; subst. split; auto. now apply step_world. Qed.
Lemma g_get_path : grows (@lift W _ get_path). Proof. eapply (grows_spec X rawvars). apply q_get_path. Qed.
Lemma g_get_world : grows (@lift W _ get_world). Proof. eapply (grows_spec X rawvars). apply q_get_world. Qed.
Lemma g_put_world : forall w, grows (@lift W _ (put_world w)). Proof. intro w. eapply (grows_spec X rawvars). apply q_put_world. Qed.
Ltac gw := repeat first [g_step|apply g_get_path|apply g_get_world|apply g_put_world].
Lemma g_args : forall fuel ins infs args, grows (b_args X S rawvars decls fuel ins infs args).
Proof. intros. eapply (grows_barg X rawvars). apply f_args. Qed.
Lemma directive_bwd : forall q loc w x fuel, from (path_text q) w (b_directive X S rawvars decls fuel loc x) (fun r w' => snd r = false /\ dir_says X S rawvars decls q loc w x w' (fst r)).
Proof.
  intros q loc w x fuel. unfold b_directive. destruct (nlookup (s_dirs S) loc) as [ds|] eqn:Hd; [|apply from_err; intro; gr].
  destruct (find _ ds) as [d|] eqn:Hf; [|apply from_err; intro; gr].
  eapply from_bind with (R1 := fun r w' => let '(l', crit, cut) := r in crit = false /\ (cut = None -> no_lists (given (d_args x)) /\ args_set (dd_infields d) w (fresh_args (dd_ins d)) (given (d_args x)) w' l')).
  - rewrite args_step. destruct (d_args x) as [ms|] eqn:Ea; cbn [given]; [apply args_cut|]. apply from_ret. split; auto. intros _. split; [intros k v []|]. constructor.
  - apply g_args.
  - intros [[args []] cut]; gw.
  - intros [[args crit] cut] w1 [-> H]. destruct cut; [apply from_nope|]. destruct (H eq_refl) as [N A]. clear H. destruct (dd_fn d) eqn:Hk.
    + repeat (match goal with |- SpecVal.from _ _ _ _ (match ?x with _ => _ end) _ => destruct x end; try apply from_panic). apply from_ret. split; auto. eapply ds_skip; eauto.
    + repeat (match goal with |- SpecVal.from _ _ _ _ (match ?x with _ => _ end) _ => destruct x end; try apply from_panic). apply from_ret. split; auto. eapply ds_include; eauto.
    + eapply from_bind; [apply from_get_world| | |]; [gw|intro; gw|]. intros a w2 [-> ->].
      eapply from_bind; [apply from_get_path| | |]; [gw|intro; gw|]. intros a w2 [-> ->].
      eapply from_bind; [apply from_opt| | |]; [gw|intro; gw|]. intros [wx b] w2 [Hx ->].
      eapply from_bind; [apply from_put_world| | |]; [gw|intro; gw|]. intros _ w2 ->. apply from_ret. split; auto. eapply ds_user; eauto.
Qed.
Lemma g_directives : forall fuel loc l, grows (b_directives X S rawvars decls fuel loc l).
Proof. intros. eapply (grows_barg X rawvars). apply f_directives. Qed.
Lemma directives_bwd : forall q loc fuel l w, from (path_text q) w (b_directives X S rawvars decls fuel loc l) (fun r w' => snd r = false /\ dirs_say X S rawvars decls q loc w l w' (fst r)).
Proof.
  intros q loc fuel. induction l as [|x r IH]; intro w; cbn [b_directives].
  - apply from_ret. split; auto. constructor.
  - eapply from_bind; [apply directive_bwd| | |].
    + eapply (grows_barg X rawvars). apply f_directive.
    + intros [sk cr]. destruct (cr || sk); [gr|apply g_directives].
    + intros [sk cr] w1 [C D]. cbn [fst snd] in C, D. subst cr. cbn [orb]. destruct sk.
      * apply from_ret. split; auto. now apply dss_out.
      * eapply from_weak; [apply IH|]. intros [b c] w2 [C D']. split; auto. eapply dss_next; eauto.
Qed.
End Args.
