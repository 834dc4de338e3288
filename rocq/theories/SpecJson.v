(** * JSON values of variables and the specification (proofs) *)
From Coq Require Import String Arith NArith ZArith Bool List Lia.
From Verif Require Import Base Json JsonModel JsonProof Ast ReqModel Schema ResModel Interp Facts Spec SpecLit.
Import ListNotations.
Open Scope N_scope.
Arguments NumOk {A}. Arguments NumSyntax {A}. Arguments NumRange {A}.

Ltac nofail := match goal with H : fail _ _ _ = ROk _ _, E : r_errs _ = r_errs _ |- _ => destruct (fail_errs _ _ _ _ _ H E) end.
Section LitJson.
Context {W : Type}.
Variable X : externals W.
Variable S : schema.
Variable rawvars : bytes.
Notation st := (rst W).
Notation j_elems := (j_elems X S).
Notation j_members := (j_members X S).
Notation j_body := (j_body X S).
Notation number_part := (number_part X).

Definition special_part (g : rv) (i : input) (s : bytes) : @rm W bres :=
  match i_enum i with
  | Some k => bind (of_opt (nth_error (s_enums S) k)) (fun e => assign_enum g e s)
  | None => if i_isid i then assign_id g s else if i_isfile i then assign_file X g s else assign_time g s
  end.
Lemma special_iff : forall g i n (s : st) v b c s', special_b i = true -> (special_part g i n s = ROk (v, b, c) s' /\ r_errs s' = r_errs s) <->
  (s' = set_world (r_world s') s /\ b = true /\ c = false /\ str_sets X S (r_world s) g i n (r_world s') v).
Proof.
  intros g i n s v b c s' Hs. rewrite <- string_iff. unfold special_part, assign_string, special_b in *. destruct (i_enum i); [reflexivity|].
  destruct (i_isid i); [reflexivity|]. destruct (i_isfile i).
  - unfold assign_file. destruct (x_formfile X) eqn:E; [reflexivity|]. split; [intros [H _]; discriminate|]. intros [H E']. nofail.
  - cbn in Hs. rewrite Hs. reflexivity.
Qed.

Scheme json_sets_mut := Minimality for json_sets Sort Prop
  with json_elems_mut := Minimality for json_elems Sort Prop
  with json_members_mut := Minimality for json_members Sort Prop.
Combined Scheme json_mut from json_sets_mut, json_elems_mut, json_members_mut.
Lemma sw_sw : forall a b (s : st), set_world a (set_world b s) = set_world a s. Proof. intros a b []; reflexivity. Qed.
Lemma sw_world : forall a (s : st), r_world (set_world a s) = a. Proof. intros a []; reflexivity. Qed.
Lemma sw_id : forall w (s : st), r_world s = w -> set_world w s = s. Proof. intros w [] <-; reflexivity. Qed.

Lemma json_fwd :
  (forall w g i j w' v b, json_sets X S w g i j w' v b -> exists n, forall fuel, (n <= fuel)%nat -> forall s : st, r_world s = w ->
     bind_json X S fuel g i j s = ROk (v, b, false) (set_world w' s)) /\
  (forall w e l w' vs, json_elems X S w e l w' vs -> exists n, forall fuel, (n <= fuel)%nat -> forall g i acc (s : st), r_world s = w -> (l <> [] -> i_elem i = Some e) ->
     fst g = false -> j_elems fuel g i l acc s = ROk (GSlice (Some (acc ++ vs)), true, false) (set_world w' s)) /\
  (forall w ro c v0 m w' v, json_members X S w ro c v0 m w' v -> exists n, forall fuel, (n <= fuel)%nat -> forall s : st, r_world s = w ->
     j_members fuel c ro v0 m s = ROk (v, true, false) (set_world w' s)).
Proof.
  apply json_mut.
  - intros w old i e j w' v P E _ (n & IH). exists (Datatypes.S n). intros [|fuel] L s Hw; [lia|]. rewrite json_step, ptr_yes, E by auto. cbn [of_opt].
    unfold bind at 1, ret at 1. unfold bind at 1. rewrite (IH fuel) by (auto; lia). reflexivity.
  - intros w g i e j w' v P E _ (n & IH). exists (Datatypes.S n). intros [|fuel] L s Hw; [lia|]. rewrite json_step, ptr_yes, E by auto. cbn [of_opt].
    unfold bind at 1, ret at 1. unfold bind at 1. rewrite (IH fuel) by (auto; lia). reflexivity.
  - intros w g i s w' v P Sp H. exists 1%nat. intros [|fuel] L t Hw; [lia|]. rewrite json_step, ptr_no by auto. unfold j_body. apply special_ok in Sp. rewrite Sp.
    refine (proj1 (proj2 (special_iff g i s t v true false (set_world w' t) Sp) _)). rewrite sw_world, Hw. auto.
  - intros w g i P Sp. exists 1%nat. intros [|fuel] L t Hw; [lia|]. rewrite json_step, ptr_no by auto. unfold j_body. rewrite special_ok in Sp. destruct (special_b i); [exfalso; auto|].
    rewrite sw_id by auto. reflexivity.
  - intros w g i s w' v P Sp H. exists 1%nat. intros [|fuel] L t Hw; [lia|]. rewrite json_step, ptr_no by auto. unfold j_body. rewrite special_ok in Sp. destruct (special_b i); [exfalso; auto|].
    refine (proj1 (proj2 (string_iff X S g i s t v true false (set_world w' t)) _)). rewrite sw_world, Hw. auto.
  - intros w old i P Sp. exists 1%nat. intros [|fuel] L t Hw; [lia|]. rewrite json_step, ptr_no by auto. unfold j_body. rewrite special_ok in Sp. destruct (special_b i); [exfalso; auto|].
    rewrite sw_id by auto. reflexivity.
  - intros w old i P Sp. exists 1%nat. intros [|fuel] L t Hw; [lia|]. rewrite json_step, ptr_no by auto. unfold j_body. rewrite special_ok in Sp. destruct (special_b i); [exfalso; auto|].
    rewrite sw_id by auto. reflexivity.
  - intros w g i x v P Sp H. exists 1%nat. intros [|fuel] L t Hw; [lia|]. rewrite json_step, ptr_no by auto. unfold j_body. rewrite special_ok in Sp. destruct (special_b i); [exfalso; auto|].
    rewrite sw_id by auto. refine (proj1 (proj2 (num_iff X g x t v true false t) _)). auto.
  - intros w old i l e w' vs P Sp E _ (n & IH). exists (Datatypes.S n). intros [|fuel] L t Hw; [lia|]. rewrite json_step, ptr_no by auto. unfold j_body. rewrite special_ok in Sp. destruct (special_b i); [exfalso; auto|].
    cbn [snd kind_of]. rewrite (IH fuel) by (auto; lia). reflexivity.
  - intros w ro v0 i m c w' v P Sp K C _ (n & IH). exists (Datatypes.S n). intros [|fuel] L t Hw; [lia|]. rewrite json_step, ptr_no by auto. unfold j_body. rewrite special_ok in Sp. destruct (special_b i); [exfalso; auto|].
    cbn [snd fst]. rewrite K. unfold bind. rewrite (proj2 (content_iff S i t c t)) by auto. apply IH; auto. lia.
  - intros w e. exists O. intros fuel _ [ro x] i acc s Hw _ G. cbn [fst] in G. subst ro. cbn. rewrite sw_id by auto. now rewrite app_nil_r.
  - intros w e j l w1 v b w2 vs _ (n1 & H1) _ (n2 & H2). exists (Nat.max n1 n2). intros fuel L g i acc s Hw E G. cbn [j_elems]. rewrite E by discriminate. cbn [of_opt].
    unfold bind at 1, ret at 1. unfold bind at 1. rewrite (H1 fuel) by (auto; lia). rewrite (H2 fuel) by (auto; try lia; try apply sw_world; intros; apply E; discriminate). rewrite sw_sw. rewrite <- app_assoc. reflexivity.
  - intros w ro c v. exists O. intros fuel _ s Hw. cbn. rewrite sw_id by auto. reflexivity.
  - intros w ro c fs k j m i e old w1 x b w2 v Lc Ln _ (n1 & H1) _ (n2 & H2). exists (Nat.max n1 n2). intros fuel L s Hw. cbn [j_members]. rewrite Lc.
    unfold field_of. cbn [snd fst]. rewrite Ln. unfold bind at 1, ret at 1. unfold bind at 1. rewrite (H1 fuel) by (auto; lia). cbv zeta.
    rewrite (with_field_upd fs (i_field i) e old) by auto. rewrite (H2 fuel) by (auto; try lia; apply sw_world). rewrite sw_sw. reflexivity.
Qed.

(** the other direction *)
Lemma errs_split : forall A B (f : @rm W A) (g : A -> @rm W B) R (s : st) b s', bind f g s = ROk b s' -> r_errs s' = r_errs s ->
  spec X rawvars f R -> (forall a, exists Q, spec X rawvars (g a) Q) -> exists a s1, f s = ROk a s1 /\ r_errs s1 = r_errs s /\ g a s1 = ROk b s' /\ r_errs s' = r_errs s1.
Proof.
  intros A B f g R s b s' H E F G. unfold bind in H. specialize (F s). destruct (f s) as [a s1| |] eqn:Ef; try discriminate. destruct (G a) as (Q & Ga). specialize (Ga s1). rewrite H in Ga.
  destruct F as (e1 & (_ & E1 & _) & _). destruct Ga as (e2 & (_ & E2 & _) & _). rewrite E2, E1 in E. rewrite <- app_assoc in E.
  assert (e1 ++ e2 = []) as Z by (apply (app_inv_head (r_errs s)); rewrite E; now rewrite app_nil_r). apply app_eq_nil in Z. destruct Z as [-> ->].
  exists a, s1. split; auto. split; [rewrite E1; now rewrite app_nil_r|]. split; auto. rewrite E2. now rewrite app_nil_r.
Qed.
Lemma q_j_elems : forall fuel g i l acc, spec X rawvars (j_elems fuel g i l acc) any.
Proof.
  intros fuel g i l. induction l as [|j l IH]; intro acc; cbn [j_elems].
  - apply bind_any; [apply q_set_any|]. intro. apply q_ret.
  - apply bind_any; [apply q_of_opt|]. intro e. apply bind_any; [eapply to_any; apply q_bind_json|]. intros [[v b] []]; [apply q_ret|apply IH].
Qed.
Lemma q_j_members : forall fuel c ro m v, spec X rawvars (j_members fuel c ro v m) any.
Proof.
  intros fuel c ro m. induction m as [|[k j] m IH]; intro v; cbn [j_members]; [apply q_ret|]. destruct (slookup c k).
  - apply bind_any; [apply q_field_of|]. intro f. apply bind_any; [eapply to_any; apply q_bind_json|]. intros [[x b] []]; [apply q_ret|apply IH].
  - apply bind_any; [eapply to_any; apply q_err|]. intro. apply q_ret.
Qed.
Lemma err_no : forall A m (k : bool -> @rm W A) (s : st) a s', bind (err m) k s = ROk a s' -> (forall b, exists Q, spec X rawvars (k b) Q) -> r_errs s' = r_errs s -> False.
Proof.
  intros A m k s a s' H Q E. destruct (errs_split _ _ _ _ _ _ _ _ H E (q_err X rawvars m) Q) as (x & s1 & H1 & E1 & _).
  unfold err in H1. injection H1. intros <- _. cbn in E1. apply (f_equal (@length _)) in E1. rewrite app_length in E1. cbn in E1. lia.
Qed.
Lemma json_bwd : forall fuel g i j (s : st) v b c s', bind_json X S fuel g i j s = ROk (v, b, c) s' -> r_errs s' = r_errs s ->
  s' = set_world (r_world s') s /\ c = false /\ json_sets X S (r_world s) g i j (r_world s') v b.
Proof.
  induction fuel as [|fuel IH]; intros g i j s v b c s' H E; [discriminate|]. rewrite json_step in H.
  destruct (is_ptr i) eqn:P.
  - rewrite ptr_yes in H by auto. destruct (i_elem i) as [e|] eqn:Ee; [|discriminate]. cbn [of_opt] in H.
    change (bind (bind_json X S fuel (false, i_zero e) e j) (fun '(v, set_, crit) =>
      if crit : bool then ret (snd g, false, true) else if set_ : bool then (bind (set_any g (GPtr (Some v))) (fun v' => ret (v', true, false))) else ret (snd g, false, false)) s = ROk (v, b, c) s') in H.
    destruct (errs_split _ _ _ _ _ _ _ _ H E (q_bind_json X S rawvars fuel _ _ _) ltac:(intros [[? bx] cx]; exists any; destruct cx; [apply q_ret|destruct bx; [apply bind_any; [apply q_set_any|intro; apply q_ret]|apply q_ret]])) as ([[x bx] cx] & s1 & H1 & E1 & H2 & E2).
    destruct (IH _ _ _ _ _ _ _ _ H1 E1) as (A & -> & J). destruct bx.
    + destruct g as [[] old]; cbn in H2; [discriminate|]. injection H2; intros; subst. split; auto. split; auto. eapply js_ptr; eauto.
    + cbn in H2. injection H2; intros; subst. split; auto. split; auto. eapply js_ptr_unset; eauto.
  - rewrite ptr_no in H by auto. unfold j_body in H. destruct (special_b i) eqn:Sp.
    + destruct j; try nofail. change (special_part g i s0 s = ROk (v, b, c) s') in H.
      destruct (proj1 (special_iff _ _ _ _ _ _ _ _ Sp) (conj H E)) as (A & -> & -> & R). split; auto. split; auto. apply js_special; auto. now apply special_ok.
    + assert (Ns : ~ special i) by (rewrite special_ok; congruence). destruct j as [ | | |t|t|l|m].
      * cbn in H. injection H; intros; subst. rewrite set_world_same. split; auto. split; auto. now apply js_null.
      * destruct g as [ro v0]. cbn [snd] in H. destruct v0; cbn [kind_of] in H; try nofail. destruct ro; cbn in H; [discriminate|]. injection H; intros; subst.
        rewrite set_world_same. split; auto. split; auto. now apply js_true.
      * destruct g as [ro v0]. cbn [snd] in H. destruct v0; cbn [kind_of] in H; try nofail. destruct ro; cbn in H; [discriminate|]. injection H; intros; subst.
        rewrite set_world_same. split; auto. split; auto. now apply js_false.
      * destruct (proj1 (num_iff _ _ _ _ _ _ _ _) (conj H E)) as (-> & -> & -> & R). rewrite set_world_same. split; auto. split; auto. now apply js_num.
      * destruct (proj1 (string_iff _ _ _ _ _ _ _ _ _ _) (conj H E)) as (A & -> & -> & R). split; auto. split; auto. now apply js_string.
      * destruct (kind_of (snd g)) eqn:K; try nofail. destruct g as [ro v0]. destruct v0; try discriminate K. rename l0 into old.
        assert (J : exists e, (l <> [] -> i_elem i = Some e)) by (destruct (i_elem i) as [e|] eqn:Ee; [exists e; auto|exists i; intro; destruct l; [contradiction|]; cbn in H; rewrite Ee in H; discriminate]).
        destruct J as (e & He).
        assert (J : forall l acc s, (l <> [] -> i_elem i = Some e) -> j_elems fuel (ro, GSlice old) i l acc s = ROk (v, b, c) s' -> r_errs s' = r_errs s ->
          s' = set_world (r_world s') s /\ b = true /\ c = false /\ ro = false /\ exists vs, v = GSlice (Some (acc ++ vs)) /\ json_elems X S (r_world s) e l (r_world s') vs).
        { clear l s H E K He. induction l as [|j l IHl]; intros acc s He H E; cbn [j_elems] in H.
          - destruct ro; cbn in H; [discriminate|]. injection H; intros; subst. rewrite set_world_same. repeat (split; auto). exists []. rewrite app_nil_r. split; auto. constructor.
          - rewrite He in H by discriminate. cbn [of_opt] in H.
            change (bind (bind_json X S fuel (false, i_zero e) e j) (fun '(ev, _, crit) => if crit : bool then ret (snd (ro, GSlice old), false, true) else j_elems fuel (ro, GSlice old) i l (acc ++ [ev])) s = ROk (v, b, c) s') in H.
            destruct (errs_split _ _ _ _ _ _ _ _ H E (q_bind_json X S rawvars fuel _ _ _) ltac:(intros [[? ?] []]; exists any; [apply q_ret|apply q_j_elems])) as ([[x bx] cx] & s1 & H1 & E1 & H2 & E2).
            destruct (IH _ _ _ _ _ _ _ _ H1 E1) as (A & -> & J).
            destruct (IHl _ _ ltac:(intros; apply He; discriminate) H2 E2) as (A2 & -> & -> & -> & vs & -> & R). split; [rewrite A2, A, sw_sw; reflexivity|]. repeat (split; auto).
            exists (x :: vs). split; [rewrite <- app_assoc; reflexivity|]. eapply je_cons; eauto. }
        destruct (J _ _ _ He H E) as (A & -> & -> & -> & vs & -> & R). split; auto. split; auto. eapply js_arr; eauto.
      * destruct (kind_of (snd g)) eqn:K; try nofail. destruct (content_of S i s) as [ct s1| |] eqn:Ec; unfold bind in H; rewrite Ec in H; try discriminate.
        apply content_iff in Ec. destruct Ec as [-> Ec]. destruct g as [ro v0]. cbn [fst snd] in *.
        enough (J : forall m v0 s, j_members fuel ct ro v0 m s = ROk (v, b, c) s' -> r_errs s' = r_errs s -> s' = set_world (r_world s') s /\ b = true /\ c = false /\ json_members X S (r_world s) ro ct v0 m (r_world s') v).
        { destruct (J _ _ _ H E) as (A & -> & -> & R). split; auto. split; auto. eapply js_obj; eauto. }
        clear m v0 s H E K Ec. induction m as [|[k j] m IHm]; intros v0 s H E; cbn [j_members] in H.
        { cbn in H. injection H; intros; subst. rewrite set_world_same. repeat (split; auto). constructor. }
        destruct (slookup ct k) as [fi|] eqn:Lk; [|exfalso; refine (err_no _ _ _ _ _ _ H _ E); intro; exists any; apply q_ret].
        unfold field_of in H. cbn [snd fst] in H. destruct v0; try discriminate. destruct (nth_error fs (i_field fi)) as [[ex old]|] eqn:Ln; try discriminate.
        change (bind (bind_json X S fuel (ro || negb ex, old) fi j) (fun '(fv, _, crit) => if crit : bool then ret (put_field (GStruct fs) (i_field fi) fv, true, true) else j_members fuel ct ro (put_field (GStruct fs) (i_field fi) fv) m) s = ROk (v, b, c) s') in H.
        destruct (errs_split _ _ _ _ _ _ _ _ H E (q_bind_json X S rawvars fuel _ _ _) ltac:(intros [[? ?] []]; exists any; [apply q_ret|apply q_j_members])) as ([[x bx] cx] & s1 & H1 & E1 & H2 & E2).
        destruct (IH _ _ _ _ _ _ _ _ H1 E1) as (A & -> & J). rewrite (with_field_upd fs (i_field fi) ex old) in H2 by auto.
        destruct (IHm _ _ H2 E2) as (A2 & -> & -> & R). split; [rewrite A2, A, sw_sw; reflexivity|]. repeat (split; auto). eapply jm_cons; eauto.
Qed.

End LitJson.
