(** * Tracing: proofs about the model of TraceModel.v *)
From Coq Require Import String Arith NArith ZArith Bool List Lia.
From Verif Require Import RegModel IntroModel.
From Verif Require Import Base JsonModel Ast ReqModel Schema ResModel EnvModel Interp Facts Valid TraceModel TraceSpec.
Import ListNotations.
Open Scope N_scope.

Section Erase.
Context {W : Type}.
Variable X : externals W.
Variable S : schema.
Variable rawvars : bytes.
Variable opargs : option (list oparg).
Variable fdefs : list (bytes * bytes * list sel).
Variable now : nat -> Z.
Hypothesis named : types_named S.
Notation bm := (@bm W).
Notation tm := (@tm W).
Notation bval := (b_value X S rawvars opargs fdefs).

(** without the tracer [m] is [b] *)
Definition erases {A} (m : tm A) (b : bm A) : Prop := forall t s,
  match m t s with
  | BOk r s' => b s = BOk (fst r) s'
  | BPanic => b s = BPanic
  | BNoFuel => b s = BNoFuel
  | BOut => b s = BOut
  end.
Lemma e_ret : forall A (a : A), erases (tret a) (bret a). Proof. intros A a t s. reflexivity. Qed.
Lemma e_panic : forall A, erases (@tpanic W A) bpanic. Proof. intros A t s. reflexivity. Qed.
Lemma e_nofuel : forall A, erases (@tnofuel W A) bnofuel. Proof. intros A t s. reflexivity. Qed.
Lemma e_nope : forall A, erases (@tnope W A) bnope. Proof. intros A t s. reflexivity. Qed.
Lemma e_lift : forall A (b : bm A), erases (tlift b) b. Proof. intros A b t s. unfold tlift, bbind. destruct (b s); reflexivity. Qed.
Lemma e_bind : forall A B (m : tm A) b (f : A -> tm B) g, erases m b -> (forall a, erases (f a) (g a)) -> erases (tbind m f) (bbind b g).
Proof.
  intros A B m b f g Hm Hf t s. unfold tbind, bbind. specialize (Hm t s). destruct (m t s) as [[a t'] s'| | |]; rewrite Hm; auto.
  cbn [fst snd]. specialize (Hf a t' s'). destruct (f a t' s'); auto.
Qed.
Lemma e_start : forall A (m : tm A) b, erases m b -> erases (tbind (start_trace now) (fun _ => m)) b.
Proof. intros A m b H t s. unfold tbind, start_trace, bbind, bret. cbn [fst snd]. apply H. Qed.
Lemma e_record : forall A (m : tm A) b o n fo, return_type S fo <> None -> erases m b ->
  erases (tbind m (fun r => tbind (record_field S now o n fo) (fun _ => tret r))) b.
Proof.
  intros A m b o n fo N H t s. unfold tbind at 1, bbind at 1. specialize (H t s). destruct (m t s) as [[a t'] s'| | |]; auto. rewrite H. cbn [fst snd].
  unfold record_field, tbind, finish_trace, tlift, lift, bbind, bret, of_opt. destruct (return_type S fo) as [r|]; [|congruence]. cbn. reflexivity.
Qed.
Ltac er IHs IHi IHp IHf IHv :=
  repeat match goal with
  | |- erases (tret _) _ => apply e_ret
  | |- erases tpanic _ => apply e_panic
  | |- erases tnofuel _ => apply e_nofuel
  | |- erases tnope _ => apply e_nope
  | |- erases (tlift _) _ => apply e_lift
  | |- erases (t_sels _ _ _ _ _ _ _ _ _ _ _ _) _ => apply IHs
  | |- erases (t_value _ _ _ _ _ _ _ _ _ _ _ _) _ => apply IHv
  | |- erases (tbind (start_trace _) _) _ => apply e_start
  | |- erases (tbind _ (fun r => tbind (record_field _ _ _ _ _) _)) _ => apply e_record
  | |- erases (tbind _ _) (bbind _ _) => apply e_bind; [|intros ?]
  | |- erases (let _ := _ in _) _ => cbv zeta
  | |- erases (match ?x with _ => _ end) _ => destruct x eqn:?
  end.
Lemma erase_run : forall fuel,
  (forall o dept g k ss, reach S o -> erases (t_sels X S rawvars opargs fdefs now fuel o dept g k ss) (b_sels X S rawvars opargs fdefs fuel o dept g k ss)) /\
  (forall o dept g k tn ds ss, reach S o -> erases (t_inline X S rawvars opargs fdefs now fuel o dept g k tn ds ss) (b_inline X S rawvars opargs fdefs fuel o dept g k tn ds ss)) /\
  (forall o dept g k n ds, reach S o -> erases (t_spread X S rawvars opargs fdefs now fuel o dept g k n ds) (b_spread X S rawvars opargs fdefs fuel o dept g k n ds)) /\
  (forall o dept g k al n ds args subs, reach S o ->
     erases (t_field X S rawvars opargs fdefs now fuel o dept g k al n ds args subs) (b_field X S rawvars opargs fdefs fuel o dept g k al n ds args subs)) /\
  (forall o dept g k cur, reach S o -> erases (t_value X S rawvars opargs fdefs now fuel o dept g k cur) (b_value X S rawvars opargs fdefs fuel o dept g k cur)).
Proof.
  induction fuel as [|fuel (IHs & IHi & IHp & IHf & IHv)]; [repeat split; intros; apply e_nofuel|].
  split; [|split; [|split; [|split]]].
  - intros o dept g k ss R. cbn [t_sels b_sels]. destruct ss as [|x r]; [apply e_ret|]. apply e_bind.
    + destruct x; auto.
    + intros [ms c]. er IHs IHi IHp IHf IHv. all: auto.
  - intros o dept g k tn ds ss R. cbn [t_inline b_inline]. er IHs IHi IHp IHf IHv. all: auto.
  - intros o dept g k n ds R. cbn [t_spread b_spread]. er IHs IHi IHp IHf IHv. all: auto.
  - intros o dept g k al n ds args subs R. cbn [t_field b_field]. fold (t_value X S rawvars opargs fdefs now). er IHs IHi IHp IHf IHv. all: try (eapply named; eauto; fail). all: eapply reach_field; eauto.
  - intros o dept g k cur R. cbn [t_value b_value]. fold (t_sels X S rawvars opargs fdefs now). destruct (_ && _); [er IHs IHi IHp IHf IHv|].
    destruct o as [|e|n|n fs|isid kd|e|[ist ins infs outnr errnr out]|i| |n|n fs is].
    + er IHs IHi IHp IHf IHv.
    + assert (L : forall l, erases
          (if k =? 255 then tnope else tbind ((fix elems (n : N) (l : list gval) : tm (list rt) :=
                           match l with
                           | [] => tret []
                           | v :: r =>
                               tbind (tlift (lift get_path)) (fun path =>
                               tbind (tlift (lift (put_path (path ++ [44] ++ dec_of_N n)))) (fun _ =>
                               tbind (t_value X S rawvars opargs fdefs now fuel e dept (fst g, v) (k + 1) cur) (fun '(t, _) =>
                               tbind (tlift (lift (put_path path))) (fun _ =>
                               tbind (elems (n + 1) r) (fun ts => tret (t :: ts))))))
                           end) 0 l) (fun ts => tret (TArr ts, false)))
          (if k =? 255 then bnope else bbind ((fix elems (n : N) (l : list gval) : bm (list rt) :=
                           match l with
                           | [] => bret []
                           | v :: r =>
                               bbind (lift get_path) (fun path =>
                               bbind (lift (put_path (path ++ [44] ++ dec_of_N n))) (fun _ =>
                               bbind (bval fuel e dept (fst g, v) (k + 1) cur) (fun '(t, _) =>
                               bbind (lift (put_path path)) (fun _ =>
                               bbind (elems (n + 1) r) (fun ts => bret (t :: ts))))))
                           end) 0 l) (fun ts => bret (TArr ts, false)))).
      { intro l. destruct (k =? 255); [apply e_nope|]. apply e_bind; [|intro; apply e_ret]. generalize 0. induction l as [|v r IH]; intro n; [apply e_ret|].
        apply e_bind; [apply e_lift|]. intro p. apply e_bind; [apply e_lift|]. intros _. apply e_bind; [apply IHv; now apply reach_elem|]. intros [t c].
        apply e_bind; [apply e_lift|]. intros _. apply e_bind; [apply IH|]. intro. apply e_ret. }
      destruct (snd g) as [| | | | |[l|]|l| | | | | | | | | |]; try apply e_panic; [apply L|apply e_ret|apply L].
    + destruct (negb _); [er IHs IHi IHp IHf IHv|]. destruct (slookup (s_types S) n) as [t|] eqn:E; [|apply e_ret]. er IHs IHi IHp IHf IHv. eapply reach_type; eauto.
    + destruct (negb _); [er IHs IHi IHp IHf IHv|]. er IHs IHi IHp IHf IHv. auto.
    + er IHs IHi IHp IHf IHv.
    + destruct (snd g); try apply e_panic. destruct p; [|apply e_ret]. apply IHv. now apply reach_ptr.
    + assert (Ro : reach S out) by (eapply reach_out; eauto).
      destruct ist, (snd g); er IHs IHi IHp IHf IHv; auto.
    + er IHs IHi IHp IHf IHv.
    + er IHs IHi IHp IHf IHv.
    + destruct (negb _); [er IHs IHi IHp IHf IHv|]. destruct (slookup (s_ifaces S) n) as [t|] eqn:E; [|apply e_ret]. er IHs IHi IHp IHf IHv.
      match goal with H : find _ _ = Some _ |- _ => apply find_some in H; destruct H as [I _] end. subst. destruct t; try contradiction. apply reach_iface in E. apply (reach_impl _ _ _ _ _ E I).
    + destruct (negb _); [er IHs IHi IHp IHf IHv|]. er IHs IHi IHp IHf IHv.
      match goal with H : find _ _ = Some _ |- _ => apply find_some in H; destruct H as [I _] end. subst. apply (reach_impl _ _ _ _ _ R I).
Qed.
End Erase.

Section Content.
Context {W : Type}.
Variable X : externals W.
Variable S : schema.
Variable rawvars : bytes.
Variable opargs : option (list oparg).
Variable fdefs : list (bytes * bytes * list sel).
Variable now : nat -> Z.
Variable asked : bytes -> bytes -> Prop.
(** the fields of selections are asked for *)
Definition from (ss : list sel) : Prop := forall al n ds args subs, within (SField al n ds args subs) ss -> asked (key_of al n) n.
Hypothesis frags_from : forall n t ss, In (n, t, ss) fdefs -> from ss.
Notation bm := (@bm W).
Notation tm := (@tm W).
Definition err_at (es : list rerr) (p : list pitem) : Prop := exists e, In e es /\ re_path e = strip (path_text p).
Definition grows (s s' : rst W) : Prop := r_path s' = r_path s /\ exists es, r_errs s' = r_errs s ++ es.
Lemma grows_refl : forall s, grows s s. Proof. intro s. split; auto. exists []. now rewrite app_nil_r. Qed.
Lemma grows_trans : forall a b c, grows a b -> grows b c -> grows a c.
Proof. intros a b c (P & e1 & E1) (Q & e2 & E2). split; [congruence|]. exists (e1 ++ e2). rewrite E2, E1. now rewrite app_assoc. Qed.
Lemma rec_mono : forall E E' : list pitem -> Prop, (forall p, E p -> E' p) ->
  (forall p o v es, rec_value S asked E p o v es -> rec_value S asked E' p o v es) /\
  (forall p n o l es, rec_elems S asked E p n o l es -> rec_elems S asked E' p n o l es) /\
  (forall p t m es, rec_members S asked E p t m es -> rec_members S asked E' p t m es).
Proof.
  intros E E' H. apply recorded_ind; intros; try (econstructor; eauto; fail).
  eapply rm_unknown; eauto. match goal with D : _ \/ _ |- _ => destruct D; auto end.
Qed.
Lemma err_at_mono : forall es es' p, err_at es p -> err_at (es ++ es') p.
Proof. intros es es' p (e & I & Q). exists e. split; auto. apply in_or_app. auto. Qed.

Definition run_ok {A} (m : tm A) (R : list pitem -> list rerr -> A -> list tentry -> Prop) : Prop := forall p t s, r_path s = path_text p ->
  match m t s with
  | BOk r s' => grows s s' /\ exists new, ts_log (snd r) = ts_log t ++ new /\ R p (r_errs s') (fst r) new
  | _ => True
  end.
Definition val_ok (o : obj) (p : list pitem) (es : list rerr) (r : rt * bool) (new : list tentry) : Prop := rec_value S asked (err_at es) p o (fst r) new.
Definition mem_ok (o : obj) (p : list pitem) (es : list rerr) (r : list (bytes * rt) * bool) (new : list tentry) : Prop :=
  rec_members S asked (err_at es) p o (fst r) new.
Definition quiet {A} (b : bm A) : Prop := forall s, match b s with BOk a s' => grows s s' | _ => True end.
Lemma k_ret : forall A (a : A) (R : list pitem -> list rerr -> A -> list tentry -> Prop), (forall p es, R p es a []) -> run_ok (tret a) R.
Proof. intros A a R H p t s P. cbn. split; [apply grows_refl|]. exists []. rewrite app_nil_r. auto. Qed.
Lemma k_panic : forall A R, run_ok (@tpanic W A) R. Proof. intros A R p t s P. exact I. Qed.
Lemma k_nofuel : forall A R, run_ok (@tnofuel W A) R. Proof. intros A R p t s P. exact I. Qed.
Lemma k_nope : forall A R, run_ok (@tnope W A) R. Proof. intros A R p t s P. exact I. Qed.
Lemma k_weak : forall A (m : tm A) (R R' : list pitem -> list rerr -> A -> list tentry -> Prop), (forall p es a new, R p es a new -> R' p es a new) -> run_ok m R -> run_ok m R'.
Proof.
  intros A m R R' H M p t s P. specialize (M p t s P). destruct (m t s) as [[a t'] s'| | |]; auto. destruct M as (G & new & L & Q).
  split; auto. exists new. auto.
Qed.
(** a step of the resolver without entries *)
Lemma k_quiet : forall A B (b : bm A) (f : A -> tm B) R, quiet b -> (forall a, run_ok (f a) R) -> run_ok (tbind (tlift b) f) R.
Proof.
  intros A B b f R Q F p t s P. unfold tbind, tlift, bbind, bret. specialize (Q s). destruct (b s) as [a s1| | |]; auto. cbn [fst snd].
  specialize (F a p t s1). destruct Q as (Pq & es & Eq). rewrite Pq in F. specialize (F P). destruct (f a t s1) as [r s2| | |]; auto. destruct F as (G & F).
  split; auto. eapply grows_trans; [|exact G]. split; auto. exists es. auto.
Qed.
Lemma k_silent : forall A B (m : tm A) (f : A -> tm B) R, (forall t s, match m t s with BOk r s' => grows s s' /\ snd r = t | _ => True end) ->
  (forall a, run_ok (f a) R) -> run_ok (tbind m f) R.
Proof.
  intros A B m f R Q F p t s P. unfold tbind, bbind. specialize (Q t s). destruct (m t s) as [[a t1] s1| | |]; auto. cbn [fst snd] in *.
  destruct Q as ((Pq & es & Eq) & ->). specialize (F a p t s1). rewrite Pq in F. specialize (F P). destruct (f a t s1) as [r s2| | |]; auto. destruct F as (G & F).
  split; auto. eapply grows_trans; [|exact G]. split; auto. exists es. auto.
Qed.
(** the last step does not touch the tracer *)
Lemma k_map : forall A B (m : tm A) (f : A -> B) (R : list pitem -> list rerr -> B -> list tentry -> Prop),
  run_ok m (fun p es a new => R p es (f a) new) -> run_ok (tbind m (fun a => tret (f a))) R.
Proof.
  intros A B m f R H p t s P. unfold tbind, bbind. specialize (H p t s P). destruct (m t s) as [[a t'] s'| | |]; auto.
Qed.
Lemma q_lift_err : forall m, quiet (lift (err m)). Proof. intros m s. cbn. split; [reflexivity|]. eexists. reflexivity. Qed.
Lemma q_opt : forall A (o : option A), quiet (lift (of_opt o)). Proof. intros A [a|] s; cbn; auto. apply grows_refl. Qed.
Lemma q_path : quiet (lift get_path). Proof. intro s. cbn. apply grows_refl. Qed.
Lemma q_world : quiet (lift get_world). Proof. intro s. cbn. apply grows_refl. Qed.
Lemma q_put_world : forall w, quiet (lift (put_world w)). Proof. intros w s. cbn. split; [reflexivity|]. exists []. now rewrite app_nil_r. Qed.
Lemma q_barg : forall A (b : bm A) R, barg X rawvars b R -> quiet b.
Proof. intros A b R H s. specialize (H s). destruct (b s); auto. destruct H as (es & (P & E & _) & _). split; auto. exists es. auto. Qed.
Lemma q_field : forall g i, quiet (lift (field_of g i)).
Proof. intros g i s. unfold lift, field_of. destruct (snd g); cbn; auto. destruct (nth_error _ _) as [[? ?]|]; cbn; auto; apply grows_refl. Qed.
Lemma q_value_tree : forall v k, quiet (value_tree v k).
Proof. intros v k s. unfold value_tree. destruct k; try (destruct v; cbn; auto); apply grows_refl. Qed.
Lemma q_same : forall k v e, quiet (lift (same_enum_value k v e)).
Proof. intros k v e s. unfold same_enum_value. destruct k, v, e; cbn; auto; apply grows_refl. Qed.
Lemma q_bind : forall A B (b : bm A) (f : A -> bm B), quiet b -> (forall a, quiet (f a)) -> quiet (bbind b f).
Proof.
  intros A B b f Hb Hf s. unfold bbind. specialize (Hb s). destruct (b s) as [a s1| | |]; auto. specialize (Hf a s1). destruct (f a s1); auto.
  eapply grows_trans; eauto.
Qed.
Lemma q_ret : forall A (a : A), quiet (bret a). Proof. intros A a s. apply grows_refl. Qed.
Lemma q_enum_tree : forall k v es, quiet (enum_tree k v es).
Proof. intros k v. induction es as [|[n e] r IH]; cbn [enum_tree]; [apply q_ret|]. apply q_bind; [apply q_same|]. intros [|]; [apply q_ret|apply IH]. Qed.
Lemma k_err_value : forall o m t, leaf t \/ t = TObj [] /\ (exists o', shape S o o') ->
  run_ok (tbind (tlift (lift (err m))) (fun b => tret (t, b))) (val_ok o).
Proof.
  intros o m t H. apply k_quiet; [apply q_lift_err|]. intro b. apply k_ret. intros p es. red. cbn [fst].
  destruct H as [H|[-> [o' H]]]; [now apply rv_leaf|]. eapply rv_obj; [exact H|constructor].
Qed.
Lemma value_tree_leaf : forall v k (s : rst W) t s', value_tree v k s = BOk t s' -> leaf t.
Proof. intros v k s t s' H. unfold value_tree in H. destruct k; try (destruct v); try discriminate H; inversion H; exact I. Qed.
Lemma enum_tree_leaf : forall k v es (s : rst W) t s', enum_tree k v es s = BOk t s' -> leaf t.
Proof.
  intros k v. induction es as [|[n e] r IH]; intros s t s' H; cbn [enum_tree] in H; [inversion H; exact I|].
  unfold bbind in H. destruct (lift _ s) as [[|] s1| | |]; try discriminate; [inversion H; exact I|]. eapply IH; eauto.
Qed.
(** entries of the sub-selections and of the elements *)
Lemma k_at : forall A (m : tm A) R p i t s, run_ok m R -> r_path s = path_text p ->
  match m t (set_path (path_text (p ++ [i])) s) with
  | BOk r s' => r_path s' = path_text (p ++ [i]) /\ (exists es, r_errs s' = r_errs s ++ es) /\
      exists new, ts_log (snd r) = ts_log t ++ new /\ R (p ++ [i]) (r_errs s') (fst r) new
  | _ => True
  end.
Proof.
  intros A m R p i t s M P. specialize (M (p ++ [i]) t (set_path (path_text (p ++ [i])) s) eq_refl). destruct (m t _) as [r s'| | |]; auto.
  destruct M as ((Q & es & E) & N). split; [exact Q|]. split; [exists es; exact E|exact N].
Qed.
Lemma key_path : forall p k, path_text (p ++ [PKey k]) = path_text p ++ [44; 34] ++ k ++ [34].
Proof. intros. rewrite path_text_app. f_equal. unfold path_text. cbn. now rewrite app_nil_r. Qed.
Lemma idx_path : forall p n, path_text (p ++ [PIdx n]) = path_text p ++ [44] ++ dec_of_N n.
Proof. intros. rewrite path_text_app. f_equal. unfold path_text. cbn [flat_map item_text]. now rewrite app_nil_r. Qed.

Lemma content_field : forall fuel, (forall o dept g k cur, (forall subs, cur = CSels subs -> from subs) -> (forall fs subs, cur = CArgs fs subs -> from subs) ->
    run_ok (t_value X S rawvars opargs fdefs now fuel o dept g k cur) (val_ok o)) ->
  forall o dept g k al n ds args subs, from [SField al n ds args subs] ->
    run_ok (t_field X S rawvars opargs fdefs now (Datatypes.S fuel) o dept g k al n ds args subs) (mem_ok o).
Proof.
  intros fuel IHv o dept g k al n ds args subs Fr p t s P.
  assert (Fs : from subs) by (intros a m ds' args' subs' H; apply (Fr a m ds' args' subs'); eapply within_field; [left; reflexivity|exact H]).
  assert (Fa : asked (key_of al n) n) by (apply (Fr al n ds args subs); apply within_here; left; reflexivity).
  cbn [t_field]. fold (t_value X S rawvars opargs fdefs now). fold (key_of al n).
  unfold tbind at 1, start_trace at 1, bbind at 1, bret at 1. cbn [fst snd].
  unfold tbind at 1, tlift at 1, bbind at 1 2, lift at 1, get_path at 1, bret at 1. cbn [fst snd].
  unfold tbind at 1, tlift at 1, bbind at 1 2, lift at 1, put_path at 1, bret at 1. cbn [fst snd].
  rewrite P, <- key_path. set (t1 := TS _ _ _). change (ts_log t) with (ts_log t1).
  unfold tbind at 1, tlift at 1, bbind at 1 2.
  pose proof (q_barg _ _ _ (f_directives X S rawvars opargs fuel 0 ds) (set_path (path_text (p ++ [PKey (key_of al n)])) s)) as D.
  destruct (b_directives X S rawvars opargs fuel 0 ds _) as [[sk cr] s1| | |]; auto. unfold bret at 1. cbn [fst snd].
  destruct D as (P1 & e1 & E1). cbn [set_path r_path r_errs] in P1, E1.
  destruct (cr || sk).
  - cbn. split; [split; [symmetry; exact P|exists e1; exact E1]|]. exists []. rewrite app_nil_r. split; [reflexivity|]. constructor.
  - set (key := key_of al n) in *.
    match goal with |- match tbind ?m ?f t1 s1 with _ => _ end => set (M := m);
      assert (V : match M t1 s1 with
        | BOk r s' => grows s1 s' /\ exists new, ts_log (snd r) = ts_log t1 ++ new /\
            forall ms es, (forall q, err_at (r_errs s') q -> err_at es q) ->
              forall new2, rec_members S asked (err_at es) p o ms new2 -> rec_members S asked (err_at es) p o ((key, fst (fst r)) :: ms) (new ++ new2)
        | _ => True end) end.
    { subst M. destruct (nlookup (o_fields o) (fnv1 n)) as [[fo custom idx fn hd]|] eqn:El.
      - pose proof (IHv fo dept) as IH. unfold tbind at 1, bbind at 1.
        match goal with |- match match ?x with _ => _ end with _ => _ end => assert (G : match x with BOk r s' => grows s1 s' /\ snd r = t1 | _ => True end) end.
        { destruct custom; [cbn; split; auto; apply grows_refl|].
          assert (Q : match tlift (lift (field_of g idx)) t1 s1 with BOk r s' => grows s1 s' /\ snd r = t1 | _ => True end).
          { unfold tlift, bbind, bret. pose proof (q_field g idx s1) as Q. destruct (lift (field_of g idx) s1); auto. }
          destruct fo as [| | | | | |[[]]| | | |]; try exact Q; cbn; split; auto; apply grows_refl. }
        match goal with |- match match ?x with _ => _ end with _ => _ end => destruct x as [[v t2] s2| | |]; auto end.
        cbn [fst snd] in *. destruct G as [(P2 & e2 & E2) ->]. destruct (k =? 255); [exact I|].
        assert (C1 : forall subs0, cur_of args subs = CSels subs0 -> from subs0) by (intros subs0 H; destruct args; inversion H; subst; exact Fs).
        assert (C2 : forall fs subs0, cur_of args subs = CArgs fs subs0 -> from subs0) by (intros fs subs0 H; destruct args; inversion H; subst; exact Fs).
        specialize (IH v (k + 1) (cur_of args subs) C1 C2 (p ++ [PKey key]) t1 s2). rewrite P2, P1 in IH. specialize (IH eq_refl).
        unfold tbind at 1, bbind at 1. destruct (t_value _ _ _ _ _ _ _ _ _ _ _ _ t1 s2) as [[[v' c] t3] s3| | |]; auto. cbn [fst snd] in *.
        destruct IH as ((P3 & e3 & E3) & new & L & Rv). red in Rv. cbn [fst] in Rv.
        unfold tbind at 1, bbind at 1, record_field, tbind at 1, finish_trace, bbind at 1, bret at 1. cbn [fst snd].
        unfold tbind at 1, tlift at 1, lift at 1, bbind at 1 2, of_opt. destruct (return_type S fo) as [ret|] eqn:Er; [|exact I]. unfold ResModel.ret at 1. unfold bret at 1. cbn [fst snd].
        unfold tbind at 1, tlift at 1, lift at 1, bbind at 1 2, get_path, bret, tret. cbn [fst snd ts_log].
        split.
        + split; [congruence|]. exists (e2 ++ e3). rewrite E3, E2. now rewrite app_assoc.
        + eexists (new ++ [_]). split; [rewrite L; symmetry; apply app_assoc|]. intros ms es Mo new2 Hm. rewrite <- app_assoc.
          eapply rm_known; eauto.
          * eapply (proj1 (rec_mono _ _ Mo)). exact Rv.
          * split; [|auto]. cbn [te_path]. f_equal. congruence.
      - destruct (beqb n _) eqn:En.
        + apply beqb_eq in En.
          assert (K : forall v, leaf v -> forall (ms : list (bytes * rt)) es, (forall q : list pitem, err_at es q -> err_at es q) -> forall new2, rec_members S asked (err_at es) p o ms new2 ->
              rec_members S asked (err_at es) p o ((key, v) :: ms) ([] ++ new2)).
          { intros v Lv ms es _ new2 H. eapply rm_unknown; eauto. }
          destruct (has_sub _).
          * cbn. split; [split; [reflexivity|eexists; reflexivity]|]. exists []. rewrite app_nil_r. split; [reflexivity|]. intros ms es _ new2 H. eapply (K THole); eauto. exact I.
          * cbn. split; [apply grows_refl|]. exists []. rewrite app_nil_r. split; [reflexivity|]. intros ms es _ new2 H. eapply (K (TName _)); eauto. exact I.
        + cbn. split; [split; [reflexivity|eexists; reflexivity]|]. exists []. rewrite app_nil_r. split; [reflexivity|].
          intros ms es Mo new2 H. eapply rm_unknown; eauto; [|exact I]. right. apply Mo. eexists. split; [apply in_or_app; right; left; reflexivity|]. cbn [re_path].
          rewrite P1. destruct (path_text (p ++ [PKey key])) eqn:Ep; reflexivity. }
    unfold tbind at 1, bbind at 1. destruct (M t1 s1) as [[[v c] t2] s2| | |]; auto. cbn [fst snd] in *. destruct V as ((P2 & e2 & E2) & new & L & Hm).
    cbn. split; [split; [symmetry; exact P|exists (e1 ++ e2); transitivity (r_errs s2); [destruct s2; reflexivity|]; rewrite E2, E1; symmetry; apply app_assoc]|]. exists new. split; [exact L|].
    red. cbn [fst]. rewrite <- (app_nil_r new). apply Hm; [auto|constructor].
Qed.
Lemma from_nil : forall x r, from (x :: r) -> from [x] /\ from r.
Proof.
  intros x r F. split; intros al n ds args subs H; apply (F al n ds args subs).
  - inversion H as [ss I|a m ds' args' subs' ss I|m ds' subs' ss I]; subst; destruct I as [I|[]];
      [apply within_here; left; exact I|eapply within_field; [left; exact I|assumption]|eapply within_inline; [left; exact I|assumption]].
  - inversion H as [ss I|a m ds' args' subs' ss I|m ds' subs' ss I]; subst;
      [apply within_here; right; exact I|eapply within_field; [right; exact I|assumption]|eapply within_inline; [right; exact I|assumption]].
Qed.
Lemma from_inline : forall tn ds subs, from [SInline tn ds subs] -> from subs.
Proof. intros tn ds subs F al n ds' args subs' H. apply (F al n ds' args subs'). eapply within_inline; [left; reflexivity|exact H]. Qed.
Lemma rec_members_app : forall E p t m1 m2 e1 e2, rec_members S asked E p t m1 e1 -> rec_members S asked E p t m2 e2 -> rec_members S asked E p t (m1 ++ m2) (e1 ++ e2).
Proof.
  intros E p t m1 m2 e1 e2 H1 H2. revert H1. revert e1. induction m1 as [|[k v] m1 IH]; intros e1 H1; inversion H1; subst; cbn [app]; auto.
  - eapply rm_unknown; eauto.
  - rewrite <- app_assoc. cbn [app]. eapply rm_known; eauto.
Qed.
Lemma k_skip : forall fuel loc ds (f : tm (list (bytes * rt) * bool)) o, run_ok f (mem_ok o) ->
  run_ok (tbind (tlift (b_directives X S rawvars opargs fuel loc ds)) (fun '(skip_, crit) => if crit || skip_ then tret ([], crit) else f)) (mem_ok o).
Proof.
  intros fuel loc ds f o F. apply k_quiet; [eapply q_barg; apply f_directives|]. intros [sk cr]. destruct (cr || sk); auto.
  apply k_ret. intros p es. constructor.
Qed.
Lemma k_none : forall o c, run_ok (tret ([], c)) (mem_ok o). Proof. intros. apply k_ret. intros. constructor. Qed.
Lemma k_leaf : forall o v c, leaf v -> run_ok (tret (v, c)) (val_ok o). Proof. intros. apply k_ret. intros. now apply rv_leaf. Qed.
Lemma val_shape : forall o o', (forall x, shape S o' x -> shape S o x) -> forall p es r new, val_ok o' p es r new -> val_ok o p es r new.
Proof. intros o o' H p es [v c] new V. red in V |- *. cbn [fst] in *. inversion V; subst; [now apply rv_leaf|eapply rv_list; eauto|eapply rv_obj; eauto]. Qed.

Definition cur_from (cur : cursor) : Prop := (forall subs, cur = CSels subs -> from subs) /\ (forall fs subs, cur = CArgs fs subs -> from subs).
Lemma content_run : forall fuel,
  (forall o dept g k ss, from ss -> run_ok (t_sels X S rawvars opargs fdefs now fuel o dept g k ss) (mem_ok o)) /\
  (forall o dept g k tn ds ss, from ss -> run_ok (t_inline X S rawvars opargs fdefs now fuel o dept g k tn ds ss) (mem_ok o)) /\
  (forall o dept g k n ds, run_ok (t_spread X S rawvars opargs fdefs now fuel o dept g k n ds) (mem_ok o)) /\
  (forall o dept g k al n ds args subs, from [SField al n ds args subs] -> run_ok (t_field X S rawvars opargs fdefs now fuel o dept g k al n ds args subs) (mem_ok o)) /\
  (forall o dept g k cur, cur_from cur -> run_ok (t_value X S rawvars opargs fdefs now fuel o dept g k cur) (val_ok o)).
Proof.
  induction fuel as [|fuel (IHs & IHi & IHp & IHf & IHv)]; [repeat split; intros; apply k_nofuel|].
  split; [|split; [|split; [|split]]].
  - intros o dept g k ss F. cbn [t_sels]. destruct ss as [|x r]; [apply k_none|]. apply from_nil in F. destruct F as [Fx Fr].
    assert (H : run_ok (match x with
            | SField alias name ds args subs => t_field X S rawvars opargs fdefs now fuel o dept g k alias name ds args subs
            | SSpread name ds => t_spread X S rawvars opargs fdefs now fuel o dept g k name ds
            | SInline tname ds subs => t_inline X S rawvars opargs fdefs now fuel o dept g k tname ds subs
            end) (mem_ok o)).
    { destruct x; [apply IHf; exact Fx|apply IHp|apply IHi; eapply from_inline; eauto]. }
    intros p t s P. specialize (H p t s P). unfold tbind at 1, bbind at 1.
    match goal with |- match match ?x with _ => _ end with _ => _ end => 
      change (match x with BOk r0 s' => grows s s' /\ (exists new, ts_log (snd r0) = ts_log t ++ new /\ mem_ok o p (r_errs s') (fst r0) new) | _ => True end) in H;
      destruct x as [[[ms c] t1] s1| | |]; auto end.
    cbn [fst snd] in *. destruct H as (G1 & new1 & L1 & M1). destruct c.
    + cbn. split; auto. exists new1. auto.
    + specialize (IHs o dept g k r Fr p t1 s1). destruct G1 as (P1 & e1 & E1). rewrite P1 in IHs. specialize (IHs P).
      unfold tbind, bbind. destruct (t_sels _ _ _ _ _ _ _ _ _ _ _ _ t1 s1) as [[[ms' c'] t2] s2| | |]; auto. cbn [fst snd] in *.
      destruct IHs as ((P2 & e2 & E2) & new2 & L2 & M2). cbn. split.
      * split; [congruence|]. exists (e1 ++ e2). rewrite E2, E1. now rewrite app_assoc.
      * exists (new1 ++ new2). split; [rewrite L2, L1; now rewrite app_assoc|]. red in M1, M2 |- *. cbn [fst] in *. apply rec_members_app; auto.
        eapply (proj2 (proj2 (rec_mono _ _ _))). exact M1.
        Unshelve. intros q Hq. rewrite E2. now apply err_at_mono.
  - intros o dept g k tn ds ss F. cbn [t_inline]. apply k_skip. destruct (negb _); [apply k_none|]. now apply IHs.
  - intros o dept g k n ds. cbn [t_spread]. apply k_skip. destruct (b_fragment fdefs n) as [[[m tn] ss]|] eqn:Ef.
    + unfold b_fragment in Ef. apply find_some in Ef. destruct Ef as [Ef _].
      destruct (skipn (length n) m); destruct (negb _); try apply k_none; try apply k_nope. apply IHs. eapply frags_from; eauto.
    + apply k_quiet; [apply q_lift_err|]. intro b. apply k_none.
  - intros o dept g k al n ds args subs F. apply content_field; auto. intros. apply IHv. split; auto.
  - intros o dept g k cur Fc. cbn [t_value]. fold (t_sels X S rawvars opargs fdefs now). destruct (_ && _); [apply k_err_value; left; exact I|].
    assert (obj_case : forall t, (exists o', shape S o o') -> shape S o t -> run_ok
                  (let dept := (dept + 1) mod 256 in
                  if dept =? s_maxdepth S then (tbind (tlift (lift (err (bs "reached max dept")))) (fun b => tret (TNull, b)))
                  else
                    match cur with
                    | CSels subs => tbind (t_sels X S rawvars opargs fdefs now fuel t dept g k subs) (fun '(ms, crit) => tret (TObj ms, crit))
                    | CLost => match fuel with
                               | O => tnofuel
                               | Datatypes.S _ => tbind (tlift (lift (err (bs "unsupported operation u")))) (fun b => tret (TObj [], b))
                               end
                    | CArgs _ _ => tpanic
                    end) (val_ok o)).
    { intros t Sh Rt. cbv zeta. destruct (_ =? s_maxdepth S); [apply k_err_value; left; exact I|].
      destruct cur as [fs subs|subs|]; [apply k_panic| |destruct fuel; [apply k_nofuel|apply k_err_value; right; auto]].
      intros p t0 s P. pose proof (IHs t ((dept + 1) mod 256) g k subs (proj1 Fc subs eq_refl) p t0 s P) as H. unfold tbind, bbind.
      destruct (t_sels _ _ _ _ _ _ _ _ _ _ _ _ t0 s) as [[[ms c] t1] s1| | |]; auto. cbn [fst snd] in *. destruct H as (G & new & L & M). cbn. split; auto.
      exists new. split; auto. red in M |- *. cbn [fst] in *. eapply rv_obj; eauto. }
    assert (iface_case : forall n fs is, (forall x, shape S (OIface n fs is) x -> shape S o x) -> run_ok
                  (match snd g with
                  | GIface None => tret (TNull, false)
                  | GIface (Some (tn, pkg, v)) =>
                      if k =? 255 then tnope
                      else
                        match find (fun i => beqb (fst (fst i)) tn && beqb (snd (fst i)) pkg) is with
                        | Some (_, impl) => t_value X S rawvars opargs fdefs now fuel impl ((dept + 1) mod 256) (fst g, v) (k + 1) cur
                        | None => tret (TNull, false)
                        end
                  | _ => tpanic
                  end) (val_ok o)).
    { intros n fs is H. destruct (snd g) as [| | | | | | | | | | |[[[tn pkg] v]|]| | | | |]; try apply k_panic; [|apply k_leaf; exact I].
      destruct (k =? 255); [apply k_nope|]. destruct (find _ _) as [[nm impl]|] eqn:Ef; [|apply k_leaf; exact I].
      apply find_some in Ef. destruct Ef as [Ef _]. eapply k_weak; [|apply IHv; exact Fc]. intros. eapply val_shape; [|eauto]. intros x Hx. apply H. eapply sh_impl; eauto. }
    destruct o as [|e|n|n fs|isid kd|e|[ist ins infs outnr errnr out]|i| |n|n fs is].
    + apply k_leaf. exact I.
    + assert (L : forall l, run_ok
          (if k =? 255 then tnope else tbind ((fix elems (n : N) (l : list gval) : tm (list rt) :=
                           match l with
                           | [] => tret []
                           | v :: r =>
                               tbind (tlift (lift get_path)) (fun path =>
                               tbind (tlift (lift (put_path (path ++ [44] ++ dec_of_N n)))) (fun _ =>
                               tbind (t_value X S rawvars opargs fdefs now fuel e dept (fst g, v) (k + 1) cur) (fun '(t, _) =>
                               tbind (tlift (lift (put_path path))) (fun _ =>
                               tbind (elems (n + 1) r) (fun ts => tret (t :: ts))))))
                           end) 0 l) (fun ts => tret (TArr ts, false))) (val_ok (OArray e))).
      { intro l. destruct (k =? 255); [apply k_nope|]. apply k_map.
        match goal with |- run_ok (?F 0 l) _ => assert (H : forall l n, run_ok (F n l) (fun p es ts new => rec_elems S asked (err_at es) p n e ts new)) end.
        { clear l. induction l as [|v r IH]; intro n; [apply k_ret; intros; constructor|]. intros p t s P.
          unfold tbind at 1, tlift at 1, bbind at 1 2, lift at 1, get_path at 1, bret at 1. cbn [fst snd].
          unfold tbind at 1, tlift at 1, bbind at 1 2, lift at 1, put_path at 1, bret at 1. cbn [fst snd]. rewrite P, <- idx_path.
          pose proof (k_at _ _ _ p (PIdx n) t s (IHv e dept (fst g, v) (k + 1) cur Fc) P) as D.
          unfold tbind at 1, bbind at 1. destruct (t_value _ _ _ _ _ _ _ _ _ _ _ _ t _) as [[[v' c] t1] s1| | |]; auto. cbn [fst snd] in D |- *.
          destruct D as (P1 & (e1 & E1) & new1 & L1 & V1).
          unfold tbind at 1, tlift at 1, bbind at 1 2, lift at 1, put_path at 1, bret at 1. cbn [fst snd].
          specialize (IH (n + 1) p t1 (set_path (path_text p) s1) eq_refl). unfold tbind, bbind.
          match goal with |- match match ?x with _ => _ end with _ => _ end => 
            change (match x with BOk r0 s' => grows (set_path (path_text p) s1) s' /\ (exists new, ts_log (snd r0) = ts_log t1 ++ new /\ rec_elems S asked (err_at (r_errs s')) p (n + 1) e (fst r0) new) | _ => True end) in IH;
            destruct x as [[ts t2] s2| | |]; auto end.
          cbn [fst snd] in IH. destruct IH as ((P2 & e2 & E2) & new2 & L2 & V2). cbn. cbn [set_path r_path r_errs] in P2, E2. split.
          - split; [congruence|]. exists (e1 ++ e2). rewrite E2, E1. now rewrite app_assoc.
          - exists (new1 ++ new2). split; [rewrite L2, L1; now rewrite app_assoc|]. apply re_cons; auto.
            assert (Mo : forall q, err_at (r_errs s1) q -> err_at (r_errs s2) q) by (intros q Hq; rewrite E2; now apply err_at_mono).
            eapply (proj1 (rec_mono _ _ Mo)). exact V1. }
        eapply k_weak; [|apply H]. intros p es a new Q. red. cbn [fst]. eapply rv_list; [apply sh_here|exact Q]. }
      destruct (snd g) as [| | | | |[l|]|l| | | | | | | | | |]; try apply k_panic; [apply L|apply k_leaf; exact I|apply L].
    + destruct (negb _); [apply k_err_value; left; exact I|]. destruct (slookup (s_types S) n) as [t|] eqn:E; [|apply k_leaf; exact I].
      apply obj_case; [|]. { exists t. now apply sh_ref. } now apply sh_ref.
    + destruct (negb _); [apply k_err_value; left; exact I|]. apply obj_case; [eexists|]; apply sh_here.
    + destruct (has_sub cur); [apply k_err_value; left; exact I|]. intros p t s P. unfold tbind, tlift, bbind, bret.
      pose proof (q_value_tree (snd g) kd s) as Q. destruct (value_tree (snd g) kd s) as [x s1| | |] eqn:E; auto. cbn. split; auto. exists []. rewrite app_nil_r. split; auto.
      red. cbn [fst]. apply rv_leaf. apply value_tree_leaf in E. destruct (isid && _); [exact I|exact E].
    + destruct (snd g); try apply k_panic. destruct p; [|apply k_leaf; exact I]. eapply k_weak; [|apply IHv; exact Fc]. intros. eapply val_shape; [|eauto]. intros. now apply sh_ptr.
    + assert (M : run_ok (tbind (tlift (b_args X S rawvars opargs fuel ins infs (match cur with CArgs fs _ => Some fs | _ => None end))) (fun '(av, crit, cut) =>
                if crit : bool then tret (THole, true)
                else
                  let cur := match cur with CArgs _ subs => after_args cut subs | _ => cur end in
                  if fst g then tpanic
                  else
                    tbind (tlift (lift get_world)) (fun w =>
                    tbind (tlift (lift get_path)) (fun p =>
                    tbind (tlift (lift (of_opt (x_call X w (snd g) av p)))) (fun '(w, outs) =>
                    tbind (tlift (lift (put_world w))) (fun _ =>
                    tbind (match errnr with
                     | None => tret tt
                     | Some n =>
                         tbind (tlift (lift (of_opt (nth_error outs n)))) (fun e =>
                         match e with
                         | GErr None => tret tt
                         | GErr (Some m) => tbind (tlift (lift (err m))) (fun _ => tret tt)
                         | _ => tpanic
                         end)
                     end) (fun _ =>
                    match x_ctxerr X w with
                    | Some m => tbind (tlift (lift (err m))) (fun _ => tret (TNull, false))
                    | None =>
                        tbind (tlift (lift (of_opt (nth_error outs outnr)))) (fun v =>
                        t_value X S rawvars opargs fdefs now fuel out dept (false, v) k cur)
                    end)))))))
                (val_ok (OMethod (Method ist ins infs outnr errnr out)))).
      { apply k_quiet; [eapply q_barg; apply f_args|]. intros [[av c] cut]. destruct c; [apply k_leaf; exact I|]. cbv zeta. destruct (fst g); [apply k_panic|].
        apply k_quiet; [apply q_world|]. intro w. apply k_quiet; [apply q_path|]. intro p. apply k_quiet; [apply q_opt|]. intros [w' outs].
        apply k_quiet; [apply q_put_world|]. intros _.
        assert (K : run_ok (match x_ctxerr X w' with
                    | Some m => tbind (tlift (lift (err m))) (fun _ => tret (TNull, false))
                    | None =>
                        tbind (tlift (lift (of_opt (nth_error outs outnr)))) (fun v =>
                        t_value X S rawvars opargs fdefs now fuel out dept (false, v) k (match cur with CArgs _ subs => after_args cut subs | _ => cur end))
                    end) (val_ok (OMethod (Method ist ins infs outnr errnr out)))).
        { destruct (x_ctxerr X w'); [apply k_quiet; [apply q_lift_err|]; intros _; apply k_leaf; exact I|].
          apply k_quiet; [apply q_opt|]. intro v. eapply k_weak; [|apply IHv].
          - intros. eapply val_shape; [|eauto]. intros. now apply sh_out.
          - destruct cur as [fs subs|subs|]; [|exact Fc..]. destruct cut as [[|]|]; cbn [after_args]; split; intros; try discriminate.
            + inversion H; subst. intros al m ds args subs1 Hw. inversion Hw; subst; contradiction.
            + inversion H; subst. apply (proj2 Fc _ _ eq_refl). }
        destruct errnr as [ne|]; [|exact K].
        apply k_silent; [|intros _; exact K]. intros t s. unfold tbind, tlift, bbind, bret.
        pose proof (q_opt _ (nth_error outs ne) s) as Q. destruct (lift (of_opt (nth_error outs ne)) s) as [e s1| | |]; auto. cbn [fst snd].
        destruct e as [| | | | | | | | | | | | | |m| |]; try exact I. destruct m as [m|]; [|cbn; auto].
        cbn. split; auto. eapply grows_trans; [exact Q|]. split; [reflexivity|]. eexists. reflexivity. }
      destruct ist, (snd g) as [| | | | | | | | | | | |[]| | | |]; try apply k_panic; try exact M. apply k_leaf. exact I.
    + apply k_quiet; [apply q_opt|]. intro e. intros p t s P. unfold tbind, tlift, bbind, bret.
      pose proof (q_enum_tree (en_kind e) (snd g) (en_entries e) s) as Q. destruct (enum_tree _ _ _ s) as [x s1| | |] eqn:E; auto. cbn. split; auto. exists []. rewrite app_nil_r. split; auto.
      red. cbn [fst]. apply rv_leaf. eapply enum_tree_leaf; eauto.
    + destruct (fst g); [apply k_panic|]. destruct (snd g); apply k_leaf; exact I.
    + destruct (negb _); [apply k_err_value; left; exact I|]. destruct (slookup (s_ifaces S) n) as [t|] eqn:E; [|apply k_leaf; exact I].
      destruct t as [| | | | | | | | | |n' fs' is']; [..|apply (iface_case n' fs' is'); intros; eapply sh_iref; eauto];
      (destruct (snd g) as [| | | | | | | | | | |[[[tn pkg] v]|]| | | | |]; try apply k_panic; [|apply k_leaf; exact I]; destruct (k =? 255); [apply k_nope|apply k_leaf; exact I]).
    + destruct (negb _); [apply k_err_value; left; exact I|]. apply (iface_case n fs is). auto.
Qed.
End Content.
