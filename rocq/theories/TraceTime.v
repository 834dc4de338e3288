(** * Tracing: the times that are recorded (proofs) *)
From Coq Require Import String Arith NArith ZArith Bool List Lia Sorted.
From Verif Require Import RegModel IntroModel.
From Verif Require Import Base JsonModel Ast ReqModel Schema ResModel EnvModel Interp Facts Valid TraceModel TraceSpec TraceProof.
Import ListNotations.
Open Scope N_scope.

(** ** What holds of all changes of the tracer *)
Section Steps.
Context {W : Type}.
Variable X : externals W.
Variable S : schema.
Variable rawvars : bytes.
Variable opargs : option (list oparg).
Variable fdefs : list (bytes * bytes * list sel).
Variable now : nat -> Z.
Variable P : tst -> tst -> Prop.
Hypothesis P_refl : forall t, P t t.
Hypothesis P_trans : forall a b c, P a b -> P b c -> P a c.
Notation bm := (@bm W).
Notation tm := (@tm W).
Definition steps {A} (m : tm A) : Prop := forall t s, match m t s with BOk r _ => P t (snd r) | _ => True end.
Lemma p_ret : forall A (a : A), steps (tret a). Proof. intros A a t s. apply P_refl. Qed.
Lemma p_panic : forall A, steps (@tpanic W A). Proof. intros A t s. exact I. Qed.
Lemma p_nofuel : forall A, steps (@tnofuel W A). Proof. intros A t s. exact I. Qed.
Lemma p_nope : forall A, steps (@tnope W A). Proof. intros A t s. exact I. Qed.
Lemma p_lift : forall A (b : bm A), steps (tlift b). Proof. intros A b t s. unfold tlift, bbind. destruct (b s); auto. apply P_refl. Qed.
Lemma p_bind : forall A B (m : tm A) (f : A -> tm B), steps m -> (forall a, steps (f a)) -> steps (tbind m f).
Proof.
  intros A B m f M F t s. unfold tbind, bbind. specialize (M t s). destruct (m t s) as [[a t1] s1| | |]; auto. cbn [fst snd] in *.
  specialize (F a t1 s1). destruct (f a t1 s1); auto. eapply P_trans; eauto.
Qed.
Ltac st IHs IHv :=
  repeat match goal with
  | |- steps (tret _) => apply p_ret
  | |- steps tpanic => apply p_panic
  | |- steps tnofuel => apply p_nofuel
  | |- steps tnope => apply p_nope
  | |- steps (tlift _) => apply p_lift
  | |- steps (t_sels _ _ _ _ _ _ _ _ _ _ _ _) => apply IHs
  | |- steps (t_value _ _ _ _ _ _ _ _ _ _ _ _) => apply IHv
  | |- steps (tbind _ _) => apply p_bind; [|intros ?]
  | |- steps (let _ := _ in _) => cbv zeta
  | |- steps (match ?x with _ => _ end) => destruct x
  end.
(** it is enough to look at fields *)
Hypothesis P_field : forall fuel o dept g k al n ds args subs, (forall o dept g k cur, steps (t_value X S rawvars opargs fdefs now fuel o dept g k cur)) ->
  steps (t_field X S rawvars opargs fdefs now (Datatypes.S fuel) o dept g k al n ds args subs).
Lemma steps_fields : forall fuel,
  (forall o dept g k ss, steps (t_sels X S rawvars opargs fdefs now fuel o dept g k ss)) /\
  (forall o dept g k tn ds ss, steps (t_inline X S rawvars opargs fdefs now fuel o dept g k tn ds ss)) /\
  (forall o dept g k n ds, steps (t_spread X S rawvars opargs fdefs now fuel o dept g k n ds)) /\
  (forall o dept g k al n ds args subs, steps (t_field X S rawvars opargs fdefs now fuel o dept g k al n ds args subs)) /\
  (forall o dept g k cur, steps (t_value X S rawvars opargs fdefs now fuel o dept g k cur)).
Proof.
  induction fuel as [|fuel (IHs & IHi & IHp & IHf & IHv)]; [repeat split; intros; apply p_nofuel|].
  split; [|split; [|split; [|split]]].
  - intros o dept g k ss. cbn [t_sels]. destruct ss as [|x r]; [apply p_ret|]. apply p_bind; [destruct x; auto|]. intros [ms c]. st IHs IHv.
  - intros o dept g k tn ds ss. cbn [t_inline]. fold (t_sels X S rawvars opargs fdefs now). st IHs IHv.
  - intros o dept g k n ds. cbn [t_spread]. fold (t_sels X S rawvars opargs fdefs now). st IHs IHv.
  - intros o dept g k al n ds args subs. apply P_field. exact IHv.
  - intros o dept g k cur. cbn [t_value]. fold (t_sels X S rawvars opargs fdefs now). destruct (_ && _); [st IHs IHv|].
    destruct o as [|e|n|n fs|isid kd|e|[ist ins infs outnr errnr out]|i| |n|n fs is]; try (st IHs IHv; fail).
    assert (L : forall l, steps
          (if k =? 255 then tnope else tbind ((fix elems (n : N) (l : list gval) : tm (list rt) :=
                           match l with
                           | [] => tret []
                           | v :: r =>
                               tbind (tlift (lift get_path)) (fun path =>
                               tbind (tlift (lift (put_path (path ++ [44] ++ dec_of_N n)))) (fun _ =>
                               tbind (t_value X S rawvars opargs fdefs now fuel e dept (fst g, v) (k + 1) cur) (fun '(t, _) =>
                               tbind (tlift (lift (put_path path))) (fun _ =>
                               tbind (elems (n + 1) r) (fun ts => tret (t :: ts))))))
                           end) 0 l) (fun ts => tret (TArr ts, false)))).
      { intro l. destruct (k =? 255); [apply p_nope|]. apply p_bind; [|intro; apply p_ret]. generalize 0. induction l as [|v r IH]; intro n; [apply p_ret|].
        apply p_bind; [apply p_lift|]. intro. apply p_bind; [apply p_lift|]. intros _. apply p_bind; [apply IHv|]. intros [t c].
        apply p_bind; [apply p_lift|]. intros _. apply p_bind; [apply IH|]. intro. apply p_ret. }
      destruct (snd g) as [| | | | |[l|]|l| | | | | | | | | |]; try apply p_panic; [apply L|apply p_ret|apply L].
Qed.
End Steps.
Section Run.
Context {W : Type}.
Variable X : externals W.
Variable S : schema.
Variable rawvars : bytes.
Variable opargs : option (list oparg).
Variable fdefs : list (bytes * bytes * list sel).
Variable now : nat -> Z.
Variable P : tst -> tst -> Prop.
Hypothesis P_refl : forall t, P t t.
Hypothesis P_trans : forall a b c, P a b -> P b c -> P a c.
Hypothesis P_start : forall t, P t (TS (Datatypes.S (ts_reads t)) (now (ts_reads t)) (ts_log t)).
Hypothesis P_record : forall t e, te_start e = (ts_pref t - now O)%Z -> te_dur e = (now (ts_reads t) - ts_pref t)%Z ->
  P t (TS (Datatypes.S (ts_reads t)) (ts_pref t) (ts_log t ++ [e])).
Notation tm := (@tm W).
Lemma p_start : steps P (start_trace now : tm unit). Proof. intros t s. apply P_start. Qed.
Lemma p_record : forall o n fo, steps P (record_field S now o n fo : tm unit).
Proof.
  intros o n fo t s. unfold record_field, tbind, finish_trace, tlift, lift, bbind, bret, of_opt. destruct (return_type S fo) as [r|]; [|exact I]. cbn.
  apply P_record; reflexivity.
Qed.
Lemma after_start : forall fuel, (forall o dept g k cur, steps P (t_value X S rawvars opargs fdefs now fuel o dept g k cur)) ->
  forall o dept g k al n ds args subs, exists m, t_field X S rawvars opargs fdefs now (Datatypes.S fuel) o dept g k al n ds args subs = tbind (start_trace now) (fun _ => m) /\ steps P m.
Proof.
  intros fuel IHv o dept g k al n ds args subs. cbn [t_field]. fold (t_value X S rawvars opargs fdefs now). eexists. split; [reflexivity|].
  repeat match goal with
  | |- steps _ (tret _) => apply p_ret; exact P_refl
  | |- steps _ (tlift _) => apply p_lift; exact P_refl
  | |- steps _ tnope => apply p_nope
  | |- steps _ (record_field _ _ _ _ _) => apply p_record
  | |- steps _ (t_value _ _ _ _ _ _ _ _ _ _ _ _) => apply IHv
  | |- steps _ (tbind _ _) => apply p_bind; [exact P_trans| |intros ?]
  | |- steps _ (let _ := _ in _) => cbv zeta
  | |- steps _ (match ?x with _ => _ end) => destruct x
  end.
Qed.
Lemma steps_run : forall fuel,
  (forall o dept g k ss, steps P (t_sels X S rawvars opargs fdefs now fuel o dept g k ss)) /\
  (forall o dept g k tn ds ss, steps P (t_inline X S rawvars opargs fdefs now fuel o dept g k tn ds ss)) /\
  (forall o dept g k n ds, steps P (t_spread X S rawvars opargs fdefs now fuel o dept g k n ds)) /\
  (forall o dept g k al n ds args subs, steps P (t_field X S rawvars opargs fdefs now fuel o dept g k al n ds args subs)) /\
  (forall o dept g k cur, steps P (t_value X S rawvars opargs fdefs now fuel o dept g k cur)).
Proof.
  apply steps_fields; auto. intros fuel o dept g k al n ds args subs IHv. destruct (after_start fuel IHv o dept g k al n ds args subs) as (m & -> & M).
  apply p_bind; auto. apply p_start.
Qed.
End Run.

(** ** Order of the entries *)
Section Order.
Variable now : nat -> Z.
Hypothesis clock : forall i j, (i <= j)%nat -> (now i <= now j)%Z.
Definition timely (t : tst) : Prop := (now O <= ts_pref t <= now (ts_reads t))%Z.
Definition ordered (t t' : tst) : Prop := timely t ->
  timely t' /\ (ts_pref t <= ts_pref t')%Z /\ (ts_reads t <= ts_reads t')%nat /\
  exists new, ts_log t' = ts_log t ++ new /\ in_order new /\
    Forall (fun e => (ts_pref t - now O <= te_start e <= ts_pref t' - now O /\ 0 <= te_dur e /\
                      now (ts_reads t) - now O <= te_end e <= now (ts_reads t') - now O)%Z) new.
Lemma o_refl : forall t, ordered t t.
Proof. intros t T. split; [exact T|]. split; [lia|]. split; [lia|]. exists []. rewrite app_nil_r. split; [reflexivity|]. split; constructor. Qed.
Lemma in_order_app : forall a b, in_order a -> in_order b -> (forall x y, In x a -> In y b -> (te_start x <= te_start y /\ te_end x <= te_end y)%Z) -> in_order (a ++ b).
Proof.
  intros a b A B H. induction A as [|x a A IH F]; cbn; [exact B|]. constructor.
  - apply IH. intros. apply H; [right|]; auto.
  - apply Forall_app. split; [exact F|]. apply Forall_forall. intros y Iy. apply H; [left; reflexivity|exact Iy].
Qed.
Lemma o_trans : forall a b c, ordered a b -> ordered b c -> ordered a c.
Proof.
  intros a b c H1 H2 T. destruct (H1 T) as (T1 & P1 & R1 & n1 & L1 & O1 & F1). destruct (H2 T1) as (T2 & P2 & R2 & n2 & L2 & O2 & F2).
  split; [exact T2|]. split; [lia|]. split; [lia|]. exists (n1 ++ n2). split; [rewrite L2, L1; symmetry; apply app_assoc|]. split.
  - apply in_order_app; auto. intros x y Ix Iy. rewrite Forall_forall in F1, F2. specialize (F1 x Ix). specialize (F2 y Iy). lia.
  - pose proof (clock _ _ R1). pose proof (clock _ _ R2). apply Forall_app. split; (eapply Forall_impl; [|eassumption]); intros e; cbn beta; lia.
Qed.
Lemma o_start : forall t, ordered t (TS (Datatypes.S (ts_reads t)) (now (ts_reads t)) (ts_log t)).
Proof.
  intros t (T1 & T2). unfold timely. cbn [ts_pref ts_reads ts_log]. pose proof (clock (ts_reads t) (Datatypes.S (ts_reads t)) ltac:(lia)).
  split; [lia|]. split; [lia|]. split; [lia|]. exists []. rewrite app_nil_r. split; [reflexivity|]. split; constructor.
Qed.
Lemma o_record : forall t e, te_start e = (ts_pref t - now O)%Z -> te_dur e = (now (ts_reads t) - ts_pref t)%Z ->
  ordered t (TS (Datatypes.S (ts_reads t)) (ts_pref t) (ts_log t ++ [e])).
Proof.
  intros t e Es Ed (T1 & T2). unfold timely. cbn [ts_pref ts_reads ts_log]. pose proof (clock (ts_reads t) (Datatypes.S (ts_reads t)) ltac:(lia)).
  split; [lia|]. split; [lia|]. split; [lia|]. exists [e]. split; [reflexivity|]. split; [repeat constructor|]. constructor; [|constructor]. unfold te_end. lia.
Qed.
End Order.

(** ** Entries start after the run started *)
Section Fresh.
Context {W : Type}.
Variable X : externals W.
Variable S : schema.
Variable rawvars : bytes.
Variable opargs : option (list oparg).
Variable fdefs : list (bytes * bytes * list sel).
Variable now : nat -> Z.
Hypothesis clock : forall i j, (i <= j)%nat -> (now i <= now j)%Z.
Definition fresh (t t' : tst) : Prop := timely now t ->
  timely now t' /\ (ts_reads t <= ts_reads t')%nat /\ exists new, ts_log t' = ts_log t ++ new /\ Forall (fun e => (now (ts_reads t) - now O <= te_start e)%Z) new.
Lemma f_refl : forall t, fresh t t.
Proof. intros t T. split; [exact T|]. split; [lia|]. exists []. rewrite app_nil_r. split; [reflexivity|constructor]. Qed.
Lemma f_trans : forall a b c, fresh a b -> fresh b c -> fresh a c.
Proof.
  intros a b c H1 H2 T. destruct (H1 T) as (T1 & R1 & n1 & L1 & F1). destruct (H2 T1) as (T2 & R2 & n2 & L2 & F2).
  split; [exact T2|]. split; [lia|]. exists (n1 ++ n2). split; [rewrite L2, L1; symmetry; apply app_assoc|]. pose proof (clock _ _ R1).
  apply Forall_app. split; [exact F1|]. eapply Forall_impl; [|exact F2]. cbn beta. intros. lia.
Qed.
Lemma ordered_run : forall fuel o dept g k ss, steps (ordered now) (t_sels X S rawvars opargs fdefs now fuel o dept g k ss).
Proof. intro fuel. apply (steps_run X S rawvars opargs fdefs now (ordered now) (o_refl now) (o_trans now clock) (o_start now clock) (o_record now clock) fuel). Qed.
Lemma fresh_run : forall fuel o dept g k ss, steps fresh (t_sels X S rawvars opargs fdefs now fuel o dept g k ss).
Proof.
  intro fuel. refine (proj1 (steps_fields X S rawvars opargs fdefs now fresh f_refl f_trans _ fuel)). clear fuel. intros fuel o dept g k al n ds args subs _.
  destruct (after_start X S rawvars opargs fdefs now (ordered now) (o_refl now) (o_trans now clock) (o_record now clock) fuel
    (proj2 (proj2 (proj2 (proj2 (steps_run X S rawvars opargs fdefs now (ordered now) (o_refl now) (o_trans now clock) (o_start now clock) (o_record now clock) fuel))))) o dept g k al n ds args subs) as (m & -> & M).
  intros t s. unfold tbind, start_trace, bbind, bret. cbn [fst snd]. specialize (M (TS (Datatypes.S (ts_reads t)) (now (ts_reads t)) (ts_log t)) s).
  destruct (m _ s) as [r s'| | |]; auto. intro T. destruct (o_start now clock t T) as (T1 & _). destruct (M T1) as (T2 & _ & R & new & L & _ & F). cbn [ts_reads ts_pref ts_log] in *.
  split; [exact T2|]. split; [lia|]. exists new. split; [exact L|]. eapply Forall_impl; [|exact F]. cbn beta. intros. lia.
Qed.
End Fresh.

(** ** Fields whose value contains no object: the entry has the time of this field *)
Section Own.
Context {W : Type}.
Variable X : externals W.
Variable S : schema.
Variable rawvars : bytes.
Variable opargs : option (list oparg).
Variable fdefs : list (bytes * bytes * list sel).
Variable now : nat -> Z.
Notation bm := (@bm W).
Notation tm := (@tm W).
Definition still {A} (m : tm A) (Q : A -> Prop) : Prop := forall t s, match m t s with BOk r _ => Q (fst r) -> snd r = t | _ => True end.
Lemma w_ret : forall A (a : A) Q, still (tret a) Q. Proof. intros A a Q t s _. reflexivity. Qed.
Lemma w_panic : forall A Q, still (@tpanic W A) Q. Proof. intros A Q t s. exact I. Qed.
Lemma w_nofuel : forall A Q, still (@tnofuel W A) Q. Proof. intros A Q t s. exact I. Qed.
Lemma w_nope : forall A Q, still (@tnope W A) Q. Proof. intros A Q t s. exact I. Qed.
Lemma w_lift : forall A B (b : bm A) (f : A -> tm B) Q, (forall a, still (f a) Q) -> still (tbind (tlift b) f) Q.
Proof. intros A B b f Q F t s. unfold tbind, tlift, bbind, bret. destruct (b s) as [a s1| | |]; auto. cbn [fst snd]. apply F. Qed.
Definition flatv (r : rt * bool) : Prop := flat (fst r).
Ltac wt :=
  repeat match goal with
  | |- still (tret _) _ => apply w_ret
  | |- still tpanic _ => apply w_panic
  | |- still tnofuel _ => apply w_nofuel
  | |- still tnope _ => apply w_nope
  | |- still (tbind (tlift _) _) _ => apply w_lift; intros ?
  | |- still (let _ := _ in _) _ => cbv zeta
  | |- still (match ?x with _ => _ end) _ => destruct x
  end.
Lemma still_value : forall fuel o dept g k cur, still (t_value X S rawvars opargs fdefs now fuel o dept g k cur) flatv.
Proof.
  induction fuel as [|fuel IHv]; [intros; apply w_nofuel|]. intros o dept g k cur. cbn [t_value]. fold (t_sels X S rawvars opargs fdefs now).
  destruct (_ && _); [wt|].
  assert (OB : forall t d subs, still (tbind (t_sels X S rawvars opargs fdefs now fuel t d g k subs) (fun '(ms, crit) => tret (TObj ms, crit))) flatv).
  { intros t d subs t0 s. unfold tbind, bbind. destruct (t_sels _ _ _ _ _ _ _ _ _ _ _ _ _ _) as [[[ms c] t1] s1| | |]; auto. cbn. contradiction. }
  destruct o as [|e|n|n fs|isid kd|e|[ist ins infs outnr errnr out]|i| |n|n fs is]; try (wt; first [apply OB|apply IHv]; fail); try (wt; fail).
  - assert (L : forall l, still
          (if k =? 255 then tnope else tbind ((fix elems (n : N) (l : list gval) : tm (list rt) :=
                           match l with
                           | [] => tret []
                           | v :: r =>
                               tbind (tlift (lift get_path)) (fun path =>
                               tbind (tlift (lift (put_path (path ++ [44] ++ dec_of_N n)))) (fun _ =>
                               tbind (t_value X S rawvars opargs fdefs now fuel e dept (fst g, v) (k + 1) cur) (fun '(t, _) =>
                               tbind (tlift (lift (put_path path))) (fun _ =>
                               tbind (elems (n + 1) r) (fun ts => tret (t :: ts))))))
                           end) 0 l) (fun ts => tret (TArr ts, false))) flatv).
    { intro l. destruct (k =? 255); [apply w_nope|].
      match goal with |- still (tbind (?F 0 l) _) _ => assert (H : forall l n, still (F n l) (fun ts => flat (TArr ts))) end.
      { clear l. induction l as [|v r IH]; intro n; [apply w_ret|]. apply w_lift. intro p. apply w_lift. intros _. intros t s. unfold tbind at 1, bbind at 1.
        specialize (IHv e dept (fst g, v) (k + 1) cur t s). destruct (t_value _ _ _ _ _ _ _ _ _ _ _ _ t s) as [[[v' c] t1] s1| | |]; auto. cbn [fst snd] in *.
        unfold tbind at 1, tlift at 1, bbind at 1 2. destruct (lift (put_path p) s1) as [x s2| | |]; auto. unfold bret at 1. cbn [fst snd].
        specialize (IH (n + 1) t1 s2). unfold tbind, bbind.
        match goal with |- match match ?x with _ => _ end with _ => _ end => change (match x with BOk r0 _ => flat (TArr (fst r0)) -> snd r0 = t1 | _ => True end) in IH; destruct x as [[ts t2] s3| | |]; auto end.
        cbn. intros [F1 F2]. cbn [fst snd] in IH. rewrite (IH F2). apply IHv. exact F1. }
      intros t s. specialize (H l 0 t s). unfold tbind, bbind.
      match goal with |- match match ?x with _ => _ end with _ => _ end => change (match x with BOk r0 _ => flat (TArr (fst r0)) -> snd r0 = t | _ => True end) in H; destruct x as [[ts t2] s3| | |]; auto end. }
    destruct (snd g) as [| | | | |[l|]|l| | | | | | | | | |]; try apply w_panic; [apply L|apply w_ret|apply L].
  - assert (E : forall (outs : list gval) (f : tm (rt * bool)), still f flatv -> still (tbind (match errnr with
                     | None => tret tt
                     | Some n =>
                         tbind (tlift (lift (of_opt (nth_error outs n)))) (fun e =>
                         match e with
                         | GErr None => tret tt
                         | GErr (Some m) => tbind (tlift (lift (err m))) (fun _ => tret tt)
                         | _ => tpanic
                         end)
                     end) (fun _ => f)) flatv).
    { intros outs f F. destruct errnr as [n|]; [|exact F]. intros t s. unfold tbind, tlift, bbind, bret, tret.
      destruct (lift (of_opt _) s) as [e s1| | |]; auto. cbn [fst snd]. destruct e as [| | | | | | | | | | | | | |m| |]; try exact I.
      destruct m as [m|]; [|apply F]. unfold bbind, bret. destruct (lift (err m) s1) as [x s2| | |]; auto. apply F. }
    destruct ist, (snd g) as [| | | | | | | | | | | |[]| | | |]; try apply w_panic; try apply w_ret.
    all: wt; apply E; wt; apply IHv.
Qed.

(** ** Fields whose value contains a member: a later start was noted over the own one *)
Definition later (t t' : tst) : Prop := exists j, (ts_reads t <= j < ts_reads t')%nat /\ ts_pref t' = now j.
Definition onward (t t' : tst) : Prop := (ts_reads t <= ts_reads t')%nat /\ (ts_pref t' = ts_pref t \/ later t t').
Lemma n_refl : forall t, onward t t. Proof. intro t. split; [lia|now left]. Qed.
Lemma n_trans : forall a b c, onward a b -> onward b c -> onward a c.
Proof.
  intros a b c (R1 & P1) (R2 & P2). split; [lia|]. destruct P2 as [P2|(j & J & P2)]; [|right; exists j; split; [lia|exact P2]].
  destruct P1 as [P1|(j & J & P1)]; [left; congruence|right; exists j; split; [lia|congruence]].
Qed.
Lemma n_start : forall t, onward t (TS (Datatypes.S (ts_reads t)) (now (ts_reads t)) (ts_log t)).
Proof. intro t. split; cbn; [lia|]. right. exists (ts_reads t). cbn. split; [lia|reflexivity]. Qed.
Lemma n_record : forall t e, te_start e = (ts_pref t - now O)%Z -> te_dur e = (now (ts_reads t) - ts_pref t)%Z ->
  onward t (TS (Datatypes.S (ts_reads t)) (ts_pref t) (ts_log t ++ [e])).
Proof. intros t e _ _. split; cbn; [lia|now left]. Qed.
Definition goes {A} : tm A -> Prop := steps onward.
Lemma goes_run : forall fuel,
  (forall o dept g k ss, goes (t_sels X S rawvars opargs fdefs now fuel o dept g k ss)) /\
  (forall o dept g k tn ds ss, goes (t_inline X S rawvars opargs fdefs now fuel o dept g k tn ds ss)) /\
  (forall o dept g k n ds, goes (t_spread X S rawvars opargs fdefs now fuel o dept g k n ds)) /\
  (forall o dept g k al n ds args subs, goes (t_field X S rawvars opargs fdefs now fuel o dept g k al n ds args subs)) /\
  (forall o dept g k cur, goes (t_value X S rawvars opargs fdefs now fuel o dept g k cur)).
Proof. intro fuel. apply steps_run; [exact n_refl|exact n_trans|exact n_start|exact n_record]. Qed.
Lemma later_after : forall a b c, onward a b -> later b c -> later a c.
Proof. intros a b c (R & _) (j & J & E). exists j. split; [lia|exact E]. Qed.
Lemma later_before : forall a b c, later a b -> onward b c -> later a c.
Proof. intros a b c (j & J & E) (R & [P|(i & I & P)]); [exists j; split; [lia|congruence]|exists i; split; [lia|exact P]]. Qed.
Definition moves {A} (m : tm A) (Q : A -> Prop) : Prop := forall t s, match m t s with BOk r _ => Q (fst r) -> later t (snd r) | _ => True end.
Lemma v_ret : forall A (a : A) (Q : A -> Prop), ~ Q a -> moves (tret a) Q. Proof. intros A a Q N t s H. contradiction. Qed.
Lemma v_panic : forall A Q, moves (@tpanic W A) Q. Proof. intros A Q t s. exact I. Qed.
Lemma v_nofuel : forall A Q, moves (@tnofuel W A) Q. Proof. intros A Q t s. exact I. Qed.
Lemma v_nope : forall A Q, moves (@tnope W A) Q. Proof. intros A Q t s. exact I. Qed.
Lemma v_lift : forall A B (b : bm A) (f : A -> tm B) Q, (forall a, moves (f a) Q) -> moves (tbind (tlift b) f) Q.
Proof. intros A B b f Q F t s. unfold tbind, tlift, bbind, bret. destruct (b s) as [a s1| | |]; auto. cbn [fst snd]. apply F. Qed.
Lemma v_after : forall A B (m : tm A) (f : A -> tm B) Q, goes m -> (forall a, moves (f a) Q) -> moves (tbind m f) Q.
Proof.
  intros A B m f Q M F t s. unfold tbind, bbind. specialize (M t s). destruct (m t s) as [[a t1] s1| | |]; auto. cbn [fst snd] in *.
  specialize (F a t1 s1). destruct (f a t1 s1); auto. intro H. eapply later_after; eauto.
Qed.
Definition some_member (r : list (bytes * rt) * bool) : Prop := fst r <> [].
Definition memberv (r : rt * bool) : Prop := has_member (fst r).
Ltac vt :=
  repeat match goal with
  | |- moves (tret _) _ => apply v_ret; first [exact (fun N => N)|let N := fresh in intro N; exact (N eq_refl)]
  | |- moves tpanic _ => apply v_panic
  | |- moves tnofuel _ => apply v_nofuel
  | |- moves tnope _ => apply v_nope
  | |- moves (tbind (tlift _) _) _ => apply v_lift; intros ?
  | |- moves (let _ := _ in _) _ => cbv zeta
  | |- moves (match ?x with _ => _ end) _ => destruct x eqn:?
  end.
Lemma moves_run : forall fuel,
  (forall o dept g k ss, moves (t_sels X S rawvars opargs fdefs now fuel o dept g k ss) some_member) /\
  (forall o dept g k tn ds ss, moves (t_inline X S rawvars opargs fdefs now fuel o dept g k tn ds ss) some_member) /\
  (forall o dept g k n ds, moves (t_spread X S rawvars opargs fdefs now fuel o dept g k n ds) some_member) /\
  (forall o dept g k al n ds args subs, moves (t_field X S rawvars opargs fdefs now fuel o dept g k al n ds args subs) some_member) /\
  (forall o dept g k cur, moves (t_value X S rawvars opargs fdefs now fuel o dept g k cur) memberv).
Proof.
  induction fuel as [|fuel (IHs & IHi & IHp & IHf & IHv)]; [repeat split; intros; apply v_nofuel|].
  split; [|split; [|split; [|split]]].
  - intros o dept g k ss. cbn [t_sels]. destruct ss as [|x r]; [apply v_ret; intro H; exact (H eq_refl)|].
    set (m := match x with SField _ _ _ _ _ => _ | _ => _ end).
    assert (M : moves m some_member) by (subst m; destruct x; auto).
    assert (G : goes m) by (subst m; destruct (goes_run fuel) as (Gs & Gi & Gp & Gf & Gv); destruct x; auto).
    intros t s. unfold tbind at 1, bbind at 1. specialize (M t s). specialize (G t s). destruct (m t s) as [[[ms c] t1] s1| | |]; auto. cbn [fst snd] in *.
    destruct c; [exact M|]. unfold tbind, bbind. pose proof (IHs o dept g k r t1 s1) as Ms. pose proof (proj1 (goes_run fuel) o dept g k r t1 s1) as Gs.
    destruct (t_sels _ _ _ _ _ _ _ _ _ _ _ _ t1 s1) as [[[ms' c'] t2] s2| | |]; auto. cbn [fst snd tret bret] in *. unfold tret, bret. cbn [fst snd]. unfold some_member in *. cbn [fst] in *.
    intro N. destruct ms as [|a ms]; [eapply later_after; [exact G|apply Ms; exact N]|]. eapply later_before; [apply M; discriminate|exact Gs].
  - intros o dept g k tn ds ss. cbn [t_inline]. fold (t_sels X S rawvars opargs fdefs now). vt. apply IHs.
  - intros o dept g k n ds. cbn [t_spread]. fold (t_sels X S rawvars opargs fdefs now). vt. apply IHs.
  - intros o dept g k al n ds args subs t s. cbn [t_field].
    unfold tbind at 1, start_trace at 1, bbind at 1, bret at 1. cbn [fst snd]. set (t1 := TS _ _ _).
    assert (L : later t t1) by (exists (ts_reads t); cbn; split; [lia|reflexivity]).
    match goal with |- match ?m t1 s with _ => _ end => assert (G : goes m) end.
    { pose proof (proj2 (proj2 (proj2 (proj2 (goes_run fuel))))) as Gv. fold (t_value X S rawvars opargs fdefs now).
      assert (GL : forall A (b : bm A), goes (tlift b)) by (intros; apply p_lift; exact n_refl).
      assert (GR : forall A (a : A), goes (tret a)) by (intros; apply p_ret; exact n_refl).
      assert (GB : forall A B (m : tm A) (f : A -> tm B), goes m -> (forall a, goes (f a)) -> goes (tbind m f)) by (intros; apply p_bind; auto; exact n_trans).
      assert (GN : forall A, goes (@tnope W A)) by (intros A t0 s0; exact I).
      assert (GC : forall o n fo, goes (record_field S now o n fo)) by (intros; apply p_record; exact n_record).
      repeat match goal with
      | |- goes (tret _) => apply GR
      | |- goes (tlift _) => apply GL
      | |- goes tnope => apply GN
      | |- goes (record_field _ _ _ _ _) => apply GC
      | |- goes (t_value _ _ _ _ _ _ _ _ _ _ _ _) => apply Gv
      | |- goes (tbind _ _) => apply GB; [|intros ?]
      | |- goes (let _ := _ in _) => cbv zeta
      | |- goes (match ?x with _ => _ end) => destruct x
      end. }
    match goal with |- match ?m t1 s with _ => _ end => specialize (G t1 s); destruct (m t1 s) as [r s1| | |]; auto end.
    intros _. eapply later_before; eauto.
  - intros o dept g k cur. cbn [t_value]. fold (t_sels X S rawvars opargs fdefs now). destruct (_ && _); [vt|].
    assert (OB : forall t d subs, moves (tbind (t_sels X S rawvars opargs fdefs now fuel t d g k subs) (fun '(ms, crit) => tret (TObj ms, crit))) memberv).
    { intros t d subs t0 s. unfold tbind, bbind. pose proof (IHs t d g k subs t0 s) as M. destruct (t_sels _ _ _ _ _ _ _ _ _ _ _ _ _ _) as [[[ms c] t1] s1| | |]; auto. }
    destruct o as [|e|n|n fs|isid kd|e|[ist ins infs outnr errnr out]|i| |n|n fs is].
    + vt.
    + assert (L : forall l, moves
          (if k =? 255 then tnope else tbind ((fix elems (n : N) (l : list gval) : tm (list rt) :=
                           match l with
                           | [] => tret []
                           | v :: r =>
                               tbind (tlift (lift get_path)) (fun path =>
                               tbind (tlift (lift (put_path (path ++ [44] ++ dec_of_N n)))) (fun _ =>
                               tbind (t_value X S rawvars opargs fdefs now fuel e dept (fst g, v) (k + 1) cur) (fun '(t, _) =>
                               tbind (tlift (lift (put_path path))) (fun _ =>
                               tbind (elems (n + 1) r) (fun ts => tret (t :: ts))))))
                           end) 0 l) (fun ts => tret (TArr ts, false))) memberv).
      { intro l. destruct (k =? 255); [apply v_nope|].
        match goal with |- moves (tbind (?F 0 l) _) _ => assert (H : forall l n, moves (F n l) (fun ts => has_member (TArr ts)) /\ goes (F n l)) end.
        { clear l. induction l as [|v r IH]; intro n; [split; [apply v_ret; exact (fun H => H)|intros t s; apply n_refl]|]. specialize (IH (n + 1)).
          match goal with |- moves ?m _ /\ _ => assert (B : forall t s, match m t s with BOk r0 _ => (has_member (TArr (fst r0)) -> later t (snd r0)) /\ onward t (snd r0) | _ => True end) end.
          { intros t s. unfold tbind at 1, tlift at 1, bbind at 1 2, lift at 1, get_path at 1, bret at 1. cbn [fst snd].
            unfold tbind at 1, tlift at 1, bbind at 1 2, lift at 1, put_path at 1, bret at 1. cbn [fst snd].
            set (s0 := set_path _ s). pose proof (IHv e dept (fst g, v) (k + 1) cur t s0) as M. pose proof (proj2 (proj2 (proj2 (proj2 (goes_run fuel)))) e dept (fst g, v) (k + 1) cur t s0) as G.
            unfold tbind at 1, bbind at 1. destruct (t_value _ _ _ _ _ _ _ _ _ _ _ _ t s0) as [[[v' c] t1] s1| | |]; auto. cbn [fst snd] in *.
            unfold tbind at 1, tlift at 1, bbind at 1 2. destruct (lift (put_path _) s1) as [x s2| | |]; auto. unfold bret at 1. cbn [fst snd].
            destruct IH as [M2 G2]. specialize (M2 t1 s2). specialize (G2 t1 s2). unfold tbind, bbind.
            match goal with |- match match ?x with _ => _ end with _ => _ end =>
              change (match x with BOk r0 _ => has_member (TArr (fst r0)) -> later t1 (snd r0) | _ => True end) in M2;
              change (match x with BOk r0 _ => onward t1 (snd r0) | _ => True end) in G2; destruct x as [[ts t2] s3| | |]; auto end.
            cbn [fst snd] in *. unfold tret, bret. cbn [fst snd]. split; [|eapply n_trans; eauto].
            intros [H|H]; [eapply later_before; [apply M; exact H|exact G2]|eapply later_after; [exact G|apply M2; exact H]]. }
          split; intros t s; specialize (B t s);
          match goal with |- match ?x with _ => _ end => change (match x with BOk r0 _ => (has_member (TArr (fst r0)) -> later t (snd r0)) /\ onward t (snd r0) | _ => True end) in B; destruct x; auto end; apply B. }
        intros t s. pose proof (proj1 (H l 0) t s) as M. unfold tbind, bbind.
        match goal with |- match match ?x with _ => _ end with _ => _ end => change (match x with BOk r0 _ => has_member (TArr (fst r0)) -> later t (snd r0) | _ => True end) in M; destruct x as [[ts t2] s3| | |]; auto end. }
      destruct (snd g) as [| | | | |[l|]|l| | | | | | | | | |]; try apply v_panic; [apply L|vt|apply L].
    + vt; apply OB.
    + vt; apply OB.
    + destruct (has_sub cur); [vt|]. intros t s. unfold tbind, tlift, bbind, bret. destruct (value_tree (snd g) kd s) as [x s1| | |] eqn:E; auto.
      apply value_tree_leaf in E. cbn. destruct (isid && _), x; cbn; try contradiction.
    + vt. apply IHv.
    + assert (E : forall (outs : list gval) (f : tm (rt * bool)), moves f memberv -> moves (tbind (match errnr with
                     | None => tret tt
                     | Some n =>
                         tbind (tlift (lift (of_opt (nth_error outs n)))) (fun e =>
                         match e with
                         | GErr None => tret tt
                         | GErr (Some m) => tbind (tlift (lift (err m))) (fun _ => tret tt)
                         | _ => tpanic
                         end)
                     end) (fun _ => f)) memberv).
      { intros outs f F. apply v_after; [|intros _; exact F]. destruct errnr as [n|]; [|intros t s; apply n_refl].
        intros t s. unfold tbind, tlift, bbind, bret, tret.
        destruct (lift (of_opt _) s) as [e s1| | |]; auto. cbn [fst snd]. destruct e as [| | | | | | | | | | | | | |m| |]; try exact I.
        destruct m as [m|]; [|apply n_refl]. unfold bbind, bret. destruct (lift (err m) s1) as [x s2| | |]; auto. apply n_refl. }
      destruct ist, (snd g) as [| | | | | | | | | | | |[]| | | |]; try apply v_panic; vt; apply E; vt; apply IHv.
    + apply v_lift. intro e. intros t s. unfold tbind, tlift, bbind, bret. destruct (enum_tree _ _ _ s) as [x s1| | |] eqn:E; auto.
      apply enum_tree_leaf in E. cbn. destruct x; cbn; try contradiction.
    + vt.
    + vt; apply IHv.
    + vt; apply IHv.
Qed.

(** one field: what its entry says of its time *)
Lemma field_times : forall fuel o dept g k al n ds args subs fo c i fn hd t s ms cr t' s',
  nlookup (o_fields o) (fnv1 n) = Some (Field fo c i fn hd) ->
  t_field X S rawvars opargs fdefs now fuel o dept g k al n ds args subs t s = BOk ((ms, cr), t') s' ->
  (ms = [] /\ ts_log t' = ts_log t) \/
  exists v inner e, ms = [(key_of al n, v)] /\ ts_log t' = ts_log t ++ inner ++ [e] /\
    te_start e = (ts_pref t' - now O)%Z /\ te_end e = (now (pred (ts_reads t')) - now O)%Z /\ (ts_reads t < pred (ts_reads t'))%nat /\
    (flat v -> inner = [] /\ ts_pref t' = now (ts_reads t) /\ ts_reads t' = (ts_reads t + 2)%nat) /\
    (has_member v -> exists j, (ts_reads t < j < pred (ts_reads t'))%nat /\ ts_pref t' = now j).
Proof.
  intros fuel o dept g k al n ds args subs fo c i fn hd t s ms cr t' s' El H. destruct fuel as [|fuel]; [discriminate H|].
  cbn [t_field] in H. fold (t_value X S rawvars opargs fdefs now) in H. fold (key_of al n) in H. rewrite El in H.
  unfold tbind at 1, start_trace at 1, bbind at 1, bret at 1 in H. cbn [fst snd] in H. set (t1 := TS _ _ _) in H.
  unfold tbind at 1, tlift at 1, bbind at 1 2, lift at 1, get_path at 1, bret at 1 in H. cbn [fst snd] in H.
  unfold tbind at 1, tlift at 1, bbind at 1 2, lift at 1, put_path at 1, bret at 1 in H. cbn [fst snd] in H.
  unfold tbind at 1, tlift at 1, bbind at 1 2 in H. destruct (b_directives X S rawvars opargs fuel 0 ds _) as [[sk c1] s1| | |]; try discriminate H.
  unfold bret at 1 in H. cbn [fst snd] in H. destruct (c1 || sk).
  - left. cbn in H. inversion H; subst. auto.
  - right. unfold tbind at 1, bbind at 1 in H.
    match type of H with (match ?x with _ => _ end) = _ => set (M := x) in H end.
    assert (V : match M with BOk r s2 => exists v c2 t2 s3 inner e, fst (fst r) = v /\
        (exists g' s4, t_value X S rawvars opargs fdefs now fuel fo dept g' (k + 1) (cur_of args subs) t1 s4 = BOk ((v, c2), t2) s3) /\
        ts_log (snd r) = ts_log t1 ++ inner ++ [e] /\ ts_log t2 = ts_log t1 ++ inner /\
        te_start e = (ts_pref t2 - now O)%Z /\ te_dur e = (now (ts_reads t2) - ts_pref t2)%Z /\
        ts_reads (snd r) = Datatypes.S (ts_reads t2) /\ ts_pref (snd r) = ts_pref t2 | _ => True end).
    { subst M. unfold tbind at 1, bbind at 1.
      match goal with |- match match ?x with _ => _ end with _ => _ end => assert (G : match x with BOk r _ => snd r = t1 | _ => True end) end.
      { destruct c as [x|]; [reflexivity|].
        assert (Q : match tlift (lift (field_of g i)) t1 s1 with BOk r _ => snd r = t1 | _ => True end).
        { unfold tlift, bbind, bret. destruct (lift (field_of g i) s1); auto. }
        destruct fo as [| | | | | |[[]]| | | |]; try exact Q; reflexivity. }
      match goal with |- match match ?x with _ => _ end with _ => _ end => destruct x as [[v t0] s2| | |]; auto end.
      cbn [fst snd] in *. subst t0. destruct (k =? 255); [exact I|]. unfold tbind at 1, bbind at 1.
      pose proof (proj2 (proj2 (proj2 (proj2 (steps_run X S rawvars opargs fdefs now (fun a b => exists new, ts_log b = ts_log a ++ new)
        (fun t => ex_intro _ [] (eq_sym (app_nil_r _)))
        ltac:(intros a b d (n1 & E1) (n2 & E2); exists (n1 ++ n2); rewrite E2, E1; symmetry; apply app_assoc)
        ltac:(intro a; exists []; cbn; symmetry; apply app_nil_r)
        ltac:(intros a e _ _; exists [e]; reflexivity) fuel)))) fo dept v (k + 1) (cur_of args subs) t1 s2) as L.
      destruct (t_value _ _ _ _ _ _ _ _ _ _ _ _ t1 s2) as [[[v' c2] t2] s3| | |] eqn:Ev; auto. cbn [fst snd] in *. destruct L as (inner & L).
      unfold tbind at 1, bbind at 1, record_field, tbind at 1, finish_trace, bbind at 1, bret at 1. cbn [fst snd].
      unfold tbind at 1, tlift at 1, lift at 1, bbind at 1 2, of_opt. destruct (return_type S fo) as [ret|] eqn:Er; [|exact I]. unfold ResModel.ret at 1. unfold bret at 1. cbn [fst snd].
      unfold tbind at 1, tlift at 1, lift at 1, bbind at 1 2, get_path, bret, tret. cbn [fst snd ts_log ts_reads ts_pref].
      exists v', c2, t2, s3, inner. eexists. split; [reflexivity|]. split; [exists v, s2; exact Ev|]. split; [rewrite L; symmetry; apply app_assoc|]. split; [exact L|].
      cbn [te_start te_dur]. auto. }
    destruct M as [[[v c2] t2] s2| | |]; try discriminate H. cbn [fst snd] in *. cbn in H. inversion H; subst ms c2 t' s'.
    destruct V as (v' & c2 & t3 & s3 & inner & e & Evv & (g' & s4 & Ev) & Lg & L3 & Es & Ed & Er & Ep). subst v'.
    exists v, inner, e. split; [reflexivity|]. split; [exact Lg|]. split; [rewrite Ep; exact Es|]. split; [unfold te_end; rewrite Er; cbn [pred]; lia|].
    pose proof (proj2 (proj2 (proj2 (proj2 (goes_run fuel)))) fo dept g' (k + 1) (cur_of args subs) t1 s4) as G. rewrite Ev in G. cbn [snd] in G. destruct G as [G _]. cbn [t1 ts_reads] in G.
    split; [rewrite Er; cbn [pred]; lia|]. split.
    + intro F. pose proof (still_value fuel fo dept g' (k + 1) (cur_of args subs) t1 s4) as Q. rewrite Ev in Q. specialize (Q F). cbn [snd] in Q. subst t3.
      split; [|split; [rewrite Ep; reflexivity|rewrite Er; cbn; lia]]. apply (app_inv_head (ts_log t1)). rewrite app_nil_r. symmetry. exact L3.
    + intro F. pose proof (proj2 (proj2 (proj2 (proj2 (moves_run fuel)))) fo dept g' (k + 1) (cur_of args subs) t1 s4) as Q. rewrite Ev in Q. specialize (Q F). cbn [snd] in Q.
      destruct Q as (j & J & Q). cbn [t1 ts_reads] in J. exists j. rewrite Er, Ep. cbn [pred]. split; [lia|exact Q].
Qed.
End Own.
