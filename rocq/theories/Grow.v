(** * The resolver only adds to the response and to the errors (proofs) *)
From Coq Require Import String Arith NArith ZArith Bool List Lia.
From Verif Require Import Base JsonModel ReqModel Schema ResModel.
Import ListNotations.
Open Scope N_scope.

Section Grow.
Context {W : Type}.
Variable X : externals W.
Variable S : schema.
Variable res : bytes.
Variable frags : list nat.
Variable rawvars : bytes.
Notation st := (rst W).
Notation rm := (@rm W).

Definition more (s t : st) : Prop := (exists o, r_out t = r_out s ++ o) /\ (exists e, r_errs t = r_errs s ++ e).
Definition grows {A} (f : rm A) : Prop := forall s, match f s with ROk _ t => more s t | _ => True end.
Lemma more_refl : forall s t, r_out t = r_out s -> r_errs t = r_errs s -> more s t.
Proof. intros s t E1 E2. split; exists []; rewrite app_nil_r; auto. Qed.
Lemma more_trans : forall a b c, more a b -> more b c -> more a c.
Proof.
  intros a b c ((o1 & E1) & e1 & F1) ((o2 & E2) & e2 & F2). split.
  - exists (o1 ++ o2). rewrite E2, E1. now rewrite app_assoc.
  - exists (e1 ++ e2). rewrite F2, F1. now rewrite app_assoc.
Qed.
Lemma m_bind : forall A B (f : rm A) (g : A -> rm B), grows f -> (forall a, grows (g a)) -> grows (bind f g).
Proof.
  intros A B f g F G s. unfold bind. specialize (F s). destruct (f s) as [a t| |]; auto. specialize (G a t).
  destruct (g a t); auto. eapply more_trans; eauto.
Qed.
Ltac simp := intros; hnf; intros; cbn; apply more_refl; reflexivity.
Lemma m_ret : forall A (a : A), grows (ret a). Proof. simp. Qed.
Lemma m_panic : forall A, grows (@panic W A). Proof. intros; hnf; cbn; auto. Qed.
Lemma m_nofuel : forall A, grows (@nofuel W A). Proof. intros; hnf; cbn; auto. Qed.
Lemma m_of_opt : forall A (a : option A), grows (of_opt a). Proof. intros A [a|]; [apply m_ret|apply m_panic]. Qed.
Lemma m_write : forall b, grows (write b).
Proof. intros b s. cbn. split; [exists b; reflexivity|exists []; cbn; now rewrite app_nil_r]. Qed.
Lemma m_get_pos : grows get_pos. Proof. simp. Qed.
Lemma m_seek_to : forall n, grows (seek_to n). Proof. simp. Qed.
Lemma m_skip : forall n, grows (skip n). Proof. simp. Qed.
Lemma m_seek : grows (seek res). Proof. intros s. unfold seek. destruct (nth_error _ _); auto. now apply more_refl. Qed.
Lemma m_read : grows (read res). Proof. intros s. unfold read. destruct (nth_error _ _); auto. now apply more_refl. Qed.
Lemma m_u32 : forall n, grows (u32 res n).
Proof. intros n. unfold u32. destruct (skipn n res) as [|a [|b [|c [|d r]]]]; try apply m_panic; apply m_ret. Qed.
Lemma m_slice : forall a b, grows (slice res a b).
Proof. intros. unfold slice. destruct (_ && _); [apply m_ret|apply m_panic]. Qed.
Lemma m_read_name : grows (read_name res). Proof. intros s. unfold read_name. destruct (until0 _); auto. now apply more_refl. Qed.
Lemma m_err : forall b, grows (err b).
Proof. intros b s. cbn. split; [exists []; cbn; now rewrite app_nil_r|eexists; reflexivity]. Qed.
Lemma m_get_path : grows get_path. Proof. simp. Qed.
Lemma m_put_path : forall p, grows (put_path p). Proof. simp. Qed.
Lemma m_get_world : grows get_world. Proof. simp. Qed.
Lemma m_put_world : forall p, grows (put_world p). Proof. simp. Qed.
Lemma m_get_vars : grows get_vars. Proof. simp. Qed.
Lemma m_put_vars : forall p, grows (put_vars p). Proof. simp. Qed.
Lemma m_get_val : grows get_val. Proof. simp. Qed.
Lemma m_set_val : forall v, grows (set_val v). Proof. simp. Qed.
Lemma m_idx_inc : grows idx_inc. Proof. simp. Qed.
Lemma m_idx_dec : grows idx_dec. Proof. simp. Qed.
Lemma m_set_next_val : forall v, grows (set_next_val v). Proof. simp. Qed.

Ltac m_step :=
  match goal with
  | |- grows (ret _) => apply m_ret
  | |- grows (okay _) => apply m_ret
  | |- grows panic => apply m_panic
  | |- grows nofuel => apply m_nofuel
  | |- grows (bind _ _) => apply m_bind; [|intro]
  | |- grows (of_opt _) => apply m_of_opt
  | |- grows (err _) => apply m_err
  | |- grows (fail _ _) => unfold fail
  | |- grows (write _) => apply m_write
  | |- grows (write_quoted _) => apply m_write
  | |- grows write_null => apply m_write
  | |- grows get_pos => apply m_get_pos
  | |- grows (seek_to _) => apply m_seek_to
  | |- grows (skip _) => apply m_skip
  | |- grows (seek _) => apply m_seek
  | |- grows (read _) => apply m_read
  | |- grows (u32 _ _) => apply m_u32
  | |- grows (slice _ _ _) => apply m_slice
  | |- grows (read_name _) => apply m_read_name
  | |- grows get_path => apply m_get_path
  | |- grows (put_path _) => apply m_put_path
  | |- grows get_world => apply m_get_world
  | |- grows (put_world _) => apply m_put_world
  | |- grows get_vars => apply m_get_vars
  | |- grows (put_vars _) => apply m_put_vars
  | |- grows get_val => apply m_get_val
  | |- grows (set_val _) => apply m_set_val
  | |- grows (set_next_val _) => apply m_set_next_val
  | |- grows idx_inc => apply m_idx_inc
  | |- grows idx_dec => apply m_idx_dec
  | |- grows (set_int _ _) => unfold set_int
  | |- grows (set_uint _ _) => unfold set_uint
  | |- grows (set_float _ _ _) => unfold set_float
  | |- grows (set_bool _ _) => unfold set_bool
  | |- grows (set_string _ _) => unfold set_string
  | |- grows (set_any _ _) => unfold set_any
  | |- grows (field_of _ _) => unfold field_of
  | |- grows (content_of _ _) => unfold content_of
  | |- grows (same_enum_value _ _ _) => unfold same_enum_value
  | H : grows ?f |- grows ?f => exact H
  | H : forall _, _ |- grows _ => apply H
  | |- grows (match ?x with _ => _ end) => destruct x
  | |- grows (let '(_, _) := ?x in _) => destruct x
  | |- grows (if ?x then _ else _) => destruct x
  end.
Ltac m_all := repeat m_step.
Lemma m_assign_enum : forall g e n, grows (assign_enum g e n). Proof. intros. unfold assign_enum. m_all. Qed.
Lemma m_assign_id : forall g s, grows (assign_id g s). Proof. intros. unfold assign_id. m_all. Qed.
Lemma m_assign_time : forall g s, grows (assign_time g s). Proof. intros. unfold assign_time. m_all. Qed.
Lemma m_assign_file : forall g s, grows (assign_file X g s).
Proof.
  intros g b. unfold assign_file. destruct (x_formfile X) as [get|]; [|apply m_panic].
  intros s. destruct (get (r_world s) b) as [w r].
  assert (R : grows (match r with inl f => bind (set_any g (GFile (Some f))) (fun v => okay v) | inr e => fail g e end)) by (destruct r; m_all).
  specialize (R (set_world w s)). cbv beta zeta in *. match goal with |- match ?a with _ => _ end => destruct a end; auto.
Qed.
Ltac m_leaf :=
  match goal with
  | |- grows (assign_enum _ _ _) => apply m_assign_enum
  | |- grows (assign_id _ _) => apply m_assign_id
  | |- grows (assign_time _ _) => apply m_assign_time
  | |- grows (assign_file _ _ _) => apply m_assign_file
  end.
Lemma m_assign_string : forall g i s, grows (assign_string X S g i s).
Proof. intros. unfold assign_string. repeat first [m_leaf | m_step]. Qed.
Lemma m_json_number : forall g s, grows (json_number X g s). Proof. intros. unfold json_number. m_all. Qed.
Lemma m_int_literal : forall g s, grows (int_literal X g s). Proof. intros. unfold int_literal. m_all. Qed.
Lemma m_through_ptr : forall g i f m, (forall g i, grows (f g i)) -> grows m -> grows (through_ptr g i f m).
Proof. intros g i f m Hf Hm. unfold through_ptr. m_all. Qed.
Ltac m_leaf2 :=
  match goal with
  | |- grows (assign_string _ _ _ _ _) => apply m_assign_string
  | |- grows (json_number _ _ _) => apply m_json_number
  | |- grows (int_literal _ _ _) => apply m_int_literal
  end.
Ltac m_more := repeat first [m_leaf | m_leaf2 | m_step].
Lemma m_bind_json : forall fuel g i j, grows (bind_json X S fuel g i j).
Proof.
  induction fuel as [|fuel IH]; intros g i j; [apply m_nofuel|].
  cbn [bind_json]. apply m_through_ptr; [intros; apply IH|].
  destruct (i_enum i) as [en|], (i_isid i), (i_isfile i), (i_istime i); try (destruct j; m_more; fail).
  destruct j as [| | |raw|s|l|m]; try (m_more; fail).
  - destruct (kind_of (snd g)); try (m_more; fail). match goal with |- grows (?F l []) => enough (H : forall l acc, grows (F l acc)) by apply H end. clear l.
    induction l as [|x r IHl]; intros acc; [m_more|].
    apply m_bind; [apply m_of_opt|]. intro ei. apply m_bind; [apply IH|]. intros [[ev s] c]. destruct c; [apply m_ret|apply IHl].
  - destruct (kind_of (snd g)); try (m_more; fail). apply m_bind; [unfold content_of; m_all|]. intro c.
    generalize (snd g) as v. induction m as [|[k x] r IHm]; intros v; [m_more|].
    destruct (slookup c k); [|m_more]. apply m_bind; [unfold field_of; m_all|]. intro f.
    apply m_bind; [apply IH|]. intros [[ev s] cr]. destruct cr; [apply m_ret|apply IHm].
Qed.
Lemma m_bind_external : forall fuel g i n, grows (bind_external X S rawvars fuel g i n).
Proof. intros. unfold bind_external. repeat first [apply m_bind_json | m_step]. Qed.

Variable hasargs : bool.
Variable argsat : nat.
Lemma m_find_loop : forall fuel name, grows (find_arg_loop res fuel name).
Proof. induction fuel as [|fuel IH]; intros; [apply m_nofuel|]. cbn [find_arg_loop]. m_all. Qed.
Lemma m_find : forall fuel name, grows (find_arg res hasargs argsat fuel name).
Proof. intros. unfold find_arg. repeat first [apply m_find_loop | m_step]. Qed.
Lemma m_marks : forall fuel i c name, grows (list_marks res fuel i c name).
Proof. induction fuel as [|fuel IH]; intros; cbn [list_marks]; m_all. Qed.
Lemma m_mismatch : forall i t, grows (type_mismatch S i t). Proof. intros. unfold type_mismatch. m_all. Qed.
Lemma m_walk : forall A fuel (f : A -> bytes -> rm (A * bool)) a, (forall a k, grows (f a k)) -> grows (walk_object res fuel f a).
Proof. induction fuel as [|fuel IH]; intros; cbn [walk_object]; m_all; auto. Qed.
Lemma m_bind_input : forall fuel,
  (forall g i b, grows (bind_input X S res rawvars hasargs argsat fuel g i b)) /\ (forall g i n, grows (bind_oparg X S res rawvars hasargs argsat fuel g i n)).
Proof.
  induction fuel as [|fuel [IH1 IH2]]; [split; intros; apply m_nofuel|]. split.
  - intros g i b. cbn [bind_input]. apply m_through_ptr.
    + intros. m_all.
    + do 3 (apply m_bind; [m_all|intro]). 
      match goal with |- grows (if ?x then _ else _) => destruct x end; [repeat first [apply m_find | m_step]|].
      do 6 (match goal with |- grows (if ?x then _ else _) => destruct x end; [m_more|]).
      match goal with |- grows (if ?x then _ else _) => destruct x end.
      { destruct (kind_of (snd g)); try (m_all; fail). apply m_bind; [m_all|intro].
        match goal with |- grows (?F fuel []) => enough (H : forall n acc, grows (F n acc)) by apply H end.
        induction n as [|n IHn]; intros acc; cbn; m_all. }
      match goal with |- grows (if ?x then _ else _) => destruct x end; [|m_all].
      destruct (kind_of (snd g)); try (m_all; fail). do 4 (apply m_bind; [m_all|intro]).
      apply m_bind; [|intros [[? ?] ?]; m_all]. apply m_bind; [|intro; m_all]. apply m_walk. intros [v s] k. m_all.
  - intros g i n. cbn [bind_oparg]. repeat first [apply m_marks | apply m_mismatch | apply m_bind_external | m_step].
Qed.
Lemma m_bind_args : forall fuel a b c, grows (bind_args X S res rawvars hasargs argsat fuel a b c).
Proof.
  intros. unfold bind_args. destruct c; [|m_all]. apply m_bind; [m_all|intro]. apply m_walk. intros.
  repeat first [apply (proj1 (m_bind_input fuel)) | m_step].
Qed.
Lemma m_directive : forall fuel loc, grows (resolve_directive X S res rawvars hasargs argsat fuel loc).
Proof. intros. unfold resolve_directive. repeat first [apply m_bind_args | m_step]. Qed.
Lemma m_directives : forall fuel loc n, grows (resolve_directives X S res rawvars hasargs argsat fuel loc n).
Proof. induction n; cbn [resolve_directives]; repeat first [apply m_directive | m_step]. Qed.
Lemma m_value_json : forall v k, grows (value_json X v k). Proof. intros. unfold value_json. m_all. Qed.
Lemma m_write_enum : forall k v es, grows (write_enum k v es). Proof. induction es as [|[n e] es IH]; cbn [write_enum]; m_all. Qed.

Ltac m_leaf3 :=
  match goal with
  | |- grows (resolve_directives _ _ _ _ _ _ _ _ _) => apply m_directives
  | |- grows (bind_args _ _ _ _ _ _ _ _ _ _) => apply m_bind_args
  | |- grows (value_json _ _ _) => apply m_value_json
  | |- grows (write_enum _ _ _) => apply m_write_enum
  end.
Theorem m_run : forall fuel,
  (forall o d f, grows (resolve_sel X S res frags rawvars hasargs argsat fuel o d f)) /\
  (forall o d f, grows (resolve_spread X S res frags rawvars hasargs argsat fuel o d f)) /\
  (forall o d f, grows (resolve_field X S res frags rawvars hasargs argsat fuel o d f)) /\
  (forall o d f, grows (resolve_value X S res frags rawvars hasargs argsat fuel o d f)).
Proof.
  induction fuel as [|fuel (IHs & IHp & IHf & IHv)]; [repeat split; intros; apply m_nofuel|]. repeat split.
  - intros o d f. cbn [resolve_sel]. repeat first [apply IHs | apply IHp | apply IHf | m_step].
  - intros o d f. cbn [resolve_spread]. do 7 (apply m_bind; [m_all|intro]).
    apply m_bind; [apply m_directives|]. intros [sk cr]. destruct (cr || sk); [m_all|].
    match goal with |- grows (if ?x then _ else _) => destruct x end; [m_all|].
    match goal with |- grows (?F frags) => enough (H : forall l, grows (F l)) by apply H end. induction l as [|l r IHl]; m_all.
  - intros o d f. cbn [resolve_field]. do 16 (apply m_bind; [m_all|intro]).
    match goal with |- grows (let '(_, _) := ?x in _) => destruct x as [nstart nend] end.
    repeat first [m_leaf3 | apply IHv | m_step].
  - intros o d f. cbn [resolve_value]. do 2 (apply m_bind; [m_all|intro]).
    match goal with |- grows (if ?x then _ else _) => destruct x end; [m_all|].
    destruct o as [|e|nm|nm fs|isid k|e|m|en| |nm|nm fs is]; try (repeat first [m_leaf3 | apply IHv | apply IHs | m_step]; fail).
    assert (L : forall p n l, grows (
                (fix elems (n : N) (l : list gval) : rm unit :=
                   match l with
                   | [] => ret tt
                   | v :: r =>
                       bind (seek_to p) (fun _ =>
                       bind get_path (fun path =>
                       bind (put_path (path ++ [44] ++ dec_of_N n)) (fun _ =>
                       bind (set_val (fst a, v)) (fun _ =>
                       bind (resolve_value X S res frags rawvars hasargs argsat fuel e d f) (fun _ =>
                       bind (match r with [] => ret tt | _ => write [44] end) (fun _ =>
                       bind (put_path path) (fun _ =>
                       elems (n + 1) r)))))))
                   end) n l)).
    { intros p n l. revert n. induction l as [|v r IHl]; intro n; [apply m_ret|].
      do 4 (apply m_bind; [m_all|intro]). apply m_bind; [apply IHv|intro]. do 2 (apply m_bind; [m_all|intro]). apply IHl. }
    destruct (snd a) as [| | | | |[l|]|l| | | | | | | | | |]; try (m_all; fail).
    all: do 3 (apply m_bind; [m_all|intro]); apply m_bind; [apply L|intro]; m_all.
Qed.
End Grow.

Theorem operation_grows : forall W (X : externals W) S res frags rawvars fuel s,
  match resolve_operation X S res frags rawvars fuel s with ROk _ t => more s t | _ => True end.
Proof.
  intros W X S res frags rawvars fuel. change (grows (resolve_operation X S res frags rawvars fuel)). unfold resolve_operation.
  apply m_bind; [apply m_skip|intros _]. apply m_bind; [apply m_read|intro k]. destruct (k =? 115); [apply m_err|].
  apply m_bind. { destruct (k =? 113); [|destruct (k =? 109); [|apply m_ret]]; intro s; cbn; apply more_refl; reflexivity. }
  intros _. apply m_bind; [apply m_read|intro a]. apply m_bind; [apply m_read|intro ds]. destruct (0 <? ds); [apply m_err|].
  apply m_bind; [apply m_read_name|intros _]. apply m_bind.
  { destruct (a =? 116); [|apply m_ret]. apply m_bind; [apply m_get_pos|intro]. apply m_bind; [apply m_u32|intro].
    apply m_bind; [apply m_skip|intro]. apply m_ret. }
  intro at_. apply m_bind; [apply (proj1 (m_run X S res frags rawvars (a =? 116) at_ fuel))|]. intros [? ?]. apply m_ret.
Qed.
