(** * The reflect values left behind by an earlier request do not matter (proofs) *)
From Coq Require Import String Arith NArith ZArith Bool List Lia ZifyBool ZifyN ZifyNat.
From Verif Require Import Base JsonModel Ast Grammar RefGrammar ParserModel ParserFacts ReqModel Schema ResModel EnvModel DocRun.
Import ListNotations.
Open Scope N_scope.

Section Indep.
Context {W : Type}.
Variable X : externals W.
Variable S : schema.
Variable res : bytes.
Variable frags : list nat.
Variable rawvars : bytes.
Notation st := (rst W).
Notation rm := (@rm W).

(** the same state up to the values above [m] *)
Definition eqv (m : N) (s t : st) : Prop :=
  r_pos s = r_pos t /\ r_out s = r_out t /\ r_errs s = r_errs t /\ r_path s = r_path t /\ r_idx s = r_idx t /\
  r_vars s = r_vars t /\ r_world s = r_world t /\ forall j, j <= m -> r_vals s j = r_vals t j.
Definition same {A} (k m : N) (x y : @rout W A) : Prop :=
  match x, y with
  | ROk a s, ROk b t => a = b /\ r_idx s = k /\ exists m', m <= m' < 256 /\ eqv m' s t
  | RPanic, RPanic | RNoFuel, RNoFuel => True
  | _, _ => False
  end.
(** started with index [k], values up to [m] alike, ending with index [k'] *)
Definition rel {A} (f : rm A) : Prop := forall m s t, m < 256 -> r_idx s <= m -> eqv m s t -> same (r_idx s) m (f s) (f t).
(** also if the value at the index itself is not alike *)
Definition rel1 {A} (f : rm A) : Prop := forall m s t, m < 256 -> r_idx s <= m + 1 -> r_idx s < 256 -> eqv m s t -> same (r_idx s) m (f s) (f t).

Lemma rel1_rel : forall A (f : rm A), rel1 f -> rel f.
Proof. intros A f H m s t B I E. apply H; auto; lia. Qed.
Lemma rel_bind : forall A B (f : rm A) (g : A -> rm B), rel f -> (forall a, rel (g a)) -> rel (bind f g).
Proof.
  intros A B f g F G m s t L I E. unfold bind. specialize (F m s t L I E). unfold same in *.
  destruct (f s) as [a s1| |], (f t) as [b t1| |]; try contradiction; auto.
  destruct F as (-> & K & m' & M & E'). specialize (G b m' s1 t1 ltac:(lia) ltac:(lia) E').
  destruct (g b s1), (g b t1); try contradiction; auto. destruct G as (-> & K' & m2 & M2 & E2). split; auto. split; [lia|].
  exists m2. split; auto; lia.
Qed.
Lemma rel1_bind : forall A B (f : rm A) (g : A -> rm B), rel1 f -> (forall a, rel1 (g a)) -> rel1 (bind f g).
Proof.
  intros A B f g F G m s t L I I' E. unfold bind. specialize (F m s t L I I' E). unfold same in *.
  destruct (f s) as [a s1| |], (f t) as [b t1| |]; try contradiction; auto.
  destruct F as (-> & K & m' & M & E'). specialize (G b m' s1 t1 ltac:(lia) ltac:(lia) ltac:(lia) E').
  destruct (g b s1), (g b t1); try contradiction; auto. destruct G as (-> & K' & m2 & M2 & E2). split; auto. split; [lia|].
  exists m2. split; auto; lia.
Qed.
(** operations that neither look at nor change the values *)
Ltac simple := hnf; intros; cbn; unfold eqv in *; cbn; intuition eauto; try congruence.
Ltac simp := intros ? ? ? ? ? ? E; destruct E as (E1 & E2 & E3 & E4 & E5 & E6 & E7 & E8); cbn;
  repeat (split; [try reflexivity; try congruence; auto|]); try (eexists; split; [split; [apply N.le_refl|eassumption]|]);
  unfold eqv; cbn; repeat split; auto; congruence.
Lemma r_ret : forall A (a : A), rel1 (ret a). Proof. intros; simp. Qed.
Lemma r_panic : forall A, rel1 (@panic W A). Proof. intros; hnf; cbn; auto. Qed.
Lemma r_nofuel : forall A, rel1 (@nofuel W A). Proof. intros; hnf; cbn; auto. Qed.
Lemma r_of_opt : forall A (a : option A), rel1 (of_opt a). Proof. intros A [a|]; [apply r_ret|apply r_panic]. Qed.
Lemma r_write : forall b, rel1 (write b). Proof. intros; simp. Qed.
Lemma r_get_pos : rel1 get_pos. Proof. intros; simp. Qed.
Lemma r_seek_to : forall n, rel1 (seek_to n). Proof. intros; simp. Qed.
Lemma r_skip : forall n, rel1 (skip n). Proof. intros; simp. Qed.
Lemma r_seek : rel1 (seek res).
Proof.
  intros m s t L I I' E. destruct E as (E1 & E). unfold seek. rewrite <- E1. destruct (nth_error res (r_pos s)); cbn; auto.
  split; auto. split; auto. exists m. split; [lia|]. split; auto.
Qed.
Lemma r_read : rel1 (read res).
Proof.
  intros m s t L I I' E. destruct E as (E1 & E). unfold read. rewrite <- E1. destruct (nth_error res (r_pos s)); cbn; auto.
  split; auto. split; auto. exists m. split; [lia|]. unfold eqv. cbn. intuition congruence.
Qed.
Lemma r_u32 : forall n, rel1 (u32 res n).
Proof. intros n. unfold u32. destruct (skipn n res) as [|a [|b [|c [|d r]]]]; try apply r_panic; apply r_ret. Qed.
Lemma r_slice : forall a b, rel1 (slice res a b).
Proof. intros. unfold slice. destruct (_ && _); [apply r_ret|apply r_panic]. Qed.
Lemma r_read_name : rel1 (read_name res).
Proof.
  intros m s t L I I' E. destruct E as (E1 & E). unfold read_name. rewrite <- E1. destruct (until0 _); cbn; auto.
  split; auto. split; auto. exists m. split; [lia|]. unfold eqv. cbn. intuition congruence.
Qed.
Lemma r_err : forall b, rel1 (err b).
Proof.
  intros b m s t L I I' E. destruct E as (E1 & E2 & E3 & E4 & E5 & E6 & E7 & E8). cbn. split; auto. split; auto. exists m. split; [lia|].
  unfold eqv. cbn. rewrite E3, E4. intuition congruence.
Qed.
Lemma r_get_path : rel1 get_path. Proof. intros; simp. Qed.
Lemma r_put_path : forall p, rel1 (put_path p). Proof. intros; simp. Qed.
Lemma r_get_world : rel1 get_world. Proof. intros; simp. Qed.
Lemma r_put_world : forall p, rel1 (put_world p). Proof. intros; simp. Qed.
Lemma r_get_vars : rel1 get_vars. Proof. intros; simp. Qed.
Lemma r_put_vars : forall p, rel1 (put_vars p). Proof. intros; simp. Qed.

Ltac r_step :=
  match goal with
  | |- rel1 (ret _) => apply r_ret
  | |- rel1 (okay _) => apply r_ret
  | |- rel1 panic => apply r_panic
  | |- rel1 nofuel => apply r_nofuel
  | |- rel1 (bind _ _) => apply rel1_bind; [|intro]
  | |- rel1 (of_opt _) => apply r_of_opt
  | |- rel1 (err _) => apply r_err
  | |- rel1 (fail _ _) => unfold fail
  | |- rel1 (write _) => apply r_write
  | |- rel1 (write_quoted _) => apply r_write
  | |- rel1 write_null => apply r_write
  | |- rel1 get_pos => apply r_get_pos
  | |- rel1 (seek_to _) => apply r_seek_to
  | |- rel1 (skip _) => apply r_skip
  | |- rel1 (seek _) => apply r_seek
  | |- rel1 (read _) => apply r_read
  | |- rel1 (u32 _ _) => apply r_u32
  | |- rel1 (slice _ _ _) => apply r_slice
  | |- rel1 (read_name _) => apply r_read_name
  | |- rel1 get_path => apply r_get_path
  | |- rel1 (put_path _) => apply r_put_path
  | |- rel1 get_world => apply r_get_world
  | |- rel1 (put_world _) => apply r_put_world
  | |- rel1 get_vars => apply r_get_vars
  | |- rel1 (put_vars _) => apply r_put_vars
  | |- rel1 (set_int _ _) => unfold set_int
  | |- rel1 (set_uint _ _) => unfold set_uint
  | |- rel1 (set_float _ _ _) => unfold set_float
  | |- rel1 (set_bool _ _) => unfold set_bool
  | |- rel1 (set_string _ _) => unfold set_string
  | |- rel1 (set_any _ _) => unfold set_any
  | |- rel1 (field_of _ _) => unfold field_of
  | |- rel1 (content_of _ _) => unfold content_of
  | |- rel1 (same_enum_value _ _ _) => unfold same_enum_value
  | H : rel1 ?f |- rel1 ?f => exact H
  | H : forall _, _ |- rel1 _ => apply H
  | |- rel1 (match ?x with _ => _ end) => destruct x
  | |- rel1 (let '(_, _) := ?x in _) => destruct x
  | |- rel1 (if ?x then _ else _) => destruct x
  end.
Ltac r_all := repeat r_step.
Lemma r_assign_enum : forall g e n, rel1 (assign_enum g e n). Proof. intros. unfold assign_enum. r_all. Qed.
Lemma r_assign_id : forall g s, rel1 (assign_id g s). Proof. intros. unfold assign_id. r_all. Qed.
Lemma r_assign_time : forall g s, rel1 (assign_time g s). Proof. intros. unfold assign_time. r_all. Qed.
Lemma r_assign_file : forall g s, rel1 (assign_file X g s).
Proof.
  intros g b. unfold assign_file. destruct (x_formfile X) as [get|]; [|apply r_panic].
  intros m s t L I I' E. pose proof E as (E1 & E2 & E3 & E4 & E5 & E6 & E7 & E8). rewrite <- E7. destruct (get (r_world s) b) as [w r].
  assert (R : rel1 (match r with inl f => bind (set_any g (GFile (Some f))) (fun v => okay v) | inr e => fail g e end)) by (destruct r; r_all).
  apply (R m (set_world w s) (set_world w t)); auto. unfold eqv. cbn. intuition congruence.
Qed.
Ltac r_leaf :=
  match goal with
  | |- rel1 (assign_enum _ _ _) => apply r_assign_enum
  | |- rel1 (assign_id _ _) => apply r_assign_id
  | |- rel1 (assign_time _ _) => apply r_assign_time
  | |- rel1 (assign_file _ _ _) => apply r_assign_file
  end.
Lemma r_assign_string : forall g i s, rel1 (assign_string X S g i s).
Proof. intros. unfold assign_string. repeat first [r_leaf | r_step]. Qed.
Lemma r_json_number : forall g s, rel1 (json_number X g s). Proof. intros. unfold json_number. r_all. Qed.
Lemma r_int_literal : forall g s, rel1 (int_literal X g s). Proof. intros. unfold int_literal. r_all. Qed.
Lemma r_through_ptr : forall g i f m, (forall g i, rel1 (f g i)) -> rel1 m -> rel1 (through_ptr g i f m).
Proof. intros g i f m Hf Hm. unfold through_ptr. r_all. Qed.
Ltac r_leaf2 :=
  match goal with
  | |- rel1 (assign_string _ _ _ _ _) => apply r_assign_string
  | |- rel1 (json_number _ _ _) => apply r_json_number
  | |- rel1 (int_literal _ _ _) => apply r_int_literal
  end.
Ltac r_more := repeat first [r_leaf | r_leaf2 | r_step].
Lemma r_bind_json : forall fuel g i j, rel1 (bind_json X S fuel g i j).
Proof.
  induction fuel as [|fuel IH]; intros g i j; [apply r_nofuel|].
  cbn [bind_json]. apply r_through_ptr; [intros; apply IH|].
  destruct (i_enum i) as [en|], (i_isid i), (i_isfile i), (i_istime i); try (destruct j; r_more; fail).
  destruct j as [| | |raw|s|l|m]; try (r_more; fail).
  - destruct (kind_of (snd g)); try (r_more; fail). match goal with |- rel1 (?F l []) => enough (H : forall l acc, rel1 (F l acc)) by apply H end. clear l.
    induction l as [|x r IHl]; intros acc; [r_more|].
    apply rel1_bind; [apply r_of_opt|]. intro ei. apply rel1_bind; [apply IH|]. intros [[ev s] c]. destruct c; [apply r_ret|apply IHl].
  - destruct (kind_of (snd g)); try (r_more; fail). apply rel1_bind; [unfold content_of; r_all|]. intro c.
    generalize (snd g) as v. induction m as [|[k x] r IHm]; intros v; [r_more|].
    destruct (slookup c k); [|r_more]. apply rel1_bind; [unfold field_of; r_all|]. intro f.
    apply rel1_bind; [apply IH|]. intros [[ev s] cr]. destruct cr; [apply r_ret|apply IHm].
Qed.
Lemma r_bind_external : forall fuel g i n, rel1 (bind_external X S rawvars fuel g i n).
Proof. intros. unfold bind_external. repeat first [apply r_bind_json | r_step]. Qed.

Variable hasargs : bool.
Variable argsat : nat.
Lemma r_find_loop : forall fuel name, rel1 (find_arg_loop res fuel name).
Proof. induction fuel as [|fuel IH]; intros; [apply r_nofuel|]. cbn [find_arg_loop]. r_all. Qed.
Lemma r_find : forall fuel name, rel1 (find_arg res hasargs argsat fuel name).
Proof. intros. unfold find_arg. repeat first [apply r_find_loop | r_step]. Qed.
Lemma r_marks : forall fuel i c name, rel1 (list_marks res fuel i c name).
Proof. induction fuel as [|fuel IH]; intros; cbn [list_marks]; r_all. Qed.
Lemma r_mismatch : forall i t, rel1 (type_mismatch S i t). Proof. intros. unfold type_mismatch. r_all. Qed.
Lemma r_walk : forall A fuel (f : A -> bytes -> rm (A * bool)) a, (forall a k, rel1 (f a k)) -> rel1 (walk_object res fuel f a).
Proof. induction fuel as [|fuel IH]; intros; cbn [walk_object]; r_all; auto. Qed.
Lemma r_bind_input : forall fuel,
  (forall g i b, rel1 (bind_input X S res rawvars hasargs argsat fuel g i b)) /\ (forall g i n, rel1 (bind_oparg X S res rawvars hasargs argsat fuel g i n)).
Proof.
  induction fuel as [|fuel [IH1 IH2]]; [split; intros; apply r_nofuel|]. split.
  - intros g i b. cbn [bind_input]. apply r_through_ptr.
    + intros. r_all.
    + do 3 (apply rel1_bind; [r_all|intro]). 
      match goal with |- rel1 (if ?x then _ else _) => destruct x end; [repeat first [apply r_find | r_step]|].
      do 6 (match goal with |- rel1 (if ?x then _ else _) => destruct x end; [r_more|]).
      match goal with |- rel1 (if ?x then _ else _) => destruct x end.
      { destruct (kind_of (snd g)); try (r_all; fail). apply rel1_bind; [r_all|intro].
        match goal with |- rel1 (?F fuel []) => enough (H : forall n acc, rel1 (F n acc)) by apply H end.
        induction n as [|n IHn]; intros acc; cbn; r_all. }
      match goal with |- rel1 (if ?x then _ else _) => destruct x end; [|r_all].
      destruct (kind_of (snd g)); try (r_all; fail). do 4 (apply rel1_bind; [r_all|intro]).
      apply rel1_bind; [|intros [[? ?] ?]; r_all]. apply rel1_bind; [|intro; r_all]. apply r_walk. intros [v s] k. r_all.
  - intros g i n. cbn [bind_oparg]. repeat first [apply r_marks | apply r_mismatch | apply r_bind_external | r_step].
Qed.
Lemma r_bind_args : forall fuel a b c, rel1 (bind_args X S res rawvars hasargs argsat fuel a b c).
Proof.
  intros. unfold bind_args. destruct c; [|r_all]. apply rel1_bind; [r_all|intro]. apply r_walk. intros.
  repeat first [apply (proj1 (r_bind_input fuel)) | r_step].
Qed.
Lemma r_directive : forall fuel loc, rel1 (resolve_directive X S res rawvars hasargs argsat fuel loc).
Proof. intros. unfold resolve_directive. repeat first [apply r_bind_args | r_step]. Qed.
Lemma r_directives : forall fuel loc n, rel1 (resolve_directives X S res rawvars hasargs argsat fuel loc n).
Proof. induction n; cbn [resolve_directives]; repeat first [apply r_directive | r_step]. Qed.
Lemma r_value_json : forall v k, rel1 (value_json X v k). Proof. intros. unfold value_json. r_all. Qed.
Lemma r_write_enum : forall k v es, rel1 (write_enum k v es). Proof. induction es as [|[n e] es IH]; cbn [write_enum]; r_all. Qed.

(** the operations on the values *)
Lemma r_get_val : rel get_val.
Proof.
  intros m s t L I E. pose proof E as (E1 & E2 & E3 & E4 & E5 & E6 & E7 & E8). cbn. split; [rewrite <- E5; apply E8; auto|]. split; auto.
  exists m. split; [lia|exact E].
Qed.
Lemma set_val_alike : forall v m s t, m < 256 -> r_idx s <= m + 1 -> r_idx s < 256 -> eqv m s t ->
  exists m', m <= m' < 256 /\ r_idx s <= m' /\
    eqv m' (set_vals (upd (r_vals s) (r_idx s) v) (r_idx s) s) (set_vals (upd (r_vals t) (r_idx t) v) (r_idx t) t).
Proof.
  intros v m s t L I I' (E1 & E2 & E3 & E4 & E5 & E6 & E7 & E8). exists (N.max m (r_idx s)). split; [lia|]. split; [lia|].
  unfold eqv. cbn. rewrite <- E5. repeat split; auto. intros j J. unfold upd. destruct (N.eqb_spec j (r_idx s)); auto. apply E8. lia.
Qed.
Lemma r_set_val : forall v, rel1 (set_val v).
Proof.
  intros v m s t L I I' E. cbn. destruct (set_val_alike v m s t L I I' E) as (m' & M & K & E'). split; auto. split; auto. eauto.
Qed.
Lemma mod_back : forall k, k < 256 -> ((k + 1) mod 256 + 255) mod 256 = k.
Proof.
  intros k H. destruct (N.eq_dec k 255) as [->|H']; [reflexivity|]. rewrite (N.mod_small (k + 1)) by lia.
  replace (k + 1 + 255) with (k + 1 * 256) by lia. rewrite N.mod_add by lia. apply N.mod_small. lia.
Qed.
(** one step deeper and back *)
Lemma enter : forall m s t, m < 256 -> r_idx s <= m -> eqv m s t ->
  let s1 := set_vals (r_vals s) ((r_idx s + 1) mod 256) s in let t1 := set_vals (r_vals t) ((r_idx t + 1) mod 256) t in
  eqv m s1 t1 /\ r_idx s1 <= m + 1 /\ r_idx s1 < 256.
Proof.
  intros m s t L I E s1 t1. split; [unfold eqv in *; cbn; intuition congruence|]. cbn.
  destruct (N.eq_dec (r_idx s) 255) as [->|]; [split; [apply N.le_0_l|reflexivity]|]. rewrite N.mod_small by lia. lia.
Qed.
Lemma leave : forall m k s t, r_idx s = (k + 1) mod 256 -> k < 256 -> eqv m s t ->
  let s1 := set_vals (r_vals s) ((r_idx s + 255) mod 256) s in let t1 := set_vals (r_vals t) ((r_idx t + 255) mod 256) t in
  eqv m s1 t1 /\ r_idx s1 = k.
Proof. intros m k s t K L E s1 t1. split; [unfold eqv in *; cbn; intuition congruence|]. cbn. rewrite K. now apply mod_back. Qed.
Lemma same_bind : forall A B (f : rm A) (g : A -> rm B) s t k k2 m, same k m (f s) (f t) ->
  (forall a s1 t1 m', m <= m' < 256 -> r_idx s1 = k -> eqv m' s1 t1 -> same k2 m' (g a s1) (g a t1)) -> same k2 m (bind f g s) (bind f g t).
Proof.
  intros A B f g s t k k2 m F G. unfold bind. unfold same in F.
  destruct (f s) as [a s1| |], (f t) as [b t1| |]; try contradiction; auto.
  destruct F as (-> & K & m' & M & E). specialize (G b s1 t1 m' M K E). unfold same in *.
  destruct (g b s1), (g b t1); try contradiction; auto. destruct G as (-> & K2 & m2 & M2 & E2). split; auto. split; auto.
  exists m2. split; auto. lia.
Qed.
Lemma leave_rel : forall A (h : rm A) m k s t, r_idx s = (k + 1) mod 256 -> k <= m -> m < 256 -> eqv m s t -> rel h ->
  same k m (bind idx_dec (fun _ => h) s) (bind idx_dec (fun _ => h) t).
Proof.
  intros A h m k s t K L M E H. destruct (leave m k s t K ltac:(lia) E) as (E2 & K2).
  specialize (H m _ _ M ltac:(rewrite K2; exact L) E2). rewrite K2 in H. exact H.
Qed.
Lemma rel_array : forall A B (f : nat -> rm A) (h : rm B), (forall p, rel1 (f p)) -> rel h ->
  rel (bind idx_inc (fun _ => bind get_pos (fun p => bind (f p) (fun _ => bind idx_dec (fun _ => h))))).
Proof.
  intros A B f h F H m s t L I E. destruct (enter m s t L I E) as (E1 & J & J').
  change (same (r_idx s) m (bind get_pos (fun p => bind (f p) (fun _ => bind idx_dec (fun _ => h))) (set_vals (r_vals s) ((r_idx s + 1) mod 256) s))
    (bind get_pos (fun p => bind (f p) (fun _ => bind idx_dec (fun _ => h))) (set_vals (r_vals t) ((r_idx t + 1) mod 256) t))).
  set (s1 := set_vals (r_vals s) _ s) in *. set (t1 := set_vals (r_vals t) _ t) in *.
  eapply same_bind; [apply (r_get_pos m s1 t1 L J J' E1)|]. intros p s2 t2 m2 M2 K2 E2.
  eapply same_bind; [apply (F p m2 s2 t2 ltac:(lia) ltac:(lia) ltac:(lia) E2)|]. intros a s3 t3 m3 M3 K3 E3.
  apply leave_rel; auto; try lia. rewrite K3, K2; reflexivity.
Qed.
Lemma rel_deeper : forall A B v (f : rm A) (h : A -> rm B), rel f -> (forall a, rel (h a)) ->
  rel (bind (set_next_val v) (fun _ => bind f (fun a => bind idx_dec (fun _ => h a)))).
Proof.
  intros A B v f h F H m s t L I E. destruct (enter m s t L I E) as (E1 & J & J').
  set (s1 := set_vals (r_vals s) _ s) in *. set (t1 := set_vals (r_vals t) _ t) in *.
  destruct (set_val_alike v m s1 t1 L J J' E1) as (m1 & M1 & J1 & E2).
  set (s2 := set_vals _ _ s1) in E2. set (t2 := set_vals _ _ t1) in E2.
  change (same (r_idx s) m (bind f (fun a => bind idx_dec (fun _ => h a)) s2) (bind f (fun a => bind idx_dec (fun _ => h a)) t2)).
  assert (G : same (r_idx s) m1 (bind f (fun a => bind idx_dec (fun _ => h a)) s2) (bind f (fun a => bind idx_dec (fun _ => h a)) t2)).
  { eapply same_bind; [apply (F m1 s2 t2 (proj2 M1) J1 E2)|]. intros a s3 t3 m3 M3 K3 E3. apply leave_rel; auto; lia. }
  unfold same in *. destruct (bind f _ s2), (bind f _ t2); auto. destruct G as (G1 & G2 & m3 & G3 & G4). split; auto. split; auto. exists m3. split; auto. lia.
Qed.
Lemma rel_deeper0 : forall B v (h : rm B), rel h -> rel (bind (set_next_val v) (fun _ => bind idx_dec (fun _ => h))).
Proof. intros B v h H. exact (rel_deeper unit B v (ret tt) (fun _ => h) (rel1_rel _ _ (r_ret _ tt)) (fun _ => H)). Qed.
Lemma rel1_set_val_bind : forall A v (f : rm A), rel f -> rel1 (bind (set_val v) (fun _ => f)).
Proof.
  intros A v f F m s t L I I' E. destruct (set_val_alike v m s t L I I' E) as (m' & M & K & E').
  set (s2 := set_vals _ _ s) in E'. set (t2 := set_vals _ _ t) in E'. change (same (r_idx s) m (f s2) (f t2)).
  specialize (F m' s2 t2 (proj2 M) K E'). change (r_idx s2) with (r_idx s) in F. unfold same in *. destruct (f s2), (f t2); try contradiction; auto.
  destruct F as (-> & K' & m2 & M2 & E2). split; auto. split; auto. exists m2. split; auto. lia.
Qed.
Lemma rel_ext : forall A (f g : rm A), (forall s, f s = g s) -> rel f -> rel g.
Proof. intros A f g H F m s t L I E. rewrite <- !H. now apply F. Qed.
Lemma bb : forall A B C (m : rm A) (f : A -> rm B) (g : B -> rm C) s, bind m (fun a => bind (f a) g) s = bind (bind m f) g s.
Proof. intros. unfold bind. now destruct (m s). Qed.
Lemma rbb : forall A B C (m : rm A) (f : A -> rm B) (g : B -> rm C), rel (bind m (fun a => bind (f a) g)) -> rel (bind (bind m f) g).
Proof. intros. eapply rel_ext; [|eassumption]. intro. apply bb. Qed.

Ltac q_step :=
  match goal with
  | |- rel (bind get_val _) => apply rel_bind; [apply r_get_val|intro]
  | |- rel (bind (set_next_val _) _) => fail 1
  | |- rel (bind (match _ with _ => _ end) _) => fail 1
  | |- rel (bind _ _) => apply rel_bind; [apply rel1_rel; repeat (r_step); fail|intro]
  | |- rel (match ?x with _ => _ end) => destruct x
  | |- rel (if ?x then _ else _) => destruct x
  | |- rel (ret _) => apply rel1_rel, r_ret
  | |- rel panic => apply rel1_rel, r_panic
  | |- rel (err _) => apply rel1_rel, r_err
  end.
Theorem r_run : forall fuel,
  (forall o d f, rel (resolve_sel X S res frags rawvars hasargs argsat fuel o d f)) /\
  (forall o d f, rel (resolve_spread X S res frags rawvars hasargs argsat fuel o d f)) /\
  (forall o d f, rel (resolve_field X S res frags rawvars hasargs argsat fuel o d f)) /\
  (forall o d f, rel (resolve_value X S res frags rawvars hasargs argsat fuel o d f)).
Proof.
  induction fuel as [|fuel (IHs & IHp & IHf & IHv)]; [repeat split; intros; apply rel1_rel, r_nofuel|]. repeat split.
  - intros o d f. cbn [resolve_sel]. apply rel_bind; [apply rel1_rel, r_read|]. intro c. destruct (c =? 101); [apply rel1_rel, r_ret|].
    destruct (c =? 102).
    + apply rel_bind; [apply IHf|]. intros [sk cr]. destruct cr; [apply rel1_rel, r_ret|apply IHs].
    + destruct (c =? 115).
      * apply rel_bind; [apply IHp|]. intros [sk cr]. destruct cr; [apply rel1_rel, r_ret|apply IHs].
      * apply rel1_rel. r_all.
  - intros o d f. cbn [resolve_spread]. do 7 (apply rel_bind; [apply rel1_rel; r_all|intro]).
    apply rel_bind; [apply rel1_rel, r_directives|]. intros [sk cr]. destruct (cr || sk); [apply rel1_rel; r_all|].
    match goal with |- rel (if ?x then _ else _) => destruct x end.
    + match goal with |- rel (if ?x then _ else _) => destruct x end; [apply rel1_rel; r_all|].
      apply rel_bind; [apply IHs|]. intro. apply rel1_rel. r_all.
    + match goal with |- rel (?F frags) => enough (H : forall l, rel (F l)) by apply H end. induction l as [|l r IHl]; [apply rel1_rel; r_all|].
      match goal with |- rel (if ?x then _ else _) => destruct x end; [apply IHl|].
      apply rel_bind; [apply rel1_rel; r_all|intro]. match goal with |- rel (if ?x then _ else _) => destruct x end; [|apply IHl].
      do 3 (apply rel_bind; [apply rel1_rel; r_all|intro]). match goal with |- rel (if ?x then _ else _) => destruct x end; [apply rel1_rel; r_all|].
      apply rel_bind; [apply IHs|]. intro. apply rel1_rel. r_all.
  - intros o d f. cbn [resolve_field]. do 16 (apply rel_bind; [apply rel1_rel; r_all|intro]).
    match goal with |- rel (let '(_, _) := ?x in _) => destruct x as [nstart nend] end.
    do 2 (apply rel_bind; [apply rel1_rel; r_all|intro]).
    apply rel_bind; [apply rel1_rel, r_directives|]. intros [sk cr]. destruct (cr || sk); [apply rel1_rel; r_all|].
    do 3 (apply rel_bind; [apply rel1_rel; r_all|intro]). apply rel_bind; [apply rel1_rel; r_all|]. intro c.
    apply rel_bind; [|intro; apply rel1_rel; r_all].
    destruct (nlookup (o_fields o) _) as [[fo custom idx nm hid]|]; [|apply rel1_rel; r_all].
    apply rel_bind; [apply r_get_val|]. intro g.
    assert (N : forall v, rel (bind (set_next_val v) (fun _ => bind (resolve_value X S res frags rawvars hasargs argsat fuel fo d (negb (c =? 101))) (fun crit => bind idx_dec (fun _ => ret crit))))).
    { intro v. apply rel_deeper; [apply IHv|]. intro. apply rel1_rel, r_ret. }
    destruct custom; [apply N|].
    assert (M : rel (bind (bind (field_of g idx) (fun f => set_next_val f)) (fun _ => bind (resolve_value X S res frags rawvars hasargs argsat fuel fo d (negb (c =? 101))) (fun crit => bind idx_dec (fun _ => ret crit))))).
    { apply rbb. apply rel_bind; [apply rel1_rel; r_all|]. intro. apply N. }
    destruct fo as [| | | | | |[[] ? ? ? ? ?]| | | |]; try exact M. apply N.
  - intros o d f. cbn [resolve_value]. apply rel_bind; [apply r_get_val|]. intro g. apply rel_bind; [apply rel1_rel, r_seek|]. intro c.
    match goal with |- rel (if ?x then _ else _) => destruct x end; [apply rel1_rel; r_all|].
    destruct o as [|e|nm|nm fs|isid k|e|m|en| |nm|nm fs is]; try (apply rel1_rel; r_all; fail).
    + assert (L : forall l, rel (bind (write [91]) (fun _ => bind idx_inc (fun _ => bind get_pos (fun start => bind (
                (fix elems (n : N) (l : list gval) : rm unit :=
                   match l with
                   | [] => ret tt
                   | v :: r =>
                       bind (seek_to start) (fun _ =>
                       bind get_path (fun path =>
                       bind (put_path (path ++ [44] ++ dec_of_N n)) (fun _ =>
                       bind (set_val (fst g, v)) (fun _ =>
                       bind (resolve_value X S res frags rawvars hasargs argsat fuel e d f) (fun _ =>
                       bind (match r with [] => ret tt | _ => write [44] end) (fun _ =>
                       bind (put_path path) (fun _ =>
                       elems (n + 1) r)))))))
                   end) 0 l) (fun _ => bind idx_dec (fun _ => bind (write [93]) (fun _ => ret false)))))))).
      { intro l. apply rel_bind; [apply rel1_rel; r_all|]. intros _. apply rel_array; [|apply rel1_rel; r_all]. intro p. generalize 0.
        induction l as [|v r IHl]; intro n; [apply r_ret|]. do 3 (apply rel1_bind; [r_all|intro]). apply rel1_set_val_bind.
        apply rel_bind; [apply IHv|]. intro. apply rel_bind; [apply rel1_rel; r_all|]. intro.
        apply rel_bind; [apply rel1_rel; r_all|]. intro. apply rel1_rel, IHl. }
      destruct (snd g) as [| | | | |[l|]|l| | | | | | | | | |]; try (apply rel1_rel; r_all; fail); exact (L l).
    + match goal with |- rel (if ?x then _ else _) => destruct x end; [apply rel1_rel; r_all|].
      destruct (slookup _ _); [|apply rel1_rel; r_all].
      match goal with |- rel (if ?x then _ else _) => destruct x end; [apply rel1_rel; r_all|].
      apply rel_bind; [apply rel1_rel; r_all|]. intro. apply rel_bind; [apply IHs|]. intros [? ?]. apply rel1_rel. r_all.
    + match goal with |- rel (if ?x then _ else _) => destruct x end; [apply rel1_rel; r_all|].
      match goal with |- rel (if ?x then _ else _) => destruct x end; [apply rel1_rel; r_all|].
      apply rel_bind; [apply rel1_rel; r_all|]. intro. apply rel_bind; [apply IHs|]. intros [? ?]. apply rel1_rel. r_all.
    + apply rel1_rel. repeat first [apply r_value_json | r_step].
    + destruct (snd g) as [| | | | | | |[v|]| | | | | | | | |]; try (apply rel1_rel; r_all; fail). apply rel_bind; [apply rel1_rel, r_set_val|]. intro. apply IHv.
    + destruct m as [istype ins infields outnr errnr out].
      assert (L : rel (bind (bind_args X S res rawvars hasargs argsat fuel ins infields (c =? 118)) (fun '(args, crit) =>
                if crit : bool then ret true
                else
                  if fst g then panic
                  else
                    bind get_world (fun w =>
                    bind get_path (fun p =>
                    bind (of_opt (x_call X w (snd g) args p)) (fun '(w, outs) =>
                    bind (put_world w) (fun _ =>
                    bind (seek res) (fun c =>
                    let has_sel := negb (c =? 101) in
                    bind (match errnr with
                     | None => ret tt
                     | Some n =>
                         bind (of_opt (nth_error outs n)) (fun e =>
                         match e with
                         | GErr None => ret tt
                         | GErr (Some m) => bind (err m) (fun _ => ret tt)
                         | _ => panic
                         end)
                     end) (fun _ =>
                    match x_ctxerr X w with
                    | Some m => bind (err m) (fun _ => bind write_null (fun _ => ret false))
                    | None =>
                        bind (of_opt (nth_error outs outnr)) (fun v =>
                        bind (set_val (false, v)) (fun _ =>
                        resolve_value X S res frags rawvars hasargs argsat fuel out d has_sel))
                    end))))))))).
      { apply rel_bind; [apply rel1_rel, r_bind_args|]. intros [args crit]. destruct crit; [apply rel1_rel; r_all|].
        destruct (fst g); [apply rel1_rel; r_all|]. do 2 (apply rel_bind; [apply rel1_rel; r_all|intro]).
        apply rel_bind; [apply rel1_rel; r_all|]. intros [w outs]. do 3 (apply rel_bind; [apply rel1_rel; r_all|intro]).
        destruct (x_ctxerr X w); [apply rel1_rel; r_all|]. apply rel_bind; [apply rel1_rel; r_all|intro].
        apply rel_bind; [apply rel1_rel, r_set_val|]. intro. apply IHv. }
      destruct istype, (snd g) as [| | | | | | | | | | | |[fn|]| | | |]; try (apply rel1_rel; r_all; fail); exact L.
    + apply rel1_rel. repeat first [apply r_write_enum | r_step].
    + match goal with |- rel (if ?x then _ else _) => destruct x end; [apply rel1_rel; r_all|].
      destruct (slookup _ _); [|apply rel1_rel; r_all].
      destruct (snd g) as [| | | | | | | | | | |[[[tn pkg] v]|]| | | | |]; try (apply rel1_rel; r_all; fail).
      destruct (find _ _) as [[? impl]|].
      * apply rel_deeper; [apply IHv|]. intro. apply rel1_rel, r_ret.
      * apply rel_deeper0. apply rel1_rel; r_all.
    + match goal with |- rel (if ?x then _ else _) => destruct x end; [apply rel1_rel; r_all|].
      destruct (snd g) as [| | | | | | | | | | |[[[tn pkg] v]|]| | | | |]; try (apply rel1_rel; r_all; fail).
      destruct (find _ _) as [[? impl]|].
      * apply rel_deeper; [apply IHv|]. intro. apply rel1_rel, r_ret.
      * apply rel_deeper0. apply rel1_rel; r_all.
Qed.
End Indep.

(** operations and requests *)
Definition alike {W A} (x y : @rout W A) : Prop :=
  match x, y with
  | ROk a s, ROk b t => a = b /\ r_out s = r_out t /\ r_errs s = r_errs t /\ r_world s = r_world t
  | RPanic, RPanic | RNoFuel, RNoFuel => True
  | _, _ => False
  end.
Lemma same_alike : forall W A k m (x y : @rout W A), same k m x y -> alike x y.
Proof. intros W A k m x y H. unfold same, alike in *. destruct x, y; auto. destruct H as (-> & _ & m' & _ & E). unfold eqv in E. tauto. Qed.
Lemma bind_run : forall W A B (m : @rm W A) (f : A -> @rm W B) s a s', m s = ROk a s' -> bind m f s = f a s'.
Proof. intros W A B m f s a s' H. unfold bind. now rewrite H. Qed.

Lemma operation_indep : forall W (X : externals W) S res frags rawvars fuel n out v1 v2 w,
  nth_error res (n + 2) = Some 113 \/ nth_error res (n + 2) = Some 109 \/ nth_error res (n + 2) = Some 115 ->
  alike (resolve_operation X S res frags rawvars fuel (RS n out [] [] v1 0 None w))
        (resolve_operation X S res frags rawvars fuel (RS n out [] [] v2 0 None w)).
Proof.
  intros W X S res frags rawvars fuel n out v1 v2 w K. unfold resolve_operation.
  assert (Sk : forall v, skip 2 (RS n out [] [] v 0 None w) = ROk tt (RS (n + 2) out [] [] v 0 None w)) by reflexivity.
  rewrite !(bind_run W unit _ (skip 2) _ _ tt _ (Sk _)).
  assert (R : forall k v, nth_error res (n + 2) = Some k ->
    read res (RS (n + 2) out [] [] v 0 None w) = ROk k (RS (n + 2 + 1) out [] [] v 0 None w)).
  { intros k v E. unfold read. cbn [r_pos]. rewrite E. cbn. reflexivity. }
  assert (Rest : forall o (v : unit), rel (W:=W) (bind (read res) (fun a => bind (read res) (fun dirs =>
    if 0 <? dirs then err (bs "operation directives unsupported")
    else
      bind (read_name res) (fun _ =>
      bind (if a =? 116 then
              bind get_pos (fun p => bind (u32 res p) (fun len => bind (skip (N.to_nat len + 5)) (fun _ => ret (p + 5)%nat)))
            else ret O) (fun at_ =>
      bind (resolve_sel X S res frags rawvars (a =? 116) at_ fuel o 0 true) (fun '(_, crit) => ret crit))))))).
  { intros o _. apply rel_bind; [apply rel1_rel, r_read|]. intro a. apply rel_bind; [apply rel1_rel, r_read|]. intro dirs.
    destruct (0 <? dirs); [apply rel1_rel, r_err|]. apply rel_bind; [apply rel1_rel, r_read_name|]. intros _.
    apply rel_bind.
    { apply rel1_rel. destruct (a =? 116); [|apply r_ret]. apply rel1_bind; [apply r_get_pos|]. intro.
      apply rel1_bind; [apply r_u32|]. intro. apply rel1_bind; [apply r_skip|]. intro. apply r_ret. }
    intro at_. apply rel_bind; [apply (proj1 (r_run _ _ _ _ _ _ _ fuel))|]. intros [? ?]. apply rel1_rel, r_ret. }
  destruct K as [K|[K|K]].
  - rewrite !(bind_run W N _ (read res) _ _ 113%N _ (R 113 _ K)). cbn [N.eqb Pos.eqb].
    assert (Pv : forall v, put_val0 (s_qvalue S) (RS (n + 2 + 1) out [] [] v 0 None w) =
      ROk tt (RS (n + 2 + 1) out [] [] (upd v 0 (false, s_qvalue S)) 0 None w)) by reflexivity.
    rewrite !(bind_run W unit _ _ _ _ tt _ (Pv _)).
    eapply same_alike. apply (Rest (s_query S) tt 0); [reflexivity|cbn; lia|]. unfold eqv. cbn. repeat split; auto. intros j J. assert (j = 0) by lia. subst j. reflexivity.
  - rewrite !(bind_run W N _ (read res) _ _ 109 _ (R 109 _ K)). cbn [N.eqb Pos.eqb].
    assert (Pv : forall v, put_val0 (s_mvalue S) (RS (n + 2 + 1) out [] [] v 0 None w) =
      ROk tt (RS (n + 2 + 1) out [] [] (upd v 0 (false, s_mvalue S)) 0 None w)) by reflexivity.
    rewrite !(bind_run W unit _ _ _ _ tt _ (Pv _)).
    eapply same_alike. apply (Rest (s_method S) tt 0); [reflexivity|cbn; lia|]. unfold eqv. cbn. repeat split; auto. intros j J. assert (j = 0) by lia. subst j. reflexivity.
  - rewrite !(bind_run W N _ (read res) _ _ 115 _ (R 115 _ K)). cbn. auto.
Qed.

(** the answer of a request, without the values it leaves behind *)
Definition answer {W} (r : rresult W) : option (option (bytes * list qerr * W)) :=
  match r with RDone out es _ w => Some (Some (out, es, w)) | RPanicked => Some None | ROutOfFuel => None end.

Theorem resolve_indep : forall W (X : externals W) S fuel o v1 v2 w q,
  answer (resolve X S fuel o v1 w q) = answer (resolve X S fuel o v2 w q).
Proof.
  intros W X S fuel o v1 v2 w q. unfold resolve. destruct (parse_query q (target_of o)) as [p| |] eqn:P; auto.
  unfold resolve_parsed. destruct (p_errs p) as [|e es] eqn:E; [|reflexivity]. destruct (p_tgt p) as [n|] eqn:T; [|reflexivity].
  destruct (accepted_denotes q (target_of o) p P E) as (d & G & Er & Ef & Et).
  pose proof (target_chosen q (target_of o) d p G P) as C. rewrite T in C. destruct C as (d1 & x & d2 & Ed & Sx & _ & En).
  assert (K : nth_error (p_res p) (n + 2) = Some 113 \/ nth_error (p_res p) (n + 2) = Some 109 \/ nth_error (p_res p) (n + 2) = Some 115).
  { rewrite Er, Ed, En. unfold enc_doc. rewrite flat_map_app. rewrite nth_error_app2 by lia.
    match goal with |- context [nth_error _ ?k] => replace k with 2%nat by lia end. cbn [flat_map].
    destruct x as [k nm args dirs sels|]; [|destruct Sx]. cbn. destruct k; cbn; auto. }
  pose proof (operation_indep W X S (p_res p) (p_frags p) (op_vars o) fuel n ((if op_nometa o then [] else data_start) ++ [123]) v1 v2 w K) as H.
  unfold alike in H. destruct (resolve_operation _ _ _ _ _ _ (RS n _ _ _ v1 _ _ _)), (resolve_operation _ _ _ _ _ _ (RS n _ _ _ v2 _ _ _)); try contradiction; auto.
  destruct H as (_ & -> & -> & ->). reflexivity.
Qed.
