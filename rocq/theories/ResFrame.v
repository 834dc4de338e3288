(** * The parts of the resolver that do not touch the position, the output and the value stack (proofs) *)
From Coq Require Import String Arith NArith ZArith Bool List Lia.
From Verif Require Import Base JsonModel ReqModel Schema ResModel.
Import ListNotations.
Open Scope N_scope.

Section Frame.
Context {W : Type}.
Variable X : externals W.
Variable S : schema.
Variable rawvars : bytes.
Notation st := (rst W).
Notation rm := (@rm W).

(** the state [s] with another position, output and value stack *)
Definition fr (p : nat) (o : bytes) (v : N -> rv) (k : N) (s : st) : st :=
  RS p o (r_errs s) (r_path s) v k (r_vars s) (r_world s).
Definition rmap {A B} (f : A -> st -> rout B) (r : rout A) : @rout W B :=
  match r with ROk a s => f a s | RPanic => RPanic | RNoFuel => RNoFuel end.
Definition frame {A} (m : rm A) : Prop :=
  forall p o v k s, m (fr p o v k s) = rmap (fun a s' => ROk a (fr p o v k s')) (m s).

Lemma fr_fr : forall p o v k p' o' v' k' s, fr p o v k (fr p' o' v' k' s) = fr p o v k s.
Proof. reflexivity. Qed.
Lemma fr_self : forall s, fr (r_pos s) (r_out s) (r_vals s) (r_idx s) s = s.
Proof. intros []. reflexivity. Qed.

Lemma frame_ret : forall A (a : A), frame (ret a).
Proof. intros; hnf; reflexivity. Qed.
Lemma frame_panic : forall A, frame (@panic W A).
Proof. intros; hnf; reflexivity. Qed.
Lemma frame_nofuel : forall A, frame (@nofuel W A).
Proof. intros; hnf; reflexivity. Qed.
Lemma frame_bind : forall A B (m : rm A) (f : A -> rm B), frame m -> (forall a, frame (f a)) -> frame (bind m f).
Proof.
  intros A B m f Hm Hf p o v k s. unfold bind. rewrite Hm. destruct (m s) as [a s'| |]; cbn; auto. now rewrite Hf.
Qed.
Lemma frame_of_opt : forall A (o : option A), frame (of_opt o).
Proof. intros A [a|]; hnf; reflexivity. Qed.
Lemma frame_err : forall m, frame (err m).
Proof. intros; hnf; reflexivity. Qed.
Lemma frame_get_path : frame get_path.
Proof. hnf; reflexivity. Qed.
Lemma frame_put_path : forall p, frame (put_path p).
Proof. intros; hnf; reflexivity. Qed.
Lemma frame_get_world : frame get_world.
Proof. hnf; reflexivity. Qed.
Lemma frame_put_world : forall w, frame (put_world w).
Proof. intros; hnf; reflexivity. Qed.
Lemma frame_get_vars : frame get_vars.
Proof. hnf; reflexivity. Qed.
Lemma frame_put_vars : forall w, frame (put_vars w).
Proof. intros; hnf; reflexivity. Qed.

Ltac fr_step :=
  match goal with
  | |- frame (ret _) => apply frame_ret
  | |- frame (okay _) => apply frame_ret
  | |- frame panic => apply frame_panic
  | |- frame nofuel => apply frame_nofuel
  | |- frame (bind _ _) => apply frame_bind; [|intro]
  | |- frame (of_opt _) => apply frame_of_opt
  | |- frame (err _) => apply frame_err
  | |- frame (fail _ _) => unfold fail
  | |- frame get_path => apply frame_get_path
  | |- frame (put_path _) => apply frame_put_path
  | |- frame get_world => apply frame_get_world
  | |- frame (put_world _) => apply frame_put_world
  | |- frame get_vars => apply frame_get_vars
  | |- frame (put_vars _) => apply frame_put_vars
  | |- frame (match ?x with _ => _ end) => destruct x
  | |- frame (let '(_, _) := ?x in _) => destruct x
  | |- frame (if ?x then _ else _) => destruct x
  end.

Lemma frame_set_int : forall g z, frame (set_int g z).
Proof. intros. unfold set_int. repeat fr_step. Qed.
Lemma frame_set_uint : forall g z, frame (set_uint g z).
Proof. intros. unfold set_uint. repeat fr_step. Qed.
Lemma frame_set_float : forall g z, frame (set_float X g z).
Proof. intros. unfold set_float. repeat fr_step. Qed.
Lemma frame_set_bool : forall g z, frame (set_bool g z).
Proof. intros. unfold set_bool. repeat fr_step. Qed.
Lemma frame_set_string : forall g z, frame (set_string g z).
Proof. intros. unfold set_string. repeat fr_step. Qed.
Lemma frame_set_any : forall g z, frame (set_any g z).
Proof. intros. unfold set_any. repeat fr_step. Qed.
Lemma frame_field_of : forall g z, frame (field_of g z).
Proof. intros. unfold field_of. repeat fr_step. Qed.
Lemma frame_fail : forall g z, frame (fail g z).
Proof. intros. repeat fr_step. Qed.
Lemma frame_content_of : forall i, frame (content_of S i).
Proof. intros. unfold content_of. repeat fr_step. Qed.
Lemma frame_type_mismatch : forall i t, frame (type_mismatch S i t).
Proof. intros. unfold type_mismatch. repeat fr_step. Qed.
Lemma frame_same_enum : forall k v e, frame (same_enum_value k v e).
Proof. intros. unfold same_enum_value. repeat fr_step. Qed.

Ltac fr_more := first
  [ fr_step
  | match goal with
    | |- frame (set_int _ _) => apply frame_set_int
    | |- frame (set_uint _ _) => apply frame_set_uint
    | |- frame (set_float _ _ _) => apply frame_set_float
    | |- frame (set_bool _ _) => apply frame_set_bool
    | |- frame (set_string _ _) => apply frame_set_string
    | |- frame (set_any _ _) => apply frame_set_any
    | |- frame (field_of _ _) => apply frame_field_of
    | |- frame (content_of _ _) => apply frame_content_of
    end ].
Lemma frame_assign_enum : forall g e n, frame (assign_enum g e n).
Proof. intros. unfold assign_enum. repeat fr_more. Qed.
Lemma frame_assign_id : forall g s, frame (assign_id g s).
Proof. intros. unfold assign_id. repeat fr_more. Qed.
Lemma frame_assign_time : forall g s, frame (assign_time g s).
Proof. intros. unfold assign_time. repeat fr_more. Qed.
Lemma frame_assign_file : forall g s, frame (assign_file X g s).
Proof.
  intros. unfold assign_file. destruct (x_formfile X) as [get|]; [|apply frame_panic].
  intros p o v k t. cbn [fr r_world]. destruct (get (r_world t) s) as [w r].
  change (set_world w (fr p o v k t)) with (fr p o v k (set_world w t)).
  assert (F : frame (match r with inl f => bind (set_any g (GFile (Some f))) (fun v => okay v) | inr e => fail g e end)) by (destruct r; repeat fr_more).
  rewrite F. reflexivity.
Qed.
Lemma frame_assign_string : forall g i s, frame (assign_string X S g i s).
Proof.
  intros. unfold assign_string.
  repeat first [apply frame_assign_enum | apply frame_assign_id | apply frame_assign_time | apply frame_assign_file | fr_more].
Qed.
Lemma frame_json_number : forall g s, frame (json_number X g s).
Proof. intros. unfold json_number. repeat fr_more. Qed.
Lemma frame_int_literal : forall g s, frame (int_literal X g s).
Proof. intros. unfold int_literal. repeat fr_more. Qed.
Lemma frame_through_ptr : forall g i f m, (forall g i, frame (f g i)) -> frame m -> frame (through_ptr g i f m).
Proof.
  intros g i f m Hf Hm. unfold through_ptr. destruct (i_kind i); auto. destruct (i_isfile i); auto.
  apply frame_bind; [apply frame_of_opt|]. intro e. apply frame_bind; [apply Hf|]. intros [[v s] c]. repeat fr_more.
Qed.
Lemma frame_bind_json : forall fuel g i j, frame (bind_json X S fuel g i j).
Proof.
  induction fuel as [|fuel IH]; intros g i j; [apply frame_nofuel|].
  cbn [bind_json]. apply frame_through_ptr; [intros; apply IH|].
  destruct (i_enum i) as [en|], (i_isid i) eqn:?, (i_isfile i), (i_istime i);
    try (destruct j; repeat first [apply frame_assign_enum | apply frame_assign_id | apply frame_assign_time | apply frame_assign_file | fr_more]; fail).
  destruct j as [| | |raw|s|l|m]; try (repeat first [apply frame_assign_string | apply frame_json_number | fr_more]; fail).
  - destruct (kind_of (snd g)); try (repeat fr_more; fail). match goal with |- frame (?F l []) => enough (H : forall l acc, frame (F l acc)) by apply H end. clear l.
    induction l as [|x r IHl]; intros acc; [repeat fr_more|].
    apply frame_bind; [apply frame_of_opt|]. intro ei. apply frame_bind; [apply IH|]. intros [[ev s] c]. destruct c; [apply frame_ret|apply IHl].
  - destruct (kind_of (snd g)); try (repeat fr_more; fail). apply frame_bind; [apply frame_content_of|]. intro c.
    generalize (snd g) as v. induction m as [|[k x] r IHm]; intros v; [repeat fr_more|].
    destruct (slookup c k); [|repeat fr_more]. apply frame_bind; [apply frame_field_of|]. intro f.
    apply frame_bind; [apply IH|]. intros [[ev s] cr]. destruct cr; [apply frame_ret|apply IHm].
Qed.
Lemma frame_bind_external : forall fuel g i n, frame (bind_external X S rawvars fuel g i n).
Proof.
  intros. unfold bind_external. repeat first [apply frame_bind_json | fr_more].
Qed.
End Frame.
