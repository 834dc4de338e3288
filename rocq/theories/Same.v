(** * Runs that differ in what the resolver does not look at (proofs)

    Two runs of the same bytecode: the worlds and the user code are related, the schemas differ in the marks [hidden] only.
    Then the runs do the same.  With [lenient] the first run may panic where the second does not. *)
From Coq Require Import String Arith NArith ZArith Bool List Lia.
From Verif Require Import Base Json JsonModel ParserModel ReqModel Schema ResModel EnvModel.
Import ListNotations.
Open Scope N_scope.
Local Notation SN := Datatypes.S.

(** fields and types up to [hidden] *)
Definition fsame (a b : N * field) : Prop :=
  fst a = fst b /\ match snd a, snd b with Field fo c i n _, Field fo' c' i' n' _ => fo = fo' /\ c = c' /\ i = i' /\ n = n' end.
Inductive osame : obj -> obj -> Prop :=
| os_refl o : osame o o
| os_obj n fs fs' : Forall2 fsame fs fs' -> osame (OObj n fs) (OObj n fs')
| os_iface n fs fs' is : Forall2 fsame fs fs' -> osame (OIface n fs is) (OIface n fs' is).
Definition tsame (a b : list (bytes * obj)) : Prop := Forall2 (fun x y => fst x = fst y /\ osame (snd x) (snd y)) a b.
Record ssame (S1 S2 : schema) : Prop := {
  ss_types : tsame (s_types S1) (s_types S2);
  ss_ifaces : tsame (s_ifaces S1) (s_ifaces S2);
  ss_query : osame (s_query S1) (s_query S2); ss_method : osame (s_method S1) (s_method S2);
  ss_intypes : s_intypes S1 = s_intypes S2; ss_qvalue : s_qvalue S1 = s_qvalue S2; ss_mvalue : s_mvalue S1 = s_mvalue S2;
  ss_maxdepth : s_maxdepth S1 = s_maxdepth S2; ss_enums : s_enums S1 = s_enums S2; ss_dirs : s_dirs S1 = s_dirs S2 }.
Lemma fsame_refl l : Forall2 fsame l l.
Proof. induction l as [|[k [fo c i n h]] l IH]; constructor; [|exact IH]. repeat split. Qed.
Lemma tsame_refl l : tsame l l.
Proof. induction l as [|x l IH]; constructor; [|exact IH]. split; [reflexivity|constructor]. Qed.
Lemma ssame_refl S : ssame S S.
Proof. constructor; try reflexivity; try apply tsame_refl; constructor. Qed.
Lemma fsame_lookup fs fs' k : Forall2 fsame fs fs' ->
  (nlookup fs k = None /\ nlookup fs' k = None) \/
  exists fo c i n h h', nlookup fs k = Some (Field fo c i n h) /\ nlookup fs' k = Some (Field fo c i n h').
Proof.
  induction 1 as [|[k1 [fo c i n h]] [k2 [fo' c' i' n' h']] fs fs' H F IH]; [now left|]. destruct H as [E [-> [-> [-> ->]]]]. cbn in E. subst k2. cbn.
  destruct (k =? k1)%N; [right; eauto 10|exact IH].
Qed.
Lemma tsame_lookup a b n : tsame a b -> (slookup a n = None /\ slookup b n = None) \/ exists o o', slookup a n = Some o /\ slookup b n = Some o' /\ osame o o'.
Proof.
  induction 1 as [|[x o] [y o'] a b [E O] F IH]; [now left|]. cbn in E, O. subst y. cbn. destruct (beqb n x); [right; eauto 10|exact IH].
Qed.
Lemma osame_name o o' : osame o o' -> o_name o = o_name o'. Proof. now intros []. Qed.
Lemma osame_fields o o' : osame o o' -> Forall2 fsame (o_fields o) (o_fields o').
Proof. intros []; cbn; auto. apply fsame_refl. Qed.

Section Rel.
Context {W1 W2 : Type}.
Variable R : W1 -> W2 -> Prop.
Variable lenient : Prop.
Variables (X1 : externals W1) (X2 : externals W2).
Definition panics_too {A} (o : option A) : Prop := lenient \/ o = None.
(** the functions that are given from outside *)
Record xsame : Prop := {
  xs_call w1 w2 f a p : R w1 w2 ->
    match x_call X1 w1 f a p with
    | Some (w1', r) => exists w2', x_call X2 w2 f a p = Some (w2', r) /\ R w1' w2'
    | None => panics_too (x_call X2 w2 f a p)
    end;
  xs_dir w1 w2 f a p : R w1 w2 ->
    match x_dir X1 w1 f a p with
    | Some (w1', r) => exists w2', x_dir X2 w2 f a p = Some (w2', r) /\ R w1' w2'
    | None => panics_too (x_dir X2 w2 f a p)
    end;
  xs_ctxerr w1 w2 : R w1 w2 -> x_ctxerr X1 w1 = x_ctxerr X2 w2;
  xs_file :
    match x_formfile X1, x_formfile X2 with
    | None, None => True
    | Some f1, Some f2 => forall w1 w2 n, R w1 w2 -> snd (f1 w1 n) = snd (f2 w2 n) /\ R (fst (f1 w1 n)) (fst (f2 w2 n))
    | _, _ => False
    end;
  xs_parse b : x_parse X1 b = x_parse X2 b;
  xs_parse_float b : x_parse_float X1 b = x_parse_float X2 b;
  xs_json_float b : x_json_float X1 b = x_json_float X2 b;
  xs_json_int_err b : x_json_int_err X1 b = x_json_int_err X2 b;
  xs_of_int z : x_of_int X1 z = x_of_int X2 z;
  xs_to32 b : x_to32 X1 b = x_to32 X2 b;
  xs_float_json k b : x_float_json X1 k b = x_float_json X2 k b;
  xs_gostring v : x_gostring X1 v = x_gostring X2 v }.
Hypothesis XS : xsame.
Variables S1 S2 : schema.
Hypothesis SS : ssame S1 S2.

Definition srel (s1 : rst W1) (s2 : rst W2) : Prop :=
  r_pos s1 = r_pos s2 /\ r_out s1 = r_out s2 /\ r_errs s1 = r_errs s2 /\ r_path s1 = r_path s2 /\ r_vals s1 = r_vals s2 /\
  r_idx s1 = r_idx s2 /\ r_vars s1 = r_vars s2 /\ R (r_world s1) (r_world s2).
Definition mrel {A} (m1 : @rm W1 A) (m2 : @rm W2 A) : Prop := forall s1 s2, srel s1 s2 ->
  match m1 s1 with
  | ROk a s1' => exists s2', m2 s2 = ROk a s2' /\ srel s1' s2'
  | RPanic => lenient \/ m2 s2 = RPanic
  | RNoFuel => m2 s2 = RNoFuel
  end.
Lemma r_bind {A B} (m1 : rm A) (m2 : rm A) (f1 f2 : A -> rm B) : mrel m1 m2 -> (forall a, mrel (f1 a) (f2 a)) -> mrel (bind m1 f1) (bind m2 f2).
Proof.
  intros H K s1 s2 E. specialize (H s1 s2 E). unfold bind. destruct (m1 s1) as [a s1'| |].
  - destruct H as [s2' [-> E']]. apply K. exact E'.
  - destruct H as [H| ->]; auto.
  - now rewrite H.
Qed.
Lemma r_ret {A} (a : A) : mrel (ret a) (ret a).
Proof. intros s1 s2 E. cbn. eauto. Qed.
Lemma r_panic {A} : mrel (@panic W1 A) (@panic W2 A).
Proof. intros s1 s2 E. cbn. now right. Qed.
Lemma r_nofuel {A} : mrel (@nofuel W1 A) (@nofuel W2 A).
Proof. intros s1 s2 E. reflexivity. Qed.
Lemma r_of_opt {A} (o : option A) : mrel (of_opt o) (of_opt o).
Proof. destruct o; [apply r_ret|apply r_panic]. Qed.
Ltac prim := intros [p1 o1 e1 pa1 v1 i1 va1 w1] [p2 o2 e2 pa2 v2 i2 va2 w2] (E1 & E2 & E3 & E4 & E5 & E6 & E7 & E8); cbn in * |-; subst;
  cbn; try (eexists; split; [reflexivity|]; repeat split; cbn; auto; fail).
Lemma r_get_val : mrel get_val get_val. Proof. prim. Qed.
Lemma r_set_val v : mrel (set_val v) (set_val v). Proof. prim. Qed.
Lemma r_idx_inc : mrel idx_inc idx_inc. Proof. prim. Qed.
Lemma r_idx_dec : mrel idx_dec idx_dec. Proof. prim. Qed.
Lemma r_set_next v : mrel (set_next_val v) (set_next_val v). Proof. apply r_bind; [apply r_idx_inc|intro; apply r_set_val]. Qed.
Lemma r_write b : mrel (write b) (write b). Proof. prim. Qed.
Lemma r_quoted b : mrel (write_quoted b) (write_quoted b). Proof. apply r_write. Qed.
Lemma r_null : mrel write_null write_null. Proof. apply r_write. Qed.
Lemma r_get_pos : mrel get_pos get_pos. Proof. prim. Qed.
Lemma r_seek_to n : mrel (seek_to n) (seek_to n). Proof. prim. Qed.
Lemma r_skip n : mrel (skip n) (skip n). Proof. prim. Qed.
Lemma r_seek res : mrel (seek res) (seek res). Proof. prim. unfold seek. cbn. destruct (nth_error res p2); [|now right]. eexists; split; [reflexivity|]; repeat split; auto. Qed.
Lemma r_read res : mrel (read res) (read res). Proof. prim. unfold read. cbn. destruct (nth_error res p2); [|now right]. eexists; split; [reflexivity|]; repeat split; auto. Qed.
Lemma r_u32 res n : mrel (u32 res n) (u32 res n).
Proof. intros s1 s2 E. unfold u32. destruct (skipn n res) as [|? [|? [|? [|? ?]]]]; try (now right). eauto. Qed.
Lemma r_slice res a b : mrel (slice res a b) (slice res a b). Proof. unfold slice. destruct (_ && _); [apply r_ret|apply r_panic]. Qed.
Lemma r_name res : mrel (read_name res) (read_name res).
Proof. prim. unfold read_name. cbn. destruct (until0 _); [|now right]. eexists; split; [reflexivity|]; repeat split; auto. Qed.
Lemma r_err m : mrel (err m) (err m). Proof. prim. Qed.
Lemma r_get_path : mrel get_path get_path. Proof. prim. Qed.
Lemma r_put_path p : mrel (put_path p) (put_path p). Proof. prim. Qed.
Lemma r_get_vars : mrel get_vars get_vars. Proof. prim. Qed.
Lemma r_put_vars v : mrel (put_vars v) (put_vars v). Proof. prim. Qed.
Lemma r_set_int g z : mrel (set_int g z) (set_int g z).
Proof. unfold set_int. destruct g as [[] []]; first [apply r_ret|apply r_panic]. Qed.
Lemma r_set_uint g z : mrel (set_uint g z) (set_uint g z).
Proof. unfold set_uint. destruct g as [[] []]; first [apply r_ret|apply r_panic]. Qed.
Lemma r_set_float g z : mrel (set_float X1 g z) (set_float X2 g z).
Proof. unfold set_float. destruct g as [[] []]; try apply r_panic. rewrite (xs_to32 XS). apply r_ret. Qed.
Lemma r_set_bool g z : mrel (set_bool g z) (set_bool g z).
Proof. unfold set_bool. destruct g as [[] []]; first [apply r_ret|apply r_panic]. Qed.
Lemma r_set_string g z : mrel (set_string g z) (set_string g z).
Proof. unfold set_string. destruct g as [[] []]; first [apply r_ret|apply r_panic]. Qed.
Lemma r_set_any g z : mrel (set_any g z) (set_any g z).
Proof. unfold set_any. destruct (fst g); first [apply r_ret|apply r_panic]. Qed.
Lemma r_field_of g i : mrel (field_of g i) (field_of g i).
Proof. unfold field_of. destruct (snd g); try apply r_panic. destruct (nth_error fs i) as [[]|]; first [apply r_ret|apply r_panic]. Qed.
Lemma r_okay v : mrel (okay v) (okay v). Proof. apply r_ret. Qed.
Lemma r_fail g m : mrel (fail g m) (fail g m). Proof. apply r_bind; [apply r_err|intro; apply r_ret]. Qed.
(** a call of something outside: the worlds move on together *)
Lemma r_outside {A B} (f1 : W1 -> option (W1 * A)) (f2 : W2 -> option (W2 * A)) (k1 k2 : A -> rm B) :
  (forall w1 w2, R w1 w2 -> match f1 w1 with Some (w1', r) => exists w2', f2 w2 = Some (w2', r) /\ R w1' w2' | None => panics_too (f2 w2) end) ->
  (forall a, mrel (k1 a) (k2 a)) ->
  mrel (fun s => match f1 (r_world s) with Some (w, a) => k1 a (set_world w s) | None => RPanic end)
       (fun s => match f2 (r_world s) with Some (w, a) => k2 a (set_world w s) | None => RPanic end).
Proof.
  intros H K s1 s2 E. assert (R (r_world s1) (r_world s2)) as Rw by apply E. specialize (H _ _ Rw). destruct (f1 (r_world s1)) as [[w1' a]|].
  - destruct H as [w2' [-> Rw']]. apply K. destruct s1, s2. cbn in *. unfold srel in *. cbn in *. intuition.
  - destruct H as [H| ->]; auto.
Qed.
Ltac step := first [apply r_ret | apply r_panic | apply r_nofuel | apply r_of_opt | apply r_get_val | apply r_set_val | apply r_idx_inc | apply r_idx_dec
  | apply r_set_next | apply r_quoted | apply r_null | apply r_write | apply r_get_pos | apply r_seek_to | apply r_skip | apply r_seek | apply r_read | apply r_u32
  | apply r_slice | apply r_name | apply r_err | apply r_get_path | apply r_put_path | apply r_get_vars | apply r_put_vars | apply r_set_int | apply r_set_uint
  | apply r_set_float | apply r_set_bool | apply r_set_string | apply r_set_any | apply r_field_of | apply r_okay | apply r_fail].
Ltac go := repeat first [step | (apply r_bind; [|intro]) |
  match goal with
  | |- mrel (let '(_, _) := ?x in _) _ => destruct x
  | |- mrel (if ?c then _ else _) _ => destruct c
  | |- mrel (match ?x with _ => _ end) _ => destruct x
  end].
Lemma r_enum g e n : mrel (assign_enum g e n) (assign_enum g e n). Proof. unfold assign_enum. go. Qed.
Lemma r_id g s : mrel (assign_id g s) (assign_id g s). Proof. unfold assign_id. go. Qed.
Lemma r_time g s : mrel (assign_time g s) (assign_time g s). Proof. unfold assign_time. go. Qed.
Lemma r_file g s : mrel (assign_file X1 g s) (assign_file X2 g s).
Proof.
  unfold assign_file. pose proof (xs_file XS) as H. destruct (x_formfile X1) as [f1|], (x_formfile X2) as [f2|]; try contradiction; [|apply r_panic].
  intros s1 s2 E. assert (R (r_world s1) (r_world s2)) as Rw by apply E. destruct (H _ _ s Rw) as [E1 Rw']. destruct (f1 (r_world s1) s) as [w1 r1], (f2 (r_world s2) s) as [w2 r2].
  cbn in E1, Rw'. subst r2. assert (srel (set_world w1 s1) (set_world w2 s2)) as E' by (destruct s1, s2; unfold srel in *; cbn in *; intuition).
  assert (mrel (match r1 with inr e => fail g e | inl f => bind (set_any g (GFile (Some f))) (fun v => okay v) end)
               (match r1 with inr e => fail g e | inl f => bind (set_any g (GFile (Some f))) (fun v => okay v) end)) as M by go.
  exact (M _ _ E').
Qed.
Lemma r_string g i s : mrel (assign_string X1 S1 g i s) (assign_string X2 S2 g i s).
Proof.
  unfold assign_string. rewrite (ss_enums _ _ SS). destruct (i_enum i); [apply r_bind; [apply r_of_opt|intro; apply r_enum]|]. destruct (i_isid i); [apply r_id|].
  destruct (i_isfile i).
  - pose proof (xs_file XS) as H. destruct (x_formfile X1) as [f1|] eqn:E1, (x_formfile X2) as [f2|] eqn:E2; try contradiction; [|apply r_fail]. apply r_file.
  - destruct (i_istime i); [apply r_time|]. rewrite (xs_gostring XS). go.
Qed.
Lemma r_ptr g i f1 f2 (m1 : rm bres) m2 : (forall g i, mrel (f1 g i) (f2 g i)) -> mrel m1 m2 -> mrel (through_ptr g i f1 m1) (through_ptr g i f2 m2).
Proof.
  intros H K. unfold through_ptr. destruct (i_kind i); auto. destruct (i_isfile i); auto. apply r_bind; [apply r_of_opt|]. intro e.
  apply r_bind; [apply H|]. intros [[v b] c]. go.
Qed.
Lemma r_content i : mrel (content_of S1 i) (content_of S2 i). Proof. unfold content_of. rewrite (ss_intypes _ _ SS). go. Qed.
Lemma r_json_number g raw : mrel (json_number X1 g raw) (json_number X2 g raw).
Proof. unfold json_number. rewrite (xs_json_int_err XS), (xs_gostring XS). go. Qed.
Lemma r_json fuel : forall g i j, mrel (bind_json X1 S1 fuel g i j) (bind_json X2 S2 fuel g i j).
Proof.
  induction fuel as [|fuel IH]; intros g i j; [apply r_nofuel|]. cbn [bind_json]. apply r_ptr; [intros; apply IH|].
  assert (forall c m v, mrel ((fix members (v : gval) (m : list (bytes * fj)) : rm bres :=
                  match m with
                  | [] => okay v
                  | (k, jv) :: r =>
                      match slookup c k with
                      | None => bind (err (bs "undefined property " ++ k)) (fun _ => ret (v, true, true))
                      | Some fi => bind (field_of (fst g, v) (i_field fi)) (fun f => bind (bind_json X1 S1 fuel f fi jv) (fun '(fv, _, crit) =>
                          let v := put_field v (i_field fi) fv in if crit : bool then ret (v, true, true) else members v r))
                      end
                  end) v m)
                ((fix members (v : gval) (m : list (bytes * fj)) : rm bres :=
                  match m with
                  | [] => okay v
                  | (k, jv) :: r =>
                      match slookup c k with
                      | None => bind (err (bs "undefined property " ++ k)) (fun _ => ret (v, true, true))
                      | Some fi => bind (field_of (fst g, v) (i_field fi)) (fun f => bind (bind_json X2 S2 fuel f fi jv) (fun '(fv, _, crit) =>
                          let v := put_field v (i_field fi) fv in if crit : bool then ret (v, true, true) else members v r))
                      end
                  end) v m)) as M.
  { intros c m. induction m as [|[k jv] r IHm]; intro v; [apply r_okay|]. destruct (slookup c k); [|apply r_bind; [apply r_err|intro; apply r_ret]].
    apply r_bind; [apply r_field_of|intro f]. apply r_bind; [apply IH|]. intros [[fv b] crit]. cbv zeta. destruct crit; [apply r_ret|apply IHm]. }
  assert (forall l acc, mrel ((fix elems (l : list fj) (acc : list gval) : rm bres :=
                  match l with
                  | [] => bind (set_any g (GSlice (Some acc))) (fun v => okay v)
                  | jv :: r => bind (of_opt (i_elem i)) (fun ei => bind (bind_json X1 S1 fuel (false, i_zero ei) ei jv) (fun '(ev, _, crit) =>
                      if crit : bool then ret (snd g, false, true) else elems r (acc ++ [ev])))
                  end) l acc)
             ((fix elems (l : list fj) (acc : list gval) : rm bres :=
                  match l with
                  | [] => bind (set_any g (GSlice (Some acc))) (fun v => okay v)
                  | jv :: r => bind (of_opt (i_elem i)) (fun ei => bind (bind_json X2 S2 fuel (false, i_zero ei) ei jv) (fun '(ev, _, crit) =>
                      if crit : bool then ret (snd g, false, true) else elems r (acc ++ [ev])))
                  end) l acc)) as L.
  { induction l as [|jv r IHl]; intro acc; [go|]. apply r_bind; [apply r_of_opt|intro ei]. apply r_bind; [apply IH|]. intros [[ev b] crit]. destruct crit; [apply r_ret|apply IHl]. }
  destruct (i_enum i) as [k|].
  { destruct j; try apply r_fail. rewrite (ss_enums _ _ SS). apply r_bind; [apply r_of_opt|intro; apply r_enum]. }
  destruct (i_isid i); [destruct j; try apply r_fail; apply r_id|]. destruct (i_isfile i); [destruct j; try apply r_fail; apply r_file|].
  destruct (i_istime i); [destruct j; try apply r_fail; apply r_time|]. destruct j.
  - apply r_ret.
  - rewrite (xs_gostring XS). go.
  - rewrite (xs_gostring XS). go.
  - rewrite (xs_json_float XS). destruct (kind_of (snd g)); try apply r_json_number. go.
  - apply r_string.
  - rewrite (xs_gostring XS). destruct (kind_of (snd g)); try apply r_fail. apply L.
  - destruct (kind_of (snd g)); try apply r_fail. apply r_bind; [apply r_content|]. intro c. apply M.
Qed.
Section Code.
Variables (res : bytes) (frags : list nat) (rawvars : bytes) (hasargs : bool) (argsat : nat).
Lemma r_external fuel g i n : mrel (bind_external X1 S1 rawvars fuel g i n) (bind_external X2 S2 rawvars fuel g i n).
Proof.
  unfold bind_external. apply r_bind; [apply r_get_vars|]. intro vars. cbv zeta.
  assert (forall v, mrel (match var_get v n with None => ret (snd g, false, false, false) | Some j => bind (bind_json X1 S1 fuel g i j) (fun '(v, set_, crit) => ret (v, set_, true, crit)) end)
                         (match var_get v n with None => ret (snd g, false, false, false) | Some j => bind (bind_json X2 S2 fuel g i j) (fun '(v, set_, crit) => ret (v, set_, true, crit)) end)) as F.
  { intro v. destruct (var_get v n); [|apply r_ret]. apply r_bind; [apply r_json|]. intros [[? ?] ?]. apply r_ret. }
  destruct vars; [apply F|]. destruct rawvars; [apply r_ret|]. rewrite (xs_parse XS). destruct (x_parse X2 _) as [v|e]; [|go].
  apply r_bind; [apply r_put_vars|]. intros _. destruct v; try (go; fail). apply F.
Qed.
Lemma r_find_loop fuel : forall n, mrel (find_arg_loop res fuel n) (find_arg_loop res fuel n).
Proof. induction fuel as [|fuel IH]; intro n; [apply r_nofuel|]. cbn [find_arg_loop]. repeat (apply r_bind; [step|intro] || (match goal with |- mrel (if ?c then _ else _) _ => destruct c end) || step). apply IH. Qed.
Lemma r_find fuel n : mrel (find_arg res hasargs argsat fuel n) (find_arg res hasargs argsat fuel n).
Proof. unfold find_arg. destruct hasargs; [|apply r_ret]. apply r_bind; [step|intro]. apply r_bind; [step|intro]. apply r_find_loop. Qed.
Lemma r_marks fuel : forall i c n, mrel (list_marks res fuel i c n) (list_marks res fuel i c n).
Proof.
  induction fuel as [|fuel IH]; intros i c n; cbn [list_marks]; (destruct (_ || _); [|apply r_ret]); [apply r_nofuel|]. destruct (i_kind i); try (go; fail).
  apply r_bind; [apply r_of_opt|intro]. apply r_bind; [apply r_read|intro]. apply IH.
Qed.
Lemma r_mismatch i n : mrel (type_mismatch S1 i n) (type_mismatch S2 i n).
Proof. unfold type_mismatch. rewrite (ss_enums _ _ SS). go. Qed.
Lemma r_int_literal g l : mrel (int_literal X1 g l) (int_literal X2 g l).
Proof. unfold int_literal. rewrite (xs_gostring XS). destruct (kind_of (snd g)); try (go; fail). destruct (parse_int l); try (go; fail). rewrite (xs_of_int XS). go. Qed.
Lemma r_walk {A} fuel (f1 f2 : A -> bytes -> rm (A * bool)) : (forall a k, mrel (f1 a k) (f2 a k)) -> forall a, mrel (walk_object res fuel f1 a) (walk_object res fuel f2 a).
Proof.
  intro H. induction fuel as [|fuel IH]; intro a; [apply r_nofuel|]. cbn [walk_object]. apply r_bind; [apply r_read|intro c]. apply r_bind; [go|]. intro e.
  destruct e; [go|]. apply r_bind; [apply r_name|intro k]. apply r_bind; [apply H|]. intros [a' crit]. destruct crit; [apply r_ret|apply IH].
Qed.
Notation bi X S := (bind_input X S res rawvars hasargs argsat).
Notation bo X S := (bind_oparg X S res rawvars hasargs argsat).
Lemma r_input fuel : (forall g i ok, mrel (bi X1 S1 fuel g i ok) (bi X2 S2 fuel g i ok)) /\ (forall g i n, mrel (bo X1 S1 fuel g i n) (bo X2 S2 fuel g i n)).
Proof.
  induction fuel as [|fuel [IHi IHo]]; [split; intros; apply r_nofuel|]. split.
  - intros g i ok. cbn [bind_input]. apply r_ptr.
    { intros g' i'. apply r_bind; [step|intro]. apply r_bind; [step|intro k]. destruct (k =? 110); [go|apply IHi]. }
    apply r_bind; [step|intro]. apply r_bind; [step|intro k]. apply r_bind; [step|intro].
    destruct (k =? 36).
    { destruct (negb ok); [apply r_fail|]. apply r_bind; [step|intro name]. apply r_bind; [step|intro back]. apply r_bind; [apply r_find|intro found].
      destruct (negb found); [go|]. apply r_bind; [apply IHo|intro r]. go. }
    destruct (k =? 105); [apply r_bind; [step|intro; apply r_int_literal]|].
    destruct (k =? 102).
    { rewrite (xs_gostring XS). destruct (kind_of (snd g)); try apply r_fail. apply r_bind; [step|intro l]. rewrite (xs_parse_float XS). go. }
    destruct (k =? 115); [apply r_bind; [step|intro; apply r_string]|].
    destruct (k =? 98); [rewrite (xs_gostring XS); go|].
    destruct (k =? 110); [go|].
    destruct (k =? 101).
    { destruct (i_enum i); [|apply r_fail]. apply r_bind; [step|intro]. rewrite (ss_enums _ _ SS). apply r_bind; [step|intro; apply r_enum]. }
    destruct (k =? 108).
    { rewrite (xs_gostring XS). destruct (kind_of (snd g)); try apply r_fail. apply r_bind; [step|intro].
      assert (forall n acc, mrel ((fix elems (n : nat) (acc : list gval) : rm bres :=
              bind (seek res) (fun c =>
              if c =? 101 then bind (set_any g (GSlice (Some acc))) (fun v => okay v)
              else
                match n with
                | O => nofuel
                | Datatypes.S n => bind (of_opt (i_elem i)) (fun ei => bind (bi X1 S1 fuel (false, i_zero ei) ei ok) (fun '(v, _, crit) =>
                    if crit : bool then ret (snd g, false, true) else elems n (acc ++ [v])))
                end)) n acc)
          ((fix elems (n : nat) (acc : list gval) : rm bres :=
              bind (seek res) (fun c =>
              if c =? 101 then bind (set_any g (GSlice (Some acc))) (fun v => okay v)
              else
                match n with
                | O => nofuel
                | Datatypes.S n => bind (of_opt (i_elem i)) (fun ei => bind (bi X2 S2 fuel (false, i_zero ei) ei ok) (fun '(v, _, crit) =>
                    if crit : bool then ret (snd g, false, true) else elems n (acc ++ [v])))
                end)) n acc)) as L.
      { induction n as [|n IHn]; intro acc; (apply r_bind; [step|intro c]); (destruct (c =? 101); [go|]); [apply r_nofuel|].
        apply r_bind; [step|intro ei]. apply r_bind; [apply IHi|]. intros [[v b] crit]. destruct crit; [apply r_ret|apply IHn]. }
      apply L. }
    destruct (k =? 111); [|apply r_okay].
    rewrite (xs_gostring XS). destruct (kind_of (snd g)); try apply r_fail. apply r_bind; [apply r_content|intro c]. apply r_bind; [step|intro p].
    apply r_bind; [step|intro]. apply r_bind; [step|intro]. apply r_bind; [|intros [[v b] crit]; apply r_ret]. apply r_bind; [|intro; apply r_ret].
    apply r_walk. intros [v b] key. destruct (slookup c key); [|go]. apply r_bind; [step|intro f]. apply r_bind; [apply IHi|]. intros [[fv fb] crit]. apply r_ret.
  - intros g i n. cbn [bind_oparg]. apply r_bind; [step|intro c]. apply r_bind; [apply r_marks|]. intros [[ri|] c']; [|apply r_ret].
    apply r_bind; [destruct (_ || _); [apply r_bind; [step|intro; apply r_mismatch]|apply r_ret]|]. intros [m|]; [apply r_fail|].
    apply r_bind; [step|intro d]. apply r_bind; [step|intro]. apply r_bind; [apply r_external|]. intros [[[v b] found] crit].
    destruct crit; [apply r_ret|]. destruct found; [apply r_ret|]. destruct (negb _); [apply r_fail|apply IHi].
Qed.
Lemma r_args fuel ins infs b : mrel (bind_args X1 S1 res rawvars hasargs argsat fuel ins infs b) (bind_args X2 S2 res rawvars hasargs argsat fuel ins infs b).
Proof.
  unfold bind_args. destruct b; [|apply r_ret]. apply r_bind; [step|intro]. apply r_walk. intros fi key. destruct (slookup infs key) as [[n i]|]; [|go].
  apply r_bind; [step|intro av]. apply r_bind; [step|intro f]. apply r_bind; [apply r_input|]. intros [[v b] crit]. apply r_ret.
Qed.
Lemma r_world_call {A B} (f1 : W1 -> bytes -> option (W1 * A)) (f2 : W2 -> bytes -> option (W2 * A)) (k1 : W1 -> A -> rm B) (k2 : W2 -> A -> rm B) :
  (forall p w1 w2, R w1 w2 -> match f1 w1 p with Some (w1', r) => exists w2', f2 w2 p = Some (w2', r) /\ R w1' w2' | None => panics_too (f2 w2 p) end) ->
  (forall w1 w2 a, R w1 w2 -> mrel (k1 w1 a) (k2 w2 a)) ->
  mrel (bind get_world (fun w => bind get_path (fun p => bind (of_opt (f1 w p)) (fun '(w, a) => bind (put_world w) (fun _ => k1 w a)))))
       (bind get_world (fun w => bind get_path (fun p => bind (of_opt (f2 w p)) (fun '(w, a) => bind (put_world w) (fun _ => k2 w a))))).
Proof.
  intros H K s1 s2 E. cbn. unfold bind at 1 2. cbn. assert (r_path s1 = r_path s2) as Ep by apply E. rewrite Ep. assert (R (r_world s1) (r_world s2)) as Rw by apply E.
  specialize (H (r_path s2) _ _ Rw). destruct (f1 (r_world s1) (r_path s2)) as [[w1' a]|].
  - destruct H as [w2' [-> Rw']]. cbn. apply (K w1' w2' a Rw'). destruct s1, s2. unfold srel in *. cbn in *. intuition.
  - cbn. destruct H as [H|H]; [now left|right; now rewrite H].
Qed.
Lemma r_dir fuel loc : mrel (resolve_directive X1 S1 res rawvars hasargs argsat fuel loc) (resolve_directive X2 S2 res rawvars hasargs argsat fuel loc).
Proof.
  unfold resolve_directive. rewrite (ss_dirs _ _ SS). apply r_bind; [step|intro]. apply r_bind; [step|intro h]. apply r_bind; [step|intro name].
  destruct (nlookup _ _) as [ds|]; [|go]. destruct (find _ ds) as [d|]; [|go]. apply r_bind; [apply r_args|]. intros [args crit]. destruct crit; [apply r_ret|].
  destruct (dd_fn d) as [| |f]; try (go; fail). apply r_world_call; [intros p w1 w2 Rw; now apply (xs_dir XS)|]. intros; apply r_ret.
Qed.
Lemma r_dirs fuel loc n : mrel (resolve_directives X1 S1 res rawvars hasargs argsat fuel loc n) (resolve_directives X2 S2 res rawvars hasargs argsat fuel loc n).
Proof.
  induction n as [|n IH]; [apply r_ret|]. cbn [resolve_directives]. apply r_bind; [apply r_dir|]. intros [sk crit]. destruct (crit || sk); [apply r_ret|apply IH].
Qed.
Lemma r_value_json v k : mrel (value_json X1 v k) (value_json X2 v k).
Proof. unfold value_json. destruct k; try (go; fail). destruct v; try apply r_panic. rewrite (xs_float_json XS). go. Qed.
Lemma r_write_enum k v es : mrel (write_enum k v es) (write_enum k v es).
Proof. induction es as [|[n e] r IH]; [apply r_null|]. cbn [write_enum]. apply r_bind; [unfold same_enum_value; go|]. intro b. destruct b; [apply r_quoted|apply IH]. Qed.
Notation sel X S := (resolve_sel X S res frags rawvars hasargs argsat).
Notation spread X S := (resolve_spread X S res frags rawvars hasargs argsat).
Notation fld X S := (resolve_field X S res frags rawvars hasargs argsat).
Notation val X S := (resolve_value X S res frags rawvars hasargs argsat).
Lemma r_run fuel :
  (forall o o' d f, osame o o' -> mrel (sel X1 S1 fuel o d f) (sel X2 S2 fuel o' d f)) /\
  (forall o o' d f, osame o o' -> mrel (spread X1 S1 fuel o d f) (spread X2 S2 fuel o' d f)) /\
  (forall o o' d f, osame o o' -> mrel (fld X1 S1 fuel o d f) (fld X2 S2 fuel o' d f)) /\
  (forall o o' d h, osame o o' -> mrel (val X1 S1 fuel o d h) (val X2 S2 fuel o' d h)).
Proof.
  induction fuel as [|fuel (IHs & IHp & IHf & IHv)]; [split; [|split; [|split]]; intros; apply r_nofuel|]. split; [|split; [|split]].
  - intros o o' d f O. cbn [resolve_sel]. apply r_bind; [step|intro c]. destruct (c =? 101); [apply r_ret|]. destruct (c =? 102).
    { apply r_bind; [now apply IHf|]. intros [sk crit]. destruct crit; [apply r_ret|now apply IHs]. }
    destruct (c =? 115); [|go]. apply r_bind; [now apply IHp|]. intros [f' crit]. destruct crit; [apply r_ret|now apply IHs].
  - intros o o' d f O. cbn [resolve_spread]. do 3 (apply r_bind; [step|intro]). apply r_bind; [step|intro len]. apply r_bind; [step|intro]. apply r_bind; [step|intro start]. apply r_bind; [step|intro name]. cbv zeta.
    apply r_bind; [apply r_dirs|]. intros [sk crit]. destruct (crit || sk); [go|]. rewrite <- (osame_name _ _ O). destruct (_ =? 116).
    { destruct (negb _); [go|]. apply r_bind; [now apply IHs|]. intro. go. }
    fold (sel X1 S1). fold (sel X2 S2). pose proof (IHs o o' d f O) as M. set (m1 := sel X1 S1 fuel o d f) in *. set (m2 := sel X2 S2 fuel o' d f) in *. clearbody m1 m2. clear IHs IHp IHf IHv.
    induction frags as [|l r IH]; [go|]. cbv beta iota zeta fix. destruct (Nat.leb _ _); [exact IH|]. apply r_bind; [step|intro n]. destruct (beqb n name); [|exact IH].
    apply r_bind; [step|intro back]. apply r_bind; [step|intro]. apply r_bind; [step|intro tn]. destruct (negb _); [go|]. apply r_bind; [exact M|]. intro. go.
  - intros o o' d f O. cbn [resolve_field]. apply r_bind; [step|intro dirs]. apply r_bind; [step|intro]. apply r_bind; [step|intro len]. apply r_bind; [step|intro].
    apply r_bind; [step|intro]. apply r_bind; [step|intro key]. apply r_bind; [step|intro]. apply r_bind; [step|intro p]. cbv zeta. apply r_bind; [step|intro alen].
    apply r_bind; [step|intro astart]. apply r_bind; [step|intro alias]. apply r_bind; [step|intro]. apply r_bind; [step|intro path]. apply r_bind; [step|intro].
    apply r_bind; [step|intro nlen]. apply r_bind; [step|intro ns]. match goal with |- mrel (let '(_, _) := ?x in _) _ => destruct x as [nstart nend] end.
    apply r_bind; [step|intro]. apply r_bind; [step|intro]. apply r_bind; [apply r_dirs|]. intros [sk crit]. destruct (crit || sk); [go|].
    apply r_bind; [go|intro]. apply r_bind; [step|intro]. apply r_bind; [step|intro]. apply r_bind; [step|intro c]. apply r_bind; [|intro; go].
    destruct (fsame_lookup _ _ key (osame_fields _ _ O)) as [[-> ->]|(fo & cu & i & n & h & h' & -> & ->)].
    { rewrite <- (osame_name _ _ O). go. }
    apply r_bind; [step|intro g]. apply r_bind.
    { destruct cu; [step|]. destruct fo as [| | | | | |[[] ? ? ? ? ?]| | | |]; try step; (apply r_bind; [step|intro; step]). }
    intros _. apply r_bind; [apply IHv; constructor|]. intro. go.
  - intros o o' d h O. cbn [resolve_value]. apply r_bind; [step|intro g]. apply r_bind; [step|intro c].
    assert (is_method o' = is_method o /\ is_method (behind_ptr o') = is_method (behind_ptr o)) as [-> ->] by (destruct O; split; reflexivity).
    destruct (_ && _); [go|].
    assert (forall t t', osame t t' -> mrel (if (d + 1) mod 256 =? s_maxdepth S1 then bind write_null (fun _ => err (bs "reached max dept"))
                  else bind (write [123]) (fun _ => bind (sel X1 S1 fuel t ((d + 1) mod 256) true) (fun '(_, crit) => bind (write [125]) (fun _ => ret crit))))
             (if (d + 1) mod 256 =? s_maxdepth S2 then bind write_null (fun _ => err (bs "reached max dept"))
                  else bind (write [123]) (fun _ => bind (sel X2 S2 fuel t' ((d + 1) mod 256) true) (fun '(_, crit) => bind (write [125]) (fun _ => ret crit))))) as Obj.
    { intros t t' T. rewrite (ss_maxdepth _ _ SS). destruct (_ =? _); [go|]. apply r_bind; [step|intro]. apply r_bind; [now apply IHs|]. intros [? ?]. go. }
    assert (forall t t', osame t t' -> mrel
              match snd g with
              | GIface None => bind write_null (fun _ => ret false)
              | GIface (Some (tn, pkg, v)) =>
                  bind (set_next_val (fst g, v)) (fun _ =>
                  match find (fun i => beqb (fst (fst i)) tn && beqb (snd (fst i)) pkg) (match t with OIface _ _ is => is | _ => [] end) with
                  | Some (_, impl) => bind (val X1 S1 fuel impl ((d + 1) mod 256) h) (fun crit => bind idx_dec (fun _ => ret crit))
                  | None => bind idx_dec (fun _ => bind write_null (fun _ => ret false))
                  end)
              | _ => panic
              end
              match snd g with
              | GIface None => bind write_null (fun _ => ret false)
              | GIface (Some (tn, pkg, v)) =>
                  bind (set_next_val (fst g, v)) (fun _ =>
                  match find (fun i => beqb (fst (fst i)) tn && beqb (snd (fst i)) pkg) (match t' with OIface _ _ is => is | _ => [] end) with
                  | Some (_, impl) => bind (val X2 S2 fuel impl ((d + 1) mod 256) h) (fun crit => bind idx_dec (fun _ => ret crit))
                  | None => bind idx_dec (fun _ => bind write_null (fun _ => ret false))
                  end)
              | _ => panic
              end) as Ifc.
    { intros t t' T. destruct (snd g) as [| | | | | | | | | | |[[[tn pkg] v]|]| | | | |]; try apply r_panic; [|go]. apply r_bind; [step|intro].
      assert ((match t with OIface _ _ is => is | _ => [] end) = (match t' with OIface _ _ is => is | _ => [] end)) as -> by (now destruct T).
      destruct (find _ _) as [[? impl]|]; [|go]. apply r_bind; [apply IHv; constructor|]. intro. go. }
    destruct O as [o|n fs fs' F|n fs fs' is F].
    + destruct o as [|e|nm|nm fs|isid kd|e|[istype ins infs outnr errnr out]|i| |nm|nm fs is].
      * go.
      * assert (forall l, mrel (bind (write [91]) (fun _ => bind idx_inc (fun _ => bind get_pos (fun start =>
                bind ((fix elems (n : N) (l : list gval) : rm unit :=
                   match l with
                   | [] => ret tt
                   | v :: r =>
                       bind (seek_to start) (fun _ => bind get_path (fun path => bind (put_path (path ++ [44] ++ dec_of_N n)) (fun _ =>
                       bind (set_val (fst g, v)) (fun _ => bind (val X1 S1 fuel e d h) (fun _ =>
                       bind (match r with [] => ret tt | _ => write [44] end) (fun _ => bind (put_path path) (fun _ => elems (n + 1) r)))))))
                   end) 0 l) (fun _ => bind idx_dec (fun _ => bind (write [93]) (fun _ => ret false)))))))
              (bind (write [91]) (fun _ => bind idx_inc (fun _ => bind get_pos (fun start =>
                bind ((fix elems (n : N) (l : list gval) : rm unit :=
                   match l with
                   | [] => ret tt
                   | v :: r =>
                       bind (seek_to start) (fun _ => bind get_path (fun path => bind (put_path (path ++ [44] ++ dec_of_N n)) (fun _ =>
                       bind (set_val (fst g, v)) (fun _ => bind (val X2 S2 fuel e d h) (fun _ =>
                       bind (match r with [] => ret tt | _ => write [44] end) (fun _ => bind (put_path path) (fun _ => elems (n + 1) r)))))))
                   end) 0 l) (fun _ => bind idx_dec (fun _ => bind (write [93]) (fun _ => ret false)))))))) as A.
        { intro l. apply r_bind; [step|intro]. apply r_bind; [step|intro]. apply r_bind; [step|intro start]. apply r_bind; [|intro; go]. generalize 0.
          induction l as [|v r IH]; intro n; [apply r_ret|]. apply r_bind; [step|intro]. apply r_bind; [step|intro path]. apply r_bind; [step|intro]. apply r_bind; [step|intro].
          apply r_bind; [apply IHv; constructor|intro]. apply r_bind; [destruct r; step|intro]. apply r_bind; [step|intro]. apply IH. }
        destruct (snd g) as [| | | | |[l|]|l| | | | | | | | | |]; try apply r_panic; try apply A. go.
      * destruct (negb h); [go|]. destruct (tsame_lookup _ _ nm (ss_types _ _ SS)) as [[-> ->]|(t & t' & -> & -> & T)]; [go|]. now apply Obj.
      * destruct (negb h); [go|]. apply Obj. constructor.
      * destruct h; [go|]. destruct (isid && _); repeat (apply r_bind; [first [step|apply r_value_json]|intro]); step.
      * destruct (snd g) as [| | | | | | |[v|]| | | | | | | | |]; try apply r_panic; [|go]. apply r_bind; [step|intro]. apply IHv. constructor.
      * assert (mrel (bind (bind_args X1 S1 res rawvars hasargs argsat fuel ins infs (c =? 118)) (fun '(args, crit) =>
                if crit : bool then ret true
                else if fst g then panic
                else bind get_world (fun w => bind get_path (fun p => bind (of_opt (x_call X1 w (snd g) args p)) (fun '(w, outs) => bind (put_world w) (fun _ =>
                    bind (seek res) (fun c =>
                    let has_sel := negb (c =? 101) in
                    bind (match errnr with
                     | None => ret tt
                     | Some n => bind (of_opt (nth_error outs n)) (fun e =>
                         match e with GErr None => ret tt | GErr (Some m) => bind (err m) (fun _ => ret tt) | _ => panic end)
                     end) (fun _ =>
                    match x_ctxerr X1 w with
                    | Some m => bind (err m) (fun _ => bind write_null (fun _ => ret false))
                    | None => bind (of_opt (nth_error outs outnr)) (fun v => bind (set_val (false, v)) (fun _ => val X1 S1 fuel out d has_sel))
                    end))))))))
              (bind (bind_args X2 S2 res rawvars hasargs argsat fuel ins infs (c =? 118)) (fun '(args, crit) =>
                if crit : bool then ret true
                else if fst g then panic
                else bind get_world (fun w => bind get_path (fun p => bind (of_opt (x_call X2 w (snd g) args p)) (fun '(w, outs) => bind (put_world w) (fun _ =>
                    bind (seek res) (fun c =>
                    let has_sel := negb (c =? 101) in
                    bind (match errnr with
                     | None => ret tt
                     | Some n => bind (of_opt (nth_error outs n)) (fun e =>
                         match e with GErr None => ret tt | GErr (Some m) => bind (err m) (fun _ => ret tt) | _ => panic end)
                     end) (fun _ =>
                    match x_ctxerr X2 w with
                    | Some m => bind (err m) (fun _ => bind write_null (fun _ => ret false))
                    | None => bind (of_opt (nth_error outs outnr)) (fun v => bind (set_val (false, v)) (fun _ => val X2 S2 fuel out d has_sel))
                    end))))))))) as C.
        { apply r_bind; [apply r_args|]. intros [args crit]. destruct crit; [apply r_ret|]. destruct (fst g); [apply r_panic|].
          apply (r_world_call (fun w p => x_call X1 w (snd g) args p) (fun w p => x_call X2 w (snd g) args p)); [intros p w1 w2 Rw; now apply (xs_call XS)|].
          intros w1 w2 outs Rw. apply r_bind; [step|intro c']. cbv zeta. apply r_bind; [go|]. intros _. rewrite (xs_ctxerr XS _ _ Rw). destruct (x_ctxerr X2 w2); [go|].
          apply r_bind; [step|intro v]. apply r_bind; [step|intro]. apply IHv. constructor. }
        destruct istype, (snd g) as [| | | | | | | | | | | |[f|]| | | |]; try apply r_panic; try apply C. go.
      * rewrite (ss_enums _ _ SS). apply r_bind; [step|intro e]. apply r_bind; [apply r_write_enum|intro; step].
      * go.
      * destruct (negb h); [go|]. destruct (tsame_lookup _ _ nm (ss_ifaces _ _ SS)) as [[-> ->]|(t & t' & -> & -> & T)]; [go|]. now apply Ifc.
      * destruct (negb h); [go|]. apply (Ifc (OIface nm fs is) (OIface nm fs is)). constructor.
    + destruct (negb h); [go|]. apply Obj. now constructor.
    + destruct (negb h); [go|]. apply (Ifc (OIface n fs is) (OIface n fs' is)). now constructor.
Qed.
End Code.

Lemma r_put0 v : mrel (put_val0 v) (put_val0 v). Proof. prim. Qed.
Lemma r_operation res frags rawvars fuel : mrel (resolve_operation X1 S1 res frags rawvars fuel) (resolve_operation X2 S2 res frags rawvars fuel).
Proof.
  unfold resolve_operation. apply r_bind; [step|intro]. apply r_bind; [step|intro k]. destruct (k =? 115); [go|]. rewrite (ss_qvalue _ _ SS), (ss_mvalue _ _ SS).
  apply r_bind; [destruct (k =? 113); [apply r_put0|]; destruct (k =? 109); [apply r_put0|apply r_ret]|]. intros _. apply r_bind; [step|intro a0]. apply r_bind; [step|intro dirs].
  destruct (0 <? dirs); [go|]. apply r_bind; [step|intro]. apply r_bind; [go|intro at_]. apply r_bind; [|intros [? ?]; step]. apply r_run. destruct (k =? 109); apply SS.
Qed.
(** the whole of Resolve *)
Definition same_result (a : rresult W1) (b : rresult W2) : Prop :=
  match a with
  | RDone out es vals w1 => exists w2, b = RDone out es vals w2 /\ R w1 w2
  | RPanicked => lenient \/ b = RPanicked
  | ROutOfFuel => b = ROutOfFuel
  end.
Theorem resolve_same fuel o vals w1 w2 q : R w1 w2 -> same_result (resolve X1 S1 fuel o vals w1 q) (resolve X2 S2 fuel o vals w2 q).
Proof.
  intro Rw. unfold resolve. destruct (parse_query q (target_of o)) as [p| |]; [|now right|now right]. unfold resolve_parsed. cbv zeta. destruct (p_errs p); [|cbn; eauto].
  destruct (p_tgt p) as [n|]; [|cbn; eauto].
  pose proof (r_operation (p_res p) (p_frags p) (op_vars o) fuel (RS n ((if op_nometa o then [] else data_start) ++ [123]) [] [] vals 0 None w1)
     (RS n ((if op_nometa o then [] else data_start) ++ [123]) [] [] vals 0 None w2)) as H.
  specialize (H ltac:(unfold srel; cbn; repeat split; auto)).
  destruct (resolve_operation X1 _ _ _ _ _ _) as [b s1| |].
  - destruct H as [s2 [-> E]]. cbn. destruct s1, s2. unfold srel in E. cbn in *. destruct E as (-> & -> & -> & -> & -> & -> & -> & E). eauto.
  - destruct H as [H| ->]; [now left|now right].
  - now rewrite H.
Qed.
End Rel.
