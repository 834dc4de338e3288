(** * More steps do not change a result (proofs) *)
From Coq Require Import String Arith NArith ZArith Bool List Lia.
From Verif Require Import Base Json Ast ReqModel Schema ResModel Interp SpecLit SpecVal SpecArgs SpecRun.
Import ListNotations.
Open Scope N_scope.

Section Mono.
Context {W : Type}.
Variable X : externals W.
Variable S : schema.
Variable rawvars : bytes.
Notation st := (rst W).
Notation bm := (@bm W).
Notation rm := (@rm W).

(** [le m m']: where [m] is not out of fuel, [m'] does the same *)
Definition le {A} (m m' : bm A) : Prop := forall s, m s = BNoFuel \/ m' s = m s.
Definition rle {A} (m m' : rm A) : Prop := forall s, m s = RNoFuel \/ m' s = m s.
Lemma le_refl : forall A (m : bm A), le m m. Proof. intros A m s. now right. Qed.
Lemma le_nofuel : forall A (m : bm A), le bnofuel m. Proof. intros A m s. now left. Qed.
Lemma le_trans : forall A (a b c : bm A), le a b -> le b c -> le a c.
Proof. intros A a b c H K s. destruct (H s) as [E|E]; auto. destruct (K s) as [F|F]; [left|right]; congruence. Qed.
Lemma le_bind : forall A B (m m' : bm A) (f f' : A -> bm B), le m m' -> (forall a, le (f a) (f' a)) -> le (bbind m f) (bbind m' f').
Proof.
  intros A B m m' f f' H K s. unfold bbind. destruct (H s) as [E|E]; [left; now rewrite E|]. rewrite E. destruct (m s) as [a s'| | |]; auto. apply K.
Qed.
Lemma rle_refl : forall A (m : rm A), rle m m. Proof. intros A m s. now right. Qed.
Lemma rle_nofuel : forall A (m : rm A), rle nofuel m. Proof. intros A m s. now left. Qed.
Lemma rle_bind : forall A B (m m' : rm A) (f f' : A -> rm B), rle m m' -> (forall a, rle (f a) (f' a)) -> rle (bind m f) (bind m' f').
Proof.
  intros A B m m' f f' H K s. unfold bind. destruct (H s) as [E|E]; [left; now rewrite E|]. rewrite E. destruct (m s) as [a s'| |]; auto. apply K.
Qed.
Lemma le_lift : forall A (m m' : rm A), rle m m' -> le (lift m) (lift m').
Proof. intros A m m' H s. unfold lift. destruct (H s) as [->| ->]; auto. Qed.

Lemma rle_ptr : forall g i f f' (m m' : rm bres), (forall g i, rle (f g i) (f' g i)) -> rle m m' -> rle (through_ptr g i f m) (through_ptr g i f' m').
Proof.
  intros g i f f' m m' H K. unfold through_ptr. destruct (i_kind i); auto. destruct (i_isfile i); auto.
  apply rle_bind; [apply rle_refl|]. intro e. apply rle_bind; [apply H|]. intros a. apply rle_refl.
Qed.
Lemma j_mono : forall fuel g i j, rle (bind_json X S fuel g i j) (bind_json X S (Datatypes.S fuel) g i j).
Proof.
  induction fuel as [|fuel IH]; intros g i j; [apply rle_nofuel|]. rewrite (json_step X S fuel), (json_step X S (Datatypes.S fuel)). apply rle_ptr; [intros; apply IH|].
  assert (M : forall c ro m v, rle (j_members X S fuel c ro v m) (j_members X S (Datatypes.S fuel) c ro v m)).
  { intros c ro m. induction m as [|[k jv] r IHm]; intros v; cbn [j_members]; [apply rle_refl|]. destruct (slookup c k); [|apply rle_refl].
    apply rle_bind; [apply rle_refl|]. intro f. apply rle_bind; [apply IH|]. intros [[fv b] crit]. destruct crit; [apply rle_refl|apply IHm]. }
  assert (E : forall l acc, rle (j_elems X S fuel g i l acc) (j_elems X S (Datatypes.S fuel) g i l acc)).
  { induction l as [|jv r IHl]; intros acc; cbn [j_elems]; [apply rle_refl|].
    apply rle_bind; [apply rle_refl|]. intro f. apply rle_bind; [apply IH|]. intros [[fv b] crit]. destruct crit; [apply rle_refl|apply IHl]. }
  unfold j_body. destruct (special_b i); [apply rle_refl|]. destruct j; try apply rle_refl.
  - destruct (kind_of (snd g)); try apply rle_refl. apply E.
  - destruct (kind_of (snd g)); try apply rle_refl. apply rle_bind; [apply rle_refl|]. intro. apply M.
Qed.
Lemma ext_mono : forall fuel g i n, rle (bind_external X S rawvars fuel g i n) (bind_external X S rawvars (Datatypes.S fuel) g i n).
Proof.
  intros fuel g i n. unfold bind_external. apply rle_bind; [apply rle_refl|]. intro vars.
  assert (F : forall v, rle match var_get v n with None => ret (snd g, false, false, false) | Some j => bind (bind_json X S fuel g i j) (fun '(v, set_, crit) => ret (v, set_, true, crit)) end
                            match var_get v n with None => ret (snd g, false, false, false) | Some j => bind (bind_json X S (Datatypes.S fuel) g i j) (fun '(v, set_, crit) => ret (v, set_, true, crit)) end).
  { intro v. destruct (var_get v n); [|apply rle_refl]. apply rle_bind; [apply j_mono|]. intros [[? ?] ?]. apply rle_refl. }
  destruct vars as [v|]; [apply F|]. destruct rawvars; [apply rle_refl|]. destruct (x_parse X _) as [v|e]; [|apply rle_refl]. apply rle_bind; [apply rle_refl|]. intros _. destruct v; try apply rle_refl. apply F.
Qed.

Section Op.
Variable decls : option (list oparg).
Variable fdefs : list (bytes * bytes * list sel).
Lemma find_mono : forall fuel n, le (@b_find_arg W decls fuel n) (b_find_arg decls (Datatypes.S fuel) n).
Proof.
  intros fuel n. unfold b_find_arg. destruct decls as [l|]; [|apply le_refl]. revert l. induction fuel as [|fuel IH]; intros l; [apply le_nofuel|].
  destruct l as [|a r]; [apply le_refl|]. cbn [b_find]. destruct (beqb (oa_name a) n); [apply le_refl|]. apply IH.
Qed.
Lemma marks_mono : forall t fuel i n, le (@b_marks W fuel i t n) (b_marks (Datatypes.S fuel) i t n).
Proof.
  induction t as [m nn|t IH nn]; intros fuel i n; [destruct fuel; apply le_refl|]. destruct fuel as [|fuel]; [apply le_nofuel|].
  cbn [b_marks]. destruct (i_kind i); try apply le_refl. apply le_bind; [apply le_refl|]. intro e. apply IH.
Qed.
Lemma walk_mono : forall A n (f f' : A -> bytes -> Ast.value -> bm (A * bool)) ms a, (forall a k v, le (f a k v) (f' a k v)) -> le (b_walk n f ms a) (b_walk (Datatypes.S n) f' ms a).
Proof.
  intros A n f f' ms a H. revert ms a. induction n as [|n IH]; intros ms a; [apply le_nofuel|]. destruct ms as [|[k v] r]; [apply le_refl|].
  change (le (bbind (f a k v) (fun '(a, crit) => if crit : bool then bret (a, true, None) else if is_list v then match n with O => bnofuel | Datatypes.S _ => bret (a, false, Some r) end else b_walk n f r a))
             (bbind (f' a k v) (fun '(a, crit) => if crit : bool then bret (a, true, None) else if is_list v then bret (a, false, Some r) else b_walk (Datatypes.S n) f' r a))).
  apply le_bind; [apply H|]. intros [a' crit]. destruct crit; [apply le_refl|]. destruct (is_list v); [destruct n; [apply le_nofuel|apply le_refl]|apply IH].
Qed.
Lemma bptr_mono : forall g i f f' (m m' : bm bres), (forall g i, le (f g i) (f' g i)) -> le m m' -> le (b_ptr g i f m) (b_ptr g i f' m').
Proof.
  intros g i f f' m m' H K. unfold b_ptr. destruct (i_kind i); auto. destruct (i_isfile i); auto.
  apply le_bind; [apply le_refl|]. intro e. apply le_bind; [apply H|]. intros a. apply le_refl.
Qed.
Notation b_input := (b_input X S rawvars decls).
Notation b_oparg := (b_oparg X S rawvars decls).
Lemma input_mono : forall fuel, (forall g i v ok, le (b_input fuel g i v ok) (b_input (Datatypes.S fuel) g i v ok)) /\
  (forall g i n a, le (b_oparg fuel g i n a) (b_oparg (Datatypes.S fuel) g i n a)).
Proof.
  induction fuel as [|fuel [IHi IHo]]; [split; intros; apply le_nofuel|]. split.
  - intros g i v ok. rewrite (input_step X S rawvars decls fuel), (input_step X S rawvars decls (Datatypes.S fuel)). apply bptr_mono; [intros; destruct v; try apply IHi; apply le_refl|].
    unfold b_body. destruct v; try apply le_refl.
    + destruct (negb ok); [apply le_refl|]. apply le_bind; [apply find_mono|]. intros [a|]; [apply IHo|apply le_refl].
    + destruct (kind_of (snd g)); try apply le_refl. enough (E : forall n vs acc, le (b_elems X S rawvars decls fuel g i ok n vs acc) (b_elems X S rawvars decls (Datatypes.S fuel) g i ok (Datatypes.S n) vs acc)) by apply E.
      induction n as [|n IHn]; intros vs acc; (destruct vs as [|x r]; [apply le_refl|]); [apply le_nofuel|].
      cbn [b_elems]. apply le_bind; [apply le_refl|]. intro ei. apply le_bind; [apply IHi|]. intros [[v b] crit]. destruct crit; [apply le_refl|]. match goal with |- le (if ?c then _ else _) _ => destruct c end; [apply le_refl|apply IHn].
    + destruct (kind_of (snd g)); try apply le_refl. apply le_bind; [apply le_refl|]. intro c. apply le_bind; [apply walk_mono|intro; apply le_refl].
      intros [v0 b0] k v. unfold on_member. destruct (slookup c k); [|apply le_refl]. apply le_bind; [apply le_refl|]. intro f. apply le_bind; [apply IHi|]. intro; apply le_refl.
  - intros g i n a. rewrite (oparg_step X S rawvars decls fuel), (oparg_step X S rawvars decls (Datatypes.S fuel)). apply le_bind; [apply marks_mono|]. intros [[ri|] tn]; [|apply le_refl].
    apply le_bind; [apply le_refl|]. intros [m|]; [apply le_refl|]. apply le_bind; [apply le_lift; apply ext_mono|]. intros [[[v b] found] crit]. destruct crit; [apply le_refl|]. destruct found; [apply le_refl|]. destruct (oa_default a); [apply IHi|apply le_refl].
Qed.
Lemma args_mono : forall fuel ins infs args, le (b_args X S rawvars decls fuel ins infs args) (b_args X S rawvars decls (Datatypes.S fuel) ins infs args).
Proof.
  intros fuel ins infs args. rewrite !args_step. destruct args as [ms|]; [|apply le_refl]. apply walk_mono. intros a k v. unfold on_arg. destruct (slookup infs k) as [[n i]|]; [|apply le_refl].
  apply le_bind; [apply le_refl|]. intro x. apply le_bind; [apply le_refl|]. intro f. apply le_bind; [apply input_mono|]. intro; apply le_refl.
Qed.
Lemma dirs_mono : forall fuel loc l, le (b_directives X S rawvars decls fuel loc l) (b_directives X S rawvars decls (Datatypes.S fuel) loc l).
Proof.
  intros fuel loc l. induction l as [|x r IH]; [apply le_refl|]. cbn [b_directives]. apply le_bind.
  - unfold b_directive. destruct (nlookup (s_dirs S) loc); [|apply le_refl]. destruct (find _ _); [|apply le_refl]. apply le_bind; [apply args_mono|]. intros; apply le_refl.
  - intros [sk crit]. destruct (crit || sk); [apply le_refl|apply IH].
Qed.
Notation b_sels := (b_sels X S rawvars decls fdefs).
Notation b_inline := (b_inline X S rawvars decls fdefs).
Notation b_spread := (b_spread X S rawvars decls fdefs).
Notation b_field := (b_field X S rawvars decls fdefs).
Notation b_value := (b_value X S rawvars decls fdefs).
Notation SN := Datatypes.S.
Lemma run_mono : forall fuel,
  (forall o d g k ss, le (b_sels fuel o d g k ss) (b_sels (SN fuel) o d g k ss)) /\
  (forall o d g k tn ds ss, le (b_inline fuel o d g k tn ds ss) (b_inline (SN fuel) o d g k tn ds ss)) /\
  (forall o d g k n ds, le (b_spread fuel o d g k n ds) (b_spread (SN fuel) o d g k n ds)) /\
  (forall o d g k al n ds args subs, le (b_field fuel o d g k al n ds args subs) (b_field (SN fuel) o d g k al n ds args subs)) /\
  (forall o d g k cur, le (b_value fuel o d g k cur) (b_value (SN fuel) o d g k cur)).
Proof.
  induction fuel as [|fuel (IHs & IHi & IHp & IHf & IHv)]; [split; [|split; [|split; [|split]]]; intros; apply le_nofuel|].
  assert (L : forall e d ro k cur l n, le (b_list X S rawvars decls fdefs fuel e d ro k cur n l) (b_list X S rawvars decls fdefs (SN fuel) e d ro k cur n l)).
  { intros e d ro k cur l. induction l as [|v r IH]; intro n; [apply le_refl|]. cbn [b_list]. apply le_bind; [apply le_refl|]. intro p. apply le_bind; [apply le_refl|]. intros _.
    apply le_bind; [apply IHv|]. intros [t c]. apply le_bind; [apply le_refl|]. intros _. apply le_bind; [apply IH|]. intro; apply le_refl. }
  split; [|split; [|split; [|split]]].
  - intros o d g k ss. rewrite (sels_step X S rawvars decls fdefs fuel), (sels_step X S rawvars decls fdefs (SN fuel)). destruct ss as [|x r]; [apply le_refl|]. apply le_bind.
    + destruct x; auto.
    + intros [ms c]. destruct c; [apply le_refl|]. apply le_bind; [apply IHs|]. intro; apply le_refl.
  - intros o d g k tn ds ss. rewrite (inline_step X S rawvars decls fdefs fuel), (inline_step X S rawvars decls fdefs (SN fuel)). apply le_bind; [apply dirs_mono|]. intros [sk c]. destruct (c || sk); [apply le_refl|]. destruct (negb _); [apply le_refl|apply IHs].
  - intros o d g k n ds. rewrite (spread_step X S rawvars decls fdefs fuel), (spread_step X S rawvars decls fdefs (SN fuel)). apply le_bind; [apply dirs_mono|]. intros [sk c]. destruct (c || sk); [apply le_refl|]. destruct (b_fragment fdefs n) as [[[m t] ss]|]; [|apply le_refl].
    destruct (skipn _ _); [|apply le_refl]. destruct (negb _); [apply le_refl|apply IHs].
  - intros o d g k al n ds args subs. rewrite (field_step X S rawvars decls fdefs fuel), (field_step X S rawvars decls fdefs (SN fuel)). apply le_bind; [apply le_refl|]. intro p. apply le_bind; [apply le_refl|]. intros _.
    apply le_bind; [apply dirs_mono|]. intros [sk c]. destruct (c || sk); [apply le_refl|]. apply le_bind; [|intros [t c']; apply le_refl].
    unfold at_field. destruct (nlookup _ _) as [[fo custom idx fn hd]|]; [|apply le_refl]. apply le_bind; [apply le_refl|]. intro v. destruct (k =? 255); [apply le_refl|apply IHv].
  - intros o d g k cur. rewrite (value_step X S rawvars decls fdefs fuel), (value_step X S rawvars decls fdefs (SN fuel)). destruct (bad_args o cur); [apply le_refl|].
    assert (Obj : forall t, le (if (d + 1) mod 256 =? s_maxdepth S then bbind (lift (err (bs "reached max dept"))) (fun b => bret (TNull, b))
                  else match cur with
                    | CSels subs => bbind (b_sels fuel t ((d + 1) mod 256) g k subs) (fun '(ms, crit) => bret (TObj ms, crit))
                    | CLost => match fuel with O => bnofuel | SN _ => bbind (lift (err (bs "unsupported operation u"))) (fun b => bret (TObj [], b)) end
                    | CArgs _ _ => bpanic end)
               (if (d + 1) mod 256 =? s_maxdepth S then bbind (lift (err (bs "reached max dept"))) (fun b => bret (TNull, b))
                  else match cur with
                    | CSels subs => bbind (b_sels (SN fuel) t ((d + 1) mod 256) g k subs) (fun '(ms, crit) => bret (TObj ms, crit))
                    | CLost => bbind (lift (err (bs "unsupported operation u"))) (fun b => bret (TObj [], b))
                    | CArgs _ _ => bpanic end)).
    { intro t. destruct (_ =? _); [apply le_refl|]. destruct cur; [apply le_refl|apply le_bind; [apply IHs|intro; apply le_refl]|destruct fuel; [apply le_nofuel|apply le_refl]]. }
    unfold v_body. destruct o as [|e|nm|nm fs|isid kd|e|[istype ins infs outnr errnr out]|i| |nm|nm fs is]; try apply le_refl.
    + destruct (snd g) as [| | | | |[l|]|l| | | | | | | | | |]; try apply le_refl; (destruct (k =? 255); [apply le_refl|]); (apply le_bind; [apply L|intro; apply le_refl]).
    + destruct (negb _); [apply le_refl|]. destruct (slookup _ _) as [t|]; [apply Obj|apply le_refl].
    + destruct (negb _); [apply le_refl|]. apply Obj.
    + destruct (snd g) as [| | | | | | |[v|]| | | | | | | | |]; try apply le_refl. apply IHv.
    + destruct istype, (snd g); try apply le_refl; try (match goal with x : option N |- _ => destruct x end; [|apply le_refl]);
      (apply le_bind; [apply args_mono|]; intros [[av c] cut]; destruct c; [apply le_refl|]; destruct (fst g); [apply le_refl|];
       repeat (apply le_bind; [apply le_refl|intro]); match goal with |- le (let '(_, _) := ?a in _) _ => destruct a as [w outs] end;
       repeat (apply le_bind; [apply le_refl|intro]); destruct (x_ctxerr X w); [apply le_refl|]; (apply le_bind; [apply le_refl|intro; apply IHv])).
    + destruct (negb _); [apply le_refl|]. destruct (slookup _ _) as [t|]; [|apply le_refl]. destruct (snd g) as [| | | | | | | | | | |[[[tn pkg] v]|]| | | | |]; try apply le_refl. destruct (k =? 255); [apply le_refl|]. destruct (find _ _) as [[? impl]|]; [apply IHv|apply le_refl].
    + destruct (negb _); [apply le_refl|]. destruct (snd g) as [| | | | | | | | | | |[[[tn pkg] v]|]| | | | |]; try apply le_refl. destruct (k =? 255); [apply le_refl|]. destruct (find _ _) as [[? impl]|]; [apply IHv|apply le_refl].
Qed.
End Op.

Theorem operation_mono : forall d op n m, (n <= m)%nat -> le (b_operation X S rawvars d op n) (b_operation X S rawvars d op m).
Proof.
  intros d op n m L. induction L as [|m L IH]; [apply le_refl|]. eapply le_trans; [exact IH|]. destruct op as [kd nm decls ds ss|]; [|apply le_refl]. cbn [b_operation].
  destruct kd; destruct ds; try apply le_refl; apply run_mono.
Qed.
End Mono.
