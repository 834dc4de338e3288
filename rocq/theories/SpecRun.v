(** * The reference interpreter and the specification of selections (proofs) *)
From Coq Require Import String Arith NArith ZArith Bool List Lia.
From Verif Require Import Base Json JsonModel JsonProof Ast ReqModel Schema ResModel Interp Facts Valid Spec SpecLit SpecJson SpecVal SpecArgs.
Import ListNotations.
Open Scope N_scope.

Section Run.
Context {W : Type}.
Variable X : externals W.
Variable S : schema.
Variable rawvars : bytes.
Variable decls : option (list oparg).
Variable fdefs : list (bytes * bytes * list sel).
Variable look : obj -> bytes -> option Schema.field.
Variable named : bytes -> Prop.   (* the field names of the document *)
Hypothesis look_ok : forall o n, reach S o -> named n -> nlookup (o_fields o) (fnv1 n) = look o n.
Notation st := (rst W).
Notation bm := (@bm W).
Notation value := Ast.value.
Notation from := (from X rawvars).
Notation to := (to X rawvars).
Notation b_sels := (b_sels X S rawvars decls fdefs).
Notation b_inline := (b_inline X S rawvars decls fdefs).
Notation b_spread := (b_spread X S rawvars decls fdefs).
Notation b_field := (b_field X S rawvars decls fdefs).
Notation b_value := (b_value X S rawvars decls fdefs).
Notation b_directives := (b_directives X S rawvars decls).
Notation b_args := (b_args X S rawvars decls).
Notation sels := (sels X S rawvars decls fdefs look).
Notation field := (field X S rawvars decls fdefs look).
Notation Value := (Spec.value X S rawvars decls fdefs look).
Notation elems := (elems X S rawvars decls fdefs look).

(** what is asked of the selections *)
Definition fits_here (x : sel) : Prop :=
  match x with
  | SField _ n _ args subs => named n /\ lists_last (given args) subs
  | SSpread n _ => forall f, In f fdefs -> is_prefix n (fst (fst f)) = true -> fst (fst f) = n
  | SInline _ _ _ => True
  end.
Definition fits (ss : list sel) : Prop := forall x, within x ss -> fits_here x.
Hypothesis frags_fit : forall f, In f fdefs -> fits (snd f).
Lemma fits_cons : forall x r, fits (x :: r) -> fits_here x /\ fits r.
Proof.
  intros x r H. split; [apply H; apply within_here; now left|]. intros y Hy. apply H. inversion Hy; subst; [apply within_here; now right|eapply within_field; [right; eauto|auto]|eapply within_inline; [right; eauto|auto]].
Qed.
Lemma fits_field : forall a n ds args subs r, fits (SField a n ds args subs :: r) -> fits subs.
Proof. intros a n ds args subs r H x Hx. apply H. eapply within_field; [now left|auto]. Qed.
Lemma fits_inline : forall n ds subs r, fits (SInline n ds subs :: r) -> fits subs.
Proof. intros n ds subs r H x Hx. apply H. eapply within_inline; [now left|auto]. Qed.

(** the steps of the interpreter *)
Lemma sels_step : forall fuel o d g k ss, b_sels (Datatypes.S fuel) o d g k ss =
  match ss with
  | [] => bret ([], false)
  | x :: r =>
      bbind match x with
            | SField alias name ds args subs => b_field fuel o d g k alias name ds args subs
            | SSpread name ds => b_spread fuel o d g k name ds
            | SInline tname ds subs => b_inline fuel o d g k tname ds subs
            end (fun '(ms, crit) =>
      if crit : bool then bret (ms, true)
      else bbind (b_sels fuel o d g k r) (fun '(ms', crit) => bret (ms ++ ms', crit)))
  end.
Proof. reflexivity. Qed.
Lemma inline_step : forall fuel o d g k tname ds subs, b_inline (Datatypes.S fuel) o d g k tname ds subs =
  bbind (b_directives fuel 2 ds) (fun '(skip_, crit) => if crit || skip_ then bret ([], crit)
    else if negb (beqb (o_name o) tname) then bret ([], false) else b_sels fuel o d g k subs).
Proof. reflexivity. Qed.
Lemma spread_step : forall fuel o d g k name ds, b_spread (Datatypes.S fuel) o d g k name ds =
  bbind (b_directives fuel 1 ds) (fun '(skip_, crit) => if crit || skip_ then bret ([], crit)
    else match b_fragment fdefs name with
        | None => bbind (lift (err (bs "fragment " ++ name ++ bs " not defined"))) (fun b => bret ([], b))
        | Some (n, tname, ss) =>
            match skipn (length name) n with
            | [] => if negb (beqb (o_name o) tname) then bret ([], false) else b_sels fuel o d g k ss
            | _ :: rest => if negb (beqb (o_name o) rest) then bret ([], false) else bnope
            end
        end).
Proof. reflexivity. Qed.
(** what follows the directives of a field *)
Definition at_field (fuel : nat) (o : obj) (d : N) (g : rv) (k : N) (name : bytes) (args : option (list (bytes * value))) (subs : list sel) : bm (rt * bool) :=
  match nlookup (o_fields o) (fnv1 name) with
  | None =>
      if beqb name (bs "__typename") then
        if has_sub (cur_of args subs) then bbind (lift (err (bs "cannot have a selection set on this field"))) (fun b => bret (THole, b))
        else bret (TName (o_name o), false)
      else bbind (lift (err (name ++ bs " does not exists on " ++ o_name o))) (fun b => bret (TNull, b))
  | Some (Field fo custom idx _ _) =>
      bbind (match custom with
             | Some v => bret (false, v)
             | None =>
                 match fo with
                 | OMethod (Method true _ _ _ _ _) => bret (fst g, GMethod (snd g) idx)
                 | _ => lift (field_of g idx)
                 end
             end) (fun v =>
      if k =? 255 then bnope else b_value fuel fo d v (k + 1) (cur_of args subs))
  end.
Lemma field_step : forall fuel o d g k alias name ds args subs, b_field (Datatypes.S fuel) o d g k alias name ds args subs =
  bbind (lift get_path) (fun path =>
  bbind (lift (put_path (path ++ [44; 34] ++ response_key alias name ++ [34]))) (fun _ =>
  bbind (b_directives fuel 0 ds) (fun '(skip_, crit) =>
  if crit || skip_ then bbind (lift (put_path path)) (fun _ => bret ([], crit))
  else bbind (at_field fuel o d g k name args subs) (fun '(t, crit) =>
       bbind (lift (put_path path)) (fun _ => bret ([(response_key alias name, t)], crit)))))).
Proof. reflexivity. Qed.
Definition b_list (fuel : nat) (e : obj) (d : N) (ro : bool) (k : N) (cur : cursor) : N -> list gval -> bm (list rt) :=
  fix elems (n : N) (l : list gval) : bm (list rt) :=
    match l with
    | [] => bret []
    | v :: r =>
        bbind (lift get_path) (fun path =>
        bbind (lift (put_path (path ++ [44] ++ dec_of_N n))) (fun _ =>
        bbind (b_value fuel e d (ro, v) k cur) (fun '(t, _) =>
        bbind (lift (put_path path)) (fun _ =>
        bbind (elems (n + 1) r) (fun ts => bret (t :: ts))))))
    end.
Definition bad_args (o : obj) (cur : cursor) : bool :=
  (match cur with CArgs _ _ => true | _ => false end) && negb (is_method o) && negb (is_method (behind_ptr o)).
Definition v_body (fuel : nat) (o : obj) (d : N) (g : rv) (k : N) (cur : cursor) : bm (rt * bool) :=
        match o with
        | OUndef => bret (TNull, false)
        | OArray e =>
            match snd g with
            | GSlice None => bret (TNull, false)
            | GSlice (Some l) | GArray l =>
                if k =? 255 then bnope
                else bbind (b_list fuel e d (fst g) (k + 1) cur 0 l) (fun ts => bret (TArr ts, false))
            | _ => bpanic
            end
        | OObj _ _ | OObjRef _ =>
            if negb (has_sub cur) then bbind (lift (err (bs "must have a selection"))) (fun b => bret (TNull, b))
            else
              match (match o with OObjRef n => slookup (s_types S) n | _ => Some o end) with
              | None => bret (TNull, false)
              | Some t =>
                  if (d + 1) mod 256 =? s_maxdepth S then bbind (lift (err (bs "reached max dept"))) (fun b => bret (TNull, b))
                  else
                    match cur with
                    | CSels subs => bbind (b_sels fuel t ((d + 1) mod 256) g k subs) (fun '(ms, crit) => bret (TObj ms, crit))
                    | CLost => match fuel with
                               | O => bnofuel
                               | Datatypes.S _ => bbind (lift (err (bs "unsupported operation u"))) (fun b => bret (TObj [], b))
                               end
                    | CArgs _ _ => bpanic
                    end
              end
        | OData isid kd =>
            if has_sub cur then bbind (lift (err (bs "cannot have a selection set on this field"))) (fun b => bret (TNull, b))
            else
              bbind (value_tree (snd g) kd) (fun t =>
              bret (if isid && negb (match kd with KString => true | _ => false end) then TQuoted t else t, false))
        | OPtr e =>
            match snd g with
            | GPtr None => bret (TNull, false)
            | GPtr (Some v) => b_value fuel e d (fst g, v) k cur
            | _ => bpanic
            end
        | OMethod (Method istype ins infields outnr errnr out) =>
            match istype, snd g with
            | false, GFunc None => bret (TNull, false)
            | false, GFunc (Some _) | true, GMethod _ _ =>
                bbind (b_args fuel ins infields (match cur with CArgs fs _ => Some fs | _ => None end)) (fun '(av, crit, cut) =>
                if crit : bool then bret (THole, true)
                else
                  let cur := match cur with CArgs _ subs => after_args cut subs | _ => cur end in
                  if fst g then bpanic
                  else
                    bbind (lift get_world) (fun w =>
                    bbind (lift get_path) (fun p =>
                    bbind (lift (of_opt (x_call X w (snd g) av p))) (fun '(w, outs) =>
                    bbind (lift (put_world w)) (fun _ =>
                    bbind (match errnr with
                     | None => bret tt
                     | Some n =>
                         bbind (lift (of_opt (nth_error outs n))) (fun e =>
                         match e with
                         | GErr None => bret tt
                         | GErr (Some m) => bbind (lift (err m)) (fun _ => bret tt)
                         | _ => bpanic
                         end)
                     end) (fun _ =>
                    match x_ctxerr X w with
                    | Some m => bbind (lift (err m)) (fun _ => bret (TNull, false))
                    | None =>
                        bbind (lift (of_opt (nth_error outs outnr))) (fun v =>
                        b_value fuel out d (false, v) k cur)
                    end))))))
            | _, _ => bpanic
            end
        | OEnum i =>
            bbind (lift (of_opt (nth_error (s_enums S) i))) (fun e =>
            bbind (enum_tree (en_kind e) (snd g) (en_entries e)) (fun t => bret (t, false)))
        | OTime =>
            if fst g then bpanic
            else match snd g with GTm t => bret (TTime t, false) | _ => bret (TNull, false) end
        | OIface _ _ _ | OIfaceRef _ =>
            if negb (has_sub cur) then bbind (lift (err (bs "must have a selection"))) (fun b => bret (TNull, b))
            else
              match (match o with OIfaceRef n => slookup (s_ifaces S) n | _ => Some o end) with
              | None => bret (TNull, false)
              | Some t =>
                  match snd g with
                  | GIface None => bret (TNull, false)
                  | GIface (Some (tn, pkg, v)) =>
                      if k =? 255 then bnope
                      else
                        match find (fun i => beqb (fst (fst i)) tn && beqb (snd (fst i)) pkg)
                                   (match t with OIface _ _ is => is | _ => [] end) with
                        | Some (_, impl) => b_value fuel impl ((d + 1) mod 256) (fst g, v) (k + 1) cur
                        | None => bret (TNull, false)
                        end
                  | _ => bpanic
                  end
              end
        end.
Lemma value_step : forall fuel o d g k cur, b_value (Datatypes.S fuel) o d g k cur =
  if bad_args o cur then bbind (lift (err (bs "field arguments not allowed"))) (fun b => bret (TNull, b)) else v_body fuel o d g k cur.
Proof. intros. destruct o; reflexivity. Qed.

(** errors are only added *)
Ltac g_step := match goal with
  | |- grows (bret _) => apply grows_ret | |- grows bpanic => apply grows_panic | |- grows bnofuel => apply grows_nofuel | |- grows bnope => apply grows_nope
  | |- grows (lift (err _)) => apply grows_err | |- grows (lift (of_opt _)) => apply grows_opt
  | |- grows (lift (field_of _ _)) => eapply (grows_spec X rawvars); apply q_field_of
  | |- grows (lift (same_enum_value _ _ _)) => eapply (grows_spec X rawvars); apply q_same_enum
  | |- grows (lift get_path) => apply grows_same; intros ? ? ? Hg; injection Hg; intros; subst; reflexivity
  | |- grows (lift (put_path _)) => apply grows_same; intros ? ? ? Hg; injection Hg; intros; subst; reflexivity
  | |- grows (lift get_world) => apply grows_same; intros ? ? ? Hg; injection Hg; intros; subst; reflexivity
  | |- grows (lift (put_world _)) => apply grows_same; intros ? ? ? Hg; injection Hg; intros; subst; reflexivity
  | |- grows (Interp.b_directives _ _ _ _ _ _ _) => eapply (grows_barg X rawvars); apply f_directives
  | |- grows (Interp.b_args _ _ _ _ _ _ _ _) => eapply (grows_barg X rawvars); apply f_args
  | |- grows (bbind _ _) => apply grows_bind; [|intro]
  | |- grows (match ?x with _ => _ end) => destruct x
  | |- grows (let '(_, _) := ?x in _) => destruct x
  end.
Ltac gr := repeat g_step.
Lemma g_enum_tree : forall k v l, grows (@enum_tree W k v l).
Proof. intros k v l. induction l as [|[n e] r IH]; cbn [enum_tree]; gr. exact IH. Qed.
Lemma g_value_tree : forall v k, grows (@value_tree W v k). Proof. intros v k. unfold value_tree. gr. Qed.
Lemma g_run : forall fuel,
  (forall o d g k ss, grows (b_sels fuel o d g k ss)) /\ (forall o d g k tn ds ss, grows (b_inline fuel o d g k tn ds ss)) /\
  (forall o d g k n ds, grows (b_spread fuel o d g k n ds)) /\ (forall o d g k al n ds args subs, grows (b_field fuel o d g k al n ds args subs)) /\
  (forall o d g k cur, grows (b_value fuel o d g k cur)).
Proof.
  induction fuel as [|fuel (IHs & IHi & IHp & IHf & IHv)]; [repeat split; intros; apply grows_nofuel|].
  assert (L : forall e d ro k cur l n, grows (b_list fuel e d ro k cur n l)).
  { intros e d ro k cur l. induction l as [|v r IH]; intro n; cbn [b_list]; gr; [apply IHv|apply IH]. }
  split; [|split; [|split; [|split]]]; intros.
  - rewrite sels_step. gr; auto.
  - rewrite inline_step. gr; auto.
  - rewrite spread_step. gr; auto.
  - rewrite field_step. unfold at_field. gr; auto.
  - rewrite value_step. destruct (bad_args o cur); [gr|]. unfold v_body. destruct o; gr; auto using g_enum_tree, g_value_tree.
Qed.

(** ** From the specification to the interpreter *)
Lemma text_key : forall p k, path_text (p ++ [PKey k]) = path_text p ++ [44; 34] ++ k ++ [34].
Proof. intros. rewrite path_text_app. cbn. now rewrite app_nil_r. Qed.
Lemma text_idx : forall p n, path_text (p ++ [PIdx n]) = path_text p ++ [44] ++ dec_of_N n.
Proof. intros. rewrite path_text_app. cbn. now rewrite app_nil_r. Qed.
Lemma to_inside : forall A (m : bm A) p q w a w', to q m w a w' -> forall s, vars_fine X rawvars s -> r_path s = p -> r_world s = w ->
  exists s', m (set_path q s) = BOk a s' /\ step X rawvars s (set_path p s') /\ r_world s' = w' /\ r_path s' = q /\ vars_fine X rawvars s'.
Proof.
  intros A m p q w a w' H s V P E. destruct (H (set_path q s)) as (s' & Hs & (T1 & T2 & T3) & Ew); auto. exists s'. split; auto. split; [|split; auto].
  split; [cbn; congruence|]. split; [exact T2|exact T3].
Qed.
Lemma put_path_at : forall A q (k : unit -> bm A) s, bbind (lift (put_path q)) k s = k tt (set_path q s). Proof. reflexivity. Qed.
Lemma get_path_at : forall A (k : bytes -> bm A) s, bbind (lift get_path) k s = k (r_path s) s. Proof. reflexivity. Qed.
Lemma set_path_id : forall p (s : st), r_path s = p -> set_path p s = s. Proof. intros p [] <-; reflexivity. Qed.
Lemma set_path_twice : forall p q (s : st), set_path p (set_path q s) = set_path p s. Proof. intros p q []; reflexivity. Qed.
Lemma field_out : forall fuel p o d g k al n ds args subs w w', to (path_text (p ++ [PKey (response_key al n)])) (b_directives fuel 0 ds) w (true, false) w' ->
  to (path_text p) (b_field (Datatypes.S fuel) o d g k al n ds args subs) w ([], false) w'.
Proof.
  intros fuel p o d g k al n ds args subs w w' H s V P E. rewrite field_step, get_path_at, put_path_at, P. rewrite text_key in H.
  destruct (to_inside _ _ (path_text p) _ _ _ _ H s V P E) as (s1 & H1 & T & E1 & P1 & V1). unfold bbind at 1. rewrite H1. cbv beta iota. cbn [orb]. rewrite put_path_at.
  exists (set_path (path_text p) s1). split; [reflexivity|]. split; auto.
Qed.
Lemma field_in : forall fuel p o d g k al n ds args subs w w1 t w2, to (path_text (p ++ [PKey (response_key al n)])) (b_directives fuel 0 ds) w (false, false) w1 ->
  to (path_text (p ++ [PKey (response_key al n)])) (at_field fuel o d g k n args subs) w1 (t, false) w2 ->
  to (path_text p) (b_field (Datatypes.S fuel) o d g k al n ds args subs) w ([(response_key al n, t)], false) w2.
Proof.
  intros fuel p o d g k al n ds args subs w w1 t w2 H K s V P E. rewrite field_step, get_path_at, put_path_at, P. rewrite text_key in H, K.
  destruct (to_inside _ _ (path_text p) _ _ _ _ H s V P E) as (s1 & H1 & T & E1 & P1 & V1). unfold bbind at 1. rewrite H1. cbv beta iota. cbn [orb].
  destruct (K s1 V1 P1 E1) as (s2 & H2 & (T1 & T2 & T3) & E2). unfold bbind at 1. rewrite H2. cbv beta iota. rewrite put_path_at.
  exists (set_path (path_text p) s2). split; [reflexivity|]. split; auto. destruct T as (_ & T & _). split; [cbn; congruence|]. split; [cbn in *; congruence|exact T3].
Qed.
Lemma fragment_find : forall n, (forall f, In f fdefs -> is_prefix n (fst (fst f)) = true -> fst (fst f) = n) ->
  b_fragment fdefs n = find (fun f => beqb (fst (fst f)) n) fdefs.
Proof.
  intros n H. unfold b_fragment. clear frags_fit. induction fdefs as [|f r IH]; cbn [find]; [reflexivity|].
  assert (R : is_prefix n n = true) by (clear; induction n; cbn; [reflexivity|]; rewrite N.eqb_refl; auto).
  destruct (beqb (fst (fst f)) n) eqn:E.
  - apply beqb_eq in E. rewrite E, R. reflexivity.
  - destruct (is_prefix n (fst (fst f))) eqn:Ep.
    + apply H in Ep; [|now left]. rewrite Ep, beqb_refl in E. discriminate.
    + apply IH. intros. apply H; auto. now right.
Qed.
Lemma fragment_is : forall n tn ss, (forall f, In f fdefs -> is_prefix n (fst (fst f)) = true -> fst (fst f) = n) -> fragment fdefs n = Some (tn, ss) ->
  b_fragment fdefs n = Some (n, tn, ss) /\ fits ss.
Proof.
  intros n tn ss H F. rewrite fragment_find by auto. unfold fragment in F. destruct (find _ fdefs) as [[[n' tn'] ss']|] eqn:E; [|discriminate]. cbn in F. injection F; intros; subst.
  apply find_some in E. destruct E as [I E]. cbn in E. apply beqb_eq in E. subst n'. split; auto. apply (frags_fit _ I).
Qed.
Lemma reach_type_of : forall o t, reach S o -> type_of S o = Some t -> reach S t.
Proof. intros o t R H. destruct o; cbn in H; try (injection H; intros <-; exact R); [eapply reach_type; eauto|eapply reach_iface; eauto]. Qed.
Lemma value_tree_iff : forall v k s t s', @value_tree W v k s = BOk t s' <-> s' = s /\ plain_tree k v t.
Proof.
  intros v k s t s'. split.
  - intro H. destruct k; cbn in H; try (injection H; intros; subst; split; [reflexivity|apply pt_other; exact Logic.I]); destruct v; try discriminate; injection H; intros; subst; split; auto; constructor.
  - intros [-> H]. inversion H; subst; try reflexivity. destruct k; auto; destruct H0.
Qed.
Lemma same_enum_iff : forall k v e (s : st) b s', same_enum_value k v e s = ROk b s' <-> s' = s /\ enum_eq k v e b.
Proof.
  intros k v e s b s'. split.
  - intro H. destruct k; cbn in H; try (injection H; intros; subst; split; [reflexivity|apply ee_other; exact Logic.I]); destruct v; try discriminate; destruct e; try discriminate; injection H; intros; subst; split; auto; constructor.
  - intros [-> H]. inversion H; subst; try reflexivity. destruct k; auto; destruct H0.
Qed.
Lemma enum_tree_iff : forall k v l s t s', @enum_tree W k v l s = BOk t s' <-> s' = s /\ enum_name k v l t.
Proof.
  intros k v l. induction l as [|[n e] r IH]; intros s t s'; cbn [enum_tree].
  - split; [intro H; injection H; intros; subst; split; auto; constructor|intros [-> H]; inversion H; reflexivity].
  - split.
    + intro H. unfold bbind, lift in H. destruct (same_enum_value k v e s) as [b s1| |] eqn:Eb; try discriminate. apply same_enum_iff in Eb. destruct Eb as [-> Eb]. destruct b.
      * injection H; intros; subst. split; auto. now apply en_this.
      * apply IH in H. destruct H as [-> H]. split; auto. now apply en_next.
    + intros [-> H]. unfold bbind, lift. inversion H as [|? ? ? ? ? Hb|? ? ? ? ? ? Hb Hr]; subst; rewrite (proj2 (same_enum_iff _ _ _ s _ s) (conj eq_refl Hb)); [reflexivity|]. apply IH. auto.
Qed.
Lemma dirs_to : forall q loc w l w' b, dirs_say X S rawvars decls q loc w l w' b -> exists n, forall fuel, (n <= fuel)%nat -> to (path_text q) (b_directives fuel loc l) w (b, false) w'.
Proof. exact (directives_fwd X S rawvars decls). Qed.

Scheme sels_mut := Minimality for Spec.sels Sort Prop
  with field_mut := Minimality for Spec.field Sort Prop
  with value_mut := Minimality for Spec.value Sort Prop
  with elems_mut := Minimality for Spec.elems Sort Prop.
Combined Scheme run_mut from sels_mut, field_mut, value_mut, elems_mut.
Lemma neq_beqb : forall a b, a <> b -> beqb a b = false.
Proof. intros a b H. destruct (beqb a b) eqn:E; auto. apply beqb_eq in E. contradiction. Qed.
Lemma no_bad : forall o subs, bad_args o (CSels subs) = false. Proof. reflexivity. Qed.
Lemma ok_args : forall o args subs, (args <> None -> takes_args o) -> bad_args o (cur_of args subs) = false.
Proof. intros o [args|] subs H; [|reflexivity]. unfold bad_args, cur_of. rewrite (H ltac:(discriminate)). cbn [negb]. apply andb_false_r. Qed.
Lemma has_sub_ne : forall ss, ss <> [] -> has_sub (CSels ss) = true. Proof. intros [] H; [contradiction|reflexivity]. Qed.
Lemma k_lt : forall k, k < 255 -> (k =? 255) = false. Proof. intros k H. apply N.eqb_neq. lia. Qed.
Lemma low256 : forall d k, d + 1 <= k -> k <= 255 -> (d + 1) mod 256 = d + 1. Proof. intros d k A B. apply N.mod_small. lia. Qed.

Lemma run_fwd :
  (forall p o d g k w ss ms w', sels p o d g k w ss ms w' -> reach S o -> fits ss -> d <= k -> k <= 255 ->
     exists n, forall fuel, (n <= fuel)%nat -> to (path_text p) (b_sels fuel o d g k ss) w (ms, false) w') /\
  (forall p o d g k w al n ds args subs ms w', field p o d g k w al n ds args subs ms w' -> reach S o -> fits [SField al n ds args subs] -> d <= k -> k <= 255 ->
     exists n', forall fuel, (n' <= fuel)%nat -> to (path_text p) (b_field fuel o d g k al n ds args subs) w (ms, false) w') /\
  (forall p o d g k w args subs t w', Value p o d g k w args subs t w' -> reach S o -> fits subs -> d + 1 <= k -> k <= 255 ->
     exists n, forall fuel, (n <= fuel)%nat -> to (path_text p) (b_value fuel o d g k (cur_of args subs)) w (t, false) w') /\
  (forall p o d ro n l k w subs ts w', elems p o d ro n l k w subs ts w' -> reach S o -> fits subs -> d + 1 <= k -> k <= 255 ->
     exists n', forall fuel, (n' <= fuel)%nat -> to (path_text p) (b_list fuel o d ro k (CSels subs) n l) w ts w').
Proof.
  apply run_mut.
  (* selections *)
  - intros p o d g k w R F D K. exists 1%nat. intros [|fuel] L; [lia|]. rewrite sels_step. apply to_ret.
  - intros p o d g k w al n ds args subs r ms1 w1 ms2 w2 _ IH1 _ IH2 R F D K. destruct (fits_cons _ _ F) as [Fx Fr].
    destruct IH1 as (n1 & H1); auto. { intros x Hx. apply F. inversion Hx as [ss I|a' n' ds' args' subs' ss I Hw|n' ds' subs' ss I Hw]; subst; [apply within_here|eapply within_field|eapply within_inline]; eauto; (destruct I as [<-|[]]; now left). }
    destruct IH2 as (n2 & H2); auto. exists (Datatypes.S (Nat.max n1 n2)). intros [|fuel] L; [lia|]. rewrite sels_step.
    eapply to_bind; [apply H1; lia|]. cbv beta iota. eapply to_bind; [apply H2; lia|]. cbv beta iota. apply to_ret.
  - intros p o d g k w n ds r w1 ms w2 Hd _ IH R F D K. destruct (fits_cons _ _ F) as [Fx Fr]. destruct (dirs_to _ _ _ _ _ _ Hd) as (n1 & H1). destruct IH as (n2 & H2); auto.
    exists (2 + Nat.max n1 n2)%nat. intros [|[|fuel]] L; try lia. rewrite sels_step, spread_step.
    eapply to_bind; [eapply to_bind; [apply H1; lia|]; cbv beta iota; cbn [orb]; apply to_ret|]. cbv beta iota. eapply to_bind; [apply H2; lia|]. cbv beta iota. apply to_ret.
  - intros p o d g k w n ds r w1 tn ss ms w2 Hd Hf Hn _ IH R F D K. destruct (fits_cons _ _ F) as [Fx Fr]. destruct (dirs_to _ _ _ _ _ _ Hd) as (n1 & H1). destruct IH as (n2 & H2); auto.
    destruct (fragment_is _ _ _ Fx Hf) as [Ef _].
    exists (2 + Nat.max n1 n2)%nat. intros [|[|fuel]] L; try lia. rewrite sels_step, spread_step.
    eapply to_bind; [eapply to_bind; [apply H1; lia|]; cbv beta iota; cbn [orb]; rewrite Ef, skipn_all, neq_beqb by auto; cbn [negb]; apply to_ret|]. cbv beta iota.
    eapply to_bind; [apply H2; lia|]. cbv beta iota. apply to_ret.
  - intros p o d g k w n ds r w1 tn ss ms1 w2 ms2 w3 Hd Hf Hn _ IH1 _ IH2 R F D K. destruct (fits_cons _ _ F) as [Fx Fr]. destruct (dirs_to _ _ _ _ _ _ Hd) as (n1 & H1).
    destruct (fragment_is _ _ _ Fx Hf) as [Ef Fs]. destruct IH1 as (n2 & H2); auto. destruct IH2 as (n3 & H3); auto.
    exists (2 + Nat.max n1 (Nat.max n2 n3))%nat. intros [|[|fuel]] L; try lia. rewrite sels_step, spread_step.
    eapply to_bind; [eapply to_bind; [apply H1; lia|]; cbv beta iota; cbn [orb]; rewrite Ef, skipn_all, Hn, beqb_refl; cbn [negb]; apply H2; lia|]. cbv beta iota.
    eapply to_bind; [apply H3; lia|]. cbv beta iota. apply to_ret.
  - intros p o d g k w tn ds ss r w1 ms w2 Hd _ IH R F D K. destruct (fits_cons _ _ F) as [Fx Fr]. destruct (dirs_to _ _ _ _ _ _ Hd) as (n1 & H1). destruct IH as (n2 & H2); auto.
    exists (2 + Nat.max n1 n2)%nat. intros [|[|fuel]] L; try lia. rewrite sels_step, inline_step.
    eapply to_bind; [eapply to_bind; [apply H1; lia|]; cbv beta iota; cbn [orb]; apply to_ret|]. cbv beta iota. eapply to_bind; [apply H2; lia|]. cbv beta iota. apply to_ret.
  - intros p o d g k w tn ds ss r w1 ms w2 Hd Hn _ IH R F D K. destruct (fits_cons _ _ F) as [Fx Fr]. destruct (dirs_to _ _ _ _ _ _ Hd) as (n1 & H1). destruct IH as (n2 & H2); auto.
    exists (2 + Nat.max n1 n2)%nat. intros [|[|fuel]] L; try lia. rewrite sels_step, inline_step.
    eapply to_bind; [eapply to_bind; [apply H1; lia|]; cbv beta iota; cbn [orb]; rewrite neq_beqb by auto; cbn [negb]; apply to_ret|]. cbv beta iota.
    eapply to_bind; [apply H2; lia|]. cbv beta iota. apply to_ret.
  - intros p o d g k w tn ds ss r w1 ms1 w2 ms2 w3 Hd Hn _ IH1 _ IH2 R F D K. destruct (fits_cons _ _ F) as [Fx Fr]. pose proof (fits_inline _ _ _ _ F) as Fs. destruct (dirs_to _ _ _ _ _ _ Hd) as (n1 & H1).
    destruct IH1 as (n2 & H2); auto. destruct IH2 as (n3 & H3); auto.
    exists (2 + Nat.max n1 (Nat.max n2 n3))%nat. intros [|[|fuel]] L; try lia. rewrite sels_step, inline_step.
    eapply to_bind; [eapply to_bind; [apply H1; lia|]; cbv beta iota; cbn [orb]; rewrite Hn, beqb_refl; cbn [negb]; apply H2; lia|]. cbv beta iota.
    eapply to_bind; [apply H3; lia|]. cbv beta iota. apply to_ret.
  (* fields *)
  - intros p o d g k w al n ds args subs w' Hd R F D K. destruct (dirs_to _ _ _ _ _ _ Hd) as (n1 & H1). exists (Datatypes.S n1). intros [|fuel] L; [lia|]. apply field_out. apply H1. lia.
  - intros p o d g k w al ds w' Hd Hl R F D K. destruct (fits_cons _ _ F) as [[Fx _] _]. destruct (dirs_to _ _ _ _ _ _ Hd) as (n1 & H1). exists (Datatypes.S n1). intros [|fuel] L; [lia|].
    eapply field_in; [apply H1; lia|]. unfold at_field. rewrite look_ok, Hl, beqb_refl by auto. cbn [cur_of has_sub]. apply to_ret.
  - intros p o d g k w al n ds args subs w1 fo custom idx fn hd v t w2 Hd Hl Hp Hk _ IH R F D K. destruct (fits_cons _ _ F) as [[Fx _] _]. destruct (dirs_to _ _ _ _ _ _ Hd) as (n1 & H1).
    pose proof (look_ok _ _ R Fx) as Lk. rewrite Hl in Lk.
    destruct IH as (n2 & H2); [eapply reach_field; eauto|eapply fits_field; eauto|lia|lia|]. exists (Datatypes.S (Nat.max n1 n2)). intros [|fuel] L; [lia|].
    eapply field_in; [apply H1; lia|]. unfold at_field. rewrite Lk. eapply to_bind with (a := v).
    + inversion Hp; subst; try apply to_ret. destruct fo as [| | | | | |m| | | |]; try (apply to_pure; intro s; unfold field_of; cbn [snd fst]; match goal with E : nth_error _ _ = _ |- _ => rewrite E end; reflexivity).
      destruct m as [[] ? ? ? ? ?]; [contradiction|]. apply to_pure; intro s; unfold field_of; cbn [snd fst]; match goal with E : nth_error _ _ = _ |- _ => rewrite E end; reflexivity.
    + rewrite k_lt by auto. apply H2. lia.
  (* values *)
  - intros p d g k w subs R F D K. exists 1%nat. intros [|fuel] L; [lia|]. rewrite value_step. cbn [cur_of]. rewrite no_bad. apply to_ret.
  - intros p e d ro k w subs R F D K. exists 1%nat. intros [|fuel] L; [lia|]. rewrite value_step. cbn [cur_of]. rewrite no_bad. apply to_ret.
  - intros p e d ro l k w subs ts w' Hk _ IH R F D K. destruct IH as (n & H); [now apply reach_elem|auto|lia|lia|]. exists (Datatypes.S n). intros [|fuel] L; [lia|].
    rewrite value_step. cbn [cur_of]. rewrite no_bad. unfold v_body. cbn [snd fst]. rewrite k_lt by auto. eapply to_bind; [apply H; lia|]. apply to_ret.
  - intros p e d ro l k w subs ts w' Hk _ IH R F D K. destruct IH as (n & H); [now apply reach_elem|auto|lia|lia|]. exists (Datatypes.S n). intros [|fuel] L; [lia|].
    rewrite value_step. cbn [cur_of]. rewrite no_bad. unfold v_body. cbn [snd fst]. rewrite k_lt by auto. eapply to_bind; [apply H; lia|]. apply to_ret.
  - intros p o d g k w subs t ms w' Ho Hs Ht Hm _ IH R F D K. destruct IH as (n & H); [eapply reach_type_of; eauto|auto|lia|lia|]. exists (Datatypes.S n). intros [|fuel] L; [lia|].
    rewrite value_step. cbn [cur_of]. rewrite no_bad. unfold v_body. rewrite has_sub_ne by auto. cbn [negb]. rewrite (low256 d k) by auto.
    assert (Z : (d + 1 =? s_maxdepth S) = false) by now apply N.eqb_neq.
    destruct o; try contradiction; cbn [type_of] in Ht; first [rewrite Ht|injection Ht; intros; subst t]; cbv iota beta; rewrite Z; (eapply to_bind; [apply H; lia|]); cbv beta iota; apply to_ret.
  - intros p o d g k w subs Ho Hs Ht R F D K. exists 1%nat. intros [|fuel] L; [lia|]. rewrite value_step. cbn [cur_of]. rewrite no_bad. unfold v_body. rewrite has_sub_ne by auto. cbn [negb].
    destruct o; try contradiction; cbn [type_of] in Ht; rewrite Ht; apply to_ret.
  - intros p isid kd d g k w t H R F D K. exists 1%nat. intros [|fuel] L; [lia|]. rewrite value_step. cbn [cur_of]. rewrite no_bad. unfold v_body. cbn [has_sub].
    eapply to_bind with (a := t); [intros s V P E; exists s; rewrite (proj2 (value_tree_iff _ _ s _ s) (conj eq_refl H)); split; [reflexivity|split; [now apply step_refl|exact E]]|].
    unfold id_tree. destruct isid; cbn [andb]; [|apply to_ret]. destruct kd; apply to_ret.
  - intros p e d ro k w args subs Ha R F D K. exists 1%nat. intros [|fuel] L; [lia|]. rewrite value_step. rewrite ok_args by (intro Hn; exact (Ha Hn)). apply to_ret.
  - intros p e d ro v k w args subs t w' Ha _ IH R F D K. destruct IH as (n & H); [now apply reach_ptr|auto|lia|lia|]. exists (Datatypes.S n). intros [|fuel] L; [lia|].
    rewrite value_step. rewrite ok_args by (intro Hn; exact (Ha Hn)). apply H. lia.
  - intros p ins infs outnr errnr out d ro k w args subs R F D K. exists 1%nat. intros [|fuel] L; [lia|]. rewrite value_step, ok_args by reflexivity. apply to_ret.
  - intros p istype ins infs outnr errnr out d f k w args subs w1 avs w2 outs v t w3 Hc Hl Ha Hx He Hctx Hv _ IH R F D K.
    destruct IH as (n & H); [eapply reach_out; eauto|auto|lia|lia|]. destruct (args_fwd _ _ _ _ _ _ _ _ _ _ Ha _ Hl) as (n1 & cut & A & C & H1).
    exists (Datatypes.S (Nat.max n (Nat.max n1 (length (given args) + 2)))). intros [|fuel] L; [lia|]. rewrite value_step, ok_args by reflexivity. unfold v_body. cbn [snd fst].
    assert (Go : to (path_text p) (bbind (b_args fuel ins infs (match cur_of args subs with CArgs fs _ => Some fs | _ => None end)) (fun '(av, crit, cut) =>
                if crit : bool then bret (THole, true)
                else
                  let cur := match cur_of args subs with CArgs _ subs => after_args cut subs | _ => cur_of args subs end in
                  if false then bpanic
                  else
                    bbind (lift get_world) (fun w =>
                    bbind (lift get_path) (fun p =>
                    bbind (lift (of_opt (x_call X w f av p))) (fun '(w, outs) =>
                    bbind (lift (put_world w)) (fun _ =>
                    bbind (match errnr with
                     | None => bret tt
                     | Some n =>
                         bbind (lift (of_opt (nth_error outs n))) (fun e =>
                         match e with
                         | GErr None => bret tt
                         | GErr (Some m) => bbind (lift (err m)) (fun _ => bret tt)
                         | _ => bpanic
                         end)
                     end) (fun _ =>
                    match x_ctxerr X w with
                    | Some m => bbind (lift (err m)) (fun _ => bret (TNull, false))
                    | None =>
                        bbind (lift (of_opt (nth_error outs outnr))) (fun v =>
                        b_value fuel out d (false, v) k cur)
                    end))))))) w (t, false) w3).
    { assert (Args : exists cut', to (path_text p) (b_args fuel ins infs (match cur_of args subs with CArgs fs _ => Some fs | _ => None end)) w (avs, false, cut') w1 /\
          match cur_of args subs with CArgs _ subs => after_args cut' subs | _ => cur_of args subs end = CSels subs).
      { rewrite args_step. destruct args as [ms|]; cbn [cur_of given] in *.
        - exists cut. split; [apply H1; lia|exact A].
        - exists None. split; [|reflexivity]. inversion Ha; subst. apply to_ret. }
      destruct Args as (cut' & Ta & Tc). eapply to_bind; [exact Ta|]. cbv beta iota. rewrite Tc. cbv zeta.
      eapply to_bind; [apply to_lift; intros s E; rewrite sw_id by exact E; unfold get_world; rewrite E; reflexivity|].
      intros s V P E. rewrite get_path_at, P. revert s V P E. eapply (to_bind X rawvars); [apply to_opt; exact Hx|]. cbv beta iota.
      eapply to_bind; [apply to_lift; reflexivity|]. eapply to_bind with (a := tt).
      - destruct errnr as [en|]; [|apply to_ret]. eapply to_bind; [apply to_opt; exact He|]. apply to_ret.
      - rewrite Hctx. eapply to_bind; [apply to_opt; exact Hv|]. apply (H fuel). lia. }
    destruct f; cbn [callable] in Hc; try contradiction; [destruct f; [|contradiction]|]; subst istype; exact Go.
  - intros p i d g k w subs e t He Ht R F D K. exists 1%nat. intros [|fuel] L; [lia|]. rewrite value_step. cbn [cur_of]. rewrite no_bad. unfold v_body.
    eapply to_bind; [apply to_opt; exact He|]. eapply to_bind with (a := t); [intros s V P E; exists s; rewrite (proj2 (enum_tree_iff _ _ _ s _ s) (conj eq_refl Ht)); split; [reflexivity|split; [now apply step_refl|exact E]]|].
    apply to_ret.
  - intros p d t k w subs R F D K. exists 1%nat. intros [|fuel] L; [lia|]. rewrite value_step. cbn [cur_of]. rewrite no_bad. apply to_ret.
  - intros p d v k w subs Hv R F D K. exists 1%nat. intros [|fuel] L; [lia|]. rewrite value_step. cbn [cur_of]. rewrite no_bad. unfold v_body. cbn [fst snd]. destruct v; try contradiction; apply to_ret.
  - intros p o d ro k w subs t Ho Hs Ht R F D K. exists 1%nat. intros [|fuel] L; [lia|]. rewrite value_step. cbn [cur_of]. rewrite no_bad. unfold v_body. rewrite has_sub_ne by auto. cbn [negb snd].
    destruct o; try contradiction; cbn [type_of] in Ht; first [rewrite Ht|injection Ht; intros; subst]; apply to_ret.
  - intros p o d ro tn pkg v k w subs n fs is impl t w' Ho Hs Ht Hk Hf _ IH R F D K. pose proof (reach_type_of _ _ R Ht) as Rt. apply find_some in Hf as If. destruct If as [If _].
    destruct IH as (n1 & H); [eapply reach_impl; eauto|auto|lia|lia|]. exists (Datatypes.S n1). intros [|fuel] L; [lia|].
    rewrite value_step. cbn [cur_of]. rewrite no_bad. unfold v_body. rewrite has_sub_ne by auto. cbn [negb snd fst]. rewrite (low256 d k) by auto. destruct impl as [nm impl]. cbn [snd] in *.
    destruct o; try contradiction; cbn [type_of] in Ht; first [rewrite Ht|injection Ht; intros; subst]; cbv iota beta; rewrite k_lt by auto; rewrite Hf; apply H; lia.
  - intros p o d ro tn pkg v k w subs t Ho Hs Ht Hk Hf R F D K. exists 1%nat. intros [|fuel] L; [lia|].
    rewrite value_step. cbn [cur_of]. rewrite no_bad. unfold v_body. rewrite has_sub_ne by auto. cbn [negb snd fst].
    destruct o; try contradiction; cbn [type_of] in Ht; first [rewrite Ht|injection Ht; intros; subst]; cbv iota beta; rewrite k_lt by auto; rewrite Hf; apply to_ret.
  (* elements *)
  - intros p o d ro n k w subs R F D K. exists O. intros fuel _. apply to_ret.
  - intros p o d ro n v r k w subs t w1 ts w2 _ IH1 _ IH2 R F D K. destruct IH1 as (n1 & H1); auto. destruct IH2 as (n2 & H2); auto. exists (Nat.max n1 n2). intros fuel L. cbn [b_list].
    specialize (H1 fuel ltac:(lia)). specialize (H2 fuel ltac:(lia)). rewrite text_idx in H1. cbn [cur_of] in H1.
    intros s V P E. rewrite get_path_at, put_path_at, P. destruct (to_inside _ _ (path_text p) _ _ _ _ H1 s V P E) as (s1 & Hs & T & E1 & P1 & V1). unfold bbind at 1. rewrite Hs. cbv beta iota. rewrite put_path_at.
    destruct (H2 (set_path (path_text p) s1)) as (s2 & Hs2 & T2 & E2); auto. exists s2. unfold bbind at 1. rewrite Hs2. split; [reflexivity|]. split; auto. eapply step_trans; eauto.
Qed.

(** ** From the interpreter to the specification *)
(** as [from], but the path may change *)
Definition fromp {A} (p q : bytes) (w : W) (m : bm A) (R : A -> W -> Prop) : Prop := forall s a s', vars_fine X rawvars s -> r_path s = p -> r_world s = w ->
  m s = BOk a s' -> r_errs s' = r_errs s -> vars_fine X rawvars s' /\ r_path s' = q /\ R a (r_world s').
Lemma fromp_from : forall A p w (m : bm A) R, fromp p p w m R -> from p w m R.
Proof. intros A p w m R H s a s' V P E M Q. destruct (H s a s' V P E M Q) as (V' & P' & Ra). split; auto. split; [congruence|]. auto. Qed.
Lemma from_fromp : forall A p w (m : bm A) R, from p w m R -> fromp p p w m R.
Proof. intros A p w m R H s a s' V P E M Q. destruct (H s a s' V P E M Q) as ((P' & _ & V') & Ra). split; auto. split; [congruence|auto]. Qed.
Lemma fromp_bind : forall A B p q r w (m : bm A) (k : A -> bm B) R1 R, fromp p q w m R1 -> grows m -> (forall a, grows (k a)) ->
  (forall a w1, R1 a w1 -> fromp q r w1 (k a) R) -> fromp p r w (bbind m k) R.
Proof.
  intros A B p q r w m k R1 R M Gm Gk K s b s' V P E H Q. unfold bbind in H. destruct (m s) as [a s1| | |] eqn:Em; try discriminate.
  destruct (Gm _ _ _ Em) as (e1 & E1), (Gk _ _ _ _ H) as (e2 & E2).
  assert (Z : e1 ++ e2 = []) by (apply (app_inv_head (r_errs s)); rewrite app_assoc, <- E1, <- E2, Q, app_nil_r; reflexivity).
  apply app_eq_nil in Z. destruct Z as [-> ->]. rewrite app_nil_r in E1, E2.
  destruct (M s a s1 V P E Em E1) as (V1 & P1 & R1a). apply (K a (r_world s1) R1a s1 b s'); auto.
Qed.
Lemma fromp_get : forall p w, fromp p p w (lift get_path) (fun x w' => x = p /\ w' = w).
Proof. intros p w s a s' V P E H _. injection H; intros; subst. auto. Qed.
Lemma fromp_put : forall p q w, fromp p q w (lift (put_path q)) (fun _ w' => w' = w).
Proof. intros p q w s a s' V P E H _. injection H; intros; subst. split; [exact V|]. split; reflexivity. Qed.
Lemma fromp_ret : forall A p w (a : A) (R : A -> W -> Prop), R a w -> fromp p p w (bret a) R.
Proof. intros A p w a R H s x s' V P E M _. injection M; intros; subst. auto. Qed.

Lemma dirs_from : forall q loc fuel l w, from (path_text q) w (b_directives fuel loc l) (fun r w' => snd r = false /\ dirs_say X S rawvars decls q loc w l w' (fst r)).
Proof. exact (directives_bwd X S rawvars decls). Qed.
Ltac gg := gr; try (apply g_run).
Lemma g_list : forall fuel e d ro k cur l n, grows (b_list fuel e d ro k cur n l).
Proof. intros fuel e d ro k cur l. induction l as [|v r IH]; intro n; cbn [b_list]; gg. apply IH. Qed.
Lemma g_at_field : forall fuel o d g k n args subs, grows (at_field fuel o d g k n args subs).
Proof. intros. unfold at_field. gg. Qed.
Lemma fragment_not : forall n ss', fits_here (SSpread n ss') -> forall m tn ss, b_fragment fdefs n = Some (m, tn, ss) -> m = n /\ fragment fdefs n = Some (tn, ss) /\ fits ss.
Proof.
  intros n ds H m tn ss F. cbn [fits_here] in H. rewrite fragment_find in F by auto. apply find_some in F as I. destruct I as [I E]. cbn in E. apply beqb_eq in E. subst m.
  split; auto. split; [unfold fragment; now rewrite F|]. apply (frags_fit _ I).
Qed.
Definition members_of (p : list pitem) (o : obj) (d : N) (g : rv) (k : N) (w : W) (x : sel) (r : list (bytes * rt) * bool) (w' : W) : Prop :=
  snd r = false /\ forall r0 ms2 w2, sels p o d g k w' r0 ms2 w2 -> sels p o d g k w (x :: r0) (fst r ++ ms2) w2.
Lemma sub_none : forall args subs, has_sub (cur_of args subs) = false -> args = None /\ subs = [].
Proof. intros [a|] [|x r]; cbn; intro H; try discriminate; auto. Qed.
Lemma not_bad : forall o args subs, bad_args o (cur_of args subs) = false -> is_method o = false -> is_method (behind_ptr o) = false -> args = None.
Proof. intros o [a|] subs B M1 M2; [|reflexivity]. unfold bad_args, cur_of in B. rewrite M1, M2 in B. discriminate. Qed.
Lemma k_not : forall k, k <= 255 -> (k =? 255) = false -> k < 255. Proof. intros k A B. apply N.eqb_neq in B. lia. Qed.

Lemma run_bwd : forall fuel,
  (forall p o d g k w ss, reach S o -> fits ss -> d <= k -> k <= 255 -> from (path_text p) w (b_sels fuel o d g k ss) (fun r w' => snd r = false /\ sels p o d g k w ss (fst r) w')) /\
  (forall p o d g k w tn ds ss, reach S o -> fits ss -> d <= k -> k <= 255 -> from (path_text p) w (b_inline fuel o d g k tn ds ss) (members_of p o d g k w (SInline tn ds ss))) /\
  (forall p o d g k w n ds, reach S o -> fits_here (SSpread n ds) -> d <= k -> k <= 255 -> from (path_text p) w (b_spread fuel o d g k n ds) (members_of p o d g k w (SSpread n ds))) /\
  (forall p o d g k w al n ds args subs, reach S o -> fits_here (SField al n ds args subs) -> fits subs -> d <= k -> k <= 255 ->
     from (path_text p) w (b_field fuel o d g k al n ds args subs) (fun r w' => snd r = false /\ field p o d g k w al n ds args subs (fst r) w')) /\
  (forall p o d g k w args subs, reach S o -> fits subs -> lists_last (given args) subs -> d + 1 <= k -> k <= 255 ->
     from (path_text p) w (b_value fuel o d g k (cur_of args subs)) (fun r w' => snd r = false /\ Value p o d g k w args subs (fst r) w')).
Proof.
  induction fuel as [|fuel (IHs & IHi & IHp & IHf & IHv)]; [split; [|split; [|split; [|split]]]; intros; apply from_nofuel|].
  assert (L : forall p e d ro k w subs l n, reach S e -> fits subs -> d + 1 <= k -> k <= 255 ->
    from (path_text p) w (b_list fuel e d ro k (CSels subs) n l) (fun ts w' => elems p e d ro n l k w subs ts w')).
  { intros p e d ro k w subs l. revert w. induction l as [|v r IHl]; intros w n R F D K; cbn [b_list]; [apply from_ret; constructor|]. apply fromp_from.
    eapply fromp_bind; [apply fromp_get| | |]; [gr|intro; gg; apply g_list|]. intros a w1 [-> ->].
    eapply fromp_bind; [apply fromp_put| | |]; [gr|intro; gg; apply g_list|]. intros a w1 ->. rewrite <- text_idx.
    eapply fromp_bind; [apply from_fromp; apply (IHv (p ++ [PIdx n]) e d (ro, v) k w None subs); auto; intros x1 ? ? ? Hn; destruct x1; discriminate Hn| | |]; [gg|intro; gg; apply g_list|].
    intros [t c] w1 [C Hv]. cbn [fst snd] in C, Hv. eapply fromp_bind; [apply fromp_put| | |]; [gr|intro; gg; apply g_list|]. intros a' w2 ->.
    eapply fromp_bind; [apply from_fromp; apply IHl; auto| | |]; [apply g_list|intro; gg|]. intros ts w2 He. apply fromp_ret. econstructor; eauto. }
  split; [|split; [|split; [|split]]].
  - intros p o d g k w ss R F D K. rewrite sels_step. destruct ss as [|x r]; [apply from_ret; split; auto; constructor|]. destruct (fits_cons _ _ F) as [Fx Fr].
    eapply from_bind with (R1 := members_of p o d g k w x).
    + destruct x as [al n ds args subs|n ds|tn ds ss].
      * eapply from_weak; [apply IHf; auto; eapply fits_field; eauto|]. intros [ms c] w' [C Hf]. split; auto. intros. eapply s_field; eauto.
      * apply IHp; auto.
      * apply IHi; auto. eapply fits_inline; eauto.
    + gg.
    + intro; gg.
    + intros [ms c] w1 [C H]. cbn [fst snd] in C, H. subst c. eapply from_bind; [apply IHs; auto| | |]; [gg|intro; gg|]. intros [ms' c] w2 [C Hs]. cbn [fst snd] in C, Hs. subst c.
      apply from_ret. split; auto. cbn [fst]. auto.
  - intros p o d g k w tn ds ss R F D K. rewrite inline_step. eapply from_bind; [apply dirs_from| | |]; [gr|intro; gg|]. intros [sk c] w1 [C Hd]. cbn [fst snd] in C, Hd. subst c. cbn [orb]. destruct sk.
    + apply from_ret. split; auto. intros. cbn [fst app]. eapply s_inline_out; eauto.
    + destruct (beqb (o_name o) tn) eqn:E; cbn [negb].
      * apply beqb_eq in E. eapply from_weak; [apply IHs; auto|]. intros [ms c] w' [C Hs]. split; auto. intros. eapply s_inline; eauto.
      * apply from_ret. split; auto. intros. cbn [fst app]. eapply s_inline_other; eauto. intro Ee. rewrite Ee, beqb_refl in E. discriminate.
  - intros p o d g k w n ds R F D K. rewrite spread_step. eapply from_bind; [apply dirs_from| | |]; [gr|intro; gg|]. intros [sk c] w1 [C Hd]. cbn [fst snd] in C, Hd. subst c. cbn [orb]. destruct sk.
    + apply from_ret. split; auto. intros. cbn [fst app]. eapply s_spread_out; eauto.
    + destruct (b_fragment fdefs n) as [[[m tn] ss]|] eqn:Ef; [|apply from_err; intro; gr].
      destruct (fragment_not _ _ F _ _ _ Ef) as (-> & Hf & Fs). rewrite skipn_all. destruct (beqb (o_name o) tn) eqn:E; cbn [negb].
      * apply beqb_eq in E. eapply from_weak; [apply IHs; auto|]. intros [ms c] w' [C Hs]. split; auto. intros. eapply s_spread; eauto.
      * apply from_ret. split; auto. intros. cbn [fst app]. eapply s_spread_other; eauto. intro Ee. rewrite Ee, beqb_refl in E. discriminate.
  - intros p o d g k w al n ds args subs R [Fn Fl] Fs D K. rewrite field_step. apply fromp_from.
    eapply fromp_bind; [apply fromp_get| | |]; [gr|intro; gr; apply g_at_field|]. intros a w1 [-> ->].
    eapply fromp_bind; [apply fromp_put| | |]; [gr|intro; gr; apply g_at_field|]. intros a w1 ->. rewrite <- text_key.
    eapply fromp_bind; [apply from_fromp; apply dirs_from| | |]; [gr|intro; gr; apply g_at_field|]. intros [sk c] w1 [C Hd]. cbn [fst snd] in C, Hd. subst c. cbn [orb]. destruct sk.
    + eapply fromp_bind; [apply fromp_put| | |]; [gr|intro; gr|]. intros a' w2 ->. apply fromp_ret. split; auto. now apply f_out.
    + eapply fromp_bind with (R1 := fun r w' => snd r = false /\ field p o d g k w al n ds args subs [(response_key al n, fst r)] w').
      * apply from_fromp. unfold at_field. rewrite (look_ok _ _ R Fn). destruct (look o n) as [[fo custom idx fn hd]|] eqn:El.
        -- eapply from_bind with (R1 := fun v w' => w' = w1 /\ field_place g fo custom idx v).
           ++ destruct custom as [v|]; [apply from_ret; split; auto; constructor|].
              assert (Z : match fo with OMethod (Method true _ _ _ _ _) => False | _ => True end -> from (path_text (p ++ [PKey (response_key al n)])) w1 (lift (field_of g idx)) (fun v w' => w' = w1 /\ field_place g fo None idx v)).
              { intro Nm. eapply from_weak; [apply (from_field_of X rawvars)|]. intros v w' (-> & fs & e & old & Eg & En & ->). split; auto. destruct g as [ro gv]. cbn [fst snd] in *. subst gv. now apply fp_field. }
              destruct fo as [| | | | | |[[] ? ? ? ? ?]| | | |]; try (apply Z; exact Logic.I). apply from_ret. split; auto. constructor.
           ++ gr.
           ++ intro; gg.
           ++ intros v w2 [-> Hp]. destruct (k =? 255) eqn:Ek; [apply from_nope|]. apply k_not in Ek; auto.
              eapply from_weak; [apply IHv; auto; try lia; eapply reach_field; eauto; rewrite (look_ok _ _ R Fn); exact El|]. intros [t c] w2 [C Hv]. cbn [fst snd] in *. split; auto. eapply f_value; eauto.
        -- destruct (beqb n (bs "__typename")) eqn:Et; [|apply from_err; intro; gr]. apply beqb_eq in Et. destruct (has_sub (cur_of args subs)) eqn:Hs; [apply from_err; intro; gr|].
           apply sub_none in Hs. destruct Hs as [-> ->]. apply from_ret. split; auto. subst n. now apply f_typename.
      * apply g_at_field.
      * intro; gr.
      * intros [t c] w2 [C Hf]. cbn [fst snd] in *. subst c. eapply fromp_bind; [apply fromp_put| | |]; [gr|intro; gr|]. intros a' w3 ->. apply fromp_ret. split; auto.
  - intros p o d g k w args subs R F Fl D K. rewrite value_step. destruct (bad_args o (cur_of args subs)) eqn:B; [apply from_err; intro; gr|]. unfold v_body.
    assert (Obj : forall t : option obj, match o with OObj _ _ | OObjRef _ => True | _ => False end -> type_of S o = t -> args = None ->
      from (path_text p) w (if negb (has_sub (CSels subs)) then bbind (lift (err (bs "must have a selection"))) (fun b => bret (TNull, b))
            else match t with
              | None => bret (TNull, false)
              | Some t =>
                  if (d + 1) mod 256 =? s_maxdepth S then bbind (lift (err (bs "reached max dept"))) (fun b => bret (TNull, b))
                  else bbind (b_sels fuel t ((d + 1) mod 256) g k subs) (fun '(ms, crit) => bret (TObj ms, crit))
              end) (fun r w' => snd r = false /\ Value p o d g k w args subs (fst r) w')).
    { intros t Ho Ht ->. destruct (has_sub (CSels subs)) eqn:Hs; cbn [negb]; [|apply from_err; intro; gr]. assert (Ns : subs <> []) by (destruct subs; [discriminate|discriminate]). destruct t as [t|].
      - rewrite (low256 d k) by auto. destruct (d + 1 =? s_maxdepth S) eqn:Em; [apply from_err; intro; gr|]. apply N.eqb_neq in Em.
        eapply from_bind; [apply IHs; auto; try lia; eapply reach_type_of; eauto| | |]; [gg|intro; gr|]. intros [ms c] w1 [C H]. cbn [fst snd] in *. subst c. apply from_ret. split; auto. eapply v_obj; eauto.
      - apply from_ret. split; auto. apply v_no_type; auto. destruct o; auto; discriminate. }
    assert (Iface : forall t : option obj, match o with OIface _ _ _ | OIfaceRef _ => True | _ => False end -> type_of S o = t -> args = None ->
      from (path_text p) w (if negb (has_sub (CSels subs)) then bbind (lift (err (bs "must have a selection"))) (fun b => bret (TNull, b))
            else match t with
              | None => bret (TNull, false)
              | Some t =>
                  match snd g with
                  | GIface None => bret (TNull, false)
                  | GIface (Some (tn, pkg, v)) =>
                      if k =? 255 then bnope
                      else
                        match find (fun i => beqb (fst (fst i)) tn && beqb (snd (fst i)) pkg)
                                   (match t with OIface _ _ is => is | _ => [] end) with
                        | Some (_, impl) => b_value fuel impl ((d + 1) mod 256) (fst g, v) (k + 1) (CSels subs)
                        | None => bret (TNull, false)
                        end
                  | _ => bpanic
                  end
              end) (fun r w' => snd r = false /\ Value p o d g k w args subs (fst r) w')).
    { intros t Ho Ht ->. destruct (has_sub (CSels subs)) eqn:Hs; cbn [negb]; [|apply from_err; intro; gr]. assert (Ns : subs <> []) by (destruct subs; [discriminate|discriminate]). destruct t as [t|].
      - destruct g as [ro gv]. cbn [fst snd]. destruct gv as [| | | | | | | | | | |[[[tn pkg] v]|]| | | | |]; try apply from_panic.
        + destruct (k =? 255) eqn:Ek; [apply from_nope|]. apply k_not in Ek; auto. destruct (find _ _) as [[nm impl]|] eqn:Ef.
          * rewrite (low256 d k) by auto. destruct t as [| | | | | | | | | |tnm fs is]; try discriminate Ef. apply find_some in Ef as If. destruct If as [If _].
            eapply from_weak; [apply (IHv p impl (d + 1) (ro, v) (k + 1) w None subs); auto; try lia|].
            { eapply (reach_impl S tnm fs is (nm, impl)); auto. eapply reach_type_of; eauto. }
            intros [t c] w1 [C H]. split; auto. eapply (v_iface _ _ _ _ _ _ _ _ _ _ _ _ _ _ _ _ _ _ _ (nm, impl)); eauto.
          * apply from_ret. split; auto. eapply v_no_impl; eauto.
        + apply from_ret. split; auto. eapply v_nil_iface; eauto.
      - apply from_ret. split; auto. apply v_no_type; auto. destruct o; auto; discriminate. }
    destruct o as [|e|nm|nm fs|isid kd|e|[istype ins infs outnr errnr out]|i| |nm|nm fs is].
    + assert (args = None) by (eapply not_bad; eauto). subst args. apply from_ret. split; auto. constructor.
    + assert (args = None) by (eapply not_bad; eauto). subst args. cbn [cur_of]. destruct g as [ro gv]. cbn [fst snd]. destruct gv as [| | | | |[l|]|l| | | | | | | | | |]; try apply from_panic.
      * destruct (k =? 255) eqn:Ek; [apply from_nope|]. apply k_not in Ek; auto. eapply from_bind; [apply L; auto; try lia; now apply reach_elem| | |]; [apply g_list|intro; gr|]. intros ts w1 H. apply from_ret. split; auto. now apply v_slice.
      * apply from_ret. split; auto. constructor.
      * destruct (k =? 255) eqn:Ek; [apply from_nope|]. apply k_not in Ek; auto. eapply from_bind; [apply L; auto; try lia; now apply reach_elem| | |]; [apply g_list|intro; gr|]. intros ts w1 H. apply from_ret. split; auto. now apply v_array.
    + assert (args = None) by (eapply not_bad; eauto). subst args. apply (Obj (slookup (s_types S) nm)); auto.
    + assert (args = None) by (eapply not_bad; eauto). subst args. apply (Obj (Some (OObj nm fs))); auto.
    + destruct (has_sub (cur_of args subs)) eqn:Hs; [apply from_err; intro; gr|]. apply sub_none in Hs. destruct Hs as [-> ->].
      eapply from_bind with (R1 := fun t w' => w' = w /\ plain_tree kd (snd g) t).
      * intros s t s' V P E H Q. apply value_tree_iff in H. destruct H as [-> H]. split; [now apply step_refl|]. split; auto.
      * apply g_value_tree.
      * intro; gr.
      * intros t w1 [-> H]. apply from_ret. split; auto. cbn [fst]. replace (if isid && negb match kd with KString => true | _ => false end then TQuoted t else t) with (id_tree isid kd t) by (unfold id_tree; destruct isid, kd; reflexivity).
        now apply v_data.
    + destruct g as [ro gv]. cbn [fst snd]. assert (Ta : args <> None -> takes_args e).
      { intro Na. unfold takes_args. destruct args as [fs|]; [|contradiction]. unfold bad_args in B. cbn [cur_of is_method negb andb behind_ptr] in B. destruct (is_method (behind_ptr e)); [reflexivity|first [discriminate|destruct (is_method e); discriminate]]. }
      destruct gv as [| | | | | | |[v|]| | | | | | | | |]; try apply from_panic.
      * eapply from_weak; [apply (IHv p e d (ro, v) k w args subs); auto; now apply reach_ptr|]. intros [t c] w1 [C H]. split; auto. now apply v_ptr.
      * apply from_ret. split; auto. now apply v_nil_ptr.
    + destruct g as [ro f]. cbn [fst snd].
      match goal with |- context [bbind (Interp.b_args _ _ _ _ _ _ _ _) ?kk] => set (K2 := kk) end.
      assert (Go : callable istype f -> from (path_text p) w (bbind (b_args fuel ins infs (match cur_of args subs with CArgs fs _ => Some fs | _ => None end)) K2)
         (fun r w' => snd r = false /\ Value p (OMethod (Method istype ins infs outnr errnr out)) d (ro, f) k w args subs (fst r) w')).
      { intro Hc. eapply from_bind with (R1 := fun r w' => let '(l', crit, cut) := r in crit = false /\ args_set X S rawvars decls infs w (fresh_args ins) (given args) w' l' /\
           match cur_of args subs with CArgs _ subs => after_args cut subs | _ => cur_of args subs end = CSels subs).
        - rewrite args_step. destruct args as [ms|]; cbn [cur_of given].
          + eapply from_weak; [apply (args_bwd X S rawvars decls infs fuel (path_text p) subs); exact Fl|]. intros [[l' c] cut] w' (C & A & As & _). auto.
          + apply from_ret. split; auto. split; auto. constructor.
        - gr.
        - subst K2. intros [[? []] ?]; cbv beta iota zeta; gg.
        - intros [[av c] cut] w1 (-> & As & Tc). subst K2. cbv beta iota zeta. rewrite Tc. destruct ro; [apply from_panic|].
          eapply from_bind; [apply (from_get_world X rawvars)| | |]; [gr|intro; gg|]. intros a w2 [-> ->].
          eapply from_bind; [apply (from_get_path X rawvars)| | |]; [gr|intro; gg|]. intros a w2 [-> ->].
          eapply from_bind; [apply from_opt| | |]; [gr|intro; gg|]. intros [wx outs] w2 [Hx ->].
          eapply from_bind; [apply (from_put_world X rawvars)| | |]; [gr|intro; gg|]. intros _ w2 ->.
          eapply from_bind with (R1 := fun (_ : unit) w' => w' = wx /\ match errnr with None => True | Some n => nth_error outs n = Some (GErr None) end).
          + destruct errnr as [en|]; [|apply from_ret; auto]. eapply from_bind; [apply from_opt| | |]; [gr|intro; gr|]. intros e w2 [He ->].
            destruct e as [| | | | | | | | | | | | | |[m|]| |]; try apply from_panic; [apply from_err; intro; gr|]. apply from_ret. auto.
          + gr.
          + intro; gg.
          + intros _ w2 [-> He]. destruct (x_ctxerr X wx) eqn:Hctx; [apply from_err; intro; gr|]. eapply from_bind; [apply from_opt| | |]; [gr|intro; gg|]. intros v w2 [Hv ->].
            eapply from_weak; [apply (IHv p out d (false, v) k wx None subs); auto; [eapply reach_out; eauto|intros x1 ? ? ? Hn; destruct x1; discriminate Hn]|].
            intros [t c] w2 [C H]. split; auto. eapply v_call; eauto. }
      destruct istype, f; try apply from_panic; try (apply Go; reflexivity).
      match goal with x : option N |- _ => destruct x end; [apply Go; reflexivity|]. apply from_ret. split; auto. constructor.
    + assert (args = None) by (eapply not_bad; eauto). subst args. eapply from_bind; [apply from_opt| | |]; [gr|intro; apply grows_bind; [apply g_enum_tree|intro; gr]|]. intros e w1 [He ->].
      eapply from_bind with (R1 := fun t w' => w' = w /\ enum_name (en_kind e) (snd g) (en_entries e) t).
      * intros s t s' V P E H Q. apply enum_tree_iff in H. destruct H as [-> H]. split; [now apply step_refl|]. split; auto.
      * apply g_enum_tree.
      * intro; gr.
      * intros t w1 [-> H]. apply from_ret. split; auto. eapply v_enum; eauto.
    + assert (args = None) by (eapply not_bad; eauto). subst args. destruct g as [[] gv]; cbn [fst snd]; [apply from_panic|]. clear -p; destruct gv; apply from_ret; (split; [reflexivity|]); first [apply v_time|apply v_no_time; exact Logic.I].
    + assert (args = None) by (eapply not_bad; eauto). subst args. apply (Iface (slookup (s_ifaces S) nm)); auto.
    + assert (args = None) by (eapply not_bad; eauto). subst args. apply (Iface (Some (OIface nm fs is))); auto.
Qed.
End Run.
