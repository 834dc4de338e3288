(** * Property C19: the depth limit *)
From Coq Require Import String Arith NArith ZArith Bool List Lia.
From Verif Require Import Base Json JsonModel Ast Grammar RefGrammar ReqModel Schema ResModel EnvModel Samples Interp RunSim Facts DocRun PropEnv Spec SpecRun SpecDoc Regular PropExec PropSel ArgRun PropArgs PropOut PropUnknown.
Import ListNotations.
Open Scope N_scope.
Local Notation SN := Datatypes.S.

(** ** Specification *)
(** how many objects of a response are inside each other *)
Fixpoint levels (t : rt) : N :=
  match t with
  | TObj m => 1 + fold_right N.max 0 (map (fun x => levels (snd x)) m)
  | TArr l => fold_right N.max 0 (map levels l)
  | TQuoted t => levels t
  | _ => 0
  end.
(** no type of the schema is an interface *)
Definition no_interfaces (S : schema) : Prop := forall o, reach S o -> match o with OIface _ _ _ | OIfaceRef _ => False | _ => True end.
(** [deep S frags n o v ss]: the selections [ss] on the object [v] of type [o] ask for an object [n] levels below it *)
Inductive deep (S : schema) (frags : list (bytes * bytes * list sel)) : nat -> obj -> gval -> list sel -> Prop :=
| dp_here : forall o v ss, deep S frags O o v ss
| dp_inline : forall n o v sub ss, In (SInline (o_name o) [] sub) ss -> deep S frags n o v sub -> deep S frags n o v ss
| dp_spread : forall n o v f sub ss, In (SSpread f []) ss -> fragment frags f = Some (o_name o, sub) -> deep S frags n o v sub -> deep S frags n o v ss
| dp_below : forall m o fs alias n subs ss h fo idx hd e v t x, In (SField alias n [] None subs) ss ->
    In (h, Field fo None idx n hd) (o_fields o) -> (forall f, In f (o_fields o) -> fname_of (snd f) = n -> snd f = Field fo None idx n hd) ->
    nth_error fs idx = Some (e, v) -> inside S fo v t x -> deep S frags m t x subs -> deep S frags (SN m) o (GStruct fs) ss.
(** [path S o v p t x]: the fields [p], one inside the other, lead from the object [v] of type [o] through pointers to the object [x] of type [t] *)
Inductive behind (S : schema) : obj -> gval -> obj -> gval -> Prop :=
| be_obj : forall n fs v, behind S (OObj n fs) v (OObj n fs) v
| be_named : forall n t v, slookup (s_types S) n = Some t -> behind S (OObjRef n) v t v
| be_ptr : forall o v t x, behind S o v t x -> behind S (OPtr o) (GPtr (Some v)) t x.
Inductive path (S : schema) : obj -> gval -> list bytes -> Prop :=
| pa_nil : forall o v, path S o v []
| pa_cons : forall o fs f p h fo idx hd e v t x, In (h, Field fo None idx f hd) (o_fields o) ->
    (forall f', In f' (o_fields o) -> fnv1 (fname_of (snd f')) = fnv1 f -> snd f' = Field fo None idx f hd) ->
    nth_error fs idx = Some (e, v) -> behind S fo v t x -> path S t x p -> path S o (GStruct fs) (f :: p).
(** the selection [{f1{f2{...{rest}}}}] *)
Fixpoint nested (p : list bytes) (rest : list sel) : list sel := match p with [] => rest | f :: r => [SField None f [] None (nested r rest)] end.
(** the response [{"f1":{"f2":...{"fn":null}...}}] *)
Fixpoint nulled (p : list bytes) : bytes := match p with [] => bs "null" | f :: r => bs "{" ++ quoted f ++ bs ":" ++ nulled r ++ bs "}" end.
(** the path of an error, ["f1","f2",...] *)
Definition keys_text (p : list bytes) : bytes := commas (map quoted p).

(** ** Proof: the bound *)
Definition post {W A} (m : @bm W A) (P : A -> Prop) : Prop := forall s, match m s with BOk a _ => P a | _ => True end.
Lemma post_bind : forall W A B (m : @bm W A) (f : A -> bm B) P Q, post m P -> (forall a, P a -> post (f a) Q) -> post (bbind m f) Q.
Proof. intros W A B m f P Q H F s. unfold bbind. specialize (H s). destruct (m s) as [a t| | |]; auto. apply F; auto. Qed.
Lemma post_any : forall W A B (m : @bm W A) (f : A -> bm B) Q, (forall a, post (f a) Q) -> post (bbind m f) Q.
Proof. intros. eapply post_bind with (P := fun _ => True); auto. intro s. destruct (m s); auto. Qed.
Lemma post_ret : forall W A (a : A) (P : A -> Prop), P a -> post (@bret W A a) P. Proof. intros W A a P H s. exact H. Qed.
Lemma post_nofuel : forall W A (P : A -> Prop), post (@bnofuel W A) P. Proof. intros W A P s. exact Logic.I. Qed.
Lemma post_panic : forall W A (P : A -> Prop), post (@bpanic W A) P. Proof. intros W A P s. exact Logic.I. Qed.
Lemma post_nope : forall W A (P : A -> Prop), post (@bnope W A) P. Proof. intros W A P s. exact Logic.I. Qed.
#[local] Hint Resolve post_nofuel post_panic post_nope : core.
Definition most (m : list (bytes * rt)) : N := fold_right N.max 0 (map (fun x => levels (snd x)) m).
Lemma most_app : forall a b, most (a ++ b) = N.max (most a) (most b).
Proof. induction a as [|x a IH]; intro b; cbn; [unfold most; cbn; lia|]. change (fold_right N.max 0 (map (fun x => levels (snd x)) (a ++ b))) with (most (a ++ b)). rewrite IH. unfold most. lia. Qed.
Section Bound.
Context {W : Type} (X : externals W) (S : schema) (rawvars : bytes) (decls : option (list oparg)) (fdefs : list (bytes * bytes * list sel)).
Hypothesis NI : no_interfaces S.
Hypothesis ML : s_maxdepth S < 256.
Notation M := (s_maxdepth S).
Definition in_m (d : N) (a : list (bytes * rt) * bool) : Prop := d + 1 + most (fst a) <= M.
Definition in_v (d : N) (a : rt * bool) : Prop := d + 1 + levels (fst a) <= M.
Ltac flat := unfold in_m, in_v, most; cbn; lia.
Lemma flat_value : forall k v, post (@value_tree W v k) (fun t => levels t = 0).
Proof.
  intros k v s. unfold value_tree. destruct k; try reflexivity; destruct v; exact Logic.I || reflexivity.
Qed.
Lemma flat_enum : forall k v es, post (@enum_tree W k v es) (fun t => levels t = 0).
Proof.
  intros k v es. induction es as [|[n e] es IH]; cbn [enum_tree]; [now apply post_ret|]. apply post_any. intros []; [now apply post_ret|exact IH].
Qed.
Lemma bounded : forall fuel,
  (forall o d g k ss, reach S o -> d < M -> post (b_sels X S rawvars decls fdefs fuel o d g k ss) (in_m d)) /\
  (forall o d g k tn ds ss, reach S o -> d < M -> post (b_inline X S rawvars decls fdefs fuel o d g k tn ds ss) (in_m d)) /\
  (forall o d g k n ds, reach S o -> d < M -> post (b_spread X S rawvars decls fdefs fuel o d g k n ds) (in_m d)) /\
  (forall o d g k al n ds args subs, reach S o -> d < M -> post (b_field X S rawvars decls fdefs fuel o d g k al n ds args subs) (in_m d)) /\
  (forall o d g k cur, reach S o -> d < M -> post (b_value X S rawvars decls fdefs fuel o d g k cur) (in_v d)).
Proof.
  induction fuel as [|fuel (IHs & IHi & IHp & IHf & IHv)]; [repeat split; intros; auto|].
  split; [|split; [|split; [|split]]].
  - intros o d g k ss R L. destruct ss as [|x r]; [apply post_ret; flat|]. rewrite (sels_step X S rawvars decls fdefs).
    eapply post_bind with (P := in_m d); [destruct x; auto|]. intros [ms c] H. destruct c; [now apply post_ret|].
    eapply post_bind; [apply IHs; auto|]. intros [ms' c'] H'. apply post_ret. unfold in_m in *. cbn [fst] in *. rewrite most_app. lia.
  - intros o d g k tn ds ss R L. cbn [b_inline]. apply post_any. intros [sk c]. destruct (c || sk); [apply post_ret; flat|]. destruct (negb _); [apply post_ret; flat|]. auto.
  - intros o d g k n ds R L. cbn [b_spread]. apply post_any. intros [sk c]. destruct (c || sk); [apply post_ret; flat|].
    destruct (b_fragment fdefs n) as [[[m tn] ss]|]; [|apply post_any; intro; apply post_ret; flat]. destruct (skipn _ _); destruct (negb _); auto; apply post_ret; flat.
  - intros o d g k al n ds args subs R L. rewrite (field_step X S rawvars decls fdefs). apply post_any; intro p. apply post_any; intro u. apply post_any. intros [sk c]. destruct (c || sk); [apply post_any; intro; apply post_ret; flat|].
    eapply post_bind with (P := in_v d).
    + unfold at_field. destruct (nlookup (o_fields o) (fnv1 n)) as [[fo cu idx fn hd]|] eqn:E.
      * apply post_any. intro v. destruct (k =? 255); auto. apply IHv; auto. eapply reach_field; eauto.
      * destruct (beqb _ _); [destruct (has_sub _)|]; try (apply post_any; intro); apply post_ret; flat.
    + intros [t c'] H. apply post_any. intro. apply post_ret. unfold in_v, in_m, most in *. cbn in *. lia.
  - intros o d g k cur R L. rewrite value_step. destruct (bad_args o cur); [apply post_any; intro; apply post_ret; flat|].
    assert (Ob : forall t, reach S t -> post (if (d + 1) mod 256 =? M then bbind (lift (err (bs "reached max dept"))) (fun b => bret (TNull, b))
        else match cur with
             | CSels subs => bbind (b_sels X S rawvars decls fdefs fuel t ((d + 1) mod 256) g k subs) (fun '(ms, crit) => bret (TObj ms, crit))
             | CLost => match fuel with O => bnofuel | SN _ => bbind (lift (err (bs "unsupported operation u"))) (fun b => bret (TObj [], b)) end
             | CArgs _ _ => bpanic
             end) (in_v d)).
    { intros t Rt. rewrite N.mod_small by lia. destruct (d + 1 =? M) eqn:E; [apply post_any; intro; apply post_ret; flat|]. apply N.eqb_neq in E. destruct cur as [fs subs|subs|]; auto.
      - eapply post_bind; [apply IHs; auto; lia|]. intros [ms c] H. apply post_ret. unfold in_m, in_v in *. cbn [fst] in *. change (levels (TObj ms)) with (1 + most ms). lia.
      - destruct fuel; auto. apply post_any. intro. apply post_ret. flat. }
    pose proof (NI o R) as NIo. unfold v_body. destruct o as [|e|n|n fs|isid kd|e|m|i| |n|n fs is]; try contradiction.
    + apply post_ret. flat.
    + assert (El : forall ro k l n, post (b_list X S rawvars decls fdefs fuel e d ro k cur n l) (fun ts => d + 1 + fold_right N.max 0 (map levels ts) <= M)).
      { intros ro k' l. induction l as [|v l IH]; intro n; cbn [b_list]; [apply post_ret; flat|]. apply post_any. intro p. apply post_any. intros _. eapply post_bind; [apply IHv; auto; now apply reach_elem|].
        intros [t c] H. apply post_any. intros _. eapply post_bind; [apply IH|]. intros ts H'. apply post_ret. unfold in_v in *. cbn in *. lia. }
      destruct (snd g) as [| | | | |[l|]|l| | | | | | | | | |]; auto; try (apply post_ret; flat); (destruct (k =? 255); auto; eapply post_bind; [apply El|]; intros ts H; apply post_ret; exact H).
    + destruct (negb (has_sub cur)); [apply post_any; intro; apply post_ret; flat|]. destruct (slookup (s_types S) n) as [t|] eqn:Et; [|apply post_ret; flat]. apply Ob. eapply reach_type; eauto.
    + destruct (negb (has_sub cur)); [apply post_any; intro; apply post_ret; flat|]. apply Ob. exact R.
    + destruct (has_sub cur); [apply post_any; intro; apply post_ret; flat|]. eapply post_bind; [apply flat_value|]. intros t H. apply post_ret. destruct (isid && _); unfold in_v; cbn [fst levels]; rewrite H; lia.
    + destruct (snd g) as [| | | | | | |[v|]| | | | | | | | |]; auto; [|apply post_ret; flat]. apply IHv; auto. now apply reach_ptr.
    + destruct m as [ist ins infs outnr errnr out].
      assert (Me : post (bbind (b_args X S rawvars decls fuel ins infs (match cur with CArgs fs _ => Some fs | _ => None end)) (fun '(av, crit, cut) =>
                if crit : bool then bret (THole, true)
                else
                  let cur := match cur with CArgs _ subs => after_args cut subs | _ => cur end in
                  if fst g then bpanic
                  else
                    bbind (lift get_world) (fun w =>
                    bbind (lift get_path) (fun p =>
                    bbind (lift (of_opt (x_call X w (snd g) av p))) (fun '(w, outs) =>
                    bbind (lift (put_world w)) (fun _ =>
                    bbind (match errnr with
                     | None => bret tt
                     | Some n =>
                         bbind (lift (of_opt (nth_error outs n))) (fun e =>
                         match e with
                         | GErr None => bret tt
                         | GErr (Some m) => bbind (lift (err m)) (fun _ => bret tt)
                         | _ => bpanic
                         end)
                     end) (fun _ =>
                    match x_ctxerr X w with
                    | Some m => bbind (lift (err m)) (fun _ => bret (TNull, false))
                    | None =>
                        bbind (lift (of_opt (nth_error outs outnr))) (fun v =>
                        b_value X S rawvars decls fdefs fuel out d (false, v) k cur)
                    end))))))) (in_v d)).
      { apply post_any. intros [[av c] cut]. destruct c; [apply post_ret; flat|]. cbv zeta. destruct (fst g); auto. do 2 (apply post_any; intro). apply post_any. intros [w outs]. do 2 (apply post_any; intro).
        destruct (x_ctxerr X w); [apply post_any; intro; apply post_ret; flat|]. apply post_any. intro v. apply IHv; auto. eapply reach_out; eauto. }
      destruct ist, (snd g) as [| | | | | | | | | | | |[|]| | | |]; auto; try exact Me; apply post_ret; flat.
    + apply post_any. intro e. eapply post_bind; [apply flat_enum|]. intros t H. apply post_ret. unfold in_v. cbn [fst]. rewrite H. lia.
    + destruct (fst g); auto. destruct (snd g); apply post_ret; flat.
Qed.
End Bound.

(** ** Proof: the error *)
Section Below.
Context {W : Type} (X : externals W) (S : schema) (rawvars : bytes) (decls : option (list oparg)) (fdefs : list (bytes * bytes * list sel)).
Notation sels := (sels X S rawvars decls fdefs field_named).
Notation value := (Spec.value X S rawvars decls fdefs field_named).
Lemma object_at : forall o v t x, inside S o v t x -> forall p d ro k w subs r w', value p o d (ro, v) k w None subs r w' -> d + 1 <> s_maxdepth S /\ exists p1 k1 w1 ms w2, sels p1 t (d + 1) (ro, x) k1 w1 subs ms w2.
Proof.
  intros o v t x H. induction H; intros p d ro k w subs r w' V; inversion V; subst; try contradiction; eauto 8.
  - match goal with E : type_of _ _ = Some _ |- _ => cbn in E; injection E; intros; subst end. eauto 8.
  - match goal with E : type_of _ _ = Some _ |- _ => cbn in E; rewrite H in E; injection E; intros; subst end. eauto 8.
  - match goal with E : type_of _ _ = None |- _ => cbn in E; rewrite H in E; discriminate end.
  - match goal with E : elems _ _ _ _ _ _ _ _ _ _ _ _ _ _ _ _ _ |- _ => destruct (each_elem X S rawvars decls fdefs _ _ _ _ _ _ _ _ _ _ _ E _ H) as (p1 & w1 & t1 & w2 & V1) end. eapply IHinside; eauto.
  - match goal with E : elems _ _ _ _ _ _ _ _ _ _ _ _ _ _ _ _ _ |- _ => destruct (each_elem X S rawvars decls fdefs _ _ _ _ _ _ _ _ _ _ _ E _ H) as (p1 & w1 & t1 & w2 & V1) end. eapply IHinside; eauto.
Qed.
Lemma deep_fails : forall n o v ss, deep S fdefs n o v ss -> forall p d ro k w ms w', d < s_maxdepth S -> s_maxdepth S <= d + N.of_nat n -> ~ sels p o d (ro, v) k w ss ms w'.
Proof.
  intros n o v ss H. induction H as [o v ss|n o v sub ss I U IH|n o v f sub ss I F U IH|m o fs alias n subs ss h fo idx hd e v t x I Fi Fu Nt In U IH]; intros p d ro k w ms w' Ld Lm H'; [lia|..]; pose proof (each X S rawvars decls fdefs _ _ _ _ _ _ _ _ _ H' _ I) as E; cbv beta iota in E.
  - destruct E as (w1 & ms1 & w2 & E); auto. eapply IH; eauto.
  - destruct (E sub) as (w1 & ms1 & w2 & E'); auto. eapply IH; eauto.
  - destruct E as (w1 & ms1 & w2 & E). pose proof (is_named _ _ _ _ _ _ Fi Fu) as L. inversion E; subst.
    + match goal with D : dirs_say _ _ _ _ _ _ _ _ _ _ |- _ => apply no_dirs in D; discriminate end.
    + congruence.
    + match goal with A : field_named _ _ = Some _ |- _ => rewrite L in A; injection A; intros; subst end.
      match goal with A : field_place _ _ _ _ _ |- _ => destruct (place_of _ _ _ _ _ _ _ Nt (not_method _ _ _ _ _ In) A) as (ro' & ->) end.
      match goal with A : value _ _ _ _ _ _ _ _ _ _ |- _ => destruct (object_at _ _ _ _ In _ _ _ _ _ _ _ _ A) as (Nd & p1 & k1 & w30 & ms0 & w4 & Z) end.
      eapply (IH p1 (d + 1)); [| |exact Z]; lia.
Qed.
End Below.

(** ** Proof: null at the limit *)
Section Chain.
Context {W : Type} (X : externals W) (S : schema) (rawvars : bytes) (decls : option (list oparg)) (fdefs : list (bytes * bytes * list sel)).
Hypothesis K : keyed S.
Hypothesis ML : s_maxdepth S < 256.
Fixpoint chain (p : list bytes) : list (bytes * rt) := match p with [] => [] | f :: r => [(f, match r with [] => TNull | _ => TObj (chain r) end)] end.
Fixpoint steps (p : list bytes) : bytes := match p with [] => [] | f :: r => [44; 34] ++ f ++ [34] ++ steps r end.
Definition failed (at_ : bytes) (s : rst W) : rst W := set_errs (r_errs s ++ [RErr (bs "reached max dept") (match at_ with [] => None | _ :: p => Some p end)]) s.
Lemma behind_reach : forall o v t x, behind S o v t x -> reach S o -> reach S t.
Proof. intros o v t x H. induction H; intro R; auto; [eapply reach_type; eauto|]. apply IHbehind. now apply reach_ptr. Qed.
Lemma behind_value : forall o v t x, behind S o v t x -> forall d ro k subs, subs <> [] -> exists n, forall fuel s, (n <= fuel)%nat ->
  b_value X S rawvars decls fdefs fuel o d (ro, v) k (CSels subs) s =
    (if (d + 1) mod 256 =? s_maxdepth S then bbind (lift (err (bs "reached max dept"))) (fun b => bret (TNull, b))
     else bbind (b_sels X S rawvars decls fdefs (fuel - n) t ((d + 1) mod 256) (ro, x) k subs) (fun '(ms, crit) => bret (TObj ms, crit))) s.
Proof.
  intros o v t x H. induction H; intros d ro k subs Ns.
  - exists 1%nat. intros [|fuel] s L; [lia|]. rewrite value_step. replace (SN fuel - 1)%nat with fuel by lia. destruct subs; [congruence|]. reflexivity.
  - exists 1%nat. intros [|fuel] s L; [lia|]. rewrite value_step. replace (SN fuel - 1)%nat with fuel by lia. destruct subs; [congruence|]. unfold bad_args, v_body. cbn [andb has_sub negb]. rewrite H. reflexivity.
  - destruct (IHbehind d ro k subs Ns) as (n & E). exists (SN n). intros [|fuel] s L; [lia|]. rewrite value_step. unfold bad_args, v_body. cbn [andb snd fst]. rewrite E by lia. reflexivity.
Qed.
Lemma the_field : forall (o : obj) f h fo idx hd, reach S o -> In (h, Field fo None idx f hd) (o_fields o) ->
  (forall f', In f' (o_fields o) -> fnv1 (fname_of (snd f')) = fnv1 f -> snd f' = Field fo None idx f hd) -> nlookup (o_fields o) (fnv1 f) = Some (Field fo None idx f hd).
Proof.
  intros o f h fo idx hd R I Q. pose proof (fun e => K o e R) as Ko. clear R. revert I Q Ko. induction (o_fields o) as [|[h' f'] l IH]; intros I Q Ko; [contradiction|]. cbn [nlookup].
  destruct (fnv1 f =? h') eqn:E.
  - apply N.eqb_eq in E. f_equal. apply (Q (h', f')); [now left|]. rewrite E. symmetry. apply (Ko (h', f')). now left.
  - destruct I as [I|I]; [exfalso|].
    + injection I; intros; subst. apply N.eqb_neq in E. apply E. symmetry. refine (Ko (_, Field fo None idx f hd) _). now left.
    + apply IH; auto; intros; [apply Q|apply Ko]; auto; now right.
Qed.
Lemma limit_reached : forall o v p, path S o v p -> reach S o -> p <> [] -> forall d k ro rest, rest <> [] -> d + N.of_nat (length p) = s_maxdepth S -> k + N.of_nat (length p) <= 255 ->
  exists n, forall fuel s, (n <= fuel)%nat -> b_sels X S rawvars decls fdefs fuel o d (ro, v) k (nested p rest) s = BOk (chain p, true) (failed (r_path s ++ steps p) s).
Proof.
  intros o v p H. induction H as [|o fs f p h fo idx hd e v t x Fi Fu Nt B P IH]; intros R Np d k ro rest Nr Ld Lk; [congruence|]. clear Np.
  pose proof (the_field _ _ _ _ _ _ R Fi Fu) as Lf. assert (Rf : reach S fo) by (eapply reach_field; eauto). pose proof (behind_reach _ _ _ _ B Rf) as Rt.
  assert (Ns : nested p rest <> []) by (destruct p; [exact Nr|discriminate]). cbn [length] in Ld, Lk.
  destruct (behind_value _ _ _ _ B d (ro || negb e) (k + 1) _ Ns) as (n1 & E1).
  assert (Fo : forall s : rst W, (match fo with OMethod (Method true _ _ _ _ _) => bret (fst (ro, GStruct fs), GMethod (snd (ro, GStruct fs)) idx) | _ => lift (field_of (ro, GStruct fs) idx) end) s = BOk (ro || negb e, v) s).
  { intro s. assert (Q : @field_of W (ro, GStruct fs) idx s = ROk (ro || negb e, v) s) by (unfold field_of; cbn [snd]; rewrite Nt; reflexivity).
    destruct B; unfold lift; rewrite Q; reflexivity. }
  assert (K5 : (k =? 255) = false) by (apply N.eqb_neq; lia).
  assert (Bf : exists n, forall fuel s, (n <= fuel)%nat -> b_value X S rawvars decls fdefs fuel fo d (ro || negb e, v) (k + 1) (CSels (nested p rest)) s = BOk (match p with [] => TNull | _ => TObj (chain p) end, true) (failed (r_path s ++ steps p) s)).
  { rewrite N.mod_small in E1 by lia. destruct p as [|f2 p].
    - exists n1. intros fuel s L. rewrite E1 by lia. replace (d + 1 =? s_maxdepth S) with true by (symmetry; apply N.eqb_eq; cbn in Ld; lia). cbn [steps]. rewrite app_nil_r. reflexivity.
    - destruct (IH Rt ltac:(discriminate) (d + 1) (k + 1) (ro || negb e) rest Nr) as (n2 & E2); [cbn [length] in *; lia..|]. exists (n1 + n2)%nat. intros fuel s L. rewrite E1 by lia.
      replace (d + 1 =? s_maxdepth S) with false by (symmetry; apply N.eqb_neq; cbn [length] in Ld; lia). unfold bbind at 1. rewrite E2 by lia. reflexivity. }
  destruct Bf as (n & E). exists (SN (SN n)). intros [|[|fuel]] s L; try lia. cbn [nested]. rewrite (sels_step X S rawvars decls fdefs). unfold bbind at 1. rewrite (field_step X S rawvars decls fdefs).
  rewrite get_path_at, put_path_at. destruct fuel as [|fuel].
  { assert (n = O) by lia. subst n. specialize (E O s (le_n 0)). discriminate. }
  cbn [b_directives]. unfold bbind at 1, bret at 1. cbv beta iota. cbn [orb]. unfold bbind at 1. unfold at_field. rewrite Lf. cbv beta iota. unfold bbind at 1. rewrite Fo. rewrite K5. unfold cur_of. rewrite E by lia. cbv beta iota.
  unfold bbind at 1, lift at 1, put_path at 1. unfold bret. cbv beta iota. cbn [chain]. f_equal. destruct s. unfold failed, set_path, set_errs. cbn. repeat (rewrite <- !app_assoc; cbn [app]). reflexivity.
Qed.
End Chain.

Section C19.
Context {W : Type} (X : externals W) (S : schema) (o : ropts).
(** without interfaces, whatever the request and the data, and also if there are other errors: at most MaxDepth objects of
    the response are inside each other *)
Theorem C19_bound_partial : forall q d op w fuel vals out es vals' w', no_interfaces S -> 0 < s_maxdepth S < 256 ->
  g_doc d q -> nul_free d -> N.of_nat (length (enc_doc d)) < 4294967296 -> runs o d op -> in_scope X S o d op fuel w ->
  resolve X S fuel o vals w q = RDone out es vals' w' ->
  exists ms, out = finish_of o (start_of o ++ render (x_float_json X) (TObj ms)) es /\ levels (TObj ms) <= s_maxdepth S.
Proof.
  intros q d op w fuel vals out es vals' w' NI ML G Nu Sz U Sc H. pose proof (resolve_doc W X S fuel o vals w q d op G Nu Sz U) as A. unfold in_scope in Sc.
  assert (P : post (b_operation X S (op_vars o) d op fuel) (in_m S 0)).
  { destruct op as [kd nm decls ds ss|]; [|apply post_panic]. cbn [b_operation].
    assert (Z : forall m : @bm W bool, post (bbind m (fun b => bret ([], b))) (in_m S 0)) by (intro m; apply post_any; intro; apply post_ret; unfold in_m, most; cbn; lia).
    destruct kd; auto; destruct ds; auto; apply bounded; auto; try lia; constructor. }
  specialize (P (s0 w)). destruct (b_operation X S (op_vars o) d op fuel (s0 w)) as [[ms c] s'| | |]; try congruence.
  cbv zeta in A. destruct A as (v & A). rewrite H in A. apply done_inj in A. destruct A as (Eo & Ee & _ & Ew). exists ms. split.
  - rewrite Eo, Ee. rewrite render_obj. reflexivity.
  - unfold in_m in P. change (levels (TObj ms)) with (1 + most ms). cbn [fst] in P. lia.
Qed.
(** if an object MaxDepth levels or more below the operation is asked for, through objects, pointers, lists and fragments: there is an error *)
Theorem C19_reported : forall q d kd nm decls ss n w fuel vals out es vals' w',
  regular S q d -> runs o d (DOp kd nm decls [] ss) -> in_scope X S o d (DOp kd nm decls [] ss) fuel w ->
  0 < s_maxdepth S <= N.of_nat n -> deep S (frag_defs d) n (fst (root S kd)) (snd (root S kd)) ss ->
  resolve X S fuel o vals w q = RDone out es vals' w' -> es <> [].
Proof.
  intros q d kd nm decls ss n w fuel vals out es vals' w' R U L M D H ->.
  destruct (C16_only_the_document_is_executed _ X S q d o _ w fuel vals out vals' w' R U L H) as (ms & Op & _). cbn [operation] in Op. destruct Op as [_ Op]. eapply deep_fails; eauto; lia.
Qed.
(** fields that lead to an object MaxDepth levels below the operation: null at that place, one error with the path of that place, and
    nothing of what is selected on it is called *)
Theorem C19_null : forall q d kd nm decls p rest w, keyed S -> g_doc d q -> nul_free d -> N.of_nat (length (enc_doc d)) < 4294967296 ->
  kd <> OpSubscription -> rest <> [] -> 0 < s_maxdepth S < 256 -> N.of_nat (length p) = s_maxdepth S ->
  path S (fst (root S kd)) (snd (root S kd)) p -> runs o d (DOp kd nm decls [] (nested p rest)) ->
  let es := [ERun (RErr (bs "reached max dept") (Some (keys_text p)))] in
  exists n, forall fuel vals, (n <= fuel)%nat -> exists vals',
    resolve X S fuel o vals w q = RDone (finish_of o (start_of o ++ nulled p) es) es vals' w.
Proof.
  intros q d kd nm decls p rest w K G Nu Sz Nk Nr M Lp P U es. assert (Np : p <> []) by (intros ->; cbn in Lp; lia).
  assert (Rr : reach S (fst (root S kd))) by (destruct kd; constructor).
  destruct (limit_reached X S (op_vars o) decls (frag_defs d) K (proj2 M) _ _ _ P Rr Np 0 0 false rest Nr) as (n & E); [lia..|].
  exists n. intros fuel vals L. pose proof (resolve_doc W X S fuel o vals w q d _ G Nu Sz U) as Rd.
  assert (B : b_operation X S (op_vars o) d (DOp kd nm decls [] (nested p rest)) fuel (s0 w) = BOk (chain p, true) (failed (steps p) (s0 w))).
  { specialize (E fuel (s0 w) L). destruct kd; try contradiction; exact E. }
  rewrite B in Rd. cbv zeta in Rd. destruct Rd as (vals' & Rd). exists vals'. rewrite Rd. unfold es. clear - Np.
  assert (Ek : match steps p with [] => None | _ :: r => Some r end = Some (keys_text p)).
  { assert (Q : forall p f, [34] ++ f ++ [34] ++ steps p = commas (map quoted (f :: p))).
    { clear. induction p as [|g p IH]; intro f; [reflexivity|]. change (commas (map quoted (f :: g :: p))) with (quoted f ++ [44] ++ commas (map quoted (g :: p))). rewrite <- IH. unfold quoted. change (bs """") with [34].
      change (steps (g :: p)) with ([44] ++ [34] ++ g ++ [34] ++ steps p). rewrite <- !app_assoc. reflexivity. }
    destruct p as [|f p]; [congruence|]. change (Some ([34] ++ f ++ [34] ++ steps p) = Some (keys_text (f :: p))). now rewrite Q. }
  assert (Et : [123] ++ render_members (x_float_json X) (chain p) ++ [125] = nulled p).
  { destruct p as [|f p]; [congruence|]. clear. revert f. induction p as [|g p IH]; intro f.
    - cbn [chain nulled]. unfold render_members, quoted. cbn [render]. change (bs "{") with [123]. change (bs """") with [34]. change (bs "}") with [125]. change (bs ":") with [58]. rewrite ?app_nil_r, <- !app_assoc. reflexivity.
    - specialize (IH g). change (chain (f :: g :: p)) with [(f, TObj (chain (g :: p)))]. change (nulled (f :: g :: p)) with (bs "{" ++ quoted f ++ bs ":" ++ nulled (g :: p) ++ bs "}"). rewrite <- IH.
      unfold render_members at 1. rewrite render_obj. unfold quoted. change (bs "{") with [123]. change (bs """") with [34]. change (bs "}") with [125]. change (bs ":") with [58]. rewrite ?app_nil_r, <- !app_assoc. reflexivity. }
  rewrite Et. unfold failed.
  revert Ek. destruct (steps p) as [|c l]; intro Ek; [discriminate|]. injection Ek; intros ->. reflexivity.
Qed.
End C19.
Print Assumptions C19_bound_partial.
Print Assumptions C19_reported.
Print Assumptions C19_null.

(** ** Examples *)
Definition t_node : obj := OObj (bs "Node") [fld "id" (OData true (KInt W64)) 0; fld "next" (OPtr (OObjRef (bs "Node"))) 1; fld "all" (OArray (OObjRef (bs "Node"))) 2].
Definition node (i : Z) (n : option gval) (l : list gval) : gval := GStruct [(true, GInt W64 i); (true, GPtr n); (true, GSlice (Some l))].
Definition node_schema (m : N) : schema :=
  Schema [(bs "Node", t_node)] [] [] (OObj (bs "Query") [fld "a" (OObjRef (bs "Node")) 0]) (GStruct [(true, node 1 (Some (node 2 (Some (node 3 None [])) [node 4 None []])) [])])
    (OObj (bs "M") []) (GStruct []) m [] builtin_dirs.
Definition node_run (m : N) (q : bytes) : option (bytes * nat) :=
  match resolve sample_x (node_schema m) 100 (ROpts true [] [] None) no_vals [] q with RDone out es _ _ => Some (out, length es) | _ => None end.
Definition q19 : bytes := bs "{a{next{...f}}} fragment f on Node{id all{id}}".
Definition d19 : document := Eval vm_compute in parsed q19.
Definition q19b : bytes := bs "{a{next{next{id}}}}".
Definition d19b : document := Eval vm_compute in parsed q19b.
Lemma node_plain : no_interfaces (node_schema 3).
Proof.
  assert (Z : forall o, reach (node_schema 3) o -> In o [t_node; OObj (bs "Query") [fld "a" (OObjRef (bs "Node")) 0]; OObj (bs "M") []; OData true (KInt W64); OPtr (OObjRef (bs "Node")); OObjRef (bs "Node"); OArray (OObjRef (bs "Node"))]).
  { intros o H. induction H as [| |n o E|n o E|o h fo c i n hd R IH E|e R IH|e R IH|a b c d e o R IH|n fs is x R IH Ix].
    - cbn; auto. - cbn; auto.
    - cbn in E. destruct (beqb _ _) in E; [|discriminate]. injection E; intros <-. now left.
    - discriminate.
    - cbn in IH. decompose [or] IH; subst; try contradiction; try discriminate; cbn [o_fields t_node fld nlookup] in E; repeat (destruct (_ =? _) in E; [injection E; intros; subst; cbn; tauto|]); discriminate.
    - cbn in IH. intuition (try discriminate). match goal with E : _ = OArray _ |- _ => injection E; intros; subst; cbn; tauto end.
    - cbn in IH. intuition (try discriminate). match goal with E : _ = OPtr _ |- _ => injection E; intros; subst; cbn; tauto end.
    - cbn in IH. intuition discriminate.
    - cbn in IH. intuition discriminate. }
  intros o H. apply Z in H. cbn in H. intuition (subst; exact Logic.I).
Qed.
Example C19_case :
  (no_interfaces (node_schema 3) /\ regular (node_schema 3) q19 d19 /\ runs no_opts d19 (first_of d19) /\ in_scope sample_x (node_schema 3) no_opts d19 (first_of d19) 1000 [] /\
   (exists ss, first_of d19 = DOp OpQuery [] None [] ss /\ deep (node_schema 3) (frag_defs d19) 3 (fst (root (node_schema 3) OpQuery)) (snd (root (node_schema 3) OpQuery)) ss) /\
   node_run 3 q19 = Some (q2 "{'a':{'next':{'id':'2','all':[null]}}}", 1%nat) /\ node_run 4 q19 = Some (q2 "{'a':{'next':{'id':'2','all':[{'id':'4'}]}}}", O)) /\
  (keyed (node_schema 3) /\ g_doc d19b q19b /\ (exists rest, rest <> [] /\ first_of d19b = DOp OpQuery [] None [] (nested [bs "a"; bs "next"; bs "next"] rest)) /\
   path (node_schema 3) (fst (root (node_schema 3) OpQuery)) (snd (root (node_schema 3) OpQuery)) [bs "a"; bs "next"; bs "next"] /\
   node_run 3 q19b = Some (nulled [bs "a"; bs "next"; bs "next"], 1%nat) /\ nulled [bs "a"; bs "next"; bs "next"] = q2 "{'a':{'next':{'next':null}}}").
Proof.
  assert (U : forall (l : list (N * Schema.field)) f, In f l -> In f l) by auto.
  split.
  - split; [apply node_plain|]. split; [apply regularb_ok; vm_compute; reflexivity|]. split; [apply runs_only; [vm_compute; reflexivity|vm_compute; auto]|]. split; [intro H; vm_compute in H; discriminate|]. split; [|split; vm_compute; reflexivity].
    eexists. split; [reflexivity|].
    eapply dp_below; [left; reflexivity|left; reflexivity|intros f I E; cbn in I; intuition (subst; try discriminate; reflexivity)|reflexivity|apply in_named; reflexivity|].
    eapply dp_below; [left; reflexivity|right; left; reflexivity|intros f I E; cbn in I; intuition (subst; try discriminate; reflexivity)|reflexivity|apply in_ptr, in_named; reflexivity|].
    eapply dp_spread; [left; reflexivity|reflexivity|].
    eapply dp_below; [right; left; reflexivity|right; right; left; reflexivity|intros f I E; cbn in I; intuition (subst; try discriminate; reflexivity)|reflexivity|eapply in_slice; [left; reflexivity|apply in_named; reflexivity]|apply dp_here].
  - split; [refine (rg_keyed _ q19b d19b _); apply regularb_ok; vm_compute; reflexivity|]. split; [apply RefGrammar.ref_parse_spec; vm_compute; reflexivity|]. split; [eexists; split; [|reflexivity]; discriminate|]. split; [|split; vm_compute; reflexivity].
    eapply pa_cons; [left; reflexivity|intros f I E; cbn in I; intuition (subst; try (vm_compute in E; discriminate); reflexivity)|reflexivity|apply be_named; reflexivity|].
    eapply pa_cons; [right; left; reflexivity|intros f I E; cbn in I; intuition (subst; try (vm_compute in E; discriminate); reflexivity)|reflexivity|apply be_ptr, be_named; reflexivity|].
    eapply pa_cons; [right; left; reflexivity|intros f I E; cbn in I; intuition (subst; try (vm_compute in E; discriminate); reflexivity)|reflexivity|apply be_ptr, be_named; reflexivity|].
    apply pa_nil.
Qed.
(** ** With interfaces the statement is false: an interface counts twice, and only the number MaxDepth itself is the limit *)
Definition i_node : obj := OIface (bs "INode") [fld "next" (OIfaceRef (bs "INode")) 0] [((bs "Impl", bs "main"), OObjRef (bs "Impl"))].
Definition t_impl : obj := OObj (bs "Impl") [fld "next" (OIfaceRef (bs "INode")) 0].
Fixpoint ichain (n : nat) : gval := match n with O => GIface None | SN n => GIface (Some (bs "Impl", bs "main", GStruct [(true, ichain n)])) end.
Definition i_schema : schema :=
  Schema [(bs "Impl", t_impl)] [] [(bs "INode", i_node)] (OObj (bs "Query") [fld "next" (OIfaceRef (bs "INode")) 0]) (GStruct [(true, ichain 6)]) (OObj (bs "M") []) (GStruct []) 3 [] builtin_dirs.
Theorem C19_interface_refuted : exists S q d op out vals w ms,
  regular S q d /\ d = [op] /\ run sample_x S no_opts q = RDone out [] vals w /\ s_maxdepth S = 3 /\
  out = q2 "{'data':{'next':{'next':{'next':{'next':{'next':{'next':{'next':null}}}}}}}}" /\
  out = finish_of no_opts (start_of no_opts ++ render (x_float_json sample_x) (TObj ms)) [] /\ levels (TObj ms) = 7.
Proof.
  exists i_schema, (bs "{next{next{next{next{next{next{next{next}}}}}}}}"), (parsed (bs "{next{next{next{next{next{next{next{next}}}}}}}}")). do 3 eexists. exists [].
  exists [(bs "next", TObj [(bs "next", TObj [(bs "next", TObj [(bs "next", TObj [(bs "next", TObj [(bs "next", TObj [(bs "next", TNull)])])])])])])].
  split; [apply regularb_ok; vm_compute; reflexivity|]. split; [vm_compute; reflexivity|]. split; [vm_compute; reflexivity|]. split; [reflexivity|]. split; [vm_compute; reflexivity|]. split; vm_compute; reflexivity.
Qed.
Print Assumptions C19_interface_refuted.
