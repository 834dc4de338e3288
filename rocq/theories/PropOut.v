(** * Properties C32 and C33: integers, booleans, IDs and enum values in the response; enum values as arguments *)
From Coq Require Import String Arith NArith ZArith Bool List Lia.
From Verif Require Import Base Json JsonModel JsonProof Ast Grammar ReqModel Schema ResModel EnvModel Samples Interp RunSim Facts DocRun Spec SpecLit SpecVal SpecRun ArgRun PropArgs.
Import ListNotations.
Open Scope N_scope.
Local Notation value := Ast.value.
Local Notation SN := Datatypes.S.

(** ** Specification *)
(** values of enums: strings, signed and unsigned integers *)
Definition enum_like (k : kind) (v : gval) : Prop :=
  match k, v with KString, GString _ => True | KInt w, GInt w' _ => w = w' | KUint w, GUint w' _ => w = w' | _, _ => False end.
(** Go values of the type that a schema object describes *)
Inductive typed (S : schema) : obj -> gval -> Prop :=
| ty_int : forall id w z, typed S (OData id (KInt w)) (GInt w z)
| ty_uint : forall id w n, typed S (OData id (KUint w)) (GUint w n)
| ty_bool : forall id b, typed S (OData id KBool) (GBool b)
| ty_float : forall is64 b, typed S (OData false (KFloat is64)) (GFloat is64 b)
| ty_string : forall id s, typed S (OData id KString) (GString s)
| ty_enum : forall i e v, nth_error (s_enums S) i = Some e -> enum_like (en_kind e) v -> Forall (fun x => enum_like (en_kind e) (snd x)) (en_entries e) -> typed S (OEnum i) v
| ty_nil : forall o, typed S (OPtr o) (GPtr None)
| ty_ptr : forall o v, typed S o v -> typed S (OPtr o) (GPtr (Some v))
| ty_nil_list : forall o, typed S (OArray o) (GSlice None)
| ty_list : forall o l, Forall (typed S o) l -> typed S (OArray o) (GSlice (Some l))
| ty_array : forall o l, Forall (typed S o) l -> typed S (OArray o) (GArray l).
Definition quoted (t : bytes) : bytes := bs """" ++ t ++ bs """".
Fixpoint commas (l : list bytes) : bytes := match l with [] => [] | [t] => t | t :: r => t ++ bs "," ++ commas r end.
(** the JSON text of a value; [FL]: the texts of a floating point number of 64 or 32 bits *)
Inductive encodes (S : schema) (FL : bool -> N -> bytes -> Prop) : obj -> gval -> bytes -> Prop :=
| ec_int : forall w z t, int_value t = Some z -> jnumber t -> encodes S FL (OData false (KInt w)) (GInt w z) t
| ec_uint : forall w n t, int_value t = Some (Z.of_N n) -> jnumber t -> encodes S FL (OData false (KUint w)) (GUint w n) t
| ec_true : encodes S FL (OData false KBool) (GBool true) (bs "true")
| ec_false : encodes S FL (OData false KBool) (GBool false) (bs "false")
| ec_float : forall is64 n t, FL is64 n t -> encodes S FL (OData false (KFloat is64)) (GFloat is64 n) t
| ec_string : forall id s text t, codepoints s text -> jstring text t -> encodes S FL (OData id KString) (GString s) t
| ec_id : forall k v t, k <> KString -> encodes S FL (OData false k) v t -> encodes S FL (OData true k) v (quoted t)
| ec_name : forall i e n v, nth_error (s_enums S) i = Some e -> In (n, v) (en_entries e) -> encodes S FL (OEnum i) v (quoted n)
| ec_unnamed : forall i e v, nth_error (s_enums S) i = Some e -> (forall n, ~ In (n, v) (en_entries e)) -> encodes S FL (OEnum i) v (bs "null")
| ec_nil : forall o, encodes S FL (OPtr o) (GPtr None) (bs "null")
| ec_ptr : forall o v t, encodes S FL o v t -> encodes S FL (OPtr o) (GPtr (Some v)) t
| ec_nil_list : forall o, encodes S FL (OArray o) (GSlice None) (bs "null")
| ec_list : forall o l ts, Forall2 (encodes S FL o) l ts -> encodes S FL (OArray o) (GSlice (Some l)) (bs "[" ++ commas ts ++ bs "]")
| ec_array : forall o l ts, Forall2 (encodes S FL o) l ts -> encodes S FL (OArray o) (GArray l) (bs "[" ++ commas ts ++ bs "]").
(** how deep lists are nested *)
Fixpoint list_depth (o : obj) : N := match o with OArray e => 1 + list_depth e | OPtr e => list_depth e | _ => 0 end.
(** [q] asks only for the field [g] *)
Definition asks_field (o : ropts) (g : bytes) (q : bytes) : Prop :=
  exists d nm decls, g_doc d q /\ nul_free d /\ N.of_nat (length (enc_doc d)) < 4294967296 /\ runs o d (DOp OpQuery nm decls [] [SField None g [] None []]).
(** the query type has the field [g] of type [ob], and in the query object its value is [v] *)
Definition has_field (S : schema) (g : bytes) (ob : obj) (v : gval) : Prop :=
  exists idx fn hd fs e, nlookup (o_fields (s_query S)) (fnv1 g) = Some (Field ob None idx fn hd) /\ s_qvalue S = GStruct fs /\ nth_error fs idx = Some (e, v).
(** the answer has no errors and its data is [{"g":t}] *)
Definition shows {W} (X : externals W) (S : schema) (o : ropts) (q : bytes) (w : W) (g t : bytes) : Prop :=
  exists n, forall fuel vals, (n <= fuel)%nat -> exists vals',
    resolve X S fuel o vals w q = RDone (finish_of o (start_of o ++ bs "{" ++ quoted g ++ bs ":" ++ t ++ bs "}") []) [] vals' w.

(** ** Proof *)
Section Out.
Context {W : Type} (X : externals W) (S : schema) (rawvars : bytes) (decls : option (list oparg)) (fdefs : list (bytes * bytes * list sel)).
Notation b_value := (b_value X S rawvars decls fdefs).
Notation render := (render (x_float_json X)).
Notation FL := (fun is64 b t => t = x_float_json X is64 b).
Lemma enum_out : forall k v es, enum_like k v -> Forall (fun x => enum_like k (snd x)) es ->
  exists t, (forall s : rst W, enum_tree k v es s = BOk t s) /\ ((exists n, In (n, v) es /\ render t = quoted n) \/ ((forall n, ~ In (n, v) es) /\ render t = bs "null")).
Proof.
  intros k v es Hv F. induction F as [|[n e] es He F IH]; cbn [enum_tree].
  - exists TNull. split; [reflexivity|]. right. split; auto.
  - cbn [snd] in He. assert (Q : exists b, (forall s, @same_enum_value W k v e s = ROk b s) /\ (b = true <-> v = e)).
    { unfold enum_like in *. destruct k; try contradiction; destruct v; try contradiction; destruct e; try contradiction; subst; eexists; (split; [reflexivity|]).
      - rewrite Z.eqb_eq. split; intro; congruence.
      - rewrite N.eqb_eq. split; intro; congruence.
      - rewrite beqb_eq. split; intro; congruence. }
    destruct Q as (b & Q & Qe). destruct b.
    + exists (TName n). split; [intro s; unfold bbind, lift; rewrite Q; reflexivity|]. left. exists n. split; [left; f_equal; symmetry; now apply Qe|reflexivity].
    + destruct IH as (t & Et & C). exists t. split; [intro s; unfold bbind, lift; rewrite Q; apply Et|]. destruct C as [(m & I & R)|(N & R)]; [left; exists m; split; [right|]; auto|].
      right. split; auto. intros m [Em|I]; [|eapply N; eauto]. injection Em. intros Em2 _. symmetry in Em2. apply Qe in Em2. discriminate.
Qed.
Lemma no_args : forall o, bad_args o (CSels []) = false. Proof. reflexivity. Qed.
Lemma path_back : forall p (s : rst W), set_path (r_path s) (set_path p s) = s. Proof. intros p []; reflexivity. Qed.
Lemma out : forall o v, typed S o v -> forall d k ro, k + list_depth o < 255 ->
  exists t n, encodes S FL o v (render t) /\ forall fuel s, (n <= fuel)%nat -> b_value fuel o d (ro, v) k (CSels []) s = BOk (t, false) s.
Proof.
  fix F 3. intros o v H d k ro L. destruct H as [id w z|id w n|id b|is64 b|id s|i e v E1 E2 E3|o|o v H|o|o l H|o l H].
  - exists (if id then TQuoted (TInt z) else TInt z), 1%nat. split.
    + destruct id; [apply ec_id; [discriminate|]|]; apply ec_int; apply int_to_json_ok.
    + intros [|fuel] s Lf; [lia|]. rewrite value_step, no_args. unfold v_body. cbn. destruct id; reflexivity.
  - exists (if id then TQuoted (TInt (Z.of_N n)) else TInt (Z.of_N n)), 1%nat. split.
    + destruct id; [apply ec_id; [discriminate|]|]; apply ec_uint; apply int_to_json_ok.
    + intros [|fuel] s Lf; [lia|]. rewrite value_step, no_args. unfold v_body. cbn. destruct id; reflexivity.
  - exists (if id then TQuoted (TBool b) else TBool b), 1%nat. split.
    + destruct id; [apply ec_id; [discriminate|]|]; destruct b; constructor.
    + intros [|fuel] s Lf; [lia|]. rewrite value_step, no_args. unfold v_body. cbn. destruct id; reflexivity.
  - exists (TFloat is64 b), 1%nat. split.
    + now apply ec_float.
    + intros [|fuel] s Lf; [lia|]. rewrite value_step, no_args. unfold v_body. cbn. reflexivity.
  - exists (TStr s), 1%nat. split.
    + destruct (string_to_json_ok s) as (l & A & B). eapply ec_string; eauto.
    + intros [|fuel] s' Lf; [lia|]. rewrite value_step, no_args. unfold v_body. cbn. destruct id; reflexivity.
  - destruct (enum_out (en_kind e) v (en_entries e) E2 E3) as (t & Et & C). exists t, 1%nat. split.
    + destruct C as [(n & I & ->)|(N & ->)]; [eapply ec_name; eauto|eapply ec_unnamed; eauto].
    + intros [|fuel] s Lf; [lia|]. rewrite value_step, no_args. unfold v_body. unfold bbind at 1. rewrite E1. unfold lift at 1, of_opt at 1, ret at 1. cbn [snd]. unfold bbind at 1. rewrite Et. reflexivity.
  - exists TNull, 1%nat. split; [constructor|]. intros [|fuel] s Lf; [lia|]. rewrite value_step, no_args. reflexivity.
  - destruct (F o v H d k ro) as (t & n & E & R); [exact L|]. exists t, (SN n). split; [now apply ec_ptr|]. intros [|fuel] s Lf; [lia|]. rewrite value_step, no_args. unfold v_body. cbn [snd fst]. apply R. lia.
  - exists TNull, 1%nat. split; [constructor|]. intros [|fuel] s Lf; [lia|]. rewrite value_step, no_args. reflexivity.
  - assert (Q : exists ts n, Forall2 (encodes S FL o) l (map render ts) /\ forall fuel m s, (n <= fuel)%nat -> b_list X S rawvars decls fdefs fuel o d ro (k + 1) (CSels []) m l s = BOk ts s).
    { assert (Lk : (k + 1) + list_depth o < 255) by (cbn [list_depth] in L; lia). clear L. induction H as [|v l Hv H IH].
      - exists [], O. split; [constructor|]. reflexivity.
      - destruct IH as (ts & n & E & R). destruct (F o v Hv d (k + 1) ro Lk) as (t & n' & E' & R'). exists (t :: ts), (n + n')%nat. split; [constructor; auto|]. intros fuel m s Lf. cbn [b_list].
        unfold bbind at 1, lift at 1, get_path at 1. unfold bbind at 1, lift at 1, put_path at 1. unfold bbind at 1. rewrite R' by lia. unfold bbind at 1, lift at 1, put_path at 1. rewrite path_back. unfold bbind at 1. fold (b_list X S rawvars decls fdefs fuel o d ro (k + 1) (CSels [])).
        rewrite R by lia. reflexivity. }
    destruct Q as (ts & n & E & R). exists (TArr ts), (SN n). split.
    + rewrite render_arr. replace (render_elems (x_float_json X) ts) with (commas (map render ts)); [now apply ec_list|]. clear. induction ts as [|t [|t' ts] IH]; auto. cbn [map commas render_elems] in *. now rewrite IH.
    + intros [|fuel] s Lf; [lia|]. rewrite value_step, no_args. unfold v_body. cbn [snd fst]. destruct (k =? 255) eqn:K; [lia|]. unfold bbind at 1. rewrite R by lia. reflexivity.
  - assert (Q : exists ts n, Forall2 (encodes S FL o) l (map render ts) /\ forall fuel m s, (n <= fuel)%nat -> b_list X S rawvars decls fdefs fuel o d ro (k + 1) (CSels []) m l s = BOk ts s).
    { assert (Lk : (k + 1) + list_depth o < 255) by (cbn [list_depth] in L; lia). clear L. induction H as [|v l Hv H IH].
      - exists [], O. split; [constructor|]. reflexivity.
      - destruct IH as (ts & n & E & R). destruct (F o v Hv d (k + 1) ro Lk) as (t & n' & E' & R'). exists (t :: ts), (n + n')%nat. split; [constructor; auto|]. intros fuel m s Lf. cbn [b_list].
        unfold bbind at 1, lift at 1, get_path at 1. unfold bbind at 1, lift at 1, put_path at 1. unfold bbind at 1. rewrite R' by lia. unfold bbind at 1, lift at 1, put_path at 1. rewrite path_back. unfold bbind at 1. fold (b_list X S rawvars decls fdefs fuel o d ro (k + 1) (CSels [])).
        rewrite R by lia. reflexivity. }
    destruct Q as (ts & n & E & R). exists (TArr ts), (SN n). split.
    + rewrite render_arr. replace (render_elems (x_float_json X) ts) with (commas (map render ts)); [now apply ec_array|]. clear. induction ts as [|t [|t' ts] IH]; auto. cbn [map commas render_elems] in *. now rewrite IH.
    + intros [|fuel] s Lf; [lia|]. rewrite value_step, no_args. unfold v_body. cbn [snd fst]. destruct (k =? 255) eqn:K; [lia|]. unfold bbind at 1. rewrite R by lia. reflexivity.
Qed.
End Out.
Section Shown.
Context {W : Type} (X : externals W) (S : schema) (o : ropts) (g : bytes).
Lemma shown : forall ob v q w, has_field S g ob v -> typed S ob v -> list_depth ob < 254 -> asks_field o g q ->
  exists t, encodes S (fun is64 b t => t = x_float_json X is64 b) ob v t /\ shows X S o q w g t.
Proof.
  intros ob v q w (idx & fn & hd & fs & e & Lk & Qv & Nf) T L (d & nm & decls & G & Nu & Sz & U).
  destruct (out X S (op_vars o) decls (frag_defs d) ob v T 0 1 (fst (false, s_qvalue S) || negb e)) as (t & n & E & R); [lia|].
  exists (render (x_float_json X) t). split; [exact E|]. exists (3 + n)%nat. intros fuel vals Lf.
  pose proof (resolve_doc W X S fuel o vals w q d _ G Nu Sz U) as Rd. cbn [b_operation] in Rd. replace fuel with (SN (SN (1 + (fuel - 3)))) in Rd by lia.
  rewrite (sels_step X S (op_vars o) decls (frag_defs d)) in Rd. unfold bbind at 1 in Rd. rewrite (field_step X S (op_vars o) decls (frag_defs d)) in Rd.
  rewrite get_path_at, put_path_at in Rd. cbn [b_directives] in Rd. unfold bbind at 1, bret at 1 in Rd. cbv beta iota in Rd. cbn [orb] in Rd. unfold bbind at 1 in Rd. unfold at_field in Rd. rewrite Lk in Rd. cbv beta iota in Rd.
  assert (Fo : forall s : rst W, (match ob with OMethod (Method true _ _ _ _ _) => bret (fst (false, s_qvalue S), GMethod (snd (false, s_qvalue S)) idx) | _ => lift (field_of (false, s_qvalue S) idx) end) s = BOk (fst (false, s_qvalue S) || negb e, v) s).
  { intro s. assert (Q : @field_of W (false, s_qvalue S) idx s = ROk (fst (false, s_qvalue S) || negb e, v) s) by (unfold field_of; cbn [snd]; rewrite Qv, Nf; reflexivity).
    inversion T; subst; unfold lift; rewrite Q; reflexivity. }
  unfold bbind at 1 in Rd. rewrite Fo in Rd. change (0 =? 255) with false in Rd. cbv beta iota in Rd. change (0 + 1) with 1 in Rd. rewrite R in Rd by lia. cbv beta iota in Rd.
  unfold bbind at 1, lift at 1, put_path at 1 in Rd. cbv beta iota in Rd. unfold bret at 1 in Rd. cbv beta iota in Rd. unfold bbind at 1 in Rd. rewrite (sels_step X S (op_vars o) decls (frag_defs d)) in Rd. unfold bret in Rd. cbv beta iota zeta in Rd.
  replace (SN (SN (1 + (fuel - 3)))) with fuel in Rd by lia. destruct Rd as (vals' & Rd). exists vals'. rewrite Rd. change (start_of o ++ [123] ++ render_members (x_float_json X) ([(response_key None g, t)] ++ []) ++ [125]) with (start_of o ++ [123] ++ ([34] ++ g ++ [34; 58] ++ render (x_float_json X) t ++ []) ++ [125]). unfold quoted. change (bs "{") with [123]. change (bs """") with [34]. change (bs ":") with [58]. change (bs "}") with [125]. change [34; 58] with ([34] ++ [58]). rewrite !app_nil_r, <- !app_assoc. reflexivity.
Qed.
End Shown.

Section C32.
Context {W : Type} (X : externals W) (S : schema) (o : ropts) (g : bytes).
(** ** C32: integers, booleans, strings and IDs, also in lists and behind pointers; floating point numbers are
    written as FloatToJSON writes them (C51 says what that is) *)
Theorem C32_encoding : forall ob v q w, has_field S g ob v -> typed S ob v -> list_depth ob < 254 -> asks_field o g q ->
  exists t, encodes S (fun is64 b t => t = x_float_json X is64 b) ob v t /\ shows X S o q w g t.
Proof. intros. now apply shown. Qed.
(** a signed integer is written as a text that denotes it *)
Corollary C32_signed : forall k z q w, has_field S g (OData false (KInt k)) (GInt k z) -> asks_field o g q ->
  exists t, int_value t = Some z /\ jnumber t /\ shows X S o q w g t.
Proof. intros k z q w H A. destruct (shown X S o g _ _ q w H (ty_int S _ _ _)) as (t & E & Sh); [cbn; lia|auto|]. inversion E; subst. eauto. Qed.
Corollary C32_unsigned : forall k n q w, has_field S g (OData false (KUint k)) (GUint k n) -> asks_field o g q ->
  exists t, int_value t = Some (Z.of_N n) /\ jnumber t /\ shows X S o q w g t.
Proof. intros k z q w H A. destruct (shown X S o g _ _ q w H (ty_uint S _ _ _)) as (t & E & Sh); [cbn; lia|auto|]. inversion E; subst. eauto. Qed.
Corollary C32_bool : forall b q w, has_field S g (OData false KBool) (GBool b) -> asks_field o g q -> shows X S o q w g (bs (if b then "true" else "false")).
Proof. intros b q w H A. destruct (shown X S o g _ _ q w H (ty_bool S _ _)) as (t & E & Sh); [cbn; lia|auto|]. inversion E; subst; auto. Qed.
(** an ID is a JSON string: quotes around the decimal number, or the string itself *)
Lemma plain_string : forall d, Forall (fun c => 32 <= c < 128 /\ c <> 34 /\ c <> 92) d -> jstring d (quoted d).
Proof.
  intros d F. exists d. split; [reflexivity|]. induction F as [|c d (A & B & C) F IH]; [constructor|]. replace (c :: d) with (utf8_encode c ++ d) at 2; [constructor; auto; [unfold scalar; lia|lia]|].
  unfold utf8_encode. replace (c <=? 127) with true by lia. reflexivity.
Qed.
Lemma int_plain : forall d z, int_value d = Some z -> Forall (fun c => 32 <= c < 128 /\ c <> 34 /\ c <> 92) d.
Proof.
  assert (D : forall d, dec_value d <> None -> Forall (fun c => 32 <= c < 128 /\ c <> 34 /\ c <> 92) d).
  { intros d H. destruct d as [|c d]; [constructor|]. unfold dec_value in H. revert H. generalize 0 as acc. generalize (c :: d). clear. intros l.
    induction l as [|c l IH]; intros acc H; [constructor|]. cbn [fold_left] in H. destruct ((48 <=? c) && (c <=? 57)) eqn:E.
    - constructor; [lia|]. eapply IH; eauto.
    - exfalso. apply H. clear. induction l as [|c l IH]; auto. }
  intros [|c d] z H; [constructor|]. destruct (N.eq_dec c 45) as [->|Nc].
  - constructor; [lia|]. apply D. cbn in H. destruct (dec_value d); [discriminate|discriminate].
  - apply D. intro E. unfold int_value in H. rewrite E in H. destruct c as [|p]; [discriminate|]. do 6 (try (destruct p as [p|p|]; try discriminate)). congruence.
Qed.
Corollary C32_id : forall k v q w, typed S (OData true k) v -> has_field S g (OData true k) v -> asks_field o g q ->
  exists t text, shows X S o q w g t /\ jstring text t /\
    match v with GInt _ z => int_value text = Some z | GUint _ n => int_value text = Some (Z.of_N n) | GBool b => text = bs (if b then "true" else "false") | GString s => codepoints s text | _ => False end.
Proof.
  intros k v q w T H A. destruct (shown X S o g _ _ q w H T) as (t & E & Sh); [cbn; lia|auto|]. exists t.
  inversion E; subst; [eauto|]. inversion T; subst; try congruence.
  - match goal with X : encodes _ _ (OData false _) _ ?u |- _ => exists u; inversion X; subst end. split; auto. split; auto. eapply plain_string, int_plain; eauto.
  - match goal with X : encodes _ _ (OData false _) _ ?u |- _ => exists u; inversion X; subst end. split; auto. split; auto. eapply plain_string, int_plain; eauto.
  - match goal with X : encodes _ _ (OData false _) _ ?u |- _ => exists u; inversion X; subst end; (split; [auto|]; split; [|reflexivity]; apply plain_string; repeat (apply Forall_cons; [cbv; repeat split; discriminate|]); apply Forall_nil).
Qed.
End C32.
Print Assumptions C32_encoding.
Print Assumptions C32_signed.
Print Assumptions C32_unsigned.
Print Assumptions C32_bool.
Print Assumptions C32_id.

(** ** C33: enum values *)
(** a registration of enum values: a Go map from names to values of one type *)
Definition registered (e : enum) : Prop :=
  NoDup (map fst (en_entries e)) /\
  Forall (fun x => match en_kind e, snd x with KString, GString _ => True | KInt k, GInt k' z => k' = k /\ int_range k z | KUint k, GUint k' n => k' = k /\ uint_range k n | _, _ => False end) (en_entries e).
(** the request gives the name [n] to the argument [a]: as enum literal, as string literal or as the JSON string of a variable *)
Inductive gives_name {W} (X : externals W) (S : schema) (o : ropts) (decls : option (list oparg)) (f a : bytes) (i : input) (q n : bytes) : Prop :=
| gn_name : asks o decls f [(a, VEnum n)] q -> gives_name X S o decls f a i q n
| gn_string : gives_string X S o decls f a i q n -> gives_name X S o decls f a i q n.
Section C33.
Context {W : Type} (X : externals W) (S : schema) (o : ropts).
(** a registered value is written as one of its names, any other value as null *)
Theorem C33_output : forall g i e v q w, nth_error (s_enums S) i = Some e -> registered e -> enum_like (en_kind e) v -> has_field S g (OEnum i) v -> asks_field o g q ->
  (exists n, In (n, v) (en_entries e) /\ shows X S o q w g (quoted n)) \/ ((forall n, ~ In (n, v) (en_entries e)) /\ shows X S o q w g (bs "null")).
Proof.
  intros g i e v q w E [_ R] L H A. assert (T : typed S (OEnum i) v).
  { eapply ty_enum; eauto. eapply Forall_impl; [|exact R]. intros [n x]. cbn [snd]. unfold enum_like. destruct (en_kind e); try contradiction; destruct x; try contradiction; auto; intros []; auto. }
  destruct (shown X S o g _ _ q w H T) as (t & En & Sh); [cbn; lia|auto|]. inversion En; subst.
  - left. exists n. split; auto. replace e with e0 by congruence. auto.
  - right. split; auto. replace e with e0 by congruence. auto.
Qed.
Context (decls : option (list oparg)) (f : bytes) (ins : list (option gval)) (infs : list (bytes * (nat * input))) (seen : W -> list gval -> W).
Lemma lookup_in : forall {A} (l : list (bytes * A)) n v, NoDup (map fst l) -> In (n, v) l -> slookup l n = Some v.
Proof.
  intros A l n v N H. induction l as [|[m x] l IH]; [contradiction|]. cbn [slookup]. cbn [map fst] in N. inversion N as [|? ? N1 N2]; subst. destruct H as [H|H].
  - injection H. intros; subst. now rewrite beqb_refl.
  - replace (beqb n m) with false; [auto|]. symmetry. apply beqb_neq. intros ->. apply N1. apply in_map_iff. exists (m, v). auto.
Qed.
Lemma lookup_no : forall {A} (l : list (bytes * A)) n, ~ In n (map fst l) -> slookup l n = None.
Proof.
  intros A l n H. induction l as [|[m x] l IH]; [reflexivity|]. cbn [slookup map fst] in *. replace (beqb n m) with false; [apply IH; firstorder|]. symmetry. apply beqb_neq. intros ->. apply H. now left.
Qed.
(** a registered name gives its value, any other name is refused *)
Theorem C33_input : forall a i k e old wr n q w, probe X S f ins infs seen -> slot ins infs a i old wr -> i_enum i = Some k -> nth_error (s_enums S) k = Some e ->
  registered e -> enum_like (en_kind e) old -> gives_name X S o decls f a i q n ->
  (forall v, In (n, v) (en_entries e) -> received X S o seen q w (args_with ins infs a (wr v))) /\
  (~ In n (map fst (en_entries e)) -> refused X S o q w).
Proof.
  intros a i k e old wr n q w P Sl En Ek [Nd R] Lo G. pose proof (slot_direct _ _ _ _ _ _ Sl) as Ip. split.
  - intros v I. assert (St : enum_sets (false, old) e n v).
    { rewrite Forall_forall in R. pose proof (R _ I) as Rv. cbn [snd] in Rv. pose proof (lookup_in _ _ _ Nd I) as Lk. unfold enum_like in Lo. destruct (en_kind e) eqn:Ke; try contradiction; destruct v; try contradiction; destruct old; try contradiction.
      - destruct Rv as [-> Rv]. subst. eapply es_int; eauto. now apply low_bits_same.
      - destruct Rv as [-> Rv]. subst. eapply es_uint; eauto. split; auto. apply N.mod_small. unfold uint_range in Rv. lia.
      - now apply es_string. }
    assert (Ss : str_sets X S w (false, old) i n w v) by (eapply ss_enum; eauto).
    destruct G as [A|[A|u A (d & D & T & J)]].
    + eapply slot_received; eauto; [discriminate|]. eapply ls_enum; eauto.
    + eapply slot_received; eauto; [discriminate|]. now apply ls_str.
    + eapply slot_received; eauto; [discriminate|]. eapply ls_var; eauto. apply js_special; auto. left. rewrite En. discriminate.
  - intros H. pose proof (lookup_no _ _ H) as Lk. set (m := bs "unknown enum value " ++ n ++ bs " for enum " ++ en_name e).
    assert (E : forall s : rst W, assign_enum (false, old) e n s = fail (false, old) m s) by (intro s; unfold assign_enum; now rewrite Lk).
    destruct G as [A|[A|u A (d & D & T & J)]].
    + eapply slot_refused; eauto; [discriminate|]. exists 1%nat. unfold no. rewrite input_step, bptr_no by auto. unfold b_body, lift. rewrite En. unfold bbind at 1. rewrite Ek. unfold of_opt, ret. rewrite E. apply no_fail.
    + eapply slot_refused; eauto; [discriminate|]. exists 1%nat. unfold no. rewrite input_step, bptr_no by auto. unfold b_body, lift, assign_string. rewrite En, Ek. unfold of_opt, bind, ret. rewrite E. apply no_fail.
    + eapply slot_refused; eauto; [discriminate|].
      destruct (no_json X S (op_vars o) decls (false, old) i u d (FString n) w m 1 Ip D T J) as (j & N); [|exists j; apply N; [apply at_f_fine|reflexivity]].
      intro s. rewrite json_step, ptr_no by auto. unfold j_body. replace (special_b i) with true by (symmetry; apply special_ok; left; rewrite En; discriminate). rewrite En, Ek. unfold of_opt, bind, ret. apply E.
Qed.
(** what the response says about a registered value can be given back as argument, and the resolver receives that value *)
Corollary C33_round_trip : forall g a i k e v m old wr q w, nth_error (s_enums S) k = Some e -> registered e -> In (m, v) (en_entries e) -> has_field S g (OEnum k) v -> asks_field o g q ->
  probe X S f ins infs seen -> slot ins infs a i old wr -> i_enum i = Some k -> enum_like (en_kind e) old ->
  exists n, shows X S o q w g (quoted n) /\ forall q', gives_name X S o decls f a i q' n -> received X S o seen q' w (args_with ins infs a (wr v)).
Proof.
  intros g a i k e v m old wr q w Ek R I H A P Sl En Lo. assert (L : enum_like (en_kind e) v).
  { destruct R as [_ R]. rewrite Forall_forall in R. pose proof (R _ I) as Rv. cbn [snd] in Rv. unfold enum_like. destruct (en_kind e); try contradiction; destruct v; try contradiction; auto; destruct Rv; auto. }
  destruct (C33_output g k e v q w Ek R L H A) as [(n & In' & Sh)|[N _]]; [|exfalso; eapply N; eauto].
  exists n. split; auto. intros q' G. eapply C33_input; eauto.
Qed.
End C33.
Print Assumptions C33_output.
Print Assumptions C33_input.
Print Assumptions C33_round_trip.
(** ** An example: an object with a list of lists, an ID and two enum fields, and a resolver with an enum argument *)
Definition color : enum := Enum (KUint W8) (bs "Color") [(bs "RED", GUint W8 1); (bs "BLUE", GUint W8 7)].
Definition color_arg : input := Input (KUint W8) (Some O) false false false 0 None false [] [] (GUint W8 0).
Definition out_schema : schema :=
  Schema [] [] [] (OObj (bs "Query") [
      fld "f" (OMethod (Method true (one_ins (GUint W8 0)) (one_infs color_arg) 0 None (OData false KBool))) 0;
      fld "n" (OData false (KInt W64)) 0; fld "id" (OData true (KInt W8)) 1; fld "l" (OArray (OPtr (OArray (OData false (KUint W16))))) 2; fld "c" (OEnum 0) 3; fld "x" (OEnum 0) 4])
    (GStruct [(true, GInt W64 (-9223372036854775808)); (true, GInt W8 (-1)); (true, GSlice (Some [GPtr (Some (GArray [GUint W16 0; GUint W16 65535])); GPtr None; GPtr (Some (GSlice (Some [])))])); (true, GUint W8 7); (false, GUint W8 2)])
    (OObj (bs "M") []) (GStruct []) 255 [color] builtin_dirs.
Lemma out_has : forall g ob idx e v, nlookup (o_fields (s_query out_schema)) (fnv1 g) = Some (Field ob None idx g false) ->
  nth_error (match s_qvalue out_schema with GStruct fs => fs | _ => [] end) idx = Some (e, v) -> has_field out_schema g ob v.
Proof. intros g ob idx e v L N. exists idx, g, false. eexists. exists e. split; [exact L|]. split; [reflexivity|exact N]. Qed.
Ltac asks_one := unfold asks_field, asks; eexists; exists (@nil N); try exists (@None (list oparg)); split; [apply RefGrammar.ref_parse_spec; vm_compute; reflexivity|]; split; [repeat constructor; cbn; intuition discriminate|]; split; [vm_compute; reflexivity|]; exists [], []; split; [reflexivity|]; split; [exact Logic.I|constructor].
Definition a_list : gval := GSlice (Some [GPtr (Some (GArray [GUint W16 0; GUint W16 65535])); GPtr None; GPtr (Some (GSlice (Some [])))]).
Definition a_list_type : obj := OArray (OPtr (OArray (OData false (KUint W16)))).
Definition data_of (q : bytes) : option (bytes * nat) := match resolve (note_x FNull) out_schema 100 (ROpts true [] [] None) (fun _ => (false, GOther)) [] q with RDone out es _ _ => Some (out, length es) | _ => None end.
Example C32_case :
  (has_field out_schema (bs "n") (OData false (KInt W64)) (GInt W64 (-9223372036854775808)) /\ asks_field no_opts (bs "n") (bs "{n}") /\
   data_of (bs "{n}") = Some (q2 "{'n':-9223372036854775808}", O)) /\
  (has_field out_schema (bs "id") (OData true (KInt W8)) (GInt W8 (-1)) /\ typed out_schema (OData true (KInt W8)) (GInt W8 (-1)) /\ asks_field no_opts (bs "id") (bs "{ id }") /\
   data_of (bs "{ id }") = Some (q2 "{'id':'-1'}", O)) /\
  (has_field out_schema (bs "l") a_list_type a_list /\ typed out_schema a_list_type a_list /\ list_depth a_list_type < 254 /\ asks_field no_opts (bs "l") (bs "{l}") /\
   data_of (bs "{l}") = Some (q2 "{'l':[[0,65535],null,[]]}", O)).
Proof.
  split; [|split].
  - split; [eapply out_has; vm_compute; reflexivity|]. split; [asks_one|]. vm_compute. reflexivity.
  - split; [eapply out_has; vm_compute; reflexivity|]. split; [constructor|]. split; [asks_one|]. vm_compute. reflexivity.
  - split; [eapply out_has; vm_compute; reflexivity|]. split; [unfold a_list, a_list_type; repeat constructor|]. split; [reflexivity|]. split; [asks_one|]. vm_compute. reflexivity.
Qed.
Lemma color_registered : registered color.
Proof. split; [repeat constructor; cbn; intuition discriminate|repeat constructor]. Qed.
Lemma color_slot : slot (one_ins (GUint W8 0)) (one_infs color_arg) (bs "a") color_arg (GUint W8 0) (fun v => v). Proof. apply one_slot; reflexivity. Qed.
Lemma color_probe : probe (note_x FNull) out_schema (bs "f") (one_ins (GUint W8 0)) (one_infs color_arg) note.
Proof. split; [|reflexivity]. exists O, (bs "f"), false. split; [vm_compute; reflexivity|reflexivity]. Qed.
Example C33_case :
  (exists n, shows (note_x FNull) out_schema no_opts (bs "{c}") [] (bs "c") (quoted n) /\ forall q', gives_name (note_x FNull) out_schema no_opts None (bs "f") (bs "a") color_arg q' n -> received (note_x FNull) out_schema no_opts note q' [] [GStruct [(true, GUint W8 7)]]) /\
  data_of (bs "{c}") = Some (q2 "{'c':'BLUE'}", O) /\ 
  received (note_x FNull) out_schema no_opts note (bs "{f(a:BLUE)}") [] [GStruct [(true, GUint W8 7)]] /\
  received (note_x FNull) out_schema no_opts note (q2 "{f(a:'RED')}") [] [GStruct [(true, GUint W8 1)]] /\
  refused (note_x FNull) out_schema no_opts (bs "{f(a:GREEN)}") [] /\
  shows (note_x FNull) out_schema no_opts (bs "{x}") [] (bs "x") (bs "null").
Proof.
  split; [|split; [|split; [|split; [|split]]]].
  - apply (C33_round_trip (note_x FNull) out_schema no_opts None (bs "f") (one_ins (GUint W8 0)) (one_infs color_arg) note (bs "c") (bs "a") color_arg O color (GUint W8 7) (bs "BLUE") (GUint W8 0) (fun v => v)); try reflexivity;
      [apply color_registered|cbn; auto|eapply out_has; vm_compute; reflexivity|asks_one|apply color_probe|apply color_slot].
  - vm_compute. reflexivity.
  - refine (proj1 (C33_input (note_x FNull) out_schema no_opts None (bs "f") _ _ note (bs "a") color_arg O color (GUint W8 0) (fun v => v) (bs "BLUE") _ [] color_probe color_slot eq_refl eq_refl color_registered eq_refl _) (GUint W8 7) _); [apply gn_name; asks_one|cbn; auto].
  - refine (proj1 (C33_input (note_x FNull) out_schema no_opts None (bs "f") _ _ note (bs "a") color_arg O color (GUint W8 0) (fun v => v) (bs "RED") _ [] color_probe color_slot eq_refl eq_refl color_registered eq_refl _) (GUint W8 1) _); [apply gn_string, gs_literal; asks_one|cbn; auto].
  - refine (proj2 (C33_input (note_x FNull) out_schema no_opts None (bs "f") _ _ note (bs "a") color_arg O color (GUint W8 0) (fun v => v) (bs "GREEN") _ [] color_probe color_slot eq_refl eq_refl color_registered eq_refl _) _); [apply gn_name; asks_one|cbn; intuition discriminate].
  - destruct (C33_output (note_x FNull) out_schema no_opts (bs "x") O color (GUint W8 2) (bs "{x}") []) as [(n & I & _)|[_ Sh]]; try reflexivity; [apply color_registered|eapply out_has; vm_compute; reflexivity|asks_one|cbn in I; intuition discriminate|exact Sh].
Qed.
