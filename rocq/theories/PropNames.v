(** * Properties of the naming of fields (C35, C36) *)
From Coq Require Import String Arith NArith Bool Lia ZifyBool ZifyN ZifyNat List.
From Verif Require Import Base Ast Grammar NameModel.
Import ListNotations.
Open Scope N_scope.

(** ** Vocabulary *)
(** Go identifiers made of ASCII characters; these are exported when they start with A..Z *)
Definition go_ident (n : bytes) : Prop := exists c r, n = c :: r /\ is_letter c /\ Forall is_name_char r.
Definition go_exported (n : bytes) : Prop := exists c r, n = c :: r /\ 65 <= c <= 90.
Definition ascii_letter (c : N) : Prop := (65 <= c <= 90) \/ (97 <= c <= 122).
(** the first letter in lower case, unless the second letter is upper case as well *)
Definition lower_first (n : bytes) : bytes :=
  match n with
  | [] => []
  | c :: r =>
      match r with
      | d :: _ => if is_upper d then n else (if is_upper c then c + 32 else c) :: r
      | [] => [if is_upper c then c + 32 else c]
      end
  end.
(** the second character is a letter, if there is one *)
Definition second_is_letter (n : bytes) : Prop := match n with _ :: d :: _ => ascii_letter d | _ => True end.

(** ** Lemmas *)
Lemma format_spec : forall n, go_ident n -> second_is_letter n -> format_go_name n = lower_first n.
Proof.
  intros n (c & r & -> & Hc & Hr) Hs. unfold is_letter in Hc.
  assert (L : lower1 c = [if is_upper c then c + 32 else c]).
  { unfold lower1. replace (c <? 128) with true by lia. reflexivity. }
  destruct r as [|d r]; [exact L|]. cbn [format_go_name lower_first]. rewrite L.
  unfold second_is_letter, ascii_letter in Hs. unfold upper1. replace (d <? 128) with true by lia. cbn [hd].
  unfold is_lower, is_upper. destruct ((65 <=? d) && (d <=? 90)) eqn:E.
  - replace ((97 <=? d) && (d <=? 122)) with false by lia. rewrite N.eqb_refl. reflexivity.
  - replace ((97 <=? d) && (d <=? 122)) with true by lia. replace (d =? d - 32) with false by lia. reflexivity.
Qed.
Lemma format_ident : forall n, go_ident n -> go_ident (format_go_name n) /\ length (format_go_name n) = length n.
Proof.
  intros n (c & r & -> & Hc & Hr). unfold is_letter in Hc.
  assert (L : lower1 c = [if is_upper c then c + 32 else c]).
  { unfold lower1. replace (c <? 128) with true by lia. reflexivity. }
  assert (Hl : is_letter (if is_upper c then c + 32 else c)).
  { unfold is_letter, is_upper. destruct ((65 <=? c) && (c <=? 90)) eqn:E; lia. }
  destruct r as [|d r].
  - cbn [format_go_name]. rewrite L. split; [|reflexivity]. exists (if is_upper c then c + 32 else c), []. auto.
  - cbn [format_go_name]. destruct (d =? hd 0 (upper1 d)).
    + split; auto. exists c, (d :: r). auto.
    + rewrite L. split; [|reflexivity]. exists (if is_upper c then c + 32 else c), (d :: r). auto.
Qed.
Lemma ident_writable : forall n, go_ident n -> (length n <= 254)%nat -> valid_name n.
Proof. intros n (c & r & -> & Hc & Hr) L. constructor; auto. Qed.
Lemma valid_gql_ident : forall n, valid_gql_name n = true -> go_ident n.
Proof.
  intros [|c r] H; [discriminate|]. simpl in H. apply andb_prop in H. destruct H as [H1 H2].
  exists c, r. split; auto. unfold is_upper, is_lower in H1. split; [unfold is_letter; lia|].
  rewrite forallb_forall in H2. apply Forall_forall. intros x Hx. specialize (H2 x Hx).
  unfold valid_rest, is_upper, is_lower in H2. unfold is_name_char, is_letter, Grammar.is_digit. lia.
Qed.
Lemma split_no_comma : forall n, Forall (fun c => c <> 44) n -> split_comma n = [n].
Proof.
  induction n as [|c n IH]; intros H; auto. inversion H; subst. simpl. replace (c =? 44) with false by lia.
  rewrite IH; auto.
Qed.
Lemma strip_any_none : forall codes c r,
  forallb (fun p => match p with x :: _ => negb (x =? c) | [] => false end) codes = true ->
  strip_any codes (c :: r) = None.
Proof.
  induction codes as [|p codes IH]; intros c r H; auto. simpl in H. apply andb_prop in H. destruct H as [H1 H2].
  simpl. destruct p as [|x p]; [discriminate|]. simpl. destruct (x =? c); [discriminate|]. auto.
Qed.
Lemma trim_left_none : forall f codes s,
  match s with [] => forallb (fun p => match p with _ :: _ => true | [] => false end) codes = true
             | c :: _ => forallb (fun p => match p with x :: _ => negb (x =? c) | [] => false end) codes = true end ->
  trim_left f codes s = s.
Proof.
  intros f codes s H. destruct f; auto. simpl. destruct s as [|c r].
  - assert (X : strip_any codes [] = None).
    { induction codes as [|p codes IH]; auto. simpl in *. destruct p; [discriminate|]. auto. }
    now rewrite X.
  - now rewrite strip_any_none.
Qed.
Lemma trim_ident : forall n, go_ident n -> trim_space n = n.
Proof.
  intros n (c & r & -> & Hc & Hr). unfold trim_space.
  assert (F1 : forall x, is_name_char x -> forallb (fun p => match p with y :: _ => negb (y =? x) | [] => false end) space_codes = true).
  { intros x Hx. unfold is_name_char, is_letter, Grammar.is_digit in Hx. unfold space_codes. cbn [forallb].
    rewrite !andb_true_iff. repeat split; lia. }
  assert (F2 : forall x, is_name_char x -> forallb (fun p => match p with y :: _ => negb (y =? x) | [] => false end) (map (@rev N) space_codes) = true).
  { intros x Hx. unfold is_name_char, is_letter, Grammar.is_digit in Hx.
    change (map (@rev N) space_codes) with
      [[9]; [10]; [11]; [12]; [13]; [32]; [133; 194]; [160; 194]; [128; 154; 225];
   [128; 128; 226]; [129; 128; 226]; [130; 128; 226]; [131; 128; 226]; [132; 128; 226]; [133; 128; 226];
   [134; 128; 226]; [135; 128; 226]; [136; 128; 226]; [137; 128; 226]; [138; 128; 226]; [168; 128; 226];
   [169; 128; 226]; [175; 128; 226]; [159; 129; 226]; [128; 128; 227]]. cbn [forallb].
    rewrite !andb_true_iff. repeat split; lia. }
  cbv zeta. rewrite (trim_left_none (length (c :: r)) space_codes (c :: r)) by (apply F1; left; auto).
  assert (A : Forall is_name_char (rev (c :: r))).
  { apply Forall_rev. constructor; auto. left; auto. }
  rewrite trim_left_none.
  - apply rev_involutive.
  - destruct (rev (c :: r)) as [|x l]; [reflexivity|]. inversion A; subst. auto.
Qed.
Lemma ident_no_comma : forall n, go_ident n -> Forall (fun c => c <> 44) n.
Proof.
  intros n (c & r & -> & Hc & Hr). constructor; [unfold is_letter in Hc; lia|].
  eapply Forall_impl; [|exact Hr]. intros a [H|H]; unfold is_letter, Grammar.is_digit in H; lia.
Qed.

Lemma parse_tag_name : forall tag n id, parse_tag tag = TagOk (Some n) id -> valid_gql_name n = true.
Proof.
  intros tag n id H. unfold parse_tag in H. destruct tag as [[|x v]|]; try discriminate.
  destruct (split_comma (x :: v)) as [|a mods]; [discriminate|].
  destruct (beqb (trim_space a) [45]); [discriminate|].
  destruct (beqb (trim_space a) []) eqn:E; cbn [negb andb orb] in H.
  - destruct (existsb _ mods); discriminate.
  - destruct (valid_gql_name (trim_space a)) eqn:V; cbn [negb orb] in H; [|discriminate].
    destruct (existsb _ mods); [discriminate|]. injection H as <- _. exact V.
Qed.

(** ** C35 *)
(** the name of an exported field without tag *)
Theorem C35_default_name : forall f, gf_anon f = false -> gf_tag f = None ->
  go_ident (gf_name f) -> go_exported (gf_name f) -> second_is_letter (gf_name f) ->
  expose_field f = Exposed (lower_first (gf_name f)).
Proof.
  intros f A T I E S. unfold expose_field. rewrite A, T. cbn [parse_tag]. now rewrite format_spec.
Qed.
Print Assumptions C35_default_name.

(** false when the second character is a digit (or an underscore): the first letter stays upper case *)
Theorem C35_default_name_refuted : exists f, gf_anon f = false /\ gf_tag f = None /\
  go_ident (gf_name f) /\ go_exported (gf_name f) /\ expose_field f <> Exposed (lower_first (gf_name f)).
Proof.
  exists (GoField (bs "X1") false None). split; [reflexivity|]. split; [reflexivity|].
  split; [exists 88, [49]; split; [reflexivity|split; [unfold is_letter; lia|constructor; [right; unfold Grammar.is_digit; lia|constructor]]]|].
  split; [exists 88, [49]; split; [reflexivity|lia]|]. vm_compute. discriminate.
Qed.
Print Assumptions C35_default_name_refuted.

(** the name in the tag, with or without the id modifier; a dash hides the field *)
Theorem C35_tag_name : forall f n, gf_anon f = false -> valid_gql_name n = true ->
  gf_tag f = Some n \/ gf_tag f = Some (n ++ bs ",id") -> expose_field f = Exposed n.
Proof.
  intros f n A V T. pose proof (valid_gql_ident n V) as I. unfold expose_field. rewrite A.
  assert (N1 : n <> []) by (destruct I as (c & r & -> & _); discriminate).
  assert (N2 : beqb n [] = false) by now apply beqb_neq.
  assert (N3 : beqb n [45] = false).
  { apply beqb_neq. intros ->. discriminate. }
  destruct T as [T|T]; rewrite T; unfold parse_tag.
  - destruct n as [|x v]; [contradiction|]. rewrite split_no_comma by now apply ident_no_comma.
    rewrite trim_ident by auto. rewrite N3, N2, V. reflexivity.
  - assert (S : split_comma (n ++ bs ",id") = [n; bs "id"]).
    { assert (H := ident_no_comma n I). clear -H. induction n as [|c n IH]; [reflexivity|]. inversion H; subst.
      cbn [app split_comma]. replace (c =? 44) with false by lia. rewrite IH; auto. }
    destruct (n ++ bs ",id") as [|x v] eqn:E; [destruct n; discriminate|]. rewrite S.
    rewrite trim_ident by auto. rewrite N3, N2, V. reflexivity.
Qed.
Print Assumptions C35_tag_name.
Theorem C35_dash_hides : forall f, gf_tag f = Some (bs "-") -> expose_field f = Hidden.
Proof. intros f T. unfold expose_field. rewrite T. destruct (gf_anon f); reflexivity. Qed.
Print Assumptions C35_dash_hides.

Lemma writable_aux : forall fs k names n i,
  Forall (fun f => go_ident (gf_name f) /\ (length (gf_name f) <= 254)%nat) fs ->
  expose_struct fs k = Some names -> In (n, i) names -> (length n <= 254)%nat ->
  valid_name n.
Proof.
  induction fs as [|f fs IH]; intros k names n i F E I L.
  - injection E as <-. destruct I.
  - inversion F as [|? ? [Hi Hl] F']; subst. cbn [expose_struct] in E.
    destruct (expose_field f) eqn:X; [eapply (IH (S k) names); eassumption| |discriminate].
    destruct (expose_struct fs (S k)) as [l|] eqn:E'; [|discriminate]. injection E as <-.
    destruct I as [I|I]; [|eapply (IH (S k) l); eassumption]. injection I as <- <-.
    unfold expose_field in X. destruct (gf_anon f); [discriminate|].
    destruct (parse_tag (gf_tag f)) as [| |[m|] id] eqn:T; try discriminate; injection X as X; subst ql_name.
    + apply ident_writable; auto. apply valid_gql_ident. eapply parse_tag_name; eauto.
    + apply ident_writable; auto. now apply format_ident.
Qed.
(** every name of a field of a struct can be written in a query (identifiers of at most 254 ASCII characters) *)
Theorem C35_names_are_writable : forall fs names n i,
  Forall (fun f => go_ident (gf_name f) /\ (length (gf_name f) <= 254)%nat) fs ->
  expose_struct fs 0 = Some names -> In (n, i) names -> (length n <= 254)%nat ->
  valid_name n.
Proof. intros fs names n i. apply writable_aux. Qed.
Print Assumptions C35_names_are_writable.

(** not so for names that start with another letter: the field Élan *)
Theorem C35_names_are_writable_refuted : exists f n, expose_field f = Exposed n /\ ~ valid_name n.
Proof.
  exists (GoField [195; 137; 108; 97; 110] false None). eexists. split; [vm_compute; reflexivity|].
  intros V. inversion V as [c r Hc Hr Hl E]; subst. unfold is_letter in Hc. lia.
Qed.
Print Assumptions C35_names_are_writable_refuted.

Example C35_case :
  expose_struct [GoField (bs "Name") false None; GoField (bs "URL") false None; GoField (bs "Secret") false (Some (bs "-"));
                 GoField (bs "Base") true None; GoField (bs "Key") false (Some (bs "primaryKey,id"))] 0
    = Some [(bs "name", 0%nat); (bs "URL", 1%nat); (bs "primaryKey", 4%nat)] /\
  go_ident (bs "Name") /\ go_exported (bs "Name") /\ second_is_letter (bs "Name") /\ valid_gql_name (bs "primaryKey") = true.
Proof.
  split; [vm_compute; reflexivity|]. split.
  - exists 78, (bs "ame"). split; [reflexivity|]. split; [unfold is_letter; lia|].
    cbn. repeat (constructor; [left; unfold is_letter; lia|]). constructor.
  - split; [exists 78, (bs "ame"); split; [reflexivity|lia]|]. split; [unfold second_is_letter, ascii_letter; cbn; lia|reflexivity].
Qed.

(** methods: Resolve is removed; a method named exactly Resolve panics *)
Theorem C35_method_name : forall n, go_ident n -> go_exported n ->
  expose_method (bs "Resolve" ++ n) = MExposed (format_go_name n).
Proof.
  intros n (c & r & -> & Hc & _) (c' & r' & E & Hu). injection E as <- <-. unfold expose_method. cbn [bs app strip_prefix].
  cbn. unfold upper_start, is_lower. replace (c <? 128) with true by lia. 
  replace ((97 <=? c) && (c <=? 122)) with false by lia. reflexivity.
Qed.
Print Assumptions C35_method_name.
(** exactly the methods ResolveX are part of the schema, where X does not begin with a small letter *)
Theorem C35_methods_exactly : forall n, Forall (fun c => c < 128) n -> forall q,
  expose_method n = MExposed q <-> exists c r, n = bs "Resolve" ++ c :: r /\ ~ (97 <= c <= 122) /\ q = format_go_name (c :: r).
Proof.
  intros n A q. unfold expose_method.
  assert (P : forall p s t, strip_prefix p s = Some t <-> s = p ++ t).
  { induction p as [|x p IH]; intros s t; [cbn; split; [now intros [= ->]|now intros ->]|].
    destruct s as [|y s]; cbn; [split; discriminate|]. destruct (x =? y) eqn:E.
    - assert (x = y) by lia. subst y. rewrite IH. split; [now intros ->|now intros [= ->]].
    - split; [discriminate|]. intros [= -> _]. rewrite N.eqb_refl in E. discriminate. }
  split.
  - destruct (strip_prefix (bs "Resolve") n) as [[|c r]|] eqn:E; try discriminate. apply P in E. intro H.
    assert (Hc : c < 128) by (subst n; apply Forall_app in A; destruct A as [_ A]; now inversion A).
    unfold upper_start, is_lower in H. replace (c <? 128) with true in H by lia. destruct ((97 <=? c) && (c <=? 122)) eqn:L; [discriminate|].
    injection H as <-. exists c, r. split; [exact E|]. split; [lia|reflexivity].
  - intros (c & r & -> & L & ->). assert (E : strip_prefix (bs "Resolve") (bs "Resolve" ++ c :: r) = Some (c :: r)) by now apply P. rewrite E.
    assert (Hc : c < 128) by (apply Forall_app in A; destruct A as [_ A]; now inversion A).
    unfold upper_start, is_lower. replace (c <? 128) with true by lia. destruct ((97 <=? c) && (c <=? 122)) eqn:L'; [lia|reflexivity].
Qed.
Print Assumptions C35_methods_exactly.
Example C35_methods_case : expose_method (bs "ResolveUserName") = MExposed (bs "userName") /\ expose_method (bs "Resolved") = MHidden /\
  expose_method (bs "Resolve_x") = MExposed (bs "_x").
Proof. vm_compute. auto. Qed.
Theorem C35_method_resolve_refuted : expose_method (bs "Resolve") = MPanic.
Proof. reflexivity. Qed.
Print Assumptions C35_method_resolve_refuted.

(** Letters that are not ASCII: of the two names of Go below, encoded in UTF-8, the one with the upper case letter U+017D is not part of the
    schema, the one with the lower case letter U+00E9 is, under a name that is not even UTF-8. *)
Theorem C35_method_letters_refuted : expose_method (bs "Resolve" ++ [197; 189] ++ bs "ena") = MHidden /\ expose_method (bs "Resolve" ++ [195; 169] ++ bs "cole") = MExposed ([239; 191; 189; 169] ++ bs "cole").
Proof. vm_compute. auto. Qed.
Print Assumptions C35_method_letters_refuted.

(** ** C36: fields that are not exported become part of the schema *)
Theorem C36_internal_fields_refuted : forall n, go_ident n -> ~ go_exported n ->
  exists q, expose_struct [GoField n false None] 0 = Some [(q, 0%nat)].
Proof. intros n _ _. eexists. reflexivity. Qed.
Print Assumptions C36_internal_fields_refuted.
(** what holds: fields without tag or with a name are exposed, embedded ones and '-' are not *)
Theorem C36_exposed_exactly : forall f, parse_tag (gf_tag f) <> TagErr ->
  (exists q, expose_field f = Exposed q) <-> (gf_anon f = false /\ parse_tag (gf_tag f) <> TagIgnore).
Proof.
  intros f H. unfold expose_field. destruct (gf_anon f).
  - split; [intros (q & E); discriminate|intros [E _]; discriminate].
  - destruct (parse_tag (gf_tag f)) as [| |[m|] id]; split; try (intros (q & E); discriminate); try tauto; eauto.
    + intros _. split; [auto|discriminate].
    + intros _. split; [auto|discriminate].
Qed.
Print Assumptions C36_exposed_exactly.
Example C36_case : go_ident (bs "password") /\ ~ go_exported (bs "password") /\
  expose_struct [GoField (bs "Name") false None; GoField (bs "password") false None] 0 = Some [(bs "name", 0%nat); (bs "password", 1%nat)].
Proof.
  split; [|split; [|vm_compute; reflexivity]].
  - exists 112, (bs "assword"). split; [reflexivity|]. split; [unfold is_letter; lia|].
    cbn. repeat (constructor; [left; unfold is_letter; lia|]). constructor.
  - intros (c & r & E & H). injection E as <- _. lia.
Qed.
