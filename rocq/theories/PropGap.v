(** * C07: ignored text between tokens (property)

    [same q q'] (GapSpec.v): the two texts have the same tokens, with any ignored text between them.
    [boundary pre suf]: ignored text may stand between [pre] and [suf]. *)
From Coq Require Import String Arith NArith Bool Lia ZifyBool ZifyN ZifyNat List.
From Verif Require Import Base ParserModel Ast Grammar RefParser RefLemmas RefGrammar Printer PrinterProof ParserFacts GapSpec GapProof GapSim.
Import ListNotations.
Open Scope N_scope.

Lemma same_doc : forall q q', same q q' -> forall d, g_doc d q <-> g_doc d q'.
Proof. intros q q' S d. split; intros G; eapply sim_doc; eauto. now apply same_sym. Qed.

(** Texts with the same tokens are accepted or rejected together, and give the same bytecode,
    the same fragment places and the same selected operation. *)
Theorem C07_gaps_do_not_matter : forall q q' target, same q q' ->
  exists s s', parse_query q target = Parsed s /\ parse_query q' target = Parsed s' /\
    (p_errs s = [] <-> p_errs s' = []) /\
    (p_errs s = [] -> p_res s = p_res s' /\ p_frags s = p_frags s' /\ p_tgt s = p_tgt s').
Proof.
  intros q q' target S. pose proof (same_doc _ _ S) as D.
  destruct (ref_parse q) as [d|] eqn:P.
  - apply ref_parse_spec in P. pose proof (proj1 (D d) P) as P'.
    destruct (denotes_accepted q target d P) as (s & A & B & C & E & F). destruct (denotes_accepted q' target d P') as (s' & A' & B' & C' & E' & F').
    exists s, s'. rewrite B, B', C, C', E, E', F, F'. tauto.
  - assert (N : ~ exists d, g_doc d q). { intros [d G]. apply ref_parse_spec in G. congruence. }
    assert (N' : ~ exists d, g_doc d q'). { intros [d G]. apply N. exists d. now apply D. }
    destruct (rejected q target N) as (s & A & B). destruct (rejected q' target N') as (s' & A' & B'). exists s, s'. tauto.
Qed.
Print Assumptions C07_gaps_do_not_matter.

(** ** Inserting ignored text at one place *)
Lemma same_before : forall k k' l l', skip_ign l = skip_ign k -> skip_ign l' = skip_ign k' -> same k k' -> same l l'.
Proof.
  intros k k' l l' E E' S. destruct S as [k k' Q|k k' t r r' E1 E2 T1 T2 G S].
  - apply same_rest. congruence.
  - eapply same_token; [rewrite E; exact E1|rewrite E'; exact E2|..]; auto.
Qed.
Lemma boundary_same : forall pre suf w, boundary pre suf -> ignored w -> skip_ign suf <> [] -> same (pre ++ suf) (pre ++ w ++ suf).
Proof.
  intros pre suf w B W N. induction B as [suf|g pre suf Ig B IH|t pre suf T B IH C].
  - apply same_rest. cbn. now rewrite skip_ign_ignored.
  - rewrite <- !app_assoc. apply same_before with (k := pre ++ suf) (k' := pre ++ w ++ suf); auto using skip_ign_ignored.
  - rewrite <- !app_assoc. specialize (IH N). destruct (ignored_head _ W) as (c & w' & Ew & Ic).
    assert (T' : token t (pre ++ w ++ suf)).
    { destruct pre as [|a pre].
      - cbn in T |- *. rewrite Ew. cbn. eapply token_gap; eauto.
      - cbn in T |- *. eapply token_next; eauto. }
    apply same_token with (t := t) (r := pre ++ suf) (r' := pre ++ w ++ suf); auto; try (eapply token_skip; eauto).
    destruct pre as [|a pre].
    + destruct (C eq_refl) as (C1 & C2 & C3). constructor.
      * tauto.
      * intros ->. split; intros Q; exfalso; [apply C3; auto|]. cbn in Q. rewrite Ew in Q. destruct Q as [z Q]. cbn in Q. inversion Q; subst. cbn in Ic. lia.
      * intros _. cbn. split; intros Q; [subst suf; contradiction N; reflexivity|]. rewrite Ew in Q. discriminate.
    + constructor.
      * intros _. cbn [app]. assert (E : forall z, skip_ign (a :: z) = a :: z <-> ign_charb a = false).
        { intros z. split; intros Q; [eapply skip_ign_cons_inv; exact Q|now apply skip_ign_token]. }
        now rewrite !E.
      * intros _. split; intros [z Q]; cbn in Q; inversion Q; subst; eexists; reflexivity.
      * intros _. split; intros; discriminate.
Qed.
Theorem C07_inserting_ignored_text : forall pre w suf target, boundary pre suf -> ignored w -> skip_ign suf <> [] ->
  exists s s', parse_query (pre ++ suf) target = Parsed s /\ parse_query (pre ++ w ++ suf) target = Parsed s' /\
    (p_errs s = [] <-> p_errs s' = []) /\
    (p_errs s = [] -> p_res s = p_res s' /\ p_frags s = p_frags s' /\ p_tgt s = p_tgt s').
Proof. intros. apply C07_gaps_do_not_matter. now apply boundary_same. Qed.
Print Assumptions C07_inserting_ignored_text.

(** ** Cases *)
Lemma name_dec : forall c t r, letterb c = true -> forallb ncharb t = true -> match r with [] => true | x :: _ => negb (ncharb x) end = true -> token (c :: t) r.
Proof.
  intros. apply tk_name; [now apply letterb_iff|now apply word_chars|]. destruct r; cbn; auto. apply ncharb_false. now destruct (ncharb n).
Qed.
Lemma num_dec : forall c t r, digitb c = true -> forallb num_charb t = true -> match r with [] => true | x :: _ => num_stopb x end = true -> token (c :: t) r.
Proof.
  intros. apply tk_num.
  - unfold num_start. apply digitb_iff in H. tauto.
  - rewrite forallb_forall in H0. apply Forall_forall. intros x I. now apply num_charb_iff, H0.
  - intros [z Q]. cbn in Q. inversion Q; subst. unfold digitb in H. lia.
  - destruct r; auto. now apply num_stop_iff.
Qed.
(** A query with a comment and line ends inserted between the tokens of an argument. *)
Definition gap : bytes := [cSP; cHASH] ++ bs " note" ++ [cCR; cLF].
Lemma gap_ignored : ignored gap.
Proof.
  change gap with ([cSP] ++ (cHASH :: bs " note" ++ [cCR]) ++ [cLF]). apply ig_app; [constructor; cbn; auto|]. apply ig_app.
  - apply ig_comment; [|cbn; auto]. repeat constructor; cbn; lia.
  - constructor; cbn; auto.
Qed.
Lemma case_boundary : boundary (bs "query a($x:[Int!]!){b(c:") (bs "-1.5,d:$x)}").
Proof.
  change (bs "query a($x:[Int!]!){b(c:") with (bs "query" ++ [cSP] ++ bs "a" ++ bs "(" ++ bs "$" ++ bs "x" ++ bs ":" ++ bs "[" ++ bs "Int" ++ bs "!" ++ bs "]" ++ bs "!" ++ bs ")" ++ bs "{" ++ bs "b" ++ bs "(" ++ bs "c" ++ bs ":" ++ []).
  repeat first
    [ apply bd_start
    | apply bd_gap; [constructor; cbn; now auto|]
    | apply bd_token; [apply tk_punct; cbn; now auto 20| |intros Q; try discriminate Q; repeat split; try discriminate; intros [R _]; discriminate R]
    | apply bd_token; [apply name_dec; reflexivity| |intros Q; discriminate Q] ].
Qed.
Example C07_insert_case : boundary (bs "query a($x:[Int!]!){b(c:") (bs "-1.5,d:$x)}") /\ ignored gap /\ skip_ign (bs "-1.5,d:$x)}") <> [] /\
  (exists s, parse_query (bs "query a($x:[Int!]!){b(c:" ++ gap ++ bs "-1.5,d:$x)}") None = Parsed s /\ p_errs s = []).
Proof.
  split; [apply case_boundary|]. split; [apply gap_ignored|]. split; [vm_compute; discriminate|]. eexists. split; vm_compute; reflexivity.
Qed.
(** The same tokens with no gap at all, and with a gap at every place that may have one. *)
Definition tight : bytes := bs "query a{b(c:-1){d ...on T{e}}}".
Definition loose : bytes := bs "query " ++ gap ++ bs "a { b ( " ++ gap ++ bs "c : -1 ) { d" ++ gap ++ bs "... on T { e } } } ".
Example C07_same_case : same tight loose.
Proof.
  assert (N : forall l l' c t r r', skip_ign l = (c :: t) ++ r -> skip_ign l' = (c :: t) ++ r' -> letterb c = true -> forallb ncharb t = true ->
    match r with [] => false | x :: _ => negb (ncharb x) end = true -> match r' with [] => false | x :: _ => negb (ncharb x) end = true -> same r r' -> same l l').
  { intros l l' c t r r' E E' L F Q Q' S. eapply same_token with (t := c :: t); eauto; try (apply name_dec; auto; destruct r, r'; auto; fail).
    constructor.
    - intros [X|X]; inversion X; subst; discriminate L.
    - intros X; inversion X; subst; discriminate L.
    - intros _. destruct r, r'; try discriminate; split; discriminate. }
  assert (P : forall l l' c r r', skip_ign l = c :: r -> skip_ign l' = c :: r' -> In c (bs "&(:={}|)[,") -> (c <> 125 -> r <> [] /\ r' <> []) -> same r r' -> same l l').
  { intros l l' c r r' E E' I X S. apply same_token with (t := [c]) (r := r) (r' := r'); auto; try (apply tk_punct; cbn in *; lia). constructor.
    - intros [Y|Y]; inversion Y; subst; cbn in I; lia.
    - intros Y; inversion Y; subst; cbn in I; lia.
    - intros Y. destruct X as [X1 X2]; [intros ->; apply Y; reflexivity|]. split; intros; contradiction. }
  unfold tight, loose.
  eapply N with (c := 113) (t := bs "uery"); [vm_compute; reflexivity..|].
  eapply N with (c := 97) (t := []); [vm_compute; reflexivity..|].
  eapply P with (c := cLBR); [vm_compute; reflexivity|vm_compute; reflexivity|cbn; tauto|split; discriminate|].
  eapply N with (c := 98) (t := []); [vm_compute; reflexivity..|].
  eapply P with (c := cLPAR); [vm_compute; reflexivity|vm_compute; reflexivity|cbn; tauto|split; discriminate|].
  eapply N with (c := 99) (t := []); [vm_compute; reflexivity..|].
  eapply P with (c := cCOLON); [vm_compute; reflexivity|vm_compute; reflexivity|cbn; tauto|split; discriminate|].
  eapply same_token with (t := bs "-1"); [vm_compute; reflexivity|vm_compute; reflexivity| | | |].
  1,2: apply tk_num; [unfold num_start; auto|constructor; [left; apply digitb_iff; reflexivity|constructor]|intros [z Q]; discriminate Q|apply num_stop_iff; reflexivity].
  { constructor; [intros [Q|Q]; discriminate Q|intros Q; discriminate Q|intros _; split; discriminate]. }
  eapply P with (c := cRPAR); [vm_compute; reflexivity|vm_compute; reflexivity|cbn; tauto|split; discriminate|].
  eapply P with (c := cLBR); [vm_compute; reflexivity|vm_compute; reflexivity|cbn; tauto|split; discriminate|].
  eapply N with (c := 100) (t := []); [vm_compute; reflexivity..|].
  eapply same_token with (t := bs "..."); [vm_compute; reflexivity|vm_compute; reflexivity|apply tk_dots|apply tk_dots| |].
  { constructor; [intros [Q|Q]; discriminate Q|intros Q; discriminate Q|intros _; split; discriminate]. }
  eapply N with (c := 111) (t := bs "n"); [vm_compute; reflexivity..|].
  eapply N with (c := 84) (t := []); [vm_compute; reflexivity..|].
  eapply P with (c := cLBR); [vm_compute; reflexivity|vm_compute; reflexivity|cbn; tauto|split; discriminate|].
  eapply N with (c := 101) (t := []); [vm_compute; reflexivity..|].
  eapply P with (c := cRBR); [vm_compute; reflexivity|vm_compute; reflexivity|cbn; tauto|split; discriminate|].
  eapply P with (c := cRBR); [vm_compute; reflexivity|vm_compute; reflexivity|cbn; tauto|split; discriminate|].
  eapply P with (c := cRBR); [vm_compute; reflexivity|vm_compute; reflexivity|cbn; tauto|intros Q; contradiction Q; reflexivity|].
  apply same_rest. vm_compute. reflexivity.
Qed.
Example C07_same_accepted : exists s, parse_query loose None = Parsed s /\ p_errs s = [].
Proof. eexists. split; vm_compute; reflexivity. Qed.

(** ** The places where the parser wants no gap *)
(** GraphQL allows ignored text between any two tokens; the parser refuses it behind $ and @, and
    between ] and ! of a list type, in texts it accepts without the gap. *)
Definition refused_gap (pre suf : bytes) : Prop :=
  exists s s', parse_query (pre ++ suf) None = Parsed s /\ parse_query (pre ++ [cSP] ++ suf) None = Parsed s' /\ p_errs s = [] /\ p_errs s' <> [].
Theorem C07_glued_tokens_refuted :
  refused_gap (bs "query($") (bs "a:T){b}") /\ refused_gap (bs "{b(c:$") (bs "a)}") /\ refused_gap (bs "{b@") (bs "d}") /\ refused_gap (bs "query($a:[T]") (bs "!){b}").
Proof.
  repeat split; eexists; eexists; (split; [vm_compute; reflexivity|]); (split; [vm_compute; reflexivity|]); split; vm_compute; [reflexivity|discriminate|reflexivity|discriminate|reflexivity|discriminate|reflexivity|discriminate].
Qed.
Print Assumptions C07_glued_tokens_refuted.
