(** * Properties C01-C04, C06-C09: the query parser

    [parse_query q target] is the model of ParseQueryToBytecode (ParserModel.v), [g_doc d q]
    says that the text [q] denotes the document [d] (Grammar.v), [enc_doc] is the bytecode of
    a document (Ast.v), [print_doc w d] writes a document with the gap text [w] between all
    tokens (Printer.v), [text_pos] is the place of the end of a text (TextPos.v). *)
From Coq Require Import String NArith Bool List Lia.
From Verif Require Import Base ParserModel Ast Grammar RefParser RefGrammar Printer PrinterProof TextPos ParserSafe ParserPos ParserFacts.
Import ListNotations.
Open Scope N_scope.

(** ** C01: parsing always returns *)
Theorem C01_parser_returns : forall q target, exists s, parse_query q target = Parsed s.
Proof. exact (fun q target => match parse_query_safe q target with ex_intro _ s H => ex_intro _ s (proj1 H) end). Qed.
Print Assumptions C01_parser_returns.
(* a truncated text with an open block string *)
Example C01_case : exists s, parse_query (bs "query q($a: [Int!]!=[1,{b:""""""x") (Some (bs "q")) = Parsed s /\ length (p_errs s) = 1%nat.
Proof. eexists. split; vm_compute; reflexivity. Qed.

(** ** C02: an accepted query is the encoding of the document it denotes *)
Theorem C02_accepted_query_denotes_its_bytecode : forall q target s,
  parse_query q target = Parsed s -> p_errs s = [] ->
  exists d, g_doc d q /\ p_res s = enc_doc d /\ p_frags s = frag_locs 0 d /\ p_tgt s = target_loc target 0 d None.
Proof. exact accepted_denotes. Qed.
Print Assumptions C02_accepted_query_denotes_its_bytecode.
(** no text denotes two documents *)
Theorem C02_document_is_unique : forall d1 d2 q, g_doc d1 q -> g_doc d2 q -> d1 = d2.
Proof. exact (fun d1 d2 q => g_doc_unique q d1 d2). Qed.
Print Assumptions C02_document_is_unique.
Definition sample_query : bytes :=
  bs "query q($v: [Int!] = [1, -2]) @d(if: true) { a: b @x @y(p: {k: $v}) (n: 1.5E3, s: ""t"") { c, ...f @z ... on T { e } } } fragment f on T { g }".
Definition sample_doc : document :=
  [DOp OpQuery (bs "q") (Some [OpArg (bs "v") (TyList (TyName (bs "Int") true) false) (Some (VList [VInt (bs "1"); VInt (bs "-2")]))])
     [Dir (bs "d") (Some [(bs "if", VBool true)])]
     [SField (Some (bs "a")) (bs "b") [Dir (bs "x") None; Dir (bs "y") (Some [(bs "p", VObj [(bs "k", VVar (bs "v"))])])]
        (Some [(bs "n", VFloat (bs "1.5E3")); (bs "s", VStr (bs "t"))])
        [SField None (bs "c") [] None []; SSpread (bs "f") [Dir (bs "z") None];
         SInline (bs "T") [] [SField None (bs "e") [] None []]]];
   DFrag (bs "f") (bs "T") [SField None (bs "g") [] None []]].
Example C02_case : exists s, parse_query sample_query None = Parsed s /\ p_errs s = [] /\ p_res s = enc_doc sample_doc.
Proof. eexists. split; [|split]; vm_compute; reflexivity. Qed.

(** ** C03: every text of the grammar is accepted *)
Theorem C03_grammar_is_accepted : forall q target d, g_doc d q ->
  exists s, parse_query q target = Parsed s /\ p_errs s = [] /\ p_res s = enc_doc d /\ p_frags s = frag_locs 0 d /\
            p_tgt s = target_loc target 0 d None.
Proof. exact denotes_accepted. Qed.
Print Assumptions C03_grammar_is_accepted.
(** ... and nothing else *)
Theorem C03_rest_is_rejected : forall q target, (~ exists d, g_doc d q) ->
  exists s, parse_query q target = Parsed s /\ p_errs s <> [].
Proof. exact rejected. Qed.
Print Assumptions C03_rest_is_rejected.
Example C03_case : g_doc sample_doc sample_query.
Proof. apply ref_parse_spec. vm_compute. reflexivity. Qed.
Example C03_case_rejected : ~ exists d, g_doc d (bs "{a(}").
Proof. intros [d H]. apply ref_parse_spec in H. vm_compute in H. discriminate. Qed.

(** ** C04: print then parse *)
Theorem C04_print_then_parse : forall w d target, ignored w -> legal_doc d ->
  exists s, parse_query (print_doc w d) target = Parsed s /\ p_errs s = [] /\ p_res s = enc_doc d /\ p_frags s = frag_locs 0 d /\
            p_tgt s = target_loc target 0 d None.
Proof. exact print_parse. Qed.
Print Assumptions C04_print_then_parse.
Lemma valid_name_dec : forall n, match n with
    | [] => false
    | c :: r => name_start c && forallb name_char r && Nat.leb (length n) 254
    end = true -> valid_name n.
Proof.
  intros [|c r] H; [discriminate|]. apply andb_prop in H as [H H3]. apply andb_prop in H as [H1 H2].
  constructor.
  - unfold name_start in H1. unfold is_letter. lia.
  - apply Forall_forall. intros x I. eapply forallb_forall in H2; eauto. unfold name_char, name_start, digit in H2. unfold is_name_char, is_letter, is_digit. lia.
  - now apply PeanoNat.Nat.leb_le.
Qed.
Lemma digits_dec : forall l, forallb digit l = true -> Forall is_digit l.
Proof. intros l H. apply Forall_forall. intros x I. eapply forallb_forall in H; eauto. unfold digit in H. unfold is_digit. lia. Qed.
Example C04_case : legal_doc sample_doc /\ ignored (bs " # gap" ++ [cCR; cLF]).
Proof.
  split.
  - repeat match goal with
    | |- legal_doc _ => unfold legal_doc
    | |- Forall _ _ => constructor
    | |- legal_def _ => cbn [legal_def]
    | |- legal_oparg _ => unfold legal_oparg; cbn
    | |- legal_sel _ => cbn [legal_sel]
    | |- legal_dirs _ => split
    | |- legal_dir _ => split
    | |- legal_opt_args _ => cbn
    | |- legal_args _ => cbn
    | |- legal_value _ => cbn
    | |- _ /\ _ => split
    | |- valid_name _ => apply valid_name_dec; vm_compute; reflexivity
    | |- valid_name _ \/ _ => left
    | |- (_ <= _)%nat => vm_compute; lia
    | |- True => exact I
    | |- _ <> None -> _ => intros _; cbn
    | |- _ <> _ => discriminate
    | |- int_lit (bs "1") => exists [], (bs "1")
    | |- int_lit (bs "-2") => exists [cMINUS], (bs "2")
    end.
    all: try (repeat split; auto; try discriminate; try (apply digits_dec; reflexivity); fail).
    + right. apply valid_name_dec. reflexivity.
    + exists [], [49]. repeat split; auto; try discriminate. apply digits_dec; reflexivity.
    + exists [cMINUS], [50]. repeat split; auto; try discriminate. apply digits_dec; reflexivity.
    + exists (bs "1"). split.
      * exists [], (bs "1"). repeat split; auto; try discriminate. apply digits_dec; reflexivity.
      * right. exists (bs "5"), (bs "E3"). repeat split.
        { apply digits_dec; reflexivity. }
        right. exists (bs "3"). split; auto. exists [], (bs "3"). repeat split; auto; try discriminate. apply digits_dec; reflexivity.
  - change (bs " # gap" ++ [cCR; cLF]) with ([cSP] ++ (cHASH :: bs " gap" ++ [cCR]) ++ [cLF]).
    apply ig_app; [constructor; cbn; auto|]. apply ig_app.
    + apply ig_comment; [|cbn; auto]. repeat constructor; cbn; lia.
    + constructor; cbn; auto.
Qed.

(** ** C06: error locations *)
Theorem C06_error_locations : forall q target s e, parse_query q target = Parsed s -> In e (p_errs s) ->
  exists before, (exists after, q = before ++ after) /\ text_pos before (e_line e) (e_col e).
Proof. exact error_places. Qed.
Print Assumptions C06_error_locations.
(** The parse ends at the place of the last error, or has read the whole text. *)
Theorem C06_last_error_is_where_parsing_stopped : forall q target s, parse_query q target = Parsed s ->
  (exists e es, p_errs s = es ++ [e] /\ text_pos (firstn (p_pos s) q) (e_line e) (e_col e)) \/ (length q <= p_pos s)%nat.
Proof. exact stop_place. Qed.
Print Assumptions C06_last_error_is_where_parsing_stopped.
(** the place of the end of a text is unique *)
Theorem C06_place_is_unique : forall l line col, text_pos l line col ->
  forall line' col', text_pos l line' col' -> line = line' /\ col = col'.
Proof. exact text_pos_fun. Qed.
Print Assumptions C06_place_is_unique.
Example C06_case : exists s, parse_query (bs "{" ++ [cCR; cLF; cCR; cLF] ++ bs "a" ++ [cCR] ++ bs "  %}") None = Parsed s /\
  map (fun e => (e_line e, e_col e)) (p_errs s) = [(4, 2)].
Proof. eexists. split; vm_compute; reflexivity. Qed.

(** ** C07: ignored tokens *)
(** For all documents written with the same gap at all places, the gap does not matter; gaps that
    differ from place to place, empty gaps and rejected texts are in PropGap.v. *)
Theorem C07_gap_text_is_irrelevant : forall w w' d target, ignored w -> ignored w' -> legal_doc d ->
  exists s s', parse_query (print_doc w d) target = Parsed s /\ parse_query (print_doc w' d) target = Parsed s' /\
    p_errs s = [] /\ p_errs s' = [] /\ p_res s = p_res s' /\ p_frags s = p_frags s' /\ p_tgt s = p_tgt s'.
Proof.
  intros w w' d target W W' L. destruct (print_parse w d target W L) as (s & A & B & C & D & E).
  destruct (print_parse w' d target W' L) as (s' & A' & B' & C' & D' & E'). exists s, s'.
  rewrite C, D, E, C', D', E'. auto 10.
Qed.
Print Assumptions C07_gap_text_is_irrelevant.

(** ** C08: the selected operation (the part of the parser) *)
Theorem C08_parser_selects_the_operation : forall q target d s, g_doc d q -> parse_query q target = Parsed s ->
  match p_tgt s with
  | Some n => last_selected target d n
  | None => Forall (fun y => ~ selected target y) d
  end.
Proof. exact target_chosen. Qed.
Print Assumptions C08_parser_selects_the_operation.
Example C08_case : exists s, parse_query (bs "query a{x} fragment f on T{y} query b{z} mutation a{w} {v}") (Some (bs "a")) = Parsed s /\
  p_tgt s = Some (length (enc_doc [DOp OpQuery (bs "a") None [] [SField None (bs "x") [] None []]; DFrag (bs "f") (bs "T") [SField None (bs "y") [] None []];
                                   DOp OpQuery (bs "b") None [] [SField None (bs "z") [] None []]])).
Proof. eexists. split; vm_compute; reflexivity. Qed.

(** ** C09: arguments followed by directives *)
(** The claim is false: such a field is a syntax error. *)
Definition spec_field (w n : bytes) (fs : list (bytes * value)) (ds : list directive) : bytes :=
  cLBR :: w ++ n ++ w ++ p_opt_args w (Some fs) ++ p_dirs w ds ++ [cRBR].
Theorem C09_args_then_directives_refuted : exists w n fs ds s, ignored w /\ valid_name n /\ legal_args fs /\ legal_dirs ds /\
  parse_query (spec_field w n fs ds) None = Parsed s /\ p_errs s <> [].
Proof.
  exists [cSP], (bs "a"), [(bs "b", VBool true)], [Dir (bs "skip") (Some [(bs "if", VBool true)])]. eexists.
  split; [|split; [|split; [|split; [|split]]]].
  - constructor. cbn. auto.
  - apply valid_name_dec. reflexivity.
  - split; [apply valid_name_dec; reflexivity|]. cbn. auto.
  - split; [|cbn; lia]. constructor; [|constructor]. split; [apply valid_name_dec; reflexivity|]. split; [apply valid_name_dec; reflexivity|]. cbn. auto.
  - vm_compute. reflexivity.
  - vm_compute. discriminate.
Qed.
Print Assumptions C09_args_then_directives_refuted.
(** Moreover a field with arguments whose last directive has none cannot be written at all. *)
Theorem C09_arguments_need_a_closed_directive : forall al n ds fs ss l r,
  g_sel (SField al n ds (Some fs) ss) l r -> closed_dirs ds.
Proof. exact args_need_closed. Qed.
Print Assumptions C09_arguments_need_a_closed_directive.
Example C09_case : exists s, parse_query (bs "{ a @d(x: 1) (b: 2) }") None = Parsed s /\ p_errs s = [].
Proof. eexists. split; vm_compute; reflexivity. Qed.
