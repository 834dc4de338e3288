(** * What a test of the parser tells *)
From Coq Require Import String NArith ZArith Bool List Lia.
From Verif Require Import Base Ast Grammar RefGrammar RefParser ParserModel PropParser CodeUnique PropCode TestModel TestProof.
Import ListNotations.
Open Scope N_scope.

(** ** C61: a test passes exactly for the texts that denote the described document *)
(** The expected bytes are the bytecode of the described document [doc_of]; no field may have both arguments and
    a selection ([doc_apart]), and the document has to be one that can be written down. *)
Theorem C61_expected : forall t d q, doc_of t = Some d -> doc_apart t = true -> g_doc d q -> tdoc_bytes t = enc_doc d.
Proof. intros t d q D A G. apply doc_bytes; auto. eapply small_doc_ok; eauto. Qed.
Print Assumptions C61_expected.
Theorem C61_passes : forall t d q q0, doc_of t = Some d -> doc_apart t = true -> g_doc d q0 -> nlen (tdoc_bytes t) < 4294967296 ->
  (test_passes q (tdoc_bytes t) = true <-> g_doc d q).
Proof.
  intros t d q q0 D A G0 L. rewrite (C61_expected t d q0 D A G0) in *. unfold test_passes. split; intro H.
  - destruct (parse_query q None) as [s| |] eqn:P; try discriminate. destruct (p_errs s) as [|e es] eqn:E; [|discriminate]. destruct (bytes_eq_dec (enc_doc d) (p_res s)) as [Q|]; [|discriminate].
    destruct (C02_accepted_query_denotes_its_bytecode q None s P E) as (d' & G' & R & _). now rewrite (C60_document d d' q0 q G0 G' L ltac:(congruence)).
  - destruct (C03_grammar_is_accepted q None d H) as (s & P & E & R & _). rewrite P, E, R. now destruct (bytes_eq_dec (enc_doc d) (enc_doc d)).
Qed.
Print Assumptions C61_passes.
(* all that a description can say, with a text *)
Definition tv0 (k : N) : tval := TVal k [] 0 [] [] false [] [] [].
Definition sample_test : list tdef :=
  [TOp 0 (bs "q") [TOpArg (bs "v") (bs "lNInt") (Some (TVal 108 [TVal 105 [] 1 [] [] false [] [] []; TVal 105 [] (-2) [] [] false [] [] []] 0 [] [] false [] [] []))]
     [TDir (bs "d") (Some [(bs "if", TVal 98 [] 0 [] [] true [] [] [])])]
     [TField (bs "b") (Some [TField (bs "c") None false [] [] None; TField (bs "f") None true [TDir (bs "z") None] [] None;
                             TField (bs "T") (Some [TField (bs "e") None false [] [] (Some [(bs "n", TVal 102 [] 0 (bs "1.5E3") [] false [] [] []); (bs "m", tv0 110); (bs "s", TVal 115 [] 0 [] (bs "t") false [] [] []); (bs "u", TVal 101 [] 0 [] [] false [] [] (bs "U"))])]) true [] [] None])
       false [TDir (bs "x") None; TDir (bs "y") (Some [(bs "p", TVal 111 [] 0 [] [] false [(bs "k", TVal 36 [] 0 [] [] false [] (bs "v") [])] [] [])])] (bs "a") None];
   TFrag (bs "f") (bs "T") [TField (bs "g") None false [] [] None]].
Definition sample_text : bytes :=
  bs "query q($v: [Int!] = [1, -2]) @d(if: true) { a: b @x @y(p: {k: $v}) { c, ...f @z ... on T { e(n: 1.5E3, m: null, s: ""t"", u: U) } } } fragment f on T { g }".
Example C61_case : doc_apart sample_test = true /\ nlen (tdoc_bytes sample_test) < 4294967296 /\ exists d, doc_of sample_test = Some d /\ g_doc d sample_text.
Proof. split; [vm_compute; reflexivity|]. split; [vm_compute; reflexivity|]. eexists. split; [vm_compute; reflexivity|]. apply ref_parse_spec. vm_compute. reflexivity. Qed.
(* a test with another text does not pass *)
Example C61_case_fails : test_passes (bs "{a(b:c)}") (tdoc_bytes [TOp 0 [] [] [] [TField (bs "a") None false [] [] (Some [(bs "b", TVal 115 [] 0 [] (bs "c") false [] [] [])])]]) = false /\
  test_passes (bs "{a(b:""c"")}") (tdoc_bytes [TOp 0 [] [] [] [TField (bs "a") None false [] [] (Some [(bs "b", TVal 115 [] 0 [] (bs "c") false [] [] [])])]]) = true.
Proof. split; vm_compute; reflexivity. Qed.
(** For a field with arguments and a selection it is false: the encoder of the tests writes the selection first
    (testing_framework.go 271-279), the parser the arguments (bytecode.go 592-623). *)
Theorem C61_both_refuted : exists t d q, doc_of t = Some d /\ g_doc d q /\ nlen (tdoc_bytes t) < 4294967296 /\ test_passes q (tdoc_bytes t) = false.
Proof.
  exists [TOp 0 [] [] [] [TField (bs "a") (Some [TField (bs "c") None false [] [] None]) false [] [] (Some [(bs "b", tv0 110)])]]. eexists. exists (bs "{a(b:null){c}}").
  split; [vm_compute; reflexivity|]. split; [apply ref_parse_spec; vm_compute; reflexivity|]. split; vm_compute; reflexivity.
Qed.
Print Assumptions C61_both_refuted.
(** Nor can every document be described: one with an empty list of variables cannot, though the parser accepts it. *)
Theorem C61_undescribed_refuted : exists d q, g_doc d q /\ forall t, doc_of t <> Some d.
Proof.
  exists [DOp OpQuery (bs "q") (Some []) [] [SField None (bs "a") [] None []]], (bs "query q(){a}"). split; [apply ref_parse_spec; vm_compute; reflexivity|].
  intros [|x [|y t]] H; unfold doc_of in H; cbn [all_some] in H; try discriminate.
  - destruct x as [k n a ds fs|n o fs]; cbn [def_of] in H; [|destruct (all_some sel_of fs); discriminate]. destruct (kind_of k), (all_some oparg_of a) as [[|? ?]|], (all_some dir_of ds), (all_some sel_of fs); discriminate.
  - destruct (def_of x), (def_of y), (all_some def_of t); discriminate.
Qed.
Print Assumptions C61_undescribed_refuted.
