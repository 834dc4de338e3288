(** * The bytecode of a query says what the query was *)
From Coq Require Import String NArith Bool List Lia.
From Verif Require Import Base Ast Grammar RefGrammar RefParser ParserModel PropParser CodeUnique.
Import ListNotations.
Open Scope N_scope.

(** ** C60: no two documents have one bytecode *)
(** Lengths are kept in four bytes, so the bytecode has to be shorter than 4 GiB. *)
Theorem C60_document : forall d1 d2 q1 q2, g_doc d1 q1 -> g_doc d2 q2 -> nlen (enc_doc d1) < 4294967296 -> enc_doc d1 = enc_doc d2 -> d1 = d2.
Proof. intros d1 d2 q1 q2 G1 G2 L E. eapply doc_inj; eauto; eapply plain_doc_ok; eauto. Qed.
Print Assumptions C60_document.
(** Two accepted texts are compiled to the same bytes exactly if they denote one document. *)
Theorem C60_texts : forall q1 q2 t1 t2 s1 s2, parse_query q1 t1 = Parsed s1 -> parse_query q2 t2 = Parsed s2 -> p_errs s1 = [] -> p_errs s2 = [] ->
  nlen (p_res s1) < 4294967296 ->
  (p_res s1 = p_res s2 <-> exists d, g_doc d q1 /\ g_doc d q2).
Proof.
  intros q1 q2 t1 t2 s1 s2 P1 P2 N1 N2 L.
  destruct (C02_accepted_query_denotes_its_bytecode q1 t1 s1 P1 N1) as (d1 & G1 & R1 & _), (C02_accepted_query_denotes_its_bytecode q2 t2 s2 P2 N2) as (d2 & G2 & R2 & _). rewrite R1 in L. split.
  - rewrite R1, R2. intro H. exists d1. split; [exact G1|]. now rewrite (C60_document d1 d2 q1 q2 G1 G2 L H).
  - intros (d & H1 & H2). rewrite R1, R2, (C02_document_is_unique _ _ _ G1 H1), (C02_document_is_unique _ _ _ G2 H2). reflexivity.
Qed.
Print Assumptions C60_texts.
(** Then also the places of the fragments agree, and of the operation, if the same one is asked for. *)
Theorem C60_places : forall q1 q2 t s1 s2, parse_query q1 t = Parsed s1 -> parse_query q2 t = Parsed s2 -> p_errs s1 = [] -> p_errs s2 = [] ->
  nlen (p_res s1) < 4294967296 -> p_res s1 = p_res s2 -> p_frags s1 = p_frags s2 /\ p_tgt s1 = p_tgt s2.
Proof.
  intros q1 q2 t s1 s2 P1 P2 N1 N2 L H. destruct (proj1 (C60_texts q1 q2 t t s1 s2 P1 P2 N1 N2 L) H) as (d & G1 & G2).
  destruct (C03_grammar_is_accepted q1 t d G1) as (s1' & Q1 & _ & _ & F1 & T1), (C03_grammar_is_accepted q2 t d G2) as (s2' & Q2 & _ & _ & F2 & T2). split; congruence.
Qed.
Print Assumptions C60_places.
(* one document, written in two ways *)
Definition same_query : bytes :=
  bs "query q ( $v : [ Int ! ] = [ 1 -2 ] ) @d ( if : true ) { a : b @x @y ( p : { k : $v } ) ( n : 1.5E3 s : ""t"" ) { c ... f @z ... on T { e } } } fragment f on T { g }".
Example C60_case : same_query <> sample_query /\ exists s1 s2, parse_query same_query None = Parsed s1 /\ parse_query sample_query None = Parsed s2 /\ p_errs s1 = [] /\ p_errs s2 = [] /\
  nlen (p_res s1) < 4294967296 /\ p_res s1 = p_res s2.
Proof. split; [vm_compute; discriminate|]. eexists. eexists. split; [vm_compute; reflexivity|]. split; [vm_compute; reflexivity|]. split; [|split; [|split]]; vm_compute; reflexivity. Qed.
(* two that look alike: an enum value, a string with the same letters *)
Example C60_case_apart : exists s1 s2, parse_query (bs "{a(b:c)}") None = Parsed s1 /\ parse_query (bs "{a(b:""c"")}") None = Parsed s2 /\ p_errs s1 = [] /\ p_errs s2 = [] /\
  nlen (p_res s1) < 4294967296 /\ length (p_res s1) = length (p_res s2) /\ p_res s1 <> p_res s2.
Proof. eexists. eexists. split; [vm_compute; reflexivity|]. split; [vm_compute; reflexivity|]. split; [|split; [|split; [|split]]]; try (vm_compute; reflexivity). vm_compute. discriminate. Qed.
