(** * Properties of the query cache (C11, C12, C13) *)
From Coq Require Import String Arith NArith Bool Lia List.
From Verif Require Import Base ParserModel CacheModel CacheProof.
Import ListNotations.
Local Open Scope nat_scope.

(** ** C11: parsing with the cache is parsing without it, except for the fragment table *)
(** [uncached c] is the parse of the query of [c] with its target without any cache. *)
Theorem C11_code_target_errors_are_transparent : forall grow cs,
  exists os p, history grow new_pctx cs = Some (os, p) /\
    Forall2 (fun c o => exists u, uncached c = Some u /\
      o_code o = o_code u /\ o_tidx o = o_tidx u /\ o_errs o = o_errs u /\
      length (o_frags o) = length (o_frags u)) cs os.
Proof.
  intros grow cs. destruct (history_ok grow cs _ new_pctx_good) as (os & p & E & _ & F & _). eauto.
Qed.
Print Assumptions C11_code_target_errors_are_transparent.

(** queries without fragment definitions get the complete uncached result, whatever queries came before *)
Theorem C11_transparent_without_fragments : forall grow cs c os p,
  no_fragments c ->
  history grow new_pctx (cs ++ [c]) = Some (os, p) ->
  exists os1 u, os = os1 ++ [u] /\ uncached c = Some u.
Proof.
  intros grow cs c os p Hn E.
  destruct (history_ok grow cs _ new_pctx_good) as (os1 & p1 & E1 & G & _ & _).
  rewrite (history_app grow _ [c] _ _ _ E1) in E. cbn [history] in E.
  destruct (parse_cached_ok grow p1 c G) as (o & p2 & u & E2 & U & _ & A1 & A2 & A3 & A4 & _).
  rewrite E2 in E. injection E as <- <-. exists os1, o. split; auto. rewrite U. f_equal.
  rewrite (Hn _ U) in A4. pose proof (Hn _ U) as Hu.
  destruct o as [oc fr ti er], u as [oc' fr' ti' er']; cbn in *. subst. destruct fr; auto. discriminate.
Qed.
Print Assumptions C11_transparent_without_fragments.

(** a query that is too short for the cache, or that is not in it, also gets the uncached result *)
Theorem C11_transparent_on_miss : forall grow cs c os1 p1 os p,
  history grow new_pctx cs = Some (os1, p1) ->
  length (c_query c) <= c_min c \/
  (forall k l e, In (k, l) (pc_cache p1) -> In e l -> (en_query e, en_target e) <> (c_query c, c_target c)) ->
  history grow new_pctx (cs ++ [c]) = Some (os, p) ->
  exists u, os = os1 ++ [u] /\ uncached c = Some u.
Proof.
  intros grow cs c os1 p1 os p E1 H E.
  destruct (history_ok grow cs _ new_pctx_good) as (os1' & p1' & E1' & G & _ & _).
  rewrite E1 in E1'. injection E1' as <- <-.
  rewrite (history_app grow _ [c] _ _ _ E1) in E. cbn [history] in E.
  destruct (parse_cached_ok grow p1 c G) as (o & p2 & u & E2 & U & _ & _ & _ & _ & _ & A & _).
  rewrite E2 in E. injection E as <- <-. exists o. split; auto. rewrite U. f_equal. symmetry. apply A.
  destruct H as [H|H]; [left; lia|right].
  destruct (get_entry (pc_cache p1) (c_query c) (c_target c)) as [e|] eqn:Ge; auto. exfalso.
  unfold get_entry in Ge. destruct (bucket (pc_cache p1) (length (c_query c))) as [l|] eqn:B; [|discriminate].
  apply bucket_in in B. apply find_some in Ge. destruct Ge as [I X]. apply andb_prop in X. destruct X as [X Y].
  apply beqb_eq in X. apply target_eqb_spec in Y. apply (H _ _ _ B I). congruence.
Qed.
Print Assumptions C11_transparent_on_miss.

(** the full claim is false: the fragment table of a cached query is overwritten by the next query *)
Definition spaces := repeat 32%N 300.
Definition query_a := spaces ++ bs "{...x} fragment x on A{a}".
Definition query_b := spaces ++ bs "{a b c ...x} fragment x on A{a}".
Definition call_a := Call query_a None 300 [].
Definition call_b := Call query_b None 300 [].
Theorem C11_fragment_table_refuted : forall grow,
  exists cs os o p u, history grow new_pctx cs = Some (os ++ [o], p) /\ good_history grow new_pctx cs /\
    uncached (last cs call_a) = Some u /\ o_errs u = [] /\ o_frags o <> o_frags u.
Proof.
  intros grow. exists [call_a; call_b; call_a].
  destruct (history grow new_pctx [call_a; call_b; call_a]) as [[os p]|] eqn:E.
  2: { vm_compute in E. discriminate. }
  destruct os as [|o1 [|o2 [|o3 [|? ?]]]]; try (exfalso; vm_compute in E; discriminate).
  exists [o1; o2], o3, p. destruct (uncached call_a) as [u|] eqn:U; [|vm_compute in U; discriminate].
  exists u. split; [reflexivity|]. split; [vm_compute; repeat split; discriminate|].
  split; [exact U|]. split.
  - vm_compute in U. injection U as <-. reflexivity.
  - vm_compute in E. injection E as _ _ <- _. vm_compute in U. injection U as <-. discriminate.
Qed.
Print Assumptions C11_fragment_table_refuted.

(** a history with a hit in the cache: the third outcome comes from the cache *)
Definition query_c := spaces ++ bs "{a(b: 1) {c}}".
Example C11_case : exists os p,
  history (fun n => 2 * n) new_pctx [Call query_c None 300 []; call_a; Call query_c None 300 []] = Some (os, p) /\
  nth_error os 0 = nth_error os 2 /\ no_fragments (Call query_c None 300 []) /\
  length (pc_cache p) = 2 /\ map (fun o => length (o_errs o)) os = [0; 0; 0] /\ length query_c = 313.
Proof.
  destruct (history (fun n => 2 * n) new_pctx [Call query_c None 300 []; call_a; Call query_c None 300 []]) as [[os p]|] eqn:E.
  2: { vm_compute in E. discriminate. }
  exists os, p. split; [reflexivity|]. vm_compute in E. injection E as <- <-.
  split; [reflexivity|]. split; [intros o U; vm_compute in U; injection U as <-; reflexivity|].
  split; [reflexivity|]. split; reflexivity.
Qed.

(** ** C12: the cache is bounded *)
Theorem C12_cache_is_bounded : forall grow cs os p,
  good_history grow new_pctx cs ->
  history grow new_pctx cs = Some (os, p) ->
  length (pc_cache p) <= 100 /\ (forall k l, In (k, l) (pc_cache p) -> length l <= 20).
Proof.
  intros grow cs os p G E. destruct (history_ok grow cs _ new_pctx_good) as (os' & p' & E' & _ & _ & B).
  rewrite E in E'. injection E' as <- <-. apply B; auto. split; [simpl; lia|]. intros k l [].
Qed.
Print Assumptions C12_cache_is_bounded.

(** 120 queries of different lengths and 30 of the same length: both limits are reached *)
Definition many_lengths : list call :=
  map (fun n => Call (repeat 32%N n ++ bs "{a}") None 0 [n - 7; n - 9; n - 20; n - 30; n - 40]) (seq 0 104).
Definition one_length : list call :=
  map (fun n => Call ([123; 65 + N.of_nat n; 125]%N) None 0 []) (seq 0 25).
Example C12_case : 
  (exists os p, history (fun n => n) new_pctx many_lengths = Some (os, p) /\ length (pc_cache p) = 99) /\
  (exists os p, history (fun n => n) new_pctx one_length = Some (os, p) /\ map (fun x => length (snd x)) (pc_cache p) = [20]) /\
  good_history (fun n => n) new_pctx one_length /\ good_history (fun n => n) new_pctx many_lengths.
Proof.
  split; [|split; [|split]].
  - destruct (history (fun n => n) new_pctx many_lengths) as [[os p]|] eqn:E.
    2: { vm_compute in E. discriminate. }
    exists os, p. split; auto. vm_compute in E. injection E as <- <-. reflexivity.
  - destruct (history (fun n => n) new_pctx one_length) as [[os p]|] eqn:E.
    2: { vm_compute in E. discriminate. }
    exists os, p. split; auto. vm_compute in E. injection E as <- <-. reflexivity.
  - apply good_historyb_ok. vm_compute. reflexivity.
  - apply good_historyb_ok. vm_compute. reflexivity.
Qed.

(** ** C13: only error free parses are cached, errors are reported each time *)
Theorem C13_cached_entries_are_error_free : forall grow cs os p k l e,
  history grow new_pctx cs = Some (os, p) -> In (k, l) (pc_cache p) -> In e l ->
  length (en_query e) = k /\
  exists u, uncached (Call (en_query e) (en_target e) 0 []) = Some u /\ o_errs u = [] /\
    en_code e = o_code u /\ en_tidx e = o_tidx u.
Proof.
  intros grow cs os p k l e E I1 I2. destruct (history_ok grow cs _ new_pctx_good) as (os' & p' & E' & [_ G] & _ & _).
  rewrite E in E'. injection E' as <- <-. destruct (G _ _ _ I1 I2) as (L & _ & s & P & A & B & C & D).
  split; auto. unfold uncached. cbn [c_query c_target]. rewrite P. eexists; split; [reflexivity|]. auto.
Qed.
Print Assumptions C13_cached_entries_are_error_free.

Theorem C13_rejected_each_time : forall grow cs c os o p u,
  uncached c = Some u -> o_errs u <> [] ->
  history grow new_pctx (cs ++ [c]) = Some (os ++ [o], p) ->
  o = u.
Proof.
  intros grow cs c os o p u U Hu E.
  destruct (history_ok grow cs _ new_pctx_good) as (os1 & p1 & E1 & G & _ & _).
  rewrite (history_app grow _ [c] _ _ _ E1) in E. cbn [history] in E.
  destruct (parse_cached_ok grow p1 c G) as (o' & p2 & u' & E2 & U' & G2 & _ & _ & _ & _ & A & _).
  rewrite E2 in E. injection E as E _. apply app_inj_tail in E. destruct E as [_ <-].
  rewrite U in U'. injection U' as <-. apply A. right.
  destruct (get_entry (pc_cache p1) (c_query c) (c_target c)) as [e|] eqn:Ge; auto. exfalso. apply Hu.
  destruct G as [_ G]. destruct (get_entry_good _ _ _ _ _ G Ge) as (Q & T & _ & s & P & Z & _).
  unfold uncached in U. rewrite <- Q, <- T, P in U. injection U as <-. exact Z.
Qed.
Print Assumptions C13_rejected_each_time.

Definition bad_call := Call (spaces ++ bs "{a(b: ]) }") None 300 [].
Example C13_case : exists os o p u,
  history (fun n => n) new_pctx ([call_a; bad_call] ++ [bad_call]) = Some (os ++ [o], p) /\
  uncached bad_call = Some u /\ o_errs u <> [] /\ length (o_errs o) = length (o_errs u) /\ length (pc_cache p) = 1.
Proof.
  destruct (history (fun n => n) new_pctx ([call_a; bad_call] ++ [bad_call])) as [[os p]|] eqn:E.
  2: { vm_compute in E. discriminate. }
  destruct os as [|o1 [|o2 [|o3 [|? ?]]]]; try (exfalso; vm_compute in E; discriminate).
  exists [o1; o2], o3, p. destruct (uncached bad_call) as [u|] eqn:U; [|vm_compute in U; discriminate].
  exists u. split; [reflexivity|]. split; [reflexivity|]. vm_compute in U. injection U as <-.
  vm_compute in E. injection E as <- <- <- <-. split; [discriminate|]. split; reflexivity.
Qed.
