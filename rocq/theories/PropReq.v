(** * Properties of request handling (C38, C39) *)
From Coq Require Import String NArith ZArith Bool Lia ZifyBool ZifyN ZifyNat List.
From Verif Require Import Base Json JsonModel JsonProof ReqModel.
Import ListNotations.
Open Scope N_scope.

Section Spec.
Variables W E : Type.
Variable new_error : bytes -> E.
Variable parse : bytes -> option fj.
Variable print : fj -> bytes.
Variable resolve : W -> single -> W * (bytes * list E).
Notation handle := (handle_request new_error parse print resolve).

(** the requests of a list handled one after the other *)
Fixpoint one_by_one (w : W) (rs : list request) : W * list (bytes * list E) :=
  match rs with
  | [] => (w, [])
  | r :: rs => let '(w, a) := handle w r in let '(w, l) := one_by_one w rs in (w, a :: l)
  end.
(** texts separated by commas *)
Fixpoint commas (l : list bytes) : bytes :=
  match l with [] => [] | [x] => x | x :: r => x ++ [44] ++ commas r end.
(** a request with a JSON body *)
Definition json_request (body : bytes) : request := Request (bs "POST") (fun _ => []) (fun _ => inr []) body (bs "application/json").

Lemma json_from_body : forall b, from_body (json_request b) = true.
Proof. reflexivity. Qed.
Lemma handle_json : forall w b v, b <> [] -> parse b = Some v -> (forall l, v <> FArray l) ->
  handle w (json_request b) = match get_body_data print v with
                              | inr e => (w, (err_response e, [new_error e]))
                              | inl q => resolve w q
                              end.
Proof.
  intros w b v B P A. unfold handle_request. rewrite json_from_body. cbn [rq_ctype rq_body json_request].
  replace (beqb (bs "application/json") (bs "multipart/form-data")) with false by reflexivity.
  destruct b as [|c b]; [contradiction|]. rewrite P. destruct v; try reflexivity. exfalso. eapply A. reflexivity.
Qed.

Lemma err_response_long : forall e, err_response e <> [].
Proof. discriminate. Qed.
Lemma batch_loop_ok : forall items bodies w acc errs w' out,
  Forall2 (fun v b => b <> [] /\ parse b = Some v /\ forall l, v <> FArray l) items bodies ->
  (forall w q, fst (snd (resolve w q)) <> []) ->
  acc <> [] ->
  one_by_one w (map json_request bodies) = (w', out) ->
  batch_loop new_error print resolve w items acc errs =
    (w', ((acc ++ match out with [] => [] | _ => (if 1 <? N.of_nat (length acc) then [44] else []) ++ commas (map fst out) end) ++ [93],
          errs ++ concat (map snd out))).
Proof.
  induction items as [|v items IH]; intros bodies w acc errs w' out F NE A O.
  - inversion F; subst. injection O as <- <-. cbn. now rewrite !app_nil_r.
  - inversion F as [|? b ? bodies' (B & P & NA) F']; subst. cbn [map one_by_one] in O.
    rewrite (handle_json w b v B P NA) in O. cbn [batch_loop].
    assert (Q : forall w1 res es, (exists rest, one_by_one w1 (map json_request bodies') = (w', rest) /\ out = (res, es) :: rest) -> res <> [] ->
      batch_loop new_error print resolve w1 items ((if 1 <? N.of_nat (length acc) then acc ++ [44] else acc) ++ res) (errs ++ es) =
      (w', ((acc ++ (if 1 <? N.of_nat (length acc) then [44] else []) ++ commas (map fst out)) ++ [93], errs ++ concat (map snd out)))).
    { intros w1 res es (rest & R & ->) NR.
      rewrite (IH bodies' w1 _ (errs ++ es) w' rest F' NE); auto.
      2:{ intros X. apply app_eq_nil in X. tauto. }
      f_equal. f_equal; [|cbn; now rewrite <- app_assoc].
      f_equal.
      assert (L : (1 <? N.of_nat (length ((if 1 <? N.of_nat (length acc) then acc ++ [44] else acc) ++ res))) = true).
      { assert (L1 : 1 <= N.of_nat (length (if 1 <? N.of_nat (length acc) then acc ++ [44] else acc))).
        { destruct acc; [contradiction|]. destruct (1 <? N.of_nat (length (n :: acc))); rewrite ?app_length; cbn [length]; lia. }
        rewrite app_length. destruct res; [contradiction|]. cbn [length]. lia. }
      rewrite L. destruct rest as [|y rest]; cbn [map fst commas].
      - rewrite app_nil_r. destruct (1 <? N.of_nat (length acc)); now rewrite <- ?app_assoc.
      - destruct (1 <? N.of_nat (length acc)); cbn [app]; rewrite <- ?app_assoc; reflexivity. }
    destruct (get_body_data print v) as [q|e].
    + pose proof (NE w q) as NQ. destruct (resolve w q) as [w1 [res es]].
      destruct (one_by_one w1 (map json_request bodies')) as [w2 l] eqn:O1. injection O as -> <-.
      rewrite (Q w1 res es); [reflexivity|eauto|exact NQ].
    + destruct (one_by_one w (map json_request bodies')) as [w2 l] eqn:O1. injection O as -> <-.
      rewrite (Q w (err_response e) [new_error e]); [reflexivity|eauto|apply err_response_long].
Qed.

(** ** C38: the response to a batch consists of the responses to its items, in order, each
    handled as a request of its own in the state the ones before left *)
Theorem C38_batch_is_one_by_one : forall w body items bodies w' out,
  body <> [] -> parse body = Some (FArray items) ->
  Forall2 (fun v b => b <> [] /\ parse b = Some v /\ forall l, v <> FArray l) items bodies ->
  (forall w q, fst (snd (resolve w q)) <> []) ->
  one_by_one w (map json_request bodies) = (w', out) ->
  handle w (json_request body) = (w', ([91] ++ commas (map fst out) ++ [93], concat (map snd out))) /\
  length out = length items.
Proof.
  intros w body items bodies w' out B P F NE O. split.
  - unfold handle_request. rewrite json_from_body. cbn [rq_ctype rq_body json_request].
    replace (beqb (bs "application/json") (bs "multipart/form-data")) with false by reflexivity.
    destruct body as [|c b]; [contradiction|]. rewrite P.
    rewrite (batch_loop_ok items bodies w [91] [] w' out); auto; [|discriminate].
    f_equal. f_equal. destruct out; [reflexivity|]. cbn [length]. replace (1 <? N.of_nat 1) with false by reflexivity. reflexivity.
  - replace (length items) with (length bodies) by (clear -F; induction F; cbn; congruence). clear -O. revert w w' out O. induction bodies as [|b bodies IH]; intros w w' out O.
    + injection O as <- <-. reflexivity.
    + cbn [map one_by_one] in O. destruct (handle w (json_request b)) as [w1 a].
      destruct (one_by_one w1 (map json_request bodies)) as [w2 l] eqn:O1. injection O as _ <-. cbn. f_equal. eauto.
Qed.

(** an item that is itself a list is answered with an error *)
Theorem C38_nested_batch_is_an_error : forall w l acc errs,
  batch_loop new_error print resolve w [FArray l] acc errs =
  (w, ((if 1 <? N.of_nat (length acc) then acc ++ [44] else acc) ++ err_response (bs "body should be a object") ++ [93],
       errs ++ [new_error (bs "body should be a object")])).
Proof. intros. cbn [batch_loop get_body_data]. now rewrite <- app_assoc. Qed.

(** if no response depends on the state then each one is the response to the item on its own *)
Theorem C38_stateless_items_are_independent : forall w body items bodies,
  body <> [] -> parse body = Some (FArray items) ->
  Forall2 (fun v b => b <> [] /\ parse b = Some v /\ forall l, v <> FArray l) items bodies ->
  (forall w q, fst (snd (resolve w q)) <> []) ->
  (forall w w' q, snd (resolve w q) = snd (resolve w' q)) ->
  snd (handle w (json_request body)) =
    ([91] ++ commas (map (fun b => fst (snd (handle w (json_request b)))) bodies) ++ [93],
     concat (map (fun b => snd (snd (handle w (json_request b)))) bodies)).
Proof.
  intros w body items bodies B P F NE ST.
  destruct (one_by_one w (map json_request bodies)) as [w' out] eqn:O.
  destruct (C38_batch_is_one_by_one w body items bodies w' out B P F NE O) as [-> _]. cbn [snd].
  assert (S1 : out = map (fun b => snd (handle w (json_request b))) bodies).
  { clear -O F ST. revert items F. generalize w at 1. intros w0. revert w w' out O. induction bodies as [|b bodies IH]; intros w w' out O items F.
    - injection O as <- <-. reflexivity.
    - inversion F as [|v ? items' ? (Bb & Pb & NA) F']; subst. cbn [map one_by_one] in O.
      destruct (handle w (json_request b)) as [w1 a] eqn:H.
      destruct (one_by_one w1 (map json_request bodies)) as [w2 l] eqn:O1. injection O as _ <-. cbn [map]. f_equal; [|eapply IH; eauto].
      replace a with (snd (handle w (json_request b))) by now rewrite H.
      rewrite !(handle_json _ b v Bb Pb NA). destruct (get_body_data print v); [apply ST|reflexivity]. }
  rewrite S1, !map_map. reflexivity.
Qed.

(** ** the responses made here are JSON texts *)
Theorem C38_error_response_is_json : forall msg, exists l,
  codepoints msg l /\
  jtext (JObj [(bs "data", JObj []); (bs "errors", JArr [JObj [(bs "message", JStr l)]]); (bs "extensions", JObj [])]) (err_response msg).
Proof.
  intros msg. destruct (string_to_json_ok msg) as (l & C & J). exists l. split; auto.
  assert (A : forall k, Forall (fun c => 32 <= c < 128 /\ c <> 34 /\ c <> 92) k -> jstring k (34 :: k ++ [34])).
  { intros k F. exists k. split; auto. induction F as [|c k (H1 & H2 & H3) F IH]; [constructor|].
    replace (c :: k) with (utf8_encode c ++ k) at 2; [constructor; auto; unfold scalar; lia|].
    unfold utf8_encode. replace (c <=? 127) with true by lia. reflexivity. }
  assert (F : forall k, forallb (fun c => (32 <=? c) && (c <? 128) && negb (c =? 34) && negb (c =? 92)) k = true ->
     jstring k (34 :: k ++ [34])).
  { intros k H. apply A. apply Forall_forall. intros c I. rewrite forallb_forall in H. specialize (H c I). lia. }
  pose proof (F (bs "data") eq_refl) as D. pose proof (F (bs "errors") eq_refl) as Er.
  pose proof (F (bs "message") eq_refl) as M. pose proof (F (bs "extensions") eq_refl) as X. clear A F.
  assert (O : jtext (JObj []) [123; 125]) by (change [123; 125] with (123 :: [] ++ [125]); constructor; constructor).
  assert (EM : jtext (JArr [JObj [(bs "message", JStr l)]]) (91 :: (123 :: ((34 :: bs "message" ++ [34]) ++ 58 :: string_to_json msg) ++ [125]) ++ [93])).
  { constructor. constructor. constructor. constructor; [exact M|]. constructor. exact J. }
  assert (T : err_response msg = 123 :: ((34 :: bs "data" ++ [34]) ++ 58 :: [123; 125] ++ 44 ::
     ((34 :: bs "errors" ++ [34]) ++ 58 :: (91 :: (123 :: ((34 :: bs "message" ++ [34]) ++ 58 :: string_to_json msg) ++ [125]) ++ [93]) ++ 44 ::
     ((34 :: bs "extensions" ++ [34]) ++ 58 :: [123; 125]))) ++ [125]).
  { unfold err_response. generalize (string_to_json msg). intros s. cbn -[app]. repeat (rewrite <- ?app_assoc; cbn [app]). reflexivity. }
  rewrite T. apply jt_obj. apply jm_cons; [exact D|exact O| |discriminate].
  apply jm_cons; [exact Er|exact EM| |discriminate]. apply jm_one; [exact X|exact O].
Qed.
(** and so is the response to a batch of such responses *)
Theorem C38_batch_response_is_json : forall vs rs, Forall2 jtext vs rs -> jtext (JArr vs) ([91] ++ commas rs ++ [93]).
Proof.
  intros vs rs F. cbn [app]. constructor. induction F as [|v r vs rs J F IH]; [constructor|].
  destruct F as [|v' r' vs rs J' F].
  - constructor. exact J.
  - cbn [commas]. cbn [app]. constructor; auto. discriminate.
Qed.

(** ** C39: where the request comes from *)
(** the request taken from a JSON object: "query" must be a string, the others may be missing or null *)
Inductive body_request : list (bytes * fj) -> single -> Prop :=
| br : forall m q o v,
    fj_get m (bs "query") = Some (FString q) ->
    (match fj_get m (bs "operationName") with None | Some FNull => o = [] | Some (FString x) => o = x | _ => False end) ->
    (match fj_get m (bs "variables") with None | Some FNull => v = [] | Some (FObject x) => v = print (FObject x) | _ => False end) ->
    body_request m (Single q o v).
Lemma get_body_data_ok : forall m q, get_body_data print (FObject m) = inl q <-> body_request m q.
Proof.
  intros m q. cbn [get_body_data]. split.
  - intros H. destruct (fj_get m (bs "query")) as [[]|] eqn:Q; try discriminate.
    destruct (fj_get m (bs "operationName")) as [[]|] eqn:O; try discriminate;
    destruct (fj_get m (bs "variables")) as [[]|] eqn:V; try discriminate; injection H as <-; constructor; rewrite ?O, ?V; auto.
  - intros H. inversion H as [? q0 o v Q O V]; subst. rewrite Q.
    destruct (fj_get m (bs "operationName")) as [[]|]; try contradiction; subst;
    destruct (fj_get m (bs "variables")) as [[]|]; try contradiction; subst; reflexivity.
Qed.

(** what a request with a body holds: the form field "operations" of a multipart request, the body otherwise *)
Definition payload (r : request) : option bytes :=
  if beqb (rq_ctype r) (bs "multipart/form-data") then match rq_form r (bs "operations") with inl b => Some b | inr _ => None end
  else Some (rq_body r).
(** the method GET, in letters of any case *)
Definition is_get (m : bytes) : Prop := exists g e t, m = [g; e; t] /\ (g = 71 \/ g = 103) /\ (e = 69 \/ e = 101) /\ (t = 84 \/ t = 116).
Lemma is_get_ok m : to_upper m = bs "GET" <-> is_get m.
Proof.
  assert (U : forall c u, 65 <= u <= 90 -> (if (97 <=? c) && (c <=? 122) then c - 32 else c) = u <-> c = u \/ c = u + 32).
  { intros c u H. destruct ((97 <=? c) && (c <=? 122)) eqn:Q; lia. }
  unfold is_get, to_upper. change (bs "GET") with [71; 69; 84]. split.
  - intro H. destruct m as [|g [|e [|t [|x m]]]]; try discriminate. cbn [map] in H. injection H as Hg He Ht. apply U in Hg, He, Ht; try lia. exists g, e, t. auto.
  - intros (g & e & t & -> & Hg & He & Ht). cbn [map]. f_equal; [|f_equal; [|f_equal]]; apply U; try lia; assumption.
Qed.
(** requests which read their body *)
Definition has_payload (r : request) : Prop :=
  rq_ctype r = bs "application/json" \/
  ((rq_ctype r = bs "text/plain" \/ rq_ctype r = bs "multipart/form-data") /\ ~ is_get (rq_method r)).
Lemma from_body_ok : forall r, from_body r = true <-> has_payload r.
Proof.
  intros r. unfold from_body, has_payload. rewrite orb_true_iff, andb_true_iff, orb_true_iff, negb_true_iff, !beqb_eq, beqb_neq, is_get_ok. tauto.
Qed.

(** a well-formed body is executed, and only it *)
Theorem C39_body_is_executed : forall w r b m q, has_payload r -> payload r = Some b -> b <> [] -> parse b = Some (FObject m) ->
  body_request m q -> handle w r = resolve w q.
Proof.
  intros w r b m q H P B J Q. unfold handle_request. apply from_body_ok in H. rewrite H.
  apply get_body_data_ok in Q. unfold payload in P.
  destruct (beqb (rq_ctype r) (bs "multipart/form-data")).
  - destruct (rq_form r (bs "operations")) as [x|]; [|discriminate]. injection P as ->.
    destruct b; [contradiction|]. rewrite J, Q. reflexivity.
  - injection P as <-. destruct (rq_body r); [contradiction|]. rewrite J, Q. reflexivity.
Qed.
(** a malformed body gives an error response and calls no resolver: the world is unchanged
    whatever [resolve] does *)
Theorem C39_malformed_body_is_an_error : forall w r, has_payload r ->
  (forall b, payload r = Some b -> b <> [] -> parse b <> None ->
     exists v, parse b = Some v /\ (forall l, v <> FArray l) /\ (forall m q, v = FObject m -> ~ body_request m q)) ->
  exists msg, handle w r = (w, (err_response msg, [new_error msg])).
Proof.
  intros w r H M. unfold handle_request. apply from_body_ok in H. rewrite H. unfold payload in M.
  assert (K : forall b, b <> [] -> (parse b <> None -> exists v, parse b = Some v /\ (forall l, v <> FArray l) /\ (forall m q, v = FObject m -> ~ body_request m q)) ->
    exists msg, match b with [] => (w, (err_response (bs "empty body"), [new_error (bs "empty body")])) | _ :: _ => 
      match parse b with
        | None => (w, (err_response (bs "invalid json body"), [new_error (bs "invalid json body")]))
        | Some (FArray items) => batch_loop new_error print resolve w items [91] []
        | Some v =>
            match get_body_data print v with
            | inr e => (w, (err_response e, [new_error e]))
            | inl q => resolve w q
            end
        end end = (w, (err_response msg, [new_error msg]))).
  { intros b B X. destruct b as [|c b]; [contradiction|]. destruct (parse (c :: b)) as [v|]; [|eauto].
    destruct X as (v' & E' & NA & NB); [discriminate|]. injection E' as <-.
    destruct v; try (eexists; reflexivity); [exfalso; eapply NA; reflexivity|].
    destruct (get_body_data print (FObject m)) eqn:G; [|eauto]. exfalso. eapply NB; [reflexivity|]. apply get_body_data_ok. exact G. }
  destruct (beqb (rq_ctype r) (bs "multipart/form-data")).
  - destruct (rq_form r (bs "operations")) as [x|]; [|eauto]. destruct x as [|c x]; [eauto|]. apply (K (c :: x)); [discriminate|].
    intros X. apply (M (c :: x)); auto. discriminate.
  - destruct (rq_body r) as [|c x]; [eauto|]. apply (K (c :: x)); [discriminate|]. intros X. apply (M (c :: x)); auto. discriminate.
Qed.
(** all other requests are taken from the URL *)
Theorem C39_url_otherwise : forall w r, ~ has_payload r ->
  handle w r = resolve w (Single (rq_url r (bs "query")) (rq_url r (bs "operationName")) (rq_url r (bs "variables"))).
Proof.
  intros w r H. unfold handle_request. destruct (from_body r) eqn:F; [|reflexivity]. apply from_body_ok in F. contradiction.
Qed.
End Spec.
Print Assumptions C38_batch_is_one_by_one.
Print Assumptions C38_nested_batch_is_an_error.
Print Assumptions C38_stateless_items_are_independent.
Print Assumptions C38_error_response_is_json.
Print Assumptions C38_batch_response_is_json.
Print Assumptions C39_body_is_executed.
Print Assumptions C39_malformed_body_is_an_error.
Print Assumptions C39_url_otherwise.

(** ** C38 is false if resolvers use SetValue: the map of values is shared by all items of a batch.
    Here the world is that map; the resolver of {set} puts a value in it and the resolver of {get} returns it. *)
Definition toy_resolve (w : list (bytes * bytes)) (q : single) : list (bytes * bytes) * (bytes * list bytes) :=
  if beqb (sg_query q) (bs "{set}") then ((bs "k", bs "1") :: w, (bs "{1}", []))
  else (w, (match w with [] => bs "{}" | (_, v) :: _ => v end, [])).
Definition toy_parse (b : bytes) : option fj :=
  if beqb b (bs "batch") then Some (FArray [FObject [(bs "query", FString (bs "{set}"))]; FObject [(bs "query", FString (bs "{get}"))]])
  else if beqb b (bs "get") then Some (FObject [(bs "query", FString (bs "{get}"))]) else None.
Theorem C38_items_share_values_refuted :
  handle_request (fun m => m) toy_parse (fun _ => []) toy_resolve [] (json_request (bs "batch")) =
    ([(bs "k", bs "1")], (bs "[{1},1]", [])) /\
  handle_request (fun m => m) toy_parse (fun _ => []) toy_resolve [] (json_request (bs "get")) = ([], (bs "{}", [])).
Proof. split; vm_compute; reflexivity. Qed.
Print Assumptions C38_items_share_values_refuted.

(** a content type with a parameter is not recognised: the body of the request is ignored *)
Theorem C39_content_type_parameter_refuted : forall r, rq_method r = bs "POST" ->
  rq_ctype r = bs "application/json; charset=utf-8" -> ~ has_payload r.
Proof.
  intros r M C [H|[[H|H] _]]; rewrite C in H; vm_compute in H; discriminate.
Qed.
Print Assumptions C39_content_type_parameter_refuted.

Example C38_case :
  handle_request (fun m : bytes => m)
    (fun b => if beqb b (bs "a") then Some (FObject [(bs "query", FString (bs "{get}")); (bs "operationName", FNull)])
              else if beqb b (bs "n") then Some FNull
              else Some (FArray [FObject [(bs "query", FString (bs "{get}")); (bs "operationName", FNull)]; FNull]))
    (fun _ => []) toy_resolve [] (json_request (bs "both")) =
  ([], (bs "[{}," ++ err_response (bs "body should be a object") ++ bs "]", [bs "body should be a object"])).
Proof. vm_compute. reflexivity. Qed.
Example C39_case : exists r m q, has_payload r /\ payload r = Some (bs "x") /\ body_request (fun _ => bs "vars") m q /\
  q = Single (bs "{a}") (bs "op") (bs "vars").
Proof.
  exists (Request (bs "post") (fun _ => []) (fun _ => inl (bs "x")) [] (bs "multipart/form-data")),
    [(bs "variables", FObject []); (bs "query", FString (bs "{a}")); (bs "operationName", FString (bs "op"))].
  eexists. split; [right; split; [right; reflexivity|intros (g & e & t & H & _); discriminate]|]. split; [reflexivity|]. split; [|reflexivity].
  constructor; reflexivity.
Qed.
