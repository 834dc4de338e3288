(** * Responses as JSON texts (proofs) *)
From Coq Require Import String Arith NArith ZArith Bool List Lia.
From Verif Require Import Base Json JsonModel JsonProof Ast Grammar RefGrammar ParserModel ParserFacts ReqModel Schema ResModel EnvModel Interp OpSim DocRun Facts.
Import ListNotations.
Open Scope N_scope.

(** ** Names that can stand in a JSON string as they are *)
Definition nice (n : bytes) : Prop := exists l, jchars l n.
Definition plain_char (c : N) : Prop := 32 <= c < 128 /\ c <> 34 /\ c <> 92.
Lemma plain_nice : forall n, Forall plain_char n -> nice n.
Proof.
  induction 1 as [|c n (A & B & C) F (l & IH)]; [exists []; constructor|]. exists (c :: l).
  change (c :: n) with ([c] ++ n). rewrite <- (encode_small c) by apply A. apply jc_raw; auto; [left; lia|lia].
Qed.
Lemma valid_nice : forall n, valid_name n -> nice n.
Proof.
  intros n H. apply plain_nice. inversion H as [c m L F Len E]. subst.
  assert (K : forall c, is_name_char c -> plain_char c) by (clear; intros c H; unfold is_name_char, is_letter, Grammar.is_digit in H; unfold plain_char; lia).
  constructor; [apply K; now left|]. eapply Forall_impl; [|exact F]. exact K.
Qed.
Lemma digits_plain : forall t, Forall Json.digit t -> Forall plain_char t.
Proof. intros t H. eapply Forall_impl; [|exact H]. unfold Json.digit, plain_char. intros; lia. Qed.
Lemma dec_plain : forall n, Forall plain_char (dec_of_N n).
Proof. intro n. apply digits_plain. apply (dec_of_N_ok n). Qed.
Lemma number_plain : forall t, jnumber t -> Forall plain_char t.
Proof.
  intros t (s & i & f & e & -> & Hs & Hi & Hf & He). repeat rewrite Forall_app. split; [|split; [|split]].
  - destruct Hs as [->| ->]; repeat constructor; try lia; discriminate.
  - destruct Hi as [->|(d & r & -> & D & F)]; [repeat constructor; try lia; discriminate|]. constructor; [unfold plain_char; lia|now apply digits_plain].
  - destruct Hf as [->|(r & -> & _ & F)]; [constructor|]. constructor; [unfold plain_char; lia|now apply digits_plain].
  - destruct He as [->|(c & s' & r & -> & Hc & Hs' & _ & F)]; [constructor|]. constructor; [unfold plain_char; lia|].
    apply Forall_app. split; [|now apply digits_plain]. destruct Hs' as [->|[->| ->]]; repeat constructor; try lia; discriminate.
Qed.
Lemma pad_plain : forall w t, Forall plain_char t -> Forall plain_char (pad w t).
Proof. intros w t H. unfold pad. apply Forall_app. split; auto. generalize (w - length t)%nat. induction n; cbn; constructor; auto. unfold plain_char; lia. Qed.
Lemma int_plain : forall w z, Forall plain_char (append_int w z).
Proof. intros w [|p|p]; cbn [append_int]; [apply pad_plain, dec_plain|apply pad_plain, dec_plain|]. constructor; [unfold plain_char; lia|apply pad_plain, dec_plain]. Qed.
Lemma iso_nice : forall t, nice (time_to_iso t).
Proof.
  intro t. apply plain_nice. unfold time_to_iso.
  assert (C : forall c, 45 <= c <= 90 -> Forall plain_char [c]) by (intros c H; repeat constructor; lia).
  rewrite !Forall_app. repeat split; try apply int_plain; try (apply pad_plain, dec_plain); apply C; lia.
Qed.
Lemma nice_string : forall n, nice n -> exists l, jstring l ([34] ++ n ++ [34]).
Proof. intros n (l & H). exists l, n. auto. Qed.

(** ** The text of a tree without holes *)
Section Text.
Variable fl : bool -> N -> bytes.
Hypothesis fl_ok : forall a b, jnumber (fl a b).
Lemma member_text : forall (m : list (bytes * rt)),
  Forall (fun x => nice (fst x) /\ exists v, jtext v (render fl (snd x))) m -> exists l, jmembers l (render_members fl m) /\ length l = length m.
Proof.
  assert (K : forall k t, [34] ++ k ++ [34; 58] ++ t = ([34] ++ k ++ [34]) ++ 58 :: t) by (intros; repeat (rewrite <- app_assoc; cbn [app]); reflexivity).
  induction m as [|[k t] r IH]; intros F; [exists []; split; [constructor|reflexivity]|].
  inversion F as [|? ? (N & v & V) Fr]; subst. cbn [fst snd] in *. destruct (nice_string k N) as (lk & Jk).
  destruct (IH Fr) as (l & L & Ln). exists ((lk, v) :: l). split; [|cbn; now rewrite Ln]. destruct r as [|[k' t'] r].
  - destruct l; [|discriminate]. cbn [render_members render_rest]. rewrite app_nil_r. rewrite K. now constructor.
  - cbn [render_members render_rest] in *. rewrite K. apply (jm_cons lk ([34] ++ k ++ [34]) v (render fl t) l); auto. destruct l; [discriminate|discriminate].
Qed.
Lemma members_eq : forall m, (fix members (m : list (bytes * rt)) : bytes :=
                          match m with
                          | [] => []
                          | [(k, t)] => [34] ++ k ++ [34; 58] ++ render fl t
                          | (k, t) :: r => [34] ++ k ++ [34; 58] ++ render fl t ++ [44] ++ members r
                          end) m = render_members fl m.
Proof.
  induction m as [|[k t] [|[k' t'] r] IH]; [reflexivity| |].
  - cbn [render_members render_rest]. now rewrite app_nil_r.
  - rewrite IH. reflexivity.
Qed.
Lemma tree_text : forall t, okt nice False t -> exists v, jtext v (render fl t).
Proof.
  induction t as [t L|t IH|l IH|m IH] using rt_ind2; intro H.
  - destruct t; try contradiction; cbn [render].
    + exists JNull. constructor.
    + destruct b; eexists; constructor.
    + eexists. apply jt_num. apply int_to_json_ok.
    + eexists. apply jt_num. apply fl_ok.
    + destruct (string_to_json_ok s) as (l & _ & J). eexists. apply jt_str. exact J.
    + destruct (nice_string n H) as (l & J). eexists. apply jt_str. exact J.
    + destruct (nice_string _ (iso_nice t)) as (l & J). eexists. apply jt_str. exact J.
  - assert (N : nice (render fl t)).
    { apply plain_nice. destruct t; try contradiction; cbn [render].
      - repeat constructor; discriminate.
      - destruct b; repeat constructor; discriminate.
      - apply number_plain, int_to_json_ok.
      - apply number_plain, fl_ok. }
    destruct (nice_string _ N) as (l & J). exists (JStr l). apply jt_str. exact J.
  - assert (E : exists vs, jelems vs (render_elems fl l) /\ length vs = length l).
    { cbn in H. induction IH as [|x r Hx Hr IHr]; [exists []; split; [constructor|reflexivity]|]. destruct H as [A B].
      destruct (Hx A) as (v & V). destruct (IHr B) as (vs & Vs & Ln). exists (v :: vs). split; [|cbn; now rewrite Ln].
      destruct r as [|y r].
      - destruct vs; [|discriminate]. cbn [render_elems]. now constructor.
      - change (render_elems fl (x :: y :: r)) with (render fl x ++ 44 :: render_elems fl (y :: r)). constructor; auto. destruct vs; discriminate. }
    destruct E as (vs & E & _). exists (JArr vs). exact (jt_arr _ _ E).
  - assert (E : Forall (fun x => nice (fst x) /\ exists v, jtext v (render fl (snd x))) m).
    { cbn in H. induction IH as [|[k x] r Hx Hr IHr]; constructor; cbn [fst snd] in *; [tauto|]. apply IHr. tauto. }
    destruct (member_text m E) as (l & J & _). exists (JObj l). cbn [render]. rewrite members_eq. exact (jt_obj _ _ J).
Qed.
Lemma obj_text : forall m, okm nice False m -> exists l, jtext (JObj l) ([123] ++ render_members fl m ++ [125]).
Proof.
  intros m H. assert (E : Forall (fun x => nice (fst x) /\ exists v, jtext v (render fl (snd x))) m).
  { unfold okm in H. cbn in H. induction m as [|[k x] r IHr]; constructor; cbn [fst snd] in *; [split; [tauto|apply tree_text; tauto]|]. apply IHr. tauto. }
  destruct (member_text m E) as (l & J & _). exists l. exact (jt_obj _ _ J).
Qed.
End Text.

(** ** The names in a document *)
Inductive within (x : sel) : list sel -> Prop :=
| within_here : forall ss, In x ss -> within x ss
| within_field : forall a n ds args subs ss, In (SField a n ds args subs) ss -> within x subs -> within x ss
| within_inline : forall n ds subs ss, In (SInline n ds subs) ss -> within x subs -> within x ss.
Definition sels_of (x : definition) : list sel := match x with DOp _ _ _ _ ss => ss | DFrag _ _ ss => ss end.
Definition in_doc (x : sel) (d : document) : Prop := exists y, In y d /\ within x (sels_of y).

Section sel_ind2.
Variable P : sel -> Prop.
Hypothesis Hf : forall a n ds args subs, Forall P subs -> P (SField a n ds args subs).
Hypothesis Hs : forall n ds, P (SSpread n ds).
Hypothesis Hi : forall n ds subs, Forall P subs -> P (SInline n ds subs).
Fixpoint sel_ind2 (x : sel) : P x :=
  match x with
  | SField a n ds args subs => Hf a n ds args subs ((fix f l : Forall P l := match l with [] => Forall_nil _ | x :: r => Forall_cons x (sel_ind2 x) (f r) end) subs)
  | SSpread n ds => Hs n ds
  | SInline n ds subs => Hi n ds subs ((fix f l : Forall P l := match l with [] => Forall_nil _ | x :: r => Forall_cons x (sel_ind2 x) (f r) end) subs)
  end.
End sel_ind2.
Definition local_fine (okname dkey : bytes -> Prop) (holes : Prop) (x : sel) : Prop :=
  match x with
  | SField alias name ds args subs =>
      okname (key_of alias name) /\ (ds <> [] -> dkey (key_of alias name)) /\ (args <> None -> holes) /\
      (name = bs "__typename" -> subs <> [] -> holes)
  | _ => True
  end.
Lemma sels_fine_iff : forall P D H l, sels_fine P D H l <-> (fix f l := match l with [] => True | x :: r => sel_fine P D H x /\ f r end) l.
Proof. intros. induction l; cbn; tauto. Qed.
Lemma within_fine : forall P D H ss, (forall x, within x ss -> local_fine P D H x) -> sels_fine P D H ss.
Proof.
  intros P D H. assert (K : forall x, (forall y, within y [x] -> local_fine P D H y) -> sel_fine P D H x).
  { induction x as [a n ds args subs IH|n ds|n ds subs IH] using sel_ind2; intro L; cbn [sel_fine]; auto.
    - assert (L0 : local_fine P D H (SField a n ds args subs)) by (apply L; apply within_here; left; reflexivity). destruct L0 as (A & B & C & E). repeat split; auto.
      apply sels_fine_iff. assert (L' : forall y, within y subs -> local_fine P D H y) by (intros y Hy; apply L; eapply within_field; eauto; left; reflexivity).
      clear - IH L'. induction IH as [|x r Hx Hr IHr]; cbn; auto. split; [apply Hx|apply IHr]; intros y Hy; apply L';
      inversion Hy as [? I|? ? ? ? ? ? I|? ? ? ? I]; subst.
      + destruct I as [->|[]]. apply within_here. now left.
      + destruct I as [->|[]]. eapply within_field; [now left|auto].
      + destruct I as [->|[]]. eapply within_inline; [now left|auto].
      + apply within_here. now right.
      + eapply within_field; [right; eauto|auto].
      + eapply within_inline; [right; eauto|auto].
    - apply sels_fine_iff. assert (L' : forall y, within y subs -> local_fine P D H y) by (intros y Hy; apply L; eapply within_inline; eauto; left; reflexivity).
      clear - IH L'. induction IH as [|x r Hx Hr IHr]; cbn; auto. split; [apply Hx|apply IHr]; intros y Hy; apply L';
      inversion Hy as [? I|? ? ? ? ? ? I|? ? ? ? I]; subst.
      + destruct I as [->|[]]. apply within_here. now left.
      + destruct I as [->|[]]. eapply within_field; [now left|auto].
      + destruct I as [->|[]]. eapply within_inline; [now left|auto].
      + apply within_here. now right.
      + eapply within_field; [right; eauto|auto].
      + eapply within_inline; [right; eauto|auto]. }
  induction ss as [|x r IH]; intro L; cbn; auto. split.
  - apply K. intros y Hy. apply L. inversion Hy as [? I|? ? ? ? ? ? I|? ? ? ? I]; subst; destruct I as [->|[]].
    + apply within_here. now left.
    + eapply within_field; [now left|auto].
    + eapply within_inline; [now left|auto].
  - apply IH. intros y Hy. apply L. inversion Hy as [? I|? ? ? ? ? ? I|? ? ? ? I]; subst.
    + apply within_here. now right.
    + eapply within_field; [right; eauto|auto].
    + eapply within_inline; [right; eauto|auto].
Qed.
(** response keys of accepted documents *)
Fixpoint keys_nice (x : sel) : Prop :=
  match x with
  | SField a n _ _ subs => nice (key_of a n) /\ (fix f l := match l with [] => True | x :: r => keys_nice x /\ f r end) subs
  | SSpread _ _ => True
  | SInline _ _ subs => (fix f l := match l with [] => True | x :: r => keys_nice x /\ f r end) subs
  end.
Fixpoint all_nice (l : list sel) : Prop := match l with [] => True | x :: r => keys_nice x /\ all_nice r end.
Lemma g_name_nice : forall n l r, g_name n l r -> nice n.
Proof. intros n l r H. inversion H; subst. now apply valid_nice. Qed.
Lemma grammar_nice :
  (forall s l r, g_sel s l r -> keys_nice s) /\ (forall ss l r, g_opt_set ss l r -> all_nice ss) /\
  (forall ss l r, g_selset ss l r -> all_nice ss) /\ (forall ss l r, g_sels ss l r -> all_nice ss).
Proof.
  apply g_sel_mut; intros; cbn [all_nice]; auto.
  - cbn. split; [|exact H4]. inversion H; subst; cbn; eapply g_name_nice; eauto.
  - exact I.
Qed.
Lemma all_nice_in : forall ss x, all_nice ss -> within x ss -> keys_nice x.
Proof.
  intros ss x A H. revert A. induction H as [ss I|a n ds args subs ss I H IH|n ds subs ss I H IH]; intro A.
  - induction ss; [contradiction|]. destruct A, I as [->|I]; auto.
  - apply IH. assert (K : keys_nice (SField a n ds args subs)) by (clear - A I; induction ss; [contradiction|]; destruct A, I as [->|I]; auto).
    destruct K as [_ K]. clear - K. induction subs; cbn in *; tauto.
  - apply IH. assert (K : keys_nice (SInline n ds subs)) by (clear - A I; induction ss; [contradiction|]; destruct A, I as [->|I]; auto).
    cbn in K. clear - K. induction subs; cbn in *; tauto.
Qed.
Lemma doc_nice : forall d q x, g_doc d q -> in_doc x d -> keys_nice x.
Proof.
  intros d q x G (y & I & Wy). induction G as [|x0 d0 l0 r0 Hd G IH]; [contradiction|].
  destruct I as [<-|I]; auto. eapply all_nice_in; [|exact Wy].
  inversion Hd; subst; cbn [sels_of]; eapply (proj1 (proj2 (proj2 grammar_nice))); eauto.
Qed.

(** ** The paths of errors *)
Lemma items_text : forall q, q <> [] -> (forall k, In (PKey k) q -> nice k) ->
  exists vs t, strip (path_text q) = Some t /\ jelems vs t /\ vs <> [] /\ t <> [].
Proof.
  assert (I : forall i, (forall k, i = PKey k -> nice k) -> exists v, jtext v (item_text i) /\ item_text i <> []).
  { intros [k|n] H; cbn [item_text].
    - destruct (nice_string k (H k eq_refl)) as (l & J). exists (JStr l). split; [apply jt_str; exact J|discriminate].
    - eexists. split; [apply jt_num, jnumber_nat|apply (dec_of_N_ok n)]. }
  induction q as [|i q IH]; intros N H; [contradiction|]. destruct (I i) as (v & V & Nv); [intros k ->; apply H; now left|].
  destruct q as [|j q].
  - exists [v], (item_text i). unfold path_text. cbn [flat_map app strip]. rewrite app_nil_r. split; [reflexivity|]. split; [now constructor|]. split; [discriminate|exact Nv].
  - destruct (IH ltac:(discriminate) ltac:(intros; apply H; now right)) as (vs & t & S & J & Nvs & Nt).
    exists (v :: vs), (item_text i ++ 44 :: t). unfold path_text in *. cbn [flat_map app strip] in *. injection S as <-. split; [reflexivity|].
    split; [now constructor|]. split; [discriminate|]. destruct (item_text i); discriminate.
Qed.
Lemma leads_nice : forall H t q, leads t q -> okt nice H t -> forall k, In (PKey k) q -> nice k.
Proof.
  intros H t q L. induction L as [t|l i t p Hn L IH|m k0 t p Hi L IH]; intros O k Hk; [contradiction| |].
  - destruct Hk as [E|Hk]; [discriminate|]. apply IH; auto. cbn in O. clear - Hn O. revert i Hn. induction l as [|x l IHl]; intros [|i] Hn; try discriminate; cbn in Hn.
    + injection Hn as <-. tauto.
    + eapply IHl; eauto. tauto.
  - assert (K : nice k0 /\ okt nice H t) by (cbn in O; clear - Hi O; induction m as [|[k x] m IHm]; [contradiction|]; destruct Hi as [E|Hi]; [injection E as <- <-; tauto|apply IHm; tauto]).
    destruct Hk as [E|Hk]; [injection E as <-; tauto|]. apply IH; tauto.
Qed.
Lemma placed_nice : forall D H t e, placed D [] t e -> okt nice H t -> (forall k, D k -> nice k) ->
  re_path e = None \/ exists vs p, re_path e = Some p /\ jelems vs p /\ vs <> [] /\ p <> [].
Proof.
  intros D H t e (q & E & P) O Dk. cbn [app] in E.
  assert (N : forall k, In (PKey k) q -> nice k).
  { destruct P as [L|(q' & k & -> & L & Dk')]; [eapply leads_nice; eauto|]. intros k' I. apply in_app_or in I. destruct I as [I|[I|[]]].
    - eapply leads_nice; eauto.
    - injection I as <-. auto. }
  rewrite E. destruct q as [|i q]; [left; reflexivity|]. right. destruct (items_text (i :: q) ltac:(discriminate) N) as (vs & t' & S & J & Nv & Nt). eauto 8.
Qed.

(** ** The envelope *)
Definition err_ok (e : qerr) : Prop :=
  match e with
  | EParse _ => True
  | ERun r => match re_path r with Some (c :: p) => exists vs, jelems vs (c :: p) | _ => True end
  end.
Lemma key_string : forall s, Forall plain_char s -> jstring s ([34] ++ s ++ [34]).
Proof.
  intros s F. exists s. split; [reflexivity|]. induction F as [|c n (A & B & C) F IH]; [constructor|].
  change (c :: n) with ([c] ++ n) at 2. rewrite <- (encode_small c) by apply A. apply jc_raw; auto; [left; lia|lia].
Qed.
Ltac plain := repeat constructor; discriminate.
Lemma err_text : forall e, err_ok e -> exists m, jtext (JObj m) (err_json e).
Proof.
  assert (K1 : jstring (bs "message") ([34] ++ bs "message" ++ [34])) by (apply key_string; plain).
  assert (K2 : jstring (bs "path") ([34] ++ bs "path" ++ [34])) by (apply key_string; plain).
  assert (K3 : jstring (bs "locations") ([34] ++ bs "locations" ++ [34])) by (apply key_string; plain).
  assert (K4 : jstring (bs "line") ([34] ++ bs "line" ++ [34])) by (apply key_string; plain).
  assert (K5 : jstring (bs "column") ([34] ++ bs "column" ++ [34])) by (apply key_string; plain).
  assert (U : forall n, jnumber (uint_to_json n)) by (intro; apply jnumber_nat).
  intros [e|[m p]] H; unfold err_json; cbn [re_msg re_path].
  - destruct (string_to_json_ok (e_msg e)) as (l & _ & J).
    exists [(bs "message", JStr l); (bs "locations", JArr [JObj [(bs "line", JNum (uint_to_json (e_line e))); (bs "column", JNum (uint_to_json (e_col e)))]])].
    assert (L : jmembers [(bs "line", JNum (uint_to_json (e_line e))); (bs "column", JNum (uint_to_json (e_col e)))]
      (([34] ++ bs "line" ++ [34]) ++ 58 :: uint_to_json (e_line e) ++ 44 :: ([34] ++ bs "column" ++ [34]) ++ 58 :: uint_to_json (e_col e))).
    { apply jm_cons; [exact K4|apply jt_num, U| |discriminate]. apply jm_one; [exact K5|apply jt_num, U]. }
    pose proof (jt_arr _ _ (je_one _ _ (jt_obj _ _ L))) as A.
    pose proof (jt_obj _ _ (jm_cons _ _ _ _ _ _ K1 (jt_str _ _ J) (jm_one _ _ _ _ K3 A) ltac:(discriminate))) as O.
    match goal with |- jtext _ ?t => match type of O with jtext _ ?u => replace t with u; [exact O|] end end.
    repeat (progress (rewrite <- ?app_assoc; cbn [app])). reflexivity.
  - destruct (string_to_json_ok m) as (l & _ & J).
    assert (N : exists mm, jtext (JObj mm) (([123; 34] ++ bs "message" ++ [34; 58] ++ string_to_json m ++ []) ++ [125])).
    { exists [(bs "message", JStr l)]. pose proof (jt_obj _ _ (jm_one _ _ _ _ K1 (jt_str _ _ J))) as O.
      match goal with |- jtext _ ?t => match type of O with jtext _ ?u => replace t with u; [exact O|] end end.
      repeat (progress (rewrite <- ?app_assoc; cbn [app])). reflexivity. }
    destruct p as [[|c p]|].
    + destruct N as (mm & N). exists mm. rewrite <- !app_assoc in *. exact N.
    + cbn in H. destruct H as (vs & V). exists [(bs "message", JStr l); (bs "path", JArr vs)].
      pose proof (jt_obj _ _ (jm_cons _ _ _ _ _ _ K1 (jt_str _ _ J) (jm_one _ _ _ _ K2 (jt_arr _ _ V)) ltac:(discriminate))) as O.
      match goal with |- jtext _ ?t => match type of O with jtext _ ?u => replace t with u; [exact O|] end end.
      repeat (progress (rewrite <- ?app_assoc; cbn [app])). reflexivity.
    + destruct N as (mm & N). exists mm. rewrite <- !app_assoc in *. exact N.
Qed.
Lemma errs_text : forall es, Forall err_ok es -> exists vs, jelems vs (errs_json es) /\ length vs = length es.
Proof.
  induction 1 as [|e es He Hes (vs & V & Ln)]; [exists []; split; [constructor|reflexivity]|].
  destruct (err_text e He) as (m & M). exists (JObj m :: vs). split; [|cbn; now rewrite Ln]. destruct es as [|e' es].
  - destruct vs; [|discriminate]. now constructor.
  - change (errs_json (e :: e' :: es)) with (err_json e ++ 44 :: errs_json (e' :: es)). constructor; auto. destruct vs; discriminate.
Qed.
Lemma envelope_text : forall data es trace, (exists v, jtext v data) -> Forall err_ok es ->
  match trace with Some t => exists v, jtext v t | None => True end ->
  exists m, jtext (JObj m) (data_start ++ data ++ envelope_end es trace).
Proof.
  assert (K1 : jstring (bs "data") ([34] ++ bs "data" ++ [34])) by (apply key_string; plain).
  assert (K2 : jstring (bs "errors") ([34] ++ bs "errors" ++ [34])) by (apply key_string; plain).
  assert (K3 : jstring (bs "extensions") ([34] ++ bs "extensions" ++ [34])) by (apply key_string; plain).
  assert (K4 : jstring (bs "tracing") ([34] ++ bs "tracing" ++ [34])) by (apply key_string; plain).
  intros data es trace (v & V) E T. destruct (errs_text es E) as (vs & Vs & Ln).
  assert (X : exists x u, jtext x u /\ match trace with
      | Some t => [44; 34] ++ bs "extensions" ++ [34; 58; 123; 34] ++ bs "tracing" ++ [34; 58] ++ t ++ [125; 125]
      | None => [44; 34] ++ bs "extensions" ++ [34; 58; 123; 125; 125] end = 44 :: ([34] ++ bs "extensions" ++ [34]) ++ 58 :: u ++ [125]).
  { destruct trace as [t|].
    - destruct T as (x & T). exists (JObj [(bs "tracing", x)]). eexists. split; [exact (jt_obj _ _ (jm_one _ _ _ _ K4 T))|].
      repeat (progress (rewrite <- ?app_assoc; cbn [app])). reflexivity.
    - exists (JObj []). eexists. split; [exact (jt_obj _ _ jm_nil)|]. reflexivity. }
  destruct X as (x & u & X & Eu).
  destruct es as [|e es].
  - destruct trace as [t|].
    + pose proof (jt_obj _ _ (jm_cons _ _ _ _ _ _ K1 V (jm_one _ _ _ _ K3 X) ltac:(discriminate))) as O.
      eexists. match goal with |- jtext _ ?t => match type of O with jtext _ ?u => replace t with u; [exact O|] end end.
      unfold envelope_end. cbn [app] in Eu |- *. rewrite Eu. repeat (progress (rewrite <- ?app_assoc; cbn [app])). reflexivity.
    + pose proof (jt_obj _ _ (jm_one _ _ _ _ K1 V)) as O. eexists.
      match goal with |- jtext _ ?t => match type of O with jtext _ ?u => replace t with u; [exact O|] end end.
      repeat (progress (rewrite <- ?app_assoc; cbn [app])). reflexivity.
  - pose proof (jt_obj _ _ (jm_cons _ _ _ _ _ _ K1 V (jm_cons _ _ _ _ _ _ K2 (jt_arr _ _ Vs) (jm_one _ _ _ _ K3 X) ltac:(discriminate)) ltac:(discriminate))) as O.
    eexists. match goal with |- jtext _ ?t => match type of O with jtext _ ?u => replace t with u; [exact O|] end end.
    unfold envelope_end. rewrite Eu. repeat (progress (rewrite <- ?app_assoc; cbn [app])). reflexivity.
Qed.

(** ** A text that is no JSON: outside of strings a colon is followed by a value *)
Inductive smode := MVal | MColon | MStr | MEsc.
Fixpoint scan (m : smode) (t : bytes) : bool :=
  match t with
  | [] => true
  | c :: r =>
      match m with
      | MVal => scan (if c =? 34 then MStr else if c =? 58 then MColon else MVal) r
      | MColon => if (c =? 125) || (c =? 44) then false else scan (if c =? 34 then MStr else if c =? 58 then MColon else MVal) r
      | MStr => scan (if c =? 34 then MVal else if c =? 92 then MEsc else MStr) r
      | MEsc => scan MStr r
      end
  end.
Lemma scan_str : forall t r, Forall (fun c => c <> 34 /\ c <> 92) t -> scan MStr (t ++ r) = scan MStr r.
Proof.
  intros t r H. induction H as [|c t (A & B) F IH]; cbn [app scan]; auto. apply N.eqb_neq in A, B. rewrite A, B. exact IH.
Qed.
Lemma utf8_no_quote : forall c, c <> 34 -> c <> 92 -> Forall (fun b => b <> 34 /\ b <> 92) (utf8_encode c).
Proof.
  intros c A B. unfold utf8_encode. destruct (c <=? 127) eqn:E1; [repeat constructor; auto|]. apply N.leb_gt in E1.
  assert (M : forall x, 128 + x <> 34 /\ 128 + x <> 92) by (intros; lia).
  destruct (c <=? 2047); [repeat constructor; try apply M; lia|]. destruct (_ || _); [repeat constructor; lia|].
  destruct (c <=? 65535); repeat constructor; try apply M; lia.
Qed.
Lemma hex_not : forall c x, hex_val c = Some x -> c <> 34 /\ c <> 92.
Proof.
  intros c x H. unfold hex_val in H. split; intros ->; discriminate.
Qed.
Lemma scan_chars : forall l t, jchars l t -> forall r, scan MStr (t ++ r) = scan MStr r.
Proof.
  induction 1 as [|c l t Sc Lo N1 N2 J IH|e c l t I J IH|a b c d v l t Hx Sv J IH|a b c d a' b' c' d' hi lo l t H1 H2 R1 R2 J IH]; intro r.
  - reflexivity.
  - rewrite <- app_assoc. rewrite scan_str by now apply utf8_no_quote. apply IH.
  - cbn [app scan]. change (92 =? 34) with false. change (92 =? 92) with true. cbv iota. apply IH.
  - destruct Hx as (x & y & z & w & A & B & C & D & _).
    change ((92 :: 117 :: a :: b :: c :: d :: t) ++ r) with (92 :: 117 :: [a; b; c; d] ++ t ++ r). cbn [scan].
    change (92 =? 34) with false. change (92 =? 92) with true. cbv iota. rewrite scan_str by (repeat constructor; eapply hex_not; eauto). apply IH.
  - destruct H1 as (x & y & z & w & A & B & C & D & _). destruct H2 as (x' & y' & z' & w' & A' & B' & C' & D' & _).
    change ((92 :: 117 :: a :: b :: c :: d :: 92 :: 117 :: a' :: b' :: c' :: d' :: t) ++ r) with (92 :: 117 :: [a; b; c; d] ++ 92 :: 117 :: [a'; b'; c'; d'] ++ t ++ r). cbn [scan].
    change (92 =? 34) with false. change (92 =? 92) with true. cbv iota. rewrite scan_str by (repeat constructor; eapply hex_not; eauto).
    cbn [scan]. change (92 =? 34) with false. change (92 =? 92) with true. cbv iota. rewrite scan_str by (repeat constructor; eapply hex_not; eauto). apply IH.
Qed.
Definition passes (t : bytes) : Prop := forall r, scan MVal (t ++ r) = scan MVal r /\ scan MColon (t ++ r) = scan MVal r.
Definition dull (c : N) : Prop := c <> 34 /\ c <> 58 /\ c <> 125 /\ c <> 44.
Lemma dull_val : forall t r, Forall dull t -> scan MVal (t ++ r) = scan MVal r.
Proof.
  intros t r F. induction F as [|c t (A & B & _) F IH]; auto. cbn [app scan]. apply N.eqb_neq in A, B. rewrite A, B. exact IH.
Qed.
Lemma dull_passes : forall t, t <> [] -> Forall dull t -> passes t.
Proof.
  intros t N F r. split; [now apply dull_val|]. destruct F as [|c t (A & B & C & D) F]; [contradiction|]. cbn [app scan].
  apply N.eqb_neq in A, B, C, D. rewrite A, B, C, D. cbv iota. cbn [orb]. now apply dull_val.
Qed.
Lemma string_passes : forall l t, jstring l t -> passes t.
Proof.
  intros l t (u & -> & J) r. cbn [app scan]. change (34 =? 34) with true. change ((34 =? 125) || (34 =? 44)) with false. cbv iota.
  rewrite <- app_assoc. rewrite (scan_chars _ _ J). split; reflexivity.
Qed.
Lemma number_dull : forall t, jnumber t -> t <> [] /\ Forall dull t.
Proof.
  intros t H. split.
  - destruct H as (s & i & f & e & -> & _ & Hi & _). destruct Hi as [->|(d & r & -> & _)]; destruct s; discriminate.
  - destruct H as (s & i & f & e & -> & Hs & Hi & Hf & He).
    assert (D : forall t, Forall Json.digit t -> Forall dull t) by (intros t H; eapply Forall_impl; [|exact H]; unfold Json.digit, dull; intros; lia).
    repeat rewrite Forall_app. split; [|split; [|split]].
    + destruct Hs as [->| ->]; repeat constructor; discriminate.
    + destruct Hi as [->|(d & r & -> & Dd & F)]; [repeat constructor; discriminate|]. constructor; [unfold dull; lia|auto].
    + destruct Hf as [->|(r & -> & _ & F)]; [constructor|]. constructor; [unfold dull; lia|auto].
    + destruct He as [->|(c & s' & r & -> & Hc & Hs' & _ & F)]; [constructor|]. constructor; [unfold dull; lia|].
      apply Forall_app. split; [|auto]. destruct Hs' as [->|[->| ->]]; repeat constructor; discriminate.
Qed.
Scheme jtext_ind2 := Minimality for jtext Sort Prop
with jelems_ind2 := Minimality for jelems Sort Prop
with jmembers_ind2 := Minimality for jmembers Sort Prop.
Combined Scheme jtext_mut from jtext_ind2, jelems_ind2, jmembers_ind2.
Lemma scan_text :
  (forall v t, jtext v t -> passes t) /\
  (forall l t, jelems l t -> forall r, scan MVal (t ++ r) = scan MVal r) /\
  (forall l t, jmembers l t -> forall r, scan MVal (t ++ r) = scan MVal r).
Proof.
  apply jtext_mut.
  - apply dull_passes; [discriminate|repeat constructor; discriminate].
  - apply dull_passes; [discriminate|repeat constructor; discriminate].
  - apply dull_passes; [discriminate|repeat constructor; discriminate].
  - intros t H. destruct (number_dull t H). now apply dull_passes.
  - intros l t H. eapply string_passes; eauto.
  - intros l t _ IH r. cbn [app scan]. change (91 =? 34) with false. change (91 =? 58) with false. change ((91 =? 125) || (91 =? 44)) with false. cbv iota.
    rewrite <- app_assoc. rewrite IH. split; reflexivity.
  - intros m t _ IH r. cbn [app scan]. change (123 =? 34) with false. change (123 =? 58) with false. change ((123 =? 125) || (123 =? 44)) with false. cbv iota.
    rewrite <- app_assoc. rewrite IH. split; reflexivity.
  - reflexivity.
  - intros v t _ IH r. apply IH.
  - intros v t l u _ IH _ IH2 _ r. rewrite <- app_assoc. rewrite (proj1 (IH _)). cbn [app scan]. change (44 =? 34) with false. change (44 =? 58) with false. cbv iota. apply IH2.
  - reflexivity.
  - intros k kt v t K _ IH r. rewrite <- app_assoc. rewrite (proj1 (string_passes _ _ K _)). cbn [app scan]. change (58 =? 34) with false. change (58 =? 58) with true. cbv iota. apply IH.
  - intros k kt v t m u K _ IH _ IH2 _ r. rewrite <- app_assoc. rewrite (proj1 (string_passes _ _ K _)). cbn [app scan]. change (58 =? 34) with false. change (58 =? 58) with true. cbv iota.
    rewrite <- app_assoc. rewrite (proj2 (IH _)). cbn [app scan]. change (44 =? 34) with false. change (44 =? 58) with false. cbv iota. apply IH2.
Qed.
Lemma not_json : forall t, scan MVal t = false -> ~ exists v, jtext v t.
Proof. intros t H (v & J). pose proof (proj1 (proj1 scan_text v t J [])) as E. rewrite app_nil_r in E. rewrite E in H. discriminate. Qed.
