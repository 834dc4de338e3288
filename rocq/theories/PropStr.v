(** * Property C10: string literals *)
From Coq Require Import String Arith NArith ZArith Bool List Lia.
From Verif Require Import Base Json JsonModel JsonProof Ast Grammar ReqModel Schema ResModel EnvModel Samples Interp RunSim Facts DocRun Spec SpecLit SpecVal SpecRun ArgRun PropArgs PropOut.
Import ListNotations.
Open Scope N_scope.
Local Notation value := Ast.value.

(** ** Specification *)
(** String literals, GraphQL specification 2.9.4: the bytes of the value and the text between the quotes.
    With [all] every escape of the specification is allowed, without it neither U+0000 nor a pair of surrogates is written as escape. *)
Inductive str_text (all : bool) : bytes -> bytes -> Prop :=
| st_end : str_text all [] []
| st_raw : forall c v t, ~ In c [0; 10; 13; 34; 92] -> str_text all v t -> str_text all (c :: v) (c :: t)
| st_esc : forall e c v t, In (e, c) [(34, 34); (92, 92); (47, 47); (98, 8); (102, 12); (110, 10); (114, 13); (116, 9)] ->
    str_text all v t -> str_text all (c :: v) (92 :: e :: t)
| st_hex : forall a b c d u v t, hex4 a b c d u -> scalar u -> all = true \/ u <> 0 -> str_text all v t ->
    str_text all (utf8_encode u ++ v) (92 :: 117 :: a :: b :: c :: d :: t)
| st_pair : forall a b c d a' b' c' d' hi lo v t, all = true ->
    hex4 a b c d hi -> hex4 a' b' c' d' lo -> 55296 <= hi <= 56319 -> 56320 <= lo <= 57343 -> str_text all v t ->
    str_text all (utf8_encode (65536 + (hi - 55296) * 1024 + (lo - 56320)) ++ v) (92 :: 117 :: a :: b :: c :: d :: 92 :: 117 :: a' :: b' :: c' :: d' :: t).
(** Block strings, GraphQL specification 2.9.4 BlockStringValue, for lines that end with a line feed *)
Fixpoint lines (t : bytes) : list bytes :=
  match t with
  | [] => [[]]
  | c :: r => if c =? 10 then [] :: lines r else match lines r with l :: ls => (c :: l) :: ls | [] => [[c]] end
  end.
Fixpoint indent (l : bytes) : nat := match l with c :: r => if (c =? 32) || (c =? 9) then Datatypes.S (indent r) else O | [] => O end.
Definition blank (l : bytes) : bool := forallb (fun c => (c =? 32) || (c =? 9)) l.
Fixpoint common (ls : list bytes) : option nat :=
  match ls with
  | [] => None
  | l :: r => if blank l then common r else match common r with None => Some (indent l) | Some n => Some (min n (indent l)) end
  end.
Fixpoint unlines (ls : list bytes) : bytes := match ls with [] => [] | [l] => l | l :: r => l ++ 10 :: unlines r end.
Fixpoint drop_blanks (ls : list bytes) : list bytes := match ls with l :: r => if blank l then drop_blanks r else ls | [] => [] end.
Definition block_value (t : bytes) : bytes :=
  match lines t with
  | [] => []
  | l :: r =>
      let r' := match common r with Some n => map (skipn n) r | None => r end in
      unlines (rev (drop_blanks (rev (drop_blanks (l :: r')))))
  end.
(** the argument is a string *)
Definition is_string (i : input) : Prop := i_enum i = None /\ i_isid i = false /\ i_isfile i = false /\ i_istime i = false.
Definition quote : bytes := bs """".
Definition block_quote : bytes := bs """""""".

(** ** Proof *)
Lemma hex_is : forall c v, hex_val c = Some v -> hex_digit c v.
Proof.
  intros c v H. unfold hex_val in H. unfold hex_digit. destruct ((48 <=? c) && (c <=? 57)) eqn:E1; [injection H; intros; lia|].
  destruct ((97 <=? c) && (c <=? 102)) eqn:E2; [injection H; intros; lia|]. destruct ((65 <=? c) && (c <=? 70)) eqn:E3; [injection H; intros; lia|discriminate].
Qed.
Lemma utf8_nz : forall u, u <> 0 -> ~ In 0 (utf8_encode u).
Proof.
  intros u H. unfold utf8_encode. repeat match goal with |- context [if ?b then _ else _] => destruct b end; cbn [In]; lia.
Qed.
Lemma utf8_short : forall u, (length (utf8_encode u) <= 4)%nat.
Proof. intros u. unfold utf8_encode. repeat match goal with |- context [if ?b then _ else _] => destruct b end; cbn [length]; lia. Qed.
Lemma text_chars : forall v t r, str_text false v t -> g_chars v (t ++ 34 :: r) r.
Proof.
  intros v t r H. induction H as [|c v t N H IH|e c v t I H IH|a b c d u v t Hx Sc Z H IH|]; [apply gc_end|now apply gc_plain| | |discriminate].
  - change (c :: v) with ([c] ++ v). cbn [app]. change (92 :: e :: t ++ 34 :: r) with (92 :: [e] ++ (t ++ 34 :: r)). change (c :: v) with ([c] ++ v). apply gc_esc; [|exact IH].
    cbn [In] in I. repeat (destruct I as [I|I]; [injection I; intros; subst; first [constructor; fail | apply esc_other; cbn; intuition discriminate | constructor]|]). contradiction.
  - destruct Hx as (x & y & z & w & A & B & C & D & ->). cbn [app]. change (92 :: 117 :: a :: b :: c :: d :: t ++ 34 :: r) with (92 :: [117; a; b; c; d] ++ (t ++ 34 :: r)). apply gc_esc; [|exact IH]. apply esc_u; now apply hex_is.
Qed.
Lemma text_nf : forall v t, str_text false v t -> ~ In 0 v.
Proof.
  intros v t H. induction H as [|c v t N H IH|e c v t I H IH|a b c d u v t Hx Sc Z H IH|]; [auto| | | |discriminate].
  - intros [E|E]; [subst; apply N; cbn; auto|auto].
  - intros [E|E]; [subst; cbn [In] in I; repeat (destruct I as [I|I]; [discriminate|]); contradiction|auto].
  - intro E. apply in_app_or in E. destruct Z as [Z|Z]; [discriminate|]. destruct E as [E|E]; [eapply utf8_nz; eauto|auto].
Qed.
Lemma text_size : forall v t, str_text false v t -> (length v <= length t)%nat.
Proof.
  intros v t H. induction H; try discriminate; rewrite ?app_length; cbn [length] in *; try lia. pose proof (utf8_short u). lia.
Qed.
Lemma string_value : forall v t, str_text false v t -> g_value (VStr v) ((quote ++ t ++ quote) ++ bs ")}") (bs ")}").
Proof.
  intros v t H. assert (E : (quote ++ t ++ quote) ++ bs ")}" = 34 :: (t ++ 34 :: bs ")}")) by (change quote with [34]; cbn [app]; now rewrite <- app_assoc). rewrite E.
  eapply gv_str; [apply ign_self; cbv; intuition discriminate|]. apply g_string_plain; [|now apply text_chars].
  intros (r & E1). inversion H; subst; cbn in E1; try discriminate. injection E1. intros. subst. apply H0. cbn. auto 10.
Qed.

Section C10.
Context {W : Type} (X : externals W) (S : schema) (o : ropts).
Context (f : bytes) (ins : list (option gval)) (infs : list (bytes * (nat * input))) (seen : W -> list gval -> W).
Lemma string_received : forall a i old wr v q w, probe X S f ins infs seen -> slot ins infs a i (GString old) wr -> is_string i -> asks o None f [(a, VStr v)] q ->
  received X S o seen q w (args_with ins infs a (wr (GString v))).
Proof.
  intros a i old wr v q w P Sl (E1 & E2 & E3 & E4) A. pose proof (slot_direct _ _ _ _ _ _ Sl) as Ip.
  eapply slot_received; eauto; [discriminate|]. apply ls_str; auto. now apply ss_string.
Qed.
(** ** C10: a string argument receives exactly the value of the written string *)
Theorem C10_partial : forall a i old wr v t w, probe X S f ins infs seen -> slot ins infs a i (GString old) wr -> is_string i ->
  valid_name f -> valid_name a -> op_target o = [] -> N.of_nat (length t) < 3000000000 ->
  str_text false v t -> received X S o seen (ask_text f a (quote ++ t ++ quote)) w (args_with ins infs a (wr (GString v))).
Proof.
  intros a i old wr v t w P Sl I Vf Va T L H. eapply string_received; eauto. apply asks_text; auto; [now apply string_value| |].
  - cbn. eapply text_nf; eauto.
  - cbn [enc_value]. unfold enc_tagged, le32. rewrite ?app_length. cbn [length]. apply text_size in H. lia.
Qed.
End C10.
Print Assumptions C10_partial.

(** ** Block strings whose lines are not indented *)
(** no line of [t] begins with a space or a tab *)
Definition flush (t : bytes) : Prop := forall a c b, 10 :: t = a ++ 10 :: c :: b -> c <> 32 /\ c <> 9.
Lemma flush_tail : forall c t, flush (c :: t) -> forall a x b, t = a ++ 10 :: x :: b -> x <> 32 /\ x <> 9.
Proof. intros c t H a x b E. apply (H (10 :: c :: a) x b). cbn [app]. now rewrite E. Qed.
Definition inner (t : bytes) : Prop := forall a x b, t = a ++ 10 :: x :: b -> x <> 32 /\ x <> 9.
Lemma inner_tail : forall c t, inner (c :: t) -> inner t.
Proof. intros c t H a x b E. apply (H (c :: a) x b). cbn [app]. now rewrite E. Qed.
Lemma lines_some : forall t, exists l ls, lines t = l :: ls.
Proof. destruct t as [|c t]; cbn; eauto. destruct (c =? 10); eauto. destruct (lines t); eauto. Qed.
Lemma unlines_lines : forall t, unlines (lines t) = t.
Proof.
  induction t as [|c t IH]; [reflexivity|]. cbn [lines]. destruct (lines_some t) as (l & ls & E). rewrite E in *. destruct (c =? 10) eqn:Ec.
  - apply N.eqb_eq in Ec. subst c. change (unlines ([] :: l :: ls)) with (10 :: unlines (l :: ls)). now rewrite IH.
  - destruct ls as [|l' ls]; cbn [unlines] in *; [now rewrite IH|]. cbn [app]. now rewrite IH.
Qed.
Lemma lines_inner : forall t, inner t -> Forall (fun l => indent l = O) (tl (lines t)) /\ (match t with c :: _ => c <> 32 /\ c <> 9 | [] => True end -> indent (hd [] (lines t)) = O).
Proof.
  induction t as [|c t IH]; intro H; [split; [constructor|reflexivity]|]. destruct (IH (inner_tail _ _ H)) as [A B]. cbn [lines]. destruct (lines_some t) as (l & ls & E). rewrite E in *. destruct (c =? 10) eqn:Ec.
  - apply N.eqb_eq in Ec. subst c. split; [|reflexivity]. cbn [tl hd] in *. constructor; auto. apply B. destruct t as [|x t]; auto. apply (H [] x t). reflexivity.
  - cbn [tl hd] in *. split; auto. intros [N1 N2]. cbn [indent]. apply N.eqb_neq in N1, N2. now rewrite N1, N2.
Qed.
Lemma common_zero : forall ls, Forall (fun l => indent l = O) ls -> common ls = None \/ common ls = Some O.
Proof.
  intros ls H. induction H as [|l ls Hl H IH]; [now left|]. cbn [common]. destruct (blank l); auto. rewrite Hl. destruct IH as [->| ->]; auto.
Qed.
Lemma blank_empty : forall l, indent l = O -> blank l = true -> l = [].
Proof. intros [|c l] I B; auto. cbn in I, B. destruct ((c =? 32) || (c =? 9)); [discriminate|discriminate]. Qed.
Lemma last_line : forall t, lines t <> [] /\ (last (lines t) [] = [] -> t = [] \/ last t 0 = 10).
Proof.
  induction t as [|c t [N IH]]; [split; [discriminate|auto]|]. cbn [lines]. destruct (lines_some t) as (l & ls & E). rewrite E in *. destruct (c =? 10) eqn:Ec.
  - apply N.eqb_eq in Ec. subst c. split; [discriminate|]. intro L. change (last ([] :: l :: ls) []) with (last (l :: ls) []) in L. destruct (IH L) as [->|T]; [now right|]. destruct t; [now right|]. right. exact T.
  - split; [discriminate|]. intro L. destruct ls as [|l' ls]; [discriminate|]. destruct (IH L) as [->|T]; [discriminate E|]. destruct t; [cbn in E; discriminate|]. right. exact T.
Qed.
Lemma block_same : forall t, flush t -> t <> [] -> hd 0 t <> 10 -> last t 0 <> 10 -> block_value t = t.
Proof.
  intros t H Ne Hd La. assert (In' : inner t). { intros a x b E. apply (H (10 :: a) x b). cbn [app]. now rewrite E. }
  assert (St : match t with c :: _ => c <> 32 /\ c <> 9 | [] => True end). { destruct t as [|c t]; auto. apply (H [] c t). reflexivity. }
  destruct (lines_inner t In') as [A B]. specialize (B St). destruct (last_line t) as [_ Ll]. unfold block_value. pose proof (unlines_lines t) as U. destruct (lines_some t) as (l & ls & E). rewrite E in *. cbn [tl hd] in *.
  assert (R : (match common ls with Some n => map (skipn n) ls | None => ls end) = ls). { destruct (common_zero ls A) as [->| ->]; auto. clear. induction ls as [|x ls IH]; [reflexivity|]. cbn [map skipn]. now rewrite IH. }
  rewrite R. assert (F : blank l = false). { destruct (blank l) eqn:Bl; auto. apply blank_empty in Bl; auto. subst l. destruct t as [|c t]; [congruence|]. cbn [lines] in E. cbn [hd] in Hd. apply N.eqb_neq in Hd. rewrite Hd in E. destruct (lines t); discriminate. }
  cbn [drop_blanks]. rewrite F. destruct (rev (l :: ls)) as [|k ks] eqn:Er; [apply (f_equal (@length bytes)) in Er; rewrite rev_length in Er; discriminate|].
  assert (Ek : l :: ls = rev ks ++ [k]). { rewrite <- (rev_involutive (l :: ls)), Er. reflexivity. }
  assert (Fk : blank k = false).
  { destruct (blank k) eqn:Bk; auto. assert (Ik : indent k = O). { assert (I : In k (l :: ls)) by (rewrite Ek; apply in_or_app; right; now left). destruct I as [->|I]; auto. rewrite Forall_forall in A. auto. }
    apply blank_empty in Bk; auto. subst k. assert (L0 : last (l :: ls) [] = []) by (rewrite Ek; apply last_last). destruct (Ll L0); congruence. }
  cbn [drop_blanks]. rewrite Fk, <- Er, rev_involutive. exact U.
Qed.
Lemma block_chars : forall t r, Forall (fun c => ~ In c [0; 13; 34; 92]) t -> inner t -> g_block t (t ++ block_quote ++ r) r.
Proof.
  intros t r F. induction F as [|c t N F IH]; intro H; [apply gb_end|]. cbn [app]. destruct (N.eq_dec c 10) as [->|Nc].
  - apply gb_lf. replace (drop_blank (t ++ block_quote ++ r)) with (t ++ block_quote ++ r); [apply IH; eapply inner_tail; eauto|].
    destruct t as [|x t]; [reflexivity|]. cbn [app drop_blank]. destruct (H [] x t eq_refl) as [A B]. apply N.eqb_neq in A, B. now rewrite A, B.
  - apply gb_plain; [|apply IH; eapply inner_tail; eauto]. cbn [In] in *. intuition.
Qed.
Lemma drop_trail_same : forall c l, c <> 10 -> c <> 13 -> c <> 32 -> drop_trail (c :: l) = c :: l.
Proof. intros c l A B C. cbn. apply N.eqb_neq in A, B, C. now rewrite A, B, C. Qed.
Lemma block_text : forall t, Forall (fun c => ~ In c [0; 13; 34; 92]) t -> flush t -> t <> [] -> hd 0 t <> 10 -> ~ In (last t 0) [10; 32] ->
  g_value (VStr t) ((block_quote ++ t ++ block_quote) ++ bs ")}") (bs ")}").
Proof.
  intros t F H Ne Hd La. assert (In' : inner t). { intros a x b E. apply (H (10 :: a) x b). cbn [app]. now rewrite E. }
  rewrite <- !app_assoc. change (block_quote ++ ?x) with (34 :: 34 :: 34 :: x). eapply gv_str; [apply ign_self; cbv; intuition discriminate|].
  assert (T : trim_end t = t).
  { destruct (exists_last Ne) as (u & c & E). subst t. unfold trim_end. rewrite rev_unit. rewrite last_last in La. cbn [In] in La.
    rewrite Forall_forall in F. assert (Fc : ~ In c [0; 13; 34; 92]) by (apply F; apply in_or_app; right; now left). cbn [In] in Fc.
    rewrite drop_trail_same by (intro; subst; intuition). cbn [rev]. now rewrite rev_involutive. }
  change (34 :: 34 :: 34 :: ?x) with (triple ++ x). rewrite <- T at 1. apply g_string_block.
  replace (drop_white (t ++ block_quote ++ bs ")}")) with (t ++ block_quote ++ bs ")}"); [now apply block_chars|].
  destruct t as [|c t]; [congruence|]. cbn [app drop_white]. inversion F as [|c' t' Fc Ft]; subst. cbn [In] in Fc. cbn [hd] in Hd.
  destruct (H [] c t eq_refl) as [A B]. assert (C : c <> 13) by (intro; subst; intuition). apply N.eqb_neq in A, B, Hd, C. change cSP with 32. change cTAB with 9. change cLF with 10. change cCR with 13. now rewrite A, B, Hd, C.
Qed.
Section Block.
Context {W : Type} (X : externals W) (S : schema) (o : ropts).
Context (f : bytes) (ins : list (option gval)) (infs : list (bytes * (nat * input))) (seen : W -> list gval -> W).
(** a block string without quotes, backslashes and indentation, that neither begins with an empty line nor ends with an empty line or a space *)
Theorem C10_block_partial : forall a i old wr t w, probe X S f ins infs seen -> slot ins infs a i (GString old) wr -> is_string i ->
  valid_name f -> valid_name a -> op_target o = [] -> N.of_nat (length t) < 3000000000 ->
  Forall (fun c => ~ In c [0; 13; 34; 92]) t -> flush t -> t <> [] -> hd 0 t <> 10 -> ~ In (last t 0) [10; 32] ->
  received X S o seen (ask_text f a (block_quote ++ t ++ block_quote)) w (args_with ins infs a (wr (GString (block_value t)))).
Proof.
  intros a i old wr t w P Sl I Vf Va T L F H Ne Hd La. rewrite block_same by (auto; intro E; apply La; rewrite E; cbn; auto). eapply string_received; eauto. apply asks_text; auto; [now apply block_text| |].
  - cbn. intro E. rewrite Forall_forall in F. apply (F _ E). cbn. auto.
  - cbn [enc_value]. unfold enc_tagged, le32. rewrite ?app_length. cbn [length]. lia.
Qed.
End Block.
Print Assumptions C10_block_partial.

(** ** Examples and refutations *)
Definition str_in : input := inp KString 0 (GString []).
Definition str_schema : schema := one_schema str_in (GString []).
(** what the resolver of the example receives *)
Definition gets (q : bytes) : option (notes * nat) :=
  match resolve (note_x FNull) str_schema 100 no_opts (fun _ => (false, GOther)) [] q with RDone _ es _ w => Some (w, length es) | _ => None end.
Definition ask_str (t : bytes) : bytes := ask_text (bs "f") (bs "a") (quote ++ t ++ quote).
Definition ask_block (t : bytes) : bytes := ask_text (bs "f") (bs "a") (block_quote ++ t ++ block_quote).
Lemma str_slot : slot (one_ins (GString [])) (one_infs str_in) (bs "a") str_in (GString []) (fun v => v). Proof. apply one_slot; reflexivity. Qed.
Example C10_case :
  received (note_x FNull) str_schema no_opts note (ask_str (bs "a\n\""\u" ++ bs "00e9 \/")) [] [GStruct [(true, GString ([97; 10; 34; 195; 169; 32; 47]))]] /\
  received (note_x FNull) str_schema no_opts note (ask_block (bs "a b" ++ [10; 10] ++ bs "c	")) [] [GStruct [(true, GString (bs "a b" ++ [10; 10] ++ bs "c	"))]].
Proof.
  split.
  - refine (C10_partial (note_x FNull) str_schema no_opts (bs "f") _ _ note (bs "a") str_in [] (fun v => v) [97; 10; 34; 195; 169; 32; 47] (bs "a\n\""\u" ++ bs "00e9 \/") [] (one_probe _ _ _) str_slot _ f_name a_name eq_refl eq_refl _); [repeat split|].
    apply st_raw; [cbn; intuition discriminate|]. apply st_esc; [cbn; auto 10|]. apply st_esc; [cbn; auto 10|]. change (?a :: ?b :: ?l) with ([a; b] ++ l) at 1. change [195; 169] with (utf8_encode 233).
    apply st_hex; [exists 0, 0, 14, 9; repeat split; reflexivity|unfold scalar; lia|right; discriminate|]. apply st_raw; [cbn; intuition discriminate|]. apply st_esc; [cbn; auto 10|]. constructor.
  - refine (C10_block_partial (note_x FNull) str_schema no_opts (bs "f") _ _ note (bs "a") str_in [] (fun v => v) (bs "a b" ++ [10; 10] ++ bs "c	") [] (one_probe _ _ _) str_slot _ f_name a_name eq_refl eq_refl _ _ _ _ _); try discriminate.
    + repeat split.
    + repeat (apply Forall_cons; [cbv; intuition discriminate|]). apply Forall_nil.
    + intros a c b E. do 8 (destruct a as [|? a]; [try discriminate E; injection E; intros; subst; split; discriminate|injection E; clear E; intros E _]). destruct a; discriminate.
    + cbv. intuition discriminate.
Qed.
(** a pair of surrogates is not decoded: the resolver receives two replacement characters *)
Theorem C10_pair_refuted : exists v t y, str_text true v t /\ gets (ask_str t) = Some ([[GStruct [(true, GString y)]]], O) /\ y <> v.
Proof.
  exists ([240; 159; 152; 128]), (bs "\u" ++ bs "d83d\u" ++ bs "de00"), [239; 191; 189; 239; 191; 189]. split; [|split; [vm_compute; reflexivity|discriminate]].
  change [240; 159; 152; 128] with (utf8_encode (65536 + (55357 - 55296) * 1024 + (56832 - 56320)) ++ []). apply st_pair; auto; [exists 13, 8, 3, 13; repeat split; reflexivity|exists 13, 14, 0, 0; repeat split; reflexivity|lia|lia|constructor].
Qed.
Print Assumptions C10_pair_refuted.
(** U+0000 written as escape ends the string *)
Theorem C10_nul_refuted : exists v t y, str_text true v t /\ gets (ask_str t) = Some ([[GStruct [(true, GString y)]]], O) /\ y <> v.
Proof.
  exists ([97; 0]), (bs "a\u" ++ bs "0000"). eexists. split; [|split; [vm_compute; reflexivity|discriminate]].
  apply st_raw; [cbn; intuition discriminate|]. change [0] with (utf8_encode 0 ++ []). apply st_hex; [exists 0, 0, 0, 0; repeat split; reflexivity|unfold scalar; lia|auto|constructor].
Qed.
Print Assumptions C10_nul_refuted.
(** all indentation of a block string is dropped, not only the common indentation *)
Theorem C10_indent_refuted : exists t y, Forall (fun c => ~ In c [0; 13; 34; 92]) t /\ gets (ask_block t) = Some ([[GStruct [(true, GString y)]]], O) /\ y <> block_value t.
Proof.
  exists ([10] ++ bs "  if" ++ [10] ++ bs "    then" ++ [10]). eexists. split; [|split; [vm_compute; reflexivity|vm_compute; discriminate]].
  repeat (apply Forall_cons; [cbv; intuition discriminate|]). apply Forall_nil.
Qed.
Print Assumptions C10_indent_refuted.

(** ** C46: what comes after U+0000 in a string is executed as instructions *)
Definition nul : bytes := bs "\u" ++ bs "0000".
Definition obj_schema : schema :=
  mk_schema (OObj (bs "Query") [fld "f" (OMethod (Method true (one_ins (GString [])) (one_infs str_in) 0 None (OObj (bs "T") [fld "x" (OData false KBool) 0; fld "y" (OData false KBool) 0]))) 0]) (GStruct []) [] [] [].
Definition obj_x : externals notes :=
  Ext notes (fun w _ a _ => Some (w ++ [a], [GStruct [(true, GBool true)]])) (fun w _ _ _ => Some (w, false)) (fun _ => None) None (fun _ => inl FNull)
    (fun _ => inl 0) (fun _ => 0) (fun _ => bs "bad number") (fun _ => 0) (fun b => b) (fun _ _ => bs "0.0") (fun _ => bs "value").
(** [{f(a:"a\u0000e...."){y}}]: the string ends the arguments and goes on with a selection *)
Definition inject (x : bytes) : bytes := bs "{f(a:" ++ quote ++ bs "a" ++ nul ++ bs "e" ++ x ++ quote ++ bs "){y}}".
Definition obj_run (q : bytes) : rresult notes := resolve obj_x obj_schema 100 no_opts (fun _ => (false, GOther)) [] q.
(** a legal query makes the interpreter read behind the end of the bytecode: the request panics *)
Theorem C46_panic_refuted : exists q d, g_doc d q /\ d <> [] /\ obj_run q = RPanicked.
Proof.
  exists (inject (nul ++ bs "f" ++ nul ++ bs "d" ++ nul ++ nul ++ nul ++ bs "yyyyzabc")). eexists. split; [apply RefGrammar.ref_parse_spec; vm_compute; reflexivity|]. split; [discriminate|vm_compute; reflexivity].
Qed.
Print Assumptions C46_panic_refuted.
(** the document asks for the field y, the answer has the field x that is written inside the string *)
Theorem C46_injected_refuted : exists q s, g_doc [DOp OpQuery [] None [] [SField None (bs "f") [] (Some [(bs "a", VStr s)]) [SField None (bs "y") [] None []]]] q /\
  match obj_run q with RDone out es _ _ => Some (out, length es) | _ => None end = Some (q2 "{'data':{'f':{'x':true}}}", O).
Proof.
  exists (inject (nul ++ bs "f" ++ nul ++ [5] ++ nul ++ nul ++ nul ++ le32 (fnv1 (bs "x")) ++ [1] ++ bs "x" ++ nul ++ nul ++ bs "e")). eexists. split; [apply RefGrammar.ref_parse_spec; vm_compute; reflexivity|]. vm_compute. reflexivity.
Qed.
Print Assumptions C46_injected_refuted.
