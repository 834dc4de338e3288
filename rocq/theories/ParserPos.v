(** * Where errors are reported (proofs)

    A critical error leaves the position of the parser at the place its error names, and
    the line and column of that place are those of the independent description [text_pos]. *)
From Coq Require Import String Arith NArith Bool Lia ZifyBool ZifyN ZifyNat List.
From Verif Require Import Base ParserModel ParserSafe TextPos.
Import ListNotations.
Open Scope N_scope.

(** ** Line and column *)
Lemma text_pos_cons : forall c l line col, line_char c -> text_pos l line col ->
  text_pos (c :: l) line (if line =? 1 then col + 1 else col).
Proof.
  intros c l line col C H. inversion H; subst.
  - cbn [N.eqb Pos.eqb]. replace (N.of_nat (length l) + 1) with (N.of_nat (length (c :: l))) by (cbn [length]; lia). constructor. constructor; auto.
  - replace (line0 + 1 =? 1) with false.
    + apply (tp_line (c :: l0)); auto.
    + symmetry. apply N.eqb_neq. assert (1 <= line0) by (clear -H2; induction H2; lia). lia.
Qed.
Lemma text_pos_line : forall l line col, text_pos l line col -> 1 <= line.
Proof. induction 1; lia. Qed.
Lemma text_pos_fun : forall l line col, text_pos l line col -> forall line' col', text_pos l line' col' -> line = line' /\ col = col'.
Proof.
  assert (T : forall t rest, line_end t rest -> exists c x, t = c :: x /\ ~ line_char c).
  { intros t rest [-> | [-> | [-> _]]]; eexists _, _; split; try reflexivity; unfold line_char; tauto. }
  assert (X : forall l l' c c' x x', Forall line_char l -> Forall line_char l' -> ~ line_char c -> ~ line_char c' -> l ++ c :: x = l' ++ c' :: x' -> l = l' /\ c = c' /\ x = x').
  { induction l as [|a l IH]; intros [|b l'] c c' x x' F F' N N' E; cbn in E.
    - inversion E; auto.
    - inversion E; subst. inversion F'; subst. contradiction.
    - inversion E; subst. inversion F; subst. contradiction.
    - inversion E; subst. inversion F; subst. inversion F'; subst. destruct (IH l' c c' x x') as (-> & -> & ->); auto. }
  induction 1 as [l F|l t rest line col F LE H IH]; intros line' col' H'.
  - remember l as l' eqn:E. revert E. destruct H' as [l' F'|l1 t1 rest1 line1 col1 F1 LE1 H1]; intros E; auto.
    exfalso. destruct (T _ _ LE1) as (c & x & -> & N). subst l. cbn in F. apply Forall_app in F. destruct F as [_ F]. inversion F; subst; auto.
  - remember (l ++ t ++ rest) as l' eqn:E. destruct (T _ _ LE) as (c & x & -> & N). revert E. destruct H' as [l' F'|l1 t1 rest1 line1 col1 F1 LE1 H1]; intros E.
    + exfalso. subst l'. cbn in F'. apply Forall_app in F'. destruct F' as [_ F']. inversion F'; subst; auto.
    + destruct (T _ _ LE1) as (c1 & x1 & -> & N1). cbn in E. apply X in E; auto. destruct E as (-> & -> & E).
      assert (rest1 = rest /\ x1 = x) as [-> ->].
      { destruct LE as [L|[L|[L L']]]; destruct LE1 as [L1|[L1|[L1 L1']]]; inversion L; inversion L1; subst; try discriminate; cbn in E; auto.
        - inversion E; auto.
        - exfalso. eapply L1'; eauto.
        - exfalso. eapply L'; eauto. }
      destruct (IH _ _ H1). subst. auto.
Qed.

Definition after_cr (prev : option N) (col : N) (idx : nat) : bool :=
  (col =? 0) && Nat.ltb 0 idx && match prev with Some p => p =? cCR | None => false end.
Definition strip_lf (a : bool) (l : bytes) : bytes :=
  match l with c :: r => if a && (c =? cLF) then r else l | [] => [] end.
Lemma loc_loop_spec : forall l idx k prev line col,
  exists dl dc, text_pos (strip_lf (after_cr prev col idx) (firstn k l)) dl dc /\
  loc_loop l idx (idx + k) prev line col = (line + dl - 1, if dl =? 1 then col + dc else dc).
Proof.
  induction l as [|c l IH]; intros idx k prev line col.
  - exists 1, 0. rewrite firstn_nil. split; [apply tp_last; constructor|]. cbn. f_equal; lia.
  - destruct k as [|k].
    { exists 1, 0. cbn [firstn strip_lf]. split; [apply (tp_last []); constructor|]. cbn [loc_loop].
      replace (idx =? idx + 0)%nat with true by lia. cbn [N.eqb Pos.eqb]. f_equal; lia. }
    cbn [loc_loop firstn strip_lf]. replace (idx =? idx + S k)%nat with false by lia. replace (idx + S k)%nat with (S idx + k)%nat by lia.
    fold (after_cr prev col idx). destruct (c =? cLF) eqn:E1.
    + apply N.eqb_eq in E1. subst c. destruct (after_cr prev col idx) eqn:AC; cbn [andb].
      * destruct (IH (S idx) k (Some cLF) line col) as (dl & dc & T & E). exists dl, dc. split; auto.
        revert T. unfold after_cr. replace (cLF =? cCR) with false by reflexivity. rewrite andb_false_r. destruct (firstn k l); auto.
      * destruct (IH (S idx) k (Some cLF) (line + 1) 0) as (dl & dc & T & E). exists (dl + 1), dc.
        assert (T' : text_pos (firstn k l) dl dc).
        { revert T. unfold after_cr. replace (cLF =? cCR) with false by reflexivity. rewrite andb_false_r. destruct (firstn k l); auto. }
        pose proof (text_pos_line _ _ _ T'). split.
        { apply (tp_line [] [cLF]); auto. left. auto. }
        rewrite E. replace (dl + 1 =? 1) with false by lia. f_equal; [lia|]. destruct (dl =? 1); lia.
    + rewrite andb_false_r. destruct (c =? cCR) eqn:E2.
      * apply N.eqb_eq in E2. subst c. destruct (IH (S idx) k (Some cCR) (line + 1) 0) as (dl & dc & T & E). exists (dl + 1), dc.
        pose proof (text_pos_line _ _ _ T). split.
        { revert T. unfold after_cr. cbn [N.eqb Pos.eqb Nat.ltb Nat.leb andb]. destruct (firstn k l) as [|c r]; cbn [strip_lf andb]; intros T.
          - apply (tp_line [] [cCR] []); auto. right. right. split; auto. discriminate.
          - destruct (c =? cLF) eqn:E3.
            + apply N.eqb_eq in E3. subst c. apply (tp_line [] [cCR; cLF]); auto. right. left. auto.
            + apply (tp_line [] [cCR]); auto. right. right. split; auto. intros r' EE. inversion EE. subst. cbn in E3. discriminate. }
        rewrite E. replace (dl + 1 =? 1) with false by lia. f_equal; [lia|]. destruct (dl =? 1); lia.
      * destruct (IH (S idx) k (Some c) line (col + 1)) as (dl & dc & T & E). exists dl, (if dl =? 1 then dc + 1 else dc).
        split.
        { apply text_pos_cons; [unfold line_char; lia|]. revert T. unfold after_cr. rewrite E2, andb_false_r. destruct (firstn k l); auto. }
        rewrite E. f_equal. destruct (dl =? 1); lia.
Qed.
Theorem loc_text_pos : forall q p line col, loc_loop q 0 p None 1 0 = (line, col) -> text_pos (firstn p q) line col.
Proof.
  intros q p line col H. destruct (loc_loop_spec q 0 p None 1 0) as (dl & dc & T & E). cbn [Nat.add] in E.
  replace (after_cr None 0 0) with false in T by reflexivity.
  assert (T' : text_pos (firstn p q) dl dc) by (revert T; destruct (firstn p q); auto).
  pose proof (text_pos_line _ _ _ T'). assert (line = dl) by (rewrite E in H; apply (f_equal fst) in H; cbv beta iota delta [fst] in H; lia).
  assert (col = dc) by (rewrite E in H; apply (f_equal snd) in H; cbv beta iota delta [snd] in H; destruct (dl =? 1); lia). subst. auto.
Qed.

(** ** A critical error stops where its error points *)
Section Cpos.
Variable q : bytes.
Variable target : option bytes.
Definition here (s : pst) : Prop :=
  exists e es, p_errs s = es ++ [e] /\ loc_loop q 0 (p_pos s) None 1 0 = (e_line e, e_col e).
Definition cpos {A} (m : M A) : Prop := forall s, match m s with Crit s' => here s' | _ => True end.
Lemma cpos_bind : forall A B (m : M A) (k : A -> M B), cpos m -> (forall a, cpos (k a)) -> cpos (bind m k).
Proof. unfold cpos, bind. intros. specialize (H s). destruct (m s); auto. apply H0. Qed.
Lemma cpos_ret : forall A (a : A), cpos (ret a). Proof. unfold cpos; simpl; auto. Qed.
Lemma cpos_append : forall b, cpos (append b). Proof. unfold cpos; simpl; auto. Qed.
Lemma cpos_res_len : cpos res_len. Proof. unfold cpos; simpl; auto. Qed.
Lemma cpos_advance : cpos advance. Proof. unfold cpos; simpl; auto. Qed.
Lemma cpos_retreat : cpos retreat. Proof. unfold cpos; simpl; auto. Qed.
Lemma cpos_get_pos : cpos get_pos. Proof. unfold cpos; simpl; auto. Qed.
Lemma cpos_put_pos : forall n, cpos (put_pos n). Proof. unfold cpos; simpl; auto. Qed.
Lemma cpos_store : forall n v, cpos (store n v).
Proof. unfold cpos, store; intros. destruct (upd (p_res s) n v); simpl; auto. Qed.
Lemma cpos_peek : cpos (peek q). Proof. unfold cpos; simpl; auto. Qed.
Lemma cpos_peek_next : cpos (peek_next q). Proof. unfold cpos; simpl; auto. Qed.
Lemma cpos_current : cpos (current_c q).
Proof. unfold cpos, current_c; intros. destruct (check_c q (p_pos s)); auto. Qed.
Lemma cpos_err : forall A m, cpos (@err q A m).
Proof.
  unfold cpos, err; intros. destruct (loc_loop _ _ _ _ _ _) eqn:E. unfold here. cbn. eexists _, _. split; [reflexivity|]. cbn. exact E.
Qed.
Lemma cpos_no_fuel : forall A, cpos (@no_fuel A). Proof. unfold cpos; simpl; auto. Qed.
Lemma cpos_catch : forall m, cpos (catch m).
Proof. unfold cpos, catch; intros. destruct (m s); auto. Qed.
Lemma cpos_panic : forall A, cpos (fun s => @Panic A). Proof. unfold cpos; simpl; auto. Qed.
Lemma cpos_trim_end : cpos block_trim_end.
Proof. unfold cpos, block_trim_end; intros. destruct (trim_rev _); simpl; auto. Qed.
Lemma cpos_drop12 : cpos drop12.
Proof. unfold cpos, drop12; intros. destruct (_ <=? _)%nat; simpl; auto. Qed.
Lemma cpos_from : forall n, cpos (res_from n). Proof. unfold cpos; simpl; auto. Qed.
Lemma cpos_target : forall n, cpos (set_target n). Proof. unfold cpos; simpl; auto. Qed.
Lemma cpos_push : cpos push_fragment. Proof. unfold cpos; simpl; auto. Qed.

Create HintDb cpos.
Ltac cpos :=
  repeat (cbv zeta;
  lazymatch goal with
  | |- forall _, _ => intro
  | |- cpos (bind _ _) => apply cpos_bind
  | |- cpos (ret _) => apply cpos_ret
  | |- cpos (append _) => apply cpos_append
  | |- cpos res_len => apply cpos_res_len
  | |- cpos advance => apply cpos_advance
  | |- cpos retreat => apply cpos_retreat
  | |- cpos get_pos => apply cpos_get_pos
  | |- cpos (put_pos _) => apply cpos_put_pos
  | |- cpos (store _ _) => apply cpos_store
  | |- cpos (peek _) => apply cpos_peek
  | |- cpos (peek_next _) => apply cpos_peek_next
  | |- cpos (current_c _) => apply cpos_current
  | |- cpos (err _ _) => apply cpos_err
  | |- cpos no_fuel => apply cpos_no_fuel
  | |- cpos (catch _) => apply cpos_catch
  | |- cpos (fun s => Panic) => apply cpos_panic
  | |- cpos (if ?b then _ else _) => destruct b
  | |- cpos (match ?b with _ => _ end) => destruct b
  | |- cpos _ => solve [auto with cpos]
  end).

Lemma cpos_write32 : forall v n, cpos (write32 v n). Proof. unfold write32. cpos. Qed.
Lemma cpos_hash : forall a b c, cpos (hash_name a b c).
Proof.
  unfold cpos, hash_name; intros. destruct (_ <=? _)%nat; auto. apply cpos_write32.
Qed.
Hint Resolve cpos_write32 cpos_hash cpos_trim_end cpos_drop12 cpos_from cpos_target cpos_push : cpos.


Lemma cpos_eof : forall A, cpos (@unexpected_eof q A). Proof. unfold unexpected_eof. cpos. Qed.
Lemma cpos_err_cur : forall A a b, cpos (@err_cur q A a b). Proof. unfold err_cur. cpos. Qed.
Hint Resolve cpos_eof cpos_err_cur : cpos.
Lemma cpos_line_term : cpos (is_line_terminator q). Proof. unfold is_line_terminator. cpos. Qed.
Hint Resolve cpos_line_term : cpos.
Lemma cpos_comment : forall f, cpos (parse_comment q f). Proof. induction f; simpl; cpos. Qed.
Hint Resolve cpos_comment : cpos.
Lemma cpos_is_comment : cpos (is_comment q). Proof. unfold is_comment. cpos. Qed.
Hint Resolve cpos_is_comment : cpos.
Lemma cpos_ignored : forall c, cpos (is_ignored_token q c). Proof. unfold is_ignored_token. cpos. Qed.
Hint Resolve cpos_ignored : cpos.
Lemma cpos_skip : forall f, cpos (skip_ignored_loop q f). Proof. induction f; simpl; cpos. Qed.
Lemma cpos_might : cpos (might_ignore q). Proof. apply cpos_skip. Qed.
Hint Resolve cpos_might : cpos.
Lemma cpos_next_token : cpos (next_token q). Proof. unfold next_token. cpos. Qed.
Lemma cpos_next_char : cpos (next_char q). Proof. unfold next_char. cpos. Qed.
Hint Resolve cpos_next_token cpos_next_char : cpos.
Lemma cpos_matches1_loop : forall key s, cpos (matches1_loop q s key).
Proof. induction key; intros; cbn [matches1_loop]; cpos. Qed.
Hint Resolve cpos_matches1_loop : cpos.
Lemma cpos_matches1 : forall k, cpos (matches1 q k). Proof. unfold matches1. cpos. Qed.
Hint Resolve cpos_matches1 : cpos.
Lemma cpos_matchesN_loop : forall f s k l, cpos (matchesN_loop q f s k l).
Proof.
  induction f; intros; cbn [matchesN_loop]; cpos.
Qed.
Hint Resolve cpos_matchesN_loop : cpos.
Lemma cpos_matchesN : forall k, cpos (matchesN q k). Proof. unfold matchesN. cpos. Qed.
Lemma cpos_word_check : forall A s (a b : A), cpos (word_check q s a b). Proof. unfold word_check. cpos. Qed.
Hint Resolve cpos_matchesN cpos_word_check : cpos.
Lemma cpos_word1 : forall k, cpos (matches_word1 q k). Proof. unfold matches_word1. cpos. Qed.
Lemma cpos_wordN : forall k, cpos (matches_wordN q k). Proof. unfold matches_wordN. cpos. Qed.
Lemma cpos_name_loop : forall f n, cpos (name_loop q f n). Proof. induction f; intros; cbn [name_loop]; cpos. Qed.
Hint Resolve cpos_word1 cpos_wordN cpos_name_loop : cpos.
Lemma cpos_name : cpos (parse_name q). Proof. unfold parse_name. cpos. Qed.
Lemma cpos_write_len : forall a b, cpos (write_len a b). Proof. unfold write_len. cpos. Qed.
Hint Resolve cpos_name cpos_write_len : cpos.
Lemma cpos_num_int : forall f c, cpos (num_int_loop q f c). Proof. induction f; intros; cbn [num_int_loop]; cpos. Qed.
Lemma cpos_num_frac : forall f, cpos (num_frac_loop q f). Proof. induction f; intros; cbn [num_frac_loop]; cpos. Qed.
Lemma cpos_num_exp : forall f c, cpos (num_exp_loop q f c). Proof. induction f; intros; cbn [num_exp_loop]; cpos. Qed.
Hint Resolve cpos_num_int cpos_num_frac cpos_num_exp : cpos.
Ltac insts := unfold inst_operation, inst_operation_args, inst_operation_arg, inst_fragment, inst_field, inst_spread,
  inst_directive, inst_value, inst_bool, inst_object_field, inst_end.
Lemma cpos_number : cpos (parse_number q). Proof. unfold parse_number. insts. cpos. Qed.
Lemma cpos_trim_start : forall f, cpos (block_trim_start q f). Proof. induction f; intros; cbn [block_trim_start]; cpos. Qed.
Lemma cpos_trim_line : forall f, cpos (block_trim_line q f). Proof. induction f; intros; cbn [block_trim_line]; cpos. Qed.
Lemma cpos_unicode : cpos (unicode_escape q). Proof. unfold unicode_escape. cpos. Qed.
Hint Resolve cpos_number cpos_trim_start cpos_trim_line cpos_unicode : cpos.
Lemma cpos_escape : cpos (string_escape q). Proof. unfold string_escape. cpos. Qed.
Hint Resolve cpos_escape : cpos.
Lemma cpos_string_loop : forall f b s, cpos (string_loop q f b s). Proof. induction f; intros; cbn [string_loop]; cpos. Qed.
Hint Resolve cpos_string_loop : cpos.
Lemma cpos_string : cpos (parse_string q). Proof. unfold parse_string. insts. cpos. Qed.
Hint Resolve cpos_string : cpos.
Lemma cpos_value_all : forall f, cpos (parse_value q f) /\ (forall s, cpos (parse_list q f s)) /\
  (forall c, cpos (parse_assignments q f c)) /\ (forall c s, cpos (parse_assignment_list q f c s)).
Proof.
  induction f as [|f (IH1 & IH2 & IH3 & IH4)]; [repeat split; intros; apply cpos_no_fuel|].
  repeat split; intros; cbn [parse_value parse_list parse_assignments parse_assignment_list]; insts; cpos; fail.
Qed.
Lemma cpos_value : forall f, cpos (parse_value q f). Proof. intros. apply cpos_value_all. Qed.
Lemma cpos_list : forall f s, cpos (parse_list q f s). Proof. intros f. apply cpos_value_all. Qed.
Lemma cpos_assignments : forall f s, cpos (parse_assignments q f s). Proof. intros f. apply cpos_value_all. Qed.
Lemma cpos_assignment_list : forall f c s, cpos (parse_assignment_list q f c s). Proof. intros f. apply cpos_value_all. Qed.
Hint Resolve cpos_value cpos_list cpos_assignments cpos_assignment_list : cpos.
(** directives: a critical error is handed on as a pair *)
Definition cposd (m : M (N * bool)) : Prop := forall s, match m s with Crit s' => here s' | Ok (_, true) s' => here s' | _ => True end.
Lemma cposd_bind : forall A (m : M A) k, cpos m -> (forall a, cposd (k a)) -> cposd (bind m k).
Proof. unfold cpos, cposd, bind. intros. specialize (H s). destruct (m s); auto. apply H0. Qed.
Lemma cposd_count : forall n c m k, cpos m -> (forall b, cposd (k b)) -> (forall s, k true s = Ok (c, true) s) -> cposd (bind (with_count n m) k).
Proof.
  unfold cpos, cposd, bind, with_count. intros n c m k C K T s. specialize (C s). destruct (m s); auto. apply K. rewrite T. auto.
Qed.
Lemma cposd_count0 : forall n m, cpos m -> cposd (crit <- with_count n m ;; ret (n, crit)).
Proof. unfold cpos, cposd, bind, with_count. intros n m C s. specialize (C s). destruct (m s); simpl; auto. Qed.
Lemma cposd_count1 : forall n m f, cpos m -> cposd f -> cposd (crit <- with_count n m ;; if crit : bool then ret (n, true) else f).
Proof. unfold cpos, cposd, bind, with_count. intros n m f C F s. specialize (C s). destruct (m s); simpl; auto. apply F. Qed.
Lemma cposd_ret : forall n, cposd (ret (n, false)). Proof. unfold cposd; simpl; auto. Qed.
Lemma cpos_directives_loop : forall f n, cposd (directives_loop q f n).
Proof.
  induction f; intros; cbn [directives_loop]; [intros s; simpl; auto|].
  apply cposd_bind; [cpos|]. intros [c|]; [|apply cposd_count0; cpos].
  destruct (negb _); [apply cposd_ret|]. destruct (n =? 255); [apply cposd_count0; cpos|]. cbv zeta.
  apply cposd_bind; [cpos|]. intros _. insts. apply cposd_bind; [cpos|]. intros _. apply cposd_bind; [cpos|]. intros l.
  apply cposd_count1; [cpos|]. apply IHf.
Qed.
Lemma cpos_directives : forall f n, cpos (parse_directives q f n).
Proof.
  intros. unfold parse_directives, finally. apply cpos_bind; [|cpos]. intros s. pose proof (cpos_directives_loop f 0 s) as H. unfold bind.
  destruct (directives_loop q f 0 s) as [[k []] s'| | |]; auto; unfold store; destruct (upd (p_res s') n k); auto.
Qed.
Lemma cpos_opt_comma : forall c, cpos (opt_comma q c). Proof. unfold opt_comma. cpos. Qed.
Hint Resolve cpos_directives cpos_opt_comma : cpos.
Lemma cpos_selection_all : forall f, cpos (parse_selection_set q f) /\ cpos (selection_loop q f).
Proof.
  induction f as [|f (IH1 & IH2)]; [split; apply cpos_no_fuel|].
  split; cbn [parse_selection_set selection_loop]; insts.
  - cpos.
  - match goal with |- context [catch (?F f)] => change F with (parse_selection_set q) end. cpos.
Qed.
Lemma cpos_selection_set : forall f, cpos (parse_selection_set q f). Proof. apply cpos_selection_all. Qed.
Lemma cpos_selection_loop : forall f, cpos (selection_loop q f). Proof. apply cpos_selection_all. Qed.
Hint Resolve cpos_selection_set cpos_selection_loop : cpos.
Lemma cpos_type : forall f c, cpos (parse_type q f c). Proof. induction f; intros; cbn [parse_type]; cpos. Qed.
Hint Resolve cpos_type : cpos.
Lemma cpos_operator_arg : forall f, cpos (parse_operator_arg q f). Proof. intros. unfold parse_operator_arg. insts. cpos. Qed.
Hint Resolve cpos_operator_arg : cpos.
Lemma cpos_operator_args : forall f, cpos (operator_args_loop q f). Proof. induction f; cbn [operator_args_loop]; insts; cpos. Qed.
Hint Resolve cpos_operator_args : cpos.
Lemma cpos_operation_header : forall f s k, cpos (parse_operation_header q target f s k).
Proof. intros. unfold parse_operation_header, parse_operator_args. insts. cpos. Qed.
Lemma cpos_fragment_header : cpos (parse_fragment_header q). Proof. unfold parse_fragment_header. insts. cpos. Qed.
Hint Resolve cpos_operation_header cpos_fragment_header : cpos.
Lemma cpos_definition : forall f, cpos (parse_definition q target f). Proof. intros. unfold parse_definition. insts. cpos. Qed.
Hint Resolve cpos_definition : cpos.
Lemma cpos_definitions : forall n f, cpos (definitions_loop q target n f). Proof. induction n; intros; cbn [definitions_loop]; cpos. Qed.

Lemma parse_stop : forall s, parse_query q target = Parsed s -> here s \/ (length q <= p_pos s)%nat.
Proof.
  unfold parse_query. intros s. pose proof (cpos_definitions (char_fuel q) (value_fuel q) init_pst) as H.
  destruct (definitions_loop _ _ _ _ _) eqn:E; intros EE; inversion EE; subst; auto. right. clear EE H.
  revert E. generalize (char_fuel q) at 1. generalize init_pst. intros s0 n. revert s0. induction n; intros s0 E; [discriminate|].
  cbn [definitions_loop] in E. unfold bind in E. destruct (parse_definition q target (value_fuel q) s0) as [[] s1| | |] eqn:D; try discriminate; eauto.
  simpl in E. inversion E; subst. clear E IHn.
  unfold parse_definition, bind in D. destruct (might_ignore q s0) as [[c|] s2| | |] eqn:MI; try discriminate.
  - exfalso. cbv [res_len advance inst_end append ret] in D. cbv beta iota in D.
    repeat (match type of D with (match ?x with _ => _ end) = _ => destruct x; try discriminate end).
  - simpl in D. inversion D; subst. clear D. unfold might_ignore in MI. revert MI. generalize (char_fuel q). intros n0. revert s0.
    induction n0; intros s0 MI; [discriminate|]. cbn [skip_ignored_loop] in MI. unfold bind, peek in MI.
    destruct (check_c q (p_pos s0)) as [c|] eqn:CC.
    + destruct (is_ignored_token q c s0) as [[] s3| | |]; try discriminate; eauto. cbn in MI. eauto.
    + simpl in MI. inversion MI; subst. now apply nth_error_None.
Qed.
End Cpos.
