(** * The parser model never forgets an error (proofs) *)
From Coq Require Import String Arith NArith Bool Lia ZifyBool ZifyN ZifyNat List.
From Verif Require Import Base ParserModel.
Import ListNotations.
Open Scope N_scope.

Definition nerrs (s : pst) : nat := length (p_errs s).
Definition mono {A} (m : M A) : Prop :=
  forall s, match m s with Ok _ s' => nerrs s <= nerrs s' | Crit s' => nerrs s <= nerrs s' | _ => True end%nat.
(** [bad n o]: more than [n] errors were reported *)
Definition bad {A} (n : nat) (o : out A) : Prop :=
  match o with Ok _ s' => n < nerrs s' | Crit s' => n < nerrs s' | _ => True end%nat.

Lemma mono_bind : forall A B (m : M A) (k : A -> M B), mono m -> (forall a, mono (k a)) -> mono (bind m k).
Proof.
  unfold mono, bind. intros. specialize (H s). destruct (m s); auto. specialize (H0 a s0). destruct (k a s0); auto; lia.
Qed.
Lemma bad_bind : forall A B n (m : M A) (k : A -> M B) s, bad n (m s) -> (forall a, mono (k a)) -> bad n (bind m k s).
Proof.
  unfold bad, bind. intros. destruct (m s); auto. specialize (H0 a s0). destruct (k a s0); auto; lia.
Qed.
Lemma mono_ret : forall A (a : A), mono (ret a). Proof. unfold mono; simpl; auto. Qed.
Lemma mono_append : forall b, mono (append b). Proof. unfold mono; simpl; auto. Qed.
Lemma mono_res_len : mono res_len. Proof. unfold mono; simpl; auto. Qed.
Lemma mono_advance : mono advance. Proof. unfold mono; simpl; auto. Qed.
Lemma mono_retreat : mono retreat. Proof. unfold mono; simpl; auto. Qed.
Lemma mono_get_pos : mono get_pos. Proof. unfold mono; simpl; auto. Qed.
Lemma mono_put_pos : forall n, mono (put_pos n). Proof. unfold mono; simpl; auto. Qed.
Lemma mono_store : forall n v, mono (store n v).
Proof. unfold mono, store; intros. destruct (upd (p_res s) n v); simpl; auto. Qed.
Lemma mono_peek : forall q, mono (peek q). Proof. unfold mono; simpl; auto. Qed.
Lemma mono_peek_next : forall q, mono (peek_next q). Proof. unfold mono; simpl; auto. Qed.
Lemma mono_current : forall q, mono (current_c q).
Proof. unfold mono, current_c; intros. destruct (check_c q (p_pos s)); auto. Qed.
Lemma mono_err : forall A q m, mono (@err q A m).
Proof. unfold mono, err; intros. destruct (loc_loop _ _ _ _ _ _). unfold nerrs; simpl. rewrite app_length; lia. Qed.
Lemma bad_err : forall A q m s, bad (nerrs s) (@err q A m s).
Proof. unfold bad, err; intros. destruct (loc_loop _ _ _ _ _ _). unfold nerrs; simpl. rewrite app_length; simpl; lia. Qed.
Lemma mono_no_fuel : forall A, mono (@no_fuel A). Proof. unfold mono; simpl; auto. Qed.
Lemma mono_catch : forall m, mono m -> mono (catch m).
Proof. unfold mono, catch; intros. specialize (H s). destruct (m s); auto. Qed.
Lemma mono_with_count : forall n m, mono m -> mono (with_count n m).
Proof. unfold mono, with_count; intros. specialize (H s). destruct (m s); auto. Qed.
Lemma mono_crit : forall A, mono (fun s => @Crit A s). Proof. unfold mono; simpl; auto. Qed.
Lemma mono_panic : forall A, mono (fun s => @Panic A). Proof. unfold mono; simpl; auto. Qed.
Lemma mono_trim_end : mono block_trim_end.
Proof. unfold mono, block_trim_end; intros. destruct (trim_rev _); simpl; auto. Qed.
Lemma mono_drop12 : mono drop12.
Proof. unfold mono, drop12; intros. destruct (_ <=? _)%nat; simpl; auto. Qed.
Lemma mono_from : forall n, mono (res_from n). Proof. unfold mono; simpl; auto. Qed.
Lemma mono_target : forall n, mono (set_target n). Proof. unfold mono; simpl; auto. Qed.
Lemma mono_push : mono push_fragment. Proof. unfold mono; simpl; auto. Qed.

Create HintDb mono.
Ltac mono :=
  repeat (cbv zeta;
  lazymatch goal with
  | |- forall _, _ => intro
  | |- mono (bind _ _) => apply mono_bind
  | |- mono (ret _) => apply mono_ret
  | |- mono (append _) => apply mono_append
  | |- mono res_len => apply mono_res_len
  | |- mono advance => apply mono_advance
  | |- mono retreat => apply mono_retreat
  | |- mono get_pos => apply mono_get_pos
  | |- mono (put_pos _) => apply mono_put_pos
  | |- mono (store _ _) => apply mono_store
  | |- mono (peek _) => apply mono_peek
  | |- mono (peek_next _) => apply mono_peek_next
  | |- mono (current_c _) => apply mono_current
  | |- mono (err _ _) => apply mono_err
  | |- mono no_fuel => apply mono_no_fuel
  | |- mono (catch _) => apply mono_catch
  | |- mono (with_count _ _) => apply mono_with_count
  | |- mono (fun s => Crit s) => apply mono_crit
  | |- mono (fun s => Panic) => apply mono_panic
  | |- mono (if ?b then _ else _) => destruct b
  | |- mono (match ?b with _ => _ end) => destruct b
  | |- mono _ => solve [auto with mono]
  end).

Lemma mono_write32 : forall v n, mono (write32 v n). Proof. unfold write32. mono. Qed.
Lemma mono_hash : forall a b c, mono (hash_name a b c).
Proof.
  unfold mono, hash_name; intros. destruct (_ <=? _)%nat; auto. apply mono_write32.
Qed.
#[export] Hint Resolve mono_write32 mono_hash mono_trim_end mono_drop12 mono_from mono_target mono_push : mono.

Section Mono.
Variable q : bytes.
Variable target : option bytes.

Lemma mono_eof : forall A, mono (@unexpected_eof q A). Proof. unfold unexpected_eof. mono. Qed.
Lemma mono_err_cur : forall A a b, mono (@err_cur q A a b). Proof. unfold err_cur. mono. Qed.
Hint Resolve mono_eof mono_err_cur : mono.
Lemma mono_line_term : mono (is_line_terminator q). Proof. unfold is_line_terminator. mono. Qed.
Hint Resolve mono_line_term : mono.
Lemma mono_comment : forall f, mono (parse_comment q f). Proof. induction f; simpl; mono. Qed.
Hint Resolve mono_comment : mono.
Lemma mono_is_comment : mono (is_comment q). Proof. unfold is_comment. mono. Qed.
Hint Resolve mono_is_comment : mono.
Lemma mono_ignored : forall c, mono (is_ignored_token q c). Proof. unfold is_ignored_token. mono. Qed.
Hint Resolve mono_ignored : mono.
Lemma mono_skip : forall f, mono (skip_ignored_loop q f). Proof. induction f; simpl; mono. Qed.
Lemma mono_might : mono (might_ignore q). Proof. apply mono_skip. Qed.
Hint Resolve mono_might : mono.
Lemma mono_next_token : mono (next_token q). Proof. unfold next_token. mono. Qed.
Lemma mono_next_char : mono (next_char q). Proof. unfold next_char. mono. Qed.
Hint Resolve mono_next_token mono_next_char : mono.
Lemma mono_matches1_loop : forall key s, mono (matches1_loop q s key).
Proof. induction key; intros; cbn [matches1_loop]; mono. Qed.
Hint Resolve mono_matches1_loop : mono.
Lemma mono_matches1 : forall k, mono (matches1 q k). Proof. unfold matches1. mono. Qed.
Hint Resolve mono_matches1 : mono.
Lemma mono_matchesN_loop : forall f s k l, mono (matchesN_loop q f s k l).
Proof.
  induction f; intros; cbn [matchesN_loop]; mono.
Qed.
Hint Resolve mono_matchesN_loop : mono.
Lemma mono_matchesN : forall k, mono (matchesN q k). Proof. unfold matchesN. mono. Qed.
Lemma mono_word_check : forall A s (a b : A), mono (word_check q s a b). Proof. unfold word_check. mono. Qed.
Hint Resolve mono_matchesN mono_word_check : mono.
Lemma mono_word1 : forall k, mono (matches_word1 q k). Proof. unfold matches_word1. mono. Qed.
Lemma mono_wordN : forall k, mono (matches_wordN q k). Proof. unfold matches_wordN. mono. Qed.
Lemma mono_name_loop : forall f n, mono (name_loop q f n). Proof. induction f; intros; cbn [name_loop]; mono. Qed.
Hint Resolve mono_word1 mono_wordN mono_name_loop : mono.
Lemma mono_name : mono (parse_name q). Proof. unfold parse_name. mono. Qed.
Lemma mono_write_len : forall a b, mono (write_len a b). Proof. unfold write_len. mono. Qed.
Hint Resolve mono_name mono_write_len : mono.
Lemma mono_num_int : forall f c, mono (num_int_loop q f c). Proof. induction f; intros; cbn [num_int_loop]; mono. Qed.
Lemma mono_num_frac : forall f, mono (num_frac_loop q f). Proof. induction f; intros; cbn [num_frac_loop]; mono. Qed.
Lemma mono_num_exp : forall f c, mono (num_exp_loop q f c). Proof. induction f; intros; cbn [num_exp_loop]; mono. Qed.
Hint Resolve mono_num_int mono_num_frac mono_num_exp : mono.
Ltac insts := unfold inst_operation, inst_operation_args, inst_operation_arg, inst_fragment, inst_field, inst_spread,
  inst_directive, inst_value, inst_bool, inst_object_field, inst_end.
Lemma mono_number : mono (parse_number q). Proof. unfold parse_number. insts. mono. Qed.
Lemma mono_trim_start : forall f, mono (block_trim_start q f). Proof. induction f; intros; cbn [block_trim_start]; mono. Qed.
Lemma mono_trim_line : forall f, mono (block_trim_line q f). Proof. induction f; intros; cbn [block_trim_line]; mono. Qed.
Lemma mono_unicode : mono (unicode_escape q). Proof. unfold unicode_escape. mono. Qed.
Hint Resolve mono_number mono_trim_start mono_trim_line mono_unicode : mono.
Lemma mono_escape : mono (string_escape q). Proof. unfold string_escape. mono. Qed.
Hint Resolve mono_escape : mono.
Lemma mono_string_loop : forall f b s, mono (string_loop q f b s). Proof. induction f; intros; cbn [string_loop]; mono. Qed.
Hint Resolve mono_string_loop : mono.
Lemma mono_string : mono (parse_string q). Proof. unfold parse_string. insts. mono. Qed.
Hint Resolve mono_string : mono.
Lemma mono_value_all : forall f, mono (parse_value q f) /\ (forall s, mono (parse_list q f s)) /\
  (forall c, mono (parse_assignments q f c)) /\ (forall c s, mono (parse_assignment_list q f c s)).
Proof.
  induction f as [|f (IH1 & IH2 & IH3 & IH4)]; [repeat split; intros; apply mono_no_fuel|].
  repeat split; intros; cbn [parse_value parse_list parse_assignments parse_assignment_list]; insts; mono; fail.
Qed.
Lemma mono_value : forall f, mono (parse_value q f). Proof. intros. apply mono_value_all. Qed.
Lemma mono_list : forall f s, mono (parse_list q f s). Proof. intros f. apply mono_value_all. Qed.
Lemma mono_assignments : forall f s, mono (parse_assignments q f s). Proof. intros f. apply mono_value_all. Qed.
Lemma mono_assignment_list : forall f c s, mono (parse_assignment_list q f c s). Proof. intros f. apply mono_value_all. Qed.
Hint Resolve mono_value mono_list mono_assignments mono_assignment_list : mono.
Lemma mono_directives_loop : forall f n, mono (directives_loop q f n).
Proof. induction f; intros; cbn [directives_loop]; insts; mono. Qed.
Hint Resolve mono_directives_loop : mono.
Lemma mono_directives : forall f n, mono (parse_directives q f n).
Proof. intros. unfold parse_directives, finally. mono. Qed.
Lemma mono_opt_comma : forall c, mono (opt_comma q c). Proof. unfold opt_comma. mono. Qed.
Hint Resolve mono_directives mono_opt_comma : mono.
Lemma mono_selection_all : forall f, mono (parse_selection_set q f) /\ mono (selection_loop q f).
Proof.
  induction f as [|f (IH1 & IH2)]; [split; apply mono_no_fuel|].
  split; cbn [parse_selection_set selection_loop]; insts.
  - mono.
  - match goal with |- context [catch (?F f)] => change F with (parse_selection_set q) end. mono.
Qed.
Lemma mono_selection_set : forall f, mono (parse_selection_set q f). Proof. apply mono_selection_all. Qed.
Lemma mono_selection_loop : forall f, mono (selection_loop q f). Proof. apply mono_selection_all. Qed.
Hint Resolve mono_selection_set mono_selection_loop : mono.
Lemma mono_type : forall f c, mono (parse_type q f c). Proof. induction f; intros; cbn [parse_type]; mono. Qed.
Hint Resolve mono_type : mono.
Lemma mono_operator_arg : forall f, mono (parse_operator_arg q f). Proof. intros. unfold parse_operator_arg. insts. mono. Qed.
Hint Resolve mono_operator_arg : mono.
Lemma mono_operator_args : forall f, mono (operator_args_loop q f). Proof. induction f; cbn [operator_args_loop]; insts; mono. Qed.
Hint Resolve mono_operator_args : mono.
Lemma mono_operation_header : forall f s k, mono (parse_operation_header q target f s k).
Proof. intros. unfold parse_operation_header, parse_operator_args. insts. mono. Qed.
Lemma mono_fragment_header : mono (parse_fragment_header q). Proof. unfold parse_fragment_header. insts. mono. Qed.
Hint Resolve mono_operation_header mono_fragment_header : mono.
Lemma mono_definition : forall f, mono (parse_definition q target f). Proof. intros. unfold parse_definition. insts. mono. Qed.
Hint Resolve mono_definition : mono.
Lemma mono_definitions : forall n f, mono (definitions_loop q target n f). Proof. induction n; intros; cbn [definitions_loop]; mono. Qed.
End Mono.
#[export] Hint Resolve mono_eof mono_err_cur mono_line_term mono_comment mono_is_comment mono_ignored mono_might
  mono_next_token mono_next_char mono_matches1_loop mono_matches1 mono_matchesN_loop mono_matchesN mono_word_check
  mono_word1 mono_wordN mono_name_loop mono_name mono_write_len mono_num_int mono_num_frac mono_num_exp
  mono_number mono_trim_start mono_trim_line mono_unicode mono_escape mono_string_loop mono_string
  mono_value mono_list mono_assignments mono_assignment_list mono_directives_loop mono_directives mono_opt_comma
  mono_selection_set mono_selection_loop mono_type mono_operator_arg mono_operator_args mono_operation_header
  mono_fragment_header mono_definition mono_definitions : mono.
