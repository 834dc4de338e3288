(** * The bytecode interpreter and the reference interpreter: documents (proofs) *)
From Coq Require Import String Arith NArith ZArith Bool List Lia ZifyBool ZifyN ZifyNat.
From Verif Require Import Base JsonModel Ast ReqModel Schema ResModel Interp ResFrame ResSim RunSim.
Import ListNotations.
Open Scope N_scope.

Definition ok_def (x : definition) : Prop :=
  match x with
  | DOp _ name args ds ss => clean name /\ match args with None => True | Some l => Forall ok_oparg l end /\ ok_sels ss
  | DFrag n t ss => clean n /\ clean t /\ ok_sels ss
  end.
Definition ok_doc (d : document) : Prop := Forall ok_def d.

Lemma enc_doc_app : forall a b, enc_doc (a ++ b) = enc_doc a ++ enc_doc b.
Proof. intros. apply flat_map_app. Qed.
Lemma skipn_at : forall A (a b : list A), skipn (length a) (a ++ b) = b.
Proof. intros. rewrite skipn_app, skipn_all2, Nat.sub_diag by lia. reflexivity. Qed.

Lemma frags_doc : forall d pre, N.of_nat (length (enc_doc pre ++ enc_doc d)) < 4294967296 -> ok_doc d ->
  Forall2 (fun loc (f : bytes * bytes * list sel) => let '(n, t, ss) := f in
    clean n /\ clean t /\ ok_sels ss /\
    exists rest, here (enc_doc pre ++ enc_doc d) loc (70 :: n ++ 0 :: t ++ sels_end ss rest))
    (frag_locs (length (enc_doc pre)) d) (frag_defs d).
Proof.
  induction d as [|x d IH]; intros pre Sm V; [constructor|]. inversion V; subst.
  assert (E : enc_doc pre ++ enc_doc (x :: d) = enc_doc (pre ++ [x]) ++ enc_doc d).
  { rewrite <- !enc_doc_app, <- app_assoc. reflexivity. }
  specialize (IH (pre ++ [x])). rewrite <- E in IH. specialize (IH Sm H2).
  assert (L : length (enc_doc (pre ++ [x])) = (length (enc_doc pre) + length (enc_def x))%nat).
  { rewrite enc_doc_app, app_length. cbn. rewrite app_nil_r. reflexivity. }
  rewrite L in IH. cbn [frag_locs frag_defs flat_map]. destruct x as [k n a ds ss|n t ss]; cbn [app].
  - exact IH.
  - constructor; [|exact IH]. destruct H1 as (A & B & C). split; [auto|]. split; [auto|]. split; [auto|].
    exists (enc_doc d). apply here_intro; [exact Sm| |discriminate].
    eapply (adv _ _ [0]); [apply skipn_at| |reflexivity].
    unfold enc_doc. cbn [flat_map enc_def]. unfold sels_end.
    repeat (progress (rewrite <- ?app_assoc; cbn [app])). reflexivity.
Qed.

Lemma sim_write_val0 : forall W A B (f : unit -> @rm W A) x p o v (s : rst W) (b : bout B) Q,
  sim (f tt (fr p o (upd v 0 (false, x)) 0 s)) b Q -> sim (bind (put_val0 x) f (fr p o v 0 s)) b Q.
Proof. intros. exact H. Qed.

Theorem operation_sim : forall W (X : externals W) S rawvars fuel d pre op post p o v (s : rst W),
  d = pre ++ op :: post -> ok_doc d -> N.of_nat (length (enc_doc d)) < 4294967296 -> p = length (enc_doc pre) ->
  match op with DOp _ _ _ _ _ => True | _ => False end ->
  sim (resolve_operation X S (enc_doc d) (frag_locs 0 d) rawvars fuel (fr p o v 0 s))
      (b_operation X S rawvars d op fuel s)
      (fun x t y s' => x = snd y /\ exists p' v', t = fr p' (o ++ render_members (x_float_json X) (fst y)) v' 0 s').
Proof.
  intros W X S rawvars fuel d pre op post p o v s Ed V Sm Ep Op.
  assert (Fr := frags_doc d [] Sm V). cbn [enc_doc flat_map app length] in Fr. fold (enc_doc d) in Fr.
  assert (Vo : ok_def op). { rewrite Ed in V. apply Forall_app in V. destruct V as [_ V]. inversion V; auto. }
  set (res := enc_doc d) in *.
  assert (H : here res p (enc_def op ++ enc_doc post)).
  { split.
    - subst p res. rewrite Ed. unfold enc_doc. rewrite flat_map_app. fold (enc_doc pre). rewrite skipn_at. reflexivity.
    - subst p res. rewrite Ed, enc_doc_app, app_length. lia. }
  destruct op as [k n a ds ss|]; [|contradiction]. destruct Vo as (Vn & Va & Vs).
  unfold resolve_operation, b_operation. apply sim_skip.
  set (ab := match a with None => 102 | Some _ => 116 end).
  assert (H1 : here res (p + 2) (kind_byte k :: ab :: nlen ds :: n ++ enc_opargs a ++ enc_dirs ds ++ sels_end ss (enc_doc post))).
  { eapply (here_adv _ Sm [0; 111]); [exact H| |reflexivity]. unfold enc_def, sels_end. fold ab.
    repeat (progress (rewrite <- ?app_assoc; cbn [app])). reflexivity. }
  clear H. eapply sim_read; [exact (proj1 H1)|].
  assert (H : here res (p + 2 + 1) (ab :: nlen ds :: n ++ enc_opargs a ++ enc_dirs ds ++ sels_end ss (enc_doc post))).
  { eapply (here_adv _ Sm [kind_byte k]); [exact H1|reflexivity|reflexivity]. }
  clear H1.
  assert (Mid : k <> OpSubscription -> forall vv, vv 0 = (false, match k with OpMutation => s_mvalue S | _ => s_qvalue S end) ->
    sim (bind (read res) (fun a0 => bind (read res) (fun dirs =>
           if 0 <? dirs then err (bs "operation directives unsupported")
           else bind (read_name res) (fun _ => bind (if a0 =? 116 then bind get_pos (fun p0 => bind (u32 res p0) (fun len => bind (skip (N.to_nat len + 5)) (fun _ => ret (p0 + 5)%nat))) else ret O)
             (fun at_ => bind (resolve_sel X S res (frag_locs 0 d) rawvars (a0 =? 116) at_ fuel (if kind_byte k =? 109 then s_method S else s_query S) 0 true)
               (fun y => let '(_, crit) := y in ret crit))))) (fr (p + 2 + 1) o vv 0 s))
        (match ds with
         | [] => b_sels X S rawvars a (frag_defs d) fuel
                (match k with OpMutation => s_method S | _ => s_query S end) 0
                (false, match k with OpMutation => s_mvalue S | _ => s_qvalue S end) 0 ss s
         | _ :: _ => bbind (lift (err (bs "operation directives unsupported"))) (fun b => bret ([], b)) s
         end)
      (fun x t y s' => x = snd y /\ exists p' v', t = fr p' (o ++ render_members (x_float_json X) (fst y)) v' 0 s')).
  { intros Hk vv Hv. eapply sim_read; [exact (proj1 H)|].
    assert (H1 : here res (p + 2 + 1 + 1) (nlen ds :: n ++ enc_opargs a ++ enc_dirs ds ++ sels_end ss (enc_doc post))).
    { eapply (here_adv _ Sm [ab]); [exact H|reflexivity|reflexivity]. }
    eapply sim_read; [exact (proj1 H1)|].
    destruct ds as [|d0 ds].
    2:{ replace (0 <? nlen (d0 :: ds)) with true by (unfold nlen; cbn [length]; lia).
        cbn. eexists _, _. split; [reflexivity|]. split; [reflexivity|]. eexists _, _. rewrite app_nil_r. reflexivity. }
    change (0 <? nlen []) with false. cbn iota.
    cbn [enc_dirs flat_map app] in H1.
    assert (H2 : here res (p + 2 + 1 + 1 + 1) (n ++ enc_opargs a ++ sels_end ss (enc_doc post))).
    { eapply (here_adv _ Sm [nlen (A := directive) []]); [exact H1|reflexivity|reflexivity]. }
    destruct (sels_cons ss (enc_doc post)) as (r & Er & _).
    destruct a as [l|].
    - cbn [enc_opargs] in H2. set (body := [0; 65] ++ flat_map enc_oparg l ++ [0; 101]) in *.
      eapply sim_name; [exact Vn|rewrite (proj1 H2); reflexivity|]. subst ab. change (116 =? 116) with true. cbn iota.
      set (q := (p + 2 + 1 + 1 + 1 + length n + 1)%nat).
      assert (H3 : here res q (le32 (nlen body) ++ body ++ sels_end ss (enc_doc post))).
      { eapply (here_adv _ Sm (n ++ [0])); [exact H2|repeat (progress (rewrite <- ?app_assoc; cbn [app])); reflexivity|].
        subst q. rewrite app_length. cbn. lia. }
      assert (Lb : nlen body < 4294967296).
      { pose proof (proj1 H3) as E. apply skipn_len in E. rewrite !app_length in E. unfold nlen. lia. }
      set (at_ := (q + 5)%nat). set (q' := (q + 4 + length body + 1)%nat).
      assert (Oat : match Some l with
        | None => true = false
        | Some l => true = true /\ Forall ok_oparg l /\
              exists rest, skipn at_ res = 65 :: flat_map enc_oparg l ++ [0; 101] ++ 0 :: rest end).
      { split; [reflexivity|]. split; [exact Va|]. exists r.
        eapply (adv _ _ (le32 (nlen body) ++ [0])); [exact (proj1 H3)| |subst at_; rewrite app_length, le32_length; cbn; lia].
        rewrite Er. subst body. repeat (progress (rewrite <- ?app_assoc; cbn [app])). reflexivity. }
      assert (H4 : here res q' r).
      { eapply (here_adv _ Sm (le32 (nlen body) ++ body ++ [0])); [exact H3| |subst q'; rewrite !app_length, le32_length; cbn; lia].
        rewrite Er. repeat (progress (rewrite <- ?app_assoc; cbn [app])). reflexivity. }
      eapply sim_step; [|].
      { eapply (fun E1 => eq_trans E1 eq_refl). unfold bind at 1. cbn [get_pos]. cbn [fr r_pos]. unfold bind at 1.
        rewrite (u32_at res q q (nlen body) (body ++ sels_end ss (enc_doc post))); [|exact (proj1 H3)|exact Lb|reflexivity].
        unfold bind, skip. cbv beta iota. reflexivity. }
      match goal with |- sim (bind _ _ ?s1) _ _ => replace s1 with (fr q' o vv 0 s) end.
      2:{ unfold set_pos, fr. cbn [r_pos r_out r_errs r_path r_vals r_idx r_vars r_world]. f_equal. fold q. subst q'. cbn [fr r_pos]. unfold nlen. rewrite Nnat.Nat2N.id. lia. }
      fold at_.
      eapply sim_then.
      + destruct (run_sim X S res (frag_locs 0 d) rawvars true at_ (Some l) (frag_defs d) Sm Oat Fr fuel) as (P & _).
        rewrite <- Hv.
        replace (if kind_byte k =? 109 then s_method S else s_query S) with (match k with OpMutation => s_method S | _ => s_query S end) by (destruct k; reflexivity).
        apply (P _ 0 0 ss true q' o vv s (enc_doc post) r); auto. lia.
      + intros [x1 x2] t y s' (E1 & p' & v' & E2 & _). cbn [snd] in E1. exists x2, t. split; [reflexivity|]. split; [exact E1|].
        exists p', v'. exact E2.
    - cbn [enc_opargs app] in H2.
      eapply sim_name; [exact Vn|rewrite (proj1 H2), Er; reflexivity|]. subst ab. change (102 =? 116) with false. cbn iota.
      set (q := (p + 2 + 1 + 1 + 1 + length n + 1)%nat).
      assert (H4 : here res q r).
      { eapply (here_adv _ Sm (n ++ [0])); [exact H2|rewrite Er; repeat (progress (rewrite <- ?app_assoc; cbn [app])); reflexivity|].
        subst q. rewrite app_length. cbn. lia. }
      eapply sim_step; [reflexivity|].
      eapply sim_then.
      + destruct (run_sim X S res (frag_locs 0 d) rawvars false 0%nat None (frag_defs d) Sm eq_refl Fr fuel) as (P & _).
        rewrite <- Hv.
        replace (if kind_byte k =? 109 then s_method S else s_query S) with (match k with OpMutation => s_method S | _ => s_query S end) by (destruct k; reflexivity).
        apply (P _ 0 0 ss true q o vv s (enc_doc post) r); auto. lia.
      + intros [x1 x2] t y s' (E1 & p' & v' & E2 & _). cbn [snd] in E1. exists x2, t. split; [reflexivity|]. split; [exact E1|].
        exists p', v'. exact E2. }
  destruct k.
  - apply sim_write_val0. match goal with |- context [upd v 0 ?x] => specialize (Mid ltac:(discriminate) (upd v 0 x) (upd_same _ _ _)) end. destruct ds; exact Mid.
  - apply sim_write_val0. match goal with |- context [upd v 0 ?x] => specialize (Mid ltac:(discriminate) (upd v 0 x) (upd_same _ _ _)) end. destruct ds; exact Mid.
  - cbn. eexists _, _. split; [reflexivity|]. split; [reflexivity|]. eexists _, _. rewrite app_nil_r. reflexivity.
Qed.
