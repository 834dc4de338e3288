(** * What a description in a parser test says, and the bytes it becomes (proofs) *)
From Coq Require Import String Arith NArith ZArith Bool List Lia ZifyBool ZifyN ZifyNat.
From Verif Require Import Base Ast Grammar RefGrammar ResSim DocRun JsonModel ParserModel TestModel CodeUnique.
Import ListNotations.
Open Scope N_scope.

(** ** The described document (specification) *)
Section All.
Context {A B : Type}.
Variable f : A -> option B.
Fixpoint all_some (l : list A) : option (list B) :=
  match l with
  | [] => Some []
  | x :: r => match f x, all_some r with Some y, Some s => Some (y :: s) | _, _ => None end
  end.
End All.
Definition option_some {A B} (f : A -> option B) (a : option A) : option (option B) :=
  match a with None => Some None | Some x => match f x with Some y => Some (Some y) | None => None end end.
Fixpoint val_of (t : tval) : option value :=
  match t with
  | TVal kind items int float str b members var enum =>
      if kind =? 36 (* $ *) then Some (VVar var)
      else if kind =? 105 (* i *) then Some (VInt (int_to_json int))
      else if kind =? 102 (* f *) then Some (VFloat float)
      else if kind =? 115 (* s *) then Some (VStr str)
      else if kind =? 98 (* b *) then Some (VBool b)
      else if kind =? 110 (* n *) then Some VNull
      else if kind =? 101 (* e *) then Some (VEnum enum)
      else if kind =? 108 (* l *) then option_map VList (all_some val_of items)
      else if kind =? 111 (* o *) then option_map VObj (all_some (fun nx => option_map (pair (fst nx)) (val_of (snd nx))) members)
      else None
  end.
Definition mems_of (l : list (bytes * tval)) : option (list (bytes * value)) := all_some (fun nx => option_map (pair (fst nx)) (val_of (snd nx))) l.
Definition dir_of (d : tdir) : option directive := option_map (Dir (td_name d)) (option_some mems_of (td_args d)).
(* nInt, NInt, lnInt, LNInt: a type in the notation of the tests *)
Fixpoint type_of (t : bytes) : option tyref :=
  match t with
  | 110 :: n => Some (TyName n false)
  | 78 :: n => Some (TyName n true)
  | 108 :: t => option_map (fun t => TyList t false) (type_of t)
  | 76 :: t => option_map (fun t => TyList t true) (type_of t)
  | _ => None
  end.
Definition oparg_of (a : toparg) : option oparg :=
  match type_of (ta_type a), option_some val_of (ta_default a) with
  | Some t, Some d => Some (OpArg (ta_name a) t d)
  | _, _ => None
  end.
Fixpoint sel_of (f : tfield) : option sel :=
  match f with
  | TField name fields frag dirs alias args =>
      match all_some dir_of dirs, option_some (all_some sel_of) fields, option_some mems_of args with
      | Some ds, Some subs, Some a =>
          Some (if frag then match subs with Some l => SInline name ds l | None => SSpread name ds end
                else SField (match alias with [] => None | _ => Some alias end) name ds a (match subs with Some l => l | None => [] end))
      | _, _, _ => None
      end
  end.
Definition kind_of (k : N) : option opkind :=
  match k with 0 | 113 => Some OpQuery | 109 => Some OpMutation | 115 => Some OpSubscription | _ => None end.
Definition def_of (x : tdef) : option definition :=
  match x with
  | TOp kind name args dirs fields =>
      match kind_of kind, all_some oparg_of args, all_some dir_of dirs, all_some sel_of fields with
      | Some k, Some a, Some ds, Some ss => Some (DOp k name (match a with [] => None | _ => Some a end) ds ss)
      | _, _, _, _ => None
      end
  | TFrag name on fields => option_map (DFrag name on) (all_some sel_of fields)
  end.
Definition doc_of (l : list tdef) : option document := all_some def_of l.
(** No field has both arguments and a selection. *)
Fixpoint field_apart (f : tfield) : bool :=
  match f with
  | TField _ fields frag _ _ args =>
      (frag || match fields, args with Some (_ :: _), Some _ => false | _, _ => true end) &&
      match fields with Some l => forallb field_apart l | None => true end
  end.
Definition def_apart (x : tdef) : bool := match x with TOp _ _ _ _ fs => forallb field_apart fs | TFrag _ _ fs => forallb field_apart fs end.
Definition doc_apart (l : list tdef) : bool := forallb def_apart l.

(** ** Writing a number into reserved bytes *)
Lemma set_at_app a x r b : set_at (a ++ x :: r) (length a) b = a ++ b :: r.
Proof. induction a as [|y a IH]; cbn; [reflexivity|]. now rewrite IH. Qed.
Lemma set_at_next a p x r b n : length p = n -> set_at (a ++ p ++ x :: r) (length a + n) b = a ++ p ++ b :: r.
Proof. intros <-. rewrite !app_assoc, <- app_length. apply set_at_app. Qed.
Lemma le32_u32 n : le32 (u32 n) = le32 (N.of_nat n).
Proof.
  unfold u32, le32. set (m := N.of_nat n). pose proof (N.div_mod m 4294967296 ltac:(lia)) as D. set (r := m mod 4294967296) in *. set (q := m / 4294967296) in *. rewrite D. clearbody q r. clear D m.
  assert (M : forall k, k <> 0 -> forall p, (k * p + r) / k = p + r / k) by (intros k K p; rewrite (N.mul_comm k), N.div_add_l; lia).
  apply (f_equal2 cons); [|apply (f_equal2 cons); [|apply (f_equal2 cons); [|apply (f_equal2 cons); [|reflexivity]]]].
  - replace (4294967296 * q + r) with (r + (16777216 * q) * 256) by lia. now rewrite N.mod_add.
  - replace (4294967296 * q + r) with (256 * (16777216 * q) + r) by lia. rewrite M by lia. replace (16777216 * q + r / 256) with (r / 256 + (65536 * q) * 256) by lia. now rewrite N.mod_add.
  - replace (4294967296 * q + r) with (65536 * (65536 * q) + r) by lia. rewrite M by lia. replace (65536 * q + r / 65536) with (r / 65536 + (256 * q) * 256) by lia. now rewrite N.mod_add.
  - replace (4294967296 * q + r) with (16777216 * (256 * q) + r) by lia. rewrite M by lia. replace (256 * q + r / 16777216) with (r / 16777216 + q * 256) by lia. now rewrite N.mod_add.
Qed.
Lemma write_at a b r v k : k = length a -> write_u32_at (a ++ [0; 0; 0; 0] ++ b ++ r) k v = a ++ le32 v ++ b ++ r.
Proof.
  intros ->. unfold write_u32_at, le32. cbn [List.app].
  pose proof (set_at_next a [v mod 256] 0 (0 :: 0 :: b ++ r) (v / 256 mod 256) 1 eq_refl) as H1. pose proof (set_at_next a [v mod 256; v / 256 mod 256] 0 (0 :: b ++ r) (v / 65536 mod 256) 2 eq_refl) as H2.
  pose proof (set_at_next a [v mod 256; v / 256 mod 256; v / 65536 mod 256] 0 (b ++ r) (v / 16777216 mod 256) 3 eq_refl) as H3. cbn [List.app] in H1, H2, H3. now rewrite set_at_app, H1, H2, H3.
Qed.
(** a part whose length is written in front of it afterwards *)
Lemma write_len a b k n : k = length a -> n = length b -> write_u32_at (a ++ [0; 0; 0; 0] ++ b) k (u32 n) = a ++ le32 (nlen b) ++ b.
Proof.
  intros K ->. pose proof (write_at a b [] (u32 (length b)) k K) as W. rewrite app_nil_r in W. rewrite W. now rewrite le32_u32.
Qed.

Lemma write_len' a b res k n : res = a ++ [0; 0; 0; 0] ++ b -> k = length a -> n = length b -> write_u32_at res k (u32 n) = a ++ le32 (nlen b) ++ b.
Proof. intros ->. apply write_len. Qed.
(** ** Values *)
Section TvalInd.
Variable P : tval -> Prop.
Hypothesis H : forall k items i f s b members v e, Forall P items -> Forall (fun nx => P (snd nx)) members -> P (TVal k items i f s b members v e).
Fixpoint tval_ind' (t : tval) : P t :=
  match t with
  | TVal k items i f s b members v e => H k items i f s b members v e
      ((fix go l : Forall P l := match l with [] => Forall_nil _ | x :: r => Forall_cons _ (tval_ind' x) (go r) end) items)
      ((fix go l : Forall (fun nx => P (snd nx)) l := match l with [] => Forall_nil _ | x :: r => Forall_cons _ (tval_ind' (snd x)) (go r) end) members)
  end.
End TvalInd.
Lemma fold_bytes {A B} (to : A -> bytes -> bytes) (of : A -> option B) (enc : B -> bytes) l :
  Forall (fun x => forall y res, of x = Some y -> to x res = res ++ enc y) l ->
  forall ys res, all_some of l = Some ys -> fold_left (fun r x => to x r) l res = res ++ flat_map enc ys.
Proof.
  induction 1 as [|x l X F IH]; intros ys res Q; cbn [all_some fold_left] in *; [injection Q as <-; now rewrite app_nil_r|].
  destruct (of x) as [y|] eqn:Y; [|discriminate]. destruct (all_some of l) as [s|]; [|discriminate]. injection Q as <-. rewrite (X y res eq_refl), (IH s) by reflexivity. cbn [flat_map]. now rewrite app_assoc.
Qed.
Lemma tv_write pre k body res : res = (pre ++ [0; 118; k]) ++ [0; 0; 0; 0] ++ body ->
  write_u32_at res (length ((pre ++ [0; 118; k]) ++ [0; 0; 0; 0]) - 4) (u32 (length res - length ((pre ++ [0; 118; k]) ++ [0; 0; 0; 0]))) = pre ++ enc_tagged k body.
Proof.
  intro R. rewrite (write_len' (pre ++ [0; 118; k]) body res _ _ R).
  - unfold enc_tagged. now rewrite <- !app_assoc.
  - rewrite !app_length. cbn [length]. lia.
  - rewrite R, !app_length. cbn [length]. lia.
Qed.
Lemma val_bytes t : forall v res, val_of t = Some v -> tv_bytes t res = res ++ enc_value v.
Proof.
  induction t as [k items i f s b members var enum Hi Hm] using tval_ind'; intros v res Q. cbn [val_of tv_bytes] in *.
  destruct (k =? 36) eqn:K; [apply N.eqb_eq in K; subst k; injection Q as <-; apply tv_write; now rewrite <- !app_assoc|clear K].
  destruct (k =? 105) eqn:K; [apply N.eqb_eq in K; subst k; injection Q as <-; apply tv_write; now rewrite <- !app_assoc|clear K].
  destruct (k =? 102) eqn:K; [apply N.eqb_eq in K; subst k; injection Q as <-; apply tv_write; now rewrite <- !app_assoc|clear K].
  destruct (k =? 115) eqn:K; [apply N.eqb_eq in K; subst k; injection Q as <-; apply tv_write; now rewrite <- !app_assoc|clear K].
  destruct (k =? 98) eqn:K; [apply N.eqb_eq in K; subst k; injection Q as <-; apply tv_write; now rewrite <- !app_assoc|clear K].
  destruct (k =? 110) eqn:K; [apply N.eqb_eq in K; subst k; injection Q as <-; apply tv_write; now rewrite <- !app_assoc|clear K].
  destruct (k =? 101) eqn:K; [apply N.eqb_eq in K; subst k; injection Q as <-; apply tv_write; now rewrite <- !app_assoc|clear K].
  destruct (k =? 108) eqn:K; [apply N.eqb_eq in K; subst k|clear K].
  { destruct (all_some val_of items) as [ys|] eqn:Y; [|discriminate]. injection Q as <-. apply tv_write. rewrite (fold_bytes tv_bytes val_of enc_value items Hi ys _ Y). now rewrite <- !app_assoc. }
  destruct (k =? 111) eqn:K; [apply N.eqb_eq in K; subst k|discriminate].
  destruct (all_some (fun nx => option_map (pair (fst nx)) (val_of (snd nx))) members) as [ys|] eqn:Y; [|discriminate]. injection Q as <-. apply tv_write.
  rewrite (fold_bytes (fun nx r => tv_bytes (snd nx) ((r ++ [0; 117]) ++ fst nx)) (fun nx => option_map (pair (fst nx)) (val_of (snd nx))) (fun nv => [0; 117] ++ fst nv ++ enc_value (snd nv)) members) with (ys := ys); [now rewrite <- !app_assoc| |exact Y].
  eapply Forall_impl; [|exact Hm]. intros [n x] X y r E. cbn [fst snd] in *. destruct (val_of x) as [w|]; [|discriminate]. injection E as <-. rewrite (X w) by reflexivity. now rewrite <- !app_assoc.
Qed.
Lemma args_bytes l fs res : mems_of l = Some fs -> targs_bytes l res = res ++ enc_args fs.
Proof. intro H. unfold targs_bytes. apply val_bytes. cbn [val_of]. fold (mems_of l). now rewrite H. Qed.
Lemma dir_bytes d d' res : dir_of d = Some d' -> td_bytes d res = res ++ enc_directive d'.
Proof.
  unfold dir_of, td_bytes, enc_directive. destruct (td_args d) as [l|]; cbn [option_some]; [destruct (mems_of l) as [fs|] eqn:M; [|discriminate]|]; intro H; injection H as <-; cbn [d_args d_name].
  - rewrite (args_bytes l fs _ M). now rewrite <- !app_assoc.
  - now rewrite <- !app_assoc.
Qed.
Lemma dirs_bytes l ds res : all_some dir_of l = Some ds -> fold_left (fun r d => td_bytes d r) l res = res ++ enc_dirs ds.
Proof. apply fold_bytes. induction l; constructor; auto. intros y r. apply dir_bytes. Qed.
Lemma type_bytes s : forall t, type_of s = Some t -> enc_type t = s.
Proof.
  induction s as [|c s IH]; intros t H; [discriminate|]. cbn [type_of] in H.
  assert (D : c = 110 \/ c = 78 \/ c = 108 \/ c = 76 \/ type_of (c :: s) = None).
  { cbn [type_of]. destruct (N.eq_dec c 110) as [|A]; [auto|]. destruct (N.eq_dec c 78) as [|B]; [auto|]. destruct (N.eq_dec c 108) as [|C]; [auto|]. destruct (N.eq_dec c 76) as [|D]; [auto|]. do 4 right.
    destruct c as [|p]; [reflexivity|]. do 7 (destruct p as [p|p|]; try reflexivity; try congruence). }
  destruct D as [->|[->|[->|[->|D]]]]; [injection H as <-; reflexivity|injection H as <-; reflexivity| | |cbn [type_of] in D; congruence]; (destruct (type_of s) as [u|]; [|discriminate]; injection H as <-; cbn [enc_type]; now rewrite (IH u)).
Qed.
Lemma oparg_bytes a a' res : oparg_of a = Some a' -> ta_bytes a res = res ++ enc_oparg a'.
Proof.
  unfold oparg_of, ta_bytes, enc_oparg. destruct a as [n t d]. cbn [ta_name ta_type ta_default]. destruct (type_of t) as [ty|] eqn:T; [|discriminate]. apply type_bytes in T. destruct (option_some val_of d) as [v|] eqn:D; [|discriminate].
  intro H. injection H as <-. cbn [oa_name oa_type oa_default]. rewrite T. set (body := n ++ [0] ++ t ++ [0] ++ match v with None => [102] | Some v => 116 :: enc_value v end).
  match goal with |- write_u32_at ?r _ _ = _ => assert (R : r = (res ++ [0; 97]) ++ [0; 0; 0; 0] ++ body) end.
  { unfold body. destruct d as [d|]; cbn [option_some] in D; [destruct (val_of d) as [w|] eqn:W; [|discriminate]; injection D as <-; rewrite (val_bytes d w _ W)|injection D as <-]; rewrite <- !app_assoc; reflexivity. }
  rewrite R. set (full := (res ++ [0; 97]) ++ [0; 0; 0; 0] ++ body). replace (length full - (length res + 1))%nat with (length body + 5)%nat by (unfold full; rewrite !app_length; cbn [length]; lia). unfold full.
  pose proof (write_at (res ++ [0; 97]) body [] (u32 (length body + 5)) (length res + 1 + 1)) as W. rewrite !app_nil_r in W. rewrite W by (rewrite app_length; cbn [length]; lia). rewrite le32_u32, <- !app_assoc. unfold nlen. now rewrite Nat2N.inj_add.
Qed.

(** ** Fields *)
(* what fits into the length bytes *)
Fixpoint small_sel (x : sel) : Prop :=
  match x with
  | SField al n ds _ subs => (match al with Some a => length a <= 255 | None => True end)%nat /\ (length n <= 255)%nat /\ few ds /\ (fix f l := match l with [] => True | x :: r => small_sel x /\ f r end) subs
  | SSpread _ ds => few ds
  | SInline _ ds subs => few ds /\ (fix f l := match l with [] => True | x :: r => small_sel x /\ f r end) subs
  end.
Fixpoint small_sels (l : list sel) : Prop := match l with [] => True | x :: r => small_sel x /\ small_sels r end.
Lemma small_subs l : (fix f l := match l with [] => True | x :: r => small_sel x /\ f r end) l <-> small_sels l.
Proof. induction l as [|x r IH]; cbn; [tauto|]. rewrite IH. tauto. Qed.
Definition small_def (x : definition) : Prop := match x with DOp _ _ _ ds ss => few ds /\ small_sels ss | DFrag _ _ ss => small_sels ss end.
Lemma byte_few {A} (l : list A) : (length l <= 255)%nat -> byte_len l = nlen l.
Proof. intro H. unfold byte_len, nlen. apply N.mod_small. lia. Qed.
Lemma all_some_len {A B} (f : A -> option B) l : forall ys, all_some f l = Some ys -> length ys = length l.
Proof.
  induction l as [|x l IH]; intros ys H; cbn [all_some] in H; [injection H as <-; reflexivity|]. destruct (f x); [|discriminate]. destruct (all_some f l) as [s|]; [|discriminate]. injection H as <-. cbn [length]. now rewrite (IH s).
Qed.
Section TfieldInd.
Variable P : tfield -> Prop.
Hypothesis H : forall n fs fr ds al a, match fs with Some l => Forall P l | None => True end -> P (TField n fs fr ds al a).
Fixpoint tfield_ind' (t : tfield) : P t :=
  match t with
  | TField n fs fr ds al a => H n fs fr ds al a
      match fs with
      | Some l => (fix go l : Forall P l := match l with [] => Forall_nil _ | x :: r => Forall_cons _ (tfield_ind' x) (go r) end) l
      | None => I
      end
  end.
End TfieldInd.
Definition field_ok (f : tfield) : Prop := forall x res, sel_of f = Some x -> field_apart f = true -> small_sel x -> tf_bytes f res = res ++ enc_sel x.
Lemma fields_bytes l : Forall field_ok l -> forall xs res, all_some sel_of l = Some xs -> forallb field_apart l = true -> small_sels xs -> fold_left (fun r f => tf_bytes f r) l res = res ++ enc_sels xs.
Proof.
  unfold enc_sels. induction 1 as [|f l F X IH]; intros xs res Q B S; cbn [all_some fold_left forallb] in *; [injection Q as <-; now rewrite app_nil_r|].
  destruct (sel_of f) as [x|] eqn:Y; [|discriminate]. destruct (all_some sel_of l) as [s|]; [|discriminate]. injection Q as <-. apply andb_true_iff in B. destruct B as [B1 B2], S as [S1 S2].
  rewrite (F x res Y B1 S1), (IH s _ eq_refl B2 S2). cbn [flat_map]. now rewrite app_assoc.
Qed.
Lemma field_bytes f : field_ok f.
Proof.
  induction f as [n fs fr ds al a Hf] using tfield_ind'; intros x res Q B S. cbn [sel_of] in Q. destruct (all_some dir_of ds) as [ds'|] eqn:D; [|discriminate].
  destruct (option_some (all_some sel_of) fs) as [subs|] eqn:U; [|discriminate]. destruct (option_some mems_of a) as [a'|] eqn:A; [|discriminate]. injection Q as <-.
  cbn [field_apart] in B. apply andb_true_iff in B. destruct B as [B1 B2]. pose proof (all_some_len _ _ _ D) as Ld.
  assert (Nd : few ds' -> byte_len ds = nlen ds') by (intro W; rewrite byte_few by (unfold few in W; lia); unfold nlen; now rewrite Ld).
  destruct fr; cbn [tf_bytes].
  - destruct fs as [l|]; cbn [option_some] in U; [destruct (all_some sel_of l) as [xs|] eqn:X; [|discriminate]; injection U as <-|injection U as <-].
    + destruct S as [S1 S2]. apply small_subs in S2. rewrite (Nd S1), (dirs_bytes ds ds' _ D), (fields_bytes l Hf xs _ X B2 S2). cbn [enc_sel]. fold (enc_sels xs).
      rewrite (write_len' (((res ++ [0; 115]) ++ [116]) ++ [nlen ds']) (n ++ enc_dirs ds' ++ enc_sels xs ++ [0; 101])); [now rewrite <- !app_assoc|now rewrite <- !app_assoc| |]; rewrite !app_length; cbn [length]; lia.
    + cbn [small_sel] in S. rewrite (Nd S), (dirs_bytes ds ds' _ D). cbn [enc_sel].
      rewrite (write_len' (((res ++ [0; 115]) ++ [102]) ++ [nlen ds']) (n ++ enc_dirs ds')); [now rewrite <- !app_assoc|now rewrite <- !app_assoc| |]; rewrite !app_length; cbn [length]; lia.
  - cbn [small_sel] in S. destruct S as (S1 & S2 & S3 & S4). apply small_subs in S4. cbn [enc_sel]. rewrite (Nd S3). set (subs' := match subs with Some l => l | None => [] end) in *. fold (enc_sels subs').
    set (head := (res ++ [0; 102]) ++ [nlen ds']).
    assert (W0 : write_u32_at ((head ++ [0; 0; 0; 0]) ++ [0; 0; 0; 0]) (length ((head ++ [0; 0; 0; 0]) ++ [0; 0; 0; 0]) - 4) (fnv1 n) = head ++ [0; 0; 0; 0] ++ le32 (fnv1 n)).
    { pose proof (write_at (head ++ [0; 0; 0; 0]) [] [] (fnv1 n) (length ((head ++ [0; 0; 0; 0]) ++ [0; 0; 0; 0]) - 4)) as W. rewrite !app_nil_r in W. rewrite W; [now rewrite <- !app_assoc|]. rewrite !app_length. cbn [length]. lia. }
    rewrite W0. clear W0. set (al' := match al with [] => None | _ :: _ => Some al end) in *.
    set (start := length (head ++ [0; 0; 0; 0] ++ le32 (fnv1 n))).
    assert (N1 : forall r, match al with [] => ((r ++ [byte_len n]) ++ n) ++ [0] | _ :: _ => (((r ++ [byte_len al]) ++ al) ++ [byte_len n]) ++ n end = r ++ enc_names al' n).
    { intro r. unfold al' in *. destruct al as [|c al]; rewrite !byte_few by assumption; unfold enc_names; now rewrite <- !app_assoc. }
    rewrite N1, (dirs_bytes ds ds' _ D).
    assert (F1 : forall r, match fs with Some l => fold_left (fun r x => tf_bytes x r) l r | None => r end = r ++ enc_sels subs').
    { intro r. destruct fs as [l|]; cbn [option_some] in U; [destruct (all_some sel_of l) as [xs|] eqn:X; [|discriminate]; injection U as <-|injection U as <-]; [now apply fields_bytes|]. unfold subs', enc_sels. cbn. now rewrite app_nil_r. }
    rewrite F1. assert (A1 : forall r, match a with Some fs => targs_bytes fs r | None => r end = r ++ enc_opt_args a').
    { intro r. destruct a as [l|]; cbn [option_some] in A; [destruct (mems_of l) as [m|] eqn:M; [|discriminate]; injection A as <-; now apply args_bytes|injection A as <-; cbn; now rewrite app_nil_r]. }
    rewrite A1. assert (C : forall r, (r ++ enc_sels subs') ++ enc_opt_args a' = r ++ enc_opt_args a' ++ enc_sels subs').
    { intro r. cbn [orb] in B1. destruct fs as [[|y l]|]; cbn [option_some all_some] in U.
      - injection U as <-. unfold subs', enc_sels. cbn. now rewrite !app_nil_r.
      - destruct a; [discriminate|]. cbn in A. injection A as <-. cbn [enc_opt_args List.app]. now rewrite app_nil_r.
      - injection U as <-. unfold subs', enc_sels. cbn. now rewrite !app_nil_r. }
    rewrite C. set (body := enc_names al' n ++ enc_dirs ds' ++ enc_opt_args a' ++ enc_sels subs' ++ [0; 101]).
    match goal with |- write_u32_at ?r _ _ = _ => assert (R : r = head ++ [0; 0; 0; 0] ++ le32 (fnv1 n) ++ body) by (unfold body; now rewrite <- !app_assoc); rewrite R end.
    replace (start - 8)%nat with (length head) by (unfold start; rewrite !app_length; change (length (le32 (fnv1 n))) with 4%nat; cbn [length]; lia).
    set (full := head ++ [0; 0; 0; 0] ++ le32 (fnv1 n) ++ body). replace (length full - start)%nat with (length body) by (unfold full, start; rewrite !app_length; lia). unfold full. rewrite (write_at head (le32 (fnv1 n)) body _ _ eq_refl), le32_u32. unfold head. now rewrite <- !app_assoc.
Qed.
Lemma sels_bytes l xs res : all_some sel_of l = Some xs -> forallb field_apart l = true -> small_sels xs -> fold_left (fun r f => tf_bytes f r) l res = res ++ enc_sels xs.
Proof. apply fields_bytes. induction l; constructor; auto. apply field_bytes. Qed.
Lemma def_bytes x y : def_of x = Some y -> def_apart x = true -> small_def y -> tdef_bytes x = enc_def y.
Proof.
  destruct x as [k n args ds fs|n on fs]; cbn [def_of def_apart tdef_bytes]; intros H B S.
  - destruct (kind_of k) as [k'|] eqn:K; [|discriminate]. destruct (all_some oparg_of args) as [a|] eqn:A; [|discriminate]. destruct (all_some dir_of ds) as [ds'|] eqn:D; [|discriminate]. destruct (all_some sel_of fs) as [xs|] eqn:X; [|discriminate]. injection H as <-. destruct S as [S1 S2].
    pose proof (all_some_len _ _ _ D) as Ld. assert (Nd : byte_len ds = nlen ds') by (rewrite byte_few by (unfold few in S1; lia); unfold nlen; now rewrite Ld). rewrite Nd.
    assert (K1 : (if k =? 0 then 113 else k) = kind_byte k').
    { unfold kind_of in K. destruct k as [|p]; [injection K as <-; reflexivity|]. do 7 (destruct p as [p|p|]; try discriminate K; try (injection K as <-; reflexivity)). }
    rewrite K1, (dirs_bytes ds ds' _ D), (sels_bytes fs xs _ X B S2). cbn [enc_def]. destruct args as [|a0 args].
    + cbn in A. injection A as <-. cbn [enc_opargs]. now rewrite <- !app_assoc.
    + rewrite (fold_bytes ta_bytes oparg_of enc_oparg (a0 :: args)) with (ys := a); [|clear; induction (a0 :: args); constructor; auto; intros ? ?; apply oparg_bytes|exact A].
      destruct a as [|b a]; [apply all_some_len in A; discriminate|]. unfold enc_opargs. set (body := [0; 65] ++ flat_map enc_oparg (b :: a) ++ [0; 101]).
      rewrite (write_len' (((([0; 111; kind_byte k'] ++ [116]) ++ [nlen ds']) ++ n) ++ [0]) body); [now rewrite <- !app_assoc|unfold body; now rewrite <- !app_assoc| |]; unfold body; rewrite !app_length; cbn [length]; lia.
  - destruct (all_some sel_of fs) as [xs|] eqn:X; [|discriminate]. injection H as <-. rewrite (sels_bytes fs xs _ X B S). cbn [enc_def]. now rewrite <- !app_assoc.
Qed.
Lemma doc_bytes l : forall d, doc_of l = Some d -> doc_apart l = true -> Forall small_def d -> tdoc_bytes l = enc_doc d.
Proof.
  unfold doc_of, tdoc_bytes. induction l as [|x l IH]; intros d H B S; cbn [all_some doc_apart forallb flat_map] in *; [injection H as <-; reflexivity|].
  destruct (def_of x) as [y|] eqn:Y; [|discriminate]. destruct (all_some def_of l) as [s|]; [|discriminate]. injection H as <-. apply andb_true_iff in B. destruct B as [B1 B2]. inversion S; subst. now rewrite (def_bytes x y Y B1), (IH s).
Qed.
(** ** Documents that can be written are small *)
Lemma name_small n l r : g_name n l r -> (length n <= 255)%nat.
Proof. intro H. inversion H; subst. inversion H0; subst. cbn in *. lia. Qed.
Lemma small_ok :
  (forall s l r, g_sel s l r -> small_sel s) /\ (forall ss l r, g_opt_set ss l r -> small_sels ss) /\
  (forall ss l r, g_selset ss l r -> small_sels ss) /\ (forall ss l r, g_sels ss l r -> small_sels ss).
Proof.
  apply g_sel_mut; intros; auto; try exact I.
  - inversion H; subst; (split; [first [exact I|eapply name_small; eassumption]|]; split; [eapply name_small; eassumption|]; split; [assumption|]; now apply small_subs).
  - split; [assumption|]. now apply small_subs.
  - split; [assumption|exact I].
  - split; assumption.
Qed.
Lemma small_doc_ok d q : g_doc d q -> Forall small_def d.
Proof.
  induction 1; constructor; auto. inversion H; subst; cbn; try (split; [first [assumption|unfold few; cbn; lia]|]); eapply (proj1 (proj2 (proj2 small_ok))); eauto.
Qed.
