(** * Facts about the query cache *)
From Coq Require Import String Arith NArith Bool Lia List.
From Verif Require Import Base ParserModel ParserSafe CacheModel.
Import ListNotations.
Local Open Scope nat_scope.

(** ** Specification vocabulary *)
(** the uncached parse *)
Definition uncached (c : call) : option outcome :=
  match parse_query (c_query c) (c_target c) with
  | Parsed s => Some (Outcome (p_res s) (p_frags s) (p_tgt s) (p_errs s))
  | _ => None
  end.
Definition no_fragments (c : call) : Prop := forall o, uncached c = Some o -> o_frags o = [].

(** ** Arrays *)
Lemma put_at_len : forall l n v, length (put_at l n v) = length l.
Proof. induction l; destruct n; simpl; intros; auto. Qed.
Lemma set_array_len : forall h a c, length (set_array h a c) = length h.
Proof. induction h as [|x h IH]; destruct a; simpl; intros; auto. Qed.
Lemma array_set : forall h a c b, a < length h ->
  array (set_array h a c) b = if Nat.eqb a b then c else array h b.
Proof.
  unfold array. induction h as [|x h IH]; intros a c b Hl; simpl in Hl; [lia|].
  destruct a, b; simpl; auto. apply IH; lia.
Qed.
Lemma array_app_old : forall h c b, b < length h -> array (h ++ [c]) b = array h b.
Proof. intros. unfold array. rewrite app_nth1; auto. Qed.
Lemma array_app_new : forall h c, array (h ++ [c]) (length h) = c.
Proof. intros. unfold array. rewrite app_nth2 by lia. now rewrite Nat.sub_diag. Qed.

Definition wf_slice (h : heap) (s : slice) : Prop :=
  sl_arr s < length h /\ sl_len s <= length (array h (sl_arr s)).
(** heaps only grow *)
Definition heap_le (h h' : heap) : Prop :=
  length h <= length h' /\ forall a, a < length h -> length (array h a) <= length (array h' a).
Lemma heap_le_refl : forall h, heap_le h h.
Proof. split; auto. Qed.
Lemma heap_le_trans : forall a b c, heap_le a b -> heap_le b c -> heap_le a c.
Proof. intros a b c [H1 H2] [H3 H4]; split; [lia|]. intros x Hx. specialize (H2 x Hx). specialize (H4 x). lia. Qed.
Lemma heap_le_wf : forall h h' s, heap_le h h' -> wf_slice h s -> wf_slice h' s.
Proof. intros h h' s [H1 H2] [H3 H4]; split; [lia|]. specialize (H2 _ H3). lia. Qed.

Lemma firstn_put_at : forall l n v, n < length l -> firstn (S n) (put_at l n v) = firstn n l ++ [v].
Proof.
  induction l; simpl; intros n v H; [lia|]. destruct n; simpl; auto.
  f_equal. apply IHl. lia.
Qed.
Lemma contents_len : forall h s, wf_slice h s -> length (contents h s) = sl_len s.
Proof. intros h s [_ H]. unfold contents. rewrite firstn_length. lia. Qed.

Section Grow.
Variable grow : nat -> nat.

Lemma append1_ok : forall h s v h' s', wf_slice h s -> append1 grow (h, s) v = (h', s') ->
  heap_le h h' /\ wf_slice h' s' /\ contents h' s' = contents h s ++ [v].
Proof.
  intros h s v h' s' [Ha Hl] E. unfold append1 in E.
  destruct (Nat.ltb_spec (sl_len s) (length (array h (sl_arr s)))) as [L|L]; injection E as <- <-.
  - split; [|split].
    + split; [rewrite set_array_len; auto|]. intros a Hh. rewrite array_set by auto.
      destruct (Nat.eqb_spec (sl_arr s) a); subst; [rewrite put_at_len|]; auto.
    + split; simpl; [rewrite set_array_len; auto|].
      rewrite array_set, Nat.eqb_refl, put_at_len by auto. lia.
    + unfold contents; cbn [sl_arr sl_len]. rewrite array_set, Nat.eqb_refl by auto. now apply firstn_put_at.
  - assert (Hc : length (contents h s) = sl_len s) by (apply contents_len; split; auto).
    split; [|split].
    + split; [rewrite app_length; lia|]. intros a Hh. rewrite array_app_old by auto. lia.
    + split; simpl; [rewrite app_length; simpl; lia|]. rewrite array_app_new, app_length, Hc. simpl. lia.
    + unfold contents at 1; cbn [sl_arr sl_len]. rewrite array_app_new.
      rewrite firstn_app, Hc. rewrite firstn_all2 by lia.
      replace (S (sl_len s) - sl_len s) with 1 by lia. reflexivity.
Qed.

Lemma append_fold_ok : forall vs h s h' s', wf_slice h s ->
  fold_left (append1 grow) vs (h, s) = (h', s') ->
  heap_le h h' /\ wf_slice h' s' /\ contents h' s' = contents h s ++ vs.
Proof.
  induction vs as [|v vs IH]; intros h s h' s' Hw E.
  - injection E as <- <-. rewrite app_nil_r. auto using heap_le_refl.
  - cbn [fold_left] in E. destruct (append1 grow (h, s) v) as [h1 s1] eqn:E1.
    destruct (append1_ok _ _ _ _ _ Hw E1) as (A & B & C).
    destruct (IH _ _ _ _ B E) as (A' & B' & C'). split; [eapply heap_le_trans; eauto|]. split; auto.
    rewrite C', C, <- app_assoc. reflexivity.
Qed.

Lemma appendn_ok : forall vs h s h' s', wf_slice h s -> appendn grow (h, s) vs = (h', s') ->
  heap_le h h' /\ wf_slice h' s' /\ contents h' s' = contents h s ++ vs.
Proof.
  intros vs h s h' s' [Ha Hl] E. unfold appendn in E.
  assert (Hc : length (contents h s) = sl_len s) by (apply contents_len; split; auto).
  destruct (Nat.leb_spec (sl_len s + length vs) (length (array h (sl_arr s)))) as [L|L]; injection E as <- <-.
  - split; [|split].
    + split; [rewrite set_array_len; auto|]. intros a Hh. rewrite array_set by auto.
      destruct (Nat.eqb_spec (sl_arr s) a); subst; auto.
      rewrite !app_length, skipn_length, Hc. lia.
    + split; simpl; [rewrite set_array_len; auto|].
      rewrite array_set, Nat.eqb_refl by auto. rewrite !app_length, skipn_length, Hc. lia.
    + unfold contents at 1; cbn [sl_arr sl_len]. rewrite array_set, Nat.eqb_refl by auto.
      rewrite app_assoc, firstn_app, app_length, Hc, Nat.sub_diag. simpl. rewrite app_nil_r.
      apply firstn_all2. rewrite app_length; lia.
  - split; [|split].
    + split; [rewrite app_length; lia|]. intros a Hh. rewrite array_app_old by auto. lia.
    + split; simpl; [rewrite app_length; simpl; lia|]. rewrite array_app_new, !app_length, Hc. lia.
    + unfold contents at 1; cbn [sl_arr sl_len]. rewrite array_app_new.
      rewrite app_assoc, firstn_app, app_length, Hc, Nat.sub_diag. simpl. rewrite app_nil_r.
      apply firstn_all2. rewrite app_length; lia.
Qed.

(** ** The map *)
Definition keys (c : cache) := map fst c.
Lemma in_put : forall c k l x, In x (put c k l) -> x = (k, l) \/ In x c.
Proof.
  induction c as [|[k' l'] c IH]; simpl; intros k l x H; [intuition|].
  destruct (Nat.eqb_spec k k').
  - destruct H; auto.
  - destruct H as [H|H]; auto. apply IH in H. intuition.
Qed.
Lemma keys_put_in : forall c k l x, In x (keys (put c k l)) -> x = k \/ In x (keys c).
Proof.
  intros c k l x H. unfold keys in *. apply in_map_iff in H. destruct H as ([a b] & <- & H).
  apply in_put in H. destruct H as [H|H]; [injection H; auto|]. right. apply in_map_iff. eexists; split; eauto.
Qed.
Lemma put_nodup : forall c k l, NoDup (keys c) -> NoDup (keys (put c k l)).
Proof.
  induction c as [|[k' l'] c IH]; simpl; intros k l H.
  - repeat constructor; auto.
  - inversion H; subst. destruct (Nat.eqb_spec k k'); simpl.
    + subst; constructor; auto.
    + constructor; auto. intros X. apply keys_put_in in X. destruct X; auto. 
Qed.
Lemma put_len : forall c k l, length (put c k l) <= S (length c).
Proof. induction c as [|[k' l'] c IH]; simpl; intros; auto. destruct (Nat.eqb k k'); simpl; auto. specialize (IH k l). lia. Qed.
Lemma bucket_in : forall c k l, bucket c k = Some l -> In (k, l) c.
Proof. induction c as [|[k' l'] c IH]; simpl; intros k l H; [discriminate|]. destruct (Nat.eqb_spec k k'); auto. injection H as ->. subst; auto. Qed.

Lemma del_in : forall c k x, In x (del c k) -> In x c.
Proof. unfold del; intros c k x H. apply filter_In in H. tauto. Qed.
Lemma dels_in : forall ds c x, In x (fold_left del ds c) -> In x c.
Proof. induction ds; simpl; intros c x H; auto. apply IHds in H. eapply del_in; eauto. Qed.
Lemma del_nodup : forall c k, NoDup (keys c) -> NoDup (keys (del c k)).
Proof.
  induction c as [|[a b] c IH]; simpl; intros k H; auto. inversion H; subst.
  destruct (negb _); simpl; auto. constructor; [|apply IH; auto].
  intros X. apply H2. unfold keys in *. apply in_map_iff in X. destruct X as (y & E & X).
  apply in_map_iff. exists y; split; auto. eapply del_in; eauto.
Qed.
Lemma dels_nodup : forall ds c, NoDup (keys c) -> NoDup (keys (fold_left del ds c)).
Proof. induction ds; simpl; intros; auto. apply IHds, del_nodup; auto. Qed.
Lemma del_len : forall c k, length (del c k) <= length c.
Proof. induction c as [|[a b] c IH]; simpl; intros; auto. destruct (negb _); simpl; specialize (IH k); lia. Qed.
Lemma dels_len : forall ds c, length (fold_left del ds c) <= length c.
Proof. induction ds; simpl; intros; auto. specialize (IHds (del c a)). pose proof (del_len c a). lia. Qed.
Lemma del_len_in : forall c k, In k (keys c) -> length (del c k) < length c.
Proof.
  induction c as [|[a b] c IH]; simpl; intros k H; [tauto|].
  destruct (Nat.eqb_spec a k); simpl.
  - pose proof (del_len c k). lia.
  - destruct H; [contradiction|]. specialize (IH _ H). lia.
Qed.
Lemma keys_del_other : forall c k x, In x (keys c) -> x <> k -> In x (keys (del c k)).
Proof.
  unfold keys, del. intros c k x H Hn. apply in_map_iff in H. destruct H as ([a b] & <- & H).
  apply in_map_iff. exists (a, b); split; auto. apply filter_In; split; auto. simpl in *.
  destruct (Nat.eqb_spec a k); simpl; auto.
Qed.
Lemma dels_len_in : forall ds c, NoDup ds -> incl ds (keys c) -> length (fold_left del ds c) + length ds <= length c.
Proof.
  induction ds as [|d ds IH]; simpl; intros c Hn Hi; [lia|]. inversion Hn; subst.
  assert (In d (keys c)) by (apply Hi; left; auto).
  pose proof (del_len_in c d H). specialize (IH (del c d) H2).
  assert (incl ds (keys (del c d))).
  { intros x Hx. apply keys_del_other; [apply Hi; right; auto|]. intros ->; auto. }
  specialize (IH H3). lia.
Qed.

(** ** Bounds *)
Definition bounded (c : cache) : Prop :=
  length c <= 100 /\ forall k l, In (k, l) c -> length l <= 20.

Lemma removelast_len : forall (l : list entry), length (removelast l) = length l - 1.
Proof. induction l as [|a [|b l] IH]; auto. change (length (removelast (a :: b :: l))) with (S (length (removelast (b :: l)))). rewrite IH. simpl. lia. Qed.
Lemma removelast_in : forall (l : list entry) x, In x (removelast l) -> In x l.
Proof. induction l as [|a [|b l] IH]; simpl in *; auto. intros x [H|H]; auto. Qed.

Lemma set_entry_bounded : forall ds c e, bounded c -> (length c = 100 -> good_dels ds c) ->
  bounded (set_entry ds c e).
Proof.
  intros ds c e [B1 B2] G. unfold set_entry.
  set (c1 := if Nat.eqb (length c) 100 then fold_left del ds c else c).
  assert (L : length c1 <= 99).
  { unfold c1. destruct (Nat.eqb_spec (length c) 100) as [E|E]; [|lia].
    destruct (G E) as (X & Y & Z). pose proof (dels_len_in _ _ X Y). lia. }
  assert (B : forall k l, In (k, l) c1 -> length l <= 20).
  { intros k l H. apply (B2 k). unfold c1 in H. destruct (Nat.eqb _ _); auto. eapply dels_in; eauto. }
  split.
  - pose proof (put_len c1 (length (en_query e)) (e :: match bucket c1 (length (en_query e)) with
             | None => []
             | Some l => if Nat.eqb (length l) 20 then removelast l else l
             end)). lia.
  - intros k l H. apply in_put in H. destruct H as [H|H]; [|eauto].
    injection H as _ ->. destruct (bucket c1 (length (en_query e))) as [l0|] eqn:E; simpl; [|lia].
    apply bucket_in in E. specialize (B _ _ E).
    destruct (Nat.eqb_spec (length l0) 20); [rewrite removelast_len|]; lia.
Qed.

(** ** Every entry is the result of an error free parse *)
Definition good_entry (h : heap) (e : entry) : Prop :=
  wf_slice h (en_frags e) /\
  exists s, parse_query (en_query e) (en_target e) = Parsed s /\ p_errs s = [] /\
    en_code e = p_res s /\ en_tidx e = p_tgt s /\ sl_len (en_frags e) = length (p_frags s).
Definition good_cache (h : heap) (c : cache) : Prop :=
  forall k l e, In (k, l) c -> In e l -> length (en_query e) = k /\ good_entry h e.
Definition good_pctx (p : pctx) : Prop :=
  wf_slice (pc_heap p) (pc_frags p) /\ good_cache (pc_heap p) (pc_cache p).

Lemma good_entry_le : forall h h' e, heap_le h h' -> good_entry h e -> good_entry h' e.
Proof. intros h h' e L [W X]. split; auto. eapply heap_le_wf; eauto. Qed.
Lemma good_cache_le : forall h h' c, heap_le h h' -> good_cache h c -> good_cache h' c.
Proof. intros h h' c L G k l e H1 H2. destruct (G _ _ _ H1 H2). split; auto. eapply good_entry_le; eauto. Qed.

Lemma set_entry_good : forall h ds c e, good_cache h c -> good_entry h e -> good_cache h (set_entry ds c e).
Proof.
  intros h ds c e G Ge k l x H1 H2. unfold set_entry in H1.
  set (c1 := if Nat.eqb (length c) 100 then fold_left del ds c else c) in *.
  assert (G1 : good_cache h c1).
  { intros k0 l0 e0 I1 I2. apply (G k0 l0); auto. unfold c1 in I1. destruct (Nat.eqb _ _); auto. eapply dels_in; eauto. }
  apply in_put in H1. destruct H1 as [H1|H1]; [|eapply G1; eauto].
  injection H1 as -> ->. destruct H2 as [<-|H2]; [auto|].
  destruct (bucket c1 (length (en_query e))) as [l0|] eqn:E; [|destruct H2].
  apply bucket_in in E. apply (G1 _ _ _ E). destruct (Nat.eqb (length l0) 20); auto. now apply removelast_in.
Qed.

Lemma target_eqb_spec : forall a b, target_eqb a b = true -> a = b.
Proof.
  intros a b; destruct a, b; simpl; intros H; try discriminate; auto. f_equal. now apply beqb_eq.
Qed.

Lemma get_entry_good : forall h c q t e, good_cache h c -> get_entry c q t = Some e ->
  en_query e = q /\ en_target e = t /\ good_entry h e.
Proof.
  intros h c q t e G H. unfold get_entry in H. destruct (bucket c (length q)) eqn:E; [|discriminate].
  apply bucket_in in E. apply find_some in H. destruct H as [H1 H2].
  apply andb_prop in H2. destruct H2 as [H2 H3].
  destruct (G _ _ _ E H1). apply beqb_eq in H2. apply target_eqb_spec in H3. auto.
Qed.

(** one call *)
Lemma parse_cached_ok : forall p c, good_pctx p ->
  exists o p' u, parse_cached grow p c = Some (o, p') /\ uncached c = Some u /\ good_pctx p' /\
    o_code o = o_code u /\ o_tidx o = o_tidx u /\ o_errs o = o_errs u /\
    length (o_frags o) = length (o_frags u) /\
    ((c_min c >= length (c_query c) \/ get_entry (pc_cache p) (c_query c) (c_target c) = None) -> o = u) /\
    (bounded (pc_cache p) -> (length (pc_cache p) = 100 -> good_dels (c_dels c) (pc_cache p)) ->
     bounded (pc_cache p')).
Proof.
  intros p c [W G]. destruct (parse_query_safe (c_query c) (c_target c)) as (st & P & _).
  unfold uncached. rewrite P. unfold parse_cached.
  assert (W0 : wf_slice (pc_heap p) (Sl (sl_arr (pc_frags p)) 0)).
  { destruct W; split; simpl; auto. lia. }
  destruct (if Nat.ltb (c_min c) (length (c_query c)) then get_entry (pc_cache p) (c_query c) (c_target c) else None) as [e|] eqn:Ee.
  - destruct (Nat.ltb_spec (c_min c) (length (c_query c))) as [L|L]; [|discriminate].
    destruct (get_entry_good _ _ _ _ _ G Ee) as (Q & T & W1 & s & P' & A1 & A2 & A3 & A4).
    rewrite Q, T, P in P'. injection P' as <-.
    destruct (appendn grow (pc_heap p, Sl (sl_arr (pc_frags p)) 0) (contents (pc_heap p) (en_frags e))) as [h s'] eqn:E1.
    destruct (appendn_ok _ _ _ _ _ W0 E1) as (X & Y & Z).
    do 3 eexists. split; [reflexivity|]. split; [reflexivity|].
    split; [split; [auto|eapply good_cache_le; eauto]|]. simpl.
    repeat split; auto.
    + rewrite Z. unfold contents at 1. simpl. rewrite contents_len; auto.
    + intros [H|H]; [lia|congruence].
    + apply H.
    + apply H.
  - rewrite P.
    destruct (fold_left (append1 grow) (p_frags st) (pc_heap p, Sl (sl_arr (pc_frags p)) 0)) as [h s'] eqn:E1.
    destruct (append_fold_ok _ _ _ _ _ W0 E1) as (X & Y & Z). unfold contents in Z at 2. simpl in Z.
    do 3 eexists. split; [reflexivity|]. split; [reflexivity|].
    assert (Ge : p_errs st = [] -> good_entry h (Entry (c_query c) (p_res st) (c_target c) (p_tgt st) s')).
    { intros He. split; [auto|]. exists st. cbn [en_query en_target en_code en_tidx en_frags]. repeat split; auto.
      rewrite <- Z, contents_len; auto. }
    split; [|cbn [o_code o_tidx o_errs o_frags pc_cache]; split; [auto|split; [auto|split; [auto|split]]]].
    + split; [auto|]. cbn [pc_heap pc_cache].
      destruct (Nat.ltb _ _ && _)%bool eqn:B; [|eapply good_cache_le; eauto].
      apply set_entry_good; [eapply good_cache_le; eauto|].
      apply Ge. destruct (p_errs st); auto. rewrite andb_false_r in B. discriminate.
    + rewrite Z; auto.
    + split; [intros _; rewrite Z; auto|]. intros B Gd.
      destruct (Nat.ltb _ _ && _)%bool; auto. apply set_entry_bounded; auto.
Qed.

Lemma new_pctx_good : good_pctx new_pctx.
Proof. split; [split; simpl; lia|]. intros k l e []. Qed.

Lemma history_ok : forall cs p, good_pctx p ->
  exists os p', history grow p cs = Some (os, p') /\ good_pctx p' /\
    Forall2 (fun c o => exists u, uncached c = Some u /\
       o_code o = o_code u /\ o_tidx o = o_tidx u /\ o_errs o = o_errs u /\
       length (o_frags o) = length (o_frags u)) cs os /\
    (bounded (pc_cache p) -> good_history grow p cs -> bounded (pc_cache p')).
Proof.
  induction cs as [|c cs IH]; intros p G.
  - exists [], p. simpl. auto.
  - destruct (parse_cached_ok p c G) as (o & p1 & u & E & U & G1 & A1 & A2 & A3 & A4 & _ & A5).
    destruct (IH p1 G1) as (os & p' & E' & G' & F & B). simpl. rewrite E, E'.
    exists (o :: os), p'. split; auto. split; auto. split; [constructor; eauto 10|].
    intros Hb [Hg Hh]. auto.
Qed.

Lemma history_app : forall cs1 cs2 p os1 p1, history grow p cs1 = Some (os1, p1) ->
  history grow p (cs1 ++ cs2) = match history grow p1 cs2 with None => None | Some (os2, p2) => Some (os1 ++ os2, p2) end.
Proof.
  induction cs1 as [|c cs1 IH]; intros cs2 p os1 p1 E; simpl in *.
  - injection E as <- <-. destruct (history grow p cs2) as [[? ?]|]; auto.
  - destruct (parse_cached grow p c) as [[o p']|]; [|discriminate].
    destruct (history grow p' cs1) as [[os p'']|] eqn:E1; [|discriminate]. injection E as <- <-.
    rewrite (IH cs2 _ _ _ E1). destruct (history grow p'' cs2) as [[? ?]|]; auto.
Qed.

(** a decision procedure for [good_history] on concrete histories *)
Fixpoint nodupb (l : list nat) : bool :=
  match l with [] => true | x :: r => negb (existsb (Nat.eqb x) r) && nodupb r end.
Lemma existsb_in : forall x l, existsb (Nat.eqb x) l = true <-> In x l.
Proof.
  intros x l. rewrite existsb_exists. split.
  - intros (y & I & E). apply Nat.eqb_eq in E. now subst.
  - intros I. exists x. split; auto. apply Nat.eqb_refl.
Qed.
Lemma nodupb_ok : forall l, nodupb l = true -> NoDup l.
Proof.
  induction l as [|x l IH]; simpl; intros H; constructor; apply andb_prop in H; destruct H as [H1 H2]; auto.
  intros I. apply existsb_in in I. rewrite I in H1. discriminate.
Qed.
Definition good_delsb (dels : list nat) (c : cache) : bool :=
  nodupb dels && forallb (fun x => existsb (Nat.eqb x) (map fst c)) dels && Nat.eqb (length dels) 5.
Lemma good_delsb_ok : forall d c, good_delsb d c = true -> good_dels d c.
Proof.
  intros d c H. unfold good_delsb in H. apply andb_prop in H. destruct H as [H H3]. apply andb_prop in H. destruct H as [H1 H2].
  split; [now apply nodupb_ok|]. split; [|now apply Nat.eqb_eq].
  intros x I. rewrite forallb_forall in H2. apply existsb_in. auto.
Qed.
Fixpoint good_historyb (p : pctx) (cs : list call) : bool :=
  match cs with
  | [] => true
  | c :: r => (negb (Nat.eqb (length (pc_cache p)) 100) || good_delsb (c_dels c) (pc_cache p)) &&
              match parse_cached grow p c with None => true | Some (_, p') => good_historyb p' r end
  end.
Lemma good_historyb_ok : forall cs p, good_historyb p cs = true -> good_history grow p cs.
Proof.
  induction cs as [|c cs IH]; simpl; intros p H; auto. apply andb_prop in H. destruct H as [H1 H2].
  split.
  - intros E. rewrite E in H1. simpl in H1. now apply good_delsb_ok.
  - destruct (parse_cached grow p c) as [[o p']|]; auto.
Qed.
End Grow.
