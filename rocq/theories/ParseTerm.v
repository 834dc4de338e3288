(** * Parsing a schema ends *)
From Coq Require Import String Arith NArith ZArith Bool List Lia Wf_nat.
From Verif Require Import Base JsonModel NameModel Schema GoTypes ParseModel ParseFacts.
Import ListNotations.
Local Open Scope pm_scope.
Open Scope nat_scope.

(** ** What is asked of the Go types *)
(** the type declarations that a type literal mentions *)
Fixpoint mentions (t : gtype) : list nat :=
  match t with
  | TBasic _ | TOther => []
  | TNamed n => [n]
  | TPtr e | TSlice e | TArray _ e => mentions e
  | TStruct fs => flat_map (fun f => match f with GField _ _ _ _ x => mentions x end) fs
  | TFunc ins outs _ => flat_map mentions ins ++ flat_map mentions outs
  | TIface ms => flat_map (fun m => mentions (snd m)) ms
  end.
(** the type declarations whose values are part of the values of a type *)
Fixpoint by_value (t : gtype) : list nat :=
  match t with
  | TNamed n => [n]
  | TArray _ e => by_value e
  | TStruct fs => flat_map (fun f => match f with GField _ _ _ _ x => by_value x end) fs
  | _ => []
  end.
(** a named type that is neither struct nor interface *)
Definition other_named (decls : list gdecl) (n : nat) : Prop :=
  t_kind decls (TNamed n) <> KStruct /\ t_kind decls (TNamed n) <> KInterface.
(** Every cycle of type declarations passes through a struct or an interface: the other declarations can be ordered such
    that they only mention others before them. *)
Definition ranked (decls : list gdecl) : Prop :=
  exists rank : nat -> nat, forall n d, nth_error decls n = Some d -> other_named decls n ->
    forall m, In m (mentions (td_under d)) -> other_named decls m -> rank m < rank n.
(** No value contains a value of its own type, which Go does not allow *)
Definition sized (decls : list gdecl) : Prop :=
  exists rank : nat -> nat, forall n d, nth_error decls n = Some d -> forall m, In m (by_value (td_under d)) -> rank m < rank n.
(** only interfaces are recorded as implemented, which interfaces.go 27-29 makes sure *)
Definition registered (P : program) : Prop :=
  forall n ts t, In (n, ts) (g_implements P) -> In t ts -> t_kind (g_decls P) t = KInterface.

(** ** Induction over types *)
Fixpoint tsize (t : gtype) : nat :=
  match t with
  | TBasic _ | TOther | TNamed _ => 1
  | TPtr e | TSlice e | TArray _ e => S (tsize e)
  | TStruct fs => S (list_sum (map (fun f => match f with GField _ _ _ _ x => tsize x end) fs))
  | TFunc ins outs _ => S (list_sum (map tsize ins) + list_sum (map tsize outs))
  | TIface ms => S (list_sum (map (fun m => tsize (snd m)) ms))
  end.
Lemma list_sum_in l x : In x l -> x <= list_sum l.
Proof. induction l as [|y l IHl]; intros H; [contradiction|]. change (list_sum (y :: l)) with (y + list_sum l). destruct H as [->|H]; [lia|]. specialize (IHl H). lia. Qed.

Section Term.
Variable P : program.
Notation decls := (g_decls P).

Definition f_type (f : gfield) : gtype := match f with GField _ _ _ _ x => x end.
Definition outs_of (t : gtype) : list gtype := match under decls t with TFunc _ outs _ => outs | _ => [] end.
(** the types that check asks about for a field *)
Definition asked (f : gfield) : list gtype := f_type f :: outs_of (f_type f).
(** [sub t' t]: checking [t], which is not a named struct or an interface, leads to checking [t'] *)
Inductive sub : gtype -> gtype -> Prop :=
| sub_elem t e : t_elem decls t = Some e -> sub e t
| sub_field t f t' : t_name decls t = [] -> In f (t_fields decls t) -> In t' (asked f) -> sub t' t.

Lemma mentions_field fs f m : In f fs -> In m (mentions (f_type f)) -> In m (mentions (TStruct fs)).
Proof. intros I H. cbn. apply in_flat_map. exists f. split; [exact I|]. destruct f. exact H. Qed.
Lemma mentions_outs ins outs v t m : In t outs -> In m (mentions t) -> In m (mentions (TFunc ins outs v)).
Proof. intros I H. cbn. apply in_or_app. right. apply in_flat_map. eauto. Qed.
Lemma tsize_field fs f : In f fs -> tsize (f_type f) < tsize (TStruct fs).
Proof.
  intro I. cbn. enough (tsize (f_type f) <= list_sum (map (fun f => match f with GField _ _ _ _ x => tsize x end) fs)) by lia.
  apply list_sum_in. apply in_map_iff. exists f. split; [destruct f; reflexivity|exact I].
Qed.
Lemma tsize_outs ins outs v t : In t outs -> tsize t < tsize (TFunc ins outs v).
Proof.
  intro I. cbn. enough (tsize t <= list_sum (map tsize outs)) by lia. apply list_sum_in. now apply in_map.
Qed.

Lemma sub_wf : ranked decls -> (forall n, nth_error decls n <> None -> t_name decls (TNamed n) <> []) -> forall t, Acc sub t.
Proof.
  intros [rank R] Hn.
  assert (forall r k t, tsize t < k -> (forall m, In m (mentions t) -> other_named decls m -> rank m < r) -> Acc sub t) as K.
  2:{ intro t. apply (K (S (list_sum (map rank (mentions t)))) (S (tsize t))); [lia|].
      intros m I _. pose proof (list_sum_in (map rank (mentions t)) (rank m) (in_map _ _ _ I)). lia. }
  induction r as [r IHr] using (well_founded_induction lt_wf). induction k as [|k IHk]; intros t L M; [lia|].
  (* the parts of the literal of a named type *)
  assert (forall n d t', nth_error decls n = Some d -> other_named decls n -> In n (mentions t) ->
            (forall m, In m (mentions t') -> In m (mentions (td_under d))) -> Acc sub t') as Nm.
  { intros n d t' E O I S. apply (IHr (rank n) (M n I O) (Datatypes.S (tsize t'))); [lia|]. intros m Im Om. apply (R n d E O m); auto. }
  constructor. intros t' H. inversion H as [a e E|a f b E I J]; subst.
  - unfold t_elem in E. destruct t as [k0|n|e0|e0|len e0|fs|i o v|ms|]; cbn [under] in E; try discriminate.
    + destruct (nth_error decls n) as [d|] eqn:En; [|discriminate].
      assert (other_named decls n) as O.
      { unfold other_named, t_kind. cbn [under]. rewrite En. destruct (td_under d); try discriminate; split; discriminate. }
      apply (Nm n d t' En O); [cbn; auto|]. intros m Im. destruct (td_under d); try discriminate; injection E as ->; exact Im.
    + injection E as ->. apply (IHk t'); [cbn in L; lia|exact M].
    + injection E as ->. apply (IHk t'); [cbn in L; lia|exact M].
    + injection E as ->. apply (IHk t'); [cbn in L; lia|exact M].
  - unfold t_fields in I. destruct t as [k0|n|e0|e0|len e0|fs|i o v|ms|]; cbn [under] in I; try contradiction.
    + destruct (nth_error decls n) as [d|] eqn:En; [|contradiction]. exfalso. apply (Hn n); [congruence|exact E].
    + pose proof (tsize_field fs f I) as L'. destruct J as [<-|J].
      * apply (IHk (f_type f)); [lia|]. intros m Im. apply M. eapply mentions_field; eauto.
      * unfold outs_of in J. destruct (f_type f) as [k0|n|e0|e0|len e0|fs'|i o v|ms|] eqn:Ef; cbn [under] in J; try contradiction.
        -- destruct (nth_error decls n) as [d|] eqn:En; [|contradiction].
           destruct (td_under d) as [k0|n0|e0|e0|len e0|fs'|i o v|ms|] eqn:Eu; try contradiction.
           assert (other_named decls n) as O. { unfold other_named, t_kind. cbn [under]. rewrite En, Eu. split; discriminate. }
           apply (Nm n d t' En O).
           ++ eapply mentions_field; [exact I|]. rewrite Ef. cbn. auto.
           ++ intros m Im. rewrite Eu. eapply mentions_outs; eauto.
        -- pose proof (tsize_outs i o v t' J). apply (IHk t'); [lia|]. intros m Im. apply M. eapply mentions_field; [exact I|].
           rewrite Ef. eapply mentions_outs; eauto.
Qed.

(** ** Tables grow, unrecorded names become fewer *)
Definition universe : list bytes :=
  map (fun n => rename P n) (kind_string KStruct :: kind_string KInterface :: map td_name decls).
Definition has {A} (l : list (bytes * A)) (n : bytes) : bool := match slookup l n with Some _ => true | None => false end.
Definition missing {A} (U : list bytes) (l : list (bytes * A)) : nat := length (filter (fun n => negb (has l n)) U).
Definition unrec (s : pst) : nat := missing universe (ps_types s) + missing universe (ps_ifaces s).
Definition keeps (s s' : pst) : Prop :=
  (forall n, has (ps_types s) n = true -> has (ps_types s') n = true) /\
  (forall n, has (ps_ifaces s) n = true -> has (ps_ifaces s') n = true).
Lemma keeps_refl s : keeps s s. Proof. split; auto. Qed.
Lemma keeps_trans a b c : keeps a b -> keeps b c -> keeps a c.
Proof. intros [H1 H2] [K1 K2]. split; auto. Qed.
Lemma missing_le {A B} U (l : list (bytes * A)) (l' : list (bytes * B)) :
  (forall n, has l n = true -> has l' n = true) -> missing U l' <= missing U l.
Proof.
  intro H. unfold missing. induction U as [|n U IH]; cbn [filter]; [auto|].
  specialize (H n). destruct (has l n), (has l' n); cbn [negb length]; try lia; specialize (H eq_refl); discriminate H.
Qed.
Lemma missing_lt {A B} U (l : list (bytes * A)) (l' : list (bytes * B)) n :
  (forall n, has l n = true -> has l' n = true) -> In n U -> has l n = false -> has l' n = true -> missing U l' < missing U l.
Proof.
  intros H I E E'. unfold missing. induction U as [|m U IH]; [contradiction|]. cbn [filter].
  destruct I as [->|I].
  - rewrite E, E'. cbn [negb length]. pose proof (missing_le U l l' H) as K. unfold missing in K. lia.
  - specialize (IH I). specialize (H m). destruct (has l m), (has l' m); cbn [negb length]; try lia; specialize (H eq_refl); discriminate H.
Qed.
Lemma keeps_unrec s s' : keeps s s' -> unrec s' <= unrec s.
Proof. intros [H K]. unfold unrec. pose proof (missing_le universe _ _ H). pose proof (missing_le universe _ _ K). lia. Qed.
Lemma has_sset {A} (l : list (bytes * A)) k v n : has (sset l k v) n = beqb n k || has l n.
Proof. unfold has. rewrite slookup_sset. destruct (beqb n k); reflexivity. Qed.
Lemma recorded_type s s' n : keeps s s' -> In n universe -> has (ps_types s) n = false -> has (ps_types s') n = true -> unrec s' < unrec s.
Proof. intros [H K] I E E'. unfold unrec. pose proof (missing_lt universe _ _ n H I E E'). pose proof (missing_le universe _ _ K). lia. Qed.
Lemma recorded_iface s s' n : keeps s s' -> In n universe -> has (ps_ifaces s) n = false -> has (ps_ifaces s') n = true -> unrec s' < unrec s.
Proof. intros [H K] I E E'. unfold unrec. pose proof (missing_lt universe _ _ n K I E E'). pose proof (missing_le universe _ _ H). lia. Qed.

Lemma in_universe t : t_kind decls t = KStruct \/ t_kind decls t = KInterface -> t_name decls t <> [] -> In (rename P (t_name decls t)) universe.
Proof.
  intros K N. unfold universe. apply in_map. destruct t; cbn [t_name] in *; try congruence.
  - unfold t_kind in K. cbn [under] in K. destruct K as [->| ->]; cbn; auto.
  - destruct (nth_error decls n) as [d|] eqn:E; [|congruence]. right. right. apply in_map. eapply nth_error_In; eauto.
Qed.

(** ** Checking ends *)
Definition Q0 (s0 : pst) {A} (_ : A) (s' : pst) : Prop := keeps s0 s'.
Definition ok_at (u : nat) (c : gtype -> bool -> pm pobj) (t : gtype) : Prop :=
  forall h s, unrec s < u -> safe (c t h) (Q0 s) s.

Lemma check_function_ok u c f ins it h s : unrec s < u ->
  (forall t, In t (match f with TFunc _ outs _ => outs | _ => [] end) -> ok_at u c t) -> safe (check_function P c f ins it h) (Q0 s) s.
Proof.
  intros U H. unfold check_function. destruct f; try exact Logic.I.
  destruct variadic; [exact Logic.I|]. destruct outs as [|o outs]; [exact Logic.I|].
  destruct (outs_loop P 0 (o :: outs) None None h) as [[[[nr|] e] isid]|]; try exact Logic.I.
  destruct (nth_error (o :: outs) nr) as [t|] eqn:E; [|exact Logic.I].
  apply safe_bind. eapply safe_mono; [|apply (H t (nth_error_In _ _ E)); exact U].
  intros a s' K. unfold safe, add_method. eapply keeps_trans; [exact K|]. split; auto.
Qed.
Lemma check_field_ok u c f i s : unrec s < u -> (forall t, In t (asked f) -> ok_at u c t) -> safe (check_field P c f i) (Q0 s) s.
Proof.
  intros U H. unfold check_field. destruct f as [nm anon ex tag t].
  destruct anon; [apply keeps_refl|]. destruct (parse_tag tag) as [| |cn isid]; [apply keeps_refl|exact Logic.I|].
  apply safe_bind. apply safe_mono with (Q := Q0 s). { intros o s' K. exact K. }
  assert (safe (c t isid) (Q0 s) s) as D by (apply H; [now left|exact U]).
  destruct (t_kind decls t) eqn:K; try exact D.
  apply safe_bind. eapply safe_mono; [|apply (check_function_ok u); [exact U|]].
  - intros m s' K'. exact K'.
  - intros x I. apply H. right. unfold outs_of, f_type. destruct (under decls t); auto.
Qed.
Lemma check_fields_ok u c l : (forall f t, In f l -> In t (asked f) -> ok_at u c t) ->
  forall i acc s, unrec s < u -> safe (check_fields P c l i acc) (Q0 s) s.
Proof.
  induction l as [|f l IH]; intros H i acc s U; cbn [check_fields]; [apply keeps_refl|].
  apply safe_bind. eapply safe_mono; [|apply (check_field_ok u); [exact U|intros t I; apply (H f t); [now left|exact I]]].
  intros o s' K. eapply safe_mono; [|apply IH].
  - intros x s2 K2. eapply keeps_trans; eassumption.
  - intros g t I J. apply (H g t); [now right|exact J].
  - pose proof (keeps_unrec _ _ K). lia.
Qed.
Definition method_outs (l : list (bytes * gtype)) : list gtype :=
  flat_map (fun m => match snd m with TFunc _ outs _ => outs | _ => [] end) l.
Lemma check_methods_ok u c t l : (forall t, In t (method_outs l) -> ok_at u c t) ->
  forall i acc s, unrec s < u -> safe (check_methods P c t l i acc) (Q0 s) s.
Proof.
  induction l as [|[n f] l IH]; intros H i acc s U; cbn [check_methods]; [apply keeps_refl|].
  destruct (expose_method n); [| exact Logic.I|].
  - apply IH; [|exact U]. intros x I. apply H. unfold method_outs. cbn [flat_map]. apply in_or_app. now right.
  - apply safe_bind. eapply safe_mono; [|apply (check_function_ok u); [exact U|]].
    + intros o s' K. eapply safe_mono; [|apply IH].
      * intros x s2 K2. eapply keeps_trans; eassumption.
      * intros x I. apply H. unfold method_outs. cbn [flat_map]. apply in_or_app. now right.
      * pose proof (keeps_unrec _ _ K). lia.
    + intros x I. apply H. unfold method_outs. cbn [flat_map snd]. apply in_or_app. now left.
Qed.
Lemma mapm_ok {A B} (f : A -> pm B) u l : (forall a s, In a l -> unrec s < u -> safe (f a) (Q0 s) s) ->
  forall s, unrec s < u -> safe (mapm f l) (Q0 s) s.
Proof.
  induction l as [|a l IH]; intros H s U; cbn [mapm]; [apply keeps_refl|].
  apply safe_bind. eapply safe_mono; [|apply H; [now left|exact U]]. intros b s' K.
  apply safe_bind. eapply safe_mono; [|apply IH].
  - intros x s2 K2. eapply keeps_trans; eassumption.
  - intros x s2 I. apply H. now right.
  - pose proof (keeps_unrec _ _ K). lia.
Qed.
Lemma set_type_keeps s n t : keeps s (PSt (sset (ps_types s) n t) (ps_ifaces s) (ps_intypes s) (ps_unk s) (ps_unkin s) (ps_methods s)).
Proof. split; cbn; auto. intros m H. rewrite has_sset, H. now destruct (beqb m n). Qed.
Lemma set_iface_keeps s n t : keeps s (PSt (ps_types s) (sset (ps_ifaces s) n t) (ps_intypes s) (ps_unk s) (ps_unkin s) (ps_methods s)).
Proof. split; cbn; auto. intros m H. rewrite has_sset, H. now destruct (beqb m n). Qed.

(** a struct, given that its members can be checked once its name is recorded *)
Lemma check_struct_ok u c t n is s :
  (forall f t', In f (t_fields decls t) -> In t' (asked f) -> ok_at u c t') ->
  (forall t', In t' (method_outs (t_methods decls t)) -> ok_at u c t') ->
  (forall s', keeps s s' -> has (ps_types s') n = true -> unrec s' < u) ->
  safe (check_struct P c t n is) (Q0 s) s.
Proof.
  intros F M U. unfold check_struct. apply safe_bind. unfold safe at 1, set_type at 1.
  match goal with |- safe _ _ ?s1 => assert (keeps s s1) as K1 by apply set_type_keeps; assert (has (ps_types s1) n = true) as H1 end.
  { cbn. rewrite has_sset, beqb_refl. reflexivity. }
  apply safe_bind. eapply safe_mono; [|apply (check_fields_ok u); [exact F|now apply U]].
  intros fs s2 K2. apply safe_bind. eapply safe_mono; [|apply (check_methods_ok u); [exact M|apply U]].
  - intros fs2 s3 K3. apply safe_bind. unfold safe, set_type. cbn.
    eapply keeps_trans; [exact K1|]. eapply keeps_trans; [exact K2|]. eapply keeps_trans; [exact K3|]. apply set_type_keeps.
  - eapply keeps_trans; eassumption.
  - apply K2. exact H1.
Qed.

(** enough fuel for all types of a list *)
Lemma fuel_for {X} (Q : nat -> X -> Prop) (l : list X) :
  (forall x n m, n <= m -> Q n x -> Q m x) -> (forall x, In x l -> exists n, Q n x) -> exists n, forall x, In x l -> Q n x.
Proof.
  intros Mo. induction l as [|x l IH]; intros H; [exists 0; intros; contradiction|].
  destruct (H x (or_introl eq_refl)) as [n Hn]. destruct IH as [m Hm]; [intros; apply H; now right|].
  exists (n + m). intros y [<-|I]; [apply (Mo x n); [lia|exact Hn]|]. apply (Mo y m); [lia|auto].
Qed.
Definition enough (u n : nat) (t : gtype) : Prop := forall fuel, n <= fuel -> ok_at u (check P fuel) t.
Lemma enough_mono u t n m : n <= m -> enough u n t -> enough u m t.
Proof. intros L H fuel L'. apply H. lia. Qed.
Lemma enough_list u l : (forall t, In t l -> exists n, enough u n t) -> exists n, forall t, In t l -> enough u n t.
Proof. apply fuel_for. intros x n m. apply enough_mono. Qed.

(** every declared type has a name *)
Definition names_given : Prop := forall n, nth_error decls n <> None -> t_name decls (TNamed n) <> [].
Hypothesis Hr : ranked decls.
Hypothesis Hi : registered P.
Hypothesis Hn : names_given.

Definition struct_asked (t : gtype) : list gtype := flat_map asked (t_fields decls t) ++ method_outs (t_methods decls t).
Definition iface_asked (t : gtype) : list gtype := types_of (g_implemented P) (t_name decls t) ++ method_outs (t_methods decls t).

Lemma iface_ends u t : (forall t', exists n, enough u n t') -> t_kind decls t = KInterface -> exists n, enough (S u) n t.
Proof.
  intros IH K. destruct (enough_list u (iface_asked t) (fun t' _ => IH t')) as [n Hn'].
  exists (S n). intros fuel L h s U. destruct fuel as [|fuel]; [lia|]. cbn [check].
  destruct (is_time decls t); [apply keeps_refl|]. rewrite K. destruct h; [exact Logic.I|].
  destruct (t_name decls t) as [|b nm] eqn:En; [exact Logic.I|].
  apply safe_bind. unfold safe at 1, get at 1.
  destruct (slookup (ps_ifaces s) (rename P (b :: nm))) eqn:El; [destruct (beqb _ _); [apply keeps_refl|exact Logic.I]|].
  unfold check_iface. rewrite En. apply safe_bind. unfold safe at 1, set_iface at 1.
  match goal with |- safe _ _ ?s1 => assert (keeps s s1) as K1 by apply set_iface_keeps; assert (has (ps_ifaces s1) (rename P (b :: nm)) = true) as H1 end.
  { cbn. rewrite has_sset, beqb_refl. reflexivity. }
  assert (forall s', keeps s s' -> has (ps_ifaces s') (rename P (b :: nm)) = true -> unrec s' < u) as Lt.
  { intros s' K' H'. assert (unrec s' < unrec s); [|lia]. eapply recorded_iface; [exact K'| |unfold has; rewrite El; reflexivity|exact H'].
    rewrite <- En. apply in_universe; [now right|]. rewrite En. discriminate. }
  destruct (slookup (g_implemented P) (b :: nm)) as [ts|] eqn:Et; [|exact Logic.I].
  apply safe_bind. eapply safe_mono; [|apply (mapm_ok _ u ts)].
  - intros is s2 K2. apply safe_bind. eapply safe_mono; [|apply (check_methods_ok u)].
    + intros fs s3 K3. apply safe_bind. unfold safe, set_iface. cbn.
      eapply keeps_trans; [exact K1|]. eapply keeps_trans; [exact K2|]. eapply keeps_trans; [exact K3|]. apply set_iface_keeps.
    + intros t' I. apply Hn'; [|lia]. unfold iface_asked. apply in_or_app. now right.
    + apply Lt; [eapply keeps_trans; eassumption|]. apply K2. exact H1.
  - intros a s2 I U2. unfold check_impl. destruct (t_kind decls a); try exact Logic.I.
    destruct (t_name decls a); [exact Logic.I|]. destruct (implements decls a t); [|exact Logic.I].
    apply (Hn' a); [|lia|exact U2]. unfold iface_asked, types_of. rewrite En, Et. apply in_or_app. now left.
  - apply Lt; [exact K1|exact H1].
Qed.
Lemma slookup_in {A} (l : list (bytes * A)) k v : slookup l k = Some v -> In (k, v) l.
Proof.
  induction l as [|[a b] l IH]; cbn [slookup]; [discriminate|]. destruct (beqb k a) eqn:E.
  - intro H. injection H as <-. apply beqb_eq in E. subst. now left.
  - intro H. right. auto.
Qed.
Lemma struct_ends u t : (forall t', exists n, enough u n t') -> t_kind decls t = KStruct -> t_name decls t <> [] -> exists n, enough (S u) n t.
Proof.
  intros IH K N.
  destruct (enough_list u (struct_asked t) (fun t' _ => IH t')) as [n Hs].
  destruct (enough_list (S u) (types_of (g_implements P) (t_name decls t))) as [m Hm].
  { intros t' I. apply iface_ends; [exact IH|]. unfold types_of in I. destruct (slookup (g_implements P) (t_name decls t)) as [ts|] eqn:E; [|contradiction].
    apply (Hi _ _ t' (slookup_in _ _ _ E) I). }
  exists (S (n + m)). intros fuel L h s U. destruct fuel as [|fuel]; [lia|]. cbn [check].
  destruct (is_time decls t); [apply keeps_refl|]. rewrite K. destruct h; [exact Logic.I|].
  destruct (t_name decls t) as [|b nm] eqn:En; [congruence|].
  apply safe_bind. unfold safe at 1, get at 1.
  destruct (slookup (ps_types s) (rename P (b :: nm))) eqn:El; [destruct (beqb _ _); [apply keeps_refl|exact Logic.I]|].
  apply safe_bind. eapply safe_mono; [|apply (mapm_ok _ (S u)); [|exact U]].
  2:{ intros a s2 I U2. apply (Hm a I); [lia|exact U2]. }
  intros is s2 K2. eapply safe_mono; [|apply (check_struct_ok u)].
  - intros o s3 K3. eapply keeps_trans; eassumption.
  - intros f t' I J. apply Hs; [|lia]. unfold struct_asked. apply in_or_app. left. apply in_flat_map. eauto.
  - intros t' I. apply Hs; [|lia]. unfold struct_asked. apply in_or_app. now right.
  - intros s' K' H'. assert (unrec s' < unrec s); [|lia].
    eapply recorded_type; [eapply keeps_trans; eassumption| |unfold has; rewrite El; reflexivity|exact H'].
    rewrite <- En. apply in_universe; [now left|]. rewrite En. discriminate.
Qed.
Lemma unnamed_methods t : t_kind decls t = KStruct -> t_name decls t = [] -> t_methods decls t = [].
Proof.
  intros K N. unfold t_methods. unfold t_kind in K. destruct t; cbn [under] in *; try discriminate; try reflexivity.
  destruct (nth_error decls n) as [d|] eqn:E; [|discriminate]. exfalso. apply (Hn n); [congruence|exact N].
Qed.
Lemma check_ends u : forall t, exists n, enough u n t.
Proof.
  induction u as [|u IH]; intro t; [exists 0; intros fuel L h s U; lia|].
  induction (sub_wf Hr Hn t) as [t _ IHt].
  destruct (t_kind decls t) eqn:K.
  6,7,8:
    (destruct (t_elem decls t) as [e|] eqn:Ee;
     [ destruct (IHt e (sub_elem t e Ee)) as [n Hn']; exists (S n); intros fuel L h s U; destruct fuel as [|fuel]; [lia|];
       cbn [check]; destruct (is_time decls t); [apply keeps_refl|]; rewrite K, Ee;
       apply safe_bind; eapply safe_mono; [|apply Hn'; [lia|exact U]]; intros o s' K'; exact K'
     | exists 1; intros fuel L h s U; destruct fuel as [|fuel]; [lia|];
       cbn [check]; destruct (is_time decls t); [apply keeps_refl|]; rewrite K, Ee; exact Logic.I ]).
  all: try (exists 1; intros fuel L h s U; destruct fuel as [|fuel]; [lia|]; cbn [check];
            destruct (is_time decls t); [apply keeps_refl|]; rewrite K;
            try (destruct (enum_of P t); [apply keeps_refl|]; match goal with |- safe (if ?b then _ else _) _ _ => destruct b end; [exact Logic.I|apply keeps_refl]);
            exact Logic.I).
  - destruct (t_name decls t) as [|b nm] eqn:En; [|apply struct_ends; [exact IH|exact K|congruence]].
    destruct (enough_list (S u) (flat_map asked (t_fields decls t))) as [n Hf].
    { intros t' I. apply in_flat_map in I. destruct I as [f [I J]]. apply IHt. eapply sub_field; eauto. }
    exists (S n). intros fuel L h s U. destruct fuel as [|fuel]; [lia|]. cbn [check]. destruct (is_time decls t); [apply keeps_refl|].
    rewrite K. destruct h; [exact Logic.I|]. rewrite En.
    apply safe_bind. unfold safe at 1, next_unknown at 1. eapply safe_mono; [|apply (check_struct_ok (S u))].
    + intros o s' K'. exact K'.
    + intros f t' I J. apply Hf; [|lia]. apply in_flat_map. eauto.
    + rewrite (unnamed_methods t K En). intros t' I. contradiction I.
    + intros s' K' _. pose proof (keeps_unrec _ _ K') as L'. unfold unrec in *. cbn in *. lia.
  - apply iface_ends; [exact IH|exact K].
Qed.

(** ** Zero values *)
Hypothesis Hz : sized decls.
Lemma zero_fields_some n fs : (forall f, In f fs -> exists v, zero decls n (f_type f) = Some v) -> forall acc,
  exists v, (fix fields (l : list gfield) (acc : list (bool * gval)) : option gval :=
     match l with
     | [] => Some (GStruct acc)
     | GField _ _ e _ x :: r => match zero decls n x with Some v => fields r (acc ++ [(e, v)]) | None => None end
     end) fs acc = Some v.
Proof.
  induction fs as [|[nm a e tg x] fs IH]; intros H acc; [eauto|].
  destruct (H _ (or_introl eq_refl)) as [v Ev]. cbn [f_type] in Ev. rewrite Ev. apply IH. intros. apply H. now right.
Qed.
Lemma zero_ends t : exists n v, zero decls n t = Some v.
Proof.
  destruct Hz as [rank R].
  assert (forall r k t, tsize t < k -> (forall m, In m (by_value t) -> rank m < r) -> exists n v, zero decls n t = Some v) as K.
  2:{ apply (K (S (list_sum (map rank (by_value t)))) (S (tsize t))); [lia|].
      intros m I. pose proof (list_sum_in (map rank (by_value t)) (rank m) (in_map _ _ _ I)). lia. }
  clear t. induction r as [r IHr] using (well_founded_induction lt_wf). induction k as [|k IHk]; intros t L M; [lia|].
  assert (forall t', (match under decls t with TArray _ e => t' = e | TStruct fs => exists f, In f fs /\ t' = f_type f | _ => False end) ->
            exists n v, zero decls n t' = Some v) as C.
  { intros t' H. destruct t as [k0|n|e0|e0|len e0|fs|i o v|ms|]; cbn [under] in H; try contradiction.
    - destruct (nth_error decls n) as [d|] eqn:En; [|contradiction].
      apply (IHr (rank n) (M n (or_introl eq_refl)) (S (tsize t'))); [lia|].
      intros m Im. apply (R n d En). destruct (td_under d); try contradiction.
      + subst. exact Im.
      + destruct H as [f [I ->]]. cbn. apply in_flat_map. exists f. split; [exact I|destruct f; exact Im].
    - subst t'. apply IHk; [cbn in L; lia|exact M].
    - destruct H as [f [I ->]]. pose proof (tsize_field fs f I). apply IHk; [lia|].
      intros m Im. apply M. cbn. apply in_flat_map. exists f. split; [exact I|destruct f; exact Im]. }
  destruct (under decls t) as [k0|n|e0|e0|len e0|fs|i o v|ms|] eqn:Eu.
  all: try (exists 1; cbn [zero]; rewrite Eu; destruct (is_time decls t); [eauto|]; try destruct k0; eauto; fail).
  - destruct (C e0 eq_refl) as [n [v E]]. exists (S n). cbn [zero]. destruct (is_time decls t); [eauto|]. rewrite Eu, E. eauto.
  - destruct (fuel_for (fun n f => exists v, zero decls n (f_type f) = Some v) fs) as [n H].
    + intros f a b Lab [v E]. exists v. eapply zero_mono; eauto.
    + intros f I. apply C. exists f. auto.
    + exists (S n). cbn [zero]. destruct (is_time decls t); [eauto|]. rewrite Eu. apply (zero_fields_some n fs H).
Qed.

(** ** Checking arguments ends *)
Definition universe_in : list bytes := universe ++ map (fun n => n ++ bs "__input") universe.
Definition unrec_in (s : pst) : nat := missing universe_in (ps_intypes s).
Definition keeps_in (s s' : pst) : Prop := forall n, has (ps_intypes s) n = true -> has (ps_intypes s') n = true.
Definition Q1 (s0 : pst) {A} (_ : A) (s' : pst) : Prop := keeps_in s0 s'.
Lemma keeps_in_refl s : keeps_in s s. Proof. intro; auto. Qed.
Lemma keeps_in_trans a b c : keeps_in a b -> keeps_in b c -> keeps_in a c.
Proof. intros H K n E. auto. Qed.
Lemma keeps_in_unrec s s' : keeps_in s s' -> unrec_in s' <= unrec_in s.
Proof. apply missing_le. Qed.
Definition in_ok (u : nat) (c : gtype -> bool -> pm input) (t : gtype) : Prop :=
  forall h s, unrec_in s < u -> safe (c t h) (Q1 s) s.
Lemma zero_of_safe n v t s : zero decls n t = Some v -> forall fuel, n <= fuel -> safe (zero_of P fuel t) (fun _ s' => s' = s) s.
Proof. intros E fuel L. unfold zero_of. rewrite (zero_mono P n fuel t v L E). reflexivity. Qed.
Lemma check_input_field_ok u c f i s : unrec_in s < u -> in_ok u c (f_type f) -> safe (check_input_field c f i) (Q1 s) s.
Proof.
  intros U H. destruct f as [nm anon ex tag t]. cbn [check_input_field f_type] in *.
  destruct anon; [apply keeps_in_refl|]. destruct (parse_tag tag) as [| |cn isid]; [apply keeps_in_refl|exact Logic.I|].
  apply safe_bind. eapply safe_mono; [|apply H; exact U]. intros j s' K. exact K.
Qed.
Lemma check_input_fields_ok u c l : (forall f, In f l -> in_ok u c (f_type f)) ->
  forall i acc s, unrec_in s < u -> safe (check_input_fields c l i acc) (Q1 s) s.
Proof.
  induction l as [|f l IH]; intros H i acc s U; cbn [check_input_fields]; [apply keeps_in_refl|].
  apply safe_bind. eapply safe_mono; [|apply (check_input_field_ok u); [exact U|apply H; now left]].
  intros o s' K. eapply safe_mono; [|apply IH].
  - intros x s2 K2. eapply keeps_in_trans; eassumption.
  - intros g I. apply H. now right.
  - pose proof (keeps_in_unrec _ _ K). lia.
Qed.
Lemma arg_fields_ok u c l : (forall f, In f l -> in_ok u c (f_type f)) ->
  forall i nr acc s, unrec_in s < u -> safe (arg_fields c l i nr acc) (Q1 s) s.
Proof.
  induction l as [|f l IH]; intros H i nr acc s U; cbn [arg_fields]; [apply keeps_in_refl|].
  apply safe_bind. eapply safe_mono; [|apply (check_input_field_ok u); [exact U|apply H; now left]].
  intros o s' K. eapply safe_mono; [|apply IH].
  - intros x s2 K2. eapply keeps_in_trans; eassumption.
  - intros g I. apply H. now right.
  - pose proof (keeps_in_unrec _ _ K). lia.
Qed.
Definition in_enough (u n : nat) (t : gtype) : Prop := forall fuel, n <= fuel -> in_ok u (check_input P fuel) t.
Lemma in_enough_list u l : (forall t, In t l -> exists n, in_enough u n t) -> exists n, forall t, In t l -> in_enough u n t.
Proof. apply fuel_for. intros x n m L H fuel L'. apply H. lia. Qed.
Lemma set_intype_keeps s n t : keeps_in s (PSt (ps_types s) (ps_ifaces s) (sset (ps_intypes s) n t) (ps_unk s) (ps_unkin s) (ps_methods s)).
Proof. intros m H. cbn. rewrite has_sset, H. now destruct (beqb m n). Qed.

(** the part of checkFunctionInput that records a struct *)
Lemma record_input_ok u c t n z s :
  (slookup (ps_intypes s) n = None -> forall f, In f (t_fields decls t) -> in_ok u c (f_type f)) ->
  (slookup (ps_intypes s) n = None -> forall s', keeps_in s s' -> has (ps_intypes s') n = true -> unrec_in s' < u) ->
  safe (match slookup (ps_intypes s) n with
        | Some _ => pret tt
        | None =>
            let j c := Input KStruct None false false false 0 None false n c z in
            set_intype n (j []) ;;;
            cs <- check_input_fields c (t_fields decls t) 0 [] ;;
            set_intype n (j cs)
        end) (Q1 s) s.
Proof.
  intros F U. destruct (slookup (ps_intypes s) n) eqn:E; [apply keeps_in_refl|]. specialize (F eq_refl). specialize (U eq_refl).
  cbv zeta. apply safe_bind. unfold safe at 1, set_intype at 1.
  match goal with |- safe _ _ ?s1 => assert (keeps_in s s1) as K1 by apply set_intype_keeps; assert (has (ps_intypes s1) n = true) as H1 end.
  { cbn. rewrite has_sset, beqb_refl. reflexivity. }
  apply safe_bind. eapply safe_mono; [|apply (check_input_fields_ok u); [exact F|now apply U]].
  intros cs s2 K2. unfold safe, set_intype. cbn. eapply keeps_in_trans; [exact K1|]. eapply keeps_in_trans; [exact K2|]. apply set_intype_keeps.
Qed.
Lemma check_input_ends u : forall t, exists n, in_enough u n t.
Proof.
  induction u as [|u IH]; intro t; [exists 0; intros fuel L h s U; lia|].
  induction (sub_wf Hr Hn t) as [t _ IHt]. destruct (zero_ends t) as [nz [vz Ez]].
  assert (forall n, (forall fuel h s z, n <= fuel -> unrec_in s < S u -> safe
            (match t_kind decls t with
             | (KString | KBool | KInt _ | KUint _ | KFloat _) as k =>
                 match enum_of P t with
                 | Some e => pret (Input k (Some e) false false false 0 None false [] [] z)
                 | None => if h && negb (id_kind k) then perr
                           else pret (Input k None h false false 0 None false [] [] z)
                 end
             | KPtr =>
                 match t_elem decls t with
                 | None => ppanic
                 | Some e =>
                     if is_file_header decls e then pret (Input KPtr None false true false 0 None false [] [] z)
                     else j <- check_input P fuel e h ;; pret (Input KPtr None false false false 0 (Some j) false [] [] z)
                 end
             | (KArray | KSlice) as k =>
                 match t_elem decls t with
                 | None => ppanic
                 | Some e => j <- check_input P fuel e false ;; pret (Input k None false false false 0 (Some j) false [] [] z)
                 end
             | KStruct =>
                 if is_time decls t then pret (Input KString None false false true 0 None false [] [] z)
                 else
                   n <- (match t_name decls t with
                         | [] => next_unknown_in
                         | goname =>
                             s <- get ;;
                             let n := rename P goname in
                             pret (match slookup (ps_types s) n with Some _ => n ++ bs "__input" | None => n end)
                         end) ;;
                   s <- get ;;
                   match slookup (ps_intypes s) n with
                   | Some _ => pret tt
                   | None =>
                       let j c := Input KStruct None false false false 0 None false n c z in
                       set_intype n (j []) ;;;
                       c <- check_input_fields (check_input P fuel) (t_fields decls t) 0 [] ;;
                       set_intype n (j c)
                   end ;;;
                   pret (Input KStruct None false false false 0 None true n [] z)
             | _ => perr
             end) (Q1 s) s) -> exists n, in_enough (S u) n t) as G.
  { intros n H. exists (S (n + nz)). intros fuel L h s U. destruct fuel as [|fuel]; [lia|]. cbn [check_input].
    apply safe_bind. eapply safe_mono; [|apply (zero_of_safe nz vz t s Ez fuel); lia]. intros z s' ->. apply H; [lia|exact U]. }
  destruct (t_kind decls t) eqn:K.
  6,7:
    (destruct (t_elem decls t) as [e|] eqn:Ee;
     [ destruct (IHt e (sub_elem t e Ee)) as [n Hn']; apply (G n); intros fuel h s z L U; cbv zeta;
       apply safe_bind; eapply safe_mono; [|apply Hn'; [lia|exact U]]; intros o s' K'; exact K'
     | apply (G 0); intros; exact Logic.I ]).
  all: try (apply (G 0); intros fuel h s z L U; cbv zeta;
            try (destruct (enum_of P t); [apply keeps_in_refl|]; match goal with |- safe (if ?b then _ else _) _ _ => destruct b end; [exact Logic.I|apply keeps_in_refl]);
            exact Logic.I).
  - destruct (t_elem decls t) as [e|] eqn:Ee; [|apply (G 0); intros; exact Logic.I].
    destruct (IHt e (sub_elem t e Ee)) as [n Hn']. apply (G n). intros fuel h s z L U.
    destruct (is_file_header decls e); [apply keeps_in_refl|].
    apply safe_bind. eapply safe_mono; [|apply Hn'; [lia|exact U]]. intros o s' K'. exact K'.
  - destruct (t_name decls t) as [|b nm] eqn:En.
    + destruct (in_enough_list (S u) (map f_type (t_fields decls t))) as [n Hf].
      { intros t' I. apply in_map_iff in I. destruct I as [f [<- I]]. apply IHt. apply (sub_field t f); [exact En|exact I|now left]. }
      apply (G n). intros fuel h s z L U. destruct (is_time decls t); [apply keeps_in_refl|].
      apply safe_bind. unfold safe at 1, next_unknown_in at 1. apply safe_bind. unfold safe at 1, get at 1.
      apply safe_bind. eapply safe_mono; [|apply (record_input_ok (S u))].
      * intros x s' K'. exact K'.
      * intros _ f I. apply Hf; [now apply in_map|lia].
      * intros _ s' K' _. pose proof (keeps_in_unrec _ _ K') as L'. unfold unrec_in in *. cbn in *. lia.
    + destruct (in_enough_list u (map f_type (t_fields decls t)) (fun t' _ => IH t')) as [n Hf].
      apply (G n). intros fuel h s z L U. destruct (is_time decls t); [apply keeps_in_refl|].
      apply safe_bind. apply safe_bind. unfold safe at 1, get at 1. unfold safe at 1, pret at 1. cbv zeta.
      match goal with |- safe (pbind get (fun s0 => pbind (match slookup _ ?m with _ => _ end) _)) _ _ => set (nn := m) in * end.
      assert (In nn universe_in) as In1.
      { assert (In (rename P (b :: nm)) universe) as I0. { rewrite <- En. apply in_universe; [now left|]. rewrite En. discriminate. }
        unfold nn, universe_in. apply in_or_app. destruct (slookup (ps_types s) _); [|now left]. right. apply in_map_iff. eauto. }
      apply safe_bind. unfold safe at 1, get at 1. apply safe_bind. eapply safe_mono; [|apply (record_input_ok u)].
      * intros x s' K'. exact K'.
      * intros _ f I. apply Hf; [now apply in_map|lia].
      * intros El s' K' H'. assert (unrec_in s' < unrec_in s); [|lia]. unfold unrec_in.
        apply (missing_lt universe_in _ _ nn); auto. unfold has. now rewrite El.
Qed.
Lemma fun_ins_ends u ts : exists n, forall fuel, n <= fuel -> forall nr ins fs s, unrec_in s < u ->
  safe (fun_ins P fuel ts nr ins fs) (Q1 s) s.
Proof.
  induction ts as [|t ts [n IH]]; [exists 0; intros; apply keeps_in_refl|].
  destruct (zero_ends t) as [nz [vz Ez]].
  destruct (in_enough_list u (map f_type (t_fields decls t)) (fun t' _ => check_input_ends u t')) as [m Hf].
  exists (n + m + nz). intros fuel L nr ins fs s U. cbn [fun_ins].
  match goal with |- safe (if ?b then _ else _) _ _ => destruct b end; [apply IH; [lia|exact U]|].
  destruct (is_ctx decls t); [exact Logic.I|]. destruct (t_kind decls t); try exact Logic.I.
  apply safe_bind. eapply safe_mono; [|apply (zero_of_safe nz vz t s Ez fuel); lia]. intros z s' ->.
  apply safe_bind. eapply safe_mono; [|apply (arg_fields_ok u); [|exact U]].
  - intros fs2 s2 K2. eapply safe_mono; [|apply IH; [lia|]].
    + intros x s3 K3. eapply keeps_in_trans; eassumption.
    + pose proof (keeps_in_unrec _ _ K2). lia.
  - intros f I. apply Hf; [now apply in_map|lia].
Qed.
Lemma methods_ins_ends u ms : exists n, forall fuel, n <= fuel -> forall s, unrec_in s < u -> safe (methods_ins P fuel ms) (Q1 s) s.
Proof.
  induction ms as [|m ms [n IH]]; [exists 0; intros; apply keeps_in_refl|].
  destruct (fun_ins_ends u (method_args (pm_istype m) (pm_type m))) as [k Hk].
  exists (n + k). intros fuel L s U. cbn [methods_ins]. apply safe_bind. eapply safe_mono; [|apply Hk; [lia|exact U]].
  intros p s2 K2. apply safe_bind. eapply safe_mono; [|apply IH; [lia|]].
  - intros x s3 K3. eapply keeps_in_trans; eassumption.
  - pose proof (keeps_in_unrec _ _ K2). lia.
Qed.
Lemma dirs_ins_ends u ms : exists n, forall fuel, n <= fuel -> forall s, unrec_in s < u -> safe (dirs_ins P fuel ms) (Q1 s) s.
Proof.
  induction ms as [|m ms [n IH]]; [exists 0; intros; apply keeps_in_refl|].
  destruct (fun_ins_ends u (pd_type m)) as [k Hk].
  exists (n + k). intros fuel L s U. cbn [dirs_ins]. apply safe_bind. eapply safe_mono; [|apply Hk; [lia|exact U]].
  intros p s2 K2. apply safe_bind. eapply safe_mono; [|apply IH; [lia|]].
  - intros x s3 K3. eapply keeps_in_trans; eassumption.
  - pose proof (keeps_in_unrec _ _ K2). lia.
Qed.

(** a function of the fuel that ends from a given state *)
Definition ends {A} (f : nat -> pm A) (s : pst) : Prop := exists n, f n s <> PNoFuel.
Lemma ends_bind {A B} (f : nat -> pm A) (g : nat -> A -> pm B) s :
  (forall n, refines (f n) (f (S n))) -> (forall n a, refines (g n a) (g (S n) a)) ->
  ends f s -> (forall n a s', f n s = POk a s' -> ends (fun n => g n a) s') -> ends (fun n => pbind (f n) (g n)) s.
Proof.
  intros Mf Mg [n E] H. destruct (f n s) as [a s'| | |] eqn:Ef; try congruence.
  - destruct (H n a s' Ef) as [m Em]. exists (n + m). unfold pbind.
    destruct (upto_le f Mf n (n + m) ltac:(lia) s) as [X|X]; [congruence|]. rewrite <- X, Ef.
    destruct (upto_le (fun n => g n a) (fun n => Mg n a) m (n + m) ltac:(lia) s') as [Y|Y]; congruence.
  - exists n. unfold pbind. rewrite Ef. discriminate.
  - exists n. unfold pbind. rewrite Ef. discriminate.
Qed.
Lemma ends_const {A} (m : pm A) s : m s <> PNoFuel -> ends (fun _ => m) s.
Proof. intro. now exists 0. Qed.
Lemma safe_ends {A} (m : pm A) Q s : safe m Q s -> m s <> PNoFuel.
Proof. unfold safe. destruct (m s); congruence. Qed.
Lemma fatal_ends {A} (m : pm A) s : m s <> PNoFuel -> fatal m s <> PNoFuel.
Proof. unfold fatal. destruct (m s); congruence. Qed.

Lemma check_fun_ends s t h : ends (fun n => check P n t h) s.
Proof. destruct (check_ends (S (unrec s)) t) as [n H]. exists n. eapply safe_ends. apply (H n (le_n n)). lia. Qed.
Lemma parse_ends qt mt same inj s : ends (fun n => parse P n qt mt same inj) s.
Proof.
  unfold parse. apply ends_bind; [intro; apply check_refines_S| |apply check_fun_ends|].
  { intros n a. destruct a; try apply refines_refl. apply refines_bind; [apply check_refines_S|intros m]. destruct m; try apply refines_refl.
    destruct (negb same && _); [apply refines_refl|].
    apply refines_bind. { destruct inj as [[sv tf]|]; [apply inject_refines_S|apply refines_refl]. }
    intros. apply refines_bind; [apply refines_refl|intros]. apply refines_bind; [apply methods_ins_refines_S|intros].
    apply refines_bind; [apply refines_refl|intros]. apply refines_bind; [apply dirs_ins_refines_S|intros]. apply refines_refl. }
  intros n q s1 _. destruct q; try (now apply ends_const). apply ends_bind; [intro; apply check_refines_S| |apply check_fun_ends|].
  { intros k a. destruct a; try apply refines_refl. destruct (negb same && _); [apply refines_refl|].
    apply refines_bind. { destruct inj as [[sv tf]|]; [apply inject_refines_S|apply refines_refl]. }
    intros. apply refines_bind; [apply refines_refl|intros]. apply refines_bind; [apply methods_ins_refines_S|intros].
    apply refines_bind; [apply refines_refl|intros]. apply refines_bind; [apply dirs_ins_refines_S|intros]. apply refines_refl. }
  intros k m s2 _. destruct m; try (now apply ends_const). destruct (negb same && _); [now apply ends_const|].
  apply ends_bind.
  { intro. destruct inj as [[sv tf]|]; [apply inject_refines_S|apply refines_refl]. }
  { intros. apply refines_bind; [apply refines_refl|intros]. apply refines_bind; [apply methods_ins_refines_S|intros].
    apply refines_bind; [apply refines_refl|intros]. apply refines_bind; [apply dirs_ins_refines_S|intros]. apply refines_refl. }
  { destruct inj as [[sv tf]|]; [|now apply ends_const]. unfold inject.
    apply ends_bind; [intro; apply refines_fatal, check_refines_S| | |].
    - intros. apply refines_bind; [apply refines_refl|intros].
      apply refines_bind; [apply refines_fatal, check_function_refines, check_refines_S|intros]. apply refines_refl.
    - destruct (check_fun_ends s2 (g_qlschema P) false) as [x Hx]. exists x. now apply fatal_ends.
    - intros _ o s3 _. apply ends_bind; [intro; apply refines_refl| | |].
      + intros. apply refines_bind; [apply refines_fatal, check_function_refines, check_refines_S|intros]. apply refines_refl.
      + apply ends_const. unfold add_field, pbind, get. destruct (slookup (ps_types s3) name); discriminate.
      + intros _ _ s4 _. apply ends_bind; [intro; apply refines_fatal, check_function_refines, check_refines_S|intros; apply refines_refl| |].
        * destruct (enough_list (S (unrec s4)) (match under decls (g_typefn P) with TFunc _ outs _ => outs | _ => [] end)) as [x Hx].
          { intros. apply check_ends. }
          exists x. apply fatal_ends. eapply safe_ends. apply (check_function_ok (S (unrec s4))); [lia|]. intros t I. apply (Hx t I x). lia.
        * intros _ m s5 _. apply ends_const. unfold add_field, pbind, get. destruct (slookup (ps_types s5) name); discriminate. }
  intros _ _ s3 _. apply ends_bind; [intro; apply refines_refl| |now apply ends_const|].
  { intros. apply refines_bind; [apply methods_ins_refines_S|intros].
    apply refines_bind; [apply refines_refl|intros]. apply refines_bind; [apply dirs_ins_refines_S|intros]. apply refines_refl. }
  intros _ a s4 _. apply ends_bind; [intro; apply methods_ins_refines_S| | |].
  { intros. apply refines_bind; [apply refines_refl|intros]. apply refines_bind; [apply dirs_ins_refines_S|intros]. apply refines_refl. }
  { destruct (methods_ins_ends (S (unrec_in s4)) (ps_methods a)) as [x Hx]. exists x. eapply safe_ends. apply (Hx x); lia. }
  intros _ ms s5 _. apply ends_bind; [intro; apply refines_refl| |apply ends_const; discriminate|].
  { intros. apply refines_bind; [apply dirs_ins_refines_S|intros]. apply refines_refl. }
  intros _ _ s6 _. apply ends_bind; [intro; apply dirs_ins_refines_S|intros; apply refines_refl| |].
  { destruct (dirs_ins_ends (S (unrec_in s6)) (g_dirs P)) as [x Hx]. exists x. eapply safe_ends. apply (Hx x); lia. }
  intros. apply ends_const. discriminate.
Qed.
End Term.
