(** * The tables of a parsed schema have distinct keys, which are the names of what they lead to (proofs) *)
From Coq Require Import String Arith NArith ZArith Bool List Lia.
From Verif Require Import Base JsonModel NameModel Schema GoTypes ParseModel ParseFacts.
Import ListNotations.
Open Scope nat_scope.
Local Notation SN := Datatypes.S.

Definition key_ok (e : bytes * ptype) : Prop := pt_name (snd e) = fst e.
Definition in_ok (e : bytes * input) : Prop :=
  match snd e with Input k en isid isf ist _ _ _ n _ _ => k = KStruct /\ isid = false /\ isf = false /\ ist = false /\ n = fst e end.
Record tables_ok (s : pst) : Prop := {
  tb_types : NoDup (map fst (ps_types s)); tb_ifaces : NoDup (map fst (ps_ifaces s)); tb_ins : NoDup (map fst (ps_intypes s));
  tb_tnames : Forall key_ok (ps_types s); tb_inames : Forall key_ok (ps_ifaces s); tb_innames : Forall in_ok (ps_intypes s) }.
Lemma sset_keys {A} (l : list (bytes * A)) k v k' : In k' (map fst (sset l k v)) -> k' = k \/ In k' (map fst l).
Proof.
  induction l as [|[a b] l IH]; cbn; [intros [<-|[]]; auto|]. destruct (beqb k a) eqn:E; cbn; [apply beqb_eq in E; subst; intuition|].
  intros [<-|H]; [auto|]. destruct (IH H); auto.
Qed.
Lemma sset_nodup {A} (l : list (bytes * A)) k v : NoDup (map fst l) -> NoDup (map fst (sset l k v)).
Proof.
  induction l as [|[a b] l IH]; cbn; intro H; [constructor; [intros []|constructor]|]. inversion H; subst.
  destruct (beqb k a) eqn:E; cbn; [apply beqb_eq in E; subst; now constructor|]. constructor; [|auto].
  intro G. apply sset_keys in G. destruct G as [->|G]; [|auto]. rewrite beqb_refl in E. discriminate.
Qed.
Lemma sset_forall {A} (Q : bytes * A -> Prop) l k v : Forall Q l -> Q (k, v) -> Forall Q (sset l k v).
Proof. induction 1 as [|[a b] l H F IH]; cbn; intro K; [auto|]. destruct (beqb k a); constructor; auto. Qed.

Definition keeps {A} (m : pm A) : Prop := forall s, tables_ok s -> post m (fun _ s' => tables_ok s') s.
Lemma keeps_ret {A} (a : A) : keeps (pret a). Proof. intros s H. exact H. Qed.
Lemma keeps_bind {A B} (m : pm A) (k : A -> pm B) : keeps m -> (forall a, keeps (k a)) -> keeps (pbind m k).
Proof. intros H K s T. apply post_bind. eapply post_mono; [|exact (H s T)]. cbv beta. intros a s' T'. exact (K a s' T'). Qed.
Lemma keeps_err {A} : keeps (@perr A). Proof. intros s H. exact I. Qed.
Lemma keeps_panic {A} : keeps (@ppanic A). Proof. intros s H. exact I. Qed.
Lemma keeps_nofuel {A} : keeps (@pnofuel A). Proof. intros s H. exact I. Qed.
Lemma keeps_get : keeps get. Proof. intros s H. exact H. Qed.
Lemma keeps_mapm {A B} (f : A -> pm B) l : (forall a, keeps (f a)) -> keeps (mapm f l).
Proof. intro H. induction l; cbn; [apply keeps_ret|]. apply keeps_bind; [apply H|intro]. apply keeps_bind; [assumption|intro]. apply keeps_ret. Qed.
Lemma keeps_type n t : pt_name t = n -> keeps (set_type n t).
Proof. intros E s []. cbn. constructor; cbn; auto; [now apply sset_nodup|now apply sset_forall]. Qed.
Lemma keeps_iface n t : pt_name t = n -> keeps (set_iface n t).
Proof. intros E s []. cbn. constructor; cbn; auto; [now apply sset_nodup|now apply sset_forall]. Qed.
Lemma keeps_intype n j : in_ok (n, j) -> keeps (set_intype n j).
Proof. intros E s []. cbn. constructor; cbn; auto; [now apply sset_nodup|now apply sset_forall]. Qed.
Lemma keeps_method m : keeps (add_method m). Proof. intros s []. cbn. now constructor. Qed.
Lemma keeps_unknown : keeps next_unknown. Proof. intros s []. cbn. now constructor. Qed.
Lemma keeps_unknown_in : keeps next_unknown_in. Proof. intros s []. cbn. now constructor. Qed.
Ltac kp := repeat first [ apply keeps_ret | apply keeps_err | apply keeps_panic | apply keeps_nofuel | apply keeps_get | apply keeps_method | apply keeps_unknown | apply keeps_unknown_in
  | (apply keeps_mapm; intro) | (apply keeps_type; reflexivity) | (apply keeps_iface; reflexivity) | (apply keeps_intype; repeat split; reflexivity)
  | assumption | (apply keeps_bind; [|intro]) | match goal with H : forall t h, keeps (?c t h) |- keeps (?c _ _) => apply H end
  | match goal with |- keeps (match ?x with _ => _ end) => destruct x end | match goal with |- keeps (if ?x then _ else _) => destruct x end ].

Section Keeps.
Variable P : program.
Lemma keeps_function c f ins it h : (forall t h, keeps (c t h)) -> keeps (check_function P c f ins it h).
Proof. intro H. unfold check_function. kp. Qed.
Lemma keeps_field c f i : (forall t h, keeps (c t h)) -> keeps (check_field P c f i).
Proof. intro H. unfold check_field. destruct f. kp; apply keeps_function; auto. Qed.
Lemma keeps_fields c l : (forall t h, keeps (c t h)) -> forall i acc, keeps (check_fields P c l i acc).
Proof. intro H. induction l; cbn; intros; kp; auto using keeps_field. Qed.
Lemma keeps_methods c t l : (forall t h, keeps (c t h)) -> forall i acc, keeps (check_methods P c t l i acc).
Proof. intro H. induction l as [|[n f] l IH]; cbn; intros; kp; auto. now apply keeps_function. Qed.
Lemma keeps_struct c t n is : (forall t h, keeps (c t h)) -> keeps (check_struct P c t n is).
Proof. intro H. unfold check_struct. cbv zeta. kp; [now apply keeps_fields|now apply keeps_methods]. Qed.
Lemma keeps_check_iface c t n : (forall t h, keeps (c t h)) -> keeps (check_iface P c t n).
Proof. intro H. unfold check_iface, check_impl. cbv zeta. kp. now apply keeps_methods. Qed.
Lemma keeps_check fuel : forall t h, keeps (check P fuel t h).
Proof.
  induction fuel as [|fuel IH]; cbn; intros t h; [kp|]. kp; cbv zeta; kp; auto using keeps_fields, keeps_methods. unfold check_impl. kp.
Qed.
Lemma keeps_input_field c f i : (forall t h, keeps (c t h)) -> keeps (check_input_field c f i).
Proof. intro H. unfold check_input_field. destruct f. kp; cbv zeta; kp. Qed.
Lemma keeps_input_fields c l : (forall t h, keeps (c t h)) -> forall i acc, keeps (check_input_fields c l i acc).
Proof. intro H. induction l; cbn; intros; kp; auto. now apply keeps_input_field. Qed.
Lemma keeps_zero fuel t : keeps (zero_of P fuel t). Proof. unfold zero_of. kp. Qed.
Lemma keeps_input fuel : forall t h, keeps (check_input P fuel t h).
Proof.
  induction fuel as [|fuel IH]; cbn; intros t h; [kp|]. apply keeps_bind; [apply keeps_zero|intro z]. kp; cbv zeta; kp; try (now apply keeps_input_fields).
Qed.
Lemma keeps_arg_fields c l : (forall t h, keeps (c t h)) -> forall i nr acc, keeps (arg_fields c l i nr acc).
Proof. intro H. induction l; cbn; intros; kp; auto. now apply keeps_input_field. Qed.
Lemma keeps_fun_ins fuel ts : forall nr ins fs, keeps (fun_ins P fuel ts nr ins fs).
Proof. induction ts; cbn; intros; kp; cbv zeta; kp; auto. apply keeps_zero. apply keeps_arg_fields, keeps_input. Qed.
Lemma keeps_methods_ins fuel ms : keeps (methods_ins P fuel ms).
Proof. induction ms; cbn; kp. apply keeps_fun_ins. Qed.
Lemma keeps_dirs_ins fuel ms : keeps (dirs_ins P fuel ms).
Proof. induction ms; cbn; kp. apply keeps_fun_ins. Qed.
Lemma keeps_fatal {A} (m : pm A) : keeps m -> keeps (fatal m).
Proof. intros H s T. specialize (H s T). unfold fatal, post in *. destruct (m s); auto. Qed.
Lemma keeps_add_field n f s : tables_ok s -> post (add_field n f) (fun _ s' => tables_ok s') s.
Proof.
  intros T. unfold add_field. apply post_bind. cbn [get post]. unfold post at 1, get. destruct (slookup (ps_types s) n) as [t|] eqn:E; [|exact I]. apply keeps_type; [|exact T]. cbn.
  destruct T as [_ _ _ F _ _]. clear - E F. induction F as [|[k v] l K F IH]; cbn in E; [discriminate|]. destruct (beqb n k) eqn:B; [|auto].
  apply beqb_eq in B. injection E as ->. now subst.
Qed.
Lemma keeps_inject fuel q sv tf : keeps (inject P fuel q sv tf).
Proof.
  unfold inject. apply keeps_bind; [apply keeps_fatal, keeps_check|intro]. apply keeps_bind; [intros s T; now apply keeps_add_field|intro].
  apply keeps_bind; [apply keeps_fatal, keeps_function, keeps_check|intro]. intros s T. now apply keeps_add_field.
Qed.
Lemma keeps_parse fuel qt mt same inj s : tables_ok s -> post (parse P fuel qt mt same inj) (fun p s' => tables_ok s' /\ p_st p = s') s.
Proof.
  intro T. unfold parse. apply post_bind. eapply post_mono; [|exact (keeps_check fuel _ _ s T)]. cbv beta. intros q s1 T1. destruct q; try exact I.
  apply post_bind. eapply post_mono; [|exact (keeps_check fuel _ _ s1 T1)]. cbv beta. intros m s2 T2. destruct m; try exact I.
  destruct (_ && _); [exact I|]. apply post_bind. eapply post_mono; [|assert (K : keeps (match inj with Some (sv, tf) => inject P fuel name sv tf | None => pret tt end)); [|exact (K s2 T2)]].
  2: { destruct inj as [[sv tf]|]; [apply keeps_inject|apply keeps_ret]. }
  cbv beta. intros _ s3 T3. apply post_bind. cbn [get post]. apply post_bind. eapply post_mono; [|exact (keeps_methods_ins fuel _ s3 T3)]. cbv beta. intros ms s4 T4.
  apply post_bind. cbn [post]. apply post_bind. eapply post_mono; [|refine (keeps_dirs_ins fuel _ _ _); destruct T4; now constructor]. cbv beta. intros ds s5 T5.
  apply post_bind. cbn. auto.
Qed.
Lemma new_tables : tables_ok new_pst. Proof. constructor; cbn; constructor. Qed.
Theorem parsed_tables fuel qt mt same inj p s : parse P fuel qt mt same inj new_pst = POk p s -> tables_ok (p_st p).
Proof. intro E. pose proof (keeps_parse fuel qt mt same inj new_pst new_tables) as H. unfold post in H. rewrite E in H. destruct H as [T ->]. exact T. Qed.
End Keeps.
