(** * C48: the types the schema parser treats specially are those it should *)
From Coq Require Import String Arith NArith ZArith Bool List Lia Wf_nat.
From Verif Require Import Base Json JsonModel JsonProof NameModel Schema GoTypes ParseModel ParseTerm SchemaSpec InputSound ParseWhole SchemaCheck.
Import ListNotations.
Open Scope nat_scope.

(** A type has a method: an interface those it lists, another declared type those declared for it (Go language
    specification, method sets). *)
Inductive has_method (decls : list gdecl) : gtype -> bytes -> gtype -> Prop :=
| HM_literal ms n f : In (n, f) ms -> has_method decls (TIface ms) n f
| HM_interface k d ms n f : nth_error decls k = Some d -> td_under d = TIface ms -> In (n, f) ms -> has_method decls (TNamed k) n f
| HM_declared k d n f : nth_error decls k = Some d -> (forall ms, td_under d <> TIface ms) -> In (n, f) (td_methods d) -> has_method decls (TNamed k) n f.
(** A type is the declared type of a package. *)
Definition declared_as (decls : list gdecl) (pkg name : string) (t : gtype) : Prop :=
  exists k d, t = TNamed k /\ nth_error decls k = Some d /\ td_pkg d = bs pkg /\ td_name d = bs name.

Lemma kind_eqb_refl a : kind_eqb a a = true.
Proof. destruct a as [|w|w|b| | | | | | | |]; try reflexivity; [destruct w|destruct w|destruct b]; reflexivity. Qed.
Lemma gtype_eqb_refl a : gtype_eqb a a = true.
Proof.
  induction a as [a IH] using (induction_ltof1 gtype tsize). unfold ltof in IH.
  assert (forall l, (forall x, In x l -> tsize x < tsize a) ->
    (fix types (l m : list gtype) : bool := match l, m with [], [] => true | x :: l, y :: m => gtype_eqb x y && types l m | _, _ => false end) l l = true) as L.
  { induction l as [|x l IHl]; intros B; [reflexivity|]. apply andb_true_intro. split; [apply IH, B; now left|apply IHl; intros; apply B; now right]. }
  destruct a as [k|n|e|e|n e|fs|ins outs v|ms|]; cbn [gtype_eqb].
  - apply kind_eqb_refl.
  - apply Nat.eqb_refl.
  - apply IH. cbn; lia.
  - apply IH. cbn; lia.
  - rewrite Nat.eqb_refl. apply IH. cbn; lia.
  - assert (forall f, In f fs -> gtype_eqb (f_type f) (f_type f) = true) as Q by (intros f I; apply IH; now apply tsize_field).
    clear IH L. induction fs as [|[nm an ex tg x] fs IHf]; [reflexivity|].
    rewrite beqb_refl, !eqb_reflx. pose proof (Q _ (or_introl eq_refl)) as Q1. cbn [f_type] in Q1. rewrite Q1.
    assert (obeqb tg tg = true) as -> by (destruct tg; cbn; auto using beqb_refl). cbn [andb]. apply IHf. intros f I. apply Q. now right.
  - rewrite eqb_reflx, andb_true_r. apply andb_true_intro. split; apply L.
    + intros x I. cbn. pose proof (list_sum_in (map tsize ins) (tsize x) (in_map _ _ _ I)). lia.
    + intros x I. cbn. pose proof (list_sum_in (map tsize outs) (tsize x) (in_map _ _ _ I)). lia.
  - assert (forall f, In f ms -> gtype_eqb (snd f) (snd f) = true) as Q.
    { intros f I. apply IH. cbn. pose proof (list_sum_in (map (fun m => tsize (snd m)) ms) (tsize (snd f)) (in_map (fun m => tsize (snd m)) _ _ I)). lia. }
    clear IH L. induction ms as [|[nm x] ms IHm]; [reflexivity|].
    rewrite beqb_refl. pose proof (Q _ (or_introl eq_refl)) as Q1. cbn [snd] in Q1. rewrite Q1. cbn [andb]. apply IHm. intros f I. apply Q. now right.
  - reflexivity.
Qed.

Lemma has_method_iff decls t n f : has_method decls t n f <-> In (n, f) (t_methods decls t).
Proof.
  split.
  - intros [ms m g I|k d ms m g E U I|k d m g E U I]; unfold t_methods, under; auto; rewrite E; [now rewrite U|].
    destruct (td_under d); auto. now destruct (U ms).
  - unfold t_methods, under. destruct t as [k|k|e|e|l e|fs|i o v|ms|]; cbn; try contradiction; [|now constructor].
    destruct (nth_error decls k) as [d|] eqn:E; [|contradiction].
    destruct (td_under d) eqn:U; intro I; try (eapply HM_declared; [exact E|rewrite U; discriminate|exact I]). eapply HM_interface; eauto.
Qed.

Lemma method_eqb n f m : beqb n (fst m) && gtype_eqb f (snd m) = true <-> m = (n, f).
Proof.
  destruct m as [n' f']. cbn [fst snd]. rewrite andb_true_iff. split.
  - intros [A B]. apply beqb_eq in A. apply gtype_eqb_eq in B. now subst.
  - intro E. injection E as -> ->. split; [apply beqb_refl|apply gtype_eqb_refl].
Qed.

Lemma is_type_iff decls p n t : bs p <> [] -> is_type decls (bs p) (bs n) t = true <-> declared_as decls p n t.
Proof.
  intro N. unfold is_type, declared_as. rewrite andb_true_iff, !beqb_eq. split.
  - intros [A B]. destruct t; cbn [t_pkg t_name] in *; try congruence. destruct (nth_error decls n0) as [d|] eqn:E; [|congruence]. exists n0, d. auto.
  - intros (k & d & -> & E & A & B). cbn [t_pkg t_name]. now rewrite E.
Qed.

(** An interface counts as an error when it has the method Error() string, a struct as an implementation of an
    interface when it has every method of it with the same type; times, uploads, contexts and the ID mark are the
    declared types of those names in their packages and no others. *)
Theorem C48_special_types : forall decls t,
  (is_error decls t = true <-> has_method decls t (bs "Error") (TFunc [] [TBasic KString] false)) /\
  (forall i, implements decls t i = true <-> forall n f, has_method decls i n f -> has_method decls t n f) /\
  (is_time decls t = true <-> declared_as decls "time" "Time" t) /\
  (is_file_header decls t = true <-> declared_as decls "mime/multipart" "FileHeader" t) /\
  (is_ctx decls t = true <-> declared_as decls "github.com/mjarkk/yarql" "Ctx" t /\ t_kind decls t = KStruct) /\
  (is_attr_id decls t = true <-> declared_as decls "github.com/mjarkk/yarql" "AttrIsID" t).
Proof.
  intros decls t. repeat split.
  - unfold is_error. rewrite existsb_exists. intros (m & I & E). apply method_eqb in E. subst. now apply has_method_iff.
  - intro H. apply has_method_iff in H. unfold is_error. rewrite existsb_exists. eexists. split; [exact H|]. now apply method_eqb.
  - intros H n f M. apply has_method_iff in M. apply has_method_iff. unfold implements in H. rewrite forallb_forall in H. specialize (H _ M).
    rewrite existsb_exists in H. destruct H as (m & I & E). apply method_eqb in E. now subst.
  - intro H. unfold implements. rewrite forallb_forall. intros [n f] M. rewrite existsb_exists. exists (n, f). split; [|now apply method_eqb].
    apply has_method_iff, H, has_method_iff, M.
  - apply is_type_iff. discriminate.
  - apply is_type_iff. discriminate.
  - apply is_type_iff. discriminate.
  - apply is_type_iff. discriminate.
  - unfold is_ctx in H. destruct (t_kind decls t); try discriminate. apply is_type_iff in H; [exact H|discriminate].
  - unfold is_ctx in H. destruct (t_kind decls t); try discriminate. reflexivity.
  - intros [D K]. unfold is_ctx. rewrite K. apply is_type_iff; [discriminate|exact D].
  - apply is_type_iff. discriminate.
  - apply is_type_iff. discriminate.
Qed.
Print Assumptions C48_special_types.

(** An interface with the method Error and one more is an error, one whose Error takes an argument is not; a struct with
    the methods of an interface and more implements it, not the other way round; a type Time of another package is not the
    time. *)
Definition kinds_decls : list gdecl :=
  let str := TBasic KString in
  [Decl (bs "error") [] (TIface [(bs "Error", TFunc [] [str] false)]) [];
   Decl (bs "Coded") (bs "app") (TIface [(bs "Code", TFunc [] [TBasic (KInt WInt)] false); (bs "Error", TFunc [] [str] false)]) [];
   Decl (bs "Odd") (bs "app") (TIface [(bs "Error", TFunc [str] [str] false)]) [];
   Decl (bs "Fail") (bs "app") (TStruct []) [(bs "Code", TFunc [] [TBasic (KInt WInt)] false); (bs "Error", TFunc [] [str] false); (bs "More", TFunc [] [str] false)];
   Decl (bs "Time") (bs "time") (TStruct []) [];
   Decl (bs "Time") (bs "app/time") (TStruct []) []].
Example C48_special_types_case :
  map (is_error kinds_decls) [TNamed 0; TNamed 1; TNamed 2; TNamed 3] = [true; true; false; true] /\
  implements kinds_decls (TNamed 3) (TNamed 1) = true /\ implements kinds_decls (TNamed 0) (TNamed 1) = false /\
  implements kinds_decls (TNamed 2) (TNamed 0) = false /\
  map (is_time kinds_decls) [TNamed 4; TNamed 5] = [true; false].
Proof. vm_compute. repeat split; reflexivity. Qed.

(** The zero value of a type (Go language specification); that of the time is the first moment of the year 1 in UTC (documentation of
    package time). *)
Inductive go_zero (decls : list gdecl) : gtype -> gval -> Prop :=
| Z_time t : declared_as decls "time" "Time" t -> go_zero decls t (GTm {| t_year := 1; t_month := 1; t_day := 1; t_hour := 0; t_min := 0; t_sec := 0; t_nano := 0; t_off := 0 |})
| Z_bool t : under decls t = TBasic KBool -> go_zero decls t (GBool false)
| Z_int t w : under decls t = TBasic (KInt w) -> go_zero decls t (GInt w 0)
| Z_uint t w : under decls t = TBasic (KUint w) -> go_zero decls t (GUint w 0)
| Z_float t b : under decls t = TBasic (KFloat b) -> go_zero decls t (GFloat b 0)
| Z_string t : under decls t = TBasic KString -> go_zero decls t (GString [])
| Z_ptr t e : under decls t = TPtr e -> ~ declared_as decls "mime/multipart" "FileHeader" e -> go_zero decls t (GPtr None)
| Z_file t e : under decls t = TPtr e -> declared_as decls "mime/multipart" "FileHeader" e -> go_zero decls t (GFile None)
| Z_slice t e : under decls t = TSlice e -> go_zero decls t (GSlice None)
| Z_array t n e v : under decls t = TArray n e -> go_zero decls e v -> go_zero decls t (GArray (repeat v n))
| Z_struct t fs vs : under decls t = TStruct fs -> ~ declared_as decls "time" "Time" t ->
    Forall2 (fun f v => fst v = (match f with GField _ _ e _ _ => e end) /\ go_zero decls (f_type f) (snd v)) fs vs -> go_zero decls t (GStruct vs)
| Z_func t i o va : under decls t = TFunc i o va -> go_zero decls t (GFunc None)
| Z_iface t ms : under decls t = TIface ms -> ~ has_method decls t (bs "Error") (TFunc [] [TBasic KString] false) -> go_zero decls t (GIface None)
| Z_error t ms : under decls t = TIface ms -> has_method decls t (bs "Error") (TFunc [] [TBasic KString] false) -> go_zero decls t (GErr None)
| Z_other t : (match under decls t with TBasic KBool | TBasic (KInt _) | TBasic (KUint _) | TBasic (KFloat _) | TBasic KString => False | TBasic _ | TNamed _ | TOther => True | _ => False end) -> go_zero decls t GOther.
Theorem C48_zero_values : forall decls n t v, zero decls n t = Some v -> go_zero decls t v.
Proof.
  intros decls. induction n as [|n IH]; intros t v E; [discriminate|]. cbn [zero] in E. destruct (C48_special_types decls t) as (Er & _ & Ti & _).
  destruct (is_time decls t) eqn:T; [injection E as <-; apply Z_time, Ti; reflexivity|].
  assert (NT : ~ declared_as decls "time" "Time" t) by (rewrite <- Ti; discriminate).
  destruct (under decls t) as [k|m|e|e|l e|fs|ins outs va|ms|] eqn:U.
  - destruct k; injection E as <-; try (now constructor); apply Z_other; rewrite U; exact Logic.I.
  - injection E as <-. apply Z_other. rewrite U. exact Logic.I.
  - injection E as <-. destruct (C48_special_types decls e) as (_ & _ & _ & Fh & _). destruct (is_file_header decls e); [eapply Z_file; [exact U|now apply Fh]|eapply Z_ptr; [exact U|rewrite <- Fh; discriminate]].
  - injection E as <-. eapply Z_slice; eauto.
  - destruct (zero decls n e) as [x|] eqn:Ze; [|discriminate]. injection E as <-. eapply Z_array; eauto.
  - enough (G : forall l acc, (fix fields (l : list gfield) (acc : list (bool * gval)) : option gval :=
        match l with [] => Some (GStruct acc) | GField _ _ e _ x :: r => match zero decls n x with Some v => fields r (acc ++ [(e, v)]) | None => None end end) l acc = Some v ->
        exists vs, v = GStruct (acc ++ vs) /\ Forall2 (fun f w => fst w = (match f with GField _ _ e _ _ => e end) /\ go_zero decls (f_type f) (snd w)) l vs).
    { destruct (G _ _ E) as (vs & -> & F). eapply Z_struct; eauto. }
    clear E U. induction l as [|[nm an ex tg x] l IHl]; intros acc E.
    + injection E as <-. exists []. rewrite app_nil_r. split; [reflexivity|constructor].
    + destruct (zero decls n x) as [y|] eqn:Zx; [|discriminate]. destruct (IHl _ E) as (vs & -> & F). exists ((ex, y) :: vs). rewrite <- app_assoc. split; [reflexivity|].
      constructor; [split; [reflexivity|apply IH; exact Zx]|exact F].
  - injection E as <-. eapply Z_func; eauto.
  - injection E as <-. destruct (is_error decls t); [eapply Z_error; [exact U|now apply Er]|eapply Z_iface; [exact U|rewrite <- Er; discriminate]].
  - injection E as <-. apply Z_other. rewrite U. exact Logic.I.
Qed.
Print Assumptions C48_zero_values.
Example C48_zero_values_case : zero kinds_decls 3 (TStruct [GField (bs "At") false true None (TNamed 4); GField (bs "why") false false None (TNamed 0); GField (bs "L") false true None (TArray 2 (TBasic (KInt W8)))]) =
  Some (GStruct [(true, GTm (GTime 1 1 1 0 0 0 0 0)); (false, GErr None); (true, GArray [GInt W8 0; GInt W8 0])]).
Proof. vm_compute. reflexivity. Qed.
