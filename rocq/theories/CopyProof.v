(** * Copies of schemas (proofs) *)
From Coq Require Import String NArith ZArith Bool List Lia.
From Coq Require Import ZifyBool ZifyNat ZifyN.
From Verif Require Import Base CopyModel CopySpec.
Import ListNotations.
Open Scope N_scope.

Definition new (n n' : N) (l : list N) : Prop := n <= n' /\ fresh n n' l.
Lemma new_nil : forall n, new n n []. Proof. intro n. split; [lia|]. split; constructor. Qed.
Lemma new_app : forall a b c l r, new a b l -> new b c r -> new a c (l ++ r).
Proof.
  intros a b c l r (L1 & F1 & N1) (L2 & F2 & N2). split; [lia|]. split.
  - apply Forall_app. split; [eapply Forall_impl; [|exact F1]|eapply Forall_impl; [|exact F2]]; cbn; intros; lia.
  - clear L1 L2. induction l as [|x l IH]; [exact N2|]. inversion N1; subst. inversion F1; subst. cbn [app]. constructor; [|auto]. intro I. apply in_app_or in I. destruct I as [I|I]; [auto|]. rewrite Forall_forall in F2. specialize (F2 _ I). lia.
Qed.
Lemma new_one : forall n, new n (n + 1) [n]. Proof. intro n. split; [lia|]. split; [constructor; [lia|constructor]|]. constructor; [intros []|constructor]. Qed.
Lemma new_cons : forall n n' l, new (n + 1) n' l -> new n n' (n :: l).
Proof. intros n n' l H. exact (new_app n (n + 1) n' [n] l (new_one n) H). Qed.

Definition good {A} (sh sh' : A -> A) (cells shared : A -> list N) (f : copier A) (x : A) : Prop :=
  forall n, sh (fst (f x n)) = sh' x /\ new n (snd (f x n)) (cells (fst (f x n))) /\ shared (fst (f x n)) = shared x.
Definition all_in {A} (P : A -> Prop) (c : cell A) : Prop := match c with None => True | Some (_, x) => P x end.
Section Good.
Context {A : Type} (sh sh' : A -> A) (cells shared : A -> list N) (f : copier A).
Lemma good_cell : forall c, all_in (good sh sh' cells shared f) c -> good (on_cell sh) (on_cell sh') (cell_cells cells) (inside shared) (copy_cell f) c.
Proof.
  intros [[a x]|] H n; cbn [copy_cell all_in] in *; [|repeat split; try apply new_nil; lia || constructor]. specialize (H (n + 1)). destruct (f x (n + 1)) as [y n']. cbn [fst snd on_cell cell_cells inside] in *. destruct H as (E & N1 & S). split; [now rewrite E|]. split; [now apply new_cons|auto].
Qed.
Lemma good_list : forall l, Forall (good sh sh' cells shared f) l -> good (map sh) (map sh') (flat_map cells) (flat_map shared) (copy_list f) l.
Proof.
  intros l H. induction H as [|x l G _ IH]; intro n; cbn [copy_list]; [split; [reflexivity|]; split; [apply new_nil|reflexivity]|].
  specialize (G n). destruct (f x n) as [y n1]. cbn [fst snd] in G. specialize (IH n1). fold (copy_list f) in *. destruct (copy_list f l n1) as [r n2] eqn:E. cbn [fst snd map flat_map] in *.
  destruct G as (E1 & N1 & S1), IH as (E2 & N2 & S2). split; [congruence|]. split; [eapply new_app; eauto|congruence].
Qed.
Lemma good_value : forall K (kv : K * A), good sh sh' cells shared f (snd kv) -> good (on_snd sh) (on_snd sh') (of_snd cells) (of_snd shared) (copy_value f) kv.
Proof.
  intros K [k x] H n. unfold copy_value. cbn [fst snd] in *. specialize (H n). destruct (f x n) as [y n']. cbn [fst snd] in *. unfold on_snd, of_snd. cbn [fst snd]. destruct H as (E & N1 & S). split; [now rewrite E|]. auto.
Qed.
End Good.
Lemma good_keep : forall A (x : A), good (fun x => x) (fun x => x) none none keep x.
Proof. intros A x n. split; [reflexivity|]. split; [apply new_nil|reflexivity]. Qed.
Lemma all_in_all : forall A (P : A -> Prop) c, (forall x, P x) -> all_in P c. Proof. intros A P [[a x]|] H; cbn; auto. Qed.
Lemma inside_none : forall A (c : cell A), inside none c = []. Proof. now intros A [[a x]|]. Qed.
Lemma flat_none : forall A B (f : A -> list B) l, (forall x, f x = []) -> flat_map f l = []. Proof. intros A B f l H. induction l; cbn; [reflexivity|]. now rewrite H. Qed.

(** ** Inputs *)
Section InInd.
Variable P : rin -> Prop.
Hypothesis H : forall m, all_in P (i_elem m) -> all_in (Forall (fun kv => P (snd kv))) (i_structContent m) -> P m.
Fixpoint rin_ind' (m : rin) : P m :=
  H m (match i_elem m as c return all_in P c with None => I | Some (_, x) => rin_ind' x end)
      (match i_structContent m as c return all_in (Forall (fun kv => P (snd kv))) c with
       | None => I
       | Some (_, l) => (fix go l : Forall (fun kv => P (snd kv)) l := match l with [] => Forall_nil _ | kv :: r => Forall_cons _ (rin_ind' (snd kv)) (go r) end) l
       end).
End InInd.
Lemma good_in : forall m, good in_content in_content in_cells none copy_in m.
Proof.
  apply rin_ind'. intros m He Hc n.
  pose proof (good_cell _ _ _ _ _ _ He) as Ge.
  assert (Gc : good (on_cell (map (on_snd in_content))) (on_cell (map (on_snd in_content))) (cell_cells (flat_map (of_snd in_cells))) (inside (flat_map (of_snd none))) (copy_cell (copy_list (copy_value copy_in))) (i_structContent m)).
  { apply good_cell. destruct (i_structContent m) as [[a l]|]; cbn [all_in] in *; auto. apply good_list. eapply Forall_impl; [|exact Hc]. intros kv G. now apply good_value. }
  destruct m as [k e ei id fi ti gi gn el sp sn sc]. cbn [i_elem i_structContent] in *. cbn [copy_in].
  specialize (Gc n). cbn [i_structContent i_elem]. destruct (copy_cell (copy_list (copy_value copy_in)) sc n) as [sc' n1] eqn:E1. cbn [fst snd] in Gc. specialize (Ge n1). destruct (copy_cell copy_in el n1) as [el' n2] eqn:E2. cbn [fst snd] in Ge.
  destruct Gc as (Ec & Nc & _), Ge as (Ee & Ne & _). cbn [fst snd in_content in_cells i_elem i_structContent i_kind i_isEnum i_enumTypeIndex i_isID i_isFile i_isTime i_goFieldIdx i_gqFieldName i_isStructPointers i_structName].
  split; [now rewrite Ec, Ee|]. split; [eapply new_app; eauto|reflexivity].
Qed.
Lemma good_base : forall b, good base_content base_content base_cells none copy_base b.
Proof.
  intros [c g] n. unfold copy_base. cbn [b_goType b_isCtx]. pose proof (good_cell _ _ _ _ _ g (all_in_all _ _ g (good_keep N)) n) as (E & N1 & _). destruct (copy_cell keep g n) as [g' n']. cbn [fst snd] in *. unfold base_content, base_cells. cbn [b_goType b_isCtx]. split; [now rewrite E|]. split; [auto|reflexivity].
Qed.
(** ** Methods and objects *)
Lemma good_method : forall O sh sh' cells shared (copy : copier O) m, good sh sh' cells shared copy (m_outType m) ->
  good (method_content sh) (method_content sh') (method_cells cells) (fun m => shared (m_outType m)) (copy_method copy) m.
Proof.
  intros O sh sh' cells shared copy [tm gf gt ins fs ck nr out err] G n. unfold copy_method. cbn [m_outType m_errorOutNr m_ins m_inFields m_isTypeMethod m_goFunctionName m_goType m_checkedIns m_outNr] in *.
  specialize (G n). destruct (copy out n) as [out' n1]. cbn [fst snd] in G.
  pose proof (good_cell _ _ _ _ _ err (all_in_all _ _ err (good_keep Z)) n1) as Ge. destruct (copy_cell keep err n1) as [err' n2]. cbn [fst snd] in Ge.
  assert (Gi : good (on_cell (map base_content)) (on_cell (map base_content)) (cell_cells (flat_map base_cells)) (inside (flat_map none)) (copy_cell (copy_list copy_base)) ins).
  { apply good_cell. apply all_in_all. intro l. apply good_list. apply Forall_forall. intros b _. apply good_base. }
  specialize (Gi n2). destruct (copy_cell (copy_list copy_base) ins n2) as [ins' n3]. cbn [fst snd] in Gi.
  assert (Gf : good (on_cell (map (on_snd (on_snd in_content)))) (on_cell (map (on_snd (on_snd in_content)))) (cell_cells (flat_map (of_snd (of_snd in_cells)))) (inside (flat_map (of_snd (of_snd none)))) (copy_cell (copy_list (copy_value (copy_value copy_in)))) fs).
  { apply good_cell. apply all_in_all. intro l. apply good_list. apply Forall_forall. intros b _. apply good_value. apply good_value. apply good_in. }
  specialize (Gf n3). destruct (copy_cell (copy_list (copy_value (copy_value copy_in))) fs n3) as [fs' n4]. cbn [fst snd] in Gf.
  destruct G as (E1 & N1 & S1), Ge as (E2 & N2 & _), Gi as (E3 & N3 & _), Gf as (E4 & N4 & _). unfold method_content, method_cells. cbn [fst snd m_outType m_errorOutNr m_ins m_inFields m_isTypeMethod m_goFunctionName m_goType m_checkedIns m_outNr].
  split; [now rewrite E1, E2, E3, E4|]. split; [|exact S1]. repeat (eapply new_app; [eassumption|]). eassumption.
Qed.
Section ObjInd.
Variable P : robj -> Prop.
Hypothesis H : forall o, all_in P (o_innerContent o) -> all_in (fun m => P (m_outType m)) (o_method o) -> all_in (Forall (fun kv => all_in P (snd kv))) (o_objContents o) ->
  all_in (Forall (all_in P)) (o_implementations o) -> P o.
Fixpoint robj_ind' (o : robj) : P o :=
  H o (match o_innerContent o as c return all_in P c with None => I | Some (_, x) => robj_ind' x end)
      (match o_method o as c return all_in (fun m => P (m_outType m)) c with None => I | Some (_, m) => robj_ind' (m_outType m) end)
      (match o_objContents o as c return all_in (Forall (fun kv => all_in P (snd kv))) c with
       | None => I
       | Some (_, l) => (fix go (l : list (N * cell robj)) : Forall (fun kv => all_in P (snd kv)) l := match l with [] => Forall_nil _ | kv :: r => @Forall_cons _ (fun kv => all_in P (snd kv)) kv r (match snd kv as c return all_in P c with None => I | Some (_, x) => robj_ind' x end) (go r) end) l
       end)
      (match o_implementations o as c return all_in (Forall (all_in P)) c with
       | None => I
       | Some (_, l) => (fix go (l : list (cell robj)) : Forall (all_in P) l := match l with [] => Forall_nil _ | y :: r => @Forall_cons _ (all_in P) y r (match y as c return all_in P c with None => I | Some (_, x) => robj_ind' x end) (go r) end) l
       end).
End ObjInd.
Lemma good_items : forall A (sh sh' : A -> A) cells shared f (c : cell (list A)), all_in (Forall (good sh sh' cells shared f)) c ->
  good (on_items sh) (on_items sh') (cell_cells (flat_map cells)) (inside (flat_map shared)) (copy_appended f) c.
Proof.
  intros A sh sh' cells shared f [[a [|x l]]|] H n; cbn [copy_appended]; try (split; [reflexivity|]; split; [apply new_nil|reflexivity]).
  cbn [all_in] in H. pose proof (good_list _ _ _ _ _ _ H (n + 1)) as (E & N1 & S). destruct (copy_list f (x :: l) (n + 1)) as [l' n']. cbn [fst snd] in *. split; [|split].
  - unfold on_items. destruct l' as [|y l']; [discriminate|]. now rewrite <- E.
  - cbn [cell_cells]. now apply new_cons.
  - exact S.
Qed.
Definition shown : bool -> bool := fun _ => false.
Definition kept : bool -> bool := fun b => b.
Lemma good_obj : forall o, good (obj_content kept) (obj_content shown) obj_cells obj_shared copy_obj o.
Proof.
  apply robj_ind'. intros o Hi Hm Hc Hl n.
  pose proof (good_cell _ _ _ _ _ _ Hi) as Gi.
  assert (Gm : good (on_cell (method_content (obj_content kept))) (on_cell (method_content (obj_content shown))) (cell_cells (method_cells obj_cells)) (inside (fun m => obj_shared (m_outType m))) (copy_cell (copy_method copy_obj)) (o_method o)).
  { apply good_cell. destruct (o_method o) as [[a m]|]; cbn [all_in] in *; auto. now apply good_method. }
  assert (Gc : good (on_cell (map (on_snd (on_cell (obj_content kept))))) (on_cell (map (on_snd (on_cell (obj_content shown))))) (cell_cells (flat_map (of_snd (cell_cells obj_cells)))) (inside (flat_map (of_snd (inside obj_shared)))) (copy_cell (copy_list (copy_value (copy_cell copy_obj)))) (o_objContents o)).
  { apply good_cell. destruct (o_objContents o) as [[a l]|]; cbn [all_in] in *; auto. apply good_list. eapply Forall_impl; [|exact Hc]. intros kv G. apply good_value. now apply good_cell. }
  assert (Gl : good (on_items (on_cell (obj_content kept))) (on_items (on_cell (obj_content shown))) (cell_cells (flat_map (cell_cells obj_cells))) (inside (flat_map (inside obj_shared))) (copy_appended (copy_cell copy_obj)) (o_implementations o)).
  { apply good_items. destruct (o_implementations o) as [[a l]|]; cbn [all_in] in *; auto. eapply Forall_impl; [|exact Hl]. intros x G. now apply good_cell. }
  destruct o as [vt tn tb gn gp qf hi id oc cv si ic dv me ei im]. cbn [o_innerContent o_method o_objContents o_implementations] in *. cbn [copy_obj o_innerContent o_method o_objContents o_implementations].
  specialize (Gi n). destruct (copy_cell copy_obj ic n) as [ic' n1]. cbn [fst snd] in Gi. specialize (Gm n1). destruct (copy_cell (copy_method copy_obj) me n1) as [me' n2]. cbn [fst snd] in Gm.
  specialize (Gc n2). destruct (copy_cell (copy_list (copy_value (copy_cell copy_obj))) oc n2) as [oc' n3]. cbn [fst snd] in Gc. specialize (Gl n3). destruct (copy_appended (copy_cell copy_obj) im n3) as [im' n4]. cbn [fst snd] in Gl.
  destruct Gi as (E1 & N1 & S1), Gm as (E2 & N2 & S2), Gc as (E3 & N3 & S3), Gl as (E4 & N4 & S4).
  cbn [fst snd obj_content obj_cells obj_shared o_valueType o_typeName o_typeNameBytes o_goTypeName o_goPkgPath o_qlFieldName o_hidden o_isID o_objContents o_customObjValue o_structFieldIdx o_innerContent o_dataValueType o_method o_enumTypeIndex o_implementations].
  split; [rewrite E1, E2, E3, E4; reflexivity|]. split; [|now rewrite S1, S2, S3, S4]. repeat (eapply new_app; [eassumption|]). eassumption.
Qed.
Lemma good_dir : forall d, good (dir_content kept) (dir_content shown) dir_cells dir_shared copy_dir d.
Proof.
  intros [nm wh me mr pm de] n. unfold copy_dir. cbn [d_parsedMethod d_name d_where d_method d_methodReflection d_description].
  assert (G : good (on_cell (method_content (obj_content kept))) (on_cell (method_content (obj_content shown))) (cell_cells (method_cells obj_cells)) (inside (fun m => obj_shared (m_outType m))) (copy_cell (copy_method copy_obj)) pm).
  { apply good_cell. apply all_in_all. intro m. apply good_method, good_obj. }
  specialize (G n). destruct (copy_cell (copy_method copy_obj) pm n) as [pm' n']. cbn [fst snd] in G. destruct G as (E & N1 & S). unfold dir_content, dir_cells, dir_shared. cbn [d_parsedMethod d_name d_where d_method d_methodReflection d_description fst snd].
  split; [now rewrite E|]. split; [auto|]. now rewrite S.
Qed.
Lemma good_map : forall K A (sh sh' : A -> A) cells shared f (c : cell (list (K * A))), (forall x, good sh sh' cells shared f x) ->
  good (on_items (on_snd sh)) (on_items (on_snd sh')) (cell_cells (flat_map (of_snd cells))) (inside (flat_map (of_snd shared))) (copy_map f) c.
Proof.
  intros K A sh sh' cells shared f c H n. unfold copy_map. set (l := match c with None => [] | Some (_, l) => l end).
  assert (G : good (map (on_snd sh)) (map (on_snd sh')) (flat_map (of_snd cells)) (flat_map (of_snd shared)) (copy_list (copy_value f)) l) by (apply good_list, Forall_forall; intros kv _; now apply good_value).
  specialize (G (n + 1)). destruct (copy_list (copy_value f) l (n + 1)) as [l' n'] eqn:E0. cbn [fst snd] in *. destruct G as (E & N1 & S). split; [|split; [cbn [cell_cells]; now apply new_cons|]].
  - assert (T : on_items (on_snd sh') c = match l with [] => None | _ => Some (0, map (on_snd sh') l) end) by (destruct c as [[a [|x r]]|]; reflexivity). rewrite T. cbn [on_items]. destruct l as [|x r], l' as [|y r']; try discriminate; [reflexivity|]. now rewrite <- E.
  - cbn [inside]. rewrite S. now destruct c as [[a r]|].
Qed.
Lemma good_made : forall A (sh sh' : A -> A) cells shared f (c : cell (list A)), (forall x, good sh sh' cells shared f x) ->
  good (on_items sh) (on_items sh') (cell_cells (flat_map cells)) (inside (flat_map shared)) (copy_made f) c.
Proof.
  intros A sh sh' cells shared f c H n. unfold copy_made. set (l := match c with None => [] | Some (_, l) => l end).
  assert (G : good (map sh) (map sh') (flat_map cells) (flat_map shared) (copy_list f) l) by (apply good_list, Forall_forall; intros kv _; apply H).
  specialize (G (n + 1)). destruct (copy_list f l (n + 1)) as [l' n'] eqn:E0. cbn [fst snd] in *. destruct G as (E & N1 & S). split; [|split; [cbn [cell_cells]; now apply new_cons|]].
  - assert (T : on_items sh' c = match l with [] => None | _ => Some (0, map sh' l) end) by (destruct c as [[a [|x r]]|]; reflexivity). rewrite T. cbn [on_items]. destruct l as [|x r], l' as [|y r']; try discriminate; [reflexivity|]. now rewrite <- E.
  - cbn [inside]. rewrite S. now destruct c as [[a r]|].
Qed.
(** ** Enums *)
Section QlInd.
Variable P : rql -> Prop.
Hypothesis H : forall q, all_in (Forall P) (q_interfaces q) -> all_in P (q_ofType q) -> P q.
Fixpoint rql_ind' (q : rql) : P q :=
  H q (match q_interfaces q as c return all_in (Forall P) c with
       | None => I
       | Some (_, l) => (fix go (l : list rql) : Forall P l := match l with [] => Forall_nil _ | y :: r => @Forall_cons _ P y r (rql_ind' y) (go r) end) l
       end)
      (match q_ofType q as c return all_in P c with None => I | Some (_, x) => rql_ind' x end).
End QlInd.
Definition goodo {A} (sh sh' : A -> A) (cells shared : A -> list N) (f : A -> N -> option (A * N)) (x : A) : Prop :=
  forall n y n', f x n = Some (y, n') -> sh y = sh' x /\ new n n' (cells y) /\ shared y = shared x.
Lemma goodo_list : forall A (sh sh' : A -> A) cells shared f l, Forall (goodo sh sh' cells shared f) l -> goodo (map sh) (map sh') (flat_map cells) (flat_map shared) (copy_opt_list f) l.
Proof.
  intros A sh sh' cells shared f l H. induction H as [|x l G _ IH]; intros n y n' E; cbn [copy_opt_list] in E.
  - injection E as <- <-. split; [reflexivity|]. split; [apply new_nil|reflexivity].
  - destruct (f x n) as [[y1 n1]|] eqn:E1; [|discriminate]. fold (copy_opt_list f) in E. destruct (copy_opt_list f l n1) as [[r n2]|] eqn:E2; [|discriminate]. injection E as <- <-.
    destruct (G _ _ _ E1) as (S1 & N1 & T1), (IH _ _ _ E2) as (S2 & N2 & T2). cbn [map flat_map]. split; [congruence|]. split; [eapply new_app; eauto|congruence].
Qed.
Lemma new_from : forall m n n' l, m <= n -> new n n' l -> new m n' l.
Proof. intros m n n' l L (L1 & F & D). split; [lia|]. split; [|exact D]. eapply Forall_impl; [|exact F]. cbn. intros. lia. Qed.
Definition undescribed : cell bytes -> cell bytes := fun _ => None.
Definition described : cell bytes -> cell bytes := on_cell (fun x => x).
Lemma good_ql : forall q, goodo (ql_content described) (ql_content undescribed) ql_cells none copy_ql q.
Proof.
  apply rql_ind'. intros [k nm de fi il pt ev inf ot su] Hi Ho n y n' E. cbn [q_interfaces q_ofType] in *. cbn [copy_ql q_kind q_name q_description q_fields q_interfaces q_possibleTypes q_enumValues q_inputFields q_ofType q_specifiedByURL] in E.
  pose proof (good_cell _ _ _ _ _ nm (all_in_all _ _ nm (good_keep bytes)) n) as Gn. destruct (copy_cell keep nm n) as [nm' n1] eqn:En. cbn [fst snd] in Gn. destruct Gn as (E1 & N1 & _).
  destruct (match de, nm with None, _ => Some (nm', n1) | Some _, Some (_, s) => Some (Some (n1, s), n1 + 1) | Some _, None => None end) as [[nm2 n2]|] eqn:E2; [|discriminate].
  assert (G2 : on_cell (fun x => x) nm2 = on_cell (fun x => x) nm /\ new n n2 (cell_cells none nm2)).
  { destruct de as [[d ds]|]; [destruct nm as [[a s]|]; [|discriminate]|]; injection E2 as <- <-; [|auto]. split; [reflexivity|]. apply new_from with n1; [destruct N1; lia|]. apply new_one. }
  destruct G2 as (G2 & N2). clear E2.
  destruct (match il with None => Some (None, n2) | Some (_, l) => match copy_opt_list copy_ql l (n2 + 1) with None => None | Some (l', n') => Some (Some (n2, l'), n') end end) as [[il' n3]|] eqn:E3; [|discriminate].
  assert (G3 : on_cell (map (ql_content described)) il' = on_cell (map (ql_content undescribed)) il /\ new n2 n3 (cell_cells (flat_map ql_cells) il')).
  { destruct il as [[a l]|]; [|injection E3 as <- <-; split; [reflexivity|apply new_nil]]. destruct (copy_opt_list copy_ql l (n2 + 1)) as [[l' m]|] eqn:E4; [|discriminate]. injection E3 as <- <-. cbn [all_in] in Hi. destruct (goodo_list _ _ _ _ _ _ _ Hi _ _ _ E4) as (S & N3 & _). cbn [on_cell cell_cells]. split; [now rewrite S|now apply new_cons]. }
  destruct G3 as (G3 & N3). clear E3.
  destruct (match ot with None => Some (None, n3) | Some (_, x) => match copy_ql x (n3 + 1) with None => None | Some (y, n') => Some (Some (n3, y), n') end end) as [[ot' n4]|] eqn:E3; [|discriminate].
  assert (G4 : on_cell (ql_content described) ot' = on_cell (ql_content undescribed) ot /\ new n3 n4 (cell_cells ql_cells ot')).
  { destruct ot as [[a x]|]; [|injection E3 as <- <-; split; [reflexivity|apply new_nil]]. destruct (copy_ql x (n3 + 1)) as [[l' m]|] eqn:E4; [|discriminate]. injection E3 as <- <-. cbn [all_in] in Ho. destruct (Ho _ _ _ E4) as (S & N4 & _). cbn [on_cell cell_cells]. split; [now rewrite S|now apply new_cons]. }
  destruct G4 as (G4 & N4). injection E as <- <-. cbn [ql_content ql_cells q_kind q_name q_description q_fields q_interfaces q_possibleTypes q_enumValues q_inputFields q_ofType q_specifiedByURL cell_cells]. split; [rewrite G2, G3, G4; reflexivity|]. split; [|reflexivity].
  rewrite app_nil_r. cbn [app]. eapply new_app; [exact N2|]. eapply new_app; eassumption.
Qed.
Lemma copy_list_none : forall A (f : A -> N -> option (A * N)) (ok : A -> bool) l, Forall (fun x => forall n, f x n = None <-> ok x = false) l -> forall n, copy_opt_list f l n = None <-> forallb ok l = false.
Proof.
  intros A f ok l H. induction H as [|x l G _ IH]; intro n; cbn [copy_opt_list forallb]; [split; discriminate|]. specialize (G n). destruct (f x n) as [[y n1]|].
  - assert (T : ok x = true) by (destruct (ok x); auto; destruct G as [_ G]; discriminate (G eq_refl)). rewrite T. cbn [andb]. rewrite <- (IH n1). fold (copy_opt_list f). destruct (copy_opt_list f l n1) as [[r n2]|]; split; auto; discriminate.
  - destruct G as [G _]. rewrite (G eq_refl). cbn. split; auto.
Qed.
Lemma ql_none : forall q n, copy_ql q n = None <-> ql_named q = false.
Proof.
  intro q. induction q as [[k nm de fi il pt ev inf ot su] Hi Ho] using rql_ind'. intro n. cbn [q_interfaces q_ofType] in *. cbn [copy_ql ql_named q_kind q_name q_description q_fields q_interfaces q_possibleTypes q_enumValues q_inputFields q_ofType q_specifiedByURL].
  destruct (copy_cell keep nm n) as [nm' n1].
  set (t2 := match de, nm with None, _ => Some (nm', n1) | Some _, Some (_, s) => Some (Some (n1, s), n1 + 1) | Some _, None => None end).
  assert (E2 : t2 = None <-> match de, nm with Some _, None => false | _, _ => true end = false) by (unfold t2; destruct de as [[? ?]|], nm as [[? ?]|]; split; auto; discriminate).
  destruct t2 as [[nm2 n2]|]; [|destruct E2 as [E2 _]; rewrite (E2 eq_refl); split; reflexivity].
  assert (T2 : match de, nm with Some _, None => false | _, _ => true end = true) by (destruct (match de, nm with Some _, None => false | _, _ => true end); auto; destruct E2 as [_ E2]; discriminate (E2 eq_refl)). rewrite T2. clear E2 T2. cbn [andb].
  set (t3 := match il with None => Some (None, n2) | Some (_, l) => match copy_opt_list copy_ql l (n2 + 1) with None => None | Some (l', n') => Some (Some (n2, l'), n') end end).
  assert (E3 : t3 = None <-> match il with None => true | Some (_, l) => forallb ql_named l end = false).
  { unfold t3. destruct il as [[a l]|]; [|split; discriminate]. cbn [all_in] in Hi. rewrite <- (copy_list_none _ _ ql_named l Hi (n2 + 1)). destruct (copy_opt_list copy_ql l (n2 + 1)) as [[? ?]|]; split; auto; discriminate. }
  destruct t3 as [[il' n3]|]; [|destruct E3 as [E3 _]; rewrite (E3 eq_refl); split; reflexivity].
  assert (T3 : match il with None => true | Some (_, l) => forallb ql_named l end = true) by (destruct (match il with None => true | Some (_, l) => forallb ql_named l end); auto; destruct E3 as [_ E3]; discriminate (E3 eq_refl)). rewrite T3. clear E3 T3. cbn [andb].
  destruct ot as [[a x]|]; [|split; discriminate]. cbn [all_in] in Ho. rewrite <- (Ho (n3 + 1)). destruct (copy_ql x (n3 + 1)) as [[? ?]|]; split; auto; discriminate.
Qed.
Lemma good_enum : forall e, goodo (enum_content described) (enum_content undescribed) enum_cells enum_shared copy_enum e.
Proof.
  intros [ct ck tn en q] n y n' E. unfold copy_enum in E. cbn [e_qlType e_entries e_contentType e_contentKind e_typeName] in E. destruct (copy_ql q n) as [[q' n1]|] eqn:E1; [|discriminate]. destruct (good_ql q _ _ _ E1) as (S1 & N1 & _). unfold copy_entries in E. injection E as <- <-.
  unfold enum_content, enum_cells, enum_shared. cbn [e_qlType e_entries e_contentType e_contentKind e_typeName cell_cells]. split; [|split].
  - rewrite S1. f_equal. destruct en as [[a [|x l]]|]; [reflexivity| |reflexivity]. cbn [on_items map]. f_equal. f_equal. f_equal. rewrite map_map. apply map_ext. reflexivity.
  - eapply new_app; [exact N1|]. apply new_one.
  - destruct en as [[a l]|]; [|reflexivity]. cbn [inside]. induction l as [|x l IH]; [reflexivity|]. cbn [map flat_map en_keyBytes]. now rewrite IH.
Qed.
Lemma enum_none : forall e n, copy_enum e n = None <-> ql_named (e_qlType e) = false.
Proof. intros e n. unfold copy_enum. rewrite <- (ql_none (e_qlType e) n). destruct (copy_ql (e_qlType e) n) as [[q n1]|]; [|split; auto]. unfold copy_entries. split; discriminate. Qed.
(** ** Schemas *)
Lemma new_ctx : forall c n, new n (snd (copy_ctx c n)) (ctx_cells (fst (copy_ctx c n))).
Proof.
  intros c n. unfold copy_ctx, ctx_cells. cbn [fst snd c_query c_path c_variablesJSONParser c_funcInputs c_context c_variables c_values opt app]. split; [lia|]. split; [repeat constructor; lia|].
  repeat (constructor; [cbn [In]; lia|]). constructor.
Qed.
Lemma good_schema : forall s n s' n', copy_schema_record s n = Some (s', n') ->
  schema_content kept described s' = schema_content shown undescribed s /\ new n n' (schema_cells s') /\ schema_shared s' = schema_shared s /\ tracer_of s' = tracer_of s.
Proof.
  intros [pa ty it itf rq rqv rm rmv md en di cx re gm gl gf] n s' n' E. unfold copy_schema_record in E. cbn [s_parsed s_types s_inTypes s_interfaces s_rootQuery s_rootQueryValue s_rootMethod s_rootMethodValue s_maxDepth s_definedEnums s_definedDirectives s_ctx s_result] in E.
  destruct pa; cbn [negb] in E; [|discriminate].
  assert (GO : forall c, good (on_cell (obj_content kept)) (on_cell (obj_content shown)) (cell_cells obj_cells) (inside obj_shared) (copy_cell copy_obj) c) by (intro c; apply good_cell, all_in_all, good_obj).
  pose proof (good_map bytes _ _ _ _ _ _ ty GO n) as G1. destruct (copy_map (copy_cell copy_obj) ty n) as [ty' n1]. cbn [fst snd] in G1.
  pose proof (good_map bytes _ _ _ _ _ _ itf GO n1) as G2. destruct (copy_map (copy_cell copy_obj) itf n1) as [itf' n2]. cbn [fst snd] in G2.
  set (l := match en with None => [] | Some (_, l) => l end) in E. destruct (copy_opt_list copy_enum l (n2 + 1)) as [[en' n3]|] eqn:E3; [|discriminate].
  assert (G3 : goodo (map (enum_content described)) (map (enum_content undescribed)) (flat_map enum_cells) (flat_map enum_shared) (copy_opt_list copy_enum) l) by (apply goodo_list, Forall_forall; intros e _; apply good_enum).
  specialize (G3 _ _ _ E3).
  assert (GD : forall c, good (on_items (on_cell (dir_content kept))) (on_items (on_cell (dir_content shown))) (cell_cells (flat_map (cell_cells dir_cells))) (inside (flat_map (inside dir_shared))) (copy_made (copy_cell copy_dir)) c) by (intro c; apply good_made; intro d; apply good_cell, all_in_all, good_dir).
  pose proof (good_map N _ _ _ _ _ _ di GD n3) as G4. destruct (copy_map (copy_made (copy_cell copy_dir)) di n3) as [di' n4]. cbn [fst snd] in G4.
  assert (GI : forall c, good (on_cell in_content) (on_cell in_content) (cell_cells in_cells) (inside none) (copy_cell copy_in) c) by (intro c; apply good_cell, all_in_all, good_in).
  pose proof (good_map bytes _ _ _ _ _ _ it GI n4) as G5. destruct (copy_map (copy_cell copy_in) it n4) as [it' n5]. cbn [fst snd] in G5.
  pose proof (GO rq n5) as G6. destruct (copy_cell copy_obj rq n5) as [rq' n6]. cbn [fst snd] in G6.
  pose proof (GO rm n6) as G7. destruct (copy_cell copy_obj rm n6) as [rm' n7]. cbn [fst snd] in G7.
  assert (G8 : new (n7 + 2) (snd (copy_cell copy_ctx cx (n7 + 2))) (cell_cells ctx_cells (fst (copy_cell copy_ctx cx (n7 + 2)))) /\ match fst (copy_cell copy_ctx cx (n7 + 2)) with None => None | Some (_, c) => Some (c_tracing c) end = match cx with None => None | Some (_, c) => Some (c_tracing c) end).
  { destruct cx as [[a c]|]; cbn [copy_cell]; [|split; [apply new_nil|reflexivity]]. pose proof (new_ctx c (n7 + 2 + 1)) as G. destruct (copy_ctx c (n7 + 2 + 1)) as [c' m] eqn:Ec. cbn [fst snd cell_cells] in *. split; [now apply new_cons|]. unfold copy_ctx in Ec. injection Ec as <- _. reflexivity. }
  destruct (copy_cell copy_ctx cx (n7 + 2)) as [cx' n8]. cbn [fst snd] in G8. injection E as <- <-.
  destruct G1 as (S1 & N1 & T1), G2 as (S2 & N2 & T2), G3 as (S3 & N3 & T3), G4 as (S4 & N4 & T4), G5 as (S5 & N5 & _), G6 as (S6 & N6 & T6), G7 as (S7 & N7 & T7), G8 as (N8 & T8).
  unfold schema_content, schema_cells, schema_shared, tracer_of. cbn [s_parsed s_types s_inTypes s_interfaces s_rootQuery s_rootQueryValue s_rootMethod s_rootMethodValue s_maxDepth s_definedEnums s_definedDirectives s_ctx s_result s_graphqlTypesMap s_graphqlTypesList s_graphqlObjFields cell_cells inside opt].
  split; [|split; [|split]].
  - rewrite S1, S2, S4, S5, S6, S7. f_equal. assert (T : on_items (enum_content undescribed) en = match l with [] => None | _ => Some (0, map (enum_content undescribed) l) end) by (destruct en as [[a [|x r]]|]; reflexivity). rewrite T. cbn [on_items]. destruct l as [|x r], en' as [|y r']; try discriminate; [reflexivity|]. now rewrite <- S3.
  - repeat (eapply new_app; [first [eassumption|apply new_cons; eassumption]|]). cbn [none app]. apply new_cons, new_cons. replace (n7 + 1 + 1) with (n7 + 2) by lia. rewrite app_nil_r. exact N8.
  - rewrite T1, T2, T4, T6, T7, T3. f_equal. f_equal. f_equal. now destruct en as [[a r]|].
  - exact T8.
Qed.
Lemma schema_none : forall s n, copy_schema_record s n = None <-> s_parsed s = false \/ (exists a l e, s_definedEnums s = Some (a, l) /\ In e l /\ ql_named (e_qlType e) = false).
Proof.
  intros s n. unfold copy_schema_record. destruct (s_parsed s); cbn [negb]; [|split; auto].
  destruct (copy_map (copy_cell copy_obj) (s_types s) n) as [ty' n1]. destruct (copy_map (copy_cell copy_obj) (s_interfaces s) n1) as [itf' n2].
  set (l := match s_definedEnums s with None => [] | Some (_, l) => l end).
  assert (F : Forall (fun e => forall n, copy_enum e n = None <-> ql_named (e_qlType e) = false) l) by (apply Forall_forall; intros e _ m; apply enum_none).
  pose proof (copy_list_none _ _ (fun e => ql_named (e_qlType e)) l F (n2 + 1)) as H.
  assert (T : forallb (fun e => ql_named (e_qlType e)) l = false <-> (exists a l e, s_definedEnums s = Some (a, l) /\ In e l /\ ql_named (e_qlType e) = false)).
  { unfold l. destruct (s_definedEnums s) as [[a r]|]; [|split; [discriminate|intros (? & ? & ? & ? & _); discriminate]]. split.
    - intro X. induction r as [|e r IH]; [discriminate|]. cbn [forallb] in X. apply andb_false_iff in X. destruct X as [X|X]; [exists a, (e :: r), e; cbn; auto|]. destruct IH as (a' & l' & e' & E & I1 & X'); auto.
      + unfold l. apply Forall_forall. intros e0 _ m. apply enum_none.
      + apply copy_list_none. apply Forall_forall. intros e0 _ m. apply enum_none.
      + injection E as <- <-. exists a, (e :: r), e'. cbn. auto.
    - intros (a' & l' & e & E & I1 & X). injection E as <- <-. destruct (forallb (fun e => ql_named (e_qlType e)) r) eqn:Y; auto. rewrite forallb_forall in Y. rewrite (Y _ I1) in X. discriminate. }
  rewrite <- T, <- H. destruct (copy_opt_list copy_enum l (n2 + 1)) as [[en' n3]|]; [|split; auto]. split; [|intros [X|X]; discriminate].
  destruct (copy_map (copy_made (copy_cell copy_dir)) (s_definedDirectives s) n3) as [? n4]. destruct (copy_map (copy_cell copy_in) (s_inTypes s) n4) as [? n5]. destruct (copy_cell copy_obj (s_rootQuery s) n5) as [? n6]. destruct (copy_cell copy_obj (s_rootMethod s) n6) as [? n7]. destruct (copy_cell copy_ctx (s_ctx s) (n7 + 2)) as [? n8]. discriminate.
Qed.
(** ** Copies of copies *)
Lemma on_cell_twice : forall A (f g h : A -> A) c, all_in (fun x => f (g x) = h x) c -> on_cell f (on_cell g c) = on_cell h c.
Proof. intros A f g h [[a x]|] H; cbn in *; [now rewrite H|reflexivity]. Qed.
Lemma map_twice : forall A (f g h : A -> A) l, Forall (fun x => f (g x) = h x) l -> map f (map g l) = map h l.
Proof. intros A f g h l H. induction H as [|x l E _ IH]; cbn; [reflexivity|]. now rewrite E, IH. Qed.
Lemma on_items_twice : forall A (f g h : A -> A) c, all_in (Forall (fun x => f (g x) = h x)) c -> on_items f (on_items g c) = on_items h c.
Proof. intros A f g h [[a [|x l]]|] H; cbn [all_in] in *; try reflexivity. cbn [on_items map]. apply map_twice in H. cbn [map] in H. now rewrite H. Qed.
Lemma on_snd_twice : forall K A (f g h : A -> A) (kv : K * A), f (g (snd kv)) = h (snd kv) -> on_snd f (on_snd g kv) = on_snd h kv.
Proof. intros K A f g h [k x] H. unfold on_snd. cbn in *. now rewrite H. Qed.
Lemma in_twice : forall m, in_content (in_content m) = in_content m.
Proof.
  apply rin_ind'. intros [k e ei id fi ti gi gn el sp sn sc] He Hc. cbn [i_elem i_structContent] in *. cbn [in_content i_elem i_structContent i_kind i_isEnum i_enumTypeIndex i_isID i_isFile i_isTime i_goFieldIdx i_gqFieldName i_isStructPointers i_structName]. f_equal; [now apply on_cell_twice|]. apply on_cell_twice. destruct sc as [[a l]|]; cbn [all_in] in *; auto. apply map_twice. eapply Forall_impl; [|exact Hc]. intros kv G. now apply on_snd_twice.
Qed.
Lemma method_twice : forall O (f g h : O -> O) m, f (g (m_outType m)) = h (m_outType m) -> method_content f (method_content g m) = method_content h m.
Proof.
  intros O f g h [tm gf gt ins fs ck nr out err] H. unfold method_content. cbn [m_outType m_errorOutNr m_ins m_inFields m_isTypeMethod m_goFunctionName m_goType m_checkedIns m_outNr] in *. rewrite H. f_equal.
  - apply on_cell_twice, all_in_all. intro l. apply map_twice, Forall_forall. intros [c g'] _. unfold base_content. cbn. f_equal. now apply on_cell_twice, all_in_all.
  - apply on_cell_twice, all_in_all. intro l. apply map_twice, Forall_forall. intros kv _. apply on_snd_twice, on_snd_twice, in_twice.
  - now apply on_cell_twice, all_in_all.
Qed.
Lemma obj_twice : forall f g o, obj_content f (obj_content g o) = obj_content (fun b => f (g b)) o.
Proof.
  intros f g. apply robj_ind'. intros [vt tn tb gn gp qf hi id oc cv si ic dv me ei im] Hi Hm Hc Hl. cbn [o_innerContent o_method o_objContents o_implementations] in *.
  cbn [obj_content o_valueType o_typeName o_typeNameBytes o_goTypeName o_goPkgPath o_qlFieldName o_hidden o_isID o_objContents o_customObjValue o_structFieldIdx o_innerContent o_dataValueType o_method o_enumTypeIndex o_implementations].
  f_equal; try (now apply on_cell_twice, all_in_all); try (now apply on_cell_twice).
  - apply on_cell_twice. destruct oc as [[a l]|]; cbn [all_in] in *; auto. apply map_twice. eapply Forall_impl; [|exact Hc]. intros kv G. now apply on_snd_twice, on_cell_twice.
  - apply on_cell_twice. destruct me as [[a m]|]; cbn [all_in] in *; auto. now apply method_twice.
  - apply on_items_twice. destruct im as [[a l]|]; cbn [all_in] in *; auto. eapply Forall_impl; [|exact Hl]. intros kv G. now apply on_cell_twice.
Qed.
Lemma ql_twice : forall f g q, ql_content f (ql_content g q) = ql_content (fun b => f (g b)) q.
Proof.
  intros f g. apply rql_ind'. intros [k nm de fi il pt ev inf ot su] Hi Ho. cbn [q_interfaces q_ofType] in *. cbn [ql_content q_kind q_name q_description q_fields q_interfaces q_possibleTypes q_enumValues q_inputFields q_ofType q_specifiedByURL].
  f_equal; [now apply on_cell_twice, all_in_all| |now apply on_cell_twice]. apply on_cell_twice. destruct il as [[a l]|]; cbn [all_in] in *; auto. now apply map_twice.
Qed.
Lemma schema_twice : forall f g d e s, schema_content f d (schema_content g e s) = schema_content (fun b => f (g b)) (fun b => d (e b)) s.
Proof.
  intros f g d e [pa ty it itf rq rqv rm rmv md en di cx re gm gl gf]. unfold schema_content. cbn [s_parsed s_types s_inTypes s_interfaces s_rootQuery s_rootQueryValue s_rootMethod s_rootMethodValue s_maxDepth s_definedEnums s_definedDirectives].
  assert (GO : forall c, on_cell (obj_content f) (on_cell (obj_content g) c) = on_cell (obj_content (fun b => f (g b))) c) by (intro c; apply on_cell_twice, all_in_all, obj_twice).
  assert (GT : forall c, on_items (on_snd (K := bytes) (on_cell (obj_content f))) (on_items (on_snd (on_cell (obj_content g))) c) = on_items (on_snd (on_cell (obj_content (fun b => f (g b))))) c) by (intro c; apply on_items_twice, all_in_all; intro l; apply Forall_forall; intros kv _; apply on_snd_twice, GO).
  rewrite !GT, !GO. f_equal.
  - apply on_items_twice, all_in_all. intro l. apply Forall_forall. intros kv _. apply on_snd_twice. now apply on_cell_twice, all_in_all, in_twice.
  - apply on_items_twice, all_in_all. intro l. apply Forall_forall. intros [ct ck tn en' q] _. unfold enum_content. cbn [e_qlType e_entries e_contentType e_contentKind e_typeName]. rewrite ql_twice. f_equal. apply on_items_twice, all_in_all. intro r. apply Forall_forall. intros [kb k v] _. unfold entry_content. cbn. f_equal. now apply on_cell_twice, all_in_all.
  - apply on_items_twice, all_in_all. intro l. apply Forall_forall. intros kv _. apply on_snd_twice. apply on_items_twice, all_in_all. intro r. apply Forall_forall. intros c _. apply on_cell_twice, all_in_all. intros [nm wh me mr pm de]. unfold dir_content. cbn [d_parsedMethod d_name d_where d_method d_methodReflection d_description]. f_equal; [now apply on_cell_twice, all_in_all|]. apply on_cell_twice, all_in_all. intro m. apply method_twice, obj_twice.
Qed.
Lemma copied_named : forall q n q' n', copy_ql q n = Some (q', n') -> ql_named q' = true.
Proof.
  intro q. induction q as [[k nm de fi il pt ev inf ot su] Hi Ho] using rql_ind'. intros n y n' E. cbn [q_interfaces q_ofType] in *. cbn [copy_ql q_kind q_name q_description q_fields q_interfaces q_possibleTypes q_enumValues q_inputFields q_ofType q_specifiedByURL] in E.
  destruct (copy_cell keep nm n) as [nm' n1].
  destruct (match de, nm with None, _ => Some (nm', n1) | Some _, Some (_, s) => Some (Some (n1, s), n1 + 1) | Some _, None => None end) as [[nm2 n2]|] eqn:E2; [|discriminate]. clear E2.
  destruct (match il with None => Some (None, n2) | Some (_, l) => match copy_opt_list copy_ql l (n2 + 1) with None => None | Some (l', n') => Some (Some (n2, l'), n') end end) as [[il' n3]|] eqn:E3; [|discriminate].
  destruct (match ot with None => Some (None, n3) | Some (_, x) => match copy_ql x (n3 + 1) with None => None | Some (y, n') => Some (Some (n3, y), n') end end) as [[ot' n4]|] eqn:E4; [|discriminate].
  injection E as <- <-. cbn [ql_named q_description q_name q_interfaces q_ofType]. apply andb_true_iff. split.
  - cbn [andb]. destruct il as [[a l]|]; [|injection E3 as <- <-; reflexivity]. cbn [all_in] in Hi. destruct (copy_opt_list copy_ql l (n2 + 1)) as [[l' m]|] eqn:E5; [|discriminate]. injection E3 as <- <-. clear E4. revert l' m E5. generalize (n2 + 1). induction Hi as [|x l G _ IH]; intros i l' m E5; cbn [copy_opt_list] in E5.
    + injection E5 as <- <-. reflexivity.
    + destruct (copy_ql x i) as [[y i1]|] eqn:E1; [|discriminate]. fold (copy_opt_list copy_ql) in E5. destruct (copy_opt_list copy_ql l i1) as [[r i2]|] eqn:E2; [|discriminate]. injection E5 as <- <-. cbn [forallb]. now rewrite (G _ _ _ E1), (IH _ _ _ E2).
  - destruct ot as [[a x]|]; [|injection E4 as <- <-; reflexivity]. cbn [all_in] in Ho. destruct (copy_ql x (n3 + 1)) as [[x' m]|] eqn:E5; [|discriminate]. injection E4 as <- <-. eauto.
Qed.
Lemma copied_enums : forall l n r n', copy_opt_list copy_enum l n = Some (r, n') -> forall e, In e r -> ql_named (e_qlType e) = true.
Proof.
  induction l as [|x l IH]; intros n r n' E e I1; cbn [copy_opt_list] in E; [injection E as <- <-; destruct I1|].
  destruct (copy_enum x n) as [[y n1]|] eqn:E1; [|discriminate]. fold (copy_opt_list copy_enum) in E. destruct (copy_opt_list copy_enum l n1) as [[r' n2]|] eqn:E2; [|discriminate]. injection E as <- <-. destruct I1 as [<-|I1]; [|eauto].
  unfold copy_enum in E1. destruct (copy_ql (e_qlType x) n) as [[q m]|] eqn:E3; [|discriminate]. unfold copy_entries in E1. injection E1 as <- <-. cbn. eapply copied_named; eauto.
Qed.
Lemma copied_again : forall s n s' n' m, copy_schema_record s n = Some (s', n') -> copy_schema_record s' m <> None.
Proof.
  intros s n s' n' m E X. apply schema_none in X. unfold copy_schema_record in E. destruct (s_parsed s); cbn [negb] in E; [|discriminate].
  destruct (copy_map (copy_cell copy_obj) (s_types s) n) as [ty' n1]. destruct (copy_map (copy_cell copy_obj) (s_interfaces s) n1) as [itf' n2].
  destruct (copy_opt_list copy_enum (match s_definedEnums s with None => [] | Some (_, l) => l end) (n2 + 1)) as [[en n3]|] eqn:E3; [|discriminate].
  destruct (copy_map (copy_made (copy_cell copy_dir)) (s_definedDirectives s) n3) as [? n4]. destruct (copy_map (copy_cell copy_in) (s_inTypes s) n4) as [? n5]. destruct (copy_cell copy_obj (s_rootQuery s) n5) as [? n6]. destruct (copy_cell copy_obj (s_rootMethod s) n6) as [? n7]. destruct (copy_cell copy_ctx (s_ctx s) (n7 + 2)) as [? n8].
  injection E as <- <-. cbn [s_parsed s_definedEnums] in X. destruct X as [X|(a & l & e & E & I1 & X)]; [discriminate|]. injection E as <- <-. rewrite (copied_enums _ _ _ _ E3 _ I1) in X. discriminate.
Qed.
