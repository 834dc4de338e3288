(** * A text is the text of at most one JSON value (proofs) *)
From Coq Require Import String NArith ZArith Bool List Lia.
From Verif Require Import Base Json JsonProof.
Import ListNotations.
Open Scope N_scope.

Lemma encode_apart c d r s : scalar c -> scalar d -> d < 128 -> utf8_encode c ++ r = d :: s -> c = d /\ r = s.
Proof. intros A B C E. apply encode_inj; auto. rewrite (encode_small d C). exact E. Qed.
Lemma sc34 : scalar 34. Proof. left. lia. Qed.
Lemma sc92 : scalar 92. Proof. left. lia. Qed.
Lemma jchars_unique l u : jchars l u -> forall l' u' r r', jchars l' u' -> u ++ 34 :: r = u' ++ 34 :: r' -> l = l' /\ u = u' /\ r = r'.
Proof.
  induction 1 as [|c l t Sc Lc N1 N2 H IH|e c l t In1 H IH|a b c d v l t Hx Sv H IH|a b c d a' b' c' d' hi lo l t H1 H2 R1 R2 H IH]; intros l' u' r r' H' E.
  - inversion H' as [|c' m t' Sc' Lc' N1' N2' H0|e c' m t' In1' H0|a b c d v m t' Hx' Sv' H0|a b c d x y z q hi lo m t' H1' H2' R1' R2' H0]; subst.
    + cbn in E. injection E as ->. auto.
    + cbn [app] in E. rewrite <- app_assoc in E. symmetry in E. apply encode_apart in E; [|auto|apply sc34|lia]. lia.
    + cbn in E. injection E as E _. discriminate.
    + cbn in E. injection E as E _. discriminate.
    + cbn in E. injection E as E _. discriminate.
  - inversion H' as [|c' m t' Sc' Lc' N1' N2' H0|e c' m t' In1' H0|a b c' d v m t' Hx' Sv' H0|a b c' d x y z q hi lo m t' H1' H2' R1' R2' H0]; subst.
    + rewrite <- app_assoc in E. apply encode_apart in E; [|auto|apply sc34|lia]. lia.
    + rewrite <- !app_assoc in E. apply encode_inj in E; auto. destruct E as [-> E]. destruct (IH _ _ _ _ H0 E) as [-> [-> ->]]. auto.
    + rewrite <- app_assoc in E. apply encode_apart in E; [|auto|apply sc92|lia]. lia.
    + rewrite <- app_assoc in E. apply encode_apart in E; [|auto|apply sc92|lia]. lia.
    + rewrite <- app_assoc in E. apply encode_apart in E; [|auto|apply sc92|lia]. lia.
  - inversion H' as [|c' m t' Sc' Lc' N1' N2' H0|e' c' m t' In1' H0|a b c' d v m t' Hx' Sv' H0|a b c' d x y z q hi lo m t' H1' H2' R1' R2' H0]; subst.
    + cbn in E. injection E as E _. discriminate.
    + rewrite <- app_assoc in E. symmetry in E. apply encode_apart in E; [|auto|apply sc92|lia]. lia.
    + cbn [app] in E. injection E as -> E. destruct (IH _ _ _ _ H0 E) as [-> [-> ->]]. repeat split. f_equal. cbn in In1, In1'. intuition congruence.
    + exfalso. cbn [app] in E. injection E as -> _. cbn in In1. intuition congruence.
    + exfalso. cbn [app] in E. injection E as -> _. cbn in In1. intuition congruence.
  - inversion H' as [|c' m t' Sc' Lc' N1' N2' H0|e' c' m t' In1' H0|a' b' c' d' v' m t' Hx' Sv' H0|a' b' c' d' x y z q hi lo m t' H1' H2' R1' R2' H0]; subst.
    + cbn in E. injection E as E _. discriminate.
    + rewrite <- app_assoc in E. symmetry in E. apply encode_apart in E; [|auto|apply sc92|lia]. lia.
    + exfalso. cbn [app] in E. injection E as <- _. cbn in In1'. intuition congruence.
    + cbn [app] in E. injection E as -> -> -> -> E. destruct (IH _ _ _ _ H0 E) as [-> [-> ->]]. rewrite (hex4_fun _ _ _ _ _ _ Hx Hx'). auto.
    + exfalso. cbn [app] in E. injection E as -> -> -> -> E. rewrite (hex4_fun _ _ _ _ _ _ Hx H1') in Sv. unfold scalar in Sv. lia.
  - inversion H' as [|c2 m t' Sc' Lc' N1' N2' H0|e' c2 m t' In1' H0|a2 b2 c2 d2 v' m t' Hx' Sv' H0|a2 b2 c2 d2 x y z q hi2 lo2 m t' H1' H2' R1' R2' H0]; subst.
    + cbn in E. injection E as E _. discriminate.
    + rewrite <- app_assoc in E. symmetry in E. apply encode_apart in E; [|auto|apply sc92|lia]. lia.
    + exfalso. cbn [app] in E. injection E as <- _. cbn in In1'. intuition congruence.
    + exfalso. cbn [app] in E. injection E as -> -> -> -> E. rewrite (hex4_fun _ _ _ _ _ _ Hx' H1) in Sv'. unfold scalar in Sv'. lia.
    + cbn [app] in E. injection E as -> -> -> -> -> -> -> -> E. destruct (IH _ _ _ _ H0 E) as [-> [-> ->]]. rewrite (hex4_fun _ _ _ _ _ _ H1 H1'), (hex4_fun _ _ _ _ _ _ H2 H2'). auto.
Qed.
Lemma jstring_unique l t l' t' r r' : jstring l t -> jstring l' t' -> t ++ r = t' ++ r' -> l = l' /\ t = t' /\ r = r'.
Proof.
  intros [u [-> H]] [u' [-> H']] E. cbn [app] in E. injection E as E. rewrite <- !app_assoc in E. cbn [app] in E. destruct (jchars_unique _ _ H _ _ _ _ H' E) as [-> [-> ->]]. auto.
Qed.
(** numbers *)
Definition numchar (c : N) : Prop := digit c \/ c = 45 \/ c = 46 \/ c = 101 \/ c = 69 \/ c = 43.
Lemma digits_num l : Forall digit l -> Forall numchar l.
Proof. apply Forall_impl. intros; now left. Qed.
Lemma number_chars t : jnumber t -> Forall numchar t /\ exists c u, t = c :: u /\ (c = 45 \/ digit c).
Proof.
  intros (s & i & f & e & -> & Hs & Hi & Hf & He).
  assert (NI : Forall numchar i /\ exists c u, i = c :: u /\ digit c).
  { destruct Hi as [->|(d & r & -> & D & F)]; [split; [constructor; [left; unfold digit; lia|constructor]|exists 48, []; split; [reflexivity|unfold digit; lia]]|].
    split; [constructor; [left; unfold digit; lia|now apply digits_num]|exists d, r; split; [reflexivity|unfold digit; lia]]. }
  destruct NI as [NI [c [u [-> Dc]]]]. split.
  - apply Forall_app. split; [destruct Hs as [->| ->]; repeat constructor; right; auto|]. apply Forall_app. split; [exact NI|]. apply Forall_app. split.
    + destruct Hf as [->|(r & -> & _ & F)]; [constructor|]. constructor; [right; auto|now apply digits_num].
    + destruct He as [->|(e0 & s0 & r & -> & He & Hs0 & _ & F)]; [constructor|]. constructor; [right; destruct He as [->| ->]; auto 6|]. apply Forall_app. split; [|now apply digits_num].
      destruct Hs0 as [->|[->| ->]]; repeat constructor; right; auto 6.
  - destruct Hs as [->| ->]; eexists _, _; (split; [reflexivity|]); auto.
Qed.
(** what can follow a value *)
Definition stops (r : bytes) : Prop := match r with [] => True | c :: _ => c = 44 \/ c = 93 \/ c = 125 end.
Lemma stop44 r : stops (44 :: r). Proof. cbn. auto. Qed.
Lemma stop93 r : stops (93 :: r). Proof. cbn. auto. Qed.
Lemma stop125 r : stops (125 :: r). Proof. cbn. auto. Qed.
Lemma number_end t : Forall numchar t -> forall t' r r', Forall numchar t' -> stops r -> stops r' -> t ++ r = t' ++ r' -> t = t' /\ r = r'.
Proof.
  assert (A : forall c, numchar c -> c = 44 \/ c = 93 \/ c = 125 -> False) by (unfold numchar, digit; lia).
  induction 1 as [|c t N F IH]; intros [|c' t'] r r' F' S S' E; auto.
  - exfalso. cbn in E. subst r. inversion F'; subst. exact (A c' H1 S).
  - exfalso. cbn in E. subst r'. exact (A c N S').
  - inversion F'; subst. cbn in E. injection E as -> E. destruct (IH _ _ _ H2 S S' E) as [-> ->]. auto.
Qed.
Scheme jtext_mind := Minimality for jtext Sort Prop with jelems_mind := Minimality for jelems Sort Prop with jmembers_mind := Minimality for jmembers Sort Prop.
Combined Scheme jtext_mut from jtext_mind, jelems_mind, jmembers_mind.
(** how values start *)
Definition first_char (v : jval) (c : N) : Prop :=
  match v with JNull => c = 110 | JBool true => c = 116 | JBool false => c = 102 | JNum _ => c = 45 \/ digit c | JStr _ => c = 34 | JArr _ => c = 91 | JObj _ => c = 123 end.
Lemma text_start v t : jtext v t -> exists c u, t = c :: u /\ first_char v c.
Proof.
  destruct 1 as [| | |t H|l t H|l t H|m t H]; try (eexists _, _; split; reflexivity).
  - destruct (number_chars t H) as [_ [c [u [-> D]]]]. eexists _, _. split; [reflexivity|exact D].
  - destruct H as [u [-> _]]. eexists _, _. split; reflexivity.
Qed.
Lemma string_start l t : jstring l t -> exists u, t = 34 :: u. Proof. intros [u [-> _]]. eauto. Qed.
Lemma all_unique : (forall v t, jtext v t -> forall v' t' r r', jtext v' t' -> stops r -> stops r' -> t ++ r = t' ++ r' -> v = v' /\ t = t' /\ r = r') /\
  (forall l t, jelems l t -> forall l' t' r r', jelems l' t' -> t ++ 93 :: r = t' ++ 93 :: r' -> l = l' /\ t = t' /\ r = r') /\
  (forall m t, jmembers m t -> forall m' t' r r', jmembers m' t' -> t ++ 125 :: r = t' ++ 125 :: r' -> m = m' /\ t = t' /\ r = r').
Proof.
  apply jtext_mut.
  - intros v' t' r r' H S S' E. destruct (text_start _ _ H) as [c [u [-> F]]]. cbn in E. injection E as <- E.
    inversion H; subst; cbn in F; try discriminate; [|destruct F as [F|F]; [discriminate|unfold digit in F; lia]]. cbn in E. injection E as E. auto.
  - intros v' t' r r' H S S' E. destruct (text_start _ _ H) as [c [u [-> F]]]. cbn in E. injection E as <- E.
    inversion H; subst; cbn in F; try discriminate; [|destruct F as [F|F]; [discriminate|unfold digit in F; lia]]. cbn in E. injection E as E. auto.
  - intros v' t' r r' H S S' E. destruct (text_start _ _ H) as [c [u [-> F]]]. cbn in E. injection E as <- E.
    inversion H; subst; cbn in F; try discriminate; [|destruct F as [F|F]; [discriminate|unfold digit in F; lia]]. cbn in E. injection E as E. auto.
  - intros t NT v' t' r r' H S S' E. destruct (number_chars t NT) as [NC [c [u [Et D]]]]. destruct (text_start _ _ H) as [c' [u' [Et' F]]].
    assert (c' = c) by (subst; cbn in E; congruence). subst c'. inversion H; subst v' t'; cbn in F; unfold digit in *; try lia.
    destruct (number_chars _ H0) as [NC' _]. destruct (number_end _ NC _ _ _ NC' S S' E) as [-> ->]. auto.
  - intros l t ST v' t' r r' H S S' E. destruct (string_start _ _ ST) as [u Et]. destruct (text_start _ _ H) as [c' [u' [Et' F]]].
    assert (c' = 34) by (subst; cbn in E; congruence). subst c'. inversion H; subst v' t'; cbn in F; unfold digit in *; try lia.
    destruct (jstring_unique _ _ _ _ _ _ ST H0 E) as [-> [-> ->]]. auto.
  - intros l t _ IH v' t' r r' H S S' E. destruct (text_start _ _ H) as [c' [u' [Et' F]]].
    assert (c' = 91) by (subst; cbn in E; congruence). subst c'. inversion H; subst v' t'; cbn in F; unfold digit in *; try lia.
    injection H2 as <-.
    cbn [app] in E. injection E as E. rewrite <- !app_assoc in E. cbn [app] in E. destruct (IH _ _ _ _ H0 E) as [-> [-> ->]]. auto.
  - intros l t _ IH v' t' r r' H S S' E. destruct (text_start _ _ H) as [c' [u' [Et' F]]].
    assert (c' = 123) by (subst; cbn in E; congruence). subst c'. inversion H; subst v' t'; cbn in F; unfold digit in *; try lia.
    injection H2 as <-.
    cbn [app] in E. injection E as E. rewrite <- !app_assoc in E. cbn [app] in E. destruct (IH _ _ _ _ H0 E) as [-> [-> ->]]. auto.
  - intros l' t' r r' H E. inversion H; subst; [cbn in E; injection E as ->; auto| |]; exfalso.
    + destruct (text_start _ _ H0) as [c [u [-> F]]]. cbn in E. injection E as <- _. destruct v as [|[]| | | |]; cbn in F; unfold digit in F; lia.
    + destruct (text_start _ _ H0) as [c [u' [-> F]]]. cbn in E. injection E as <- _. destruct v as [|[]| | | |]; cbn in F; unfold digit in F; lia.
  - intros v t T IH l' t' r r' H E. destruct (text_start _ _ T) as [c [u [Et F]]]. inversion H; subst l' t'.
    + exfalso. subst t. cbn in E. injection E as -> _. destruct v as [|[]| | | |]; cbn in F; unfold digit in F; lia.
    + edestruct IH with (1 := H0) (4 := E) as [-> [-> X]]; [solve [auto using stop44, stop93, stop125]..|]. injection X as ->. auto.
    + rewrite <- app_assoc in E. cbn [app] in E. edestruct IH with (1 := H0) (4 := E) as [_ [_ X]]; [solve [auto using stop44, stop93, stop125]..|]. discriminate.
  - intros v t l u T IH _ IHl NE l' t' r r' H E. destruct (text_start _ _ T) as [c [u' [Et F]]]. rewrite <- app_assoc in E. cbn [app] in E. inversion H; subst l' t'.
    + exfalso. subst t. cbn in E. injection E as -> _. destruct v as [|[]| | | |]; cbn in F; unfold digit in F; lia.
    + edestruct IH with (1 := H0) (4 := E) as [_ [_ X]]; [solve [auto using stop44, stop93, stop125]..|]. discriminate.
    + rewrite <- app_assoc in E. cbn [app] in E. edestruct IH with (1 := H0) (4 := E) as [-> [-> X]]; [solve [auto using stop44, stop93, stop125]..|]. injection X as X. destruct (IHl _ _ _ _ H1 X) as [-> [-> ->]]; [solve [auto using stop44, stop93, stop125]..|]. auto.
  - intros l' t' r r' H E. inversion H; subst; [cbn in E; injection E as ->; auto| |]; exfalso.
    + destruct (string_start _ _ H0) as [u ->]. discriminate.
    + destruct (string_start _ _ H0) as [u' ->]. discriminate.
  - intros k kt v t K T IH l' t' r r' H E. destruct (string_start _ _ K) as [u Et]. rewrite <- app_assoc in E. cbn [app] in E. inversion H; subst l' t'.
    + exfalso. subst kt. discriminate.
    + rewrite <- app_assoc in E. cbn [app] in E. destruct (jstring_unique _ _ _ _ _ _ K H0 E) as [-> [-> X]]. injection X as X.
      edestruct IH with (1 := H1) (4 := X) as [-> [-> Y]]; [solve [auto using stop44, stop93, stop125]..|]. injection Y as ->. auto.
    + rewrite <- app_assoc in E. cbn [app] in E. destruct (jstring_unique _ _ _ _ _ _ K H0 E) as [-> [-> X]]. injection X as X. rewrite <- app_assoc in X. cbn [app] in X.
      edestruct IH with (1 := H1) (4 := X) as [_ [_ Y]]; [solve [auto using stop44, stop93, stop125]..|]. discriminate.
  - intros k kt v t m u K T IH _ IHm NE l' t' r r' H E. destruct (string_start _ _ K) as [u' Et]. repeat (rewrite <- app_assoc in E; cbn [app] in E). inversion H; subst l' t'.
    + exfalso. subst kt. discriminate.
    + repeat (rewrite <- app_assoc in E; cbn [app] in E). destruct (jstring_unique _ _ _ _ _ _ K H0 E) as [-> [-> X]]. injection X as X. 
      edestruct IH with (1 := H1) (4 := X) as [_ [_ Y]]; [solve [auto using stop44, stop93, stop125]..|]. discriminate.
    + repeat (rewrite <- app_assoc in E; cbn [app] in E). destruct (jstring_unique _ _ _ _ _ _ K H0 E) as [-> [-> X]]. injection X as X. 
      edestruct IH with (1 := H1) (4 := X) as [-> [-> Y]]; [solve [auto using stop44, stop93, stop125]..|]. injection Y as Y. destruct (IHm _ _ _ _ H2 Y) as [-> [-> ->]]; [solve [auto using stop44, stop93, stop125]..|]. auto.
Qed.
Theorem jtext_unique v v' t : jtext v t -> jtext v' t -> v = v'.
Proof. intros H H'. destruct all_unique as [U _]. now destruct (U _ _ H _ _ [] [] H' Logic.I Logic.I eq_refl). Qed.
