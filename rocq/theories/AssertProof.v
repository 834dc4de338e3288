(** * Assertions (proofs) *)
From Coq Require Import String Arith NArith ZArith QArith Qabs Bool List Lia Lqa.
From Coq Require Import ZifyBool ZifyNat ZifyN.
From Verif Require Import Base FloatSpec FloatModel FloatProof AssertModel AssertSpec.
Import ListNotations.
Open Scope N_scope.

(** ** Lines *)
Lemma drop_cr_last : forall l c, drop_cr (l ++ [c]) = if c =? 13 then l else l ++ [c].
Proof.
  induction l as [|d l IH]; intro c; [reflexivity|]. cbn [app drop_cr]. rewrite IH. destruct (l ++ [c]) as [|x y] eqn:E; [now destruct l|]. destruct (c =? 13); reflexivity.
Qed.
Lemma drop_cr_written : forall l, written l (drop_cr l).
Proof.
  intro l. destruct (rev l) as [|c r] eqn:E.
  - apply (f_equal (@rev N)) in E. rewrite rev_involutive in E. subst l. right. split; [reflexivity|]. intros [|]; discriminate.
  - apply (f_equal (@rev N)) in E. rewrite rev_involutive in E. subst l. cbn [rev]. rewrite drop_cr_last. destruct (c =? 13) eqn:C.
    + apply N.eqb_eq in C. subst c. left. reflexivity.
    + right. split; [reflexivity|]. intros x H. apply app_inj_tail in H. destruct H as [_ ->]. discriminate.
Qed.
Lemma ended_app : forall l r, ended l ++ r = l ++ 10 :: r. Proof. intros. unfold ended. now rewrite <- app_assoc. Qed.
(** what is left of a line, and the lines after it *)
Lemma lines_exist : forall m, exists ls, has_lines m ls.
Proof.
  assert (H : forall m cur, ~ In 10 cur -> exists ls, has_lines (rev cur ++ m) ls).
  { induction m as [|c m IH]; intros cur C.
    - rewrite app_nil_r. destruct cur as [|x cur].
      + exists []. split; [constructor|]. left. reflexivity.
      + exists [rev (x :: cur)]. split; [constructor; [|constructor]; intro I; now apply C, in_rev|]. right. exists [], (rev (x :: cur)). split; [reflexivity|]. split; [|reflexivity]. cbn [rev]. now destruct (rev cur).
    - destruct (N.eq_dec c 10) as [->|Ne].
      + destruct (IH [] (fun x => x)) as (ls & F & L). cbn [rev app] in L. exists (rev cur :: ls). split; [constructor; auto; intro I; now apply C, in_rev|]. destruct L as [->|(init & last & -> & Nl & ->)].
        * left. cbn [map concat]. now rewrite ended_app.
        * right. exists (rev cur :: init), last. split; [reflexivity|]. split; [auto|]. cbn [map concat]. now rewrite <- app_assoc, ended_app.
      + destruct (IH (c :: cur)) as (ls & L); [intros [X|X]; auto|]. exists ls. cbn [rev] in L. now rewrite <- app_assoc in L. }
  intro m. exact (H m [] (fun x => x)).
Qed.
Definition fits (l : bytes) : bool := N.of_nat (length l) <? max_token.
Fixpoint visible (ls : list bytes) : list bytes :=
  match ls with [] => [] | l :: r => if fits l then drop_cr l :: visible r else [] end.
Lemma scan_line : forall l cur n m, ~ In 10 l -> scan cur n (l ++ m) = scan (rev l ++ cur) (n + N.of_nat (length l)) m.
Proof.
  induction l as [|c l IH]; intros cur n m H; [cbn [app rev length]; f_equal; lia|]. cbn [app scan]. destruct (c =? 10) eqn:E; [apply N.eqb_eq in E; subst c; exfalso; apply H; now left|].
  rewrite IH by (intro; apply H; now right). cbn [rev length]. rewrite <- app_assoc. cbn [app]. f_equal. lia.
Qed.
Lemma scan_ended : forall ls m, Forall (fun l => ~ In 10 l) ls ->
  scan [] 0 (concat (map ended ls) ++ m) = visible ls ++ (if forallb fits ls then scan [] 0 m else []).
Proof.
  induction ls as [|l ls IH]; intros m F; [reflexivity|]. inversion F as [|? ? F1 F2]; subst. cbn [map concat visible forallb]. rewrite <- app_assoc, ended_app, scan_line by auto. cbn [scan]. rewrite N.eqb_refl, app_nil_r, rev_involutive, N.add_0_l. fold (fits l).
  destruct (fits l); [|reflexivity]. rewrite IH by auto. reflexivity.
Qed.
Lemma visible_app : forall a b, visible (a ++ b) = visible a ++ (if forallb fits a then visible b else []).
Proof. induction a as [|l a IH]; intro b; [reflexivity|]. cbn [app visible forallb]. destruct (fits l); [|reflexivity]. now rewrite IH. Qed.
Lemma scan_visible : forall m ls, has_lines m ls -> scan [] 0 m = visible ls.
Proof.
  intros m ls (F & [->|(init & last & -> & Nl & ->)]).
  - rewrite <- (app_nil_r (concat _)), scan_ended by auto. cbn [scan]. destruct (forallb fits ls); now rewrite app_nil_r.
  - apply Forall_app in F. destruct F as [F1 F2]. inversion F2 as [|? ? F3 _]; subst. rewrite scan_ended, visible_app by auto. destruct (forallb fits init); [|reflexivity]. f_equal.
    rewrite <- (app_nil_r last) at 1. rewrite scan_line by auto. cbn [scan visible]. rewrite app_nil_r, rev_involutive, N.add_0_l. destruct (N.of_nat (length last) =? 0) eqn:Z; [|reflexivity]. destruct last; [congruence|]. cbn [length] in Z. lia.
Qed.
Lemma visible_spec : forall ls, exists shown, until_long ls shown /\ Forall2 written shown (visible ls).
Proof.
  induction ls as [|l ls (shown & (after & -> & S & A) & W)]; [exists []; split; [exists []; repeat split; constructor|constructor]|]. cbn [visible]. destruct (fits l) eqn:B.
  - exists (l :: shown). split; [exists after; split; [reflexivity|]; split; auto; constructor; auto; unfold short, fits, max_token in *; lia|]. constructor; auto. apply drop_cr_written.
  - exists []. split; [|constructor]. exists (l :: shown ++ after). split; [reflexivity|]. split; [constructor|]. unfold short, fits, max_token in *. lia.
Qed.
(** conversely the specification says which lines are shown *)
Lemma until_long_unique : forall ls a b, until_long ls a -> until_long ls b -> a = b.
Proof.
  intros ls a b (ra & Ea & Sa & Ha) (rb & Eb & Sb & Hb). revert ls b Ea Eb Sb. induction Sa as [|x a X _ IH]; intros ls b Ea Eb Sb.
  - destruct b as [|y b]; [reflexivity|]. cbn [app] in Ea. subst ls. rewrite Eb in Ha. cbn [app] in Ha. inversion Sb; subst. contradiction.
  - destruct b as [|y b].
    + cbn [app] in *. subst ls. rewrite <- Eb in Hb. contradiction.
    + subst ls. cbn [app] in Eb. inversion Eb; subst. inversion Sb; subst. f_equal. eapply IH; eauto.
Qed.
Lemma written_unique : forall l a b, written l a -> written l b -> a = b.
Proof. intros l a b [A|[A N1]] [B|[B N2]]; [rewrite A in B; now apply app_inj_tail in B|now destruct (N2 a)|now destruct (N1 b)|congruence]. Qed.
Lemma lines_unique : forall m a b, has_lines m a -> has_lines m b -> a = b.
Proof.
  assert (First : forall (l l' r r' : bytes), ~ In 10 l -> ~ In 10 l' -> l ++ 10 :: r = l' ++ 10 :: r' -> l = l' /\ r = r').
  { induction l as [|c l IH]; intros [|c' l'] r r' H H' E; cbn [app] in E; inversion E; subst; auto; try (exfalso; apply H; now left); try (exfalso; apply H'; now left).
    destruct (IH l' r r') as [-> ->]; auto; intro I; [apply H|apply H']; now right. }
  assert (Step : forall m l ls, has_lines m (l :: ls) -> (exists r, m = l ++ 10 :: r /\ has_lines r ls) \/ (m = l /\ ls = [] /\ l <> [] /\ ~ In 10 l)).
  { intros m l ls (F & [->|(init & last & E & Nl & ->)]); inversion F as [|? ? F1 F2]; subst.
    - left. exists (concat (map ended ls)). split; [cbn [map concat]; now rewrite ended_app|]. split; auto.
    - destruct init as [|x init]; cbn [app] in E; inversion E; subst; [right; cbn; auto|]. left. exists (concat (map ended init) ++ last). split; [cbn [map concat]; now rewrite <- app_assoc, ended_app|]. split; auto. right. exists init, last. auto. }
  assert (Nil : forall ls, has_lines [] ls -> ls = []).
  { intros [|l ls] H; [reflexivity|]. exfalso. destruct (Step _ _ _ H) as [(r & E & _)|(E & _ & X & _)]; [now destruct l|congruence]. }
  intros m a. revert m. induction a as [|l a IH]; intros m b A B.
  - destruct A as (_ & [->|(init & last & E & _)]); [|now destruct init]. symmetry. now apply Nil.
  - destruct b as [|l' b]; [destruct B as (_ & [->|(init & last & E & _)]); [now apply Nil|now destruct init]|].
    assert (Fl : ~ In 10 l) by (destruct A as (F & _); now inversion F). assert (Fl' : ~ In 10 l') by (destruct B as (F & _); now inversion F).
    destruct (Step _ _ _ A) as [(r & -> & R)|(E & -> & X & Y)], (Step _ _ _ B) as [(r' & E' & R')|(E' & -> & X' & Y')].
    + destruct (First _ _ _ _ Fl Fl' E') as [-> ->]. f_equal. now apply (IH r').
    + exfalso. apply Fl'. rewrite <- E'. apply in_or_app. right. now left.
    + exfalso. apply Fl. rewrite <- E, E'. apply in_or_app. right. now left.
    + congruence.
Qed.

(** ** Reports *)
Lemma longest_ge : forall content n, (n <= longest_label content n)%nat /\ (forall c, In c content -> (length (fst c) <= longest_label content n)%nat).
Proof.
  induction content as [|v r IH]; intro n; [split; [cbn; lia|intros c []]|]. cbn [longest_label]. destruct (IH (if (n <? length (fst v))%nat then length (fst v) else n)) as [A B]. destruct (Nat.ltb_spec n (length (fst v))); split; try lia; intros c [<-|I]; try (now apply B); lia.
Qed.
Lemma longest_is : forall content n, longest_label content n = n \/ exists c, In c content /\ longest_label content n = length (fst c).
Proof.
  induction content as [|v r IH]; intro n; [now left|]. cbn [longest_label]. destruct (IH (if (n <? length (fst v))%nat then length (fst v) else n)) as [E|(c & I & E)].
  - rewrite E. destruct (n <? length (fst v))%nat; [right; exists v; split; [now left|auto]|now left].
  - right. exists c. split; [now right|auto].
Qed.
Definition block_rows (w : nat) (label : bytes) (ws : list bytes) : list (bytes * bytes) :=
  let first := match ws with [] => [] | x :: _ => x end in
  (label ++ [58] ++ repeat 32 (w - 1 - length label), first) :: map (fun l => (repeat 32 w, l)) (tl ws).
Lemma indent_rest : forall ls i w, indent_lines (S i) ls w ++ [10] = [10] ++ concat (map row (map (fun l => (repeat 32 (w + 1), l)) ls)).
Proof.
  induction ls as [|l ls IH]; intros i w; [reflexivity|]. cbn [indent_lines map concat]. unfold row at 1. cbn [fst snd]. rewrite <- !app_assoc. rewrite IH. cbn [app]. rewrite <- ?app_assoc. reflexivity.
Qed.
Lemma block_text : forall ws w label, [9] ++ label ++ [58] ++ repeat 32 (w - length label) ++ [9] ++ indent_lines 0 ws w ++ [10] = concat (map row (block_rows (w + 1) label ws)).
Proof.
  intros ws w label. unfold block_rows. cbn [map concat]. unfold row at 1. cbn [fst snd]. replace (w + 1 - 1 - length label)%nat with (w - length label)%nat by lia. rewrite <- !app_assoc. do 5 f_equal.
  destruct ws as [|l ws]; [reflexivity|]. cbn [indent_lines tl app]. rewrite <- !app_assoc, indent_rest. reflexivity.
Qed.
Lemma block_ok : forall w label ws, (length label + 1 <= w)%nat -> block w label ws (block_rows w label ws).
Proof.
  intros w label ws L. unfold block_rows. apply block_intro.
  - now exists (w - 1 - length label)%nat.
  - rewrite !app_length, repeat_length. cbn [length]. lia.
  - now exists w.
  - apply repeat_length.
  - destruct ws; [right; auto|left; reflexivity].
Qed.
Lemma report_ok : forall content, report content (labeled_output content).
Proof.
  intro content. set (w := longest_label content 0). exists (w + 1)%nat, (map (fun c => block_rows (w + 1) (fst c) (scan [] 0 (snd c))) content). split; [|split; [|split]].
  - unfold labeled_output. fold w. clearbody w. induction content as [|v r IH]; [reflexivity|]. cbn [flat_map map concat]. rewrite map_app, concat_app, <- IH. f_equal. apply block_text.
  - intros c I. pose proof (proj2 (longest_ge content 0) c I). fold w in H. lia.
  - destruct content as [|c r]; [now left|]. right. destruct (longest_is (c :: r) 0) as [E|(d & I & E)]; fold w in E.
    + exists c. split; [now left|]. pose proof (proj2 (longest_ge (c :: r) 0) c (or_introl eq_refl)) as H. fold w in H. lia.
    + exists d. split; [auto|]. lia.
  - assert (L : forall c, In c content -> (length (fst c) + 1 <= w + 1)%nat) by (intros c I; pose proof (proj2 (longest_ge content 0) c I) as H; fold w in H; lia).
    clearbody w. induction content as [|c r IH]; [constructor|]. cbn [map]. constructor; [|apply IH; intros d I; apply L; now right].
    destruct (lines_exist (snd c)) as (ls & H). destruct (visible_spec ls) as (shown & U & W). exists ls, shown, (scan [] 0 (snd c)). split; [auto|]. split; [auto|]. rewrite (scan_visible _ _ H). split; [auto|]. apply block_ok. apply L. now left.
Qed.
Lemma block_unique : forall w label ws a b, block w label ws a -> block w label ws b -> a = b.
Proof.
  intros w label ws a b A B. destruct A as [sp lines first rest bl (n & ->) L1 (k & ->) L2 C]. inversion B as [sp' lines' first' rest' bl' (n' & ->) L1' (k' & ->) L2' C']; subst lines'.
  rewrite !app_length, !repeat_length in *. cbn [length] in *. replace n' with n by lia. replace k' with k by lia. destruct C as [->|(-> & -> & ->)], C' as [X|(X & -> & ->)]; inversion X; subst; reflexivity.
Qed.
Lemma report_unique : forall content a b, report content a -> report content b -> a = b.
Proof.
  intros content a b (w & bs1 & -> & G1 & T1 & F1) (w' & bs2 & -> & G2 & T2 & F2). assert (E : content = [] \/ w = w').
  { destruct T1 as [|(c & I & ->)], T2 as [|(d & J & ->)]; auto. right. specialize (G1 _ J). specialize (G2 _ I). lia. }
  destruct E as [->| <-]; [inversion F1; inversion F2; reflexivity|]. f_equal. f_equal. f_equal. clear G1 T1 G2 T2. revert bs2 F2. induction F1 as [|c x r bs1 H1 F1 IH]; intros bs2 F2; inversion F2 as [|? y ? bs2' H2 F2']; subst; [reflexivity|]. f_equal; [|now apply IH].
  destruct H1 as (ls & sh & ws & A1 & A2 & A3 & A4), H2 as (ls' & sh' & ws' & B1 & B2 & B3 & B4). rewrite (lines_unique _ _ _ B1 A1) in *. rewrite (until_long_unique _ _ _ B2 A2) in *.
  assert (E : ws' = ws). { clear - A3 B3. revert ws' B3. induction A3; intros ws' B3; inversion B3; subst; [reflexivity|]. f_equal; [eapply written_unique; eauto|auto]. }
  subst ws'. eapply block_unique; eauto.
Qed.

(** ** The message of Equal *)
Lemma until_long_exists : forall ls, exists shown, until_long ls shown.
Proof. intro ls. destruct (visible_spec ls) as (s & U & _). now exists s. Qed.
Lemma until_long_cons : forall l ls shown, short l -> until_long ls shown -> until_long (l :: ls) (l :: shown).
Proof. intros l ls shown S (after & -> & F & H). exists after. repeat split; auto. Qed.
Lemma has_lines_cons : forall l m ls, ~ In 10 l -> has_lines m ls -> has_lines (l ++ 10 :: m) (l :: ls).
Proof.
  intros l m ls Nl (F & H). split; [constructor; auto|]. destruct H as [->|(init & last & -> & Ne & ->)].
  - left. cbn [map concat]. now rewrite ended_app.
  - right. exists (l :: init), last. split; [reflexivity|]. split; auto. cbn [map concat]. now rewrite <- app_assoc, ended_app.
Qed.
(** the text of a value, cut if it is long *)
Definition abbreviated (v t : bytes) : Prop :=
  (t = v /\ N.of_nat (length v) <= 65436) \/ (exists p q, v = p ++ q /\ N.of_nat (length p) = 65436 /\ q <> [] /\ t = p ++ bs "<... truncated>").
Lemma truncating_ok : forall v, abbreviated v (truncating_format v).
Proof.
  intro v. unfold truncating_format. change (max_token - 100) with 65436. destruct (Nat.ltb_spec (N.to_nat 65436) (length v)) as [L|L].
  - right. exists (firstn (N.to_nat 65436) v), (skipn (N.to_nat 65436) v). split; [now rewrite firstn_skipn|]. split; [rewrite firstn_length; lia|]. split; [|reflexivity].
    intro E. apply (f_equal (@length N)) in E. rewrite skipn_length in E. change (@length N []) with 0%nat in E. lia.
  - left. split; [reflexivity|]. lia.
Qed.
Lemma abbreviated_len : forall v t, abbreviated v t -> N.of_nat (length t) <= 65451.
Proof. intros v t [(-> & L)|(p & q & -> & L & _ & ->)]; [lia|]. rewrite app_length. change (length (bs "<... truncated>")) with 15%nat. lia. Qed.
Lemma abbreviated_no : forall c v t, abbreviated v t -> ~ In c v -> ~ In c (bs "<... truncated>") -> ~ In c t.
Proof. intros c v t [(-> & _)|(p & q & -> & _ & _ & ->)] H T I; [auto|]. apply in_app_or in I. destruct I; auto. apply H, in_or_app. now left. Qed.
Lemma equal_lines : forall e a diff, N.of_nat (length e) <= 65525 -> N.of_nat (length a) <= 65525 -> ~ In 10 e -> ~ In 10 a -> (diff = [] \/ exists d, diff = 10 :: d) ->
  exists ls shown, has_lines (bs "Not equal: " ++ [10] ++ bs "expected: " ++ e ++ [10] ++ bs "actual  : " ++ a ++ diff) (bs "Not equal: " :: (bs "expected: " ++ e) :: (bs "actual  : " ++ a) :: ls) /\
    until_long (bs "Not equal: " :: (bs "expected: " ++ e) :: (bs "actual  : " ++ a) :: ls) (bs "Not equal: " :: (bs "expected: " ++ e) :: (bs "actual  : " ++ a) :: shown).
Proof.
  intros e a diff Le La Ne Na D.
  assert (N0 : ~ In 10 (bs "Not equal: ")) by (intro I; vm_compute in I; repeat (destruct I as [I|I]; [discriminate|]); contradiction).
  assert (N1 : ~ In 10 (bs "expected: " ++ e)) by (intro I; apply in_app_or in I; destruct I as [I|I]; auto; vm_compute in I; repeat (destruct I as [I|I]; [discriminate|]); contradiction).
  assert (N2 : ~ In 10 (bs "actual  : " ++ a)) by (intro I; apply in_app_or in I; destruct I as [I|I]; auto; vm_compute in I; repeat (destruct I as [I|I]; [discriminate|]); contradiction).
  assert (S0 : short (bs "Not equal: ")) by (vm_compute; reflexivity).
  assert (S1 : short (bs "expected: " ++ e)) by (unfold short; rewrite app_length; change (length (bs "expected: ")) with 10%nat; lia).
  assert (S2 : short (bs "actual  : " ++ a)) by (unfold short; rewrite app_length; change (length (bs "actual  : ")) with 10%nat; lia).
  assert (H : exists ls, has_lines (bs "actual  : " ++ a ++ diff) ((bs "actual  : " ++ a) :: ls)).
  { destruct D as [->|(d & ->)].
    - exists []. rewrite app_nil_r. split; [constructor; auto|]. right. exists [], (bs "actual  : " ++ a). split; [reflexivity|]. split; [discriminate|reflexivity].
    - destruct (lines_exist d) as (ls & H). exists ls. rewrite app_assoc. now apply has_lines_cons. }
  destruct H as (ls & H). destruct (until_long_exists ls) as (shown & U). exists ls, shown. split.
  - replace (bs "Not equal: " ++ [10] ++ bs "expected: " ++ e ++ [10] ++ bs "actual  : " ++ a ++ diff) with (bs "Not equal: " ++ 10 :: ((bs "expected: " ++ e) ++ 10 :: (bs "actual  : " ++ a ++ diff))) by (rewrite <- !app_assoc; reflexivity).
    apply has_lines_cons; auto. apply has_lines_cons; auto.
  - apply until_long_cons; auto. apply until_long_cons; auto. apply until_long_cons; auto.
Qed.

(** ** Floats *)
Definition zs (neg : bool) (n : N) : Z := if neg then (- Z.of_N n)%Z else Z.of_N n.
Lemma sign64 : sign_bit f64 = 9223372036854775808. Proof. reflexivity. Qed.
Lemma inf64 : inf_of f64 = 9218868437227405312. Proof. reflexivity. Qed.
Lemma neg_of_signed : forall neg a, a < sign_bit f64 -> neg_of f64 (signed f64 neg a) = neg.
Proof. intros neg a L. unfold neg_of, signed. destruct neg; lia. Qed.
Lemma abs_of_signed : forall neg a, a < sign_bit f64 -> abs_of f64 (signed f64 neg a) = a.
Proof. intros neg a L. unfold abs_of, signed. destruct neg; [|now apply N.mod_small]. rewrite N.add_comm, <- (N.mul_1_l (sign_bit f64)) at 1. rewrite N.mod_add by (rewrite sign64; discriminate). now apply N.mod_small. Qed.
Lemma split_bits : forall b, b < 18446744073709551616 -> b = signed f64 (neg_of f64 b) (abs_of f64 b).
Proof.
  intros b L. unfold neg_of, abs_of, signed. rewrite sign64. destruct (N.leb_spec 9223372036854775808 b).
  - replace b with (b - 9223372036854775808 + 1 * 9223372036854775808) at 2 by lia. rewrite N.mod_add, N.mod_small by lia. lia.
  - rewrite N.mod_small by lia. lia.
Qed.
Lemma key_signed : forall neg a, a < sign_bit f64 -> float_key (signed f64 neg a) = zs neg a.
Proof. intros neg a L. unfold float_key. rewrite neg_of_signed, abs_of_signed by auto. reflexivity. Qed.
Lemma nan_signed : forall neg a, a < sign_bit f64 -> is_nan (signed f64 neg a) = (inf_of f64 <? a).
Proof. intros neg a L. unfold is_nan. now rewrite abs_of_signed. Qed.
Lemma number_bits : forall b x, is_number b x -> exists neg a, b = signed f64 neg a /\ a <= inf_of f64 /\
  ((a < inf_of f64 /\ exists v, x = Number (with_sign neg v) /\ (v == rat (mag f64 a) * unit f64)%Q) \/ (a = inf_of f64 /\ x = if neg then Minus_inf else Plus_inf)).
Proof.
  intros b x H. destruct H as [b neg v F| |].
  - destruct (finite_mag f64 ok64 b neg v F) as (a & L & E & V). exists neg, a. split; auto. split; [lia|]. left. split; auto. exists v. auto.
  - exists false, (inf_of f64). split; [reflexivity|]. split; [lia|]. right. auto.
  - exists true, (inf_of f64). split; [reflexivity|]. split; [lia|]. right. auto.
Qed.
Lemma bits_number : forall b, b < 18446744073709551616 -> is_nan b = false -> exists x, is_number b x.
Proof.
  intros b L N. rewrite (split_bits b L). unfold is_nan in N. destruct (N.eq_dec (abs_of f64 b) (inf_of f64)) as [E|E].
  - rewrite E. destruct (neg_of f64 b); eexists; [apply is_minus|apply is_plus].
  - destruct (mag_finite f64 ok64 (neg_of f64 b) (abs_of f64 b)) as (v & F & _); [lia|]. eexists. apply is_finite. exact F.
Qed.
Lemma number_not_nan : forall b x, is_number b x -> is_nan b = false.
Proof. intros b x H. destruct (number_bits b x H) as (neg & a & -> & L & _). pose proof (inf_lt_sign f64 ok64). rewrite nan_signed by lia. lia. Qed.
Lemma mag0 : mag f64 0 = 0. Proof. reflexivity. Qed.
Lemma zs_order : forall neg neg' a a', (zs neg a < zs neg' a' <-> zs neg (mag f64 a) < zs neg' (mag f64 a'))%Z.
Proof.
  assert (M : forall a a', (mag f64 a < mag f64 a' <-> a < a')).
  { intros a a'. split; [intro H; destruct (N.lt_ge_cases a a'); auto; pose proof (mag_le f64 a' a H0); lia|apply mag_mono]. }
  assert (P : forall a, (0 < mag f64 a <-> 0 < a)) by (intro a; rewrite <- mag0 at 1; apply M).
  intros neg neg' a a'. pose proof (M a a'). pose proof (M a' a). pose proof (P a). pose proof (P a'). unfold zs. destruct neg, neg'; lia.
Qed.
Lemma value_order : forall neg neg' a a' v v', (v == rat (mag f64 a) * unit f64)%Q -> (v' == rat (mag f64 a') * unit f64)%Q ->
  ((with_sign neg v < with_sign neg' v')%Q <-> (zs neg a < zs neg' a')%Z).
Proof.
  intros neg neg' a a' v v' V V'. rewrite zs_order. assert (E : forall n w m, (w == rat m * unit f64)%Q -> (with_sign n w == inject_Z (zs n m) * unit f64)%Q).
  { intros n w m W. unfold with_sign, zs. destruct n; rewrite W; [|reflexivity]. rewrite inject_Z_opp. unfold rat. ring. }
  rewrite (E neg v _ V), (E neg' v' _ V'). rewrite Zlt_Qlt. apply Qmult_lt_r, unit_pos.
Qed.
Lemma number_order : forall a b x y, is_number a x -> is_number b y -> (number_lt x y <-> (float_key a < float_key b)%Z).
Proof.
  intros a b x y A B. destruct (number_bits a x A) as (na & ma & -> & La & Ha). destruct (number_bits b y B) as (nb & mb & -> & Lb & Hb). pose proof (inf_lt_sign f64 ok64). rewrite !key_signed by lia.
  assert (0 < inf_of f64) by reflexivity. unfold number_lt, zs in *.
  destruct Ha as [(Fa & v & -> & V)|(-> & ->)], Hb as [(Fb & v' & -> & V')|(-> & ->)].
  - now apply value_order.
  - destruct na, nb; lia.
  - destruct na, nb; lia.
  - destruct na, nb; lia.
Qed.
Lemma number_same : forall a b x y, is_number a x -> is_number b y -> (number_eq x y <-> (float_key a = float_key b)%Z).
Proof.
  intros a b x y A B. assert (T : number_eq x y <-> ~ number_lt x y /\ ~ number_lt y x).
  { unfold number_eq, number_lt. destruct x, y; try tauto. split; [intro E; split; lra|]. intros [P Q]. apply Qle_antisym; apply Qnot_lt_le; auto. }
  rewrite T, (number_order a b x y A B), (number_order b a y x B A). lia.
Qed.
Definition bits64 (b : N) : Prop := b < 18446744073709551616.
Lemma float_lt_spec : forall a b, bits64 a -> bits64 b -> (float_lt a b = true <-> exists x y, is_number a x /\ is_number b y /\ number_lt x y).
Proof.
  intros a b La Lb. unfold float_lt. split.
  - intro H. apply andb_prop in H. destruct H as [H K]. apply andb_prop in H. destruct H as [Na Nb]. destruct (bits_number a La) as (x & X); [now destruct (is_nan a)|]. destruct (bits_number b Lb) as (y & Y); [now destruct (is_nan b)|].
    exists x, y. split; auto. split; auto. apply (number_order a b x y X Y). lia.
  - intros (x & y & X & Y & L). rewrite (number_not_nan a x X), (number_not_nan b y Y). cbn [negb andb]. apply (number_order a b x y X Y) in L. lia.
Qed.
Lemma float_eq_spec : forall a b, bits64 a -> bits64 b -> (float_eq a b = true <-> exists x y, is_number a x /\ is_number b y /\ number_eq x y).
Proof.
  intros a b La Lb. unfold float_eq. split.
  - intro H. apply andb_prop in H. destruct H as [H K]. apply andb_prop in H. destruct H as [Na Nb]. destruct (bits_number a La) as (x & X); [now destruct (is_nan a)|]. destruct (bits_number b Lb) as (y & Y); [now destruct (is_nan b)|].
    exists x, y. split; auto. split; auto. apply (number_same a b x y X Y). lia.
  - intros (x & y & X & Y & L). rewrite (number_not_nan a x X), (number_not_nan b y Y). cbn [negb andb]. apply (number_same a b x y X Y) in L. lia.
Qed.
Lemma str_lt_spec : forall a b, str_lt a b = true <-> before a b.
Proof.
  induction a as [|x a IH]; intros [|y b].
  - split; [discriminate|]. intros (p & [(z & s & _ & E)|(z & r & y & s & E & _)]); destruct p; inversion E.
  - split; [|reflexivity]. intros _. exists []. left. now exists y, b.
  - split; [discriminate|]. intros (p & [(z & s & _ & E)|(z & r & y & s & _ & E & _)]); destruct p; inversion E.
  - cbn [str_lt]. destruct (N.eqb_spec x y) as [->|Ne].
    + rewrite IH. split; intros (p & H).
      * exists (y :: p). destruct H as [(z & s & -> & ->)|(z & r & w & s & -> & -> & L)]; [left; now exists z, s|right; now exists z, r, w, s].
      * destruct p as [|c p].
        -- destruct H as [(z & s & E & _)|(z & r & w & s & E & E' & L)]; [discriminate|]. cbn [app] in *. inversion E; inversion E'; subst. lia.
        -- exists p. destruct H as [(z & s & E & E')|(z & r & w & s & E & E' & L)]; cbn [app] in *; inversion E; inversion E'; subst; [left; now exists z, s|right; now exists z, r, w, s].
    + split.
      * intro L. exists []. right. exists x, a, y, b. repeat split. lia.
      * intros (p & H). destruct p as [|c p].
        -- destruct H as [(z & s & E & _)|(z & r & w & s & E & E' & L)]; [discriminate|]. cbn [app] in *. inversion E; inversion E'; subst. lia.
        -- destruct H as [(z & s & E & E')|(z & r & w & s & E & E' & L)]; cbn [app] in *; inversion E; inversion E'; subst; congruence.
Qed.

(** ** Comparisons *)
Definition int_kind (k : akind) : bool := match k with KdInt | KdInt8 | KdInt16 | KdInt32 | KdInt64 | KdUint | KdUint8 | KdUint16 | KdUint32 | KdUint64 => true | _ => false end.
Definition float_kind (k : akind) : bool := match k with KdFloat32 | KdFloat64 => true | _ => false end.
(** values that exist: the kind is one for the value *)
Definition any_ok (a : any) : Prop := match a with AInt k _ => int_kind k = true | AFloat k b => float_kind k = true /\ bits64 b | ANil | AStr _ | AOther _ => True end.
(** two values of one kind in order *)
Inductive any_lt : any -> any -> Prop :=
| lt_int : forall k x y, (x < y)%Z -> any_lt (AInt k x) (AInt k y)
| lt_float : forall k a b x y, is_number a x -> is_number b y -> number_lt x y -> any_lt (AFloat k a) (AFloat k b)
| lt_str : forall a b, before a b -> any_lt (AStr a) (AStr b).
Inductive any_eq : any -> any -> Prop :=
| eq_int : forall k x, any_eq (AInt k x) (AInt k x)
| eq_float : forall k a b x y, is_number a x -> is_number b y -> number_eq x y -> any_eq (AFloat k a) (AFloat k b)
| eq_str : forall a, any_eq (AStr a) (AStr a).
Lemma any_lt_same : forall a b, any_lt a b -> any_kind a = any_kind b. Proof. now destruct 1. Qed.
Lemma any_eq_same : forall a b, any_eq a b -> any_kind a = any_kind b. Proof. now destruct 1. Qed.
Definition outcome (r : option (compare_type * bool)) (gt eq lt : Prop) : Prop :=
  match r with
  | Some (CGreater, true) => gt /\ ~ eq /\ ~ lt
  | Some (CEqual, true) => eq /\ ~ gt /\ ~ lt
  | Some (CLess, true) => lt /\ ~ gt /\ ~ eq
  | Some (_, false) => ~ gt /\ ~ eq /\ ~ lt
  | None => False
  end.
Lemma outcome_iff : forall r g e l g' e' l', (g <-> g') -> (e <-> e') -> (l <-> l') -> outcome r g' e' l' -> outcome r g e l.
Proof. intros r g e l g' e' l' G E L. unfold outcome. destruct r as [[[] []]|]; tauto. Qed.
Lemma compare_ok : forall a b, any_ok a -> any_ok b -> any_kind a = any_kind b -> outcome (compare a b (any_kind a)) (any_lt b a) (any_eq a b) (any_lt a b).
Proof.
  intros a b A B K.
  assert (Num : forall k x y, int_kind k = true -> a = AInt k x -> b = AInt k y -> outcome (Some (three (y <? x) (x =? y) (x <? y)))%Z (any_lt b a) (any_eq a b) (any_lt a b)).
  { intros k x y _ -> ->. assert (L : forall u v, any_lt (AInt k u) (AInt k v) <-> (u < v)%Z) by (intros; split; [inversion 1; auto|apply lt_int]).
    assert (E : any_eq (AInt k x) (AInt k y) <-> x = y) by (split; [inversion 1; auto|intros ->; apply eq_int]).
    unfold three, outcome. destruct (Z.ltb_spec y x); [|destruct (Z.eqb_spec x y); [|destruct (Z.ltb_spec x y)]]; rewrite !L, E; lia. }
  destruct a as [|k x|k x|x|x].
  - destruct b as [|k' y|k' y|y|y]; cbn in *; subst; try discriminate; try (destruct B; discriminate). repeat split; intro H; inversion H.
  - destruct b as [|k' y|k' y|y|y]; cbn [any_kind any_ok] in *; subst; try discriminate.
    + replace (compare (AInt k' x) (AInt k' y) k') with (Some (three (y <? x) (x =? y) (x <? y)))%Z by (destruct k'; try discriminate; reflexivity). eapply Num; eauto.
    + destruct B as [B _]. destruct k'; discriminate.
  - destruct A as [A La]. destruct b as [|k' y|k' y|y|y]; cbn [any_kind any_ok] in *; subst; try discriminate.
    + destruct k'; discriminate.
    + destruct B as [_ Lb]. replace (compare (AFloat k' x) (AFloat k' y) k') with (Some (three (float_lt y x) (float_eq x y) (float_lt x y))) by (destruct k'; try discriminate; reflexivity).
      assert (L : forall u v, bits64 u -> bits64 v -> any_lt (AFloat k' u) (AFloat k' v) <-> float_lt u v = true).
      { intros u v Lu Lv. rewrite float_lt_spec by auto. split; [inversion 1; subst; eauto|intros (? & ? & ? & ? & ?); eapply lt_float; eauto]. }
      assert (E : any_eq (AFloat k' x) (AFloat k' y) <-> float_eq x y = true).
      { rewrite float_eq_spec by auto. split; [inversion 1; subst; eauto|intros (? & ? & ? & ? & ?); eapply eq_float; eauto]. }
      eapply outcome_iff; [apply L; auto|exact E|apply L; auto|]. unfold three, float_lt, float_eq. destruct (is_nan x), (is_nan y); cbn [negb andb outcome]; try (repeat split; discriminate).
      destruct (Z.ltb_spec (float_key y) (float_key x)); [|destruct (Z.eqb_spec (float_key x) (float_key y)); [|destruct (Z.ltb_spec (float_key x) (float_key y))]]; cbn [outcome]; lia.
  - destruct b as [|k' y|k' y|y|y]; cbn [any_kind any_ok] in *; subst; try discriminate; try (destruct B; discriminate).
    cbn [compare]. assert (L : forall u v, any_lt (AStr u) (AStr v) <-> str_lt u v = true) by (intros u v; rewrite str_lt_spec; split; [now inversion 1|apply lt_str]).
    assert (E : any_eq (AStr x) (AStr y) <-> x = y) by (split; [now inversion 1|intros ->; apply eq_str]).
    assert (T : forall u v, str_lt u v = true -> str_lt v u = false /\ u <> v).
    { induction u as [|c u IH]; intros [|d v] H; try discriminate; [now split|]. cbn [str_lt] in *. rewrite (N.eqb_sym d c). destruct (N.eqb_spec c d) as [->|Ne]; [destruct (IH _ H); split; congruence|]. split; [lia|congruence]. }
    assert (D : forall u v, str_lt u v = false -> str_lt v u = false -> u = v).
    { induction u as [|c u IH]; intros [|d v] H1 H2; try discriminate; [reflexivity|]. cbn [str_lt] in *. rewrite (N.eqb_sym d c) in H2. destruct (N.eqb_spec c d) as [->|Ne]; [f_equal; auto|]. lia. }
    unfold outcome, three. destruct (str_lt y x) eqn:E1; [|destruct (bytes_eq_dec x y) as [Q|Q]; [|destruct (str_lt x y) eqn:E2]]; rewrite !L, E.
    + destruct (T _ _ E1) as [E3 N1]. repeat split; auto; congruence.
    + subst y. repeat split; congruence.
    + repeat split; congruence.
    + destruct (Q (D _ _ E2 E1)).
  - destruct b as [|k' y|k' y|y|y]; cbn [any_kind any_ok] in *; subst; try discriminate; try (destruct B; discriminate).
    cbn. repeat split; intro H; inversion H.
Qed.
Section Two.
Variables fmt_v fmt_T : any -> bytes.
Lemma compare_two_spec : forall e1 e2 allowed f args, any_ok e1 -> any_ok e2 ->
  let r := compare_two fmt_v fmt_T e1 e2 allowed f args in
  r <> Panicked /\
  (r = Passed <-> (In CGreater allowed /\ any_lt e2 e1) \/ (In CEqual allowed /\ any_eq e1 e2) \/ (In CLess allowed /\ any_lt e1 e2)).
Proof.
  intros e1 e2 allowed f args O1 O2. cbv zeta. unfold compare_two. destruct (akind_beq (any_kind e1) (any_kind e2)) eqn:K; cbn [negb].
  - apply internal_akind_dec_bl in K. pose proof (compare_ok e1 e2 O1 O2 K) as H. destruct (compare e1 e2 (any_kind e1)) as [[c b]|]; [|contradiction].
    assert (M : forall c, existsb (fun v => compare_type_eqb v c) allowed = true <-> In c allowed).
    { intro c0. rewrite existsb_exists. split; [intros (x & I & E); destruct x, c0; try discriminate; auto|intro I; exists c0; split; auto; now destruct c0]. }
    destruct b; cbn [negb].
    + specialize (M c). destruct (existsb _ allowed); cbn [negb].
      * split; [discriminate|]. split; [intros _|reflexivity]. destruct M as [M _]. specialize (M eq_refl). destruct c; cbn in H; tauto.
      * split; [discriminate|]. split; [discriminate|]. intro X. exfalso. assert (~ In c allowed) by (intro I; apply M in I; discriminate). destruct c; cbn in H; tauto.
    + split; [discriminate|]. split; [discriminate|]. intro X. exfalso. destruct c; cbn in H; tauto.
  - split; [discriminate|]. split; [discriminate|]. intro X. exfalso.
    assert (E : any_kind e1 = any_kind e2). { destruct X as [[_ X]|[[_ X]|[_ X]]]; [symmetry|..]; [apply any_lt_same in X|apply any_eq_same in X|apply any_lt_same in X]; auto. }
    apply internal_akind_dec_lb in E. congruence.
Qed.
End Two.

(** ** InDelta and slices *)
Lemma float_neg_signed : forall neg a, a < sign_bit f64 -> float_neg (signed f64 neg a) = signed f64 (negb neg) a.
Proof. intros neg a L. unfold float_neg. now rewrite neg_of_signed, abs_of_signed. Qed.
Lemma units_signed : forall neg a, a < sign_bit f64 -> units (signed f64 neg a) = zs neg (mag f64 a).
Proof. intros neg a L. unfold units. now rewrite neg_of_signed, abs_of_signed. Qed.
Lemma in_delta_bits : forall expected actual na a nb b dl, to_float expected = Some (signed f64 na a) -> to_float actual = Some (signed f64 nb b) ->
  a < inf_of f64 -> b < inf_of f64 -> dl < inf_of f64 ->
  (in_delta (signed f64 false dl) expected actual = true <-> round_mag f64 (Z.abs_N (zs na (mag f64 a) - zs nb (mag f64 b))) 1 <= dl).
Proof.
  intros expected actual na a nb b dl E1 E2 La Lb Ld. pose proof (inf_lt_sign f64 ok64) as Li. unfold in_delta. rewrite E1, E2. rewrite !nan_signed by lia.
  replace (inf_of f64 <? a) with false by lia. replace (inf_of f64 <? b) with false by lia. unfold float_sub. rewrite !nan_signed, !abs_of_signed, !units_signed by lia.
  replace (inf_of f64 <? a) with false by lia. replace (inf_of f64 <? b) with false by lia. replace (a =? inf_of f64) with false by lia. replace (b =? inf_of f64) with false by lia. cbn [orb].
  set (d := (zs na (mag f64 a) - zs nb (mag f64 b))%Z). set (rm := round_mag f64 (Z.abs_N d) 1). set (m := N.min (inf_of f64) rm). cbv zeta. assert (Lm : m < sign_bit f64) by lia.
  rewrite float_neg_signed by lia. unfold float_lt. rewrite !nan_signed, !key_signed by lia. cbn [negb]. replace (inf_of f64 <? m) with false by lia. replace (inf_of f64 <? dl) with false by lia. cbn [negb andb].
  unfold zs at 1 2 3 4. destruct (d <? 0)%Z; lia.
Qed.
Lemma diff_ratio : forall na a nb b va vb, (va == rat (mag f64 a) * unit f64)%Q -> (vb == rat (mag f64 b) * unit f64)%Q ->
  (Qabs (with_sign na va - with_sign nb vb) == rat (Z.abs_N (zs na (mag f64 a) - zs nb (mag f64 b))) * unit f64)%Q.
Proof.
  intros na a nb b va vb V W. assert (E : forall n w m, (w == rat m * unit f64)%Q -> (with_sign n w == inject_Z (zs n m) * unit f64)%Q).
  { intros n w m X. unfold with_sign, zs. destruct n; rewrite X; [|reflexivity]. rewrite inject_Z_opp. unfold rat. ring. }
  rewrite (E na va _ V), (E nb vb _ W). set (i := zs na (mag f64 a)). set (j := zs nb (mag f64 b)).
  setoid_replace (inject_Z i * unit f64 - inject_Z j * unit f64)%Q with (inject_Z (i - j) * unit f64)%Q by (unfold Zminus; rewrite inject_Z_plus, inject_Z_opp; ring).
  rewrite Qabs_Qmult. rewrite (Qabs_pos (unit f64)) by (apply Qlt_le_weak, unit_pos). apply Qmult_comp; [|reflexivity]. unfold rat. rewrite N2Z.inj_abs_N. reflexivity.
Qed.
Lemma round_mono1 : forall p a, p <= mag f64 a -> round_mag f64 p 1 <= a.
Proof.
  intros p a L. destruct (N.le_gt_cases (round_mag f64 p 1) a) as [|G]; auto. exfalso. apply (mag_mono f64) in G. destruct (round_nearest f64 ok64 p 1 a) as [D _]; [lia|]. cbv zeta in D. unfold dist in D. lia.
Qed.
Lemma each_spec : forall A (one : A -> A -> bool) actual expected i,
  (each_of_slice one expected actual i = Some true <-> exists e1 e2, skipn i expected = e1 ++ e2 /\ Forall2 (fun x y => one y x = true) e1 actual) /\
  (each_of_slice one expected actual i = None <-> exists a1 x a2, actual = a1 ++ x :: a2 /\ Forall2 (fun x y => one y x = true) (skipn i expected) a1).
Proof.
  intros A one. induction actual as [|y actual IH]; intros expected i; cbn [each_of_slice].
  - split; (split; [|]).
    + intros _. exists [], (skipn i expected). split; [reflexivity|constructor].
    + reflexivity.
    + discriminate.
    + intros (a1 & x & a2 & E & _). now destruct a1.
  - assert (N : nth_error expected i = match skipn i expected with [] => None | x :: _ => Some x end).
    { clear. revert i. induction expected as [|x e IH]; intros [|i]; cbn; auto. }
    assert (T : skipn (i + 1) expected = tl (skipn i expected)).
    { clear. revert i. induction expected as [|x e IH]; intros [|i]; cbn; auto. }
    rewrite N. destruct (IH expected (i + 1)%nat) as [H1 H2]. rewrite T in H1, H2. destruct (skipn i expected) as [|x e]; cbn [tl] in *.
    + split; (split; [|]); try discriminate.
      * intros (e1 & e2 & E & F). inversion F; subst. discriminate.
      * intros _. exists [], y, actual. split; [reflexivity|constructor].
      * reflexivity.
    + destruct (one y x) eqn:O.
      * split.
        -- rewrite H1. split; intros (e1 & e2 & E & F).
           ++ exists (x :: e1), e2. split; [now rewrite E|]. constructor; auto.
           ++ inversion F as [|x' y' e1' r' P Q]; subst. cbn [app] in E. inversion E; subst. exists e1', e2. auto.
        -- rewrite H2. split; intros (a1 & z & a2 & E & F).
           ++ exists (y :: a1), z, a2. split; [now rewrite E|]. constructor; auto.
           ++ inversion F as [|x' y' e1' r' P Q]; subst. cbn [app] in E. inversion E; subst. exists r', z, a2. auto.
      * split; (split; [discriminate|]).
        -- intros (e1 & e2 & E & F). inversion F as [|x' y' e1' r' P Q]; subst. cbn [app] in E. inversion E; subst. congruence.
        -- intros (a1 & z & a2 & E & F). inversion F as [|x' y' e1' r' P Q]; subst. cbn [app] in E. inversion E; subst. congruence.
Qed.
