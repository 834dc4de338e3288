(** * The values of introspection by the names of their fields; the places of the built-in directives *)
From Coq Require Import String Arith NArith ZArith Bool List Lia.
From Verif Require Import Base JsonModel NameModel RegModel Schema ResModel EnvModel GoTypes ParseModel SampleProg SampleIntro IntroModel PropReg.
Import ListNotations.
Open Scope nat_scope.

(** ** C49: what the fields of the described types, fields, arguments, enum values and directives are *)
(** the field [f] that a struct type of grahql_types.go declares has the value [w] in [v] *)
Definition holds (t : gtype) (v : gval) (f : string) (w : gval) : Prop :=
  exists i anon exported tag ft l, nth_error (t_fields yarql_decls t) i = Some (GField (bs f) anon exported tag ft) /\ v = GStruct l /\ nth_error l i = Some (true, w).
Definition text (s : option bytes) : gval := GPtr (option_map GString s).
Ltac at_field i := exists i; do 5 eexists; split; [cbn; reflexivity|split; [reflexivity|reflexivity]].
(** Nothing is ever deprecated, an argument never has a default value. *)
Theorem C49_enum_value : forall n,
  holds y_enumvalue (g_enumvalue n) "Name" (GString n) /\ holds y_enumvalue (g_enumvalue n) "Description" (text (Some [])) /\
  holds y_enumvalue (g_enumvalue n) "IsDeprecated" (GBool false) /\ holds y_enumvalue (g_enumvalue n) "DeprecationReason" (text None).
Proof. intro n. split; [at_field 0|]. split; [at_field 1|]. split; [at_field 2|at_field 3]. Qed.
Print Assumptions C49_enum_value.
Theorem C49_field : forall f,
  holds y_field (g_field f) "Name" (GString (qf_name f)) /\ holds y_field (g_field f) "Description" (text None) /\
  holds y_field (g_field f) "Args" (GSlice (Some (map g_input (qf_args f)))) /\ holds y_field (g_field f) "Type" (g_type (qf_type f)) /\
  holds y_field (g_field f) "IsDeprecated" (GBool false) /\ holds y_field (g_field f) "DeprecationReason" (text None).
Proof. intro f. split; [at_field 0|]. split; [at_field 1|]. split; [at_field 2|]. split; [at_field 3|]. split; [at_field 4|at_field 5]. Qed.
Print Assumptions C49_field.
Theorem C49_argument : forall a,
  holds y_input (g_input a) "Name" (GString (qi_name a)) /\ holds y_input (g_input a) "Description" (text (Some [])) /\
  holds y_input (g_input a) "Type" (g_type (qi_type a)) /\ holds y_input (g_input a) "DefaultValue" (text None).
Proof. intro n. split; [at_field 0|]. split; [at_field 1|]. split; [at_field 2|at_field 3]. Qed.
Print Assumptions C49_argument.
Theorem C49_type : forall k n d fs is ps es ins o u (v := g_type (Qlt k n d fs is ps es ins o u)),
  (exists c, holds y_type v "Kind" (GUint W8 c) /\
     nth_error ["SCALAR"; "OBJECT"; "INTERFACE"; "UNION"; "ENUM"; "INPUT_OBJECT"; "LIST"; "NON_NULL"]%string (N.to_nat c) =
     Some match k with TkScalar => "SCALAR" | TkObject => "OBJECT" | TkInterface => "INTERFACE" | TkUnion => "UNION" | TkEnum => "ENUM" | TkInput => "INPUT_OBJECT" | TkList => "LIST" | TkNonNull => "NON_NULL" end%string) /\
  holds y_type v "Name" (text n) /\ holds y_type v "Description" (text d) /\ holds y_type v "Fields" (g_fun fs) /\
  holds y_type v "Interfaces" (GSlice (option_map (map g_type) is)) /\ holds y_type v "PossibleTypes" (g_fun ps) /\ holds y_type v "EnumValues" (g_fun es) /\
  holds y_type v "InputFields" (g_fun ins) /\ holds y_type v "OfType" (GPtr (option_map g_type o)) /\ holds y_type v "SpecifiedByURL" (text u).
Proof.
  intros. split; [exists (tkind_code k); split; [at_field 0|destruct k; reflexivity]|].
  split; [at_field 1|]. split; [at_field 2|]. split; [at_field 3|]. split; [at_field 4|]. split; [at_field 5|]. split; [at_field 6|]. split; [at_field 7|]. split; [at_field 8|at_field 9].
Qed.
Print Assumptions C49_type.
Theorem C49_directive : forall d,
  holds y_dir (g_dir d) "Name" (GString (qd_name d)) /\ holds y_dir (g_dir d) "Description" (text (qd_descr d)) /\
  holds y_dir (g_dir d) "Locations" (GSlice (Some (map (GUint W8) (qd_locs d)))) /\ holds y_dir (g_dir d) "Args" (GSlice (Some (map g_input (qd_args d)))).
Proof. intro n. split; [at_field 0|]. split; [at_field 1|]. split; [at_field 2|at_field 4]. Qed.
Print Assumptions C49_directive.

(** ** C43: the built-in directives are available at the locations that they have, which are all *)
Theorem C43_builtin_places : forall d loc,
  available new_directives loc d <-> (d = skip_directive \/ d = include_directive) /\ In loc [0; 1; 2]%N /\ exists l, dr_where d = Some l /\ In loc l.
Proof.
  assert (E : forall loc, dirs_at new_directives loc = if (existsb (N.eqb loc) [0; 1; 2])%N then [skip_directive; include_directive] else []).
  { intro loc. unfold new_directives. cbn [dirs_at existsb]. rewrite (N.eqb_sym loc 0), (N.eqb_sym loc 1), (N.eqb_sym loc 2). destruct (0 =? loc)%N, (1 =? loc)%N, (2 =? loc)%N; reflexivity. }
  intros d loc. unfold available. rewrite E. destruct (existsb (N.eqb loc) [0; 1; 2]%N) eqn:B; split.
  - apply existsb_exists in B. destruct B as (x & I & Q). apply N.eqb_eq in Q. subst x. intros [<-|[<-|[]]]; (split; [auto|split; [exact I|eexists; split; [reflexivity|exact I]]]).
  - intros [[-> | ->] _]; cbn; auto.
  - intros [].
  - intros (_ & I & _). exfalso. assert (X : existsb (N.eqb loc) [0; 1; 2]%N = true) by (apply existsb_exists; exists loc; split; [exact I|apply N.eqb_refl]). congruence.
Qed.
Print Assumptions C43_builtin_places.
Example C43_builtin_case : available new_directives 2%N include_directive /\ ~ available new_directives 3%N include_directive.
Proof. split; [vm_compute; auto|vm_compute; tauto]. Qed.
Example C49_members_case : holds y_enumvalue (g_enumvalue (bs "RED")) "Name" (GString (bs "RED")) /\ ~ holds y_enumvalue (g_enumvalue (bs "RED")) "IsDeprecated" (GBool true).
Proof.
  split; [at_field 0|]. intros (i & a & e & t & ft & l & F & V & W). injection V as <-. do 4 (destruct i as [|i]; [try discriminate F; try discriminate W|]). destruct i; discriminate.
Qed.
