(** C34, C35, C50-C54: comparison of primitive types (src/cprim.c [cprim_closeEnough]). *)
From Coq Require Import ZArith Bool List Lia.
Import ListNotations.
From Verif Require Import Prim_model Prim_spec Prim_proofs.
Local Open Scope Z_scope.

(** C34. Part: relaxtypes, floatdouble, charint, shortint and longint (and three of the flags for
    arbitrary integral types) never add an error, for all pairs of types.  Missing: ignorequals,
    ignoresigns, relaxquals, matchanyintegral, for which it is false, see below. *)
Theorem C34_relaxing_flags_partial : forall n c1 c2,
  In n [RelaxTypes; FloatDouble; CharInt; ShortInt; LongInt; LongUnsignedIntegral;
        LongUnsignedUnsignedIntegral; LongSignedIntegral] ->
  never_adds_errors n c1 c2.
Proof.
  intros n c1 c2 H. cbn [In] in H.
  repeat (destruct H as [<-|H]); try contradiction.
  - exact (mono_relaxtypes c1 c2).
  - exact (mono_floatdouble c1 c2).
  - exact (mono_charint c1 c2).
  - exact (mono_shortint c1 c2).
  - exact (mono_longint c1 c2).
  - exact (mono_longunsignedintegral c1 c2).
  - exact (mono_longunsignedunsignedintegral c1 c2).
  - exact (mono_longsignedintegral c1 c2).
Qed.
Print Assumptions C34_relaxing_flags_partial.
Example C34_relaxing_flags_ex :
  closeEnough no_flags P_INT P_CHAR = false /\ closeEnough (turn_on CharInt no_flags) P_INT P_CHAR = true /\
  closeEnough (turn_on RelaxTypes (turn_on CharInt no_flags)) P_INT P_CHAR = true.
Proof. vm_compute. auto. Qed.

(** C34. relaxquals adds an error in exactly one situation, for all types and settings: a short is
    expected, an int is given, longint is on and shortint off. *)
Theorem C34_relaxquals_exactly_partial : forall f c1 c2 deep,
  (closeEnoughAux f c1 c2 deep = true /\ closeEnoughAux (turn_on RelaxQuals f) c1 c2 deep = false) <->
  (deep = false /\ relaxquals f = false /\ longint f = true /\ shortint f = false /\
   relaxtypes f = false /\ ignorequals f = false /\
   ((c1 = P_SINT /\ c2 = P_INT) \/
    (ignoresigns f = true /\ (c1 = P_SINT \/ c1 = P_USINT) /\ (c2 = P_INT \/ c2 = P_UINT)))).
Proof. exact relaxquals_adds. Qed.
Print Assumptions C34_relaxquals_exactly_partial.

(** C34 is false: +longint accepts an int for a short, +longint +relaxquals does not. *)
Theorem C34_relaxquals_refuted : exists f c1 c2,
  closeEnough f c1 c2 = true /\ closeEnough (turn_on RelaxQuals f) c1 c2 = false.
Proof. exists (turn_on LongInt no_flags), P_SINT, P_INT. vm_compute. auto. Qed.
Print Assumptions C34_relaxquals_refuted.

(** C34 is false: with ignorequals an int is accepted for an arbitrary unsigned integral type
    (size_t), with ignoresigns as well it is not: the test of ignoresigns is the wrong way round. *)
Theorem C34_ignoresigns_refuted : exists f c1 c2,
  closeEnough f c1 c2 = true /\ closeEnough (turn_on IgnoreSigns f) c1 c2 = false.
Proof. exists (turn_on IgnoreQuals no_flags), P_UNSIGNEDINTEGRAL, P_INT. vm_compute. auto. Qed.
Print Assumptions C34_ignoresigns_refuted.

(** C34 is false: for the same reason ignorequals adds an error for size_t := long. *)
Theorem C34_ignorequals_refuted : exists f c1 c2,
  closeEnough f c1 c2 = true /\ closeEnough (turn_on IgnoreQuals f) c1 c2 = false.
Proof.
  exists (turn_on IgnoreSigns (turn_on LongUnsignedUnsignedIntegral no_flags)), P_UNSIGNEDINTEGRAL, P_LINT.
  vm_compute. auto.
Qed.
Print Assumptions C34_ignorequals_refuted.

(** C34 is false: relaxtypes with longsignedintegral accept a float for an arbitrary signed
    integral type, matchanyintegral as well does not. *)
Theorem C34_matchanyintegral_refuted : exists f c1 c2,
  closeEnough f c1 c2 = true /\ closeEnough (turn_on MatchAnyIntegral f) c1 c2 = false.
Proof.
  exists (turn_on RelaxTypes (turn_on LongSignedIntegral no_flags)), P_SIGNEDINTEGRAL, P_FLOAT.
  vm_compute. auto.
Qed.
Print Assumptions C34_matchanyintegral_refuted.

(** A flag outside C34's list: longintegral overrides longunsignedintegral. *)
Theorem C34_longintegral_refuted : exists f c1 c2,
  closeEnough f c1 c2 = true /\ closeEnough (turn_on LongIntegral f) c1 c2 = false.
Proof.
  exists (turn_on LongUnsignedIntegral no_flags), P_ANYINTEGRAL, P_ULINT. vm_compute. auto.
Qed.
Print Assumptions C34_longintegral_refuted.

(** C50. Between ordinary types none of the relaxing flags but relaxquals ever adds an error, and
    relaxquals does not either unless a short is expected and an int is given. *)
Theorem C50_ordinary_types : forall n c1 c2,
  In n [RelaxTypes; IgnoreQuals; IgnoreSigns; FloatDouble; MatchAnyIntegral; CharInt; ShortInt; LongInt;
        RelaxQuals] ->
  ordinary c1 -> ordinary c2 ->
  ~ (n = RelaxQuals /\ (c1 = P_SINT \/ c1 = P_USINT) /\ (c2 = P_INT \/ c2 = P_UINT)) ->
  never_adds_errors n c1 c2.
Proof.
  intros n c1 c2 H O1 O2 R. cbn [In] in H.
  repeat (destruct H as [<-|H]); try contradiction.
  - exact (mono_relaxtypes c1 c2).
  - exact (mono_ignorequals c1 c2 O1).
  - apply mono_ignoresigns. intros ->. apply O1. unfold arbitrary; auto.
  - exact (mono_floatdouble c1 c2).
  - apply mono_matchanyintegral; unfold ordinary in *; tauto.
  - exact (mono_charint c1 c2).
  - exact (mono_shortint c1 c2).
  - exact (mono_longint c1 c2).
  - apply mono_relaxquals. tauto.
Qed.
Print Assumptions C50_ordinary_types.
Example C50_ordinary_types_ex :
  ordinary P_LINT /\ ordinary P_USINT /\
  closeEnough no_flags P_LINT P_USINT = false /\
  closeEnough (turn_on IgnoreSigns (turn_on RelaxQuals no_flags)) P_LINT P_USINT = true /\
  closeEnough (turn_on IgnoreQuals (turn_on IgnoreSigns (turn_on RelaxQuals no_flags))) P_LINT P_USINT = true.
Proof. unfold ordinary, arbitrary. repeat split; try (intros [E|[E|E]]; discriminate); reflexivity. Qed.

(** C50. Every type matches itself and, with none of the flags on, no other ordinary type. *)
Theorem C50_no_flags : forall f c1 c2 deep, no_equivalences f -> relaxquals f = false \/ deep = true ->
  ordinary c1 -> ordinary c2 -> (closeEnoughAux f c1 c2 deep = true <-> c1 = c2).
Proof.
  intros f c1 c2 deep N D O1 O2. split.
  - exact (no_flags_equal f c1 c2 deep N D O1 O2).
  - intros ->. exact (close_refl f c2 deep).
Qed.
Print Assumptions C50_no_flags.

(** C51. Without relaxtypes, where an arbitrary integral type is expected only integers (and,
    with charint, characters) are accepted. *)
Theorem C51_expected : forall f c1 c2 deep, arbitrary c1 -> relaxtypes f = false ->
  closeEnoughAux f c1 c2 deep = true -> fits f c2.
Proof. exact left_integral. Qed.
Print Assumptions C51_expected.
Example C51_expected_ex :
  closeEnough (turn_on MatchAnyIntegral no_flags) P_ANYINTEGRAL P_USINT = true /\
  closeEnough (turn_on MatchAnyIntegral no_flags) P_ANYINTEGRAL P_CHAR = false.
Proof. vm_compute. auto. Qed.

(** C35. Part: a value of an arbitrary integral type is accepted only for those (C51 is the other
    direction), if it is not of the arbitrary signed type with matchanyintegral on. *)
Theorem C35_given_partial : forall f c1 c2 deep, arbitrary c2 -> relaxtypes f = false ->
  ~ (c2 = P_SIGNEDINTEGRAL /\ matchanyintegral f = true) ->
  closeEnoughAux f c1 c2 deep = true -> fits f c1.
Proof.
  intros f c1 c2 deep A R N H. destruct A as [E|[E|E]].
  - exact (right_integral f c1 c2 deep (or_introl E) R H).
  - exact (right_integral f c1 c2 deep (or_intror E) R H).
  - subst c2. apply (right_signed f c1 deep R); [|exact H].
    destruct (matchanyintegral f); [exfalso; auto|reflexivity].
Qed.
Print Assumptions C35_given_partial.

(** C35 is false: with matchanyintegral a value of the arbitrary signed integral type (ssize_t) is
    accepted wherever any primitive type is expected (the code tests the wrong type). *)
Theorem C35_signed_refuted : exists f c1,
  relaxtypes f = false /\ closeEnough f c1 P_SIGNEDINTEGRAL = true /\ ~ fits f c1.
Proof.
  exists (turn_on MatchAnyIntegral no_flags), P_DOUBLE.
  repeat split; try reflexivity. intros [[E|[E|E]]|[E _]]; discriminate.
Qed.
Print Assumptions C35_signed_refuted.
Theorem C35_signed_matches_everything : forall f c1 deep, matchanyintegral f = true ->
  closeEnoughAux f c1 P_SIGNEDINTEGRAL deep = true.
Proof. exact right_signed_any. Qed.
Print Assumptions C35_signed_matches_everything.

(** The precondition on relaxtypes is needed in C35 and C51. *)
Theorem C35_relaxtypes_refuted : exists f c2,
  closeEnough f P_ANYINTEGRAL c2 = true /\ ~ fits f c2.
Proof.
  exists (turn_on RelaxTypes (turn_on LongIntegral no_flags)), P_DOUBLE.
  split; [reflexivity|]. intros [[E|[E|E]]|[E _]]; discriminate.
Qed.
Print Assumptions C35_relaxtypes_refuted.

(** C52. With relaxquals and no other equivalence, exactly the widening conversions within the
    signed integers, the unsigned integers and the reals are accepted … *)
Theorem C52_relaxquals_widening : forall f c1 c2, no_equivalences f -> ordinary c1 -> ordinary c2 ->
  (closeEnough (turn_on RelaxQuals f) c1 c2 = true <-> widening c1 c2).
Proof. exact relaxquals_widening. Qed.
Print Assumptions C52_relaxquals_widening.
(** … so no accepted assignment changes a value, in any implementation of C. *)
Theorem C52_relaxquals_safe : forall i f c1 c2 v, conforming i ->
  no_equivalences f -> ordinary c1 -> ordinary c2 ->
  closeEnough f c1 c2 = true -> has_value i c2 v -> has_value i c1 v.
Proof.
  intros i f c1 c2 v C N O1 O2 H V.
  apply (widening_values i c1 c2 v C); [|exact V].
  apply (relaxquals_widening f c1 c2 N O1 O2). apply mono_relaxquals; [|exact H].
  intros [[->| ->] [->| ->]]; destruct N as (A & B & D & E & F & G & K); flags f; cbn in A, B, D, E, F, G, K;
  subst; revert H; crunch; bools; discriminate.
Qed.
Print Assumptions C52_relaxquals_safe.
Example C52_relaxquals_ex :
  closeEnough (turn_on RelaxQuals no_flags) P_LINT P_SINT = true /\
  closeEnough (turn_on RelaxQuals no_flags) P_SINT P_LINT = false /\
  conforming (Impl 16 32 64 64 (fun m e => m = 1 /\ e = 0) (fun m e => 0 <= m <= 1 /\ e = 0) (fun m e => e = 0)) /\
  has_value (Impl 16 32 64 64 (fun _ _ => False) (fun _ _ => False) (fun _ _ => False)) P_SINT (IntV (-32768)).
Proof.
  split; [reflexivity|]. split; [reflexivity|]. split; [|vm_compute; split; [discriminate|reflexivity]].
  unfold conforming. cbn [w_short w_int w_long w_llong v_float v_double v_ldouble].
  repeat (split; [lia|]). intros m e H; lia.
Qed.

(** C53. Part: charint, shortint, floatdouble and ignoresigns make the types they name match in
    both directions, at all depths and whatever else is on; relaxtypes makes all numbers match.
    Missing: longint, for which it is false. *)
Theorem C53_equivalences_partial : forall f deep a b,
  (charint f = true /\ (a, b) = (P_CHAR, P_INT)) \/
  (shortint f = true /\ (a, b) = (P_SINT, P_INT)) \/
  (floatdouble f = true /\ (a, b) = (P_FLOAT, P_DOUBLE)) \/
  (ignoresigns f = true /\
   In (a, b) [(P_CHAR, P_UCHAR); (P_SINT, P_USINT); (P_INT, P_UINT); (P_LINT, P_ULINT); (P_LLINT, P_ULLINT)]) ->
  closeEnoughAux f a b deep = true /\ closeEnoughAux f b a deep = true.
Proof.
  intros f deep a b [[F E]|[[F E]|[[F E]|[F E]]]].
  - injection E; intros; subst. exact (charint_equiv f deep F).
  - injection E; intros; subst. exact (shortint_equiv f deep F).
  - injection E; intros; subst. exact (floatdouble_equiv f deep F).
  - exact (ignoresigns_equiv f deep a b F E).
Qed.
Print Assumptions C53_equivalences_partial.
Theorem C53_relaxtypes_partial : forall f deep a b, relaxtypes f = true -> ordinary a -> ordinary b ->
  integer_type a \/ floating a \/ (charint f = true /\ character_type a) ->
  integer_type b \/ floating b \/ (charint f = true /\ character_type b) ->
  closeEnoughAux f a b deep = true.
Proof. exact relaxtypes_all. Qed.
Print Assumptions C53_relaxtypes_partial.
Example C53_ex : closeEnough (turn_on FloatDouble no_flags) P_FLOAT P_DOUBLE = true /\
  closeEnough no_flags P_FLOAT P_DOUBLE = false /\
  closeEnough (turn_on RelaxTypes no_flags) P_FLOAT P_ULLINT = true.
Proof. vm_compute. auto. Qed.

(** C53 is false for longint: a long is not accepted for an int (a misspelt CTX_LINT), unless
    another flag accepts it. *)
Theorem C53_longint_refuted : exists f, longint f = true /\ closeEnough f P_INT P_LINT = false.
Proof. exists (turn_on LongInt no_flags). vm_compute. auto. Qed.
Print Assumptions C53_longint_refuted.
Theorem C53_longint_exactly_partial : forall f, longint f = true ->
  closeEnough f P_LINT P_INT = true /\
  (closeEnough f P_INT P_LINT = true <-> relaxquals f = true \/ ignorequals f = true \/ relaxtypes f = true).
Proof. intros f L. split; [exact (longint_one_way f false L)|exact (longint_other_way f L)]. Qed.
Print Assumptions C53_longint_exactly_partial.

(** C54. For what pointers point to, relaxquals makes no difference between ordinary types: an
    [int *] is not accepted for a [long *]. *)
Theorem C54_deep : forall f c1 c2, ordinary c1 -> ordinary c2 ->
  closeEnoughDeep (turn_on RelaxQuals f) c1 c2 = closeEnoughDeep f c1 c2.
Proof. exact deep_no_relaxquals. Qed.
Print Assumptions C54_deep.
Example C54_deep_ex : closeEnoughDeep (turn_on RelaxQuals no_flags) P_LINT P_INT = false /\
  closeEnough (turn_on RelaxQuals no_flags) P_LINT P_INT = true.
Proof. vm_compute. auto. Qed.
(** The precondition is needed: the comparison with an arbitrary integral type forgets that it is
    deep, so with longintegral and relaxquals an [int *] is accepted for a pointer to dev_t, which
    stands for a long. *)
Theorem C54_arbitrary_refuted : exists f c1 c2,
  closeEnoughDeep f c1 c2 = false /\ closeEnoughDeep (turn_on RelaxQuals f) c1 c2 = true.
Proof. exists (turn_on LongIntegral no_flags), P_ANYINTEGRAL, P_INT. vm_compute. auto. Qed.
Print Assumptions C54_arbitrary_refuted.
