(** Proofs about the comparison of primitive types: all by cases on the types and flags. *)
From Coq Require Import ZArith Bool Lia List.
Import ListNotations.
From Verif Require Import Prim_model Prim_spec.
Local Open Scope Z_scope.

Ltac crunch :=
  cbv [closeEnough closeEnoughDeep closeEnoughAux close_right close_ordinary last_part plain plain_int plain_lint
       plain_llint relaxed ignorequals_match unsign isNumeric isInt isAnyReal isAnyUnsignedInt isAnyInt
       isAnyChar isUnsignedChar peq ctx turn_on Z.eqb Z.leb Z.compare Pos.eqb Pos.compare Pos.compare_cont
       relaxtypes ignorequals ignoresigns relaxquals floatdouble matchanyintegral charint shortint longint
       longintegral longunsignedintegral longunsignedunsignedintegral longsignedintegral
       andb orb negb].
Ltac bools :=
  repeat match goal with |- context [if ?b then _ else _] => is_var b; destruct b end.
Ltac solve_bools := crunch; bools; try reflexivity; try discriminate; auto.
Ltac flags f := destruct f as [rt iq is rq fd ma ci si li lg lu luu ls].

Lemma mono_charint c1 c2 : never_adds_errors CharInt c1 c2.
Proof. intros f deep; flags f; destruct c1, c2; solve_bools. Qed.

Lemma mono_relaxtypes c1 c2 : never_adds_errors RelaxTypes c1 c2.
Proof. intros f deep; flags f; destruct c1, c2; solve_bools. Qed.
Lemma mono_floatdouble c1 c2 : never_adds_errors FloatDouble c1 c2.
Proof. intros f deep; flags f; destruct c1, c2; solve_bools. Qed.
Lemma mono_shortint c1 c2 : never_adds_errors ShortInt c1 c2.
Proof. intros f deep; flags f; destruct c1, c2; solve_bools. Qed.
Lemma mono_longint c1 c2 : never_adds_errors LongInt c1 c2.
Proof. intros f deep; flags f; destruct c1, c2; solve_bools. Qed.
Lemma mono_longunsignedintegral c1 c2 : never_adds_errors LongUnsignedIntegral c1 c2.
Proof. intros f deep; flags f; destruct c1, c2; solve_bools. Qed.
Lemma mono_longunsignedunsignedintegral c1 c2 : never_adds_errors LongUnsignedUnsignedIntegral c1 c2.
Proof. intros f deep; flags f; destruct c1, c2; solve_bools. Qed.
Lemma mono_longsignedintegral c1 c2 : never_adds_errors LongSignedIntegral c1 c2.
Proof. intros f deep; flags f; destruct c1, c2; solve_bools. Qed.

Ltac exclude H := exfalso; apply H; unfold arbitrary; auto.

Lemma mono_ignorequals c1 c2 : ordinary c1 -> never_adds_errors IgnoreQuals c1 c2.
Proof.
  intros O f deep; flags f; destruct c1; try solve [exclude O]; clear O; destruct c2; solve_bools.
Qed.

Lemma mono_ignoresigns c1 c2 : c1 <> P_UNSIGNEDINTEGRAL -> never_adds_errors IgnoreSigns c1 c2.
Proof.
  intros O f deep; flags f; destruct c1; try solve [exfalso; apply O; reflexivity]; clear O;
  destruct c2; solve_bools.
Qed.

Lemma mono_matchanyintegral c1 c2 :
  ~ (arbitrary c1 /\ floating c2) -> ~ (floating c1 /\ arbitrary c2) ->
  never_adds_errors MatchAnyIntegral c1 c2.
Proof.
  intros A B f deep; flags f; destruct c1, c2;
  try solve [exfalso; apply A; unfold arbitrary, floating; auto];
  try solve [exfalso; apply B; unfold arbitrary, floating; auto]; clear A B; solve_bools.
Qed.

Lemma mono_relaxquals c1 c2 :
  ~ ((c1 = P_SINT \/ c1 = P_USINT) /\ (c2 = P_INT \/ c2 = P_UINT)) ->
  never_adds_errors RelaxQuals c1 c2.
Proof.
  intros A f deep; flags f; destruct c1, c2; try solve [exfalso; apply A; auto]; clear A; solve_bools.
Qed.

(** Which settings make relaxquals add an error. *)
Lemma relaxquals_adds f c1 c2 deep :
  (closeEnoughAux f c1 c2 deep = true /\ closeEnoughAux (turn_on RelaxQuals f) c1 c2 deep = false) <->
  (deep = false /\ relaxquals f = false /\ longint f = true /\ shortint f = false /\
   relaxtypes f = false /\ ignorequals f = false /\
   ((c1 = P_SINT /\ c2 = P_INT) \/
    (ignoresigns f = true /\ (c1 = P_SINT \/ c1 = P_USINT) /\ (c2 = P_INT \/ c2 = P_UINT)))).
Proof.
  split.
  - intros [A B]. revert A B. flags f.
    destruct c1, c2; crunch;
    bools; intros A B; try congruence; subst;
    repeat (split; [reflexivity|]); auto; right; repeat split; auto.
  - intros (-> & A). flags f. cbn [relaxquals longint shortint relaxtypes ignorequals ignoresigns] in A.
    destruct A as (-> & -> & -> & -> & -> & [[-> ->]|(-> & [->| ->] & [->| ->])]);
    try (destruct is); split; crunch; bools; reflexivity.
Qed.

(** Arbitrary integral types match only integers. *)

Lemma left_integral f c1 c2 deep : arbitrary c1 -> relaxtypes f = false ->
  closeEnoughAux f c1 c2 deep = true -> fits f c2.
Proof.
  intros A R. flags f. cbn [relaxtypes] in R. subst rt. unfold fits, character_type. cbn [charint].
  destruct A as [->|[->| ->]]; destruct c2; crunch; bools; intros E; try discriminate E;
  try solve [left; cbn; unfold arbitrary; auto]; right; auto.
Qed.

Lemma right_integral f c1 c2 deep : c2 = P_ANYINTEGRAL \/ c2 = P_UNSIGNEDINTEGRAL -> relaxtypes f = false ->
  closeEnoughAux f c1 c2 deep = true -> fits f c1.
Proof.
  intros A R. flags f. cbn [relaxtypes] in R. subst rt. unfold fits, character_type. cbn [charint].
  destruct A as [->| ->]; destruct c1; crunch; bools; intros E; try discriminate E;
  try solve [left; cbn; unfold arbitrary; auto]; right; auto.
Qed.

Lemma right_signed f c1 deep : relaxtypes f = false -> matchanyintegral f = false ->
  closeEnoughAux f c1 P_SIGNEDINTEGRAL deep = true -> fits f c1.
Proof.
  intros R M. flags f. cbn [relaxtypes matchanyintegral] in R, M. subst rt ma.
  unfold fits, character_type. cbn [charint].
  destruct c1; crunch; bools; intros E; try discriminate E;
  try solve [left; cbn; unfold arbitrary; auto]; right; auto.
Qed.

Lemma right_signed_any f c1 deep : matchanyintegral f = true ->
  closeEnoughAux f c1 P_SIGNEDINTEGRAL deep = true.
Proof. intros M. flags f. cbn [matchanyintegral] in M. subst ma. destruct c1; solve_bools. Qed.

(** relaxquals. *)
Lemma relaxquals_widening f c1 c2 : no_equivalences f -> ordinary c1 -> ordinary c2 ->
  (closeEnough (turn_on RelaxQuals f) c1 c2 = true <-> widening c1 c2).
Proof.
  intros (R1 & R2 & R3 & R4 & R5 & R6 & R7) O1 O2. flags f.
  cbn [relaxtypes ignorequals ignoresigns floatdouble charint shortint longint] in *. subst.
  destruct c1; try solve [exclude O1]; destruct c2; try solve [exclude O2]; clear O1 O2; crunch;
  (split; [intros H; try discriminate H; try (left; reflexivity);
           right; do 3 eexists; repeat split; lia
          |intros [E|(k & n1 & n2 & E1 & E2 & L)]; [try discriminate E; reflexivity|];
           cbn in E1, E2; try discriminate; injection E1; injection E2; intros; subst;
           try discriminate; try reflexivity; exfalso; lia]).
Qed.

Lemma no_flags_equal f c1 c2 deep : no_equivalences f -> relaxquals f = false \/ deep = true ->
  ordinary c1 -> ordinary c2 -> closeEnoughAux f c1 c2 deep = true -> c1 = c2.
Proof.
  intros (R1 & R2 & R3 & R4 & R5 & R6 & R7) D O1 O2. flags f.
  cbn [relaxtypes ignorequals ignoresigns floatdouble charint shortint longint relaxquals] in *. subst.
  destruct c1; try solve [exclude O1]; destruct c2; try solve [exclude O2]; clear O1 O2;
  try reflexivity; destruct D as [->| ->]; crunch; bools; discriminate.
Qed.

Lemma widening_values i c1 c2 v : conforming i -> widening c1 c2 -> has_value i c2 v -> has_value i c1 v.
Proof.
  intros (A & B & C & D & E & F) [->|(k & n1 & n2 & R1 & R2 & L)] H; [exact H|].
  assert (forall a b, 1 <= a -> a <= b -> 2 ^ (a - 1) <= 2 ^ (b - 1)) as PS by
    (intros; apply Z.pow_le_mono_r; lia).
  assert (forall a b, 1 <= a -> a <= b -> 2 ^ a <= 2 ^ b) as PU by
    (intros; apply Z.pow_le_mono_r; lia).
  pose proof (PS (w_short i) (w_int i)). pose proof (PS (w_int i) (w_long i)).
  pose proof (PS (w_long i) (w_llong i)).
  pose proof (PU (w_short i) (w_int i)). pose proof (PU (w_int i) (w_long i)).
  pose proof (PU (w_long i) (w_llong i)).
  destruct c1; try discriminate R1; injection R1; intros; subst;
  destruct c2; try discriminate R2; injection R2; intros; subst; try (exfalso; lia);
  destruct v as [z|m e]; cbn [has_value] in *; unfold signed_range, unsigned_range in *;
  try contradiction; try lia; auto.
Qed.

(** The equivalence flags. *)
Lemma charint_equiv f deep : charint f = true ->
  closeEnoughAux f P_CHAR P_INT deep = true /\ closeEnoughAux f P_INT P_CHAR deep = true.
Proof. intros M. flags f. cbn [charint] in M. subst. split; solve_bools. Qed.
Lemma shortint_equiv f deep : shortint f = true ->
  closeEnoughAux f P_SINT P_INT deep = true /\ closeEnoughAux f P_INT P_SINT deep = true.
Proof. intros M. flags f. cbn [shortint] in M. subst. split; solve_bools. Qed.
Lemma floatdouble_equiv f deep : floatdouble f = true ->
  closeEnoughAux f P_FLOAT P_DOUBLE deep = true /\ closeEnoughAux f P_DOUBLE P_FLOAT deep = true.
Proof. intros M. flags f. cbn [floatdouble] in M. subst. split; solve_bools. Qed.
Lemma longint_one_way f deep : longint f = true -> closeEnoughAux f P_LINT P_INT deep = true.
Proof. intros M. flags f. cbn [longint] in M. subst. solve_bools. Qed.
Lemma longint_other_way f : longint f = true ->
  (closeEnough f P_INT P_LINT = true <->
   relaxquals f = true \/ ignorequals f = true \/ relaxtypes f = true).
Proof.
  intros M. flags f. cbn [longint relaxquals ignorequals relaxtypes] in *. subst. crunch.
  destruct rt, iq, is, rq, fd; vm_compute; intuition congruence.
Qed.
Lemma ignoresigns_equiv f deep a b : ignoresigns f = true ->
  In (a, b) [(P_CHAR, P_UCHAR); (P_SINT, P_USINT); (P_INT, P_UINT); (P_LINT, P_ULINT); (P_LLINT, P_ULLINT)] ->
  closeEnoughAux f a b deep = true /\ closeEnoughAux f b a deep = true.
Proof.
  intros M H. flags f. cbn [ignoresigns] in M. subst. cbn [In] in H.
  repeat (destruct H as [H|H]; [injection H; intros; subst; split; solve_bools|]). contradiction.
Qed.
Lemma ordinary_close f a b deep : ordinary a -> ordinary b ->
  closeEnoughAux f a b deep = close_ordinary f a b deep.
Proof.
  intros Oa Ob. destruct a; try solve [exclude Oa]; destruct b; try solve [exclude Ob]; reflexivity.
Qed.
Lemma numeric f a : integer_type a \/ floating a \/ (charint f = true /\ character_type a) ->
  isNumeric f a = true.
Proof.
  unfold floating, character_type, isNumeric, isInt.
  destruct a; cbn; try reflexivity; unfold arbitrary; try solve [intuition discriminate];
  intuition (try discriminate); assumption.
Qed.
Lemma relaxtypes_all f deep a b : relaxtypes f = true -> ordinary a -> ordinary b ->
  integer_type a \/ floating a \/ (charint f = true /\ character_type a) ->
  integer_type b \/ floating b \/ (charint f = true /\ character_type b) ->
  closeEnoughAux f a b deep = true.
Proof.
  intros M Oa Ob A B. rewrite ordinary_close by assumption. unfold close_ordinary.
  rewrite M, (numeric f a A), (numeric f b B). destruct (peq a b); reflexivity.
Qed.

(** Deep comparisons. *)
Lemma deep_no_relaxquals f c1 c2 : ordinary c1 -> ordinary c2 ->
  closeEnoughDeep (turn_on RelaxQuals f) c1 c2 = closeEnoughDeep f c1 c2.
Proof.
  intros O1 O2. flags f.
  destruct c1; try solve [exclude O1]; destruct c2; try solve [exclude O2]; clear O1 O2; reflexivity.
Qed.
Lemma close_refl f c deep : closeEnoughAux f c c deep = true.
Proof. flags f; destruct c; reflexivity. Qed.
