(** * Properties C07, C08, C09: #if expressions *)
From Coq Require Import ZArith List Bool Lia.
From Verif Require Import Cbase Cppexp_model Cppexp_spec Cppexp_proofs Cppexp_proofs2 Cppexp_proofs3.
Import ListNotations.
Local Open Scope Z_scope.

(** ** C07 *)

(** An expression of the supported class whose value C defines is evaluated without
    a complaint to that value (unsigned values as their 64 bits), so that the branch
    taken is the one C prescribes; without &&, || and ?: no undefined behaviour occurs
    on the way.
    Missing for the full C07: expressions outside [supported] and [branches_ok] and
    shift counts of 32 and more, see the refutations. *)
Theorem C07_value_partial : forall e x,
  c_tree e -> supported e -> consts_fit e -> branches_ok e ->
  ceval 64 e = CVal x -> ceval 32 e = ceval 64 e ->
  exists v d, parseExpression (print e) = RVal v d /\ v = wrap64 x /\ (v = 0 <-> x = 0) /\
    d_div d = false /\ d_ovf d = false /\ (eager e -> d_ub d = false).
Proof. exact if_value. Qed.
Print Assumptions C07_value_partial.

Definition sg (z : Z) : ex := ENum z false.
Definition us (z : Z) : ex := ENum z true.

(** [2 * -3] is rejected. *)
Theorem C07_unary_operand_refuted : exists e x,
  c_tree e /\ consts_fit e /\ ceval 64 e = CVal x /\ parseExpression (print e) = RSyntax.
Proof.
  exists (EBin BMul (sg 2) (EUn UNeg (sg 3))), (-6). simpl.
  repeat split; try lia; reflexivity.
Qed.
Print Assumptions C07_unary_operand_refuted.

(** [! -1] is rejected. *)
Theorem C07_unary_nested_refuted : exists e x,
  c_tree e /\ consts_fit e /\ ceval 64 e = CVal x /\ parseExpression (print e) = RSyntax.
Proof.
  exists (EUn UNot (EUn UNeg (sg 1))), 0. simpl. repeat split; try lia; reflexivity.
Qed.
Print Assumptions C07_unary_nested_refuted.

(** [-6u / 4] is computed as [-(6u / 4)]: wrong value. *)
Theorem C07_unary_grouping_refuted : exists e x v d,
  c_tree e /\ consts_fit e /\ ceval 64 e = CVal x /\
  parseExpression (print e) = RVal v d /\ uwrap64 v <> uwrap64 x.
Proof.
  exists (EBin BDiv (EUn UNeg (us 6)) (sg 4)), 4611686018427387902, (-1), (Diag false false false).
  split; [simpl; repeat split; lia|]. split; [simpl; repeat split; lia|].
  split; [vm_compute; reflexivity|]. split; [vm_compute; reflexivity|]. vm_compute. discriminate.
Qed.
Print Assumptions C07_unary_grouping_refuted.

(** [1 << 32] is 0 and [1 << 32 == 0] true: the wrong branch is taken. *)
Theorem C07_shift_refuted : exists e v d,
  c_tree e /\ supported e /\ consts_fit e /\ branches_ok e /\ ceval 64 e = CVal 0 /\
  parseExpression (print e) = RVal v d /\ v <> 0.
Proof.
  exists (EBin BEq (EBin BShl (sg 1) (sg 32)) (sg 0)), 1, (Diag false true false).
  split; [simpl; repeat split; lia|]. split; [simpl; repeat split; try lia; discriminate|].
  split; [simpl; repeat split; lia|]. split; [simpl; auto|].
  split; [vm_compute; reflexivity|]. split; [vm_compute; reflexivity|]. discriminate.
Qed.
Print Assumptions C07_shift_refuted.

(** [1 ? 1 ? 2 : 3 : 4] is rejected. *)
Theorem C07_nested_conditional_refuted : exists e x,
  c_tree e /\ consts_fit e /\ ceval 64 e = CVal x /\ parseExpression (print e) = RSyntax.
Proof.
  exists (ECond (sg 1) (ECond (sg 1) (sg 2) (sg 3)) (sg 4)), 2. simpl.
  repeat split; try lia; reflexivity.
Qed.
Print Assumptions C07_nested_conditional_refuted.

(** [(0 ? 1 / 1u : 0) - 1 < 0]: the skipped division loses its unsignedness, the
    comparison is signed and true where C says false. *)
Theorem C07_skipped_type_refuted : exists e v d,
  c_tree e /\ supported e /\ consts_fit e /\ ceval 64 e = CVal 0 /\
  parseExpression (print e) = RVal v d /\ v <> 0.
Proof.
  exists (EBin BLt (EBin BSub (EPar (ECond (sg 0) (EBin BDiv (sg 1) (us 1)) (sg 0))) (sg 1)) (sg 0)),
    1, (Diag false false false).
  split; [simpl; repeat split; lia|]. split; [simpl; repeat split; try lia; auto; discriminate|].
  split; [simpl; repeat split; lia|].
  split; [vm_compute; reflexivity|]. split; [vm_compute; reflexivity|]. discriminate.
Qed.
Print Assumptions C07_skipped_type_refuted.

(** [0 && (9223372036854775807 + 1)]: the skipped addition is carried out, which is
    undefined behaviour in the evaluator. *)
Theorem C07_skipped_overflow_refuted : exists e d,
  c_tree e /\ supported e /\ consts_fit e /\ branches_ok e /\ ceval 64 e = CVal 0 /\
  parseExpression (print e) = RVal 0 d /\ d_ub d = true.
Proof.
  exists (EBin BLAnd (sg 0) (EPar (EBin BAdd (sg 9223372036854775807) (sg 1)))), (Diag false false true).
  split; [simpl; repeat split; lia|]. split; [simpl; repeat split; try lia; discriminate|].
  split; [simpl; repeat split; lia|]. split; [simpl; auto|].
  split; [vm_compute; reflexivity|]. split; vm_compute; reflexivity.
Qed.
Print Assumptions C07_skipped_overflow_refuted.

(** [~0u - (3 < 4 ? 2 : 1 / 0) >= 7 && 1 | 6 ^ 3] *)
Definition ex07 : ex :=
  EBin BLAnd
    (EBin BGe (EBin BSub (EUn UCompl (us 0))
                 (EPar (ECond (EBin BLt (sg 3) (sg 4)) (sg 2) (EBin BDiv (sg 1) (sg 0))))) (sg 7))
    (EBin BOr (sg 1) (EBin BXor (sg 6) (sg 3))).
Example C07_ex : c_tree ex07 /\ supported ex07 /\ consts_fit ex07 /\ branches_ok ex07 /\
  ceval 64 ex07 = CVal 1 /\ ceval 32 ex07 = ceval 64 ex07.
Proof.
  split; [simpl; repeat split; lia|]. split; [simpl; repeat split; try lia; auto; discriminate|].
  split; [simpl; repeat split; lia|]. split; [simpl; repeat split; auto|].
  split; vm_compute; reflexivity.
Qed.
Example C07_ex_eager : eager (EBin BAdd (sg 1) (EBin BMul (sg 2) (sg 3))) /\
  parseExpression (print (EBin BAdd (sg 1) (EBin BMul (sg 2) (sg 3))))
  = RVal 7 (Diag false false false).
Proof. split; [simpl; repeat split; discriminate|vm_compute; reflexivity]. Qed.

(** ** C08 *)

(** When C assigns a value, i.e. every division by zero sits in an operand left
    unevaluated, the directive is not aborted and nothing is reported; when evaluation
    meets a division by zero, it is reported.
    Missing for the full C08: the class restrictions of C07, see the refutation. *)
Theorem C08_division_by_zero_partial : forall e,
  c_tree e -> supported e -> consts_fit e -> branches_ok e ->
  (forall x, ceval 32 e = CVal x ->
     exists v d, parseExpression (print e) = RVal v d /\ d_div d = false) /\
  (ceval 32 e = CDiv0 ->
     exists v d, parseExpression (print e) = RVal v d /\ d_div d = true).
Proof.
  intros e Hc Hs Hf Hb. split.
  - intros x H. destruct (meval false e (Diag false false false)) as [[v u] d] eqn:E.
    exists v, d. split; [eapply parse_print; eauto|].
    destruct (proj1 (meval_ok e Hf Hb _ _ _ _ E) x H) as (_ & _ & _ & (D & _)). exact D.
  - exact (if_div0 e Hc Hs Hf Hb).
Qed.
Print Assumptions C08_division_by_zero_partial.

(** Whatever the surroundings, reading an operand in skip mode reports nothing
    (neither a division nor an overflow). *)
Theorem C08_skipped_operand_silent_partial : forall a b,
  c_tree (EBin BLAnd a b) -> supported (EBin BLAnd a b) -> consts_fit a -> branches_ok a ->
  ceval 32 a = CVal 0 ->
  exists d, parseExpression (print (EBin BLAnd a b)) = RVal 0 d /\
            d_div d = false /\ d_ovf d = false.
Proof.
  intros a b Hc Hs Hf Hb H.
  destruct (meval false (EBin BLAnd a b) (Diag false false false)) as [[v u] d] eqn:E.
  exists d. rewrite (parse_print _ _ _ _ Hc Hs E). simpl in E.
  destruct (meval false a (Diag false false false)) as [[x0 u1] d0] eqn:Ea.
  destruct (proj1 (meval_ok a Hf Hb _ _ _ _ Ea) 0 H) as (-> & -> & _ & (D1 & D2)).
  simpl in E. destruct (meval true b d0) as [[y u2] d1] eqn:Eb.
  apply meval_skip in Eb as [(D3 & D4) _]. simpl in E. inversion E; subst. simpl in *.
  split; [reflexivity|]. split; congruence.
Qed.
Print Assumptions C08_skipped_operand_silent_partial.

(** [(0 ? 1 / 1u : 0) - 1 < 0 && 1 / 0]: the right operand is unevaluated in C (0u - 1
    is not negative), yet a division by zero is reported. *)
Theorem C08_skipped_type_refuted : exists e x v d,
  c_tree e /\ supported e /\ consts_fit e /\ ceval 64 e = CVal x /\
  parseExpression (print e) = RVal v d /\ d_div d = true.
Proof.
  exists (EBin BLAnd
    (EBin BLt (EBin BSub (EPar (ECond (sg 0) (EBin BDiv (sg 1) (us 1)) (sg 0))) (sg 1)) (sg 0))
    (EBin BDiv (sg 1) (sg 0))), 0, 1, (Diag true false false).
  split; [simpl; repeat split; lia|]. split; [simpl; repeat split; try lia; auto; discriminate|].
  split; [simpl; repeat split; lia|].
  split; [vm_compute; reflexivity|]. split; vm_compute; reflexivity.
Qed.
Print Assumptions C08_skipped_type_refuted.

Example C08_ex_skipped :
  ceval 32 (EBin BLOr (sg 1) (EPar (EBin BLAnd (sg 1) (EBin BMod (sg 5) (sg 0))))) = CVal 1 /\
  parseExpression (print (EBin BLOr (sg 1) (EPar (EBin BLAnd (sg 1) (EBin BMod (sg 5) (sg 0))))))
  = RVal 1 (Diag false false false).
Proof. split; vm_compute; reflexivity. Qed.
Example C08_ex_evaluated :
  ceval 32 (ECond (sg 1) (EBin BDiv (sg 5) (sg 0)) (sg 2)) = CDiv0 /\
  parseExpression (print (ECond (sg 1) (EBin BDiv (sg 5) (sg 0)) (sg 2)))
  = RVal 5 (Diag true false false).
Proof. split; vm_compute; reflexivity. Qed.

(** ** C09 *)

(** Every integer constant (suffixes of C90) below 2^64 is read with its value (as 64
    bits), unsigned exactly when it has a u or does not fit a signed long, without
    errors; "out of range" is reported exactly from 2^64 on; signed overflow in the
    reader (undefined behaviour) occurs exactly from 2^63 on.
    Missing for the full C09: the undefined behaviour from 2^63 on and ll suffixes. *)
Theorem C09_value_partial : forall s v u, int_const s v u ->
  exists n un out ub, parseNumber s = NOk n un 0 false out ub /\
    (v < 18446744073709551616 -> uwrap64 n = v /\
       (un = true <-> u = true \/ 9223372036854775808 <= v)) /\
    (out = true <-> 18446744073709551616 <= v) /\
    (ub = true <-> 9223372036854775808 <= v).
Proof.
  intros s v u H. pose proof (parse_int_const s v u H) as E.
  assert (Hv : 0 <= v).
  { destruct H; eapply dd_nonneg; try eassumption; red; auto. }
  exists (wrap64 v), (u || (wrap64 v <? 0)), (18446744073709551616 <=? v), (9223372036854775808 <=? v).
  split; [exact E|]. split.
  - intros L. rewrite uw_wrap, uw_id by lia. split; [reflexivity|].
    rewrite orb_true_iff, Z.ltb_lt.
    destruct (Z.lt_ge_cases v 9223372036854775808).
    + rewrite wrap_id by lia. intuition lia.
    + replace v with (v - 18446744073709551616 + 1 * 18446744073709551616) at 1 by lia.
      rewrite wrap_k, wrap_id by lia. intuition lia.
  - rewrite !Z.leb_le. split; reflexivity.
Qed.
Print Assumptions C09_value_partial.

(** What is read without an error and without a complaint about the digits is an
    integer constant, or 0x with a suffix but no digits. *)
Theorem C09_rejects_partial : forall c s n u out ub, is_digit c = true ->
  parseNumber (c :: s) = NOk n u 0 false out ub ->
  (exists v u', int_const (c :: s) v u') \/
  (exists x suf u', c = "0"%char /\ s = x :: suf /\ In x ["x"; "X"]%char /\ c90_suffix suf u').
Proof. exact parse_conv. Qed.
Print Assumptions C09_rejects_partial.

(** [0xu] is accepted as 0 in silence. *)
Theorem C09_no_digits_refuted : exists s,
  parseNumber s = NOk 0 true 0 false false false /\ ~ (exists v u, int_const s v u).
Proof.
  exists (lit "0xu"). split; [vm_compute; reflexivity|].
  intros (v & u & H).
  remember (lit "0xu") as s eqn:E.
  destruct H as [c ds suf v u Hd N Hs|ds suf v u Hd Hs|x ds suf v u Hx N Hd Hs].
  - simpl in E. injection E as -> _. contradiction.
  - simpl in E. injection E as E. destruct ds as [|k ds].
    + simpl in E. subst suf. inversion Hs; subst; simpl in *; intuition discriminate.
    + simpl in E. injection E as -> E.
      pose proof (second_not_x 8 "0" ("x"%char :: ds) v suf u "x" (ds ++ suf) Hd Hs eq_refl) as K.
      discriminate K.
  - injection E as _ E. destruct ds as [|k [|k' ds]]; [contradiction| |].
    + simpl in E. injection E as -> _.
      apply digits_head in Hd. destruct Hd as (d & Hd). vm_compute in Hd. discriminate.
    + discriminate.
Qed.
Print Assumptions C09_no_digits_refuted.

(** The C99 constant [1ll] draws an error. *)
Theorem C09_long_long_refuted : exists e, (0 < e)%nat /\
  parseNumber (lit "1ll") = NOk 1 false e false false false.
Proof. exists 1%nat. split; [auto|vm_compute; reflexivity]. Qed.
Print Assumptions C09_long_long_refuted.

Example C09_ex : int_const (lit "0x1FuL") 31 true /\
  parseNumber (lit "0x1FuL") = NOk 31 true 0 false false false.
Proof.
  split; [|vm_compute; reflexivity].
  apply (ic_hex "x" (lit "1F") (lit "uL") 31 true).
  - simpl; auto.
  - discriminate.
  - apply (dd_snoc 16 (lit "1") "F" 1 15); [|reflexivity|lia].
    apply (dd_snoc 16 [] "1" 0 1); [constructor|reflexivity|lia].
  - apply cs_ul; simpl; auto.
Qed.
Example C09_ex_large : parseNumber (lit "18446744073709551615") = NOk (-1) true 0 false false true.
Proof. vm_compute. reflexivity. Qed.
