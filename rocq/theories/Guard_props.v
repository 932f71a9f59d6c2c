(** Properties of the conclusions splint draws from conditions. *)
From Verif Require Import Cbase Guard_model Guard_spec Guard_proofs.
From Coq Require Import Lia ZArith List Bool.
Import ListNotations.

(** ** C65: null tests combined with !, && and || guard what they should, on both branches. *)
Theorem C65_guards_sound : forall const bits rel dom e s v s' l,
  condition const dom e -> ev const bits rel s e v s' -> exact dom l ->
  (is_guarded (test_guards e) (ref_of l) = true -> v <> 0 -> value s' l <> 0) /\
  (must_be_null (test_guards e) (ref_of l) = true -> v = 0 -> value s' l <> 0).
Proof. exact guards_sound. Qed.
Print Assumptions C65_guards_sound.

Definition p := ERef Tptr (LVar 0).
Definition q := ERef Tptr (LVar 1).
Definition x := ERef Tint (LVar 2).
Definition NULL := ELit 0.
(** A store where the variable 2 is 1 and everything else null; one where p and q are set. *)
Definition s2 : store := fun l => match l with LoVar 2 => 1 | _ => 0 end.
Definition s3 : store := fun l => match l with LoVar _ => 1 | _ => 0 end.
Definition bor (k : nat) (a b : Z) : Z := Z.lor a b.
Definition lt (k : nat) (a b : Z) : bool := Z.ltb a b.
Definition c5 (c : nat) : Z := 5.

(** The hypotheses are met: [p != NULL && ((q = p) != NULL || x < 3)]. *)
Definition e65 : expr :=
  EAnd (ENe p NULL) (EParen (EOr (ENe (EParen (EAssign Tptr 1 p)) NULL) (EBin (Brel 0) x (ELit 3)))).
Example C65_example :
  condition c5 true e65 /\ ev c5 bor lt s3 e65 1 s3 /\ exact true (LVar 0) /\
  is_guarded (test_guards e65) (ref_of (LVar 0)) = true /\
  is_guarded (test_guards e65) (ref_of (LVar 1)) = false.
Proof.
  repeat split; try reflexivity.
  - apply C_and.
    + apply C_ne_null; cbn; auto.
    + apply C_paren, C_or; [apply C_ne_null; cbn; auto|apply C_rel; cbn; auto|left; reflexivity].
    + right. intros l [<-|[]]. cbn. split; auto. intros [H|[]]. discriminate.
  - apply (V_and_t c5 bor lt s3 (ENe p NULL) _ 1 s3 1 s3); [|discriminate|].
    + apply (V_ne c5 bor lt s3 p NULL 1 s3 0 s3); [apply (V_ref c5 bor lt s3)|constructor].
    + apply V_paren, V_or_t with (v := 1); [|discriminate].
      apply (V_ne c5 bor lt s3 _ NULL 1 s3 0 s3); [|constructor].
      apply V_paren, V_assign with (s1 := s3); [apply (V_ref c5 bor lt s3)|].
      split; auto.
Qed.

(** ** C66: the conclusions follow the laws of logic and do not depend on how a test is spelled. *)

(** A conjunction guards on its true branch exactly what one of its parts guards; on its false branch
    exactly what both guard there; and dually for a disjunction. *)
Theorem C66_conjunction : forall const dom a b,
  (forall r, is_guarded (test_guards (EAnd a b)) r =
             is_guarded (test_guards a) r || is_guarded (test_guards b) r) /\
  (forall r, must_be_null (test_guards (EOr a b)) r =
             must_be_null (test_guards a) r || must_be_null (test_guards b) r) /\
  (condition const dom a -> condition const dom b -> forall l, exact dom l ->
     must_be_null (test_guards (EAnd a b)) (ref_of l) =
       must_be_null (test_guards a) (ref_of l) && must_be_null (test_guards b) (ref_of l) /\
     is_guarded (test_guards (EOr a b)) (ref_of l) =
       is_guarded (test_guards a) (ref_of l) && is_guarded (test_guards b) (ref_of l)).
Proof.
  intros const dom a b. repeat split; intros.
  - apply guarded_and.
  - apply null_or.
  - eapply null_and; eassumption.
  - eapply guarded_or; eassumption.
Qed.
Print Assumptions C66_conjunction.

(** Double negation, parentheses, and De Morgan's laws. *)
Theorem C66_negation : forall a b,
  same_guards (ENot (ENot a)) a /\ same_guards (EParen a) a /\
  same_guards (ENot (EAnd a b)) (EOr (ENot a) (ENot b)) /\
  same_guards (ENot (EOr a b)) (EAnd (ENot a) (ENot b)) /\
  (forall r, is_guarded (test_guards (ENot a)) r = must_be_null (test_guards a) r /\
             must_be_null (test_guards (ENot a)) r = is_guarded (test_guards a) r).
Proof.
  intros a b. repeat split; intros;
    rewrite ?test_not, ?test_and, ?test_or, ?test_not, ?invert_and, ?invert_or, ?invert_invert;
    try reflexivity; now destruct (test_guards a) as [[? ?]|].
Qed.
Print Assumptions C66_negation.

(** [p], [p != NULL], [NULL != p], [!(p == NULL)], ... are the same test. *)
Theorem C66_spelling : forall l n, n = ELit 0 \/ (exists t c, n = EConst t c (Some 0)) ->
  let p := ERef Tptr l in
  same_guards (ENe p n) p /\ same_guards (ENe n p) p /\ same_guards (ENot (EEq p n)) p /\
  same_guards (ENot (EEq n p)) p /\ same_guards (EEq p n) (ENot p) /\ same_guards (EEq n p) (ENot p) /\
  is_guarded (test_guards p) (ref_of l) = true.
Proof.
  intros l n H. destruct (null_test_forms l n H) as (A & B & C & D & E & F).
  repeat split; try (apply same_eq; assumption); rewrite ?A, ?B, ?C, ?D, ?E, ?F; auto.
  cbn. unfold similar. rewrite sim_refl. reflexivity.
Qed.
Print Assumptions C66_spelling.

Example C66_example :
  is_guarded (test_guards (EAnd (ENe p NULL) q)) (RVar 1) = true /\
  is_guarded (test_guards (ENot (EOr (EEq p NULL) (ENot q)))) (RVar 0) = true /\
  is_guarded (test_guards (EOr p q)) (RVar 0) = false.
Proof. vm_compute. auto. Qed.

(** ** C67: the same for any condition of C.  False for several kinds of expression. *)

(** Arithmetic, relational operators and casts of numbers alone lead to no conclusion. *)
Theorem C67_values_partial : forall e r, val_expr e -> n_ty (build e) <> Tptr ->
  is_guarded (test_guards e) r = false /\ must_be_null (test_guards e) r = false.
Proof.
  intros e r V T. rewrite <- (for_same e T). unfold for_guards.
  rewrite (val_guards c5 e V) || rewrite (val_guards c5 bor lt e V). auto.
Qed.
Print Assumptions C67_values_partial.
Example C67_values_example : val_expr (EBin Badd x (ECast Tint p)) /\
  n_ty (build (EBin Badd x (ECast Tint p))) = Tint.
Proof. cbn. auto. Qed.

(** [l] is taken to be non-null where the condition [e] is true, but it is null. *)
Definition wrong (const : nat -> Z) (e : expr) (l : lval) : Prop :=
  exists s v s', ev const bor lt s e v s' /\ v <> 0 /\
    is_guarded (test_guards e) (ref_of l) = true /\ value s' l = 0.

(** (p != NULL) == 0 is taken like p != NULL: comparing a test with zero keeps the guards of the test,
    so p is taken to be non-null exactly where it is null. *)
Theorem C67_compared_refuted : exists e l, wrong c5 e l.
Proof.
  exists (EEq (EParen (ENe p NULL)) NULL), (LVar 0), s2, 1, s2.
  split; [|now vm_compute].
  apply (V_eq c5 bor lt s2 _ _ 0 s2 0 s2); [|constructor]. apply V_paren.
  apply (V_ne c5 bor lt s2 _ _ 0 s2 0 s2); [apply (V_ref c5 bor lt s2)|constructor].
Qed.
Print Assumptions C67_compared_refuted.

(** a[i] != NULL guards a[j] for any index which is not a number. *)
Theorem C67_index_refuted : exists e l, wrong c5 e l.
Proof.
  pose (s := fun l => match l with LoVar 2 => 1 | LoCell (LoVar 0) 1 => 7 | _ => 0 end).
  exists (ENe (ERef Tptr (LIdxV (LVar 0) 2)) NULL), (LIdxV (LVar 0) 3), s, 1, s.
  split; [|now vm_compute].
  apply (V_ne c5 bor lt s _ _ 7 s 0 s); [apply (V_ref c5 bor lt s)|constructor].
Qed.
Print Assumptions C67_index_refuted.

(** a[1] != NULL guards [*a]. *)
Theorem C67_element_refuted : exists e l, wrong c5 e l.
Proof.
  pose (s := fun l => match l with LoCell (LoVar 0) 1 => 7 | _ => 0 end).
  exists (ENe (ERef Tptr (LIdx (LVar 0) 1)) NULL), (LDeref (LVar 0)), s, 1, s.
  split; [|now vm_compute].
  apply (V_ne c5 bor lt s _ _ 7 s 0 s); [apply (V_ref c5 bor lt s)|constructor].
Qed.
Print Assumptions C67_element_refuted.

(** p != LIMIT guards p for a constant LIMIT of unknown value, which need not be null. *)
Theorem C67_constant_refuted : exists e l, wrong c5 e l.
Proof.
  exists (ENe p (EConst Tptr 0 None)), (LVar 0), s2, 1, s2.
  split; [|now vm_compute].
  apply (V_ne c5 bor lt s2 _ _ 0 s2 5 s2); [apply (V_ref c5 bor lt s2)|].
  apply (V_const c5 bor lt s2). discriminate.
Qed.
Print Assumptions C67_constant_refuted.

(** The comma expression [p != NULL, x] has the guards of its left operand, though its value is that of
    the right one. *)
Theorem C67_comma_refuted : exists e l, wrong c5 e l.
Proof.
  exists (EComma (ENe p NULL) x), (LVar 0), s2, 1, s2.
  split; [|now vm_compute].
  eapply (V_comma c5 bor lt s2); [|apply (V_ref c5 bor lt s2)].
  apply (V_ne c5 bor lt s2 _ _ 0 s2 0 s2); [apply (V_ref c5 bor lt s2)|constructor].
Qed.
Print Assumptions C67_comma_refuted.

(** The comma expression (0, x) has the value of its left operand, so p != (0, x) counts as a null
    test of p. *)
Theorem C67_comma_value_refuted : exists e l, wrong c5 e l.
Proof.
  exists (ENe p (EParen (EComma (ELit 0) x))), (LVar 0), s2, 1, s2.
  split; [|now vm_compute].
  apply (V_ne c5 bor lt s2 _ _ 0 s2 1 s2); [apply (V_ref c5 bor lt s2)|].
  apply V_paren. eapply (V_comma c5 bor lt s2); [constructor|apply (V_ref c5 bor lt s2)].
Qed.
Print Assumptions C67_comma_value_refuted.

(** The conditional expression [p != NULL ? x : y] has the guards of its predicate, though it may be true
    by its third operand. *)
Theorem C67_conditional_refuted : exists e l, wrong c5 e l.
Proof.
  exists (ECond (ENe p NULL) (ELit 0) x), (LVar 0), s2, 1, s2.
  split; [|now vm_compute].
  eapply (V_cond_f c5 bor lt s2); [|apply (V_ref c5 bor lt s2)].
  apply (V_ne c5 bor lt s2 _ _ 0 s2 0 s2); [apply (V_ref c5 bor lt s2)|constructor].
Qed.
Print Assumptions C67_conditional_refuted.

(** The conditional expression [c ? p : q] of pointers counts as a test of p. *)
Theorem C67_conditional_ref_refuted : exists e l, wrong c5 e l.
Proof.
  exists (ECond NULL p (ERef Tptr (LVar 2))), (LVar 0), s2, 1, s2.
  split; [|now vm_compute].
  eapply (V_cond_f c5 bor lt s2); [constructor|apply (V_ref c5 bor lt s2)].
Qed.
Print Assumptions C67_conditional_ref_refuted.

(** The operator | keeps the guards of its left operand: [(p != NULL) | x] guards p. *)
Theorem C67_bitor_refuted : exists e l, wrong c5 e l.
Proof.
  exists (EBin (Bbits 0) (EParen (ENe p NULL)) x), (LVar 0), s2, 1, s2.
  split; [|now vm_compute].
  apply (V_bin c5 bor lt s2 _ _ _ 0 s2 1 s2); [|apply (V_ref c5 bor lt s2)|apply (A_bits bor lt 0 0 1)].
  apply V_paren. apply (V_ne c5 bor lt s2 _ _ 0 s2 0 s2); [apply (V_ref c5 bor lt s2)|constructor].
Qed.
Print Assumptions C67_bitor_refuted.

(** The operator ~ keeps the guards of its operand. *)
Theorem C67_complement_refuted : exists e l, wrong c5 e l.
Proof.
  exists (EUn Ucompl (EParen (ENe p NULL))), (LVar 0), s2, (-1), s2.
  split; [|now vm_compute].
  apply (V_compl c5 bor lt s2 _ 0 s2). apply V_paren.
  apply (V_ne c5 bor lt s2 _ _ 0 s2 0 s2); [apply (V_ref c5 bor lt s2)|constructor].
Qed.
Print Assumptions C67_complement_refuted.

(** Pointer plus number counts as a test of the pointer: if (p + 1) guards p. *)
Theorem C67_pointer_sum_refuted : exists e l, wrong c5 e l.
Proof.
  exists (EBin Badd p (ELit 1)), (LVar 0), s2, 1, s2.
  split; [|now vm_compute].
  apply (V_bin c5 bor lt s2 _ _ _ 0 s2 1 s2); [apply (V_ref c5 bor lt s2)|constructor|apply (A_add bor lt 0 1)].
Qed.
Print Assumptions C67_pointer_sum_refuted.

(** An assignment in the second operand of && does not remove the guard of the first:
    p != NULL && (p = NULL) == NULL. *)
Theorem C67_assigned_refuted : exists e l, wrong c5 e l.
Proof.
  pose (s' := fun l => match l with LoVar 0 => 0 | LoVar _ => 1 | _ => 0 end).
  exists (EAnd (ENe p NULL) (EEq (EParen (EAssign Tptr 0 NULL)) NULL)), (LVar 0), s3, 1, s'.
  split; [|now vm_compute].
  apply (V_and_t c5 bor lt s3 _ _ 1 s3 1 s'); [|discriminate|].
  - apply (V_ne c5 bor lt s3 _ _ 1 s3 0 s3); [apply (V_ref c5 bor lt s3)|constructor].
  - apply (V_eq c5 bor lt s3 _ _ 0 s' 0 s'); [|constructor].
    apply V_paren. apply (V_assign c5 bor lt s3 Tptr 0 NULL 0 s3 s'); [constructor|].
    split; [reflexivity|]. intros l D R. destruct l as [[|y]|l f|l i]; cbn in *; tauto || auto.
Qed.
Print Assumptions C67_assigned_refuted.

(** ** C68: the condition of a for leads to the same conclusions as that of a while. *)

(** The for concludes nothing the while does not, and the same on leaving the loop; the same
    throughout unless the condition is a bare pointer. *)
Theorem C68_for_partial : forall e,
  (forall r, is_guarded (for_guards e) r = true -> is_guarded (test_guards e) r = true) /\
  (forall r, must_be_null (for_guards e) r = must_be_null (test_guards e) r) /\
  (n_ty (build e) <> Tptr -> for_guards e = test_guards e).
Proof.
  intros e. repeat split; intros.
  - now apply for_weaker.
  - apply for_weaker.
  - now apply for_same.
Qed.
Print Assumptions C68_for_partial.
Example C68_example : for_guards (ENe p NULL) = Some ([RVar 0], []).
Proof. reflexivity. Qed.

(** for ( ; p; ) does not guard p in its body, while (p) does. *)
Theorem C68_for_refuted : exists e r,
  is_guarded (test_guards e) r = true /\ is_guarded (for_guards e) r = false.
Proof. exists p, (RVar 0). now vm_compute. Qed.
Print Assumptions C68_for_refuted.
