(** Null dereferences: theorems C69, C70, C71. *)
From Verif Require Import Cbase Guard_model Nullflow_model Nullflow_spec Nullflow_proofs.
From Verif Require Flow_model.

Definition l0 : nat -> bool := fun _ => true.
Definition sh0 : Flow_model.stmt -> bool := fun _ => true.
Definition maybe0 : nat -> nstate := fun x => match x with O => NS_POSNULL | _ => NS_NOTNULL end.
Definition null0 : store := fun x => match x with O => false | _ => true end.
Definition sure0 : nat -> nstate := fun _ => NS_NOTNULL.
Definition all0 : store := fun _ => true.
Lemma maybe_null : agrees maybe0 null0.
Proof. intros [|x]; cbn; split; congruence || exact I || auto. Qed.
Lemma sure_all : agrees sure0 all0.
Proof. intros x; cbn; split; congruence || exact I || auto. Qed.

(** ** C69: when no dereference in a function body is complained of, no run of it dereferences a
    null pointer. *)

(** It holds of bodies in which loops assign no pointers, loops left by break do not compare
    pointers, do loops have no break or continue of their own, no call which does not return is the
    right operand of a || comparing pointers, and a branch does not assign a pointer its condition
    compares, unless it does not end normally, or has no branches itself and the other branch may
    end normally. *)
Theorem C69_no_null_dereference_partial : forall local unreach shown init s r o r' x,
  sober s -> plain_values s -> agrees init r ->
  complaints local false unreach shown init s = [] -> exec r s o r' -> o <> OFault x.
Proof. intros. eapply complaints_sound; eassumption. Qed.
Print Assumptions C69_no_null_dereference_partial.
(** if (p == NULL) return; else { *p; } while (c) { *p; } q = maybe (); if (q != NULL && *q) { *q; } else { q = fresh (); *q; } *)
Definition body69 : stmt :=
  SSeq (SIfElse (CNull 0) SRet (SBlock (SExpr (CDeref 0))))
  (SSeq (SWhile COther (SBlock (SExpr (CDeref 0))))
  (SSeq (SSet 1 VMaybe)
  (SIfElse (CAnd (CNon 1) (CDeref 1)) (SBlock (SExpr (CDeref 1))) (SBlock (SSeq (SSet 1 VFresh) (SExpr (CDeref 1))))))).
Example C69_example : sober body69 /\ plain_values body69 /\ agrees maybe0 null0 /\
  complaints l0 false true sh0 maybe0 body69 = [] /\ exec null0 body69 OStop null0 /\
  complaints l0 false true sh0 maybe0 (SSeq (SExpr (CDeref 0)) body69) = [0%nat].
Proof.
  split; [|split; [|split; [exact maybe_null|split; [now vm_compute|split; [|now vm_compute]]]]].
  - cbn. repeat split; auto; try (intros; tauto); try discriminate.
    all: try (left; cbn; intros y [<-|[]]; intuition discriminate).
    right. right. split; [exact (conj I I)|]. intros E. apply (E all0 all0). constructor. exact (X_expr all0 _ (RVal true) (V_deref all0 1 true eq_refl)).
  - cbn. repeat split; discriminate.
  - apply X_seq_out; [|discriminate]. apply X_else_true; [exact (V_null null0 0)|constructor].
Qed.

(** A loop left by break is taken to have ended because its condition was false:
    while (p == NULL) { break; } *p. *)
Theorem C69_break_refuted : exists s r', agrees maybe0 null0 /\ complaints l0 false true sh0 maybe0 s = [] /\ exec null0 s (OFault 0) r'.
Proof.
  exists (SSeq (SWhile (CNull 0) (SBlock SBrk)) (SExpr (CDeref 0))), null0. split; [exact maybe_null|]. split; [now vm_compute|].
  eapply X_seq; [|exact (X_expr null0 _ _ (V_fault null0 0 eq_refl))].
  eapply X_while; [exact (V_null null0 0)|constructor; constructor|reflexivity].
Qed.
Print Assumptions C69_break_refuted.

(** A continue in a do loop is taken not to reach the rest:
    do { if (p == NULL) { continue; } } while (c); *p. *)
Theorem C69_continue_refuted : exists s r', agrees maybe0 null0 /\ complaints l0 false true sh0 maybe0 s = [] /\ exec null0 s (OFault 0) r'.
Proof.
  exists (SSeq (SDo (SBlock (SIf (CNull 0) (SBlock SCont))) COther) (SExpr (CDeref 0))), null0. split; [exact maybe_null|]. split; [now vm_compute|].
  eapply X_seq; [|exact (X_expr null0 _ _ (V_fault null0 0 eq_refl))].
  eapply X_do_end; [constructor; apply X_if; [exact (V_null null0 0)|constructor; constructor]|right; reflexivity|constructor].
Qed.
Print Assumptions C69_continue_refuted.

(** A break in a do loop likewise: do { if (p == NULL) { break; } } while (c); *p. *)
Theorem C69_do_break_refuted : exists s r', agrees maybe0 null0 /\ complaints l0 false true sh0 maybe0 s = [] /\ exec null0 s (OFault 0) r'.
Proof.
  exists (SSeq (SDo (SBlock (SIf (CNull 0) (SBlock SBrk))) COther) (SExpr (CDeref 0))), null0. split; [exact maybe_null|]. split; [now vm_compute|].
  eapply X_seq; [|exact (X_expr null0 _ _ (V_fault null0 0 eq_refl))].
  eapply X_do; [constructor; apply X_if; [exact (V_null null0 0)|constructor; constructor]|reflexivity].
Qed.
Print Assumptions C69_do_break_refuted.

(** A loop body is gone through only once: while (c) { *p; p = NULL; }. *)
Theorem C69_second_round_refuted : exists s r', agrees sure0 all0 /\ complaints l0 false true sh0 sure0 s = [] /\ exec all0 s (OFault 0) r'.
Proof.
  exists (SWhile COther (SBlock (SSeq (SExpr (CDeref 0)) (SSet 0 VNull)))), (set all0 0 false). split; [exact sure_all|]. split; [now vm_compute|].
  eapply X_while_round; [constructor| |left; reflexivity|].
  - constructor. eapply X_seq; [exact (X_expr all0 _ (RVal true) (V_deref all0 0 true eq_refl))|exact (X_set all0 0 VNull false eq_refl)].
  - eapply (X_while _ _ _ (OFault 0)); [constructor| |].
    + constructor. apply X_seq_out; [|discriminate]. exact (X_expr (set all0 0 false) _ (RFault 0) (V_fault _ 0 eq_refl)).
    + reflexivity.
Qed.
Print Assumptions C69_second_round_refuted.

(** Of p == NULL || exit (1) the opposite is concluded, that p is not null afterwards. *)
Theorem C69_or_exit_refuted : exists s r', agrees maybe0 null0 /\ complaints l0 false true sh0 maybe0 s = [] /\ exec null0 s (OFault 0) r'.
Proof.
  exists (SSeq (SExpr (COr (CNull 0) CExit)) (SExpr (CDeref 0))), null0. split; [exact maybe_null|]. split; [now vm_compute|].
  eapply X_seq; [|exact (X_expr null0 _ _ (V_fault null0 0 eq_refl))].
  exact (X_expr null0 _ (RVal true) (V_or_true null0 _ _ (V_null null0 0))).
Qed.
Print Assumptions C69_or_exit_refuted.

(** What the condition says is kept after the branch it holds in has assigned the pointer:
    if (p == NULL) { return; } else { p = maybe (); } *p. *)
Theorem C69_assigned_branch_refuted : exists s r', agrees sure0 all0 /\ complaints l0 false true sh0 sure0 s = [] /\ exec all0 s (OFault 0) r'.
Proof.
  exists (SSeq (SIfElse (CNull 0) (SBlock SRet) (SBlock (SSet 0 VMaybe))) (SExpr (CDeref 0))), (set all0 0 false).
  split; [exact sure_all|]. split; [now vm_compute|].
  eapply X_seq; [|exact (X_expr (set all0 0 false) _ (RFault 0) (V_fault _ 0 eq_refl))].
  apply X_else_false; [exact (V_null all0 0)|]. constructor. exact (X_set all0 0 VMaybe false I).
Qed.
Print Assumptions C69_assigned_branch_refuted.

(** That a branch has assigned the pointer is forgotten when both branches of an if inside it
    mention the pointer: if (p != NULL) { p = maybe (); if (c) { p; } else { p; } } else { p = fresh (); } *p. *)
Theorem C69_mark_refuted : exists s r', agrees sure0 all0 /\ complaints l0 false true sh0 sure0 s = [] /\ exec all0 s (OFault 0) r'.
Proof.
  exists (SSeq (SIfElse (CNon 0)
            (SBlock (SSeq (SSet 0 VMaybe) (SIfElse COther (SExpr (CPtr 0)) (SExpr (CPtr 0))))) (SBlock (SSet 0 VFresh))) (SExpr (CDeref 0))), (set all0 0 false).
  split; [exact sure_all|]. split; [now vm_compute|].
  eapply X_seq; [|exact (X_expr (set all0 0 false) _ (RFault 0) (V_fault _ 0 eq_refl))].
  apply X_else_true; [exact (V_non all0 0)|]. constructor. eapply X_seq; [exact (X_set all0 0 VMaybe false I)|].
  apply X_else_true; [constructor|]. exact (X_expr (set all0 0 false) _ _ (V_ptr _ 0)).
Qed.
Print Assumptions C69_mark_refuted.

(** A null constant of an abstract type disappears when joined with a value which is not null:
    if (c) { p = fresh (); } else { p = nullconstant; } *p. *)
Theorem C69_constant_refuted : exists s r', agrees sure0 all0 /\ complaints l0 false true sh0 sure0 s = [] /\ exec all0 s (OFault 0) r'.
Proof.
  exists (SSeq (SIfElse COther (SBlock (SSet 0 VFresh)) (SBlock (SSet 0 VConst))) (SExpr (CDeref 0))), (set all0 0 false).
  split; [exact sure_all|]. split; [now vm_compute|].
  eapply X_seq; [|exact (X_expr (set all0 0 false) _ (RFault 0) (V_fault _ 0 eq_refl))].
  apply X_else_false; [constructor|]. constructor. exact (X_set all0 0 VConst false eq_refl).
Qed.
Print Assumptions C69_constant_refuted.

(** With the flag whileloopexec the condition of a loop is taken to hold after the loop:
    while (p != NULL) { f (); } *p. *)
Theorem C69_loopexec_refuted : exists s r', agrees maybe0 null0 /\ complaints l0 true true sh0 maybe0 s = [] /\ exec null0 s (OFault 0) r'.
Proof.
  exists (SSeq (SWhile (CNon 0) (SExpr COther)) (SExpr (CDeref 0))), null0. split; [exact maybe_null|]. split; [now vm_compute|].
  eapply X_seq; [|exact (X_expr null0 _ _ (V_fault null0 0 eq_refl))].
  apply X_while_end. exact (V_non null0 0).
Qed.
Print Assumptions C69_loopexec_refuted.

(** ** C70: a dereference after a test which settles that the pointer is not null is never
    complained of. *)
Theorem C70_tested_dereference : forall local loopexec unreach shown init s x,
  covered False s x -> ~ In x (complaints local loopexec unreach shown init s).
Proof. exact complaints_covered. Qed.
Print Assumptions C70_tested_dereference.
(** if (p == NULL) { q = NULL; return; } *p; if (q == NULL || *q) { *p; } else { *q; } while (!q) { *p; } *q. *)
Definition body70 : stmt :=
  SSeq (SIf (CNull 0) (SBlock (SSeq (SSet 1 VNull) SRet)))
  (SSeq (SExpr (CDeref 0))
  (SSeq (SIfElse (COr (CNull 1) (CDeref 1)) (SBlock (SExpr (CDeref 0))) (SBlock (SExpr (CDeref 1))))
  (SSeq (SWhile (CNot (CPtr 1)) (SBlock (SExpr (CDeref 0)))) (SExpr (CDeref 1))))).
Example C70_example : covered False body70 0 /\ covered False body70 1 /\
  complaints l0 false true sh0 (fun _ => NS_POSNULL) body70 = [] /\
  complaints l0 false true sh0 (fun _ => NS_POSNULL) (SSeq (SExpr (CDeref 0)) body70) = [0%nat] /\
  complaints l0 false true sh0 (fun _ => NS_POSNULL) (SSeq (SIf (CNull 0) (SSet 1 VNull)) (SExpr (CDeref 0))) = [0%nat].
Proof. split; [cbn; tauto|]. split; [cbn; intuition discriminate|]. now vm_compute. Qed.

(** ** C71: in a body without tests and jumps the dereferences complained of are right: there are
    complaints if and only if a run dereferences a null pointer, and one does where the first
    complaint is. *)
Theorem C71_straight_line_exact : forall local loopexec unreach shown init s, linear s -> (forall x, plain_state (init x)) ->
  (complaints local loopexec unreach shown init s = [] <-> forall r o r' x, agrees init r -> exec r s o r' -> o <> OFault x) /\
  (forall x m, complaints local loopexec unreach shown init s = x :: m -> exists r r', agrees init r /\ exec r s (OFault x) r').
Proof. exact complaints_linear. Qed.
Print Assumptions C71_straight_line_exact.
Definition body71 (v : val) : stmt := SSeq (SExpr (CDeref 1)) (SSeq (SBlock (SSet 0 v)) (SSeq (SExpr (CDeref 0)) (SExpr (CDeref 0)))).
Example C71_example : linear (body71 VMaybe) /\ complaints l0 false true sh0 maybe0 (body71 VMaybe) = [0%nat] /\
  complaints l0 false true sh0 maybe0 (body71 VFresh) = [].
Proof. split; [cbn; tauto|]. now vm_compute. Qed.
