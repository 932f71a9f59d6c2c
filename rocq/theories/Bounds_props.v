(** * Properties of the checking of buffer accesses *)
From Coq Require Import ZArith List Bool Lia.
From Verif Require Import Cbase Constr_model Bounds_model Bounds_spec Bounds_proofs Bounds_exact Bounds_guard.
Import ListNotations.
Local Open Scope Z_scope.

(** All arrays have ten elements. *)
Definition ten : nat -> Z := fun _ => 10.
Definition i : iexp := IVar 0.
Definition j : iexp := IVar 1.

(** Building the run of a given function body. *)
Ltac go := lazymatch goal with
  | |- runs nil _ _ _ _ => apply RNil
  | |- runs (SReturn :: _) _ _ _ _ => eapply RStop; apply RReturn
  | |- runs _ _ _ _ _ => eapply RCons; [go | go]
  | |- run (SAssign _ _) _ _ _ _ => apply RAssign
  | |- run (SStore _ _) _ _ _ _ => apply RStore
  | |- run (SRead _ _) _ _ _ _ => apply RRead
  | |- run SReturn _ _ _ _ => apply RReturn
  | |- run (SBlock _) _ _ _ _ => apply RBlock; go
  | |- run (SIf _ _) _ _ _ _ => first [apply RIfF; reflexivity | apply RIfT; [reflexivity | go]]
  | |- run (SIfElse _ _ _) _ _ _ _ => first [apply RElseT; [reflexivity | go] | apply RElseF; [reflexivity | go]]
  | |- run (SWhile _ _) _ _ _ _ => first [apply RWhileF; reflexivity | eapply RWhileT; [reflexivity | go | go]]
  end.

(** ** C135: no message, no access out of bounds *)

(** Straight-line code, each variable with one value; indices are a variable or number plus and minus numbers; upper ends only. *)
Theorem C135_silence_no_access_beyond_end_partial : forall f size body s0 tr s fin,
  straight nil body -> 2 * budget size body < 2147483648 ->
  checkFunction f size body = Ok nil ->
  runs body s0 tr s fin -> Forall (not_beyond size) tr.
Proof. exact silence_straight. Qed.
Print Assumptions C135_silence_no_access_beyond_end_partial.

Definition copyOK : list stmt :=
  [SAssign 0 (INum 3); SAssign 1 (IAdd i (INum 2)); SStore 0 (IAdd j (INum 4)); SRead 0 j].
Example C135_case : straight nil copyOK /\ 2 * budget ten copyOK < 2147483648 /\
  checkFunction 30 ten copyOK = Ok nil /\
  exists s fin, runs copyOK (fun _ => 0) [(0%nat, 9); (0%nat, 5)] s fin.
Proof.
  split; [cbn; intuition discriminate|]. split; [reflexivity|]. split; [vm_compute; reflexivity|].
  eexists. eexists. unfold copyOK.
  change [(0%nat, 9); (0%nat, 5)] with (@nil access ++ (@nil access ++ ([(0%nat, 9)] ++ ([(0%nat, 5)] ++ nil)))).
  go.
Qed.

(** With one more than the last index there is a message. *)
Example C135_case_message : checkFunction 30 ten
  [SAssign 0 (INum 3); SAssign 1 (IAdd i (INum 2)); SStore 0 (IAdd j (INum 5))] =
  Ok [Msg (Atom (Lit 9) GTE (Lit 10)) true].
Proof. vm_compute. reflexivity. Qed.

Definition silent_but_beyond (body : list stmt) : Prop :=
  checkFunction 30 ten body = Ok nil /\
  exists s0 tr s fin x, runs body s0 tr s fin /\ In x tr /\ ~ not_beyond ten x.

Ltac beyond st acc :=
  split; [vm_compute; reflexivity |];
  exists st; eexists; eexists; eexists; exists acc;
  split; [go | split; [vm_compute; tauto | unfold not_beyond, ten; simpl; lia]].

(** Nothing is ever said of lower ends: [a[-1] = 0] is accepted for every array. *)
Theorem C135_negative_index_refuted : exists body, checkFunction 30 ten body = Ok nil /\
  exists s0 tr s fin x, runs body s0 tr s fin /\ In x tr /\ ~ within ten x.
Proof.
  exists [SStore 0 (INum (-1))]. split; [vm_compute; reflexivity|].
  exists (fun _ => 0). eexists. eexists. eexists. exists (0%nat, -1).
  split; [go|]. split; [vm_compute; tauto | unfold within, ten; simpl; lia].
Qed.
Print Assumptions C135_negative_index_refuted.

(** A variable copied before it gets a new value: [j = 20; i = j + 1; j = 3; a[i] = 0] is taken for an
    access at 4, the new value of [j] being put into the equation of [i]. *)
Theorem C135_copied_then_changed_refuted : exists body, silent_but_beyond body.
Proof.
  exists [SAssign 1 (INum 20); SAssign 0 (IAdd j (INum 1)); SAssign 1 (INum 3); SStore 0 i].
  beyond (fun _ : nat => 0) (0%nat, 21).
Qed.
Print Assumptions C135_copied_then_changed_refuted.

(** What the body of an if does is forgotten: [i = 0; if (c) i = 20; a[i] = 0] *)
Theorem C135_body_of_if_refuted : exists body, silent_but_beyond body.
Proof.
  exists [SAssign 0 (INum 0); SIf (TVar 1) (SAssign 0 (INum 20)); SStore 0 i].
  beyond (fun _ : nat => 1) (0%nat, 20).
Qed.
Print Assumptions C135_body_of_if_refuted.

(** Only the first round of a loop is checked: [i = 0; while (i < 12) { a[i] = 0; i = i + 1; }] *)
Theorem C135_loop_refuted : exists body, silent_but_beyond body.
Proof.
  exists [SAssign 0 (INum 0);
          SWhile (TCmp RLt i (INum 12)) (SBlock [SStore 0 i; SAssign 0 (IAdd i (INum 1))])].
  beyond (fun _ : nat => 0) (0%nat, 11).
Qed.
Print Assumptions C135_loop_refuted.

(** A check made after the use hides the error in the use: [a[i] = 0; if (i >= 10) return; a[i] = 0]: the
    requirement of the first
    store is dropped because the second one implies it, and that one is met thanks to the check. *)
Theorem C135_check_after_use_refuted : exists body, silent_but_beyond body.
Proof.
  exists [SStore 0 i; SIf (TCmp RGe i (INum 10)) SReturn; SStore 0 i].
  split; [vm_compute; reflexivity|].
  exists (fun _ : nat => 20), ([(0%nat, 20)] ++ nil), (fun _ : nat => 20), false, (0%nat, 20).
  split; [eapply RCons; [apply RStore|]; eapply RStop; apply RIfT; [reflexivity | apply RReturn]|].
  split; [vm_compute; tauto | unfold not_beyond, ten; simpl; lia].
Qed.
Print Assumptions C135_check_after_use_refuted.

(** A body which may leave the function is taken to leave it always:
    [if (i >= 10) { if (c) return; } a[i] = 0] *)
Theorem C135_may_return_refuted : exists body, silent_but_beyond body.
Proof.
  exists [SIf (TCmp RGe i (INum 10)) (SIf (TVar 1) SReturn); SStore 0 i].
  beyond (fun x : nat => match x with O => 20 | _ => 0 end) (0%nat, 20).
Qed.
Print Assumptions C135_may_return_refuted.

(** A difference of a difference is turned round wrongly: [i = 9; a[5 - (3 - i)] = 0] is an access
    at 11. *)
Theorem C135_nested_difference_refuted : exists body, silent_but_beyond body.
Proof.
  exists [SAssign 0 (INum 9); SStore 0 (ISub (INum 5) (ISub (INum 3) i))].
  beyond (fun _ : nat => 0) (0%nat, 11).
Qed.
Print Assumptions C135_nested_difference_refuted.

(** A test with a constant on the left: after [if (9 <= i)] the access [a[20]] is compared with [i]. *)
Theorem C135_constant_on_the_left_refuted : exists body, silent_but_beyond body.
Proof.
  exists [SAssign 0 (INum 30); SIf (TCmp RLe (INum 9) i) (SStore 0 (INum 20))].
  beyond (fun _ : nat => 0) (0%nat, 20).
Qed.
Print Assumptions C135_constant_on_the_left_refuted.

(** A read dropped because of one alternative of a requirement which was met by the other:
    [a[4] = 0; { if (i < 5) x = a[i]; x = a[i - 1]; }] *)
Theorem C135_alternatives_refuted : exists body, silent_but_beyond body.
Proof.
  exists [SStore 0 (INum 4); SBlock [SIf (TCmp RLt i (INum 5)) (SRead 0 i); SRead 0 (ISub i (INum 1))]].
  beyond (fun _ : nat => 20) (0%nat, 19).
Qed.
Print Assumptions C135_alternatives_refuted.

(** ** C136: a message about two numbers is true *)

Theorem C136_message_about_numbers_true_partial : forall f size body m p r q k s0 tr s fin,
  straight nil body -> 2 * budget size body < 2147483648 ->
  checkFunction f size body = Ok m -> In (Msg (Atom (Lit p) r (Lit q)) k) m ->
  runs body s0 tr s fin -> exists x, In x tr /\ ~ not_beyond size x.
Proof. exact message_straight. Qed.
Print Assumptions C136_message_about_numbers_true_partial.

Definition copyBad : list stmt :=
  [SAssign 0 (INum 3); SStore 1 (ISub i (INum 1)); SAssign 1 (IAdd i (INum 2)); SStore 0 (IAdd j (INum 5))].
Example C136_case : straight nil copyBad /\ 2 * budget ten copyBad < 2147483648 /\
  checkFunction 30 ten copyBad = Ok [Msg (Atom (Lit 9) GTE (Lit 10)) true] /\
  exists tr s fin, runs copyBad (fun _ => 0) tr s fin /\ In (0%nat, 10) tr.
Proof.
  split; [cbn; intuition discriminate|]. split; [reflexivity|]. split; [vm_compute; reflexivity|].
  eexists. eexists. eexists. split; [unfold copyBad; go | vm_compute; tauto].
Qed.

Definition accused_but_fine (body : list stmt) : Prop :=
  (exists p q, checkFunction 30 ten body = Ok [Msg (Atom (Lit p) GTE (Lit q)) true]) /\
  exists s0 tr s fin, runs body s0 tr s fin /\ Forall (within ten) tr.

Ltac fine st :=
  exists st; eexists; eexists; eexists;
  split; [go | cbn [app]; repeat constructor; unfold within, ten; vm_compute; intuition discriminate].

(** Code never executed is accused: [i = 0; if (i) a[12] = 0] *)
Theorem C136_unreachable_refuted : exists body, accused_but_fine body /\
  forall s0 tr s fin, runs body s0 tr s fin -> Forall (within ten) tr.
Proof.
  exists [SAssign 0 (INum 0); SIf (TVar 0) (SStore 0 (INum 12))]. split.
  - split; [exists 9, 12; vm_compute; reflexivity|]. fine (fun _ : nat => 0).
  - intros s0 tr s fin H. inversion H as [|? ? ? ? ? H1|? ? ? ? ? ? ? ? H1 H2]; subst; inversion H1; subst.
    inversion H2 as [|? ? ? ? ? H3|? ? ? ? ? ? ? ? H3 H4]; subst.
    + inversion H3; subst; cbn in *; discriminate.
    + inversion H4; subst. inversion H3; subst; [cbn in *; discriminate | constructor].
Qed.
Print Assumptions C136_unreachable_refuted.

(** An assignment in an if is forgotten: [i = 20; if (c) i = 0; a[i] = 0] is called a likely error
    also where [c] is true. *)
Theorem C136_body_of_if_refuted : exists body, accused_but_fine body.
Proof.
  exists [SAssign 0 (INum 20); SIf (TVar 1) (SAssign 0 (INum 0)); SStore 0 i].
  split; [exists 9, 20; vm_compute; reflexivity|]. fine (fun _ : nat => 1).
Qed.
Print Assumptions C136_body_of_if_refuted.

(** ** C137: no message for code all of whose accesses are within bounds *)

(** Exact for stores at indices which are numbers. *)
Theorem C137_constant_stores_exact_partial : forall size f body m s0 tr s fin,
  Forall constStore body -> 2 * budget size body < 2147483648 ->
  checkFunction f size body = Ok m -> runs body s0 tr s fin ->
  (m = nil <-> Forall (not_beyond size) tr).
Proof. exact const_exact. Qed.
Print Assumptions C137_constant_stores_exact_partial.

Example C137_case : Forall constStore [SStore 0 (INum 9); SStore 1 (INum 3)] /\
  checkFunction 30 ten [SStore 0 (INum 9); SStore 1 (INum 3)] = Ok nil /\
  checkFunction 30 ten [SStore 0 (INum 9); SStore 1 (INum 10)] = Ok [Msg (Atom (Lit 9) GTE (Lit 10)) true] /\
  exists tr s fin, runs [SStore 0 (INum 9); SStore 1 (INum 3)] (fun _ => 0) tr s fin.
Proof.
  split; [repeat constructor|]. split; [vm_compute; reflexivity|]. split; [vm_compute; reflexivity|].
  eexists. eexists. eexists. go.
Qed.

Definition false_alarm (body : list stmt) : Prop :=
  (exists m, checkFunction 30 ten body = Ok m /\ m <> nil) /\
  (exists s0 tr s fin, runs body s0 tr s fin /\ tr <> nil) /\
  forall s0 tr s fin, runs body s0 tr s fin -> Forall (not_beyond ten) tr.

Ltac runsInv := repeat match goal with
  | H : runs _ _ _ _ _ |- _ => inversion H; subst; clear H
  | H : run _ _ _ _ _ |- _ => inversion H; subst; clear H
  end.

Ltac alarm st := split;
  [ eexists; split; [vm_compute; reflexivity | discriminate]
  | split;
    [ exists st; eexists; eexists; eexists; split; [go | discriminate]
    | intros s0 tr s fin H; unfold i, j in *; runsInv; cbn in *; repeat constructor; unfold not_beyond, ten; cbn; try lia ] ].

(** Reading an element which was not written in the same function, as of an array with an
    initializer: nothing says how much of an array can be read. *)
Theorem C137_read_refuted : exists body, false_alarm body.
Proof. exists [SRead 0 (INum 5)]. alarm (fun _ : nat => 0). Qed.
Print Assumptions C137_read_refuted.

(** Reading below an element written at a variable index: [i = 3; a[i] = 0; x = a[2]] *)
Theorem C137_read_after_write_refuted : exists body, false_alarm body.
Proof. exists [SAssign 0 (INum 3); SStore 0 i; SRead 0 (INum 2)]. alarm (fun _ : nat => 0). Qed.
Print Assumptions C137_read_after_write_refuted.

(** Different values in the branches: [if (c) i = 3; else i = 7; a[i] = 0] *)
Theorem C137_if_else_refuted : exists body, false_alarm body.
Proof. exists [SIfElse (TVar 1) (SAssign 0 (INum 3)) (SAssign 0 (INum 7)); SStore 0 i]. alarm (fun _ : nat => 0). Qed.
Print Assumptions C137_if_else_refuted.

(** Leaving the function early is enough for [a[i]] but not for [a[i - 1]]:
    [if (i >= 10) return; a[i - 1] = 0] *)
Theorem C137_early_return_refuted : exists body, false_alarm body.
Proof. exists [SIf (TCmp RGe i (INum 10)) SReturn; SStore 0 (ISub i (INum 1))]. alarm (fun _ : nat => 0). Qed.
Print Assumptions C137_early_return_refuted.

(** The bound of the test being a variable whose value is known: [n = 10; if (i < n) a[i] = 0] *)
Theorem C137_known_bound_refuted : exists body, false_alarm body.
Proof.
  exists [SAssign 1 (INum 10); SIf (TCmp RLt i j) (SStore 0 i)]. alarm (fun _ : nat => 0).
Qed.
Print Assumptions C137_known_bound_refuted.

(** ** C138: a store guarded by a comparison *)

(** [if (x < n) a[x + k] = v;] is accepted exactly if it is right for all values of [x]. *)
Theorem C138_guarded_store_exact : forall f size x a n k,
  (12 <= f)%nat ->
  Z.abs n < 536870912 -> Z.abs k < 536870912 -> Z.abs (size a - 1) < 536870912 ->
  (checkFunction f size (guardedStore x a n k) = Ok nil <->
   forall s0 tr s fin, runs (guardedStore x a n k) s0 tr s fin -> Forall (not_beyond size) tr).
Proof.
  intros f size x a n k F BN BK BS. replace f with (12 + (f - 12))%nat by lia.
  exact (guard_exact x a (size a - 1) n k (f - 12) BN BK BS size eq_refl).
Qed.
Print Assumptions C138_guarded_store_exact.

(** Otherwise there is one message, of a possible error, with the condition that is missing. *)
Theorem C138_guarded_store_message : forall f size x a n k,
  (12 <= f)%nat ->
  Z.abs n < 536870912 -> Z.abs k < 536870912 -> Z.abs (size a - 1) < 536870912 ->
  size a < n + k ->
  exists e b, checkFunction f size (guardedStore x a n k) = Ok [Msg (Atom (var x) LTE (Lit b)) e] /\ e = false /\
  forall v, v <= b <-> v + k < size a.
Proof.
  intros f size x a n k F BN BK BS H. exists false, (size a - 1 - k). split.
  - replace f with (12 + (f - 12))%nat by lia.
    rewrite (guard_result x a (size a - 1) n k (f - 12) BN BK BS size eq_refl).
    destruct (n + k <=? size a) eqn:E; [lia | reflexivity].
  - split; [reflexivity | intros v; lia].
Qed.
Print Assumptions C138_guarded_store_message.

Example C138_case_silent : checkFunction 30 ten (guardedStore 0 0 11 (-1)) = Ok nil.
Proof. vm_compute. reflexivity. Qed.
Example C138_case_message : checkFunction 30 ten (guardedStore 0 0 10 1) =
  Ok [Msg (Atom (var 0) LTE (Lit 8)) false].
Proof. vm_compute. reflexivity. Qed.

(** Numbers are cut to 32 bits: [if (i < 5) a[i + 4294967296] = 0] is accepted for an array of ten
    elements. *)
Theorem C138_wide_numbers_refuted : exists n k, silent_but_beyond (guardedStore 0 0 n k).
Proof. exists 5, 4294967296. unfold guardedStore. beyond (fun _ : nat => 0) (0%nat, 4294967296). Qed.
Print Assumptions C138_wide_numbers_refuted.
