(** Theorems about messages on variables used before definition. *)
From Verif Require Import Cbase Def_model Def_spec Def_proofs.

Local Definition none : nat -> bool := fun _ => false.
Local Definition all : Flow_model.stmt -> bool := fun _ => true.
(** The complaints with the flags [whileloopexec] and [forloopexec] off, [obviousloopexec] and [unreachable] on. *)
Local Notation said := (complaints false false true true all none).
Local Notation "'x:='" := (SExpr (ESet 0 (ENum 1))).
Local Notation "'usex'" := (SExpr (EOp OAdd (EVar 0) (ENum 1))).
Local Definition empty : store := fun _ => None.

(** C72.  No message about a body which is sober: no run of it uses a variable without a value. *)
Theorem C72_no_message_no_undefined_use_partial :
  forall obvious unreach shown init s, sober init s -> complaints false false obvious unreach shown init s = [] ->
  forall r, agrees init r -> forall x r', ~ exec r s (OFault x) r'.
Proof. intros obvious unreach shown init s. exact (sober_sound false false obvious unreach shown init eq_refl eq_refl s). Qed.
Print Assumptions C72_no_message_no_undefined_use_partial.
(** x is set in both branches, in every case of a switch, and before a loop with a counter. *)
Local Definition sample : stmt :=
  SSeq (SIfElse (EAnd ECall (EOp OLt (EVar 2) (ENum 3))) (SBlock x:=) (SBlock (SSeq x:= usex)))
  (SSeq (SSwitch (EOp OAdd (EVar 0) (ENum 0))
    (CCase (Some 1%nat) (SSeq (SExpr (ESet 1 (EVar 0))) SBrk) (CCase (Some 2%nat) SSkip (CCase None (SExpr (ESet 1 (ENum 5))) CNil))))
  (SSeq (SFor (Some (ESet 3 (ENum 0))) (Some (EOp OLt (EVar 3) (EVar 1))) (Some (ESet 3 (EOp OAdd (EVar 3) (ENum 1)))) (SIf (EVar 3) SBrk))
    (SRet (Some (EOp OAdd (EVar 0) (EVar 1)))))).
Local Definition param : nat -> bool := fun x => Nat.eqb x 2.
Example C72_case : sober param sample /\ complaints false false true true all param sample = [].
Proof.
  split; [|vm_compute; reflexivity]. unfold sample. cbn. unfold mentions, begins, ending. cbn.
  repeat split; try tauto; try discriminate.
  all: try (intros x H; cbn in H; intuition; subst; auto 10; fail).
  all: try (intros x H K; cbn in H, K; intuition; subst; try discriminate; congruence).
  all: try (intros x [H|[H|H]]; try discriminate; cbn; intuition congruence).
Qed.

(** A case which does not mention x leaves it undefined, but splint takes x to be defined after the switch:
    [switch (f ()) { case 1: x = 1; break; case 2: break; default: x = 1; } use x]. *)
Theorem C72_case_without_assignment_refuted :
  exists s r x r', said s = [] /\ agrees none r /\ exec r s (OFault x) r'.
Proof.
  exists (SSeq (SSwitch ECall (CCase (Some 1%nat) (SSeq x:= SBrk) (CCase (Some 2%nat) SBrk (CCase None x:= CNil)))) usex), empty, 0%nat, empty.
  split; [vm_compute; reflexivity|]. split; [discriminate|]. eapply X_seq with (r1 := empty).
  - eapply X_switch with (z := 2) (o := OBreak); [constructor| |reflexivity]. apply X_seq_out; [constructor|discriminate].
  - change (OFault 0) with (eout (RFault 0)). constructor. apply V_op_out; [constructor; reflexivity|exact I].
Qed.
Print Assumptions C72_case_without_assignment_refuted.

(** The controlling expression of a switch is not checked when it is just a variable: [switch (x) { default: ; }]. *)
Theorem C72_switch_on_undefined_variable_refuted :
  exists s r x r', said s = [] /\ agrees none r /\ exec r s (OFault x) r'.
Proof.
  exists (SSwitch (EVar 0) (CCase None SSkip CNil)), empty, 0%nat, empty.
  split; [vm_compute; reflexivity|]. split; [discriminate|].
  change (OFault 0) with (eout (RFault 0)). apply X_switch_out; [constructor; reflexivity|exact I].
Qed.
Print Assumptions C72_switch_on_undefined_variable_refuted.

(** A case which ends with a return is left out of account, although a break inside it leads out of the switch:
    [switch (f ()) { case 1: if (f ()) break; return; default: x = 1; } use x]. *)
Theorem C72_break_before_return_refuted :
  exists s r x r', said s = [] /\ agrees none r /\ exec r s (OFault x) r'.
Proof.
  exists (SSeq (SSwitch ECall (CCase (Some 1%nat) (SSeq (SIf ECall SBrk) (SRet None)) (CCase None x:= CNil))) usex), empty, 0%nat, empty.
  split; [vm_compute; reflexivity|]. split; [discriminate|]. eapply X_seq with (r1 := empty).
  - eapply X_switch with (z := 1) (o := OBreak); [constructor| |reflexivity]. apply X_seq_out; [|discriminate].
    apply X_seq_out; [|discriminate]. apply X_if with (z := 1) (r1 := empty); [constructor|lia|constructor].
  - change (OFault 0) with (eout (RFault 0)). constructor. apply V_op_out; [constructor; reflexivity|exact I].
Qed.
Print Assumptions C72_break_before_return_refuted.

(** A variable assigned in the right operand of && is taken to be defined afterwards, although the operand need
    not be evaluated: [(void) (f () && (x = 1)); use x]. *)
Theorem C72_assignment_after_and_refuted :
  exists s r x r', said s = [] /\ agrees none r /\ exec r s (OFault x) r'.
Proof.
  exists (SSeq (SExpr (EAnd ECall (ESet 0 (ENum 1)))) usex), empty, 0%nat, empty.
  split; [vm_compute; reflexivity|]. split; [discriminate|]. eapply X_seq with (r1 := empty).
  - change ONormal with (eout (RVal 0)). constructor. apply V_and_false. constructor.
  - change (OFault 0) with (eout (RFault 0)). constructor. apply V_op_out; [constructor; reflexivity|exact I].
Qed.
Print Assumptions C72_assignment_after_and_refuted.

(** What the increment of a for loop assigns is taken to be defined in the first round already:
    [for (; f (); x = 1) use x]. *)
Theorem C72_for_increment_refuted :
  exists s r x r', said s = [] /\ agrees none r /\ exec r s (OFault x) r'.
Proof.
  exists (SFor None (Some ECall) (Some (ESet 0 (ENum 1))) usex), empty, 0%nat, empty.
  split; [vm_compute; reflexivity|]. split; [discriminate|].
  apply X_for with (r1 := empty) (o := OFault 0); [exists 1; split; [lia|constructor]| |reflexivity].
  change (OFault 0) with (eout (RFault 0)). constructor. apply V_op_out; [constructor; reflexivity|exact I].
Qed.
Print Assumptions C72_for_increment_refuted.

(** So is the test which is just that variable: [for (; x; x = 1) ;]. *)
Theorem C72_for_test_refuted :
  exists s r x r', said s = [] /\ agrees none r /\ exec r s (OFault x) r'.
Proof.
  exists (SFor None (Some (EVar 0)) (Some (ESet 0 (ENum 1))) SSkip), empty, 0%nat, empty.
  split; [vm_compute; reflexivity|]. split; [discriminate|].
  change (OFault 0) with (eout (RFault 0)). apply X_for_out; [constructor; reflexivity|exact I].
Qed.
Print Assumptions C72_for_test_refuted.

(** A continue leads to the increment without what the rest of the body assigns:
    [for (; f (); y = x) { if (f ()) continue; x = 1; }]. *)
Theorem C72_continue_refuted :
  exists s r x r', said s = [] /\ agrees none r /\ exec r s (OFault x) r'.
Proof.
  exists (SFor None (Some ECall) (Some (ESet 1 (EVar 0))) (SSeq (SIf ECall SCont) x:=)), empty, 0%nat, empty.
  split; [vm_compute; reflexivity|]. split; [discriminate|].
  change (OFault 0) with (eout (RFault 0)). apply X_for_inc_out with (r1 := empty) (o := OCont) (r2 := empty).
  - exists 1. split; [lia|constructor].
  - apply X_seq_out; [|discriminate]. apply X_if with (z := 1) (r1 := empty); [constructor|lia|constructor].
  - right. reflexivity.
  - apply V_set_out; [constructor; reflexivity|exact I].
  - exact I.
Qed.
Print Assumptions C72_continue_refuted.

(** A break leaves a do loop before what its body assigns later: [do { if (f ()) break; x = 1; } while (f ()); use x]. *)
Theorem C72_break_in_do_refuted :
  exists s r x r', said s = [] /\ agrees none r /\ exec r s (OFault x) r'.
Proof.
  exists (SSeq (SDo (SSeq (SIf ECall SBrk) x:=) ECall) usex), empty, 0%nat, empty.
  split; [vm_compute; reflexivity|]. split; [discriminate|]. eapply X_seq with (r1 := empty).
  - apply X_do with (o := OBreak); [|reflexivity]. apply X_seq_out; [|discriminate].
    apply X_if with (z := 1) (r1 := empty); [constructor|lia|constructor].
  - change (OFault 0) with (eout (RFault 0)). constructor. apply V_op_out; [constructor; reflexivity|exact I].
Qed.
Print Assumptions C72_break_in_do_refuted.

(** Likewise a loop taken to be executed at least once: [for (i = 0; i < 3; ) { if (f ()) break; x = 1; } use x]. *)
Theorem C72_break_in_obvious_loop_refuted :
  exists s r x r', said s = [] /\ agrees none r /\ exec r s (OFault x) r'.
Proof.
  exists (SSeq (SFor (Some (ESet 1 (ENum 0))) (Some (EOp OLt (EVar 1) (ENum 3))) None (SSeq (SIf ECall SBrk) x:=)) usex), empty, 0%nat, (set empty 1 0).
  split; [vm_compute; reflexivity|]. split; [discriminate|]. eapply X_seq with (r1 := set empty 1 0).
  - apply X_for_init with (z := 0) (r1 := set empty 1 0); [apply V_set; constructor|].
    apply X_for with (r1 := set empty 1 0) (o := OBreak); [| |reflexivity].
    + exists 1. split; [lia|]. change (RVal 1) with (rmap (opval OLt 0) (RVal 3)). apply V_op with (r1 := set empty 1 0); constructor. reflexivity.
    + apply X_seq_out; [|discriminate]. apply X_if with (z := 1) (r1 := set empty 1 0); [constructor|lia|constructor].
  - change (OFault 0) with (eout (RFault 0)). constructor. apply V_op_out; [constructor; reflexivity|exact I].
Qed.
Print Assumptions C72_break_in_obvious_loop_refuted.

(** A comma hides the use of a variable assigned after it: [x, x = 1]. *)
Theorem C72_comma_refuted :
  exists s r x r', said s = [] /\ agrees none r /\ exec r s (OFault x) r'.
Proof.
  exists (SExpr (EComma (EVar 0) (ESet 0 (ENum 1)))), empty, 0%nat, empty.
  split; [vm_compute; reflexivity|]. split; [discriminate|].
  change (OFault 0) with (eout (RFault 0)). constructor. apply V_comma_out; [constructor; reflexivity|exact I].
Qed.
Print Assumptions C72_comma_refuted.

(** With [+whileloopexec] or [+forloopexec] what a loop assigns is taken to be defined after it; the first test may be false. *)
Theorem C72_loops_taken_to_be_executed_refuted :
  exists s s' r x r', complaints true false true true all none s = [] /\ complaints false true true true all none s' = [] /\
    agrees none r /\ exec r s (OFault x) r' /\ exec r s' (OFault x) r'.
Proof.
  exists (SSeq (SWhile ECall x:=) usex), (SSeq (SFor None (Some ECall) None x:=) usex), empty, 0%nat, empty.
  split; [vm_compute; reflexivity|]. split; [vm_compute; reflexivity|]. split; [discriminate|].
  assert (U : exec empty usex (OFault 0) empty).
  { change (OFault 0) with (eout (RFault 0)). constructor. apply V_op_out; [constructor; reflexivity|exact I]. }
  split; (eapply X_seq with (r1 := empty); [|exact U]).
  - apply X_while_end. constructor.
  - apply X_for_end. constructor.
Qed.
Print Assumptions C72_loops_taken_to_be_executed_refuted.

(** C73.  In bodies whose tests may have any value, a variable complained of is used without a value in some run. *)
Theorem C73_complaints_are_real_partial :
  forall obvious whileexec forexec unreach shown init s x, open s ->
  In x (complaints whileexec forexec obvious unreach shown init s) ->
  init x = false /\ forall r, only x r -> exists r', exec r s (OFault x) r'.
Proof.
  intros obvious whileexec forexec unreach shown init s x O I. split.
  - exact (open_initialised _ _ _ _ _ _ _ _ O I).
  - intros r OX. exact (open_alarms _ _ _ _ _ _ _ _ _ O I OX).
Qed.
Print Assumptions C73_complaints_are_real_partial.
(** [if (f ()) x = 1; else { if (f ()) return x + 1; } do { y = x; } while (f ());] *)
Example C73_case :
  let s := SSeq (SIfElse ECall x:= (SBlock (SIf ECall (SRet (Some (EOp OAdd (EVar 0) (ENum 1)))))))
             (SDo (SBlock (SExpr (ESet 1 (EVar 0)))) ECall) in
  open s /\ said s = [0%nat; 0%nat].
Proof. split; [cbn; tauto|vm_compute; reflexivity]. Qed.

(** A branch which returns still makes what only the else assigns undefined: [if (f ()) return; else x = 1; use x]. *)
Theorem C73_return_before_else_refuted :
  exists s x, In x (said s) /\ forall r o r', exec r s o r' -> o <> OFault x.
Proof.
  exists (SSeq (SIfElse ECall (SRet None) x:=) usex), 0%nat. split; [vm_compute; auto|].
  assert (SX : forall r o r', exec r x:= o r' -> o = ONormal /\ r' 0%nat <> None).
  { intros r o r' X. inversion X; subst. match goal with H : eval _ _ _ _ |- _ => inversion H; subst end;
      match goal with H : eval _ (ENum 1) _ _ |- _ => inversion H; subst end; [match goal with H : stops _ |- _ => destruct H end|].
    split; [reflexivity|discriminate]. }
  intros r o r' X E. subst.
  inversion X as [| |? ? ? r1 ? ? Xa Xb|? ? ? ? ? Xa N| | | | | | | | | | | | | | | | | | | | | | | | | | | | |]; subst.
  - assert (D : r1 0%nat <> None).
    { inversion Xa; subst.
      - match goal with H : eout ?v = ONormal, K : stops ?v |- _ => destruct v; discriminate || destruct K end.
      - match goal with H : exec _ (SRet _) _ _ |- _ => inversion H end.
      - match goal with H : exec _ (SExpr _) _ _ |- _ => exact (proj2 (SX _ _ _ H)) end. }
    inversion Xb; subst. match goal with H : eout ?v = _ |- _ => destruct v; try discriminate; injection H as -> end.
    match goal with H : eval _ _ _ _ |- _ => destruct (eval_fault _ _ _ _ H _ eq_refl) as [_ K] end. exact (D K).
  - inversion Xa; subst.
    + match goal with H : eval _ ECall _ _ |- _ => inversion H; subst; discriminate end.
    + match goal with H : exec _ (SRet _) _ _ |- _ => inversion H end.
    + match goal with H : exec _ (SExpr _) _ _ |- _ => destruct (SX _ _ _ H); discriminate end.
Qed.
Print Assumptions C73_return_before_else_refuted.

(** So does a loop which is left only after the assignment: [while (1) { x = 1; break; } use x]. *)
Theorem C73_endless_loop_refuted :
  exists s x, In x (said s) /\ forall r o r', exec r s o r' -> o <> OFault x.
Proof.
  exists (SSeq (SWhile (ENum 1) (SSeq x:= SBrk)) usex), 0%nat. split; [vm_compute; auto|].
  assert (SX : forall r o r', exec r (SSeq x:= SBrk) o r' -> o = OBreak /\ r' 0%nat <> None).
  { intros r o r' X.
    inversion X as [| |? ? ? r1 ? ? Xa Xb|? ? ? ? ? Xa N| | | | | | | | | | | | | | | | | | | | | | | | | | | | |]; subst;
      inversion Xa; subst; match goal with H : eval _ _ _ _ |- _ => inversion H; subst end;
      match goal with H : eval _ (ENum 1) _ _ |- _ => inversion H; subst end; try match goal with H : stops _ |- _ => destruct H end.
    - inversion Xb; subst. split; [reflexivity|discriminate].
    - destruct (N eq_refl). }
  intros r o r' X E. subst.
  inversion X as [| |? ? ? r1 ? ? Xa Xb|? ? ? ? ? Xa N| | | | | | | | | | | | | | | | | | | | | | | | | | | | |]; subst.
  - assert (D : r1 0%nat <> None).
    { inversion Xa; subst.
      - match goal with H : eval _ (ENum 1) _ _ |- _ => inversion H; subst end. match goal with H : stops _ |- _ => destruct H end.
      - match goal with H : eval _ (ENum 1) _ _ |- _ => inversion H end.
      - match goal with H : exec _ (SSeq _ _) _ _ |- _ => exact (proj2 (SX _ _ _ H)) end.
      - match goal with H : exec _ (SSeq _ _) _ _, K : rounds _ |- _ => destruct (SX _ _ _ H) as [-> _]; destruct K; discriminate end. }
    inversion Xb; subst. match goal with H : eout ?v = _ |- _ => destruct v; try discriminate; injection H as -> end.
    match goal with H : eval _ _ _ _ |- _ => destruct (eval_fault _ _ _ _ H _ eq_refl) as [_ K] end. exact (D K).
  - inversion Xa; subst.
    + match goal with H : eval _ (ENum 1) _ _ |- _ => inversion H; subst end. match goal with H : stops _ |- _ => destruct H end.
    + match goal with H : exec _ (SSeq _ _) _ _ |- _ => destruct (SX _ _ _ H) as [-> _] end. match goal with H : leaves _ _ |- _ => discriminate H end.
    + match goal with H : exec _ (SSeq _ _) _ _, K : rounds _ |- _ => destruct (SX _ _ _ H) as [-> _]; destruct K; discriminate end.
Qed.
Print Assumptions C73_endless_loop_refuted.

(** C74.  A loop taken to be executed at least once, whose test compares with [!=], [<=] or [>=], is. *)
Theorem C74_obvious_loop_begins_partial :
  forall x v o w z r r1 r2, loop_must_exec (Some (ESet x (ENum v))) (Some (EOp o (EVar x) (ENum w))) = true ->
  o = ONe \/ o = OLe \/ o = OGe ->
  eval r (ESet x (ENum v)) (RVal z) r1 -> ~ eval r1 (EOp o (EVar x) (ENum w)) (RVal 0) r2.
Proof.
  intros x v o w z r r1 r2 L O X Y. eapply first_test; [exact L| |exact X|exact Y].
  intros x0 v0 o0 w0 E1 E2. injection E1 as <- <-. injection E2 as <- <-. cbn in L. rewrite Nat.eqb_refl in L. cbn in L.
  destruct O as [->|[->| ->]]; cbn in *; unfold bz.
  - rewrite L. discriminate.
  - destruct (Z.leb_spec v w); [discriminate|]. apply Z.ltb_lt in L. lia.
  - destruct (v >=? w) eqn:G; [discriminate|]. apply Z.gtb_lt in L. rewrite Z.geb_leb in G. apply Z.leb_gt in G. lia.
Qed.
Print Assumptions C74_obvious_loop_begins_partial.
Example C74_case : loop_must_exec (Some (ESet 0 (ENum 0))) (Some (EOp OLe (EVar 0) (ENum 10))) = true.
Proof. reflexivity. Qed.

(** A loop with [==], [<] or [>] is taken to be executed although its first test is false: [for (i = 0; i == 1; )],
    [for (i = 0; i < 0; )], [for (i = 0; i > 0; )]. *)
Theorem C74_comparison_refuted :
  exists x v w r1, let begins_not o w := loop_must_exec (Some (ESet x (ENum v))) (Some (EOp o (EVar x) (ENum w))) = true /\
      eval empty (ESet x (ENum v)) (RVal v) r1 /\ eval r1 (EOp o (EVar x) (ENum w)) (RVal 0) r1 in
    begins_not OEq w /\ begins_not OLt v /\ begins_not OGt v.
Proof.
  exists 0%nat, 0, 1, (set empty 0 0). cbv zeta.
  assert (K : forall o w', opval o 0 w' = 0 -> eval (set empty 0 0) (EOp o (EVar 0) (ENum w')) (RVal 0) (set empty 0 0)).
  { intros o w' E. replace (RVal 0) with (rmap (opval o 0) (RVal w')) by (cbn; rewrite E; reflexivity).
    apply V_op with (r1 := set empty 0 0); constructor. reflexivity. }
  assert (S : eval empty (ESet 0 (ENum 0)) (RVal 0) (set empty 0 0)) by (apply V_set; constructor).
  repeat split; try exact S; try (apply K; reflexivity); reflexivity.
Qed.
Print Assumptions C74_comparison_refuted.

(** So what its body assigns is taken to be defined: [for (i = 0; i < 0; ) x = 1; use x]. *)
Theorem C74_undefined_use_after_loop_refuted :
  exists s r x r', said s = [] /\ agrees none r /\ exec r s (OFault x) r'.
Proof.
  exists (SSeq (SFor (Some (ESet 1 (ENum 0))) (Some (EOp OLt (EVar 1) (ENum 0))) None x:=) usex), empty, 0%nat, (set empty 1 0).
  split; [vm_compute; reflexivity|]. split; [discriminate|]. eapply X_seq with (r1 := set empty 1 0).
  - apply X_for_init with (z := 0) (r1 := set empty 1 0); [apply V_set; constructor|].
    apply X_for_end. change (RVal 0) with (rmap (opval OLt 0) (RVal 0)). apply V_op with (r1 := set empty 1 0); constructor. reflexivity.
  - change (OFault 0) with (eout (RFault 0)). constructor. apply V_op_out; [constructor; reflexivity|exact I].
Qed.
Print Assumptions C74_undefined_use_after_loop_refuted.

(** C75.  In straight-line code exactly the variables read before they are assigned are complained of, each once. *)
Theorem C75_straight_line_code :
  forall whileexec forexec obvious unreach shown init s, straight s ->
  NoDup (complaints whileexec forexec obvious unreach shown init s) /\
  forall x, In x (complaints whileexec forexec obvious unreach shown init s) <->
    init x = false /\ first x (sevents s) = Some (Rd x).
Proof.
  intros whileexec forexec obvious unreach shown init s S. split; [exact (straight_once _ _ _ _ _ init s S)|].
  intros x. exact (straight_exact _ _ _ _ _ init s x S).
Qed.
Print Assumptions C75_straight_line_code.
(** [y = x + z; x = y; return-like use of x, y and w twice]. *)
Example C75_case :
  let s := SSeq (SExpr (ESet 1 (EOp OAdd (EVar 0) (EVar 2)))) (SSeq (SExpr (ESet 0 (EVar 1)))
             (SBlock (SExpr (EOp OAdd (EOp OAdd (EVar 0) (EVar 3)) (EComma (EVar 1) (EVar 3)))))) in
  straight s /\ complaints false false true true all (fun x => Nat.eqb x 2) s = [0%nat; 3%nat].
Proof.
  split; [|vm_compute; reflexivity]. cbn. repeat split; try tauto; try (intros x []); try (intros x [<-|[]]; cbn; intuition discriminate).
  all: intros x K; destruct K.
Qed.
