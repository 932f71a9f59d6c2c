(** Properties C60–C64: the messages about the flow of control. *)
From Verif Require Import Cbase Flow_model Flow_spec Flow_proofs.

(** C60: when some execution reaches the end of the body, the missing return is reported, or at
    least one message about unreachable code is given.  Missing: labels inside a switch, cases and
    labels hidden in statements taken to be unreachable; there it is false, see below. *)
Theorem C60_no_missed_fall_off_partial : forall unreach shown body, tidy body -> marks_ok body -> falls_off body ->
  noret unreach shown body = true \/ messages unreach shown body <> [].
Proof. exact no_missed. Qed.
Print Assumptions C60_no_missed_fall_off_partial.

(** [top: if (c) goto top; switch (x) { case 1: return 1; default: break; }] *)
Definition ex60 : stmt :=
  Block (Seq (Seq (Marker (ML 0) false) (If (Gto 0)))
             (Switch EOther None (Block (Seq (Seq (Seq (Marker (MC 1) false) Ret) (Marker MD false)) Brk)))).
Example C60_case : tidy ex60 /\ marks_ok ex60 /\ falls_off ex60 /\ noret true (fun _ => true) ex60 = true.
Proof.
  assert (T : tidy ex60).
  { cbn. repeat split; try discriminate. intros m [<-|[<-|[]]]; reflexivity. }
  assert (M : marks_ok ex60) by (cbn; intuition).
  split; [exact T|]. split; [exact M|]. split; [|reflexivity].
  apply R_goto with (l := 0%nat).
  - apply X_block, X_seq_out; [|discriminate]. eapply X_seq; [apply X_marker|apply X_if, X_gto].
  - apply R_end; [|discriminate]. apply X_block. eapply X_seq; [eapply X_seq; [apply X_at|apply X_if_skip]|].
    apply (X_switch_default EOther None _ 7%nat OBreak ONormal).
    + constructor.
    + discriminate.
    + cbn. intuition discriminate.
    + apply X_block. eapply X_seq; [|constructor]. apply X_seq_at, X_at.
    + constructor.
Qed.

(** Control can enter a switch by a label; what follows a label is taken to be left like the
    statements before it.  [if (c) goto out; switch (x) { default: return 1; out: x = 2; }] falls off
    the end, without any message. *)
Theorem C60_label_in_switch_refuted : exists body, marks_ok body /\ falls_off body /\
  noret true (fun _ => true) body = false /\ messages true (fun _ => true) body = [].
Proof.
  exists (Block (Seq (If (Gto 1)) (Switch EOther None (Block (Seq (Seq (Seq (Marker MD false) Ret) (Marker (ML 1) false)) (Expr EOther)))))).
  split; [|split; [|split; reflexivity]].
  - cbn. split; [exact I|]. split; [tauto|]. right; right. exists Top. apply X_if_skip.
  - apply R_goto with (l := 1%nat).
    + apply X_block, X_seq_out; [apply X_if, X_gto|discriminate].
    + apply R_end; [|discriminate]. apply X_block, X_seq_at. eapply X_switch_label; [|apply E_other; discriminate].
      apply X_block. eapply X_seq; [apply X_seq_at, X_at|]. constructor. constructor.
Qed.
Print Assumptions C60_label_in_switch_refuted.

(** Statements before the first case of a switch are not considered, though a case may stand inside
    them: [switch (x) { if (c) { case 1: break; } default: return 1; }]. *)
Theorem C60_nested_case_refuted : exists body, marks_ok body /\ falls_off body /\
  noret true (fun _ => true) body = false /\ messages true (fun _ => true) body = [].
Proof.
  exists (Block (Switch EOther None (Block (Seq (Seq (If (Block (Seq (Marker (MC 1) false) Brk))) (Marker MD false)) Ret)))).
  split; [|split; [|split; reflexivity]].
  - cbn. intuition.
  - apply R_end; [|discriminate]. apply X_block. eapply (X_switch_case _ _ _ 1%nat OBreak).
    + constructor.
    + discriminate.
    + cbn. auto.
    + apply X_block, X_seq_out; [|discriminate]. apply X_seq_out; [|discriminate]. apply X_if, X_block.
      eapply X_seq; [apply X_at|constructor].
    + constructor.
Qed.
Print Assumptions C60_nested_case_refuted.

(** When the message about unreachable code is suppressed, the code is taken not to be reached even
    if it has a label: [if (c) goto out; return 1; { out: x = 2; }]. *)
Theorem C60_hidden_label_refuted : exists body, tidy body /\ falls_off body /\
  noret true (fun _ => false) body = false /\ messages true (fun _ => false) body = [].
Proof.
  exists (Block (Seq (Seq (If (Gto 1)) Ret) (Block (Seq (Marker (ML 1) false) (Expr EOther))))).
  split; [|split; [|split; reflexivity]].
  - cbn. auto.
  - apply R_goto with (l := 1%nat).
    + apply X_block, X_seq_out; [|discriminate]. apply X_seq_out; [apply X_if, X_gto|discriminate].
    + apply R_end; [|discriminate]. apply X_block, X_seq_at, X_block. eapply X_seq; [apply X_at|constructor; constructor].
Qed.
Print Assumptions C60_hidden_label_refuted.

(** C61: in structured code the message is exact. *)
Theorem C61_exact : forall shown body, structured body -> messages true shown body = [] ->
  (noret true shown body = true <-> falls_off body).
Proof. intros shown body. exact (exact_noret true shown body eq_refl). Qed.
Print Assumptions C61_exact.

(** [for (…;…;…) { if (a) break; else { if (b) return 1; else exit (1); } }  if (c) return 2; else …] *)
Definition ex61 (last : stmt) : stmt :=
  Block (Seq (For true (Block (IfElse Brk (Block (IfElse Ret (Expr (ECall XK_MUSTEXIT)))))))
             (IfElse Ret (Block last))).
Example C61_case : structured (ex61 Ret) /\ messages true (fun _ => true) (ex61 Ret) = [] /\ ~ falls_off (ex61 Ret) /\
  structured (ex61 Semi) /\ messages true (fun _ => true) (ex61 Semi) = [] /\ falls_off (ex61 Semi).
Proof.
  assert (S1 : structured (ex61 Ret)) by (cbn; auto 10). assert (S2 : structured (ex61 Semi)) by (cbn; auto 10).
  split; [exact S1|]. split; [reflexivity|]. split.
  { intros F. apply (C61_exact (fun _ => true) _ S1 eq_refl) in F. discriminate F. }
  split; [exact S2|]. split; [reflexivity|]. apply (C61_exact (fun _ => true) _ S2 eq_refl). reflexivity.
Qed.

(** Outside structured code the message may be wrong though nothing falls off the end:
    [exit (1), x;] as last statement; [do { return 1; } while (c);];
    [while (1) { if (c) continue; return 1; }] — a continue counts as a break. *)
Theorem C61_comma_refuted : exists body, noret true (fun _ => true) body = true /\ ~ falls_off body.
Proof. exists (Block (Expr (EComma (ECall XK_MUSTEXIT) EOther))). split; [reflexivity|exact comma_no_fall]. Qed.
Print Assumptions C61_comma_refuted.
(** A do loop whose body returns is reported as possibly not returning. *)
Theorem C61_do_refuted : exists body, noret true (fun _ => true) body = true /\ ~ falls_off body.
Proof. exists (Block (DoWhile (Block Ret))). split; [reflexivity|exact do_no_fall]. Qed.
Print Assumptions C61_do_refuted.
(** A continue in an infinite loop is taken for a way out of it. *)
Theorem C61_continue_refuted : exists body, noret true (fun _ => true) body = true /\ ~ falls_off body.
Proof. exists (Block continue_loop). split; [reflexivity|exact continue_no_fall]. Qed.
Print Assumptions C61_continue_refuted.

(** C62: replacing code complained of as unreachable changes no execution of the function.
    Missing: labels and cases inside such code; then it is false. *)
Theorem C62_unreachable_sound_partial : forall unreach shown s s', pruned (unreached unreach shown) s s' ->
  tidy s -> marks_ok s -> forall en o, run s en o <-> run s' en o.
Proof. exact pruned_run. Qed.
Print Assumptions C62_unreachable_sound_partial.

(** [while (1) { if (c) return 1; }  x = 2;]: the assignment can be removed. *)
Definition ex62 (b : stmt) : stmt := Block (Seq (While (Some 1) (Block (If Ret))) b).
Example C62_case : pruned (unreached true (fun _ => true)) (ex62 (Expr EOther)) (ex62 Brace) /\
  tidy (ex62 (Expr EOther)) /\ marks_ok (ex62 (Expr EOther)) /\ messages true (fun _ => true) (ex62 (Expr EOther)) = [Expr EOther] /\
  run (ex62 (Expr EOther)) Top OReturn.
Proof.
  split; [apply P_block, P_cut; [apply P_same|reflexivity|reflexivity]|]. split; [cbn; auto|]. split; [cbn; auto|].
  split; [reflexivity|]. apply R_end; [|discriminate]. apply X_block, X_seq_out; [|discriminate].
  eapply X_while; [discriminate|apply X_block, X_if, X_ret|reflexivity].
Qed.

(** [if (c) goto out; return 1; { out: x = 2; }]: the block is called unreachable, but is reached. *)
Theorem C62_label_refuted : exists s s', pruned (unreached true (fun _ => true)) s s' /\ tidy s /\
  run s Top ONormal /\ ~ run s' Top ONormal.
Proof.
  exists (Seq (Seq (If (Gto 1)) Ret) (Block (Seq (Marker (ML 1) false) Semi))), (Seq (Seq (If (Gto 1)) Ret) Semi).
  split; [apply P_cut; [apply P_same|reflexivity|reflexivity]|]. split; [cbn; auto|]. split.
  - apply R_goto with (l := 1%nat).
    + apply X_seq_out; [|discriminate]. apply X_seq_out; [apply X_if, X_gto|discriminate].
    + apply R_end; [|discriminate]. apply X_seq_at, X_block. eapply X_seq; [apply X_at|constructor].
  - intros R. apply run_exec in R as [en X].
    repeat match goal with H : exec (Seq _ _) _ _ |- _ => inversion H; subst; clear H
      | H : exec Ret _ _ |- _ => inversion H; subst; clear H | H : exec Semi _ _ |- _ => inversion H; subst; clear H end; congruence.
Qed.
Print Assumptions C62_label_refuted.

(** C63: no message about falling through: control does not come from the statements before the
    case, unless the last of them is itself a case, a default or a label. *)
Theorem C63_no_missed_fall_through : forall unreach shown a b, tidy a -> marks_ok a ->
  (exists c, b = Marker (MC c) false) \/ b = Marker MD false -> falls unreach shown a b = false ->
  (forall en, ~ exec a en ONormal) \/ ends_in_marker a.
Proof. intros unreach shown a b T M B F. exact (no_fall unreach shown a b T M F B). Qed.
Print Assumptions C63_no_missed_fall_through.

(** [case 1: { if (c) return 1; else break; } case 2:] is silent, [case 1: x = 2; case 2:] is not. *)
Definition ex63 : stmt := Seq (Marker (MC 1) false) (Block (IfElse Ret Brk)).
Example C63_case : tidy ex63 /\ marks_ok ex63 /\ falls true (fun _ => true) ex63 (Marker (MC 2) false) = false /\ ~ ends_in_marker ex63 /\
  falls true (fun _ => true) (Seq (Marker (MC 1) false) (Expr EOther)) (Marker (MC 2) false) = true.
Proof. cbn. intuition. Qed.

(** A label before the case silences the message, though control falls through it:
    [case 1: x = 2; out: case 2:]. *)
Theorem C63_label_refuted : exists a b, falls true (fun _ => true) a b = false /\ b = Marker (MC 2) false /\
  exec a (At (MC 1)) ONormal /\ exists a1 a2 l, a = Seq (Seq a1 a2) (Marker (ML l) false).
Proof.
  exists (Seq (Seq (Marker (MC 1) false) (Expr EOther)) (Marker (ML 9) false)), (Marker (MC 2) false).
  split; [reflexivity|]. split; [reflexivity|]. split; [|eauto].
  eapply X_seq; [|apply X_marker]. eapply X_seq; [apply X_at|constructor; constructor].
Qed.
Print Assumptions C63_label_refuted.

(** C64: functions without labels whose cases stand directly in the switches. *)
Theorem C64_no_missed_fall_off : forall unreach shown body, direct body -> falls_off body ->
  noret unreach shown body = true \/ messages unreach shown body <> [].
Proof. exact no_missed_direct. Qed.
Print Assumptions C64_no_missed_fall_off.

(** A switch over an enumeration with the members 0 and 1: [case 0: return 1; case 1: x = 2;]. *)
Definition ex64 (last : stmt) : stmt :=
  Block (Switch EOther (Some [0; 1]%nat) (Block (Seq (Seq (Seq (Marker (MC 0) false) Ret) (Marker (MC 1) false)) last))).
Example C64_case : direct (ex64 (Expr EOther)) /\ falls_off (ex64 (Expr EOther)) /\
  direct (ex64 Ret) /\ noret true (fun _ => true) (ex64 Ret) = false /\ messages true (fun _ => true) (ex64 Ret) = [].
Proof.
  assert (N : forall l, Some [0; 1]%nat = Some l -> NoDup l).
  { intros l [= <-]. constructor; [intros [|[]]; discriminate|]. constructor; [intros []|constructor]. }
  split; [cbn; intuition|]. split; [|split; [cbn; intuition|split; reflexivity]].
  apply R_end; [|discriminate]. apply X_block. eapply (X_switch_case _ _ _ 1%nat ONormal).
  - constructor.
  - intros l [= <-]. cbn. auto.
  - cbn. auto.
  - apply X_block. eapply X_seq; [apply X_seq_at, X_at|constructor; constructor].
  - apply E_other. discriminate.
Qed.
