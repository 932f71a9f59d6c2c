(** C90-C96: ownership of storage held by local variables. *)
From Verif Require Import Cbase Own_model Own_spec Own_proofs Own_use_proofs Own_leak_proofs.
From Coq Require Import List Arith Bool.
Import ListNotations.
Open Scope nat_scope.

(** C90. Variables which are taken to hold the same storage really do. *)
Theorem C90_known_aliases_real : forall p x y,
  known (run p) x y -> env (crun p) x = env (crun p) y.
Proof. intros p x y [H | H]; [exact (proj1 (proj2 (holds_run p)) x y H) | symmetry; exact (proj1 (proj2 (holds_run p)) y x H)]. Qed.
Print Assumptions C90_known_aliases_real.
Example C90_ex :
  known (run [New 0; Copy 1 0; Copy 2 1; New 1]) 0 2 /\ env (crun [New 0; Copy 1 0; Copy 2 1; New 1]) 0 = Some 0
  /\ canAlias (al (run [New 0; Copy 1 0; Copy 2 1; New 1])) 1 = [].
Proof. repeat split; vm_compute; auto. Qed.

(** C91. Variables which hold the same storage are known to.  Missing: code which copies a variable
    to itself, or copies a variable whose storage was copied from another variable after it was
    assigned. *)
Theorem C91_same_storage_known_partial : forall p x y,
  disciplined p -> filter about_use (messages [] p) = [] ->
  x <> y -> same (crun p) x y -> known (run p) x y.
Proof.
  intros p x y D E N S; destruct (uses_reported p D E) as [_ [_ [u [_ K]]]]; exact (K x y N S).
Qed.
Print Assumptions C91_same_storage_known_partial.
Example C91_ex : disciplined [New 0; Copy 1 0; Copy 2 0; New 0; Release 1; New 3; Copy 4 3]
  /\ messages [0; 3; 4] [New 0; Copy 1 0; Copy 2 0; New 0; Release 1; New 3; Copy 4 3] = [MLeakExit 0; MLeakExit 4]
  /\ same (crun [New 0; Copy 1 0; Copy 2 0; New 0; Release 1; New 3; Copy 4 3]) 1 2
  /\ ~ disciplined [New 0; Copy 1 0; Copy 2 0; Copy 0 1].
Proof. repeat split; try (vm_compute; reflexivity); [exists 0; split; vm_compute; reflexivity | vm_compute; discriminate]. Qed.

(** With two variables, or as long as no storage is held by three variables, each knows the other. *)
Theorem C91_pairs_known_partial : forall p x y,
  pairs p -> no_self_copy p -> x <> y -> same (crun p) x y ->
  In y (canAlias (al (run p)) x) /\ In x (canAlias (al (run p)) y).
Proof.
  intros p x y P NS N S; split; [exact (sym_run p P NS x y N S) |].
  apply (sym_run p P NS y x); [congruence | apply same_sym; exact S].
Qed.
Print Assumptions C91_pairs_known_partial.
Example C91_pairs_ex : pairs [New 0; Copy 1 0; New 0; Copy 0 1; Copy 1 0]
  /\ same (crun [New 0; Copy 1 0; New 0; Copy 0 1; Copy 1 0]) 0 1.
Proof.
  split; [apply (two_pairs 0 1); intros x H; vm_compute in H; intuition auto | exists 0; split; vm_compute; reflexivity].
Qed.

(** [q = p; r = p; p = q;]: [p] and [r] hold the same storage, and nothing is known about it. *)
Theorem C91_three_variables_refuted : exists p x y,
  no_self_copy p /\ correct p /\ same (crun p) x y /\ x <> y /\ ~ known (run p) x y.
Proof.
  exists [New 0; Copy 1 0; Copy 2 0; Copy 0 1], 0, 2.
  split; [intros x [H | [H | [H | [H | []]]]]; congruence |].
  split; [vm_compute; reflexivity |]. split; [exists 0; split; vm_compute; reflexivity |].
  split; [discriminate |]. vm_compute; intuition discriminate.
Qed.
Print Assumptions C91_three_variables_refuted.

(** [p = p;] makes everything forgotten that is known about [p]. *)
Theorem C91_self_assignment_refuted : exists p x y,
  (forall v, In v (vars p) -> v = 0 \/ v = 1) /\ correct p /\ same (crun p) x y /\ x <> y /\ ~ known (run p) x y.
Proof.
  exists [New 0; Copy 1 0; Copy 0 0], 0, 1.
  split; [intros v H; vm_compute in H; intuition auto |].
  split; [vm_compute; reflexivity |]. split; [exists 0; split; vm_compute; reflexivity |].
  split; [discriminate |]. vm_compute; intuition discriminate.
Qed.
Print Assumptions C91_self_assignment_refuted.

(** C92. If no use is reported then nothing is used that is released or not defined.  Missing: code
    which is not disciplined, as in C91. *)
Theorem C92_bad_uses_reported_partial : forall decls p,
  disciplined p -> filter about_use (messages decls p) = [] -> correct p.
Proof.
  intros decls p D E; unfold messages in E; rewrite finish_use in E; exact (proj1 (uses_reported p D E)).
Qed.
Print Assumptions C92_bad_uses_reported_partial.
Example C92_ex : disciplined [New 0; Copy 1 0; Copy 2 0; Release 1; Use 2; Use 3]
  /\ messages [0; 1; 2; 3] [New 0; Copy 1 0; Copy 2 0; Release 1; Use 2; Use 3] = [MReleased 2; MUndef 3].
Proof. split; vm_compute; reflexivity. Qed.

Theorem C92_two_variables_partial : forall decls a b p,
  (forall x, In x (vars p) -> x = a \/ x = b) -> no_self_copy p ->
  filter about_use (messages decls p) = [] -> correct p.
Proof.
  intros decls a b p V N E; exact (C92_bad_uses_reported_partial decls p (two_disciplined a b p V N) E).
Qed.
Print Assumptions C92_two_variables_partial.
Example C92_two_ex : messages [0; 1] [New 0; Copy 1 0; New 0; Copy 0 1; Release 0; Use 1] = [MLeak 0; MReleased 1].
Proof. vm_compute; reflexivity. Qed.

(** [q = p; r = p; p = q; destroy (p); use (r);]: nothing at all is reported. *)
Theorem C92_three_variables_refuted : exists p,
  no_self_copy p /\ messages (vars p) p = [] /\ ~ correct p.
Proof.
  exists [New 0; Copy 1 0; Copy 2 0; Copy 0 1; Release 0; Use 2].
  split; [intros x [H | [H | [H | [H | [H | [H | []]]]]]]; congruence |].
  split; [vm_compute; reflexivity | vm_compute; discriminate].
Qed.
Print Assumptions C92_three_variables_refuted.

(** [q = p; p = p; destroy (q); use (p);]: nothing at all is reported. *)
Theorem C92_self_assignment_refuted : exists p,
  (forall v, In v (vars p) -> v = 0 \/ v = 1) /\ messages [0; 1] p = [] /\ ~ correct p.
Proof.
  exists [New 0; Copy 1 0; Copy 0 0; Release 1; Use 0].
  split; [intros v H; vm_compute in H; intuition auto |].
  split; [vm_compute; reflexivity | vm_compute; discriminate].
Qed.
Print Assumptions C92_self_assignment_refuted.

(** C93. In code which uses nothing that is released or not defined, no use is reported. *)
Theorem C93_no_false_use : forall decls p,
  correct p -> filter about_use (messages decls p) = [] /\ filter about_use (blockMessages decls p) = [].
Proof.
  intros decls p C; unfold messages, blockMessages; rewrite !finish_use; split; exact (proj1 (no_false_use p C)).
Qed.
Print Assumptions C93_no_false_use.
Example C93_ex : correct [New 0; Copy 1 0; Copy 2 0; Copy 0 1; Copy 2 2; Release 2; New 2; Use 2; New 0; Copy 1 0; Use 1]
  /\ messages [0; 1; 2] [New 0; Copy 1 0; Copy 2 0; Copy 0 1; Copy 2 2; Release 2; New 2; Use 2; New 0; Copy 1 0; Use 1]
     = [MDependent 2; MLeak 1; MLeakExit 1; MLeakExit 2].
Proof. split; vm_compute; reflexivity. Qed.

(** C94. If nothing is reported about a function then all the storage it creates is released. *)
Theorem C94_leaks_reported : forall decls p,
  incl (targets p) decls -> messages decls p = [] -> all_released p.
Proof. exact leaks_reported. Qed.
Print Assumptions C94_leaks_reported.
Example C94_ex :
  messages [0; 1; 2] [New 0; Copy 1 0; Copy 2 0; New 0; Copy 1 1; New 1; Copy 2 2; Release 2; Release 1; Release 0] <> []
  /\ messages [0; 1; 2] [New 0; Copy 1 0; Copy 2 1; New 1; Release 2; Copy 2 1; Release 1] = []
  /\ next (crun [New 0; Copy 1 0; Copy 2 1; New 1; Release 2; Copy 2 1; Release 1]) = 2
  /\ messages [0; 1] [New 0; Copy 1 0; New 0; Release 0] = [MLeakExit 1]
  /\ messages [0] [New 0; New 0; Release 0] = [MLeak 0].
Proof. repeat split; try (vm_compute; reflexivity). vm_compute; discriminate. Qed.

(** C95. If nothing is reported about an inner block then the storage created in it and held by its
    variables is released.  Missing: blocks in which variables are copied. *)
Theorem C95_block_leaks_reported_partial : forall decls p,
  no_copy p -> incl (targets p) decls -> blockMessages decls p = [] -> all_released p.
Proof. exact block_leaks_reported. Qed.
Print Assumptions C95_block_leaks_reported_partial.
Example C95_ex : blockMessages [0; 1] [New 0; New 1; Release 0; Use 1] = [MLeakExit 1]
  /\ blockMessages [0; 1] [New 0; New 1; Release 0; Release 1] = []
  /\ blockMessages [0; 1] [New 0; New 1; Release 0; New 1; Release 1] = [MLeak 1].
Proof. repeat split; vm_compute; reflexivity. Qed.

(** [{ T p, q; p = create (); q = p; }]: the storage is lost, and each of the two variables is taken
    to be the reference that remains of the other. *)
Theorem C95_aliased_refuted : exists p,
  correct p /\ blockMessages [0; 1] p = [] /\ messages [0; 1] p <> [] /\ ~ all_released p.
Proof.
  exists [New 0; Copy 1 0]; split; [vm_compute; reflexivity |].
  split; [vm_compute; reflexivity |]. split; [vm_compute; discriminate |].
  intros R; specialize (R 0 (le_n 1)); vm_compute in R; discriminate.
Qed.
Print Assumptions C95_aliased_refuted.

(** C96. Nothing is reported about a function exactly if everything it does is correct and all the
    storage it creates is released.  Missing: code in which three variables hold the same storage, or
    a variable is assigned to itself. *)
Theorem C96_silent_exactly_if_good_partial : forall decls p,
  pairs p -> no_self_copy p -> incl (targets p) decls ->
  (messages decls p = [] <-> correct p /\ all_released p).
Proof. exact pairs_exact. Qed.
Print Assumptions C96_silent_exactly_if_good_partial.
Theorem C96_two_variables_partial : forall decls a b p,
  (forall x, In x (vars p) -> x = a \/ x = b) -> no_self_copy p -> incl (targets p) decls ->
  (messages decls p = [] <-> correct p /\ all_released p).
Proof. intros decls a b p V; exact (pairs_exact decls p (two_pairs a b p V)). Qed.
Print Assumptions C96_two_variables_partial.
Example C96_ex :
  messages [0; 1] [New 0; Copy 1 0; New 0; Copy 0 1; Copy 1 0; Use 1; Release 0] = [MLeak 0]
  /\ messages [0; 1] [New 0; Copy 1 0; Copy 0 1; Copy 1 0; Use 1; New 1; Release 0; Copy 0 1; Release 0] = []
  /\ next (crun [New 0; Copy 1 0; Copy 0 1; Copy 1 0; Use 1; New 1; Release 0; Copy 0 1; Release 0]) = 2.
Proof. repeat split; vm_compute; reflexivity. Qed.

(** Code which assigns each variable once: no false alarms, any number of variables. *)
Theorem C96_assigned_once_partial : forall decls p,
  NoDup (targets p) -> disciplined p -> correct p -> all_released p -> messages decls p = [].
Proof. exact no_false_alarm. Qed.
Print Assumptions C96_assigned_once_partial.
Example C96_once_ex :
  let p := [New 0; Copy 1 0; Copy 2 0; Copy 3 0; New 4; Copy 5 4; Use 3; Release 2; Use 5; Release 4] in
  NoDup (targets p) /\ disciplined p /\ correct p /\ all_released p /\ messages (vars p) p = [].
Proof.
  cbv zeta; split; [vm_compute; repeat constructor; vm_compute; intuition discriminate |].
  split; [vm_compute; reflexivity |]. split; [vm_compute; reflexivity |].
  split; [| vm_compute; reflexivity].
  intros b; change (next (crun _)) with 2; intros L; destruct b as [| [| b]]; try (vm_compute; reflexivity).
  exfalso; do 2 apply le_S_n in L; apply Nat.nle_succ_0 in L; exact L.
Qed.

(** [q = p; r = p; p = create (); destroy (r); destroy (p);]: all is well, but the first release is
    reported, for it is forgotten that [q] holds the storage of [r]. *)
Theorem C96_false_alarm_refuted : exists p,
  disciplined p /\ correct p /\ all_released p /\ messages (vars p) p = [MDependent 2].
Proof.
  exists [New 0; Copy 1 0; Copy 2 0; New 0; Release 2; Release 0].
  split; [vm_compute; reflexivity |]. split; [vm_compute; reflexivity |]. split; [| vm_compute; reflexivity].
  intros b; change (next (crun _)) with 2; intros L; destruct b as [| [| b]]; try (vm_compute; reflexivity).
  exfalso; do 2 apply le_S_n in L; apply Nat.nle_succ_0 in L; exact L.
Qed.
Print Assumptions C96_false_alarm_refuted.

(** A leak is reported although another variable still holds the storage, and releases it. *)
Theorem C96_false_leak_refuted : exists p,
  disciplined p /\ correct p /\ all_released p /\ messages (vars p) p = [MLeak 2].
Proof.
  exists [New 0; Copy 2 0; New 2; Copy 1 0; Release 2; New 3; Copy 2 0; New 0; New 2; Release 1; Release 0; Release 2; Release 3].
  split; [vm_compute; reflexivity |]. split; [vm_compute; reflexivity |]. split; [| vm_compute; reflexivity].
  intros b; change (next (crun _)) with 5; intros L; destruct b as [| [| [| [| [| b]]]]]; try (vm_compute; reflexivity).
  exfalso; do 5 apply le_S_n in L; apply Nat.nle_succ_0 in L; exact L.
Qed.
Print Assumptions C96_false_leak_refuted.
