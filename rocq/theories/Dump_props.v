(** Property theorems C31 (constraints) and C43 (storage references). *)
From Verif Require Import Cbase Reader_model Reader_spec Dump_model Dump_spec Dump_proofs.

(** C43.  A dumpable reference is read back unchanged, whatever separator follows.
    Missing for the full C43: values on references with components, string and
    double values, negative indices with several significant digits. *)
Theorem C43_sref_read_back_partial : forall s fuel rest,
  dumpable s -> tail_ok rest -> (List.length (sRef_dump s) <= fuel)%nat ->
  exists r', sRef_undump fuel (sRef_dump s ++ rest) = ROk (same_sref s) r'
             /\ (r' = rest \/ r' = after_blanks rest).
Proof. exact sRef_roundtrip. Qed.
Print Assumptions C43_sref_read_back_partial.

(** A value attached to the pointed-to storage and one attached to the pointer are
    written identically, so one of them cannot survive: *p with value 3 is read
    back as the target of (p with value 3). *)
Theorem C43_value_position_refuted :
  exists s1 s2, s1 <> s2 /\ sRef_dump s1 = sRef_dump s2 /\
                sRef_undump 10 (sRef_dump s1) = ROk (same_sref s2) [].
Proof.
  exists (SVal (SPtr (SParam 0)) (MVLong 3)), (SPtr (SVal (SParam 0) (MVLong 3))).
  split; [discriminate|split; vm_compute; reflexivity].
Qed.
Print Assumptions C43_value_position_refuted.

(** An array element with index -12 of parameter 0 comes back with index -8. *)
Theorem C43_index_refuted : exists i j, i <> j /\
  sRef_undump 10 (sRef_dump (SArrayK i (SParam 0))) = ROk (SArrayK j (SParam 0)) [].
Proof. exists (-12), (-8). split; [discriminate|vm_compute; reflexivity]. Qed.
Print Assumptions C43_index_refuted.

Example C43_ex :
  let s := SConj (SField (lit "next") (SPtr (SParam 1))) (SArrayK 12 (SVal (SGlobal 7) (MVLong 40))) in
  dumpable s /\ sRef_dump s = lit "cfnext.tp1.a12g7=i40="
  /\ sRef_undump 30 (lit "cfnext.tp1.a12g7=i40=,") = ROk (same_sref s) (lit ",").
Proof.
  split; [|split; vm_compute; reflexivity].
  cbn [dumpable is_leaf good_value].
  repeat split; try (vm_compute; intuition discriminate); try (left; vm_compute; discriminate).
Qed.
Example C43_ex_tail : tail_ok (lit ",").
Proof.
  right. right. eexists _, _. split; [reflexivity|].
  repeat split; try (vm_compute; discriminate). left. vm_compute. reflexivity.
Qed.

(** C31.  Constraints and constraint lists are read back with the same operator,
    roles and sides.  Missing for the full C31: terms named Result, Param or
    sRef_dump, and integer literals that do not survive (C29). *)
Theorem C31_constraint_read_back_partial : forall c, constraint_ok c ->
  exists n, forall fuel f, (n <= fuel)%nat ->
  constraint_undump fuel (constraint_dump c ++ f) = ROk (constraint_back c) f.
Proof. intros c H. exists (csize c). exact (fun fuel f F => constraint_roundtrip c fuel f H F). Qed.
Print Assumptions C31_constraint_read_back_partial.

Theorem C31_list_read_back_partial : forall cs, Forall constraint_ok cs ->
  exists n, forall fuel f, (n <= fuel)%nat ->
  constraintList_undump fuel (constraintList_dump cs ++ lit ";" ++ nl ++ f)
  = ROk (map constraint_back cs) f.
Proof. intros cs H. exists (lsize cs). exact (fun fuel f F => list_roundtrip cs fuel f H F). Qed.
Print Assumptions C31_list_read_back_partial.

(** A constraint on a variable named "Result" becomes a constraint on the
    function's result; one with literal -12 becomes one with -8. *)
Theorem C31_name_refuted : exists n c', is_word n /\
  constraint_undump 5 (constraint_dump (mkDC true false 3 (DUn 1 (DTerm (TName false n))) (DTerm (TInt 0)))) = ROk c' []
  /\ dc_l c' = DUn 1 (DTerm (TResult (-1))).
Proof.
  exists (lit "Result"). eexists. split; [|split].
  - split; [discriminate|]. repeat (constructor; [cbv; intuition discriminate|]). constructor.
  - vm_compute. reflexivity.
  - reflexivity.
Qed.
Print Assumptions C31_name_refuted.

Theorem C31_literal_refuted : exists c', 
  constraint_undump 5 (constraint_dump (mkDC true false 3 (DTerm (TName false (lit "n"))) (DTerm (TInt (-12))))) = ROk c' []
  /\ dc_r c' = DTerm (TInt (-8)).
Proof. eexists. split; [vm_compute; reflexivity|reflexivity]. Qed.
Print Assumptions C31_literal_refuted.

(** maxSet(param 0) >= maxRead(param 1) + 1 *)
Example C31_ex_constraint : dconstraint multiVal :=
  mkDC true false 3 (DUn 1 (DTerm (TParam 20 0)))
       (DBin 1 (DUn 3 (DTerm (TParam 20 1))) (DTerm (TInt 1))).
Example C31_ex : constraint_ok C31_ex_constraint
  /\ constraint_undump 10 (constraint_dump C31_ex_constraint) = ROk (constraint_back C31_ex_constraint) [].
Proof.
  split; [|vm_compute; reflexivity].
  unfold C31_ex_constraint, constraint_ok; cbn [dc_ar dc_l dc_r expr_ok term_ok].
  repeat split; try (vm_compute; intuition discriminate); try (left; vm_compute; discriminate).
Qed.
