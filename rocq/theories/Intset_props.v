(** Property theorems C27: sets of integers. *)
From Coq Require Import ZArith List Bool Lia.
From Verif Require Import Cbase Intset_model Intset_spec Intset_proofs.
Import ListNotations.
Local Open Scope Z_scope.

(** Whatever is inserted in whatever order: the set holds only inserted numbers, and
    membership is reported only for them.  Missing for the full C27: the converse. *)
Theorem C27_no_invention_partial : forall ops s, is_run ops = Some s ->
  (forall x, In x (is_els s) -> In x (inserted ops)) /\
  forall q, is_member s q = true -> In q (inserted ops).
Proof.
  intros ops s H. destruct (no_invention ops s H) as [_ K]. split; [exact K|].
  intros q Hq. apply K. apply member_sound. exact Hq.
Qed.
Print Assumptions C27_no_invention_partial.

(** No number is lost from the iteration, unless an uninitialised slot happens to hold it. *)
Theorem C27_no_loss_partial : forall ops s, is_run ops = Some s -> clean ops ->
  forall x, In x (inserted ops) -> In x (is_els s).
Proof. exact no_loss. Qed.
Print Assumptions C27_no_loss_partial.

Example C27_no_loss_ex :
  let ops := [(5, 0); (9, 0); (2, 0); (7, 0); (5, 0); (1, 0)] in
  (exists s, is_run ops = Some s /\ is_els s = [1; 2; 5; 9; 7]) /\ clean ops.
Proof. split; [eexists; vm_compute; split; reflexivity|]. repeat constructor; discriminate. Qed.

(** Insertions in ascending order, as the mode-change warning makes them, give exactly
    the sorted list of distinct numbers, up to the four slots of the first array. *)
Theorem C27_ascending_partial : forall ops, clean ops -> ascending (inserted ops) ->
  distinct (inserted ops) <= 4 ->
  exists s, is_run ops = Some s /\ NoDup (is_els s) /\ is_entries s = distinct (inserted ops) /\
    forall x, In x (is_els s) <-> In x (inserted ops).
Proof.
  intros ops Hc Ha Hd. destruct (ascending_run ops Hc Ha Hd) as (s & E & _ & So & I).
  exists s. split; [exact E|]. split; [apply sorted_nodup; exact So|]. split; [|exact I].
  apply same_elems_len; [apply sorted_nodup; exact So|exact I].
Qed.
Print Assumptions C27_ascending_partial.

Example C27_ascending_ex :
  let ops := [(3, 0); (3, 0); (8, 1); (20, 1); (20, 7); (44, 9)] in
  clean ops /\ ascending (inserted ops) /\ distinct (inserted ops) = 4 /\
  exists s, is_run ops = Some s /\ is_els s = [3; 8; 20; 44].
Proof.
  split; [repeat constructor; discriminate|]. split.
  - simpl. repeat split; intros y K; repeat (destruct K as [<-|K]; [discriminate|]); destruct K.
  - split; [reflexivity|]. eexists. vm_compute. split; reflexivity.
Qed.

(** The full statement is false: 3, 2, 1 leaves 2 unreported, and inserting it again
    makes the size wrong. *)
Theorem C27_member_refuted : exists ops s q, clean ops /\ is_run ops = Some s /\
  In q (inserted ops) /\ is_member s q = false.
Proof.
  exists [(3, 0); (2, 0); (1, 0)]. eexists. exists 2.
  split; [repeat constructor; discriminate|]. split; [vm_compute; reflexivity|].
  split; [simpl; tauto|reflexivity].
Qed.
Print Assumptions C27_member_refuted.

Theorem C27_size_refuted : exists ops s, clean ops /\ is_run ops = Some s /\
  is_entries s <> distinct (inserted ops).
Proof.
  exists [(3, 0); (2, 0); (1, 0); (2, 0)]. eexists.
  split; [repeat constructor; discriminate|]. split; [vm_compute; reflexivity|].
  vm_compute. discriminate.
Qed.
Print Assumptions C27_size_refuted.

(** A new maximum inserted into a full array reads past its end. *)
Theorem C27_overread_refuted : exists ops, clean ops /\ ascending (inserted ops) /\ is_run ops = None.
Proof.
  exists [(1, 0); (2, 0); (3, 0); (4, 0); (5, 0)].
  split; [repeat constructor; discriminate|]. split; [|reflexivity].
  simpl. repeat split; intros y K; repeat (destruct K as [<-|K]; [discriminate|]); destruct K.
Qed.
Print Assumptions C27_overread_refuted.

(** Before that, the slot read is uninitialised: if it happens to hold the number, the
    number is dropped. *)
Theorem C27_uninitialised_refuted : exists ops s, is_run ops = Some s /\
  exists x, In x (inserted ops) /\ ~ In x (is_els s).
Proof.
  exists [(1, 0); (2, 2)]. eexists. split; [vm_compute; reflexivity|].
  exists 2. split; [simpl; auto|]. simpl. intros [K|[]]. discriminate.
Qed.
Print Assumptions C27_uninitialised_refuted.
