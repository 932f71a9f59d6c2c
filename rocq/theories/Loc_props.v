(** Property theorems C28 (order of locations) and C16 (no message twice). *)
From Coq Require Import ZArith List Bool Lia Ascii String.
From Verif Require Import Cbase Loc_model Loc_spec Loc_proofs.
Import ListNotations.
Local Open Scope Z_scope.

(** A file table for the examples: file 3 is derived from file 2 (a preprocessed copy). *)
Local Definition ft0 : ftable := FT (fun f => if f =? 3 then 2 else -1) (fun _ => false) (fun _ => false) (fun _ => []).
Local Definition at_ (f l c : Z) : loc := Loc FL_NORMAL f l c.

(** ** C28 *)

(** Comparison is a total order, and its sign is the order unknown < file < line < column. *)
Theorem C28_total_order : 
  (forall a b, fl_compare a b = - fl_compare b a) /\
  (forall a b c, fl_compare a b <= 0 -> fl_compare b c <= 0 -> fl_compare a c <= 0) /\
  (forall a b, fl_compare a b = 0 <-> same_place a b) /\
  (forall a b, fl_compare a b < 0 <-> before a b).
Proof.
  split; [exact compare_neg|]. split; [exact compare_trans|]. split; [exact compare_zero|exact compare_lt].
Qed.
Print Assumptions C28_total_order.

Example C28_total_order_ex :
  fl_compare (Some (at_ 1 7 30)) (Some (at_ 1 9 2)) = -1 /\
  fl_compare (Some (at_ 2 1 1)) (Some (at_ 1 9 2)) = 1 /\
  fl_compare None (Some (at_ 1 9 2)) = -1.
Proof. repeat split. Qed.

(** Strictly before: the order, for two known locations. *)
Theorem C28_lessthan : forall a b,
  fl_lessthan a b = true <-> a <> None /\ b <> None /\ fl_compare a b < 0.
Proof. exact lessthan_iff. Qed.
Print Assumptions C28_lessthan.

(** Not after: inside one file, the order. *)
Theorem C28_notAfter : forall a b, l_fid a = l_fid b ->
  (fl_notAfter (Some a) (Some b) = true <-> fl_compare (Some a) (Some b) <= 0).
Proof. exact notAfter_iff. Qed.
Print Assumptions C28_notAfter.

Example C28_notAfter_ex :
  fl_notAfter (Some (at_ 1 7 30)) (Some (at_ 1 7 30)) = true /\
  fl_notAfter (Some (at_ 1 8 1)) (Some (at_ 1 7 30)) = false.
Proof. repeat split. Qed.

(** Equality: in source files not derived from one another, the zero of the order. *)
Theorem C28_equal_source : forall ft a b, source_loc a -> source_loc b -> unrelated ft a b ->
  (fl_equal ft (Some a) (Some b) = true <-> fl_compare (Some a) (Some b) = 0).
Proof. intros ft a b Ha Hb U. rewrite compare_zero. apply equal_source; assumption. Qed.
Print Assumptions C28_equal_source.

Example C28_equal_source_ex :
  source_loc (at_ 1 4 2) /\ source_loc (at_ 2 4 2) /\ unrelated ft0 (at_ 1 4 2) (at_ 2 4 2) /\
  fl_equal ft0 (Some (at_ 1 4 2)) (Some (at_ 1 4 2)) = true /\
  fl_equal ft0 (Some (at_ 1 4 2)) (Some (at_ 2 4 2)) = false.
Proof.
  split; [split; simpl; [lia|exact I]|]. split; [split; simpl; [lia|exact I]|].
  split; [|split; reflexivity].
  intros r [->|[H K]] [H'|[H' K']]; cbn in *; lia.
Qed.

(** Outside that, equality is not the zero of the order: a library location is not equal
    to a copy of itself, and a location in a derived file is equal to a different one. *)
Theorem C28_equal_library_refuted : exists a, fl_compare (Some a) (Some a) = 0 /\
  forall ft, fl_equal ft (Some a) (Some a) = false.
Proof. exists (Loc FL_LIB 5 1 1). split; [reflexivity|]. intros ft. vm_compute. reflexivity. Qed.
Print Assumptions C28_equal_library_refuted.

Theorem C28_equal_derived_refuted : exists ft a b, source_loc a /\ source_loc b /\
  fl_equal ft (Some a) (Some b) = true /\ fl_compare (Some a) (Some b) <> 0.
Proof.
  exists ft0, (at_ 2 4 2), (at_ 3 4 2). split; [split; simpl; [lia|exact I]|].
  split; [split; simpl; [lia|exact I]|]. split; [reflexivity|]. vm_compute. discriminate.
Qed.
Print Assumptions C28_equal_derived_refuted.

(** ** C16 *)

(** For every sequence of messages in source files, a message goes on to be reported
    exactly when no earlier one has the same place and text. *)
Theorem C16_first_occurrences : forall ft ms, source_messages ft ms -> marks_first ms (reported ft ms).
Proof. exact reported_first. Qed.
Print Assumptions C16_first_occurrences.

Example C16_first_occurrences_ex :
  let m1 := (Some (at_ 1 9 2), lit "Variable x used before definition") in
  let m2 := (Some (at_ 1 4 7), lit "Return value ignored") in
  let m3 := (Some (at_ 2 9 2), lit "Variable x used before definition") in
  let ms := [m1; m2; m1; m3; m2; m3] in
  source_messages ft0 ms /\ reported ft0 ms = [true; true; false; true; false; false].
Proof.
  cbv zeta. split; [|vm_compute; reflexivity]. split.
  - intros f t K. simpl in K.
    repeat (destruct K as [K|K]; [injection K as <- <-; eexists; split; [reflexivity|split; simpl; [lia|exact I]]|]).
    destruct K.
  - intros a s b t Ha Hb. simpl in Ha, Hb.
    repeat (destruct Ha as [Ha|Ha]; [injection Ha as <- _|]); try destruct Ha;
    repeat (destruct Hb as [Hb|Hb]; [injection Hb as <- _|]); try destruct Hb;
    intros r [->|[H K]] [H'|[H' K']]; cbn in *; lia.
Qed.

(** The restriction is needed.  Library locations: the same message is reported again. *)
Theorem C16_library_refuted : exists ms m, nth_error ms 0 = Some m /\ nth_error ms 1 = Some m /\
  forall ft, reported ft ms = [true; true].
Proof.
  exists [(Some (Loc FL_LIB 5 1 1), lit "m"); (Some (Loc FL_LIB 5 1 1), lit "m")]. eexists.
  split; [reflexivity|]. split; [reflexivity|]. intros ft. vm_compute. reflexivity.
Qed.
Print Assumptions C16_library_refuted.

(** Unknown locations: mixed with known ones, a known message is reported twice. *)
Theorem C16_unknown_refuted : exists ms m, nth_error ms 0 = Some m /\ nth_error ms 2 = Some m /\
  reported ft0 ms = [true; true; true].
Proof.
  exists [(Some (at_ 1 4 7), lit "b"); (None, lit "a"); (Some (at_ 1 4 7), lit "b")]. eexists.
  split; [reflexivity|]. split; [reflexivity|]. vm_compute. reflexivity.
Qed.
Print Assumptions C16_unknown_refuted.

(** Derived files: a message at the same position of a derived file is taken for a
    repetition and dropped. *)
Theorem C16_derived_refuted : exists ms a b, nth_error ms 0 = Some (Some a, lit "m") /\
  nth_error ms 1 = Some (Some b, lit "m") /\ l_fid a <> l_fid b /\ reported ft0 ms = [true; false].
Proof.
  exists [(Some (at_ 3 4 7), lit "m"); (Some (at_ 2 4 7), lit "m")]. do 2 eexists.
  split; [reflexivity|]. split; [reflexivity|]. split; [discriminate|]. vm_compute. reflexivity.
Qed.
Print Assumptions C16_derived_refuted.
