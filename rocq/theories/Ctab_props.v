(** C33, C36: the table of types (src/cttable.i, src/ctype.c).  [eq] and [eqs] decide which composite
    types are shared; every theorem holds whatever they answer. *)
From Coq Require Import ZArith Bool List Lia.
Import ListNotations.
From Verif Require Import Cbase Ctab_model Ctab_spec Ctab_proofs.
Local Open Scope Z_scope.

(** C33. Every existing type has a pointer type; from then on, whatever else is built, asking for
    the pointer type again gives the same one without changing the table, and following it gives
    the element type back. *)
Theorem C33_pointer : forall eq eqs ops c, let t := run eq eqs ops cttable_init in existing t c ->
  exists t' p, makePointer t c = Some (t', p) /\
    (forall later, let t2 := run eq eqs later t' in
       makePointer t2 c = Some (t2, p) /\ baseArrayPtr t2 p = Some c).
Proof. exact pointer_stable. Qed.
Print Assumptions C33_pointer.

(** C33. The same for arrays of unspecified size. *)
Theorem C33_array : forall eq eqs ops c, let t := run eq eqs ops cttable_init in existing t c ->
  exists t' p, makeArray t c = Some (t', p) /\
    (forall later, let t2 := run eq eqs later t' in
       makeArray t2 c = Some (t2, p) /\ baseArrayPtr t2 p = Some c).
Proof. exact array_stable. Qed.
Print Assumptions C33_array.

(** C33. An array of [n] elements keeps its element type and size. *)
Theorem C33_fixed_array : forall eq eqs ops c n, let t := run eq eqs ops cttable_init in existing t c ->
  exists t' p, makeFixedArray t c n = Some (t', p) /\
    (forall later, let t2 := run eq eqs later t' in
       baseArrayPtr t2 p = Some c /\ getArraySize t2 p = Some n).
Proof. exact fixed_stable. Qed.
Print Assumptions C33_fixed_array.

(** A history with pointers to pointers, a shared structure type and a function type. *)
Definition ex_ops : list op :=
  [OpPtr 5; OpPtr 24; OpUser (CBuser 7); OpComplex (CBstruct (lit "s") (lit "")); OpComplex (CBfcn 58 (lit ""));
   OpArr 59; OpPtr 60; OpFix 60 4; OpInner 64 (Some 3)].
Definition ex_t : table := run (fun _ _ _ => false) (fun _ _ _ => false) ex_ops cttable_init.
Example C33_pointer_ex :
  size ex_t = 67 /\ existing ex_t 65 /\
  option_map snd (makePointer ex_t 65) = Some 67 /\ option_map snd (makePointer ex_t 5) = Some 24 /\
  baseArrayPtr ex_t 58 = Some 24 /\ baseArrayPtr ex_t 24 = Some 5.
Proof. unfold existing. vm_compute. repeat split; discriminate. Qed.

(** C33. Different element types have different pointer types, at any two moments. *)
Theorem C33_distinct : forall eq eqs ops later c1 c2 t1 t2 p, let t := run eq eqs ops cttable_init in
  existing t c1 -> makePointer t c1 = Some (t1, p) ->
  existing (run eq eqs later t1) c2 -> makePointer (run eq eqs later t1) c2 = Some (t2, p) -> c1 = c2.
Proof. exact pointer_distinct. Qed.
Print Assumptions C33_distinct.

(** C33. Every type number has exactly one meaning ... *)
Theorem C33_meaning_unique : forall eq eqs ops c, let t := run eq eqs ops cttable_init in
  0 <= c < size t -> exists a, means t c a /\ forall b, means t c b -> b = a.
Proof. exact meaning_exists. Qed.
Print Assumptions C33_meaning_unique.

(** ... the constructors build what they are asked to build ... *)
Theorem C33_meaning_built : forall eq eqs ops c a, let t := run eq eqs ops cttable_init in
  0 <= c < size t -> means t c a ->
  (exists t' p, makePointer t c = Some (t', p) /\ means t' p (TyPtr a)) /\
  (exists t' p, makeArray t c = Some (t', p) /\ means t' p (TyArr a)) /\
  (forall n, exists t' p, makeFixedArray t c n = Some (t', p) /\ means t' p (TyFix a n)).
Proof. exact constructor_meaning. Qed.
Print Assumptions C33_meaning_built.

(** ... and nothing that is built later changes the meaning of a type number. *)
Theorem C33_meaning_kept : forall eq eqs ops later c a,
  means (run eq eqs ops cttable_init) c a -> means (run eq eqs later (run eq eqs ops cttable_init)) c a.
Proof. exact meaning_stable. Qed.
Print Assumptions C33_meaning_kept.
Example C33_meaning_ex : means ex_t 66 (TyFix (TyFix (TyLeaf 60) 3) 4).
Proof.
  eapply means_fix; [vm_compute; reflexivity|]. eapply means_fix; [vm_compute; reflexivity|].
  eapply means_leaf; vm_compute; reflexivity.
Qed.

(** Finding: arrays of the same size and element type are different type numbers each time they are
    written, so they are not equal for the tests that compare type numbers (ctype_compare). *)
Theorem C33_fixed_array_refuted : exists c n t1 p1 t2 p2,
  existing cttable_init c /\ makeFixedArray cttable_init c n = Some (t1, p1) /\
  makeFixedArray t1 c n = Some (t2, p2) /\ p1 <> p2.
Proof. exists 5, 3. do 4 eexists. unfold existing. vm_compute. repeat split; discriminate. Qed.
Print Assumptions C33_fixed_array_refuted.

(** C36. The suffixes [d1]...[dk] ([Some n] for "[n]", [None] for "[]") written after a declared name
    build nested arrays in C's order, and the dimensions are read back in that order. *)
Theorem C36_dimensions : forall eq eqs ops c ds, let t := run eq eqs ops cttable_init in
  existing t c -> isArray t c = false ->
  exists t' r, declare t c ds = Some (t', r)
    /\ readDims (List.length ds) t' r = Some (ds, c)
    /\ (forall a, means t c a -> means t' r (nest ds a)).
Proof. exact dims_ok. Qed.
Print Assumptions C36_dimensions.
Example C36_dimensions_ex :
  option_map snd (declare cttable_init 5 [None; Some 2; Some 3]) = Some 62 /\
  match declare cttable_init 5 [None; Some 2; Some 3] with
  | Some (t, r) => readDims 3 t r = Some ([None; Some 2; Some 3], 5)
  | None => False
  end.
Proof. vm_compute. auto. Qed.
