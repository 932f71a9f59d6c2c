(** Initializers with braces: what users rely on. *)
From Verif Require Import Cbase Inits_model Inits_spec Inits_proofs.
Open Scope nat_scope.

(** For examples: values are numbers; value [k] fits the scalar type number [k], 0 fits char, 9 is
    a string (and fits char pointers). *)
Definition ml (t : ty) (l : nat) : bool :=
  match t with TScalar k => k =? l | TChar => l =? 0 | TPtr TChar => l =? 9 | _ => false end.
Definition ms (l : nat) : bool := l =? 9.
Definition on : iflags := {| initsize := true; initallelements := true; fullinitblock := true; type_ := true |}.
Definition nofull : iflags := {| initsize := true; initallelements := true; fullinitblock := false; type_ := true |}.
Definition S1 := TScalar 1.
(** [struct { int a[2]; char s[4]; }] with [{ {1, 1}, {"..."} }]. *)
Definition ex_t := TStruct [TArr S1 (Some 2); TArr TChar None].
Definition ex_v : init nat := Block [Block [Leaf 1; Leaf 1]; Block [Leaf 9]].

Ltac no_more :=
  repeat match goal with
         | H : Inits_spec.sub _ _ _ (Block _) _ _ _ |- _ => inversion H; clear H; subst
         | H : Inits_spec.sub _ _ _ (Leaf _) _ _ _ |- _ => inversion H; clear H; subst
         | H : nth_error (_ :: _) 0 = Some _ |- _ => cbn [nth_error] in H; inversion H; clear H; subst
         | H : nth_error (_ :: _) (S _) = Some _ |- _ => cbn [nth_error] in H
         | H : nth_error [] ?k = Some _ |- _ => destruct k; discriminate H
         | H : nth_error (_ :: _) ?k = Some _ |- _ => is_var k; destruct k
         | H : ~ Inits_spec.braced_string _ _ _ (Block [Leaf 9]) |- _ => exfalso; apply H; now constructor
         end.

(** With initsize, fullinitblock and type checking on, an initializer without designations and
    without blocks for pointers that is not reported is a valid initializer of C. *)
Theorem C152_silence_partial : forall leaf matches is_string fl t v,
  initsize fl = true -> fullinitblock fl = true -> type_ fl = true ->
  undesignated leaf is_string t v -> no_pointer_block leaf is_string t v ->
  check leaf matches is_string fl t v = [] -> valid leaf matches is_string t v.
Proof. intros. apply (silent_valid leaf matches is_string fl); assumption. Qed.
Print Assumptions C152_silence_partial.

Example ex_silent : check nat ml ms on ex_t ex_v = [] /\
  undesignated nat ms ex_t ex_v /\ no_pointer_block nat ms ex_t ex_v.
Proof.
  split; [reflexivity |]. unfold ex_t, ex_v. split.
  - intros p t' d w H. no_more.
  - intros p t' vs H. no_more.
Qed.

(** Without fullinitblock the values of a structure with fewer values than fields are not looked
    at: any value passes. *)
Theorem C152_short_struct_refuted : exists t v,
  check nat ml ms nofull t v = [] /\ undesignated nat ms t v /\ no_pointer_block nat ms t v /\
  ~ valid nat ml ms t v.
Proof.
  exists (TStruct [S1; S1]), (Block [Leaf 2]). split; [reflexivity |].
  split; [intros p t' d w H; no_more; discriminate |].
  split; [intros p t' vs H; no_more; discriminate |].
  intro V. inversion V as [| | | t ps vs P C]; subst; [contradiction |]. inversion P; subst.
  inversion C; subst.
  - match goal with H : valid _ _ _ _ _ |- _ => inversion H; discriminate end.
  - match goal with H : parts S1 _ |- _ => inversion H end.
Qed.
Print Assumptions C152_short_struct_refuted.

(** A block with two values for a pointer is not reported, though invalid. *)
Theorem C152_pointer_refuted : exists t v,
  check nat ml ms on t v = [] /\ undesignated nat ms t v /\ ~ valid nat ml ms t v.
Proof.
  exists (TPtr S1), (Block [Leaf 1; Leaf 1]). split; [reflexivity |].
  split; [intros p t' d w H; no_more |].
  intro V. inversion V as [| | | t ps vs P C]; subst. inversion P.
Qed.
Print Assumptions C152_pointer_refuted.

(** A designation is not checked: neither that the index is in the array nor the value. *)
Theorem C152_designation_refuted : exists e n d w,
  check nat ml ms on (TArr e (Some n)) (Block [Desig d w]) = [] /\ n <= d /\ ~ valid nat ml ms e w.
Proof.
  exists S1, 1, 5, (Leaf 2). split; [reflexivity |]. split; [lia |].
  intro V. inversion V; discriminate.
Qed.
Print Assumptions C152_designation_refuted.

(** With all flags on, exactly the initializers with all braces and a value that fits for every
    part pass (no designations, blocks for pointers, strings in braces). *)
Theorem C153_exact_partial : forall leaf matches is_string fl t v,
  initsize fl = true -> fullinitblock fl = true -> type_ fl = true -> initallelements fl = true ->
  undesignated leaf is_string t v -> no_pointer_block leaf is_string t v ->
  no_braced_string leaf is_string t v ->
  (check leaf matches is_string fl t v = [] <-> full leaf matches t v).
Proof.
  intros. split.
  - intro. apply (silent_full leaf matches is_string fl); assumption.
  - apply full_silent.
Qed.
Print Assumptions C153_exact_partial.

(** Those pass with any setting of the flags and whatever else holds of them. *)
Theorem C153_full : forall leaf matches is_string fl t v,
  full leaf matches t v -> check leaf matches is_string fl t v = [].
Proof. intros leaf matches is_string fl t v. apply full_silent. Qed.
Print Assumptions C153_full.

Example ex_full : full nat ml (TArr (TStruct [S1; TChar]) (Some 2)) (Block [Block [Leaf 1; Leaf 0]; Block [Leaf 1; Leaf 0]]).
Proof.
  apply (f_block nat ml _ [TStruct [S1; TChar]; TStruct [S1; TChar]]); [apply (p_arr _ 2) |].
  repeat constructor; apply (f_block nat ml _ [S1; TChar]); repeat constructor.
Qed.
Example ex_exact_hyps : let t := TArr S1 (Some 2) in let v := Block [Leaf 1; Leaf 1] in
  undesignated nat ms t v /\ no_pointer_block nat ms t v /\ no_braced_string nat ms t v.
Proof.
  cbv zeta. split; [intros p t' d w H; no_more |]. split; [intros p t' vs H; no_more |].
  intros p t' w H B. inversion B; subst. no_more.
Qed.

(** [int a[2][2] = {1, 1, 1, 1}] is valid C, but reported: braces may not be left out. *)
Theorem C153_elision_refuted : exists t v, valid nat ml ms t v /\
  In ([], TooMany) (check nat ml ms on t v).
Proof.
  exists (TArr (TArr S1 (Some 2)) (Some 2)), (Block [Leaf 1; Leaf 1; Leaf 1; Leaf 1]).
  split; [| now left].
  apply (v_block nat ml ms _ [TArr S1 (Some 2); TArr S1 (Some 2)]); [apply (p_arr _ 2) |].
  assert (A : valid nat ml ms S1 (Leaf 1)) by (now constructor).
  apply (c_elide nat ml ms _ [S1; S1] _ 1 _ [Leaf 1; Leaf 1]); [apply (p_arr _ 2) | |].
  - now repeat constructor.
  - apply (c_elide nat ml ms _ [S1; S1] _ 1 _ []); [apply (p_arr _ 2) | |]; now repeat constructor.
Qed.
Print Assumptions C153_elision_refuted.

(** [int x = {1}] is valid C, but reported. *)
Theorem C153_scalar_refuted : exists t v, valid nat ml ms t v /\
  check nat ml ms on t v = [([], NotAggregate)].
Proof. exists S1, (Block [Leaf 1]). split; [now constructor | reflexivity]. Qed.
Print Assumptions C153_scalar_refuted.

(** [char s[6] = {"hello"}] is valid C and sets every element, but is reported as setting one. *)
Theorem C153_string_refuted : exists t v, valid nat ml ms t v /\
  check nat ml ms on t v = [([], TooFew)].
Proof. exists (TArr TChar (Some 6)), (Block [Leaf 9]). split; [now constructor | reflexivity]. Qed.
Print Assumptions C153_string_refuted.

(** Every message is right: the part it points at has the mistake it says, and its flag is on;
    only a block with more than six values is cut off. *)
Theorem C154_right : forall leaf matches is_string fl t v p m,
  In (p, m) (check leaf matches is_string fl t v) ->
  exists t' v', sub leaf is_string t v p t' v' /\
    (m <> Additional /\ wrong leaf matches t' v' m /\ flag_of fl m = true \/
     m = Additional /\ exists vs, v' = Block vs /\ 6 < List.length vs).
Proof. intros leaf matches is_string fl t v p m. apply check_right. Qed.
Print Assumptions C154_right.

Example ex_right : check nat ml ms on (TArr (TStruct [S1; TChar]) (Some 3)) (Block [Block [Leaf 1]; Block [Leaf 1; Leaf 1]]) =
  [([], TooFew); ([0], FieldsFew); ([1; 1], BadValue)].
Proof. reflexivity. Qed.

(** Every mistake of a part is reported if its flag is on, unless the message is given that further
    errors are not. *)
Theorem C154_all : forall leaf matches is_string fl t v p t' v' m,
  sub leaf is_string t v p t' v' -> wrong leaf matches t' v' m -> flag_of fl m = true ->
  (forall q, ~ In (q, Additional) (check leaf matches is_string fl t v)) ->
  In (p, m) (check leaf matches is_string fl t v).
Proof. intros leaf matches is_string fl t v p t' v' m. apply check_complete. Qed.
Print Assumptions C154_all.

Example ex_all : let t := TArr (TStruct [S1; TChar]) (Some 3) in
  let v := Block [Block [Leaf 1]; Block [Leaf 1; Leaf 1]] in
  sub nat ms t v [1; 1] TChar (Leaf 1) /\ wrong nat ml TChar (Leaf 1) BadValue /\ flag_of on BadValue = true.
Proof.
  cbv zeta. split; [| split; [now constructor | reflexivity]].
  apply s_arr with (v := Block [Leaf 1; Leaf 1]); [intro B; inversion B | reflexivity |].
  apply s_struct with (f := TChar) (v := Leaf 1); try reflexivity. constructor.
Qed.

(** Of an array block with more than six values messages concern at most four elements, and the
    block is said to be cut off only if they concern four. *)
Theorem C155_limit : forall leaf matches is_string fl e n vs, 6 < List.length vs ->
  let ms := check leaf matches is_string fl (TArr e n) (Block vs) in
  (exists ks, List.length ks <= 4 /\ forall k q m, In (k :: q, m) ms -> In k ks) /\
  (In ([], Additional) ms ->
   exists ks, NoDup ks /\ List.length ks = 4 /\ forall k, In k ks -> exists q m, In (k :: q, m) ms).
Proof. intros leaf matches is_string fl e n vs. apply limit. Qed.
Print Assumptions C155_limit.

Example ex_limit : check nat ml ms on (TArr S1 (Some 8)) (Block (repeat (Leaf 2) 8)) =
  [([0], BadValue); ([1], BadValue); ([2], BadValue); ([3], BadValue); ([], Additional)].
Proof. reflexivity. Qed.

(** A block of up to six values is never cut off. *)
Theorem C155_short : forall leaf matches is_string fl e n vs, List.length vs <= 6 ->
  ~ In ([], Additional) (check leaf matches is_string fl (TArr e n) (Block vs)).
Proof.
  intros leaf matches is_string fl e n vs L H. apply check_right in H as (t' & v' & S & R).
  inversion S; subst. destruct R as [(H & _) | (_ & ws & E & G)]; [now apply H |].
  injection E as <-. lia.
Qed.
Print Assumptions C155_short.

(** The message that further errors are not reported is given though there are none. *)
Theorem C155_cutoff_refuted : exists t v, In ([], Additional) (check nat ml ms on t v) /\
  forall p t' v' m, sub nat ms t v p t' v' -> wrong nat ml t' v' m -> In (p, m) (check nat ml ms on t v).
Proof.
  exists (TArr S1 (Some 7)), (Block [Leaf 1; Leaf 1; Leaf 1; Leaf 2; Leaf 2; Leaf 2; Leaf 2]).
  split; [cbn; tauto |]. intros p t' v' m H W.
  no_more; inversion W; subst; cbn in *; try discriminate; try lia; tauto.
Qed.
Print Assumptions C155_cutoff_refuted.
