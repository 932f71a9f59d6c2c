(** Properties of the comparison of types.  [match_] is what ctype_match answers about a value of the
    second type where the first is expected, [matchDef] what ctype_matchDef answers about two
    declarations of one name; [Some] of it, given fuel enough.  [E], [access] and [isbool] are the
    symbol table, the abstract types whose representation may be used, and the names for boolean
    types; [same] stands for the test that two types have one index in the table of types. *)
From Coq Require Import List Bool Arith.
From Verif Require Import Prim_model Prim_spec Match_model Match_spec Match_proofs Match_more_proofs.
Import ListNotations.

(** The table for the examples: 0 is an abstract type represented by [struct s *], 1 is [struct s],
    2 a typedef for a pointer to 0, 3 one for void, 4 one for int, 5 another abstract type. *)
Definition E0 (i : nat) : entry :=
  match i with
  | 0 => Abstract false (TPtr (TUser 1))
  | 1 => TagOf (TSU false (Tag 7) [(0, TPrim P_INT)])
  | 2 => Typedef (TPtr (TAbst 0))
  | 3 => Typedef (TPrim P_VOID)
  | 4 => Typedef (TPrim P_INT)
  | 5 => Abstract true (TPrim P_INT)
  | _ => NoType
  end.
(** The same without the typedef for void, and with another representation of 0 and of 5. *)
Definition E1 (i : nat) : entry :=
  match i with
  | 0 => Abstract false (TPtr (TPrim P_CHAR))
  | 3 => NoType
  | 5 => Abstract true (TPrim P_LINT)
  | _ => E0 i
  end.
Definition E2 (i : nat) : entry := match i with 3 => NoType | _ => E0 i end.
Definition none (i : nat) : bool := false.
Definition never (a b : ty) : bool := false.
Definition checked : mflags := MF no_flags false true false false false.
Definition relaxed : mflags := MF (turn_on RelaxQuals no_flags) false true false false false.
Definition m0 (fl : mflags) (t1 t2 : ty) : option bool := match_ E0 none none false none never fl 20 t1 t2.
Definition d0 (fl : mflags) (t1 t2 : ty) : option bool := matchDef E0 none none false none never fl 20 t1 t2.

(** C84. The answer does not depend on how abstract types are represented to which there is no
    access. *)
Theorem C84_hidden_representations : forall E E' access isbool boolaccess bool_at same fl f t1 t2,
  differ_in_hidden access E E' -> forwarddecl fl = false ->
  match_ E access isbool boolaccess bool_at same fl f t1 t2
  = match_ E' access isbool boolaccess bool_at same fl f t1 t2
  /\ matchDef E access isbool boolaccess bool_at same fl f t1 t2
     = matchDef E' access isbool boolaccess bool_at same fl f t1 t2.
Proof. exact match_hidden. Qed.
Print Assumptions C84_hidden_representations.
Example C84_ex : differ_in_hidden none E2 E1
  /\ match_ E2 none none false none never checked 20 (TUser 2) (TPtr (TAbst 0)) = Some true
  /\ match_ E2 none none false none never checked 20 (TAbst 0) (TPtr (TUser 1)) = Some false
  /\ match_ E2 (fun _ => true) none false none never checked 20 (TAbst 0) (TPtr (TUser 1)) = Some true
  /\ match_ E1 (fun _ => true) none false none never checked 20 (TAbst 0) (TPtr (TUser 1)) = Some false.
Proof.
  split; [|repeat split; vm_compute; reflexivity].
  intros [|[|[|[|[|[|i]]]]]]; try (left; reflexivity); right; (split; [reflexivity|]); do 3 eexists; split; reflexivity.
Qed.

(** With +forwarddecl the answer depends on hidden representations: an abstract type represented by a
    pointer to a structure matches pointers to that structure, everywhere. *)
Theorem C84_forwarddecl_refuted : exists E E' access isbool boolaccess bool_at same fl f t1 t2,
  differ_in_hidden access E E'
  /\ match_ E access isbool boolaccess bool_at same fl f t1 t2 = Some true
  /\ match_ E' access isbool boolaccess bool_at same fl f t1 t2 = Some false.
Proof.
  exists E2, E1, none, none, false, none, never, (MF no_flags false true true false false), 20, (TAbst 0), (TPtr (TUser 1)).
  split; [exact (proj1 C84_ex)|]. split; vm_compute; reflexivity.
Qed.
Print Assumptions C84_forwarddecl_refuted.

(** C85. Types that match agree about abstract types: where one has an abstract type (to which there
    is no access) the other has the same one, whatever the flags.  Missing: arrays of abstract types,
    and types for which the index of the name happens to be that of a boolean type ([bool_at]). *)
Theorem C85_abstract_types_partial : forall E access isbool boolaccess bool_at same,
  (forall a b, same a b = true -> a = b) -> forall fl f t1 t2 x1 x2,
  forwarddecl fl = false -> (forall i, bool_at i = false) ->
  denotes E access isbool t1 x1 -> denotes E access isbool t2 x2 -> x1 <> CDots -> x2 <> CDots ->
  no_abs_array x1 = true -> no_abs_array x2 = true ->
  match_ E access isbool boolaccess bool_at same fl f t1 t2 = Some true
    \/ matchDef E access isbool boolaccess bool_at same fl f t1 t2 = Some true ->
  respects (abstvoidp fl) x1 x2 = true.
Proof. exact match_respects_all. Qed.
Print Assumptions C85_abstract_types_partial.
Example C85_ex :
  denotes E0 none none (TFcn (TUser 2) (Some [TAbst 0; TPtr (TPrim P_VOID)]))
    (CFun (CPtr (CAbs 0)) (Some [CAbs 0; CPtr CVoid]))
  /\ m0 relaxed (TFcn (TUser 2) (Some [TAbst 0; TPtr (TPrim P_VOID)]))
                (TFcn (TPtr (TAbst 0)) (Some [TAbst 0; TPtr (TPtr (TAbst 0))])) = Some true
  /\ m0 relaxed (TFcn (TUser 2) (Some [TAbst 0; TPtr (TPrim P_VOID)]))
                (TFcn (TUser 2) (Some [TAbst 0; TUser 2])) = Some false
  /\ respects false (CFun (CPtr (CAbs 0)) (Some [CAbs 0; CPtr CVoid]))
                    (CFun (CPtr (CAbs 0)) (Some [CAbs 0; CPtr (CAbs 0)])) = false
  /\ respects true (CPtr CVoid) (CPtr (CAbs 0)) = true /\ respects true (CPtr (CAbs 0)) (CPtr (CAbs 5)) = false
  /\ no_abs_array (CFun (CPtr (CAbs 0)) (Some [CAbs 0; CPtr CVoid])) = true.
Proof.
  assert (denotes E0 none none (TAbst 0) (CAbs 0)) as A.
  { apply (den_abs _ _ _ false 0 (TPtr (TUser 1))); reflexivity. }
  split; [|repeat split; vm_compute; reflexivity].
  den.
  apply den_typedef with (t := TPtr (TAbst 0)); [reflexivity..|now apply den_ptr|discriminate].
Qed.

(** An array of values of an abstract type is accepted for [void *] when the array comes first (as the
    declared type), though a pointer to them is not without +abstvoidp. *)
Theorem C85_array_refuted : exists fl t1 t2 x1 x2,
  forwarddecl fl = false /\ abstvoidp fl = false
  /\ denotes E0 none none t1 x1 /\ denotes E0 none none t2 x2
  /\ m0 fl t1 t2 = Some true /\ m0 fl t2 t1 = Some false /\ respects (abstvoidp fl) x1 x2 = false.
Proof.
  exists checked, (TArr (TAbst 0)), (TPtr (TPrim P_VOID)), (CArr None (CAbs 0)), (CPtr CVoid).
  split; [reflexivity|]. split; [reflexivity|]. split.
  { apply den_arr. apply (den_abs _ _ _ false 0 (TPtr (TUser 1))); reflexivity. }
  split; [apply den_ptr, den_void|]. repeat split; vm_compute; reflexivity.
Qed.
Print Assumptions C85_array_refuted.

(** A boolean is accepted for an abstract type, if the number of the abstract type's name happens to be
    the index of a boolean type: the wrong member of a union is read. *)
Theorem C85_boolean_refuted : exists bool_at fl t1 t2 x1 x2,
  forwarddecl fl = false /\ denotes E0 none none t1 x1 /\ denotes E0 none none t2 x2
  /\ match_ E0 none none false bool_at never fl 20 t1 t2 = Some true /\ respects (abstvoidp fl) x1 x2 = false.
Proof.
  exists (fun i => Nat.eqb i 0), checked, (TAbst 0), TBool, (CAbs 0), CBool.
  split; [reflexivity|]. split; [apply (den_abs _ _ _ false 0 (TPtr (TUser 1))); reflexivity|].
  split; [apply den_bool|]. split; vm_compute; reflexivity.
Qed.
Print Assumptions C85_boolean_refuted.

(** With +forwarddecl pointers to the structure match the abstract type. *)
Theorem C85_forwarddecl_refuted : exists fl t1 t2 x1 x2,
  denotes E0 none none t1 x1 /\ denotes E0 none none t2 x2
  /\ m0 fl t1 t2 = Some true /\ respects (abstvoidp fl) x1 x2 = false.
Proof.
  exists (MF no_flags false true true false false), (TAbst 0), (TPtr (TUser 1)), (CAbs 0), (CPtr (CRec false 7)).
  split; [apply (den_abs _ _ _ false 0 (TPtr (TUser 1))); reflexivity|].
  split; [apply den_ptr; eapply den_tag_rec; reflexivity|]. split; vm_compute; reflexivity.
Qed.
Print Assumptions C85_forwarddecl_refuted.

(** C86. With the flags off which make splint accept more, a value of the second type is accepted for the
    first exactly if C allows it without a cast (6.3.16.1), with only widening conversions between
    arithmetic types if relaxquals is on and none otherwise.  Missing: pointers to void, arrays and
    functions as such inside of other types, functions and arrays of known size with relaxquals, names
    for void, and the pairs of [odd_pair]. *)
Theorem C86_exact_partial : forall E access isbool boolaccess bool_at same,
  (forall a b, same a b = true -> a = b) -> forall fl f t1 t2 x1 x2 b,
  strict fl -> (forall i, bool_at i = false) -> void_has_no_name E access isbool ->
  denotes E access isbool t1 x1 -> denotes E access isbool t2 x2 ->
  bare_inside x1 = true -> bare_inside x2 = true -> odd_pair x1 x2 = false ->
  relaxquals (prims fl) = false \/ (plain x1 = true /\ plain x2 = true) ->
  match_ E access isbool boolaccess bool_at same fl f t1 t2 = Some b ->
  b = passes (fun p q => if relaxquals (prims fl) then wider p q else peq p q) x1 x2.
Proof. exact match_exact. Qed.
Print Assumptions C86_exact_partial.
(** A function taking a pointer to a typedef for int, matched with a pointer to such a function; an array,
    a pointer to void and a pointer to int. *)
Example C86_ex :
  strict checked /\ strict relaxed /\ void_has_no_name E2 none none
  /\ denotes E2 none none (TFcn (TPrim P_CHAR) (Some [TPtr (TUser 4); TElips]))
       (CFun (CArith P_CHAR) (Some [CPtr (CArith P_INT); CDots]))
  /\ bare_inside (CFun (CArith P_CHAR) (Some [CPtr (CArith P_INT); CDots])) = true
  /\ match_ E2 none none false none never checked 20 (TPtr (TFcn (TPrim P_CHAR) None))
       (TFcn (TPrim P_CHAR) (Some [TPtr (TUser 4); TElips])) = Some true
  /\ match_ E2 none none false none never checked 20
       (TPtr (TFcn (TPrim P_CHAR) (Some [TPtr (TPrim P_LINT); TElips])))
       (TFcn (TPrim P_CHAR) (Some [TPtr (TUser 4); TElips])) = Some false
  /\ match_ E2 none none false none never checked 20 (TArr (TUser 4)) (TPtr (TPrim P_VOID)) = Some true
  /\ match_ E2 none none false none never relaxed 20 (TArr (TPrim P_LINT)) (TPtr (TUser 4)) = Some false
  /\ match_ E2 none none false none never relaxed 20 (TPrim P_LINT) (TUser 4) = Some true.
Proof.
  split; [repeat split|]. split; [repeat split|]. split.
  { intros t D. remember CVoid as x eqn:X. revert X.
    induction D; intros X; try discriminate; try reflexivity.
    - destruct i as [|[|[|[|[|[|i]]]]]]; try discriminate. all: injection H0 as <-.
      + specialize (IHD X). discriminate.
      + specialize (IHD X). discriminate. }
  split.
  { den.
    apply den_typedef with (t := TPrim P_INT); [reflexivity..|now apply den_arith|discriminate]. }
  repeat split; vm_compute; reflexivity.
Qed.

(** Two structures without tags are different types in C (6.1.2.6, 6.5.2.3), but match if their fields
    have the same names and matching types; with a field of another type or name they do not match. *)
Theorem C86_unnamed_structures_refuted : exists t1 t2 : ty,
  (exists i j fs, i <> j /\ t1 = TSU false (Fake i) fs /\ t2 = TSU false (Fake j) fs)
  /\ m0 checked t1 t2 = Some true /\ m0 checked (TPtr t1) (TPtr t2) = Some true
  /\ m0 checked t1 (TSU false (Fake 3) [(0, TPrim P_INT); (1, TPrim P_LINT)]) = Some false
  /\ m0 checked t1 (TSU false (Fake 3) [(0, TPrim P_LINT); (1, TUser 4)]) = Some false
  /\ m0 checked t1 (TSU false (Fake 3) [(0, TPrim P_INT); (2, TPrim P_INT)]) = Some false.
Proof.
  exists (TSU false (Fake 1) [(0, TPrim P_INT); (1, TUser 4)]), (TSU false (Fake 2) [(0, TPrim P_INT); (1, TUser 4)]).
  split; [exists 1, 2, [(0, TPrim P_INT); (1, TUser 4)]; repeat split; discriminate |].
  repeat split; vm_compute; reflexivity.
Qed.
Print Assumptions C86_unnamed_structures_refuted.

(** [void **] accepts [char **]. *)
Theorem C86_void_pointers_refuted : exists t1 t2 x1 x2,
  denotes E2 none none t1 x1 /\ denotes E2 none none t2 x2
  /\ m0 checked t1 t2 = Some true /\ passes peq x1 x2 = false.
Proof.
  exists (TPtr (TPtr (TPrim P_VOID))), (TPtr (TPtr (TPrim P_CHAR))), (CPtr (CPtr CVoid)), (CPtr (CPtr (CArith P_CHAR))).
  split; [den|]. split; [den|]. repeat split; vm_compute; reflexivity.
Qed.
Print Assumptions C86_void_pointers_refuted.

(** With relaxquals an array [int a[3]] is accepted for [long *], an array [int a[]] is not. *)
Theorem C86_fixed_array_refuted : exists t1 t2 x1 x2,
  denotes E2 none none t1 x1 /\ denotes E2 none none t2 x2
  /\ m0 relaxed t1 t2 = Some true /\ passes wider x1 x2 = false
  /\ m0 relaxed t1 (TArr (TPrim P_INT)) = Some false.
Proof.
  exists (TPtr (TPrim P_LINT)), (TFix 3 (TPrim P_INT)), (CPtr (CArith P_LINT)), (CArr (Some 3) (CArith P_INT)).
  split; [den|]. split; [den|]. repeat split; vm_compute; reflexivity.
Qed.
Print Assumptions C86_fixed_array_refuted.

(** With relaxquals a pointer to a function taking an int is accepted for one to a function taking a
    long, which will be called with longs. *)
Theorem C86_parameters_refuted : exists t1 t2 x1 x2,
  denotes E2 none none t1 x1 /\ denotes E2 none none t2 x2
  /\ m0 relaxed t1 t2 = Some true /\ passes wider x1 x2 = false.
Proof.
  exists (TPtr (TFcn (TPrim P_VOID) (Some [TPrim P_LINT]))), (TPtr (TFcn (TPrim P_VOID) (Some [TPrim P_INT]))),
    (CPtr (CFun CVoid (Some [CArith P_LINT]))), (CPtr (CFun CVoid (Some [CArith P_INT]))).
  split; [den|]. split; [den|]. repeat split; vm_compute; reflexivity.
Qed.
Print Assumptions C86_parameters_refuted.

(** A pointer to a typedef for void is not taken for a pointer to void. *)
Theorem C86_void_name_refuted : exists t1 t2 x1 x2,
  denotes E0 none none t1 x1 /\ denotes E0 none none t2 x2
  /\ m0 checked t1 t2 = Some false /\ passes peq x1 x2 = true.
Proof.
  exists (TPtr (TUser 3)), (TPtr (TPrim P_CHAR)), (CPtr CVoid), (CPtr (CArith P_CHAR)).
  split.
  { apply den_ptr. apply den_typedef with (t := TPrim P_VOID); [reflexivity..|apply den_void|discriminate]. }
  split; [den|]. repeat split; vm_compute; reflexivity.
Qed.
Print Assumptions C86_void_name_refuted.

(** A pointer to an array of three characters is accepted for [char **]. *)
Theorem C86_pointer_to_array_refuted : exists t1 t2 x1 x2,
  denotes E2 none none t1 x1 /\ denotes E2 none none t2 x2
  /\ m0 checked t1 t2 = Some true /\ passes peq x1 x2 = false.
Proof.
  exists (TPtr (TPtr (TPrim P_CHAR))), (TPtr (TFix 3 (TPrim P_CHAR))),
    (CPtr (CPtr (CArith P_CHAR))), (CPtr (CArr (Some 3) (CArith P_CHAR))).
  split; [den|]. split; [den|]. repeat split; vm_compute; reflexivity.
Qed.
Print Assumptions C86_pointer_to_array_refuted.

(** An array of pointers to functions is accepted for a pointer to a function, if the array comes first or
    has a size. *)
Theorem C86_array_of_functions_refuted : exists t1 t2 x1 x2,
  denotes E2 none none t1 x1 /\ denotes E2 none none t2 x2
  /\ m0 checked t1 t2 = Some true /\ passes peq x1 x2 = false.
Proof.
  exists (TArr (TPtr (TFcn (TPrim P_INT) None))), (TPtr (TFcn (TPrim P_INT) None)),
    (CArr None (CPtr (CFun (CArith P_INT) None))), (CPtr (CFun (CArith P_INT) None)).
  split; [den|]. split; [den|]. repeat split; vm_compute; reflexivity.
Qed.
Print Assumptions C86_array_of_functions_refuted.

(** A pointer to a pointer to a function is refused for [void *] with castfcnptr, though it does not point
    to a function. *)
Theorem C86_pointer_to_function_pointer_refuted : exists t1 t2 x1 x2,
  denotes E2 none none t1 x1 /\ denotes E2 none none t2 x2
  /\ m0 checked t1 t2 = Some false /\ passes peq x1 x2 = true.
Proof.
  exists (TPtr (TPrim P_VOID)), (TPtr (TPtr (TFcn (TPrim P_INT) None))),
    (CPtr CVoid), (CPtr (CPtr (CFun (CArith P_INT) None))).
  split; [den|]. split; [den|]. repeat split; vm_compute; reflexivity.
Qed.
Print Assumptions C86_pointer_to_function_pointer_refuted.

(** C87. Two types which are the same once typedefs and accessible abstract types are expanded always
    match, whatever the flags, as do two declarations with them. *)
Theorem C87_same_type : forall E access isbool boolaccess bool_at same fl f t1 t2 x b,
  denotes E access isbool t1 x -> denotes E access isbool t2 x -> x <> CDots ->
  match_ E access isbool boolaccess bool_at same fl f t1 t2 = Some b
    \/ matchDef E access isbool boolaccess bool_at same fl f t1 t2 = Some b ->
  b = true.
Proof. exact match_equal. Qed.
Print Assumptions C87_same_type.
Example C87_ex :
  denotes E0 none none (TUser 2) (CPtr (CAbs 0)) /\ denotes E0 none none (TPtr (TAbst 0)) (CPtr (CAbs 0))
  /\ m0 checked (TUser 2) (TPtr (TAbst 0)) = Some true /\ d0 checked (TUser 2) (TPtr (TAbst 0)) = Some true
  /\ denotes E0 (fun _ => true) none (TUser 2) (CPtr (CPtr (CRec false 7))).
Proof.
  assert (denotes E0 none none (TAbst 0) (CAbs 0)) as A.
  { apply (den_abs _ _ _ false 0 (TPtr (TUser 1))); reflexivity. }
  split. { apply den_typedef with (t := TPtr (TAbst 0)); [reflexivity..|now apply den_ptr|discriminate]. }
  split; [now apply den_ptr|]. split; [vm_compute; reflexivity|]. split; [vm_compute; reflexivity|].
  apply den_typedef with (t := TPtr (TAbst 0)); [reflexivity..| |discriminate]. apply den_ptr.
  apply (den_rep _ _ _ false 0 (TPtr (TUser 1))); try reflexivity; [|discriminate].
  apply den_ptr. eapply den_tag_rec; reflexivity.
Qed.

(** C88. The comparison comes to an end for all types which stand for a type of C. *)
Theorem C88_comparison_ends : forall E access isbool boolaccess bool_at same fl t1 t2 x1 x2,
  denotes E access isbool t1 x1 -> denotes E access isbool t2 x2 ->
  exists n, forall f, n <= f ->
    match_ E access isbool boolaccess bool_at same fl f t1 t2 <> None
    /\ matchDef E access isbool boolaccess bool_at same fl f t1 t2 <> None.
Proof. exact match_ends_top. Qed.
Print Assumptions C88_comparison_ends.
Example C88_ex : m0 checked (TUser 2) (TPtr (TPrim P_CHAR)) = Some false
  /\ match_ E0 none none false none never checked 2 (TUser 2) (TPtr (TPrim P_CHAR)) = None.
Proof. split; vm_compute; reflexivity. Qed.
(** Two typedefs for each other, which stand for no type, would make it run forever. *)
Theorem C88_cycle_refuted : exists E t1 t2, forall access boolaccess bool_at fl f,
  match_ E access none boolaccess bool_at never fl f t1 t2 = None.
Proof.
  exists (fun i => match i with 0 => Typedef (TUser 1) | 1 => Typedef (TUser 0) | _ => NoType end),
    (TUser 0), (TPrim P_INT).
  intros access boolaccess bool_at fl f. cbn [match_ never]. destruct f as [|f]; [reflexivity|].
  cbn [gen]. unfold gen_step. cbn [undef orb base_real ua none].
  assert (forall f i, i <= 1 ->
    real_id (fun i => match i with 0 => Typedef (TUser 1) | 1 => Typedef (TUser 0) | _ => NoType end)
      access none f i = None) as R.
  { clear. induction f as [|f IH]; intros [|[|i]] L; try reflexivity.
    - exact (IH 1 (le_n 1)).
    - exact (IH 0 (le_0_n 1)).
    - exfalso. now apply le_S_n, Nat.nle_succ_0 in L. }
  rewrite R by auto. reflexivity.
Qed.
Print Assumptions C88_cycle_refuted.

(** C89. Two declarations of one name agree for splint exactly if their types are compatible (6.1.2.6).
    Missing: pointers to void, arrays, and a function declared as a pointer. *)
Theorem C89_redeclaration_partial : forall E access isbool boolaccess bool_at same,
  (forall a b, same a b = true -> a = b) -> forall fl f t1 t2 x1 x2 b,
  strict fl -> (forall i, bool_at i = false) ->
  denotes E access isbool t1 x1 -> denotes E access isbool t2 x2 ->
  bare x1 = true -> bare x2 = true -> mix x1 x2 = false ->
  matchDef E access isbool boolaccess bool_at same fl f t1 t2 = Some b -> b = compatible x1 x2.
Proof. exact redeclare_exact. Qed.
Print Assumptions C89_redeclaration_partial.
Example C89_ex :
  d0 relaxed (TFcn (TUser 2) (Some [TUser 4])) (TFcn (TPtr (TAbst 0)) (Some [TPrim P_INT])) = Some true
  /\ d0 relaxed (TFcn (TUser 2) (Some [TPrim P_LINT])) (TFcn (TPtr (TAbst 0)) (Some [TPrim P_INT])) = Some false
  /\ d0 relaxed (TFcn (TUser 2) None) (TFcn (TPtr (TAbst 0)) (Some [TPrim P_INT])) = Some true
  /\ bare (CFun (CPtr (CAbs 0)) (Some [CArith P_INT])) = true.
Proof. repeat split; vm_compute; reflexivity. Qed.

(** The sizes of arrays are not compared. *)
Theorem C89_array_size_refuted : exists t1 t2 x1 x2,
  denotes E2 none none t1 x1 /\ denotes E2 none none t2 x2
  /\ d0 checked t1 t2 = Some true /\ compatible x1 x2 = false.
Proof.
  exists (TFix 3 (TPrim P_INT)), (TFix 4 (TPrim P_INT)), (CArr (Some 3) (CArith P_INT)), (CArr (Some 4) (CArith P_INT)).
  split; [den|]. split; [den|]. repeat split; vm_compute; reflexivity.
Qed.
Print Assumptions C89_array_size_refuted.

(** [void *p] may be declared again as [char *p]. *)
Theorem C89_void_pointer_refuted : exists t1 t2 x1 x2,
  denotes E2 none none t1 x1 /\ denotes E2 none none t2 x2
  /\ d0 checked t1 t2 = Some true /\ compatible x1 x2 = false.
Proof.
  exists (TPtr (TPrim P_VOID)), (TPtr (TPrim P_CHAR)), (CPtr CVoid), (CPtr (CArith P_CHAR)).
  split; [den|]. split; [den|]. repeat split; vm_compute; reflexivity.
Qed.
Print Assumptions C89_void_pointer_refuted.

(** A function may be declared again as a pointer to a function. *)
Theorem C89_function_pointer_refuted : exists t1 t2 x1 x2,
  denotes E2 none none t1 x1 /\ denotes E2 none none t2 x2
  /\ d0 checked t1 t2 = Some true /\ compatible x1 x2 = false.
Proof.
  exists (TFcn (TPrim P_INT) None), (TPtr (TFcn (TPrim P_INT) None)),
    (CFun (CArith P_INT) None), (CPtr (CFun (CArith P_INT) None)).
  split; [den|]. split; [den|]. repeat split; vm_compute; reflexivity.
Qed.
Print Assumptions C89_function_pointer_refuted.
