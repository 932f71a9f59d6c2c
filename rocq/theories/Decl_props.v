(** C55-C58: the type the parser gives to a declared name (src/cgrammar.y, src/ctype.c, src/ctbase.i).
    [named] tells declarations of names from abstract declarators (casts, sizeof, unnamed parameters)
    and old-style function headers. *)
From Coq Require Import ZArith Bool List Lia.
Import ListNotations.
From Verif Require Import Cbase Decl_model Decl_spec Decl_proofs.
Local Open Scope Z_scope.

(** C55. Every legal declarator without parentheses gets the type C gives it. *)
Theorem C55_unparenthesised : forall named d, unparenthesised d -> legal (c_decl d Base) ->
  declared named d = Some (c_decl d Base).
Proof. exact unparenthesised_ok. Qed.
Print Assumptions C55_unparenthesised.
(** int **x[][2][3]; int *x(p7); *)
Example C55_ex :
  let d := DStars 2 (DFix (DFix (DArr DId) 2) 3) in
  unparenthesised d /\ legal (c_decl d Base) /\
  declared true d = Some (Arr (Fix (Fix (Ptr (Ptr Base)) 3) 2)) /\
  declared false (DStars 1 (DFun DId 7)) = Some (Fcn (Ptr Base) 7).
Proof. cbn. repeat split; reflexivity. Qed.

(** C56. Pointers (of any depth) to functions returning pointers (of any depth), and arrays of
    unspecified size of them, get the type C gives them. *)
Theorem C56_function_pointer : forall named m n ds ps, n <> O -> Forall (fun d => d = None) ds ->
  let d := stars m (DFun (DPar (DStars n (suffixes DId ds))) ps) in
  declared named d = Some (c_decl d Base).
Proof. exact function_pointer_ok. Qed.
Print Assumptions C56_function_pointer.
(** int * ( **x[])(p7) *)
Example C56_ex :
  let d := stars 1 (DFun (DPar (DStars 2 (suffixes DId [None]))) 7) in
  d = DStars 1 (DFun (DPar (DStars 2 (DArr DId))) 7) /\
  declared true d = Some (Arr (Ptr (Ptr (Fcn (Ptr Base) 7)))).
Proof. cbn. split; reflexivity. Qed.

(** With sizes, everything but the sizes is right: every size is lost. *)
Theorem C56_sizes_lost : forall named m n ds ps, n <> O ->
  declared named (stars m (DFun (DPar (DStars n (suffixes DId ds))) ps))
  = Some (arrays (map (fun _ => None) ds) (ptrs n (Fcn (ptrs m Base) ps))).
Proof.
  intros named m n ds ps H. rewrite function_pointer by exact H. f_equal.
  rewrite <- arrs_arrays by (apply Forall_forall; intros d I; apply in_map_iff in I as (x & <- & _); reflexivity).
  rewrite map_length. reflexivity.
Qed.
Print Assumptions C56_sizes_lost.
(** Finding: int ( *x[3])(p7) is an array of unspecified size. *)
Theorem C56_sizes_refuted : exists d, legal (c_decl d Base) /\
  c_decl d Base = Fix (Ptr (Fcn Base 7)) 3 /\ declared true d = Some (Arr (Ptr (Fcn Base 7))).
Proof. exists (DBase (DFun (DPar (DStars 1 (DFix DId 3))) 7)). cbn. auto. Qed.
Print Assumptions C56_sizes_refuted.

(** C57. A function returning a pointer to a function can be called, and its result called, with the
    parameters and results C gives them, and with no others. *)
Theorem C57_function_returning_function : forall named m p1 p2,
  let d := stars m (DFun (DPar (stars 1 (DFun DId p1))) p2) in
  exists t, declared named d = Some t /\
    calls (c_decl d Base) [p1; p2] (ptrs m Base) /\ calls t [p1; p2] (ptrs m Base) /\
    (forall q1 q2 u, calls t [q1; q2] u <-> calls (c_decl d Base) [q1; q2] u).
Proof.
  intros named m p1 p2 d. exists (Fcn (Fcn (ptrs m Base) p2) p1). split; [apply function_returning|].
  assert (E : c_decl d Base = Fcn (Ptr (Fcn (ptrs m Base) p2)) p1) by (destruct m; reflexivity).
  rewrite E. split; [|split].
  - repeat constructor.
  - repeat constructor.
  - intros q1 q2 u. split; intro H.
    + inversion H as [|r ps l t H1|]; subst. inversion H1 as [|r2 ps2 l2 t2 H2|]; subst.
      repeat constructor. exact H2.
    + inversion H as [|r ps l t H1|]; subst. inversion H1 as [| |r2 ps2 l2 t2 H2]; subst.
      repeat constructor. exact H2.
Qed.
Print Assumptions C57_function_returning_function.
(** signal: void ( *signal(p1))(p2) *)
Example C57_ex : declared true (DBase (DFun (DPar (DStars 1 (DFun DId 1))) 2)) = Some (Fcn (Fcn Base 2) 1)
  /\ c_decl (DBase (DFun (DPar (DStars 1 (DFun DId 1))) 2)) Base = Fcn (Ptr (Fcn Base 2)) 1.
Proof. cbn. auto. Qed.

(** C57. The pointers themselves are always lost, however many there are. *)
Theorem C57_pointers_lost : forall named m n p1 p2,
  declared named (stars m (DFun (DPar (stars n (DFun DId p1))) p2)) = Some (Fcn (Fcn (ptrs m Base) p2) p1).
Proof. exact function_returning. Qed.
Print Assumptions C57_pointers_lost.

(** C58, as far as it holds: the legal declarators of C55 and C56. *)
Theorem C58_declared_partial : forall named d,
  legal (c_decl d Base) ->
  (unparenthesised d \/
   exists m n ds ps, n <> O /\ Forall (fun x => x = None) ds /\
     d = stars m (DFun (DPar (DStars n (suffixes DId ds))) ps)) ->
  declared named d = Some (c_decl d Base).
Proof.
  intros named d L [H|(m & n & ds & ps & Hn & Hd & ->)].
  - apply unparenthesised_ok; assumption.
  - apply function_pointer_ok; assumption.
Qed.
Print Assumptions C58_declared_partial.
Example C58_ex : legal (c_decl (DBase (DFun (DPar (DStars 1 DId)) 7)) Base).
Proof. cbn. exact I. Qed.

(** Findings. Whatever stands between parentheses that are not followed by a parameter list or an
    array suffix is lost. *)
Theorem C58_parenthesised_lost : forall named m d c, build named d = Some c ->
  declared named (stars m (DPar d)) = Some (ptrs m Base).
Proof. exact parenthesised_lost. Qed.
Print Assumptions C58_parenthesised_lost.
(** int ( *x); int (x[5]); int (x(p7)) are all taken to be int. *)
Theorem C58_parenthesised_refuted : exists d1 d2 d3,
  legal (c_decl d1 Base) /\ legal (c_decl d2 Base) /\ legal (c_decl d3 Base) /\
  c_decl d1 Base = Ptr Base /\ c_decl d2 Base = Fix Base 5 /\ c_decl d3 Base = Fcn Base 7 /\
  declared true d1 = Some Base /\ declared true d2 = Some Base /\ declared true d3 = Some Base.
Proof.
  exists (DBase (DPar (DStars 1 DId))), (DBase (DPar (DBase (DFix DId 5)))), (DBase (DPar (DBase (DFun DId 7)))).
  cbn. repeat split; reflexivity.
Qed.
Print Assumptions C58_parenthesised_refuted.

(** A pointer to an array is taken to be an array of pointers. *)
Theorem C58_pointer_to_array : forall m n k, n <> O ->
  declared true (stars m (DFix (DPar (DStars n DId)) k)) = Some (Fix (ptrs n (ptrs m Base)) k).
Proof. exact pointer_to_array. Qed.
Print Assumptions C58_pointer_to_array.
(** int ( *x)[3] *)
Theorem C58_pointer_to_array_refuted : exists d, legal (c_decl d Base) /\
  c_decl d Base = Ptr (Fix Base 3) /\ declared true d = Some (Fix (Ptr Base) 3) /\
  declared false d = Some (Fix Base 3).
Proof. exists (DBase (DFix (DPar (DStars 1 DId)) 3)). cbn. auto. Qed.
Print Assumptions C58_pointer_to_array_refuted.
