(** Property theorems C01 - C06: buffer-bounds expressions and constraints. *)
From Coq Require Import ZArith List Bool Lia.
From Verif Require Import Cbase Constr_model Constr_spec Constr_proofs Constr_proofs2.
Import ListNotations.
Local Open Scope Z_scope.

(** Names used in the examples: 0 is an int i, 1 an int j, 2 a pointer p. *)
Local Definition i := Term (TName 0).
Local Definition j := Term (TName 1).
Local Definition p := Term (TName 2).
Local Definition Gx (n : nat) : bool := Nat.eqb n 2.
Local Definition world (a b : Z) : env :=
  Env (fun n => match n with O => VI a | 1%nat => VI b | _ => VP (BObj 7) 0 end)
      (fun _ => 40) (fun _ => 9) (fun _ => 9) (fun _ _ => 0) (fun _ _ => 0).

(** ** C01 *)

(** Simplification terminates without undefined behaviour and keeps the value, for
    every expression of the class [regular] that is well typed and whose constants
    add up to less than 2^31.  Missing for the full C01: expressions outside
    [regular], declared-constant terms, larger constants (see the refutations). *)
Theorem C01_simplify_value_partial : forall G e,
  regular e -> typ G e <> None -> weight e < 2147483648 ->
  exists e' f0, (forall f, (f0 <= f)%nat -> simplify f e = Ok e') /\
    forall rho v, respects rho G -> den rho e = Some v -> den rho e' = Some v.
Proof.
  intros G e Hr Ht Hw. destruct (simp_ex G e Hr Ht Hw) as (e' & f0 & E & S' & _).
  exists e', f0. split; [exact E|]. intros rho v K D. exact (sr_den _ _ _ S' rho v K Ht D).
Qed.
Print Assumptions C01_simplify_value_partial.

(** A member of the class: maxSet(p + (i + 3)) - (j + 5 - i) *)
Example C01_ex_class :
  let e := Binary MINUS (Unary MAXSET (Binary PLUS p (Binary PLUS i (Lit 3))))
             (Binary MINUS (Binary PLUS j (Lit 5)) i) in
  regular e /\ typ Gx e = Some false /\ weight e < 2147483648 /\
  den (world 2 4) e = Some (VI (9 - 5 - 7)) /\
  exists e', simplify 9 e = Ok e' /\ e' <> e.
Proof.
  split; [|split; [reflexivity|split; [reflexivity|split; [reflexivity|]]]].
  - repeat split; simpl; auto; right; left; eexists; split; reflexivity.
  - eexists. split; [vm_compute; reflexivity|discriminate].
Qed.

(** 5 - (3 - i) is simplified to an expression with another value. *)
Theorem C01_nested_minus_refuted : exists e e' rho v v',
  simplify 9 e = Ok e' /\ den rho e = Some v /\ den rho e' = Some v' /\ v <> v'.
Proof.
  exists (Binary MINUS (Lit 5) (Binary MINUS (Lit 3) i)).
  eexists. exists (world 1 0). eexists. eexists.
  split; [vm_compute; reflexivity|]. split; [reflexivity|]. split; [vm_compute; reflexivity|].
  discriminate.
Qed.
Print Assumptions C01_nested_minus_refuted.

(** The difference of two declared constants is replaced by their sum. *)
Theorem C01_constant_difference_refuted : exists e e' rho v v',
  simplify 9 e = Ok e' /\ den rho e = Some v /\ den rho e' = Some v' /\ v <> v'.
Proof.
  exists (Binary MINUS (Term (TVal 0 10)) (Term (TVal 1 4))).
  eexists. exists (world 1 0). eexists. eexists.
  split; [vm_compute; reflexivity|]. split; [reflexivity|]. split; [vm_compute; reflexivity|].
  discriminate.
Qed.
Print Assumptions C01_constant_difference_refuted.

(** A literal beyond the range of int is truncated. *)
Theorem C01_large_literal_refuted : exists e e' rho v v',
  simplify 9 e = Ok e' /\ den rho e = Some v /\ den rho e' = Some v' /\ v <> v'.
Proof.
  exists (Binary PLUS i (Lit 3000000000)).
  eexists. exists (world 1 0). eexists. eexists.
  split; [vm_compute; reflexivity|]. split; [reflexivity|]. split; [vm_compute; reflexivity|].
  discriminate.
Qed.
Print Assumptions C01_large_literal_refuted.

(** ** C02 *)

(** A requirement discharged by a known fact follows from it, when the operands
    contain no [a + (0 - b)] and no sizeof, constants add up to less than 2^31, and
    a strict requirement is only met by the same strict comparison.  Missing for the
    full C02: exactly these cases (refuted below). *)
Theorem C02_discharged_follows_partial : forall pre post,
  plain (first pre) -> plain (first post) ->
  strict_ok (ar (first pre)) (ar (first post)) = true ->
  satisfies pre post = Ok true ->
  forall rho, atom_meaningful rho (first pre) -> atom_true rho (first post) ->
  constr_true rho pre.
Proof.
  intros pre post H1 H2 H3 H4 rho Hm Ht. exists (first pre). split; [left; reflexivity|].
  exact (satisfies_sound pre post H1 H2 H3 H4 rho Hm Ht).
Qed.
Print Assumptions C02_discharged_follows_partial.

(** maxSet(p) >= i + 2 is discharged by maxSet(p) >= i + 4 *)
Example C02_ex :
  let pre := Constr (Atom (Unary MAXSET p) GTE (Binary PLUS i (Lit 2))) nil in
  let post := Constr (Atom (Unary MAXSET p) GTE (Binary PLUS i (Lit 4))) nil in
  plain (first pre) /\ plain (first post) /\ satisfies pre post = Ok true /\
  atom_true (world 1 0) (first post).
Proof. repeat split; vm_compute; try reflexivity. discriminate. Qed.

(** i > j is discharged by i >= j. *)
Theorem C02_strict_refuted : exists pre post rho,
  plain (first pre) /\ plain (first post) /\ ors pre = nil /\
  satisfies pre post = Ok true /\ atom_true rho (first post) /\ ~ constr_true rho pre.
Proof.
  exists (Constr (Atom i GT (Lit 3)) nil), (Constr (Atom i GTE (Lit 3)) nil), (world 3 0).
  split; [repeat split; reflexivity|]. split; [repeat split; reflexivity|].
  split; [reflexivity|]. split; [reflexivity|]. split; [vm_compute; discriminate|].
  intros (a & [<-|[]] & K). vm_compute in K. discriminate.
Qed.
Print Assumptions C02_strict_refuted.

(** ** C03 *)

(** A requirement dropped as always true is true. *)
Theorem C03_always_true_partial : forall c, plain c -> isAlwaysTrue c = Ok true ->
  forall rho, atom_meaningful rho c -> atom_true rho c.
Proof. intros c (A & B & C). exact (always_true_sound c A B C). Qed.
Print Assumptions C03_always_true_partial.

Example C03_ex : let c := Atom i LTE (Binary PLUS (Binary MINUS i (Lit 2)) (Lit 7)) in
  plain c /\ isAlwaysTrue c = Ok true /\ atom_meaningful (world 1 0) c.
Proof. repeat split; vm_compute; try reflexivity. discriminate. Qed.

(** i <= i + (0 - 5) is dropped as always true. *)
Theorem C03_zero_minus_refuted : exists c rho,
  isAlwaysTrue c = Ok true /\ atom_meaningful rho c /\ ~ atom_true rho c.
Proof.
  exists (Atom i LTE (Binary PLUS i (Binary MINUS (Lit 0) (Lit 5)))), (world 1 0).
  split; [vm_compute; reflexivity|]. split; [discriminate|]. vm_compute. intros K. apply K. reflexivity.
Qed.
Print Assumptions C03_zero_minus_refuted.

(** maxSet(p) = sizeof(p) - 1 is dropped as always true whatever the element size
    and whatever comparison: here p has 10 elements of 4 bytes. *)
Theorem C03_sizeof_refuted : exists c rho,
  isAlwaysTrue c = Ok true /\ atom_meaningful rho c /\ ~ atom_true rho c.
Proof.
  exists (Atom (Unary MAXSET p) GTE (Binary MINUS (Term (TSizeof 2)) (Lit 1))), (world 1 0).
  split; [vm_compute; reflexivity|]. split; [discriminate|]. vm_compute. intros K. apply K. reflexivity.
Qed.
Print Assumptions C03_sizeof_refuted.

(** maxSet(p) >= (i + j) - 1 makes the classification read a union member of the
    wrong kind. *)
Theorem C03_wrong_union_member_refuted : exists c, isAlwaysTrue c = UBhav.
Proof.
  exists (Atom (Unary MAXSET p) GTE (Binary MINUS (Binary PLUS i j) (Lit 1))). reflexivity.
Qed.
Print Assumptions C03_wrong_union_member_refuted.

(** ** C04 *)

(** Adding bounds one after the other gives a list that says the same as the old
    list and the added bounds together, when all of them are single-alternative and
    non-strict.  Missing for the full C04: strict comparisons and alternatives
    (refuted below). *)
Theorem C04_add_all_partial : forall news s s', list_addAll s news = Ok s' ->
  (forall c, In c (s ++ news) -> nonstrict c) ->
  forall rho, (forall c, In c news -> atom_meaningful rho (first c)) ->
  (all_true rho s' <-> all_true rho s /\ all_true rho news).
Proof. exact addAll_sound. Qed.
Print Assumptions C04_add_all_partial.

(** The second of three bounds is dropped. *)
Example C04_ex :
  let c k := Constr (Atom (Unary MAXSET p) GTE (Binary PLUS i (Lit k))) nil in
  list_addAll nil [c 4; c 2; c 8] = Ok [c 4; c 8] /\ nonstrict (c 2) /\
  atom_meaningful (world 1 0) (first (c 2)).
Proof. repeat split; vm_compute; auto. discriminate. Qed.

(** The bounds known after two statements are merged without loss, though each of the two lists is
    thinned by the other; the same is missing as above. *)
Theorem C04_merge_partial : forall l1 l2 res, mergeKnown l1 l2 = Ok res ->
  (forall c, In c (l1 ++ l2) -> nonstrict c) ->
  forall rho, (forall c, In c (l1 ++ l2) -> atom_meaningful rho (first c)) ->
  (all_true rho res <-> all_true rho l1 /\ all_true rho l2).
Proof. exact merge_sound. Qed.
Print Assumptions C04_merge_partial.

(** Of two equal bounds one is kept, and the weaker of two others is dropped. *)
Example C04_merge_ex :
  let c k := Constr (Atom (Unary MAXSET p) GTE (Binary PLUS i (Lit k))) nil in
  let d k := Constr (Atom j LTE (Lit k)) nil in
  mergeKnown [c 4; d 3] [c 4; d 9] = Ok [c 4; d 3] /\ nonstrict (c 4) /\ nonstrict (d 3) /\
  atom_meaningful (world 1 0) (first (c 4)) /\ atom_meaningful (world 1 0) (first (d 3)).
Proof. repeat split; vm_compute; auto; discriminate. Qed.

(** i >= 5 is dropped when the list holds (i >= 5 or j >= 5). *)
Theorem C04_alternative_refuted : exists s el s' rho,
  list_add s el = Ok s' /\ all_true rho s' /\ atom_meaningful rho (first el) /\
  ~ constr_true rho el.
Proof.
  exists [Constr (Atom i GTE (Lit 5)) [Atom j GTE (Lit 5)]], (Constr (Atom i GTE (Lit 5)) nil).
  eexists. exists (world 0 5). split; [vm_compute; reflexivity|]. split.
  - intros c [<-|[]]. exists (Atom j GTE (Lit 5)). split; [right; left; reflexivity|].
    vm_compute. discriminate.
  - split; [discriminate|]. intros (a & [<-|[]] & K). vm_compute in K. apply K. reflexivity.
Qed.
Print Assumptions C04_alternative_refuted.

(** i > 3 is dropped when the list holds i >= 3. *)
Theorem C04_strict_refuted : exists s el s' rho,
  list_add s el = Ok s' /\ all_true rho s' /\ atom_meaningful rho (first el) /\
  ~ constr_true rho el.
Proof.
  exists [Constr (Atom i GTE (Lit 3)) nil], (Constr (Atom i GT (Lit 3)) nil).
  eexists. exists (world 3 5). split; [vm_compute; reflexivity|]. split.
  - intros c [<-|[]]. eexists. split; [left; reflexivity|]. vm_compute. discriminate.
  - split; [discriminate|]. intros (a & [<-|[]] & K). vm_compute in K. discriminate.
Qed.
Print Assumptions C04_strict_refuted.

(** ** C05 *)

(** Simplifying a constraint of the class [solvable] terminates and keeps what the
    constraint says.  Missing for the full C05: constraints outside the class. *)
Theorem C05_simplify_constraint_partial : forall G c, solvable G c ->
  exists c' f0, (forall f, (f0 <= f)%nat -> c_simplify f c = Ok c') /\
    forall rho, respects rho G -> atom_equiv rho c c'.
Proof. exact csimp_ok. Qed.
Print Assumptions C05_simplify_constraint_partial.

(** 3 <= maxSet(p + i) - 4 is turned into maxSet(p) >= ... *)
Example C05_ex :
  let c := Atom (Lit 3) LTE (Binary MINUS (Unary MAXSET (Binary PLUS p i)) (Lit 4)) in
  solvable Gx c /\
  c_simplify 20 c = Ok (Atom (Binary MINUS (Unary MAXSET p) i) GTE (Lit 7)).
Proof.
  split; [|vm_compute; reflexivity].
  split; [exact I|]. split.
  { simpl. repeat split; auto. right. left. eexists; split; reflexivity. }
  split; [exists false; split; reflexivity|]. split; [reflexivity|].
  right. left. split; [reflexivity|]. split; [eexists; split; reflexivity|].
  simpl. repeat split; auto. left. eexists; split; reflexivity.
Qed.

(** 5 - (3 - i) >= j is changed to a constraint with another truth value. *)
Theorem C05_simplify_constraint_refuted : exists c c' rho,
  c_simplify 20 c = Ok c' /\ atom_meaningful rho c /\ ~ atom_equiv rho c c'.
Proof.
  exists (Atom (Binary MINUS (Lit 5) (Binary MINUS (Lit 3) i)) GTE j). eexists.
  exists (world 1 3). split; [vm_compute; reflexivity|]. split; [discriminate|].
  vm_compute. intros (P & E & K). injection E as <-. 
  destruct K as [K _]. apply K; [discriminate|reflexivity].
Qed.
Print Assumptions C05_simplify_constraint_refuted.

(** ** C06 *)

(** The strong form: the rewritten requirement and the known facts give the original
    requirement. *)
Theorem C06_strong_substitute_partial : forall G c facts fuel c',
  solvable G (strong_loop c facts) -> strongSubstitute fuel c facts = Ok c' ->
  forall rho, respects rho G -> (forall el, In el facts -> atom_true rho el) ->
  atom_meaningful rho (strong_loop c facts) -> atom_true rho c' -> atom_true rho c.
Proof. exact strong_sub_sound. Qed.
Print Assumptions C06_strong_substitute_partial.

(** The same for the rewriting itself, before the result is simplified, without any
    restriction on the expressions. *)
Theorem C06_strong_rewrite_sound : forall facts c rho, ar c = GTE ->
  (forall el, In el facts -> atom_true rho el) ->
  atom_true rho (strong_loop c facts) -> atom_true rho c.
Proof. exact strong_sound. Qed.
Print Assumptions C06_strong_rewrite_sound.

(** Substituting known equalities never changes what a requirement says. *)
Theorem C44_equalities_sound : forall swap facts c rho,
  (forall el, In el facts -> atom_true rho el) ->
  atom_says rho (subst_loop swap c facts) = atom_says rho c.
Proof. exact subst_sound. Qed.
Print Assumptions C44_equalities_sound.

(** maxSet(p) >= i with i <= j and j < 9 *)
Example C06_ex :
  let c := Atom (Unary MAXSET p) GTE i in
  let facts := [Atom i LTE j; Atom j LT (Lit 9)] in
  strong_loop c facts = Atom (Unary MAXSET p) GTE (Binary PLUS (Lit 9) (Lit 1)) /\
  strongSubstitute 9 c facts = Ok (Atom (Unary MAXSET p) GTE (Lit 10)) /\
  solvable Gx (strong_loop c facts) /\
  (forall el, In el facts -> atom_true (world 1 2) el).
Proof.
  split; [reflexivity|]. split; [vm_compute; reflexivity|]. split.
  - split; [exact I|]. split; [simpl; auto|]. split; [exists false; split; reflexivity|].
    split; [reflexivity|]. left. split; [exists 2%nat; split; reflexivity|]. exact I.
  - intros el [<-|[<-|[]]]; vm_compute; [discriminate|reflexivity].
Qed.

Example C44_ex_eq :
  let c := Atom (Unary MAXSET p) GTE (Binary PLUS i (Lit 1)) in
  subst_loop (fun _ _ => false) c [Atom i EQ j] =
    Atom (Unary MAXSET p) GTE (Binary PLUS j (Lit 1)) /\
  atom_true (world 4 4) (Atom i EQ j).
Proof. split; reflexivity. Qed.

(** The plain form replaces i >= j by i >= 1 when 0 < j is known. *)
Theorem C06_plain_substitute_refuted : exists c facts c' rho,
  ineqSubstitute 9 c facts = Ok c' /\ (forall el, In el facts -> atom_true rho el) /\
  atom_true rho c' /\ atom_meaningful rho c /\ ~ atom_true rho c.
Proof.
  exists (Atom i GTE j), [Atom (Lit 0) LT j]. eexists. exists (world 1 5).
  split; [vm_compute; reflexivity|]. split.
  - intros el [<-|[]]. reflexivity.
  - split; [vm_compute; discriminate|]. split; [discriminate|]. vm_compute.
    intros K. apply K. reflexivity.
Qed.
Print Assumptions C06_plain_substitute_refuted.

(** So does the form used only in the last attempt before a message: i >= 3 becomes
    9 >= 3 when i <= 9 is known. *)
Theorem C06_last_attempt_refuted : exists c facts rho,
  (forall el, In el facts -> atom_true rho el) /\
  atom_true rho (unsound_loop c facts) /\ atom_meaningful rho c /\ ~ atom_true rho c.
Proof.
  exists (Atom i GTE (Lit 3)), [Atom i LTE (Lit 9)], (world 1 5).
  split; [intros el [<-|[]]; vm_compute; discriminate|].
  split; [vm_compute; discriminate|]. split; [discriminate|]. vm_compute.
  intros K. apply K. reflexivity.
Qed.
Print Assumptions C06_last_attempt_refuted.
