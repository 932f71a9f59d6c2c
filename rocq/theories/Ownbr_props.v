(** C97-C100: ownership of storage held by local variables, with branches, loops and returns. *)
From Verif Require Import Cbase Own_model Own_spec Own_proofs Own_use_proofs Own_leak_proofs
  Ownbr_model Ownbr_spec Ownbr_proofs Ownbr_use_proofs Ownbr_exact_proofs.
From Coq Require Import List Arith Bool.
Import ListNotations.
Open Scope nat_scope.
Local Notation "a ;; b" := (Seq a b) (at level 60, right associativity).

(** C97. Whatever way is taken through a function about whose uses and meeting branches nothing is
    said, it uses neither released nor undefined storage.  Missing here: loops, and ways along which a
    variable is copied that is not up to date (C91). *)
Theorem C97_branches_safe_partial : forall touch decls p q r,
  loop_free p = true -> incl (pvars p) decls ->
  filter about_state (bodyMessages touch decls p) = [] ->
  path p q r -> disciplined q -> correct q.
Proof. exact branches_sound. Qed.
Print Assumptions C97_branches_safe_partial.
Example C97_ex :
  let p := Do (New 0) ;; If (Do (Copy 1 0)) (Do (Use 0) ;; Do (Copy 1 0)) ;; If (Do (Release 1) ;; Ret) (Do (Use 1)) ;; Do (Use 0) in
  loop_free p = true /\ incl (pvars p) [0; 1]
  /\ filter about_state (bodyMessages mentioned [0; 1] p) = []
  /\ path p [New 0; Copy 1 0; Release 1] true /\ disciplined [New 0; Copy 1 0; Release 1]
  /\ bodyMessages mentioned [0; 1] (p ;; Do (Release 0) ;; Do (Use 1)) <> []
  /\ bodyMessages mentioned [0] (Do (New 0) ;; If (Do (Release 0)) Skip ;; Do (Use 0)) = [MBranch 0].
Proof.
  cbn zeta; split; [reflexivity | split; [intros x H; vm_compute in H; cbn; intuition auto | split; [vm_compute; reflexivity |]]].
  split; [| split; [vm_compute; reflexivity | split; [vm_compute; discriminate | vm_compute; reflexivity]]].
  apply path_first; change [Copy 1 0; Release 1] with ([Copy 1 0] ++ [Release 1]).
  econstructor; [apply p_then, path_last |].
  apply p_seq_ret, p_then, path_first; constructor.
Qed.

(** With [while] loops, for functions which copy no variables.  Missing here: copies, and [do]
    loops. *)
Theorem C97_loops_safe_partial : forall touch decls p q r,
  copy_free p -> no_until p = true -> incl (pvars p) decls ->
  filter about_state (bodyMessages touch decls p) = [] ->
  path p q r -> correct q.
Proof. exact loops_sound. Qed.
Print Assumptions C97_loops_safe_partial.
Example C97_loops_ex :
  let p := If (Do (New 0)) Skip ;; Do (New 1) ;; Loop (Do (Use 1) ;; Do (Release 1) ;; Do (New 1)) ;; Do (Release 1) in
  copy_free p /\ no_until p = true /\ incl (pvars p) [0; 1]
  /\ bodyMessages mentioned [0; 1] p = [MLeakExit 0]
  /\ path p [New 1; Use 1; Release 1; New 1; Use 1; Release 1; New 1; Release 1] false
  /\ bodyMessages mentioned [0] (Do (New 0) ;; Loop (Do (Release 0))) = [MBranch 0].
Proof.
  cbn zeta; split; [intros x y H; vm_compute in H; intuition discriminate |].
  split; [reflexivity | split; [intros x H; vm_compute in H; cbn; intuition auto | split; [vm_compute; reflexivity |]]].
  split; [| vm_compute; reflexivity].
  change (path (If (Do (New 0)) Skip ;; Do (New 1) ;; Loop (Do (Use 1) ;; Do (Release 1) ;; Do (New 1)) ;; Do (Release 1))
    ([] ++ [New 1] ++ ([Use 1; Release 1; New 1] ++ [Use 1; Release 1; New 1] ++ []) ++ [Release 1]) false).
  assert (B : path (Do (Use 1) ;; Do (Release 1) ;; Do (New 1)) [Use 1; Release 1; New 1] false) by (do 2 apply path_first; apply path_last).
  repeat (econstructor; try (apply p_else; constructor); try exact B).
Qed.

(** [p = create (); q = p; while (c) { use (p); destroy (q); q = create (); } destroy (q);]: in the
    second iteration [p] has been released; the loop is looked at once, and that [p] and [q] may be
    different storage after it leaves [p] with a kind about which nothing is said. *)
Theorem C97_loop_copies_refuted : exists decls p q,
  no_until p = true /\ no_ret p = true /\ incl (pvars p) decls /\ bodyMessages mentioned decls p = [] /\
  path p q false /\ disciplined q /\ ~ correct q.
Proof.
  exists [0; 1], (Do (New 0) ;; Do (Copy 1 0) ;; Loop (Do (Use 0) ;; Do (Release 1) ;; Do (New 1)) ;; Do (Release 1)),
    ([New 0] ++ [Copy 1 0] ++ ([Use 0; Release 1; New 1] ++ [Use 0; Release 1; New 1] ++ []) ++ [Release 1]).
  split; [reflexivity | split; [reflexivity | split; [intros x H; vm_compute in H; cbn; intuition auto | split; [vm_compute; reflexivity |]]]].
  split; [| split; [vm_compute; reflexivity | vm_compute; discriminate]].
  assert (B : path (Do (Use 0) ;; Do (Release 1) ;; Do (New 1)) [Use 0; Release 1; New 1] false) by (do 2 apply path_first; apply path_last).
  repeat (econstructor; try exact B).
Qed.
Print Assumptions C97_loop_copies_refuted.

(** [p = create (); do { destroy (p); } while (c);]: released twice; the body of a [do] loop is treated
    as if it were executed once. *)
Theorem C97_do_loop_refuted : exists decls p q,
  copy_free p /\ no_ret p = true /\ incl (pvars p) decls /\ bodyMessages mentioned decls p = [] /\
  path p q false /\ ~ correct q.
Proof.
  exists [0], (Do (New 0) ;; Until (Do (Release 0))), ([New 0] ++ [Release 0] ++ [Release 0]).
  split; [intros x y H; vm_compute in H; intuition discriminate |].
  split; [reflexivity | split; [intros x H; vm_compute in H; cbn; intuition auto | split; [vm_compute; reflexivity |]]].
  split; [| vm_compute; discriminate].
  econstructor; [constructor |]; apply p_until; [| apply p_until_end]; constructor.
Qed.
Print Assumptions C97_do_loop_refuted.

(** A variable whose storage has been released in one of two branches is not taken for defined where
    they meet, unless this is reported. *)
Theorem C97_released_kept_partial : forall inT inF t f s,
  (fst t = DDead \/ fst f = DDead) -> mergeVar inT inF t f = (s, false) -> fst s <> DDef.
Proof.
  intros inT inF [td tk] [fd fk] s D E. cbn [fst] in D.
  destruct inT, inF, D as [-> | ->]; destruct tk, fk; try destruct td; try destruct fd;
    vm_compute in E; try discriminate E; injection E as <-; discriminate.
Qed.
Print Assumptions C97_released_kept_partial.
Example C97_released_ex :
  mergeVar true false (DDead, KFresh) (DUndef, KLocal) = ((DUnuse, KError), false)
  /\ mergeVar true false (DDead, KFresh) (DDef, KFresh) = ((DDef, KError), true).
Proof. vm_compute. auto. Qed.

(** C98. Nothing is said about uses of storage in a function which, whatever way is taken through it,
    uses neither released nor undefined storage.  Missing: functions with returns in branches. *)
Theorem C98_no_false_use_partial : forall touch decls p,
  no_ret p = true -> (forall q r, path p q r -> correct q) ->
  filter about_use (bodyMessages touch decls p) = [].
Proof. exact no_false_use_branches. Qed.
Print Assumptions C98_no_false_use_partial.
Example C98_ex :
  let p := Do (New 0) ;; If (Do (Copy 1 0)) (Do (Copy 2 0)) ;; Do (Use 0) ;; Do (Release 0) in
  no_ret p = true /\ (forall q r, path p q r -> correct q)
  /\ bodyMessages mentioned [0; 1; 2] p = []
  /\ bodyMessages mentioned [0; 1; 2] (p ;; Do (Release 1)) = [MReleased 1].
Proof.
  cbn zeta; split; [reflexivity | split; [| split; vm_compute; reflexivity]].
  intros q r H.
  repeat match goal with
         | P : path (Seq _ _) _ _ |- _ => inversion P; subst; clear P
         | P : path (If _ _) _ _ |- _ => inversion P; subst; clear P
         | P : path (Do _) _ _ |- _ => inversion P; subst; clear P
         end; vm_compute; reflexivity.
Qed.

(** [p = create (); q = create (); if (c) { destroy (q); q = p; destroy (p); return; } destroy (p);
    destroy (q);]: that [q] holds the storage of [p] is remembered after the branch that returns, so
    [q] is said to have been released. *)
Theorem C98_returning_branch_refuted : exists decls p,
  tidy p = true /\ loop_free p = true /\ incl (pvars p) decls /\
  (forall q r, path p q r -> correct q /\ all_released q) /\
  bodyMessages mentioned decls p = [MReleased 1].
Proof.
  exists [0; 1], (Do (New 0) ;; Do (New 1) ;; If (Do (Release 1) ;; Do (Copy 1 0) ;; Do (Release 0) ;; Ret) Skip ;; Do (Release 0) ;; Do (Release 1)).
  split; [reflexivity | split; [reflexivity | split; [intros x H; vm_compute in H; cbn; intuition auto | split; [| vm_compute; reflexivity]]]].
  intros q r H.
  repeat match goal with
         | P : path (Seq _ _) _ _ |- _ => inversion P; subst; clear P
         | P : path (If _ _) _ _ |- _ => inversion P; subst; clear P
         | P : path (Do _) _ _ |- _ => inversion P; subst; clear P
         | P : path Ret _ _ |- _ => inversion P; subst; clear P
         | P : path Skip _ _ |- _ => inversion P; subst; clear P
         end; (split; [vm_compute; reflexivity |]); intros b Hb; vm_compute in Hb;
    (do 2 (destruct b as [| b]; [vm_compute; reflexivity |])); exfalso; vm_compute in Hb; repeat apply le_S_n in Hb; inversion Hb.
Qed.
Print Assumptions C98_returning_branch_refuted.

(** C99. Whatever way is taken through a function about which nothing is said, all the storage it
    creates has been released when it returns.  Missing: copies, [do] loops, variables which are
    declared without storage, and statements after a return. *)
Theorem C99_branches_leak_free_partial : forall touch decls p q r,
  NoDup decls -> copy_free p -> no_until p = true -> tidy p = true -> incl (pvars p) decls ->
  bodyMessages touch decls (inits decls p) = [] ->
  path (inits decls p) q r -> all_released q.
Proof.
  intros touch decls p q r ND C U T I E H.
  apply (proj1 (exactness touch decls p ND C U T I) E q r H).
Qed.
Print Assumptions C99_branches_leak_free_partial.
Example C99_ex :
  let p := Loop (If (Do (Release 0) ;; Do (New 0)) Skip ;; Do (Use 1)) ;;
           If (Do (Release 0) ;; Do (Release 1) ;; Ret) (Do (Use 0)) ;; Do (Release 1) ;; Do (Release 0) in
  NoDup [0; 1] /\ copy_free p /\ no_until p = true /\ tidy p = true /\ incl (pvars p) [0; 1]
  /\ bodyMessages mentioned [0; 1] (inits [0; 1] p) = []
  /\ bodyMessages mentioned [0; 1] (inits [0; 1] (If (Do (Release 0) ;; Ret) Skip ;; Do (Release 1) ;; Do (Release 0))) = [MLeakExit 1].
Proof.
  cbn zeta; split; [repeat constructor; cbn; intuition discriminate |].
  split; [intros x y H; vm_compute in H; intuition discriminate |].
  split; [reflexivity | split; [reflexivity | split; [intros x H; vm_compute in H; cbn; intuition auto | split; vm_compute; reflexivity]]].
Qed.

(** Where branches meet, also with copies: storage that must be released on one side either still must
    be afterwards, or a message is given (unless there has been one for the variable before). *)
Theorem C99_owner_kept_partial : forall inT inF t f s,
  fst t = DDef -> fst f = DDef -> snd t <> KError -> snd f <> KError ->
  (snd t = KFresh \/ snd f = KFresh) ->
  mergeVar inT inF t f = (s, false) -> s = (DDef, KFresh).
Proof.
  intros inT inF [td tk] [fd fk] s D1 D2 N1 N2 K E. cbn [fst snd] in *. subst td fd.
  destruct inT, inF, K as [-> | ->]; try destruct tk; try destruct fk; vm_compute in E; try discriminate E;
    try (now injection E as <-); congruence.
Qed.
Print Assumptions C99_owner_kept_partial.
Example C99_owner_ex :
  mergeVar true true (DDef, KFresh) (DDef, KOwned) = ((DDef, KFresh), false) /\
  snd (mergeVar true true (DDef, KFresh) (DDef, KLocal)) = true /\
  snd (mergeVar true true (DDef, KFresh) (DDef, KDep)) = true.
Proof. vm_compute. auto. Qed.

(** [p = create (); if (c) { q = p; r = q; } else { r = p; q = r; }]: one of the variables must release
    the storage after either branch, but not the same one, and no message is given at the end. *)
Theorem C99_copies_refuted : exists decls p q,
  loop_free p = true /\ no_ret p = true /\ incl (pvars p) decls /\ bodyMessages mentioned decls p = [] /\
  path p q false /\ disciplined q /\ ~ all_released q.
Proof.
  exists [0; 1; 2], (Do (New 0) ;; If (Do (Copy 1 0) ;; Do (Copy 2 1)) (Do (Copy 2 0) ;; Do (Copy 1 2))), ([New 0] ++ [Copy 1 0; Copy 2 1]).
  split; [reflexivity | split; [reflexivity | split; [intros x H; vm_compute in H; cbn; intuition auto | split; [vm_compute; reflexivity |]]]].
  split; [econstructor; [constructor |]; apply p_then, path_first, path_last | split; [vm_compute; reflexivity |]].
  intros H; specialize (H 0 (le_n 1)); vm_compute in H; discriminate.
Qed.
Print Assumptions C99_copies_refuted.

(** [T x; if (c) x = create (); x = create (); destroy (x);]: where the branches meet [x] counts as
    undefined, and nothing is lost by assigning to it. *)
Theorem C99_undefined_refuted : exists decls p q,
  copy_free p /\ loop_free p = true /\ no_ret p = true /\ incl (pvars p) decls /\ bodyMessages mentioned decls p = [] /\
  path p q false /\ ~ all_released q.
Proof.
  exists [0], (If (Do (New 0)) Skip ;; Do (New 0) ;; Do (Release 0)), ([New 0] ++ [New 0; Release 0]).
  split; [intros x y H; vm_compute in H; intuition discriminate |].
  split; [reflexivity | split; [reflexivity | split; [intros x H; vm_compute in H; cbn; intuition auto | split; [vm_compute; reflexivity |]]]].
  split; [econstructor; [apply p_then; constructor |]; apply path_first, path_last |].
  intros H; specialize (H 0 (le_S _ _ (le_n 1))); vm_compute in H; discriminate.
Qed.
Print Assumptions C99_undefined_refuted.

(** [p = create (); q = p; if (c) { use (p); destroy (q); q = create (); } if (d) p = create ();
    destroy (q);]: all storage is lost that [p] obtains in the last branch. *)
Theorem C99_error_kind_refuted : exists decls p q,
  loop_free p = true /\ no_ret p = true /\ incl (pvars p) decls /\ bodyMessages mentioned decls p = [] /\
  path p q false /\ disciplined q /\ correct q /\ ~ all_released q.
Proof.
  exists [0; 1], (Do (New 0) ;; Do (Copy 1 0) ;; If (Do (Use 0);; Do (Release 1) ;; Do (New 1)) Skip ;; If (Do (New 0)) Skip ;; Do (Release 1)),
    ([New 0] ++ [Copy 1 0] ++ [Use 0; Release 1; New 1] ++ [New 0] ++ [Release 1]).
  split; [reflexivity | split; [reflexivity | split; [intros x H; vm_compute in H; cbn; intuition auto | split; [vm_compute; reflexivity |]]]].
  split; [| split; [vm_compute; reflexivity | split; [vm_compute; reflexivity |]]].
  - econstructor; [constructor |]; econstructor; [constructor |].
    econstructor; [apply p_then; do 2 apply path_first; apply path_last |].
    econstructor; [apply p_then; constructor | constructor].
  - intros H; specialize (H 2 (le_n 3)); vm_compute in H; discriminate.
Qed.
Print Assumptions C99_error_kind_refuted.

(** [T x; do x = create (); while (c); destroy (x);]: what the iterations before the last have created
    is lost. *)
Theorem C99_do_loop_refuted : exists decls p q,
  copy_free p /\ no_ret p = true /\ incl (pvars p) decls /\ bodyMessages mentioned decls p = [] /\
  path p q false /\ correct q /\ ~ all_released q.
Proof.
  exists [0], (Until (Do (New 0)) ;; Do (Release 0)), (([New 0] ++ [New 0]) ++ [Release 0]).
  split; [intros x y H; vm_compute in H; intuition discriminate |].
  split; [reflexivity | split; [intros x H; vm_compute in H; cbn; intuition auto | split; [vm_compute; reflexivity |]]].
  split; [| split; [vm_compute; reflexivity |]].
  - econstructor; [apply p_until; [constructor | apply p_until_end; constructor] | constructor].
  - intros H; specialize (H 0 (le_S _ _ (le_n 1))); vm_compute in H; discriminate.
Qed.
Print Assumptions C99_do_loop_refuted.

(** C100. Nothing is said about a function which creates storage for each of its variables where they
    are declared, and copies none of them, just when every way through it is correct and releases
    everything. *)
Theorem C100_exact_without_copies : forall touch decls p,
  NoDup decls -> copy_free p -> no_until p = true -> tidy p = true -> incl (pvars p) decls ->
  (bodyMessages touch decls (inits decls p) = [] <->
   forall q r, path (inits decls p) q r -> correct q /\ all_released q).
Proof. exact exactness. Qed.
Print Assumptions C100_exact_without_copies.
Example C100_ex :
  let p := Loop (If (Do (Release 0) ;; Do (New 0)) Skip ;; If (Do (Release 1) ;; Do (Release 0) ;; Ret) (Do (Use 1))) ;;
           Do (Release 1) ;; Do (Release 0) in
  NoDup [0; 1] /\ copy_free p /\ no_until p = true /\ tidy p = true /\ incl (pvars p) [0; 1]
  /\ bodyMessages mentioned [0; 1] (inits [0; 1] p) = []
  /\ bodyMessages mentioned [0; 1] (inits [0; 1] (Loop (Do (New 0)) ;; p)) = [MLeak 0]
  /\ bodyMessages mentioned [0; 1] (inits [0; 1] (Loop (Do (Release 0)) ;; p)) = [MBranch 0]
  /\ bodyMessages mentioned [0; 1] (inits [0; 1] (p ;; Do (Use 0))) = [MReleased 0]
  /\ bodyMessages mentioned [0; 1] (inits [0; 1] (If Ret Skip ;; p)) = [MLeakExit 0; MLeakExit 1].
Proof.
  cbn zeta; split; [repeat constructor; cbn; intuition discriminate |].
  split; [intros x y H; vm_compute in H; intuition discriminate |].
  split; [reflexivity | split; [reflexivity | split; [intros x H; vm_compute in H; cbn; intuition auto | repeat split; vm_compute; reflexivity]]].
Qed.

(** Statements after a return are looked at though they are not executed. *)
Theorem C100_unreachable_refuted : exists decls p,
  NoDup decls /\ copy_free p /\ no_until p = true /\ incl (pvars p) decls /\
  (forall q r, path (inits decls p) q r -> correct q /\ all_released q) /\
  bodyMessages mentioned decls (inits decls p) = [MReleased 0].
Proof.
  exists [0], ((Do (Release 0) ;; Ret) ;; Do (Release 0)).
  split; [repeat constructor; cbn; intuition discriminate |].
  split; [intros x y H; vm_compute in H; intuition discriminate |].
  split; [reflexivity | split; [intros x H; vm_compute in H; cbn; intuition auto | split; [| vm_compute; reflexivity]]].
  intros q r H; cbn [inits fold_right] in H.
  repeat match goal with
         | P : path (Seq _ _) _ _ |- _ => inversion P; subst; clear P
         | P : path (Do _) _ _ |- _ => inversion P; subst; clear P
         | P : path Ret _ _ |- _ => inversion P; subst; clear P
         end; (split; [vm_compute; reflexivity |]); intros b Hb; vm_compute in Hb;
    (destruct b as [| b]; [vm_compute; reflexivity |]); exfalso; vm_compute in Hb; apply le_S_n in Hb; inversion Hb.
Qed.
Print Assumptions C100_unreachable_refuted.
