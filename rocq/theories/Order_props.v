(** C101-C103: order of evaluation. *)
From Verif Require Import Cbase Order_model Order_spec Order_proofs Order_ev_proofs Order_prec_proofs.
From Coq Require Import List ZArith Bool Lia Arith.
Import ListNotations.
Open Scope Z_scope.
Local Arguments GVar _%nat_scope. Local Arguments GArr _%nat_scope.
Local Arguments MVar _%nat_scope. Local Arguments MArr _%nat_scope. Local Arguments MDeref _%nat_scope.
Local Arguments Var _%nat_scope. Local Arguments Arr _%nat_scope. Local Arguments Fetch _%nat_scope _.
Local Arguments LV _%nat_scope. Local Arguments LF _%nat_scope _. Local Arguments Call _%nat_scope _.
Local Arguments OVar _%nat_scope. Local Arguments OElem _%nat_scope _%Z_scope.
Local Arguments SVar _%nat_scope. Local Arguments SElem _%nat_scope _. Local Arguments MArgUse (_ _)%nat_scope _.

(** Declarations used in the examples: every variable and array is global;
    [f0] uses [v5] and modifies [v6]; [f1] modifies what its first argument points to; [f2] uses and
    modifies [v0]; [f3] uses the array [a0] and modifies nothing; [f4] has no modifies clause. *)
Definition everyVar (_ : var) := true.
Definition everyArr (_ : arr) := true.
Definition exDecl (f : fname) : fdecl :=
  match f with
  | 0%nat => {| globs := [GVar 5]; mods := Some [MVar 6] |}
  | 1%nat => {| globs := []; mods := Some [MDeref 0] |}
  | 2%nat => {| globs := [GVar 0]; mods := Some [MVar 0] |}
  | 3%nat => {| globs := [GArr 0]; mods := Some [] |}
  | _ => {| globs := []; mods := None |}
  end.
Definition said (u : bool) (e : expr) : list msg := messages everyVar everyArr exDecl u e.
Definition runs_to := run everyVar everyArr exDecl.
Definition x0 := Var 0. Definition x1 := Var 1.
Definition args1 (e : expr) := ECons e ENil.
Definition args2 (e f : expr) := ECons e (ECons f ENil).

(** ** C101 *)
Theorem C101_silent_no_conflict_partial : forall glob_var glob_arr decl uncon e v a,
  careful decl e = true -> messages glob_var glob_arr decl uncon e = [] ->
  run glob_var glob_arr decl e v a -> clash a = false.
Proof. intros gv ga d u e v a C M R; exact (proj1 (proj1 (no_clash gv ga d u) e C M v a R)). Qed.
Print Assumptions C101_silent_no_conflict_partial.
(** [v0 = v1++ + (f0 (v2, a0[v3]))]: nothing is said. *)
Definition okExpr : expr :=
  Asg (LV 0) (Bin BAdd (Post (LV 1)) (Paren (Call 0 (args2 (Var 2) (Fetch 0 (Var 3)))))).
Example C101_example : careful exDecl okExpr = true /\ said true okExpr = [] /\ exists v a, runs_to okExpr v a
  /\ rd a = [OVar 1; OVar 2; OElem 0 7; OVar 3; OVar 5] /\ wr a = [OVar 0; OVar 1; OVar 6].
Proof.
  split; [reflexivity | split; [reflexivity |]].
  exists 3, (A [OVar 1; OVar 2; OElem 0 7; OVar 3; OVar 5] [OVar 0; OVar 1; OVar 6] [OVar 0; OVar 1] false).
  split; [| split; reflexivity].
  exists (OVar 0), none, (A [OVar 1; OVar 2; OElem 0 7; OVar 3; OVar 5] [OVar 1; OVar 6] [OVar 1] false).
  split; [split; reflexivity | split; [| reflexivity]].
  exists 1, 2, (A [OVar 1] [OVar 1] [OVar 1] false), (A [OVar 2; OElem 0 7; OVar 3; OVar 5] [OVar 6] [] false).
  split; [exists (OVar 1), none; split; [split; reflexivity | reflexivity] |].
  split; [| split; reflexivity].
  exists (A [OVar 2; OElem 0 7; OVar 3] [] [] false), [OVar 5], [OVar 6]; split; [| split; [| split]].
  - exists 0, (A [OVar 2] [] [] false), (A [OElem 0 7; OVar 3] [] [] false); split; [reflexivity | split; [| reflexivity]].
    exists 0, (A [OElem 0 7; OVar 3] [] [] false), none; split; [exists 7, (reads (OVar 3) none); split; reflexivity | split; reflexivity].
  - intros o [<- | []]; left; reflexivity.
  - intros o [<- | []]; left; reflexivity.
  - reflexivity.
Qed.
(** What is reported: [v0 = v0++], [v0++ + v0], [f0 (v1++, v1)], [a0[v0] = v0++], [v0 + (f2 ())]. *)
Example C101_reported :
  said false (Asg (LV 0) (Post (LV 0))) = [MLeftValue]
  /\ said false (Bin BAdd (Post (LV 0)) x0) = [MRightValue]
  /\ said false (Call 0 (args2 (Post (LV 1)) x1)) = [MArgUse 1 2 (SVar 1)]
  /\ said false (Asg (LF 0 x0) (Post (LV 0))) = [MLeftUses (SVar 0)]
  /\ said false (Bin BAdd x0 (Paren (Call 2 ENil))) = [MLeftValue].
Proof. repeat split; reflexivity. Qed.

(** The value of the left operand is not compared with what a call on the right modifies: [v0 + f2 ()]
    and [v0 += f2 ()], where [f2] modifies [v0], are passed over, though [v0 + (f2 ())] is reported. *)
Theorem C101_call_on_right_refuted : exists e v a,
  said true e = [] /\ runs_to e v a /\ clash a = true
  /\ exists v' a', said true (AsgOp BAdd (LV 0) (Call 2 ENil)) = [] /\ runs_to (AsgOp BAdd (LV 0) (Call 2 ENil)) v' a' /\ clash a' = true.
Proof.
  assert (runs_to (Call 2 ENil) 0 (A [] [OVar 0] [] false)) as R.
  { exists none, [], [OVar 0]; split; [reflexivity | split; [intros ? [] | split; [| reflexivity]]].
    intros o [<- | []]; left; reflexivity. }
  exists (Bin BAdd x0 (Call 2 ENil)), 0, (unseq (reads (OVar 0) none) (A [] [OVar 0] [] false)).
  split; [reflexivity | split; [| split; [reflexivity |]]].
  - exists 0, 0, (reads (OVar 0) none), (A [] [OVar 0] [] false); split; [reflexivity | split; [exact R | split; reflexivity]].
  - exists 0, (writes (OVar 0) (unseq (reads (OVar 0) none) (A [] [OVar 0] [] false))); split; [reflexivity | split; [| reflexivity]].
    exists (OVar 0), none, 0, (A [] [OVar 0] [] false); split; [split; reflexivity | split; [exact R | reflexivity]].
Qed.
Print Assumptions C101_call_on_right_refuted.

(** An element is not compared with what its own subscript modifies: [a0[a0[0]++] = 1]. *)
Theorem C101_subscript_refuted : exists v a,
  let e := Asg (LF 0 (Post (LF 0 (Const 0)))) (Const 1) in
  said true e = [] /\ runs_to e v a /\ clash a = true.
Proof.
  exists 1, (writes (OElem 0 0) (unseq (writes (OElem 0 0) (reads (OElem 0 0) none)) none)).
  cbv zeta; split; [reflexivity | split; [| reflexivity]].
  exists (OElem 0 0), (writes (OElem 0 0) (reads (OElem 0 0) none)), none; split; [| split; [split; reflexivity | reflexivity]].
  exists 0; split; [| reflexivity].
  exists (OElem 0 0), none; split; [exists 0; split; [split; reflexivity | reflexivity] | reflexivity].
Qed.
Print Assumptions C101_subscript_refuted.

(** The value of the right operand is compared with [sRef_same], which does not know that what an array
    points to are its elements: [f1 (a0) + a0[0]], where [f1] modifies what its argument points to, is passed
    over, though [a0[0] + (f1 (a0))] is reported. *)
Theorem C101_pointer_refuted : exists v a,
  let e := Bin BAdd (Call 1 (args1 (Arr 0))) (Fetch 0 (Const 0)) in
  said true e = [] /\ runs_to e v a /\ clash a = true
  /\ said true (Bin BAdd (Fetch 0 (Const 0)) (Paren (Call 1 (args1 (Arr 0))))) <> [].
Proof.
  exists 0, (unseq (A [] [OElem 0 0] [] false) (reads (OElem 0 0) none)).
  cbv zeta; split; [reflexivity | split; [| split; [reflexivity | discriminate]]].
  exists 0, 0, (A [] [OElem 0 0] [] false), (reads (OElem 0 0) none); split; [| split; [| split; reflexivity]].
  - exists none, [], [OElem 0 0]; split; [exists 0, none, none; repeat split | split; [intros ? [] | split; [| reflexivity]]].
    intros o [<- | []]; right; exists O, [O]; repeat split; left; reflexivity.
  - exists 0, none; repeat split.
Qed.
Print Assumptions C101_pointer_refuted.

(** The known value of a comma expression is that of its first operand: [a0[(0, v1)] + (a0[1] = 2)] is
    taken to be about two different elements. *)
Theorem C101_comma_subscript_refuted : exists v a,
  let e := Bin BAdd (Fetch 0 (Comma (Const 0) x1)) (Asg (LF 0 (Const 1)) (Const 2)) in
  said true e = [] /\ runs_to e v a /\ clash a = true.
Proof.
  exists 2, (unseq (reads (OElem 0 1) (seqpt none (reads (OVar 1) none))) (writes (OElem 0 1) (unseq none none))).
  cbv zeta; split; [reflexivity | split; [| reflexivity]].
  exists 0, 2, (reads (OElem 0 1) (seqpt none (reads (OVar 1) none))), (writes (OElem 0 1) (unseq none none)).
  split; [| split; [| split; reflexivity]].
  - exists 1, (seqpt none (reads (OVar 1) none)); split; [| reflexivity].
    exists 0, none, (reads (OVar 1) none); repeat split.
  - exists (OElem 0 1), none, none; split; [exists 1; repeat split | repeat split].
Qed.
Print Assumptions C101_comma_subscript_refuted.

(** An array in the globals list of a function is not compared with its elements:
    [(a0[0] = 1) + (f3 ())], where [f3] uses [a0]. *)
Theorem C101_global_array_refuted : exists v a,
  let e := Bin BAdd (Asg (LF 0 (Const 0)) (Const 1)) (Paren (Call 3 ENil)) in
  said true e = [] /\ runs_to e v a /\ clash a = true.
Proof.
  exists 1, (unseq (writes (OElem 0 0) (unseq none none)) (A [OElem 0 0] [] [] false)).
  cbv zeta; split; [reflexivity | split; [| reflexivity]].
  exists 1, 0, (writes (OElem 0 0) (unseq none none)), (A [OElem 0 0] [] [] false).
  split; [| split; [| split; reflexivity]].
  - exists (OElem 0 0), none, none; split; [exists 0; repeat split | repeat split].
  - exists none, [OElem 0 0], []; split; [reflexivity | split; [| split; [intros ? [] | reflexivity]]].
    intros o [<- | []]; left; left; reflexivity.
Qed.
Print Assumptions C101_global_array_refuted.

(** Of an argument chosen by a condition only the first choice counts:
    [a1[0] + (f1 (v1 ? a0 : a1))]. *)
Theorem C101_chosen_argument_refuted : exists v a,
  let e := Bin BAdd (Fetch 1 (Const 0)) (Paren (Call 1 (args1 (Cond x1 (Arr 0) (Arr 1))))) in
  said true e = [] /\ runs_to e v a /\ clash a = true.
Proof.
  exists 0, (unseq (reads (OElem 1 0) none) (A [OVar 1] [OElem 1 0] [] false)).
  cbv zeta; split; [reflexivity | split; [| reflexivity]].
  exists 0, 0, (reads (OElem 1 0) none), (A [OVar 1] [OElem 1 0] [] false).
  split; [| split; [| split; reflexivity]].
  - exists 0, none; repeat split.
  - exists (A [OVar 1] [] [] false), [], [OElem 1 0]; split; [| split; [intros ? [] | split; [| reflexivity]]].
    + exists 0, (A [OVar 1] [] [] false), none; split; [| split; reflexivity].
      exists 0, (reads (OVar 1) none), none; split; [reflexivity | split; [right; reflexivity | reflexivity]].
    + intros o [<- | []]; right; exists O, [0%nat; 1%nat]; split; [left; reflexivity | split; [reflexivity | right; left; reflexivity]].
Qed.
Print Assumptions C101_chosen_argument_refuted.

(** With [evalorderuncon], only the storage an operand is itself in counts as global:
    [(v0 + 1) + f4 ()], where [f4] has no modifies clause, is passed over, though [v0 + f4 ()] is reported. *)
Theorem C101_unconstrained_refuted : exists v a,
  let e := Bin BAdd (Bin BAdd x0 (Const 1)) (Call 4 ENil) in
  said true e = [] /\ runs_to e v a /\ clash a = true /\ said true (Bin BAdd x0 (Call 4 ENil)) = [MUncon].
Proof.
  exists 1, (unseq (unseq (reads (OVar 0) none) none) (A [] [OVar 0] [] false)).
  cbv zeta; split; [reflexivity | split; [| split; reflexivity]].
  exists 1, 0, (unseq (reads (OVar 0) none) none), (A [] [OVar 0] [] false).
  split; [| split; [| split; reflexivity]].
  - exists 0, 1, (reads (OVar 0) none), none; repeat split.
  - exists none, [], [OVar 0]; split; [reflexivity | split; [intros ? [] | split; [| reflexivity]]].
    intros o [<- | []]; reflexivity.
Qed.
Print Assumptions C101_unconstrained_refuted.

(** ** C102 *)
Theorem C102_order_irrelevant_partial : forall glob_var glob_arr decl uncon unother binother addr body e s v t v' t',
  honest glob_var glob_arr decl body ->
  careful decl e = true -> messages glob_var glob_arr decl uncon e = [] ->
  outcome unother binother addr body s e v t -> outcome unother binother addr body s e v' t' ->
  v = v' /\ forall o, t o = t' o.
Proof. intros gv ga d u un bi ad bo e s v t v' t' H C M; exact (order_does_not_matter gv ga d u un bi ad bo H e s v t v' t' C M). Qed.
Print Assumptions C102_order_irrelevant_partial.

(** Bodies that do what is declared: [f0] returns [v5] and stores [v5 + 1] in [v6]; [f2] stores 5 in [v0]. *)
Definition exBody (f : fname) (_ : exprs) (_ : list Z) (s : state) : Z * (obj -> option Z) :=
  match f with
  | 0%nat => (s (OVar 5), fun o => if obj_eqb o (OVar 6) then Some (s (OVar 5) + 1) else None)
  | 2%nat => (0, fun o => if obj_eqb o (OVar 0) then Some 5 else None)
  | _ => (0, fun _ => None)
  end.
Lemma exBody_honest : honest everyVar everyArr exDecl exBody.
Proof.
  intros f args vs s; destruct f as [|[|[|f]]]; cbn [exBody fst snd]; split; try discriminate; auto.
  - intros o v H; destruct (obj_eqb o (OVar 6)) eqn:E; [| discriminate]; apply obj_eqb_eq in E; subst; left; reflexivity.
  - intros s' H; assert (s (OVar 5) = s' (OVar 5)) as -> by (apply H; left; reflexivity); auto.
  - intros o v H; destruct (obj_eqb o (OVar 0)) eqn:E; [| discriminate]; apply obj_eqb_eq in E; subst; left; reflexivity.
Qed.
Definition start (o : obj) : Z := match o with OVar x => Z.of_nat x | OElem _ k => k end.
Example C102_example : honest everyVar everyArr exDecl exBody /\ careful exDecl okExpr = true /\ said true okExpr = []
  /\ exists t, outcome (fun z => z) (fun a b => a) (fun a => 0) exBody start okExpr 6 t /\ t (OVar 0) = 6 /\ t (OVar 1) = 2 /\ t (OVar 6) = 6.
Proof.
  split; [exact exBody_honest | split; [reflexivity | split; [reflexivity |]]].
  set (s1 := upd start (OVar 1) 2).
  set (s2 := stored (snd (exBody 0%nat (args2 (Var 2) (Fetch 0 (Var 3))) [2; 3] s1)) s1).
  exists (flush (upd s2 (OVar 0) 6) []); split; [| repeat split].
  exists (upd s2 (OVar 0) 6), []; split; [| reflexivity].
  exists (OVar 0, 6); split; [| reflexivity].
  exists s2, []; split; [| left; split; reflexivity].
  left; exists start, [], []; split; [repeat split | split; [| reflexivity]].
  exists (1, 5); split; [| reflexivity].
  left; exists s1, [], []; split; [| split; [| reflexivity]].
  - exists (OVar 1, 1); split; [| reflexivity].
    exists start, []; split; [repeat split | left; split; reflexivity].
  - exists [2; 3], s1, []; split; [| repeat split].
    exists (2, [3]); split; [| reflexivity].
    left; exists s1, [], []; split; [repeat split | split; [| reflexivity]].
    exists (3, []); split; [| reflexivity].
    left; exists s1, [], []; split; [| repeat split].
    exists (OElem 0 3, 3); split; [| reflexivity].
    split; [exists 3; repeat split | reflexivity].
Qed.

(** [v0 + f2 ()]: the value depends on the order, and nothing is said. *)
Theorem C102_call_on_right_refuted : exists e s t t',
  honest everyVar everyArr exDecl exBody /\ said true e = []
  /\ outcome (fun z => z) (fun a b => a) (fun a => 0) exBody s e 1 t /\ outcome (fun z => z) (fun a b => a) (fun a => 0) exBody s e 5 t'.
Proof.
  set (s := fun _ : obj => 1); set (t := stored (snd (exBody 2%nat ENil [] s)) s).
  exists (Bin BAdd x0 (Call 2 ENil)), s, t, t; split; [exact exBody_honest | split; [reflexivity |]].
  assert (ev (fun z => z) (fun a b => a) (fun a => 0) exBody (Call 2 ENil) s 0 t []) as R
    by (exists [], s, []; split; [repeat split | repeat split]).
  split; exists t, []; (split; [| reflexivity]).
  - exists (1, 0); split; [| reflexivity]; left; exists s, [], []; split; [repeat split | split; [exact R | reflexivity]].
  - exists (5, 0); split; [| reflexivity]; right; exists t, [], []; split; [exact R | repeat split].
Qed.
Print Assumptions C102_call_on_right_refuted.

(** [a0[a0[0]++] = 7]: the final value of [a0[0]] depends on when it is incremented, and nothing is said. *)
Theorem C102_subscript_refuted : exists s t t',
  let e := Asg (LF 0 (Post (LF 0 (Const 0)))) (Const 7) in
  said true e = []
  /\ outcome (fun z => z) (fun a b => a) (fun a => 0) exBody s e 7 t /\ outcome (fun z => z) (fun a b => a) (fun a => 0) exBody s e 7 t'
  /\ t (OElem 0 0) = 7 /\ t' (OElem 0 0) = 1.
Proof.
  set (s := fun _ : obj => 0); set (s1 := upd s (OElem 0 0) 1).
  exists s, (upd s1 (OElem 0 0) 7), (flush (upd s (OElem 0 0) 7) [(OElem 0 0, 1)]).
  cbv zeta; split; [reflexivity | split; [| split; [| split; reflexivity]]].
  - exists (upd s1 (OElem 0 0) 7), []; split; [| reflexivity].
    exists (OElem 0 0, 7); split; [| reflexivity].
    exists s1, []; split; [| left; split; reflexivity].
    left; exists s1, [], []; split; [| repeat split].
    exists 0; split; [| reflexivity]; exists (OElem 0 0, 0); split; [| reflexivity].
    exists s, []; split; [split; [exists 0; repeat split | reflexivity] | left; split; reflexivity].
  - exists (upd s (OElem 0 0) 7), [(OElem 0 0, 1)]; split; [| reflexivity].
    exists (OElem 0 0, 7); split; [| reflexivity].
    exists s, [(OElem 0 0, 1)]; split; [| left; split; reflexivity].
    left; exists s, [(OElem 0 0, 1)], []; split; [| repeat split].
    exists 0; split; [| reflexivity]; exists (OElem 0 0, 0); split; [| reflexivity].
    exists s, []; split; [split; [exists 0; repeat split | reflexivity] | right; split; reflexivity].
Qed.
Print Assumptions C102_subscript_refuted.

(** ** C103 *)
Theorem C103_report_conflict_partial : forall glob_var glob_arr decl uncon e m,
  regular decl e = true -> In m (messages glob_var glob_arr decl uncon e) -> isUnconMsg m = false ->
  exists v a, run glob_var glob_arr decl e v a /\ clash a = true.
Proof. intros gv ga d u e m R H N; exact (proj1 (clash_found gv ga d u) e R m H N). Qed.
Print Assumptions C103_report_conflict_partial.
(** [f0 (a0[v0], a0[v1] = 3)]. *)
Example C103_example : let e := Call 0 (args2 (Fetch 0 x0) (Asg (LF 0 x1) (Const 3))) in
  regular exDecl e = true /\ said false e = [MArgUse 2 1 (SElem 0 None)] /\ isUnconMsg (MArgUse 2 1 (SElem 0 None)) = false.
Proof. repeat split; reflexivity. Qed.

Theorem C103_exact_partial : forall glob_var glob_arr decl uncon e,
  careful decl e = true -> regular decl e = true ->
  (messages glob_var glob_arr decl uncon e = [] <-> forall v a, run glob_var glob_arr decl e v a -> clash a = false).
Proof. intros gv ga d u e C R; exact (exact_messages gv ga d u e C R). Qed.
Print Assumptions C103_exact_partial.
Example C103_exact_example : careful exDecl okExpr = true /\ regular exDecl okExpr = false
  /\ let e := Comma (Post (LV 0)) (Cond x0 (Bin BAdd (Post (LV 1)) (Fetch 0 x0)) (Paren (Call 0 (args1 x1)))) in
     careful exDecl e = true /\ regular exDecl e = true /\ said true e = []
  /\ let e := Bin BMul (Asg (LV 0) (Post (LV 1))) (And x0 (Fetch 0 x1)) in
     careful exDecl e = true /\ regular exDecl e = true /\ said true e <> [].
Proof. repeat split; try reflexivity; discriminate. Qed.

(** A false alarm: [v0 = (v0++, 3)] is reported, though the comma separates the two modifications. *)
Theorem C103_comma_refuted : exists e, said false e = [MLeftValue] /\ forall v a, runs_to e v a -> clash a = false.
Proof.
  exists (Asg (LV 0) (Comma (Post (LV 0)) (Const 3))); split; [reflexivity |].
  intros v a (o & c & b & (-> & ->) & (w & c' & b' & (o' & c0 & (-> & ->) & ->) & (-> & ->) & ->) & ->); reflexivity.
Qed.
Print Assumptions C103_comma_refuted.

(** A false alarm: [v0 = f2 () + 1] is reported, where [f2] modifies [v0]: the assignment comes after the
    call in every order.  [v0 = f2 ()] is not reported. *)
Theorem C103_call_in_operand_refuted : exists e, said false e = [MLeftValue] /\ said false (Asg (LV 0) (Call 2 ENil)) = []
  /\ forall v a, runs_to e v a -> clash a = false.
Proof.
  exists (Asg (LV 0) (Bin BAdd (Call 2 ENil) (Const 1))); split; [reflexivity | split; [reflexivity |]].
  intros v a (o & c & b & (-> & ->) & (v1 & v2 & a1 & a2 & (c0 & rs & ws & -> & _ & _ & ->) & (-> & ->) & _ & ->) & ->).
  assert (forall l, meets l [] = false) as M by (intros l; apply (meets_false everyVar everyArr exDecl); intros ? _ []).
  unfold writes, unseq, none; cbn [clash pend rd wr app orb]; rewrite ?app_nil_r, ?M; reflexivity.
Qed.
Print Assumptions C103_call_in_operand_refuted.

(** A false alarm with [evalorderuncon]: [v0 = f4 ()] is reported, where [f4] has no modifies clause. *)
Theorem C103_unconstrained_refuted : exists e, said true e = [MUncon] /\ forall v a, runs_to e v a -> clash a = false.
Proof.
  exists (Asg (LV 0) (Call 4 ENil)); split; [reflexivity |].
  intros v a (o & c & b & (-> & ->) & (c0 & rs & ws & -> & _ & _ & ->) & ->).
  assert (forall l, meets l [] = false) as M by (intros l; apply (meets_false everyVar everyArr exDecl); intros ? _ []).
  unfold writes, unseq, none; cbn [clash pend rd wr app orb]; rewrite ?app_nil_r, ?M; reflexivity.
Qed.
Print Assumptions C103_unconstrained_refuted.

(** A false alarm: [a0[(v1, 0)] + (a0[1] = 2)] is reported, though the two elements are different. *)
Theorem C103_comma_subscript_refuted : exists e, said false e <> [] /\ forall v a, runs_to e v a -> clash a = false.
Proof.
  exists (Bin BAdd (Fetch 0 (Comma x1 (Const 0))) (Asg (LF 0 (Const 1)) (Const 2))); split; [discriminate |].
  intros v a (v1 & v2 & a1 & a2 & (k & c & (w & c1 & b1 & -> & (-> & ->) & ->) & ->) & (o & c2 & b2 & (k2 & (-> & ->) & ->) & (-> & ->) & ->) & _ & ->).
  reflexivity.
Qed.
Print Assumptions C103_comma_subscript_refuted.
