(** Proofs for C103: each message about a regular expression is due to accesses that clash in some
    execution. *)
From Verif Require Import Cbase Order_model Order_spec Order_proofs.
From Coq Require Import List ZArith Bool Lia Arith.
Import ListNotations.
Open Scope Z_scope.

(** The objects a reference stands for. *)
Definition touch (s : sref) (o : obj) : Prop :=
  match s, o with
  | SVar x, OVar y | SDer (SVar x), OVar y => x = y
  | SElem a j, OElem b k | SDer (SElem a j), OElem b k => a = b /\ (j = None \/ j = Some k)
  | SPtr (SArr a), OElem b _ | SDer (SArr a), OElem b _ => a = b
  | _, _ => False
  end.
Definition plainref (s : sref) : Prop := match s with SVar _ | SArr _ | SElem _ _ => True | _ => False end.
Definition goodset (s : sref) : Prop :=
  match s with SVar _ | SElem _ _ | SPtr (SArr _) | SUncon _ => True | _ => False end.
Definition gooduse (s : sref) : Prop :=
  match s with SVar _ | SArr _ | SElem _ _ | SDer (SVar _) | SDer (SArr _) | SDer (SElem _ _) => True | _ => False end.

Lemma known_eq : forall j k, optZ_known_eq j k = true ->
  exists z, (j = None \/ j = Some z) /\ (k = None \/ k = Some z).
Proof.
  intros [j|] [k|] H; cbn in H; [apply Z.eqb_eq in H; subst; exists k | exists j | exists k | exists 0]; auto.
Qed.
Ltac common :=
  repeat match goal with
  | H : _ && _ = true |- _ => apply andb_true_iff in H; destruct H
  | H : Nat.eqb _ _ = true |- _ => apply Nat.eqb_eq in H; subst
  | H : (if ?b then _ else _) = true |- _ => destruct b eqn:?
  | H : optZ_known_eq ?j ?k = true |- _ => apply known_eq in H; destruct H as (z & ? & ?)
  | H : false = true |- _ => discriminate H
  end.
Ltac pick :=
  first
  [ match goal with z : Z, b : arr |- _ => exists (OElem b z); cbn; intuition congruence end
  | match goal with b : arr, k : option Z |- _ => exists (OElem b (match k with Some z => z | None => 0 end)); destruct k; cbn; intuition congruence end
  | match goal with b : arr |- _ => exists (OElem b 0); cbn; intuition congruence end
  | match goal with x : var |- _ => exists (OVar x); cbn; intuition congruence end ].
Lemma similar_use_set : forall s t, gooduse s -> goodset t -> similar s t = true -> exists o, touch s o /\ touch t o.
Proof.
  intros [x | a | a j | p | p | f] [y | b | b k | q | q | g] G1 G2 H; cbn [gooduse goodset] in *; try contradiction;
    try (destruct p; try contradiction); try (destruct q; try contradiction);
    cbn [similar includedBy same] in H; common; pick.
Qed.
Lemma similar_set_use : forall s t, goodset s -> gooduse t -> similar s t = true -> exists o, touch s o /\ touch t o.
Proof.
  intros [x | a | a j | p | p | f] [y | b | b k | q | q | g] G1 G2 H; cbn [gooduse goodset] in *; try contradiction;
    try (destruct p; try contradiction); try (destruct q; try contradiction);
    cbn [similar includedBy same] in H; common; pick.
Qed.
Lemma similar_set_set : forall s t, goodset s -> goodset t -> isUncon s = false -> similar s t = true -> exists o, touch s o /\ touch t o.
Proof.
  intros [x | a | a j | p | p | f] [y | b | b k | q | q | g] G1 G2 U H; cbn [gooduse goodset isUncon] in *; try contradiction; try discriminate U;
    try (destruct p; try contradiction); try (destruct q; try contradiction);
    cbn [similar includedBy same] in H; common; pick.
Qed.
Lemma same_set_ref : forall s t, goodset s -> plainref t -> same s t = true -> exists o, touch s o /\ touch t o.
Proof.
  intros [x | a | a j | p | p | f] [y | b | b k | q | q | g] G1 G2 H; cbn [plainref goodset] in *; try contradiction;
    cbn [same] in H; common; pick.
Qed.
Lemma plain_use : forall s, plainref s -> gooduse s.
Proof. intros [] H; try contradiction; exact I. Qed.

Lemma meets_true : forall l m o, In o l -> In o m -> meets l m = true.
Proof.
  intros l m o H1 H2; apply existsb_exists; exists o; split; [exact H1 |].
  apply existsb_exists; exists o; split; [exact H2 |].
  destruct o; cbn; rewrite ?Nat.eqb_refl, ?Z.eqb_refl; reflexivity.
Qed.
Definition acts (a : acc) : list obj := rd a ++ wr a.
Lemma unseq_acts : forall a b o, In o (acts (unseq a b)) <-> In o (acts a) \/ In o (acts b).
Proof. intros; unfold acts, unseq; cbn [rd wr]; rewrite !in_app_iff; tauto. Qed.
Lemma seqpt_acts : forall a b o, In o (acts (seqpt a b)) <-> In o (acts a) \/ In o (acts b).
Proof. intros; unfold acts, seqpt; cbn [rd wr]; rewrite !in_app_iff; tauto. Qed.
Lemma reads_acts : forall p a o, In o (acts (reads p a)) <-> p = o \/ In o (acts a).
Proof. intros; unfold acts, reads; cbn [rd wr app In]; rewrite !in_app_iff; tauto. Qed.
Lemma writes_acts : forall p a o, In o (acts (writes p a)) <-> p = o \/ In o (acts a).
Proof. intros; unfold acts, writes; cbn [rd wr app In]; rewrite !in_app_iff; cbn [In]; tauto. Qed.
Lemma unseq_clashes : forall a b o, (In o (wr a) /\ In o (acts b)) \/ (In o (acts a) /\ In o (wr b)) -> clash (unseq a b) = true.
Proof.
  intros a b o [[H1 H2] | [H1 H2]]; unfold unseq; cbn [clash]; rewrite !orb_true_iff; unfold acts in *.
  - left; right; eapply meets_true; eauto.
  - apply in_app_iff in H1; destruct H1 as [H1 | H1].
    + right; eapply meets_true; eauto.
    + left; right; eapply meets_true; [exact H1 | apply in_app_iff; auto].
Qed.

Section Precise.
Variable glob_var : var -> bool.
Variable glob_arr : arr -> bool.
Variable decl : fname -> fdecl.
Variable uncon : bool.
Local Notation run := (run glob_var glob_arr decl).
Local Notation runL := (runL glob_var glob_arr decl).
Local Notation runs := (runs glob_var glob_arr decl).
Local Notation nodeE := (nodeE glob_var glob_arr decl uncon).
Local Notation nodeL := (nodeL glob_var glob_arr decl uncon).
Local Notation nodesA := (nodesA glob_var glob_arr decl uncon).
Local Notation msgE := (msgE glob_var glob_arr decl uncon).
Local Notation msgL := (msgL glob_var glob_arr decl uncon).
Local Notation msgA := (msgA glob_var glob_arr decl uncon).
Local Notation regular := (regular decl).
Local Notation regulars := (regulars decl).
Local Notation regularL := (regularL decl).

(** ** Every expression has an execution *)
Lemma some_run : (forall e, exists v a, run e v a) /\ (forall l, exists o a, runL l o a) /\ (forall es, exists a, runs es a).
Proof.
  apply expr_lval_exprs_ind.
  - intros z; exists z, none; split; reflexivity.
  - intros x; exists 0, (reads (OVar x) none); reflexivity.
  - intros b; exists 0, none; reflexivity.
  - intros b i (k & c & R); exists 0, (reads (OElem b k) c); exists k, c; auto.
  - auto.
  - intros o e (v & a & R).
    exists (match o with UMinus => - v | _ => v end), a, v; split; [exact R | destruct o; cbn; auto].
  - intros o e1 (v1 & a1 & R1) e2 (v2 & a2 & R2).
    exists (match o with BAdd => v1 + v2 | BSub => v1 - v2 | BMul => v1 * v2 | _ => Z.quot v1 v2 end), (unseq a1 a2), v1, v2, a1, a2.
    repeat split; auto; destruct o; cbn; auto.
  - intros e1 (v1 & a1 & R1) e2 _; exists 0, (ended a1), v1, a1; auto.
  - intros e1 (v1 & a1 & R1) e2 _; exists 0, (ended a1), v1, a1; auto.
  - intros p (w & c & R) t (v & b & Rt) f _; exists v, (seqpt c b), w, c, b; auto.
  - intros e1 (w & c & R) e2 (v & b & R2); exists v, (seqpt c b), w, c, b; auto.
  - intros l (o & c & R) e (v & b & R2); exists v, (writes o (unseq c b)), o, c, b; auto.
  - intros op l (o & c & R) e (w & b & R2); exists 0, (writes o (unseq (reads o c) b)), o, c, w, b; auto.
  - intros l (o & c & R); exists 0, (writes o (reads o c)), o, c; auto.
  - intros l (o & c & R); exists 0, (writes o (reads o c)), o, c; auto.
  - intros f args (c & R); exists 0, (A (rd c ++ []) (wr c ++ []) [] (clash c)), c, [], [].
    repeat split; auto; intros ? [].
  - intros x; exists (OVar x), none; split; reflexivity.
  - intros b i (k & c & R); exists (OElem b k), c, k; auto.
  - exists none; reflexivity.
  - intros e (v & a & R) r (d & Rs); exists (unseq a d), v, a, d; auto.
Qed.
Lemma binary_run : forall o e1 e2 v1 v2 a1 a2, run e1 v1 a1 -> run e2 v2 a2 -> exists v, run (Bin o e1 e2) v (unseq a1 a2).
Proof.
  intros o e1 e2 v1 v2 a1 a2 R1 R2.
  exists (match o with BAdd => v1 + v2 | BSub => v1 - v2 | BMul => v1 * v2 | _ => Z.quot v1 v2 end), v1, v2, a1, a2.
  repeat split; auto; destruct o; cbn; auto.
Qed.
Lemma unary_run : forall o e v a, run e v a -> exists w, run (Un o e) w a.
Proof. intros o e v a R; exists (match o with UMinus => - v | _ => v end), v; split; [exact R | destruct o; cbn; auto]. Qed.
Lemma call_run : forall f args c, runs args c -> run (Call f args) 0 (A (rd c ++ []) (wr c ++ []) [] (clash c)).
Proof. intros f args c R; exists c, [], []; repeat split; auto; intros ? []. Qed.

(** An execution of the arguments that contains a given one of an argument; of two arguments. *)
Lemma runs_one : forall es n e v a, nth_arg n es = Some e -> run e v a ->
  exists c, runs es c /\ incl (rd a) (rd c) /\ incl (wr a) (wr c) /\ (clash a = true -> clash c = true).
Proof.
  induction es as [| | | | | | | | | | | | | | | | | | |e0 _ r IH] using exprs_mind
    with (P := fun _ => True) (P0 := fun _ => True); auto; intros n e v a H R; [destruct n; discriminate |].
  destruct n as [|n]; cbn [nth_arg] in H.
  - assert (e0 = e) by congruence; subst e0; destruct (proj2 (proj2 some_run) r) as (d & Rd).
    exists (unseq a d); split; [exists v, a, d; auto |]; unfold unseq; cbn [rd wr clash].
    split; [apply incl_appl, incl_refl | split; [apply incl_appl, incl_refl | intros ->; reflexivity]].
  - destruct (IH n e v a H R) as (d & Rd & I1 & I2 & I3); destruct (proj1 some_run e0) as (w & b & Rb).
    exists (unseq b d); split; [exists w, b, d; auto |]; unfold unseq; cbn [rd wr clash].
    split; [apply incl_appr; exact I1 | split; [apply incl_appr; exact I2 | intros Q; rewrite (I3 Q), !orb_true_iff; auto]].
Qed.
Lemma runs_two : forall es n m e f v w a b o, nth_arg n es = Some e -> nth_arg m es = Some f -> n <> m ->
  run e v a -> run f w b -> In o (wr a) -> In o (acts b) -> exists c, runs es c /\ clash c = true.
Proof.
  induction es as [| | | | | | | | | | | | | | | | | | |e0 _ r IH] using exprs_mind
    with (P := fun _ => True) (P0 := fun _ => True); auto; intros n m e f v w a b o H1 H2 N Ra Rb Ia Ib; [destruct n; discriminate |].
  destruct n as [|n], m as [|m]; cbn [nth_arg] in *.
  - contradiction.
  - assert (e0 = e) by congruence; subst e0; destruct (runs_one _ _ _ _ _ H2 Rb) as (d & Rd & I1 & I2 & _).
    exists (unseq a d); split; [exists v, a, d; auto |]; apply unseq_clashes with (o := o); left; split; [exact Ia |].
    unfold acts in *; apply in_app_iff in Ib; apply in_app_iff; destruct Ib; auto.
  - assert (e0 = f) by congruence; subst e0; destruct (runs_one _ _ _ _ _ H1 Ra) as (d & Rd & I1 & I2 & _).
    exists (unseq b d); split; [exists w, b, d; auto |]; apply unseq_clashes with (o := o); right; split; [exact Ib | apply I2; exact Ia].
  - destruct (IH n m e f v w a b o) as (d & Rd & Q); auto; destruct (proj1 some_run e0) as (u & c & Rc).
    exists (unseq c d); split; [exists u, c, d; auto |]; unfold unseq; cbn [clash]; rewrite Q, !orb_true_iff; auto.
Qed.
Lemma nth_nodes : forall es n k, nth_error (nodesA es) n = Some k ->
  exists e, nth_arg n es = Some e /\ k = nodeE e /\ (regulars es = true -> regular e = true).
Proof.
  induction es as [| | | | | | | | | | | | | | | | | | |e0 _ r IH] using exprs_mind
    with (P := fun _ => True) (P0 := fun _ => True); auto; intros n k H; [destruct n; discriminate |].
  rewrite nodes_cons in H; destruct n as [|n]; cbn [nth_error nth_arg] in *.
  - exists e0; split; [reflexivity | split; [congruence |]].
    intros Q; change (regular e0 && regulars r = true) in Q; apply andb_true_iff in Q; apply Q.
  - destruct (IH n k H) as (e & A & B & C); exists e; split; [exact A | split; [exact B |]].
    intros Q; change (regular e0 && regulars r = true) in Q; apply andb_true_iff in Q; apply C, Q.
Qed.

(** ** Regular expressions *)
Lemma regular_call : forall f args, regular (Call f args) = true ->
  regulars args = true /\ forall n, In (MDeref n) (mods_list decl f) -> exists a, nth_arg n args = Some (Arr a).
Proof.
  intros f args H.
  change (regulars args && forallb (fun m => match m with MDeref n => match nth_arg n args with Some (Arr _) => true | _ => false end | _ => true end) (mods_list decl f) = true) in H.
  apply andb_true_iff in H; destruct H as [H1 H2]; split; [exact H1 |].
  intros n Hn; rewrite forallb_forall in H2; specialize (H2 _ Hn); cbn beta iota in H2.
  destruct (nth_arg n args) as [[]|]; try discriminate H2; eauto.
Qed.
Lemma regular_asg : forall l e, regular (Asg l e) = regularL l && regular e && (no_points e || is_call e).
Proof. reflexivity. Qed.
Lemma regular_asgop : forall o l e, regular (AsgOp o l e) = regularL l && regular e.
Proof. reflexivity. Qed.

Lemma plain_refs : (forall e s, ref (nodeE e) = Some s -> plainref s) /\ (forall l s, ref (nodeL l) = Some s -> plainref s) /\ (forall es : exprs, True).
Proof.
  apply expr_lval_exprs_ind; intros; try exact I;
    rewrite ?node_fetch, ?node_paren, ?node_un, ?node_bin, ?node_and, ?node_or, ?node_cond, ?node_comma,
      ?node_asg, ?node_asgop, ?node_pre, ?node_post, ?node_call, ?node_lf in *; cbn in *; try discriminate; eauto;
    match goal with H : Some _ = Some _ |- _ => assert (X := H); clear H; injection X as <-; exact I end.
Qed.

(** A plain subscript. *)
Lemma plain_run : forall b i o, plain_subscript i = true -> touch (SElem b (val (nodeE i))) o ->
  exists k c, run i k c /\ o = OElem b k.
Proof.
  intros b i o P T; destruct i; try discriminate P; destruct o as [x0 | a k]; cbn in T; try (destruct T; fail); destruct T as [-> T].
  - destruct T as [T | T]; [discriminate |].
    exists z, none; split; [split; reflexivity | congruence].
  - exists k, (reads (OVar x) none); split; [reflexivity | reflexivity].
Qed.
Lemma plain_sets : forall i, plain_subscript i = true -> sets (nodeE i) = [] /\ msgE i = [].
Proof. intros [] P; try discriminate P; split; reflexivity. Qed.
Lemma plain_uses : forall b i u, plain_subscript i = true -> In u (uses (fetchNode b (nodeE i))) ->
  u = SArr b \/ exists x, i = Var x /\ u = SVar x.
Proof.
  intros b i u P H; unfold fetchNode in H; cbn [uses] in H; apply in_insert in H; destruct H as [H | ->]; [| auto].
  apply in_use in H; destruct i; try discriminate P; destruct H as [H | H]; cbn in H; try contradiction; try discriminate.
  right; exists x; split; [reflexivity | congruence].
Qed.

(** What is set, and what is used, is of the expected form, and happens in some execution. *)
Definition reach (R : acc -> Prop) (n : node) : Prop :=
  (forall u, In u (uses n) -> gooduse u) /\ (forall s, In s (sets n) -> goodset s)
  /\ (forall u o, In u (uses n) \/ ref n = Some u -> touch u o -> exists a, R a /\ In o (acts a))
  /\ (forall s o, In s (sets n) -> touch s o -> exists a, R a /\ In o (wr a)).
Definition reachE (e : expr) : Prop := reach (fun a => exists v, run e v a) (nodeE e).
Definition reachL (l : lval) : Prop :=
  sets (nodeL l) = [] /\ msgL l = [] /\ (forall u, In u (uses (nodeL l)) -> gooduse u)
  /\ (forall u o, In u (uses (nodeL l)) -> touch u o -> exists p a, runL l p a /\ In o (acts a))
  /\ (forall s o, ref (nodeL l) = Some s -> touch s o -> exists a, runL l o a)
  /\ exists s, ref (nodeL l) = Some s /\ goodset s.

Lemma lval_reach : forall l, regularL l = true -> reachL l.
Proof.
  intros [x | b i] H; unfold reachL.
  - split; [reflexivity | split; [reflexivity | split; [intros u [] | split; [intros u o [] |]]]].
    split; [| exists (SVar x); split; [reflexivity | exact I]].
    intros s o Hs T; cbn in Hs; assert (s = SVar x) by congruence; subst s.
    destruct o; cbn in T; [subst | destruct T]; exists none; split; reflexivity.
  - change (plain_subscript i = true) in H; rewrite node_lf, msg_lf; destruct (plain_sets i H) as [S M].
    split; [exact S | split; [exact M |]].
    split; [intros u Hu; destruct (plain_uses _ _ _ H Hu) as [-> | (x & _ & ->)]; exact I |].
    split.
    { intros u o Hu T; destruct (plain_uses _ _ _ H Hu) as [-> | (x & -> & ->)]; [destruct o; destruct T |].
      destruct o as [y | a k]; cbn in T; [subst y | destruct T].
      exists (OElem b 0), (reads (OVar x) none); split; [exists 0; split; reflexivity | left; reflexivity]. }
    split; [| exists (SElem b (val (nodeE i))); split; [reflexivity | exact I]].
    intros s o Hs T; cbn in Hs; assert (s = SElem b (val (nodeE i))) by congruence; subst s.
    destruct (plain_run b i o H T) as (k & c & R & ->); exists c, k; auto.
Qed.

Lemma reach_weaken : forall (R : acc -> Prop) n n',
  reach R n -> (forall u, In u (uses n') -> In u (uses n) \/ ref n = Some u) -> (forall s, In s (sets n') -> In s (sets n)) ->
  (forall u, ref n' = Some u -> ref n = Some u) -> (forall u, ref n = Some u -> plainref u) -> reach R n'.
Proof.
  intros R n n' (A & B & C & D) U S F P; split; [| split; [| split]].
  - intros u Hu; destruct (U u Hu) as [H | H]; [auto | apply plain_use; auto].
  - auto.
  - intros u o [H | H] T; apply C with (u := u); auto.
  - intros s o H T; eauto.
Qed.

(** Two parts, each with its own executions. *)
Lemma reach_two : forall (R1 R2 R : acc -> Prop) n1 n2 n, reach R1 n1 -> reach R2 n2 ->
  (exists a, R1 a) -> (exists a, R2 a) ->
  (forall a b, R1 a -> R2 b -> exists c, R c /\ incl (acts a) (acts c) /\ incl (acts b) (acts c) /\ incl (wr a) (wr c) /\ incl (wr b) (wr c)) ->
  (forall u, In u (uses n) -> In u (uses n1) \/ ref n1 = Some u \/ In u (uses n2) \/ ref n2 = Some u) ->
  (forall u, ref n = Some u -> ref n1 = Some u \/ ref n2 = Some u) ->
  (forall s, In s (sets n) -> In s (sets n1) \/ In s (sets n2)) ->
  (forall u, ref n1 = Some u -> plainref u) -> (forall u, ref n2 = Some u -> plainref u) -> reach R n.
Proof.
  intros R1 R2 R n1 n2 n (A1 & B1 & C1 & D1) (A2 & B2 & C2 & D2) (x & E1) (y & E2) K U F S P1 P2; split; [| split; [| split]].
  - intros u Hu; destruct (U u Hu) as [H | [H | [H | H]]]; auto; apply plain_use; auto.
  - intros s Hs; destruct (S s Hs); auto.
  - intros u o H T.
    assert ((In u (uses n1) \/ ref n1 = Some u) \/ (In u (uses n2) \/ ref n2 = Some u)) as [Q | Q]
      by (destruct H as [H | H]; [apply U in H | apply F in H]; tauto).
    + destruct (C1 u o Q T) as (a & Ra & I); destruct (K a y Ra E2) as (c & Rc & I1 & _); exists c; auto.
    + destruct (C2 u o Q T) as (b & Rb & I); destruct (K x b E1 Rb) as (c & Rc & _ & I2 & _); exists c; auto.
  - intros s o H T; apply S in H; destruct H as [H | H].
    + destruct (D1 s o H T) as (a & Ra & I); destruct (K a y Ra E2) as (c & Rc & _ & _ & I1 & _); exists c; auto.
    + destruct (D2 s o H T) as (b & Rb & I); destruct (K x b E1 Rb) as (c & Rc & _ & _ & _ & I2); exists c; auto.
Qed.
Lemma in_use3 : forall u us r, In u (use us r) -> In u us \/ r = Some u.
Proof. intros; apply in_use; assumption. Qed.
Lemma uses_op : forall n1 n2 v u, In u (uses (opNode n1 n2 v)) -> In u (uses n1) \/ ref n1 = Some u \/ In u (uses n2) \/ ref n2 = Some u.
Proof. intros n1 n2 v u; unfold opNode; cbn [uses]; rewrite in_use, in_union, in_use; tauto. Qed.
Lemma sets_op : forall n1 n2 v s, In s (sets (opNode n1 n2 v)) -> In s (sets n1) \/ In s (sets n2).
Proof. intros n1 n2 v s; unfold opNode; cbn [sets]; rewrite in_union; tauto. Qed.
Lemma incl_acts : forall a b, incl (rd a) (rd b) -> incl (wr a) (wr b) -> incl (acts a) (acts b).
Proof. intros a b H1 H2 o; unfold acts; rewrite !in_app_iff; intros [H | H]; auto. Qed.
Ltac incls := unfold incl, acts, unseq, seqpt, ended; cbn [rd wr]; intros ?o; rewrite ?in_app_iff; tauto.

Lemma reach_all : (forall e, regular e = true -> reachE e) /\ (forall l : lval, True)
  /\ (forall es, regulars es = true -> forall n k, nth_error (nodesA es) n = Some k -> exists e, nth_arg n es = Some e /\ k = nodeE e /\ reachE e).
Proof.
  apply expr_lval_exprs_ind; try (intros; exact I).
  - intros z _; split; [intros u [] | split; [intros u [] | split; [intros u o [[] | H]; discriminate | intros s o []]]].
  - intros x _; split; [intros u [] | split; [intros u [] | split; [| intros s o []]]].
    intros u o [[] | H] T; cbn in H; assert (u = SVar x) by congruence; subst u.
    destruct o; cbn in T; [subst | destruct T]; exists (reads (OVar x0) none); split; [exists 0; reflexivity | left; reflexivity].
  - intros b _; split; [intros u [] | split; [intros u [] | split; [| intros s o []]]].
    intros u o [[] | H] T; cbn in H; assert (u = SArr b) by congruence; subst u; destruct o; destruct T.
  - intros b i _ H; change (plain_subscript i = true) in H; unfold reachE; rewrite node_fetch.
    destruct (plain_sets i H) as [S M].
    split; [intros u Hu; destruct (plain_uses _ _ _ H Hu) as [-> | (x & _ & ->)]; exact I |].
    split; [cbn [fetchNode sets]; rewrite S; intros s [] | split; [| cbn [fetchNode sets]; rewrite S; intros s o []]].
    intros u o [Hu | Hu] T.
    + destruct (plain_uses _ _ _ H Hu) as [-> | (x & -> & ->)]; [destruct o; destruct T |].
      destruct o as [y | a k]; cbn in T; [subst y | destruct T].
      exists (reads (OElem b 0) (reads (OVar x) none)); split; [exists 0, 0, (reads (OVar x) none); split; reflexivity |].
      right; left; reflexivity.
    + cbn [fetchNode ref] in Hu; assert (u = SElem b (val (nodeE i))) by congruence; subst u.
      destruct (plain_run b i o H T) as (k & c & R & ->).
      exists (reads (OElem b k) c); split; [exists 0, k, c; auto | left; reflexivity].
  - intros e IH H; specialize (IH H); unfold reachE in *; rewrite node_paren.
    eapply reach_weaken; [exact IH | cbn; auto .. |]; intros u; apply (proj1 plain_refs).
  - intros o e IH H; specialize (IH H); unfold reachE in *; rewrite node_un.
    destruct IH as (A & B & C & D); split; [| split; [| split]].
    + intros u Hu; unfold unNode in Hu; cbn [uses] in Hu; apply in_use in Hu; destruct Hu as [Hu | Hu]; [auto | apply plain_use, (proj1 plain_refs e); exact Hu].
    + exact B.
    + intros u p [Hu | Hu] T; [| discriminate Hu]; unfold unNode in Hu; cbn [uses] in Hu; apply in_use in Hu.
      destruct (C u p Hu T) as (a & (v & R) & I); destruct (unary_run o e v a R) as (w & R'); exists a; eauto.
    + intros s p Hs T; destruct (D s p Hs T) as (a & (v & R) & I); destruct (unary_run o e v a R) as (w & R'); exists a; eauto.
  - intros o e1 IH1 e2 IH2 H; cbn [Order_spec.regular] in H; apply andb_true_iff in H; destruct H as [H1 H2].
    unfold reachE in *; rewrite node_bin; eapply reach_two; [exact (IH1 H1) | exact (IH2 H2) | | | | apply uses_op | discriminate | apply sets_op | apply (proj1 plain_refs) ..].
    + destruct (proj1 some_run e1) as (v & a & R); eauto.
    + destruct (proj1 some_run e2) as (v & a & R); eauto.
    + intros a b (v1 & R1) (v2 & R2); destruct (binary_run o _ _ _ _ _ _ R1 R2) as (v & R); exists (unseq a b); split; [eauto |].
      repeat split; incls.
  - intros e1 IH1 e2 IH2 H; cbn [Order_spec.regular] in H; apply andb_true_iff in H; destruct H as [H1 H2].
    unfold reachE in *; rewrite node_and; eapply reach_two; [exact (IH1 H1) | exact (IH2 H2) | | | | apply uses_op | discriminate | apply sets_op | apply (proj1 plain_refs) ..].
    + destruct (proj1 some_run e1) as (v & a & R); eauto.
    + destruct (proj1 some_run e2) as (v & a & R); eauto.
    + intros a b (v1 & R1) (v2 & R2); exists (seqpt a b); split; [exists 0, v1, a; split; eauto |].
      repeat split; incls.
  - intros e1 IH1 e2 IH2 H; cbn [Order_spec.regular] in H; apply andb_true_iff in H; destruct H as [H1 H2].
    unfold reachE in *; rewrite node_or; eapply reach_two; [exact (IH1 H1) | exact (IH2 H2) | | | | apply uses_op | discriminate | apply sets_op | apply (proj1 plain_refs) ..].
    + destruct (proj1 some_run e1) as (v & a & R); eauto.
    + destruct (proj1 some_run e2) as (v & a & R); eauto.
    + intros a b (v1 & R1) (v2 & R2); exists (seqpt a b); split; [exists 0, v1, a; split; eauto |].
      repeat split; incls.
  - (* Cond *)
    intros p IHp t IHt f IHf H; cbn [Order_spec.regular] in H; rewrite !andb_true_iff in H; destruct H as [[Hp Ht] Hf].
    specialize (IHp Hp); specialize (IHt Ht); specialize (IHf Hf).
    destruct (proj1 some_run p) as (vp & ap & Rp), (proj1 some_run t) as (vt & at' & Rt), (proj1 some_run f) as (vf & af & Rf).
    destruct IHp as (A0 & B0 & C0 & D0), IHt as (A1 & B1 & C1 & D1), IHf as (A2 & B2 & C2 & D2).
    pose proof (proj1 plain_refs) as PR.
    assert (forall u, In u (uses (condNode (nodeE p) (nodeE t) (nodeE f))) \/ ref (condNode (nodeE p) (nodeE t) (nodeE f)) = Some u ->
      (In u (uses (nodeE p)) \/ ref (nodeE p) = Some u) \/ (In u (uses (nodeE t)) \/ ref (nodeE t) = Some u) \/ (In u (uses (nodeE f)) \/ ref (nodeE f) = Some u)) as U
      by (intros u; unfold condNode; cbn [uses ref]; rewrite !in_union, !in_use; tauto).
    assert (forall s, In s (sets (condNode (nodeE p) (nodeE t) (nodeE f))) -> In s (sets (nodeE p)) \/ In s (sets (nodeE t)) \/ In s (sets (nodeE f))) as S
      by (intros s; unfold condNode; cbn [sets]; rewrite !in_union; tauto).
    unfold reachE; rewrite node_cond; split; [| split; [| split]].
    + intros u Hu; destruct (U u (or_introl Hu)) as [[Q | Q] | [[Q | Q] | [Q | Q]]]; auto; apply plain_use; eauto.
    + intros s Hs; destruct (S s Hs) as [Q | [Q | Q]]; auto.
    + intros u o Hu T; destruct (U u Hu) as [Q | [Q | Q]].
      * destruct (C0 u o Q T) as (a & (v & R) & I); exists (seqpt a at'); split; [exists vt, v, a, at'; auto | apply seqpt_acts; auto].
      * destruct (C1 u o Q T) as (a & (v & R) & I); exists (seqpt ap a); split; [exists v, vp, ap, a; auto | apply seqpt_acts; auto].
      * destruct (C2 u o Q T) as (a & (v & R) & I); exists (seqpt ap a); split; [exists v, vp, ap, a; auto | apply seqpt_acts; auto].
    + intros s o Hs T; destruct (S s Hs) as [Q | [Q | Q]].
      * destruct (D0 s o Q T) as (a & (v & R) & I); exists (seqpt a at'); split; [exists vt, v, a, at'; auto | apply in_app_iff; auto].
      * destruct (D1 s o Q T) as (a & (v & R) & I); exists (seqpt ap a); split; [exists v, vp, ap, a; auto | apply in_app_iff; auto].
      * destruct (D2 s o Q T) as (a & (v & R) & I); exists (seqpt ap a); split; [exists v, vp, ap, a; auto | apply in_app_iff; auto].
  - (* Comma *)
    intros e1 IH1 e2 IH2 H; cbn [Order_spec.regular] in H; apply andb_true_iff in H; destruct H as [H1 H2].
    unfold reachE in *; rewrite node_comma; eapply reach_two; [exact (IH1 H1) | exact (IH2 H2) | | | | | | | apply (proj1 plain_refs) ..].
    + destruct (proj1 some_run e1) as (v & a & R); eauto.
    + destruct (proj1 some_run e2) as (v & a & R); eauto.
    + intros a b (v1 & R1) (v2 & R2); exists (seqpt a b); split; [exists v2, v1, a, b; auto |].
      repeat split; incls.
    + intros u; unfold commaNode; cbn [uses]; rewrite in_use, in_union, in_use; tauto.
    + intros u; unfold commaNode; cbn [ref]; tauto.
    + intros s; unfold commaNode; cbn [sets]; rewrite in_union; tauto.
  - (* Asg *)
    intros l _ e IH H; rewrite regular_asg, !andb_true_iff in H; destruct H as [[Hl He] _].
    destruct (lval_reach l Hl) as (S0 & _ & A1 & C1 & T1 & (r & Er & Gr)); destruct (IH He) as (A2 & B2 & C2 & D2).
    pose proof (proj1 plain_refs) as PR.
    destruct (proj1 (proj2 some_run) l) as (o0 & c0 & R0), (proj1 some_run e) as (v0 & b0 & Rb0).
    unfold reachE; rewrite node_asg; unfold asgNode; split; [| split; [| split]]; cbn [uses sets ref]; rewrite ?S0, ?Er.
    + intros u; rewrite in_use, in_union; intros [[Q | Q] | Q]; auto; apply plain_use; eauto.
    + intros s; rewrite in_set, in_union; intros [[[] | Q] | Q]; auto; assert (s = r) by congruence; subst; exact Gr.
    + intros u o; rewrite in_use, in_union; intros Hu T.
      assert (In u (uses (nodeL l)) \/ (In u (uses (nodeE e)) \/ ref (nodeE e) = Some u) \/ u = r) as [Q | [Q | ->]]
        by (assert (forall x y : sref, Some x = Some y -> y = x) as Z by congruence; destruct Hu as [Hu | Hu]; [tauto | apply Z in Hu; tauto]).
      * destruct (C1 u o Q T) as (p & a & R & I); exists (writes p (unseq a b0)); split; [exists v0, p, a, b0; auto |].
        apply writes_acts; right; apply unseq_acts; auto.
      * destruct (C2 u o Q T) as (a & (v & R) & I); exists (writes o0 (unseq c0 a)); split; [exists v, o0, c0, a; auto |].
        apply writes_acts; right; apply unseq_acts; auto.
      * destruct (T1 r o Er T) as (a & R); exists (writes o (unseq a b0)); split; [exists v0, o, a, b0; auto |].
        apply writes_acts; auto.
    + intros s o; rewrite in_set, in_union; intros [[[] | Q] | Q] T.
      * destruct (D2 s o Q T) as (a & (v & R) & I); exists (writes o0 (unseq c0 a)); split; [exists v, o0, c0, a; auto |].
        right; apply in_app_iff; auto.
      * assert (s = r) by congruence; subst s; destruct (T1 r o Er T) as (a & R).
        exists (writes o (unseq a b0)); split; [exists v0, o, a, b0; auto | left; reflexivity].
  - (* AsgOp *)
    intros op l _ e IH H; rewrite regular_asgop, !andb_true_iff in H; destruct H as [Hl He].
    destruct (lval_reach l Hl) as (S0 & _ & A1 & C1 & T1 & (r & Er & Gr)); destruct (IH He) as (A2 & B2 & C2 & D2).
    pose proof (proj1 plain_refs) as PR.
    destruct (proj1 (proj2 some_run) l) as (o0 & c0 & R0), (proj1 some_run e) as (v0 & b0 & Rb0).
    assert (gooduse r) as Gu by (apply plain_use, (proj1 (proj2 plain_refs) l); exact Er).
    unfold reachE; rewrite node_asgop; unfold asgOpNode, opNode; split; [| split; [| split]]; cbn [uses sets ref]; rewrite ?S0, ?Er.
    + intros u; rewrite !in_use, !in_union, !in_use, ?in_union, ?in_use.
      intros Hu; assert (In u (uses (nodeL l)) \/ u = r \/ In u (uses (nodeE e)) \/ ref (nodeE e) = Some u) as [Q | [-> | [Q | Q]]]
        by (assert (forall x y : sref, Some x = Some y -> y = x) as Z by congruence; intuition); auto; apply plain_use; eauto.
    + intros s; rewrite in_set, !in_union; intros [[[[] | Q] | Q] | Q]; auto; assert (s = r) by congruence; subst; exact Gr.
    + intros u o; rewrite !in_use, !in_union, !in_use, ?in_union, ?in_use; intros Hu T.
      assert (In u (uses (nodeL l)) \/ (In u (uses (nodeE e)) \/ ref (nodeE e) = Some u) \/ u = r) as [Q | [Q | ->]]
        by (assert (forall x y : sref, Some x = Some y -> y = x) as Z by congruence; intuition).
      * destruct (C1 u o Q T) as (p & a & R & I); exists (writes p (unseq (reads p a) b0)); split; [exists 0, p, a, v0, b0; auto |].
        apply writes_acts; right; apply unseq_acts; left; apply reads_acts; auto.
      * destruct (C2 u o Q T) as (a & (v & R) & I); exists (writes o0 (unseq (reads o0 c0) a)); split; [exists 0, o0, c0, v, a; auto |].
        apply writes_acts; right; apply unseq_acts; auto.
      * destruct (T1 r o Er T) as (a & R); exists (writes o (unseq (reads o a) b0)); split; [exists 0, o, a, v0, b0; auto |].
        apply writes_acts; auto.
    + intros s o; rewrite in_set, !in_union; intros [[[[] | Q] | Q] | Q] T.
      * destruct (D2 s o Q T) as (a & (v & R) & I); exists (writes o0 (unseq (reads o0 c0) a)); split; [exists 0, o0, c0, v, a; auto |].
        right; apply in_app_iff; auto.
      * destruct (D2 s o Q T) as (a & (v & R) & I); exists (writes o0 (unseq (reads o0 c0) a)); split; [exists 0, o0, c0, v, a; auto |].
        right; apply in_app_iff; auto.
      * assert (s = r) by congruence; subst s; destruct (T1 r o Er T) as (a & R).
        exists (writes o (unseq (reads o a) b0)); split; [exists 0, o, a, v0, b0; auto | left; reflexivity].
  - (* Pre *)
    intros l _ H; destruct (lval_reach l H) as (S0 & _ & A1 & C1 & T1 & (r & Er & Gr)).
    assert (gooduse r) as Gu by (apply plain_use, (proj1 (proj2 plain_refs) l); exact Er).
    unfold reachE; rewrite node_pre; unfold incNode; split; [| split; [| split]]; cbn [uses sets ref]; rewrite ?S0, ?Er.
    + intros u; rewrite in_use; intros [Q | Q]; auto; assert (u = r) by congruence; subst; exact Gu.
    + intros s; rewrite in_set; intros [[] | Q]; assert (s = r) by congruence; subst; exact Gr.
    + intros u o [Hu | Hu] T; [| discriminate Hu]; apply in_use in Hu; destruct Hu as [Q | Q].
      * destruct (C1 u o Q T) as (p & a & R & I); exists (writes p (reads p a)); split; [exists 0, p, a; auto |].
        apply writes_acts; right; apply reads_acts; auto.
      * assert (u = r) by congruence; subst u; destruct (T1 r o Er T) as (a & R).
        exists (writes o (reads o a)); split; [exists 0, o, a; auto | apply writes_acts; auto].
    + intros s o; rewrite in_set; intros [[] | Q] T; assert (s = r) by congruence; subst s; destruct (T1 r o Er T) as (a & R).
      exists (writes o (reads o a)); split; [exists 0, o, a; auto | left; reflexivity].
  - (* Post *)
    intros l _ H; destruct (lval_reach l H) as (S0 & _ & A1 & C1 & T1 & (r & Er & Gr)).
    assert (gooduse r) as Gu by (apply plain_use, (proj1 (proj2 plain_refs) l); exact Er).
    unfold reachE; rewrite node_post; unfold incNode; split; [| split; [| split]]; cbn [uses sets ref]; rewrite ?S0, ?Er.
    + intros u; rewrite in_use; intros [Q | Q]; auto; assert (u = r) by congruence; subst; exact Gu.
    + intros s; rewrite in_set; intros [[] | Q]; assert (s = r) by congruence; subst; exact Gr.
    + intros u o [Hu | Hu] T; [| discriminate Hu]; apply in_use in Hu; destruct Hu as [Q | Q].
      * destruct (C1 u o Q T) as (p & a & R & I); exists (writes p (reads p a)); split; [exists 0, p, a; auto |].
        apply writes_acts; right; apply reads_acts; auto.
      * assert (u = r) by congruence; subst u; destruct (T1 r o Er T) as (a & R).
        exists (writes o (reads o a)); split; [exists 0, o, a; auto | apply writes_acts; auto].
    + intros s o; rewrite in_set; intros [[] | Q] T; assert (s = r) by congruence; subst s; destruct (T1 r o Er T) as (a & R).
      exists (writes o (reads o a)); split; [exists 0, o, a; auto | left; reflexivity].
  - (* Call *)
    intros f args IH H; destruct (regular_call f args H) as [Ha Hm]; specialize (IH Ha).
    pose proof (proj1 plain_refs) as PR.
    destruct (proj2 (proj2 some_run) args) as (c0 & R0).
    assert (forall k, In k (map argNode (nodesA args)) -> exists n e, nth_arg n args = Some e /\ nth_error (nodesA args) n = Some (nodeE e) /\ k = argNode (nodeE e) /\ reachE e) as N.
    { intros k Hk; apply in_map_iff in Hk; destruct Hk as (k' & <- & Hk); apply In_nth_error in Hk; destruct Hk as (n & Hn).
      destruct (IH n k' Hn) as (e & Q1 & -> & Q2); exists n, e; auto. }
    assert (forall n e a v o, nth_arg n args = Some e -> run e v a ->
      (In o (acts a) -> exists c, (exists v, run (Call f args) v c) /\ In o (acts c)) /\ (In o (wr a) -> exists c, (exists v, run (Call f args) v c) /\ In o (wr c))) as K.
    { intros n e a v o Hn R; destruct (runs_one args n e v a Hn R) as (c & Rc & I1 & I2 & _).
      pose proof (call_run f args c Rc) as Q; split; intros I; eexists; (split; [eexists; exact Q |]); unfold acts in *; cbn [rd wr]; rewrite ?in_app_iff in *.
      - destruct I as [I | I]; [left | right]; left; auto.
      - left; auto. }
    unfold reachE; rewrite node_call; unfold callNode; split; [| split; [| split]]; cbn [uses sets ref].
    + intros u; rewrite !in_union, in_unions, in_union; intros [[[] | Q] | [[[] | Q] | (us & Q & Q')]].
      * apply in_flat_map in Q; destruct Q as (k & Hk & Q); destruct (N k Hk) as (n & e & _ & _ & -> & _); cbn [argNode ref] in Q.
        destruct (ref (nodeE e)) as [s|] eqn:E; [| destruct Q]; destruct Q as [<- | []].
        pose proof (PR e s E) as P; destruct s; try contradiction; exact I.
      * apply in_map_iff in Q; destruct Q as ([x | a] & <- & _); exact I.
      * apply in_map_iff in Q; destruct Q as (k & <- & Hk); destruct (N k Hk) as (n & e & _ & _ & -> & (A & _)).
        cbn [argNode uses] in Q'; apply in_use in Q'; destruct Q' as [Q' | Q']; [auto | apply plain_use; eauto].
    + assert (forall s, In s (fold_left union (map sets (map argNode (nodesA args))) []) -> goodset s) as F.
      { intros s Hs; apply in_unions in Hs; destruct Hs as [[] | (us & Q & Q')].
        apply in_map_iff in Q; destruct Q as (k & <- & Hk); destruct (N k Hk) as (n & e & _ & _ & -> & (_ & B & _)); auto. }
      destruct (mods (decl f)) as [ms|] eqn:Em; intros s Hs.
      * apply in_union in Hs; destruct Hs as [Hs | Hs]; [auto |].
        apply in_flat_map in Hs; destruct Hs as ([x | a | n] & Hi & Hs); cbn [fixMod] in Hs; [destruct Hs as [<- | []]; exact I .. |].
        destruct (Hm n) as (a & Hn); [unfold mods_list; rewrite Em; exact Hi |].
        destruct (nth_error (map argNode (nodesA args)) n) as [k|] eqn:Ek; [| destruct Hs].
        rewrite nth_error_map in Ek; destruct (nth_error (nodesA args) n) as [k'|] eqn:Ek'; [| discriminate Ek].
        destruct (IH n k' Ek') as (e & Q1 & -> & _); assert (e = Arr a) by congruence; subst e.
        cbn [option_map] in Ek; assert (k = argNode (nodeE (Arr a))) by congruence; subst k; cbn in Hs.
        destruct Hs as [<- | []]; exact I.
      * apply in_insert in Hs; destruct Hs as [Hs | ->]; [auto | exact I].
    + intros u o [Hu | Hu] T; [| discriminate Hu]; revert Hu; rewrite !in_union, in_unions, in_union; intros [[[] | Q] | [[[] | Q] | (us & Q & Q')]].
      * apply in_flat_map in Q; destruct Q as (k & Hk & Q); destruct (N k Hk) as (n & e & Hn & Hn' & -> & (_ & _ & C & _)); cbn [argNode ref] in Q.
        destruct (ref (nodeE e)) as [s|] eqn:E; [| destruct Q]; destruct Q as [<- | []].
        assert (touch s o \/ exists a k, s = SArr a /\ o = OElem a k) as [Q | (a & k & -> & ->)].
        { pose proof (PR e s E) as P; destruct s as [x | a | a j | | |], o as [y | b z]; try contradiction; cbn in *; auto; try (destruct T; fail).
          subst; right; eauto. }
        -- destruct (C s o (or_intror eq_refl) Q) as (a & (v & R) & I); exact (proj1 (K n e a v o Hn R) I).
        -- exists (A (rd c0 ++ [OElem a k]) (wr c0 ++ []) [] (clash c0)); split.
           ++ exists 0, c0, [OElem a k], []; repeat split; [exact R0 | | intros ? []].
              intros p [<- | []]; right; apply in_concat; exists (denotes e).
              destruct (nth_nodes_in glob_var glob_arr decl uncon args n (nodeE e) Hn') as (e' & Eq & Q).
              split; [| apply (proj1 (ref_denotes glob_var glob_arr decl uncon)); exact E].
              clear - Hn; revert n Hn; induction args using exprs_mind with (P := fun _ => True) (P0 := fun _ => True); auto; intros n Hn; [destruct n; discriminate |].
              destruct n as [|n]; cbn [nth_arg arrays] in *; [left; congruence | right; eauto].
           ++ unfold acts; cbn [rd wr]; rewrite !in_app_iff; left; right; left; reflexivity.
      * apply in_map_iff in Q; destruct Q as ([x | a] & <- & G); destruct o as [y | b z]; cbn in T; try contradiction; subst y.
        exists (A (rd c0 ++ [OVar x]) (wr c0 ++ []) [] (clash c0)); split.
        -- exists 0, c0, [OVar x], []; repeat split; [exact R0 | | intros ? []]; intros p [<- | []]; exact G.
        -- unfold acts; cbn [rd wr]; rewrite !in_app_iff; left; right; left; reflexivity.
      * apply in_map_iff in Q; destruct Q as (k & <- & Hk); destruct (N k Hk) as (n & e & Hn & _ & -> & (_ & _ & C & _)).
        cbn [argNode uses] in Q'; apply in_use in Q'.
        destruct (C u o Q' T) as (a & (v & R) & I); exact (proj1 (K n e a v o Hn R) I).
    + assert (forall s o, In s (fold_left union (map sets (map argNode (nodesA args))) []) -> touch s o ->
        exists c, (exists v, run (Call f args) v c) /\ In o (wr c)) as F.
      { intros s o Hs T; apply in_unions in Hs; destruct Hs as [[] | (us & Q & Q')].
        apply in_map_iff in Q; destruct Q as (k & <- & Hk); destruct (N k Hk) as (n & e & Hn & _ & -> & (_ & _ & _ & D)).
        cbn [argNode sets] in Q'; destruct (D s o Q' T) as (a & (v & R) & I); exact (proj2 (K n e a v o Hn R) I). }
      assert (forall o, may_write glob_var glob_arr decl f args o -> exists c, (exists v, run (Call f args) v c) /\ In o (wr c)) as W.
      { intros o M; exists (A (rd c0 ++ []) (wr c0 ++ [o]) [] (clash c0)); split; [| cbn [wr]; apply in_app_iff; right; left; reflexivity].
        exists 0, c0, [], [o]; repeat split; [exact R0 | intros ? [] |]; intros p [<- | []]; exact M. }
      destruct (mods (decl f)) as [ms|] eqn:Em; intros s o Hs T.
      * apply in_union in Hs; destruct Hs as [Hs | Hs]; [eauto |]; apply W; unfold may_write; rewrite Em.
        apply in_flat_map in Hs; destruct Hs as ([x | a | n] & Hi & Hs); cbn [fixMod] in Hs.
        -- destruct Hs as [<- | []]; destruct o; cbn in T; [subst; exact Hi | destruct T].
        -- destruct Hs as [<- | []]; destruct o; cbn in T; [destruct T | destruct T as [-> _]; left; exact Hi].
        -- destruct (Hm n) as (a & Hn); [unfold mods_list; rewrite Em; exact Hi |].
           destruct (nth_error (map argNode (nodesA args)) n) as [k|] eqn:Ek; [| destruct Hs].
           rewrite nth_error_map in Ek; destruct (nth_error (nodesA args) n) as [k'|] eqn:Ek'; [| discriminate Ek].
           destruct (IH n k' Ek') as (e & Q1 & -> & _); assert (e = Arr a) by congruence; subst e.
           cbn [option_map] in Ek; assert (k = argNode (nodeE (Arr a))) by congruence; subst k; cbn in Hs.
           destruct Hs as [<- | []]; destruct o as [|b z]; cbn in T; [destruct T | subst b].
           right; exists n, [a]; split; [exact Hi | split; [| left; reflexivity]].
           clear - Q1; revert n Q1; induction args using exprs_mind with (P := fun _ => True) (P0 := fun _ => True); auto; intros n Q1; [destruct n; discriminate |].
           destruct n as [|n]; cbn [nth_arg arrays nth_error] in *; [injection Q1 as ->; reflexivity | eauto].
      * apply in_insert in Hs; destruct Hs as [Hs | ->]; [eauto | destruct o; destruct T].
  - intros _ n k H; destruct n; discriminate.
  - intros e IHe r IHr H n k Hn; change (regular e && regulars r = true) in H; apply andb_true_iff in H; destruct H as [H1 H2].
    rewrite nodes_cons in Hn; destruct n as [|n]; cbn [nth_error nth_arg] in *.
    + exists e; split; [reflexivity | split; [congruence | auto]].
    + eapply IHr; eauto.
Qed.

(** ** From messages to clashes *)
Definition good (n : node) : Prop :=
  (forall u, In u (uses n) -> gooduse u) /\ (forall s, In s (sets n) -> goodset s) /\ (forall u, ref n = Some u -> plainref u).

Lemma defined_msgs : forall n1 n2 m, good n1 -> good n2 -> In m (checkDefined glob_var glob_arr uncon n1 n2) -> isUnconMsg m = false ->
  (exists u s o, (In u (uses n1) \/ (ref n1 = Some u /\ isCall n2 = false)) /\ In s (sets n2) /\ touch u o /\ touch s o)
  \/ (exists s u o, In s (sets n1) /\ (In u (uses n2) \/ ref n2 = Some u \/ In u (sets n2)) /\ touch s o /\ touch u o).
Proof.
  intros n1 n2 m (U1 & S1 & F1) (U2 & S2 & F2) H N; unfold checkDefined in H.
  destruct (match ref n1 with Some s => member (sets n2) s | None => false end && negb (isCall n2)) eqn:E.
  - apply andb_true_iff in E; destruct E as [E1 E2]; apply negb_true_iff in E2.
    destruct (ref n1) as [r|] eqn:Er; [| discriminate]; apply existsb_exists in E1; destruct E1 as (s & Hs & E1).
    destruct (similar_use_set r s) as (o & T1 & T2); auto; [apply plain_use; auto |].
    left; exists r, s, o; auto.
  - unfold checkDefinedAux in H; rewrite !in_app_iff in H.
    assert (forall b, ~ In m (unconIf uncon b)) as NU.
    { intros b; unfold unconIf; destruct (uncon && b); [intros [<- | []]; discriminate | intros []]. }
    destruct H as [H | [H | [H | H]]]; [destruct (NU _ H) .. | |]; apply in_flat_map in H; destruct H as (s & Hs & H).
    + unfold ofBool in H; destruct (member (sets n2) s) eqn:M; [| destruct H].
      apply existsb_exists in M; destruct M as (t & Ht & M).
      destruct (similar_use_set s t) as (o & T1 & T2); auto; left; exists s, t, o; auto.
    + right; unfold checkLeftSet in H.
      destruct (match ref n2 with Some t => same s t | None => false end) eqn:E1.
      { destruct (ref n2) as [t|] eqn:Et; [| discriminate].
        destruct (same_set_ref s t) as (o & T1 & T2); auto; exists s, t, o; auto. }
      destruct (member (uses n2) s) eqn:M.
      { apply existsb_exists in M; destruct M as (t & Ht & M).
        destruct (similar_set_use s t) as (o & T1 & T2); auto; exists s, t, o; auto. }
      destruct (member (sets n2) s) eqn:M2; [| destruct H].
      destruct (isUncon s) eqn:Un; [destruct (NU _ H) |].
      apply existsb_exists in M2; destruct M2 as (t & Ht & M2).
      destruct (similar_set_set s t) as (o & T1 & T2); auto; exists s, t, o; auto.
Qed.
Lemma seq2_msgs : forall i j n1 n2 m, good n1 -> good n2 -> In m (checkSeq2 glob_var glob_arr uncon i j n1 n2) -> isUnconMsg m = false ->
  exists s u o, In s (sets n1) /\ (In u (uses n2) \/ In u (sets n2)) /\ touch s o /\ touch u o.
Proof.
  intros i j n1 n2 m (U1 & S1 & F1) (U2 & S2 & F2) H N; unfold checkSeq2 in H.
  assert (forall b, ~ In m (unconIf uncon b)) as NU.
  { intros b; unfold unconIf; destruct (uncon && b); [intros [<- | []]; discriminate | intros []]. }
  apply in_flat_map in H; destruct H as (s & Hs & H); apply in_app_iff in H; destruct H as [H | H]; [destruct (NU _ H) |].
  destruct (member (uses n2) s) eqn:M.
  { apply existsb_exists in M; destruct M as (t & Ht & M).
    destruct (similar_set_use s t) as (o & T1 & T2); auto; exists s, t, o; auto. }
  destruct (member (sets n2) s) eqn:M2; [| destruct H].
  destruct (isUncon s) eqn:Un; [destruct (NU _ H) |].
  apply existsb_exists in M2; destruct M2 as (t & Ht & M2).
  destruct (similar_set_set s t) as (o & T1 & T2); auto; exists s, t, o; auto.
Qed.
Lemma numbered_nth : forall {X} (l : list X) k i x, In (i, x) (combine (seq k (length l)) l) -> exists n, i = (k + n)%nat /\ nth_error l n = Some x.
Proof.
  induction l as [|y l IH]; intros k i x H; [destruct H |]; cbn [length seq combine In] in H; destruct H as [H | H].
  - exists O; split; [assert (k = i) by congruence; lia | cbn; congruence].
  - destruct (IH (S k) i x H) as (n & -> & Hn); exists (S n); split; [lia | exact Hn].
Qed.

Lemma all_pending : (forall e, no_points e = true -> forall v a, run e v a -> incl (wr a) (pend a))
  /\ (forall l, no_pointsL l = true -> forall o a, runL l o a -> incl (wr a) (pend a)) /\ (forall es : exprs, True).
Proof.
  apply expr_lval_exprs_ind; try (intros; exact I); try (intros; discriminate).
  - intros z _ v a (_ & ->) o [].
  - intros x _ v a -> o [].
  - intros b _ v a -> o [].
  - intros b i IH H v a (k & c & R & ->) o Ho; exact (IH H _ _ R o Ho).
  - auto.
  - intros o e IH H v a (w & R & _); exact (IH H _ _ R).
  - intros o e1 IH1 e2 IH2 H v a (v1 & v2 & a1 & a2 & R1 & R2 & _ & ->); cbn [no_points] in H; apply andb_true_iff in H; destruct H as [H1 H2].
    unfold unseq; cbn [wr pend]; apply incl_app; [apply incl_appl | apply incl_appr]; eauto.
  - intros l IHl e IHe H v a (o & c & b & R1 & R2 & ->); change (no_pointsL l && no_points e = true) in H; apply andb_true_iff in H; destruct H as [H1 H2].
    unfold writes, unseq; cbn [wr pend]; apply incl_cons; [left; reflexivity | apply incl_tl].
    apply incl_app; [apply incl_appl | apply incl_appr]; eauto.
  - intros op l IHl e IHe H v a (o & c & w & b & R1 & R2 & ->); change (no_pointsL l && no_points e = true) in H; apply andb_true_iff in H; destruct H as [H1 H2].
    unfold writes, unseq, reads; cbn [wr pend]; apply incl_cons; [left; reflexivity | apply incl_tl].
    apply incl_app; [apply incl_appl | apply incl_appr]; eauto.
  - intros l IH H v a (o & c & R & ->); unfold writes, reads; cbn [wr pend]; apply incl_cons; [left; reflexivity | apply incl_tl].
    exact (IH H _ _ R).
  - intros l IH H v a (o & c & R & ->); unfold writes, reads; cbn [wr pend]; apply incl_cons; [left; reflexivity | apply incl_tl].
    exact (IH H _ _ R).
  - intros x _ o a (_ & ->) p [].
  - intros b i IH H o a (k & R & _); exact (IH H _ _ R).
Qed.

Lemma good_node : forall e, regular e = true -> good (nodeE e).
Proof. intros e H; destruct (proj1 reach_all e H) as (A & B & _); split; [exact A | split; [exact B | apply (proj1 plain_refs)]]. Qed.

Lemma clash_found :
  (forall e, regular e = true -> forall m, In m (msgE e) -> isUnconMsg m = false -> exists v a, run e v a /\ clash a = true)
  /\ (forall l : lval, True)
  /\ (forall es, regulars es = true -> forall m, In m (msgA es) -> isUnconMsg m = false -> exists a, runs es a /\ clash a = true).
Proof.
  apply expr_lval_exprs_ind; try (intros; exact I); try (intros ? ? ? []; fail).
  - intros b i _ H m Hm N; change (plain_subscript i = true) in H; rewrite msg_fetch in Hm; destruct (plain_sets i H) as [_ ->] in Hm; destruct Hm.
  - intros e IH H m Hm N; rewrite msg_paren in Hm; exact (IH H m Hm N).
  - intros o e IH H m Hm N; rewrite msg_un in Hm; destruct (IH H m Hm N) as (v & a & R & Q).
    destruct (unary_run o e v a R) as (w & R'); eauto.
  - (* Bin *)
    intros o e1 IH1 e2 IH2 H m Hm N; cbn [Order_spec.regular] in H; apply andb_true_iff in H; destruct H as [H1 H2].
    rewrite msg_bin, !in_app_iff in Hm; destruct Hm as [Hm | [Hm | Hm]].
    + destruct (IH1 H1 m Hm N) as (v & a & R & Q); destruct (proj1 some_run e2) as (w & b & R2).
      destruct (binary_run o _ _ _ _ _ _ R R2) as (u & R'); exists u, (unseq a b); split; [exact R' | cbn [unseq clash]; rewrite Q; reflexivity].
    + destruct (IH2 H2 m Hm N) as (v & a & R & Q); destruct (proj1 some_run e1) as (w & b & R2).
      destruct (binary_run o _ _ _ _ _ _ R2 R) as (u & R'); exists u, (unseq b a); split; [exact R' | cbn [unseq clash]; rewrite Q, !orb_true_iff; auto].
    + destruct (proj1 reach_all e1 H1) as (_ & _ & C1 & D1), (proj1 reach_all e2 H2) as (_ & _ & C2 & D2).
      destruct (defined_msgs _ _ _ (good_node e1 H1) (good_node e2 H2) Hm N) as [(u & s & p & Hu & Hs & T1 & T2) | (s & u & p & Hs & Hu & T1 & T2)].
      * destruct (C1 u p) as (a & (v & Ra) & Ia); [intuition | exact T1 |]; destruct (D2 s p Hs T2) as (b & (w & Rb) & Ib).
        destruct (binary_run o _ _ _ _ _ _ Ra Rb) as (x & R); exists x, (unseq a b); split; [exact R | apply unseq_clashes with (o := p); auto].
      * destruct (D1 s p Hs T1) as (a & (v & Ra) & Ia).
        assert (exists b, (exists w, run e2 w b) /\ In p (acts b)) as (b & (w & Rb) & Ib).
        { destruct Hu as [Hu | [Hu | Hu]]; [apply (C2 u p); auto | apply (C2 u p); auto |].
          destruct (D2 u p Hu T2) as (b & Rb & Ib); exists b; split; [exact Rb | apply in_app_iff; auto]. }
        destruct (binary_run o _ _ _ _ _ _ Ra Rb) as (x & R); exists x, (unseq a b); split; [exact R | apply unseq_clashes with (o := p); auto].
  - intros e1 IH1 e2 IH2 H m Hm N; cbn [Order_spec.regular] in H; apply andb_true_iff in H; destruct H as [H1 H2].
    rewrite msg_and, in_app_iff in Hm; destruct Hm as [Hm | Hm].
    + destruct (IH1 H1 m Hm N) as (v & a & R & Q); exists 0, (ended a); split; [exists v, a; auto | exact Q].
    + destruct (IH2 H2 m Hm N) as (v & a & R & Q); destruct (proj1 some_run e1) as (w & b & R1).
      exists 0, (seqpt b a); split; [exists w, b; split; [exact R1 | right; eauto] | cbn [seqpt clash]; rewrite Q; apply orb_true_r].
  - intros e1 IH1 e2 IH2 H m Hm N; cbn [Order_spec.regular] in H; apply andb_true_iff in H; destruct H as [H1 H2].
    rewrite msg_or, in_app_iff in Hm; destruct Hm as [Hm | Hm].
    + destruct (IH1 H1 m Hm N) as (v & a & R & Q); exists 0, (ended a); split; [exists v, a; auto | exact Q].
    + destruct (IH2 H2 m Hm N) as (v & a & R & Q); destruct (proj1 some_run e1) as (w & b & R1).
      exists 0, (seqpt b a); split; [exists w, b; split; [exact R1 | right; eauto] | cbn [seqpt clash]; rewrite Q; apply orb_true_r].
  - intros p IHp t IHt f IHf H m Hm N; cbn [Order_spec.regular] in H; rewrite !andb_true_iff in H; destruct H as [[Hp Ht] Hf].
    destruct (proj1 some_run p) as (vp & ap & Rp), (proj1 some_run t) as (vt & at' & Rt).
    rewrite msg_cond, !in_app_iff in Hm; destruct Hm as [Hm | [Hm | Hm]].
    + destruct (IHp Hp m Hm N) as (v & a & R & Q); exists vt, (seqpt a at'); split; [exists v, a, at'; auto | cbn [seqpt clash]; rewrite Q; reflexivity].
    + destruct (IHt Ht m Hm N) as (v & a & R & Q); exists v, (seqpt ap a); split; [exists vp, ap, a; auto | cbn [seqpt clash]; rewrite Q; apply orb_true_r].
    + destruct (IHf Hf m Hm N) as (v & a & R & Q); exists v, (seqpt ap a); split; [exists vp, ap, a; auto | cbn [seqpt clash]; rewrite Q; apply orb_true_r].
  - intros e1 IH1 e2 IH2 H m Hm N; cbn [Order_spec.regular] in H; apply andb_true_iff in H; destruct H as [H1 H2].
    rewrite msg_comma, in_app_iff in Hm; destruct Hm as [Hm | Hm].
    + destruct (IH1 H1 m Hm N) as (v & a & R & Q); destruct (proj1 some_run e2) as (w & b & R2).
      exists w, (seqpt a b); split; [exists v, a, b; auto | cbn [seqpt clash]; rewrite Q; reflexivity].
    + destruct (IH2 H2 m Hm N) as (v & a & R & Q); destruct (proj1 some_run e1) as (w & b & R1).
      exists v, (seqpt b a); split; [exists w, b, a; auto | cbn [seqpt clash]; rewrite Q; apply orb_true_r].
  - (* Asg *)
    intros l _ e IH H m Hm N; rewrite regular_asg, !andb_true_iff in H; destruct H as [[Hl He] Hp].
    destruct (lval_reach l Hl) as (S0 & M0 & A1 & C1 & T1 & (r & Er & Gr)); destruct (proj1 reach_all e He) as (_ & _ & C2 & D2).
    destruct (proj1 (proj2 some_run) l) as (o0 & c0 & R0), (proj1 some_run e) as (v0 & b0 & Rb0).
    rewrite msg_asg, M0, !in_app_iff in Hm; destruct Hm as [[] | [Hm | Hm]].
    + destruct (IH He m Hm N) as (v & a & R & Q); exists v, (writes o0 (unseq c0 a)); split; [exists o0, c0, a; auto |].
      cbn [writes unseq clash]; rewrite Q, !orb_true_iff; auto.
    + assert (good (nodeL l)) as G1.
      { split; [exact A1 | split; [rewrite S0; intros s [] | apply (proj1 (proj2 plain_refs))]]. }
      destruct (defined_msgs _ _ _ G1 (good_node e He) Hm N) as [(u & s & p & Hu & Hs & Q1 & Q2) | (s & u & p & Hs & _)]; [| rewrite S0 in Hs; destruct Hs].
      destruct (D2 s p Hs Q2) as (b & (v & Rb) & Ib).
      destruct Hu as [Hu | [Hu Nc]].
      * destruct (C1 u p Hu Q1) as (o & c & Rc & Ic); exists v, (writes o (unseq c b)); split; [exists o, c, b; auto |].
        cbn [writes clash]; rewrite (unseq_clashes c b p); auto.
      * rewrite is_call_node in Nc; rewrite Nc, orb_false_r in Hp.
        destruct (T1 u p Hu Q1) as (c & Rc); exists v, (writes p (unseq c b)); split; [exists p, c, b; auto |].
        cbn [writes clash]; apply orb_true_iff; right; apply meets_true with (o := p); [left; reflexivity |].
        unfold unseq; cbn [pend]; apply in_app_iff; right; apply (proj1 all_pending e Hp _ _ Rb); exact Ib.
  - (* AsgOp *)
    intros op l _ e IH H m Hm N; rewrite regular_asgop, !andb_true_iff in H; destruct H as [Hl He].
    destruct (lval_reach l Hl) as (S0 & M0 & A1 & C1 & T1 & (r & Er & Gr)); destruct (proj1 reach_all e He) as (_ & _ & C2 & D2).
    destruct (proj1 (proj2 some_run) l) as (o0 & c0 & R0), (proj1 some_run e) as (v0 & b0 & Rb0).
    rewrite msg_asgop, M0, !in_app_iff in Hm; destruct Hm as [[] | [Hm | Hm]].
    + destruct (IH He m Hm N) as (v & a & R & Q); exists 0, (writes o0 (unseq (reads o0 c0) a)); split; [exists o0, c0, v, a; auto |].
      cbn [writes unseq clash]; rewrite Q, !orb_true_iff; auto.
    + assert (good (nodeL l)) as G1.
      { split; [exact A1 | split; [rewrite S0; intros s [] | apply (proj1 (proj2 plain_refs))]]. }
      destruct (defined_msgs _ _ _ G1 (good_node e He) Hm N) as [(u & s & p & Hu & Hs & Q1 & Q2) | (s & u & p & Hs & _)]; [| rewrite S0 in Hs; destruct Hs].
      destruct (D2 s p Hs Q2) as (b & (v & Rb) & Ib).
      destruct Hu as [Hu | [Hu Nc]].
      * destruct (C1 u p Hu Q1) as (o & c & Rc & Ic); exists 0, (writes o (unseq (reads o c) b)); split; [exists o, c, v, b; auto |].
        cbn [writes clash]; rewrite (unseq_clashes (reads o c) b p); auto; right; split; [apply reads_acts; auto | exact Ib].
      * destruct (T1 u p Hu Q1) as (c & Rc); exists 0, (writes p (unseq (reads p c) b)); split; [exists p, c, v, b; auto |].
        cbn [writes clash]; rewrite (unseq_clashes (reads p c) b p); auto; right; split; [apply reads_acts; auto | exact Ib].
  - intros l _ H m Hm N; destruct (lval_reach l H) as (_ & M0 & _); rewrite msg_pre, M0 in Hm; destruct Hm.
  - intros l _ H m Hm N; destruct (lval_reach l H) as (_ & M0 & _); rewrite msg_post, M0 in Hm; destruct Hm.
  - (* Call *)
    intros f args IH H m Hm N; destruct (regular_call f args H) as [Ha _].
    assert (forall c, runs args c -> clash c = true -> exists v a, run (Call f args) v a /\ clash a = true) as K.
    { intros c Rc Q; exists 0, (A (rd c ++ []) (wr c ++ []) [] (clash c)); split; [apply call_run; exact Rc | exact Q]. }
    rewrite msg_call, in_app_iff in Hm; destruct Hm as [Hm | Hm]; [destruct (IH Ha m Hm N) as (c & Rc & Q); eauto |].
    unfold checkSeq, numbered in Hm.
    apply in_flat_map in Hm; destruct Hm as ([i ni] & Hi & Hm); apply in_flat_map in Hm; destruct Hm as ([j nj] & Hj & Hm); cbn [fst snd] in Hm.
    destruct (Nat.eqb i j) eqn:Eij; [destruct Hm |]; apply Nat.eqb_neq in Eij.
    destruct (numbered_nth _ _ _ _ Hi) as (n & -> & Hn); destruct (numbered_nth _ _ _ _ Hj) as (n' & -> & Hn').
    rewrite nth_error_map in Hn, Hn'.
    destruct (nth_error (nodesA args) n) as [k|] eqn:Ek; [| discriminate Hn]; destruct (nth_error (nodesA args) n') as [k'|] eqn:Ek'; [| discriminate Hn'].
    destruct (proj2 (proj2 reach_all) args Ha n k Ek) as (e & Ae & -> & (A1 & B1 & C1 & D1)).
    destruct (proj2 (proj2 reach_all) args Ha n' k' Ek') as (e' & Ae' & -> & (A2 & B2 & C2 & D2)).
    cbn [option_map] in Hn, Hn'; assert (ni = argNode (nodeE e)) by congruence; assert (nj = argNode (nodeE e')) by congruence; subst ni nj.
    assert (forall e, (forall u, In u (uses (nodeE e)) -> gooduse u) -> (forall s, In s (sets (nodeE e)) -> goodset s) -> good (argNode (nodeE e))) as G.
    { intros x X1 X2; split; [| split; [exact X2 | apply (proj1 plain_refs)]].
      intros u Hu; cbn [argNode uses] in Hu; apply in_use in Hu; destruct Hu as [Hu | Hu]; [auto | apply plain_use, (proj1 plain_refs x); exact Hu]. }
    destruct (seq2_msgs _ _ _ _ _ (G e A1 B1) (G e' A2 B2) Hm N) as (s & u & o & Hs & Hu & T1 & T2).
    destruct (D1 s o Hs T1) as (a & (v & Ra) & Ia).
    assert (exists b, (exists w, run e' w b) /\ In o (acts b)) as (b & (w & Rb) & Ib).
    { destruct Hu as [Hu | Hu].
      - cbn [argNode uses] in Hu; apply in_use in Hu; apply (C2 u o); auto.
      - destruct (D2 u o Hu T2) as (b & Rb & Ib); exists b; split; [exact Rb | apply in_app_iff; auto]. }
    destruct (runs_two args n n' e e' v w a b o) as (c & Rc & Q); auto; eauto.
  - intros _ m [].
  - intros e IHe r IHr H m Hm N; change (regular e && regulars r = true) in H; apply andb_true_iff in H; destruct H as [H1 H2].
    rewrite msgs_cons, in_app_iff in Hm; destruct Hm as [Hm | Hm].
    + destruct (IHe H1 m Hm N) as (v & a & R & Q); destruct (proj2 (proj2 some_run) r) as (d & Rd).
      exists (unseq a d); split; [exists v, a, d; auto | cbn [unseq clash]; rewrite Q; reflexivity].
    + destruct (IHr H2 m Hm N) as (d & Rd & Q); destruct (proj1 some_run e) as (v & a & R).
      exists (unseq a d); split; [exists v, a, d; auto | cbn [unseq clash]; rewrite Q, !orb_true_iff; auto].
Qed.

(** ** Functions with modifies clauses *)
Lemma no_uncon_set :
  (forall e, careful decl e = true -> forall s, In s (sets (nodeE e)) -> isUncon s = false)
  /\ (forall l, carefulL decl l = true -> forall s, In s (sets (nodeL l)) -> isUncon s = false)
  /\ (forall es, carefuls decl es = true -> forall n s, In n (nodesA es) -> In s (sets n) -> isUncon s = false).
Proof.
  assert (forall r s, (forall t, r = Some t -> plainref t) -> r = Some s -> isUncon s = false) as P
    by (intros r s H E; specialize (H _ E); destruct s; try contradiction; reflexivity).
  apply expr_lval_exprs_ind.
  - intros z _ s [].
  - intros x _ s [].
  - intros b _ s [].
  - intros b i IH C s Hs; cbn [careful] in C; rewrite !andb_true_iff in C; rewrite node_fetch in Hs; apply IH; [apply C | exact Hs].
  - intros e IH C s Hs; rewrite node_paren in Hs; exact (IH C s Hs).
  - intros o e IH C s Hs; rewrite node_un in Hs; exact (IH C s Hs).
  - intros o e1 IH1 e2 IH2 C s Hs; cbn [careful] in C; rewrite !andb_true_iff in C; rewrite node_bin in Hs; apply sets_op in Hs.
    destruct Hs; [apply IH1 | apply IH2]; tauto.
  - intros e1 IH1 e2 IH2 C s Hs; cbn [careful] in C; rewrite !andb_true_iff in C; rewrite node_and in Hs; apply sets_op in Hs.
    destruct Hs; [apply IH1 | apply IH2]; tauto.
  - intros e1 IH1 e2 IH2 C s Hs; cbn [careful] in C; rewrite !andb_true_iff in C; rewrite node_or in Hs; apply sets_op in Hs.
    destruct Hs; [apply IH1 | apply IH2]; tauto.
  - intros p IHp t IHt f IHf C s Hs; cbn [careful] in C; rewrite !andb_true_iff in C; rewrite node_cond in Hs.
    unfold condNode in Hs; cbn [sets] in Hs; rewrite !in_union in Hs; destruct Hs as [[Hs | Hs] | Hs]; [apply IHp | apply IHt | apply IHf]; tauto.
  - intros e1 IH1 e2 IH2 C s Hs; cbn [careful] in C; rewrite !andb_true_iff in C; rewrite node_comma in Hs.
    unfold commaNode in Hs; cbn [sets] in Hs; rewrite !in_union in Hs; destruct Hs; [apply IH1 | apply IH2]; tauto.
  - intros l IHl e IHe C s Hs; rewrite careful_asg, !andb_true_iff in C; rewrite node_asg in Hs.
    unfold asgNode in Hs; cbn [sets] in Hs; rewrite in_set, in_union in Hs; destruct Hs as [[Hs | Hs] | Hs]; [apply IHl | apply IHe |]; try tauto.
    eapply P; [apply (proj1 (proj2 plain_refs) l) | exact Hs].
  - intros op l IHl e IHe C s Hs; rewrite careful_asgop, !andb_true_iff in C; rewrite node_asgop in Hs.
    unfold asgOpNode, opNode in Hs; cbn [sets] in Hs; rewrite in_set, !in_union in Hs; destruct Hs as [[[Hs | Hs] | Hs] | Hs]; [apply IHl | apply IHe | apply IHe |]; try tauto.
    eapply P; [apply (proj1 (proj2 plain_refs) l) | exact Hs].
  - intros l IH C s Hs; rewrite node_pre in Hs; unfold incNode in Hs; cbn [sets] in Hs; rewrite in_set in Hs.
    destruct Hs as [Hs | Hs]; [exact (IH C s Hs) | eapply P; [apply (proj1 (proj2 plain_refs) l) | exact Hs]].
  - intros l IH C s Hs; rewrite node_post in Hs; unfold incNode in Hs; cbn [sets] in Hs; rewrite in_set in Hs.
    destruct Hs as [Hs | Hs]; [exact (IH C s Hs) | eapply P; [apply (proj1 (proj2 plain_refs) l) | exact Hs]].
  - intros f args IH C s Hs; destruct (careful_call decl f args C) as (Ca & Cm & _); rewrite node_call in Hs.
    unfold callNode in Hs; cbn [sets] in Hs; destruct (mods (decl f)) as [ms|]; [| contradiction].
    apply in_union in Hs; destruct Hs as [Hs | Hs].
    + apply in_unions in Hs; destruct Hs as [[] | (us & Q & Q')]; apply in_map_iff in Q; destruct Q as (k & <- & Hk).
      apply in_map_iff in Hk; destruct Hk as (k' & <- & Hk); exact (IH Ca k' s Hk Q').
    + apply in_flat_map in Hs; destruct Hs as ([x | a | n] & _ & Hs); cbn [fixMod] in Hs; [destruct Hs as [<- | []]; reflexivity .. |].
      destruct (nth_error (map argNode (nodesA args)) n) as [k|]; [| destruct Hs].
      destruct (ref k); [destruct Hs as [<- | []]; reflexivity | destruct Hs].
  - intros x _ s [].
  - intros b i IH C s Hs; rewrite careful_lf, !andb_true_iff in C; rewrite node_lf in Hs; apply IH; [apply C | exact Hs].
  - intros _ n s [].
  - intros e IHe r IHr C n s Hn Hs; change (careful decl e && carefuls decl r = true) in C; apply andb_true_iff in C; destruct C as [Ce Cr].
    rewrite nodes_cons in Hn; destruct Hn as [<- | Hn]; [exact (IHe Ce s Hs) | exact (IHr Cr n s Hn Hs)].
Qed.
Lemma no_uncon_has : forall l, (forall s, In s l -> isUncon s = false) -> hasUncon l = false.
Proof.
  intros l H; apply not_true; intros E; apply existsb_exists in E; destruct E as (s & Hs & E); rewrite (H s Hs) in E; discriminate.
Qed.
Lemma unconIf_false : unconIf uncon false = [].
Proof. unfold unconIf; rewrite andb_false_r; reflexivity. Qed.
Lemma defined_no_uncon : forall n1 n2, (forall s, In s (sets n1) -> isUncon s = false) -> (forall s, In s (sets n2) -> isUncon s = false) ->
  forall m, In m (checkDefined glob_var glob_arr uncon n1 n2) -> isUnconMsg m = false.
Proof.
  intros n1 n2 H1 H2 m Hm; unfold checkDefined in Hm.
  destruct (_ && _) in Hm; [destruct Hm as [<- | []]; reflexivity |].
  unfold checkDefinedAux in Hm; rewrite (no_uncon_has _ H1), (no_uncon_has _ H2), !andb_false_r, unconIf_false in Hm; cbn [app] in Hm.
  apply in_app_iff in Hm; destruct Hm as [Hm | Hm]; apply in_flat_map in Hm; destruct Hm as (s & Hs & Hm).
  - unfold ofBool in Hm; destruct (member (sets n2) s); [destruct Hm as [<- | []]; reflexivity | destruct Hm].
  - unfold checkLeftSet in Hm; rewrite (H1 s Hs) in Hm.
    destruct (match ref n2 with Some t => same s t | None => false end); [destruct Hm as [<- | []]; reflexivity |].
    destruct (member (uses n2) s); [destruct Hm as [<- | []]; reflexivity |].
    destruct (member (sets n2) s); [destruct Hm as [<- | []]; reflexivity | destruct Hm].
Qed.
Lemma no_uncon_msg :
  (forall e, careful decl e = true -> forall m, In m (msgE e) -> isUnconMsg m = false)
  /\ (forall l, carefulL decl l = true -> forall m, In m (msgL l) -> isUnconMsg m = false)
  /\ (forall es, carefuls decl es = true -> forall m, In m (msgA es) -> isUnconMsg m = false).
Proof.
  destruct no_uncon_set as (SE & SL & SA).
  apply expr_lval_exprs_ind.
  - intros z _ s [].
  - intros x _ s [].
  - intros b _ s [].
  - intros b i IH C m Hm; cbn [careful] in C; rewrite !andb_true_iff in C; rewrite msg_fetch in Hm; apply IH; [apply C | exact Hm].
  - intros e IH C m Hm; rewrite msg_paren in Hm; exact (IH C m Hm).
  - intros o e IH C m Hm; rewrite msg_un in Hm; exact (IH C m Hm).
  - intros o e1 IH1 e2 IH2 C m Hm; cbn [careful] in C; rewrite !andb_true_iff in C; destruct C as [[[C1 C2] _] _].
    rewrite msg_bin, !in_app_iff in Hm; destruct Hm as [Hm | [Hm | Hm]]; auto; exact (defined_no_uncon _ _ (SE e1 C1) (SE e2 C2) m Hm).
  - intros e1 IH1 e2 IH2 C m Hm; cbn [careful] in C; rewrite !andb_true_iff in C; destruct C as [C1 C2].
    rewrite msg_and, !in_app_iff in Hm; destruct Hm; auto.
  - intros e1 IH1 e2 IH2 C m Hm; cbn [careful] in C; rewrite !andb_true_iff in C; destruct C as [C1 C2].
    rewrite msg_or, !in_app_iff in Hm; destruct Hm; auto.
  - intros p IHp t IHt f IHf C m Hm; cbn [careful] in C; rewrite !andb_true_iff in C; destruct C as [[[[C1 C2] C3] _] _].
    rewrite msg_cond, !in_app_iff in Hm; destruct Hm as [Hm | [Hm | Hm]]; auto.
  - intros e1 IH1 e2 IH2 C m Hm; cbn [careful] in C; rewrite !andb_true_iff in C; destruct C as [[C1 C2] _].
    rewrite msg_comma, !in_app_iff in Hm; destruct Hm; auto.
  - intros l IHl e IHe C m Hm; rewrite careful_asg, !andb_true_iff in C; destruct C as [[C1 C2] _].
    rewrite msg_asg, !in_app_iff in Hm; destruct Hm as [Hm | [Hm | Hm]]; auto; exact (defined_no_uncon _ _ (SL l C1) (SE e C2) m Hm).
  - intros op l IHl e IHe C m Hm; rewrite careful_asgop, !andb_true_iff in C; destruct C as [[[C1 C2] _] _].
    rewrite msg_asgop, !in_app_iff in Hm; destruct Hm as [Hm | [Hm | Hm]]; auto; exact (defined_no_uncon _ _ (SL l C1) (SE e C2) m Hm).
  - intros l IH C m Hm; rewrite msg_pre in Hm; exact (IH C m Hm).
  - intros l IH C m Hm; rewrite msg_post in Hm; exact (IH C m Hm).
  - intros f args IH C m Hm; destruct (careful_call decl f args C) as (Ca & _); rewrite msg_call, in_app_iff in Hm.
    destruct Hm as [Hm | Hm]; [auto |]; unfold checkSeq in Hm.
    apply in_flat_map in Hm; destruct Hm as ([i ni] & Hi & Hm); apply in_flat_map in Hm; destruct Hm as ([j nj] & Hj & Hm); cbn [fst snd] in Hm.
    destruct (Nat.eqb i j); [destruct Hm |]; unfold numbered in *.
    apply in_combine_r, in_map_iff in Hi; destruct Hi as (k & <- & Hk).
    assert (forall s, In s (sets (argNode k)) -> isUncon s = false) as Q by (intros s Hs; exact (SA args Ca k s Hk Hs)).
    unfold checkSeq2 in Hm; rewrite (no_uncon_has _ Q), andb_false_r, unconIf_false in Hm; cbn [app] in Hm.
    apply in_flat_map in Hm; destruct Hm as (s & Hs & Hm); rewrite (Q s Hs) in Hm.
    destruct (member (uses nj) s); [destruct Hm as [<- | []]; reflexivity |].
    destruct (member (sets nj) s); [destruct Hm as [<- | []]; reflexivity | destruct Hm].
  - intros x _ s [].
  - intros b i IH C m Hm; rewrite careful_lf, !andb_true_iff in C; rewrite msg_lf in Hm; apply IH; [apply C | exact Hm].
  - intros _ m [].
  - intros e IHe r IHr C m Hm; change (careful decl e && carefuls decl r = true) in C; apply andb_true_iff in C; destruct C as [Ce Cr].
    rewrite msgs_cons, in_app_iff in Hm; destruct Hm; auto.
Qed.

Lemma exact_messages : forall e, careful decl e = true -> regular e = true ->
  (messages glob_var glob_arr decl uncon e = [] <-> forall v a, run e v a -> clash a = false).
Proof.
  intros e C R; split.
  - intros M v a H; exact (proj1 (proj1 (no_clash glob_var glob_arr decl uncon) e C M v a H)).
  - intros H; destruct (messages glob_var glob_arr decl uncon e) as [|m l] eqn:E; [reflexivity |].
    assert (In m (msgE e)) as Hm by (change (msgE e) with (messages glob_var glob_arr decl uncon e); rewrite E; left; reflexivity).
    destruct (proj1 clash_found e R m Hm (proj1 no_uncon_msg e C m Hm)) as (v & a & Ra & Q).
    rewrite (H v a Ra) in Q; discriminate.
Qed.
End Precise.
