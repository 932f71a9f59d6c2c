(** Proofs for C114-C116: statements and loops. *)
From Verif Require Import Cbase Order_model Order_spec Order_proofs Order_ev_proofs Order_prec_proofs Eff_model Eff_spec Eff_proofs.
From Coq Require Import List ZArith Bool Lia Arith.
Import ListNotations.
Open Scope Z_scope.

Section Loop.
Variable glob_var : var -> bool.
Variable glob_arr : arr -> bool.
Variable decl : fname -> fdecl.
Variable uncon : bool.
Variable rk : fname -> rkind.
Local Notation nodeE := (nodeE glob_var glob_arr decl uncon).
Local Notation nd := (nd glob_var glob_arr decl uncon).
Local Notation setsOf := (setsOf glob_var glob_arr decl uncon).
Local Notation predUses := (predUses glob_var glob_arr decl uncon).
Local Notation loopCheck := (loopCheck glob_var glob_arr decl uncon).
Local Notation effect := (effect glob_var glob_arr decl uncon rk).

Lemma nd_node : forall e, nd e = nodeE e.
Proof. reflexivity. Qed.

Section Run.
Variable unother : Z -> Z.
Variable binother : Z -> Z -> Z.
Variable addr : arr -> Z.
Variable body : fname -> exprs -> list Z -> state -> Z * (obj -> option Z).
Hypothesis Honest : honest glob_var glob_arr decl body.
Local Notation outcome := (outcome unother binother addr body).
Local Notation optional := (optional unother binother addr body).
Local Notation exec := (exec unother binother addr body).
Local Notation exec_for := (exec_for unother binother addr body).
Local Notation exec_clauses := (exec_clauses unother binother addr body).
Local Notation rounds := (rounds unother binother addr body).

Lemma every_true : (forall e, every (fun _ => true) e = true) /\ (forall l, everyL (fun _ => true) l = true)
  /\ (forall es, everys (fun _ => true) es = true).
Proof.
  apply expr_lval_exprs_ind; intros; first [rewrite every_unfold | rewrite everyL_unfold | rewrite everys_unfold]; cbn [andb];
    repeat match goal with H : _ = true |- _ => rewrite H; clear H end; reflexivity.
Qed.

Lemma no_effect : forall e s v t, every named e = true -> sets (nodeE e) = [] -> outcome s e v t -> forall o, t o = s o.
Proof.
  intros e s v t N S (s' & d & E & ->) o.
  eapply fr_flush with (W := fun _ => false); [| exact E | reflexivity].
  refine (proj1 (frame_all glob_var glob_arr decl uncon unother binother addr body Honest (fun _ => false) (fun _ => true) _) e N _ _).
  - apply placed_uniform; reflexivity.
  - apply every_true.
  - rewrite S; intros s0 [].
Qed.
Lemma global_effect : forall e s v t, every named e = true -> hasReal (sets (nodeE e)) = false -> outcome s e v t ->
  forall o, global glob_var glob_arr o = false -> t o = s o.
Proof.
  intros e s v t N S (s' & d & E & ->) o Ho.
  eapply fr_flush with (W := global glob_var glob_arr); [| exact E | exact Ho].
  refine (proj1 (frame_all glob_var glob_arr decl uncon unother binother addr body Honest _ (fun _ => true) _) e N _ _).
  - apply placed_uniform; reflexivity.
  - apply every_true.
  - intros t Ht; assert (isUncon t = true) as U.
    { destruct (isUncon t) eqn:Q; [reflexivity |]; rewrite <- not_true_iff_false in S; exfalso; apply S, existsb_exists.
      exists t; rewrite Q; auto. }
    split; [auto |]; intros p C; destruct t; try discriminate U; discriminate C.
Qed.

(** ** Statements *)
Variable W : obj -> bool.
Local Notation setsok := (setsok glob_var glob_arr W).
Lemma outcome_frame : forall e s v t, every named e = true -> every subscripted e = true -> setsok (sets (nodeE e)) ->
  outcome s e v t -> forall o, W o = false -> t o = s o.
Proof.
  intros e s v t N C S (s' & d & E & ->) o Ho; eapply fr_flush; [| exact E | exact Ho].
  eapply (proj1 (frame_all glob_var glob_arr decl uncon unother binother addr body Honest W subscripted (placed_subscripted _ _ _ _ _ _ _ _ _))); auto.
Qed.
Lemma optional_frame : forall e s v t, everyO named e = true -> everyO subscripted e = true ->
  setsok (optSets glob_var glob_arr decl uncon e) -> optional e s v t -> forall o, W o = false -> t o = s o.
Proof.
  intros [e|] s v t N C S E o Ho; [eapply outcome_frame; eauto |]; destruct E as [_ ->]; reflexivity.
Qed.

Definition tame (a : stmt) : Prop :=
  everyS named a = true /\ everyS subscripted a = true /\ no_switch a = true /\ may_return a = false /\ setsok (setsOf a).
Ltac sub S := eapply setsok_incl; [| exact S]; intros ?s ?Hs; cbn [Eff_model.setsOf]; rewrite ?in_union; tauto.
Ltac tame H := destruct H as (?N & ?C & ?K & ?L & ?S); cbn [everyS no_switch may_return] in *; rewrite ?andb_true_iff, ?orb_false_iff in *;
  repeat match goal with H : _ /\ _ |- _ => destruct H end.
Lemma exec_frame :
  (forall a s r t, exec a s r t -> tame a -> forall o, W o = false -> t o = s o)
  /\ (forall c n b s r t, exec_for c n b s r t -> forall i, tame (SFor i c n b) -> forall o, W o = false -> t o = s o)
  /\ (forall c s r t, exec_clauses c s r t -> True).
Proof.
  apply exec_all_ind; intros; try exact I; try reflexivity;
  try (match goal with H : _ <> Normal |- _ => idtac end);
  try (match goal with T : tame _ |- _ => assert (T0 := T); tame T end);
  try discriminate;
  repeat match goal with
  | H : outcome _ ?e _ _, Ho : W ?o = false |- _ =>
      let F := fresh "F" in
      assert (F := outcome_frame e _ _ _ ltac:(assumption) ltac:(assumption) ltac:(match goal with S : Eff_proofs.setsok _ _ _ _ |- _ => sub S end) H o Ho); clear H
  | H : optional ?e _ _ _, Ho : W ?o = false |- _ =>
      let F := fresh "F" in
      assert (F := optional_frame e _ _ _ ltac:(assumption) ltac:(assumption) ltac:(match goal with S : Eff_proofs.setsok _ _ _ _ |- _ => sub S end) H o Ho); clear H
  | H : tame ?a -> _, Ho : W ?o = false |- _ =>
      let F := fresh "F" in
      assert (F := H ltac:(first [assumption | refine (conj _ (conj _ (conj _ (conj _ _)))); auto; match goal with S : Eff_proofs.setsok _ _ _ _ |- _ => sub S end]) o Ho); clear H
  | H : forall i, tame _ -> _, Ho : W ?o = false |- _ =>
      let F := fresh "F" in assert (F := H _ ltac:(eassumption) o Ho); clear H
  end; try congruence.
Qed.


(** How a statement that is not left ends. *)
Lemma from_label_returns : forall k c d, from_label k c = Some d -> may_return_in c = false -> may_return_in d = false.
Proof.
  induction c as [| | | | | | | | | | | | |l a _ c IH] using clauses_mind with (P := fun _ => True); auto; intros d H R; [discriminate |].
  cbn [from_label] in H; destruct (match k, l with Some z, Some w => z =? w | None, None => true | _, _ => false end).
  - injection H as <-; exact R.
  - cbn [may_return_in] in R; apply orb_false_iff in R; destruct R; eauto.
Qed.
Lemma selected_returns : forall v c, may_return_in c = false -> may_return_in (selected v c) = false.
Proof.
  intros v c R; unfold selected; destruct (from_label (Some v) c) eqn:E; [eapply from_label_returns; eauto |].
  destruct (from_label None c) eqn:F; [eapply from_label_returns; eauto | reflexivity].
Qed.
Lemma endings :
  (forall a s r t, exec a s r t -> (may_return a = false -> r <> Returned) /\ (may_leave a = false -> r <> Broke /\ r <> Returned))
  /\ (forall c n b s r t, exec_for c n b s r t -> (may_return b = false -> r <> Returned) /\ r <> Broke)
  /\ (forall c s r t, exec_clauses c s r t -> may_return_in c = false -> r <> Returned).
Proof.
  apply exec_all_ind; intros; cbn [may_return may_leave may_return_in] in *;
    try (split; intros; try split; congruence); rewrite ?orb_false_iff in *;
    repeat match goal with H : _ /\ _ |- _ => destruct H end;
    try (split; intros; rewrite ?orb_false_iff in *; try split; discriminate);
    try (split; intros; rewrite ?orb_false_iff in *; intuition congruence);
    try (intuition congruence).
  split; intros E; [| split]; apply selected_returns with (v := v) in E; specialize (H1 E); destruct r; congruence.
Qed.

(** ** Loops *)
Section While.
Variable e : expr.
Variable b : stmt.
Hypothesis Ne : every named e = true.
Hypothesis Se : every subscripted e = true.
Hypothesis Le : every (listed decl) e = true.
Hypothesis Nb : everyS named b = true.
Hypothesis Sb : everyS subscripted b = true.
Hypothesis Kb : no_switch b = true.
Hypothesis Xb : may_leave b = false.
Variable R : obj -> bool.
Hypothesis Disj : forall o, R o = true -> W o = false.
Hypothesis Ok : setsok (union (setsOf b) (sets (nodeE e))).
Hypothesis Us : usesok R (predUses e).

Lemma leave_return : forall a, may_leave a = false -> may_return a = false.
Proof.
  induction a; cbn [may_leave may_return]; intros H; rewrite ?orb_false_iff in *; auto; try discriminate; destruct H; auto.
Qed.
Lemma tame_body : tame b.
Proof.
  refine (conj Nb (conj Sb (conj Kb (conj (leave_return b Xb) _)))).
  eapply setsok_incl; [| exact Ok]; intros s Hs; apply in_union; auto.
Qed.
Lemma sets_test : setsok (sets (nodeE e)).
Proof. eapply setsok_incl; [| exact Ok]; intros s Hs; apply in_union; auto. Qed.
Lemma test_agrees : forall s1 s2 v1 v2 t1 t2, (forall o, R o = true -> s1 o = s2 o) ->
  outcome s1 e v1 t1 -> outcome s2 e v2 t2 -> v1 = v2.
Proof.
  intros s1 s2 v1 v2 t1 t2 H (s1' & d1 & E1 & _) (s2' & d2 & E2 & _).
  eapply (proj1 (agree_all glob_var glob_arr decl uncon unother binother addr body Honest W R Disj)); eauto.
  exact sets_test.
Qed.
Lemma round_keeps : forall s v t q u, outcome s e v t -> exec b t q u -> forall o, R o = true -> u o = s o.
Proof.
  intros s v t q u E B o Ho.
  rewrite (proj1 exec_frame _ _ _ _ B tame_body o (Disj o Ho)); exact (outcome_frame e s v t Ne Se sets_test E o (Disj o Ho)).
Qed.
Lemma rounds_keep : forall s u, rounds e b s u -> forall o, R o = true -> u o = s o.
Proof.
  intros s u H; induction H as [s | s v t q u w E V B Q K IH]; intros o Ho; [reflexivity |].
  rewrite (IH o Ho); eapply round_keeps; eauto.
Qed.
Lemma rounds_same : forall s v t u v' t', rounds e b s u -> outcome s e v t -> outcome u e v' t' -> v' = v.
Proof.
  intros s v t u v' t' H E E'; eapply test_agrees; [| exact E' | exact E]; intros o Ho; eapply rounds_keep; eauto.
Qed.
Lemma never_ends : forall s v t, outcome s e v t -> v <> 0 -> forall r u, ~ exec (SWhile e b) s r u.
Proof.
  intros s0 v0 t0 E0 V0.
  assert (forall a s r u, exec a s r u -> a = SWhile e b -> (forall o, R o = true -> s o = s0 o) -> False) as K.
  { intros a s r u H; induction H; intros E A; try discriminate E; injection E as -> ->.
    - apply V0; eapply test_agrees; [| exact E0 | exact H]; intros o Ho; symmetry; auto.
    - apply IHexec2; [reflexivity |]; intros o Ho; rewrite (round_keeps _ _ _ _ _ H H1 o Ho); auto.
    - destruct (proj2 (proj1 endings _ _ _ _ H1) Xb); congruence.
    - destruct (proj2 (proj1 endings _ _ _ _ H1) Xb); congruence. }
  intros r u H; eapply K; [exact H | reflexivity | reflexivity].
Qed.
End While.
End Run.

Lemma infinite_inv : forall e b, In LInfinite (loopCheck e b) ->
  (forall s, In s (predUses e) -> member (union (setsOf b) (sets (nodeE e))) s = false)
  /\ (forall s, In s (union (setsOf b) (sets (nodeE e))) -> isUncon s = false) /\ predUses e <> [].
Proof.
  intros e b H; unfold Eff_model.loopCheck in H; rewrite nd_node in H.
  destruct (predUses e) as [|u us] eqn:E; [destruct H |]; cbn [isNil] in H.
  set (all := union (setsOf b) (sets (nodeE e))) in *; set (tu := u :: us) in *; clearbody all.
  destruct (existsb (fun el => negb (isUncon el) && member all el) tu) eqn:X; [destruct H |].
  destruct (hasUncon tu) eqn:T; [destruct H as [H|[]]; discriminate |].
  destruct (hasUncon all) eqn:Q; [destruct H as [H|[]]; discriminate |].
  split; [| split; [| discriminate]].
  - intros s Hs; apply not_true; intros M; rewrite <- not_true_iff_false in X; apply X, existsb_exists; exists s; split; [exact Hs |].
    rewrite M, andb_true_r; apply negb_true_iff, not_true; intros U.
    rewrite <- not_true_iff_false in T; apply T, existsb_exists; eauto.
  - intros s Hs; apply not_true; intros U; rewrite <- not_true_iff_false in Q; apply Q, existsb_exists; eauto.
Qed.

Theorem infinite_loop : forall unother binother addr body e b,
  honest glob_var glob_arr decl body ->
  every named e = true -> every subscripted e = true -> every (listed decl) e = true ->
  everyS named b = true -> everyS subscripted b = true -> no_switch b = true -> may_leave b = false ->
  In LInfinite (loopCheck e b) ->
  forall s v t, outcome unother binother addr body s e v t ->
  (forall u v' t', rounds unother binother addr body e b s u -> outcome unother binother addr body u e v' t' -> v' = v)
  /\ (v <> 0 -> forall r u, ~ exec unother binother addr body (SWhile e b) s r u).
Proof.
  intros unother binother addr body e b Hon Ne Se Le Nb Sb Kb Xb M s v t E.
  destruct (infinite_inv e b M) as (A & B & _).
  set (W := cov (union (setsOf b) (sets (nodeE e)))); set (R := cov (predUses e)).
  assert (forall o, R o = true -> W o = false) as D.
  { intros o Ho; apply not_true; intros HW; unfold R in Ho; apply cov_in in Ho; destruct Ho as (u & Hu & C).
    specialize (A u Hu); rewrite (member_cov _ u o C HW) in A; discriminate. }
  assert (setsok glob_var glob_arr W (union (setsOf b) (sets (nodeE e)))) as O.
  { intros u Hu; split; [intros X; rewrite (B u Hu) in X; discriminate | intros o C; unfold W; apply cov_in; eauto]. }
  assert (usesok R (predUses e)) as U by (intros u Hu o C; unfold R; apply cov_in; eauto).
  split.
  - intros u v' t' H E'; eapply rounds_same with (W := W) (R := R); eauto.
  - intros V; eapply never_ends with (W := W) (R := R); eauto.
Qed.

(** ** Silence *)
Lemma silent_inv : forall e b, loopCheck e b = [] -> predUses e <> [] ->
  exists u s, In u (predUses e) /\ isUncon u = false /\ In s (union (setsOf b) (sets (nodeE e))) /\ similar u s = true.
Proof.
  intros e b H N; unfold Eff_model.loopCheck in H; rewrite nd_node in H.
  destruct (predUses e) as [|u us] eqn:E; [contradiction |]; cbn [isNil] in H.
  set (all := union (setsOf b) (sets (nodeE e))) in *; set (tu := u :: us) in *; clearbody all.
  destruct (existsb (fun el => negb (isUncon el) && member all el) tu) eqn:X.
  - apply existsb_exists in X; destruct X as (w & Hw & X); apply andb_true_iff in X; destruct X as [X1 X2].
    apply negb_true_iff in X1; apply existsb_exists in X2; destruct X2 as (s & Hs & X2); exists w, s; auto.
  - destruct (hasUncon tu), (hasUncon all); discriminate.
Qed.
Lemma sets_of_exprs : forall a s, In s (setsOf a) -> exists e, expr_in e a /\ In s (sets (nodeE e)).
Proof.
  assert (forall o s, In s (optSets glob_var glob_arr decl uncon o) -> exists e, optional_in e o /\ In s (sets (nodeE e))) as O.
  { intros [e|] s H; [exists e; split; [reflexivity | exact H] | destruct H]. }
  induction a; intros s0 H; cbn [Eff_model.setsOf expr_in] in *; rewrite ?in_union in H; try (destruct H; fail).
  - exists e; auto.
  - destruct H as [H | H]; [destruct (IHa1 _ H) as (e & A & B) | destruct (IHa2 _ H) as (e & A & B)]; exists e; auto.
  - destruct H as [[H | H] | H]; [exists e; auto | destruct (IHa _ H) as (f & A & B) ..]; exists f; auto.
  - destruct H as [[H | H] | H]; [exists e; auto | destruct (IHa1 _ H) as (f & A & B) | destruct (IHa2 _ H) as (f & A & B)]; exists f; auto.
  - destruct H as [H | H]; [exists e; auto | destruct (IHa _ H) as (f & A & B)]; exists f; auto.
  - destruct H as [H | H]; [destruct (IHa _ H) as (f & A & B); exists f; auto | exists e; auto].
  - destruct H as [[[H | H] | H] | H]; [apply O in H .. |]; [destruct H as (f & A & B) .. | destruct (IHa _ H) as (f & A & B)]; exists f; auto.
  - exists e; auto.
Qed.

Lemma pred_uses : forall e u, In u (predUses e) -> In u (uses (nodeE e)) \/ ref (nodeE e) = Some u.
Proof. intros e u H; apply in_use in H; exact H. Qed.
(** Nothing used: nothing is read. *)
Lemma pred_nil : forall e, predUses e = [] <-> uses (nodeE e) = [] /\ ref (nodeE e) = None.
Proof.
  intros e; change (use (uses (nodeE e)) (ref (nodeE e)) = [] <-> uses (nodeE e) = [] /\ ref (nodeE e) = None).
  split.
  - destruct (ref (nodeE e)) as [r|] eqn:E; cbn [use]; [| auto]; intros H.
    exfalso; assert (In r []) as [] by (rewrite <- H; apply in_insert; auto).
  - intros (-> & ->); reflexivity.
Qed.
Lemma no_member : forall (l : list sref), (forall x, ~ In x l) -> l = [].
Proof. intros [|x l] H; [reflexivity |]; destruct (H x); left; reflexivity. Qed.
Lemma union_nil : forall l m, union l m = [] -> l = [] /\ m = [].
Proof. intros l m H; split; apply no_member; intros x Hx; assert (In x []) as [] by (rewrite <- H; apply in_union; auto). Qed.
Lemma use_nil : forall l r, use l r = [] -> l = [] /\ r = None.
Proof.
  intros l [r|] H; cbn [use] in H; [| auto]; exfalso; assert (In r []) as [] by (rewrite <- H; apply in_insert; auto).
Qed.
Lemma insert_nil : forall l r, insert l r = [] -> False.
Proof. intros l r H; assert (In r []) as [] by (rewrite <- H; apply in_insert; auto). Qed.
Definition mute (n : node) : Prop := uses n = [] /\ ref n = None.
Lemma call_mute : forall f args, mute (nodeE (Call f args)) -> globs (decl f) = [] /\ forall n, In n (nodesA glob_var glob_arr decl uncon args) -> mute n.
Proof.
  intros f args [H _]; rewrite node_call in H; unfold callNode in H; cbn [uses] in H.
  apply union_nil in H; destruct H as [_ H]; split.
  - assert (forall x, ~ In x (map globRef (globs (decl f)))) as N.
    { intros x Hx; assert (In x []) as []; rewrite <- H; apply in_unions; left; apply in_union; auto. }
    apply no_member in N; destruct (globs (decl f)); [reflexivity | discriminate].
  - intros n Hn; assert (uses (argNode n) = []) as K.
    { apply no_member; intros x Hx; assert (In x []) as []; rewrite <- H; apply in_unions; right; exists (uses (argNode n)); split; [| exact Hx].
      rewrite map_map; apply in_map_iff; exists n; auto. }
    apply use_nil in K; exact K.
Qed.
Lemma mute_all :
  (forall e, mute (nodeE e) -> denotes e = [] /\ forall v a, run glob_var glob_arr decl e v a -> rd a = [])
  /\ (forall l : lval, True)
  /\ (forall es, (forall n, In n (nodesA glob_var glob_arr decl uncon es) -> mute n) ->
       concat (arrays es) = [] /\ forall a, runs glob_var glob_arr decl es a -> rd a = []).
Proof.
  apply expr_lval_exprs_ind.
  - intros z _; split; [reflexivity |]; intros v a (-> & ->); reflexivity.
  - intros x [_ H]; discriminate.
  - intros x [_ H]; discriminate.
  - intros b i _ [_ H]; rewrite node_fetch in H; discriminate.
  - intros e IH H; rewrite node_paren in H; exact (IH H).
  - intros o e IH [H _]; rewrite node_un in H; apply use_nil in H; destruct (IH H) as [_ K]; split; [reflexivity |].
    intros v a (w & R & _); eauto.
  - intros o e1 IH1 e2 IH2 [H _]; rewrite node_bin in H; apply use_nil in H; destruct H as [H H2]; apply union_nil in H; destruct H as [H H3]; apply use_nil in H.
    destruct (IH1 H) as [_ K1]; destruct (IH2 (conj H3 H2)) as [_ K2]; split; [reflexivity |].
    intros v a (v1 & v2 & a1 & a2 & R1 & R2 & _ & ->); cbn [unseq rd]; rewrite (K1 _ _ R1), (K2 _ _ R2); reflexivity.
  - intros e1 IH1 e2 IH2 [H _]; rewrite node_and in H; apply use_nil in H; destruct H as [H H2]; apply union_nil in H; destruct H as [H H3]; apply use_nil in H.
    destruct (IH1 H) as [_ K1]; destruct (IH2 (conj H3 H2)) as [_ K2]; split; [reflexivity |].
    intros v a (v1 & a1 & R1 & [-> | (v2 & a2 & R2 & ->)]); cbn [ended seqpt rd]; rewrite (K1 _ _ R1), ?(K2 _ _ R2); reflexivity.
  - intros e1 IH1 e2 IH2 [H _]; rewrite node_or in H; apply use_nil in H; destruct H as [H H2]; apply union_nil in H; destruct H as [H H3]; apply use_nil in H.
    destruct (IH1 H) as [_ K1]; destruct (IH2 (conj H3 H2)) as [_ K2]; split; [reflexivity |].
    intros v a (v1 & a1 & R1 & [-> | (v2 & a2 & R2 & ->)]); cbn [ended seqpt rd]; rewrite (K1 _ _ R1), ?(K2 _ _ R2); reflexivity.
  - intros p IHp t IHt f IHf [H _]; rewrite node_cond in H; apply union_nil in H; destruct H as [H H2]; apply union_nil in H; destruct H as [H H3].
    apply use_nil in H; apply use_nil in H2; apply use_nil in H3.
    destruct (IHp H) as [_ K1]; destruct (IHt H3) as [D2 K2]; destruct (IHf H2) as [D3 K3]; split; [cbn [denotes]; rewrite D2, D3; reflexivity |].
    intros v a (w & c & b & R1 & [R2 | R2] & ->); cbn [seqpt rd]; rewrite (K1 _ _ R1), ?(K2 _ _ R2), ?(K3 _ _ R2); reflexivity.
  - intros e1 IH1 e2 IH2 [H _]; rewrite node_comma in H; apply use_nil in H; destruct H as [H H2]; apply union_nil in H; destruct H as [H H3]; apply use_nil in H.
    destruct (IH1 H) as [_ K1]; destruct (IH2 (conj H3 H2)) as [D2 K2]; split; [exact D2 |].
    intros v a (w & c & b & R1 & R2 & ->); cbn [seqpt rd]; rewrite (K1 _ _ R1), (K2 _ _ R2); reflexivity.
  - intros l _ e _ [_ H]; rewrite node_asg in H; cbn [asgNode ref] in H; destruct l; [discriminate | rewrite node_lf in H; discriminate].
  - intros o l _ e _ [_ H]; rewrite node_asgop in H; cbn [asgOpNode ref] in H; destruct l; [discriminate | rewrite node_lf in H; discriminate].
  - intros l _ [H _]; rewrite node_pre in H; apply use_nil in H; destruct H as [_ H]; destruct l; [discriminate | rewrite node_lf in H; discriminate].
  - intros l _ [H _]; rewrite node_post in H; apply use_nil in H; destruct H as [_ H]; destruct l; [discriminate | rewrite node_lf in H; discriminate].
  - intros f args IH H; apply call_mute in H; destruct H as [G H]; destruct (IH H) as [D K]; split; [reflexivity |].
    intros v a (c & rs & ws & R & Hr & _ & ->); cbn [rd]; rewrite (K _ R).
    destruct rs as [|o rs]; [reflexivity |]; exfalso; specialize (Hr o (or_introl eq_refl)).
    unfold may_read in Hr; rewrite G, D in Hr; destruct o; [destruct Hr | destruct Hr as [[] | []]].
  - auto.
  - auto.
  - intros _; split; [reflexivity |]; intros a ->; reflexivity.
  - intros e IH r IHr H; rewrite nodes_cons in H; destruct (IH (H _ (or_introl eq_refl))) as [D1 K1].
    destruct (IHr (fun n Hn => H n (or_intror Hn))) as [D2 K2]; split; [cbn [arrays concat]; rewrite D1, D2; reflexivity |].
    intros a (v & c & d & R1 & R2 & ->); cbn [unseq rd]; rewrite (K1 _ _ R1), (K2 _ R2); reflexivity.
Qed.
Lemma reads_used : forall e v a, run glob_var glob_arr decl e v a -> rd a <> [] -> predUses e <> [].
Proof. intros e v a R N H; apply pred_nil in H; apply N; eapply (proj1 mute_all); eauto. Qed.

Theorem silent_loop : forall e b, loopCheck e b = [] -> predUses e <> [] ->
  regular decl e = true -> (forall f, expr_in f b -> regular decl f = true) ->
  exists f o v a v' a', (f = e \/ expr_in f b)
    /\ run glob_var glob_arr decl e v a /\ (In o (rd a) \/ In o (wr a))
    /\ run glob_var glob_arr decl f v' a' /\ In o (wr a').
Proof.
  intros e b H N Re Rb; destruct (silent_inv e b H N) as (u & s & Hu & _ & Hs & X).
  assert (exists f, (f = e \/ expr_in f b) /\ regular decl f = true /\ In s (sets (nodeE f))) as (f & Hf & Rf & Sf).
  { apply in_union in Hs; destruct Hs as [Hs | Hs]; [| exists e; auto].
    destruct (sets_of_exprs b s Hs) as (f & A & B); exists f; auto. }
  destruct (proj1 (reach_all glob_var glob_arr decl uncon) e Re) as (U1 & _ & U3 & _).
  destruct (proj1 (reach_all glob_var glob_arr decl uncon) f Rf) as (_ & F2 & _ & F4).
  apply pred_uses in Hu.
  assert (gooduse u) as G.
  { destruct Hu as [Hu | Hu]; [auto |]; apply plain_use; eapply (proj1 (plain_refs glob_var glob_arr decl uncon)); exact Hu. }
  destruct (similar_use_set u s G (F2 s Sf) X) as (o & Tu & Ts).
  destruct (U3 u o Hu Tu) as (a & (v & Ra) & Ia); destruct (F4 s o Sf Ts) as (a' & (v' & Ra') & Ia').
  exists f, o, v, a, v', a'; repeat split; auto; apply in_app_iff in Ia; exact Ia.
Qed.

(** ** Effects *)
Local Notation run := (run glob_var glob_arr decl).
Local Notation runL := (runL glob_var glob_arr decl).
Local Notation runs := (runs glob_var glob_arr decl).
Definition real (l : list sref) : Prop := exists s, In s l /\ isUncon s = false.
Lemma has_real : forall l, hasReal l = true -> real l.
Proof.
  intros l H; apply existsb_exists in H; destruct H as (s & Hs & H); exists s; split; [exact Hs | apply negb_true_iff; exact H].
Qed.
Lemma app_nonnil : forall {A} (l m : list A), l <> [] \/ m <> [] -> l ++ m <> [].
Proof. intros A l m H E; apply app_eq_nil in E; destruct E; destruct H; auto. Qed.
Lemma real_union : forall l m, real (union l m) -> real l \/ real m.
Proof. intros l m (s & H & U); apply in_union in H; destruct H; [left | right]; exists s; auto. Qed.

Lemma writes_all :
  (forall e, every (pointed decl) e = true -> real (sets (nodeE e)) -> exists v a, run e v a /\ wr a <> [])
  /\ (forall l, everyL (pointed decl) l = true -> real (sets (nodeL glob_var glob_arr decl uncon l)) -> exists o a, runL l o a /\ wr a <> [])
  /\ (forall es, everys (pointed decl) es = true -> (exists n, In n (nodesA glob_var glob_arr decl uncon es) /\ real (sets n)) -> exists a, runs es a /\ wr a <> []).
Proof.
  destruct (some_run glob_var glob_arr decl) as (SE & SL & SA).
  apply expr_lval_exprs_ind.
  - intros z _ (s & [] & _).
  - intros z _ (s & [] & _).
  - intros z _ (s & [] & _).
  - intros b i IH P H; rewrite every_unfold, andb_true_iff in P; destruct P as [_ P]; rewrite node_fetch in H.
    destruct (IH P H) as (k & a & R & Wn); exists 0, (reads (OElem b k) a); split; [exists k, a; auto | exact Wn].
  - intros e IH P H; rewrite every_unfold, andb_true_iff in P; destruct P as [_ P]; rewrite node_paren in H; exact (IH P H).
  - intros o e IH P H; rewrite every_unfold, andb_true_iff in P; destruct P as [_ P]; rewrite node_un in H.
    destruct (IH P H) as (k & a & R & Wn); destruct (unary_run _ _ _ o e k a R) as (w & Rw); exists w, a; auto.
  - intros o e1 IH1 e2 IH2 P H; rewrite every_unfold, !andb_true_iff in P; destruct P as [_ [P1 P2]]; rewrite node_bin in H.
    apply real_union in H; destruct H as [H | H].
    + destruct (IH1 P1 H) as (k & a & R & Wn); destruct (SE e2) as (k2 & a2 & R2).
      destruct (binary_run _ _ _ o e1 e2 _ _ _ _ R R2) as (v & Rv); exists v, (unseq a a2); split; [exact Rv | apply app_nonnil; auto].
    + destruct (IH2 P2 H) as (k & a & R & Wn); destruct (SE e1) as (k1 & a1 & R1).
      destruct (binary_run _ _ _ o e1 e2 _ _ _ _ R1 R) as (v & Rv); exists v, (unseq a1 a); split; [exact Rv | apply app_nonnil; auto].
  - intros e1 IH1 e2 IH2 P H; rewrite every_unfold, !andb_true_iff in P; destruct P as [_ [P1 P2]]; rewrite node_and in H.
    apply real_union in H; destruct H as [H | H].
    + destruct (IH1 P1 H) as (k & a & R & Wn); exists 0, (ended a); split; [exists k, a; auto | exact Wn].
    + destruct (IH2 P2 H) as (k & a & R & Wn); destruct (SE e1) as (k1 & a1 & R1).
      exists 0, (seqpt a1 a); split; [exists k1, a1; split; [exact R1 |]; right; exists k, a; auto | apply app_nonnil; auto].
  - intros e1 IH1 e2 IH2 P H; rewrite every_unfold, !andb_true_iff in P; destruct P as [_ [P1 P2]]; rewrite node_or in H.
    apply real_union in H; destruct H as [H | H].
    + destruct (IH1 P1 H) as (k & a & R & Wn); exists 0, (ended a); split; [exists k, a; auto | exact Wn].
    + destruct (IH2 P2 H) as (k & a & R & Wn); destruct (SE e1) as (k1 & a1 & R1).
      exists 0, (seqpt a1 a); split; [exists k1, a1; split; [exact R1 |]; right; exists k, a; auto | apply app_nonnil; auto].
  - intros p IHp t IHt f IHf P H; rewrite every_unfold, !andb_true_iff in P; destruct P as [_ [[P1 P2] P3]]; rewrite node_cond in H.
    apply real_union in H; destruct H as [H | H]; [apply real_union in H; destruct H as [H | H] |].
    + destruct (IHp P1 H) as (k & a & R & Wn); destruct (SE t) as (v & b & Rb).
      exists v, (seqpt a b); split; [exists k, a, b; auto | apply app_nonnil; auto].
    + destruct (IHt P2 H) as (v & b & Rb & Wn); destruct (SE p) as (k & a & R).
      exists v, (seqpt a b); split; [exists k, a, b; auto | apply app_nonnil; auto].
    + destruct (IHf P3 H) as (v & b & Rb & Wn); destruct (SE p) as (k & a & R).
      exists v, (seqpt a b); split; [exists k, a, b; auto | apply app_nonnil; auto].
  - intros e1 IH1 e2 IH2 P H; rewrite every_unfold, !andb_true_iff in P; destruct P as [_ [P1 P2]]; rewrite node_comma in H.
    apply real_union in H; destruct H as [H | H].
    + destruct (IH1 P1 H) as (k & a & R & Wn); destruct (SE e2) as (v & b & Rb).
      exists v, (seqpt a b); split; [exists k, a, b; auto | apply app_nonnil; auto].
    + destruct (IH2 P2 H) as (v & b & Rb & Wn); destruct (SE e1) as (k & a & R).
      exists v, (seqpt a b); split; [exists k, a, b; auto | apply app_nonnil; auto].
  - intros l _ e _ _ _; destruct (SL l) as (o & c & Rl); destruct (SE e) as (v & b & Rb).
    exists v, (writes o (unseq c b)); split; [exists o, c, b; auto | discriminate].
  - intros op l _ e _ _ _; destruct (SL l) as (o & c & Rl); destruct (SE e) as (v & b & Rb).
    exists v, (writes o (unseq (reads o c) b)); split; [exists o, c, v, b; auto | discriminate].
  - intros l _ _ _; destruct (SL l) as (o & c & Rl); exists 0, (writes o (reads o c)); split; [exists o, c; auto | discriminate].
  - intros l _ _ _; destruct (SL l) as (o & c & Rl); exists 0, (writes o (reads o c)); split; [exists o, c; auto | discriminate].
  - (* Call *)
    intros f args IH P H; rewrite every_unfold, andb_true_iff in P; destruct P as [P0 P].
    assert (forall a ws, runs args a -> (forall o, In o ws -> may_write glob_var glob_arr decl f args o) -> wr a <> [] \/ ws <> [] ->
        exists v a, run (Call f args) v a /\ wr a <> []) as K.
    { intros a ws Ra Hw Q; exists 0, (A (rd a ++ []) (wr a ++ ws) [] (clash a)); split; [| apply app_nonnil; exact Q].
      exists a, [], ws; split; [exact Ra | split; [intros o [] | split; [exact Hw | reflexivity]]]. }
    destruct H as (s & Hs & U); rewrite node_call in Hs; unfold callNode in Hs; cbn [sets] in Hs.
    destruct (SA args) as (c & Rc).
    assert (In s (fold_left union (map sets (map argNode (nodesA glob_var glob_arr decl uncon args))) []) -> exists v a, run (Call f args) v a /\ wr a <> []) as K1.
    { intros X; apply in_unions in X; destruct X as [[] | (u & Hu & Hsu)]; rewrite map_map in Hu; apply in_map_iff in Hu; destruct Hu as (n & <- & Hn).
      destruct (IH P) as (a & Ra & Wa); [exists n; split; [exact Hn | exists s; auto] |].
      apply (K a []); auto; intros o []. }
    destruct (mods (decl f)) as [ms|] eqn:M.
    + apply in_union in Hs; destruct Hs as [Hs | Hs]; [auto |]; apply in_flat_map in Hs; destruct Hs as (m & Hm & Hs).
      assert (forall o, may_write glob_var glob_arr decl f args o -> exists v a, run (Call f args) v a /\ wr a <> []) as K2.
      { intros o Ho; apply (K c [o]); [exact Rc | intros p [<- | []]; exact Ho | right; discriminate]. }
      destruct m as [x | b | n].
      * apply (K2 (OVar x)); unfold may_write; rewrite M; exact Hm.
      * apply (K2 (OElem b 0)); unfold may_write; rewrite M; auto.
      * cbn [pointed] in P0; unfold mods_list in P0; rewrite M in P0; rewrite forallb_forall in P0; specialize (P0 _ Hm); cbn beta iota in P0.
        destruct (nth_error (arrays args) n) as [[|b l]|] eqn:Q; try discriminate P0.
        apply (K2 (OElem b 0)); unfold may_write; rewrite M; right; exists n, (b :: l); repeat split; auto; left; reflexivity.
    + apply in_insert in Hs; destruct Hs as [Hs | ->]; [auto | discriminate U].
  - intros x _ (s & [] & _).
  - intros b i IH P H; rewrite everyL_unfold, andb_true_iff in P; destruct P as [_ P]; rewrite node_lf in H.
    destruct (IH P H) as (k & a & R & Wn); exists (OElem b k), a; split; [exists k; auto | exact Wn].
  - intros _ (n & [] & _).
  - intros e IH r IHr P (n & Hn & H); rewrite everys_unfold, andb_true_iff in P; destruct P as [P1 P2]; rewrite nodes_cons in Hn.
    destruct Hn as [<- | Hn].
    + destruct (IH P1 H) as (v & a & R & Wn); destruct (SA r) as (d & Rd').
      exists (unseq a d); split; [exists v, a, d; auto | apply app_nonnil; auto].
    + destruct (IHr P2 (ex_intro _ n (conj Hn H))) as (d & Rd' & Wn); destruct (SE e) as (v & a & R).
      exists (unseq a d); split; [exists v, a, d; auto | apply app_nonnil; auto].
Qed.

Theorem silent_effect : forall e, effect e = [] -> every (pointed decl) e = true -> exists v a, run e v a /\ wr a <> [].
Proof.
  intros e H P; apply writes_all; [exact P |]; unfold Eff_model.effect in H; rewrite nd_node in H.
  destruct (retMsg rk e); [| discriminate].
  destruct (hasReal (sets (nodeE e))) eqn:E; [apply has_real; exact E |].
  destruct (sets (nodeE e)) as [|s l] eqn:Q; cbn [isNil] in H; [discriminate |].
  destruct (hasUncon (s :: l)) eqn:U; [discriminate |].
  exists s; split; [left; reflexivity |]; cbn [hasUncon existsb] in U; apply orb_false_iff in U; apply U.
Qed.
Lemma noeffect_inv : forall e, In ENoEffect (effect e) -> sets (nodeE e) = [].
Proof.
  intros e H; unfold Eff_model.effect in H; rewrite nd_node in H.
  destruct (retMsg rk e) as [|m l] eqn:E.
  - destruct (hasReal (sets (nodeE e))); [destruct H |]; destruct (sets (nodeE e)); [reflexivity |]; cbn [isNil] in H.
    destruct (hasUncon (s :: l)); [destruct H as [H|[]]; discriminate | destruct H].
  - destruct e; try discriminate E; cbn [retMsg] in E; destruct (rk f); try discriminate E; injection E as <- <-; destruct H as [H|[]]; discriminate.
Qed.
Lemma noeffectuncon_inv : forall e, In ENoEffectUncon (effect e) -> hasReal (sets (nodeE e)) = false.
Proof.
  intros e H; unfold Eff_model.effect in H; rewrite nd_node in H.
  destruct (retMsg rk e) as [|m l] eqn:E.
  - destruct (hasReal (sets (nodeE e))); [destruct H | reflexivity].
  - destruct e; try discriminate E; cbn [retMsg] in E; destruct (rk f); try discriminate E; injection E as <- <-; destruct H as [H|[]]; discriminate.
Qed.
Lemma all_loops :
  (forall a, loopChecks glob_var glob_arr decl uncon a = flat_map (fun p => loopCheck (fst p) (snd p)) (whiles a))
  /\ (forall c, clauseChecks glob_var glob_arr decl uncon c = flat_map (fun p => loopCheck (fst p) (snd p)) (whiles_in c)).
Proof.
  apply stmt_clauses_ind; intros; cbn [loopChecks clauseChecks whiles whiles_in flat_map]; rewrite ?flat_map_app; cbn [flat_map fst snd];
    rewrite ?app_nil_r; try congruence.
  - exact H.
  - f_equal; [exact H | exact H0].
Qed.
End Loop.
