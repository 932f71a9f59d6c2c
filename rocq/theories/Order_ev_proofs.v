(** Proofs for C102: the result of an expression about which nothing is said does not depend on the order
    in which it is evaluated. *)
From Verif Require Import Cbase Order_model Order_spec Order_proofs.
From Coq Require Import List ZArith Bool Lia Arith.
Import ListNotations.
Open Scope Z_scope.

Lemma obj_eqb_eq : forall o p, obj_eqb o p = true <-> o = p.
Proof.
  intros [x | a j] [y | b k]; cbn; rewrite ?andb_true_iff, ?Nat.eqb_eq, ?Z.eqb_eq; split; intuition congruence.
Qed.
Lemma upd_same : forall s o v, upd s o v o = v.
Proof. intros; unfold upd; rewrite (proj2 (obj_eqb_eq o o) eq_refl); reflexivity. Qed.
Lemma upd_other : forall s o v p, o <> p -> upd s o v p = s p.
Proof. intros s o v p H; unfold upd; destruct (obj_eqb o p) eqn:E; [apply obj_eqb_eq in E; contradiction | reflexivity]. Qed.
Lemma flush_app : forall d1 d2 s, flush s (d1 ++ d2) = flush (flush s d1) d2.
Proof. intros; unfold flush; apply fold_left_app. Qed.
Lemma flush_other : forall d s o, ~ In o (map fst d) -> flush s d o = s o.
Proof.
  induction d as [|[p v] d IH]; intros s o H; [reflexivity |]; cbn [map fst In] in H; unfold flush in *; cbn [fold_left fst snd].
  rewrite IH; [apply upd_other |]; intuition.
Qed.
Lemma flush_local : forall d s t o, s o = t o -> flush s d o = flush t d o.
Proof.
  induction d as [|[p v] d IH]; intros s t o H; [exact H |]; unfold flush in *; cbn [fold_left fst snd].
  apply IH; unfold upd; destruct (obj_eqb p o); auto.
Qed.

(** ** Well-behaved steps: only some objects are modified, and only others have any influence. *)
Definition same_effect (sa sb fa fb : state) : Prop := forall o, fa o = fb o \/ (fa o = sa o /\ fb o = sb o).
Record wb {X} (R W : obj -> bool) (m : rel X) : Prop := {
  frame : forall s x s' d, m s x s' d -> forall o, W o = false -> s' o = s o /\ ~ In o (map fst d);
  det : forall sa sb xa xb sa' sb' da db, (forall o, R o = true -> sa o = sb o) ->
    m sa xa sa' da -> m sb xb sb' db -> xa = xb /\ same_effect sa sb (flush sa' da) (flush sb' db)
}.
Lemma wb_weaken : forall {X} R W R' W' (m : rel X), wb R W m ->
  (forall o, R o = true -> R' o = true) -> (forall o, W o = true -> W' o = true) -> wb R' W' m.
Proof.
  intros X R W R' W' m [F D] HR HW; split.
  - intros s x s' d H o Ho; eapply F; eauto; apply not_true; intros E; rewrite (HW _ E) in Ho; discriminate.
  - intros sa sb xa xb sa' sb' da db H Ha Hb; eapply D; eauto.
Qed.
Lemma wb_give : forall {X} (x : X) R W, wb R W (give x).
Proof.
  intros X x R W; split.
  - intros s y s' d (-> & -> & ->) o _; split; [reflexivity | intros []].
  - intros sa sb xa xb sa' sb' da db _ (-> & -> & ->) (-> & -> & ->); split; [reflexivity | intros o; right; split; reflexivity].
Qed.
Lemma wb_mapr : forall {X Y} (g : X -> Y) R W m, wb R W m -> wb R W (mapr g m).
Proof.
  intros X Y g R W m [F D]; split.
  - intros s y s' d (x & H & _); eapply F; eauto.
  - intros sa sb xa xb sa' sb' da db H (ya & Ha & ->) (yb & Hb & ->).
    destruct (D _ _ _ _ _ _ _ _ H Ha Hb) as [-> E]; split; [reflexivity | exact E].
Qed.
Lemma wb_after : forall {X Y} R1 W1 R2 W2 (m : rel X) (n : X -> rel Y), wb R1 W1 m -> (forall x, wb R2 W2 (n x)) ->
  wb (fun o => R1 o || R2 o) (fun o => W1 o || W2 o) (after m n).
Proof.
  intros X Y R1 W1 R2 W2 m n [F1 D1] N; split.
  - intros s y s' d (x & s1 & d1 & H1 & H2) o Ho; apply orb_false_iff in Ho; destruct Ho as [O1 O2].
    destruct (F1 _ _ _ _ H1 o O1) as [A B]; destruct (frame _ _ _ (N x) _ _ _ _ H2 o O2) as [C D].
    split; [rewrite C, flush_other; auto | exact D].
  - intros sa sb ya yb sa' sb' da db H (xa & sa1 & da1 & Ha1 & Ha2) (xb & sb1 & db1 & Hb1 & Hb2).
    destruct (D1 sa sb xa xb sa1 sb1 da1 db1) as [-> E]; auto.
    { intros o Ho; apply H; rewrite Ho; reflexivity. }
    destruct (det _ _ _ (N xb) (flush sa1 da1) (flush sb1 db1) ya yb sa' sb' da db) as [-> G]; auto.
    { intros o Ho; destruct (E o) as [Q | [Q1 Q2]]; [exact Q |]; rewrite Q1, Q2; apply H; rewrite Ho; apply orb_true_r. }
    split; [reflexivity |].
    intros o; destruct (G o) as [Q | [Q1 Q2]]; [left; exact Q |]; rewrite Q1, Q2; apply E.
Qed.

(** Two steps that do not disturb each other, in either order. *)
Lemma compose : forall {X Y} R1 W1 R2 W2 (m : rel X) (n : rel Y) s x s1 d1 y s2 d2,
  wb R1 W1 m -> wb R2 W2 n -> (forall o, W1 o = true -> W2 o = false) ->
  m s x s1 d1 -> n s1 y s2 d2 ->
  forall o, (W1 o = true -> flush s2 (d1 ++ d2) o = flush s1 d1 o)
    /\ (W1 o = false -> flush s2 (d1 ++ d2) o = flush s2 d2 o /\ s1 o = s o).
Proof.
  intros X Y R1 W1 R2 W2 m n s x s1 d1 y s2 d2 [F1 _] [F2 _] D H1 H2 o; rewrite flush_app; split; intros W.
  - destruct (F2 _ _ _ _ H2 o (D o W)) as [A B]; rewrite flush_other; auto; apply flush_local; exact A.
  - destruct (F1 _ _ _ _ H1 o W) as [A B]; split; [| exact A].
    apply flush_local; apply flush_other; exact B.
Qed.
Lemma wb_either : forall {X Y} R1 W1 R2 W2 (m : rel X) (n : rel Y), wb R1 W1 m -> wb R2 W2 n ->
  (forall o, W1 o = true -> R2 o = false /\ W2 o = false) -> (forall o, W2 o = true -> R1 o = false) ->
  wb (fun o => R1 o || R2 o) (fun o => W1 o || W2 o) (either m n).
Proof.
  intros X Y R1 W1 R2 W2 m n M N D1 D2.
  assert (forall o, R2 o = true -> W1 o = false) as E1
    by (intros o H; apply not_true; intros W; destruct (D1 o W) as [Q _]; congruence).
  assert (forall o, R1 o = true -> W2 o = false) as E2
    by (intros o H; apply not_true; intros W; rewrite (D2 o W) in H; discriminate).
  assert (forall o, W2 o = true -> W1 o = false) as E3
    by (intros o H; apply not_true; intros W; destruct (D1 o W) as [_ Q]; congruence).
  assert (forall s r s' d, either m n s r s' d ->
    exists sm sm' dm sn sn' dn, m sm (fst r) sm' dm /\ n sn (snd r) sn' dn
      /\ (forall o, R1 o = true -> sm o = s o) /\ (forall o, R2 o = true -> sn o = s o)
      /\ (forall o, W1 o = true -> flush s' d o = flush sm' dm o /\ sm o = s o)
      /\ (forall o, W2 o = true -> flush s' d o = flush sn' dn o /\ sn o = s o)
      /\ (forall o, W1 o = false -> W2 o = false -> flush s' d o = s o)) as K.
  { intros s [x y] s' d [(s1 & d1 & d2 & H1 & H2 & ->) | (s1 & d1 & d2 & H1 & H2 & ->)]; cbn [fst snd] in *.
    - pose proof (compose _ _ _ _ _ _ _ _ _ _ _ _ _ M N (fun o H => proj2 (D1 o H)) H1 H2) as C.
      exists s, s1, d1, s1, s', d2; split; [exact H1 | split; [exact H2 |]].
      assert (forall o, W1 o = false -> s1 o = s o) as F by (intros o W; apply (C o); exact W).
      split; [auto | split; [intros o H; apply F, E1; exact H | split; [| split]]].
      + intros o W; split; [apply (C o); exact W | reflexivity].
      + intros o W; split; [apply (C o) | apply F]; apply E3; exact W.
      + intros o W W'; destruct (C o) as [_ C2]; destruct (C2 W) as [-> _].
        destruct (frame _ _ _ N _ _ _ _ H2 o W') as [A B]; rewrite flush_other; auto; rewrite A; auto.
    - pose proof (compose _ _ _ _ _ _ _ _ _ _ _ _ _ N M E3 H1 H2) as C.
      exists s1, s', d2, s, s1, d1; split; [exact H2 | split; [exact H1 |]].
      assert (forall o, W2 o = false -> s1 o = s o) as F by (intros o W; apply (C o); exact W).
      split; [intros o H; apply F, E2; exact H | split; [auto | split; [| split]]].
      + intros o W; split; [apply (C o) | apply F]; apply D1; exact W.
      + intros o W; split; [apply (C o); exact W | reflexivity].
      + intros o W' W; destruct (C o) as [_ C2]; destruct (C2 W) as [-> _].
        destruct (frame _ _ _ M _ _ _ _ H2 o W') as [A B]; rewrite flush_other; auto; rewrite A; auto. }
  split.
  - intros s [x y] s' d H o Ho; apply orb_false_iff in Ho; destruct Ho as [O1 O2].
    destruct H as [(s1 & d1 & d2 & H1 & H2 & ->) | (s1 & d1 & d2 & H1 & H2 & ->)]; cbn [fst snd] in *.
    + destruct (frame _ _ _ M _ _ _ _ H1 o O1), (frame _ _ _ N _ _ _ _ H2 o O2).
      split; [congruence | rewrite map_app, in_app_iff; tauto].
    + destruct (frame _ _ _ N _ _ _ _ H1 o O2), (frame _ _ _ M _ _ _ _ H2 o O1).
      split; [congruence | rewrite map_app, in_app_iff; tauto].
  - intros sa sb [xa ya] [xb yb] sa' sb' da db H Ha Hb.
    destruct (K _ _ _ _ Ha) as (ma & ma' & dma & na & na' & dna & A1 & A2 & A3 & A4 & A5 & A6 & A7).
    destruct (K _ _ _ _ Hb) as (mb & mb' & dmb & nb & nb' & dnb & B1 & B2 & B3 & B4 & B5 & B6 & B7); cbn [fst snd] in *.
    destruct (det _ _ _ M ma mb xa xb ma' mb' dma dmb) as [-> G1]; auto.
    { intros o Ho; rewrite A3, B3; auto; apply H; rewrite Ho; reflexivity. }
    destruct (det _ _ _ N na nb ya yb na' nb' dna dnb) as [-> G2]; auto.
    { intros o Ho; rewrite A4, B4; auto; apply H; rewrite Ho; apply orb_true_r. }
    split; [reflexivity |]; intros o.
    destruct (W1 o) eqn:Q1; [| destruct (W2 o) eqn:Q2].
    + destruct (A5 o Q1) as [-> <-], (B5 o Q1) as [-> <-]; apply G1.
    + destruct (A6 o Q2) as [-> <-], (B6 o Q2) as [-> <-]; apply G2.
    + right; auto.
Qed.

Lemma wb_reading : forall R W R' (m : rel obj), wb R W m -> (forall o, R o = true -> R' o = true) ->
  (forall s o s' d, m s o s' d -> R' o = true /\ W o = false) -> wb R' W (reading m).
Proof.
  intros R W R' m [F D] HR T; split.
  - intros s x s' d [H _]; eapply F; eauto.
  - intros sa sb [oa va] [ob vb] sa' sb' da db H [Ha Va] [Hb Vb]; cbn [fst snd] in *.
    destruct (D sa sb oa ob sa' sb' da db) as [<- E]; auto.
    split; [| exact E].
    destruct (T _ _ _ _ Ha) as [T1 T2].
    destruct (F _ _ _ _ Ha oa T2) as [A _], (F _ _ _ _ Hb oa T2) as [B _].
    subst va vb; rewrite A, B, (H oa T1); reflexivity.
Qed.
Lemma wb_storing : forall {X} R W W' (m : rel X) tgt val, wb R W m -> (forall o, W o = true -> W' o = true) ->
  (forall s r s' d, m s r s' d -> W' (tgt r) = true /\ ~ In (tgt r) (map fst d)) -> wb R W' (storing m tgt val).
Proof.
  intros X R W W' m tgt vl [F D] HW T; split.
  - intros s x s' d (s1 & d1 & H & K) o Ho.
    destruct (F _ _ _ _ H o) as [A B]; [apply not_true; intros E; rewrite (HW _ E) in Ho; discriminate |].
    assert (tgt x <> o) as N by (intros <-; destruct (T _ _ _ _ H) as [T1 _]; congruence).
    destruct K as [[-> ->] | [-> ->]]; [split; [rewrite upd_other; auto | exact B] |].
    split; [exact A |]; rewrite map_app, in_app_iff; cbn; intuition.
  - intros sa sb xa xb sa' sb' da db H (sa1 & da1 & Ha & Ka) (sb1 & db1 & Hb & Kb).
    destruct (D _ _ _ _ _ _ _ _ H Ha Hb) as [<- E]; split; [reflexivity |].
    assert (forall s1 d1 s' d, ~ In (tgt xa) (map fst d1) ->
      (s' = upd s1 (tgt xa) (vl xa) /\ d = d1) \/ (s' = s1 /\ d = d1 ++ [(tgt xa, vl xa)]) ->
      forall o, flush s' d o = if obj_eqb (tgt xa) o then vl xa else flush s1 d1 o) as Q.
    { intros s1 d1 s' d N K o; destruct (obj_eqb (tgt xa) o) eqn:Eo.
      - apply obj_eqb_eq in Eo; subst o; destruct K as [[-> ->] | [-> ->]].
        + rewrite flush_other; auto; apply upd_same.
        + rewrite flush_app; unfold flush at 1; cbn [fold_left fst snd]; apply upd_same.
      - assert (tgt xa <> o) as N' by (intros Z; apply obj_eqb_eq in Z; congruence).
        destruct K as [[-> ->] | [-> ->]].
        + apply flush_local, upd_other; exact N'.
        + rewrite flush_app; unfold flush at 1; cbn [fold_left fst snd]; apply upd_other; exact N'. }
    intros o; rewrite (Q sa1 da1 sa' da (proj2 (T _ _ _ _ Ha)) Ka), (Q sb1 db1 sb' db (proj2 (T _ _ _ _ Hb)) Kb).
    destruct (obj_eqb (tgt xa) o); [left; reflexivity | apply E].
Qed.

Section Ev.
Variable glob_var : var -> bool.
Variable glob_arr : arr -> bool.
Variable decl : fname -> fdecl.
Variable uncon : bool.
Variable unother : Z -> Z.
Variable binother : Z -> Z -> Z.
Variable addr : arr -> Z.
Variable body : fname -> exprs -> list Z -> state -> Z * (obj -> option Z).
Hypothesis Honest : honest glob_var glob_arr decl body.
Local Notation ev := (ev unother binother addr body).
Local Notation evL := (evL unother binother addr body).
Local Notation evs := (evs unother binother addr body).
Local Notation nodeE := (nodeE glob_var glob_arr decl uncon).
Local Notation nodeL := (nodeL glob_var glob_arr decl uncon).
Local Notation nodesA := (nodesA glob_var glob_arr decl uncon).
Local Notation msgE := (msgE glob_var glob_arr decl uncon).
Local Notation msgL := (msgL glob_var glob_arr decl uncon).
Local Notation msgA := (msgA glob_var glob_arr decl uncon).
Local Notation shapes := (shapes glob_var glob_arr decl uncon).
Local Notation no_ptr := (no_ptr glob_var glob_arr decl uncon).

Lemma known_ev : forall e k, simple_value e = true -> val (nodeE e) = Some k ->
  forall s v s' d, ev e s v s' d -> v = k.
Proof.
  induction e; intros k S V s v s' d R;
    rewrite ?node_fetch, ?node_paren, ?node_un, ?node_bin, ?node_and, ?node_or, ?node_cond, ?node_comma,
      ?node_asg, ?node_asgop, ?node_pre, ?node_post, ?node_call in V; try discriminate S; try discriminate V.
  - cbn in V; destruct R; congruence.
  - cbn in V; eapply IHe; eauto.
  - cbn [val unNode] in V; destruct R as (w & R & U); cbn [simple_value] in S.
    destruct (val (nodeE e)) as [z|]; [| destruct o; discriminate V].
    specialize (IHe z S eq_refl _ _ _ _ R); subst.
    destruct o; cbn [valUn] in V; cbn [unv]; [assert (k = -1 * z) by congruence; lia | congruence | discriminate].
  - cbn [val opNode] in V; destruct R as ((v1, v2) & R & ->).
    cbn [simple_value] in S; apply andb_true_iff in S; destruct S as [S1 S2].
    apply known_bin in V; destruct V as (x & y & V1 & V2 & V); apply V.
    destruct R as [(t & d1 & d2 & R1 & R2 & _) | (t & d1 & d2 & R2 & R1 & _)]; cbn [fst snd] in *;
      specialize (IHe1 x S1 V1 _ _ _ _ R1); specialize (IHe2 y S2 V2 _ _ _ _ R2); subst;
      destruct o; cbn [binres binv]; auto.
  - cbn [val asgNode] in V; rewrite lval_val in V; discriminate.
  - cbn [val asgOpNode opNode] in V; rewrite lval_val in V; discriminate.
  - cbn [val incNode] in V; rewrite lval_val in V; discriminate.
Qed.
Lemma subscript_ev : forall b i s k s' d, modifies decl b i = false -> simple_value i = true -> ev i s k s' d ->
  covr (Some (SElem b (val (nodeE i)))) (OElem b k) = true /\ Wr (nodeE i) (OElem b k) = false.
Proof.
  intros b i s k s' d M S R; split; [| apply (proj1 (not_modified glob_var glob_arr decl uncon b k)); exact M].
  cbn [covr covers]; destruct (val (nodeE i)) as [z|] eqn:V; rewrite Nat.eqb_refl; [| reflexivity].
  rewrite (known_ev i z S V _ _ _ _ R), Z.eqb_refl; reflexivity.
Qed.

Lemma ev_call_done : forall e s v s' d, is_call e = true -> ev e s v s' d -> d = [].
Proof. intros [] s v s' d H R; try discriminate H; destruct R as (x & s1 & d1 & _ & R); apply R. Qed.

Lemma order_free :
  (forall e, careful decl e = true -> msgE e = [] -> wb (Rd (nodeE e)) (Wr (nodeE e)) (ev e))
  /\ (forall l, carefulL decl l = true -> msgL l = [] -> wb (cov (uses (nodeL l))) (Wr (nodeL l)) (evL l)
      /\ forall s o s' d, evL l s o s' d -> covr (ref (nodeL l)) o = true /\ Wr (nodeL l) o = false)
  /\ (forall es, carefuls decl es = true -> msgA es = [] -> pairwise (map argNode (nodesA es)) ->
      wb (Rds (map argNode (nodesA es))) (Wrs (map argNode (nodesA es))) (evs es)).
Proof.
  apply expr_lval_exprs_ind.
  - intros z _ _; apply wb_give.
  - intros x _ _; split.
    + intros s v s' d (-> & -> & ->) o _; split; [reflexivity | intros []].
    + intros sa sb xa xb sa' sb' da db H (-> & -> & ->) (-> & -> & ->); split; [| intros o; right; split; reflexivity].
      apply H; cbn; apply Nat.eqb_refl.
  - intros b _ _; apply wb_give.
  - (* Fetch *)
    intros b i IH C M; cbn [careful] in C; rewrite !andb_true_iff, negb_true_iff in C; destruct C as [[C N] S].
    rewrite msg_fetch in M; specialize (IH C M); rewrite node_fetch.
    apply wb_mapr; eapply wb_reading; [apply wb_mapr; exact IH | |].
    + intros o H; unfold Rd in *; cbn [fetchNode uses]; rewrite cov_insert, cov_use, H; reflexivity.
    + intros s o s' d (k & R & ->); destruct (subscript_ev b i s k s' d N S R) as [A B].
      split; [unfold Rd; apply orb_r; exact A | exact B].
  - intros e IH C M; cbn [careful] in C; rewrite msg_paren in M; rewrite node_paren; exact (IH C M).
  - (* Un *)
    intros o e IH C M; cbn [careful] in C; rewrite msg_un in M; rewrite node_un.
    apply wb_mapr; eapply wb_weaken; [exact (IH C M) | | auto].
    intros p H; unfold Rd, unNode in *; cbn [uses ref covr]; rewrite cov_use, orb_false_r; exact H.
  - (* Bin *)
    intros o e1 IH1 e2 IH2 C M.
    cbn [careful] in C; rewrite !andb_true_iff, !negb_true_iff in C; destruct C as [[[C1 C2] Nc] Nd].
    rewrite msg_bin in M; apply app_eq_nil in M; destruct M as [M1 M]; apply app_eq_nil in M; destruct M as [M2 M].
    destruct (operands _ _ _ _ _ M (proj2 (proj1 shapes e1)) (proj1 no_ptr e1 Nd) (proj1 (proj1 shapes e2))) as (D1 & _ & D2).
    rewrite is_call_node in D2; rewrite node_bin.
    apply wb_mapr; eapply wb_weaken; [eapply wb_either; [exact (IH1 C1 M1) | exact (IH2 C2 M2) | exact D1 | exact (D2 Nc)] | |].
    + intros p; unfold Rd, opNode; cbn [uses ref covr]; rewrite !cov_use, cov_union, cov_use, !orb_true_iff; tauto.
    + intros p; unfold Wr, opNode; cbn [sets]; rewrite cov_union; auto.
  - (* And *)
    intros e1 IH1 e2 IH2 C M.
    cbn [careful] in C; rewrite !andb_true_iff in C; destruct C as [C1 C2].
    rewrite msg_and in M; apply app_eq_nil in M; destruct M as [M1 M2]; rewrite node_and.
    eapply wb_weaken; [eapply wb_after with (R2 := Rd (nodeE e2)) (W2 := Wr (nodeE e2)); [exact (IH1 C1 M1) |] | |].
    + intros v; cbn beta; destruct (v =? 0); [apply wb_give | apply wb_mapr; exact (IH2 C2 M2)].
    + intros p; unfold Rd, opNode; cbn [uses ref covr]; rewrite !cov_use, cov_union, cov_use, !orb_true_iff; tauto.
    + intros p; unfold Wr, opNode; cbn [sets]; rewrite cov_union; auto.
  - (* Or *)
    intros e1 IH1 e2 IH2 C M.
    cbn [careful] in C; rewrite !andb_true_iff in C; destruct C as [C1 C2].
    rewrite msg_or in M; apply app_eq_nil in M; destruct M as [M1 M2]; rewrite node_or.
    eapply wb_weaken; [eapply wb_after with (R2 := Rd (nodeE e2)) (W2 := Wr (nodeE e2)); [exact (IH1 C1 M1) |] | |].
    + intros v; cbn beta; destruct (v =? 0); [apply wb_mapr; exact (IH2 C2 M2) | apply wb_give].
    + intros p; unfold Rd, opNode; cbn [uses ref covr]; rewrite !cov_use, cov_union, cov_use, !orb_true_iff; tauto.
    + intros p; unfold Wr, opNode; cbn [sets]; rewrite cov_union; auto.
  - (* Cond *)
    intros p IHp t IHt f IHf C M.
    cbn [careful] in C; rewrite !andb_true_iff in C; destruct C as [[[[Cp Ct] Cf] _] _].
    rewrite msg_cond in M; apply app_eq_nil in M; destruct M as [Mp M]; apply app_eq_nil in M; destruct M as [Mt Mf].
    rewrite node_cond.
    eapply wb_weaken; [eapply wb_after with (R2 := fun o => Rd (nodeE t) o || Rd (nodeE f) o) (W2 := fun o => Wr (nodeE t) o || Wr (nodeE f) o); [exact (IHp Cp Mp) |] | |].
    + intros v; cbn beta; destruct (v =? 0); [eapply wb_weaken; [exact (IHf Cf Mf) | |] | eapply wb_weaken; [exact (IHt Ct Mt) | |]];
        intros o ->; auto; apply orb_true_r.
    + intros o; unfold Rd, condNode; cbn [uses ref]; rewrite ?cov_union, ?cov_use, !orb_true_iff; tauto.
    + intros o; unfold Wr, condNode; cbn [sets]; rewrite ?cov_union, !orb_true_iff; tauto.
  - (* Comma *)
    intros e1 IH1 e2 IH2 C M.
    cbn [careful] in C; rewrite !andb_true_iff in C; destruct C as [[C1 C2] _].
    rewrite msg_comma in M; apply app_eq_nil in M; destruct M as [M1 M2]; rewrite node_comma.
    eapply wb_weaken; [eapply wb_after with (R2 := Rd (nodeE e2)) (W2 := Wr (nodeE e2)); [exact (IH1 C1 M1) | intros v; exact (IH2 C2 M2)] | |].
    + intros o; unfold Rd, commaNode; cbn [uses ref]; rewrite ?cov_use, ?cov_union, ?cov_use, !orb_true_iff; tauto.
    + intros o; unfold Wr, commaNode; cbn [sets]; rewrite ?cov_union, !orb_true_iff; tauto.
  - (* Asg *)
    intros l IHl e IHe C M.
    rewrite careful_asg, !andb_true_iff, negb_true_iff in C; destruct C as [[Cl Ce] Nd].
    rewrite msg_asg in M; apply app_eq_nil in M; destruct M as [Ml M]; apply app_eq_nil in M; destruct M as [Me M].
    destruct (IHl Cl Ml) as [Wl Tl]; specialize (IHe Ce Me).
    destruct (operands _ _ _ _ _ M (proj2 (proj1 (proj2 shapes) l)) (proj1 (proj2 no_ptr) l Nd) (proj1 (proj1 shapes e))) as (D1 & D2 & D3).
    rewrite is_call_node in D3; rewrite node_asg.
    pose proof (wb_either _ _ _ _ _ _ Wl IHe D1 D2) as WE.
    apply wb_mapr; apply wb_weaken with (R := fun o => cov (uses (nodeL l)) o || Rd (nodeE e) o) (W := Wr (asgNode (nodeL l) (nodeE e))).
    + eapply wb_storing; [exact WE | |].
      * intros p; unfold Wr, asgNode; cbn [sets]; rewrite cov_set, cov_union, !orb_true_iff; tauto.
      * intros s [o v] s' d H; cbn [fst].
        assert (exists sl sl' dl, evL l sl o sl' dl) as (sl & sl' & dl & Rl)
          by (destruct H as [(s1 & d1 & d2 & H1 & H2 & _) | (s1 & d1 & d2 & H1 & H2 & _)]; cbn [fst snd] in *; eauto).
        destruct (Tl _ _ _ _ Rl) as [T1 T2].
        split; [unfold Wr, asgNode; cbn [sets]; rewrite cov_set, T1, orb_true_r; reflexivity |].
        destruct H as [(s1 & d1 & d2 & H1 & H2 & ->) | (s1 & d1 & d2 & H1 & H2 & ->)]; cbn [fst snd] in *;
          rewrite map_app, in_app_iff; intros [H | H].
        -- destruct (frame _ _ _ Wl _ _ _ _ H1 o T2); contradiction.
        -- destruct (is_call e) eqn:Q; [rewrite (ev_call_done _ _ _ _ _ Q H2) in H; destruct H |].
           destruct (Wr (nodeE e) o) eqn:We; [specialize (D3 eq_refl o We); unfold Rd in D3; rewrite T1, orb_true_r in D3; discriminate |].
           destruct (frame _ _ _ IHe _ _ _ _ H2 o We); contradiction.
        -- destruct (is_call e) eqn:Q; [rewrite (ev_call_done _ _ _ _ _ Q H1) in H; destruct H |].
           destruct (Wr (nodeE e) o) eqn:We; [specialize (D3 eq_refl o We); unfold Rd in D3; rewrite T1, orb_true_r in D3; discriminate |].
           destruct (frame _ _ _ IHe _ _ _ _ H1 o We); contradiction.
        -- destruct (frame _ _ _ Wl _ _ _ _ H2 o T2); contradiction.
    + intros p; unfold Rd, asgNode; cbn [uses ref]; rewrite cov_use, cov_union, !orb_true_iff; tauto.
    + auto.
  - (* AsgOp *)
    intros op l IHl e IHe C M.
    rewrite careful_asgop, !andb_true_iff, !negb_true_iff in C; destruct C as [[[Cl Ce] Nd] Nc].
    rewrite msg_asgop in M; apply app_eq_nil in M; destruct M as [Ml M]; apply app_eq_nil in M; destruct M as [Me M].
    destruct (IHl Cl Ml) as [Wl Tl]; specialize (IHe Ce Me).
    destruct (operands _ _ _ _ _ M (proj2 (proj1 (proj2 shapes) l)) (proj1 (proj2 no_ptr) l Nd) (proj1 (proj1 shapes e))) as (D1 & D2 & D3).
    rewrite is_call_node in D3; specialize (D3 Nc); rewrite node_asgop.
    assert (wb (Rd (nodeL l)) (Wr (nodeL l)) (reading (evL l))) as Wr1.
    { eapply wb_reading; [exact Wl | intros o H; unfold Rd; rewrite H; reflexivity |].
      intros s o s' d H; destruct (Tl _ _ _ _ H) as [T1 T2]; split; [unfold Rd; rewrite T1; apply orb_true_r | exact T2]. }
    pose proof (wb_either _ _ _ _ _ _ Wr1 IHe D1 D3) as WE.
    apply wb_mapr; eapply wb_weaken with (W := Wr (asgOpNode (nodeL l) (nodeE e) (valBin op (val (nodeL l)) (val (nodeE e))))).
    + eapply wb_storing; [exact WE | |].
      * intros p; unfold Wr, asgOpNode, opNode; cbn [sets]; rewrite cov_set, !cov_union, !orb_true_iff; tauto.
      * intros s [[o v] w] s' d H; cbn [fst].
        assert (exists sl sl' dl, evL l sl o sl' dl) as (sl & sl' & dl & Rl)
          by (destruct H as [(s1 & d1 & d2 & [H1 _] & H2 & _) | (s1 & d1 & d2 & H1 & [H2 _] & _)]; cbn [fst snd] in *; eauto).
        destruct (Tl _ _ _ _ Rl) as [T1 T2].
        split; [unfold Wr, asgOpNode; cbn [sets]; rewrite cov_set, T1, orb_true_r; reflexivity |].
        assert (Wr (nodeE e) o = false) as We
          by (apply not_true; intros X; specialize (D3 o X); unfold Rd in D3; rewrite T1, orb_true_r in D3; discriminate).
        destruct H as [(s1 & d1 & d2 & H1 & H2 & ->) | (s1 & d1 & d2 & H1 & H2 & ->)]; cbn [fst snd] in *;
          rewrite map_app, in_app_iff; intros [H | H].
        -- destruct (frame _ _ _ Wr1 _ _ _ _ H1 o T2); contradiction.
        -- destruct (frame _ _ _ IHe _ _ _ _ H2 o We); contradiction.
        -- destruct (frame _ _ _ IHe _ _ _ _ H1 o We); contradiction.
        -- destruct (frame _ _ _ Wr1 _ _ _ _ H2 o T2); contradiction.
    + intros p; unfold Rd, asgOpNode, opNode; cbn [uses ref]; repeat rewrite ?cov_use, ?cov_union; rewrite !orb_true_iff; tauto.
    + auto.
  - (* Pre *)
    intros l IHl C M; rewrite msg_pre in M; destruct (IHl C M) as [Wl Tl]; rewrite node_pre.
    apply wb_mapr; eapply wb_storing with (W := Wr (nodeL l)).
    + eapply wb_reading; [exact Wl | |].
      * intros p H; unfold Rd, incNode; cbn [uses ref]; rewrite cov_use, H; reflexivity.
      * intros s o s' d H; destruct (Tl _ _ _ _ H) as [T1 T2]; split; [| exact T2].
        unfold Rd, incNode; cbn [uses ref]; rewrite cov_use, T1, orb_true_r; reflexivity.
    + intros p H; unfold Wr, incNode in *; cbn [sets]; rewrite cov_set, H; reflexivity.
    + intros s [o v] s' d [H _]; cbn [fst] in *; destruct (Tl _ _ _ _ H) as [T1 T2].
      split; [unfold Wr, incNode; cbn [sets]; rewrite cov_set, T1, orb_true_r; reflexivity | apply (frame _ _ _ Wl _ _ _ _ H o T2)].
  - (* Post *)
    intros l IHl C M; rewrite msg_post in M; destruct (IHl C M) as [Wl Tl]; rewrite node_post.
    apply wb_mapr; eapply wb_storing with (W := Wr (nodeL l)).
    + eapply wb_reading; [exact Wl | |].
      * intros p H; unfold Rd, incNode; cbn [uses ref]; rewrite cov_use, H; reflexivity.
      * intros s o s' d H; destruct (Tl _ _ _ _ H) as [T1 T2]; split; [| exact T2].
        unfold Rd, incNode; cbn [uses ref]; rewrite cov_use, T1, orb_true_r; reflexivity.
    + intros p H; unfold Wr, incNode in *; cbn [sets]; rewrite cov_set, H; reflexivity.
    + intros s [o v] s' d [H _]; cbn [fst] in *; destruct (Tl _ _ _ _ H) as [T1 T2].
      split; [unfold Wr, incNode; cbn [sets]; rewrite cov_set, T1, orb_true_r; reflexivity | apply (frame _ _ _ Wl _ _ _ _ H o T2)].
  - (* Call *)
    intros f args IH C M.
    destruct (careful_call decl f args C) as (Ca & Cm & _).
    rewrite msg_call in M; apply app_eq_nil in M; destruct M as [Ma Ms].
    specialize (IH Ca Ma (seq_silent _ _ _ _ Ms)).
    eapply wb_weaken; [eapply wb_after with (R2 := Rd (nodeE (Call f args))) (W2 := Wr (nodeE (Call f args))); [exact IH |] | |].
    + intros vs; split.
      * intros s v s' d (-> & -> & ->) o Ho; split; [| intros []].
        unfold stored; destruct (snd (body f args vs s) o) as [w|] eqn:Ew; [| reflexivity].
        destruct (Honest f args vs s) as [H _]; specialize (H o w Ew).
        rewrite (call_writes _ _ _ uncon _ _ _ C H) in Ho; discriminate.
      * intros sa sb xa xb sa' sb' da db H (-> & -> & ->) (-> & -> & ->).
        destruct (Honest f args vs sa) as [_ K]; destruct (K sb) as [K1 K2].
        { intros o Ho; apply H; apply call_reads; auto. }
        split; [exact K1 |]; intros o; unfold flush; cbn [fold_left]; unfold stored; rewrite K2.
        destruct (snd (body f args vs sb) o); auto.
    + intros o Ho; apply orb_true_iff in Ho; destruct Ho as [Ho | Ho]; [| exact Ho].
      unfold Rds in Ho; apply existsb_exists in Ho; destruct Ho as (n & Hn & U).
      rewrite node_call; unfold Rd; apply orb_l; eapply call_rd_args; eauto.
    + intros o Ho; apply orb_true_iff in Ho; destruct Ho as [Ho | Ho]; [| exact Ho].
      unfold Wrs in Ho; apply existsb_exists in Ho; destruct Ho as (n & Hn & U).
      rewrite node_call; eapply call_wr_args; eauto.
  - intros x _ _; split; [apply wb_give |].
    intros s o s' d (-> & _); split; [cbn; apply Nat.eqb_refl | reflexivity].
  - (* LF *)
    intros b i IH C M; rewrite careful_lf, !andb_true_iff, negb_true_iff in C; destruct C as [[C N] S].
    rewrite msg_lf in M; specialize (IH C M); rewrite node_lf; split.
    + apply wb_mapr; eapply wb_weaken; [exact IH | | auto].
      intros p H; unfold Rd in *; cbn [fetchNode uses]; rewrite cov_insert, cov_use, H; reflexivity.
    + intros s o s' d (k & R & ->); exact (subscript_ev b i s k s' d N S R).
  - intros _ _ _; apply wb_give.
  - (* ECons *)
    intros e IHe r IHr C M P.
    change (careful decl e && carefuls decl r = true) in C; apply andb_true_iff in C; destruct C as [Ce Cr].
    rewrite msgs_cons in M; apply app_eq_nil in M; destruct M as [Me Mr].
    rewrite nodes_cons in P; rewrite nodes_cons; cbn [map pairwise] in *; destruct P as [P1 P2].
    assert (forall o, Rd (nodeE e) o = cov (uses (argNode (nodeE e))) o) as RE
      by (intros o; unfold Rd, argNode; cbn [uses]; rewrite cov_use; reflexivity).
    apply wb_mapr; eapply wb_weaken; [eapply wb_either; [exact (IHe Ce Me) | exact (IHr Cr Mr P2) | |] | |].
    + intros o W; split; apply not_true; intros X; apply existsb_exists in X; destruct X as (n & Hn & X);
        destruct (P1 n Hn) as [P3 _]; destruct (P3 o W) as [A B]; congruence.
    + intros o W; apply existsb_exists in W; destruct W as (n & Hn & W); destruct (P1 n Hn) as [_ P3].
      destruct (P3 o W) as [A _]; rewrite RE; exact A.
    + intros o; cbn [Rds existsb]; rewrite RE; auto.
    + auto.
Qed.

Theorem order_does_not_matter : forall e s v t v' t',
  careful decl e = true -> messages glob_var glob_arr decl uncon e = [] ->
  outcome unother binother addr body s e v t -> outcome unother binother addr body s e v' t' ->
  v = v' /\ forall o, t o = t' o.
Proof.
  intros e s v t v' t' C M (s1 & d1 & E1 & ->) (s2 & d2 & E2 & ->).
  destruct (det _ _ _ (proj1 order_free e C M) s s v v' s1 s2 d1 d2) as [-> E]; auto.
  split; [reflexivity |]; intros o; destruct (E o) as [Q | [Q1 Q2]]; congruence.
Qed.
End Ev.
