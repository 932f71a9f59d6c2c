(** Completeness of the table of aliases for disciplined code, and uses of released storage. *)
From Verif Require Import Cbase Own_model Own_spec Own_proofs.
From Coq Require Import List Arith Bool Lia.
Import ListNotations.
Open Scope nat_scope.

(** ** Disciplined code *)
Lemma invariant_disciplined (I : state -> cstate -> (var -> bool) -> Prop) :
  I start cstart (fun _ => true) ->
  (forall s c u o, I s c u -> may_copy u o = true -> I (step s o) (cstep c o) (note c u o)) ->
  forall p, disciplined p -> exists u, I (run p) (crun p) u.
Proof.
  intros H0 HS p D; unfold disciplined in D; unfold run, crun.
  assert (G : forall p s c u, I s c u -> disciplined_from c u p = true ->
              exists u', I (fold_left step p s) (fold_left cstep p c) u').
  { clear - HS; induction p as [| o p IH]; intros s c u H D; cbn [fold_left].
    - exists u; exact H.
    - cbn [disciplined_from] in D; apply andb_true_iff in D; destruct D as [D1 D2].
      apply (IH _ _ (note c u o)); [apply HS; assumption | exact D2]. }
  apply (G p _ _ _ H0 D).
Qed.

Definition complete (s : state) (c : cstate) (u : var -> bool) : Prop :=
  (forall v w, u v = true -> w <> v -> same c v w -> In w (canAlias (al s) v)) /\
  (forall v w, v <> w -> same c v w -> known s v w).

Lemma same_b_spec c v y : same_b c v y = true <-> same c v y.
Proof.
  unfold same_b, same; destruct (env c v) as [a |]; destruct (env c y) as [b |].
  - rewrite Nat.eqb_eq; split; [intros ->; exists b; tauto | intros [z [E1 E2]]; congruence].
  - split; [discriminate | intros [z [E1 E2]]; discriminate].
  - split; [discriminate | intros [z [E1 E2]]; discriminate].
  - split; [discriminate | intros [z [E1 E2]]; discriminate].
Qed.
Lemma same_sym c v w : same c v w -> same c w v.
Proof. intros [b [H1 H2]]; exists b; tauto. Qed.

Lemma complete_step_weak s c u o :
  (forall v b, env c v = Some b -> b < next c) ->
  complete s c u -> may_copy u o = true -> complete (step s o) (cstep c o) (note c u o).
Proof.
  intros HB [K1 K2] M.
  destruct o as [x | x y | x | x].
  - (* new *)
    assert (E : forall v, env (cstep c (New x)) v = if Nat.eqb v x then Some (next c) else env c v)
      by (intros v; rewrite cstep_env; reflexivity).
    assert (S1 : forall v w, v <> w -> same (cstep c (New x)) v w -> v <> x /\ w <> x /\ same c v w).
    { intros v w N [b [E1 E2]]; rewrite E in E1, E2; destruct (Nat.eqb_spec v x); destruct (Nat.eqb_spec w x); subst.
      - congruence.
      - injection E1 as <-; apply HB in E2; lia.
      - injection E2 as <-; apply HB in E1; lia.
      - repeat split; [assumption | assumption | exists b; tauto]. }
    split.
    + intros v w Hu N S; apply S1 in S; [| congruence]; destruct S as [N1 [N2 S]].
      rewrite step_al; cbn [table_step]; rewrite canAlias_clear; repeat split; try assumption.
      apply K1; [| assumption | assumption]; cbn [note] in Hu.
      destruct (Nat.eqb_spec v x); [congruence | exact Hu].
    + intros v w N S; apply S1 in S; [| exact N]; destruct S as [N1 [N2 S]].
      destruct (K2 v w N S) as [K | K]; [left | right]; rewrite step_al; cbn [table_step]; rewrite canAlias_clear; tauto.
  - (* copy *)
    cbn [may_copy] in M; apply andb_true_iff in M; destruct M as [M Uy].
    apply negb_true_iff, Nat.eqb_neq in M.
    assert (E : forall v, env (cstep c (Copy x y)) v = if Nat.eqb v x then env c y else env c v)
      by (intros v; rewrite cstep_env; reflexivity).
    assert (T : forall v w, In w (canAlias (al (step s (Copy x y))) v) <->
       (v <> x /\ w <> x /\ In w (canAlias (al s) v)) \/
       (v = x /\ (w = y \/ (y <> x /\ In w (canAlias (al s) y) /\ w <> x))) \/
       (v = y /\ (w = x \/ (w <> y /\ (w = y \/ (y <> x /\ In w (canAlias (al s) y) /\ w <> x)))))).
    { intros v w; rewrite step_al; cbn [table_step]; unfold addAlias.
      destruct (Nat.eqb_spec x y); [congruence |].
      rewrite !in_addMust, !canAlias_clear; intuition congruence. }
    assert (Kx : forall w, w <> x -> same (cstep c (Copy x y)) x w -> w = y \/ In w (canAlias (al s) y)).
    { intros w N [b [E1 E2]]; rewrite E in E1, E2; rewrite Nat.eqb_refl in E1.
      destruct (Nat.eqb_spec w x); [congruence |].
      destruct (Nat.eq_dec w y); [left; assumption | right; apply K1; [exact Uy | assumption | exists b; tauto]]. }
    assert (Ky : forall w, w <> x -> w <> y -> same (cstep c (Copy x y)) y w -> In w (canAlias (al s) y)).
    { intros w N N2 [b [E1 E2]]; rewrite E in E1, E2.
      destruct (Nat.eqb_spec y x); [congruence |]; destruct (Nat.eqb_spec w x); [congruence |].
      apply K1; [exact Uy | assumption | exists b; tauto]. }
    assert (S0 : forall v w, v <> x -> w <> x -> same (cstep c (Copy x y)) v w -> same c v w).
    { intros v w N1 N2 [b [E1 E2]]; rewrite E in E1, E2.
      destruct (Nat.eqb_spec v x); [congruence |]; destruct (Nat.eqb_spec w x); [congruence |]; exists b; tauto. }
    split.
    + intros v w Hu N S; apply T.
      destruct (Nat.eq_dec v x) as [-> | Nx].
      { right; left; split; [reflexivity |]; destruct (Kx w N S); [left; assumption | right; repeat split; [congruence | assumption | assumption]]. }
      destruct (Nat.eq_dec v y) as [-> | Ny].
      { right; right; split; [reflexivity |]; destruct (Nat.eq_dec w x); [left; assumption |].
        right; split; [assumption |]; right; repeat split; [assumption | apply Ky; assumption | assumption]. }
      cbn [note] in Hu; destruct (Nat.eqb_spec v x); [congruence |]; destruct (Nat.eqb_spec v y); [congruence |].
      cbn [orb] in Hu; apply andb_true_iff in Hu; destruct Hu as [NS Hu].
      apply negb_true_iff in NS.
      destruct (Nat.eq_dec w x) as [-> | Nw].
      { exfalso; destruct S as [b [E1 E2]]; rewrite E in E1, E2; rewrite Nat.eqb_refl in E2.
        destruct (Nat.eqb_spec v x); [congruence |].
        assert (X : same_b c v y = true) by (apply same_b_spec; exists b; tauto); congruence. }
      left; repeat split; [assumption | assumption |]; apply K1; [assumption | assumption | apply S0; assumption].
    + intros v w N S; unfold known; rewrite !T.
      destruct (Nat.eq_dec v x) as [-> | Nx].
      { left; right; left; split; [reflexivity |]; destruct (Kx w (fun e => N (eq_sym e)) S);
          [left; assumption | right; repeat split; [congruence | assumption | congruence]]. }
      destruct (Nat.eq_dec w x) as [-> | Nw].
      { right; right; left; split; [reflexivity |]; destruct (Kx v N (same_sym _ _ _ S));
          [left; assumption | right; repeat split; [congruence | assumption | congruence]]. }
      destruct (K2 v w N (S0 v w Nx Nw S)) as [K | K]; [left | right]; left; repeat split; assumption.
  - (* release *)
    assert (E : forall v, env (cstep c (Release x)) v = env c v) by (intros v; rewrite cstep_env; reflexivity).
    split.
    + intros v w Hu N [b [E1 E2]]; rewrite E in E1, E2; rewrite step_al; apply K1; [exact Hu | exact N | exists b; tauto].
    + intros v w N [b [E1 E2]]; rewrite E in E1, E2; unfold known; rewrite step_al; apply K2; [exact N | exists b; tauto].
  - (* use *)
    assert (E : forall v, env (cstep c (Use x)) v = env c v) by (intros v; rewrite cstep_env; reflexivity).
    split.
    + intros v w Hu N [b [E1 E2]]; rewrite E in E1, E2; rewrite step_al; apply K1; [exact Hu | exact N | exists b; tauto].
    + intros v w N [b [E1 E2]]; rewrite E in E1, E2; unfold known; rewrite step_al; apply K2; [exact N | exists b; tauto].
Qed.

Lemma complete_step s c u o :
  holds s c -> complete s c u -> may_copy u o = true -> complete (step s o) (cstep c o) (note c u o).
Proof. intros [_ [_ HB]]; apply complete_step_weak; exact HB. Qed.

Lemma complete_start : complete start cstart (fun _ => true).
Proof. split; [intros v w _ _ [b [E _]] | intros v w _ [b [E _]]]; discriminate. Qed.
Lemma holds_start : holds start cstart.
Proof. split; [constructor | split]; [intros v w [] | intros v b E; discriminate]. Qed.

(** ** Two variables *)
Lemma two_disciplined a b p :
  (forall x, In x (vars p) -> x = a \/ x = b) -> no_self_copy p -> disciplined p.
Proof.
  unfold disciplined; generalize cstart.
  assert (G : forall c u, (forall v, v = a \/ v = b -> u v = true) ->
     (forall x, In x (vars p) -> x = a \/ x = b) -> no_self_copy p -> disciplined_from c u p = true).
  { induction p as [| o p IH]; intros c u Hu HV NS; cbn [disciplined_from]; [reflexivity |].
    assert (HV' : forall x, In x (vars p) -> x = a \/ x = b).
    { intros x I; apply HV; unfold vars; cbn [flat_map]; apply in_or_app; right; exact I. }
    assert (NS' : no_self_copy p) by (intros x I; apply (NS x); right; exact I).
    assert (HO : forall x, In x (ovars o) -> x = a \/ x = b).
    { intros x I; apply HV; unfold vars; cbn [flat_map]; apply in_or_app; left; exact I. }
    apply andb_true_iff; split.
    - destruct o as [x | x y | x | x]; try reflexivity; cbn [may_copy].
      rewrite (Hu y); [| apply HO; right; left; reflexivity].
      destruct (Nat.eqb_spec x y) as [-> | N]; [exfalso; apply (NS y); left; reflexivity | reflexivity].
    - apply IH; [| exact HV' | exact NS'].
      intros v Hv; destruct o as [x | x y | x | x]; cbn [note]; try (apply Hu; exact Hv).
      + rewrite (Hu v Hv); apply orb_true_r.
      + destruct (Nat.eqb_spec v x) as [-> | N1]; [reflexivity |].
        destruct (Nat.eqb_spec v y) as [-> | N2]; [reflexivity |].
        exfalso.
        assert (X1 : x = a \/ x = b) by (apply HO; left; reflexivity).
        assert (X2 : y = a \/ y = b) by (apply HO; right; left; reflexivity).
        destruct (Nat.eq_dec x y) as [-> | N3]; [apply (NS y); left; reflexivity |].
        destruct Hv, X1, X2; congruence. }
  intros c HV NS; apply G; [reflexivity | exact HV | exact NS].
Qed.

(** ** States of definition after a step *)
Lemma checkUse_dst s x v : dst (checkUse s x) v = fset (dst s) x DDef v \/ (dst s x = DDef /\ checkUse s x = s).
Proof.
  unfold checkUse; destruct (dst s x) eqn:E; [left; reflexivity | right; tauto | left; reflexivity | left; reflexivity].
Qed.
Lemma checkUse_def s x v : dst (checkUse s x) v = if Nat.eqb v x then DDef else dst s v.
Proof.
  unfold checkUse; destruct (dst s x) eqn:E; cbn [setDst say dst fset]; try reflexivity.
  destruct (Nat.eqb_spec v x); [subst; exact E | reflexivity].
Qed.
Lemma dependentReference_in s x r : dependentReference s x = Some r -> In r (aliasedBy (al s) x).
Proof.
  unfold dependentReference; destruct (find _ _) as [c |] eqn:F.
  - intros E; injection E as ->; apply find_some in F; apply F.
  - destruct (aliasedBy (al s) x) as [| c l]; [discriminate |]; intros E; injection E as ->; left; reflexivity.
Qed.
Lemma passDependent_dst s x v :
  NoDup (keys (al s)) ->
  dst (passDependent s x) v = dst s v \/ (dst (passDependent s x) v = DDead /\ In v (x :: allAliases (al s) x)).
Proof.
  intros ND; unfold passDependent, canLose.
  destruct (dependentReference s x) as [r |] eqn:E.
  - assert (R : In r (allAliases (al s) x)).
    { apply in_allAliases; [exact ND |]; left; apply in_aliasedBy; [exact ND | apply dependentReference_in; exact E]. }
    cbn [kill setDst setAk al]; destruct (aliasedBy (al s) x); cbn [setAk setDst kill dst];
      unfold fset; destruct (Nat.eqb_spec v x) as [-> | N]; try (right; split; [reflexivity | left; reflexivity]);
      destruct (Nat.eqb_spec v r) as [-> | N2]; try (right; split; [reflexivity | right; exact R]); left; reflexivity.
  - destruct (aliasedBy (al s) x); left; reflexivity.
Qed.
Lemma release_dst s x v :
  NoDup (keys (al s)) ->
  dst (release s x) v = if mem v (x :: allAliases (al s) x) then DDead else dst s v.
Proof.
  intros ND; unfold release, killComplete.
  rewrite (proj1 (proj2 (proj2 (fold_kill _ _)))).
  assert (EA : al (match ak (checkUse s x) x with KDep => passDependent (checkUse s x) x | KUnknown => say (checkUse s x) (MUnqual x) | _ => checkUse s x end) = al s).
  { destruct (ak _ x); cbn [say al]; rewrite ?passDependent_al, ?checkUse_al; reflexivity. }
  rewrite EA; destruct (mem v (x :: allAliases (al s) x)) eqn:M; [reflexivity |].
  assert (NI : ~ In v (x :: allAliases (al s) x)) by (rewrite <- mem_in, M; discriminate).
  assert (NX : v <> x) by (intros ->; apply NI; left; reflexivity).
  assert (D0 : dst (checkUse s x) v = dst s v).
  { rewrite checkUse_def; destruct (Nat.eqb_spec v x); [congruence | reflexivity]. }
  destruct (ak _ x); try exact D0.
  destruct (passDependent_dst (checkUse s x) x v) as [E | [_ I]]; [rewrite checkUse_al; exact ND | congruence |].
  rewrite checkUse_al in I; tauto.
Qed.
Lemma step_dst s o v :
  NoDup (keys (al s)) ->
  dst (step s o) v = match o with
    | New x => if Nat.eqb v x then DDef else dst s v
    | Copy x y => if Nat.eqb v x then DDef else if Nat.eqb v y then DDef else dst s v
    | Release x => if mem v (x :: allAliases (al s) x) then DDead else dst s v
    | Use x => if Nat.eqb v x then DDef else dst s v
    end.
Proof.
  intros ND; destruct o as [x | x y | x | x]; cbn [step].
  - unfold assignNew; cbn [setAl setDst setAk dst]; unfold fset; rewrite lose_dst; reflexivity.
  - unfold assignCopy; destruct (Nat.eqb_spec x y) as [-> | N].
    + cbn [setAl dst]; rewrite checkUse_def; destruct (Nat.eqb v y); reflexivity.
    + cbn [setAl setDst setAk dst]; unfold fset at 1; destruct (Nat.eqb_spec v x) as [-> | N2]; [reflexivity |].
      rewrite transfer_dst; cbn [setDst setAk dst]; rewrite fset_other by exact N2.
      rewrite lose_dst, checkUse_def; reflexivity.
  - apply release_dst; exact ND.
  - rewrite checkUse_def; reflexivity.
Qed.

Lemma step_useable s o :
  NoDup (keys (al s)) -> (forall v, dst s v <> DUnuse) -> forall v, dst (step s o) v <> DUnuse.
Proof.
  intros ND H v; rewrite (step_dst _ _ _ ND); destruct o as [x | x y | x | x];
    repeat match goal with |- context [if ?b then _ else _] => destruct b end; try discriminate; apply H.
Qed.

(** ** Messages about uses *)
Definition use_msg (s : state) (x : var) : list msg :=
  match dst s x with DDef => [] | DUndef => [MUndef x] | DDead => [MReleased x] | DUnuse => [MUnuse x] end.
Lemma checkUse_out s x : out (checkUse s x) = out s ++ use_msg s x.
Proof. unfold checkUse, use_msg; destruct (dst s x); cbn; rewrite ?app_nil_r; reflexivity. Qed.
Lemma lose_out s x : out (lose s x) = out s \/ out (lose s x) = out s ++ [MLeak x].
Proof. unfold lose, canLose; destruct (_ && _); [destruct (aliasedBy _ _) |]; cbn; tauto. Qed.
Lemma passDependent_out s x :
  out (passDependent s x) = out s \/ (out (passDependent s x) = out s ++ [MDependent x] /\ aliasedBy (al s) x = []).
Proof.
  unfold passDependent, canLose, dependentReference.
  destruct (find _ _) as [r |] eqn:F.
  - cbn [kill setDst setAk al]; destruct (aliasedBy (al s) x); left; reflexivity.
  - destruct (aliasedBy (al s) x) as [| c l] eqn:E; cbn [kill setDst setAk al]; rewrite ?E.
    + right; cbn; tauto.
    + left; reflexivity.
Qed.
(** The variable which a statement reads. *)
Definition reads (o : op) : list var := match o with New _ => [] | Copy _ y => [y] | Release x => [x] | Use x => [x] end.
Lemma filter_use_app l m : filter about_use (l ++ m) = filter about_use l ++ filter about_use m.
Proof. apply filter_app. Qed.
Lemma use_msg_filter s x : filter about_use (use_msg s x) = use_msg s x.
Proof. unfold use_msg; destruct (dst s x); reflexivity. Qed.
Lemma step_use_out s o :
  filter about_use (out (step s o)) = filter about_use (out s) ++ flat_map (use_msg s) (reads o).
Proof.
  destruct o as [x | x y | x | x]; cbn [step reads flat_map]; rewrite ?app_nil_r.
  - unfold assignNew; cbn [setAl setDst setAk out]; destruct (lose_out s x) as [E | E]; rewrite E; [reflexivity |].
    rewrite filter_app; cbn; apply app_nil_r.
  - unfold assignCopy; destruct (Nat.eqb x y).
    + cbn [setAl out]; rewrite checkUse_out, filter_app, use_msg_filter; reflexivity.
    + cbn [setAl setDst out]; rewrite transfer_out; cbn [setDst setAk out].
      destruct (lose_out (checkUse s y) x) as [E | E]; rewrite E, checkUse_out, !filter_app, use_msg_filter; [reflexivity |].
      cbn; apply app_nil_r.
  - unfold release, killComplete; rewrite (proj1 (proj2 (fold_kill _ _))).
    assert (X : out (checkUse s x) = out s ++ use_msg s x) by apply checkUse_out.
    destruct (ak (checkUse s x) x); try (rewrite X, filter_app, use_msg_filter; reflexivity);
      [| cbn [say out]; rewrite X, !filter_app, use_msg_filter; cbn; rewrite app_nil_r; reflexivity].
    destruct (passDependent_out (checkUse s x) x) as [E | [E _]]; rewrite E, X, !filter_app, use_msg_filter; [reflexivity |].
    cbn; apply app_nil_r.
  - rewrite checkUse_out, filter_app, use_msg_filter; reflexivity.
Qed.
Lemma finish_use r d s : filter about_use (out (finish r d s)) = filter about_use (out s).
Proof.
  unfold finish; revert s; induction d as [| x d IH]; intros s; cbn [fold_left]; [reflexivity |].
  rewrite IH; unfold checkFinal, canLose; destruct (_ && _); [| reflexivity].
  destruct r; [cbn [say out]; rewrite filter_app; cbn; apply app_nil_r |].
  destruct (aliasedBy (al s) x); [cbn [say out]; rewrite filter_app; cbn; apply app_nil_r | reflexivity].
Qed.

(** What really goes wrong in a step. *)
Definition use_err (c : cstate) (x : var) : list err :=
  match env c x with None => [EUndef x] | Some b => if freed c b then [EReleased x] else [] end.
Lemma cstep_errs c o : errs (cstep c o) = errs c ++ flat_map (use_err c) (reads o).
Proof.
  assert (H : forall x, errs (cuse c x) = errs c ++ use_err c x).
  { intros x; unfold cuse, use_err; destruct (env c x) as [b |]; [destruct (freed c b) |]; cbn; rewrite ?app_nil_r; reflexivity. }
  destruct o; cbn [cstep errs reads flat_map]; rewrite ?app_nil_r; try apply H; reflexivity.
Qed.

(** ** No false alarms about uses *)
Definition faithful (s : state) (c : cstate) : Prop :=
  (forall v, dst s v = DDead -> exists b, env c v = Some b /\ freed c b = true) /\
  (forall v, dst s v = DUndef -> env c v = None) /\
  (forall v, env c v = None -> dst s v = DUndef) /\
  (forall v, dst s v <> DUnuse).
Lemma use_ok s c x : faithful s c -> use_err c x = [] -> dst s x = DDef /\ exists b, env c x = Some b /\ freed c b = false.
Proof.
  intros [F1 [F2 [F3 F4]]] H; unfold use_err in H; destruct (env c x) as [b |] eqn:E; [| discriminate].
  destruct (freed c b) eqn:F; [discriminate |].
  split; [| exists b; tauto].
  destruct (dst s x) eqn:D; [apply F2 in D; congruence | reflexivity | | destruct (F4 x D)].
  apply F1 in D; destruct D as [b' [E1 E2]]; congruence.
Qed.
Lemma faithful_step s c o :
  holds s c -> faithful s c -> flat_map (use_err c) (reads o) = [] ->
  faithful (step s o) (cstep c o) /\ flat_map (use_msg s) (reads o) = [].
Proof.
  intros [ND [HA HB]] F E.
  assert (D : forall v, In v (reads o) -> dst s v = DDef /\ exists b, env c v = Some b /\ freed c b = false).
  { intros v I; apply (use_ok s c); [exact F |]; destruct o as [x | x y | x | x]; cbn [reads flat_map] in *; rewrite ?app_nil_r in E;
      (destruct I as [<- | []] || destruct I); exact E. }
  destruct F as [F1 [F2 [F3 F4]]]; split; [split; [| split; [| split; [| apply step_useable; assumption]]] |].
  - intros v; rewrite (step_dst _ _ _ ND), cstep_env; setoid_rewrite cstep_freed.
    destruct o as [x | x y | x | x]; cbn [env_step reads] in *.
    + destruct (Nat.eqb v x); [discriminate | apply F1].
    + destruct (Nat.eqb v x); [discriminate |]; destruct (Nat.eqb v y); [discriminate | apply F1].
    + destruct (D x (or_introl eq_refl)) as [_ [bx [Ex _]]]; rewrite Ex.
      destruct (mem v (x :: allAliases (al s) x)) eqn:M.
      * intros _; exists bx; rewrite Nat.eqb_refl; split; [| reflexivity].
        apply mem_in in M; destruct M as [<- | M]; [exact Ex |].
        apply in_allAliases in M; [| exact ND]; rewrite <- Ex; destruct M as [[_ M] | M]; [apply HA; exact M | symmetry; apply HA; exact M].
      * intros Hd; apply F1 in Hd; destruct Hd as [b [E1 E2]]; exists b; split; [exact E1 | rewrite E2; apply orb_true_r].
    + destruct (Nat.eqb v x); [discriminate | apply F1].
  - intros v; rewrite (step_dst _ _ _ ND), cstep_env.
    destruct o as [x | x y | x | x]; cbn [env_step].
    + destruct (Nat.eqb v x); [discriminate | apply F2].
    + destruct (Nat.eqb v x); [discriminate |]; destruct (Nat.eqb v y); [discriminate | apply F2].
    + destruct (mem v _); [discriminate | apply F2].
    + destruct (Nat.eqb v x); [discriminate | apply F2].
  - intros v; rewrite (step_dst _ _ _ ND), cstep_env.
    destruct o as [x | x y | x | x]; cbn [env_step reads] in *.
    + destruct (Nat.eqb v x); [discriminate | apply F3].
    + destruct (D y (or_introl eq_refl)) as [_ [b [Ey _]]].
      destruct (Nat.eqb_spec v x); [congruence |]; destruct (Nat.eqb_spec v y); [congruence | apply F3].
    + destruct (D x (or_introl eq_refl)) as [_ [bx [Ex _]]].
      destruct (mem v (x :: allAliases (al s) x)) eqn:M; [| apply F3].
      intros En; exfalso; apply mem_in in M; destruct M as [<- | M]; [congruence |].
      apply in_allAliases in M; [| exact ND]; destruct M as [[_ M] | M]; apply HA in M; congruence.
    + destruct (D x (or_introl eq_refl)) as [_ [b [Ex _]]]; destruct (Nat.eqb_spec v x); [congruence | apply F3].
  - destruct o as [x | x y | x | x]; cbn [reads flat_map] in *; [reflexivity | | |];
      unfold use_msg; destruct (D _ (or_introl eq_refl)) as [-> _]; reflexivity.
Qed.
Lemma faithful_start : faithful start cstart.
Proof. split; [intros v H; discriminate | split; [| split]; try reflexivity]; intros v H; discriminate. Qed.
Lemma app_nil_both {A} (a b : list A) : a ++ b = [] -> a = [] /\ b = [].
Proof. destruct a; [tauto | discriminate]. Qed.

Lemma no_false_use p : correct p -> filter about_use (out (run p)) = [] /\ faithful (run p) (crun p).
Proof.
  unfold correct.
  assert (G : holds (run p) (crun p) /\
              (errs (crun p) = [] -> filter about_use (out (run p)) = [] /\ faithful (run p) (crun p))).
  { apply (invariant_both (fun s c => holds s c /\ (errs c = [] -> filter about_use (out s) = [] /\ faithful s c))).
    - split; [exact holds_start | intros _; split; [reflexivity | exact faithful_start]].
    - intros s c o [H I]; split; [apply holds_step; exact H |]; rewrite cstep_errs; intros E.
      apply app_nil_both in E; destruct E as [E1 E2].
      destruct (I E1) as [M F]; destruct (faithful_step s c o H F E2) as [F' M'].
      split; [rewrite step_use_out, M, M'; reflexivity | exact F']. }
  intros E; apply G, E.
Qed.

(** ** Uses of released storage are reported *)
Definition watched (s : state) (c : cstate) : Prop :=
  (forall v b, env c v = Some b -> freed c b = true -> dst s v = DDead) /\
  (forall v, env c v = None -> dst s v = DUndef) /\
  (forall b, freed c b = true -> b < next c).
Lemma watched_use s c x : watched s c -> use_msg s x = [] -> use_err c x = [] /\ exists b, env c x = Some b.
Proof.
  intros [W1 [W2 _]] H; unfold use_msg in H; destruct (dst s x) eqn:D; [discriminate | | discriminate | discriminate].
  unfold use_err; destruct (env c x) as [b |] eqn:E; [| apply W2 in E; congruence].
  destruct (freed c b) eqn:F; [rewrite (W1 _ _ E F) in D; discriminate | split; [reflexivity | exists b; reflexivity]].
Qed.
Lemma watched_step s c u o :
  holds s c -> complete s c u -> watched s c -> flat_map (use_msg s) (reads o) = [] ->
  watched (step s o) (cstep c o) /\ flat_map (use_err c) (reads o) = [].
Proof.
  intros [ND [HA HB]] [K1 K2] W E.
  assert (D : forall v, In v (reads o) -> use_err c v = [] /\ exists b, env c v = Some b).
  { intros v I; apply (watched_use s c); [exact W |]; destruct o as [x | x y | x | x]; cbn [reads flat_map] in *; rewrite ?app_nil_r in E;
      (destruct I as [<- | []] || destruct I); exact E. }
  assert (NF : forall v b, In v (reads o) -> env c v = Some b -> freed c b = false).
  { intros v b I Eb; destruct (D v I) as [U _]; unfold use_err in U; rewrite Eb in U; destruct (freed c b); [discriminate | reflexivity]. }
  destruct W as [W1 [W2 W3]]; split; [split; [| split] |].
  - intros v b; rewrite (step_dst _ _ _ ND), cstep_env, cstep_freed.
    destruct o as [x | x y | x | x]; cbn [env_step reads] in *.
    + destruct (Nat.eqb_spec v x) as [-> | N]; [| apply W1].
      intros Eb Fb; exfalso; injection Eb as <-; apply W3 in Fb; lia.
    + destruct (Nat.eqb_spec v x) as [-> | N].
      * intros Eb Fb; rewrite (NF y b (or_introl eq_refl) Eb) in Fb; discriminate.
      * destruct (Nat.eqb_spec v y) as [-> | N2]; [| apply W1].
        intros Eb Fb; rewrite (NF y b (or_introl eq_refl) Eb) in Fb; discriminate.
    + destruct (D x (or_introl eq_refl)) as [_ [bx Ex]]; rewrite Ex.
      intros Eb Fb; destruct (mem v (x :: allAliases (al s) x)) eqn:M; [reflexivity |].
      apply orb_true_iff in Fb; destruct Fb as [Fb | Fb]; [| apply (W1 v b); assumption].
      apply Nat.eqb_eq in Fb; subst b; exfalso.
      assert (NI : ~ In v (x :: allAliases (al s) x)) by (rewrite <- mem_in, M; discriminate).
      apply NI; destruct (Nat.eq_dec v x) as [-> | N]; [left; reflexivity | right].
      apply in_allAliases; [exact ND |].
      destruct (K2 v x N) as [K | K]; [exists bx; tauto | left; tauto | right; exact K].
    + destruct (Nat.eqb_spec v x) as [-> | N]; [| apply W1].
      intros Eb Fb; rewrite (NF x b (or_introl eq_refl) Eb) in Fb; discriminate.
  - intros v; rewrite (step_dst _ _ _ ND), cstep_env.
    destruct o as [x | x y | x | x]; cbn [env_step reads] in *.
    + destruct (Nat.eqb v x); [discriminate | apply W2].
    + destruct (D y (or_introl eq_refl)) as [_ [b Ey]].
      destruct (Nat.eqb_spec v x); [congruence |]; destruct (Nat.eqb_spec v y); [congruence | apply W2].
    + destruct (D x (or_introl eq_refl)) as [_ [bx Ex]].
      destruct (mem v (x :: allAliases (al s) x)) eqn:M; [| apply W2].
      intros En; exfalso; apply mem_in in M; destruct M as [<- | M]; [congruence |].
      apply in_allAliases in M; [| exact ND]; destruct M as [[_ M] | M]; apply HA in M; congruence.
    + destruct (D x (or_introl eq_refl)) as [_ [b Ex]]; destruct (Nat.eqb_spec v x); [congruence | apply W2].
  - intros b; rewrite cstep_freed, cstep_next; destruct o as [x | x y | x | x]; try apply W3.
    + intros Fb; apply W3 in Fb; lia.
    + destruct (env c x) as [bx |] eqn:Ex; [| apply W3].
      intros Fb; apply orb_true_iff in Fb; destruct Fb as [Fb | Fb]; [| apply W3; exact Fb].
      apply Nat.eqb_eq in Fb; subst; apply HB in Ex; exact Ex.
  - destruct o as [x | x y | x | x]; cbn [reads flat_map] in *; [reflexivity | | |];
      rewrite (proj1 (D _ (or_introl eq_refl))); reflexivity.
Qed.
Lemma watched_start : watched start cstart.
Proof. split; [intros v b H; discriminate | split; [reflexivity | intros b H; discriminate]]. Qed.

Lemma uses_reported p :
  disciplined p -> filter about_use (out (run p)) = [] ->
  correct p /\ watched (run p) (crun p) /\ exists u, complete (run p) (crun p) u.
Proof.
  intros D.
  destruct (invariant_disciplined (fun s c u => holds s c /\ complete s c u /\
     (filter about_use (out s) = [] -> errs c = [] /\ watched s c))) with (p := p) as [u [H [K I]]].
  - split; [exact holds_start | split; [exact complete_start |]]; intros _; split; [reflexivity | exact watched_start].
  - intros s c u o [H [K I]] M; split; [apply holds_step; exact H | split; [apply complete_step; assumption |]].
    rewrite step_use_out; intros E; apply app_nil_both in E; destruct E as [E1 E2].
    destruct (I E1) as [C W]; destruct (watched_step s c u o H K W E2) as [W' E'].
    split; [rewrite cstep_errs, C, E'; reflexivity | exact W'].
  - exact D.
  - intros E; destruct (I E) as [C W]; repeat split; [exact C | apply W | apply W | apply W | exists u; exact K].
Qed.
