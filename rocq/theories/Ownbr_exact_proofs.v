(** Programs which copy no variables: loops, and when nothing at all is said. *)
From Verif Require Import Cbase Own_model Own_spec Own_proofs Own_use_proofs Own_leak_proofs
  Ownbr_model Ownbr_spec Ownbr_proofs.
From Coq Require Import List Arith Bool Lia.
Import ListNotations.
Open Scope nat_scope.

Definition Live : vst := (DDef, KFresh).
Definition Gone : vst := (DDead, KLocal).
Definition two (a : vst) : Prop := a = Live \/ a = Gone.
Definition plain (o : op) : Prop := match o with Copy _ _ => False | _ => True end.

Lemma state_eq s t v w : stateOf s v = stateOf t w -> dst s v = dst t w /\ ak s v = ak t w.
Proof. unfold stateOf; intros E; split; [exact (f_equal fst E) | exact (f_equal snd E)]. Qed.
Lemma state_is s v d k : stateOf s v = (d, k) -> dst s v = d /\ ak s v = k.
Proof. unfold stateOf; intros E; split; [exact (f_equal fst E) | exact (f_equal snd E)]. Qed.

(** ** Statements, without aliases *)
Lemma new_state s x v : al s = [] -> stateOf (step s (New x)) v = if Nat.eqb v x then Live else stateOf s v.
Proof.
  intros A; unfold stateOf; cbn [step]; unfold assignNew, lose, canLose; rewrite A; cbn [aliasedBy map filter].
  destruct (_ && _); cbn [setAl setDst setAk say dst ak]; unfold fset; destruct (Nat.eqb v x); reflexivity.
Qed.
Lemma new_out s x : al s = [] -> out (step s (New x)) = out s ++
  (if owner (ak s x) && match dst s x with DDef => true | _ => false end then [MLeak x] else []).
Proof.
  intros A; cbn [step]; unfold assignNew, lose, canLose; rewrite A; cbn [aliasedBy map filter].
  destruct (_ && _); cbn; rewrite ?app_nil_r; reflexivity.
Qed.
Lemma release_live s x : al s = [] -> dst s x = DDef -> ak s x = KFresh -> release s x = kill s x.
Proof.
  intros A D K; unfold release, checkUse; rewrite D, K; unfold killComplete, allAliases; rewrite A; reflexivity.
Qed.
Lemma kill_state s x v : stateOf (kill s x) v = if Nat.eqb v x then Gone else stateOf s v.
Proof. unfold stateOf, kill; cbn [setDst setAk dst ak]; unfold fset; destruct (Nat.eqb v x); reflexivity. Qed.
Lemma step_no_table s o : plain o -> al s = [] -> al (step s o) = [].
Proof. intros P A; rewrite step_al, A; destruct o; [reflexivity | destruct P | reflexivity | reflexivity]. Qed.

Lemma path_ops p q r : path p q r -> forall o, In o q -> In o (ops p).
Proof.
  induction 1; cbn [ops]; intros z J; try (destruct J as [<- | []]); try destruct J; cbn; rewrite ?in_app_iff in *; intuition.
Qed.


Section Exec.
Variable touch : prog -> state -> var -> bool.
Variable decls : list var.
Notation exec := (exec touch decls).

Lemma exec_no_table p s : (forall o, In o (ops p) -> plain o) -> al s = [] -> al (exec p s) = [].
Proof.
  revert s; induction p as [| o | p IHp q IHq | p IHp q IHq | p IHp | p IHp |]; intros s P A; cbn [Ownbr_model.exec ops] in *.
  - exact A.
  - apply step_no_table; [apply P; left; reflexivity | exact A].
  - apply IHq; [intros o I; apply P, in_or_app; auto |]; apply IHp; [intros o I; apply P, in_or_app; auto | exact A].
  - assert (T : al (exec p s) = []) by (apply IHp; [intros o I; apply P, in_or_app; auto | exact A]).
    assert (F : al (exec q (withOut s (out (exec p s)))) = []) by (apply IHq; [intros o I; apply P, in_or_app; auto | exact A]).
    unfold popBranches, meet; destruct (escapes q); [| destruct (escapes p)]; cbn [al]; rewrite T, F; reflexivity.
  - assert (T : al (exec p s) = []) by (apply IHp; assumption).
    unfold popBranches, meet; destruct (escapes p); cbn [al withOut]; rewrite T, A; reflexivity.
  - apply IHp; assumption.
  - rewrite finish_al; exact A.
Qed.

Lemma mergeVar_two a b t f : two t -> two f ->
  (t = f /\ mergeVar a b t f = (t, false)) \/ (t <> f /\ snd (mergeVar a b t f) = true).
Proof.
  intros [-> | ->] [-> | ->]; destruct a, b; cbv; (left; split; [reflexivity | reflexivity]) || (right; split; [discriminate | reflexivity]).
Qed.
Lemma mergeVar_def_fresh a b t f :
  snd (mergeVar a b t f) = false -> fst (fst (mergeVar a b t f)) = DDef ->
  (fst t = DDef -> snd t = KFresh) -> (fst f = DDef -> snd f = KFresh) -> snd (fst (mergeVar a b t f)) = KFresh.
Proof.
  intros S D T F; destruct (mergeVar_def a b t f S D) as [D1 D2].
  destruct t as [td tk], f as [fd fk]; cbn [fst snd] in *; rewrite (T D1), (F D2), D1, D2; destruct a, b; reflexivity.
Qed.
Lemma meet_state a b t f v : stateOf (meet decls a b t f) v = fst (mergeVar (a v) (b v) (stateOf t v) (stateOf f v)).
Proof. unfold stateOf at 1, meet; cbn [dst ak]; symmetry; apply surjective_pairing. Qed.

(** ** Uses (while loops, any beginning) *)
(** Nothing is said about states: what is defined holds storage. *)
Definition sure (s : state) (c : cstate) : Prop :=
  (forall v, In v decls -> dst s v = DDef -> ak s v = KFresh /\ exists b, env c v = Some b /\ freed c b = false) /\
  (forall v w b, env c v = Some b -> env c w = Some b -> v = w) /\
  (forall v b, env c v = Some b -> b < next c) /\
  (forall b, freed c b = true -> b < next c).

Lemma sure_weaken s t c : (forall v, In v decls -> dst t v = DDef -> stateOf s v = stateOf t v) -> sure s c -> sure t c.
Proof.
  intros H [S1 S2]; split; [| exact S2]; intros v I D; specialize (H v I D); unfold stateOf in H; injection H as Hd Hk.
  rewrite <- Hk; apply S1; [exact I | congruence].
Qed.
Lemma sure_step s c o : plain o -> al s = [] -> incl (ovars o) decls ->
  filter about_use (out (step s o)) = [] -> sure s c ->
  sure (step s o) (cstep c o) /\ errs (cstep c o) = errs c.
Proof.
  intros P A I E [S1 [S2 [S3 S4]]].
  assert (R : flat_map (use_msg s) (reads o) = []) by (rewrite step_use_out in E; apply app_nil_both in E; apply E).
  assert (D : forall x, In x (reads o) -> dst s x = DDef).
  { intros x J; assert (X : use_msg s x = []).
    { destruct o; cbn [reads flat_map] in *; try destruct J as [<- | []]; try destruct J; rewrite ?app_nil_r in R; exact R. }
    unfold use_msg in X; destruct (dst s x); try discriminate; reflexivity. }
  assert (L : forall x, In x (reads o) -> ak s x = KFresh /\ exists b, env c x = Some b /\ freed c b = false).
  { intros x J; apply S1; [| apply D, J]; apply I; destruct o; cbn [reads ovars In] in *; tauto. }
  split.
  - split; [| split; [| split]].
    + intros v Iv Dv.
      destruct o as [x | x y | x | x]; [| destruct P | |].
      * pose proof (new_state s x v A) as N.
        rewrite cstep_env; cbn [env_step].
        destruct (Nat.eqb_spec v x) as [-> | Nx].
        -- apply state_is in N; destruct N as [_ N]; split; [exact N |]; exists (next c); split; [reflexivity |]; rewrite cstep_freed.
           destruct (freed c (next c)) eqn:F; [apply S4 in F; lia | reflexivity].
        -- apply state_eq in N; destruct N as [N1 N2]; rewrite N1 in Dv; rewrite N2; destruct (S1 v Iv Dv) as [K [b [B1 B2]]]; split; [exact K |].
           exists b; rewrite cstep_freed; tauto.
      * destruct (L x (or_introl eq_refl)) as [Kx [bx [Ex Fx]]].
        cbn [step] in *; rewrite (release_live s x A (D x (or_introl eq_refl)) Kx) in *.
        pose proof (kill_state s x v) as N.
        destruct (Nat.eqb_spec v x) as [-> | Nx]; [apply state_is in N | apply state_eq in N]; destruct N as [N1 N2]; [congruence |].
        rewrite N1 in Dv; rewrite N2; destruct (S1 v Iv Dv) as [K [b [B1 B2]]]; split; [exact K |].
        exists b; rewrite cstep_env, cstep_freed; cbn [env_step]; split; [exact B1 |]; rewrite Ex, B2.
        destruct (Nat.eqb_spec b bx) as [-> |]; [| reflexivity]; exfalso; apply Nx; exact (S2 _ _ _ B1 Ex).
      * cbn [step] in *; assert (X : checkUse s x = s) by (unfold checkUse; rewrite (D x (or_introl eq_refl)); reflexivity).
        rewrite X in *; destruct (S1 v Iv Dv) as [K [b [B1 B2]]]; split; [exact K |]; exists b; rewrite cstep_env, cstep_freed; tauto.
    + intros v w b; rewrite !cstep_env; destruct o as [x | x y | x | x]; [| destruct P | apply S2 | apply S2]; cbn [env_step].
      destruct (Nat.eqb_spec v x), (Nat.eqb_spec w x); intros E1 E2; subst; try reflexivity;
        [injection E1 as <-; apply S3 in E2; lia | injection E2 as <-; apply S3 in E1; lia | exact (S2 _ _ _ E1 E2)].
    + intros v b; rewrite cstep_env, cstep_next; destruct o as [x | x y | x | x]; [| destruct P | apply S3 | apply S3]; cbn [env_step].
      destruct (Nat.eqb_spec v x); intros E1; [injection E1 as <-; lia | apply S3 in E1; lia].
    + intros b; rewrite cstep_freed, cstep_next; destruct o as [x | x y | x | x]; [| destruct P | | apply S4]; [intros F; apply S4 in F; lia |].
      destruct (env c x) as [b' |] eqn:Ex; [| apply S4]; destruct (Nat.eqb_spec b b') as [-> |]; [intros _; exact (S3 _ _ Ex) | apply S4].
  - rewrite cstep_errs; assert (X : flat_map (use_err c) (reads o) = []); [| rewrite X; apply app_nil_r].
    destruct o as [x | x y | x | x]; cbn [reads flat_map] in *; [reflexivity | destruct P | |];
      destruct (L x (or_introl eq_refl)) as [_ [b [B1 B2]]]; unfold use_err; rewrite B1, B2; reflexivity.
Qed.

(** What is defined remains defined or is released. *)
Definition quiet (s : state) : Prop := filter about_state (out s) = [].
Lemma release_state s x v : al s = [] -> stateOf (release s x) v = if Nat.eqb v x then Gone else stateOf s v.
Proof.
  intros A; assert (N : NoDup (keys (al s))) by (rewrite A; constructor).
  unfold stateOf; rewrite (release_dst _ _ _ N), (release_ak _ _ _ N), A; cbn; rewrite orb_false_r.
  destruct (Nat.eqb v x); reflexivity.
Qed.
Lemma two_step s o v : plain o -> al s = [] -> filter about_use (out (step s o)) = [] -> two (stateOf s v) -> two (stateOf (step s o) v).
Proof.
  intros P A E T; destruct o as [x | x y | x | x]; [| destruct P | |].
  - rewrite (new_state s x v A); destruct (Nat.eqb v x); [left; reflexivity | exact T].
  - cbn [step]; rewrite (release_state s x v A); destruct (Nat.eqb v x); [right; reflexivity | exact T].
  - rewrite step_use_out in E; apply app_nil_both in E; destruct E as [_ E]; cbn [reads flat_map] in E; rewrite app_nil_r in E.
    cbn [step]; unfold use_msg in E; unfold checkUse; destruct (dst s x); try discriminate; exact T.
Qed.
Lemma two_exec p v : (forall o, In o (ops p) -> plain o) -> no_until p = true -> In v decls -> forall s,
  al s = [] -> quiet (exec p s) -> two (stateOf s v) -> two (stateOf (exec p s) v).
Proof.
  intros P U I; induction p as [| o | p IHp q IHq | p IHp q IHq | p IHp | p IHp |]; intros s A Q T; cbn [Ownbr_model.exec ops no_until] in *.
  - exact T.
  - apply two_step; [apply P; left; reflexivity | exact A | apply state_use; exact Q | exact T].
  - apply andb_true_iff in U; destruct U as [U1 U2].
    assert (P1 : forall o, In o (ops p) -> plain o) by (intros o J; apply P, in_or_app; auto).
    assert (P2 : forall o, In o (ops q) -> plain o) by (intros o J; apply P, in_or_app; auto).
    apply (IHq P2 U2); [apply exec_no_table; assumption | exact Q |].
    apply (IHp P1 U1); [exact A | apply exec_quiet in Q; exact Q | exact T].
  - apply andb_true_iff in U; destruct U as [U1 U2].
    assert (P1 : forall o, In o (ops p) -> plain o) by (intros o J; apply P, in_or_app; auto).
    assert (P2 : forall o, In o (ops q) -> plain o) by (intros o J; apply P, in_or_app; auto).
    pose proof (popBranches_quiet _ _ _ _ _ _ _ _ Q) as Q2; pose proof (exec_quiet _ _ _ _ _ Q2) as Q1.
    assert (T1 : two (stateOf (exec p s) v)) by (apply (IHp P1 U1); assumption).
    assert (T2 : two (stateOf (exec q (withOut s (out (exec p s)))) v)) by (apply (IHq P2 U2); assumption).
    unfold popBranches in *; destruct (escapes q); [exact T1 |]; destruct (escapes p); [exact T2 |].
    rewrite meet_state; pose proof (meet_quiet _ _ _ _ _ v Q I) as M.
    destruct (mergeVar_two (touch p s v) (touch q (withOut s (out (exec p s))) v) _ _ T1 T2) as [[_ X] | [_ X]]; [rewrite X; exact T1 | congruence].
  - pose proof (popBranches_quiet _ _ _ _ _ _ _ _ Q) as Q1.
    assert (T1 : two (stateOf (exec p s) v)) by (apply (IHp P U); assumption).
    unfold popBranches in *; destruct (escapes p); [exact T |].
    rewrite meet_state; pose proof (meet_quiet _ _ _ _ _ v Q I) as M.
    assert (T2 : two (stateOf (withOut s (out (exec p s))) v)) by exact T.
    destruct (mergeVar_two (touch p s v) false _ _ T1 T2) as [[_ X] | [_ X]]; [rewrite X; exact T1 | congruence].
  - discriminate.
  - destruct (finish_true decls s) as [l E]; rewrite E; exact T.
Qed.

Definition fresh (s : state) : Prop := forall v, In v decls -> dst s v = DDef -> ak s v = KFresh.
Lemma fresh_step s o : plain o -> al s = [] -> filter about_use (out (step s o)) = [] -> fresh s -> fresh (step s o).
Proof.
  intros P A E F v I D; destruct o as [x | x y | x | x]; [| destruct P | |].
  - pose proof (new_state s x v A) as N; destruct (Nat.eqb v x); [apply state_is in N; apply N |].
    apply state_eq in N; destruct N as [N1 N2]; rewrite N2; apply F; [exact I | congruence].
  - cbn [step] in *; pose proof (release_state s x v A) as N; destruct (Nat.eqb v x); [apply state_is in N; destruct N; congruence |].
    apply state_eq in N; destruct N as [N1 N2]; rewrite N2; apply F; [exact I | congruence].
  - rewrite step_use_out in E; apply app_nil_both in E; destruct E as [_ E]; cbn [reads flat_map] in E; rewrite app_nil_r in E.
    cbn [step] in *; unfold use_msg in E; unfold checkUse in *; destruct (dst s x); try discriminate; apply F; assumption.
Qed.
Lemma fresh_meet a b t f : quiet (meet decls a b t f) -> fresh t -> fresh f -> fresh (meet decls a b t f).
Proof.
  intros Q T F v I D; pose proof (meet_quiet _ _ _ _ _ v Q I) as M.
  pose proof (meet_state a b t f v) as E.
  assert (Ed : dst (meet decls a b t f) v = fst (fst (mergeVar (a v) (b v) (stateOf t v) (stateOf f v)))) by (rewrite <- E; reflexivity).
  assert (Ek : ak (meet decls a b t f) v = snd (fst (mergeVar (a v) (b v) (stateOf t v) (stateOf f v)))) by (rewrite <- E; reflexivity).
  rewrite Ek; apply mergeVar_def_fresh; [exact M | congruence | apply T, I | apply F, I].
Qed.
Lemma fresh_exec p : (forall o, In o (ops p) -> plain o) -> forall s,
  al s = [] -> quiet (exec p s) -> fresh s -> fresh (exec p s).
Proof.
  intros P; induction p as [| o | p IHp q IHq | p IHp q IHq | p IHp | p IHp |]; intros s A Q F; cbn [Ownbr_model.exec ops] in *.
  - exact F.
  - apply fresh_step; [apply P; left; reflexivity | exact A | apply state_use; exact Q | exact F].
  - assert (P1 : forall o, In o (ops p) -> plain o) by (intros o J; apply P, in_or_app; auto).
    assert (P2 : forall o, In o (ops q) -> plain o) by (intros o J; apply P, in_or_app; auto).
    apply (IHq P2); [apply exec_no_table; assumption | exact Q |].
    apply (IHp P1); [exact A | apply exec_quiet in Q; exact Q | exact F].
  - assert (P1 : forall o, In o (ops p) -> plain o) by (intros o J; apply P, in_or_app; auto).
    assert (P2 : forall o, In o (ops q) -> plain o) by (intros o J; apply P, in_or_app; auto).
    pose proof (popBranches_quiet _ _ _ _ _ _ _ _ Q) as Q2; pose proof (exec_quiet _ _ _ _ _ Q2) as Q1.
    assert (T1 : fresh (exec p s)) by (apply (IHp P1); assumption).
    assert (T2 : fresh (exec q (withOut s (out (exec p s))))) by (apply (IHq P2); assumption).
    unfold popBranches in *; destruct (escapes q); [exact T1 |]; destruct (escapes p); [exact T2 |].
    apply fresh_meet; assumption.
  - pose proof (popBranches_quiet _ _ _ _ _ _ _ _ Q) as Q1.
    assert (T1 : fresh (exec p s)) by (apply (IHp P); assumption).
    unfold popBranches in *; destruct (escapes p); [exact F |]; apply fresh_meet; assumption.
  - apply IHp; assumption.
  - destruct (finish_true decls s) as [l E]; rewrite E; exact F.
Qed.
Lemma sure_fresh s c : sure s c -> fresh s.
Proof. intros [H _] v I D; apply (H v I D). Qed.
(** The state where branches meet knows less than that of either. *)
Lemma sure_meet a b t f x c : quiet (meet decls a b t f) -> fresh t -> fresh f -> x = t \/ x = f ->
  sure x c -> sure (meet decls a b t f) c.
Proof.
  intros Q T F E [S1 S2]; split; [| exact S2]; intros v I D; split; [apply fresh_meet; assumption |].
  assert (M : dst t v = DDef /\ dst f v = DDef).
  { apply (mergeVar_def (a v) (b v) (stateOf t v) (stateOf f v)); [exact (meet_quiet _ _ _ _ _ v Q I) |].
    rewrite <- meet_state; exact D. }
  apply S1; [exact I |]; destruct E as [-> | ->]; apply M.
Qed.

Lemma sure_exec p : (forall o, In o (ops p) -> plain o) -> no_until p = true -> incl (pvars p) decls -> forall s c q r,
  al s = [] -> quiet (exec p s) -> sure s c -> path p q r ->
  (r = false -> sure (exec p s) (fold_left cstep q c)) /\ errs (fold_left cstep q c) = errs c.
Proof.
  intros P U I; induction p as [| o | p IHp q IHq | p IHp q IHq | p IHp | p IHp |]; intros s c l r A Q S H;
    cbn [Ownbr_model.exec ops no_until pvars] in *.
  - inversion H; subst; split; [intros _; exact S | reflexivity].
  - inversion H; subst; cbn [fold_left].
    destruct (sure_step s c o (P o (or_introl eq_refl)) A I (state_use _ Q) S) as [X Y]; auto.
  - apply andb_true_iff in U; destruct U as [U1 U2].
    assert (P1 : forall o, In o (ops p) -> plain o) by (intros o J; apply P, in_or_app; auto).
    assert (P2 : forall o, In o (ops q) -> plain o) by (intros o J; apply P, in_or_app; auto).
    assert (I1 : incl (pvars p) decls) by (intros z J; apply I, in_or_app; auto).
    assert (I2 : incl (pvars q) decls) by (intros z J; apply I, in_or_app; auto).
    pose proof (exec_quiet _ _ _ _ _ Q) as Q1.
    inversion H; subst.
    + destruct (IHp P1 U1 I1 s c l0 false A Q1 S) as [X Y]; [assumption |].
      destruct (IHq P2 U2 I2 _ _ m r (exec_no_table p s P1 A) Q (X eq_refl)) as [X' Y']; [assumption |].
      rewrite fold_left_app; split; [exact X' | congruence].
    + destruct (IHp P1 U1 I1 s c l true A Q1 S) as [X Y]; [assumption |]; split; [discriminate | exact Y].
  - apply andb_true_iff in U; destruct U as [U1 U2].
    assert (P1 : forall o, In o (ops p) -> plain o) by (intros o J; apply P, in_or_app; auto).
    assert (P2 : forall o, In o (ops q) -> plain o) by (intros o J; apply P, in_or_app; auto).
    assert (I1 : incl (pvars p) decls) by (intros z J; apply I, in_or_app; auto).
    assert (I2 : incl (pvars q) decls) by (intros z J; apply I, in_or_app; auto).
    pose proof (popBranches_quiet _ _ _ _ _ _ _ _ Q) as Q2; pose proof (exec_quiet _ _ _ _ _ Q2) as Q1.
    set (s' := withOut s (out (exec p s))) in *.
    assert (S' : sure s' c) by exact S.
    inversion H; subst.
    + destruct (IHp P1 U1 I1 s c l r A Q1 S) as [X Y]; [assumption |]; split; [| exact Y]; intros ->; specialize (X eq_refl).
      unfold popBranches in *; destruct (escapes q); [exact X |].
      destruct (escapes p) eqn:Ep; [match goal with J : path p _ _ |- _ => apply escapes_path in J; [discriminate | exact Ep] end |].
      apply (sure_meet _ _ _ _ (exec p s)); [exact Q | apply (sure_fresh _ _ X) | apply fresh_exec; [exact P2 | exact A | exact Q2 | apply (sure_fresh _ _ S')] | auto | exact X].
    + destruct (IHq P2 U2 I2 s' c l r A Q2 S') as [X Y]; [assumption |]; split; [| exact Y]; intros ->; specialize (X eq_refl).
      unfold popBranches in *; destruct (escapes q) eqn:Eq; [match goal with J : path q _ _ |- _ => apply escapes_path in J; [discriminate | exact Eq] end |].
      destruct (escapes p) eqn:Ep; [exact X |].
      apply (sure_meet _ _ _ _ (exec q s')); [exact Q | apply fresh_exec; [exact P1 | exact A | exact Q1 | apply (sure_fresh _ _ S)] | apply (sure_fresh _ _ X) | auto | exact X].
  - pose proof (popBranches_quiet _ _ _ _ _ _ _ _ Q) as Q1.
    set (s' := withOut s (out (exec p s))) in *.
    pose proof (sure_fresh _ _ S) as F0.
    assert (F1 : fresh (exec p s)) by (apply fresh_exec; assumption).
    (* each iteration ends in a state described by that before the first *)
    assert (B : escapes p = false -> forall c', sure (exec p s) c' -> sure s c').
    { intros Ep c'; apply sure_weaken; intros v Iv Dv; symmetry.
      assert (T0 : two (stateOf s v)) by (left; unfold stateOf, Live; rewrite Dv, (F0 v Iv Dv); reflexivity).
      assert (T1 : two (stateOf (exec p s) v)) by (apply two_exec; assumption).
      unfold popBranches in Q; rewrite Ep in Q; pose proof (meet_quiet _ _ _ _ _ v Q Iv) as M.
      assert (T2 : two (stateOf s' v)) by exact T0.
      destruct (mergeVar_two (touch p s v) false _ _ T1 T2) as [[X _] | [_ X]]; [symmetry; exact X | congruence]. }
    assert (G : forall x l r, path x l r -> x = Loop p -> forall c, sure s c ->
                (r = false -> sure s (fold_left cstep l c)) /\ errs (fold_left cstep l c) = errs c).
    { clear H S l r c; intros x l r H; induction H; intros Ex c S; try discriminate; injection Ex as ->.
      - split; [intros _; exact S | reflexivity].
      - destruct (IHp P U I s c l false A Q1 S H) as [X Y]; specialize (X eq_refl).
        assert (Ep : escapes p = false) by (destruct (escapes p) eqn:Ep; [apply escapes_path in H; [discriminate | exact Ep] | reflexivity]).
        destruct (IHpath2 eq_refl _ (B Ep _ X)) as [X' Y']; rewrite fold_left_app; split; [exact X' | congruence].
      - destruct (IHp P U I s c l true A Q1 S H) as [_ Y]; split; [discriminate | exact Y]. }
    destruct (G _ _ _ H eq_refl c S) as [X Y]; split; [| exact Y]; intros Er; specialize (X Er).
    unfold popBranches in *; destruct (escapes p); [exact X |].
    apply (sure_meet _ _ _ _ s'); [exact Q | exact F1 | exact F0 | auto | exact X].
  - discriminate.
  - inversion H; subst; split; [discriminate | reflexivity].
Qed.

(** ** Exactness *)
Definition rel (L : list var) (s : state) (c : cstate) : Prop :=
  al s = [] /\
  (forall v, In v L -> exists b, env c v = Some b /\ stateOf s v = if freed c b then Gone else Live) /\
  (forall v w b, env c v = Some b -> env c w = Some b -> v = w) /\
  (forall b, b < next c -> freed c b = false -> exists v, In v L /\ env c v = Some b) /\
  (forall v b, env c v = Some b -> b < next c) /\
  (forall b, freed c b = true -> b < next c).

Lemma rel_two L s c v : rel L s c -> In v L -> two (stateOf s v).
Proof. intros [_ [H _]] I; destruct (H v I) as [b [_ E]]; rewrite E; destruct (freed c b); [right | left]; reflexivity. Qed.
Lemma rel_state L s t c : al t = [] -> (forall v, In v L -> stateOf t v = stateOf s v) -> rel L s c -> rel L t c.
Proof.
  intros A E [_ [R2 R]]; split; [exact A | split; [| exact R]].
  intros v I; destruct (R2 v I) as [b [B1 B2]]; exists b; rewrite (E v I); tauto.
Qed.
(** The blocks and the variables after a statement. *)
Definition regular (c : cstate) : Prop :=
  (forall v w b, env c v = Some b -> env c w = Some b -> v = w) /\
  (forall v b, env c v = Some b -> b < next c) /\
  (forall b, freed c b = true -> b < next c).
Lemma rel_regular L s c : rel L s c -> regular c.
Proof. intros [_ [_ [R3 [_ [R5 R6]]]]]; split; [exact R3 | split; assumption]. Qed.
Lemma regular_step c o : plain o -> regular c -> regular (cstep c o).
Proof.
  intros P [S2 [S3 S4]]; split; [| split].
  - intros v w b; rewrite !cstep_env; destruct o as [x | x y | x | x]; [| destruct P | apply S2 | apply S2]; cbn [env_step].
    destruct (Nat.eqb_spec v x), (Nat.eqb_spec w x); intros E1 E2; subst; try reflexivity;
      [injection E1 as <-; apply S3 in E2; lia | injection E2 as <-; apply S3 in E1; lia | exact (S2 _ _ _ E1 E2)].
  - intros v b; rewrite cstep_env, cstep_next; destruct o as [x | x y | x | x]; [| destruct P | apply S3 | apply S3]; cbn [env_step].
    destruct (Nat.eqb_spec v x); intros E1; [injection E1 as <-; lia | apply S3 in E1; lia].
  - intros b; rewrite cstep_freed, cstep_next; destruct o as [x | x y | x | x]; [| destruct P | | apply S4]; [intros F; apply S4 in F; lia |].
    destruct (env c x) as [b' |] eqn:Ex; [| apply S4]; destruct (Nat.eqb_spec b b') as [-> |]; [intros _; exact (S3 _ _ Ex) | apply S4].
Qed.

Definition isLive (c : cstate) (v : var) : Prop := exists b, env c v = Some b /\ freed c b = false.
Definition isGone (c : cstate) (v : var) : Prop := exists b, env c v = Some b /\ freed c b = true.
Lemma rel_live L s c v : rel L s c -> In v L -> stateOf s v = Live -> isLive c v.
Proof. intros [_ [H _]] I E; destruct (H v I) as [b [B1 B2]]; exists b; split; [exact B1 |]; rewrite E in B2; destruct (freed c b); [discriminate | reflexivity]. Qed.
Lemma rel_gone L s c v : rel L s c -> In v L -> stateOf s v = Gone -> isGone c v.
Proof. intros [_ [H _]] I E; destruct (H v I) as [b [B1 B2]]; exists b; split; [exact B1 |]; rewrite E in B2; destruct (freed c b); [reflexivity | discriminate]. Qed.

(** One statement: if nothing is said the states go on corresponding; otherwise there is an error, or
    storage is lost. *)
Lemma rel_new L s c x : rel L s c -> In x L -> stateOf s x = Gone -> rel L (step s (New x)) (cstep c (New x)).
Proof.
  intros R I E; pose proof R as [A [R2 [R3 [R4 [R5 R6]]]]].
  destruct (rel_gone L s c x R I E) as [bx [Bx Fx]].
  destruct (regular_step c (New x) Logic.I (rel_regular _ _ _ R)) as [G1 [G2 G3]].
  split; [apply step_no_table; [exact Logic.I | exact A] | split; [| split; [exact G1 | split; [| split; assumption]]]].
  - intros v Iv; rewrite (new_state s x v A), cstep_env; cbn [env_step]; destruct (Nat.eqb_spec v x) as [-> | N].
    + exists (next c); split; [reflexivity |]; rewrite cstep_freed.
      destruct (freed c (next c)) eqn:F; [apply R6 in F; lia | reflexivity].
    + destruct (R2 v Iv) as [b [B1 B2]]; exists b; rewrite cstep_freed; tauto.
  - intros b; rewrite cstep_next, cstep_freed; intros Lb Fb; destruct (Nat.eq_dec b (next c)) as [-> | Nb].
    + exists x; split; [exact I |]; rewrite cstep_env; cbn [env_step]; rewrite Nat.eqb_refl; reflexivity.
    + destruct (R4 b) as [v [Iv Ev]]; [lia | exact Fb |]; exists v; split; [exact Iv |]; rewrite cstep_env; cbn [env_step].
      destruct (Nat.eqb_spec v x) as [-> |]; [congruence | exact Ev].
Qed.
Lemma rel_release L s c x : rel L s c -> In x L -> stateOf s x = Live -> rel L (step s (Release x)) (cstep c (Release x)).
Proof.
  intros R I E; pose proof R as [A [R2 [R3 [R4 [R5 R6]]]]].
  destruct (rel_live L s c x R I E) as [bx [Bx Fx]].
  destruct (regular_step c (Release x) Logic.I (rel_regular _ _ _ R)) as [G1 [G2 G3]].
  split; [apply step_no_table; [exact Logic.I | exact A] | split; [| split; [exact G1 | split; [| split; assumption]]]].
  - intros v Iv; cbn [step]; rewrite (release_state s x v A), cstep_env; cbn [env_step]; destruct (Nat.eqb_spec v x) as [-> | N].
    + exists bx; split; [exact Bx |]; rewrite cstep_freed, Bx, Nat.eqb_refl; reflexivity.
    + destruct (R2 v Iv) as [b [B1 B2]]; exists b; split; [exact B1 |]; rewrite cstep_freed, Bx.
      destruct (Nat.eqb_spec b bx) as [-> |]; [exfalso; apply N; exact (R3 _ _ _ B1 Bx) | exact B2].
  - intros b; rewrite cstep_next, cstep_freed, Bx; intros Lb Fb; apply orb_false_iff in Fb; destruct Fb as [_ Fb].
    destruct (R4 b Lb Fb) as [v [Iv Ev]]; exists v; rewrite cstep_env; tauto.
Qed.
Lemma rel_use L s c x : rel L s c -> In x L -> stateOf s x = Live -> rel L (step s (Use x)) (cstep c (Use x)) /\ step s (Use x) = s.
Proof.
  intros R I E; destruct (rel_live L s c x R I E) as [bx [Bx Fx]].
  assert (X : cstep c (Use x) = c) by (cbn [cstep]; unfold cuse; rewrite Bx, Fx; reflexivity).
  assert (Y : step s (Use x) = s) by (cbn [step]; unfold checkUse; apply state_is in E; destruct E as [-> _]; reflexivity).
  rewrite X, Y; split; [exact R | reflexivity].
Qed.
(** What cannot be mended: an error, or storage which nothing holds. *)
Definition ruined (c : cstate) : Prop := errs c <> [] \/ exists b, lost c b.
Lemma ruined_step c o : ruined c -> ruined (cstep c o).
Proof.
  intros [E | [b Lb]]; [left | right; exists b; apply lost_step; exact Lb].
  rewrite cstep_errs; destruct (errs c); [congruence | discriminate].
Qed.
Lemma ruined_run q c : ruined c -> ruined (fold_left cstep q c).
Proof. revert c; induction q as [| o q IH]; intros c H; cbn [fold_left]; [exact H | apply IH, ruined_step, H]. Qed.
Lemma err_ruined c o x : In x (reads o) -> isGone c x -> ruined (cstep c o).
Proof.
  intros I [b [B F]]; left; rewrite cstep_errs; intros H; apply app_nil_both in H; destruct H as [_ H].
  destruct (use_err_ok c o H x I) as [b' [B' F']]; congruence.
Qed.
Lemma new_ruined c x : regular c -> isLive c x -> ruined (cstep c (New x)).
Proof.
  intros [S2 [S3 S4]] [b [B F]]; right; exists b; split; [rewrite cstep_next; apply S3 in B; lia | split; [rewrite cstep_freed; exact F |]].
  intros v; rewrite cstep_env; cbn [env_step]; destruct (Nat.eqb_spec v x) as [-> | N].
  - intros E; injection E as E; apply S3 in B; lia.
  - intros E; apply N; exact (S2 _ _ _ E B).
Qed.
Lemma rel_step s c o : plain o -> incl (ovars o) decls -> rel decls s c ->
  (rel decls (step s o) (cstep c o) /\ out (step s o) = out s /\ errs (cstep c o) = errs c) \/
  (out (step s o) <> out s /\ ruined (cstep c o)).
Proof.
  intros P I R; pose proof R as [A _].
  assert (X : exists x, In x decls /\ o = New x \/ In x decls /\ o = Release x \/ In x decls /\ o = Use x).
  { destruct o as [x | x y | x | x]; [| destruct P | |]; exists x; (assert (J : In x decls) by (apply I; left; reflexivity)); tauto. }
  destruct X as [x X]; assert (Ix : In x decls) by tauto.
  pose proof (rel_two decls s c x R Ix) as T.
  destruct X as [[_ ->] | [[_ ->] | [_ ->]]].
  - destruct T as [T | T]; pose proof T as T'; apply state_is in T'; destruct T' as [Td Tk]; rewrite (new_out s x A), Td, Tk; cbn [owner andb].
    + right; split; [intros H; apply (f_equal (@List.length msg)) in H; rewrite app_length in H; cbn in H; lia |].
      apply new_ruined; [exact (rel_regular _ _ _ R) | exact (rel_live _ _ _ _ R Ix T)].
    + left; split; [apply rel_new; assumption | split; [apply app_nil_r | rewrite cstep_errs; apply app_nil_r]].
  - destruct T as [T | T]; pose proof T as T'; apply state_is in T'; destruct T' as [Td Tk].
    + left; split; [apply rel_release; assumption | split].
      * cbn [step]; rewrite (release_live s x A Td Tk); reflexivity.
      * destruct (rel_live _ _ _ _ R Ix T) as [b [B F]]; rewrite cstep_errs; cbn [reads flat_map]; unfold use_err; rewrite B, F; apply app_nil_r.
    + right; split; [| apply (err_ruined c (Release x) x); [left; reflexivity | exact (rel_gone _ _ _ _ R Ix T)]].
      intros H; pose proof (step_use_out s (Release x)) as U; rewrite H in U; cbn [reads flat_map] in U; unfold use_msg in U; rewrite Td in U.
      apply (f_equal (@List.length msg)) in U; rewrite app_length in U; cbn in U; lia.
  - destruct T as [T | T]; pose proof T as T'; apply state_is in T'; destruct T' as [Td Tk].
    + left; destruct (rel_use _ _ _ _ R Ix T) as [X Y]; split; [exact X | split; [rewrite Y; reflexivity |]].
      destruct (rel_live _ _ _ _ R Ix T) as [b [B F]]; rewrite cstep_errs; cbn [reads flat_map]; unfold use_err; rewrite B, F; apply app_nil_r.
    + right; split; [| apply (err_ruined c (Use x) x); [left; reflexivity | exact (rel_gone _ _ _ _ R Ix T)]].
      intros H; pose proof (step_use_out s (Use x)) as U; rewrite H in U; cbn [reads flat_map] in U; unfold use_msg in U; rewrite Td in U.
      apply (f_equal (@List.length msg)) in U; rewrite app_length in U; cbn in U; lia.
Qed.
(** Where a function returns. *)
Definition released (c : cstate) : Prop := forall b, b < next c -> freed c b = true.
Lemma finish_rel s c : rel decls s c -> out s = [] -> (out (finish true decls s) = [] <-> released c).
Proof.
  intros R E; rewrite finish_true_silent; split.
  - intros [_ H] b Lb; destruct (freed c b) eqn:F; [reflexivity | exfalso].
    pose proof R as [_ [R2 [_ [R4 _]]]]; destruct (R4 b Lb F) as [v [Iv Ev]].
    destruct (R2 v Iv) as [b' [B1 B2]]; assert (b' = b) by congruence; subst b'; rewrite F in B2.
    apply state_is in B2; destruct B2 as [Bd Bk]; specialize (H v Iv); rewrite Bd, Bk in H; discriminate.
  - intros H; split; [exact E |]; intros v Iv; pose proof R as [_ [R2 [_ [_ [R5 _]]]]].
    destruct (R2 v Iv) as [b [B1 B2]]; rewrite (H b (R5 _ _ B1)) in B2; apply state_is in B2; destruct B2 as [-> ->]; reflexivity.
Qed.

Lemma silent_quiet s : out s = [] -> quiet s.
Proof. unfold quiet; intros ->; reflexivity. Qed.
Lemma exec_silent p s : out (exec p s) = [] -> out s = [].
Proof. destruct (exec_grows touch decls p s) as [l E]; rewrite E; intros H; apply app_nil_both in H; apply H. Qed.
Lemma popBranches_silent a b mt mf t f : out (popBranches decls a b mt mf t f) = [] -> out f = [].
Proof. destruct (popBranches_out decls a b mt mf t f) as [l E]; rewrite E; intros H; apply app_nil_both in H; apply H. Qed.
(** Two states which agree with what happens meet without a message just when they are the same. *)
Lemma meet_rel a b t f c1 c2 : rel decls t c1 -> rel decls f c2 -> out f = [] ->
  (out (meet decls a b t f) = [] /\
   (forall v, In v decls -> stateOf t v = stateOf f v /\ stateOf (meet decls a b t f) v = stateOf f v)) \/
  (out (meet decls a b t f) <> [] /\ exists v, In v decls /\ (isLive c1 v /\ isGone c2 v \/ isGone c1 v /\ isLive c2 v)).
Proof.
  intros R1 R2 E.
  assert (G : forall l, incl l decls ->
     (flat_map (fun v => if snd (mergeVar (a v) (b v) (stateOf t v) (stateOf f v)) then [MBranch v] else []) l = [] /\
      forall v, In v l -> stateOf t v = stateOf f v) \/
     (flat_map (fun v => if snd (mergeVar (a v) (b v) (stateOf t v) (stateOf f v)) then [MBranch v] else []) l <> [] /\
      exists v, In v l /\ stateOf t v <> stateOf f v)).
  { induction l as [| d l IH]; intros I; [left; split; [reflexivity | intros v []] |].
    assert (Id : In d decls) by (apply I; left; reflexivity).
    cbn [flat_map]; destruct (mergeVar_two (a d) (b d) _ _ (rel_two _ _ _ _ R1 Id) (rel_two _ _ _ _ R2 Id)) as [[X Y] | [X Y]].
    - rewrite Y; cbn [snd app]; destruct (IH (fun z J => I z (or_intror J))) as [[F H] | [F [v [Iv H]]]].
      + left; split; [exact F |]; intros v [<- | J]; [exact X | apply H, J].
      + right; split; [exact F |]; exists v; split; [right; exact Iv | exact H].
    - right; rewrite Y; split; [discriminate |]; exists d; split; [left; reflexivity | exact X]. }
  unfold meet at 1 3; cbn [out]; rewrite E; cbn [app]; destruct (G decls (incl_refl _)) as [[F H] | [F [v [Iv H]]]].
  - left; split; [exact F |]; intros v Iv; split; [apply H, Iv |]; rewrite meet_state.
    destruct (mergeVar_two (a v) (b v) _ _ (rel_two _ _ _ _ R1 Iv) (rel_two _ _ _ _ R2 Iv)) as [[X Y] | [X Y]];
      [rewrite Y; exact X | destruct X; apply H, Iv].
  - right; split; [exact F |]; exists v; split; [exact Iv |].
    destruct (rel_two _ _ _ _ R1 Iv) as [X | X], (rel_two _ _ _ _ R2 Iv) as [Y | Y]; try congruence.
    + left; split; [exact (rel_live _ _ _ _ R1 Iv X) | exact (rel_gone _ _ _ _ R2 Iv Y)].
    + right; split; [exact (rel_gone _ _ _ _ R1 Iv X) | exact (rel_live _ _ _ _ R2 Iv Y)].
Qed.

(** If nothing is said, the states correspond along every path. *)
Lemma rel_exec p : (forall o, In o (ops p) -> plain o) -> no_until p = true -> tidy p = true -> incl (pvars p) decls ->
  forall s c q r, out (exec p s) = [] -> rel decls s c -> path p q r ->
  (if r then released (fold_left cstep q c) else rel decls (exec p s) (fold_left cstep q c)) /\
  errs (fold_left cstep q c) = errs c.
Proof.
  intros P U T I; induction p as [| o | p IHp q IHq | p IHp q IHq | p IHp | p IHp |]; intros s c l r Q S H;
    cbn [Ownbr_model.exec ops no_until tidy pvars] in *.
  - inversion H; subst; split; [exact S | reflexivity].
  - inversion H; subst; cbn [fold_left].
    destruct (rel_step s c o (P o (or_introl eq_refl)) I S) as [[X [Y Z]] | [X _]]; [tauto |].
    exfalso; apply X; rewrite Q; symmetry; apply (step_silent_before s o Q).
  - apply andb_true_iff in U; destruct U as [U1 U2].
    apply andb_true_iff in T; destruct T as [T T3]; apply andb_true_iff in T; destruct T as [T1 T2].
    assert (P1 : forall o, In o (ops p) -> plain o) by (intros o J; apply P, in_or_app; auto).
    assert (P2 : forall o, In o (ops q) -> plain o) by (intros o J; apply P, in_or_app; auto).
    assert (I1 : incl (pvars p) decls) by (intros z J; apply I, in_or_app; auto).
    assert (I2 : incl (pvars q) decls) by (intros z J; apply I, in_or_app; auto).
    pose proof (exec_silent _ _ Q) as Q1.
    inversion H; subst.
    + destruct (IHp P1 U1 T1 I1 s c l0 false Q1 S) as [X Y]; [assumption |]; cbn in X.
      destruct (IHq P2 U2 T2 I2 _ _ m r Q X) as [X' Y']; [assumption |].
      rewrite fold_left_app; split; [exact X' | congruence].
    + exact (IHp P1 U1 T1 I1 s c l true Q1 S ltac:(assumption)).
  - apply andb_true_iff in U; destruct U as [U1 U2]; apply andb_true_iff in T; destruct T as [T1 T2].
    assert (P1 : forall o, In o (ops p) -> plain o) by (intros o J; apply P, in_or_app; auto).
    assert (P2 : forall o, In o (ops q) -> plain o) by (intros o J; apply P, in_or_app; auto).
    assert (I1 : incl (pvars p) decls) by (intros z J; apply I, in_or_app; auto).
    assert (I2 : incl (pvars q) decls) by (intros z J; apply I, in_or_app; auto).
    pose proof (popBranches_silent _ _ _ _ _ _ Q) as Q2; pose proof (exec_silent _ _ Q2) as Q1; cbn [withOut out] in Q1.
    set (s' := withOut s (out (exec p s))) in *.
    assert (S' : rel decls s' c) by exact S.
    pose proof S as [A _].
    pose proof (exec_no_table p s P1 A) as At; pose proof (exec_no_table q s' P2 A) as Af.
    assert (Au : unionTables (al (exec p s)) (al (exec q s')) = []) by (rewrite At, Af; reflexivity).
    assert (M : escapes p = false -> escapes q = false ->
      forall v, In v decls -> stateOf (exec p s) v = stateOf (exec q s') v /\
        stateOf (meet decls (touch p s) (touch q s') (exec p s) (exec q s')) v = stateOf (exec q s') v).
    { intros Ep Eq; destruct (path_out p T1 Ep) as [lp Lp]; destruct (path_out q T2 Eq) as [lq Lq].
      destruct (IHp P1 U1 T1 I1 s c lp false Q1 S Lp) as [Rp _]; destruct (IHq P2 U2 T2 I2 s' c lq false Q2 S' Lq) as [Rq _]; cbn in Rp, Rq.
      unfold popBranches in Q; rewrite Ep, Eq in Q.
      destruct (meet_rel (touch p s) (touch q s') _ _ _ _ Rp Rq Q2) as [[_ X] | [X _]]; [exact X | congruence]. }
    inversion H; subst.
    + destruct (IHp P1 U1 T1 I1 s c l r Q1 S) as [X Y]; [assumption |]; split; [| exact Y]; destruct r; [exact X |].
      unfold popBranches in *; destruct (escapes q) eqn:Eq.
      * apply (rel_state decls (exec p s)); [exact Au | reflexivity | exact X].
      * destruct (escapes p) eqn:Ep; [match goal with J : path p _ _ |- _ => apply escapes_path in J; [discriminate | exact Ep] end |].
        apply (rel_state decls (exec p s)); [exact Au | | exact X].
        intros v Iv; destruct (M eq_refl eq_refl v Iv) as [M1 M2]; congruence.
    + destruct (IHq P2 U2 T2 I2 s' c l r Q2 S') as [X Y]; [assumption |]; split; [| exact Y]; destruct r; [exact X |].
      unfold popBranches in *; destruct (escapes q) eqn:Eq; [match goal with J : path q _ _ |- _ => apply escapes_path in J; [discriminate | exact Eq] end |].
      destruct (escapes p) eqn:Ep.
      * apply (rel_state decls (exec q s')); [exact Au | reflexivity | exact X].
      * apply (rel_state decls (exec q s')); [exact Au | | exact X].
        intros v Iv; destruct (M eq_refl eq_refl v Iv) as [M1 M2]; congruence.
  - pose proof (popBranches_silent _ _ _ _ _ _ Q) as Q1; cbn [withOut out] in Q1.
    set (s' := withOut s (out (exec p s))) in *.
    pose proof S as [A _]; pose proof (exec_no_table p s P A) as At.
    assert (Au : unionTables (al (exec p s)) (al s') = []) by (cbn [s' withOut al]; rewrite At, A; reflexivity).
    assert (M : escapes p = false ->
      forall v, In v decls -> stateOf (exec p s) v = stateOf s v /\
        stateOf (meet decls (touch p s) (fun _ => false) (exec p s) s') v = stateOf s v).
    { intros Ep; destruct (path_out p T Ep) as [lp Lp].
      destruct (IHp P U T I s c lp false Q1 S Lp) as [Rp _]; cbn in Rp.
      unfold popBranches in Q; rewrite Ep in Q.
      destruct (meet_rel (touch p s) (fun _ => false) _ s' _ c Rp S Q1) as [[_ X] | [X _]]; [exact X | congruence]. }
    assert (G : forall x l r, path x l r -> x = Loop p -> forall c, rel decls s c ->
                (if r then released (fold_left cstep l c) else rel decls s (fold_left cstep l c)) /\ errs (fold_left cstep l c) = errs c).
    { clear H S l r c; intros x l r H; induction H; intros Ex c S; try discriminate; injection Ex as ->.
      - split; [exact S | reflexivity].
      - destruct (IHp P U T I s c l false Q1 S H) as [X Y]; cbn in X.
        assert (Ep : escapes p = false) by (destruct (escapes p) eqn:Ep; [apply escapes_path in H; [discriminate | exact Ep] | reflexivity]).
        assert (X' : rel decls s (fold_left cstep l c)).
        { apply (rel_state decls (exec p s)); [exact A | | exact X]; intros v Iv; destruct (M Ep v Iv) as [M1 _]; congruence. }
        destruct (IHpath2 eq_refl _ X') as [X'' Y']; rewrite fold_left_app; split; [exact X'' | congruence].
      - exact (IHp P U T I s c l true Q1 S H). }
    destruct (G _ _ _ H eq_refl c S) as [X Y]; split; [| exact Y]; destruct r; [exact X |].
    apply (rel_state decls s); [| | exact X].
    + unfold popBranches; destruct (escapes p); cbn [meet al]; exact Au.
    + intros v Iv; unfold popBranches; destruct (escapes p) eqn:Ep; [reflexivity | apply (M eq_refl v Iv)].
  - discriminate.
  - inversion H; subst; split; [| reflexivity]; cbn [fold_left].
    apply (finish_rel s c S); [| exact Q]; rewrite finish_true_silent in Q; apply Q.
Qed.

(** Two ways of arriving at a place which cannot both go on well. *)
Definition doomed (c1 c2 : cstate) : Prop :=
  ruined c1 \/ ruined c2 \/ exists v, isLive c1 v /\ isGone c2 v \/ isGone c1 v /\ isLive c2 v.
Lemma doomed_sym c1 c2 : doomed c1 c2 -> doomed c2 c1.
Proof. unfold doomed; intros [H | [H | [v H]]]; [tauto | tauto |]; right; right; exists v; tauto. Qed.
Lemma live_gone_step c1 c2 v o : plain o -> regular c1 -> isLive c1 v -> isGone c2 v ->
  doomed (cstep c1 o) (cstep c2 o).
Proof.
  intros P R L G; pose proof L as [b1 [B1 F1]]; pose proof G as [b2 [B2 F2]].
  destruct o as [x | x y | x | x]; [| destruct P | |].
  - destruct (Nat.eq_dec v x) as [-> | N]; [left; apply new_ruined; assumption |].
    right; right; exists v; left; split; [exists b1 | exists b2]; rewrite cstep_env, cstep_freed; cbn [env_step];
      (destruct (Nat.eqb_spec v x); [congruence | tauto]).
  - destruct (Nat.eq_dec v x) as [-> | N]; [right; left; apply (err_ruined c2 (Release x) x); [left; reflexivity | exact G] |].
    right; right; exists v; left; split; [exists b1 | exists b2]; rewrite cstep_env, cstep_freed; cbn [env_step]; (split; [assumption |]).
    + destruct (env c1 x) as [bx |] eqn:Ex; [| exact F1]; rewrite F1; destruct (Nat.eqb_spec b1 bx) as [-> |]; [| reflexivity].
      exfalso; apply N; destruct R as [R _]; exact (R _ _ _ B1 Ex).
    + rewrite F2; destruct (env c2 x); [apply orb_true_r | reflexivity].
  - destruct (Nat.eq_dec v x) as [-> | N]; [right; left; apply (err_ruined c2 (Use x) x); [left; reflexivity | exact G] |].
    right; right; exists v; left; split; [exists b1 | exists b2]; rewrite cstep_env, cstep_freed; tauto.
Qed.
Lemma doomed_step c1 c2 o : plain o -> regular c1 -> regular c2 -> doomed c1 c2 -> doomed (cstep c1 o) (cstep c2 o).
Proof.
  intros P R1 R2 [D | [D | [v [[L G] | [G L]]]]].
  - left; apply ruined_step, D.
  - right; left; apply ruined_step, D.
  - exact (live_gone_step c1 c2 v o P R1 L G).
  - apply doomed_sym; exact (live_gone_step c2 c1 v o P R2 L G).
Qed.
Lemma doomed_run q : (forall o, In o q -> plain o) -> forall c1 c2, regular c1 -> regular c2 -> doomed c1 c2 ->
  doomed (fold_left cstep q c1) (fold_left cstep q c2).
Proof.
  induction q as [| o q IH]; intros P c1 c2 R1 R2 D; cbn [fold_left]; [exact D |].
  assert (Po : plain o) by (apply P; left; reflexivity).
  apply IH; [intros z J; apply P; right; exact J | apply regular_step; assumption | apply regular_step; assumption | apply doomed_step; assumption].
Qed.
Lemma regular_run q : (forall o, In o q -> plain o) -> forall c, regular c -> regular (fold_left cstep q c).
Proof.
  induction q as [| o q IH]; intros P c R; cbn [fold_left]; [exact R |].
  apply IH; [intros z J; apply P; right; exact J | apply regular_step; [apply P; left; reflexivity | exact R]].
Qed.
Definition good (c : cstate) : Prop := errs c = [] /\ released c.
Lemma ruined_bad c : ruined c -> ~ good c.
Proof. intros [E | [b [L [F _]]]] [G1 G2]; [congruence | rewrite (G2 b L) in F; discriminate]. Qed.
Lemma doomed_bad c1 c2 : regular c1 -> regular c2 -> doomed c1 c2 -> ~ (good c1 /\ good c2).
Proof.
  intros R1 R2 [D | [D | [v D]]] [G1 G2]; [exact (ruined_bad _ D G1) | exact (ruined_bad _ D G2) |].
  assert (X : forall c, regular c -> good c -> isLive c v -> False).
  { intros c [_ [R _]] [_ G] [b [B F]]; rewrite (G b (R _ _ B)) in F; discriminate. }
  destruct D as [[L _] | [_ L]]; [exact (X c1 R1 G1 L) | exact (X c2 R2 G2 L)].
Qed.
(** If something is said, a path is bad, or leads on to a place where some continuation is. *)
Definition trouble (p : prog) (c : cstate) : Prop :=
  (exists q, path p q true /\ ~ good (fold_left cstep q c)) \/
  (exists q1 q2, path p q1 false /\ path p q2 false /\ doomed (fold_left cstep q1 c) (fold_left cstep q2 c)).
Lemma trouble_exec p : (forall o, In o (ops p) -> plain o) -> no_until p = true -> tidy p = true -> incl (pvars p) decls ->
  forall s c, out s = [] -> rel decls s c -> out (exec p s) = [] \/ trouble p c.
Proof.
  intros P U T I; induction p as [| o | p IHp q IHq | p IHp q IHq | p IHp | p IHp |]; intros s c Q S;
    cbn [Ownbr_model.exec ops no_until tidy pvars] in *.
  - left; exact Q.
  - destruct (rel_step s c o (P o (or_introl eq_refl)) I S) as [[X [Y Z]] | [_ X]]; [left; congruence |].
    right; right; exists [o], [o]; split; [constructor | split; [constructor | left; exact X]].
  - apply andb_true_iff in U; destruct U as [U1 U2].
    apply andb_true_iff in T; destruct T as [T T3]; apply andb_true_iff in T; destruct T as [T1 T2]; apply negb_true_iff in T3.
    assert (P1 : forall o, In o (ops p) -> plain o) by (intros o J; apply P, in_or_app; auto).
    assert (P2 : forall o, In o (ops q) -> plain o) by (intros o J; apply P, in_or_app; auto).
    assert (I1 : incl (pvars p) decls) by (intros z J; apply I, in_or_app; auto).
    assert (I2 : incl (pvars q) decls) by (intros z J; apply I, in_or_app; auto).
    pose proof (rel_regular _ _ _ S) as R.
    destruct (IHp P1 U1 T1 I1 s c Q S) as [Q1 | [[l [L B]] | [l1 [l2 [L1 [L2 D]]]]]].
    + destruct (path_out p T1 T3) as [lp Lp].
      destruct (rel_exec p P1 U1 T1 I1 s c lp false Q1 S Lp) as [Rp _]; cbn in Rp.
      destruct (IHq P2 U2 T2 I2 _ _ Q1 Rp) as [Q2 | [[m [M B]] | [m1 [m2 [M1 [M2 D]]]]]]; [left; exact Q2 | |]; right.
      * left; exists (lp ++ m); rewrite fold_left_app; split; [econstructor; eassumption | exact B].
      * right; exists (lp ++ m1), (lp ++ m2); rewrite !fold_left_app; repeat split; try exact D; econstructor; eassumption.
    + right; left; exists l; split; [apply p_seq_ret; exact L | exact B].
    + right; destruct (path_some q) as [m [r M]].
      assert (X : forall l, path p l false -> regular (fold_left cstep l c)).
      { intros l L; apply regular_run; [| exact R]; intros o J; apply P1, (path_ops _ _ _ L), J. }
      assert (Pm : forall o, In o m -> plain o) by (intros o J; apply P2, (path_ops _ _ _ M), J).
      pose proof (doomed_run m Pm _ _ (X _ L1) (X _ L2) D) as D'.
      rewrite <- !fold_left_app in D'; destruct r.
      * pose proof (regular_run m Pm _ (X _ L1)) as Y1; pose proof (regular_run m Pm _ (X _ L2)) as Y2; rewrite <- fold_left_app in Y1, Y2.
        assert (Z : ~ good (fold_left cstep (l1 ++ m) c) \/ ~ good (fold_left cstep (l2 ++ m) c)).
        { destruct D' as [D' | [D' | [v D']]]; [left; apply ruined_bad, D' | right; apply ruined_bad, D' |].
          destruct D' as [[V G] | [G V]]; [left | right]; intros [_ W];
            (destruct V as [b [B F]]; rewrite W in F; [discriminate |]; first [apply Y1 in B; exact B | apply Y2 in B; exact B]). }
        left; destruct Z as [Z | Z]; [exists (l1 ++ m) | exists (l2 ++ m)]; (split; [econstructor; eassumption | exact Z]).
      * right; exists (l1 ++ m), (l2 ++ m); repeat split; try exact D'; econstructor; eassumption.
  - apply andb_true_iff in U; destruct U as [U1 U2]; apply andb_true_iff in T; destruct T as [T1 T2].
    assert (P1 : forall o, In o (ops p) -> plain o) by (intros o J; apply P, in_or_app; auto).
    assert (P2 : forall o, In o (ops q) -> plain o) by (intros o J; apply P, in_or_app; auto).
    assert (I1 : incl (pvars p) decls) by (intros z J; apply I, in_or_app; auto).
    assert (I2 : incl (pvars q) decls) by (intros z J; apply I, in_or_app; auto).
    destruct (IHp P1 U1 T1 I1 s c Q S) as [Q1 | [[l [L B]] | [l1 [l2 [L1 [L2 D]]]]]].
    + set (s' := withOut s (out (exec p s))).
      destruct (IHq P2 U2 T2 I2 s' c Q1 S) as [Q2 | [[l [L B]] | [l1 [l2 [L1 [L2 D]]]]]].
      * unfold popBranches; destruct (escapes q) eqn:Eq; [left; exact Q2 |]; destruct (escapes p) eqn:Ep; [left; exact Q2 |].
        destruct (path_out p T1 Ep) as [lp Lp]; destruct (path_out q T2 Eq) as [lq Lq].
        destruct (rel_exec p P1 U1 T1 I1 s c lp false Q1 S Lp) as [Rp _]; destruct (rel_exec q P2 U2 T2 I2 s' c lq false Q2 S Lq) as [Rq _]; cbn in Rp, Rq.
        destruct (meet_rel (touch p s) (touch q s') _ _ _ _ Rp Rq Q2) as [[X _] | [_ [v [_ X]]]]; [left; exact X | right].
        right; exists lp, lq; split; [apply p_then; exact Lp | split; [apply p_else; exact Lq |]].
        right; right; exists v; exact X.
      * right; left; exists l; split; [apply p_else; exact L | exact B].
      * right; right; exists l1, l2; repeat split; try exact D; apply p_else; assumption.
    + right; left; exists l; split; [apply p_then; exact L | exact B].
    + right; right; exists l1, l2; repeat split; try exact D; apply p_then; assumption.
  - destruct (IHp P U T I s c Q S) as [Q1 | [[l [L B]] | [l1 [l2 [L1 [L2 D]]]]]].
    + unfold popBranches; destruct (escapes p) eqn:Ep; [left; exact Q1 |].
      destruct (path_out p T Ep) as [lp Lp].
      destruct (rel_exec p P U T I s c lp false Q1 S Lp) as [Rp _]; cbn in Rp.
      destruct (meet_rel (touch p s) (fun _ => false) _ (withOut s (out (exec p s))) _ c Rp S Q1) as [[X _] | [_ [v [_ X]]]]; [left; exact X | right].
      right; exists lp, []; split; [| split; [constructor |]].
      * rewrite <- (app_nil_r lp); econstructor; [exact Lp | constructor].
      * right; right; exists v; exact X.
    + right; left; exists l; split; [apply p_loop_ret; exact L | exact B].
    + right; right; exists (l1 ++ []), (l2 ++ []); split; [econstructor; [exact L1 | constructor] | split; [econstructor; [exact L2 | constructor] |]].
      rewrite !app_nil_r; exact D.
  - discriminate.
  - destruct (out (finish true decls s)) eqn:F; [left; reflexivity | right; left; exists []; split; [constructor |]].
    intros [_ G]; apply (finish_rel s c S Q) in G; congruence.
Qed.
End Exec.

(** ** Functions *)
Lemma copy_free_plain p : copy_free p -> forall o, In o (ops p) -> plain o.
Proof. intros C o I; destruct o; [exact Logic.I | exact (C _ _ I) | exact Logic.I | exact Logic.I]. Qed.
Lemma loops_sound touch decls p q r :
  copy_free p -> no_until p = true -> incl (pvars p) decls ->
  filter about_state (bodyMessages touch decls p) = [] -> path p q r -> correct q.
Proof.
  intros C U I E H; apply body_quiet in E.
  destruct (sure_exec touch decls p (copy_free_plain p C) U I start cstart q r eq_refl E) as [_ X]; [| exact H | exact X].
  split; [intros v _ D; discriminate | split; [intros v w b D; discriminate | split; intros; discriminate]].
Qed.

Lemma exec_inits touch decls l p s : exec touch decls (inits l p) s = exec touch decls p (fold_left step (map New l) s).
Proof. revert s; induction l as [| x l IH]; intros s; [reflexivity |]; cbn; apply IH. Qed.
Lemma escapes_inits l p : escapes (inits l p) = escapes p.
Proof. induction l as [| x l IH]; [reflexivity | exact IH]. Qed.
Lemma path_inits l p q r : path (inits l p) q r <-> exists q', q = map New l ++ q' /\ path p q' r.
Proof.
  revert q; induction l as [| x l IH]; intros q; cbn [map app].
  - split; [intros H; exists q; tauto | intros [q' [-> H]]; exact H].
  - change (inits (x :: l) p) with (Seq (Do (New x)) (inits l p)); split.
    + intros H; inversion H as [| | | a b m n r' H1 H2 | a b m H1 | | | | | | |]; subst; inversion H1; subst.
      apply IH in H2; destruct H2 as [q' [-> H2]]; exists q'; split; [reflexivity | exact H2].
    + intros [q' [-> H]]; change (New x :: map New l ++ q') with ([New x] ++ (map New l ++ q')); econstructor; [constructor | apply IH; exists q'; tauto].
Qed.
Lemma rel_inits l : forall L s c, rel L s c -> (forall v, ~ In v L -> env c v = None /\ dst s v = DUndef) -> out s = [] -> NoDup l ->
  (forall x, In x l -> ~ In x L) ->
  rel (rev l ++ L) (fold_left step (map New l) s) (fold_left cstep (map New l) c) /\ out (fold_left step (map New l) s) = [] /\
  errs (fold_left cstep (map New l) c) = errs c.
Proof.
  induction l as [| x l IH]; intros L s c R N Q ND D; [split; [exact R | split; [exact Q | reflexivity]] |].
  inversion ND as [| ? ? Nx NDl]; subst; cbn [map fold_left rev]; rewrite <- app_assoc; cbn [app].
  pose proof R as [A [R2 [R3 [R4 [R5 R6]]]]].
  destruct (N x (D x (or_introl eq_refl))) as [Ex Dx].
  assert (E' : errs (cstep c (New x)) = errs c) by (rewrite cstep_errs; apply app_nil_r).
  rewrite <- E'; apply IH.
  - destruct (regular_step c (New x) Logic.I (rel_regular _ _ _ R)) as [G1 [G2 G3]].
    split; [apply step_no_table; [exact Logic.I | exact A] | split; [| split; [exact G1 | split; [| split; assumption]]]].
    + intros v Iv; rewrite (new_state s x v A), cstep_env; cbn [env_step]; destruct (Nat.eqb_spec v x) as [-> | Nv].
      * exists (next c); split; [reflexivity |]; rewrite cstep_freed.
        destruct (freed c (next c)) eqn:F; [apply R6 in F; lia | reflexivity].
      * destruct Iv as [-> | Iv]; [congruence |]; destruct (R2 v Iv) as [b [B1 B2]]; exists b; rewrite cstep_freed; tauto.
    + intros b; rewrite cstep_next, cstep_freed; intros Lb Fb; destruct (Nat.eq_dec b (next c)) as [-> | Nb].
      * exists x; split; [left; reflexivity |]; rewrite cstep_env; cbn [env_step]; rewrite Nat.eqb_refl; reflexivity.
      * destruct (R4 b) as [v [Iv Ev]]; [lia | exact Fb |]; exists v; split; [right; exact Iv |]; rewrite cstep_env; cbn [env_step].
        destruct (Nat.eqb_spec v x) as [-> |]; [congruence | exact Ev].
  - intros v Nv; assert (v <> x) by (intros ->; apply Nv; left; reflexivity); assert (NL : ~ In v L) by (intros J; apply Nv; right; exact J).
    destruct (N v NL) as [N1 N2]; rewrite cstep_env; cbn [env_step]; pose proof (new_state s x v A) as X.
    destruct (Nat.eqb_spec v x); [congruence |]; apply state_eq in X; destruct X as [X _]; rewrite X; tauto.
  - rewrite (new_out s x A), Q, Dx, andb_false_r; reflexivity.
  - exact NDl.
  - intros z J [-> | K]; [exact (Nx J) | exact (D z (or_intror J) K)].
Qed.
Lemma rel_start decls : NoDup decls ->
  rel decls (fold_left step (map New decls) start) (crun (map New decls)) /\ out (fold_left step (map New decls) start) = [] /\
  errs (crun (map New decls)) = [].
Proof.
  intros ND; destruct (rel_inits decls [] start cstart) as [R [Q E]]; auto.
  - split; [reflexivity | split; [intros v [] | split; [intros v w b H; discriminate | split; [intros b L; cbn in L; lia | split; intros; discriminate]]]].
  - split; [| split; [exact Q | exact E]]; rewrite app_nil_r in R.
    destruct R as [A [R2 [R3 [R4 R5]]]]; split; [exact A | split; [| split; [exact R3 | split; [| exact R5]]]].
    + intros v I; apply R2; apply -> in_rev; exact I.
    + intros b L F; destruct (R4 b L F) as [v [I X]]; exists v; split; [apply in_rev; exact I | exact X].
Qed.
Lemma exactness touch decls p :
  NoDup decls -> copy_free p -> no_until p = true -> tidy p = true -> incl (pvars p) decls ->
  (bodyMessages touch decls (inits decls p) = [] <->
   forall q r, path (inits decls p) q r -> correct q /\ all_released q).
Proof.
  intros ND C U T I; destruct (rel_start decls ND) as [R [Q E]].
  pose proof (copy_free_plain p C) as P.
  unfold bodyMessages; rewrite escapes_inits, exec_inits.
  set (s0 := fold_left step (map New decls) start) in *; set (c0 := crun (map New decls)) in *.
  assert (X : (forall q r, path (inits decls p) q r -> correct q /\ all_released q) <->
              (forall q r, path p q r -> good (fold_left cstep q c0))).
  { split; intros H q r.
    - intros L; unfold c0; rewrite <- crun_app; apply (H (map New decls ++ q) r), path_inits; exists q; tauto.
    - rewrite path_inits; intros [q' [-> L]]; apply H in L; unfold c0 in L; rewrite <- crun_app in L; exact L. }
  rewrite X; clear X; split.
  - intros S q r L.
    assert (S' : out (exec touch decls p s0) = []).
    { destruct (escapes p); [exact S |]; rewrite finish_true_silent in S; apply S. }
    destruct (rel_exec touch decls p P U T I s0 c0 q r S' R L) as [W V]; split; [congruence |].
    destruct r; [exact W |].
    destruct (escapes p) eqn:Ep; [apply escapes_path in L; [discriminate | exact Ep] |].
    apply (finish_rel _ _ _ W S'); exact S.
  - intros H.
    assert (S' : out (exec touch decls p s0) = []).
    { destruct (trouble_exec touch decls p P U T I s0 c0 Q R) as [S' | [[q [L B]] | [q1 [q2 [L1 [L2 D]]]]]]; [exact S' | |]; exfalso.
      - exact (B (H q true L)).
      - apply (doomed_bad (fold_left cstep q1 c0) (fold_left cstep q2 c0)); [| | exact D | split; [exact (H _ _ L1) | exact (H _ _ L2)]];
          apply regular_run; try exact (rel_regular _ _ _ R); intros o J;
          [apply P, (path_ops _ _ _ L1), J | apply P, (path_ops _ _ _ L2), J]. }
    destruct (escapes p) eqn:Ep; [exact S' |].
    destruct (path_out p T Ep) as [q L].
    destruct (rel_exec touch decls p P U T I s0 c0 q false S' R L) as [W _]; cbn in W.
    apply (finish_rel _ _ _ W S'), (H _ _ L).
Qed.

(** ** Paths of examples *)
Lemma path_first o q l r : path q l r -> path (Seq (Do o) q) (o :: l) r.
Proof. intros H; change (o :: l) with ([o] ++ l); econstructor; [constructor | exact H]. Qed.
Lemma path_last o : path (Do o) [o] false.
Proof. constructor. Qed.
Lemma path_skip q l r : path q l r -> path (Seq (If Skip Skip) q) l r.
Proof. intros H; change l with ([] ++ l); econstructor; [apply p_then; constructor | exact H]. Qed.
