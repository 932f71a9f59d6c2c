(** Storage which is lost. *)
From Verif Require Import Cbase Own_model Own_spec Own_proofs Own_use_proofs.
From Coq Require Import List Arith Bool Lia.
Import ListNotations.
Open Scope nat_scope.

(** ** Silent steps *)
Lemma silent_use s x : out s = [] -> out (checkUse s x) = [] -> dst s x = DDef /\ checkUse s x = s.
Proof.
  intros E; rewrite checkUse_out, E; unfold use_msg, checkUse; destruct (dst s x); cbn; intros H; try discriminate; tauto.
Qed.
Lemma lose_silent s x :
  NoDup (keys (al s)) -> out s = [] -> out (lose s x) = [] ->
  (lose s x = s /\ ~ (owner (ak s x) = true /\ dst s x = DDef)) \/
  (exists c, c <> x /\ In x (canAlias (al s) c) /\ owner (ak s x) = true /\ lose s x = setAk s c (ak s x)).
Proof.
  intros ND E; unfold lose, canLose.
  destruct (owner (ak s x)) eqn:O; cbn [andb].
  - destruct (dst s x) eqn:D.
    + intros _; left; split; [reflexivity | intros [_ H]; discriminate].
    + destruct (aliasedBy (al s) x) as [| c l] eqn:A.
      * cbn [say out]; rewrite E; discriminate.
      * intros _; right; exists c; destruct (aliasedBy_hd _ _ _ _ ND A); tauto.
    + intros _; left; split; [reflexivity | intros [_ H]; discriminate].
    + intros _; left; split; [reflexivity | intros [_ H]; discriminate].
  - intros _; left; split; [reflexivity | intros [H _]; discriminate].
Qed.
Lemma lose_grows s x : exists l, out (lose s x) = out s ++ l.
Proof. destruct (lose_out s x) as [E | E]; rewrite E; [exists []; rewrite app_nil_r | exists [MLeak x]]; reflexivity. Qed.
Lemma step_grows s o : exists l, out (step s o) = out s ++ l.
Proof.
  destruct o as [x | x y | x | x]; cbn [step].
  - unfold assignNew; cbn [setAl setDst setAk out]; apply lose_grows.
  - unfold assignCopy; destruct (Nat.eqb x y).
    + cbn [setAl out]; rewrite checkUse_out; eexists; reflexivity.
    + cbn [setAl setDst out]; rewrite transfer_out; cbn [setDst setAk out].
      destruct (lose_grows (checkUse s y) x) as [l E]; rewrite E, checkUse_out, <- app_assoc; eexists; reflexivity.
  - unfold release, killComplete; rewrite (proj1 (proj2 (fold_kill _ _))).
    destruct (ak (checkUse s x) x); try (rewrite checkUse_out; eexists; reflexivity);
      [| cbn [say out]; rewrite checkUse_out, <- app_assoc; eexists; reflexivity].
    destruct (passDependent_out (checkUse s x) x) as [E | [E _]]; rewrite E, checkUse_out, <- ?app_assoc; eexists; reflexivity.
  - rewrite checkUse_out; eexists; reflexivity.
Qed.
Lemma step_silent_before s o : out (step s o) = [] -> out s = [].
Proof. destruct (step_grows s o) as [l E]; rewrite E; apply app_nil_both. Qed.

(** No other kinds arise than those of straight-line code. *)
Lemma fset_all {A} (P : A -> Prop) f x a : P a -> (forall v, P (f v)) -> forall v, P (fset f x a v).
Proof. intros Ha H v; destruct (fset_either f x a v) as [-> | ->]; auto. Qed.
Lemma lose_kinds (P : kind -> Prop) s x : (forall v, P (ak s v)) -> forall v, P (ak (lose s x) v).
Proof.
  intros H; unfold lose, canLose; destruct (_ && _); [destruct (aliasedBy _ _) |]; try exact H.
  cbn [setAk ak]; apply fset_all; auto.
Qed.
Lemma step_kinds (P : kind -> Prop) s o :
  P KLocal -> P KFresh -> P KOwned -> P KDep -> (forall v, P (ak s v)) -> forall v, P (ak (step s o) v).
Proof.
  intros P1 P2 P3 P4 H.
  assert (CU : forall x v, P (ak (checkUse s x) v)) by (intros x v; rewrite checkUse_ak; apply H).
  destruct o as [x | x y | x | x]; cbn [step].
  - unfold assignNew; cbn [setAl setDst setAk ak]; do 2 (apply fset_all; [assumption |]); apply lose_kinds, H.
  - unfold assignCopy; destruct (Nat.eqb x y); [apply CU |].
    cbn [setAl setDst ak]; unfold transfer.
    assert (L : forall v, P (ak (setDst (setAk (lose (checkUse s y) x) x KLocal) x (dst (setAk (lose (checkUse s y) x) x KLocal) y)) v)).
    { cbn [setDst setAk ak]; apply fset_all; [assumption | apply lose_kinds, CU]. }
    destruct (ak _ y); try exact L.
    + unfold setDependentComplete; intros v; rewrite (proj2 (proj2 (proj2 (fold_dep _ _)))).
      destruct (mem _ _); [assumption |]; cbn [setAk ak]; apply fset_all; [assumption | apply L].
    + cbn [setAk ak]; apply fset_all; [assumption | apply L].
  - unfold release, killComplete; intros v; rewrite (proj2 (proj2 (proj2 (fold_kill _ _)))).
    destruct (mem _ _); [assumption |].
    destruct (ak (checkUse s x) x); try apply CU.
    unfold passDependent, canLose.
    destruct (dependentReference (checkUse s x) x) as [r |].
    + assert (L : forall v, P (ak (kill (kill (checkUse s x) r) x) v)).
      { cbn [kill setDst setAk ak]; do 2 (apply fset_all; [assumption |]); apply CU. }
      destruct (aliasedBy _ _); [| cbn [setAk ak]; apply fset_all; [| exact L]]; apply L.
    + destruct (aliasedBy _ _); [| cbn [setAk ak]; apply fset_all; [| exact (CU x)]]; apply CU.
  - apply CU.
Qed.
Lemma run_kinds p v : ak (run p) v <> KUnknown.
Proof.
  revert v; unfold run; assert (G : forall s, (forall v, ak s v <> KUnknown) -> forall v, ak (fold_left step p s) v <> KUnknown).
  { induction p as [| o p IH]; intros s H; cbn [fold_left]; [exact H |].
    apply IH, (step_kinds (fun k => k <> KUnknown)); try discriminate; exact H. }
  apply G; discriminate.
Qed.

(** Kinds after a release. *)
Lemma release_ak s x v :
  NoDup (keys (al s)) ->
  ak (release s x) v = if mem v (x :: allAliases (al s) x) then KLocal else ak s v.
Proof.
  intros ND; unfold release, killComplete; rewrite (proj2 (proj2 (proj2 (fold_kill _ _)))).
  assert (EA : al (match ak (checkUse s x) x with KDep => passDependent (checkUse s x) x | KUnknown => say (checkUse s x) (MUnqual x) | _ => checkUse s x end) = al s).
  { destruct (ak _ x); cbn [say al]; rewrite ?passDependent_al, ?checkUse_al; reflexivity. }
  rewrite EA; destruct (mem v (x :: allAliases (al s) x)) eqn:M; [reflexivity |].
  assert (NI : ~ In v (x :: allAliases (al s) x)) by (rewrite <- mem_in, M; discriminate).
  assert (D0 : ak (checkUse s x) v = ak s v) by (rewrite checkUse_ak; reflexivity).
  destruct (ak (checkUse s x) x); try exact D0.
  rewrite <- D0; clear D0.
  assert (AB : forall w, In w (aliasedBy (al (checkUse s x)) x) -> v <> w).
  { intros w I ->; apply NI; right; rewrite checkUse_al in I; apply in_allAliases; [exact ND |]; left; apply in_aliasedBy; assumption. }
  assert (NX : v <> x) by (intros ->; apply NI; left; reflexivity).
  set (s0 := checkUse s x) in *; clearbody s0.
  unfold passDependent, canLose.
  assert (K : forall s1, al s1 = al s0 -> (forall w, v = w -> ak s1 v = ak s0 v) ->
     ak (match match aliasedBy (al s1) x with c :: _ => Some (setAk s1 c (ak s1 x)) | [] => None end with
         | Some s2 => s2
         | None => match dependentReference s0 x with Some _ => s1 | None => say s1 (MDependent x) end
         end) v = ak s0 v).
  { intros s1 E1 E2; rewrite E1; destruct (aliasedBy (al s0) x) as [| c l] eqn:A.
    - destruct (dependentReference s0 x); cbn [say ak]; apply (E2 v); reflexivity.
    - cbn [setAk ak]; rewrite fset_other; [apply (E2 v); reflexivity | apply AB; left; reflexivity]. }
  destruct (dependentReference s0 x) as [r |] eqn:R.
  - apply (K (kill (kill s0 r) x)); [reflexivity |]; intros w _.
    cbn [kill setDst setAk ak]; rewrite !fset_other; [reflexivity | apply AB, dependentReference_in; exact R | exact NX].
  - apply (K s0); reflexivity.
Qed.

(** ** Storage which is not released has somebody to release it *)
Definition fresh_alone (s : state) : Prop :=
  forall v, ak s v = KFresh -> canAlias (al s) v = [] /\ (forall w, ~ In v (canAlias (al s) w)).
Definition kept (s : state) (c : cstate) : Prop :=
  (forall b, b < next c -> freed c b = false ->
     exists v, env c v = Some b /\ owner (ak s v) = true /\ dst s v = DDef) /\
  (forall v, dst s v = DDead -> exists b, env c v = Some b /\ freed c b = true) /\
  (forall v, dst s v = DUndef -> env c v = None) /\
  (forall v, env c v = None -> dst s v = DUndef) /\
  (forall b, freed c b = true -> b < next c) /\
  fresh_alone s /\ (forall v, dst s v <> DUnuse).

Lemma kept_alive s c v b : kept s c -> env c v = Some b -> freed c b = false -> dst s v = DDef.
Proof.
  intros [_ [K2 [K3 [_ [_ [_ K7]]]]]] E F; destruct (dst s v) eqn:D; [apply K3 in D; congruence | reflexivity | | destruct (K7 v D)].
  apply K2 in D; destruct D as [b' [E1 E2]]; congruence.
Qed.

(** After the storage of a variable is given up, some other variable releases each storage. *)
Lemma lose_kept s c x :
  holds s c -> kept s c -> out s = [] -> out (lose s x) = [] ->
  (forall b, b < next c -> freed c b = false ->
     exists v, v <> x /\ env c v = Some b /\ owner (ak (lose s x) v) = true /\ dst s v = DDef) /\
  fresh_alone (lose s x).
Proof.
  intros [ND [HA HB]] K Es El; pose proof K as K0; destruct K as [K1 [K2 [K3 [K4 [K5 [K6 K7]]]]]].
  destruct (lose_silent s x ND Es El) as [[E NO] | [w [Nw [Iw [Ow E]]]]]; rewrite E.
  - split; [| exact K6]; intros b Lb Fb; destruct (K1 b Lb Fb) as [v [Ev [Ov Dv]]].
    exists v; split; [intros ->; tauto | tauto].
  - split.
    + intros b Lb Fb; destruct (K1 b Lb Fb) as [v [Ev [Ov Dv]]].
      destruct (Nat.eq_dec v x) as [-> | N].
      * assert (Ew : env c w = Some b) by (rewrite (HA w x Iw); exact Ev).
        exists w; split; [exact Nw | split; [exact Ew | split; [cbn [setAk ak]; rewrite fset_same; exact Ow |]]].
        apply (kept_alive s c w b K0 Ew Fb).
      * exists v; split; [exact N | split; [exact Ev | split; [| exact Dv]]]; cbn [setAk ak].
        destruct (fset_either (ak s) w (ak s x) v) as [F | F]; rewrite F; assumption.
    + intros v; cbn [setAk ak al]; destruct (Nat.eq_dec v w) as [-> | N].
      * rewrite fset_same; intros F; destruct (K6 x F) as [_ F2]; destruct (F2 w Iw).
      * rewrite fset_other by exact N; apply K6.
Qed.

Lemma kept_step s c o :
  holds s c -> kept s c -> out s = [] -> out (step s o) = [] -> kept (step s o) (cstep c o).
Proof.
  intros H K Es Eo.
  pose proof H as [ND [HA HB]]; pose proof K as [K1 [K2 [K3 [K4 [K5 [K6 K7]]]]]].
  assert (RD : forall x, In x (reads o) -> dst s x = DDef).
  { intros x I; assert (U : flat_map (use_msg s) (reads o) = []).
    { assert (F : filter about_use (out (step s o)) = []) by (rewrite Eo; reflexivity).
      rewrite step_use_out, Es in F; exact F. }
    destruct o as [z | z y | z | z]; cbn [reads flat_map] in *; rewrite ?app_nil_r in U;
      (destruct I as [<- | []] || destruct I); unfold use_msg in U; destruct (dst s _); congruence || reflexivity. }
  assert (RE : forall x, In x (reads o) -> exists b, env c x = Some b).
  { intros x I; apply RD in I; destruct (env c x) as [b |] eqn:E; [exists b; reflexivity | apply K4 in E; congruence]. }
  (* the parts about definition are the same for all kinds of statements *)
  assert (P2 : forall v, dst (step s o) v = DDead -> exists b, env (cstep c o) v = Some b /\ freed (cstep c o) b = true).
  { intros v; rewrite (step_dst _ _ _ ND), cstep_env; setoid_rewrite cstep_freed.
    destruct o as [x | x y | x | x]; cbn [env_step reads] in *.
    - destruct (Nat.eqb v x); [discriminate | apply K2].
    - destruct (Nat.eqb v x); [discriminate |]; destruct (Nat.eqb v y); [discriminate | apply K2].
    - destruct (RE x (or_introl eq_refl)) as [bx Ex]; rewrite Ex.
      destruct (mem v (x :: allAliases (al s) x)) eqn:M.
      + intros _; exists bx; rewrite Nat.eqb_refl; split; [| reflexivity].
        apply mem_in in M; destruct M as [<- | M]; [exact Ex |].
        apply in_allAliases in M; [| exact ND]; rewrite <- Ex; destruct M as [[_ M] | M]; [apply HA; exact M | symmetry; apply HA; exact M].
      + intros Hd; apply K2 in Hd; destruct Hd as [b [E1 E2]]; exists b; split; [exact E1 | rewrite E2; apply orb_true_r].
    - destruct (Nat.eqb v x); [discriminate | apply K2]. }
  assert (P3 : forall v, dst (step s o) v = DUndef -> env (cstep c o) v = None).
  { intros v; rewrite (step_dst _ _ _ ND), cstep_env.
    destruct o as [x | x y | x | x]; cbn [env_step].
    - destruct (Nat.eqb v x); [discriminate | apply K3].
    - destruct (Nat.eqb v x); [discriminate |]; destruct (Nat.eqb v y); [discriminate | apply K3].
    - destruct (mem v _); [discriminate | apply K3].
    - destruct (Nat.eqb v x); [discriminate | apply K3]. }
  assert (P4 : forall v, env (cstep c o) v = None -> dst (step s o) v = DUndef).
  { intros v; rewrite (step_dst _ _ _ ND), cstep_env.
    destruct o as [x | x y | x | x]; cbn [env_step reads] in *.
    - destruct (Nat.eqb v x); [discriminate | apply K4].
    - destruct (RE y (or_introl eq_refl)) as [b Ey].
      destruct (Nat.eqb_spec v x); [congruence |]; destruct (Nat.eqb_spec v y); [congruence | apply K4].
    - destruct (RE x (or_introl eq_refl)) as [bx Ex].
      destruct (mem v (x :: allAliases (al s) x)) eqn:M; [| apply K4].
      intros En; exfalso; apply mem_in in M; destruct M as [<- | M]; [congruence |].
      apply in_allAliases in M; [| exact ND]; destruct M as [[_ M] | M]; apply HA in M; congruence.
    - destruct (RE x (or_introl eq_refl)) as [b Ex]; destruct (Nat.eqb_spec v x); [congruence | apply K4]. }
  assert (P5 : forall b, freed (cstep c o) b = true -> b < next (cstep c o)).
  { intros b; rewrite cstep_freed, cstep_next; destruct o as [x | x y | x | x]; try apply K5.
    - intros Fb; apply K5 in Fb; lia.
    - destruct (env c x) as [bx |] eqn:Ex; [| apply K5].
      intros Fb; apply orb_true_iff in Fb; destruct Fb as [Fb | Fb]; [| apply K5; exact Fb].
      apply Nat.eqb_eq in Fb; subst; apply HB in Ex; exact Ex. }
  split; [| split; [exact P2 | split; [exact P3 | split; [exact P4 | split; [exact P5 | split; [| apply step_useable; assumption]]]]]].
  - intros b Lb Fb; rewrite cstep_freed in Fb; rewrite cstep_next in Lb.
    setoid_rewrite cstep_env.
    destruct o as [x | x y | x | x]; cbn [env_step reads] in *.
    + cbn [step] in Eo |- *; unfold assignNew in Eo |- *; cbn [setAl setDst setAk out ak dst] in Eo |- *.
      destruct (lose_kept s c x H K Es Eo) as [L _].
      destruct (Nat.eq_dec b (next c)) as [-> | N].
      * exists x; rewrite Nat.eqb_refl, !fset_same; repeat split.
      * destruct (L b) as [v [Nv [Ev [Ov Dv]]]]; [lia | exact Fb |].
        exists v; rewrite !fset_other by exact Nv; rewrite lose_dst.
        destruct (Nat.eqb_spec v x); [congruence |]; tauto.
    + assert (Dy : dst s y = DDef) by (apply RD; left; reflexivity).
      assert (CU : checkUse s y = s) by (unfold checkUse; rewrite Dy; reflexivity).
      cbn [step] in Eo |- *; unfold assignCopy in Eo |- *; rewrite CU in *.
      destruct (Nat.eqb_spec x y) as [-> | N].
      * destruct (K1 b Lb Fb) as [v [Ev [Ov Dv]]]; exists v; cbn [setAl ak dst].
        destruct (Nat.eqb_spec v y) as [E | ?]; [subst v |]; tauto.
      * cbn [setAl setDst setAk out] in Eo; rewrite transfer_out in Eo; cbn [setDst setAk out] in Eo.
        destruct (lose_kept s c x H K Es Eo) as [L FA].
        destruct (L b Lb Fb) as [v [Nv [Ev [Ov Dv]]]].
        cbn [setAl setDst setAk ak dst].
        unfold transfer; cbn [setDst setAk ak].
        rewrite (fset_other _ x KLocal y) by congruence.
        destruct (ak (lose s x) y) eqn:Ky.
        -- exists v; cbn [setDst setAk ak dst]; rewrite !fset_other by exact Nv; rewrite lose_dst.
           destruct (Nat.eqb_spec v x); [congruence | tauto].
        -- (* fresh *)
           destruct (FA y Ky) as [FA1 FA2].
           unfold setDependentComplete.
           assert (AA : allAliases (al s) y = []).
           { rewrite lose_al in FA1, FA2; unfold allAliases; rewrite FA1.
             destruct (aliasedBy (al s) y) as [| w l] eqn:A; [reflexivity |].
             destruct (aliasedBy_hd _ _ _ _ ND A) as [_ I]; destruct (FA2 w I). }
           cbn [setAk setDst al]; rewrite ?lose_al.
           rewrite AA; cbn [fold_left]; cbn [setDst setAk ak dst].
           destruct (Nat.eq_dec v y) as [-> | Nvy].
           ++ exists x; rewrite fset_other by exact N; rewrite !fset_same, Nat.eqb_refl; tauto.
           ++ exists v; rewrite !fset_other by assumption; rewrite lose_dst.
              destruct (Nat.eqb_spec v x); [congruence | tauto].
        -- exists v; cbn [setDst setAk ak dst]; rewrite !fset_other by exact Nv; rewrite lose_dst.
           destruct (Nat.eqb_spec v x); [congruence | tauto].
        -- exists v; cbn [setDst setAk ak dst]; rewrite !fset_other by exact Nv; rewrite lose_dst.
           destruct (Nat.eqb_spec v x); [congruence | tauto].
        -- exists v; cbn [setDst setAk ak dst]; rewrite !fset_other by exact Nv; rewrite lose_dst.
           destruct (Nat.eqb_spec v x); [congruence | tauto].
        -- exists v; cbn [setDst setAk ak dst]; rewrite !fset_other by exact Nv; rewrite lose_dst.
           destruct (Nat.eqb_spec v x); [congruence | tauto].
    + destruct (RE x (or_introl eq_refl)) as [bx Ex]; rewrite Ex in Fb.
      apply orb_false_iff in Fb; destruct Fb as [Nb Fb]; apply Nat.eqb_neq in Nb.
      destruct (K1 b Lb Fb) as [v [Ev [Ov Dv]]]; exists v; cbn [step].
      rewrite release_ak, release_dst by exact ND.
      destruct (mem v (x :: allAliases (al s) x)) eqn:M; [| tauto].
      exfalso; apply mem_in in M; destruct M as [<- | M]; [congruence |].
      apply in_allAliases in M; [| exact ND]; destruct M as [[_ M] | M]; apply HA in M; congruence.
    + destruct (K1 b Lb Fb) as [v [Ev [Ov Dv]]]; exists v; cbn [step].
      rewrite checkUse_ak, checkUse_def; destruct (Nat.eqb v x); tauto.
  - intros v; rewrite step_al.
    destruct o as [x | x y | x | x]; cbn [table_step reads] in *.
    + cbn [step] in Eo |- *; unfold assignNew in Eo |- *; cbn [setAl setDst setAk out ak dst] in Eo |- *.
      destruct (lose_kept s c x H K Es Eo) as [_ FA].
      intros F; assert (Z : forall w, ~ In w (canAlias (clear (al s) x) v)).
      { intros w; rewrite canAlias_clear; intros [N1 [N2 I]]; rewrite !fset_other in F by exact N1.
        destruct (FA v F) as [F1 _]; rewrite lose_al in F1; rewrite F1 in I; destruct I. }
      split; [destruct (canAlias (clear (al s) x) v) as [| w l]; [reflexivity | destruct (Z w (or_introl eq_refl))] |].
      intros w; rewrite canAlias_clear; intros [N1 [N2 I]]; rewrite !fset_other in F by exact N2.
      destruct (FA v F) as [_ F2]; rewrite lose_al in F2; exact (F2 w I).
    + assert (Dy : dst s y = DDef) by (apply RD; left; reflexivity).
      assert (CU : checkUse s y = s) by (unfold checkUse; rewrite Dy; reflexivity).
      cbn [step] in Eo |- *; unfold assignCopy in Eo |- *; rewrite CU in *.
      destruct (Nat.eqb_spec x y) as [-> | N].
      * unfold addAlias; rewrite Nat.eqb_refl; cbn [setAl ak]; intros F; destruct (K6 v F) as [F1 F2].
        split; [| intros w; rewrite canAlias_clear; intros [_ [_ I]]; exact (F2 w I)].
        destruct (canAlias (clear (al s) y) v) as [| w l] eqn:Z; [reflexivity | exfalso].
        assert (I : In w (canAlias (clear (al s) y) v)) by (rewrite Z; left; reflexivity).
        rewrite canAlias_clear, F1 in I; destruct I as [_ [_ []]].
      * cbn [setAl setDst setAk out] in Eo; rewrite transfer_out in Eo; cbn [setDst setAk out] in Eo.
        destruct (lose_kept s c x H K Es Eo) as [_ FA].
        cbn [setAl setDst ak].
        unfold transfer; cbn [setDst setAk ak].
        rewrite (fset_other _ x KLocal y) by congruence.
        intros F.
        assert (F' : v <> x /\ v <> y /\ ak (lose s x) v = KFresh).
        { destruct (ak (lose s x) y) eqn:Ky; cbn [setDst setAk ak] in F.
          - unfold fset in F; destruct (Nat.eqb_spec v x); [discriminate |]; split; [assumption | split; [congruence | exact F]].
          - unfold setDependentComplete in F; rewrite (proj2 (proj2 (proj2 (fold_dep _ _)))) in F.
            cbn [setDst setAk ak] in F; destruct (mem v _) eqn:M; [discriminate |].
            unfold fset in F; destruct (Nat.eqb_spec v x); [discriminate |]; split; [assumption | split; [| exact F]].
            intros ->; assert (X : ~ In y (y :: allAliases (al (setAk (setDst (setAk (lose s x) x KLocal) x (dst (lose s x) y)) x KOwned)) y))
              by (rewrite <- mem_in; cbn [setDst setAk al] in M |- *; rewrite M; discriminate).
            apply X; left; reflexivity.
          - unfold fset in F; destruct (Nat.eqb_spec v x); [discriminate |]; split; [assumption | split; [congruence | exact F]].
          - unfold fset in F; destruct (Nat.eqb_spec v x); [discriminate |]; split; [assumption | split; [congruence | exact F]].
          - unfold fset in F; destruct (Nat.eqb_spec v x); [discriminate |]; split; [assumption | split; [congruence | exact F]].
          - unfold fset in F; destruct (Nat.eqb_spec v x); [discriminate |]; split; [assumption | split; [congruence | exact F]]. }
        destruct F' as [N1 [N2 F']]; destruct (FA v F') as [G1 G2]; rewrite lose_al in G1, G2.
        assert (T : forall a w, In w (canAlias (addAlias (clear (al s) x) x y) a) ->
           In w (canAlias (al s) a) \/ (a = x /\ (w = y \/ In w (canAlias (al s) y))) \/
           (a = y /\ (w = x \/ w = y \/ In w (canAlias (al s) y)))).
        { intros a w; unfold addAlias; destruct (Nat.eqb_spec x y); [congruence |].
          rewrite !in_addMust, !canAlias_clear; tauto. }
        split.
        -- destruct (canAlias (addAlias (clear (al s) x) x y) v) as [| w l] eqn:Z; [reflexivity | exfalso].
           assert (I : In w (canAlias (addAlias (clear (al s) x) x y) v)) by (rewrite Z; left; reflexivity).
           apply T in I; rewrite G1 in I; destruct I as [[] | [[I _] | [I _]]]; congruence.
        -- intros w I; apply T in I; destruct I as [I | [[-> [I | I]] | [-> [I | [I | I]]]]];
             [exact (G2 w I) | congruence | exact (G2 y I) | congruence | congruence | exact (G2 y I)].
    + cbn [step]; rewrite release_ak by exact ND; destruct (mem v _); [discriminate | apply K6].
    + cbn [step]; rewrite checkUse_ak; apply K6.
Qed.
Lemma kept_start : kept start cstart.
Proof.
  repeat split; try reflexivity; try (intros; discriminate).
  intros b L; cbn in L; lia.
Qed.
Lemma kept_run p : out (run p) = [] -> kept (run p) (crun p).
Proof.
  assert (G : holds (run p) (crun p) /\ (out (run p) = [] -> kept (run p) (crun p))).
  { apply (invariant_both (fun s c => holds s c /\ (out s = [] -> kept s c))).
    - split; [exact holds_start | intros _; exact kept_start].
    - intros s c o [H I]; split; [apply holds_step; exact H |]; intros E.
      pose proof (step_silent_before s o E) as E0; apply kept_step; [exact H | apply I; exact E0 | exact E0 | exact E]. }
  apply G.
Qed.

(** ** The end *)
Lemma finish_true_silent d s :
  out (finish true d s) = [] <->
  out s = [] /\ forall x, In x d -> owner (ak s x) && (match dst s x with DDead => false | _ => true end) = false.
Proof.
  unfold finish; revert s; induction d as [| x d IH]; intros s; cbn [fold_left].
  - cbn; intuition.
  - rewrite IH; unfold checkFinal; destruct (owner (ak s x) && _) eqn:E; cbn [say out ak dst].
    + split; [intros [H _]; apply app_nil_both in H; destruct H; discriminate |].
      intros [_ H]; specialize (H x (or_introl eq_refl)); congruence.
    + split; [intros [H1 H2]; split; [exact H1 |]; intros y [<- | I]; [exact E | apply H2; exact I] |].
      intros [H1 H2]; split; [exact H1 |]; intros y I; apply H2; right; exact I.
Qed.
Lemma finish_out_grows r d s : exists l, out (finish r d s) = out s ++ l.
Proof.
  unfold finish; revert s; induction d as [| x d IH]; intros s; cbn [fold_left].
  - exists []; rewrite app_nil_r; reflexivity.
  - destruct (IH (checkFinal r s x)) as [l E]; rewrite E; clear E.
    unfold checkFinal, canLose; destruct (_ && _); [| exists l; reflexivity].
    destruct r; [cbn [say out]; rewrite <- app_assoc; eexists; reflexivity |].
    destruct (aliasedBy (al s) x); [cbn [say out]; rewrite <- app_assoc; eexists; reflexivity | exists l; reflexivity].
Qed.
Lemma crun_app p q : crun (p ++ q) = fold_left cstep q (crun p).
Proof. unfold crun; apply fold_left_app. Qed.
Lemma run_app p q : run (p ++ q) = fold_left step q (run p).
Proof. unfold run; apply fold_left_app. Qed.
Lemma env_targets p v b : env (crun p) v = Some b -> In v (targets p).
Proof.
  revert v b; induction p as [| o p IH] using rev_ind; intros v b; [discriminate |].
  rewrite crun_app; cbn [fold_left]; rewrite cstep_env; unfold targets; rewrite flat_map_app, in_app_iff; cbn [flat_map].
  destruct o as [x | x y | x | x]; cbn [env_step app].
  - destruct (Nat.eqb_spec v x) as [-> | N]; [intros _; right; left; reflexivity | intros E; left; apply (IH v b E)].
  - destruct (Nat.eqb_spec v x) as [-> | N]; [intros _; right; left; reflexivity | intros E; left; apply (IH v b E)].
  - intros E; left; apply (IH v b E).
  - intros E; left; apply (IH v b E).
Qed.
Lemma leaks_reported d p : incl (targets p) d -> messages d p = [] -> all_released p.
Proof.
  intros HV; unfold messages; rewrite finish_true_silent; intros [E F] b Lb.
  destruct (freed (crun p) b) eqn:Fb; [reflexivity | exfalso].
  destruct (kept_run p E) as [K1 _]; destruct (K1 b Lb Fb) as [v [Ev [Ov Dv]]].
  assert (I : In v d) by (apply HV, (env_targets p v b Ev)).
  specialize (F v I); rewrite Ov, Dv in F; discriminate.
Qed.

Lemma no_copy_table p : no_copy p -> al (run p) = [].
Proof.
  induction p as [| o p IH] using rev_ind; intros N; [reflexivity |].
  rewrite run_app; cbn [fold_left]; rewrite step_al, IH.
  - destruct o as [x | x y | x | x]; try reflexivity.
    exfalso; apply (N x y); apply in_or_app; right; left; reflexivity.
  - intros x y I; apply (N x y); apply in_or_app; left; exact I.
Qed.
Lemma finish_no_alias d s : al s = [] -> finish false d s = finish true d s.
Proof.
  unfold finish; revert s; induction d as [| x d IH]; intros s E; cbn [fold_left]; [reflexivity |].
  assert (X : checkFinal false s x = checkFinal true s x).
  { unfold checkFinal, canLose; rewrite E; cbn; reflexivity. }
  rewrite X; apply IH; unfold checkFinal; destruct (_ && _); exact E.
Qed.
Lemma block_leaks_reported d p : no_copy p -> incl (targets p) d -> blockMessages d p = [] -> all_released p.
Proof.
  intros N HV; unfold blockMessages; rewrite finish_no_alias by (apply no_copy_table; exact N).
  apply leaks_reported; exact HV.
Qed.

(** ** No false alarms for code which assigns each variable once *)
Definition once (s : state) (c : cstate) (ts : list var) : Prop :=
  out s = [] /\
  (forall v, ~ In v ts -> ak s v = KLocal /\ env c v = None /\ canAlias (al s) v = [] /\ (forall w, ~ In v (canAlias (al s) w))) /\
  (forall v, In v ts -> env c v <> None) /\
  (forall v, ak s v = KDep -> exists w, w <> v /\ In v (canAlias (al s) w)).

Lemma once_run p : NoDup (targets p) -> correct p -> once (run p) (crun p) (targets p).
Proof.
  induction p as [| o p IH] using rev_ind; intros NT C.
  - split; [reflexivity | split; [| split]]; [intros v _; repeat split; intros w [] | intros v [] | intros v H; discriminate].
  - assert (TS : targets (p ++ [o]) = targets p ++ targets [o]) by (unfold targets; apply flat_map_app).
    rewrite TS in *; unfold correct in C; rewrite crun_app in *; rewrite run_app; cbn [fold_left] in *.
    rewrite cstep_errs in C; apply app_nil_both in C; destruct C as [C1 C2].
    assert (NTp : NoDup (targets p)).
    { clear - NT; induction (targets p) as [| a l IHl]; [constructor |]; cbn in NT; inversion NT; subst.
      constructor; [rewrite in_app_iff in *; tauto | apply IHl; assumption]. }
    destruct (IH NTp C1) as [O1 [O2 [O3 O4]]].
    destruct (no_false_use p C1) as [_ FT].
    pose proof (holds_run p) as H; pose proof H as [ND [HA HB]].
    pose proof (kept_run p O1) as [_ [_ [_ [_ [_ [FA _]]]]]].
    destruct (faithful_step _ _ o H FT C2) as [_ UM].
    set (s := run p) in *; set (c := crun p) in *.
    assert (NX : forall x, In x (targets [o]) -> ~ In x (targets p)).
    { intros x I1 I2; clear - NT I1 I2; induction (targets p) as [| a l IHl]; [destruct I2 |]; cbn in NT; inversion NT; subst.
      destruct I2 as [-> | I2]; [apply H1, in_or_app; right; exact I1 | apply IHl; assumption]. }
    destruct o as [x | x y | x | x]; cbn [targets flat_map app reads] in *.
    + destruct (O2 x (NX x (or_introl eq_refl))) as [Kx [Ex [Tx Ux]]].
      assert (LX : lose s x = s) by (unfold lose; rewrite Kx; reflexivity).
      split; [| split; [| split]].
      * cbn [step]; unfold assignNew; rewrite LX; exact O1.
      * intros v NI; rewrite in_app_iff in NI.
        assert (Nv : v <> x) by (intros ->; apply NI; right; left; reflexivity).
        destruct (O2 v) as [Kv [Ev [Tv Uv]]]; [tauto |].
        rewrite step_al, cstep_env; cbn [step table_step env_step]; unfold assignNew; rewrite LX; cbn [setAl setDst setAk ak].
        rewrite !fset_other by exact Nv; destruct (Nat.eqb_spec v x); [congruence |]; repeat split; try assumption.
        -- destruct (canAlias (clear (al s) x) v) as [| w l] eqn:Z; [reflexivity | exfalso].
           assert (I : In w (canAlias (clear (al s) x) v)) by (rewrite Z; left; reflexivity).
           rewrite canAlias_clear, Tv in I; destruct I as [_ [_ []]].
        -- intros w; rewrite canAlias_clear; intros [_ [_ I]]; exact (Uv w I).
      * intros v; rewrite in_app_iff, cstep_env; cbn [env_step]; destruct (Nat.eqb_spec v x); [discriminate |].
        intros [I | [I | []]]; [apply O3; exact I | congruence].
      * intros v; cbn [step]; unfold assignNew; rewrite LX; cbn [setAl setDst setAk ak al].
        destruct (Nat.eq_dec v x) as [-> | N]; [rewrite fset_same; discriminate |].
        rewrite !fset_other by exact N; intros Kv; destruct (O4 v Kv) as [w [Nw Iw]]; exists w; split; [exact Nw |].
        apply canAlias_clear; repeat split; [| exact N | exact Iw]; intros ->; rewrite Tx in Iw; destruct Iw.
    + destruct (O2 x (NX x (or_introl eq_refl))) as [Kx [Ex [Tx Ux]]].
      rewrite app_nil_r in C2, UM.
      destruct (use_ok s c y FT C2) as [Dy [b [Ey _]]].
      assert (N : x <> y) by congruence.
      assert (LX : lose s x = s) by (unfold lose; rewrite Kx; reflexivity).
      assert (CU : checkUse s y = s) by (unfold checkUse; rewrite Dy; reflexivity).
      assert (T : forall a w, In w (canAlias (al (step s (Copy x y))) a) <->
           (a <> x /\ w <> x /\ In w (canAlias (al s) a)) \/ (a = x /\ (w = y \/ (In w (canAlias (al s) y) /\ w <> x))) \/
           (a = y /\ (w = x \/ (w <> y /\ In w (canAlias (al s) y) /\ w <> x)))).
      { intros a w; rewrite step_al; cbn [table_step]; unfold addAlias; destruct (Nat.eqb_spec x y); [congruence |].
        rewrite !in_addMust, !canAlias_clear; intuition congruence. }
      assert (AK : forall v, v <> x -> v <> y -> ak (step s (Copy x y)) v = ak s v).
      { intros v N1 N2; cbn [step]; unfold assignCopy; rewrite CU, LX; destruct (Nat.eqb_spec x y); [congruence |].
        cbn [setAl setDst setAk ak]; unfold transfer; cbn [setDst setAk ak]; rewrite (fset_other _ x KLocal y) by congruence.
        destruct (ak s y) eqn:Ky; cbn [setDst setAk ak]; rewrite ?fset_other by exact N1; try reflexivity.
        unfold setDependentComplete; rewrite (proj2 (proj2 (proj2 (fold_dep _ _)))).
        cbn [setDst setAk ak al]; destruct (mem v (y :: allAliases (al s) y)) eqn:M.
        - exfalso; apply mem_in in M; destruct M as [<- | M]; [congruence |].
          destruct (FA y Ky) as [F1 F2]; apply in_allAliases in M; [| exact ND].
          destruct M as [[_ M] | M]; [exact (F2 v M) | rewrite F1 in M; destruct M].
        - rewrite !fset_other by exact N1; reflexivity. }
      assert (NZ : forall v, ~ In v (targets p) -> v <> x -> ak (step s (Copy x y)) v = ak s v).
      { intros v NI N1; apply AK; [exact N1 |]; intros ->; apply NI, (env_targets p y b); exact Ey. }
      split; [| split; [| split]].
      * cbn [step]; unfold assignCopy; rewrite CU, LX; destruct (Nat.eqb_spec x y); [congruence |].
        cbn [setAl setDst setAk out]; rewrite transfer_out; exact O1.
      * intros v NI; rewrite in_app_iff in NI.
        assert (Nv : v <> x) by (intros ->; apply NI; right; left; reflexivity).
        assert (NI' : ~ In v (targets p)) by tauto.
        assert (Ny : v <> y) by (intros ->; apply NI', (env_targets p y b); exact Ey).
        destruct (O2 v NI') as [Kv [Ev [Tv Uv]]].
        split; [rewrite NZ; assumption | split; [rewrite cstep_env; cbn [env_step]; destruct (Nat.eqb_spec v x); [congruence | exact Ev] |]].
        split.
        -- destruct (canAlias (al (step s (Copy x y))) v) as [| w l] eqn:Z; [reflexivity | exfalso].
           assert (I : In w (canAlias (al (step s (Copy x y))) v)) by (rewrite Z; left; reflexivity).
           apply T in I; rewrite Tv in I; destruct I as [[_ [_ []]] | [[I _] | [I _]]]; congruence.
        -- intros w I; apply T in I; destruct I as [[_ [_ I]] | [[_ [I | [I _]]] | [_ [I | [_ [I _]]]]]];
             [exact (Uv w I) | congruence | exact (Uv y I) | congruence | exact (Uv y I)].
      * intros v; rewrite in_app_iff, cstep_env; cbn [env_step]; destruct (Nat.eqb_spec v x); [congruence |].
        intros [I | [I | []]]; [apply O3; exact I | congruence].
      * intros v Kv; destruct (Nat.eq_dec v x) as [-> | N1].
        { exists y; split; [congruence |]; apply T; right; right; tauto. }
        destruct (Nat.eq_dec v y) as [-> | N2].
        { exists x; split; [congruence |]; apply T; right; left; tauto. }
        rewrite AK in Kv by assumption; destruct (O4 v Kv) as [w [Nw Iw]]; exists w; split; [exact Nw |].
        apply T; left; repeat split; [| exact N1 | exact Iw]; intros ->; rewrite Tx in Iw; destruct Iw.
    + rewrite !app_nil_r in *.
      destruct (use_ok s c x FT C2) as [Dx [b [Ex _]]].
      assert (CU : checkUse s x = s) by (unfold checkUse; rewrite Dx; reflexivity).
      split; [| split; [| split]].
      * cbn [step]; unfold release, killComplete; rewrite (proj1 (proj2 (fold_kill _ _))), CU.
        destruct (ak s x) eqn:Kx; try exact O1; [| destruct (run_kinds p x Kx)].
        destruct (passDependent_out s x) as [E | [_ E]]; [rewrite E; exact O1 | exfalso].
        destruct (O4 x Kx) as [w [Nw Iw]].
        assert (I : In w (aliasedBy (al s) x)) by (apply in_aliasedBy; tauto).
        rewrite E in I; destruct I.
      * intros v NI; destruct (O2 v NI) as [Kv [Ev [Tv Uv]]].
        rewrite step_al, cstep_env; cbn [step]; rewrite release_ak by exact ND; cbn [table_step env_step].
        destruct (mem v _); tauto.
      * intros v I; rewrite cstep_env; apply O3; exact I.
      * intros v; rewrite step_al; cbn [step table_step]; rewrite release_ak by exact ND.
        destruct (mem v _); [discriminate | apply O4].
    + rewrite !app_nil_r in *.
      destruct (use_ok s c x FT C2) as [Dx [b [Ex _]]].
      assert (CU : checkUse s x = s) by (unfold checkUse; rewrite Dx; reflexivity).
      cbn [step]; rewrite CU.
      assert (EN : forall v, env (cstep c (Use x)) v = env c v) by (intros v; rewrite cstep_env; reflexivity).
      split; [exact O1 | split; [| split; [| exact O4]]].
      * intros v NI; rewrite EN; apply O2; exact NI.
      * intros v I; rewrite EN; apply O3; exact I.
Qed.
Lemma no_false_alarm d p :
  NoDup (targets p) -> disciplined p -> correct p -> all_released p -> messages d p = [].
Proof.
  intros NT D C R; destruct (once_run p NT C) as [O1 [O2 [O3 O4]]].
  unfold messages; apply finish_true_silent; split; [exact O1 |].
  intros x _; destruct (owner (ak (run p) x)) eqn:O; [cbn [andb] | reflexivity].
  destruct (in_dec Nat.eq_dec x (targets p)) as [I | NI].
  - apply O3 in I; destruct (env (crun p) x) as [b |] eqn:E; [| congruence].
    destruct (no_false_use p C) as [U _].
    destruct (uses_reported p D U) as [_ [[W1 _] _]].
    rewrite (W1 x b E); [reflexivity |]; apply R; apply (holds_run p) in E; exact E.
  - destruct (O2 x NI) as [K _]; rewrite K in O; discriminate.
Qed.

(** ** Code in which no storage is held by three variables *)
Definition sym (s : state) (c : cstate) : Prop := forall v w, v <> w -> same c v w -> In w (canAlias (al s) v).
Lemma sym_complete s c : sym s c -> complete s c (fun _ => true).
Proof. intros S; split; [intros v w _ N H; apply S; [congruence | exact H] | intros v w N H; left; apply S; assumption]. Qed.
Lemma sym_aliased s c x : NoDup (keys (al s)) -> sym s c -> aliasedBy (al s) x = [] -> forall w b, w <> x -> env c x = Some b -> env c w <> Some b.
Proof.
  intros ND S A w b N E1 E2.
  assert (I : In w (aliasedBy (al s) x)) by (apply in_aliasedBy; [exact ND |]; split; [exact N | apply S; [exact N | exists b; tauto]]).
  rewrite A in I; destruct I.
Qed.
Lemma pairs_prefix p q : pairs (p ++ q) -> pairs p.
Proof. intros P a r ->; apply (P a (r ++ q)); rewrite app_assoc; reflexivity. Qed.
Lemma pairs_here p : pairs p -> forall x y z, same (crun p) x y -> same (crun p) x z -> x = y \/ x = z \/ y = z.
Proof. intros P; apply (P p []); rewrite app_nil_r; reflexivity. Qed.
Lemma sym_run p : pairs p -> no_self_copy p -> sym (run p) (crun p).
Proof.
  induction p as [| o p IH] using rev_ind; intros P NS; [intros v w _ [b [E _]]; discriminate |].
  assert (S : sym (run p) (crun p)).
  { apply IH; [apply (pairs_prefix p [o]); exact P |]; intros x I; apply (NS x), in_or_app; left; exact I. }
  pose proof (holds_run p) as [ND [HA HB]].
  pose proof (pairs_here _ P) as P3; rewrite crun_app in *; rewrite run_app; cbn [fold_left] in *.
  set (s := run p) in *; set (c := crun p) in *.
  intros v w N SM; rewrite step_al.
  assert (E : forall a, env (cstep c o) a = env_step (env c) (next c) o a) by (intros a; apply cstep_env).
  destruct o as [x | x y | x | x]; cbn [table_step env_step] in *.
  - destruct SM as [b [E1 E2]]; rewrite E in E1, E2; apply canAlias_clear.
    destruct (Nat.eqb_spec v x); destruct (Nat.eqb_spec w x); subst.
    + congruence.
    + injection E1 as <-; apply HB in E2; lia.
    + injection E2 as <-; apply HB in E1; lia.
    + repeat split; try assumption; apply S; [exact N | exists b; tauto].
  - assert (Nxy : x <> y) by (intros ->; apply (NS y), in_or_app; right; left; reflexivity).
    unfold addAlias; destruct (Nat.eqb_spec x y); [congruence |]; rewrite !in_addMust, !canAlias_clear.
    assert (XY : forall a b', env (cstep c (Copy x y)) a = Some b' -> a <> x -> a <> y -> env c y = Some b' -> False).
    { intros a b' Ea N1 N2 Ey.
      destruct (P3 x y a) as [Z | [Z | Z]]; try congruence; exists b'; rewrite !E, Nat.eqb_refl; split; try assumption.
      - destruct (Nat.eqb_spec y x); [congruence | exact Ey].
      - rewrite <- E; exact Ea. }
    destruct SM as [b [E1 E2]].
    destruct (Nat.eq_dec v x) as [-> | Nv].
    + destruct (Nat.eq_dec w y) as [-> | Nw]; [tauto |].
      exfalso; apply (XY w b); try assumption; [congruence |]; rewrite E, Nat.eqb_refl in E1; exact E1.
    + destruct (Nat.eq_dec v y) as [-> | Nv2].
      * destruct (Nat.eq_dec w x) as [-> | Nw]; [tauto |].
        exfalso; apply (XY w b); try assumption; [congruence |]; rewrite E in E1; destruct (Nat.eqb_spec y x); [congruence | exact E1].
      * assert (Z : w <> x /\ w <> y).
        { split; intros ->; apply (XY v b); try assumption; rewrite E in E2.
          - rewrite Nat.eqb_refl in E2; exact E2.
          - destruct (Nat.eqb_spec y x); [congruence | exact E2]. }
        rewrite E in E1, E2; destruct (Nat.eqb_spec v x); [congruence |]; destruct (Nat.eqb_spec w x); [tauto |].
        assert (I : In w (canAlias (al s) v)) by (apply S; [exact N | exists b; tauto]); tauto.
  - destruct SM as [b [E1 E2]]; rewrite E in E1, E2; apply S; [exact N | exists b; tauto].
  - destruct SM as [b [E1 E2]]; rewrite E in E1, E2; apply S; [exact N | exists b; tauto].
Qed.

(** Storage which nobody holds can not be released any more. *)
Definition lost (c : cstate) (b : nat) : Prop := b < next c /\ freed c b = false /\ forall v, env c v <> Some b.
Lemma lost_step c o b : lost c b -> lost (cstep c o) b.
Proof.
  intros [L [F N]]; split; [| split].
  - rewrite cstep_next; destruct o; lia.
  - rewrite cstep_freed; destruct o as [x | x y | x | x]; try exact F.
    destruct (env c x) as [z |] eqn:E; [| exact F].
    destruct (Nat.eqb_spec b z) as [-> | ?]; [destruct (N x E) | exact F].
  - intros v; rewrite cstep_env; destruct o as [x | x y | x | x]; cbn [env_step]; try apply N;
      destruct (Nat.eqb v x); try apply N; intros E; injection E as E; lia.
Qed.

(** A variable which must release storage holds some. *)
Definition owners_hold (s : state) (c : cstate) : Prop := forall v, owner (ak s v) = true -> env c v <> None.
Lemma lose_owner s c x v : holds s c -> owners_hold s c -> owner (ak (lose s x) v) = true -> env c v <> None.
Proof.
  intros [ND [HA HB]] O; unfold lose, canLose; destruct (owner (ak s x)) eqn:Ox; cbn [andb]; [| apply O].
  destruct (dst s x); try apply O.
  destruct (aliasedBy (al s) x) as [| w l] eqn:A; cbn [say ak]; [apply O |].
  cbn [setAk ak]; destruct (aliasedBy_hd _ _ _ _ ND A) as [N I].
  destruct (Nat.eq_dec v w) as [-> | Nv]; [rewrite (HA _ _ I); intros _; apply O; exact Ox | rewrite fset_other by exact Nv; apply O].
Qed.
Lemma owners_step s c o :
  holds s c -> owners_hold s c -> (forall x, In x (reads o) -> env c x <> None) -> owners_hold (step s o) (cstep c o).
Proof.
  intros H O R; pose proof H as [ND [HA HB]]; intros v; rewrite cstep_env.
  destruct o as [x | x y | x | x]; cbn [step env_step reads] in *.
  - unfold assignNew; cbn [setAl setDst setAk ak]; destruct (Nat.eqb_spec v x) as [-> | N]; [discriminate |].
    rewrite !fset_other by exact N; apply lose_owner; assumption.
  - unfold assignCopy; destruct (Nat.eqb_spec x y) as [-> | N].
    + cbn [setAl ak]; rewrite checkUse_ak; destruct (Nat.eqb_spec v y) as [-> | ?]; apply O.
    + cbn [setAl setDst ak]; destruct (Nat.eqb_spec v x) as [-> | Nv]; [intros _; apply R; left; reflexivity |].
      set (s1 := checkUse s y).
      assert (H1 : holds s1 c) by (subst s1; unfold holds; rewrite checkUse_al; exact H).
      assert (O1 : owners_hold s1 c) by (intros a; subst s1; rewrite checkUse_ak; apply O).
      clearbody s1; unfold transfer; cbn [setDst setAk ak]; rewrite (fset_other _ x KLocal y) by congruence.
      destruct (ak (lose s1 x) y) eqn:Ky; cbn [setDst setAk ak].
      * rewrite fset_other by exact Nv; apply lose_owner; assumption.
      * unfold setDependentComplete; rewrite (proj2 (proj2 (proj2 (fold_dep _ _)))); cbn [setDst setAk ak].
        destruct (mem v _); [discriminate |]; rewrite !fset_other by exact Nv; apply lose_owner; assumption.
      * rewrite fset_other by exact Nv; apply lose_owner; assumption.
      * rewrite !fset_other by exact Nv; apply lose_owner; assumption.
      * rewrite fset_other by exact Nv; apply lose_owner; assumption.
      * rewrite fset_other by exact Nv; apply lose_owner; assumption.
  - rewrite release_ak by exact ND; destruct (mem v _); [discriminate | apply O].
  - rewrite checkUse_ak; apply O.
Qed.
Lemma use_err_ok c o : flat_map (use_err c) (reads o) = [] -> forall x, In x (reads o) -> exists b, env c x = Some b /\ freed c b = false.
Proof.
  intros E x I; assert (U : use_err c x = []).
  { destruct o as [z | z y | z | z]; cbn [reads flat_map] in *; rewrite ?app_nil_r in E; (destruct I as [<- | []] || destruct I); exact E. }
  unfold use_err in U; destruct (env c x) as [b |]; [| discriminate]; exists b; destruct (freed c b); [discriminate | tauto].
Qed.
Lemma owners_run p : correct p -> owners_hold (run p) (crun p).
Proof.
  unfold correct.
  assert (G : holds (run p) (crun p) /\ (errs (crun p) = [] -> owners_hold (run p) (crun p))).
  { apply (invariant_both (fun s c => holds s c /\ (errs c = [] -> owners_hold s c))).
    - split; [exact holds_start | intros _ v H; discriminate].
    - intros s c o [H I]; split; [apply holds_step; exact H |]; rewrite cstep_errs; intros E.
      apply app_nil_both in E; destruct E as [E1 E2]; apply owners_step; [exact H | apply I; exact E1 |].
      intros x J; destruct (use_err_ok c o E2 x J) as [b [Eb _]]; congruence. }
  intros E; apply G, E.
Qed.

Lemma lose_lost s c x :
  holds s c -> sym s c -> faithful s c -> watched s c -> owners_hold s c ->
  out (lose s x) = out s \/ exists b, env c x = Some b /\ b < next c /\ freed c b = false /\ forall w, w <> x -> env c w <> Some b.
Proof.
  intros [ND [HA HB]] S F W O; unfold lose, canLose; destruct (owner (ak s x)) eqn:Ox; cbn [andb]; [| left; reflexivity].
  destruct (dst s x) eqn:D; try (left; reflexivity).
  destruct (aliasedBy (al s) x) as [| w l] eqn:A; [| left; reflexivity].
  right; destruct (env c x) as [b |] eqn:E; [| destruct (O x Ox E)].
  exists b; split; [reflexivity | split; [apply (HB x); exact E |]]; split.
  - destruct (freed c b) eqn:Fb; [rewrite (proj1 W x b E Fb) in D; discriminate | reflexivity].
  - intros v N; apply (sym_aliased s c x ND S A v b N E).
Qed.
Lemma pairs_quiet p : pairs p -> no_self_copy p -> correct p ->
  watched (run p) (crun p) /\ ((exists b, lost (crun p) b) \/ out (run p) = []).
Proof.
  induction p as [| o p IH] using rev_ind; intros P NS C.
  - split; [exact watched_start | right; reflexivity].
  - assert (Pp : pairs p) by (apply (pairs_prefix p [o]); exact P).
    assert (NSp : no_self_copy p) by (intros x I; apply (NS x), in_or_app; left; exact I).
    pose proof (holds_run p) as H; pose proof H as [ND [HA HB]].
    pose proof (sym_run p Pp NSp) as S.
    unfold correct in C; rewrite crun_app in *; rewrite run_app; cbn [fold_left] in *.
    rewrite cstep_errs in C; apply app_nil_both in C; destruct C as [C1 C2].
    destruct (IH Pp NSp C1) as [W L].
    destruct (no_false_use p C1) as [_ FT].
    pose proof (owners_run p C1) as O.
    destruct (faithful_step _ _ o H FT C2) as [_ UM].
    destruct (watched_step _ _ _ o H (sym_complete _ _ S) W UM) as [W' _].
    split; [exact W' |]; destruct L as [[b L] | Es]; [left; exists b; apply lost_step; exact L |].
    pose proof (kept_run p Es) as [K1 _].
    pose proof (use_err_ok _ _ C2) as R.
    set (s := run p) in *; set (c := crun p) in *.
    assert (LX : forall x b, env c x = Some b -> b < next c -> freed c b = false -> (forall w, w <> x -> env c w <> Some b) ->
       match o with New z => z = x | Copy z y => z = x /\ y <> x | _ => False end -> lost (cstep c o) b).
    { intros x b Ex Lb Fb Nb M; split; [| split].
      - rewrite cstep_next; destruct o; lia.
      - rewrite cstep_freed; destruct o as [z | z y | z | z]; tauto.
      - intros v; rewrite cstep_env; destruct o as [z | z y | z | z]; cbn [env_step] in *; try tauto.
        + subst z; destruct (Nat.eqb_spec v x); [intros X; injection X as X; lia | apply Nb; assumption].
        + destruct M as [-> M]; destruct (Nat.eqb_spec v x); apply Nb; assumption. }
    destruct o as [x | x y | x | x]; cbn [step reads] in *.
    + unfold assignNew; cbn [setAl setDst setAk out].
      destruct (lose_lost s c x H S FT W O) as [E | [b [E1 [E2 [E3 E4]]]]]; [right; rewrite E; exact Es |].
      left; exists b; apply (LX x b); try assumption; reflexivity.
    + assert (N : x <> y) by (intros ->; apply (NS y), in_or_app; right; left; reflexivity).
      cbn [flat_map] in C2; rewrite app_nil_r in C2.
      destruct (use_ok s c y FT C2) as [Dy _].
      assert (CU : checkUse s y = s) by (unfold checkUse; rewrite Dy; reflexivity).
      unfold assignCopy; rewrite CU; destruct (Nat.eqb_spec x y); [congruence |].
      cbn [setAl setDst setAk out]; rewrite transfer_out; cbn [setDst setAk out].
      destruct (lose_lost s c x H S FT W O) as [E | [b [E1 [E2 [E3 E4]]]]]; [right; rewrite E; exact Es |].
      left; exists b; apply (LX x b); try assumption; split; [reflexivity | congruence].
    + right; cbn [flat_map] in C2; rewrite app_nil_r in C2.
      destruct (use_ok s c x FT C2) as [Dx [b [Ex Fb]]].
      assert (CU : checkUse s x = s) by (unfold checkUse; rewrite Dx; reflexivity).
      unfold release, killComplete; rewrite (proj1 (proj2 (fold_kill _ _))), CU.
      destruct (ak s x) eqn:Kx; try exact Es; [| destruct (run_kinds p x Kx)].
      destruct (passDependent_out s x) as [E | [_ E]]; [rewrite E; exact Es | exfalso].
      destruct (K1 b) as [v [Ev [Ov _]]]; [apply (HB x); exact Ex | exact Fb |].
      apply (sym_aliased s c x ND S E v b); [| exact Ex | exact Ev].
      intros ->; rewrite Kx in Ov; discriminate.
    + right; rewrite checkUse_out, Es; cbn [flat_map] in UM; rewrite app_nil_r in UM; exact UM.
Qed.
Lemma pairs_disciplined p : pairs p -> no_self_copy p -> disciplined p.
Proof.
  unfold disciplined; intros P NS.
  assert (G : forall r q u, p = q ++ r -> (forall v, u v = true) -> disciplined_from (crun q) u r = true).
  { induction r as [| o r IH]; intros q u Ep Hu; [reflexivity |]; cbn [disciplined_from].
    assert (Ep' : p = (q ++ [o]) ++ r) by (rewrite <- app_assoc; exact Ep).
    replace (cstep (crun q) o) with (crun (q ++ [o])) by (rewrite crun_app; reflexivity).
    rewrite IH with (u := note (crun q) u o); [| exact Ep' |].
    - rewrite andb_true_r; destruct o as [x | x y | x | x]; try reflexivity; cbn [may_copy]; rewrite Hu, andb_true_r.
      apply negb_true_iff, Nat.eqb_neq; intros ->; apply (NS y); rewrite Ep; apply in_or_app; right; left; reflexivity.
    - intros v; destruct o as [x | x y | x | x]; cbn [note]; rewrite ?Hu, ?orb_true_r, ?andb_true_r; try reflexivity.
      destruct (Nat.eqb_spec v x); [reflexivity |]; destruct (Nat.eqb_spec v y); [reflexivity |]; cbn [orb].
      destruct (same_b (crun q) v y) eqn:SB; [exfalso | reflexivity].
      apply same_b_spec in SB; destruct SB as [b [E1 E2]].
      assert (Nxy : x <> y) by (intros ->; apply (NS y); rewrite Ep; apply in_or_app; right; left; reflexivity).
      assert (Z : forall a, env (crun (q ++ [Copy x y])) a = if Nat.eqb a x then env (crun q) y else env (crun q) a)
        by (intros a; rewrite crun_app; cbn [fold_left]; rewrite cstep_env; reflexivity).
      destruct (P (q ++ [Copy x y]) r Ep' x y v) as [X | [X | X]]; try congruence; exists b; rewrite !Z, Nat.eqb_refl.
      + destruct (Nat.eqb_spec y x); [congruence | tauto].
      + destruct (Nat.eqb_spec v x); [congruence | tauto]. }
  apply (G p [] (fun _ => true)); reflexivity.
Qed.
Lemma pairs_exact d p : pairs p -> no_self_copy p -> incl (targets p) d ->
  (messages d p = [] <-> correct p /\ all_released p).
Proof.
  intros P NS HV; split.
  - intros M; split; [| apply (leaks_reported d p HV M)].
    destruct (uses_reported p) as [C _]; [apply pairs_disciplined; assumption | | exact C].
    unfold messages in M; rewrite finish_true_silent in M; rewrite (proj1 M); reflexivity.
  - intros [C R]; destruct (pairs_quiet p P NS C) as [W [[b [L [F _]]] | E]]; [rewrite (R b L) in F; discriminate |].
    unfold messages; apply finish_true_silent; split; [exact E |].
    intros x _; destruct (owner (ak (run p) x)) eqn:O; [cbn [andb] | reflexivity].
    pose proof (owners_run p C x O) as N; destruct (env (crun p) x) as [b |] eqn:Ex; [| congruence].
    rewrite (proj1 W x b Ex); [reflexivity |]; apply R; apply (holds_run p) in Ex; exact Ex.
Qed.
Lemma two_pairs a b p : (forall x, In x (vars p) -> x = a \/ x = b) -> pairs p.
Proof.
  intros HV q r Ep x y z [n [E1 E2]] [m [E3 E4]].
  assert (T : forall v k, env (crun q) v = Some k -> v = a \/ v = b).
  { intros v k E; apply HV; apply env_targets in E; rewrite Ep; unfold vars; rewrite flat_map_app; apply in_or_app; left.
    apply in_flat_map in E; destruct E as [o [I J]]; apply in_flat_map; exists o; split; [exact I |].
    destruct o; cbn in J; try tauto; destruct J as [<- | []]; cbn; left; reflexivity. }
  apply T in E1, E2, E4; intuition congruence.
Qed.
