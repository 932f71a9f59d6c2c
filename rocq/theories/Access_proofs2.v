(** Lemmas about access within functions, comments, included files, lists of names, and casts. *)
From Verif Require Import Cbase Access_model Access_spec Access_proofs.
From Coq Require Import List Arith Bool Ascii Lia.
Import ListNotations.
Open Scope nat_scope.

Section Functions.
Variables accessmodule accessfile comments : bool.
Variable base : nat -> nat.
Notation step := (step accessmodule accessfile comments base).
Notation run := (run accessmodule accessfile comments base).
Notation grants := (grants accessmodule comments).
Notation granting := (granting accessmodule comments).
Notation fileGrant := (fileGrant accessmodule accessfile comments base).

(** Something with a body is being read, and its own set of types is looked at. *)
Definition within (k : ckind) : bool := inFunctionLike k && match k with KFcnDecl => false | _ => true end.
Definition saveOk (s : st) : Prop := forall k, savekind s = Some k -> inFunctionLike k = false.

Lemma step_saveOk : forall s e s' m, step s e = Some (s', m) -> saveOk s -> saveOk s'.
Proof.
  intros s e s' m H O; destruct e; cbn in H.
  - injection H as <- _; exact O.
  - injection H as <- _; unfold setFilename; destruct (Nat.eqb (file s) f); exact O.
  - injection H as <- _; unfold supAbstract; destruct accessmodule; exact O.
  - injection H as <- _; exact O.
  - unfold accessComment in H; destruct comments; [destruct (mem t (types s)); [destruct (mem t (abstracts s))|]|];
      injection H as <- _; exact O.
  - unfold noaccessComment in H; destruct comments; [destruct (mem t (types s)); [destruct (couldHaveAccess t s)|]|];
      injection H as <- _; exact O.
  - injection H as <- _; destruct k; exact O.
  - injection H as <- _; unfold exitFunction; destruct (kind s); exact O.
  - injection H as <- _; unfold enterDecl; destruct (inFunctionLike (kind s)) eqn:K; [exact O|].
    intros k E; cbn in E; injection E as <-; exact K.
  - injection H as <- _; unfold exitDecl; destruct (kind s) eqn:K; try exact O.
    destruct (savekind s) eqn:E; [intros k Z; cbn in Z; discriminate|intros k Z; congruence].
  - unfold exitCFile in H; destruct (kind s); try discriminate; injection H as <- _; exact O.
Qed.
Lemma run_saveOk : forall tr s s' m, run s tr = Some (s', m) -> saveOk s -> saveOk s'.
Proof.
  induction tr as [|e tr IH]; intros s s' m R O; cbn in R.
  - injection R as <- _; exact O.
  - destruct (step s e) as [[a b]|] eqn:S; [|discriminate].
    destruct (run a tr) as [[c d]|] eqn:Q; [|discriminate]; injection R as <- _.
    exact (IH _ _ _ Q (step_saveOk _ _ _ _ S O)).
Qed.
Lemma init_saveOk : forall f, saveOk (init f).
Proof. intros f k E; discriminate. Qed.

(** Events that are no files, no beginnings and no ends of bodies. *)
Definition calm (e : event) : Prop :=
  match e with EFile _ | ELine _ | EEnter _ _ | EExit => False | _ => True end.

Lemma step_acct : forall s e s' m t, step s e = Some (s', m) -> saveOk s -> calm e -> within (kind s') = true ->
  kind s = kind s' /\
  (mem t (acct s') = true -> mem t (acct s) = true \/ granting s e t) /\
  (granting s e t -> mem t (acct s') = true) /\
  (e <> ENoAccess t -> mem t (acct s) = true -> mem t (acct s') = true).
Proof.
  intros s e s' m t H O C W; unfold Access_proofs.granting; destruct e; cbn in C; try contradiction; cbn in H.
  - injection H as <- _; unfold supAbstract in *; destruct accessmodule.
    + cbn [kind acct addFileAccessType withTypes] in *; split; [reflexivity|].
      assert (L : inFunctionLike (kind s) = true) by (unfold within in W; apply andb_true_iff in W; tauto).
      rewrite L, mem_insert; intuition congruence.
    + cbn; intuition discriminate.
  - injection H as <- _; cbn; intuition discriminate.
  - unfold accessComment in H; destruct comments;
      [destruct (mem t0 (types s)) eqn:T; [destruct (mem t0 (abstracts s)) eqn:A|]|]; injection H as <- _.
    + cbn [kind acct addFileAccessType] in *; split; [reflexivity|].
      assert (L : inFunctionLike (kind s) = true) by (unfold within in W; apply andb_true_iff in W; tauto).
      rewrite L, mem_insert; split; [|split].
      * intros [->|K]; auto; right; right; repeat split; auto.
      * intros [[K _]|[K _]]; [discriminate|]; injection K as ->; auto.
      * auto.
    + split; [reflexivity|]; split; [|split]; auto; intros [[K _]|[K [_ [_ Z]]]]; [discriminate|]; injection K as ->; congruence.
    + split; [reflexivity|]; split; [|split]; auto; intros [[K _]|[K [_ [Z _]]]]; [discriminate|]; injection K as ->; congruence.
    + split; [reflexivity|]; split; [|split]; auto; intros [[K _]|[K [Z _]]]; discriminate.
  - unfold noaccessComment in H; destruct comments; [destruct (mem t0 (types s)); [destruct (couldHaveAccess t0 s)|]|];
      injection H as <- _; cbn [kind acct removeFileAccessType]; (split; [reflexivity|]);
      try destruct (inRealFunction (kind s)); rewrite ?mem_remove;
      (split; [intuition | split; [intros [[K _]|[K _]]; discriminate | intros N K; try split; auto; congruence]]).
  - injection H as <- _; unfold enterDecl in *; destruct (inFunctionLike (kind s)).
    + intuition discriminate.
    + discriminate W.
  - injection H as <- _; unfold exitDecl in *; destruct (kind s) eqn:K; try (rewrite K in *; intuition discriminate).
    destruct (savekind s) eqn:E; [|rewrite K in W; discriminate].
    cbn in W; unfold within in W; rewrite (O _ E) in W; discriminate.
  - unfold exitCFile in H; destruct (kind s) eqn:K; try discriminate; injection H as <- _.
    cbn in W; rewrite ?K in W; discriminate.
Qed.

Lemma calm_body : forall e, calm e -> bodyEvent e.
Proof. intros e; destruct e; cbn; tauto. Qed.
Lemma calm_stays : forall e f, calm e -> staysEvent f e.
Proof. intros e; destruct e; cbn; tauto. Qed.
Lemma real_within : forall k, inRealFunction k = true -> within k = true.
Proof. intros []; cbn; congruence. Qed.

(** What a function or macro has access to. *)
Definition bodyGrant (f0 : nat) (tr : list event) (k : ckind) (t : nat) : Prop :=
  fileGrant f0 tr t \/ (inRealFunction k = true /\ byFunction f0 tr t).

Lemma acct_exact : forall f0 tr s m t, run (init f0) tr = Some (s, m) -> within (kind s) = true ->
  (mem t (acct s) = true -> bodyGrant f0 tr (kind s) t) /\
  (~ In (ENoAccess t) tr -> bodyGrant f0 tr (kind s) t -> mem t (acct s) = true).
Proof.
  intros f0; induction tr as [|e tr IH] using rev_ind; intros s m t R W.
  - cbn in R; injection R as <- _; discriminate.
  - pose proof R as RR.
    apply run_snoc in R; destruct R as [s1 [m1 [m2 [R S]]]]; pose proof (inv _ _ _ _ _ _ _ _ R) as I.
    pose proof (run_saveOk _ _ _ _ R (init_saveOk f0)) as SO.
    assert (NA1 : ~ In (ENoAccess t) (tr ++ [e]) -> ~ In (ENoAccess t) tr)
      by (intros N K; apply N, in_or_app; left; exact K).
    assert (NT : ~ In (ENoAccess t) (tr ++ [e]) -> mem t (nacct s1) <> true).
    { intros N; apply (nacct_none _ _ _ _ _ _ _ _ t R); intros a b K; exfalso; apply (NA1 N); rewrite K.
      apply in_or_app; right; left; reflexivity. }
    pose proof (facct_sound _ _ _ _ _ _ _ _ t R) as FS.
    pose proof (facct_complete _ _ _ _ _ _ _ _ t R) as FC.
    destruct (match e return {calm e} + {~ calm e} with
              | EFile _ | ELine _ | EEnter _ _ | EExit => right (fun x => x) | _ => left Logic.I end) as [C|C].
    + destruct (step_acct _ _ _ _ t S SO C W) as [K [P1 [P2 P3]]].
      rewrite <- K in W; specialize (IH _ _ t R W).
      pose proof (calm_stays e (fileAfter f0 tr) C) as Y.
      unfold bodyGrant in *; rewrite <- K.
      rewrite (byFunction_snoc f0 tr e t Y (calm_body e C)), (grant_snoc _ _ _ _ _ _ _ _ Y).
      rewrite <- (granting_grants _ _ _ _ _ _ _ t I).
      split.
      * intros H; destruct (P1 H) as [Q|Q]; [|auto]; destruct (proj1 IH Q) as [Z|Z]; auto.
      * intros N G.
        assert (NE : e <> ENoAccess t) by (intros Z; apply N, in_or_app; right; left; exact Z).
        destruct G as [[G|G]|G]; [apply P3; [exact NE|]; apply (proj2 IH (NA1 N)); auto
                                 | apply P2; exact G
                                 | apply P3; [exact NE|]; apply (proj2 IH (NA1 N)); auto].
    + destruct e as [f|f|u|u|u|u|k a| | | |]; try (exfalso; apply C; exact Logic.I).
      * (* EFile *)
        assert (N : ~ staysEvent (fileAfter f0 tr) (EFile f)) by (intros []).
        assert (A : acct s = facct s) by (cbn in S; injection S as <- _; reflexivity).
        rewrite A; split.
        -- intros H; left; exact (facct_sound _ _ _ _ _ _ _ _ t RR H).
        -- intros NN [G|[_ G]]; [exact (facct_complete _ _ _ _ _ _ _ _ t RR NN G)|].
           destruct (byFunction_entry f0 tr _ t N G).
      * (* ELine *)
        destruct (Nat.eq_dec f (fileAfter f0 tr)) as [E|E].
        -- assert (Y : staysEvent (fileAfter f0 tr) (ELine f)) by exact E.
           assert (s = s1).
           { cbn in S; injection S as <- _; unfold setFilename; rewrite (I_file _ _ _ _ _ _ I), <- E, Nat.eqb_refl; reflexivity. }
           subst s1; specialize (IH _ _ t R W); unfold bodyGrant in *.
           rewrite (byFunction_snoc f0 tr (ELine f) t Y Logic.I), (grant_snoc _ _ _ _ _ _ _ _ Y).
           assert (NG : ~ grants tr (ELine f) t) by (intros [[Z _]|[Z _]]; discriminate).
           split; [intros H; destruct (proj1 IH H); auto|intros N G; apply (proj2 IH (NA1 N)); tauto].
        -- assert (N : ~ staysEvent (fileAfter f0 tr) (ELine f)) by exact E.
           assert (A : acct s = facct s).
           { cbn in S; injection S as <- _; unfold setFilename; rewrite (I_file _ _ _ _ _ _ I).
             destruct (Nat.eqb (fileAfter f0 tr) f) eqn:Q; [apply Nat.eqb_eq in Q; congruence|reflexivity]. }
           rewrite A; split.
           ++ intros H; left; exact (facct_sound _ _ _ _ _ _ _ _ t RR H).
           ++ intros NN [G|[_ G]]; [exact (facct_complete _ _ _ _ _ _ _ _ t RR NN G)|].
              destruct (byFunction_entry f0 tr _ t N G).
      * (* EEnter *)
        assert (Y : staysEvent (fileAfter f0 tr) (EEnter k a)) by exact Logic.I.
        assert (NG : ~ grants tr (EEnter k a) t) by (intros [[Z _]|[Z _]]; discriminate).
        unfold bodyGrant in *; rewrite (grant_snoc _ _ _ _ _ _ _ _ Y).
        cbn in S; injection S as <- _.
        destruct k; cbn [enter] in *.
        -- rewrite (byFunction_snoc f0 tr (EEnter KGlobal a) t Y Logic.I).
           specialize (IH _ _ t R W); split; [intros H; destruct (proj1 IH H); auto|intros N G; apply (proj2 IH (NA1 N)); tauto].
        -- cbn [kind acct withContext] in *; rewrite byFunction_enter by reflexivity.
           destruct (functionAccess_mem a s1 t) as [F1 F2]; split.
           ++ intros H; destruct (F1 H); auto.
           ++ intros N G; apply F2; [exact (NT N)|]; destruct G as [[G|G]|[_ G]]; auto; contradiction.
        -- cbn [kind acct withContext] in *; rewrite byFunction_enter by reflexivity.
           destruct (functionAccess_mem a s1 t) as [F1 F2]; split.
           ++ intros H; destruct (F1 H); auto.
           ++ intros N G; apply F2; [exact (NT N)|]; destruct G as [[G|G]|[_ G]]; auto; contradiction.
        -- cbn [kind acct withContext] in *; rewrite byFunction_enter by reflexivity.
           destruct (functionAccess_mem a s1 t) as [F1 F2]; split.
           ++ intros H; destruct (F1 H); auto.
           ++ intros N G; apply F2; [exact (NT N)|]; destruct G as [[G|G]|[_ G]]; auto; contradiction.
        -- discriminate.
        -- cbn [kind acct withContext] in *; rewrite mem_subtract; split.
           ++ intros [H _]; auto.
           ++ intros N [[G|G]|[Z _]]; [auto|contradiction|discriminate].
        -- discriminate.
        -- rewrite (byFunction_snoc f0 tr (EEnter KFcnDecl a) t Y Logic.I).
           specialize (IH _ _ t R W); split; [intros H; destruct (proj1 IH H); auto|intros N G; apply (proj2 IH (NA1 N)); tauto].
      * (* EExit *)
        exfalso; cbn in S; injection S as <- _; unfold exitFunction in W; destruct (kind s1) eqn:K;
          cbn in W; try discriminate; rewrite K in W; discriminate.
Qed.

Lemma access_within : forall k, k <> KFcnDecl -> inFunctionLike k = within k.
Proof. intros [] N; try reflexivity; congruence. Qed.

Lemma access_sound : forall f0 tr s m t, run (init f0) tr = Some (s, m) -> kind s <> KFcnDecl ->
  hasAccess t s = true -> bodyGrant f0 tr (kind s) t.
Proof.
  intros f0 tr s m t R K H; unfold hasAccess in H; rewrite (access_within _ K) in H.
  destruct (within (kind s)) eqn:W.
  - exact (proj1 (acct_exact _ _ _ _ t R W) H).
  - left; exact (facct_sound _ _ _ _ _ _ _ _ t R H).
Qed.
Lemma access_complete : forall f0 tr s m t, run (init f0) tr = Some (s, m) -> kind s <> KFcnDecl ->
  ~ In (ENoAccess t) tr -> bodyGrant f0 tr (kind s) t -> hasAccess t s = true.
Proof.
  intros f0 tr s m t R K N G; unfold hasAccess; rewrite (access_within _ K).
  destruct (within (kind s)) eqn:W.
  - exact (proj2 (acct_exact _ _ _ _ t R W) N G).
  - destruct G as [G|[Z _]]; [exact (facct_complete _ _ _ _ _ _ _ _ t R N G)|].
    apply real_within in Z; congruence.
Qed.

(** ** Comments *)
Definition Given (t : nat) (s : st) : Prop :=
  mem t (facct s) = true /\ mem t (nacct s) <> true /\
  (within (kind s) = true -> mem t (acct s) = true) /\ saveOk s.
Definition Refused (t : nat) (s : st) : Prop :=
  mem t (facct s) <> true /\ mem t (nacct s) = true /\
  (within (kind s) = true -> mem t (acct s) <> true) /\ saveOk s.

Lemma enter_acct : forall k a s t, within k = true ->
  (mem t (facct s) = true -> mem t (nacct s) <> true -> mem t (acct (enter k a s)) = true) /\
  (mem t (facct s) <> true -> mem t (nacct s) = true -> mem t (acct (enter k a s)) <> true).
Proof.
  intros k a s t W; destruct k; try discriminate; cbn [enter acct withContext];
    try (destruct a; cbn [functionAccess]); rewrite ?mem_subtract, ?mem_union; tauto.
Qed.
Lemma enter_kind : forall k a s, (kind (enter k a s) = k /\ k <> KGlobal /\ k <> KFcnDecl) \/ enter k a s = s.
Proof. intros [] a s; cbn; auto; left; repeat split; discriminate. Qed.
Lemma enter_facct : forall k a s, facct (enter k a s) = facct s /\ nacct (enter k a s) = nacct s.
Proof. intros [] a s; cbn; auto. Qed.

Lemma exit_kind : forall s, within (kind (exitFunction s)) = false.
Proof. intros s; unfold exitFunction; destruct (kind s) eqn:K; cbn; rewrite ?K; reflexivity. Qed.

Lemma step_nacct : forall s e s' m t, step s e = Some (s', m) -> staysEvent (file s) e ->
  (e <> ENoAccess t -> mem t (nacct s') = true -> mem t (nacct s) = true) /\
  (e <> EEnd -> mem t (nacct s) = true -> mem t (nacct s') = true).
Proof.
  intros s e s' m t H Y; destruct e; cbn in H.
  - destruct Y.
  - injection H as <- _; unfold setFilename; cbn in Y; subst f; rewrite Nat.eqb_refl; auto.
  - injection H as <- _; unfold supAbstract; destruct accessmodule; auto.
  - injection H as <- _; auto.
  - unfold accessComment in H; destruct comments; [destruct (mem t0 (types s)); [destruct (mem t0 (abstracts s))|]|];
      injection H as <- _; auto.
  - unfold noaccessComment in H; destruct comments; [destruct (mem t0 (types s)); [destruct (couldHaveAccess t0 s)|]|];
      injection H as <- _; auto.
    cbn [nacct removeFileAccessType]; rewrite mem_insert; split; [intros N [K|K]; [congruence|auto]|auto].
  - injection H as <- _; rewrite (proj2 (enter_facct k a s)); auto.
  - injection H as <- _; unfold exitFunction; destruct (kind s); auto.
  - injection H as <- _; unfold enterDecl; destruct (inFunctionLike (kind s)); auto.
  - injection H as <- _; unfold exitDecl; destruct (kind s), (savekind s); auto.
  - unfold exitCFile in H; destruct (kind s); try discriminate; injection H as <- _; cbn; split; [discriminate|congruence].
Qed.

Lemma step_given : forall s e s' m t, step s e = Some (s', m) -> staysEvent (file s) e -> e <> ENoAccess t ->
  Given t s -> Given t s'.
Proof.
  intros s e s' m t S Y N [F [NT [A O]]].
  pose proof (step_facct _ _ _ _ _ _ _ _ t S) as PF.
  pose proof (step_nacct _ _ _ _ t S Y) as [PN _].
  refine (conj _ (conj (fun K => NT (PN N K)) (conj _ (step_saveOk _ _ _ _ S O)))).
  - destruct e; try (apply (proj2 (proj2 PF)); auto; fail); [destruct Y|].
    cbn in Y; rewrite (proj2 PF Y); exact F.
  - intros W.
    destruct (match e return {calm e} + {~ calm e} with
              | EFile _ | ELine _ | EEnter _ _ | EExit => right (fun x => x) | _ => left Logic.I end) as [C|C].
    + destruct (step_acct _ _ _ _ t S O C W) as [K [_ [_ P3]]]; apply P3; [exact N|]; apply A; rewrite K; exact W.
    + destruct e; try (exfalso; apply C; exact Logic.I).
      * destruct Y.
      * cbn in Y; rewrite (proj2 PF Y) in W |- *; auto.
      * cbn in S; injection S as <- _; destruct (enter_kind k a s) as [[K _]|K].
        -- rewrite K in W; apply (proj1 (enter_acct k a s t W)); auto.
        -- rewrite K in W |- *; auto.
      * cbn in S; injection S as <- _; rewrite exit_kind in W; discriminate.
Qed.

Lemma step_refused : forall s e s' m t, step s e = Some (s', m) -> staysEvent (file s) e -> e <> EEnd ->
  e <> EAccess t -> e <> EAbstract t -> Refused t s -> Refused t s'.
Proof.
  intros s e s' m t S Y NE N1 N2 [F [NT [A O]]].
  pose proof (step_facct _ _ _ _ _ _ _ _ t S) as PF.
  pose proof (step_nacct _ _ _ _ t S Y) as [_ PN].
  assert (NG : ~ granting s e t) by (intros [[G _]|[G _]]; congruence).
  refine (conj _ (conj (PN NE NT) (conj _ (step_saveOk _ _ _ _ S O)))).
  - destruct e; try (intros K; destruct (proj1 PF K); auto; fail); cbn in Y; try contradiction;
      rewrite (proj2 PF Y); exact F.
  - intros W.
    destruct (match e return {calm e} + {~ calm e} with
              | EFile _ | ELine _ | EEnter _ _ | EExit => right (fun x => x) | _ => left Logic.I end) as [C|C].
    + destruct (step_acct _ _ _ _ t S O C W) as [K [P1 _]]; intros H; destruct (P1 H) as [Q|Q]; [|auto].
      revert Q; apply A; rewrite K; exact W.
    + destruct e; try (exfalso; apply C; exact Logic.I).
      * destruct Y.
      * cbn in Y; rewrite (proj2 PF Y) in W |- *; auto.
      * cbn in S; injection S as <- _; destruct (enter_kind k a s) as [[K _]|K].
        -- rewrite K in W; apply (proj2 (enter_acct k a s t W)); auto.
        -- rewrite K in W |- *; auto.
      * cbn in S; injection S as <- _; rewrite exit_kind in W; discriminate.
Qed.

Lemma step_stays_file : forall s e s' m, step s e = Some (s', m) -> staysEvent (file s) e -> file s' = file s.
Proof.
  intros s e s' m S Y; rewrite (step_file _ _ _ _ _ _ _ _ _ S eq_refl).
  apply stays_file; intros x [<-|[]]; exact Y.
Qed.

Lemma run_given : forall tr s s' m t, run s tr = Some (s', m) -> stays (file s) tr -> ~ In (ENoAccess t) tr ->
  Given t s -> Given t s'.
Proof.
  induction tr as [|e tr IH]; intros s s' m t R Y N G; cbn in R.
  - injection R as <- _; exact G.
  - destruct (step s e) as [[a b]|] eqn:S; [|discriminate].
    destruct (run a tr) as [[c d]|] eqn:Q; [|discriminate]; injection R as <- _.
    assert (Y1 : staysEvent (file s) e) by (apply Y; left; reflexivity).
    refine (IH _ _ _ _ Q _ (fun K => N (or_intror K)) (step_given _ _ _ _ _ S Y1 (fun K => N (or_introl K)) G)).
    intros x X; rewrite (step_stays_file _ _ _ _ S Y1); apply Y; right; exact X.
Qed.
Lemma run_refused : forall tr s s' m t, run s tr = Some (s', m) -> stays (file s) tr -> ~ In EEnd tr ->
  ~ In (EAccess t) tr -> ~ In (EAbstract t) tr -> Refused t s -> Refused t s'.
Proof.
  induction tr as [|e tr IH]; intros s s' m t R Y N N1 N2 G; cbn in R.
  - injection R as <- _; exact G.
  - destruct (step s e) as [[a b]|] eqn:S; [|discriminate].
    destruct (run a tr) as [[c d]|] eqn:Q; [|discriminate]; injection R as <- _.
    assert (Y1 : staysEvent (file s) e) by (apply Y; left; reflexivity).
    refine (IH _ _ _ _ Q _ (fun K => N (or_intror K)) (fun K => N1 (or_intror K)) (fun K => N2 (or_intror K))
              (step_refused _ _ _ _ _ S Y1 (fun K => N (or_introl K)) (fun K => N1 (or_introl K)) (fun K => N2 (or_introl K)) G)).
    intros x X; rewrite (step_stays_file _ _ _ _ S Y1); apply Y; right; exact X.
Qed.

Lemma given_access : forall t s, Given t s -> kind s <> KFcnDecl -> hasAccess t s = true.
Proof.
  intros t s [F [_ [A _]]] K; unfold hasAccess; rewrite (access_within _ K).
  destruct (within (kind s)) eqn:W; auto.
Qed.
Lemma refused_access : forall t s, Refused t s -> kind s <> KFcnDecl -> hasAccess t s = false.
Proof.
  intros t s [F [_ [A _]]] K; unfold hasAccess; rewrite (access_within _ K).
  destruct (within (kind s)) eqn:W; apply not_true_iff_false; auto.
Qed.

Lemma access_comment_decides : forall f0 tr1 t tr2 s m,
  comments = true -> In (EAbstract t) tr1 -> refusalOver f0 tr1 t ->
  stays (fileAfter f0 tr1) tr2 -> ~ In (ENoAccess t) tr2 ->
  run (init f0) (tr1 ++ EAccess t :: tr2) = Some (s, m) -> kind s <> KFcnDecl ->
  hasAccess t s = true.
Proof.
  intros f0 tr1 t tr2 s m C A O Y N R K.
  apply run_app in R; destruct R as [s1 [m1 [m2 [R1 R2]]]]; pose proof (inv _ _ _ _ _ _ _ _ R1) as I.
  cbn [Access_model.run Access_model.step] in R2; unfold accessComment in R2; rewrite C in R2.
  rewrite (proj2 (I_types _ _ _ _ _ _ I t) (or_introl A)), (proj2 (I_abs _ _ _ _ _ _ I t) A) in R2.
  remember (addFileAccessType base t s1) as s2 eqn:E.
  destruct (Access_model.run accessmodule accessfile true base s2 tr2) as [[c d]|] eqn:Q; [|discriminate].
  injection R2 as <- _.
  apply given_access; [|exact K].
  rewrite <- C in Q; refine (run_given _ _ _ _ _ Q _ N _).
  - subst s2; cbn [file addFileAccessType]; rewrite (I_file _ _ _ _ _ _ I); exact Y.
  - subst s2; unfold Given; cbn [facct nacct kind acct addFileAccessType].
    refine (conj (proj2 (mem_insert _ _ _) (or_introl eq_refl)) (conj (nacct_none _ _ _ _ _ _ _ _ _ R1 O) (conj _ _))).
    + intros W; assert (L : inFunctionLike (kind s1) = true) by (unfold within in W; apply andb_true_iff in W; tauto).
      rewrite L; apply mem_insert; auto.
    + exact (run_saveOk _ _ _ _ R1 (init_saveOk f0)).
Qed.

Lemma noaccess_comment_decides : forall f0 tr1 s1 m1 t tr2 s m,
  comments = true -> run (init f0) tr1 = Some (s1, m1) -> defined t tr1 -> hasAccess t s1 = true ->
  kind s1 <> KFcnDecl -> kind s1 <> KIterDef ->
  stays (fileAfter f0 tr1) tr2 -> ~ In EEnd tr2 -> ~ In (EAccess t) tr2 -> ~ In (EAbstract t) tr2 ->
  run (init f0) (tr1 ++ ENoAccess t :: tr2) = Some (s, m) -> kind s <> KFcnDecl ->
  hasAccess t s = false.
Proof.
  intros f0 tr1 s1 m1 t tr2 s m C R1 D A K1 K2 Y N N1 N2 R K.
  apply run_app in R; destruct R as [s1' [m1' [m2 [R1' R2]]]]; rewrite R1 in R1'; injection R1' as <- <-.
  pose proof (inv _ _ _ _ _ _ _ _ R1) as I.
  cbn [Access_model.run Access_model.step] in R2; unfold noaccessComment in R2; rewrite C in R2.
  rewrite (proj2 (I_types _ _ _ _ _ _ I t) D) in R2.
  assert (CH : couldHaveAccess t s1 = true).
  { unfold couldHaveAccess, hasAccess in *; destruct (kind s1); try exact A; congruence. }
  rewrite CH in R2.
  remember (removeFileAccessType t s1) as s2 eqn:E.
  destruct (Access_model.run accessmodule accessfile true base s2 tr2) as [[c d]|] eqn:Q; [|discriminate].
  injection R2 as <- _.
  apply refused_access; [|exact K].
  rewrite <- C in Q; refine (run_refused _ _ _ _ _ Q _ N N1 N2 _).
  - subst s2; cbn [file removeFileAccessType]; rewrite (I_file _ _ _ _ _ _ I); exact Y.
  - subst s2; unfold Refused; cbn [facct nacct kind acct removeFileAccessType].
    refine (conj _ (conj (proj2 (mem_insert _ _ _) (or_introl eq_refl)) (conj _ _))).
    + rewrite mem_remove; intros [Z _]; congruence.
    + intros W; assert (L : inRealFunction (kind s1) = true) by (destruct (kind s1); try discriminate W; try reflexivity; congruence).
      rewrite L, mem_remove; intros [Z _]; congruence.
    + exact (run_saveOk _ _ _ _ R1 (init_saveOk f0)).
Qed.

(** ** Included files *)
Definition Kept (b t : nat) (s : st) : Prop :=
  (mem t (moduleAccess b (modules s)) = true \/ (accessfile = true /\ t = b /\ mem t (types s) = true)) /\
  (base (file s) = b -> mem t (facct s) = true).

Lemma step_kept : forall s e s' m b t, accessmodule = true -> step s e = Some (s', m) -> e <> ENoAccess t ->
  Kept b t s -> Kept b t s'.
Proof.
  intros s e s' m b t AM S N [M F]; split.
  - destruct M as [M|[M1 [M2 M3]]].
    + left; apply (step_modules _ _ _ _ _ _ _ _ b t S); auto.
    + right; repeat split; auto; apply (step_types _ _ _ _ _ _ _ _ t S); auto.
  - intros B; pose proof (step_facct _ _ _ _ _ _ _ _ t S) as P.
    assert (E : forall f, base f = b -> atEntry accessmodule accessfile base s f t).
    { intros f <-; destruct M as [M|[M1 [M2 M3]]]; [right | left]; auto. }
    pose proof (step_file _ _ _ _ _ _ _ _ _ S eq_refl) as FF.
    destruct e; cbn [fileAfter] in FF; try (rewrite FF in B; apply (proj2 (proj2 P)); auto; fail).
    + apply P, E; congruence.
    + destruct (Nat.eq_dec f (file s)) as [X|X].
      * rewrite (proj2 P X) in *; auto.
      * apply (proj1 P X), E; congruence.
Qed.
Lemma run_kept : forall tr s s' m b t, accessmodule = true -> run s tr = Some (s', m) -> ~ In (ENoAccess t) tr ->
  Kept b t s -> Kept b t s'.
Proof.
  induction tr as [|e tr IH]; intros s s' m b t AM R N G; cbn in R.
  - injection R as <- _; exact G.
  - destruct (step s e) as [[x y]|] eqn:S; [|discriminate].
    destruct (run x tr) as [[c d]|] eqn:Q; [|discriminate]; injection R as <- _.
    exact (IH _ _ _ _ _ AM Q (fun K => N (or_intror K)) (step_kept _ _ _ _ _ _ AM S (fun K => N (or_introl K)) G)).
Qed.

Lemma run_file : forall tr s s' m, run s tr = Some (s', m) -> file s' = fileAfter (file s) tr.
Proof.
  induction tr as [|e tr IH]; intros s s' m R.
  - cbn in R; injection R as <- _; reflexivity.
  - cbn [Access_model.run] in R; destruct (step s e) as [[x y]|] eqn:S; [|discriminate].
    destruct (run x tr) as [[c d]|] eqn:Q; [|discriminate]; injection R as <- _.
    rewrite (IH _ _ _ Q), (step_file _ _ _ _ _ _ _ _ _ S eq_refl); destruct e; reflexivity.
Qed.

Lemma include_keeps : forall f0 tr1 s1 m1 tr2 s2 m2 t, accessmodule = true ->
  run (init f0) tr1 = Some (s1, m1) -> kind s1 = KGlobal -> hasAccess t s1 = true ->
  run s1 tr2 = Some (s2, m2) -> base (fileAfter f0 (tr1 ++ tr2)) = base (fileAfter f0 tr1) -> ~ In (ENoAccess t) tr2 ->
  inFunctionLike (kind s2) = false -> hasAccess t s2 = true.
Proof.
  intros f0 tr1 s1 m1 tr2 s2 m2 t AM R1 K1 A R2 B N K2.
  pose proof (inv _ _ _ _ _ _ _ _ R1) as I.
  unfold hasAccess in *; rewrite K2; rewrite K1 in A; cbn in A.
  assert (F2 : file s2 = fileAfter f0 (tr1 ++ tr2)).
  { rewrite fileAfter_app, <- (I_file _ _ _ _ _ _ I); exact (run_file _ _ _ _ R2). }
  assert (G : Kept (base (file s1)) t s1).
  { split; [|auto].
    destruct (facct_sound _ _ _ _ _ _ _ _ t R1 A) as [G|[G1 [G2 [q [e [q' [G3 [_ G4]]]]]]]].
    - left; apply (I_mods _ _ _ _ _ _ I); rewrite (I_file _ _ _ _ _ _ I).
      apply (granted_any _ _ _ _ _ _ _ AM); exact G.
    - right; rewrite (I_file _ _ _ _ _ _ I); repeat split; auto; apply (I_types _ _ _ _ _ _ I).
      subst tr1; destruct G4 as [G4|G4]; [left|right]; apply in_or_app; left; exact G4. }
  apply (run_kept _ _ _ _ _ _ AM R2 N G); rewrite F2, B, (I_file _ _ _ _ _ _ I); reflexivity.
Qed.

Lemma include_gains_nothing : forall f0 tr1 s1 m1 tr2 s2 m2 m t,
  run (init f0) tr1 = Some (s1, m1) -> inFunctionLike (kind s1) = false -> hasAccess t s1 = false ->
  ~ In (ENoAccess t) tr1 -> run s1 tr2 = Some (s2, m2) -> run (init f0) (tr1 ++ tr2) = Some (s2, m) ->
  base (fileAfter f0 (tr1 ++ tr2)) = base (fileAfter f0 tr1) ->
  ~ In (EAccess t) tr2 -> ~ In (EAbstract t) tr2 ->
  accessfile = false \/ t <> base (fileAfter f0 tr1) ->
  inFunctionLike (kind s2) = false -> hasAccess t s2 = false.
Proof.
  intros f0 tr1 s1 m1 tr2 s2 m2 m t R1 K1 A N R2 R B N1 N2 OF K2.
  unfold hasAccess in *; rewrite K2; rewrite K1 in A.
  apply not_true_iff_false; intros H.
  pose proof (facct_sound _ _ _ _ _ _ _ _ t R H) as G; unfold Access_proofs.fileGrant in G; rewrite B in G.
  assert (FG : fileGrant f0 tr1 t).
  { destruct G as [[p [e [q [E [G [F C]]]]]]|[G1 [G2 _]]].
    - assert (P : exists q1, tr1 = p ++ e :: q1 /\ q = q1 ++ tr2).
      { assert (NI : ~ In e tr2) by (destruct G as [[-> _]|[-> _]]; assumption).
        clear - E NI; revert p E; induction tr1 as [|x r IH]; intros p E.
        - exfalso; apply NI; cbn in E; rewrite E; apply in_or_app; right; left; reflexivity.
        - destruct p as [|y p].
          + cbn in E; injection E as -> E; exists r; auto.
          + cbn in E; injection E as -> E; destruct (IH p E) as [q1 [E1 E2]]; exists q1; subst; auto. }
      destruct P as [q1 [-> ->]]; left; exists p, e, q1; repeat (split; [assumption || reflexivity|]).
      destruct C as [C|C]; auto; right; intros y Y; apply C, in_or_app; left; exact Y.
    - exfalso; destruct OF as [OF|OF]; [congruence|]; apply OF; rewrite G2; exact B. }
  rewrite (facct_complete _ _ _ _ _ _ _ _ t R1 N FG) in A; discriminate.
Qed.
End Functions.

(** ** Lists of names *)
Lemma skipGap_app : forall g s, forallb isGap g = true -> skipGap (g ++ s) = skipGap s.
Proof.
  induction g as [|c g IH]; intros s H; [reflexivity|].
  cbn in H |- *; apply andb_true_iff in H; destruct H as [A B]; rewrite A; auto.
Qed.
Lemma takeName_name : forall n r, forallb (fun c => negb (isGapOrComma c)) n = true ->
  match r with [] => True | c :: _ => isGapOrComma c = true end -> takeName (n ++ r) = (n, r).
Proof.
  induction n as [|c n IH]; intros r H R.
  - destruct r as [|c r]; [reflexivity|]; cbn; unfold isGapOrComma in R; rewrite R; reflexivity.
  - cbn in H |- *; apply andb_true_iff in H; destruct H as [A B]; unfold isGapOrComma in A at 1.
    apply negb_true_iff in A; rewrite A, (IH r B R); reflexivity.
Qed.
Lemma skipGap_name : forall n r, isName n -> skipGap (n ++ r) = n ++ r.
Proof.
  intros [|c n] r [N H]; [congruence|]; cbn in H |- *; apply andb_true_iff in H; destruct H as [A _].
  unfold isGapOrComma in A; apply negb_true_iff, orb_false_iff in A; destruct A as [-> _]; reflexivity.
Qed.
Lemma namesOf_eq : forall k s s1, skipGap s = s1 -> s1 <> [] ->
  namesOf (S k) s =
  (let (name, rest) := takeName s1 in
   match rest with
   | [] => Some [name]
   | c :: r => if Ascii.eqb c "," || Ascii.eqb c " "
               then match namesOf k r with Some l => Some (name :: l) | None => None end
               else Some [name]
   end).
Proof. intros k s s1 E N; cbn [namesOf]; rewrite E; destruct s1; [congruence|reflexivity]. Qed.
Lemma name_app : forall n (r : list ascii), isName n -> n ++ r <> [].
Proof. intros [|c n] r [N _]; [congruence|discriminate]. Qed.

Lemma names_read : forall ns s, listText ns s -> forall fuel, length s < fuel -> namesOf fuel s = Some ns.
Proof.
  intros ns s L; induction L as [g G|g n G N|g n c ns s G N C L IH]; intros fuel F;
    (destruct fuel as [|fuel]; [lia|]).
  - cbn [namesOf]; rewrite <- (app_nil_r g), (skipGap_app _ _ G); reflexivity.
  - replace (g ++ n) with (g ++ n ++ []) by (rewrite app_nil_r; reflexivity).
    rewrite (namesOf_eq fuel _ (n ++ [])); [|rewrite (skipGap_app _ _ G); apply skipGap_name; exact N|apply name_app; exact N].
    rewrite (takeName_name n []); [reflexivity|apply N|exact Logic.I].
  - rewrite (namesOf_eq fuel _ (n ++ c :: s)); [|rewrite (skipGap_app _ _ G); apply skipGap_name; exact N|apply name_app; exact N].
    rewrite (takeName_name n (c :: s)).
    + assert (T : Ascii.eqb c "," || Ascii.eqb c " " = true)
        by (destruct C as [-> | ->]; reflexivity).
      rewrite T, (IH fuel); [reflexivity|rewrite !app_length in F; cbn in F; lia].
    + apply N.
    + unfold isGapOrComma, isGap; destruct C as [-> | ->]; reflexivity.
Qed.

(** ** Casts *)
Section CastProofs.
Variable kindOf : nat -> tkind.
Variable body : nat -> ty.
Variable access : nat -> bool.
Variable matches equal : ty -> ty -> bool.
Variables zeroptr voidabstract : bool.
Notation realType := (realType kindOf body access).
Notation opened := (opened kindOf access).
Notation under := (under kindOf body access).
Notation value := (value kindOf body access).
Notation explicit := (explicit kindOf body access).
Notation castMsgs := (castMsgs kindOf body access matches equal zeroptr voidabstract).
Notation isAbstract := (isAbstract kindOf).

Lemma closed_iff : forall n, isAbstractName kindOf n && negb (access n) = true <-> ~ opened n.
Proof.
  intros n; unfold isAbstractName, Access_spec.opened; destruct (kindOf n), (access n); cbn; intuition congruence.
Qed.
Lemma opened_iff : forall n, isAbstractName kindOf n && negb (access n) = false <-> opened n.
Proof.
  intros n; unfold isAbstractName, Access_spec.opened; destruct (kindOf n), (access n); cbn; intuition congruence.
Qed.

Lemma real_facts : forall fuel t r, realType fuel t = Some r ->
  (forall n, r = TName n -> ~ opened n /\ under t n) /\
  (isAP r = false -> value t) /\
  (value t -> isAP r = false) /\
  (forall a, under t a -> value t -> r = TName a).
Proof.
  induction fuel as [|fuel IH]; intros t r H; destruct t as [| |k|u|u|n]; cbn in H.
  all: try (injection H as <-; repeat split; intros; try discriminate; try (constructor; fail); try reflexivity;
            match goal with
            | H : Access_spec.under _ _ _ _ _ |- _ => inversion H; subst; try match goal with V : Access_spec.value _ _ _ _ |- _ => inversion V end
            | V : Access_spec.value _ _ _ _ |- _ => inversion V
            end; fail).
  - destruct (isAbstractName kindOf n && negb (access n)) eqn:E; [|discriminate].
    injection H as <-; apply closed_iff in E; repeat split.
    + injection H as <-; exact E.
    + injection H as <-; constructor; exact E.
    + intros _; apply V_closed; exact E.
    + intros a U _; inversion U; subst; [reflexivity|contradiction].
  - destruct (isAbstractName kindOf n && negb (access n)) eqn:E.
    + injection H as <-; apply closed_iff in E; repeat split.
      * injection H as <-; exact E.
      * injection H as <-; constructor; exact E.
      * intros _; apply V_closed; exact E.
      * intros a U _; inversion U; subst; [reflexivity|contradiction].
    + apply opened_iff in E; destruct (IH _ _ H) as [P1 [P2 [P3 P4]]].
      refine (conj _ (conj _ (conj _ _))).
      * intros m M; destruct (P1 m M) as [Q1 Q2]; split; [exact Q1|apply Un_open; assumption].
      * intros A; apply V_open; auto.
      * intros V; apply P3; inversion V; subst; [contradiction|assumption].
      * intros a U V; apply P4; [inversion U; subst; [contradiction|assumption]
                                |inversion V; subst; [contradiction|assumption]].
Qed.

Lemma under_base : forall t a, under t a <-> under (getBaseType t) a.
Proof.
  induction t as [| | |t IH|t IH|]; intros a; cbn [getBaseType]; try reflexivity;
    rewrite <- IH; split; intros U; try (inversion U; subst; assumption); constructor; exact U.
Qed.
Lemma explicit_base : forall t, explicit t -> value (getBaseType t).
Proof.
  induction 1 as [t V|t E IH|t E IH]; [|exact IH|exact IH].
  destruct V; cbn [getBaseType];
    [apply V_void|apply V_unknown|apply V_other|apply V_closed; assumption|apply V_open; assumption].
Qed.
Lemma names_base : forall t n, getBaseType t = TName n <-> names t = [n].
Proof.
  induction t as [| |k|t IH|t IH|m]; intros n; cbn [getBaseType names]; try (split; discriminate); try apply IH.
  split; intros E; injection E as ->; reflexivity.
Qed.

Notation closedNames := (closedNames access).
Lemma closed_tyAccess : forall t, closedNames t -> tyAccess access (getBaseType t) = false.
Proof.
  intros t C; destruct (getBaseType t) eqn:E; try reflexivity.
  cbn; apply C; rewrite (proj1 (names_base t n) E); left; reflexivity.
Qed.
Lemma abstract_name : forall n, ~ opened n -> isAbstract (TName n) = true /\ access n = false.
Proof. intros n N; apply closed_iff in N; apply andb_true_iff in N; rewrite negb_true_iff in N; exact N. Qed.

Lemma silent_cast : forall fuel c t nl, voidabstract = false ->
  castMsgs fuel c t false nl = Some [] -> c <> TVoid ->
  explicit c -> explicit t -> closedNames c -> closedNames t ->
  forall a, under c a \/ under t a -> value c /\ matches c t = true.
Proof.
  intros fuel c t nl VA H NV EC ET CC CT a U; unfold Access_model.castMsgs in H.
  assert (IV : isVoid c = false) by (destruct c; try reflexivity; congruence).
  rewrite IV, VA in H.
  destruct (realType fuel c) as [rc|] eqn:RC; [|discriminate].
  destruct (realType fuel t) as [rt|] eqn:RT; [|discriminate].
  destruct (realType fuel (getBaseType c)) as [rbc|] eqn:RBC; [|discriminate].
  destruct (realType fuel (getBaseType t)) as [rbt|] eqn:RBT; [|discriminate].
  destruct (real_facts _ _ _ RC) as [_ [VC _]].
  destruct (real_facts _ _ _ RBC) as [_ [_ [_ UC]]].
  destruct (real_facts _ _ _ RBT) as [_ [_ [_ UT]]].
  assert (PC : under c a -> rbc = TName a /\ isAbstract rbc = true /\ access a = false).
  { intros K; apply under_base in K; pose proof (UC a K (explicit_base _ EC)) as ->; split; [reflexivity|].
    apply abstract_name; exact (proj1 (proj1 (real_facts _ _ _ RBC) a eq_refl)). }
  assert (PT : under t a -> rbt = TName a /\ isAbstract rbt = true /\ access a = false).
  { intros K; apply under_base in K; pose proof (UT a K (explicit_base _ ET)) as ->; split; [reflexivity|].
    apply abstract_name; exact (proj1 (proj1 (real_facts _ _ _ RBT) a eq_refl)). }
  cbn [andb] in H.
  destruct (isAP rc) eqn:AP.
  - exfalso; rewrite (closed_tyAccess _ CC), (closed_tyAccess _ CT) in H.
    destruct U as [U|U].
    + destruct (PC U) as [_ [K _]]; rewrite K in H; cbn in H.
      destruct (isVoidPtr rt || isUnknown t); discriminate.
    + destruct (PT U) as [_ [K _]]; rewrite K in H; cbn in H.
      destruct (isUnknown c || isVoidPtr rc); injection H as H; apply app_eq_nil in H; destruct H; discriminate.
  - split; [exact (VC eq_refl)|]; destruct (matches c t) eqn:M; [reflexivity|exfalso].
    injection H as H; apply app_eq_nil in H; destruct H as [H1 H2].
    destruct U as [U|U].
    + destruct (PC U) as [E [K A]]; rewrite K, E in H2; cbn in H2; rewrite A in H2; cbn in H2.
      destruct (kindOf a); destruct nl; discriminate.
    + destruct (PT U) as [E [K A]]; rewrite K, E in H1; cbn in H1; rewrite A in H1; discriminate.
Qed.

Lemma cast_message : forall fuel c t z nl l m, castMsgs fuel c t z nl = Some l -> In m l ->
  if aboutTarget m then exists a, under c a else exists a, under t a.
Proof.
  intros fuel c t z nl l m H I; unfold Access_model.castMsgs in H.
  destruct (isVoid c); [injection H as <-; destruct I|].
  destruct (realType fuel c) as [rc|] eqn:RC; [|discriminate].
  destruct (realType fuel t) as [rt|] eqn:RT; [|discriminate].
  destruct (realType fuel (getBaseType c)) as [rbc|] eqn:RBC; [|discriminate].
  destruct (realType fuel (getBaseType t)) as [rbt|] eqn:RBT; [|discriminate].
  assert (PC : isAbstract rbc = true -> exists a, under c a).
  { intros K; destruct rbc as [| | | | |n]; try discriminate; exists n; apply under_base.
    exact (proj2 (proj1 (real_facts _ _ _ RBC) n eq_refl)). }
  assert (PT : isAbstract rbt = true -> exists a, under t a).
  { intros K; destruct rbt as [| | | | |n]; try discriminate; exists n; apply under_base.
    exact (proj2 (proj1 (real_facts _ _ _ RBT) n eq_refl)). }
  destruct (isAP rc).
  - destruct (z && zeroptr && _); injection H as <-; [destruct I|].
    apply in_app_or in I; destruct I as [I|I].
    + destruct (isAbstract rbc); [|destruct I]; destruct (negb (tyAccess access (getBaseType c))); [|destruct I].
      cbn in I; assert (T : aboutTarget m = true)
        by (destruct (isVoidPtr rt || isUnknown t); [destruct voidabstract|]; cbn in I; destruct I as [<-|[]] || destruct I; reflexivity).
      rewrite T; auto.
    + destruct (isAbstract rbt); [|destruct I]; destruct (negb (tyAccess access (getBaseType t))); [|destruct I].
      cbn in I; assert (T : aboutTarget m = false)
        by (destruct (isUnknown c || isVoidPtr rc); [destruct voidabstract|]; cbn in I; destruct I as [<-|[]] || destruct I; reflexivity).
      rewrite T; auto.
  - injection H as <-; apply in_app_or in I; destruct I as [I|I].
    + destruct (isAbstract rbt); [|destruct I]; destruct (negb (tyAccess access rbt)); [|destruct I].
      cbn in I; assert (T : aboutTarget m = false)
        by (destruct (matches c t); [destruct (equal c t)|]; cbn in I; destruct I as [<-|[]] || destruct I; reflexivity).
      rewrite T; auto.
    + destruct (isAbstract rbc); [|destruct I]; destruct (negb (tyAccess access rbc)); [|destruct I].
      cbn in I; assert (T : aboutTarget m = true)
        by (destruct (matches c t); [destruct I|]; destruct (isNumAbstract kindOf rbc); [destruct nl|]; cbn in I; destruct I as [<-|[]]; reflexivity).
      rewrite T; auto.
Qed.

(** Definitions end. *)
Lemma real_total : grounded body -> forall k t, (forall n, In n (names t) -> n < k) -> exists r, realType k t = Some r.
Proof.
  intros G; induction k as [|k IH]; intros t B; destruct t as [| | | | |n]; cbn; eauto.
  - exfalso; specialize (B n (or_introl eq_refl)); lia.
  - destruct (isAbstractName kindOf n && negb (access n)); eauto.
    apply IH; intros m M; specialize (G n m M); specialize (B n (or_introl eq_refl)); lia.
Qed.
Lemma names_getBase : forall t, names (getBaseType t) = names t.
Proof. induction t; cbn; auto. Qed.
Lemma cast_total : grounded body -> forall k c t z nl,
  (forall n, In n (names c) -> n < k) -> (forall n, In n (names t) -> n < k) ->
  exists l, castMsgs k c t z nl = Some l.
Proof.
  intros G k c t z nl C T; unfold Access_model.castMsgs; destruct (isVoid c); [eauto|].
  destruct (real_total G k c C) as [a ->]; destruct (real_total G k t T) as [b ->].
  destruct (real_total G k (getBaseType c)) as [d ->]; [rewrite names_getBase; exact C|].
  destruct (real_total G k (getBaseType t)) as [e ->]; [rewrite names_getBase; exact T|].
  destruct (isAP a); [destruct (z && zeroptr && _)|]; eauto.
Qed.
End CastProofs.
