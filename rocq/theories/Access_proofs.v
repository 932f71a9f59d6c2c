(** Lemmas about access to abstract types: what has been read decides it. *)
From Verif Require Import Cbase Access_model Access_spec.
From Coq Require Import List Arith Bool Ascii Lia.
Import ListNotations.

Lemma mem_in : forall t s, mem t s = true <-> In t s.
Proof.
  intros t s; unfold mem; rewrite existsb_exists; split.
  - intros [x [I E]]; apply Nat.eqb_eq in E; subst; assumption.
  - intros I; exists t; rewrite Nat.eqb_refl; auto.
Qed.
Lemma mem_insert : forall t u s, mem t (tinsert u s) = true <-> t = u \/ mem t s = true.
Proof.
  intros t u s; unfold tinsert; destruct (mem u s) eqn:M.
  - split; [auto | intros [->|H]; assumption].
  - rewrite !mem_in; cbn; split; intros [H|H]; auto.
Qed.
Lemma mem_remove : forall t u s, mem t (tremove u s) = true <-> t <> u /\ mem t s = true.
Proof.
  intros t u s; rewrite !mem_in; unfold tremove; rewrite filter_In, negb_true_iff, Nat.eqb_neq.
  split; intros [A B]; auto.
Qed.
Lemma mem_union : forall t s r, mem t (tunion s r) = true <-> mem t s = true \/ mem t r = true.
Proof. intros; rewrite !mem_in; apply in_app_iff. Qed.
Lemma mem_subtract : forall t s r, mem t (subtract s r) = true <-> mem t s = true /\ mem t r <> true.
Proof.
  intros; rewrite (mem_in t (subtract s r)), (mem_in t s); unfold subtract; rewrite filter_In, negb_true_iff.
  destruct (mem t r); intuition congruence.
Qed.
Lemma mem_nil : forall t, mem t [] = true -> False.
Proof. intros t H; discriminate H. Qed.

(** Modules. *)
Lemma addModule_mem : forall b s l c t,
  mem t (moduleAccess c (addModuleAccess b s l)) = true <->
  mem t (moduleAccess c l) = true \/ (c = b /\ mem t s = true).
Proof.
  intros b s; induction l as [|[d e] r IH]; intros c t.
  - cbn [addModuleAccess moduleAccess]; destruct (Nat.eqb c b) eqn:E.
    + apply Nat.eqb_eq in E; intuition (discriminate || auto).
    + apply Nat.eqb_neq in E; intuition (discriminate || auto).
  - cbn [addModuleAccess]; destruct (Nat.eqb d b) eqn:E; cbn [moduleAccess]; destruct (Nat.eqb c d) eqn:F.
    + apply Nat.eqb_eq in E; apply Nat.eqb_eq in F; subst; rewrite mem_union; intuition.
    + apply Nat.eqb_eq in E; apply Nat.eqb_neq in F; subst; intuition congruence.
    + apply Nat.eqb_neq in E; apply Nat.eqb_eq in F; subst; intuition congruence.
    + apply IH.
Qed.
Lemma insertFound_mem : forall b u l c t,
  mem t (moduleAccess c (insertFound b u l)) = true ->
  mem t (moduleAccess c l) = true \/ (c = b /\ t = u).
Proof.
  intros b u; induction l as [|[d e] r IH]; intros c t.
  - auto.
  - cbn [insertFound]; destruct (Nat.eqb d b) eqn:E; cbn [moduleAccess]; destruct (Nat.eqb c d) eqn:F.
    + apply Nat.eqb_eq in E; apply Nat.eqb_eq in F; subst; rewrite mem_insert; intuition.
    + auto.
    + auto.
    + apply IH.
Qed.
Lemma insertFound_keep : forall b u l c t,
  mem t (moduleAccess c l) = true -> mem t (moduleAccess c (insertFound b u l)) = true.
Proof.
  intros b u; induction l as [|[d e] r IH]; intros c t.
  - auto.
  - cbn [insertFound]; destruct (Nat.eqb d b) eqn:E; cbn [moduleAccess]; destruct (Nat.eqb c d) eqn:F;
      auto; rewrite mem_insert; auto.
Qed.
Lemma insertModule_mem : forall b u l c t,
  mem t (moduleAccess c (insertModuleAccess b u l)) = true <->
  mem t (moduleAccess c l) = true \/ (c = b /\ t = u).
Proof.
  intros; unfold insertModuleAccess; rewrite addModule_mem; split.
  - intros [H|[-> H]].
    + apply insertFound_mem in H; exact H.
    + apply mem_in in H; destruct H as [->|[]]; auto.
  - intros [H|[-> ->]].
    + left; apply insertFound_keep; exact H.
    + right; split; [reflexivity|]; apply mem_in; left; reflexivity.
Qed.

(** Traces. *)
Lemma in_last : forall (A : Type) (l : list A) x, In x (l ++ [x]).
Proof. intros; apply in_or_app; right; left; reflexivity. Qed.
Lemma fileAfter_app : forall a b f, fileAfter f (a ++ b) = fileAfter (fileAfter f a) b.
Proof. induction a as [|e r IH]; intros b f; [reflexivity|]; destruct e; cbn [fileAfter app]; apply IH. Qed.
Lemma stays_file : forall tr f, stays f tr -> fileAfter f tr = f.
Proof.
  induction tr as [|e r IH]; intros f S; [reflexivity|].
  assert (A : stays f r) by (intros x I; apply S; right; exact I).
  pose proof (S e (or_introl eq_refl)) as H.
  destruct e; cbn [fileAfter]; try (apply IH; exact A); cbn in H.
  - contradiction.
  - subst; apply IH; exact A.
Qed.
Lemma snoc_cases : forall (A : Type) (tr : list A) e tr1 x tr2,
  tr ++ [e] = tr1 ++ x :: tr2 ->
  (tr2 = [] /\ tr1 = tr /\ x = e) \/ (exists tr3, tr2 = tr3 ++ [e] /\ tr = tr1 ++ x :: tr3).
Proof.
  intros A tr e tr1 x tr2 H.
  destruct (exists_last (l := x :: tr2)) as [q [z Q]]; [discriminate|].
  rewrite Q, app_assoc in H; apply app_inj_tail in H; destruct H as [H ->].
  destruct tr2 as [|y r].
  - destruct q; [|destruct q; discriminate].
    rewrite app_nil_r in H; cbn in Q; injection Q as <-; left; auto.
  - destruct q as [|x' q']; [discriminate|]; injection Q as <- Q; right; exists q'; rewrite H; split; auto.
Qed.
Lemma staysEvent_dec : forall f e, {staysEvent f e} + {~ staysEvent f e}.
Proof. intros f e; destruct e; cbn; auto; apply Nat.eq_dec. Qed.

Section Inv.
Variables accessmodule accessfile comments : bool.
Variable base : nat -> nat.
Notation step := (step accessmodule accessfile comments base).
Notation run := (run accessmodule accessfile comments base).
Notation grants := (grants accessmodule comments).
Notation granted := (granted accessmodule comments base).
Notation ownName := (ownName accessfile base).

Lemma run_snoc : forall tr e s s' m,
  run s (tr ++ [e]) = Some (s', m) ->
  exists s1 m1 m2, run s tr = Some (s1, m1) /\ step s1 e = Some (s', m2).
Proof.
  induction tr as [|x r IH]; intros e s s' m H.
  - cbn in H |- *; destruct (step s e) as [[a b]|] eqn:S; [|discriminate].
    injection H as <- _; exists s, [], b; auto.
  - cbn in H |- *; destruct (step s x) as [[a b]|]; [|discriminate].
    destruct (run a (r ++ [e])) as [[c d]|] eqn:R; [|discriminate]; injection H as <- _.
    apply IH in R; destruct R as [s1 [m1 [m2 [R1 R2]]]]; rewrite R1; exists s1, (b ++ m1), m2; auto.
Qed.
Lemma run_app : forall tr tr' s s' m,
  run s (tr ++ tr') = Some (s', m) ->
  exists s1 m1 m2, run s tr = Some (s1, m1) /\ run s1 tr' = Some (s', m2).
Proof.
  induction tr as [|x r IH]; intros tr' s s' m H.
  - exists s, [], m; auto.
  - cbn in H |- *; destruct (step s x) as [[a b]|]; [|discriminate].
    destruct (run a (r ++ tr')) as [[c d]|] eqn:R; [|discriminate]; injection H as <- _.
    apply IH in R; destruct R as [s1 [m1 [m2 [R1 R2]]]]; rewrite R1; exists s1, (b ++ m1), m2; auto.
Qed.

(** What a step does to each part of the state, for the event that it is. *)
Definition granting (s : st) (e : event) (t : nat) : Prop :=
  (e = EAbstract t /\ accessmodule = true) \/
  (e = EAccess t /\ comments = true /\ mem t (types s) = true /\ mem t (abstracts s) = true).

Lemma step_file : forall s e s' m f, step s e = Some (s', m) -> file s = f -> file s' = fileAfter f [e].
Proof.
  intros s e s' m f H F; destruct e; cbn in H |- *.
  - injection H as <- _; reflexivity.
  - injection H as <- _; unfold setFilename; destruct (Nat.eqb (file s) f0) eqn:E;
      [apply Nat.eqb_eq in E; congruence | reflexivity].
  - injection H as <- _; unfold supAbstract; destruct accessmodule; exact F.
  - injection H as <- _; exact F.
  - unfold accessComment in H; destruct comments; [destruct (mem t (types s)); [destruct (mem t (abstracts s))|]|];
      injection H as <- _; exact F.
  - unfold noaccessComment in H; destruct comments; [destruct (mem t (types s)); [destruct (couldHaveAccess t s)|]|];
      injection H as <- _; exact F.
  - injection H as <- _; destruct k; exact F.
  - injection H as <- _; unfold exitFunction; destruct (kind s); exact F.
  - injection H as <- _; unfold enterDecl; destruct (inFunctionLike (kind s)); exact F.
  - injection H as <- _; unfold exitDecl; destruct (kind s), (savekind s); exact F.
  - unfold exitCFile in H; destruct (kind s); try discriminate; injection H as <- _; exact F.
Qed.

Lemma step_types : forall s e s' m t, step s e = Some (s', m) ->
  (mem t (types s') = true <-> mem t (types s) = true \/ e = EAbstract t \/ e = EConcrete t) /\
  (mem t (abstracts s') = true <-> mem t (abstracts s) = true \/ e = EAbstract t).
Proof.
  intros s e s' m t H; destruct e; cbn in H.
  - injection H as <- _; cbn; intuition discriminate.
  - injection H as <- _; unfold setFilename; destruct (Nat.eqb (file s) f); cbn; intuition discriminate.
  - injection H as <- _; unfold supAbstract.
    assert (T : forall x : bool, types (if x then addFileAccessType base t0 (withTypes (tinsert t0 (types s)) (tinsert t0 (abstracts s)) s)
                         else withTypes (tinsert t0 (types s)) (tinsert t0 (abstracts s)) s) = tinsert t0 (types s)
              /\ abstracts (if x then addFileAccessType base t0 (withTypes (tinsert t0 (types s)) (tinsert t0 (abstracts s)) s)
                         else withTypes (tinsert t0 (types s)) (tinsert t0 (abstracts s)) s) = tinsert t0 (abstracts s))
      by (intros []; split; reflexivity).
    destruct (T accessmodule) as [-> ->]; rewrite !mem_insert; intuition congruence.
  - injection H as <- _; cbn [types abstracts withTypes]; rewrite mem_insert; intuition congruence.
  - unfold accessComment in H; destruct comments; [destruct (mem t0 (types s)); [destruct (mem t0 (abstracts s))|]|];
      injection H as <- _; cbn; intuition discriminate.
  - unfold noaccessComment in H; destruct comments; [destruct (mem t0 (types s)); [destruct (couldHaveAccess t0 s)|]|];
      injection H as <- _; cbn; intuition discriminate.
  - injection H as <- _; destruct k; cbn; intuition discriminate.
  - injection H as <- _; unfold exitFunction; destruct (kind s); cbn; intuition discriminate.
  - injection H as <- _; unfold enterDecl; destruct (inFunctionLike (kind s)); cbn; intuition discriminate.
  - injection H as <- _; unfold exitDecl; destruct (kind s), (savekind s); cbn; intuition discriminate.
  - unfold exitCFile in H; destruct (kind s); try discriminate; injection H as <- _; cbn; intuition discriminate.
Qed.

Lemma step_modules : forall s e s' m b t, step s e = Some (s', m) ->
  (mem t (moduleAccess b (modules s')) = true <->
   mem t (moduleAccess b (modules s)) = true \/ (granting s e t /\ b = base (file s))).
Proof.
  intros s e s' m b t H; unfold granting; destruct e; cbn in H.
  - injection H as <- _; cbn; intuition discriminate.
  - injection H as <- _; unfold setFilename; destruct (Nat.eqb (file s) f); cbn; intuition discriminate.
  - injection H as <- _; unfold supAbstract; destruct accessmodule.
    + cbn [modules addFileAccessType withTypes file]; rewrite insertModule_mem; intuition congruence.
    + cbn; intuition discriminate.
  - injection H as <- _; cbn; intuition discriminate.
  - unfold accessComment in H; destruct comments;
      [destruct (mem t0 (types s)) eqn:T; [destruct (mem t0 (abstracts s)) eqn:A|]|]; injection H as <- _.
    + cbn [modules addFileAccessType]; rewrite insertModule_mem.
      split; [intros [K|[-> ->]]; auto; right; split; auto; right; repeat split; auto|].
      intros [K|[[[K _]|[K _]] ->]]; auto; [discriminate|]; injection K as ->; auto.
    + split; auto; intros [K|[[[K _]|[K [_ [_ Z]]]] _]]; auto; [discriminate|]; injection K as ->; congruence.
    + split; auto; intros [K|[[[K _]|[K [_ [Z _]]]] _]]; auto; [discriminate|]; injection K as ->; congruence.
    + split; auto; intros [K|[[[K _]|[K [Z _]]] _]]; auto; discriminate.
  - unfold noaccessComment in H; destruct comments; [destruct (mem t0 (types s)); [destruct (couldHaveAccess t0 s)|]|];
      injection H as <- _; cbn; intuition discriminate.
  - injection H as <- _; destruct k; cbn; intuition discriminate.
  - injection H as <- _; unfold exitFunction; destruct (kind s); cbn; intuition discriminate.
  - injection H as <- _; unfold enterDecl; destruct (inFunctionLike (kind s)); cbn; intuition discriminate.
  - injection H as <- _; unfold exitDecl; destruct (kind s), (savekind s); cbn; intuition discriminate.
  - unfold exitCFile in H; destruct (kind s); try discriminate; injection H as <- _; cbn; intuition discriminate.
Qed.

(** The state kept before the current file decides what is accessible at its start. *)
Definition atEntry (s : st) (f t : nat) : Prop :=
  (accessfile = true /\ t = base f /\ mem t (types s) = true) \/
  (accessmodule = true /\ mem t (moduleAccess (base f) (modules s)) = true).

Lemma entry_mem : forall f s t, mem t (facct (setModuleAccess accessmodule accessfile base f s)) = true <-> atEntry s f t.
Proof.
  intros f s t; unfold atEntry; cbn [facct setModuleAccess].
  destruct accessmodule, accessfile; destruct (mem (base f) (types s)) eqn:M; rewrite ?mem_union; cbn [mem existsb];
    rewrite ?orb_false_r, ?Nat.eqb_eq; split; intros H;
    repeat match goal with
           | H : _ \/ _ |- _ => destruct H
           | H : _ /\ _ |- _ => destruct H
           end; subst; try discriminate; try congruence; auto.
Qed.

Lemma step_facct : forall s e s' m t, step s e = Some (s', m) ->
  match e with
  | EFile f => mem t (facct s') = true <-> atEntry s f t
  | ELine f => (f <> file s -> (mem t (facct s') = true <-> atEntry s f t)) /\ (f = file s -> s' = s)
  | _ => (mem t (facct s') = true -> mem t (facct s) = true \/ granting s e t) /\
         (granting s e t -> mem t (facct s') = true) /\
         (e <> ENoAccess t -> mem t (facct s) = true -> mem t (facct s') = true)
  end.
Proof.
  intros s e s' m t H; unfold granting; destruct e; cbn in H.
  - injection H as <- _; apply entry_mem.
  - injection H as <- _; unfold setFilename; destruct (Nat.eqb (file s) f) eqn:E.
    + apply Nat.eqb_eq in E; split; [intros N; congruence | auto].
    + apply Nat.eqb_neq in E; split; [intros _; apply entry_mem | congruence].
  - injection H as <- _; unfold supAbstract; destruct accessmodule.
    + cbn [facct addFileAccessType withTypes]; rewrite mem_insert; intuition congruence.
    + cbn; intuition discriminate.
  - injection H as <- _; cbn; intuition discriminate.
  - unfold accessComment in H; destruct comments;
      [destruct (mem t0 (types s)) eqn:T; [destruct (mem t0 (abstracts s)) eqn:A|]|]; injection H as <- _.
    + cbn [facct addFileAccessType]; rewrite mem_insert.
      split; [|split].
      * intros [->|K]; auto; right; right; repeat split; auto.
      * intros [[K _]|[K _]]; [discriminate|]; injection K as ->; auto.
      * auto.
    + split; [|split]; auto; intros [[K _]|[K [_ [_ Z]]]]; [discriminate|]; injection K as ->; congruence.
    + split; [|split]; auto; intros [[K _]|[K [_ [Z _]]]]; [discriminate|]; injection K as ->; congruence.
    + split; [|split]; auto; intros [[K _]|[K [Z _]]]; discriminate.
  - unfold noaccessComment in H; destruct comments; [destruct (mem t0 (types s)); [destruct (couldHaveAccess t0 s)|]|];
      injection H as <- _; cbn [facct removeFileAccessType]; rewrite ?mem_remove;
      (split; [intuition | split; [intros [[K _]|[K _]]; discriminate | intros N K; try split; auto; congruence]]).
  - injection H as <- _; destruct k; cbn; intuition discriminate.
  - injection H as <- _; unfold exitFunction; destruct (kind s); cbn; intuition discriminate.
  - injection H as <- _; unfold enterDecl; destruct (inFunctionLike (kind s)); cbn; intuition discriminate.
  - injection H as <- _; unfold exitDecl; destruct (kind s), (savekind s); cbn; intuition discriminate.
  - unfold exitCFile in H; destruct (kind s); try discriminate; injection H as <- _; cbn; intuition discriminate.
Qed.

Definition grantedAny (f0 : nat) (tr : list event) (b t : nat) : Prop :=
  exists tr1 e tr2, tr = tr1 ++ e :: tr2 /\ grants tr1 e t /\ base (fileAfter f0 tr1) = b.

Record Inv (f0 : nat) (tr : list event) (s : st) : Prop := {
  I_file : file s = fileAfter f0 tr;
  I_types : forall t, mem t (types s) = true <-> defined t tr;
  I_abs : forall t, mem t (abstracts s) = true <-> In (EAbstract t) tr;
  I_mods : forall b t, mem t (moduleAccess b (modules s)) = true <-> grantedAny f0 tr b t }.

Lemma granting_grants : forall f0 tr s e t, Inv f0 tr s -> (granting s e t <-> grants tr e t).
Proof.
  intros f0 tr s e t I; unfold granting, grants, Access_spec.grants.
  rewrite (I_types _ _ _ I), (I_abs _ _ _ I); unfold defined; intuition.
Qed.

Lemma inv : forall f0 tr s m, run (init f0) tr = Some (s, m) -> Inv f0 tr s.
Proof.
  intros f0; induction tr as [|e tr IH] using rev_ind; intros s m R.
  - cbn in R; injection R as <- _; constructor.
    + reflexivity.
    + intros t; split; [intros H; destruct (mem_nil _ H) | intros [[]|[]]].
    + intros t; split; [intros H; destruct (mem_nil _ H) | intros []].
    + intros b t; split; [intros H; destruct (mem_nil _ H)|].
      intros [tr1 [x [tr2 [E _]]]]; destruct tr1; discriminate.
  - apply run_snoc in R; destruct R as [s1 [m1 [m2 [R S]]]]; pose proof (IH _ _ R) as I.
    constructor.
    + rewrite fileAfter_app, <- (I_file _ _ _ I); exact (step_file _ _ _ _ _ S eq_refl).
    + intros t; rewrite (proj1 (step_types _ _ _ _ t S)), (I_types _ _ _ I); unfold defined.
      rewrite !in_app_iff; cbn; intuition.
    + intros t; rewrite (proj2 (step_types _ _ _ _ t S)), (I_abs _ _ _ I).
      rewrite !in_app_iff; cbn; intuition.
    + intros b t; rewrite (step_modules _ _ _ _ b t S), (I_mods _ _ _ I), (granting_grants _ _ _ _ _ I).
      unfold grantedAny; split.
      * intros [[tr1 [x [tr2 [E [G F]]]]]|[G F]].
        -- exists tr1, x, (tr2 ++ [e]); subst tr; rewrite <- app_assoc; auto.
        -- exists tr, e, []; rewrite <- (I_file _ _ _ I); auto.
      * intros [tr1 [x [tr2 [E [G F]]]]]; apply snoc_cases in E; destruct E as [[-> [-> ->]]|[tr3 [-> ->]]].
        -- right; rewrite (I_file _ _ _ I); auto.
        -- left; exists tr1, x, tr3; auto.
Qed.

(** File access. *)
Definition fileGrant (f0 : nat) (tr : list event) (t : nat) : Prop :=
  granted f0 tr (base (fileAfter f0 tr)) t \/ ownName f0 tr (fileAfter f0 tr) t.

Lemma granted_any : forall f0 tr b t, accessmodule = true -> (granted f0 tr b t <-> grantedAny f0 tr b t).
Proof.
  intros f0 tr b t A; unfold granted, Access_spec.granted, grantedAny; split.
  - intros [tr1 [x [tr2 [E [G [F _]]]]]]; exists tr1, x, tr2; auto.
  - intros [tr1 [x [tr2 [E [G F]]]]]; exists tr1, x, tr2; auto.
Qed.

Lemma entry_grant : forall f0 tr s e f t, Inv f0 tr s -> ~ staysEvent (fileAfter f0 tr) e ->
  e = EFile f \/ e = ELine f -> (atEntry s f t <-> fileGrant f0 (tr ++ [e]) t).
Proof.
  intros f0 tr s e f t I N E.
  assert (F : fileAfter f0 (tr ++ [e]) = f) by (rewrite fileAfter_app; destruct E as [-> | ->]; reflexivity).
  unfold atEntry, fileGrant; rewrite F, (I_types _ _ _ I), (I_mods _ _ _ I); split.
  - intros [[A [B C]]|[A B]].
    + right; split; [exact A|]; split; [exact B|]; exists tr, e, []; auto.
    + left; apply granted_any; [exact A|].
      destruct B as [tr1 [x [tr2 [K [G H]]]]]; exists tr1, x, (tr2 ++ [e]); subst tr; rewrite <- app_assoc; auto.
  - intros [G|[A [B [tr1 [x [tr2 [K [_ D]]]]]]]].
    + right; destruct G as [tr1 [x [tr2 [K [G [B C]]]]]].
      apply snoc_cases in K; destruct K as [[-> [-> ->]]|[tr3 [-> ->]]].
      * exfalso; destruct G as [[G _]|[G _]]; destruct E as [-> | ->]; discriminate.
      * destruct C as [C|C].
        -- split; [exact C|]; exists tr1, x, tr3; auto.
        -- exfalso; pose proof (C e (in_last _ _ _)) as Z.
           apply N; rewrite fileAfter_app.
           assert (S3 : stays (fileAfter f0 tr1) tr3) by (intros y Y; apply C, in_or_app; left; exact Y).
           destruct G as [[-> _]|[-> _]]; cbn [fileAfter]; rewrite (stays_file _ _ S3); exact Z.
    + left; split; [exact A|]; split; [exact B|].
      apply snoc_cases in K; destruct K as [[-> [-> ->]]|[tr3 [-> ->]]]; [exact D|].
      destruct D as [D|D]; [left|right]; apply in_or_app; left; exact D.
Qed.

(** An event that is no entry leaves what was granted and adds what it grants. *)
Lemma grant_snoc : forall f0 tr e t, staysEvent (fileAfter f0 tr) e ->
  (fileGrant f0 (tr ++ [e]) t <-> fileGrant f0 tr t \/ grants tr e t).
Proof.
  intros f0 tr e t S.
  assert (F : fileAfter f0 (tr ++ [e]) = fileAfter f0 tr).
  { rewrite fileAfter_app; apply stays_file; intros x [<-|[]]; exact S. }
  unfold fileGrant; rewrite F; split.
  - intros [[tr1 [x [tr2 [K [G [B C]]]]]]|[A [B [tr1 [x [tr2 [K [N D]]]]]]]];
      apply snoc_cases in K; destruct K as [[-> [-> ->]]|[tr3 [-> ->]]].
    + right; exact G.
    + left; left; exists tr1, x, tr3; repeat (split; [assumption || reflexivity|]).
      destruct C as [C|C]; [auto|right; intros y Y; apply C, in_or_app; left; exact Y].
    + contradiction.
    + left; right; split; [exact A|]; split; [exact B|]; exists tr1, x, tr3; auto.
  - intros [[[tr1 [x [tr2 [K [G [B C]]]]]]|[A [B [tr1 [x [tr2 [K [N D]]]]]]]]|G].
    + left; exists tr1, x, (tr2 ++ [e]); subst tr; rewrite <- app_assoc.
      repeat (split; [assumption || reflexivity|]).
      destruct C as [C|C]; [auto|right]; intros y Y; apply in_app_or in Y; destruct Y as [Y|[<-|[]]]; [auto|].
      rewrite fileAfter_app in S.
      destruct G as [[-> _]|[-> _]]; cbn [fileAfter] in S; rewrite (stays_file _ _ C) in S; exact S.
    + right; split; [exact A|]; split; [exact B|]; exists tr1, x, (tr2 ++ [e]); subst tr; rewrite <- app_assoc; auto.
    + left; exists tr, e, []; split; [reflexivity|]; split; [exact G|]; split; [reflexivity|].
      right; intros y [].
Qed.

Lemma facct_sound : forall f0 tr s m t, run (init f0) tr = Some (s, m) ->
  mem t (facct s) = true -> fileGrant f0 tr t.
Proof.
  intros f0; induction tr as [|e tr IH] using rev_ind; intros s m t R.
  - cbn in R; injection R as <- _; intros H; destruct (mem_nil _ H).
  - apply run_snoc in R; destruct R as [s1 [m1 [m2 [R S]]]]; pose proof (inv _ _ _ _ R) as I.
    intros H; pose proof (step_facct _ _ _ _ t S) as P.
    destruct (staysEvent_dec (fileAfter f0 tr) e) as [Y|N].
    + apply grant_snoc; [exact Y|].
      assert (Q : mem t (facct s1) = true \/ granting s1 e t).
      { destruct e; try (apply (proj1 P); exact H).
        - destruct Y.
        - cbn in Y; rewrite <- (I_file _ _ _ I) in Y; rewrite (proj2 P Y) in H; auto. }
      destruct Q as [Q|Q]; [left; exact (IH _ _ _ R Q) | right; apply (granting_grants _ _ _ _ _ I); exact Q].
    + destruct e; try (exfalso; apply N; exact Logic.I).
      * apply (entry_grant f0 tr s1 (EFile f) f t I N); auto; apply P; exact H.
      * apply (entry_grant f0 tr s1 (ELine f) f t I N); auto; apply (proj1 P).
        -- intros K; apply N; cbn; rewrite <- (I_file _ _ _ I); exact K.
        -- exact H.
Qed.

Lemma facct_complete : forall f0 tr s m t, run (init f0) tr = Some (s, m) ->
  ~ In (ENoAccess t) tr -> fileGrant f0 tr t -> mem t (facct s) = true.
Proof.
  intros f0; induction tr as [|e tr IH] using rev_ind; intros s m t R NA G.
  - exfalso; destruct G as [[tr1 [x [tr2 [K _]]]]|[_ [_ [tr1 [x [tr2 [K _]]]]]]]; destruct tr1; discriminate.
  - apply run_snoc in R; destruct R as [s1 [m1 [m2 [R S]]]]; pose proof (inv _ _ _ _ R) as I.
    pose proof (step_facct _ _ _ _ t S) as P.
    assert (NA1 : ~ In (ENoAccess t) tr) by (intros K; apply NA, in_or_app; auto).
    assert (NE : e <> ENoAccess t) by (intros K; apply NA, in_or_app; right; left; exact K).
    destruct (staysEvent_dec (fileAfter f0 tr) e) as [Y|N].
    + apply grant_snoc in G; [|exact Y].
      assert (Q : mem t (facct s1) = true \/ granting s1 e t).
      { destruct G as [G|G]; [left; exact (IH _ _ _ R NA1 G) | right; apply (granting_grants _ _ _ _ _ I); exact G]. }
      destruct e; try (destruct P as [_ [P1 P2]]; destruct Q; auto; fail).
      * destruct Y.
      * cbn in Y; rewrite <- (I_file _ _ _ I) in Y; rewrite (proj2 P Y).
        destruct Q as [Q|[[Q _]|[Q _]]]; [exact Q | discriminate | discriminate].
    + destruct e; try (exfalso; apply N; exact Logic.I).
      * apply P; apply (entry_grant f0 tr s1 (EFile f) f t I N); auto.
      * apply (proj1 P); [intros K; apply N; cbn; rewrite <- (I_file _ _ _ I); exact K|].
        apply (entry_grant f0 tr s1 (ELine f) f t I N); auto.
Qed.

(** Within functions. *)
Definition bodyEvent (e : event) : Prop :=
  match e with EExit => False | EEnter KGlobal _ | EEnter KFcnDecl _ => True | EEnter _ _ => False | _ => True end.

Lemma byFunction_snoc : forall f0 tr e t, staysEvent (fileAfter f0 tr) e -> bodyEvent e ->
  (byFunction f0 (tr ++ [e]) t <-> byFunction f0 tr t).
Proof.
  intros f0 tr e t S B; split.
  - intros [tr1 [k [a [tr2 [K [R [A [C D]]]]]]]]; apply snoc_cases in K; destruct K as [[-> [-> K]]|[tr3 [-> ->]]].
    + subst e; destruct k; try discriminate; destruct B.
    + exists tr1, k, a, tr3; repeat (split; [assumption || reflexivity|]); split.
      * intros y Y; apply C, in_or_app; left; exact Y.
      * intros y Y; apply (D y), in_or_app; left; exact Y.
  - intros [tr1 [k [a [tr2 [K [R [A [C D]]]]]]]]; subst tr; exists tr1, k, a, (tr2 ++ [e]).
    rewrite <- app_assoc; repeat (split; [assumption || reflexivity|]); split.
    + intros y Y; apply in_app_or in Y; destruct Y as [Y|[<-|[]]]; [auto|].
      rewrite fileAfter_app in S; cbn [fileAfter] in S; rewrite (stays_file _ _ C) in S; exact S.
    + intros y Y; apply in_app_or in Y; destruct Y as [Y|[<-|[]]]; [apply (D y Y) | exact B].
Qed.

Lemma byFunction_entry : forall f0 tr e t, ~ staysEvent (fileAfter f0 tr) e -> ~ byFunction f0 (tr ++ [e]) t.
Proof.
  intros f0 tr e t N [tr1 [k [a [tr2 [K [R [A [C D]]]]]]]]; apply snoc_cases in K; destruct K as [[-> [-> K]]|[tr3 [-> ->]]].
  - subst e; apply N; exact Logic.I.
  - apply N; rewrite fileAfter_app; cbn [fileAfter].
    rewrite stays_file; [apply C, in_or_app; right; left; reflexivity|].
    intros y Y; apply C, in_or_app; left; exact Y.
Qed.

Lemma byFunction_enter : forall f0 tr k a t, inRealFunction k = true ->
  (byFunction f0 (tr ++ [EEnter k a]) t <-> In t a).
Proof.
  intros f0 tr k a t R; split.
  - intros [tr1 [k' [a' [tr2 [K [_ [A [_ D]]]]]]]]; apply snoc_cases in K; destruct K as [[-> [-> K]]|[tr3 [-> ->]]].
    + injection K as -> ->; exact A.
    + exfalso; specialize (D (EEnter k a) (in_last _ _ _)).
      destruct k; try discriminate; exact D.
  - intros A; exists tr, k, a, []; repeat (split; [assumption || reflexivity|]); split; intros y [].
Qed.

(** The access of a function or macro: what has been read so far is [A], the access of the file [F]. *)
Lemma functionAccess_mem : forall a s t,
  (mem t (functionAccess a s) = true -> mem t (facct s) = true \/ In t a) /\
  (mem t (nacct s) <> true -> mem t (facct s) = true \/ In t a -> mem t (functionAccess a s) = true).
Proof.
  clear accessmodule accessfile comments base.
  intros a s t; destruct a as [|x r].
  - cbn [functionAccess]; split; auto; intros _ [H|[]]; exact H.
  - unfold functionAccess; rewrite mem_subtract, mem_union, <- (mem_in t (x :: r)); tauto.
Qed.

Lemma refusal_snoc : forall f0 tr e t, staysEvent (fileAfter f0 tr) e -> e <> EEnd ->
  refusalOver f0 (tr ++ [e]) t -> refusalOver f0 tr t.
Proof.
  intros f0 tr e t Y N O tr1 tr2 K; subst tr; specialize (O tr1 (tr2 ++ [e])).
  rewrite <- app_assoc in O; specialize (O eq_refl); destruct O as [O|O].
  - left; intros Z; apply O; intros y W; apply in_app_or in W; destruct W as [W|[<-|[]]]; [auto|].
    rewrite fileAfter_app in Y; cbn [fileAfter] in Y; rewrite (stays_file _ _ Z) in Y; exact Y.
  - apply in_app_or in O; destruct O as [O|[O|[]]]; [auto|congruence].
Qed.

Lemma nacct_none : forall f0 tr s m t, run (init f0) tr = Some (s, m) ->
  refusalOver f0 tr t -> mem t (nacct s) <> true.
Proof.
  intros f0; induction tr as [|e tr IH] using rev_ind; intros s m t R O.
  - cbn in R; injection R as <- _; intros H; destruct (mem_nil _ H).
  - apply run_snoc in R; destruct R as [s1 [m1 [m2 [R S]]]]; pose proof (inv _ _ _ _ R) as I.
    destruct (staysEvent_dec (fileAfter f0 tr) e) as [Y|N].
    + destruct e as [f|f|u|u|u|u|k a| | | |]; try (exfalso; exact Y).
      all: try (pose proof (refusal_snoc _ _ _ _ Y (fun K => ltac:(discriminate K)) O) as O1).
      all: try (specialize (IH _ _ t R O1)).
      * cbn in Y; cbn in S; injection S as <- _; unfold setFilename; rewrite <- (I_file _ _ _ I) in Y; subst f.
        rewrite Nat.eqb_refl; exact IH.
      * cbn in S; injection S as <- _; unfold supAbstract; destruct accessmodule; exact IH.
      * cbn in S; injection S as <- _; exact IH.
      * cbn in S; unfold accessComment in S; destruct comments;
          [destruct (mem u (types s1)); [destruct (mem u (abstracts s1))|]|]; injection S as <- _; exact IH.
      * assert (NE : u <> t).
        { intros ->; specialize (O tr [] eq_refl); destruct O as [O|[]]; apply O; intros y []. }
        cbn in S; unfold noaccessComment in S; destruct comments;
          [destruct (mem u (types s1)); [destruct (couldHaveAccess u s1)|]|]; injection S as <- _; try exact IH.
        cbn [nacct removeFileAccessType]; rewrite mem_insert; intros [K|K]; [congruence|exact (IH K)].
      * cbn in S; injection S as <- _; destruct k; exact IH.
      * cbn in S; injection S as <- _; unfold exitFunction; destruct (kind s1); exact IH.
      * cbn in S; injection S as <- _; unfold enterDecl; destruct (inFunctionLike (kind s1)); exact IH.
      * cbn in S; injection S as <- _; unfold exitDecl; destruct (kind s1), (savekind s1); exact IH.
      * cbn in S; unfold exitCFile in S; destruct (kind s1); try discriminate; injection S as <- _.
        intros K; destruct (mem_nil _ K).
    + destruct e; try (exfalso; apply N; exact Logic.I).
      * cbn in S; injection S as <- _; intros K; destruct (mem_nil _ K).
      * cbn in S; injection S as <- _; unfold setFilename.
        destruct (Nat.eqb (file s1) f) eqn:E.
        -- exfalso; apply N; cbn; apply Nat.eqb_eq in E; rewrite <- (I_file _ _ _ I); auto.
        -- intros K; destruct (mem_nil _ K).
Qed.
End Inv.
