(** Lemmas for the use of uninitialised variables. *)
From Verif Require Import Cbase Cbase_facts Def_model Def_spec.
From Verif Require Flow_model Flow_spec Flow_proofs.

(** Scheme for statements and cases together. *)
Scheme stmt_mind := Induction for stmt Sort Prop with cases_mind := Induction for cases Sort Prop.
Combined Scheme stmt_cases_ind from stmt_mind, cases_mind.

Ltac un H :=
  repeat (cbv beta iota in H;
  match type of H with
  | context [match aexpr ?p ?g ?e ?u with (_, _) => _ end] =>
      let t := fresh "t" in let m := fresh "m" in let q := fresh "q" in destruct (aexpr p g e u) as [[t m] q] eqn:?
  | context [match aopt ?p ?g ?e ?u with (_, _) => _ end] =>
      let t := fresh "t" in let m := fresh "m" in let q := fresh "q" in destruct (aopt p g e u) as [[t m] q] eqn:?
  | context [match check ?p ?u ?q with (_, _) => _ end] =>
      let t := fresh "t" in let m := fresh "m" in destruct (check p u q) as [t m] eqn:?
  end).

(** * Executions of expressions *)
Lemma set_mono (r : store) x v y : r y <> None -> set r x v y <> None.
Proof. unfold set. destruct (Nat.eqb x y); [discriminate|auto]. Qed.
Lemma set_same (r : store) x v : set r x v x <> None.
Proof. unfold set. rewrite Nat.eqb_refl. discriminate. Qed.
Lemma eval_mono r e v r' : eval r e v r' -> forall y, r y <> None -> r' y <> None.
Proof. induction 1; intros y HY; auto. apply set_mono. auto. Qed.
Lemma eval_visits r e v r' : eval r e v r' -> forall z x, v = RVal z -> visits e x -> r' x <> None.
Proof.
  induction 1; intros z0 y E V; cbn [visits] in V; try contradiction; try discriminate;
    try (subst v; match goal with H : stops _ |- _ => destruct H end).
  - subst. congruence.
  - destruct v as [w| |]; try discriminate. destruct V as [V|V]; [|eauto].
    eapply eval_mono; [eassumption|]. eauto.
  - destruct v as [w| |]; try discriminate. destruct V as [V|V]; [eauto|].
    eapply eval_mono; [eassumption|]. eauto.
  - destruct v as [w| |]; try discriminate. eauto.
  - eauto.
  - eapply eval_mono; [eassumption|]. eauto.
  - eauto.
  - eapply eval_mono; [eassumption|]. eauto.
  - eapply eval_mono; [eassumption|]. eauto.
  - eapply eval_mono; [eassumption|]. eauto.
  - destruct V as [V|V]; [|eauto]. eapply eval_mono; [eassumption|]. eauto.
  - destruct V as [->|V]; [apply set_same|]. apply set_mono. eauto.
Qed.
Lemma eval_fault r e v r' : eval r e v r' -> forall y, v = RFault y -> In y (reads e) /\ r y = None.
Proof.
  assert (K : forall r1 (r2 : store) e v y, eval r1 e v r2 -> r2 y = None -> r1 y = None).
  { intros r1 r2 e0 v0 y X N. destruct (r1 y) eqn:E; [|reflexivity]. destruct (eval_mono _ _ _ _ X y); [congruence|assumption]. }
  induction 1; intros y E; cbn [reads]; rewrite ?in_app_iff; try discriminate; try (subst v; match goal with H : stops _ |- _ => cbn in H end);
    repeat match goal with H : rmap _ ?v = RFault _ |- _ => destruct v; cbn in H; try discriminate; injection H as -> end;
    repeat match goal with H : forall y, RFault _ = RFault y -> _ |- _ => destruct (H _ eq_refl); clear H end;
    repeat match goal with H : forall y, ?v = RFault y -> _, E : ?v = RFault _ |- _ => destruct (H _ E); clear H end;
    try (split; [tauto|]; eauto; fail).
  injection E as ->. split; [left; reflexivity|assumption].
Qed.
Lemma eescapes_sound r e v r' z : eval r e v r' -> v = RVal z -> eescapes e = false.
Proof.
  unfold eescapes. revert r v r' z.
  induction e; intros r v0 r' z X E; cbn [eflow Flow_model.enode]; try reflexivity.
  - destruct (Flow_model.mustEscape (Flow_model.combineControl _ _)) eqn:M; [|reflexivity]. exfalso.
    apply Flow_proofs.must_combineControl in M as [M1 M2].
    inversion X; subst; try match goal with H : stops _ |- _ => destruct H end.
    + match goal with H : eval _ e2 _ _ |- _ => rewrite (IHe2 _ _ _ _ H eq_refl) in M1 end. discriminate.
    + match goal with H : eval _ e3 _ _ |- _ => rewrite (IHe3 _ _ _ _ H eq_refl) in M2 end. discriminate.
  - assert (A : exists r0 r1 v1, eval r0 e1 (RVal v1) r1 /\ eval r1 e2 v0 r').
    { inversion X; subst; try match goal with H : stops _ |- _ => destruct H end; eauto. }
    destruct A as (r0 & r1 & v1 & A1 & A2).
    pose proof (IHe1 _ _ _ _ A1 eq_refl) as M1. pose proof (IHe2 _ _ _ _ A2 E) as M2.
    unfold Flow_model.mustEscape in *. cbn [Flow_model.xk Flow_model.mustB].
    apply orb_false_iff in M1 as [K1 B1]. apply orb_false_iff in M2 as [K2 B2]. rewrite B1, B2. cbn [orb].
    rewrite orb_false_r. destruct (Flow_model.kmust (Flow_model.combine _ _)) eqn:M; [|reflexivity].
    apply Flow_proofs.kmust_combine in M as [M _]. congruence.
  - subst. inversion X.
Qed.

(** * Tables: entries, and what stays the same *)
Definition ext (t t' : tab) : Prop :=
  (forall x, dom t x = true -> dom t' x = true) /\ (forall x, dom t' x = false -> view t' x = view t x).
Lemma ext_refl t : ext t t.
Proof. split; auto. Qed.
Lemma ext_trans a b c : ext a b -> ext b c -> ext a c.
Proof.
  intros [D1 V1] [D2 V2]. split; [auto|]. intros x H. rewrite (V2 x H). apply V1.
  destruct (dom b x) eqn:E; [|reflexivity]. rewrite (D2 x E) in H. discriminate.
Qed.
Lemma upd_true f x y b : upd f x b y = if Nat.eqb x y then b else f y. Proof. reflexivity. Qed.
Lemma ext_touch t x : ext t (touch t x).
Proof. split; intros y H; cbn in *; [rewrite upd_true; destruct (Nat.eqb x y); auto|reflexivity]. Qed.
Lemma ext_define t x : ext t (define t x).
Proof. split; intros y; cbn; rewrite !upd_true; destruct (Nat.eqb x y); auto; discriminate. Qed.
Lemma ext_check p t q t' m : check p t q = (t', m) -> ext t t'.
Proof.
  unfold check. destruct q as [x|]; [destruct p; [|destruct (view t x)]|]; intros E; injection E as <- _; auto using ext_refl, ext_define.
Qed.
Lemma ent_none t x : dom t x = false -> ent t x = None. Proof. unfold ent. intros ->. reflexivity. Qed.
Lemma ext_pop a b o t f : ext (enter o) t -> ext (enter o) f -> ext o (pop_branches a b o t f).
Proof.
  intros [_ T] [_ F]. split; intros x; cbn.
  - intros ->. reflexivity.
  - intros H. apply orb_false_iff in H as [H H3]. apply orb_false_iff in H as [H1 H2].
    rewrite !ent_none by assumption. reflexivity.
Qed.
Lemma ext_and o t : ext (enter o) t -> ext o (pop_and o t).
Proof.
  intros [_ T]. split; intros x; cbn.
  - intros ->. reflexivity.
  - intros H. apply orb_false_iff in H as [H1 H2]. rewrite !ent_none by assumption. reflexivity.
Qed.
Lemma ext_or m o t : ext (enter o) t -> ext o (pop_or m o t).
Proof.
  intros [_ T]. split; intros x; cbn.
  - intros ->. reflexivity.
  - intros H. apply orb_false_iff in H as [H1 H2]. rewrite !ent_none by assumption. reflexivity.
Qed.
Lemma ext_with_brk t b : ext t (with_brk t b).
Proof. split; auto. Qed.
Ltac exts :=
  repeat match goal with
  | |- ext ?t ?t => apply ext_refl
  | H : check _ ?t _ = (?u, _) |- ext _ ?u => eapply ext_trans; [|exact (ext_check _ _ _ _ _ H)]
  | |- ext _ (define ?t _) => eapply ext_trans; [|apply ext_define]
  | |- ext _ (touch ?t _) => eapply ext_trans; [|apply ext_touch]
  | |- ext _ (with_brk ?t _) => eapply ext_trans; [|apply ext_with_brk]
  | |- ext _ (pop_and ?t _) => eapply ext_trans; [|apply ext_and]
  | |- ext _ (pop_or _ ?t _) => eapply ext_trans; [|apply ext_or]
  | |- ext _ (pop_branches _ _ ?t _ _) => eapply ext_trans; [|apply ext_pop]
  end.
Lemma ext_aexpr e : forall p g t t' m q, aexpr p g e t = (t', m, q) -> ext t t'.
Proof.
  induction e as [v|x|o a IHa b IHb|a IHa|a IHa b IHb|a IHa b IHb|c IHc a IHa b IHb|a IHa b IHb|x a IHa| |];
    cbn [aexpr]; intros p g t t' m q E.
  7: destruct g.
  all: un E; injection E as <- _ _; exts; try (eapply IHa; eassumption); try (eapply IHb; eassumption).
  - eapply ext_trans; [eapply IHa; eassumption|]. eapply IHb; eassumption.
  - eapply ext_trans; [eapply IHc; eassumption|]. eapply ext_trans; [eapply IHa; eassumption|]. eapply IHb; eassumption.
  - eapply IHc; eassumption.
  - eapply ext_trans; [eapply IHa; eassumption|]. eapply IHb; eassumption.
  - eapply ext_trans; [apply ext_touch|]. eapply IHa; eassumption.
Qed.

(** Variables not assigned keep their state when there are no complaints. *)
Lemma check_quiet p t q t' m : check p t q = (t', m) -> p = true \/ m = [] -> t' = t.
Proof.
  unfold check. destruct q as [x|]; [destruct p; [|destruct (view t x)]|]; intros E [H|H]; injection E as <- <-; congruence.
Qed.
Lemma check_clean t x t' : check false t (Some x) = (t', []) -> t' = t /\ view t x = true.
Proof. unfold check. destruct (view t x) eqn:V; intros E; [injection E as <-; auto|discriminate]. Qed.
Lemma same_joined a b old f t : (forall c, f = Some c -> c = old) -> (forall c, t = Some c -> c = old) -> joined a b old f t = old.
Proof.
  intros F T. destruct f as [c|], t as [d|]; cbn; rewrite ?(F _ eq_refl), ?(T _ eq_refl); destruct a, b, old; reflexivity.
Qed.
Lemma same_pop a b o t f x : view t x = view o x -> view f x = view o x -> view (pop_branches a b o t f) x = view o x.
Proof.
  intros T F. cbn. apply same_joined; unfold ent; intros c; [destruct (dom f x)|destruct (dom t x)]; congruence.
Qed.
Lemma same_and o t x : view t x = view o x -> view (pop_and o t) x = view o x.
Proof. intros T. cbn. unfold ent. destruct (dom t x); [|reflexivity]. rewrite T. destruct (view o x); reflexivity. Qed.
Lemma same_or m o t x : view t x = view o x -> view (pop_or m o t) x = view o x.
Proof. intros T. cbn. unfold ent. destruct (dom t x); [|reflexivity]. rewrite T. destruct m, (view o x); reflexivity. Qed.
Lemma quiet_nil (p : bool) (a b : list nat) : p = true \/ a ++ b = [] -> (p = true \/ a = []) /\ (p = true \/ b = []).
Proof. intros [H|H]; [auto|]. apply app_eq_nil in H. tauto. Qed.
Ltac quiet Q := repeat match type of Q with (_ = true \/ _ ++ _ = []) => let H := fresh "Q" in apply quiet_nil in Q as [H Q] end.
Ltac tame :=
  repeat match goal with
  | H : check _ _ _ = (?u, _) |- _ => is_var u; apply check_quiet in H; [subst u|assumption]
  end.
Lemma frame_aexpr e : forall p g t t' m q x, aexpr p g e t = (t', m, q) -> p = true \/ m = [] -> ~ In x (sets e) ->
  view t' x = view t x.
Proof.
  induction e as [v|y|o a IHa b IHb|a IHa|a IHa b IHb|a IHa b IHb|c IHc a IHa b IHb|a IHa b IHb|y a IHa| |];
    cbn [aexpr sets]; intros p g t t' m q x E Q N; rewrite ?in_app_iff in N.
  7: destruct g.
  all: un E; injection E as <- <- _; quiet Q; tame; try reflexivity.
  - transitivity (view t0 x); [eapply IHb|eapply IHa]; eauto.
  - eapply IHa; eauto.
  - rewrite same_and; [eapply IHa|]; eauto. change (view t0 x) with (view (enter t0) x). eapply IHb; eauto.
  - rewrite same_or; [eapply IHa|]; eauto. change (view t0 x) with (view (enter t0) x). eapply IHb; eauto.
  - transitivity (view t1 x); [eapply IHb; eauto|]. transitivity (view t0 x); [eapply IHa; eauto|]. eapply IHc; eauto.
  - rewrite same_pop; [eapply IHc; eauto| |]; change (view t0 x) with (view (enter t0) x); [eapply IHa|eapply IHb]; eauto.
  - transitivity (view t0 x); [eapply IHb|eapply IHa]; eauto.
  - cbn. rewrite upd_true. destruct (Nat.eqb y x) eqn:Y; [apply Nat.eqb_eq in Y; destruct N; left; exact Y|].
    change (view t x) with (view (touch t y) x). eapply IHa; eauto. intros H. apply N. right. exact H.
Qed.

Lemma check_up p t q t' m x : check p t q = (t', m) -> view t x = true -> view t' x = true.
Proof.
  unfold check. destruct q as [y|]; [destruct p; [|destruct (view t y) eqn:V]|]; intros E H; injection E as <- _; auto.
  cbn. rewrite upd_true, H. destruct (Nat.eqb y x); reflexivity.
Qed.
Lemma check_sees t x t' m : check false t (Some x) = (t', m) -> view t' x = true.
Proof.
  unfold check. destruct (view t x) eqn:V; intros E; injection E as <- _; auto. cbn. rewrite upd_true, Nat.eqb_refl. reflexivity.
Qed.
(** The variable an expression names, unless it has been assigned or checked. *)
Lemma pending e : forall p g t t' m y, aexpr p g e t = (t', m, Some y) -> bare e = Some y \/ view t' y = true.
Proof.
  induction e as [v|x|o a IHa b IHb|a IHa|a IHa b IHb|a IHa b IHb|c IHc a IHa b IHb|a IHa b IHb|x a IHa| |];
    cbn [aexpr bare]; intros p g t t' m y E.
  7: destruct g.
  all: un E; try discriminate.
  - injection E as _ _ ->. auto.
  - injection E as <- _ ->. destruct (IHb _ _ _ _ _ _ ltac:(eassumption)) as [H|H]; [auto|right].
    eapply check_up; [eassumption|]. eapply check_up; eassumption.
  - injection E as <- _ ->. right. cbn. rewrite upd_true, Nat.eqb_refl. reflexivity.
Qed.
Lemma bare_reads e y : bare e = Some y -> In y (reads e).
Proof.
  induction e; cbn; try discriminate; [intros H; injection H as ->; auto|]. intros H. apply in_or_app. auto.
Qed.

Section Sound.
Variable init : nat -> bool.
Local Notation ordered := (ordered init).
(** The table is right about the variables of a set. *)
Definition right_on (P : nat -> Prop) (t : tab) (r : store) : Prop := forall x, P x -> view t x = true -> r x <> None.
Lemma right_mono P t r r' : right_on P t r -> (forall x, r x <> None -> r' x <> None) -> right_on P t r'.
Proof. intros H M x Px V. apply M, (H x Px V). Qed.

Lemma pop_right P a b o t f r : right_on P o r \/ True -> 
  (forall x, P x -> joined a b (view o x) (ent f x) (ent t x) = true -> r x <> None) -> right_on P (pop_branches a b o t f) r.
Proof. intros _ H x Px V. exact (H x Px V). Qed.
(** The true and the false branch. *)
Lemma joined_true (P : nat -> Prop) a o t f r : ext (enter o) t -> right_on P t r -> a = false -> forall b : bool, right_on P (pop_branches a b o t f) r.
Proof.
  intros X R -> b x Px V. cbn in V. unfold ent in V. apply (R x Px).
  destruct (dom t x) eqn:D.
  - destruct (dom f x), b; cbn in V; auto; destruct (view f x), (view t x), (view o x); auto.
  - rewrite (proj2 X x D). cbn. destruct (dom f x), b; cbn in V; auto; destruct (view f x), (view o x); auto.
Qed.
Lemma joined_false (P : nat -> Prop) b o t f r : ext (enter o) f -> right_on P f r -> b = false -> forall a : bool, right_on P (pop_branches a b o t f) r.
Proof.
  intros X R -> a x Px V. cbn in V. unfold ent in V. apply (R x Px).
  destruct (dom f x) eqn:D.
  - destruct (dom t x), a; cbn in V; auto; destruct (view f x), (view t x), (view o x); auto.
  - rewrite (proj2 X x D). cbn. destruct (dom t x), a; cbn in V; auto; destruct (view t x), (view o x); auto.
Qed.

Definition eresult (P : nat -> Prop) (t' : tab) (p : option nat) (v : res) (r' : store) : Prop :=
  match v with RVal _ => right_on P t' r' | RStop => True | RFault y => p = Some y /\ view t' y = false end.
(** A used expression is not the name of an undefined variable. *)
Lemma eresult_used P t p v r t' : eresult P t p v r -> check false t p = (t', []) -> (forall y, v <> RFault y).
Proof.
  intros R C y ->. destruct R as [-> V]. apply check_clean in C as [_ C]. congruence.
Qed.
Lemma eval_right e : ordered e -> forall P t t' p r v r', aexpr false false e t = (t', [], p) -> agrees init r ->
  right_on P t r -> (forall x, In x (reads e) -> P x) -> eval r e v r' -> eresult P t' p v r'.
Proof.
  assert (AG : forall r e v r', agrees init r -> eval r e v r' -> agrees init r').
  { intros r e0 v r' A X y Y. eapply eval_mono; [exact X|]. auto. }
  assert (NF : forall v : res, (forall y, v <> RFault y) -> stops v -> v = RStop).
  { intros [z| |y] F S; [destruct S|reflexivity|destruct (F y eq_refl)]. }
  induction e as [z|x|o a IHa b IHb|a IHa|a IHa b IHb|a IHa b IHb|c IHc a IHa b IHb|a IHa b IHb|x a IHa| |];
    cbn [Def_spec.ordered aexpr reads]; intros O P t t' p r v r' E A R RD X.
  - injection E as <- <-. inversion X; subst. exact R.
  - injection E as <- <-. inversion X as [|? ? ? H|? ? H| | | | | | | | | | | | | | | | | | | | | ]; subst; [exact R|].
    split; [reflexivity|]. cbn. destruct (view t x) eqn:V; [|reflexivity]. destruct (R x); auto. apply RD. left. reflexivity.
  - destruct O as (Oa & Ob & Oab & Oba). un E. injection E as <- M <-.
    apply app_eq_nil in M as [-> M]. apply app_eq_nil in M as [-> M]. apply app_eq_nil in M as [-> ->].
    pose proof (check_quiet _ _ _ _ _ Heqp2 (or_intror eq_refl)). subst t2.
    pose proof (check_quiet _ _ _ _ _ Heqp3 (or_intror eq_refl)). subst t3.
    assert (RDa : forall x, In x (reads a) -> P x) by (intros; apply RD, in_or_app; auto).
    assert (RDb : forall x, In x (reads b) -> P x) by (intros; apply RD, in_or_app; auto).
    assert (Fa : forall r v r', agrees init r -> right_on P t r -> eval r a v r' -> forall y, v <> RFault y).
    { intros r0 v0 r0' A0 R0 X0 y ->. destruct (IHa Oa _ _ _ _ _ _ _ Heqp0 A0 R0 RDa X0) as [-> V].
      apply check_clean in Heqp2 as [_ C].
      rewrite (frame_aexpr _ _ _ _ _ _ _ y Heqp1 (or_intror eq_refl)) in C; [congruence|].
      intros I. apply (Oba y I). destruct (pending _ _ _ _ _ _ _ Heqp0) as [B|B]; [apply bare_reads, B|congruence]. }
    inversion X as [| | | | | |r0 o0 a0 b0 z1 r1 v1 r2 Xa Xb|r0 o0 a0 b0 v1 r1 Xa S|r0 o0 a0 b0 z1 r1 v1 r2 Xb Xa|r0 o0 a0 b0 v1 r1 Xb S| | | | | | | | | | | | | | ]; subst.
    + pose proof (IHa Oa _ _ _ _ _ _ _ Heqp0 A R RDa Xa) as Ra. cbn in Ra.
      pose proof (IHb Ob _ _ _ _ _ _ _ Heqp1 (AG _ _ _ _ A Xa) Ra RDb Xb) as Rb.
      pose proof (eresult_used _ _ _ _ _ _ Rb Heqp3) as F. destruct v1 as [w| |y]; cbn; [exact Rb|exact I|destruct (F y eq_refl)].
    + rewrite (NF v (Fa _ _ _ A R Xa) S). exact I.
    + assert (R1 : right_on (fun x => P x /\ ~ In x (sets a)) t0 r).
      { intros x [Px N] V. rewrite (frame_aexpr _ _ _ _ _ _ _ x Heqp0 (or_intror eq_refl) N) in V. exact (R x Px V). }
      assert (RD1 : forall x, In x (reads b) -> P x /\ ~ In x (sets a)).
      { intros x H. split; [auto|]. intros I. exact (proj1 (Oab x I) H). }
      pose proof (IHb Ob _ _ _ _ _ _ _ Heqp1 A R1 RD1 Xb) as Rb. cbn in Rb.
      pose proof (AG _ _ _ _ A Xb) as A1. pose proof (right_mono _ _ _ _ R (eval_mono _ _ _ _ Xb)) as R2.
      pose proof (Fa _ _ _ A1 R2 Xa) as F. pose proof (IHa Oa _ _ _ _ _ _ _ Heqp0 A1 R2 RDa Xa) as Ra.
      destruct v1 as [w| |y]; cbn; [|exact I|destruct (F y eq_refl)]. cbn in Ra.
      intros x Px V. destruct (in_dec Nat.eq_dec x (sets a)) as [I|I].
      * rewrite (frame_aexpr _ _ _ _ _ _ _ x Heqp1 (or_intror eq_refl) (proj2 (Oab x I))) in V. exact (Ra x Px V).
      * apply (eval_mono _ _ _ _ Xa). exact (Rb x (conj Px I) V).
    + assert (R1 : right_on (fun x => P x /\ ~ In x (sets a)) t0 r).
      { intros x [Px N] V. rewrite (frame_aexpr _ _ _ _ _ _ _ x Heqp0 (or_intror eq_refl) N) in V. exact (R x Px V). }
      assert (RD1 : forall x, In x (reads b) -> P x /\ ~ In x (sets a)).
      { intros x H. split; [auto|]. intros I. exact (proj1 (Oab x I) H). }
      pose proof (IHb Ob _ _ _ _ _ _ _ Heqp1 A R1 RD1 Xb) as Rb.
      rewrite (NF v (eresult_used _ _ _ _ _ _ Rb Heqp3) S). exact I.
  - un E. injection E as <- M <-. apply app_eq_nil in M as [-> ->].
    pose proof (check_quiet _ _ _ _ _ Heqp1 (or_intror eq_refl)). subst t1.
    inversion X as [| | | | | | | | | |r0 a0 v1 r1 Xa| | | | | | | | | | | | | ]; subst.
    pose proof (IHa O _ _ _ _ _ _ _ Heqp0 A R RD Xa) as Ra. pose proof (eresult_used _ _ _ _ _ _ Ra Heqp1) as F.
    destruct v1 as [w| |y]; cbn; [exact Ra|exact I|destruct (F y eq_refl)].
  - destruct O as (Oa & Ob & Oab). un E. injection E as <- M <-.
    apply app_eq_nil in M as [-> M]. apply app_eq_nil in M as [-> M]. apply app_eq_nil in M as [-> ->].
    pose proof (check_quiet _ _ _ _ _ Heqp1 (or_intror eq_refl)). subst t1.
    pose proof (check_quiet _ _ _ _ _ Heqp3 (or_intror eq_refl)). subst t3.
    assert (RDa : forall x, In x (reads a) -> P x) by (intros; apply RD, in_or_app; auto).
    assert (RDb : forall x, In x (reads b) -> P x) by (intros; apply RD, in_or_app; auto).
    assert (K : forall z r1 r2, eval r a (RVal z) r1 -> (forall x, r1 x <> None -> r2 x <> None) -> right_on P (pop_and t0 t2) r2).
    { intros z r1 r2 Xa M x Px V.
      pose proof (IHa Oa _ _ _ _ _ _ _ Heqp0 A R RDa Xa) as Ra. cbn in Ra.
      destruct (in_dec Nat.eq_dec x (sets b)) as [I|I].
      - destruct (Oab x I) as [B|B]; apply M.
        + apply (eval_mono _ _ _ _ Xa), A, B.
        + exact (eval_visits _ _ _ _ Xa _ x eq_refl B).
      - apply M, (Ra x Px). rewrite same_and in V; [exact V|].
        exact (frame_aexpr _ _ _ _ _ _ _ x Heqp2 (or_intror eq_refl) I). }
    inversion X as [| | | | | | | | | | |r0 a0 b0 v1 r1 Xa S|r0 a0 b0 r1 Xa|r0 a0 b0 z1 r1 v1 r2 Xa Z Xb| | | | | | | | | | ]; subst.
    + pose proof (IHa Oa _ _ _ _ _ _ _ Heqp0 A R RDa Xa) as Ra.
      rewrite (NF v (eresult_used _ _ _ _ _ _ Ra Heqp1) S). exact I.
    + cbn. exact (K _ _ _ Xa (fun _ H => H)).
    + pose proof (IHa Oa _ _ _ _ _ _ _ Heqp0 A R RDa Xa) as Ra. cbn in Ra.
      pose proof (IHb Ob P _ _ _ _ _ _ Heqp2 (AG _ _ _ _ A Xa) Ra RDb Xb) as Rb.
      pose proof (eresult_used _ _ _ _ _ _ Rb Heqp3) as F.
      destruct v1 as [w| |y]; cbn; [exact (K _ _ _ Xa (eval_mono _ _ _ _ Xb))|exact I|destruct (F y eq_refl)].
  - destruct O as (Oa & Ob). un E. injection E as <- M <-.
    apply app_eq_nil in M as [-> M]. apply app_eq_nil in M as [-> M]. apply app_eq_nil in M as [-> ->].
    pose proof (check_quiet _ _ _ _ _ Heqp1 (or_intror eq_refl)). subst t1.
    pose proof (check_quiet _ _ _ _ _ Heqp3 (or_intror eq_refl)). subst t3.
    assert (RDa : forall x, In x (reads a) -> P x) by (intros; apply RD, in_or_app; auto).
    assert (RDb : forall x, In x (reads b) -> P x) by (intros; apply RD, in_or_app; auto).
    inversion X as [| | | | | | | | | | | | | |r0 a0 b0 v1 r1 Xa S|r0 a0 b0 z r1 Xa|r0 a0 b0 r1 v1 r2 Xa Xb| | | | | | | ]; subst;
      pose proof (IHa Oa _ _ _ _ _ _ _ Heqp0 A R RDa Xa) as Ra.
    + rewrite (NF v (eresult_used _ _ _ _ _ _ Ra Heqp1) S). exact I.
    + cbn. intros x Px V. apply (Ra x Px). cbn in V. unfold ent in V.
      destruct (dom t2 x), (eescapes b), (view t0 x); auto.
    + pose proof (IHb Ob P _ _ _ _ _ _ Heqp2 (AG _ _ _ _ A Xa) Ra RDb Xb) as Rb.
      pose proof (eresult_used _ _ _ _ _ _ Rb Heqp3) as F.
      destruct v1 as [w| |y]; cbn; [|exact I|destruct (F y eq_refl)].
      intros x Px V. apply (Rb x Px). cbn in V. unfold ent in V.
      rewrite (eescapes_sound _ _ _ _ w Xb eq_refl) in V.
      destruct (dom t2 x) eqn:D; [destruct (view t0 x), (view t2 x); auto|].
      rewrite (proj2 (ext_aexpr _ _ _ _ _ _ _ Heqp2) x D). exact V.
  - destruct O as (Oc & Oa & Ob). un E. injection E as <- M <-.
    apply app_eq_nil in M as [-> M]. apply app_eq_nil in M as [-> M]. apply app_eq_nil in M as [-> M].
    apply app_eq_nil in M as [-> M]. apply app_eq_nil in M as [-> ->].
    pose proof (check_quiet _ _ _ _ _ Heqp1 (or_intror eq_refl)). subst t1.
    pose proof (check_quiet _ _ _ _ _ Heqp4 (or_intror eq_refl)). subst t4.
    pose proof (check_quiet _ _ _ _ _ Heqp5 (or_intror eq_refl)). subst t5.
    assert (RDc : forall x, In x (reads c) -> P x) by (intros; apply RD, in_or_app; auto).
    assert (RDa : forall x, In x (reads a) -> P x) by (intros; apply RD, in_or_app; right; apply in_or_app; auto).
    assert (RDb : forall x, In x (reads b) -> P x) by (intros; apply RD, in_or_app; right; apply in_or_app; auto).
    inversion X as [| | | | | | | | | | | | | | | | |r0 c0 a0 b0 v1 r1 Xc S|r0 c0 a0 b0 z r1 v1 r2 Xc Z Xa|r0 c0 a0 b0 r1 v1 r2 Xc Xb| | | | ]; subst;
      pose proof (IHc Oc _ _ _ _ _ _ _ Heqp0 A R RDc Xc) as Rc.
    + rewrite (NF v (eresult_used _ _ _ _ _ _ Rc Heqp1) S). exact I.
    + pose proof (IHa Oa P _ _ _ _ _ _ Heqp2 (AG _ _ _ _ A Xc) Rc RDa Xa) as Ra.
      pose proof (eresult_used _ _ _ _ _ _ Ra Heqp4) as F.
      destruct v as [w| |y]; cbn; [|exact I|destruct (F y eq_refl)].
      apply joined_true; [exact (ext_aexpr _ _ _ _ _ _ _ Heqp2)|exact Ra|exact (eescapes_sound _ _ _ _ w Xa eq_refl)].
    + pose proof (IHb Ob P _ _ _ _ _ _ Heqp3 (AG _ _ _ _ A Xc) Rc RDb Xb) as Rb.
      pose proof (eresult_used _ _ _ _ _ _ Rb Heqp5) as F.
      destruct v as [w| |y]; cbn; [|exact I|destruct (F y eq_refl)].
      apply joined_false; [exact (ext_aexpr _ _ _ _ _ _ _ Heqp3)|exact Rb|exact (eescapes_sound _ _ _ _ w Xb eq_refl)].
  - destruct O as (Oa & Ob & Oab). un E. injection E as <- M <-.
    apply app_eq_nil in M as [-> M]. apply app_eq_nil in M as [-> M]. apply app_eq_nil in M as [-> ->].
    pose proof (check_quiet _ _ _ _ _ Heqp2 (or_intror eq_refl)). subst t2.
    pose proof (check_quiet _ _ _ _ _ Heqp3 (or_intror eq_refl)). subst t3.
    assert (RDa : forall x, In x (reads a) -> P x) by (intros; apply RD, in_or_app; auto).
    assert (RDb : forall x, In x (reads b) -> P x) by (intros; apply RD, in_or_app; auto).
    inversion X as [| | | | | | | | | | | | | | | | | | | |r0 a0 b0 v1 r1 Xa S|r0 a0 b0 z r1 v1 r2 Xa Xb| | ]; subst;
      pose proof (IHa Oa _ _ _ _ _ _ _ Heqp0 A R RDa Xa) as Ra.
    + destruct v as [w| |y]; [destruct S|exact I|]. exfalso. destruct Ra as [-> V].
      apply check_clean in Heqp2 as [_ C].
      destruct (pending _ _ _ _ _ _ _ Heqp0) as [B|B]; [|congruence].
      rewrite (frame_aexpr _ _ _ _ _ _ _ y Heqp1 (or_intror eq_refl) (Oab y B)) in C. congruence.
    + pose proof (IHb Ob P _ _ _ _ _ _ Heqp1 (AG _ _ _ _ A Xa) Ra RDb Xb) as Rb.
      exact Rb.
  - un E. injection E as <- M <-. apply app_eq_nil in M as [-> ->].
    pose proof (check_quiet _ _ _ _ _ Heqp1 (or_intror eq_refl)). subst t1.
    inversion X as [| | | | | | | | | | | | | | | | | | | | | |r0 y e v1 r1 Xa S|r0 y e z r1 Xa]; subst;
      pose proof (IHa O P _ _ _ _ _ _ Heqp0 A R RD Xa) as Ra.
    + rewrite (NF v (eresult_used _ _ _ _ _ _ Ra Heqp1) S). exact I.
    + cbn. intros y Py V. cbn in V. rewrite upd_true in V. unfold set. destruct (Nat.eqb x y); [discriminate|]. exact (Ra y Py V).
  - injection E as <- <-. inversion X; subst; [exact R|exact I].
  - injection E as <- <-. inversion X; subst. exact I.
Qed.
End Sound.

(** * Control flow *)
Definition fo (o : out) : Flow_spec.out :=
  match o with ONormal => Flow_spec.ONormal | OBreak => Flow_spec.OBreak | OCont => Flow_spec.OCont | _ => Flow_spec.OExit end.
Lemma fo_normal o : o <> ONormal -> fo o <> Flow_spec.ONormal.
Proof. destruct o; cbn; congruence. Qed.
Lemma fo_stop v : stops v -> fo (eout v) = Flow_spec.OExit.
Proof. destruct v; cbn; tauto. Qed.
Lemma eflow_exec r e v r' : eval r e v r' -> forall z, v = RVal z -> Flow_spec.eexec (eflow e) Flow_spec.ONormal.
Proof.
  induction 1; intros z0 E; cbn [eflow]; try discriminate; try (subst v; match goal with H : stops _ |- _ => destruct H end); try (constructor; fail).
  - apply Flow_spec.X_cond_a. eauto.
  - apply Flow_spec.X_cond_b. eauto.
  - constructor; eauto.
Qed.
Lemma eflow_out r e v r' : eval r e v r' -> Flow_spec.eexec (eflow e) (fo (eout v)).
Proof. intros X. destruct v as [z| |]; cbn; [eapply eflow_exec; eauto| |]; constructor. Qed.

Inductive tail_of : cases -> cases -> Prop :=
| T_here cs : tail_of cs cs
| T_later cs' l s cs : tail_of cs' cs -> tail_of cs' (CCase l s cs).
Definition lmark (l : option nat) : Flow_model.mark := match l with Some c => Flow_model.MC c | None => Flow_model.MD end.
Fixpoint cmarks (cs : cases) : list Flow_model.mark := match cs with CNil => [] | CCase l _ cs => lmark l :: cmarks cs end.

Definition accum (acc : Flow_model.stmt) (l : option nat) (s : stmt) : Flow_model.stmt := extend (Some acc) l s (flow s).
Lemma extend_normal acc l s en : Flow_spec.exec acc en Flow_spec.ONormal -> Flow_spec.exec (flow s) Flow_spec.Top Flow_spec.ONormal ->
  Flow_spec.exec (accum acc l s) en Flow_spec.ONormal.
Proof.
  intros A S. assert (M : Flow_spec.exec (Flow_model.Seq acc (mark l)) en Flow_spec.ONormal).
  { eapply Flow_spec.X_seq; [exact A|]. apply Flow_spec.X_marker. }
  unfold accum, extend, marked. destruct s; try exact M; (eapply Flow_spec.X_seq; [exact M|exact S]).
Qed.
Lemma extend_out acc l s en o : Flow_spec.exec acc en Flow_spec.ONormal -> Flow_spec.exec (flow s) Flow_spec.Top o -> o <> Flow_spec.ONormal ->
  Flow_spec.exec (accum acc l s) en o.
Proof.
  intros A S N. assert (M : Flow_spec.exec (Flow_model.Seq acc (mark l)) en Flow_spec.ONormal).
  { eapply Flow_spec.X_seq; [exact A|]. apply Flow_spec.X_marker. }
  unfold accum, extend, marked. destruct s; try (eapply Flow_spec.X_seq; [exact M|exact S]).
  inversion S; subst. destruct (N eq_refl).
Qed.
Lemma extend_before acc l s en o : Flow_spec.exec acc en o -> o <> Flow_spec.ONormal -> Flow_spec.exec (accum acc l s) en o.
Proof.
  intros A N. assert (M : Flow_spec.exec (Flow_model.Seq acc (mark l)) en o) by (apply Flow_spec.X_seq_out; assumption).
  unfold accum, extend, marked. destruct s; try exact M; (apply Flow_spec.X_seq_out; assumption).
Qed.
Lemma flow_seq a b o : Flow_spec.exec (Flow_model.Seq a b) Flow_spec.Top o ->
  (Flow_spec.exec a Flow_spec.Top Flow_spec.ONormal /\ Flow_spec.exec b Flow_spec.Top o) \/ (Flow_spec.exec a Flow_spec.Top o /\ o <> Flow_spec.ONormal).
Proof. intros X. inversion X; subst; auto. Qed.
Lemma cflow_before cs : forall acc en o, Flow_spec.exec acc en o -> o <> Flow_spec.ONormal -> Flow_spec.exec (cflow (Some acc) cs) en o.
Proof.
  induction cs as [|l s cs IH]; intros acc en o A N; cbn [cflow]; [exact A|]. apply IH; [|exact N]. apply extend_before; assumption.
Qed.
Lemma cflow_run cs : forall acc en o, Flow_spec.exec acc en Flow_spec.ONormal -> Flow_spec.exec (flow (seq_of cs)) Flow_spec.Top o ->
  Flow_spec.exec (cflow (Some acc) cs) en o.
Proof.
  induction cs as [|l s cs IH]; intros acc en o A X; cbn [cflow seq_of flow] in *.
  - inversion X; subst. exact A.
  - apply flow_seq in X as [[X1 X2]|[X1 N]].
    + apply IH; [|exact X2]. apply extend_normal; assumption.
    + apply cflow_before; [|exact N]. apply extend_out; assumption.
Qed.
Lemma marked_at acc l : Flow_spec.exec (marked acc l) (Flow_spec.At (lmark l)) Flow_spec.ONormal.
Proof. unfold marked, mark, lmark. destruct acc; [apply Flow_spec.X_seq_at|]; apply Flow_spec.X_at. Qed.
Lemma cflow_at cs : forall acc l s rest o, tail_of (CCase l s rest) cs ->
  Flow_spec.exec (flow (seq_of (CCase l s rest))) Flow_spec.Top o -> Flow_spec.exec (cflow acc cs) (Flow_spec.At (lmark l)) o.
Proof.
  induction cs as [|l s cs IH]; intros acc l0 s0 rest o T X; inversion T as [|? ? ? ? T']; subst; cbn [cflow].
  - cbn [seq_of flow] in X.
    assert (K : forall o1, Flow_spec.exec (flow s) Flow_spec.Top o1 -> Flow_spec.exec (extend acc l s (flow s)) (Flow_spec.At (lmark l)) o1).
    { intros o1 X1. pose proof (marked_at acc l) as M. unfold extend.
      destruct s; try (eapply Flow_spec.X_seq; [exact M|exact X1]). inversion X1; subst. exact M. }
    apply flow_seq in X as [[X1 X2]|[X1 N]].
    + apply cflow_run; [apply K, X1|exact X2].
    + apply cflow_before; [apply K, X1|exact N].
  - eapply IH; eauto.
Qed.

Lemma flow_plain_mut :
  (forall s, Flow_spec.tidy (flow s) /\ Flow_spec.marks_ok (flow s) /\ Flow_spec.marks (flow s) = [] /\ Flow_spec.top_marks (flow s) = []) /\
  (forall cs acc, (forall a, acc = Some a -> Flow_spec.tidy a /\ Flow_spec.marks_ok a /\ Flow_spec.marks a = Flow_spec.top_marks a) ->
     Flow_spec.tidy (cflow acc cs) /\ Flow_spec.marks_ok (cflow acc cs) /\
     Flow_spec.marks (cflow acc cs) = Flow_spec.top_marks (cflow acc cs) /\
     Flow_spec.marks (cflow acc cs) = match acc with Some a => Flow_spec.marks a | None => [] end ++ cmarks cs).
Proof.
  apply stmt_cases_ind.
  - cbn; auto.
  - intros e. cbn; auto.
  - intros a (A1 & A2 & A3 & A4) b (B1 & B2 & B3 & B4). cbn. rewrite A3, B3, A4, B4. tauto.
  - intros a (A1 & A2 & A3 & A4). cbn. tauto.
  - intros e a (A1 & A2 & A3 & A4). cbn. tauto.
  - intros e a (A1 & A2 & A3 & A4) b (B1 & B2 & B3 & B4). cbn. rewrite A3, B3. tauto.
  - intros e a (A1 & A2 & A3 & A4). cbn. tauto.
  - intros a (A1 & A2 & A3 & A4) e. cbn. tauto.
  - intros i t c a (A1 & A2 & A3 & A4). cbn. tauto.
  - intros e cs H. destruct (H None) as (C1 & C2 & C3 & C4); [discriminate|]. cbn [flow Flow_spec.tidy Flow_spec.marks_ok Flow_spec.marks Flow_spec.top_marks app] in *.
    assert (M : forall m, In m (cmarks cs) -> Flow_spec.case_mark m = true).
    { clear. induction cs as [|l s cs IH]; cbn; [tauto|]. intros m [<-|I]; [destruct l; reflexivity|auto]. }
    repeat split; auto; try discriminate.
    + intros m I. rewrite C4 in I. auto.
    + rewrite C4. clear -M. induction (cmarks cs) as [|m ms IH]; cbn; [reflexivity|].
      specialize (M m (or_introl eq_refl)) as Mm. destruct m; [discriminate| |]; apply IH; intros; apply M; right; assumption.
  - intros e. cbn; auto.
  - cbn; auto.
  - cbn; auto.
  - intros [a|] H; cbn; [|auto]. destruct (H a eq_refl) as (H1 & H2 & H3). rewrite app_nil_r. tauto.
  - intros l s (A1 & A2 & A3 & A4) cs IH acc H. cbn [cflow cmarks].
    assert (K : Flow_spec.tidy (marked acc l) /\ Flow_spec.marks_ok (marked acc l) /\
                Flow_spec.marks (marked acc l) = Flow_spec.top_marks (marked acc l) /\
                Flow_spec.marks (marked acc l) = match acc with Some a => Flow_spec.marks a | None => [] end ++ [lmark l]).
    { unfold marked, mark. destruct acc as [a|]; cbn; [|auto]. destruct (H a eq_refl) as (H1 & H2 & H3). rewrite H3. tauto. }
    destruct K as (K1 & K2 & K3 & K4).
    assert (E : Flow_spec.tidy (extend acc l s (flow s)) /\ Flow_spec.marks_ok (extend acc l s (flow s)) /\
                Flow_spec.marks (extend acc l s (flow s)) = Flow_spec.top_marks (extend acc l s (flow s)) /\
                Flow_spec.marks (extend acc l s (flow s)) = match acc with Some a => Flow_spec.marks a | None => [] end ++ [lmark l]).
    { assert (G : forall f, f = flow s -> Flow_spec.tidy (Flow_model.Seq (marked acc l) f) /\ Flow_spec.marks_ok (Flow_model.Seq (marked acc l) f) /\
        Flow_spec.marks (Flow_model.Seq (marked acc l) f) = Flow_spec.top_marks (Flow_model.Seq (marked acc l) f) /\
        Flow_spec.marks (Flow_model.Seq (marked acc l) f) = match acc with Some a => Flow_spec.marks a | None => [] end ++ [lmark l]).
      { intros f F. cbn. rewrite <- F in A1, A2, A3, A4. rewrite A3, A4, !app_nil_r. auto 10. }
      unfold extend. destruct s; try (apply G; reflexivity). auto. }
    destruct E as (E1 & E2 & E3 & E4). destruct (IH (Some (extend acc l s (flow s)))) as (I1 & I2 & I3 & I4).
    { intros a Ea. injection Ea as <-. auto. }
    repeat split; auto. rewrite I4, E4, <- app_assoc. reflexivity.
Qed.
Lemma flow_plain s : Flow_spec.tidy (flow s) /\ Flow_spec.marks_ok (flow s).
Proof. destruct (proj1 flow_plain_mut s) as (H1 & H2 & _). auto. Qed.
Lemma marks_cflow cs : Flow_spec.marks (cflow None cs) = cmarks cs.
Proof. destruct (proj2 flow_plain_mut cs None) as (_ & _ & _ & H); [discriminate|exact H]. Qed.

Lemma at_label_cases z cs : (at_label z cs = CNil /\ ~ (exists n, z = Z.of_nat n /\ In (Flow_model.MC n) (cmarks cs))) \/
  exists n s rest, z = Z.of_nat n /\ at_label z cs = CCase (Some n) s rest /\ tail_of (CCase (Some n) s rest) cs /\ In (Flow_model.MC n) (cmarks cs).
Proof.
  induction cs as [|[n|] s cs IH]; cbn [at_label cmarks lmark].
  - left. split; [reflexivity|]. intros (n & _ & []).
  - destruct (Z.eqb_spec z (Z.of_nat n)) as [E|E].
    + right. exists n, s, cs. repeat split; auto; [constructor|left; reflexivity].
    + destruct IH as [[-> H]|(n' & s' & rest & E1 & -> & T & I)].
      * left. split; [reflexivity|]. intros (k & K & [I|I]); [injection I as ->; auto|apply H; eauto].
      * right. exists n', s', rest. repeat split; auto; [constructor; exact T|right; exact I].
  - destruct IH as [[-> H]|(n' & s' & rest & E1 & -> & T & I)].
    + left. split; [reflexivity|]. intros (k & K & [I|I]); [discriminate|apply H; eauto].
    + right. exists n', s', rest. repeat split; auto; [constructor; exact T|right; exact I].
Qed.
Lemma at_default_cases cs : (at_default cs = CNil /\ ~ In Flow_model.MD (cmarks cs) /\ has_default cs = false) \/
  exists s rest, at_default cs = CCase None s rest /\ tail_of (CCase None s rest) cs /\ has_default cs = true.
Proof.
  induction cs as [|[n|] s cs IH]; cbn [at_default cmarks lmark has_default].
  - left. cbn. auto.
  - destruct IH as [(-> & H & D)|(s' & rest & -> & T & D)].
    + left. repeat split; auto. intros [I|I]; [discriminate|auto].
    + right. exists s', rest. repeat split; auto. constructor. exact T.
  - right. exists s, cs. repeat split; auto. constructor.
Qed.
Lemma fresh_label (l : list Flow_model.mark) : exists c, ~ In (Flow_model.MC c) l.
Proof.
  exists (S (list_max (map (fun m => match m with Flow_model.MC c => c | _ => O end) l))). intros I.
  apply (in_map (fun m => match m with Flow_model.MC c => c | _ => O end)) in I.
  pose proof (proj1 (list_max_le _ _) (le_n (list_max (map (fun m => match m with Flow_model.MC c => c | _ => O end) l)))) as F.
  rewrite Forall_forall in F. specialize (F _ I). cbn in F. lia.
Qed.
Lemma fo_ends o o' : ends o o' -> Flow_spec.ends (fo o) (fo o').
Proof. destruct o; cbn; intros ->; cbn; try (apply Flow_spec.E_other; discriminate). apply Flow_spec.E_break. Qed.
Lemma fo_leaves o o' : leaves o o' -> Flow_spec.leaves (fo o) (fo o').
Proof. destruct o; cbn; intros H; try contradiction; subst; reflexivity. Qed.
Lemma fo_rounds o : rounds o -> Flow_spec.loops (fo o).
Proof. intros [->| ->]; [left|right]; reflexivity. Qed.

Lemma flow_exec r s o r' : exec r s o r' -> Flow_spec.exec (flow s) Flow_spec.Top (fo o).
Proof.
  assert (W0 : forall r e r', eval r e (RVal 0) r' -> forall z, match e with ENum v => Some v | _ => None end = Some z -> z = 0).
  { intros r0 e r0' X z H. destruct e; try discriminate. injection H as <-. inversion X; subst. reflexivity. }
  assert (W1 : forall r e z r', eval r e (RVal z) r' -> z <> 0 -> match e with ENum v => Some v | _ => None end <> Some 0).
  { intros r0 e z r0' X Z. destruct e; try discriminate. intros H. injection H as ->. inversion X; subst. auto. }
  induction 1; cbn [flow fo] in *; try (rewrite fo_stop by assumption);
    try match goal with H : leaves _ _ |- _ => apply fo_leaves in H end;
    try match goal with H : rounds _ |- _ => apply fo_rounds in H end.
  - constructor.
  - apply Flow_spec.X_expr. eapply eflow_out; eassumption.
  - eapply Flow_spec.X_seq; eassumption.
  - apply Flow_spec.X_seq_out; [assumption|]. apply fo_normal; assumption.
  - constructor. assumption.
  - constructor.
  - apply Flow_spec.X_if_skip.
  - apply Flow_spec.X_if. assumption.
  - constructor.
  - apply Flow_spec.X_else_a. assumption.
  - apply Flow_spec.X_else_b. assumption.
  - constructor.
  - apply Flow_spec.X_while_end. eapply W0; eassumption.
  - eapply Flow_spec.X_while; [eapply W1; eassumption|eassumption|assumption].
  - eapply Flow_spec.X_while_round; [eapply W1; eassumption|eassumption|assumption|assumption].
  - eapply Flow_spec.X_do; eassumption.
  - eapply Flow_spec.X_do_exit; eassumption.
  - eapply Flow_spec.X_do_end; eassumption.
  - eapply Flow_spec.X_do_round; eassumption.
  - apply Flow_spec.X_for_exit.
  - assumption.
  - apply Flow_spec.X_for_exit.
  - apply Flow_spec.X_for_end.
  - eapply Flow_spec.X_for; eassumption.
  - apply Flow_spec.X_for_exit.
  - eapply Flow_spec.X_for_round; eassumption.
  - apply Flow_spec.X_switch_exit.
  - match goal with H : ends _ _ |- _ => apply fo_ends in H as Ends end.
    pose proof (eflow_exec _ _ _ _ H _ eq_refl) as Ee.
    assert (NE : forall (c : nat) l, None = Some l -> In c l) by discriminate.
    unfold select in *. destruct (at_label_cases z cs) as [[E N]|(n & s & rest & Zn & E & T & I)].
    + rewrite E in IHexec. destruct (fresh_label (cmarks cs)) as [c C].
      destruct (at_default_cases cs) as [(D & ND & _)|(s & rest & D & T & _)]; rewrite D in IHexec.
      * cbn in IHexec. assert (O : o = ONormal) by (inversion IHexec; destruct o; cbn in *; congruence). subst o. cbn in H1. subst. cbn.
        eapply Flow_spec.X_switch_none with (c := c); cbn [Flow_spec.marks]; rewrite ?marks_cflow; auto.
      * eapply Flow_spec.X_switch_default with (c := c); cbn [Flow_spec.marks]; rewrite ?marks_cflow; eauto.
        apply Flow_spec.X_block. exact (cflow_at _ None _ _ _ _ T IHexec).
    + rewrite E in IHexec. eapply Flow_spec.X_switch_case with (c := n); cbn [Flow_spec.marks]; rewrite ?marks_cflow; eauto.
      apply Flow_spec.X_block. exact (cflow_at _ None _ _ _ _ T IHexec).
  - apply Flow_spec.X_retx.
  - apply Flow_spec.X_retx.
  - apply Flow_spec.X_retx.
  - constructor.
  - constructor.
Qed.

(** * Statements: entries, and what stays the same *)
Lemma ext_aused e t t' m : aused e t = (t', m) -> ext t t'.
Proof. unfold aused. intros E. un E. injection E as <- _. exts. eapply ext_aexpr; eassumption. Qed.
Lemma frame_aused e t t' x : aused e t = (t', []) -> ~ In x (sets e) -> view t' x = view t x.
Proof.
  unfold aused. intros E N. un E. injection E as <- M. apply app_eq_nil in M as [-> ->].
  apply check_quiet in Heqp0; [subst|auto]. eapply frame_aexpr; eauto.
Qed.
Lemma ext_aopt p g e t t' m q : aopt p g e t = (t', m, q) -> ext t t'.
Proof. destruct e as [e|]; cbn; intros E; [eapply ext_aexpr; eassumption|]. injection E as <- _ _. apply ext_refl. Qed.
Lemma frame_aopt p g e t t' m q x : aopt p g e t = (t', m, q) -> p = true \/ m = [] -> ~ In x (osets e) -> view t' x = view t x.
Proof. destruct e as [e|]; cbn; intros E Q N; [eapply frame_aexpr; eassumption|]. injection E as <- _ _. reflexivity. Qed.

Section Stmts.
Variables whileexec forexec obvious unreach : bool.
Variable shown : Flow_model.stmt -> bool.
Local Notation astmt := (astmt whileexec forexec obvious unreach shown).
Local Notation acases := (acases whileexec forexec obvious unreach shown).
Local Notation escapes := (escapes unreach shown).
Local Notation node := (node unreach shown).
Local Notation must_return := (must_return unreach shown).
Local Notation note := (note unreach shown).

Ltac uns H :=
  repeat (cbv beta iota in H;
  match type of H with
  | context [match aexpr ?p ?g ?e ?u with (_, _) => _ end] =>
      let t := fresh "t" in let m := fresh "m" in let q := fresh "q" in destruct (aexpr p g e u) as [[t m] q] eqn:?
  | context [match aopt ?p ?g ?e ?u with (_, _) => _ end] =>
      let t := fresh "t" in let m := fresh "m" in let q := fresh "q" in destruct (aopt p g e u) as [[t m] q] eqn:?
  | context [match check ?p ?u ?q with (_, _) => _ end] =>
      let t := fresh "t" in let m := fresh "m" in destruct (check p u q) as [t m] eqn:?
  | context [match aused ?e ?u with (_, _) => _ end] =>
      let t := fresh "t" in let m := fresh "m" in destruct (aused e u) as [t m] eqn:?
  | context [match astmt ?e ?u with (_, _) => _ end] =>
      let t := fresh "t" in let m := fresh "m" in destruct (astmt e u) as [t m] eqn:?
  | context [match acases ?a ?b ?c ?d ?e with (_, _) => _ end] =>
      let t := fresh "ts" in let m := fresh "m" in destruct (acases a b c d e) as [t m] eqn:?
  end).

(** One step through the cases. *)
Definition must_of (acc : option Flow_model.stmt) : bool := match acc with Some f => must_return f | None => false end.
Definition start_case (pre : tab) (acc : option Flow_model.stmt) (cur : option tab) (done : list (bool * tab)) : tab * list (bool * tab) :=
  match cur with
  | None => (enter pre, done)
  | Some c => if negb (brk c) && negb (must_of acc) then (fall_into pre c, done) else (enter pre, (must_of acc, c) :: done)
  end.
Lemma acases_nil pre acc cur done : acases pre acc cur done CNil = (match cur with Some c => (must_of acc, c) :: done | None => done end, []).
Proof. reflexivity. Qed.
Lemma acases_case pre acc cur done l s cs : acases pre acc cur done (CCase l s cs) =
  let '(c, done) := start_case pre acc cur done in
  let '(c, m) := astmt s c in
  let '(ts, m') := acases pre (Some (extend acc l s (flow s))) (Some (note (extend acc l s (flow s)) c)) done cs in
  (ts, m ++ m').
Proof. reflexivity. Qed.

Lemma astmt_switch e cs t : astmt (SSwitch e cs) t =
  let '(t, m, _) := aexpr false false e t in
  let '(ts, m') := acases t None None [] cs in
  (exit_switch t (has_default cs) ts, m ++ m').
Proof. reflexivity. Qed.
Lemma acases_all (Q : tab -> Prop) pre : Q (enter pre) -> (forall c, Q c -> Q (fall_into pre c)) -> (forall c b, Q c -> Q (with_brk c b)) ->
  forall cs, (forall l s rest, tail_of (CCase l s rest) cs -> forall c c' m, astmt s c = (c', m) -> Q c -> Q c') ->
  forall acc cur done ts m, acases pre acc cur done cs = (ts, m) ->
  (forall c, cur = Some c -> Q c) -> (forall b c, In (b, c) done -> Q c) -> forall b c, In (b, c) ts -> Q c.
Proof.
  intros Q0 QF QB. induction cs as [|l s cs IH]; intros QS acc cur done ts m E C D b c I.
  - rewrite acases_nil in E. injection E as <- _. destruct cur as [c0|]; [|eauto]. destruct I as [I|I]; [|eauto].
    injection I as _ <-. apply C. reflexivity.
  - rewrite acases_case in E. destruct (start_case pre acc cur done) as [c1 done1] eqn:S1.
    destruct (astmt s c1) as [c2 m2] eqn:E2. destruct (acases _ _ _ done1 cs) as [ts' m'] eqn:E3. injection E as <- _.
    assert (K : Q c1 /\ forall b c, In (b, c) done1 -> Q c).
    { unfold start_case in S1. destruct cur as [c0|]; [|injection S1 as <- <-; auto].
      destruct (_ && _); injection S1 as <- <-; [auto|]. split; [exact Q0|]. intros b1 d [I1|I1]; [|eauto]. injection I1 as _ <-. apply C. reflexivity. }
    destruct K as [K1 K2]. eapply IH; [|exact E3| |exact K2|exact I].
    + intros l1 s1 rest T. eapply QS. constructor. exact T.
    + intros d Ed. injection Ed as <-. apply QB. eapply QS; [constructor|eassumption|exact K1].
Qed.
(** The complaints of each case are among those of all. *)
Lemma acases_quiet pre cs : forall acc cur done ts, acases pre acc cur done cs = (ts, []) ->
  forall l s rest, tail_of (CCase l s rest) cs -> exists c c', astmt s c = (c', []).
Proof.
  induction cs as [|l s cs IH]; intros acc cur done ts E l0 s0 rest T; inversion T as [|? ? ? ? T']; subst.
  - rewrite acases_case in E. destruct (start_case pre acc cur done) as [c1 done1]. destruct (astmt s c1) as [c2 m2] eqn:E2.
    destruct (acases _ _ _ done1 cs) as [ts' m']. injection E as _ M. apply app_eq_nil in M as [-> _]. eauto.
  - rewrite acases_case in E. destruct (start_case pre acc cur done) as [c1 done1]. destruct (astmt s c1) as [c2 m2] eqn:E2.
    destruct (acases _ _ _ done1 cs) as [ts' m'] eqn:E3. injection E as _ M. apply app_eq_nil in M as [_ ->]. eauto.
Qed.

Lemma ext_exit pre all ts : ext pre (exit_switch pre all ts).
Proof.
  destruct ts as [|[must l] ts]; [apply ext_refl|]. split; intros x; cbn.
  - intros ->. reflexivity.
  - intros H. apply orb_false_iff in H as [_ H]. rewrite ent_none by exact H. reflexivity.
Qed.
Lemma ext_stmt_mut :
  (forall s t t' m, astmt s t = (t', m) -> ext t t') /\
  (forall cs l s rest, tail_of (CCase l s rest) cs -> forall t t' m, astmt s t = (t', m) -> ext t t').
Proof.
  apply stmt_cases_ind; try (cbn [Def_model.astmt]; intros; match goal with H : (_, _) = _ |- _ => injection H as <- _ end; apply ext_refl).
  - intros e t t' m E. eapply ext_aused; eassumption.
  - intros a IHa b IHb t t' m E. cbn [Def_model.astmt] in E. uns E. injection E as <- _. unfold note. exts.
    eapply ext_trans; [eapply IHa|eapply IHb]; eassumption.
  - intros a IHa t t' m E. cbn [Def_model.astmt] in E. eapply ext_trans; [apply ext_with_brk|]. eapply IHa; eassumption.
  - intros e a IHa t t' m E. cbn [Def_model.astmt] in E. uns E. injection E as <- _. exts; [eapply ext_aused; eassumption|eapply IHa; eassumption].
  - intros e a IHa b IHb t t' m E. cbn [Def_model.astmt] in E. uns E. injection E as <- _.
    exts; [eapply ext_aused; eassumption|eapply IHa; eassumption|eapply IHb; eassumption].
  - intros e a IHa t t' m E. cbn [Def_model.astmt] in E. uns E. injection E as <- _. exts; [eapply ext_aused; eassumption|eapply IHa; eassumption].
  - intros a IHa e t t' m E. cbn [Def_model.astmt] in E. uns E. injection E as <- _.
    eapply ext_trans; [eapply IHa; eassumption|eapply ext_aused; eassumption].
  - intros i te c a IHa t t' m E. cbn [Def_model.astmt] in E. uns E. injection E as <- _. exts.
    + eapply ext_trans; [eapply ext_aopt; eassumption|]. eapply ext_trans; [eapply ext_aopt; eassumption|]. eapply ext_aopt; eassumption.
    + eapply ext_trans; [eapply IHa; eassumption|]. eapply ext_trans; [eapply ext_aopt; eassumption|]. eapply ext_aopt; eassumption.
  - intros e cs IH t t' m E. rewrite astmt_switch in E. uns E. injection E as <- _.
    eapply ext_trans; [eapply ext_aexpr; eassumption|]. apply ext_exit.
  - intros [e|] t t' m E; cbn [Def_model.astmt] in E; [eapply ext_aused; eassumption|]. injection E as <- _. apply ext_refl.
  - intros l s rest T. inversion T.
  - intros l s IHs cs IHcs l0 s0 rest T. inversion T as [|? ? ? ? T']; subst; [exact IHs|]. eapply IHcs. exact T'.
Qed.
Lemma ext_astmt s t t' m : astmt s t = (t', m) -> ext t t'.
Proof. apply (proj1 ext_stmt_mut). Qed.
Lemma ext_fall pre c : ext (enter pre) c -> ext (enter pre) (fall_into pre c).
Proof. intros [D V]. split; [exact D|]. intros x H. cbn in *. rewrite H. apply V. exact H. Qed.
Lemma ext_acases pre cs acc cur done ts m : acases pre acc cur done cs = (ts, m) ->
  (forall c, cur = Some c -> ext (enter pre) c) -> (forall b c, In (b, c) done -> ext (enter pre) c) -> forall b c, In (b, c) ts -> ext (enter pre) c.
Proof.
  intros E. eapply (acases_all (ext (enter pre)) pre); try exact E.
  - apply ext_refl.
  - apply ext_fall.
  - intros c b H. eapply ext_trans; [exact H|]. apply ext_with_brk.
  - intros l s rest _ c c' m0 E0 H. eapply ext_trans; [exact H|]. eapply ext_astmt; eassumption.
Qed.

(** Variables not assigned. *)
Lemma same_cases pre ts : forall last l x, view l x = view pre x -> (forall b c, In (b, c) ts -> view c x = view pre x) ->
  view (add_cases pre last l ts) x = view pre x.
Proof.
  induction ts as [|[must t] ts IH]; intros last l x L T; cbn [add_cases]; [exact L|].
  apply IH; [|intros b c I; apply (T b c); right; exact I]. cbn. unfold ent.
  destruct (dom t x); [|exact L]. rewrite (T must t (or_introl eq_refl)).
  assert (O : (match (if dom l x then Some (view l x) else None) with Some o => o | None => view pre x end) = view pre x)
    by (destruct (dom l x); auto).
  rewrite O. destruct last, must, (view pre x); reflexivity.
Qed.
Lemma same_exit pre all ts x : (forall b c, In (b, c) ts -> view c x = view pre x) -> view (exit_switch pre all ts) x = view pre x.
Proof.
  destruct ts as [|[must l] ts]; [reflexivity|]. intros H. cbn. unfold ent.
  assert (K : view (add_cases pre must l ts) x = view pre x).
  { apply same_cases; [apply (H must); left; reflexivity|]. intros b c I. apply (H b). right. exact I. }
  rewrite K. destruct (dom _ x), all, (view pre x); reflexivity.
Qed.
Lemma frame_stmt_mut :
  (forall s x t t', astmt s t = (t', []) -> ~ In x (ssets s) -> view t' x = view t x) /\
  (forall cs x pre acc cur done ts, acases pre acc cur done cs = (ts, []) -> ~ In x (csets cs) ->
     (forall c, cur = Some c -> view c x = view pre x) -> (forall b c, In (b, c) done -> view c x = view pre x) ->
     forall b c, In (b, c) ts -> view c x = view pre x).
Proof.
  apply stmt_cases_ind; try (cbn [Def_model.astmt ssets]; intros; match goal with H : (_, _) = _ |- _ => injection H as <- end; reflexivity).
  - intros e x t t' E N. eapply frame_aused; eassumption.
  - intros a IHa b IHb x t t' E N. cbn [Def_model.astmt ssets] in *. rewrite in_app_iff in N. uns E. injection E as <- M.
    apply app_eq_nil in M as [-> ->]. cbn. transitivity (view t0 x); [eapply IHb|eapply IHa]; eauto.
  - intros a IHa x t t' E N. cbn [Def_model.astmt ssets] in *. rewrite (IHa _ _ _ E N). reflexivity.
  - intros e a IHa x t t' E N. cbn [Def_model.astmt ssets] in *. rewrite in_app_iff in N. uns E. injection E as <- M.
    apply app_eq_nil in M as [-> ->]. rewrite same_pop; [eapply frame_aused; eauto| |reflexivity].
    change (view t0 x) with (view (enter t0) x). eapply IHa; eauto.
  - intros e a IHa b IHb x t t' E N. cbn [Def_model.astmt ssets] in *. rewrite !in_app_iff in N. uns E. injection E as <- M.
    apply app_eq_nil in M as [-> M]. apply app_eq_nil in M as [-> ->]. rewrite same_pop; [eapply frame_aused; eauto| |];
      change (view t0 x) with (view (enter t0) x); [eapply IHa|eapply IHb]; eauto.
  - intros e a IHa x t t' E N. cbn [Def_model.astmt ssets] in *. rewrite in_app_iff in N. uns E. injection E as <- M.
    apply app_eq_nil in M as [-> ->]. rewrite same_pop; [eapply frame_aused; eauto| |reflexivity].
    change (view t0 x) with (view (enter t0) x). eapply IHa; eauto.
  - intros a IHa e x t t' E N. cbn [Def_model.astmt ssets] in *. rewrite in_app_iff in N. uns E. injection E as <- M.
    apply app_eq_nil in M as [-> ->]. transitivity (view t0 x); [eapply frame_aused|eapply IHa]; eauto.
  - intros i te c a IHa x t t' E N. cbn [Def_model.astmt ssets] in *. rewrite !in_app_iff in N. uns E. injection E as <- M.
    repeat (apply app_eq_nil in M as [-> M]). subst.
    apply check_quiet in Heqp2; [subst|auto]. apply check_quiet in Heqp3; [subst|auto].
    assert (K : view t2 x = view t x).
    { transitivity (view t1 x); [eapply frame_aopt; [eassumption|auto|tauto]|]. transitivity (view t0 x); (eapply frame_aopt; [eassumption|auto|tauto]). }
    change (view (pop_branches (escapes a) (forexec || obvious && loop_must_exec i te) t2 t7 (enter t2)) x = view t x).
    rewrite same_pop; [exact K| |reflexivity].
    transitivity (view t6 x); [eapply frame_aopt; [eassumption|auto|tauto]|]. transitivity (view t5 x); [eapply frame_aopt; [eassumption|auto|tauto]|].
    change (view t2 x) with (view (enter t2) x). eapply IHa; [eassumption|tauto].
  - intros e cs IH x t t' E N. rewrite astmt_switch in E. cbn [ssets] in N. rewrite in_app_iff in N. uns E. injection E as <- M.
    apply app_eq_nil in M as [-> ->]. rewrite same_exit; [eapply frame_aexpr; eauto|].
    eapply IH; eauto; [discriminate|]. intros b c [].
  - intros [e|] x t t' E N; cbn [Def_model.astmt ssets osets] in *; [eapply frame_aused; eassumption|]. injection E as <-. reflexivity.
  - intros x pre acc cur done ts E N C D b c I. rewrite acases_nil in E. injection E as <-. destruct cur as [c0|]; [|eauto].
    destruct I as [I|I]; [|eauto]. injection I as _ <-. auto.
  - intros l s IHs cs IHcs x pre acc cur done ts E N C D b c I. cbn [csets] in N. rewrite in_app_iff in N. rewrite acases_case in E.
    destruct (start_case pre acc cur done) as [c1 done1] eqn:S1. destruct (astmt s c1) as [c2 m2] eqn:E2.
    destruct (acases _ _ _ done1 cs) as [ts' m'] eqn:E3. injection E as <- M. apply app_eq_nil in M as [-> ->].
    assert (K : view c1 x = view pre x /\ forall b c, In (b, c) done1 -> view c x = view pre x).
    { unfold start_case in S1. destruct cur as [c0|]; [|injection S1 as <- <-; auto].
      destruct (_ && _); injection S1 as <- <-.
      - split; [|exact D]. cbn. rewrite (C c0 eq_refl). destruct (dom c0 x), (view pre x); reflexivity.
      - split; [reflexivity|]. intros b1 d [I1|I1]; [|eauto]. injection I1 as _ <-. auto. }
    destruct K as [K1 K2]. eapply IHcs; eauto. intros d Ed. injection Ed as <-. cbn. rewrite <- K1. eapply IHs; eauto.
Qed.
Lemma frame_astmt s x t t' : astmt s t = (t', []) -> ~ In x (ssets s) -> view t' x = view t x.
Proof. apply (proj1 frame_stmt_mut). Qed.

(** * How statements are left *)
Lemma goes_mono r te r1 : goes r te r1 -> forall y, r y <> None -> r1 y <> None.
Proof. destruct te as [e|]; cbn; [|intros ->; auto]. intros (z & _ & X). exact (eval_mono _ _ _ _ X). Qed.
Lemma steps_mono r c r1 : steps r c r1 -> forall y, r y <> None -> r1 y <> None.
Proof. destruct c as [e|]; cbn; [|intros ->; auto]. intros (z & X). exact (eval_mono _ _ _ _ X). Qed.
Lemma exec_mono r s o r' : exec r s o r' -> forall y, r y <> None -> r' y <> None.
Proof.
  induction 1; intros y HY; auto;
    repeat match goal with
    | H : eval ?r _ _ ?r1, K : ?r y <> None |- _ => pose proof (eval_mono _ _ _ _ H y K); clear H
    | H : goes ?r _ ?r1, K : ?r y <> None |- _ => pose proof (goes_mono _ _ _ H y K); clear H
    end; auto.
  - eauto using eval_mono.
  - eapply eval_mono; eauto.
  - apply IHexec2. eapply eval_mono; eauto.
  - eapply eval_mono; eauto.
  - apply IHexec2. eapply steps_mono; eauto.
Qed.
Lemma no_break r s o r' : exec r s o r' -> o = OBreak -> breaks s.
Proof.
  induction 1; cbn [breaks] in *; intros E; subst; try discriminate; auto;
    try (match goal with H : eout ?v = _ |- _ => destruct v; discriminate end);
    try (match goal with H : leaves ?o _ |- _ => destruct o; cbn in H; try contradiction; discriminate end).
  destruct o; cbn in *; discriminate.
Qed.
Lemma tail_continues cs' cs : tail_of cs' cs -> continues (seq_of cs') -> ccontinues cs.
Proof.
  assert (K : forall cs, continues (seq_of cs) -> ccontinues cs).
  { induction cs0 as [|l s cs0 IH]; cbn; tauto. }
  induction 1; [auto|]. intros C. cbn. auto.
Qed.
Lemma select_tail z cs : (select z cs = CNil /\ has_default cs = false) \/ (select z cs <> CNil /\ tail_of (select z cs) cs).
Proof.
  unfold select. destruct (at_label_cases z cs) as [[-> _]|(n & s & rest & _ & -> & T & _)].
  - destruct (at_default_cases cs) as [(-> & _ & D)|(s & rest & -> & T & _)]; [auto|right; split; [discriminate|exact T]].
  - right. split; [discriminate|exact T].
Qed.
Lemma no_cont r s o r' : exec r s o r' -> o = OCont -> continues s.
Proof.
  induction 1; cbn [continues] in *; intros E; subst; try discriminate; auto;
    try (match goal with H : eout ?v = _ |- _ => destruct v; discriminate end);
    try (match goal with H : leaves ?o _ |- _ => destruct o; cbn in H; try contradiction; discriminate end).
  assert (O : o = OCont) by (destruct o; cbn in *; congruence).
  specialize (IHexec O). destruct (select_tail z cs) as [[E _]|[_ T]]; [rewrite E in IHexec; destruct IHexec|].
  exact (tail_continues _ _ T IHexec).
Qed.
Lemma escapes_sound s r r' : exec r s ONormal r' -> escapes s = false.
Proof.
  intros X. destruct (escapes s) eqn:E; [|reflexivity]. destruct (flow_plain s) as (T & M).
  destruct (Flow_proofs.must_sound unreach shown (flow s) T M E Flow_spec.Top (flow_exec _ _ _ _ X)).
Qed.
(** The statements of a switch so far. *)
Definition acc_ok (acc : option Flow_model.stmt) : Prop :=
  forall a, acc = Some a -> Flow_spec.tidy a /\ Flow_spec.marks_ok a.
Lemma acc_ok_extend acc l s : acc_ok acc -> acc_ok (Some (extend acc l s (flow s))).
Proof.
  intros A a E. injection E as <-. destruct (proj1 flow_plain_mut s) as (F1 & F2 & F3 & F4).
  assert (K : Flow_spec.tidy (marked acc l) /\ Flow_spec.marks_ok (marked acc l)).
  { unfold marked, mark. destruct acc as [a|]; cbn; [|auto]. destruct (A a eq_refl). tauto. }
  assert (G : forall f, f = flow s -> Flow_spec.tidy (Flow_model.Seq (marked acc l) f) /\ Flow_spec.marks_ok (Flow_model.Seq (marked acc l) f)).
  { intros f F. cbn. rewrite F, F3. tauto. }
  unfold extend. destruct s; try (apply G; reflexivity). exact K.
Qed.
Lemma extend_at acc l s o : Flow_spec.exec (flow s) Flow_spec.Top o -> Flow_spec.exec (extend acc l s (flow s)) (Flow_spec.At (lmark l)) o.
Proof.
  intros X1. pose proof (marked_at acc l) as M. unfold extend.
  destruct s; try (eapply Flow_spec.X_seq; [exact M|exact X1]). inversion X1; subst. exact M.
Qed.
Lemma extend_sound acc l s r r' : acc_ok acc -> exec r s ONormal r' -> Flow_model.mustEscape (node (extend acc l s (flow s))) = false.
Proof.
  intros A X. destruct (Flow_model.mustEscape _) eqn:E; [|reflexivity].
  destruct (acc_ok_extend acc l s A _ eq_refl) as [T M].
  destruct (Flow_proofs.must_sound unreach shown _ T M E _ (extend_at acc l s _ (flow_exec _ _ _ _ X))).
Qed.
Lemma must_return_escape f : Flow_model.mustEscape (node f) = false -> must_return f = false.
Proof. unfold must_return, Def_model.must_return, Flow_model.mustEscape. intros H. apply orb_false_iff in H. tauto. Qed.

(** The mark of a table. *)
Lemma check_brk p t q t' m : check p t q = (t', m) -> brk t' = brk t.
Proof. unfold check. destruct q as [x|]; [destruct p; [|destruct (view t x)]|]; intros E; injection E as <- _; reflexivity. Qed.
Lemma aexpr_brk e : forall p g t t' m q, aexpr p g e t = (t', m, q) -> brk t' = brk t.
Proof.
  induction e as [v|y|o a IHa b IHb|a IHa|a IHa b IHb|a IHa b IHb|c IHc a IHa b IHb|a IHa b IHb|y a IHa| |];
    cbn [aexpr]; intros p g t t' m q E.
  7: destruct g.
  all: un E; injection E as <- _ _; cbn;
    repeat match goal with H : check _ _ _ = _ |- _ => apply check_brk in H end;
    repeat match goal with
    | H : aexpr _ _ ?e _ = (_, _, _), IH : forall p g t t' m q, aexpr p g ?e t = (t', m, q) -> _ |- _ => apply IH in H end; cbn in *; congruence.
Qed.
Lemma aused_brk e t t' m : aused e t = (t', m) -> brk t' = brk t.
Proof.
  unfold aused. intros E. un E. injection E as <- _. apply check_brk in Heqp0. apply aexpr_brk in Heqp. congruence.
Qed.
Lemma brk_exit pre all ts : brk (exit_switch pre all ts) = brk pre.
Proof. destruct ts as [|[m l] ts]; reflexivity. Qed.
Lemma brk_sound init s : sober init s -> forall t t' m r r', astmt s t = (t', m) -> exec r s ONormal r' -> brk t' = true -> brk t = true.
Proof.
  induction s as [|e|a IHa b IHb|a IHa|e a IHa|e a IHa b IHb|e a IHa|a IHa e|i te c a IHa|e cs|e| |];
    intros S t t' m r r' E X B; try (injection E as <- _; exact B).
  - apply aused_brk in E. congruence.
  - cbn [Def_model.astmt sober] in *. destruct S as [Sa Sb]. uns E. injection E as <- _. cbn in B. apply orb_prop in B as [B|B].
    + inversion X as [| |? ? ? r1 ? ? Xa Xb|? ? ? ? ? Xa N| | | | | | | | | | | | | | | | | | | | | | | | | | | | |]; subst; [eauto|].
      destruct (N eq_refl).
    + change (escapes (SSeq a b) = true) in B. rewrite (escapes_sound _ _ _ X) in B. discriminate.
  - cbn [Def_model.astmt sober] in *. inversion X; subst. discriminate (IHa S _ _ _ _ _ E ltac:(eassumption) B).
  - cbn [Def_model.astmt] in E. uns E. injection E as <- _. apply aused_brk in Heqp. cbn in B. congruence.
  - cbn [Def_model.astmt] in E. uns E. injection E as <- _. apply aused_brk in Heqp. cbn in B. congruence.
  - cbn [Def_model.astmt] in E. uns E. injection E as <- _. apply aused_brk in Heqp. cbn in B. congruence.
  - cbn [Def_model.astmt sober] in *. destruct S as (_ & Sa & NB & NC). uns E. injection E as <- _. apply aused_brk in Heqp0.
    rewrite Heqp0 in B.
    assert (K : exists o r1, exec r a o r1 /\ (o = ONormal \/ leaves o ONormal \/ o = OCont)).
    { inversion X; subst; unfold rounds in *; try (eexists _, _; split; [eassumption|tauto]).
    rewrite H1. eexists _, _; split; [eassumption|tauto]. }
    destruct K as (o & r1 & Xa & K). assert (O : o = ONormal).
    { destruct K as [K|[K|K]]; [exact K| |].
      - destruct o; cbn in K; try contradiction; try discriminate. destruct NB. exact (no_break _ _ _ _ Xa eq_refl).
      - subst. destruct NC. exact (no_cont _ _ _ _ Xa eq_refl). }
    subst. eauto.
  - cbn [Def_model.astmt] in E. uns E. injection E as <- _. cbn in B. discriminate.
  - rewrite astmt_switch in E. uns E. injection E as <- _. rewrite brk_exit in B. apply aexpr_brk in Heqp. congruence.
  - cbn [Def_model.astmt] in E. destruct e as [e|]; [apply aused_brk in E|injection E as <- _]; congruence.
Qed.

(** A break at the end of a case. *)
Lemma tail_node s : tail_break s -> forall r r', exec r s OBreak r' ->
  Flow_model.mustEscape (node (flow s)) = true /\ must_return (flow s) = false.
Proof.
  assert (N : forall s, ~ breaks s -> forall r r', ~ exec r s OBreak r').
  { intros s0 B r r' X. apply B. exact (no_break _ _ _ _ X eq_refl). }
  induction s as [|e|a IHa b IHb|a IHa|e a IHa|e a IHa b IHb|e a IHa|a IHa e|i te c a IHa|e cs|e| |];
    cbn [tail_break]; intros T r r' X; try (destruct (N _ T _ _ X)).
  - destruct T as [Ta Tb].
    inversion X as [| |? ? ? r1 ? ? Xa Xb|? ? ? ? ? Xa N0| | | | | | | | | | | | | | | | | | | | | | | | | | | | |]; subst;
      [|destruct (N _ Ta _ _ Xa)].
    destruct (IHb Tb _ _ Xb) as [K1 K2]. pose proof (escapes_sound _ _ _ Xa) as K3.
    unfold escapes, Def_model.escapes, must_return, Def_model.must_return, node, Def_model.node in *.
    cbn [flow Flow_model.analyse]. unfold Flow_model.concat. rewrite K3. cbn. auto.
  - inversion X; subst. exact (IHa T _ _ ltac:(eassumption)).
  - split; reflexivity.
Qed.
Lemma marked_node acc l : Flow_model.mustEscape (node (marked acc l)) = false.
Proof.
  unfold marked, mark, node, Def_model.node. destruct acc as [a|]; [|reflexivity]. cbn. unfold Flow_model.concat. cbn.
  rewrite andb_false_r. reflexivity.
Qed.
Lemma tail_extend acc l s r r' : tail_break s -> exec r s OBreak r' ->
  Flow_model.mustEscape (node (extend acc l s (flow s))) = true /\ must_return (extend acc l s (flow s)) = false.
Proof.
  intros T X. destruct (tail_node s T _ _ X) as [K1 K2]. pose proof (marked_node acc l) as K3.
  assert (G : forall f, f = flow s -> Flow_model.mustEscape (node (Flow_model.Seq (marked acc l) f)) = true /\ must_return (Flow_model.Seq (marked acc l) f) = false).
  { intros f ->. unfold must_return, Def_model.must_return, node, Def_model.node in *. cbn [Flow_model.analyse]. unfold Flow_model.concat. rewrite K3. cbn. auto. }
  unfold extend. destruct s; try (apply G; reflexivity). inversion X.
Qed.

(** What a statement mentions has an entry. *)
Lemma dom_touch t x : dom (touch t x) x = true.
Proof. cbn. rewrite upd_true, Nat.eqb_refl. reflexivity. Qed.
Lemma dom_define t x : dom (define t x) x = true.
Proof. cbn. rewrite upd_true, Nat.eqb_refl. reflexivity. Qed.
Ltac fwd := repeat match goal with
  | E : forall x, dom ?t x = true -> dom ?t' x = true, D : dom ?t ?x = true |- _ =>
      lazymatch goal with _ : dom t' x = true |- _ => fail | _ => pose proof (E x D) end
  | E : forall x, dom (enter ?t) x = true -> dom ?t' x = true, D : dom ?t ?x = true |- _ =>
      lazymatch goal with _ : dom t' x = true |- _ => fail | _ => pose proof (E x D) end end.
Lemma dom_aexpr e : forall p g t t' m q x, aexpr p g e t = (t', m, q) -> In x (reads e) \/ In x (sets e) -> dom t' x = true.
Proof.
  induction e as [v|y|o a IHa b IHb|a IHa|a IHa b IHb|a IHa b IHb|c IHc a IHa b IHb|a IHa b IHb|y a IHa| |];
    cbn [aexpr reads sets]; intros p g t t' m q x E I; rewrite ?in_app_iff in I; try (destruct I as [[]|[]]; fail).
  6: destruct g.
  all: un E; injection E as <- _ _; repeat match goal with H : check _ _ _ = _ |- _ => apply ext_check in H as [H _] end.
  all: try (destruct I as [[<-|[]]|[]]; apply dom_touch).
  8: { destruct I as [I|[<-|I]]; [apply (proj1 (ext_define _ _)), Heqp1|apply dom_define|apply (proj1 (ext_define _ _)), Heqp1]; eauto. }
  all: try (assert (I' : (In x (reads c) \/ In x (sets c)) \/ (In x (reads a) \/ In x (sets a)) \/ (In x (reads b) \/ In x (sets b))) by tauto; clear I;
    destruct I' as [I|[I|I]]).
  all: try (assert (I' : (In x (reads a) \/ In x (sets a)) \/ (In x (reads b) \/ In x (sets b))) by tauto; clear I; destruct I' as [I|I]).
  all: repeat match goal with
    | H : aexpr _ _ ?e _ = (?t1, _, _), IH : forall p g t t' m q x, aexpr p g ?e t = (t', m, q) -> _, I : In ?x (reads ?e) \/ _ |- _ =>
        lazymatch goal with _ : dom t1 x = true |- _ => fail | _ => pose proof (IH _ _ _ _ _ _ _ H I) end end.
  all: repeat match goal with H : aexpr _ _ _ _ = _ |- _ => apply ext_aexpr in H as [H _] end.
  all: fwd; try assumption.
  all: cbn;
    repeat match goal with D : dom ?t ?z = true |- context [dom ?t ?z] => rewrite D end; rewrite ?orb_true_r; reflexivity.
Qed.
Lemma dom_aused e t t' m x : aused e t = (t', m) -> In x (reads e) \/ In x (sets e) -> dom t' x = true.
Proof.
  unfold aused. intros E I. un E. injection E as <- _. apply (proj1 (ext_check _ _ _ _ _ Heqp0)). eapply dom_aexpr; eassumption.
Qed.
Lemma dom_aopt p g e t t' m q x : aopt p g e t = (t', m, q) -> In x (oreads e) \/ In x (osets e) -> dom t' x = true.
Proof. destruct e as [e|]; cbn; [apply dom_aexpr|tauto]. Qed.
Lemma dom_cases pre ts : forall last l x, dom l x = true \/ (exists b c, In (b, c) ts /\ dom c x = true) -> dom (add_cases pre last l ts) x = true.
Proof.
  induction ts as [|[m t] ts IH]; intros last l x H; cbn [add_cases].
  - destruct H as [H|(b & c & [] & _)]. exact H.
  - apply IH. cbn. destruct H as [->|(b & c & [I|I] & D)]; [auto| |].
    + injection I as _ <-. rewrite D, orb_true_r. auto.
    + right. eauto.
Qed.
Lemma dom_exit pre all ts x b c : In (b, c) ts -> dom c x = true -> dom (exit_switch pre all ts) x = true.
Proof.
  destruct ts as [|[m l] ts]; [intros []|]. intros I D. cbn. rewrite dom_cases; [apply orb_true_r|].
  destruct I as [I|I]; [injection I as _ <-; auto|right; eauto].
Qed.
Lemma acases_done pre cs : forall acc cur done ts m, acases pre acc cur done cs = (ts, m) -> forall p, In p done -> In p ts.
Proof.
  induction cs as [|l s cs IH]; intros acc cur done ts m E p I.
  - rewrite acases_nil in E. injection E as <- _. destruct cur; [right|]; exact I.
  - rewrite acases_case in E. destruct (start_case pre acc cur done) as [c1 done1] eqn:S1. destruct (astmt s c1) as [c2 m2] eqn:E2.
    destruct (acases _ _ _ done1 cs) as [ts' m'] eqn:E3. injection E as <- _. eapply IH; [exact E3|].
    unfold start_case in S1. destruct cur as [c0|]; [|injection S1 as <- <-; exact I]. destruct (_ && _); injection S1 as <- <-; [exact I|right; exact I].
Qed.
(** An entry of the current case is kept. *)
Lemma acases_dom pre cs : forall acc c done ts m x, acases pre acc (Some c) done cs = (ts, m) -> dom c x = true -> exists b c', In (b, c') ts /\ dom c' x = true.
Proof.
  induction cs as [|l s cs IH]; intros acc c done ts m x E D.
  - rewrite acases_nil in E. injection E as <- _. eexists _, c. split; [left; reflexivity|exact D].
  - rewrite acases_case in E. destruct (start_case pre acc (Some c) done) as [c1 done1] eqn:S1. destruct (astmt s c1) as [c2 m2] eqn:E2.
    destruct (acases _ _ _ done1 cs) as [ts' m'] eqn:E3. injection E as <- _.
    unfold start_case in S1. destruct (_ && _); injection S1 as <- <-.
    + eapply IH; [exact E3|]. cbn. apply (proj1 (ext_astmt _ _ _ _ E2)). exact D.
    + exists (must_of acc), c. split; [|exact D]. eapply acases_done; [exact E3|]. left. reflexivity.
Qed.
Lemma dom_stmt_mut :
  (forall s t t' m x, astmt s t = (t', m) -> mentions s x -> dom t' x = true) /\
  (forall cs pre acc cur done ts m x, acases pre acc cur done cs = (ts, m) -> In x (creads cs) \/ In x (csets cs) ->
     exists b c, In (b, c) ts /\ dom c x = true).
Proof.
  unfold mentions. apply stmt_cases_ind; cbn [sreads ssets creads csets];
    try (intros; match goal with H : In _ [] \/ In _ [] |- _ => destruct H as [[]|[]] end).
  - intros e t t' m x E I. eapply dom_aused; eassumption.
  - intros a IHa b IHb t t' m x E I. rewrite !in_app_iff in I. cbn [Def_model.astmt] in E. uns E. injection E as <- _. cbn.
    assert (K : (In x (sreads a) \/ In x (ssets a)) \/ (In x (sreads b) \/ In x (ssets b))) by tauto. destruct K as [K|K]; [|eauto].
    apply (proj1 (ext_astmt _ _ _ _ Heqp0)). eauto.
  - intros a IHa t t' m x E I. cbn [Def_model.astmt] in E. eauto.
  - intros e a IHa t t' m x E I. rewrite !in_app_iff in I. cbn [Def_model.astmt] in E. uns E. injection E as <- _. cbn.
    assert (K : (In x (reads e) \/ In x (sets e)) \/ (In x (sreads a) \/ In x (ssets a))) by tauto. destruct K as [K|K].
    + rewrite (dom_aused _ _ _ _ x Heqp); auto.
    + rewrite (IHa _ _ _ x Heqp0); [|auto]. rewrite orb_true_r. reflexivity.
  - intros e a IHa b IHb t t' m x E I. rewrite !in_app_iff in I. cbn [Def_model.astmt] in E. uns E. injection E as <- _. cbn.
    assert (K : (In x (reads e) \/ In x (sets e)) \/ (In x (sreads a) \/ In x (ssets a)) \/ (In x (sreads b) \/ In x (ssets b))) by tauto.
    destruct K as [K|[K|K]].
    + rewrite (dom_aused _ _ _ _ x Heqp); auto.
    + rewrite (IHa _ _ _ x Heqp0); [|auto]. rewrite orb_true_r. reflexivity.
    + rewrite (IHb _ _ _ x Heqp1); [|auto]. apply orb_true_r.
  - intros e a IHa t t' m x E I. rewrite !in_app_iff in I. cbn [Def_model.astmt] in E. uns E. injection E as <- _. cbn.
    assert (K : (In x (reads e) \/ In x (sets e)) \/ (In x (sreads a) \/ In x (ssets a))) by tauto. destruct K as [K|K].
    + rewrite (dom_aused _ _ _ _ x Heqp); auto.
    + rewrite (IHa _ _ _ x Heqp0); [|auto]. rewrite orb_true_r. reflexivity.
  - intros a IHa e t t' m x E I. rewrite !in_app_iff in I. cbn [Def_model.astmt] in E. uns E. injection E as <- _.
    assert (K : (In x (reads e) \/ In x (sets e)) \/ (In x (sreads a) \/ In x (ssets a))) by tauto. destruct K as [K|K].
    + exact (dom_aused _ _ _ _ x Heqp0 K).
    + apply (proj1 (ext_aused _ _ _ _ Heqp0)). eauto.
  - intros i te c a IHa t t' m x E I. rewrite !in_app_iff in I. cbn [Def_model.astmt] in E. uns E. injection E as <- _. cbn.
    assert (K : (In x (oreads i) \/ In x (osets i)) \/ (In x (oreads te) \/ In x (osets te)) \/ (In x (oreads c) \/ In x (osets c)) \/ (In x (sreads a) \/ In x (ssets a))) by tauto.
    pose proof (proj1 (ext_check _ _ _ _ _ Heqp2)) as X2. pose proof (proj1 (ext_check _ _ _ _ _ Heqp3)) as X3.
    pose proof (proj1 (ext_aopt _ _ _ _ _ _ _ Heqp1)) as X1. pose proof (proj1 (ext_aopt _ _ _ _ _ _ _ Heqp0)) as X0.
    pose proof (proj1 (ext_aopt _ _ _ _ _ _ _ Heqp5)) as X5. pose proof (proj1 (ext_aopt _ _ _ _ _ _ _ Heqp6)) as X6.
    destruct K as [K|[K|[K|K]]].
    + rewrite (X3 x); [reflexivity|]. apply X2, X1, X0. exact (dom_aopt _ _ _ _ _ _ _ x Heqp K).
    + rewrite (X3 x); [reflexivity|]. apply X2, X1. exact (dom_aopt _ _ _ _ _ _ _ x Heqp0 K).
    + rewrite (X3 x); [reflexivity|]. apply X2. exact (dom_aopt _ _ _ _ _ _ _ x Heqp1 K).
    + rewrite (X6 x); [rewrite orb_true_r; reflexivity|]. apply X5. eauto.
  - intros e cs IH t t' m x E I. rewrite !in_app_iff in I. rewrite astmt_switch in E. uns E. injection E as <- _.
    assert (K : (In x (reads e) \/ In x (sets e)) \/ (In x (creads cs) \/ In x (csets cs))) by tauto. destruct K as [K|K].
    + apply (proj1 (ext_exit _ _ _)). exact (dom_aexpr _ _ _ _ _ _ _ x Heqp K).
    + destruct (IH _ _ _ _ _ _ _ Heqp0 K) as (b & c & Ib & D). eapply dom_exit; eassumption.
  - intros [e|] t t' m x E I; cbn [oreads osets] in I; [|destruct I as [[]|[]]]. cbn [Def_model.astmt] in E. eapply dom_aused; eassumption.
  - intros l s IHs cs IHcs pre acc cur done ts m x E I. rewrite !in_app_iff in I. rewrite acases_case in E.
    destruct (start_case pre acc cur done) as [c1 done1] eqn:S1. destruct (astmt s c1) as [c2 m2] eqn:E2.
    destruct (acases _ _ _ done1 cs) as [ts' m'] eqn:E3. injection E as <- _.
    assert (K : (In x (sreads s) \/ In x (ssets s)) \/ (In x (creads cs) \/ In x (csets cs))) by tauto. destruct K as [K|K]; [|eauto].
    eapply acases_dom; [exact E3|]. cbn. eauto.
Qed.
Lemma dom_astmt s t t' m x : astmt s t = (t', m) -> mentions s x -> dom t' x = true.
Proof. apply (proj1 dom_stmt_mut). Qed.

(** * Leaving a switch *)
Lemma cases_less pre ts : forall l x, dom l x = true -> view (add_cases pre false l ts) x = true -> view l x = true.
Proof.
  induction ts as [|[m t] ts IH]; intros l x D V; cbn [add_cases] in V; [exact V|].
  apply IH in V; [|cbn; rewrite D; reflexivity]. cbn in V. unfold ent in V. rewrite D in V.
  destruct (dom t x), m, (view l x); cbn in V; auto.
Qed.
Lemma cases_in pre ts T x : In (false, T) ts -> dom T x = true -> forall last l, view (add_cases pre last l ts) x = true -> view T x = true.
Proof.
  intros I D. induction ts as [|[m t] ts IH]; intros last l V; [destruct I|]. cbn [add_cases] in V. destruct I as [I|I]; [|eauto].
  injection I as -> ->. apply cases_less in V; [|cbn; rewrite D; apply orb_true_r]. cbn in V. unfold ent in V. rewrite D in V.
  destruct last; [exact V|]. destruct (match (if dom l x then Some (view l x) else None) with Some o => o | None => view pre x end), (view T x); auto.
Qed.
Lemma exit_in pre all ts T x : In (false, T) ts -> dom T x = true -> view (exit_switch pre all ts) x = true -> view T x = true.
Proof.
  intros I D V. destruct ts as [|[m l] ts]; [destruct I|]. cbn in V. unfold ent in V.
  assert (DL : dom (add_cases pre m l ts) x = true).
  { apply dom_cases. destruct I as [I|I]; [injection I as _ ->; auto|right; eauto]. }
  rewrite DL in V. assert (V' : view (add_cases pre m l ts) x = true).
  { destruct all; [exact V|]. destruct (view pre x); [exact V|discriminate]. }
  destruct I as [I|I]; [|eapply cases_in; eassumption]. injection I as -> ->. eapply cases_less; eassumption.
Qed.

(** * Soundness for statements *)
Section Main.
Variable init : nat -> bool.
Hypothesis no_while : negb whileexec = true.
Hypothesis no_for : negb forexec = true.
Local Notation right := (right_on (fun _ => True)).
Lemma agrees_mono r r' : agrees init r -> (forall x, r x <> None -> r' x <> None) -> agrees init r'.
Proof. intros A M x I. auto. Qed.
Lemma used_right e t t' r v r' : ordered init e -> aused e t = (t', []) -> agrees init r -> right t r -> eval r e v r' ->
  (forall y, v <> RFault y) /\ (forall z, v = RVal z -> right t' r').
Proof.
  intros O E A R X. unfold aused in E. un E. injection E as <- M. apply app_eq_nil in M as [-> ->].
  pose proof (eval_right init e O _ _ _ _ _ _ _ Heqp A R (fun _ _ => I) X) as K. pose proof (eresult_used _ _ _ _ _ _ K Heqp0) as F.
  apply check_quiet in Heqp0; [subst|auto]. split; [exact F|]. intros z ->. exact K.
Qed.
Lemma stop_out v : stops v -> (forall y, v <> RFault y) -> eout v = OStop.
Proof. destruct v; cbn; intros S F; [destruct S|reflexivity|destruct (F _ eq_refl)]. Qed.

Definition good (s : stmt) : Prop :=
  sober init s -> forall t t' r o r', astmt s t = (t', []) -> agrees init r -> right t r -> exec r s o r' ->
  (forall y, o <> OFault y) /\ (o = ONormal -> right t' r') /\ (o = OBreak -> tail_break s -> right t' r').
(** A conclusion about runs which do not break. *)
Lemma good_plain s t' r o r' : ~ breaks s -> exec r s o r' -> (forall y, o <> OFault y) -> (o = ONormal -> right t' r') ->
  (forall y, o <> OFault y) /\ (o = ONormal -> right t' r') /\ (o = OBreak -> tail_break s -> right t' r').
Proof. intros B X F N. split; [exact F|split; [exact N|]]. intros ->. destruct B. exact (no_break _ _ _ _ X eq_refl). Qed.

Lemma right_enter t r : right t r -> right (enter t) r.
Proof. intros R x Px V. exact (R x Px V). Qed.
Lemma right_with t b r : right t r -> right (with_brk t b) r.
Proof. intros R x Px V. exact (R x Px V). Qed.
Lemma right_outer t u a r : right t r -> right (pop_branches a false t u (enter t)) r.
Proof.
  intros R x Px V. apply (R x Px). cbn in V. destruct (ent u x) as [c|]; [|exact V]. destruct a; [exact V|].
  destruct (view t x); [reflexivity|discriminate].
Qed.
Lemma rounds_not o : rounds o -> forall y, o <> OFault y.
Proof. intros [->| ->]; discriminate. Qed.

Lemma bare_pending e : forall p g t t' m q y, aexpr p g e t = (t', m, q) -> bare e = Some y -> q = Some y.
Proof.
  induction e as [v|x|o a IHa b IHb|a IHa|a IHa b IHb|a IHa b IHb|c IHc a IHa b IHb|a IHa b IHb|x a IHa| |];
    cbn [aexpr bare]; intros p g t t' m q y E B; try discriminate.
  - injection E as _ _ <-. exact B.
  - un E. injection E as _ _ <-. eauto.
Qed.
(** What is read when the parts of a loop are gone through again. *)
Lemma again_reads e : forall t t' q y, aexpr false true e t = (t', [], q) -> In y (reads e) -> ~ In y (sets e) ->
  view t y = true \/ bare e = Some y.
Proof.
  assert (CK : forall e t t' m q u u' y, aexpr false true e t = (t', m, q) -> bare e = Some y -> check false u q = (u', []) -> view u y = true).
  { intros e0 t t' m q u u' y E B C. rewrite (bare_pending _ _ _ _ _ _ _ _ E B) in C. apply check_clean in C. tauto. }
  induction e as [v|x|o a IHa b IHb|a IHa|a IHa b IHb|a IHa b IHb|c IHc a IHa b IHb|a IHa b IHb|x a IHa| |];
    cbn [aexpr reads sets bare]; intros t t' q y E I N; rewrite ?in_app_iff in *; try (destruct I; fail).
  - destruct I as [->|[]]. auto.
  - un E. injection E as <- M _. repeat apply app_eq_nil in M as [-> M]. subst. left.
    assert (Q1 : t2 = t1) by (eapply check_quiet; eauto). assert (Q2 : t3 = t2) by (eapply check_quiet; eauto). subst.
    pose proof (frame_aexpr _ _ _ _ _ _ _ y Heqp (or_intror eq_refl) ltac:(tauto)) as F1.
    pose proof (frame_aexpr _ _ _ _ _ _ _ y Heqp0 (or_intror eq_refl) ltac:(tauto)) as F2.
    destruct I as [I|I].
    + destruct (IHa _ _ _ _ Heqp I ltac:(tauto)) as [K|K]; [exact K|]. rewrite <- F1, <- F2. eapply (CK _ _ _ _ _ _ _ _ Heqp K); eassumption.
    + rewrite <- F1. destruct (IHb _ _ _ _ Heqp0 I ltac:(tauto)) as [K|K]; [exact K|]. rewrite <- F2. eapply (CK _ _ _ _ _ _ _ _ Heqp0 K); eassumption.
  - un E. injection E as <- M _. repeat apply app_eq_nil in M as [-> M]. subst. left.
    pose proof (frame_aexpr _ _ _ _ _ _ _ y Heqp (or_intror eq_refl) ltac:(tauto)) as F1.
    destruct (IHa _ _ _ _ Heqp I ltac:(tauto)) as [K|K]; [exact K|]. rewrite <- F1. eapply (CK _ _ _ _ _ _ _ _ Heqp K); eassumption.
  - un E. injection E as <- M _. repeat apply app_eq_nil in M as [-> M]. subst. left.
    assert (Q1 : t1 = t0) by (eapply check_quiet; eauto). subst.
    pose proof (frame_aexpr _ _ _ _ _ _ _ y Heqp (or_intror eq_refl) ltac:(tauto)) as F1.
    pose proof (frame_aexpr _ _ _ _ _ _ _ y Heqp1 (or_intror eq_refl) ltac:(tauto)) as F2. cbn in F2.
    destruct I as [I|I].
    + destruct (IHa _ _ _ _ Heqp I ltac:(tauto)) as [K|K]; [exact K|]. rewrite <- F1. eapply (CK _ _ _ _ _ _ _ _ Heqp K); eassumption.
    + rewrite <- F1. destruct (IHb _ _ _ _ Heqp1 I ltac:(tauto)) as [K|K]; [exact K|]. rewrite <- F2. eapply (CK _ _ _ _ _ _ _ _ Heqp1 K); eassumption.
  - un E. injection E as <- M _. repeat apply app_eq_nil in M as [-> M]. subst. left.
    assert (Q1 : t1 = t0) by (eapply check_quiet; eauto). subst.
    pose proof (frame_aexpr _ _ _ _ _ _ _ y Heqp (or_intror eq_refl) ltac:(tauto)) as F1.
    pose proof (frame_aexpr _ _ _ _ _ _ _ y Heqp1 (or_intror eq_refl) ltac:(tauto)) as F2. cbn in F2.
    destruct I as [I|I].
    + destruct (IHa _ _ _ _ Heqp I ltac:(tauto)) as [K|K]; [exact K|]. rewrite <- F1. eapply (CK _ _ _ _ _ _ _ _ Heqp K); eassumption.
    + rewrite <- F1. destruct (IHb _ _ _ _ Heqp1 I ltac:(tauto)) as [K|K]; [exact K|]. rewrite <- F2. eapply (CK _ _ _ _ _ _ _ _ Heqp1 K); eassumption.
  - un E. injection E as <- M _. repeat apply app_eq_nil in M as [-> M]. subst. left.
    assert (Q1 : t3 = t2) by (eapply check_quiet; eauto). assert (Q2 : t4 = t3) by (eapply check_quiet; eauto).
    assert (Q3 : t5 = t4) by (eapply check_quiet; eauto). subst.
    pose proof (frame_aexpr _ _ _ _ _ _ _ y Heqp (or_intror eq_refl) ltac:(tauto)) as F1.
    pose proof (frame_aexpr _ _ _ _ _ _ _ y Heqp0 (or_intror eq_refl) ltac:(tauto)) as F2.
    pose proof (frame_aexpr _ _ _ _ _ _ _ y Heqp1 (or_intror eq_refl) ltac:(tauto)) as F3.
    destruct I as [I|[I|I]].
    + destruct (IHc _ _ _ _ Heqp I ltac:(tauto)) as [K|K]; [exact K|]. rewrite <- F1, <- F2, <- F3. eapply (CK _ _ _ _ _ _ _ _ Heqp K); eassumption.
    + rewrite <- F1. destruct (IHa _ _ _ _ Heqp0 I ltac:(tauto)) as [K|K]; [exact K|]. rewrite <- F2, <- F3. eapply (CK _ _ _ _ _ _ _ _ Heqp0 K); eassumption.
    + rewrite <- F1, <- F2. destruct (IHb _ _ _ _ Heqp1 I ltac:(tauto)) as [K|K]; [exact K|]. rewrite <- F3. eapply (CK _ _ _ _ _ _ _ _ Heqp1 K); eassumption.
  - un E. injection E as <- M _. repeat apply app_eq_nil in M as [-> M]. subst. left.
    assert (Q1 : t2 = t1) by (eapply check_quiet; eauto). assert (Q2 : t3 = t2) by (eapply check_quiet; eauto). subst.
    pose proof (frame_aexpr _ _ _ _ _ _ _ y Heqp (or_intror eq_refl) ltac:(tauto)) as F1.
    pose proof (frame_aexpr _ _ _ _ _ _ _ y Heqp0 (or_intror eq_refl) ltac:(tauto)) as F2.
    destruct I as [I|I].
    + destruct (IHa _ _ _ _ Heqp I ltac:(tauto)) as [K|K]; [exact K|]. rewrite <- F1, <- F2. eapply (CK _ _ _ _ _ _ _ _ Heqp K); eassumption.
    + rewrite <- F1. destruct (IHb _ _ _ _ Heqp0 I ltac:(tauto)) as [K|K]; [exact K|]. rewrite <- F2. eapply (CK _ _ _ _ _ _ _ _ Heqp0 K); eassumption.
  - un E. injection E as <- M _. repeat apply app_eq_nil in M as [-> M]. subst. left.
    pose proof (frame_aexpr _ _ _ _ _ _ _ y Heqp (or_intror eq_refl) ltac:(cbn in N; tauto)) as F1.
    change (view (touch t x) y = true).
    destruct (IHa _ _ _ _ Heqp I ltac:(cbn in N; tauto)) as [K|K]; [exact K|]. rewrite <- F1. eapply (CK _ _ _ _ _ _ _ _ Heqp K); eassumption.
Qed.

Lemma first_test i e r z r1 r2 : loop_must_exec (Some i) (Some e) = true -> begins (Some i) (Some e) ->
  eval r i (RVal z) r1 -> eval r1 e (RVal 0) r2 -> False.
Proof.
  cbn [loop_must_exec]. destruct i as [| | | | | | | |x [v| | | | | | | | | |]| |]; try discriminate.
  destruct e as [| |o [|y| | | | | | | | |] [w| | | | | | | | | |]| | | | | | | |]; try discriminate.
  intros L B X Y. apply andb_prop in L as [L _]. apply Nat.eqb_eq in L. subst y. specialize (B x v o w eq_refl eq_refl).
  inversion X; subst; try match goal with H : stops _ |- _ => destruct H end.
  all: repeat match goal with H : eval _ (ENum _) _ _ |- _ => inversion H; subst; clear H end.
  all: inversion Y; subst; try match goal with H : stops _ |- _ => destruct H end.
  all: repeat match goal with H : eval _ (ENum _) _ _ |- _ => inversion H; subst; clear H end.
  all: repeat match goal with H : eval _ (EVar _) _ _ |- _ => inversion H; subst; clear H end.
  all: match goal with H : set _ ?x _ ?x = _ |- _ => unfold set in H; rewrite Nat.eqb_refl in H; try discriminate; injection H as <- end.
  all: match goal with H : rmap _ _ = _ |- _ => cbn in H; try discriminate; injection H as H; exact (B H) end.
Qed.
Lemma for_good i te c a : good a -> good (SFor i te c a).
Proof.
  intros G S t t' r o r' E A R X. cbn [sober] in S. destruct S as (Oi & Ot & Oc & Sa & ST & SC & SB & BC & CC & LM).
  cbn [Def_model.astmt] in E. uns E. injection E as <- M. repeat apply app_eq_nil in M as [-> M]. subst.
  rename t0 into u0, t1 into u1, t2 into u2, Heqp into E0, Heqp0 into E1, Heqp1 into E2, Heqp2 into C0, Heqp3 into C1, Heqp4 into E5, Heqp5 into E6, Heqp6 into E7.
  assert (Q3 : t3 = u2) by (eapply check_quiet; eauto). subst t3. assert (Q4 : t4 = u2) by (eapply check_quiet; eauto). subst t4.
  assert (FE : forexec = false) by (destruct forexec; [discriminate no_for|reflexivity]). rewrite FE. cbn [orb]. clear FE.
  set (mr := obvious && loop_must_exec i te) in *.
  (* what is known at the test *)
  set (head := fun r => agrees init r /\ right u0 r /\ (forall x, ovisits i x -> r x <> None)).
  assert (HM : forall r r', head r -> (forall x, r x <> None -> r' x <> None) -> head r').
  { intros r0 r1 (H1 & H2 & H3) H. split; [exact (agrees_mono _ _ H1 H)|split; [exact (right_mono _ _ _ _ H2 H)|auto]]. }
  (* what is known after the test *)
  assert (TEST : forall r v r1, head r -> match te with Some e => eval r e v r1 | None => v = RVal 1 /\ r1 = r end ->
    (forall y, v <> RFault y) /\ (forall z, v = RVal z -> right u2 r1 /\ (forall x, In x (osets c) -> r1 x <> None))).
  { intros r0 v r1 (H1 & H2 & H3) Y.
    assert (M1 : forall x, r0 x <> None -> r1 x <> None).
    { destruct te as [e|]; [exact (eval_mono _ _ _ _ Y)|]. destruct Y as [_ ->]. auto. }
    assert (ER : eresult (fun _ => True) u1 q0 v r1).
    { destruct te as [e|]; cbn [aopt] in E1.
      - exact (eval_right init e Ot _ _ _ _ _ _ _ E1 H1 H2 (fun _ _ => I) Y).
      - destruct Y as [-> ->]. injection E1 as <- _. exact H2. }
    split.
    - intros y ->. destruct ER as [-> V].
      assert (B : obare te = Some y).
      { destruct te as [e|]; [|destruct Y; discriminate]. cbn [aopt] in E1. destruct (pending _ _ _ _ _ _ _ E1) as [K|K]; [exact K|congruence]. }
      pose proof (frame_aopt _ _ _ _ _ _ _ y E2 (or_introl eq_refl) (SB y (or_intror B))) as F.
      apply check_clean in C1 as [_ C1]. congruence.
    - intros z ->. cbn [eresult] in ER.
      assert (D : forall x, In x (osets c) -> r1 x <> None).
      { intros x Ix. destruct (SC x Ix) as [K|[K|K]]; [apply M1, H1, K|apply M1, H3, K|].
        destruct te as [e|]; [|destruct K]. exact (eval_visits _ _ _ _ Y z x eq_refl K). }
      split; [|exact D]. intros x _ V. destruct (in_dec Nat.eq_dec x (osets c)) as [Ix|Ix]; [auto|].
      rewrite (frame_aopt _ _ _ _ _ _ _ x E2 (or_introl eq_refl) Ix) in V. exact (ER x I V). }
  (* the loop after some rounds *)
  assert (LOOP : forall s r o r', exec r s o r' -> s = SFor None te c a -> head r -> (mr = false \/ right t7 r \/ forall r1, ~ (exists e, te = Some e /\ eval r e (RVal 0) r1)) ->
    (forall y, o <> OFault y) /\ (o = ONormal -> right (with_brk (pop_branches (escapes a) mr u2 t7 (enter u2)) false) r')).
  { clear X r o r' A R. intros s r o r' X. induction X; intros ES HD FI; try discriminate.
    - (* the test stops *)
      injection ES as <- -> ->. destruct (TEST _ _ _ HD H) as [F _]. rewrite (stop_out v) by assumption. split; discriminate.
    - (* the test is false *)
      injection ES as <- -> ->. destruct (TEST _ _ _ HD H) as [_ K]. destruct (K 0 eq_refl) as [R2 _]. split; [discriminate|]. intros _.
      apply right_with. destruct FI as [->|[FI|FI]].
      + apply right_outer. exact R2.
      + destruct mr; [|apply right_outer; exact R2].
        intros x _ V. cbn in V. unfold ent in V. destruct (dom t7 x) eqn:D6.
        * eapply eval_mono; [exact H|]. exact (FI x I V).
        * exact (R2 x I V).
      + destruct (FI r1). eauto.
    - (* the body leaves the loop *)
      injection ES as -> -> ->. assert (TT : exists v, v <> RVal 0 /\ (exists z, v = RVal z) /\ match te with Some e => eval r e v r1 | None => v = RVal 1 /\ r1 = r end).
      { destruct te as [e|]; cbn in H; [destruct H as (z & NZ & Y); exists (RVal z); split; [congruence|eauto]|].
        subst. exists (RVal 1). split; [discriminate|]. split; [eauto|auto]. }
      destruct TT as (v & _ & (z & ->) & Y). destruct (TEST _ _ _ HD Y) as [_ K]. destruct (K _ eq_refl) as [R2 _].
      pose proof (goes_mono _ _ _ H) as M1. destruct HD as (H1' & H2' & H3').
      destruct (G Sa _ _ _ _ _ E5 (agrees_mono _ _ H1' M1) (right_enter _ _ R2) X) as (F1 & _ & _).
      split.
      + intros y ->. destruct o; cbn in H0; try contradiction; try discriminate. exact (F1 _ eq_refl).
      + intros ->. destruct o; cbn in H0; try contradiction; try discriminate.
        pose proof (no_break _ _ _ _ X eq_refl) as B.
        assert (MR : mr = false). { unfold mr. destruct obvious; [|reflexivity]. destruct (loop_must_exec i te); [|reflexivity]. destruct (LM eq_refl) as (_ & NB & _). contradiction. }
        rewrite MR. apply right_with, right_outer. eapply right_mono; [exact R2|]. exact (exec_mono _ _ _ _ X).
    - (* the increment stops *)
      injection ES as -> <- ->. rename e into ce. assert (TT : exists v, v <> RVal 0 /\ (exists z, v = RVal z) /\ match te with Some e => eval r e v r1 | None => v = RVal 1 /\ r1 = r end).
      { destruct te as [e|]; cbn in H; [destruct H as (z & NZ & Y); exists (RVal z); split; [congruence|eauto]|].
        subst. exists (RVal 1). split; [discriminate|]. split; [eauto|auto]. }
      destruct TT as (v0 & _ & (z & ->) & Y). destruct (TEST _ _ _ HD Y) as [_ K]. destruct (K _ eq_refl) as [R2 D2].
      pose proof (goes_mono _ _ _ H) as M1. destruct HD as (H1' & H2' & H3'). pose proof (exec_mono _ _ _ _ X) as M2.
      destruct (G Sa _ _ _ _ _ E5 (agrees_mono _ _ H1' M1) (right_enter _ _ R2) X) as (_ & N1 & _).
      assert (F : forall y, v <> RFault y).
      { intros y ->. destruct (eval_fault _ _ _ _ H1 y eq_refl) as [IY NY].
        destruct (in_dec Nat.eq_dec y (sets ce)) as [Iy|Iy]; [apply (M2 y); [exact (D2 y Iy)|exact NY]|].
        destruct H0 as [->| ->].
        - cbn [aopt] in E6. destruct (again_reads _ _ _ _ _ E6 IY Iy) as [V|V]; [|cbn in BC; congruence].
          exact (N1 eq_refl y I V NY).
        - destruct (CC (no_cont _ _ _ _ X eq_refl) y IY) as [K1|[K1|K1]].
          + apply (M2 y); [apply M1, H1', K1|exact NY].
          + apply (M2 y); [apply M1, H3', K1|exact NY].
          + destruct te as [e|]; [|destruct K1]. apply (M2 y); [exact (eval_visits _ _ _ _ Y z y eq_refl K1)|exact NY]. }
      rewrite (stop_out v) by assumption. split; discriminate.
    - (* a further round *)
      injection ES as -> -> ->. assert (TT : exists v, v <> RVal 0 /\ (exists z, v = RVal z) /\ match te with Some e => eval r e v r1 | None => v = RVal 1 /\ r1 = r end).
      { destruct te as [e|]; cbn in H; [destruct H as (z & NZ & Y); exists (RVal z); split; [congruence|eauto]|].
        subst. exists (RVal 1). split; [discriminate|]. split; [eauto|auto]. }
      destruct TT as (v0 & _ & (z & ->) & Y). destruct (TEST _ _ _ HD Y) as [_ K]. destruct (K _ eq_refl) as [R2 D2].
      pose proof (goes_mono _ _ _ H) as M1. pose proof (exec_mono _ _ _ _ X1) as M2. pose proof (steps_mono _ _ _ H1) as M3.
      apply IHX2; [reflexivity|exact (HM _ _ HD (fun x K => M3 x (M2 x (M1 x K))))|].
      destruct (Bool.bool_dec mr true) as [MR|MR]; [|left; destruct mr; congruence].
      right; left. assert (ON : o = ONormal).
      { destruct H0 as [->| ->]; [reflexivity|]. unfold mr in MR. apply andb_prop in MR as [_ MR]. destruct (LM MR) as (_ & _ & NC).
        destruct NC. exact (no_cont _ _ _ _ X1 eq_refl). }
      subst o. destruct HD as (H1' & H2' & H3').
      destruct (G Sa _ _ _ _ _ E5 (agrees_mono _ _ H1' M1) (right_enter _ _ R2) X1) as (_ & N1 & _). specialize (N1 eq_refl).
      intros x _ V. rewrite (frame_aopt _ _ _ _ _ _ _ x E7 (or_intror eq_refl)) in V by (rewrite ST; tauto).
      destruct (in_dec Nat.eq_dec x (osets c)) as [Ix|Ix]; [exact (M3 x (M2 x (D2 x Ix)))|].
      rewrite (frame_aopt _ _ _ _ _ _ _ x E6 (or_intror eq_refl) Ix) in V. exact (M3 x (N1 x I V)). }
  apply good_plain with (r := r); [cbn; tauto|exact X| |].
  all: destruct i as [e|].
  all: try (assert (H0 : head r) by (split; [exact A|split; [injection E0 as <- _; exact R|intros x []]]);
            destruct (LOOP _ _ _ _ X eq_refl H0 (or_introl (andb_false_r _))) as [F N]; assumption).
  all: cbn [aopt oordered] in E0, Oi.
  all: assert (SI : forall v r1, eval r e v r1 -> (forall y, v <> RFault y) /\ (forall z, v = RVal z -> head r1 /\
         (mr = false \/ right t7 r1 \/ forall r2, ~ (exists e, te = Some e /\ eval r1 e (RVal 0) r2)))).
  1, 3: intros v r1 Y; pose proof (eval_right init e Oi _ _ _ _ _ _ _ E0 A R (fun _ _ => I) Y) as ER; split.
  1, 3: intros y ->; destruct ER as [-> V];
    destruct (pending _ _ _ _ _ _ _ E0) as [K|K]; [|congruence];
    pose proof (frame_aopt _ _ _ _ _ _ _ y E2 (or_introl eq_refl) (SB y (or_introl K))) as F1;
    pose proof (frame_aopt _ _ _ _ _ _ _ y E1 (or_intror eq_refl)) as F2; rewrite ST in F2; specialize (F2 (fun x => x));
    apply check_clean in C0 as [_ C0]; congruence.
  1, 2: intros z ->; split; [split; [exact (agrees_mono _ _ A (eval_mono _ _ _ _ Y))|split; [exact ER|]]|];
    [intros x Vx; exact (eval_visits _ _ _ _ Y z x eq_refl Vx)|];
    destruct (Bool.bool_dec mr true) as [MR|MR]; [|left; destruct mr; congruence]; right; right;
    intros r2 (e0 & -> & Y0); unfold mr in MR; apply andb_prop in MR as [_ MR]; destruct (LM MR) as (BG & _ & _);
    exact (first_test _ _ _ _ _ _ MR BG Y Y0).
  all: inversion X; subst; match goal with H : eval _ _ _ _ |- _ => destruct (SI _ _ H) as [F N] end.
  - rewrite (stop_out v) by assumption. discriminate.
  - destruct (N _ eq_refl) as [H1 H2]. exact (proj1 (LOOP _ _ _ _ ltac:(eassumption) eq_refl H1 H2)).
  - rewrite (stop_out v) by assumption. discriminate.
  - destruct (N _ eq_refl) as [H1 H2]. exact (proj2 (LOOP _ _ _ _ ltac:(eassumption) eq_refl H1 H2)).
Qed.

Lemma while_good e a : good a -> good (SWhile e a).
Proof.
  intros G. cbn [good]. intros S t t' r o r' E A R X. cbn [sober] in S. destruct S as [O Sa].
  cbn [Def_model.astmt] in E. uns E. injection E as <- M. apply app_eq_nil in M as [-> ->].
  assert (WE : whileexec = false) by (destruct whileexec; [discriminate no_while|reflexivity]). rewrite WE. clear WE no_while no_for.
  eapply good_plain; [cbn; tauto|exact X| |].
  all: remember (SWhile e a) as s eqn:ES; revert A R.
  all: induction X; try discriminate; injection ES as -> ->; intros A R.
  all: try match goal with H : eval _ _ _ _ |- _ => destruct (used_right _ _ _ _ _ _ O Heqp A R H) as [F N] end.
  - rewrite (stop_out v) by assumption. discriminate.
  - assert (M1 := eval_mono _ _ _ _ H). destruct (G Sa _ _ _ _ _ Heqp0 (agrees_mono _ _ A M1) (right_enter _ _ (N _ eq_refl)) X) as (F1 & _ & _).
    intros y ->. destruct o; cbn in H1; try contradiction; try discriminate. exact (F1 _ eq_refl).
  - assert (M1 := eval_mono _ _ _ _ H). assert (M2 := exec_mono _ _ _ _ X1). apply IHX2; [reflexivity| |].
    + exact (agrees_mono _ _ (agrees_mono _ _ A M1) M2).
    + exact (right_mono _ _ _ _ R (fun x K => M2 x (M1 x K))).
  - rewrite (stop_out v) by assumption. discriminate.
  - intros _. apply right_outer. exact (N _ eq_refl).
  - intros ->. apply right_outer. eapply right_mono; [exact (N _ eq_refl)|]. exact (exec_mono _ _ _ _ X).
  - assert (M1 := eval_mono _ _ _ _ H). assert (M2 := exec_mono _ _ _ _ X1). intros Z. apply IHX2; [reflexivity| | |exact Z].
    + exact (agrees_mono _ _ (agrees_mono _ _ A M1) M2).
    + exact (right_mono _ _ _ _ R (fun x K => M2 x (M1 x K))).
Qed.

Lemma do_good e a : good a -> good (SDo a e).
Proof.
  intros G. intros S t t' r o r' E A R X. cbn [sober] in S. destruct S as (O & Sa & NB & NC).
  cbn [Def_model.astmt] in E. uns E. injection E as <- M. apply app_eq_nil in M as [-> ->].
  assert (RN : forall r o r1, exec r a o r1 -> rounds o -> o = ONormal).
  { intros r0 o0 r1 Xa [->| ->]; [reflexivity|]. destruct NC. exact (no_cont _ _ _ _ Xa eq_refl). }
  eapply good_plain; [cbn; tauto|exact X| |].
  all: remember (SDo a e) as s eqn:ES; revert A R.
  all: induction X; try discriminate; injection ES as -> ->; intros A R.
  all: match goal with _ : good ?a, H : exec _ ?a _ _ |- _ => assert (MA := exec_mono _ _ _ _ H); destruct (G Sa _ _ _ _ _ Heqp A R H) as (F1 & N1 & _) end.
  all: try match goal with _ : good ?a, H : exec _ ?a ?o _, K : rounds ?o |- _ => rewrite (RN _ _ _ H K) in * end.
  all: try match goal with H : eval _ _ _ _ |- _ =>
         destruct (used_right _ _ _ _ _ _ O Heqp0 (agrees_mono _ _ A MA) (N1 eq_refl) H) as [F N]; assert (ME := eval_mono _ _ _ _ H) end.
  - intros y ->. destruct o; cbn in H; try contradiction; try discriminate. exact (F1 _ eq_refl).
  - rewrite (stop_out v) by assumption. discriminate.
  - apply IHX2; [reflexivity| |].
    + exact (agrees_mono _ _ (agrees_mono _ _ A MA) ME).
    + exact (right_mono _ _ _ _ R (fun x K => ME x (MA x K))).
  - intros ->. destruct o; cbn in H; try contradiction; try discriminate. destruct NB. exact (no_break _ _ _ _ X eq_refl).
  - rewrite (stop_out v) by assumption. discriminate.
  - intros _. exact (N _ eq_refl).
  - intros Z. apply IHX2; [reflexivity| | |exact Z].
    + exact (agrees_mono _ _ (agrees_mono _ _ A MA) ME).
    + exact (right_mono _ _ _ _ R (fun x K => ME x (MA x K))).
Qed.

(** The cases of a switch from some point on: control arrives by falling in, or at a label. *)
Fixpoint csize (cs : cases) : nat := match cs with CNil => 0 | CCase _ _ cs => S (csize cs) end.
Definition arrives (pre : tab) (acc : option Flow_model.stmt) (cur : option tab) (cs cs' : cases) (r : store) : Prop :=
  (cs' <> CNil /\ right pre r) \/
  (cs' = cs /\ exists c, cur = Some c /\ right c r /\ brk c = false /\ must_of acc = false).
Definition cgood (cs : cases) : Prop :=
  csober init cs -> forall pre acc cur done ts, acases pre acc cur done cs = (ts, []) -> acc_ok acc ->
  (forall c, cur = Some c -> ext (enter pre) c) ->
  forall cs' r o r', tail_of cs' cs -> agrees init r -> arrives pre acc cur cs cs' r -> exec r (seq_of cs') o r' ->
  (forall y, o <> OFault y) /\
  (o = ONormal -> exists L rest, ts = (false, L) :: rest /\ right L r' /\ (cs = CNil -> cur = Some L) /\
     (cs <> CNil -> forall x, covers x cs -> dom L x = true)) /\
  (o = OBreak -> forall x, covers x cs -> exists T, In (false, T) ts /\ dom T x = true /\ (view T x = true -> r' x <> None)).
Lemma breaks_tail x l s cs : covers x (CCase l s cs) -> tail_break s /\ (mentions s x \/ ~ breaks s) /\ covers x cs.
Proof. destruct cs; cbn; tauto. Qed.
Lemma cases_good l s cs : good s -> cgood cs -> cgood (CCase l s cs).
Proof.
  intros G IH S pre acc cur done ts E AO XC cs' r o r' T A AR X.
  assert (S' : sober init s /\ csober init cs) by exact S. destruct S' as [Ss Sc]. clear S.
  rewrite acases_case in E. destruct (start_case pre acc cur done) as [c1 done1] eqn:S1. destruct (astmt s c1) as [c2 m2] eqn:E2.
  set (f := extend acc l s (flow s)) in *. destruct (acases _ _ _ done1 cs) as [ts' m'] eqn:E3.
  injection E as -> M. apply app_eq_nil in M as [-> ->].
  assert (C1 : brk c1 = false /\ ext (enter pre) c1).
  { unfold start_case in S1. destruct cur as [c0|]; [|injection S1 as <- <-; split; [reflexivity|apply ext_refl]].
    destruct (brk c0) eqn:B0; cbn in S1; [injection S1 as <- <-; split; [reflexivity|apply ext_refl]|].
    destruct (must_of acc); cbn in S1; injection S1 as <- <-; split; try reflexivity; try apply ext_refl; [exact B0|].
    apply ext_fall. auto. }
  destruct C1 as [B1 X1]. pose proof (ext_astmt _ _ _ _ E2) as X2.
  assert (AO' : acc_ok (Some f)) by (apply acc_ok_extend; exact AO).
  assert (XC' : forall c, Some (note f c2) = Some c -> ext (enter pre) c).
  { intros c K. injection K as <-. destruct X1 as [D1 V1], X2 as [D2 V2]. split; [intros x D; discriminate|]. intros x D. cbn in D. cbn.
    rewrite (V2 x D). apply V1. destruct (dom c1 x) eqn:Dx; [|reflexivity]. rewrite (D2 x Dx) in D. discriminate. }
  inversion T as [|? ? ? ? T']; subst.
  - (* here *)
    assert (R1 : right c1 r).
    { unfold start_case in S1. destruct AR as [[_ R]|(_ & c & -> & R & B & MU)].
      - destruct cur as [c0|]; [|injection S1 as <- <-; exact R]. destruct (negb (brk c0) && negb (must_of acc)); injection S1 as <- <-; [|exact R].
        intros x Px V. cbn in V. apply (R x Px). destruct (dom c0 x) eqn:D.
        + destruct (view c0 x); [exact V|discriminate].
        + rewrite (proj2 (XC c0 eq_refl) x D) in V. exact V.
      - rewrite B, MU in S1. cbn in S1. injection S1 as <- <-. intros x Px V. cbn in V. apply (R x Px).
        destruct (dom c x); [|exact V]. destruct (view c x); [reflexivity|discriminate]. }
    cbn [seq_of] in X.
    inversion X as [| |? ? ? r1 ? ? Xa Xb|? ? ? ? ? Xa N| | | | | | | | | | | | | | | | | | | | | | | | | | | | |]; subst.
    + destruct (G Ss _ _ _ _ _ E2 A R1 Xa) as (_ & N1 & _).
      pose proof (extend_sound acc l s _ _ AO Xa) as NE. fold f in NE.
      assert (AR' : arrives pre (Some f) (Some (note f c2)) cs cs r1).
      { right. split; [reflexivity|]. exists (note f c2). split; [reflexivity|]. split; [apply right_with; exact (N1 eq_refl)|].
        split; [|exact (must_return_escape _ NE)]. cbn. apply orb_false_iff. split; [|exact NE].
        destruct (brk c2) eqn:B2; [|reflexivity]. rewrite (brk_sound init s Ss _ _ _ _ _ E2 Xa B2) in B1. discriminate. }
      destruct (IH Sc _ _ _ _ _ E3 AO' XC' cs r1 o r' (T_here _) (agrees_mono _ _ A (exec_mono _ _ _ _ Xa)) AR' Xb) as (F & N & B).
      split; [exact F|]. split.
      * intros Z. destruct (N Z) as (L & rest & EL & RL & K1 & K2). exists L, rest. split; [exact EL|]. split; [exact RL|].
        split; [discriminate|]. intros _ x C. destruct cs as [|l1 s1 cs].
        -- specialize (K1 eq_refl). injection K1 as <-. cbn. cbn in C. destruct C as [_ [C|[_ C]]]; [exact (dom_astmt _ _ _ _ x E2 C)|].
           destruct (C _ _ Xa).
        -- apply K2; [discriminate|]. apply breaks_tail in C. tauto.
      * intros Z x C. apply (B Z x). apply breaks_tail in C. tauto.
    + destruct (G Ss _ _ _ _ _ E2 A R1 Xa) as (F1 & _ & B2). split; [exact F1|]. split; [intros ->; destruct (N eq_refl)|].
      intros -> x C. apply breaks_tail in C as (TB & C & _). destruct (tail_extend acc l s _ _ TB Xa) as [K1 K2]. fold f in K1, K2.
      exists (note f c2). split.
      * destruct cs as [|l1 s1 cs].
        -- rewrite acases_nil in E3. injection E3 as <-. left. cbn. rewrite K2. reflexivity.
        -- rewrite acases_case in E3. unfold start_case in E3. cbn [note Def_model.note brk with_brk] in E3.
           fold (node f) in E3. rewrite K1, orb_true_r in E3. cbn [negb andb] in E3.
           destruct (astmt s1 (enter pre)) as [c3 m3]. destruct (acases pre _ _ _ cs) as [ts2 m4] eqn:E4. injection E3 as <- _.
           eapply acases_done; [exact E4|]. left. cbn. rewrite K2. reflexivity.
      * split.
        -- destruct C as [C|C]; [exact (dom_astmt _ _ _ _ x E2 C)|]. destruct C. exact (no_break _ _ _ _ Xa eq_refl).
        -- intros V. exact (B2 eq_refl TB x I V).
  - (* further on *)
    assert (AR' : arrives pre (Some f) (Some (note f c2)) cs cs' r).
    { left. destruct AR as [AR|[-> _]]; [exact AR|]. exfalso. clear - T'. assert (K : forall c d, tail_of c d -> (csize c <= csize d)%nat).
      { induction 1; cbn; lia. } apply K in T'. cbn in T'. lia. }
    destruct (IH Sc _ _ _ _ _ E3 AO' XC' cs' r o r' T' A AR' X) as (F & N & B). split; [exact F|]. split.
    + intros Z. destruct (N Z) as (L & rest & EL & RL & K1 & K2). exists L, rest. split; [exact EL|]. split; [exact RL|].
      split; [discriminate|]. intros _ x C. destruct cs as [|l1 s1 cs].
      * inversion T'; subst. destruct AR as [[AR _]|[AR _]]; [destruct (AR eq_refl)|discriminate].
      * apply K2; [discriminate|]. apply breaks_tail in C. tauto.
    + intros Z x C. apply (B Z x). apply breaks_tail in C. tauto.
Qed.
Lemma cnil_good : cgood CNil.
Proof.
  intros _ pre acc cur done ts E AO XC cs' r o r' T A AR X. inversion T; subst.
  destruct AR as [[N _]|(_ & c & -> & R & B & MU)]; [destruct (N eq_refl)|]. cbn [seq_of] in X. inversion X; subst.
  split; [discriminate|]. split; [|discriminate]. intros _. rewrite acases_nil in E. injection E as <-. rewrite MU.
  exists c, done. split; [reflexivity|]. split; [exact R|]. split; [reflexivity|]. intros H. destruct (H eq_refl).
Qed.
Lemma exit_less pre all ts x : view (exit_switch pre all ts) x = true -> all = false -> view pre x = true.
Proof.
  intros V ->. destruct ts as [|[m l] ts]; [exact V|]. cbn in V. destruct (ent _ x); [|exact V]. destruct (view pre x); [reflexivity|discriminate].
Qed.
Lemma switch_good e cs : cgood cs -> good (SSwitch e cs).
Proof.
  intros G S t t' r o r' E A R X. cbn [sober] in S. destruct S as (O & BE & Sc & SC).
  rewrite astmt_switch in E. uns E. injection E as <- M. apply app_eq_nil in M as [-> ->].
  apply good_plain with (r := r); [cbn; tauto|exact X| |].
  all: inversion X; subst; match goal with H : eval _ _ _ _ |- _ => rename H into Y end.
  all: pose proof (eval_right init e O _ _ _ _ _ _ _ Heqp A R (fun _ _ => I) Y) as ER.
  1, 3: assert (F : forall y, v <> RFault y) by (intros y ->; destruct ER as [-> V]; destruct (pending _ _ _ _ _ _ _ Heqp); congruence);
    rewrite (stop_out v) by assumption; discriminate.
  all: cbn [eresult] in ER; match goal with H : exec _ _ _ _, _ : ends _ _ |- _ => rename H into Z end.
  all: match goal with H : ends _ _ |- _ => rename H into EN end.
  all: pose proof (agrees_mono _ _ A (eval_mono _ _ _ _ Y)) as A1; pose proof (exec_mono _ _ _ _ Z) as M2.
  all: assert (AO : acc_ok None) by (intros a0 K; discriminate).
  all: destruct (select_tail z cs) as [[SL HD]|[SL TL]].
  - rewrite SL in Z. cbn in Z. inversion Z; subst. cbn in EN. subst. discriminate.
  - destruct (G Sc _ _ _ _ _ Heqp0 AO ltac:(discriminate) _ _ _ _ TL A1 (or_introl (conj SL ER)) Z) as (F & _ & _).
    intros y ->. destruct o0; cbn in EN; try discriminate. injection EN as <-. exact (F _ eq_refl).
  - intros _. rewrite SL in Z. cbn in Z. inversion Z; subst. intros x Px V. apply (ER x Px). exact (exit_less _ _ _ _ V HD).
  - intros ->. destruct (G Sc _ _ _ _ _ Heqp0 AO ltac:(discriminate) _ _ _ _ TL A1 (or_introl (conj SL ER)) Z) as (_ & N & B).
    intros x Px V. destruct (in_dec Nat.eq_dec x (csets cs)) as [Ix|Ix].
    + destruct (SC x Ix) as [K|K]; [apply M2, A1, K|].
      destruct o0; cbn in EN; try discriminate.
      * destruct (N eq_refl) as (L & rest & -> & RL & _ & KD). apply (RL x I).
        refine (exit_in _ _ _ L x _ _ V); [left; reflexivity|]. apply KD; [|exact K]. intros ->. exact (SL eq_refl).
      * destruct (B eq_refl x K) as (T & IT & DT & VT). apply VT. refine (exit_in _ _ _ T x IT DT V).
    + apply M2. apply (ER x I). rewrite <- V. symmetry. apply same_exit.
      intros b c IC. eapply (proj2 frame_stmt_mut); [exact Heqp0|exact Ix|discriminate|intros b0 c0 []|exact IC].
Qed.
Theorem all_good : forall s, good s.
Proof.
  assert (AB : forall r e v r', agrees init r -> eval r e v r' -> agrees init r').
  { intros r e v r' A X. exact (agrees_mono _ _ A (eval_mono _ _ _ _ X)). }
  apply (stmt_cases_ind good cgood).
  - intros _ t t' r o r' E A R X. injection E as <-. apply good_plain with (r := r); [cbn; tauto|exact X| |]; inversion X; subst; [discriminate|auto].
  - intros e S t t' r o r' E A R X. apply good_plain with (r := r); [cbn; tauto|exact X| |]; inversion X; subst;
      destruct (used_right _ _ _ _ _ _ S E A R ltac:(eassumption)) as [F N].
    + intros y K. destruct v; cbn in K; try discriminate. exact (F _ eq_refl).
    + intros K. destruct v; cbn in K; try discriminate. exact (N _ eq_refl).
  - intros a Ga b Gb S t t' r o r' E A R X. cbn [sober] in S. destruct S as [Sa Sb]. cbn [Def_model.astmt] in E. uns E. injection E as <- M. apply app_eq_nil in M as [-> ->].
    inversion X as [| |? ? ? r1 ? ? Xa Xb|? ? ? ? ? Xa N| | | | | | | | | | | | | | | | | | | | | | | | | | | | |]; subst.
    + destruct (Ga Sa _ _ _ _ _ Heqp A R Xa) as (_ & N & _).
      destruct (Gb Sb _ _ _ _ _ Heqp0 (agrees_mono _ _ A (exec_mono _ _ _ _ Xa)) (N eq_refl) Xb) as (F & N1 & B).
      split; [exact F|]. split; [intros K; apply right_with; auto|]. intros K [_ TB]. apply right_with. auto.
    + destruct (Ga Sa _ _ _ _ _ Heqp A R Xa) as (F & _ & _). split; [exact F|]. split; [intros ->; destruct (N eq_refl)|].
      intros -> [NB _]. destruct NB. exact (no_break _ _ _ _ Xa eq_refl).
  - intros a Ga S t t' r o r' E A R X. cbn [Def_model.astmt] in E. inversion X; subst.
    exact (Ga S _ _ _ _ _ E A (right_with _ _ _ R) ltac:(eassumption)).
  - intros e a Ga S t t' r o r' E A R X. cbn [sober] in S. destruct S as [O Sa]. cbn [Def_model.astmt] in E. uns E. injection E as <- M. apply app_eq_nil in M as [-> ->].
    inversion X; subst; destruct (used_right _ _ _ _ _ _ O Heqp A R ltac:(eassumption)) as [F N].
    + rewrite (stop_out v) by assumption. split; [discriminate|]. split; discriminate.
    + split; [discriminate|]. split; [|discriminate]. intros _. apply joined_false; [apply ext_refl| |reflexivity].
      apply right_enter. exact (N _ eq_refl).
    + destruct (Ga Sa _ _ _ _ _ Heqp0 (AB _ _ _ _ A ltac:(eassumption)) (right_enter _ _ (N _ eq_refl)) ltac:(eassumption)) as (F1 & N1 & _).
      split; [exact F1|]. split.
      * intros ->. apply joined_true; [exact (ext_astmt _ _ _ _ Heqp0)|exact (N1 eq_refl)|]. eapply escapes_sound; eassumption.
      * intros -> TB. cbn in TB. destruct TB. eapply no_break; [eassumption|reflexivity].
  - intros e a Ga b Gb S t t' r o r' E A R X. cbn [sober] in S. destruct S as (O & Sa & Sb). cbn [Def_model.astmt] in E. uns E. injection E as <- M. repeat apply app_eq_nil in M as [-> M]. subst.
    inversion X; subst; destruct (used_right _ _ _ _ _ _ O Heqp A R ltac:(eassumption)) as [F N].
    + rewrite (stop_out v) by assumption. split; [discriminate|]. split; discriminate.
    + destruct (Ga Sa _ _ _ _ _ Heqp0 (AB _ _ _ _ A ltac:(eassumption)) (right_enter _ _ (N _ eq_refl)) ltac:(eassumption)) as (F1 & N1 & _).
      split; [exact F1|]. split.
      * intros ->. apply joined_true; [exact (ext_astmt _ _ _ _ Heqp0)|exact (N1 eq_refl)|]. eapply escapes_sound; eassumption.
      * intros -> TB. cbn in TB. destruct TB. left. eapply no_break; [eassumption|reflexivity].
    + destruct (Gb Sb _ _ _ _ _ Heqp1 (AB _ _ _ _ A ltac:(eassumption)) (right_enter _ _ (N _ eq_refl)) ltac:(eassumption)) as (F1 & N1 & _).
      split; [exact F1|]. split.
      * intros ->. apply joined_false; [exact (ext_astmt _ _ _ _ Heqp1)|exact (N1 eq_refl)|]. eapply escapes_sound; eassumption.
      * intros -> TB. cbn in TB. destruct TB. right. eapply no_break; [eassumption|reflexivity].
  - intros e a Ga. exact (while_good e a Ga).
  - intros a Ga e. exact (do_good e a Ga).
  - intros i te c a Ga. exact (for_good i te c a Ga).
  - intros e cs Gc. exact (switch_good e cs Gc).
  - intros [e|] S t t' r o r' E A R X; cbn [Def_model.astmt] in E.
    + apply good_plain with (r := r); [cbn; tauto|exact X| |]; inversion X; subst;
        destruct (used_right _ _ _ _ _ _ S E A R ltac:(eassumption)) as [F N]; try discriminate; rewrite (stop_out v) by assumption; discriminate.
    + inversion X; subst. split; [discriminate|]. split; discriminate.
  - intros _ t t' r o r' E A R X. injection E as <-. inversion X; subst. split; [discriminate|]. split; [discriminate|auto].
  - intros _ t t' r o r' E A R X. injection E as <-. inversion X; subst. split; [discriminate|]. split; discriminate.
  - exact cnil_good.
  - intros l s Gs cs Gc. exact (cases_good l s cs Gs Gc).
Qed.
Theorem sober_sound s : sober init s -> complaints whileexec forexec obvious unreach shown init s = [] ->
  forall r, agrees init r -> forall x r', ~ exec r s (OFault x) r'.
Proof.
  intros S C r A x r' X. unfold complaints in C. fold (astmt s (Tab init (fun _ => true) false)) in C.
  destruct (astmt s (Tab init (fun _ => true) false)) as [t' m] eqn:E. cbn in C. subst.
  assert (R : right (Tab init (fun _ => true) false) r) by (intros y _ V; exact (A y V)).
  destruct (all_good s S _ _ _ _ _ E A R X) as (F & _ & _). exact (F x eq_refl).
Qed.
End Main.

(** * No false alarms *)
Lemma linear_up e : linear e -> forall p g t t' m q x, aexpr p g e t = (t', m, q) -> view t x = true -> view t' x = true /\ ~ In x m.
Proof.
  assert (CU : forall p t q t' m x, check p t q = (t', m) -> view t x = true -> view t' x = true /\ ~ In x m).
  { intros p t q t' m x E V. split; [exact (check_up _ _ _ _ _ _ E V)|]. unfold check in E. destruct q as [y|]; [|injection E as _ <-; auto].
    destruct p; [injection E as _ <-; auto|]. destruct (view t y) eqn:Vy; injection E as _ <-; [auto|]. intros [->|[]]. congruence. }
  induction e as [v|y|o a IHa b IHb|a IHa|a IHa b IHb|a IHa b IHb|c IHc a IHa b IHb|a IHa b IHb|y a IHa| |];
    cbn [aexpr linear]; intros L p g t t' m q x E V; try (destruct L; fail).
  all: un E; injection E as <- <- _; rewrite ?in_app_iff.
  - auto.
  - auto.
  - destruct L as [La Lb]. destruct (IHa La _ _ _ _ _ _ _ Heqp0 V) as [V1 N1]. destruct (IHb Lb _ _ _ _ _ _ _ Heqp1 V1) as [V2 N2].
    destruct (CU _ _ _ _ _ _ Heqp2 V2) as [V3 N3]. destruct (CU _ _ _ _ _ _ Heqp3 V3) as [V4 N4]. tauto.
  - destruct (IHa L _ _ _ _ _ _ _ Heqp0 V) as [V1 N1]. destruct (CU _ _ _ _ _ _ Heqp1 V1) as [V3 N3]. tauto.
  - destruct L as [La Lb]. destruct (IHa La _ _ _ _ _ _ _ Heqp0 V) as [V1 N1]. destruct (IHb Lb _ _ _ _ _ _ _ Heqp1 V1) as [V2 N2].
    destruct (CU _ _ _ _ _ _ Heqp2 V2) as [V3 N3]. destruct (CU _ _ _ _ _ _ Heqp3 V3) as [V4 N4]. tauto.
  - destruct (IHa L _ _ _ _ _ _ _ Heqp0 V) as [V1 N1]. destruct (CU _ _ _ _ _ _ Heqp1 V1) as [V3 N3].
    split; [cbn; rewrite upd_true, V3; destruct (Nat.eqb y x); reflexivity|tauto].
  - auto.
Qed.
Lemma only_set x r y z : only x r -> y <> x -> only x (set r y z).
Proof.
  intros [N O] D. unfold set. split; [destruct (Nat.eqb_spec y x); congruence|]. intros w W. destruct (Nat.eqb y w); [discriminate|auto].
Qed.
(** An undefined variable after an expression: untouched, about to be complained of, complained of, or assigned. *)
Definition fate (x : nat) (r : store) (e : expr) (t' : tab) (m : list nat) (q : option nat) : Prop :=
  (view t' x = false /\ ~ In x m /\ q <> Some x /\ exists z r', eval r e (RVal z) r' /\ only x r') \/
  (view t' x = false /\ ~ In x m /\ q = Some x /\ exists r', eval r e (RFault x) r') \/
  (view t' x = true /\ In x m /\ exists r', eval r e (RFault x) r') \/
  (view t' x = true /\ ~ In x m).
Lemma check_other t q t' m x : check false t q = (t', m) -> q <> Some x -> view t' x = view t x /\ ~ In x m.
Proof.
  unfold check. destruct q as [y|]; intros E N; [|injection E as <- <-; auto]. destruct (view t y); injection E as <- <-; [auto|].
  split; [|intros [->|[]]; congruence]. cbn. rewrite upd_true. destruct (Nat.eqb_spec y x); congruence.
Qed.
Lemma check_this t t' m x : check false t (Some x) = (t', m) -> view t x = false -> view t' x = true /\ In x m.
Proof.
  unfold check. intros E V. rewrite V in E. injection E as <- <-. split; [|left; reflexivity]. cbn. rewrite upd_true, Nat.eqb_refl. reflexivity.
Qed.
Lemma check_fate t q t' m x : check false t q = (t', m) -> view t x = false ->
  (q <> Some x /\ view t' x = false /\ ~ In x m) \/ (q = Some x /\ view t' x = true /\ In x m).
Proof.
  intros E V. destruct q as [y|].
  - destruct (Nat.eq_dec y x) as [->|D].
    + right. split; [reflexivity|]. exact (check_this _ _ _ _ E V).
    + left. split; [congruence|]. destruct (check_other _ _ _ _ x E ltac:(congruence)) as [K1 K2]. split; [congruence|exact K2].
  - left. split; [discriminate|]. destruct (check_other _ _ _ _ x E ltac:(discriminate)) as [K1 K2]. split; [congruence|exact K2].
Qed.
Lemma check_true t q t' m x : check false t q = (t', m) -> view t x = true -> view t' x = true /\ ~ In x m.
Proof.
  intros E V. split; [exact (check_up _ _ _ _ _ _ E V)|]. unfold check in E. destruct q as [y|]; [|injection E as _ <-; auto].
  destruct (view t y) eqn:Vy; injection E as _ <-; [auto|]. intros [->|[]]. congruence.
Qed.
Lemma linear_fate e : linear e -> forall t t' m q x r, aexpr false false e t = (t', m, q) -> view t x = false -> only x r -> fate x r e t' m q.
Proof.
  (* two operands, of which the second may be evaluated after the first *)
  assert (TWO : forall a b t0 m0 p t1 m1 q t2 m2 t3 m3 x r (e : expr) (fe : Z -> res -> res),
    (forall r v r', eval r a v r' -> stops v -> eval r e v r') ->
    (forall r z r1 v r', eval r a (RVal z) r1 -> eval r1 b v r' -> eval r e (fe z v) r') ->
    (forall z, fe z (RFault x) = RFault x) -> (forall z w, exists u, fe z (RVal w) = RVal u) ->
    fate x r a t0 m0 p -> (view t0 x = true -> view t1 x = true /\ ~ In x m1) ->
    (forall r, view t0 x = false -> only x r -> fate x r b t1 m1 q) -> only x r ->
    check false t1 p = (t2, m2) -> check false t2 q = (t3, m3) ->
    (view t3 x = false /\ ~ In x (m0 ++ m1 ++ m2 ++ m3) /\ p <> Some x /\ q <> Some x /\ exists z r', eval r e (RVal z) r' /\ only x r') \/
    (view t3 x = true /\ In x (m0 ++ m1 ++ m2 ++ m3) /\ exists r', eval r e (RFault x) r') \/
    (view t3 x = true /\ ~ In x (m0 ++ m1 ++ m2 ++ m3))).
  { intros a b t0 m0 p t1 m1 q t2 m2 t3 m3 x r e0 fe EO EB FF FV FA UP FB OX C1 C2. rewrite !in_app_iff.
    destruct FA as [(V & N & P & z & r1 & X & O1)|[(V & N & P & r1 & X)|[(V & IN & r1 & X)|(V & N)]]].
    - destruct (FB r1 V O1) as [(V1 & N1 & Q & w & r2 & Y & O2)|[(V1 & N1 & Q & r2 & Y)|[(V1 & IN & r2 & Y)|(V1 & N1)]]].
      + destruct (check_other _ _ _ _ x C1 P) as [K1 K2]. destruct (check_other _ _ _ _ x C2 Q) as [K3 K4].
        left. split; [congruence|]. split; [tauto|]. split; [exact P|]. split; [exact Q|].
        destruct (FV z w) as [u U]. exists u, r2. rewrite <- U. eauto.
      + destruct (check_other _ _ _ _ x C1 P) as [K1 K2]. subst q. destruct (check_this _ _ _ _ C2 ltac:(congruence)) as [K3 K4].
        right; left. split; [exact K3|]. split; [tauto|]. exists r2. rewrite <- (FF z). eauto.
      + destruct (check_true _ _ _ _ x C1 V1) as [K1 K2]. destruct (check_true _ _ _ _ x C2 K1) as [K3 K4].
        right; left. split; [exact K3|]. split; [tauto|]. exists r2. rewrite <- (FF z). eauto.
      + destruct (check_true _ _ _ _ x C1 V1) as [K1 K2]. destruct (check_true _ _ _ _ x C2 K1) as [K3 K4].
        right; right. split; [exact K3|tauto].
    - assert (XF : exists r', eval r e0 (RFault x) r') by (exists r1; apply EO; [exact X|exact I]).
      destruct (view t1 x) eqn:V1.
      + destruct (check_true _ _ _ _ x C1 V1) as [K1 K2]. destruct (check_true _ _ _ _ x C2 K1) as [K3 K4].
        destruct (in_dec Nat.eq_dec x m1) as [I1|I1]; right; [left|right]; [split; [exact K3|split; [tauto|exact XF]]|split; [exact K3|tauto]].
      + subst p. destruct (check_this _ _ _ _ C1 V1) as [K1 K2]. destruct (check_true _ _ _ _ x C2 K1) as [K3 K4].
        right; left. split; [exact K3|]. split; [tauto|exact XF].
    - assert (XF : exists r', eval r e0 (RFault x) r') by (exists r1; apply EO; [exact X|exact I]).
      destruct (UP V) as [V1 _]. destruct (check_true _ _ _ _ x C1 V1) as [K1 K2]. destruct (check_true _ _ _ _ x C2 K1) as [K3 K4].
      right; left. split; [exact K3|]. split; [tauto|exact XF].
    - destruct (UP V) as [V1 N1]. destruct (check_true _ _ _ _ x C1 V1) as [K1 K2]. destruct (check_true _ _ _ _ x C2 K1) as [K3 K4].
      right; right. split; [exact K3|tauto]. }
  induction e as [v|y|o a IHa b IHb|a IHa|a IHa b IHb|a IHa b IHb|c IHc a IHa b IHb|a IHa b IHb|y a IHa| |];
    cbn [aexpr linear]; intros L t t' m q x r E V OX; try (destruct L; fail).
  all: un E; injection E as <- <- <-.
  - left. split; [exact V|]. split; [auto|]. split; [discriminate|]. exists v, r. split; [constructor|exact OX].
  - destruct (Nat.eq_dec y x) as [->|D].
    + right; left. split; [exact V|]. split; [auto|]. split; [reflexivity|]. exists r. constructor. exact (proj1 OX).
    + left. split; [exact V|]. split; [auto|]. split; [congruence|]. destruct (r y) as [w|] eqn:W; [|destruct (proj2 OX y D W)].
      exists w, r. split; [constructor; exact W|exact OX].
  - destruct L as [La Lb].
    pose proof (TWO a b _ _ _ _ _ _ _ _ _ _ x r (EOp o a b) (fun z => rmap (opval o z))
      (fun r v r' X S => V_op_out r o a b v r' X S) (fun r z r1 v r' X Y => V_op r o a b z r1 v r' X Y)
      (fun z => eq_refl) (fun z w => ex_intro _ _ eq_refl) (IHa La _ _ _ _ _ _ Heqp V OX)
      (fun K => linear_up b Lb _ _ _ _ _ _ _ Heqp0 K) (fun r0 K O => IHb Lb _ _ _ _ _ _ Heqp0 K O) OX Heqp1 Heqp2) as [K|[K|K]].
    + destruct K as (K1 & K2 & _ & _ & K3). left. split; [exact K1|split; [exact K2|split; [discriminate|exact K3]]].
    + right; right; left. exact K.
    + right; right; right. exact K.
  - destruct (IHa L _ _ _ _ _ _ Heqp V OX) as [(V1 & N & P & z & r1 & X & O1)|[(V1 & N & P & r1 & X)|[(V1 & IN & r1 & X)|(V1 & N)]]]; rewrite ?in_app_iff.
    + destruct (check_other _ _ _ _ x Heqp0 P) as [K1 K2]. left. rewrite in_app_iff. split; [congruence|]. split; [tauto|]. split; [discriminate|].
      eexists _, r1. split; [exact (V_not r a _ r1 X)|exact O1].
    + subst. destruct (check_this _ _ _ _ Heqp0 V1) as [K1 K2]. right; right; left. rewrite in_app_iff. split; [exact K1|]. split; [tauto|].
      exists r1. exact (V_not r a _ r1 X).
    + destruct (check_true _ _ _ _ x Heqp0 V1) as [K1 K2]. right; right; left. rewrite in_app_iff. split; [exact K1|]. split; [tauto|].
      exists r1. exact (V_not r a _ r1 X).
    + destruct (check_true _ _ _ _ x Heqp0 V1) as [K1 K2]. right; right; right. rewrite in_app_iff. tauto.
  - destruct L as [La Lb].
    pose proof (TWO a b _ _ _ _ _ _ _ _ _ _ x r (EComma a b) (fun z v => v)
      (fun r v r' X S => V_comma_out r a b v r' X S) (fun r z r1 v r' X Y => V_comma r a b z r1 v r' X Y)
      (fun z => eq_refl) (fun z w => ex_intro _ _ eq_refl) (IHa La _ _ _ _ _ _ Heqp V OX)
      (fun K => linear_up b Lb _ _ _ _ _ _ _ Heqp0 K) (fun r0 K O => IHb Lb _ _ _ _ _ _ Heqp0 K O) OX Heqp1 Heqp2) as [K|[K|K]].
    + destruct K as (K1 & K2 & _ & K4 & K3). left. split; [exact K1|split; [exact K2|split; [exact K4|exact K3]]].
    + right; right; left. exact K.
    + right; right; right. exact K.
  - assert (VD : forall t, view t x = true -> view (define t y) x = true).
    { intros t2 V2. cbn. rewrite upd_true, V2. destruct (Nat.eqb y x); reflexivity. }
    assert (VS : forall t, view (define t x) x = true) by (intros t2; cbn; rewrite upd_true, Nat.eqb_refl; reflexivity).
    destruct (IHa L _ _ _ _ _ _ Heqp V OX) as [(V1 & N & P & z & r1 & X & O1)|[(V1 & N & P & r1 & X)|[(V1 & IN & r1 & X)|(V1 & N)]]].
    + destruct (check_other _ _ _ _ x Heqp0 P) as [K1 K2]. destruct (Nat.eq_dec y x) as [->|D].
      * right; right; right. rewrite in_app_iff. split; [apply VS|tauto].
      * left. rewrite in_app_iff. split; [|split; [tauto|split; [congruence|]]].
        -- cbn. rewrite upd_true. destruct (Nat.eqb_spec y x); congruence.
        -- eexists _, _. split; [exact (V_set r y a z r1 X)|]. apply only_set; assumption.
    + subst. destruct (check_this _ _ _ _ Heqp0 V1) as [K1 K2]. right; right; left. rewrite in_app_iff. split; [auto|]. split; [tauto|].
      exists r1. exact (V_set_out r y a _ r1 X I).
    + destruct (check_true _ _ _ _ x Heqp0 V1) as [K1 K2]. right; right; left. rewrite in_app_iff. split; [auto|]. split; [tauto|].
      exists r1. exact (V_set_out r y a _ r1 X I).
    + destruct (check_true _ _ _ _ x Heqp0 V1) as [K1 K2]. right; right; right. rewrite in_app_iff. split; [auto|tauto].
  - left. split; [exact V|]. split; [auto|]. split; [discriminate|]. exists 0, r. split; [constructor|exact OX].
Qed.
Lemma used_fate e t t' m x r : linear e -> aused e t = (t', m) -> view t x = false -> only x r ->
  (In x m -> exists r', eval r e (RFault x) r') /\ (view t' x = false -> ~ In x m /\ exists z r', eval r e (RVal z) r' /\ only x r').
Proof.
  unfold aused. intros L E V OX. un E. injection E as <- <-. rewrite in_app_iff.
  destruct (linear_fate e L _ _ _ _ _ _ Heqp V OX) as [(V1 & N & P & K)|[(V1 & N & P & K)|[(V1 & IN & K)|(V1 & N)]]].
  - destruct (check_other _ _ _ _ x Heqp0 P) as [K1 K2]. tauto.
  - subst. destruct (check_this _ _ _ _ Heqp0 V1) as [K1 K2]. split; [auto|congruence].
  - destruct (check_true _ _ _ _ x Heqp0 V1) as [K1 K2]. split; [auto|congruence].
  - destruct (check_true _ _ _ _ x Heqp0 V1) as [K1 K2]. split; [tauto|congruence].
Qed.
Lemma used_up e t t' m x : linear e -> aused e t = (t', m) -> view t x = true -> view t' x = true /\ ~ In x m.
Proof.
  unfold aused. intros L E V. un E. injection E as <- <-. rewrite in_app_iff. destruct (linear_up e L _ _ _ _ _ _ _ Heqp V) as [V1 N1].
  destruct (check_true _ _ _ _ x Heqp0 V1). tauto.
Qed.

Lemma linear_enode e : linear e -> Flow_model.mustEscape (Flow_model.enode (eflow e)) = false /\ Flow_model.xk (Flow_model.enode (eflow e)) = Flow_model.XK_NEVERESCAPE.
Proof.
  induction e; cbn [linear eflow]; intros L; try contradiction; try (split; reflexivity).
  destruct L as [L1 L2]. destruct (IHe1 L1) as [E1 X1], (IHe2 L2) as [E2 X2].
  unfold Flow_model.mustEscape in *. cbn. rewrite X1, X2 in *. cbn in *. rewrite E1, E2. split; reflexivity.
Qed.
Lemma conditional_must k : Flow_model.kmust (Flow_model.makeConditional k) = false.
Proof. destruct k; reflexivity. Qed.
Lemma open_escapes s : open s -> (calm s /\ escapes s = false) \/ (~ calm s /\ escapes s = true).
Proof.
  unfold escapes, Def_model.escapes, Def_model.node.
  induction s as [|e|a IHa b IHb|a IHa|e a IHa|e a IHa b IHb|e a IHa|a IHa e|i te c a IHa|e cs|e| |]; cbn [open calm flow Flow_model.analyse]; intros O; try contradiction.
  - left. auto.
  - left. destruct (linear_enode e O) as [L _]. auto.
  - destruct O as (Oa & Ob & Ca). destruct (IHa Oa) as [[_ Ea]|[Na _]]; [|contradiction].
    unfold Flow_model.concat. rewrite Ea. cbn [andb]. destruct (IHb Ob) as [[Cb Eb]|[Nb Eb]]; unfold Flow_model.mustEscape in *; cbn in *; [left|right]; tauto.
  - destruct (IHa O) as [[Ca Ea]|[Na Ea]]; unfold Flow_model.mustEscape in *; cbn; [left|right]; tauto.
  - left. split; [exact I|]. unfold Flow_model.mustEscape. cbn. rewrite conditional_must. reflexivity.
  - destruct O as (_ & Oa & Ob & _).
    destruct (IHa Oa) as [[Ca Ea]|[Na Ea]], (IHb Ob) as [[Cb Eb]|[Nb Eb]]; [left|left|left|right]; (split; [tauto|]).
    4: { unfold Flow_model.combineControl, Flow_model.mustEscape at 1. cbn. rewrite Ea, Eb, !orb_true_r. reflexivity. }
    all: match goal with |- ?g = false => destruct g eqn:M; [|reflexivity] end; apply Flow_proofs.must_combineControl in M as [M1 M2]; congruence.
  - destruct O as [-> Oa]. left. split; [exact I|reflexivity].
  - destruct O as (-> & Oa & Ca). left. split; [exact Ca|]. unfold Flow_model.mustEscape. cbn. rewrite conditional_must. reflexivity.
  - right. split; [auto|reflexivity].
  - right. split; [auto|reflexivity].
  - right. split; [auto|reflexivity].
Qed.
Lemma joined_up a b o t f x : ext (enter o) t -> ext (enter o) f ->
  view o x = true -> view t x = true -> view f x = true -> view (pop_branches a b o t f) x = true.
Proof. intros Xt Xf Vo Vt Vf. rewrite same_pop; congruence. Qed.
Lemma open_up s : open s -> forall t t' m x, astmt s t = (t', m) -> view t x = true -> view t' x = true /\ ~ In x m.
Proof.
  induction s as [|e|a IHa b IHb|a IHa|e a IHa|e a IHa b IHb|e a IHa|a IHa e|i te c a IHa|e cs|e| |]; cbn [open]; intros O t t' m x E V; try contradiction;
    try (injection E as <- <-; auto; fail).
  - exact (used_up _ _ _ _ _ O E V).
  - destruct O as (Oa & Ob & _). cbn [Def_model.astmt] in E. uns E. injection E as <- <-. rewrite in_app_iff.
    destruct (IHa Oa _ _ _ _ Heqp V) as [V1 N1]. destruct (IHb Ob _ _ _ _ Heqp0 V1) as [V2 N2]. split; [exact V2|tauto].
  - cbn [Def_model.astmt] in E. exact (IHa O _ _ _ _ E V).
  - destruct O as [-> Oa]. cbn [Def_model.astmt] in E. uns E. injection E as <- <-. injection Heqp as <- <-. cbn [app].
    destruct (IHa Oa _ _ _ _ Heqp0 V) as [V1 N1]. split; [|exact N1]. rewrite same_pop; cbn; congruence.
  - destruct O as (-> & Oa & Ob & _). cbn [Def_model.astmt] in E. uns E. injection E as <- <-. injection Heqp as <- <-. cbn [app]. rewrite in_app_iff.
    destruct (IHa Oa _ _ _ _ Heqp0 V) as [V1 N1]. destruct (IHb Ob _ _ _ _ Heqp1 V) as [V2 N2]. split; [|tauto]. rewrite same_pop; cbn; congruence.
  - destruct O as [-> Oa]. cbn [Def_model.astmt] in E. uns E. injection E as <- <-. injection Heqp as <- <-. cbn [app].
    destruct (IHa Oa _ _ _ _ Heqp0 V) as [V1 N1]. split; [|exact N1]. rewrite same_pop; cbn; congruence.
  - destruct O as (-> & Oa & _). cbn [Def_model.astmt] in E. uns E. injection E as <- <-. injection Heqp0 as <- <-. rewrite app_nil_r. eauto.
  - destruct e as [e|]; cbn [Def_model.astmt] in E; [exact (used_up _ _ _ _ _ O E V)|injection E as <- <-; auto].
Qed.
(** A variable not assigned and not complained of stays as it was. *)
Lemma linear_same e : linear e -> forall t t' m q x, aexpr false false e t = (t', m, q) -> ~ In x (sets e) -> ~ In x m -> view t' x = view t x.
Proof.
  assert (CS : forall t q t' m x, check false t q = (t', m) -> ~ In x m -> view t' x = view t x).
  { intros t q t' m x E N. unfold check in E. destruct q as [y|]; [|injection E as <- _; auto].
    destruct (view t y); injection E as <- <-; [reflexivity|]. cbn. rewrite upd_true. destruct (Nat.eqb_spec y x); [|reflexivity]. cbn in N. tauto. }
  induction e as [v|y|o a IHa b IHb|a IHa|a IHa b IHb|a IHa b IHb|c IHc a IHa b IHb|a IHa b IHb|y a IHa| |];
    cbn [aexpr linear sets]; intros L t t' m q x E S N; try (destruct L; fail).
  all: un E; injection E as <- <- _; rewrite ?in_app_iff in *.
  - reflexivity.
  - reflexivity.
  - destruct L as [La Lb]. rewrite (CS _ _ _ _ x Heqp2), (CS _ _ _ _ x Heqp1), (IHb Lb _ _ _ _ x Heqp0), (IHa La _ _ _ _ x Heqp) by tauto. reflexivity.
  - rewrite (CS _ _ _ _ x Heqp0), (IHa L _ _ _ _ x Heqp) by tauto. reflexivity.
  - destruct L as [La Lb]. rewrite (CS _ _ _ _ x Heqp2), (CS _ _ _ _ x Heqp1), (IHb Lb _ _ _ _ x Heqp0), (IHa La _ _ _ _ x Heqp) by tauto. reflexivity.
  - cbn in S. cbn. rewrite upd_true. destruct (Nat.eqb_spec y x); [tauto|].
    rewrite (CS _ _ _ _ x Heqp0), (IHa L _ _ _ _ x Heqp) by tauto. reflexivity.
  - reflexivity.
Qed.
Lemma used_same e t t' m x : linear e -> aused e t = (t', m) -> ~ In x (sets e) -> ~ In x m -> view t' x = view t x.
Proof.
  unfold aused. intros L E S N. un E. injection E as <- <-. rewrite in_app_iff in N. rewrite <- (linear_same e L _ _ _ _ x Heqp) by tauto.
  unfold check in Heqp0. destruct q as [y|]; [|injection Heqp0 as <- _; auto].
  destruct (view t0 y); injection Heqp0 as <- <-; [reflexivity|]. cbn. rewrite upd_true. destruct (Nat.eqb_spec y x); [|reflexivity]. cbn in N. tauto.
Qed.
Lemma open_same s : open s -> forall t t' m x, astmt s t = (t', m) -> ~ In x (ssets s) -> ~ In x m -> view t' x = view t x.
Proof.
  induction s as [|e|a IHa b IHb|a IHa|e a IHa|e a IHa b IHb|e a IHa|a IHa e|i te c a IHa|e cs|e| |]; cbn [open ssets]; intros O t t' m x E S N; try contradiction;
    try (injection E as <- <-; auto; fail); rewrite ?in_app_iff in S.
  - exact (used_same _ _ _ _ _ O E S N).
  - destruct O as (Oa & Ob & _). cbn [Def_model.astmt] in E. uns E. injection E as <- <-. rewrite in_app_iff in N. cbn.
    rewrite (IHb Ob _ _ _ x Heqp0), (IHa Oa _ _ _ x Heqp) by tauto. reflexivity.
  - cbn [Def_model.astmt] in E. exact (IHa O _ _ _ _ E S N).
  - destruct O as [-> Oa]. cbn [Def_model.astmt] in E. uns E. injection E as <- <-. injection Heqp as <- <-. cbn [app] in N.
    apply same_pop; [|reflexivity]. exact (IHa Oa _ _ _ x Heqp0 ltac:(tauto) N).
  - destruct O as (-> & Oa & Ob & _). cbn [Def_model.astmt] in E. uns E. injection E as <- <-. injection Heqp as <- <-. cbn [app] in N. rewrite in_app_iff in N.
    apply same_pop; [exact (IHa Oa _ _ _ x Heqp0 ltac:(tauto) ltac:(tauto))|exact (IHb Ob _ _ _ x Heqp1 ltac:(tauto) ltac:(tauto))].
  - destruct O as [-> Oa]. cbn [Def_model.astmt] in E. uns E. injection E as <- <-. injection Heqp as <- <-. cbn [app] in N.
    apply same_pop; [|reflexivity]. exact (IHa Oa _ _ _ x Heqp0 ltac:(tauto) N).
  - destruct O as (-> & Oa & _). cbn [Def_model.astmt] in E. uns E. injection E as <- <-. injection Heqp0 as <- <-. rewrite app_nil_r in N.
    exact (IHa Oa _ _ _ x Heqp ltac:(tauto) N).
  - destruct e as [e|]; cbn [Def_model.astmt] in E; [exact (used_same _ _ _ _ _ O E S N)|injection E as <- <-; auto].
Qed.
Theorem open_fate s : open s -> forall t t' m x r, astmt s t = (t', m) -> view t x = false -> only x r ->
  (In x m -> exists r', exec r s (OFault x) r') /\
  (calm s -> ~ In x m -> view t' x = false -> exists r', exec r s ONormal r' /\ only x r').
Proof.
  induction s as [|e|a IHa b IHb|a IHa|e a IHa|e a IHa b IHb|e a IHa|a IHa e|i te c a IHa|e cs|e| |]; cbn [open calm]; intros O t t' m x r E V OX; try contradiction;
    try (injection E as <- <-; split; [intros []|intros []]; fail).
  - injection E as <- <-. split; [intros []|]. intros _ _ _. exists r. split; [constructor|exact OX].
  - destruct (used_fate _ _ _ _ _ _ O E V OX) as [F N]. split.
    + intros K. destruct (F K) as [r' X]. exists r'. exact (X_expr _ _ _ _ X).
    + intros _ _ V'. destruct (N V') as (_ & z & r' & X & O'). exists r'. split; [exact (X_expr _ _ _ _ X)|exact O'].
  - destruct O as (Oa & Ob & Ca). cbn [Def_model.astmt] in E. uns E. injection E as <- <-. rewrite in_app_iff.
    destruct (IHa Oa _ _ _ _ r Heqp V OX) as [Fa Na].
    assert (K : ~ In x m0 -> view t0 x = false -> exists r1, exec r a ONormal r1 /\ only x r1) by auto.
    split.
    + intros I. destruct (in_dec Nat.eq_dec x m0) as [I0|I0].
      * destruct (Fa I0) as [r' X]. exists r'. apply X_seq_out; [exact X|discriminate].
      * destruct I as [I|I]; [contradiction|]. destruct (view t0 x) eqn:V0; [destruct (open_up b Ob _ _ _ _ Heqp0 V0); contradiction|].
        destruct (K I0 eq_refl) as (r1 & X & O1). destruct (proj1 (IHb Ob _ _ _ _ r1 Heqp0 V0 O1) I) as [r' Y]. exists r'. eapply X_seq; eassumption.
    + intros [_ Cb] N V'. cbn in V'. destruct (view t0 x) eqn:V0; [destruct (open_up b Ob _ _ _ _ Heqp0 V0); congruence|].
      destruct (K ltac:(tauto) eq_refl) as (r1 & X & O1). destruct (proj2 (IHb Ob _ _ _ _ r1 Heqp0 V0 O1) Cb ltac:(tauto) V') as (r' & Y & O').
      exists r'. split; [eapply X_seq; eassumption|exact O'].
  - cbn [Def_model.astmt] in E. destruct (IHa O _ _ _ x r E V OX) as [F N]. split.
    + intros I. destruct (F I) as [r' X]. exists r'. constructor. exact X.
    + intros C M V'. destruct (N C M V') as (r' & X & O'). exists r'. split; [constructor; exact X|exact O'].
  - destruct O as [-> Oa]. cbn [Def_model.astmt] in E. uns E. injection E as <- <-. injection Heqp as <- <-. cbn [app].
    destruct (IHa Oa _ _ _ x r Heqp0 V OX) as [F N]. split.
    + intros I. destruct (F I) as [r' X]. exists r'. apply X_if with (z := 1) (r1 := r); [constructor|lia|exact X].
    + intros _ _ _. exists r. split; [apply X_if_false; constructor|exact OX].
  - destruct O as (-> & Oa & Ob & Mab). cbn [Def_model.astmt] in E. uns E. injection E as <- <-. injection Heqp as <- <-. cbn [app]. rewrite in_app_iff.
    destruct (IHa Oa _ _ _ x r Heqp0 V OX) as [Fa Na]. destruct (IHb Ob _ _ _ x r Heqp1 V OX) as [Fb Nb]. split.
    + intros [I|I].
      * destruct (Fa I) as [r' X]. exists r'. apply X_else_true with (z := 1) (r1 := r); [constructor|lia|exact X].
      * destruct (Fb I) as [r' X]. exists r'. apply X_else_false with (r1 := r); [constructor|exact X].
    + intros C N V'. pose proof (ext_astmt _ _ _ _ Heqp0) as [_ Xa]. pose proof (ext_astmt _ _ _ _ Heqp1) as [_ Xb]. specialize (Xa x). specialize (Xb x). cbn [view enter] in Xa, Xb.
      cbn in V'. unfold ent in V'.
      assert (RA : calm a -> view t1 x = false -> exists r', exec r (SIfElse ECall a b) ONormal r' /\ only x r').
      { intros Ca Va. destruct (Na Ca ltac:(tauto) Va) as (r' & X & O'). exists r'. split; [|exact O'].
        apply X_else_true with (z := 1) (r1 := r); [constructor|lia|exact X]. }
      assert (RB : calm b -> view t2 x = false -> exists r', exec r (SIfElse ECall a b) ONormal r' /\ only x r').
      { intros Cb Vb. destruct (Nb Cb ltac:(tauto) Vb) as (r' & X & O'). exists r'. split; [|exact O'].
        apply X_else_false with (r1 := r); [constructor|exact X]. }
      destruct (open_escapes a Oa) as [[Ca Ea]|[Ca Ea]], (open_escapes b Ob) as [[Cb Eb]|[Cb Eb]]; try tauto; rewrite Ea, Eb in V'.
      * destruct (view t1 x) eqn:V1; [|auto]. apply RB; [exact Cb|].
        destruct (dom t2 x) eqn:D2; [|rewrite Xb by reflexivity; exact V]. destruct (dom t1 x) eqn:D1; cbn in V'; [destruct (view t2 x); auto|].
        specialize (Xa eq_refl). cbn in Xa. congruence.
      * apply RA; [exact Ca|]. destruct (dom t1 x) eqn:D1; [|rewrite Xa by reflexivity; exact V]. destruct (dom t2 x); cbn in V'; exact V'.
      * apply RB; [exact Cb|]. destruct (dom t2 x) eqn:D2; [|rewrite Xb by reflexivity; exact V].
        destruct (in_dec Nat.eq_dec x (ssets b)) as [Is|Is].
        -- destruct Mab as [Mab|Mab]; [contradiction|]. rewrite (dom_astmt _ _ _ _ x Heqp0 (Mab x Is)) in V'. cbn in V'. exact V'.
        -- rewrite (open_same b Ob _ _ _ x Heqp1 Is ltac:(tauto)). exact V.
  - destruct O as [-> Oa]. cbn [Def_model.astmt] in E. uns E. injection E as <- <-. injection Heqp as <- <-. cbn [app].
    destruct (IHa Oa _ _ _ x r Heqp0 V OX) as [F N]. split.
    + intros I. destruct (F I) as [r' X]. exists r'. apply X_while with (z := 1) (r1 := r) (o := OFault x); [constructor|lia|exact X|reflexivity].
    + intros _ _ _. exists r. split; [apply X_while_end; constructor|exact OX].
  - destruct O as (-> & Oa & Ca). cbn [Def_model.astmt] in E. uns E. injection E as <- <-. injection Heqp0 as <- <-. rewrite app_nil_r.
    destruct (IHa Oa _ _ _ x r Heqp V OX) as [F N]. split.
    + intros I. destruct (F I) as [r' X]. exists r'. apply X_do with (o := OFault x); [exact X|reflexivity].
    + intros _ M V'. destruct (N Ca M V') as (r' & X & O'). exists r'. split; [|exact O'].
      apply X_do_end with (o := ONormal) (r1 := r'); [exact X|left; reflexivity|constructor].
  - destruct e as [e|]; cbn [Def_model.astmt] in E; [|injection E as <- <-; split; [intros []|intros []]].
    destruct (used_fate _ _ _ _ _ _ O E V OX) as [F N]. split; [|intros []].
    intros K. destruct (F K) as [r' X]. exists r'. exact (X_ret_out _ _ _ _ X I).
Qed.
Theorem open_alarms init s x r : open s -> In x (complaints whileexec forexec obvious unreach shown init s) -> only x r ->
  exists r', exec r s (OFault x) r'.
Proof.
  unfold complaints. fold (astmt s (Tab init (fun _ => true) false)). intros O I OX.
  destruct (astmt s (Tab init (fun _ => true) false)) as [t' m] eqn:E. cbn in I.
  destruct (init x) eqn:V; [destruct (open_up s O _ _ _ x E V); contradiction|].
  exact (proj1 (open_fate s O _ _ _ x r E V OX) I).
Qed.
Theorem open_initialised init s x : open s -> In x (complaints whileexec forexec obvious unreach shown init s) -> init x = false.
Proof.
  unfold complaints. fold (astmt s (Tab init (fun _ => true) false)). intros O I.
  destruct (astmt s (Tab init (fun _ => true) false)) as [t' m] eqn:E. cbn in I.
  destruct (init x) eqn:V; [destruct (open_up s O _ _ _ x E V); contradiction|reflexivity].
Qed.

(** * Straight-line code *)
Lemma first_app x l l' : first x (l ++ l') = match first x l with Some e => Some e | None => first x l' end.
Proof. induction l as [|[y|y] l IH]; cbn; [reflexivity| |]; destruct (Nat.eqb x y); auto. Qed.
Lemma first_events x e v : first x (events e) = Some v -> (v = Rd x /\ In x (reads e)) \/ (v = Wr x /\ In x (sets e)).
Proof.
  induction e; cbn [events reads sets]; rewrite ?in_app_iff; try discriminate.
  - cbn. destruct (Nat.eqb_spec x x0); [|discriminate]. intros K. injection K as <-. subst. tauto.
  - rewrite first_app. destruct (first x (events e1)) as [w|] eqn:F; intros K; [injection K as ->|]; intuition.
  - auto.
  - rewrite first_app. destruct (first x (events e1)) as [w|] eqn:F; intros K; [injection K as ->|]; intuition.
  - rewrite first_app. destruct (first x (events e)) as [w|] eqn:F; intros K.
    + injection K as ->. cbn. intuition.
    + cbn in K. destruct (Nat.eqb_spec x x0); [|discriminate]. injection K as <-. subst. cbn. auto.
Qed.
(** What becomes of an undefined variable. *)
Definition told (x : nat) (o : option event) (e : expr) (t' : tab) (m : list nat) (q : option nat) : Prop :=
  match o with
  | None => view t' x = false /\ ~ In x m /\ q <> Some x
  | Some (Wr _) => view t' x = true /\ ~ In x m
  | Some (Rd _) => (view t' x = true /\ In x m) \/ (view t' x = false /\ ~ In x m /\ q = Some x /\ bare e = Some x)
  end.
Lemma linear_told e : linear e -> ordered (fun _ => false) e -> forall t t' m q x, aexpr false false e t = (t', m, q) -> view t x = false ->
  told x (first x (events e)) e t' m q.
Proof.
  assert (TWO : forall a b t0 m0 p t1 m1 q t2 m2 t3 m3 x,
    told x (first x (events a)) a t0 m0 p -> (view t0 x = true -> view t1 x = true /\ ~ In x m1) ->
    (view t0 x = false -> told x (first x (events b)) b t1 m1 q) -> (bare a = Some x -> ~ In x (sets b)) ->
    check false t1 p = (t2, m2) -> check false t2 q = (t3, m3) ->
    match first x (events a ++ events b) with
    | None => view t3 x = false /\ ~ In x (m0 ++ m1 ++ m2 ++ m3) /\ q <> Some x
    | Some (Wr _) => view t3 x = true /\ ~ In x (m0 ++ m1 ++ m2 ++ m3)
    | Some (Rd _) => view t3 x = true /\ In x (m0 ++ m1 ++ m2 ++ m3)
    end).
  { intros a b t0 m0 p t1 m1 q t2 m2 t3 m3 x TA UP TB BS C1 C2. rewrite first_app.
    assert (H4 : In x (m0 ++ m1 ++ m2 ++ m3) <-> In x m0 \/ In x m1 \/ In x m2 \/ In x m3) by (rewrite !in_app_iff; tauto).
    destruct (first x (events a)) as [[y|y]|] eqn:FA; cbn [told] in TA.
    - destruct TA as [(V & IN)|(V & N & P & B)].
      + destruct (UP V) as [V1 _]. destruct (check_true _ _ _ _ x C1 V1) as [K1 K2]. destruct (check_true _ _ _ _ x C2 K1) as [K3 K4]. tauto.
      + destruct (view t1 x) eqn:V1.
        * destruct (check_true _ _ _ _ x C1 V1) as [K1 K2]. destruct (check_true _ _ _ _ x C2 K1) as [K3 K4].
          specialize (TB V). destruct (first x (events b)) as [[z|z]|] eqn:FB; cbn [told] in TB.
          -- destruct TB as [[_ TB]|[TB _]]; [tauto|congruence].
          -- destruct (first_events _ _ _ FB) as [[? _]|[_ K]]; [congruence|]. destruct (BS B K).
          -- destruct TB. congruence.
        * subst p. destruct (check_this _ _ _ _ C1 V1) as [K1 K2]. destruct (check_true _ _ _ _ x C2 K1) as [K3 K4]. tauto.
    - destruct TA as [V N]. destruct (UP V) as [V1 N1]. destruct (check_true _ _ _ _ x C1 V1) as [K1 K2]. destruct (check_true _ _ _ _ x C2 K1) as [K3 K4]. tauto.
    - destruct TA as (V & N & P). specialize (TB V). destruct (first x (events b)) as [[z|z]|]; cbn [told] in TB.
      + destruct TB as [[V1 IN]|(V1 & N1 & Q & B)].
        * destruct (check_true _ _ _ _ x C1 V1) as [K1 K2]. destruct (check_true _ _ _ _ x C2 K1) as [K3 K4]. tauto.
        * destruct (check_other _ _ _ _ x C1 P) as [K1 K2]. subst q. destruct (check_this _ _ _ _ C2 ltac:(congruence)). tauto.
      + destruct TB as [V1 N1]. destruct (check_true _ _ _ _ x C1 V1) as [K1 K2]. destruct (check_true _ _ _ _ x C2 K1) as [K3 K4]. tauto.
      + destruct TB as (V1 & N1 & Q). destruct (check_other _ _ _ _ x C1 P) as [K1 K2]. destruct (check_other _ _ _ _ x C2 Q) as [K3 K4].
        split; [congruence|]. split; [tauto|exact Q]. }
  induction e as [v|y|o a IHa b IHb|a IHa|a IHa b IHb|a IHa b IHb|c IHc a IHa b IHb|a IHa b IHb|y a IHa| |];
    cbn [aexpr linear ordered events]; intros L O t t' m q x E V; try (destruct L; fail).
  all: un E; injection E as <- <- <-.
  - cbn. split; [exact V|]. split; [auto|discriminate].
  - cbn. destruct (Nat.eqb_spec x y) as [->|D]; cbn; [right; auto|]. split; [exact V|]. split; [auto|congruence].
  - destruct L as [La Lb], O as (Oa & Ob & O1 & O2).
    pose proof (TWO a b _ _ _ _ _ _ _ _ _ _ x (IHa La Oa _ _ _ _ _ Heqp V) (fun K => linear_up b Lb _ _ _ _ _ _ _ Heqp0 K)
      (fun K => IHb Lb Ob _ _ _ _ _ Heqp0 K) (fun B I => O2 x I (bare_reads _ _ B)) Heqp1 Heqp2) as K.
    destruct (first x (events a ++ events b)) as [[z|z]|]; cbn [told]; [left; exact K|exact K|].
    destruct K as (K1 & K2 & _). split; [exact K1|]. split; [exact K2|discriminate].
  - specialize (IHa L O _ _ _ _ _ Heqp V). destruct (first x (events a)) as [[z|z]|]; cbn [told] in *; rewrite in_app_iff.
    + destruct IHa as [[V1 I1]|(V1 & N1 & Q & B)].
      * destruct (check_true _ _ _ _ x Heqp0 V1). left. tauto.
      * subst. destruct (check_this _ _ _ _ Heqp0 V1). left. tauto.
    + destruct IHa as [V1 N1]. destruct (check_true _ _ _ _ x Heqp0 V1). tauto.
    + destruct IHa as (V1 & N1 & Q). destruct (check_other _ _ _ _ x Heqp0 Q). split; [congruence|]. split; [tauto|discriminate].
  - destruct L as [La Lb], O as (Oa & Ob & O1).
    pose proof (TWO a b _ _ _ _ _ _ _ _ _ _ x (IHa La Oa _ _ _ _ _ Heqp V) (fun K => linear_up b Lb _ _ _ _ _ _ _ Heqp0 K)
      (fun K => IHb Lb Ob _ _ _ _ _ Heqp0 K) (O1 x) Heqp1 Heqp2) as K.
    destruct (first x (events a ++ events b)) as [[z|z]|]; cbn [told]; [left; exact K|exact K|exact K].
  - specialize (IHa L O _ _ _ _ _ Heqp V). rewrite first_app.
    assert (VD : forall t, view t x = true -> view (define t y) x = true).
    { intros t2 V2. cbn. rewrite upd_true, V2. destruct (Nat.eqb y x); reflexivity. }
    destruct (first x (events a)) as [[z|z]|]; cbn [told] in *; rewrite ?in_app_iff.
    + destruct IHa as [[V1 I1]|(V1 & N1 & Q & B)].
      * destruct (check_true _ _ _ _ x Heqp0 V1). left. split; [auto|tauto].
      * subst. destruct (check_this _ _ _ _ Heqp0 V1). left. split; [auto|tauto].
    + destruct IHa as [V1 N1]. destruct (check_true _ _ _ _ x Heqp0 V1). split; [auto|tauto].
    + destruct IHa as (V1 & N1 & Q). destruct (check_other _ _ _ _ x Heqp0 Q). cbn [first]. rewrite Nat.eqb_sym.
      destruct (Nat.eqb_spec y x) as [->|D]; cbn [told]; rewrite in_app_iff.
      * split; [cbn; rewrite upd_true, Nat.eqb_refl; reflexivity|tauto].
      * split; [cbn; rewrite upd_true; destruct (Nat.eqb_spec y x); congruence|]. split; [tauto|congruence].
  - cbn. split; [exact V|]. split; [auto|discriminate].
Qed.
(** Complaints are of undefined variables, which are then taken to be defined. *)
Definition once (t t' : tab) (m : list nat) : Prop :=
  NoDup m /\ forall x, In x m -> view t x = false /\ view t' x = true.
Lemma nodup_app (l l' : list nat) : NoDup l -> NoDup l' -> (forall x, In x l -> ~ In x l') -> NoDup (l ++ l').
Proof.
  induction 1 as [|x l N D IH]; intros H X; cbn; [exact H|]. constructor; [rewrite in_app_iff; intros [K|K]; [tauto|]; apply (X x); cbn; auto|].
  apply IH; [exact H|]. intros y I. apply X. right. exact I.
Qed.
Lemma once_app t t1 t2 m1 m2 : (forall x, view t x = true -> view t1 x = true) -> (forall x, view t1 x = true -> view t2 x = true) ->
  once t t1 m1 -> once t1 t2 m2 -> once t t2 (m1 ++ m2).
Proof.
  intros U1 U2 [N1 O1] [N2 O2]. split.
  - apply nodup_app; [exact N1|exact N2|]. intros x I1 I2. destruct (O1 x I1), (O2 x I2). congruence.
  - intros x I. apply in_app_or in I as [I|I].
    + destruct (O1 x I). auto.
    + destruct (O2 x I) as [K1 K2]. split; [|exact K2]. destruct (view t x) eqn:V; [|reflexivity]. rewrite (U1 x V) in K1. discriminate.
Qed.
Lemma once_check t q t' m : check false t q = (t', m) -> once t t' m.
Proof.
  assert (ON : once t t []) by (split; [constructor|intros x []]).
  unfold check. destruct q as [y|]; [destruct (view t y) eqn:V|]; intros E; injection E as <- <-; try exact ON.
  split; [constructor; [intros []|constructor]|]. intros x [<-|[]]. split; [exact V|]. cbn. rewrite upd_true, Nat.eqb_refl. reflexivity.
Qed.
Lemma linear_once e : linear e -> forall t t' m q, aexpr false false e t = (t', m, q) -> once t t' m.
Proof.
  assert (ON : forall t, once t t []) by (intros t; split; [constructor|intros x []]).
  assert (CU : forall t q t' m x, check false t q = (t', m) -> view t x = true -> view t' x = true).
  { intros t q t' m x E V. exact (check_up _ _ _ _ _ _ E V). }
  induction e as [v|y|o a IHa b IHb|a IHa|a IHa b IHb|a IHa b IHb|c IHc a IHa b IHb|a IHa b IHb|y a IHa| |];
    cbn [aexpr linear]; intros L t t' m q E; try (destruct L; fail).
  all: un E; injection E as <- <- _; try apply ON; try (split; [constructor|intros x []]; fail).
  - destruct L as [La Lb].
    eapply once_app with (t1 := t0); [exact (fun x K => proj1 (linear_up a La _ _ _ _ _ _ _ Heqp K))| |exact (IHa La _ _ _ _ Heqp)|].
    { intros x K. eapply CU; [exact Heqp2|]. eapply CU; [exact Heqp1|]. exact (proj1 (linear_up b Lb _ _ _ _ _ _ _ Heqp0 K)). }
    eapply once_app with (t1 := t1); [exact (fun x K => proj1 (linear_up b Lb _ _ _ _ _ _ _ Heqp0 K))| |exact (IHb Lb _ _ _ _ Heqp0)|].
    { intros x K. eapply CU; [exact Heqp2|]. eapply CU; [exact Heqp1|]. exact K. }
    eapply once_app with (t1 := t2); [intros x; exact (CU _ _ _ _ x Heqp1)|intros x; exact (CU _ _ _ _ x Heqp2)|exact (once_check _ _ _ _ Heqp1)|exact (once_check _ _ _ _ Heqp2)].
  - eapply once_app with (t1 := t0); [exact (fun x K => proj1 (linear_up a L _ _ _ _ _ _ _ Heqp K))| |exact (IHa L _ _ _ _ Heqp)|exact (once_check _ _ _ _ Heqp0)].
    intros x; exact (CU _ _ _ _ x Heqp0).
  - destruct L as [La Lb].
    eapply once_app with (t1 := t0); [exact (fun x K => proj1 (linear_up a La _ _ _ _ _ _ _ Heqp K))| |exact (IHa La _ _ _ _ Heqp)|].
    { intros x K. eapply CU; [exact Heqp2|]. eapply CU; [exact Heqp1|]. exact (proj1 (linear_up b Lb _ _ _ _ _ _ _ Heqp0 K)). }
    eapply once_app with (t1 := t1); [exact (fun x K => proj1 (linear_up b Lb _ _ _ _ _ _ _ Heqp0 K))| |exact (IHb Lb _ _ _ _ Heqp0)|].
    { intros x K. eapply CU; [exact Heqp2|]. eapply CU; [exact Heqp1|]. exact K. }
    eapply once_app with (t1 := t2); [intros x; exact (CU _ _ _ _ x Heqp1)|intros x; exact (CU _ _ _ _ x Heqp2)|exact (once_check _ _ _ _ Heqp1)|exact (once_check _ _ _ _ Heqp2)].
  - assert (K : once (touch t y) t1 (m0 ++ m1)).
    { eapply once_app with (t1 := t0); [exact (fun x K => proj1 (linear_up a L _ _ _ _ _ _ _ Heqp K))| |exact (IHa L _ _ _ _ Heqp)|exact (once_check _ _ _ _ Heqp0)].
      intros x; exact (CU _ _ _ _ x Heqp0). }
    destruct K as [K1 K2]. split; [exact K1|]. intros x I. destruct (K2 x I) as [K3 K4]. split; [exact K3|].
    cbn. rewrite upd_true, K4. destruct (Nat.eqb y x); reflexivity.
Qed.
Theorem straight_told s : straight s -> forall t t' m, astmt s t = (t', m) ->
  once t t' m /\ (forall x, view t x = true -> view t' x = true /\ ~ In x m) /\
  (forall x, view t x = false -> match first x (sevents s) with
     | None => view t' x = false /\ ~ In x m | Some (Wr _) => view t' x = true /\ ~ In x m | Some (Rd _) => view t' x = true /\ In x m end).
Proof.
  induction s as [|e|a IHa b IHb|a IHa|e a IHa|e a IHa b IHb|e a IHa|a IHa e|i te c a IHa|e cs|e| |]; cbn [straight sevents]; intros S t t' m E; try contradiction.
  - injection E as <- <-. split; [split; [constructor|intros x []]|]. split; [auto|]. intros x V. cbn. auto.
  - destruct S as [L O]. cbn [Def_model.astmt] in E. split; [|split].
    + unfold aused in E. un E. injection E as <- <-. eapply once_app with (t1 := t0); [exact (fun x K => proj1 (linear_up e L _ _ _ _ _ _ _ Heqp K))| |exact (linear_once e L _ _ _ _ Heqp)|exact (once_check _ _ _ _ Heqp0)].
      intros x V. exact (check_up _ _ _ _ _ _ Heqp0 V).
    + intros x V. exact (used_up _ _ _ _ _ L E V).
    + intros x V. unfold aused in E. un E. injection E as <- <-. pose proof (linear_told e L O _ _ _ _ x Heqp V) as K.
      destruct (first x (events e)) as [[y|y]|]; cbn [told] in K; rewrite in_app_iff.
      * destruct K as [[V1 I1]|(V1 & N1 & Q & B)].
        -- destruct (check_true _ _ _ _ x Heqp0 V1). tauto.
        -- subst. destruct (check_this _ _ _ _ Heqp0 V1). tauto.
      * destruct K as [V1 N1]. destruct (check_true _ _ _ _ x Heqp0 V1). tauto.
      * destruct K as (V1 & N1 & Q). destruct (check_other _ _ _ _ x Heqp0 Q). split; [congruence|tauto].
  - destruct S as [Sa Sb]. cbn [Def_model.astmt] in E. uns E. injection E as <- <-.
    destruct (IHa Sa _ _ _ Heqp) as (O1 & U1 & F1). destruct (IHb Sb _ _ _ Heqp0) as (O2 & U2 & F2). split; [|split].
    + exact (once_app _ _ _ _ _ (fun x K => proj1 (U1 x K)) (fun x K => proj1 (U2 x K)) O1 O2).
    + intros x V. rewrite in_app_iff. destruct (U1 x V) as [V1 N1]. destruct (U2 x V1) as [V2 N2]. split; [exact V2|tauto].
    + intros x V. rewrite first_app. cbn [note Def_model.note with_brk view]. specialize (F1 x V).
      destruct (first x (sevents a)) as [[y|y]|]; rewrite ?in_app_iff.
      * destruct F1 as [V1 N1]. destruct (U2 x V1). tauto.
      * destruct F1 as [V1 N1]. destruct (U2 x V1). tauto.
      * destruct F1 as [V1 N1]. specialize (F2 x V1). destruct (first x (sevents b)) as [[y|y]|]; rewrite in_app_iff; tauto.
  - cbn [Def_model.astmt] in E. exact (IHa S _ _ _ E).
Qed.
Theorem straight_exact init s x : straight s ->
  (In x (complaints whileexec forexec obvious unreach shown init s) <-> init x = false /\ first x (sevents s) = Some (Rd x)).
Proof.
  unfold complaints. fold (astmt s (Tab init (fun _ => true) false)). intros S.
  destruct (astmt s (Tab init (fun _ => true) false)) as [t' m] eqn:E. cbn [snd].
  destruct (straight_told s S _ _ _ E) as (_ & U & F). specialize (U x). specialize (F x). cbn [view] in U, F.
  destruct (init x) eqn:V.
  - destruct (U eq_refl). split; [contradiction|intros [K _]; discriminate].
  - specialize (F eq_refl). assert (FE : forall y, first x (sevents s) = Some (Rd y) -> y = x).
    { intros y. generalize (sevents s). induction l as [|[z|z] l IH]; cbn; [discriminate| |]; destruct (Nat.eqb_spec x z); try discriminate; auto.
      intros K. injection K as <-. congruence. }
    destruct (first x (sevents s)) as [[y|y]|].
    + rewrite (FE y eq_refl). tauto.
    + split; [tauto|intros [_ K]; discriminate].
    + split; [tauto|intros [_ K]; discriminate].
Qed.
Theorem straight_once init s : straight s -> NoDup (complaints whileexec forexec obvious unreach shown init s).
Proof.
  unfold complaints. fold (astmt s (Tab init (fun _ => true) false)). intros S.
  destruct (astmt s (Tab init (fun _ => true) false)) as [t' m] eqn:E. cbn [snd]. exact (proj1 (proj1 (straight_told s S _ _ _ E))).
Qed.
End Stmts.
