From Verif Require Import Cbase Guard_model Nullflow_model Nullflow_spec.
From Verif Require Flow_model Flow_spec Flow_proofs.

(** * Sets of references *)
Lemma in_insert s el r : In r (rs_insert s el) -> In r s \/ r = el.
Proof. unfold rs_insert. destruct (same_member s el); [auto|]. rewrite in_app_iff. cbn. intuition. Qed.
Lemma in_union_aux l : forall s r, In r (fold_left rs_insert l s) -> In r s \/ In r l.
Proof.
  induction l as [|y l IH]; cbn; intros s r H; [auto|].
  apply IH in H as [H|H]; [|auto]. apply in_insert in H as [H| ->]; auto.
Qed.
Lemma in_union s t r : In r (rs_union s t) -> In r s \/ In r t.
Proof. unfold rs_union. destruct s as [|y s]; [auto|]. apply in_union_aux. Qed.
Lemma member_var l x : member l (RVar x) = true <-> In (RVar x) l.
Proof.
  unfold member. rewrite existsb_exists. split.
  - intros (r & I & E). destruct r; cbn in E; try discriminate. apply Nat.eqb_eq in E as ->. exact I.
  - intros I. exists (RVar x). split; [exact I|]. cbn. apply Nat.eqb_refl.
Qed.
Lemma same_var l x : same_member l (RVar x) = true -> In (RVar x) l.
Proof.
  unfold same_member. rewrite existsb_exists. intros (r & I & E).
  destruct r; cbn in E; try discriminate. apply Nat.eqb_eq in E as ->. exact I.
Qed.
Lemma in_intersect_aux s2 l x : forall s, In (RVar x) (fold_left (fun s el => if member s2 el then rs_insert s el else s) l s) ->
  In (RVar x) s \/ In (RVar x) l /\ In (RVar x) s2.
Proof.
  induction l as [|y l IH]; cbn; intros s H; [auto|]. apply IH in H as [H|[H1 H2]]; [|auto].
  destruct (member s2 y) eqn:E; [|auto]. apply in_insert in H as [H| <-]; [auto|]. right. split; [auto|]. apply member_var. exact E.
Qed.
Lemma in_intersect s t x : In (RVar x) (rs_intersect s t) -> In (RVar x) s /\ In (RVar x) t.
Proof. intros H. apply in_intersect_aux in H as [[]|H]. exact H. Qed.
Lemma insert_old s el r : In r s -> In r (rs_insert s el).
Proof. unfold rs_insert. destruct (same_member s el); [auto|]. rewrite in_app_iff. auto. Qed.
Lemma insert_new s x : In (RVar x) (rs_insert s (RVar x)).
Proof. unfold rs_insert. destruct (same_member s (RVar x)) eqn:E; [apply same_var, E|]. rewrite in_app_iff. cbn. auto. Qed.
Lemma union_aux_old l : forall s r, In r s -> In r (fold_left rs_insert l s).
Proof. induction l as [|y l IH]; cbn; intros s r H; [exact H|]. apply IH, insert_old, H. Qed.
Lemma union_aux_new l x : forall s, In (RVar x) l -> In (RVar x) (fold_left rs_insert l s).
Proof.
  induction l as [|y l IH]; cbn; intros s H; [destruct H|]. destruct H as [->|H]; [apply union_aux_old, insert_new|apply IH, H].
Qed.
Lemma union_in s t x : In (RVar x) s \/ In (RVar x) t -> In (RVar x) (rs_union s t).
Proof. unfold rs_union. destruct s as [|y s]; [intros [[]|H]; exact H|]. intros [H|H]; [apply union_aux_old, H|apply union_aux_new, H]. Qed.
Lemma intersect_aux_in s2 l x : In (RVar x) s2 -> forall s, In (RVar x) s \/ In (RVar x) l ->
  In (RVar x) (fold_left (fun s el => if member s2 el then rs_insert s el else s) l s).
Proof.
  intros I. induction l as [|y l IH]; cbn; intros s H; [tauto|]. apply IH. destruct H as [H|[->|H]]; [left|left|right; exact H].
  - destruct (member s2 y); [apply insert_old, H|exact H].
  - rewrite (proj2 (member_var s2 x) I). apply insert_new.
Qed.
Lemma intersect_in s t x : In (RVar x) s -> In (RVar x) t -> In (RVar x) (rs_intersect s t).
Proof. intros H I. unfold rs_intersect. apply intersect_aux_in; auto. Qed.

(** [side b g]: the references guarded when the condition has the value [b]. *)
Definition side (b : bool) (g : guards) : list ref := if b then tset g else fset g.
Lemma guarded_side g x : is_guarded g (RVar x) = true <-> In (RVar x) (side true g).
Proof. destruct g as [[t f]|]; cbn -[member]; [apply member_var|]. split; [discriminate|intros []]. Qed.
Lemma side_invert b g : side b (g_invert g) = side (negb b) g.
Proof. destruct b, g as [[t f]|]; reflexivity. Qed.
Lemma side_union b g h x : In (RVar x) (side b (g_union g h)) <-> In (RVar x) (side b g) \/ In (RVar x) (side b h).
Proof.
  destruct g as [[t f]|], h as [[t' f']|]; destruct b; cbn; try tauto;
    (split; [intros H; apply in_union in H; exact H|apply union_in]).
Qed.
Lemma side_and b g h x : In (RVar x) (side b (g_and g h)) <->
  (if b then In (RVar x) (side b g) \/ In (RVar x) (side b h) else In (RVar x) (side b g) /\ In (RVar x) (side b h)).
Proof.
  destruct g as [[t f]|], h as [[t' f']|]; destruct b; cbn; try tauto;
    (split; [intros H; first [apply in_union in H|apply in_intersect in H]; tauto|intros H; first [apply union_in|apply intersect_in]; tauto]).
Qed.
Lemma side_or b g h x : In (RVar x) (side b (g_or g h)) <->
  (if b then In (RVar x) (side b g) /\ In (RVar x) (side b h) else In (RVar x) (side b g) \/ In (RVar x) (side b h)).
Proof.
  destruct g as [[t f]|], h as [[t' f']|]; destruct b; cbn; try tauto;
    (split; [intros H; first [apply in_union in H|apply in_intersect in H]; tauto|intros H; first [apply union_in|apply intersect_in]; tauto]).
Qed.

(** * The guards of a condition *)
Lemma ty_ptr c : n_ty (build (cexpr c)) = Tptr -> exists x, c = CPtr x.
Proof.
  induction c; cbn; try discriminate; eauto; unfold n_not, n_compare; cbn.
  destruct (n_ty (build (cexpr c))) eqn:E; cbn; try discriminate.
Qed.
Lemma ref_ptr c : n_ty (build (cexpr c)) <> Tptr -> n_guards (produce (build (cexpr c))) = n_guards (build (cexpr c)).
Proof. intros H. unfold produce. cbn. destruct (n_ty (build (cexpr c))); try reflexivity. congruence. Qed.
Lemma cguards_settles c x : forall b : bool, In (RVar x) (side b (cguards c)) <-> settles b c x.
Proof.
  unfold cguards, test_guards. induction c as [y|y|y|y| | | |c IH|p IHp q IHq|p IHp q IHq]; intros b.
  - destruct b; cbn; [|split; [intros [[= ->]|[]]; auto|intros [_ ->]; auto]]. split; [intros []|intros [[=] _]].
  - destruct b; cbn; [split; [intros [[= ->]|[]]; auto|intros [_ ->]; auto]|]. split; [intros []|intros [[=] _]].
  - destruct b; cbn; [split; [intros [[= ->]|[]]; auto|intros [_ ->]; auto]|]. split; [intros []|intros [[=] _]].
  - destruct b; cbn; split; intros [].
  - destruct b; cbn; split; intros [].
  - destruct b; cbn; split; intros [].
  - destruct b; cbn; split; intros [].
  - change (settles b (CNot c) x) with (settles (negb b) c x). rewrite <- IH, <- side_invert.
    destruct (n_ty (build (cexpr c))) eqn:E.
    + apply ty_ptr in E as [y ->]. cbn. destruct b; cbn; tauto.
    + rewrite (ref_ptr c) by congruence. cbn. unfold n_not, produce. rewrite E. cbn. tauto.
    + rewrite (ref_ptr c) by congruence. cbn. unfold n_not, produce. rewrite E. cbn. tauto.
    + rewrite (ref_ptr c) by congruence. cbn. unfold n_not, produce. rewrite E. cbn. tauto.
  - change (n_guards (produce (build (cexpr (CAnd p q))))) with (g_and (n_guards (produce (build (cexpr p)))) (n_guards (produce (build (cexpr q))))).
    rewrite side_and. cbn [settles]. destruct b; rewrite IHp, IHq; tauto.
  - change (n_guards (produce (build (cexpr (COr p q))))) with (g_or (n_guards (produce (build (cexpr p)))) (n_guards (produce (build (cexpr q))))).
    rewrite side_or. cbn [settles]. destruct b; rewrite IHp, IHq; tauto.
Qed.
Lemma settles_compared c x : forall b : bool, settles b c x -> In x (compared c).
Proof.
  induction c; cbn [settles compared]; intros b H; try contradiction; try (destruct H as [_ ->]; cbn; auto; fail); eauto;
    rewrite in_app_iff; destruct b; destruct H as [H|H] || destruct H as [H _]; eauto.
Qed.
Lemma settles_sound r c x : forall b : bool, settles b c x -> ceval r c (RVal b) -> r x = true.
Proof.
  induction c as [y|y|y|y| | | |c IH|p IHp q IHq|p IHp q IHq]; cbn [settles]; intros b S E; try contradiction.
  - destruct S as [-> ->]. inversion E as [y' E'| | | | | | | | | | | | | | | |]; subst. destruct (r y); [reflexivity|discriminate].
  - destruct S as [-> ->]. inversion E; subst; congruence.
  - destruct S as [-> ->]. inversion E; subst; congruence.
  - inversion E; subst; [|exfalso; match goal with H : forall b, RVal _ <> RVal b |- _ => exact (H _ eq_refl) end].
    rewrite negb_involutive in S. eauto.
  - inversion E; subst; try (exfalso; match goal with H : forall b, RVal _ <> RVal b |- _ => exact (H _ eq_refl) end).
    + destruct S as [S _]; eauto.
    + destruct b; [destruct S as [S|S]|destruct S as [_ S]]; eauto.
  - inversion E; subst; try (exfalso; match goal with H : forall b, RVal _ <> RVal b |- _ => exact (H _ eq_refl) end).
    + destruct S as [S _]; eauto.
    + destruct b; [destruct S as [_ S]|destruct S as [S|S]]; eauto.
Qed.

(** * Null states *)
Lemma combine_poss a b : plain_state a -> poss (combine a b) = false -> poss a = false /\ poss b = false.
Proof. destruct a, b; cbn; intros H E; auto; try contradiction; try discriminate. Qed.
Lemma combine_plain a b : plain_state a -> plain_state b -> plain_state (combine a b).
Proof. destruct a, b; cbn; auto. Qed.
Lemma combine_same a : combine a a = a.
Proof. destruct a; reflexivity. Qed.
Lemma vstate_plain v : v <> VConst -> plain_state (vstate v).
Proof. destruct v; cbn; congruence || auto. Qed.

(** * Stacks *)
Fixpoint plains (s : stack) : Prop :=
  match s with
  | Base e _ => forall x, plain_state (ns (e x))
  | Blk _ s => plains s
  | Tr e _ s => (forall x n, e x = Some n -> plain_state (ns n)) /\ plains s
  | Fa e _ te _ s => (forall x n, e x = Some n -> plain_state (ns n)) /\ (forall x n, te x = Some n -> plain_state (ns n)) /\ plains s
  end.
Definition less (g g' : guards) : Prop := forall x, is_guarded g' (RVar x) = true -> is_guarded g (RVar x) = true.
(** [low s s']: only guards were lost. *)
Fixpoint low (s s' : stack) : Prop :=
  match s, s' with
  | Base e g, Base e' g' => (forall x, e' x = e x) /\ less g g'
  | Blk g s, Blk g' s' => less g g' /\ low s s'
  | Tr e g s, Tr e' g' s' => (forall x, e' x = e x) /\ less g g' /\ low s s'
  | Fa e g te tg s, Fa e' g' te' tg' s' => (forall x, e' x = e x) /\ less g g' /\ (forall x, te' x = te x) /\ low s s'
  | _, _ => False
  end.
(** [rel s s']: below the innermost branch, only guards were lost. *)
Fixpoint rel (s s' : stack) : Prop :=
  match s, s' with
  | Base _ _, Base _ _ => True
  | Blk _ s, Blk _ s' => rel s s'
  | Tr _ _ s, Tr _ _ s' => low s s'
  | Fa _ _ te _ s, Fa _ _ te' _ s' => (forall x, te' x = te x) /\ low s s'
  | _, _ => False
  end.
Lemma less_refl g : less g g. Proof. intros x H. exact H. Qed.
Lemma less_trans a b c : less a b -> less b c -> less a c.
Proof. intros H1 H2 x H. apply H1, H2, H. Qed.
Lemma low_refl s : low s s.
Proof. induction s; cbn; auto using less_refl. Qed.
Lemma low_trans a : forall b c, low a b -> low b c -> low a c.
Proof.
  induction a; intros [] []; cbn; try contradiction; intuition eauto using less_trans; try congruence;
    try (match goal with H : forall x, ?e x = ?f x, H' : forall x, ?f x = ?g x |- ?e ?x = ?g ?x => rewrite H; apply H' end).
Qed.
Lemma rel_refl s : rel s s.
Proof. induction s; cbn; auto using low_refl. Qed.
Lemma rel_trans a : forall b c, rel a b -> rel b c -> rel a c.
Proof.
  induction a; intros [] []; cbn; try contradiction; intuition eauto using low_trans;
    try (match goal with H : forall x, ?e x = ?f x, H' : forall x, ?f x = ?g x |- ?e ?x = ?g ?x => rewrite H; apply H' end).
Qed.
Lemma low_rel a : forall b, low a b -> rel a b.
Proof. induction a; intros []; cbn; try contradiction; intuition. Qed.
Lemma low_find s : forall s' x, low s s' -> find s' x = find s x.
Proof.
  induction s; intros [] x; cbn; try contradiction; intros H; intuition eauto.
  - rewrite H0. destruct (e x); auto.
  - rewrite H0. destruct (e x); auto.
Qed.
Lemma low_look s : forall s' x, low s s' -> look s' x = look s x.
Proof.
  induction s; intros [] x; cbn; try contradiction; intros H; intuition eauto.
  - rewrite H0. destruct (e x); auto. erewrite low_find; eauto.
  - rewrite H0. destruct (e x); auto. erewrite low_find; eauto.
Qed.
Lemma low_guarded s : forall s' x, low s s' -> guarded s' x = true -> guarded s x = true.
Proof.
  induction s; intros [] x; cbn [low guarded]; try contradiction; intros H G.
  - apply H, G.
  - destruct H as [H1 H2]. apply orb_true_iff in G as [G|G]; apply orb_true_iff; eauto.
  - destruct H as (_ & H1 & H2). apply orb_true_iff in G as [G|G]; apply orb_true_iff; eauto.
  - destruct H as (_ & H1 & _ & H2). apply orb_true_iff in G as [G|G]; apply orb_true_iff; eauto.
Qed.
Lemma low_plains s : forall s', low s s' -> plains s -> plains s'.
Proof.
  induction s; intros [] H P; cbn in *; try contradiction.
  - intros x. destruct H as [H _]. rewrite H. apply P.
  - destruct H; eauto.
  - destruct H as (H & _ & H'), P as [P P']. split; [|eauto]. intros x n. rewrite H. apply P.
  - destruct H as (H & _ & Ht & H'), P as (P & Pt & P'). split; [|split; [|eauto]]; intros x n; rewrite ?H, ?Ht; eauto.
Qed.

Lemma find_plain s x : plains s -> plain_state (ns (find s x)).
Proof.
  induction s; cbn; intros P; auto.
  - destruct P as [P P']. destruct (e x) eqn:E; eauto.
  - destruct P as (P & _ & P'). destruct (e x) eqn:E; eauto.
Qed.
Lemma look_ns s x : ns (look s x) = ns (find s x).
Proof. induction s; cbn; auto; destruct (e x); reflexivity. Qed.
Lemma find_put s h x : find (put s h) x = match h x with Some n => n | None => find s x end.
Proof. induction s; cbn; auto; unfold over; destruct (h x); reflexivity. Qed.
Lemma look_put s h x : look (put s h) x = match h x with Some n => n | None => look s x end.
Proof. induction s; cbn; auto; unfold over; destruct (h x); reflexivity. Qed.
Lemma guarded_put s h x : guarded (put s h) x = guarded s x.
Proof. induction s; cbn; auto. rewrite IHs. reflexivity. Qed.
Lemma rel_put s h : rel s (put s h).
Proof. induction s; cbn; auto using low_refl. Qed.
Lemma plains_put s h : plains s -> (forall x n, h x = Some n -> plain_state (ns n)) -> plains (put s h).
Proof.
  induction s; cbn; intros P H; auto.
  - intros x. destruct (h x) eqn:E; eauto.
  - destruct P as [P P']. split; [|exact P']. unfold over. intros x n. destruct (h x) eqn:E; [intros [= <-]; eauto|apply P].
  - destruct P as (P & Pt & P'). split; [|auto]. unfold over. intros x n. destruct (h x) eqn:E; [intros [= <-]; eauto|apply P].
Qed.
Lemma single_same x n : single x n x = Some n.
Proof. unfold single. rewrite Nat.eqb_refl. reflexivity. Qed.
Lemma single_other x y n : x <> y -> single x n y = None.
Proof. intros H. unfold single. apply Nat.eqb_neq in H as ->. reflexivity. Qed.
Lemma single_some x y n n' : single x n y = Some n' -> x = y /\ n = n'.
Proof. unfold single. destruct (Nat.eqb x y) eqn:E; [|discriminate]. apply Nat.eqb_eq in E. intros [= <-]. auto. Qed.
Lemma touch_ns s x y : ns (find (touch s x) y) = ns (find s y).
Proof. unfold touch. rewrite find_put. unfold single. destruct (Nat.eqb x y) eqn:E; [|reflexivity]. apply Nat.eqb_eq in E as ->. apply look_ns. Qed.
Lemma touch_look s x y : look (touch s x) y = look s y.
Proof. unfold touch. rewrite look_put. unfold single. destruct (Nat.eqb x y) eqn:E; [|reflexivity]. apply Nat.eqb_eq in E as ->. reflexivity. Qed.
Lemma touch_guarded s x y : guarded (touch s x) y = guarded s y.
Proof. apply guarded_put. Qed.
Lemma touch_rel s x : rel s (touch s x).
Proof. apply rel_put. Qed.
Lemma touch_plains s x : plains s -> plains (touch s x).
Proof. intros P. apply plains_put; [exact P|]. intros y n H. apply single_some in H as [-> <-]. rewrite look_ns. apply find_plain, P. Qed.

Lemma find_add s g x : find (add_guards s g) x = find s x.
Proof. destruct s; reflexivity. Qed.
Lemma look_add s g x : look (add_guards s g) x = look s x.
Proof. destruct s; reflexivity. Qed.
Lemma rel_add s g : rel s (add_guards s g).
Proof. destruct s; cbn; auto using low_refl, rel_refl. Qed.
Lemma plains_add s g : plains s -> plains (add_guards s g).
Proof. destruct s; cbn; auto. Qed.
Lemma guarded_add s g x : guarded (add_guards s g) x = true <-> guarded s x = true \/ In (RVar x) (side true g).
Proof.
  destruct s; cbn [add_guards guarded]; rewrite ?orb_true_iff, ?guarded_side, side_union; tauto.
Qed.

Lemma in_delete l r y : In y (rs_delete l r) -> In y l.
Proof. induction l as [|z l IH]; cbn; [auto|]. destruct (real_same r z); cbn; intuition. Qed.
Lemma less_unguard g x : less g (g_unguard g (RVar x)).
Proof.
  intros y. unfold g_unguard. destruct (is_guarded g (RVar x)) eqn:E; [|auto]. rewrite !guarded_side.
  destruct g as [[t f]|]; cbn; [apply in_delete|auto].
Qed.
Lemma low_unguard s x : low s (unguard s x).
Proof. induction s; cbn; auto using less_unguard. Qed.

(** ** No reference is twice in a set of guards *)
Lemma real_same_refl r : real_same r r = true.
Proof. induction r; cbn; rewrite ?Nat.eqb_refl, ?IHr; auto. destruct i; [apply Z.eqb_refl|reflexivity]. Qed.
Lemma nodup_insert s el : NoDup s -> NoDup (rs_insert s el).
Proof.
  intros N. unfold rs_insert. destruct (same_member s el) eqn:E; [exact N|].
  revert E. induction s as [|y s IH]; cbn [same_member existsb app]; intros E; [constructor; [intros []|constructor]|].
  apply orb_false_iff in E as [E1 E2]. inversion N; subst. cbn [app]. constructor; [|apply IH; assumption].
  rewrite in_app_iff. intros [H|[H|[]]]; [contradiction|]. subst. rewrite real_same_refl in E1. discriminate.
Qed.
Lemma nodup_fold l : forall s, NoDup s -> NoDup (fold_left rs_insert l s).
Proof. induction l as [|y l IH]; cbn; intros s N; [exact N|]. apply IH, nodup_insert, N. Qed.
Lemma nodup_union s t : NoDup s -> NoDup t -> NoDup (rs_union s t).
Proof. intros S T. unfold rs_union. destruct s; [exact T|]. apply nodup_fold, S. Qed.
Lemma nodup_intersect s t : NoDup (rs_intersect s t).
Proof.
  unfold rs_intersect. assert (H : forall l acc, NoDup acc -> NoDup (fold_left (fun s0 el => if member t el then rs_insert s0 el else s0) l acc)).
  { induction l as [|y l IH]; cbn; intros acc N; [exact N|]. apply IH. destruct (member t y); [apply nodup_insert|]; exact N. }
  apply H. constructor.
Qed.
Definition nd (g : guards) : Prop := NoDup (tset g) /\ NoDup (fset g).
Lemma nd_none : nd None. Proof. split; constructor. Qed.
Lemma nd_invert g : nd g -> nd (g_invert g).
Proof. destruct g as [[t f]|]; intros [H1 H2]; split; assumption. Qed.
Lemma nd_union g h : nd g -> nd h -> nd (g_union g h).
Proof. destruct g as [[t f]|], h as [[t' f']|]; intros [H1 H2] [H3 H4]; split; cbn in *; auto using nodup_union. Qed.
Lemma nd_and g h : nd g -> nd h -> nd (g_and g h).
Proof. destruct g as [[t f]|], h as [[t' f']|]; intros [H1 H2] [H3 H4]; split; cbn in *; auto using nodup_union, nodup_intersect, NoDup_nil. Qed.
Lemma nd_or g h : nd g -> nd h -> nd (g_or g h).
Proof. destruct g as [[t f]|], h as [[t' f']|]; intros [H1 H2] [H3 H4]; split; cbn in *; auto using nodup_union, nodup_intersect, NoDup_nil. Qed.
Lemma nd_true g r : nd g -> nd (add_true g r).
Proof. destruct g as [[t f]|], r as [r|]; intros [H1 H2]; split; cbn in *; auto using nodup_insert, NoDup_nil. constructor; [intros []|constructor]. Qed.
Lemma nd_false g r : nd g -> nd (add_false g r).
Proof. destruct g as [[t f]|], r as [r|]; intros [H1 H2]; split; cbn in *; auto using nodup_insert, NoDup_nil. constructor; [intros []|constructor]. Qed.
Lemma nd_build c : nd (n_guards (build (cexpr c))).
Proof.
  induction c; cbn [cexpr build]; try apply nd_none.
  - exact (nd_false None (Some (RVar x)) nd_none).
  - exact (nd_true None (Some (RVar x)) nd_none).
  - unfold n_not. destruct (n_ty (build (cexpr c))); cbn; auto using nd_invert, nd_false.
  - cbn. apply nd_and; (destruct (ty_eqb _ _); [apply nd_true|]; assumption).
  - cbn. apply nd_or; (destruct (ty_eqb _ _); [apply nd_true|]; assumption).
Qed.
Lemma nd_cguards c : nd (cguards c).
Proof. unfold cguards, test_guards, produce. cbn. destruct (ty_eqb _ _); [apply nd_true|]; apply nd_build. Qed.
Fixpoint nds (s : stack) : Prop :=
  match s with
  | Base _ g => nd g
  | Blk g s | Tr _ g s => nd g /\ nds s
  | Fa _ g _ tg s => nd g /\ nd tg /\ nds s
  end.
Lemma nds_put s h : nds s -> nds (put s h).
Proof. induction s; cbn; intuition. Qed.
Lemma nds_add s g : nds s -> nd g -> nds (add_guards s g).
Proof. destruct s; cbn; intuition auto using nd_union. Qed.
Lemma nodup_delete l r : NoDup l -> NoDup (rs_delete l r).
Proof.
  induction l as [|y l IH]; cbn; intros N; [constructor|]. inversion N; subst. destruct (real_same r y); [assumption|].
  constructor; [|auto]. intros H. apply in_delete in H. contradiction.
Qed.
Lemma nd_unguard g x : nd g -> nd (g_unguard g x).
Proof. unfold g_unguard. destruct (is_guarded g x); [|auto]. destruct g as [[t f]|]; intros [H1 H2]; split; cbn in *; auto using nodup_delete. Qed.
Lemma nds_unguard s x : nds s -> nds (unguard s x).
Proof. induction s; cbn; intuition auto using nd_unguard. Qed.
Lemma delete_gone l x : NoDup l -> ~ In (RVar x) (rs_delete l (RVar x)).
Proof.
  induction l as [|y l IH]; cbn [rs_delete]; intros N; [intros []|]. inversion N; subst. destruct (real_same (RVar x) y) eqn:E.
  - destruct y; cbn in E; try discriminate. apply Nat.eqb_eq in E as ->. assumption.
  - intros [->|H]; [rewrite real_same_refl in E; discriminate|]. exact (IH H2 H).
Qed.
Lemma g_unguard_gone g x : nd g -> is_guarded (g_unguard g (RVar x)) (RVar x) = false.
Proof.
  intros N. unfold g_unguard. destruct (is_guarded g (RVar x)) eqn:E; [|exact E].
  apply Bool.not_true_iff_false. rewrite guarded_side. destruct g as [[t f]|]; cbn; [apply delete_gone, N|auto].
Qed.
Lemma unguard_gone s x : nds s -> guarded (unguard s x) x = false.
Proof. induction s; cbn [nds unguard guarded]; intros N; rewrite ?g_unguard_gone; cbn; tauto. Qed.

(** * Conditions *)
Lemma rel_tr e g s s2 : rel (Tr e g s) s2 -> exists e' g' s', s2 = Tr e' g' s' /\ low s s'.
Proof. destruct s2; cbn; try contradiction. eauto. Qed.
Lemma rel_blk g s s2 : rel (Blk g s) s2 -> exists g' s', s2 = Blk g' s' /\ rel s s'.
Proof. destruct s2; cbn; try contradiction. eauto. Qed.
Lemma rel_fa e g te tg s s2 : rel (Fa e g te tg s) s2 -> exists e' g' te' tg' s', s2 = Fa e' g' te' tg' s' /\ (forall x, te' x = te x) /\ low s s'.
Proof. destruct s2; cbn; try contradiction. intros []. eauto 10. Qed.
Definition kept (s s' : stack) : Prop := rel s s' /\ plains s' /\ nds s'.
Lemma rel_low a : forall b c, rel a b -> low b c -> rel a c.
Proof. intros b c H1 H2. exact (rel_trans a b c H1 (low_rel b c H2)). Qed.
Lemma merge_all_kept must e s : plains s -> nds s -> (forall x n, e x = Some n -> plain_state (ns n)) -> kept s (merge_all must e s).
Proof.
  intros P N E. split; [apply rel_put|]. split; [|apply nds_put, N]. apply plains_put; [exact P|].
  intros x n H. destruct (e x) eqn:Ex; [|discriminate]. injection H as <-. cbn. rewrite look_ns.
  pose proof (find_plain s x P). destruct must; [assumption|]. apply combine_plain; eauto.
Qed.
Lemma acond_kept c : forall s s' m, acond c s = (s', m) -> plains s -> nds s -> kept s s'.
Proof.
  assert (T : forall s x, plains s -> nds s -> kept s (touch s x)).
  { intros s x P N. split; [apply touch_rel|]. split; [apply touch_plains, P|apply nds_put, N]. }
  assert (R : forall s, plains s -> nds s -> kept s s).
  { intros s P N. split; [apply rel_refl|]. auto. }
  induction c as [y|y|y|y| | | |c IH|p IHp q IHq|p IHp q IHq]; cbn [acond]; intros s s' m E P N;
    try (injection E as <- <-; auto; fail).
  - unfold deref in E. destruct (T s y P N) as (T1 & T2 & T3). destruct (poss _ && _); injection E as <- <-; [|split; auto].
    split; [exact (rel_trans _ _ _ T1 (rel_put _ _))|]. split; [|apply nds_put, T3].
    apply plains_put; [exact T2|]. intros x n H. apply single_some in H as [_ <-]. exact I.
  - eauto.
  - destruct (acond p s) as [s1 m1] eqn:E1. destruct (acond q _) as [s2 m2] eqn:E2. injection E as <- <-.
    destruct (IHp _ _ _ E1 P N) as (R1 & P1 & N1).
    destruct (IHq _ _ _ E2) as (R2 & P2 & N2).
    { split; [intros x n H; discriminate H|exact P1]. } { split; [apply nd_cguards|exact N1]. }
    apply rel_tr in R2 as (e & g & s3 & -> & L). cbn [pop_and]. destruct P2 as [P2 P3], N2 as [N2 N3].
    destruct (merge_all_kept false e s3 P3 N3 P2) as (R4 & P4 & N4). split; [|auto].
    exact (rel_trans _ _ _ R1 (rel_trans _ _ _ (low_rel _ _ L) R4)).
  - destruct (acond p s) as [s1 m1] eqn:E1. destruct (acond q _) as [s2 m2] eqn:E2. injection E as <- <-.
    destruct (IHp _ _ _ E1 P N) as (R1 & P1 & N1).
    destruct (IHq _ _ _ E2) as (R2 & P2 & N2).
    { split; [intros x n H; discriminate H|exact P1]. } { split; [apply nd_invert, nd_cguards|exact N1]. }
    apply rel_tr in R2 as (e & g & s3 & -> & L). cbn [pop_or]. destruct P2 as [P2 P3], N2 as [N2 N3].
    destruct (merge_all_kept (match q with CExit => true | _ => false end) e s3 P3 N3 P2) as (R4 & P4 & N4).
    pose proof (rel_trans _ _ _ R1 (rel_trans _ _ _ (low_rel _ _ L) R4)) as R5.
    destruct (match q with CExit => true | _ => false end).
    + split; [exact (rel_trans _ _ _ R5 (rel_add _ _))|]. split; [apply plains_add, P4|]. apply nds_add; [exact N4|].
      apply nd_invert. exact (nd_build (COr p q)).
    + split; auto.
Qed.

(** Marks are not lost. *)
Lemma low_lset s s' x : low s s' -> lset (look s x) = true -> lset (look s' x) = true.
Proof. intros L. rewrite (low_look _ _ _ L). auto. Qed.
Lemma merge_all_lset must e s x : lset (look s x) = true -> lset (look (merge_all must e s) x) = true.
Proof. intros H. unfold merge_all. rewrite look_put. destruct (e x); [cbn; rewrite H; reflexivity|exact H]. Qed.
Lemma acond_lset c : forall s s' m, acond c s = (s', m) -> plains s -> nds s -> forall x, lset (look s x) = true -> lset (look s' x) = true.
Proof.
  induction c as [y|y|y|y| | | |c IH|p IHp q IHq|p IHp q IHq]; cbn [acond]; intros s s' m E P N x L;
    try (injection E as <- <-; rewrite ?touch_look; auto; fail).
  - unfold deref in E. destruct (poss _ && _); injection E as <- <-; rewrite ?look_put, ?touch_look; [|exact L].
    destruct (single y _ x) as [n|] eqn:S; [|exact L]. apply single_some in S as [-> <-]. exact L.
  - eauto.
  - destruct (acond p s) as [s1 m1] eqn:E1. destruct (acond q _) as [s2 m2] eqn:E2. injection E as <- <-.
    destruct (acond_kept _ _ _ _ E1 P N) as (R1 & P1 & N1).
    destruct (acond_kept _ _ _ _ E2) as (R2 & P2 & N2).
    { split; [intros z n H; discriminate H|exact P1]. } { split; [apply nd_cguards|exact N1]. }
    apply rel_tr in R2 as (e & g & s3 & -> & Lo). cbn [pop_and]. apply merge_all_lset, (low_lset _ _ _ Lo). eauto.
  - destruct (acond p s) as [s1 m1] eqn:E1. destruct (acond q _) as [s2 m2] eqn:E2. injection E as <- <-.
    destruct (acond_kept _ _ _ _ E1 P N) as (R1 & P1 & N1).
    destruct (acond_kept _ _ _ _ E2) as (R2 & P2 & N2).
    { split; [intros z n H; discriminate H|exact P1]. } { split; [apply nd_invert, nd_cguards|exact N1]. }
    apply rel_tr in R2 as (e & g & s3 & -> & Lo). cbn [pop_or].
    destruct (match q with CExit => true | _ => false end); rewrite ?look_add; apply merge_all_lset, (low_lset _ _ _ Lo); eauto.
Qed.

(** A condition without messages changes no null state, and adds no guard. *)
Lemma app_nil_both {A} (a b : list A) : a ++ b = [] -> a = [] /\ b = [].
Proof. apply app_eq_nil. Qed.
Definition quiet (s s' : stack) : Prop := (forall x, ns (find s' x) = ns (find s x)) /\ (forall x, guarded s' x = true -> guarded s x = true).
Lemma acond_quiet c : forall s s', plain_or c -> acond c s = (s', []) -> plains s -> nds s -> quiet s s'.
Proof.
  induction c as [y|y|y|y| | | |c IH|p IHp q IHq|p IHp q IHq]; cbn [acond plain_or]; intros s s' O E P N;
    try (injection E as <-; split; intros x; rewrite ?touch_ns, ?touch_guarded; auto; fail).
  - unfold deref in E. destruct (poss _ && _); injection E as <-; [discriminate|]. split; intros x; rewrite ?touch_ns, ?touch_guarded; auto.
  - eauto.
  - destruct (acond p s) as [s1 m1] eqn:E1. destruct (acond q _) as [s2 m2] eqn:E2. injection E as <- M. apply app_eq_nil in M as [-> ->].
    destruct O as [O1 O2]. destruct (IHp _ _ O1 E1 P N) as [Q1 Q2]. destruct (acond_kept _ _ _ _ E1 P N) as (R1 & P1 & N1).
    assert (P1' : plains (Tr empty (cguards p) s1)) by (split; [intros z n H; discriminate H|exact P1]).
    assert (N1' : nds (Tr empty (cguards p) s1)) by (split; [apply nd_cguards|exact N1]).
    destruct (IHq _ _ O2 E2 P1' N1') as [Q3 Q4].
    destruct (acond_kept _ _ _ _ E2 P1' N1') as (R2 & P2 & N2).
    apply rel_tr in R2 as (e & g & s3 & -> & Lo). cbn [pop_and]. split.
    + intros x. unfold merge_all. rewrite find_put, (low_find _ _ _ Lo). specialize (Q3 x). cbn in Q3.
      destruct (e x) as [n|]; [|apply Q1]. cbn. rewrite look_ns, (low_find _ _ _ Lo), Q3, combine_same. apply Q1.
    + intros x. unfold merge_all. rewrite guarded_put. intros G. apply Q2, (low_guarded _ _ _ Lo), G.
  - destruct (acond p s) as [s1 m1] eqn:E1. destruct (acond q _) as [s2 m2] eqn:E2. injection E as <- M. apply app_eq_nil in M as [-> ->].
    destruct O as (O1 & O2 & O3). destruct (IHp _ _ O1 E1 P N) as [Q1 Q2]. destruct (acond_kept _ _ _ _ E1 P N) as (R1 & P1 & N1).
    assert (P1' : plains (Tr empty (g_invert (cguards p)) s1)) by (split; [intros z n H; discriminate H|exact P1]).
    assert (N1' : nds (Tr empty (g_invert (cguards p)) s1)) by (split; [apply nd_invert, nd_cguards|exact N1]).
    destruct (IHq _ _ O2 E2 P1' N1') as [Q3 Q4].
    destruct (acond_kept _ _ _ _ E2 P1' N1') as (R2 & P2 & N2).
    apply rel_tr in R2 as (e & g & s3 & -> & Lo). cbn [pop_or].
    assert (K : forall must, quiet s (merge_all must e s3)).
    { intros must. split.
      + intros x. unfold merge_all. rewrite find_put, (low_find _ _ _ Lo). specialize (Q3 x). cbn in Q3.
        destruct (e x) as [n|]; [|apply Q1]. cbn. rewrite look_ns, (low_find _ _ _ Lo), Q3, combine_same. destruct must; apply Q1.
      + intros x. unfold merge_all. rewrite guarded_put. intros G. apply Q2, (low_guarded _ _ _ Lo), G. }
    assert (D : match q with CExit => true | _ => false end = true -> q = CExit) by (destruct q; auto; discriminate).
    destruct (match q with CExit => true | _ => false end); [|apply K].
    specialize (D eq_refl). subst q. destruct (K true) as [K1 K2]. split; [intros x; rewrite find_add; apply K1|].
    intros x G. apply guarded_add in G as [G|G]; [apply K2, G|]. exfalso. rewrite side_invert in G.
    assert (S : settles false (COr p CExit) x).
    { apply cguards_settles. unfold cguards, test_guards. rewrite ref_ptr; [exact G|discriminate]. }
    cbn in S. destruct S as [S|[]]. apply settles_compared in S. rewrite (O3 eq_refl) in S. destruct S.
Qed.

(** ** Stores described by a stack *)
Definition vent (s : stack) (r : store) : Prop := forall x, poss (ns (find s x)) = false -> r x = true.
Definition vgrd (s : stack) (r : store) : Prop := forall x, guarded s x = true -> r x = true.
Lemma quiet_vent s s' r : quiet s s' -> vent s r -> vent s' r.
Proof. intros [Q _] V x H. apply V. rewrite <- Q. exact H. Qed.
Lemma quiet_vgrd s s' r : quiet s s' -> vgrd s r -> vgrd s' r.
Proof. intros [_ Q] V x H. apply V, Q, H. Qed.
Lemma low_vent s s' r : low s s' -> vent s r -> vent s' r.
Proof. intros L V x H. apply V. rewrite <- (low_find _ _ _ L). exact H. Qed.
Lemma low_vgrd s s' r : low s s' -> vgrd s r -> vgrd s' r.
Proof. intros L V x H. apply V, (low_guarded _ _ _ L), H. Qed.
Lemma vent_tr g s r : vent s r -> vent (Tr empty g s) r.
Proof. intros V x H. apply V, H. Qed.
Lemma vgrd_tr e g s r : vgrd s r -> (forall x, In (RVar x) (side true g) -> r x = true) -> vgrd (Tr e g s) r.
Proof. intros V G x H. cbn [guarded] in H. apply orb_true_iff in H as [H|H]; [apply G, guarded_side, H|apply V, H]. Qed.
Lemma guards_true r c (b : bool) : ceval r c (RVal b) -> forall x, In (RVar x) (side b (cguards c)) -> r x = true.
Proof. intros E x H. apply cguards_settles in H. exact (settles_sound r c x b H E). Qed.

Lemma acond_safe c : forall s s' r, plain_or c -> acond c s = (s', []) -> plains s -> nds s -> vent s r -> vgrd s r ->
  forall v, ceval r c v -> forall x, v <> RFault x.
Proof.
  induction c as [y|y|y|y| | | |c IH|p IHp q IHq|p IHp q IHq]; cbn [acond plain_or]; intros s s' r O E P N V G v X x;
    try (inversion X; subst; discriminate).
  - inversion X; subst; [discriminate|]. exfalso. unfold deref in E. rewrite look_ns, touch_ns, touch_guarded in E.
    destruct (poss (ns (find s y))) eqn:E1; [destruct (guarded s y) eqn:E2|]; cbn in E.
    + specialize (G y E2). congruence.
    + discriminate.
    + specialize (V y E1). congruence.
  - inversion X; subst; [discriminate|]. eauto.
  - destruct (acond p s) as [s1 m1] eqn:E1. destruct (acond q _) as [s2 m2] eqn:E2. injection E as <- M. apply app_eq_nil in M as [-> ->].
    destruct O as [O1 O2]. pose proof (acond_quiet _ _ _ O1 E1 P N) as Q. destruct (acond_kept _ _ _ _ E1 P N) as (R1 & P1 & N1).
    inversion X; subst; [eauto|discriminate|].
    eapply (IHq _ _ r O2 E2); eauto.
    + split; [intros z n K; discriminate K|exact P1].
    + split; [apply nd_cguards|exact N1].
    + apply vent_tr, (quiet_vent _ _ _ Q V).
    + apply vgrd_tr; [apply (quiet_vgrd _ _ _ Q G)|]. apply guards_true. assumption.
  - destruct (acond p s) as [s1 m1] eqn:E1. destruct (acond q _) as [s2 m2] eqn:E2. injection E as <- M. apply app_eq_nil in M as [-> ->].
    destruct O as (O1 & O2 & _). pose proof (acond_quiet _ _ _ O1 E1 P N) as Q. destruct (acond_kept _ _ _ _ E1 P N) as (R1 & P1 & N1).
    inversion X; subst; [eauto|discriminate|].
    eapply (IHq _ _ r O2 E2); eauto.
    + split; [intros z n K; discriminate K|exact P1].
    + split; [apply nd_invert, nd_cguards|exact N1].
    + apply vent_tr, (quiet_vent _ _ _ Q V).
    + apply vgrd_tr; [apply (quiet_vgrd _ _ _ Q G)|]. rewrite side_invert. apply guards_true. assumption.
Qed.

(** * Control flow *)
Definition eout (o : out) : Flow_spec.out :=
  match o with ONormal => Flow_spec.ONormal | OBreak => Flow_spec.OBreak | OCont => Flow_spec.OCont | OStop | OFault _ => Flow_spec.OExit end.
Lemma cflow_exec r c v : ceval r c v -> Flow_spec.eexec (cflow c) (eout (cout v)).
Proof. destruct v; cbn; intros X; [|constructor|constructor]. destruct c; try constructor. inversion X. Qed.
Lemma cout_stop r c v : ceval r c v -> (forall b, v <> RVal b) -> eout (cout v) = Flow_spec.OExit.
Proof. intros _ H. destruct v; cbn; auto. destruct (H b eq_refl). Qed.
Lemma flow_exec r s o r' : exec r s o r' -> Flow_spec.exec (flow s) Flow_spec.Top (eout o).
Proof.
  assert (T : forall r c, ceval r c (RVal false) -> forall z, match c with CTrue => Some 1 | _ => None end = Some z -> z = 0).
  { intros r0 c X z H. destruct c; try discriminate. inversion X. }
  assert (T' : forall r c, ceval r c (RVal true) -> match c with CTrue => Some 1 | _ => None end <> Some 0).
  { intros r0 c _. destruct c; discriminate. }
  induction 1; cbn [flow eout].
  - constructor.
  - constructor. eapply cflow_exec; eassumption.
  - constructor. constructor.
  - eapply Flow_spec.X_seq; eassumption.
  - apply Flow_spec.X_seq_out; [assumption|]. destruct o; cbn; congruence.
  - constructor. assumption.
  - erewrite cout_stop by eassumption. constructor.
  - apply Flow_spec.X_if_skip.
  - apply Flow_spec.X_if. assumption.
  - erewrite cout_stop by eassumption. constructor.
  - apply Flow_spec.X_else_a. assumption.
  - apply Flow_spec.X_else_b. assumption.
  - erewrite cout_stop by eassumption. constructor.
  - apply Flow_spec.X_while_end. eapply T; eassumption.
  - eapply Flow_spec.X_while; [eapply T'; eassumption|eassumption|]. destruct o; cbn in *; subst; try contradiction; reflexivity.
  - eapply Flow_spec.X_while_round; [eapply T'; eassumption|eassumption| |eassumption].
    match goal with K : rounds _ |- _ => destruct K as [-> | ->] end; [left|right]; reflexivity.
  - eapply Flow_spec.X_do; [eassumption|]. destruct o; cbn in *; subst; try contradiction; reflexivity.
  - erewrite cout_stop by eassumption. eapply Flow_spec.X_do_exit; [eassumption|].
    match goal with K : rounds _ |- _ => destruct K as [-> | ->] end; [left|right]; reflexivity.
  - eapply Flow_spec.X_do_end; [eassumption|].
    match goal with K : rounds _ |- _ => destruct K as [-> | ->] end; [left|right]; reflexivity.
  - eapply Flow_spec.X_do_round; [eassumption| |eassumption].
    match goal with K : rounds _ |- _ => destruct K as [-> | ->] end; [left|right]; reflexivity.
  - apply Flow_spec.X_retx.
  - constructor.
  - constructor.
Qed.
Lemma flow_plain s : Flow_spec.tidy (flow s) /\ Flow_spec.marks_ok (flow s) /\ Flow_spec.marks (flow s) = [].
Proof.
  induction s; cbn; try (intuition; fail).
  - destruct IHs1 as (H1 & H2 & ->), IHs2 as (H3 & H4 & ->). tauto.
  - destruct IHs1 as (H1 & H2 & ->), IHs2 as (H3 & H4 & ->). tauto.
Qed.
Lemma escapes_ending unreach shown s : escapes unreach shown s = true -> ending s.
Proof.
  intros E r r' X. destruct (flow_plain s) as (T & M & _).
  exact (Flow_proofs.must_sound unreach shown (flow s) T M E Flow_spec.Top (flow_exec _ _ _ _ X)).
Qed.

(** * Assignments *)
Lemma assign_kept k x v : v <> VConst -> plains k -> nds k -> kept k (assign k x v).
Proof.
  intros V P N. unfold assign. assert (P' : plains (put k (single x (Entry (vstate v) true)))).
  { apply plains_put; [exact P|]. intros y n H. apply single_some in H as [_ <-]. apply vstate_plain, V. }
  destruct (_ && _).
  - split; [exact (rel_low _ _ _ (rel_put k _) (low_unguard _ _))|]. split; [exact (low_plains _ _ (low_unguard _ _) P')|].
    apply nds_unguard, nds_put, N.
  - split; [apply rel_put|]. split; [exact P'|apply nds_put, N].
Qed.
Lemma unguard_find k x y : find (unguard k x) y = find k y.
Proof. apply low_find, low_unguard. Qed.
Lemma unguard_look k x y : look (unguard k x) y = look k y.
Proof. apply low_look, low_unguard. Qed.
Lemma assign_find k x v y : find (assign k x v) y = if Nat.eqb x y then Entry (vstate v) true else find k y.
Proof.
  unfold assign. destruct (_ && _); rewrite ?unguard_find, find_put; unfold single; destruct (Nat.eqb x y); reflexivity.
Qed.
Lemma assign_look k x v y : look (assign k x v) y = if Nat.eqb x y then Entry (vstate v) true else look k y.
Proof.
  unfold assign. destruct (_ && _); rewrite ?unguard_look, look_put; unfold single; destruct (Nat.eqb x y); reflexivity.
Qed.
Lemma assign_guarded k x v y : guarded (assign k x v) y = true -> guarded k y = true.
Proof.
  unfold assign. destruct (_ && _); intros H; [apply (low_guarded _ _ _ (low_unguard _ _)) in H|]; rewrite guarded_put in H; exact H.
Qed.
Lemma assign_guarded_self k x v : nds k -> guarded (assign k x v) x = true -> poss (vstate v) = false.
Proof.
  intros N. unfold assign. destruct (poss (vstate v)) eqn:E; [|auto]. cbn [andb]. cbv zeta.
  remember (put k _) as k1 eqn:K. assert (N1 : nds k1) by (subst k1; apply nds_put, N).
  destruct (guarded k1 x) eqn:G; [|congruence]. rewrite (unguard_gone k1 x N1). discriminate.
Qed.
Lemma vals_poss v b : vals v b -> poss (vstate v) = false -> b = true.
Proof. destruct v; cbn; intros; congruence. Qed.
Lemma assign_valid k x v b r : nds k -> vent k r -> vgrd k r -> vals v b -> vent (assign k x v) (set r x b) /\ vgrd (assign k x v) (set r x b).
Proof.
  intros N V G B. split.
  - intros y H. rewrite assign_find in H. unfold set. destruct (Nat.eqb x y); [exact (vals_poss v b B H)|apply V, H].
  - intros y H. unfold set. destruct (Nat.eqb x y) eqn:E; [|apply G; eapply assign_guarded; exact H].
    apply Nat.eqb_eq in E as <-. exact (vals_poss v b B (assign_guarded_self k x v N H)).
Qed.

(** * Branches *)
Section Statements.
Variable local : nat -> bool.
Variable loopexec : bool.
Variable unreach : bool.
Variable shown : Flow_model.stmt -> bool.
Notation pop_branches := (pop_branches local).
Notation update := (update local).
Notation astmt := (astmt local loopexec unreach shown).
Notation escapes := (escapes unreach shown).

Lemma update1_plain pos g x n : plain_state (ns n) -> plain_state (ns (update1 pos g x n)).
Proof. unfold update1. destruct (lset n), pos; auto; cbn; auto. destruct (_ && _); cbn; auto. Qed.
Lemma update_plain l1 b1 l2 b2 g s e : plains s -> (forall x n, e x = Some n -> plain_state (ns n)) ->
  forall x n, update l1 b1 l2 b2 g s e x = Some n -> plain_state (ns n).
Proof.
  intros P E x n. pose proof (find_plain s x P) as F. rewrite <- look_ns in F. unfold Nullflow_model.update.
  destruct (local x && tests l1 x), (local x && tests l2 x); intros H; try (injection H as <-); eauto using update1_plain.
  apply update1_plain. destruct (e x) eqn:Ex; eauto.
Qed.
Lemma joined_plain mrT mrF old f t n : plain_state (ns old) -> (forall n, f = Some n -> plain_state (ns n)) ->
  (forall n, t = Some n -> plain_state (ns n)) -> joined mrT mrF old f t = Some n -> plain_state (ns n).
Proof.
  intros O F T. destruct f as [f|], t as [t|]; cbn; intros H; try discriminate.
  - specialize (F _ eq_refl). specialize (T _ eq_refl). destruct mrF, mrT; injection H as <-; cbn; auto using combine_plain.
  - specialize (F _ eq_refl). injection H as <-. cbn. destruct mrF; auto using combine_plain.
  - specialize (T _ eq_refl). destruct mrF; injection H as <-; cbn; auto. destruct mrT; auto using combine_plain.
Qed.
Lemma pop_kept g mrT mrF e fg te tg env : plains (Fa e fg te tg env) -> nds (Fa e fg te tg env) -> nd g ->
  kept env (pop_branches g mrT mrF (Fa e fg te tg env)).
Proof.
  intros P N G. pose proof P as (P1 & P2 & P3). destruct N as (N1 & N2 & N3). cbn [Nullflow_model.pop_branches].
  set (h := fun x => joined _ _ _ _ _).
  assert (K : kept env (put env h)).
  { split; [apply rel_put|]. split; [|apply nds_put, N3]. apply plains_put; [exact P3|]. intros x n H.
    eapply joined_plain; [| | |exact H].
    - rewrite look_ns. apply find_plain, P3.
    - intros n' H'. eapply update_plain; [exact P|exact P1|exact H'].
    - intros n' H'. eapply update_plain; [|exact P2|exact H']. split; assumption. }
  assert (K2 : kept env (if mrT then add_guards (put env h) (g_invert g) else put env h)).
  { destruct K as (K1 & K2 & K3). destruct mrT; [|split; auto]. split; [exact (rel_trans _ _ _ K1 (rel_add _ _))|].
    split; [apply plains_add, K2|apply nds_add; [exact K3|apply nd_invert, G]]. }
  destruct K2 as (K3 & K4 & K5). destruct mrF; [|split; auto].
  split; [exact (rel_trans _ _ _ K3 (rel_add _ _))|]. split; [apply plains_add, K4|apply nds_add; [exact K5|exact G]].
Qed.

Lemma kept_trans a b c : kept a b -> kept b c -> kept a c.
Proof. intros (H & _ & _) (H' & P & N). split; [exact (rel_trans _ _ _ H H')|auto]. Qed.
Lemma kept_refl a : plains a -> nds a -> kept a a.
Proof. intros P N. split; [apply rel_refl|auto]. Qed.
Lemma kept_add a b g : kept a b -> nd g -> kept a (add_guards b g).
Proof. intros (R & P & N) G. split; [exact (rel_trans _ _ _ R (rel_add _ _))|]. split; [apply plains_add, P|apply nds_add; assumption]. Qed.

(** The stack below a branch after it. *)
Lemma kept_tr g k k' : kept (Tr empty g k) k' -> exists e tg k1, k' = Tr e tg k1 /\ low k k1 /\ plains k' /\ nds k'.
Proof. intros (R & P & N). apply rel_tr in R as (e & tg & k1 & -> & L). eauto 10. Qed.
Lemma tr_ok g k : plains k -> nds k -> nd g -> plains (Tr empty g k) /\ nds (Tr empty g k).
Proof. intros P N G. split; split; auto. intros x n H. discriminate H. Qed.
Lemma fa_ok g e tg k : plains (Tr e tg k) -> nds (Tr e tg k) -> nd g -> plains (Fa empty (g_invert g) e tg k) /\ nds (Fa empty (g_invert g) e tg k).
Proof. intros [P P'] [N N'] G. cbn. split; [split; [intros x n H; discriminate H|auto]|auto using nd_invert]. Qed.

Lemma astmt_kept s : forall k k' m, plain_values s -> astmt s k = (k', m) -> plains k -> nds k -> kept k k'.
Proof.
  induction s as [|c|x v|a IHa b IHb|a IHa|c a IHa|c a IHa b IHb|c a IHa|a IHa c| | |];
    cbn [Nullflow_model.astmt plain_values]; intros k k' m V E P N; try (injection E as <- <-; apply kept_refl; assumption).
  - eapply acond_kept; eassumption.
  - injection E as <- <-. apply assign_kept; assumption.
  - destruct V as [V1 V2]. destruct (astmt a k) as [k1 m1] eqn:E1. destruct (astmt b k1) as [k2 m2] eqn:E2. injection E as <- <-.
    pose proof (IHa _ _ _ V1 E1 P N) as K1. eapply kept_trans; [exact K1|]. destruct K1 as (_ & P1 & N1). eauto.
  - destruct (astmt a _) as [k1 m1] eqn:E1. injection E as <- <-.
    destruct (IHa _ _ _ V E1 P (conj nd_none N)) as (R & P1 & N1). apply rel_blk in R as (g & k2 & -> & R). cbn in *.
    apply kept_add; [|apply N1]. split; [exact R|]. split; [exact P1|apply N1].
  - destruct (acond c k) as [k1 m1] eqn:E1. destruct (astmt a _) as [k2 m2] eqn:E2. injection E as <- <-.
    pose proof (acond_kept _ _ _ _ E1 P N) as K1. pose proof K1 as (_ & P1 & N1).
    destruct (tr_ok (cguards c) k1 P1 N1 (nd_cguards c)) as [P2 N2].
    destruct (kept_tr _ _ _ (IHa _ _ _ V E2 P2 N2)) as (e & tg & k3 & -> & L & P3 & N3). cbn [alt].
    destruct (fa_ok (cguards c) _ _ _ P3 N3 (nd_cguards c)) as [P4 N4].
    eapply kept_trans; [exact K1|]. eapply kept_trans; [|apply pop_kept; [exact P4|exact N4|apply nd_cguards]].
    split; [apply low_rel, L|]. split; [apply P3|apply N3].
  - destruct V as [V1 V2]. destruct (acond c k) as [k1 m1] eqn:E1. destruct (astmt a _) as [k2 m2] eqn:E2. destruct (astmt b _) as [k5 m3] eqn:E3. injection E as <- <-.
    pose proof (acond_kept _ _ _ _ E1 P N) as K1. pose proof K1 as (_ & P1 & N1).
    destruct (tr_ok (cguards c) k1 P1 N1 (nd_cguards c)) as [P2 N2].
    destruct (kept_tr _ _ _ (IHa _ _ _ V1 E2 P2 N2)) as (e & tg & k3 & -> & L & P3 & N3). cbn [alt] in E3.
    destruct (fa_ok (cguards c) _ _ _ P3 N3 (nd_cguards c)) as [P4 N4].
    destruct (IHb _ _ _ V2 E3 P4 N4) as (R5 & P5 & N5). apply rel_fa in R5 as (e' & fg & te & tg' & k6 & -> & Te & L').
    eapply kept_trans; [exact K1|]. eapply kept_trans; [|apply pop_kept; [exact P5|exact N5|apply nd_cguards]].
    split; [exact (low_rel _ _ (low_trans _ _ _ L L'))|]. split; [apply P5|apply N5].
  - destruct (acond c k) as [k1 m1] eqn:E1. destruct (astmt a _) as [k2 m2] eqn:E2. injection E as <- <-.
    pose proof (acond_kept _ _ _ _ E1 P N) as K1. pose proof K1 as (_ & P1 & N1).
    destruct (tr_ok (cguards c) k1 P1 N1 (nd_cguards c)) as [P2 N2].
    destruct (kept_tr _ _ _ (IHa _ _ _ V E2 P2 N2)) as (e & tg & k3 & -> & L & P3 & N3). cbn [alt].
    destruct (fa_ok (cguards c) _ _ _ P3 N3 (nd_cguards c)) as [P4 N4].
    apply kept_add; [|apply nd_invert, nd_cguards].
    eapply kept_trans; [exact K1|]. eapply kept_trans; [|apply pop_kept; [exact P4|exact N4|apply nd_cguards]].
    split; [apply low_rel, L|]. split; [apply P3|apply N3].
  - destruct (astmt a k) as [k1 m1] eqn:E1. destruct (acond c k1) as [k2 m2] eqn:E2. injection E as <- <-.
    pose proof (IHa _ _ _ V E1 P N) as K1. apply kept_add; [|apply nd_invert, nd_cguards]. eapply kept_trans; [exact K1|].
    destruct K1 as (_ & P1 & N1). eapply acond_kept; eassumption.
Qed.

Lemma unassigned r s o r' : exec r s o r' -> forall x, ~ In x (assigned s) -> r' x = r x.
Proof.
  induction 1; cbn [assigned] in *; intros y Y; auto; try (rewrite in_app_iff in Y); try (apply IHexec; tauto).
  - unfold set. destruct (Nat.eqb x y) eqn:E; [apply Nat.eqb_eq in E as ->; destruct Y; left; reflexivity|reflexivity].
  - rewrite IHexec2, IHexec1; tauto.
  - rewrite IHexec2, IHexec1; tauto.
  - rewrite IHexec2, IHexec1; tauto.
Qed.

(** Marks. *)
Lemma assign_lset k x v y : x = y \/ lset (look k y) = true -> lset (look (assign k x v) y) = true.
Proof. rewrite assign_look. destruct (Nat.eqb_spec x y); cbn; [reflexivity|tauto]. Qed.
Lemma straight_lset s : forall k k' m, straight s -> plain_values s -> astmt s k = (k', m) -> plains k -> nds k ->
  forall x, In x (assigned s) \/ lset (look k x) = true -> lset (look k' x) = true.
Proof.
  induction s as [|c|x v|a IHa b IHb|a IHa|c a IHa|c a IHa b IHb|c a IHa|a IHa c| | |];
    cbn [Nullflow_model.astmt plain_values straight assigned]; intros k k' m S V E P N y Y; try contradiction;
    try (injection E as <- <-; destruct Y as [[]|Y]; exact Y).
  - destruct Y as [[]|Y]. eapply acond_lset; eassumption.
  - injection E as <- <-. apply assign_lset. destruct Y as [[->|[]]|Y]; auto.
  - destruct V as [V1 V2], S as [S1 S2]. destruct (astmt a k) as [k1 m1] eqn:E1. destruct (astmt b k1) as [k2 m2] eqn:E2. injection E as <- <-.
    destruct (astmt_kept _ _ _ _ V1 E1 P N) as (_ & P1 & N1).
    eapply IHb; [exact S2|exact V2|exact E2|exact P1|exact N1|]. rewrite in_app_iff in Y.
    destruct Y as [[Y|Y]|Y]; [right|left; exact Y|right]; eapply IHa; eauto.
  - destruct (astmt a _) as [k1 m1] eqn:E1. injection E as <- <-.
    pose proof (IHa _ _ _ S V E1 P (conj nd_none N) y Y) as L. destruct (astmt_kept _ _ _ _ V E1 P (conj nd_none N)) as (R & _).
    apply rel_blk in R as (g & k2 & -> & R). cbn [pop_block]. rewrite look_add. exact L.
Qed.

Lemma tests_in l x : tests l x = true <-> In (RVar x) l.
Proof.
  unfold tests. rewrite existsb_exists. split.
  - intros (y & I & H). destruct y; try discriminate. apply Nat.eqb_eq in H as ->. exact I.
  - intros I. exists (RVar x). split; [exact I|apply Nat.eqb_refl].
Qed.
Lemma update1_sound (pos : bool) g x n (P : Prop) : poss (ns (update1 pos g x n)) = false -> (poss (ns n) = false -> P) ->
  (pos = true -> lset n = false -> P) -> P.
Proof. unfold update1. destruct (lset n), pos; auto. destruct (_ && _); auto. Qed.
Lemma update1_lset (pos : bool) g x n : lset (update1 pos g x n) = lset n.
Proof. unfold update1. destruct (lset n) eqn:E, pos; cbn; auto. destruct (_ && _); auto. Qed.
Lemma update_sound l1 (b1 : bool) l2 (b2 : bool) g s e x n (P : Prop) : update l1 b1 l2 b2 g s e x = Some n -> poss (ns n) = false ->
  (forall n, e x = Some n -> look s x = n) -> (poss (ns (look s x)) = false -> P) ->
  (b1 = true -> In (RVar x) l1 -> lset (look s x) = false -> P) ->
  (b2 = true -> In (RVar x) l2 -> lset (look s x) = false -> P) -> P.
Proof.
  unfold Nullflow_model.update. intros U Q E L H1 H2. setoid_rewrite <- tests_in in H1. setoid_rewrite <- tests_in in H2.
  assert (A : forall n, (if local x && tests l1 x then Some (update1 b1 g x (look s x)) else e x) = Some n -> poss (ns n) = false -> P).
  { intros n' H Q'. destruct (local x && tests l1 x) eqn:T.
    - apply andb_prop in T as [_ T]. injection H as <-. revert Q'. intros Q'. apply (update1_sound _ _ _ _ P Q'); auto.
    - apply L. rewrite (E _ H). exact Q'. }
  destruct (local x && tests l2 x) eqn:T.
  - apply andb_prop in T as [_ T]. injection U as <-. revert Q. set (w := if local x && tests l1 x then _ else _) in *.
    destruct w as [n1|] eqn:W; intros Q.
    + apply (update1_sound _ _ _ _ P Q); [apply A; reflexivity|]. intros B. intros S. apply H2; auto.
      rewrite <- S. subst w. destruct (local x && tests l1 x); [injection W as <-; symmetry; apply update1_lset|f_equal; auto].
    + apply (update1_sound _ _ _ _ P Q); [exact L|]. auto.
  - eapply A; eassumption.
Qed.

(** Leaving the branches by the true one. *)
Lemma pop_true g mrF te tg k3 e fg te' tg' k6 r : plains (Fa e fg te' tg' k6) -> (forall x, te' x = te x) -> low k3 k6 ->
  vent (Tr te tg k3) r -> vgrd (Tr te tg k3) r ->
  (forall x, In (RVar x) (side true g) -> lset (look (Tr te tg k3) x) = false -> r x = true) ->
  (mrF = true -> forall x, In (RVar x) (side true g) -> r x = true) ->
  vent (pop_branches g false mrF (Fa e fg te' tg' k6)) r /\ vgrd (pop_branches g false mrF (Fa e fg te' tg' k6)) r.
Proof.
  intros P T L V G M F. pose proof P as (P1 & P2 & P3). cbn [Nullflow_model.pop_branches].
  set (h := fun x => joined _ _ _ _ _).
  assert (K : vent (put k6 h) r /\ vgrd (put k6 h) r).
  { split; [|intros x H; rewrite guarded_put in H; apply G; cbn; apply (low_guarded _ _ _ L) in H; rewrite H, orb_true_r; reflexivity].
    assert (LK : look (Tr te' tg' k6) = look (Tr te tg k3) \/ True) by tauto. clear LK.
    assert (LK : forall x, look (Tr te' tg' k6) x = look (Tr te tg k3) x).
    { intros x. cbn. rewrite T. destruct (te x); [reflexivity|]. rewrite (low_find _ _ _ L). reflexivity. }
    intros x H. rewrite find_put in H. destruct (h x) as [n|] eqn:Hx; unfold h in Hx.
    - pose proof (update_plain (tset g) false (fset g) true fg (Fa e fg te' tg' k6) e P P1 x) as UF.
      remember (update (tset g) true (fset g) false tg' (Tr te' tg' k6) te' x) as t eqn:Ht.
      remember (update (tset g) false (fset g) true fg (Fa e fg te' tg' k6) e x) as f eqn:Hf.
      destruct t as [t|].
      + assert (Q : poss (ns t) = false).
        { destruct f as [f|]; cbn in Hx.
          - specialize (UF _ eq_refl). destruct mrF; cbn in Hx; injection Hx as <-; cbn in H; [exact H|]. apply combine_poss in H; tauto.
          - destruct mrF; injection Hx as <-; cbn in H; [exact H|]. apply combine_poss in H; [tauto|]. rewrite look_ns. apply find_plain, P3. }
        symmetry in Ht. eapply (update_sound _ _ _ _ _ _ _ _ _ _ Ht Q).
        * intros n' E. cbn. rewrite E. reflexivity.
        * rewrite LK, look_ns. apply V.
        * intros _ I S. rewrite LK in S. exact (M x I S).
        * discriminate.
      + assert (TX : te x = None).
        { symmetry in Ht. unfold Nullflow_model.update in Ht. rewrite <- T. destruct (local x && tests (fset g) x); [discriminate|].
          destruct (local x && tests (tset g) x); [discriminate|]. exact Ht. }
        apply V. cbn. rewrite TX, <- (low_find _ _ _ L). destruct f as [f|]; cbn in Hx; [|discriminate].
        injection Hx as <-. cbn in H. rewrite <- look_ns. destruct mrF; [exact H|]. apply combine_poss in H; [tauto|]. rewrite look_ns. apply find_plain, P3.
    - assert (TX : te x = None).
      { rewrite <- T. destruct (te' x) as [n|] eqn:E; [exfalso|reflexivity].
        assert (exists n, update (tset g) true (fset g) false tg' (Tr te' tg' k6) te' x = Some n) as [t Et].
        { unfold Nullflow_model.update. destruct (_ && tests (fset g) x); [eauto|]. destruct (_ && _); eauto. }
        rewrite Et in Hx. destruct (update (tset g) false _ _ _ _ _ x); cbn in Hx; destruct mrF; discriminate. }
      apply V. cbn. rewrite TX, <- (low_find _ _ _ L). exact H. }
  destruct K as [K1 K2]. destruct mrF; [|split; assumption]. split.
  - intros x H. rewrite find_add in H. apply K1, H.
  - intros x H. apply guarded_add in H as [H|H]; [apply K2, H|apply F; auto].
Qed.

(** Leaving the branches by the false one. *)
Lemma pop_false g mrT e fg te tg k6 r : plains (Fa e fg te tg k6) ->
  vent (Fa e fg te tg k6) r -> vgrd (Fa e fg te tg k6) r ->
  (forall x, In (RVar x) (side false g) -> lset (look (Fa e fg te tg k6) x) = false -> r x = true) ->
  (mrT = true -> forall x, In (RVar x) (side false g) -> r x = true) ->
  vent (pop_branches g mrT false (Fa e fg te tg k6)) r /\ vgrd (pop_branches g mrT false (Fa e fg te tg k6)) r.
Proof.
  intros P V G M F. pose proof P as (P1 & P2 & P3). cbn [Nullflow_model.pop_branches].
  set (h := fun x => joined _ _ _ _ _).
  assert (K : vent (put k6 h) r /\ vgrd (put k6 h) r).
  { split; [|intros x H; rewrite guarded_put in H; apply G; cbn; rewrite H, orb_true_r; reflexivity].
    assert (LP : forall x, plain_state (ns (look k6 x))) by (intros x; rewrite look_ns; apply find_plain, P3).
    intros x H. rewrite find_put in H. destruct (h x) as [n|] eqn:Hx; unfold h in Hx.
    - pose proof (update_plain (tset g) false (fset g) true fg (Fa e fg te tg k6) e P P1 x) as UF.
      remember (update (tset g) true (fset g) false tg (Tr te tg k6) te x) as t eqn:Ht.
      remember (update (tset g) false (fset g) true fg (Fa e fg te tg k6) e x) as f eqn:Hf.
      destruct f as [f|].
      + assert (Q : poss (ns f) = false).
        { destruct t as [t|]; cbn in Hx.
          - specialize (UF _ eq_refl). destruct mrT; cbn in Hx; injection Hx as <-; cbn in H; [exact H|]. apply combine_poss in H; tauto.
          - injection Hx as <-; cbn in H. apply combine_poss in H; auto. tauto. }
        symmetry in Hf. eapply (update_sound _ _ _ _ _ _ _ _ _ _ Hf Q).
        * intros n' E. cbn. rewrite E. reflexivity.
        * rewrite look_ns. apply V.
        * discriminate.
        * intros _ I S. exact (M x I S).
      + assert (TX : e x = None).
        { symmetry in Hf. unfold Nullflow_model.update in Hf. destruct (local x && tests (fset g) x); [discriminate|].
          destruct (local x && tests (tset g) x); [discriminate|]. exact Hf. }
        apply V. cbn. rewrite TX. destruct t as [t|]; cbn in Hx; [|discriminate].
        injection Hx as <-. cbn in H. rewrite <- look_ns. destruct mrT; [exact H|]. apply combine_poss in H; auto. tauto.
    - assert (TX : e x = None).
      { destruct (e x) as [n|] eqn:E; [exfalso|reflexivity].
        assert (exists n, update (tset g) false (fset g) true fg (Fa e fg te tg k6) e x = Some n) as [t Et].
        { unfold Nullflow_model.update. destruct (_ && tests (fset g) x); [eauto|]. destruct (_ && _); eauto. }
        rewrite Et in Hx. destruct (update (tset g) true _ _ _ _ _ x); cbn in Hx; destruct mrT; discriminate. }
      apply V. cbn. rewrite TX. exact H. }
  destruct K as [K1 K2]. destruct mrT; [|split; assumption]. split.
  - intros x H. rewrite find_add in H. apply K1, H.
  - intros x H. apply guarded_add in H as [H|H]; [apply K2, H|apply F; auto]. rewrite side_invert in H. exact H.
Qed.

(** What a branch does with the variables compared. *)
Lemma branch_marks (b : bool) c a (k k' : stack) m other r r1 : plain_values a -> plains k -> nds k ->
  astmt a k = (k', m) -> fair c a other -> exec r a ONormal r1 -> (forall x, In (RVar x) (side b (cguards c)) -> r x = true) ->
  (forall x, In (RVar x) (side b (cguards c)) -> lset (look k' x) = false -> r1 x = true) /\
  (escapes other = true -> forall x, In (RVar x) (side b (cguards c)) -> r1 x = true).
Proof.
  intros V P N E F X G.
  assert (C : forall x, In (RVar x) (side b (cguards c)) -> In x (compared c)).
  { intros x H. apply cguards_settles in H. eapply settles_compared, H. }
  split.
  - intros x H L. assert (U : ~ In x (assigned a)).
    { destruct F as [F|[F|[F _]]]; [apply F, C, H|destruct (F _ _ X)|]. intros I.
      rewrite (straight_lset a k k' m F V E P N x (or_introl I)) in L. discriminate. }
    rewrite (unassigned _ _ _ _ X x U). auto.
  - intros Esc x H. destruct F as [F|[F|[_ F]]]; [|destruct (F _ _ X)|destruct F; apply (escapes_ending _ _ _ Esc)].
    rewrite (unassigned _ _ _ _ X x (F x (C x H))). auto.
Qed.

Lemma vent_alt e g te tg k r : vent k r -> e = empty -> vent (Fa e g te tg k) r.
Proof. intros V -> x H. apply V, H. Qed.
Lemma vgrd_alt e g te tg k r : vgrd k r -> (forall x, In (RVar x) (side true g) -> r x = true) -> vgrd (Fa e g te tg k) r.
Proof. intros V G x H. cbn in H. apply orb_prop in H as [H|H]; [apply G, guarded_side, H|apply V, H]. Qed.
Lemma vgrd_add k g r : vgrd k r -> (forall x, In (RVar x) (side true g) -> r x = true) -> vgrd (add_guards k g) r.
Proof. intros V G x H. apply guarded_add in H as [H|H]; auto. Qed.
Lemma vent_add k g r : vent k r -> vent (add_guards k g) r.
Proof. intros V x H. rewrite find_add in H. auto. Qed.

(** * Whole bodies *)
Definition fine (k' : stack) (r : store) (s : stmt) : Prop := forall o r', exec r s o r' ->
  (forall x, o <> OFault x) /\ (o = ONormal -> vent k' r' /\ vgrd k' r').

Lemma no_break r s o r' : exec r s o r' -> o = OBreak -> breaks s.
Proof.
  induction 1; cbn [breaks] in *; intros E; subst; try discriminate; auto;
    try (match goal with H : cout ?v = _ |- _ => destruct v; discriminate end);
    match goal with H : leaves ?o _ |- _ => destruct o; cbn in H; try contradiction; discriminate end.
Qed.
Lemma no_cont r s o r' : exec r s o r' -> o = OCont -> continues s.
Proof.
  induction 1; cbn [continues] in *; intros E; subst; try discriminate; auto;
    try (match goal with H : cout ?v = _ |- _ => destruct v; discriminate end);
    match goal with H : leaves ?o _ |- _ => destruct o; cbn in H; try contradiction; discriminate end.
Qed.
Lemma cout_fine c r v : (forall v, ceval r c v -> forall x, v <> RFault x) -> ceval r c v -> forall x, cout v <> OFault x.
Proof. intros S C x H. destruct v; try discriminate. exact (S _ C _ eq_refl). Qed.
Lemma cout_normal v : (forall b, v <> RVal b) -> cout v <> ONormal.
Proof. intros H. destruct v; try discriminate. destruct (H b eq_refl). Qed.
Lemma escapes_not s r r' : exec r s ONormal r' -> escapes s = false.
Proof. intros X. destruct (escapes s) eqn:E; [destruct (escapes_ending _ _ _ E _ _ X)|reflexivity]. Qed.

Lemma astmt_fine s : negb loopexec = true -> forall k k' r, sober s -> plain_values s -> astmt s k = (k', []) -> plains k -> nds k ->
  vent k r -> vgrd k r -> fine k' r s.
Proof.
  intros LE.
  induction s as [|c|x v|a IHa b IHb|a IHa|c a IHa|c a IHa b IHb|c a IHa|a IHa c| | |];
    cbn [Nullflow_model.astmt plain_values sober]; intros k k' r S V E P N VE VG o r' X;
    try (injection E as <-; inversion X; subst; split; [discriminate|intros; auto; discriminate]).
  - inversion X as [|r0 c0 v C0| | | | | | | | | | | | | | | | | | | | |]; subst.
    split; [exact (cout_fine c r' v (acond_safe _ _ _ _ S E P N VE VG) C0)|]. intros _.
    pose proof (acond_quiet _ _ _ S E P N) as Q. split; [exact (quiet_vent _ _ _ Q VE)|exact (quiet_vgrd _ _ _ Q VG)].
  - injection E as <-. inversion X; subst. split; [discriminate|]. intros _. apply assign_valid; assumption.
  - destruct V as [V1 V2], S as [S1 S2]. destruct (astmt a k) as [k1 m1] eqn:E1. destruct (astmt b k1) as [k2 m2] eqn:E2. injection E as <- M.
    apply app_eq_nil in M as [-> ->]. destruct (astmt_kept _ _ _ _ V1 E1 P N) as (_ & P1 & N1).
    inversion X as [| | |r0 a0 b0 r1 o0 r2 X1 X2|r0 a0 b0 o0 r1 X1 O| | | | | | | | | | | | | | | | | | ]; subst.
    + destruct (proj2 (IHa _ _ _ S1 V1 E1 P N VE VG _ _ X1) eq_refl) as [VE1 VG1]. exact (IHb _ _ _ S2 V2 E2 P1 N1 VE1 VG1 _ _ X2).
    + split; [exact (proj1 (IHa _ _ _ S1 V1 E1 P N VE VG _ _ X1))|]. intros Z. destruct (O Z).
  - destruct (astmt a _) as [k1 m1] eqn:E1. injection E as <- ->.
    assert (N0 : nds (Blk None k)) by (split; [apply nd_none|exact N]).
    assert (VG0 : vgrd (Blk None k) r) by (intros y Y; exact (VG y Y)).
    inversion X as [| | | | |r0 a0 o0 r1 X1| | | | | | | | | | | | | | | | |]; subst.
    destruct (IHa _ _ _ S V E1 P N0 VE VG0 _ _ X1) as [A B]. split; [exact A|]. intros Z. destruct (B Z) as [B1 B2].
    destruct (astmt_kept _ _ _ _ V E1 P N0) as (R & _). apply rel_blk in R as (g & k2 & -> & R). cbn [pop_block].
    split; [apply vent_add; exact B1|apply vgrd_add].
    + intros y Y. apply B2. cbn. rewrite Y, orb_true_r. reflexivity.
    + intros y Y. apply B2. cbn. apply guarded_side in Y. rewrite Y. reflexivity.
  - destruct (acond c k) as [k1 m1] eqn:E1. destruct (astmt a _) as [k2 m2] eqn:E2. injection E as <- M. apply app_eq_nil in M as [-> ->].
    destruct S as (O & Sa & Fa1). destruct (acond_kept _ _ _ _ E1 P N) as (_ & P1 & N1). pose proof (acond_quiet _ _ _ O E1 P N) as Q.
    pose proof (quiet_vent _ _ _ Q VE) as VE1. pose proof (quiet_vgrd _ _ _ Q VG) as VG1.
    destruct (tr_ok (cguards c) k1 P1 N1 (nd_cguards c)) as [P2 N2].
    destruct (kept_tr _ _ _ (astmt_kept _ _ _ _ V E2 P2 N2)) as (te & tg & k3 & -> & L & P3 & N3). cbn [alt].
    destruct (fa_ok (cguards c) _ _ _ P3 N3 (nd_cguards c)) as [P4 N4].
    inversion X as [| | | | | |r0 c0 a0 v C0 NV|r0 c0 a0 C0|r0 c0 a0 o0 r1 C0 X1| | | | | | | | | | | | | |]; subst.
    + split; [exact (cout_fine c _ v (acond_safe _ _ _ _ O E1 P N VE VG) C0)|]. intros Z. destruct (cout_normal _ NV Z).
    + split; [discriminate|]. intros _. pose proof (guards_true _ _ _ C0) as GT. apply pop_false; auto.
      * apply vent_alt; [exact (low_vent _ _ _ L VE1)|reflexivity].
      * apply vgrd_alt; [exact (low_vgrd _ _ _ L VG1)|]. rewrite side_invert. exact GT.
    + pose proof (guards_true _ _ _ C0) as GT.
      destruct (IHa _ _ _ Sa V E2 P2 N2 (vent_tr _ _ _ VE1) (vgrd_tr _ _ _ _ VG1 GT) _ _ X1) as [A B]. split; [exact A|]. intros ->.
      destruct (B eq_refl) as [B1 B2]. rewrite (escapes_not _ _ _ X1).
      destruct (branch_marks true c a _ _ _ SSkip r r' V P2 N2 E2 Fa1 X1 GT) as [M1 _].
      apply (pop_true (cguards c) false te tg k3 empty (g_invert (cguards c)) te tg k3 r' P4 (fun x => eq_refl) (low_refl _) B1 B2 M1). discriminate.
  - destruct V as [V1 V2]. destruct (acond c k) as [k1 m1] eqn:E1. destruct (astmt a _) as [k2 m2] eqn:E2. destruct (astmt b _) as [k5 m3] eqn:E3.
    injection E as <- M. apply app_eq_nil in M as [-> M]. apply app_eq_nil in M as [-> ->].
    destruct S as (O & Sa & Sb & Fa1 & Fb1). destruct (acond_kept _ _ _ _ E1 P N) as (_ & P1 & N1). pose proof (acond_quiet _ _ _ O E1 P N) as Q.
    pose proof (quiet_vent _ _ _ Q VE) as VE1. pose proof (quiet_vgrd _ _ _ Q VG) as VG1.
    destruct (tr_ok (cguards c) k1 P1 N1 (nd_cguards c)) as [P2 N2].
    destruct (kept_tr _ _ _ (astmt_kept _ _ _ _ V1 E2 P2 N2)) as (te & tg & k3 & -> & L & P3 & N3). cbn [alt] in E3.
    destruct (fa_ok (cguards c) _ _ _ P3 N3 (nd_cguards c)) as [P4 N4].
    destruct (astmt_kept _ _ _ _ V2 E3 P4 N4) as (R5 & P5 & N5). apply rel_fa in R5 as (e' & fg & te' & tg' & k6 & -> & Te & L').
    inversion X as [| | | | | | | | |r0 c0 a0 b0 v C0 NV|r0 c0 a0 b0 o0 r1 C0 X1|r0 c0 a0 b0 o0 r1 C0 X1| | | | | | | | | | |]; subst.
    + split; [exact (cout_fine c _ v (acond_safe _ _ _ _ O E1 P N VE VG) C0)|]. intros Z. destruct (cout_normal _ NV Z).
    + pose proof (guards_true _ _ _ C0) as GT.
      destruct (IHa _ _ _ Sa V1 E2 P2 N2 (vent_tr _ _ _ VE1) (vgrd_tr _ _ _ _ VG1 GT) _ _ X1) as [A B]. split; [exact A|]. intros ->.
      destruct (B eq_refl) as [B1 B2]. rewrite (escapes_not _ _ _ X1).
      destruct (branch_marks true c a _ _ _ b r r' V1 P2 N2 E2 Fa1 X1 GT) as [M1 M2].
      exact (pop_true (cguards c) _ te tg k3 e' fg te' tg' k6 r' P5 Te L' B1 B2 M1 M2).
    + pose proof (guards_true _ _ _ C0) as GT.
      assert (GA : forall x, In (RVar x) (side true (g_invert (cguards c))) -> r x = true) by (rewrite side_invert; exact GT).
      destruct (IHb _ _ _ Sb V2 E3 P4 N4 (vent_alt _ _ _ _ _ _ (low_vent _ _ _ L VE1) eq_refl) (vgrd_alt _ _ _ _ _ _ (low_vgrd _ _ _ L VG1) GA) _ _ X1) as [A B].
      split; [exact A|]. intros ->. destruct (B eq_refl) as [B1 B2]. rewrite (escapes_not _ _ _ X1).
      destruct (branch_marks false c b _ _ _ a r r' V2 P4 N4 E3 Fb1 X1 GT) as [M1 M2].
      exact (pop_false (cguards c) _ e' fg te' tg' k6 r' P5 B1 B2 M1 M2).
  - destruct (acond c k) as [k1 m1] eqn:E1. destruct (astmt a _) as [k2 m2] eqn:E2. injection E as <- M. apply app_eq_nil in M as [-> ->].
    destruct S as (O & Sa & AS & BR). destruct (acond_kept _ _ _ _ E1 P N) as (_ & P1 & N1). pose proof (acond_quiet _ _ _ O E1 P N) as Q.
    destruct (tr_ok (cguards c) k1 P1 N1 (nd_cguards c)) as [P2 N2].
    destruct (kept_tr _ _ _ (astmt_kept _ _ _ _ V E2 P2 N2)) as (te & tg & k3 & -> & L & P3 & N3). cbn [alt].
    destruct (fa_ok (cguards c) _ _ _ P3 N3 (nd_cguards c)) as [P4 N4]. rewrite (proj1 (Bool.negb_true_iff _) LE).
    assert (CONST : forall r o r', exec r a o r' -> forall x, r' x = r x).
    { intros q o' q' Y x. apply (unassigned _ _ _ _ Y). rewrite AS. auto. }
    (* leaving the loop with the guards true *)
    assert (LEAVE : forall q, vent k q -> vgrd k q -> (forall x, In (RVar x) (side false (cguards c)) -> q x = true) ->
      let k' := add_guards (pop_branches (cguards c) (escapes a) false (Fa empty (g_invert (cguards c)) te tg k3)) (g_invert (cguards c)) in
      vent k' q /\ vgrd k' q).
    { intros q VEq VGq GT. cbv zeta. pose proof (quiet_vent _ _ _ Q VEq) as VE1. pose proof (quiet_vgrd _ _ _ Q VGq) as VG1.
      assert (GA : forall x, In (RVar x) (side true (g_invert (cguards c))) -> q x = true) by (rewrite side_invert; exact GT).
      destruct (pop_false (cguards c) (escapes a) empty (g_invert (cguards c)) te tg k3 q P4) as [B1 B2]; auto.
      - apply vent_alt; [exact (low_vent _ _ _ L VE1)|reflexivity].
      - apply vgrd_alt; [exact (low_vgrd _ _ _ L VG1)|exact GA].
      - split; [apply vent_add, B1|apply vgrd_add; assumption]. }
    set (kk := add_guards _ _) in *.
    assert (BODY : forall q, vent k q -> vgrd k q -> ceval q c (RVal true) -> forall o q', exec q a o q' -> forall x, o <> OFault x).
    { intros q VEq VGq C0 o' q' X1. pose proof (guards_true _ _ _ C0) as GT.
      exact (proj1 (IHa _ _ _ Sa V E2 P2 N2 (vent_tr _ _ _ (quiet_vent _ _ _ Q VEq)) (vgrd_tr _ _ _ _ (quiet_vgrd _ _ _ Q VGq) GT) _ _ X1)). }
    assert (SAFE : forall q, vent k q -> vgrd k q -> forall v, ceval q c v -> forall x, v <> RFault x).
    { intros q VEq VGq. exact (acond_safe _ _ _ _ O E1 P N VEq VGq). }
    remember (SWhile c a) as w eqn:W. clear E1 E2. revert VE VG.
    induction X as [| | | | | | | | | | | |r c0 a0 v C0 NV|r c0 a0 C0|r c0 a0 o o' r1 C0 X1 _ LV|r c0 a0 o r1 o' r2 C0 X1 _ RD X2 IH| | | | | | |];
      try discriminate W; injection W as -> ->; intros VE VG.
    + split; [exact (cout_fine c _ v (SAFE _ VE VG) C0)|]. intros Z. destruct (cout_normal _ NV Z).
    + split; [discriminate|]. intros _. apply LEAVE; auto. exact (guards_true _ _ _ C0).
    + assert (VE' : vent k r1) by (intros x H; rewrite (CONST _ _ _ X1); auto).
      assert (VG' : vgrd k r1) by (intros x H; rewrite (CONST _ _ _ X1); auto).
      pose proof (BODY _ VE VG C0 _ _ X1) as NF. split.
      * intros x ->. destruct o; cbn in LV; try contradiction; try discriminate. exact (NF _ eq_refl).
      * intros ->. apply LEAVE; auto. intros x H. apply cguards_settles, settles_compared in H.
        destruct o; cbn in LV; try contradiction; try discriminate. rewrite (BR (no_break _ _ _ _ X1 eq_refl)) in H. destruct H.
    + apply IH; [reflexivity| |]; intros x H; rewrite (CONST _ _ _ X1); auto.
  - destruct (astmt a k) as [k1 m1] eqn:E1. destruct (acond c k1) as [k2 m2] eqn:E2. injection E as <- M. apply app_eq_nil in M as [-> ->].
    destruct S as (O & Sa & AS & BR & CO). destruct (astmt_kept _ _ _ _ V E1 P N) as (_ & P1 & N1).
    assert (CONST : forall r o r', exec r a o r' -> forall x, r' x = r x).
    { intros q o' q' Y x. apply (unassigned _ _ _ _ Y). rewrite AS. auto. }
    assert (BODY : forall q, vent k q -> vgrd k q -> fine k1 q a) by (intros q VEq VGq; exact (IHa _ _ _ Sa V E1 P N VEq VGq)).
    assert (ROUND : forall q o q', exec q a o q' -> rounds o -> o = ONormal).
    { intros q o' q' Y [->| ->]; [reflexivity|]. destruct (CO (no_cont _ _ _ _ Y eq_refl)). }
    pose proof (acond_quiet _ _ _ O E2 P1 N1) as Q.
    remember (SDo a c) as w eqn:W. revert VE VG.
    induction X as [| | | | | | | | | | | | | | | |r c0 a0 o o' r1 X1 _ LV|r c0 a0 o r1 v X1 _ RD C0 NV|r c0 a0 o r1 X1 _ RD C0|r c0 a0 o r1 o' r2 X1 _ RD C0 X2 IH| | |];
      try discriminate W; injection W as -> ->; intros VE VG; destruct (BODY _ VE VG _ _ X1) as [A B].
    + split.
      * intros x ->. destruct o; cbn in LV; try contradiction; try discriminate. exact (A _ eq_refl).
      * intros ->. destruct o; cbn in LV; try contradiction; try discriminate. destruct (BR (no_break _ _ _ _ X1 eq_refl)).
    + destruct (B (ROUND _ _ _ X1 RD)) as [B1 B2].
      split; [exact (cout_fine c _ v (acond_safe _ _ _ _ O E2 P1 N1 B1 B2) C0)|]. intros Z. destruct (cout_normal _ NV Z).
    + destruct (B (ROUND _ _ _ X1 RD)) as [B1 B2]. split; [discriminate|]. intros _.
      split; [apply vent_add, (quiet_vent _ _ _ Q B1)|apply vgrd_add; [exact (quiet_vgrd _ _ _ Q B2)|]].
      rewrite side_invert. exact (guards_true _ _ _ C0).
    + apply IH; [reflexivity| |]; intros x H; rewrite (CONST _ _ _ X1); auto.
Qed.
End Statements.

(** * Covered dereferences *)
Lemma calm_escapes unreach shown s : calm s -> escapes unreach shown s = false.
Proof.
  unfold escapes. induction s as [|c|x v|a IHa b IHb|a IHa|c a IHa|c a IHa b IHb|c a IHa|a IHa c| | |]; cbn [calm flow]; intros H; try contradiction;
    cbn [Flow_model.analyse]; unfold Flow_model.mustEscape in *.
  - reflexivity.
  - destruct c; try reflexivity. destruct H; reflexivity.
  - reflexivity.
  - destruct H as [Ha Hb]. specialize (IHa Ha). specialize (IHb Hb). unfold Flow_model.concat, Flow_model.mustEscape. rewrite IHa. cbn. exact IHb.
  - exact (IHa H).
  - cbn. destruct (Flow_model.xk _); reflexivity.
  - unfold Flow_model.combineControl, Flow_model.mustEscape. cbn.
    destruct (Flow_model.analyse _ _ (flow a)) as [ka ba ca ja], (Flow_model.analyse _ _ (flow b)) as [kb bb cb jb]. cbn in *.
    destruct H as [H|H]; [specialize (IHa H); clear IHb|specialize (IHb H); clear IHa]; destruct ba, bb, ka, kb; cbn in *; congruence.
  - cbn. destruct c; try reflexivity. destruct H; reflexivity.
  - cbn. destruct (Flow_model.xk _); reflexivity.
Qed.
Lemma quits_escapes unreach shown s : quits s -> escapes unreach shown s = true.
Proof.
  induction s as [|c|x v|a IHa b IHb|a IHa|c a IHa|c a IHa b IHb|c a IHa|a IHa c| | |]; cbn [quits]; intros H; try contradiction; try reflexivity.
  - subst c. reflexivity.
  - destruct H as [Ha Hb]. apply (calm_escapes unreach shown) in Ha. specialize (IHb Hb). unfold escapes in *. cbn [flow Flow_model.analyse].
    unfold Flow_model.concat. rewrite Ha. exact IHb.
  - exact (IHa H).
  - destruct H as [Ha Hb]. specialize (IHa Ha). specialize (IHb Hb). unfold escapes in *. cbn [flow Flow_model.analyse].
    unfold Flow_model.combineControl, Flow_model.mustEscape at 1. cbn. rewrite IHa, IHb, !orb_true_r. reflexivity.
Qed.

(** The guards of one variable are not lost. *)
Definition gmore (x : nat) (g g' : guards) : Prop := is_guarded g (RVar x) = true -> is_guarded g' (RVar x) = true.
Fixpoint hold (x : nat) (s s' : stack) : Prop :=
  match s, s' with
  | Base _ g, Base _ g' => gmore x g g'
  | Blk g s, Blk g' s' => gmore x g g' /\ hold x s s'
  | Tr _ g s, Tr _ g' s' => gmore x g g' /\ hold x s s'
  | Fa _ g _ _ s, Fa _ g' _ _ s' => gmore x g g' /\ hold x s s'
  | _, _ => False
  end.
Lemma hold_refl x s : hold x s s.
Proof. induction s; cbn; unfold gmore; auto. Qed.
Lemma hold_trans x a : forall b c, hold x a b -> hold x b c -> hold x a c.
Proof. induction a; intros [] []; cbn; unfold gmore; intuition eauto. Qed.
Lemma hold_guarded x s : forall s', hold x s s' -> guarded s x = true -> guarded s' x = true.
Proof.
  induction s; intros []; cbn; unfold gmore; try contradiction; [auto| | |]; intros [H1 H2] H;
    apply orb_prop in H as [H|H]; rewrite ?(H1 H), ?(IHs _ H2 H), ?orb_true_r; reflexivity.
Qed.
Lemma hold_put x s h : hold x s (put s h).
Proof. induction s; cbn; unfold gmore; auto using hold_refl. Qed.
Lemma hold_add x s g : hold x s (add_guards s g).
Proof.
  assert (H : forall g0, gmore x g0 (g_union g0 g)) by (intros g0; unfold gmore; rewrite !guarded_side, side_union; tauto).
  destruct s; cbn; auto using hold_refl.
Qed.
Lemma hold_unguard x y s : x <> y -> hold x s (unguard s y).
Proof.
  intros NE. assert (H : forall g, gmore x g (g_unguard g (RVar y))).
  { intros g. unfold gmore, g_unguard. destruct (is_guarded g (RVar y)); [|auto]. rewrite !guarded_side.
    destruct g as [[t f]|]; [|auto]. cbn. induction t as [|z t IH]; cbn; [auto|]. intros [->|I].
    - cbn. replace (Nat.eqb y x) with false by (symmetry; apply Nat.eqb_neq; congruence). left. reflexivity.
    - match goal with |- context [if ?b then _ else _] => destruct b end; [exact I|right; auto]. }
  induction s; cbn; auto.
Qed.
Lemma hold_tr x e g s s' : hold x (Tr e g s) s' -> exists e' g' s1, s' = Tr e' g' s1 /\ gmore x g g' /\ hold x s s1.
Proof. destruct s'; cbn; try contradiction. intros [H1 H2]. eauto 10. Qed.
Lemma hold_fa x e g te tg s s' : hold x (Fa e g te tg s) s' -> exists e' g' te' tg' s1, s' = Fa e' g' te' tg' s1 /\ gmore x g g' /\ hold x s s1.
Proof. destruct s'; cbn; try contradiction. intros [H1 H2]. eauto 10. Qed.
Lemma hold_blk x g s s' : hold x (Blk g s) s' -> exists g' s1, s' = Blk g' s1 /\ gmore x g g' /\ hold x s s1.
Proof. destruct s'; cbn; try contradiction. intros [H1 H2]. eauto 10. Qed.

Lemma acond_hold x c : forall s s' m, acond c s = (s', m) -> hold x s s'.
Proof.
  induction c as [y|y|y|y| | | |c IH|p IHp q IHq|p IHp q IHq]; cbn [acond]; intros s s' m E;
    try (injection E as <- <-; apply hold_put || apply hold_refl).
  - unfold deref in E. cbv zeta in E. destruct (_ && _); injection E as <- <-; [|apply hold_put].
    eapply hold_trans; apply hold_put.
  - eauto.
  - destruct (acond p s) as [s1 m1] eqn:E1. destruct (acond q _) as [s2 m2] eqn:E2. injection E as <- <-.
    destruct (hold_tr _ _ _ _ _ (IHq _ _ _ E2)) as (e' & g' & s3 & -> & _ & H). cbn [pop_and]. unfold merge_all.
    exact (hold_trans _ _ _ _ (IHp _ _ _ E1) (hold_trans _ _ _ _ H (hold_put _ _ _))).
  - destruct (acond p s) as [s1 m1] eqn:E1. destruct (acond q _) as [s2 m2] eqn:E2. injection E as <- <-.
    destruct (hold_tr _ _ _ _ _ (IHq _ _ _ E2)) as (e' & g' & s3 & -> & _ & H). cbn [pop_or]. unfold merge_all.
    eapply hold_trans; [exact (IHp _ _ _ E1)|]. eapply hold_trans; [exact H|].
    destruct q; try apply hold_put. eapply hold_trans; [apply hold_put|apply hold_add].
Qed.
Lemma acond_covered x c : forall (K : Prop) s s' m, (K -> guarded s x = true) -> ccovered K c x -> acond c s = (s', m) -> ~ In x m.
Proof.
  induction c as [y|y|y|y| | | |c IH|p IHp q IHq|p IHp q IHq]; cbn [acond ccovered]; intros K s s' m G C E;
    try (injection E as <- <-; exact (fun f => f)).
  - unfold deref in E. rewrite touch_guarded in E. destruct (_ && _) eqn:B; injection E as <- <-; [|exact (fun f => f)].
    intros [->|[]]. rewrite (G (C eq_refl)) in B. rewrite andb_false_r in B. discriminate.
  - eauto.
  - destruct (acond p s) as [s1 m1] eqn:E1. destruct (acond q _) as [s2 m2] eqn:E2. injection E as <- <-. rewrite in_app_iff.
    destruct C as [C1 C2]. intros [I|I]; [exact (IHp _ _ _ _ G C1 E1 I)|]. refine (IHq _ _ _ _ _ C2 E2 I). cbn [guarded].
    intros [k|k]; [rewrite (hold_guarded _ _ _ (acond_hold x _ _ _ _ E1) (G k)), orb_true_r; reflexivity|].
    apply cguards_settles, guarded_side in k. rewrite k. reflexivity.
  - destruct (acond p s) as [s1 m1] eqn:E1. destruct (acond q _) as [s2 m2] eqn:E2. injection E as <- <-. rewrite in_app_iff.
    destruct C as [C1 C2]. intros [I|I]; [exact (IHp _ _ _ _ G C1 E1 I)|]. refine (IHq _ _ _ _ _ C2 E2 I). cbn [guarded].
    intros [k|k]; [rewrite (hold_guarded _ _ _ (acond_hold x _ _ _ _ E1) (G k)), orb_true_r; reflexivity|].
    apply cguards_settles in k. change false with (negb true) in k. rewrite <- side_invert in k. apply guarded_side in k. rewrite k. reflexivity.
Qed.

Section Covered.
Variable local : nat -> bool.
Variable loopexec : bool.
Variable unreach : bool.
Variable shown : Flow_model.stmt -> bool.
Notation pop_branches := (pop_branches local).
Notation astmt := (astmt local loopexec unreach shown).

Lemma hold_pop x g mrT mrF e fg te tg env : hold x env (pop_branches g mrT mrF (Fa e fg te tg env)).
Proof.
  cbn [Nullflow_model.pop_branches]. destruct mrT, mrF; repeat (eapply hold_trans; [|apply hold_add]); apply hold_put.
Qed.
Lemma assign_hold x k y v : x <> y \/ v = VFresh -> hold x k (assign k y v).
Proof.
  unfold assign. intros [H| ->]; [|apply hold_put]. destruct (_ && _); [|apply hold_put].
  eapply hold_trans; [apply hold_put|apply hold_unguard, H].
Qed.
(** The shape of the stack stays the same. *)
Fixpoint shape (s s' : stack) : Prop :=
  match s, s' with
  | Base _ _, Base _ _ => True
  | Blk _ s, Blk _ s' | Tr _ _ s, Tr _ _ s' | Fa _ _ _ _ s, Fa _ _ _ _ s' => shape s s'
  | _, _ => False
  end.
Lemma shape_trans a : forall b c, shape a b -> shape b c -> shape a c.
Proof. induction a; intros [] []; cbn; try contradiction; eauto. Qed.
Lemma hold_shape x a : forall b, hold x a b -> shape a b.
Proof. induction a; intros []; cbn; intuition. Qed.
Lemma unguard_shape s y : shape s (unguard s y).
Proof. induction s; cbn; auto. Qed.
Lemma shape_tr e g s s' : shape (Tr e g s) s' -> exists e' g' s1, s' = Tr e' g' s1 /\ shape s s1.
Proof. destruct s'; cbn; try contradiction. eauto 10. Qed.
Lemma shape_fa e g te tg s s' : shape (Fa e g te tg s) s' -> exists e' g' te' tg' s1, s' = Fa e' g' te' tg' s1 /\ shape s s1.
Proof. destruct s'; cbn; try contradiction. eauto 10. Qed.
Lemma shape_blk g s s' : shape (Blk g s) s' -> exists g' s1, s' = Blk g' s1 /\ shape s s1.
Proof. destruct s'; cbn; try contradiction. eauto 10. Qed.

Lemma astmt_shape s : forall k, shape k (fst (astmt s k)).
Proof.
  assert (R : forall k, shape k k) by (intros k; exact (hold_shape 0 _ _ (hold_refl 0 k))).
  assert (A : forall k g, shape k (add_guards k g)) by (intros k g; exact (hold_shape 0 _ _ (hold_add 0 k g))).
  assert (C : forall c k k' m, acond c k = (k', m) -> shape k k') by (intros c k k' m E; exact (hold_shape 0 _ _ (acond_hold 0 _ _ _ _ E))).
  assert (B : forall g mrT mrF e fg te tg env, shape env (pop_branches g mrT mrF (Fa e fg te tg env))) by
    (intros; exact (hold_shape 0 _ _ (hold_pop 0 _ _ _ _ _ _ _ _))).
  induction s as [|c|y v|a IHa b IHb|a IHa|c a IHa|c a IHa b IHb|c a IHa|a IHa c| | |]; cbn [Nullflow_model.astmt]; intros k; try apply R.
  - destruct (acond c k) eqn:E. exact (C _ _ _ _ E).
  - cbn [fst]. unfold assign. assert (P : shape k (put k (single y (Entry (vstate v) true)))) by exact (hold_shape 0 _ _ (hold_put 0 k _)).
    destruct (_ && _); [exact (shape_trans _ _ _ P (unguard_shape _ _))|exact P].
  - specialize (IHa k). destruct (astmt a k) as [k1 m1]. specialize (IHb k1). destruct (astmt b k1) as [k2 m2]. exact (shape_trans _ _ _ IHa IHb).
  - specialize (IHa (Blk None k)). destruct (astmt a _) as [k1 m1]. apply shape_blk in IHa as (g & k2 & E & H). cbn in E. subst k1. cbn.
    exact (shape_trans _ _ _ H (A _ _)).
  - destruct (acond c k) as [k1 m1] eqn:E1. apply C in E1. specialize (IHa (Tr empty (cguards c) k1)). destruct (astmt a _) as [k2 m2].
    apply shape_tr in IHa as (e & g & k3 & E & H). cbn in E. subst k2. cbn [alt fst].
    exact (shape_trans _ _ _ E1 (shape_trans _ _ _ H (B _ _ _ _ _ _ _ _))).
  - destruct (acond c k) as [k1 m1] eqn:E1. apply C in E1. specialize (IHa (Tr empty (cguards c) k1)). destruct (astmt a _) as [k2 m2].
    apply shape_tr in IHa as (e & g & k3 & E & H). cbn in E. subst k2. cbn [alt].
    specialize (IHb (Fa empty (g_invert (cguards c)) e g k3)). destruct (astmt b _) as [k4 m4].
    apply shape_fa in IHb as (e' & g' & te' & tg' & k5 & E & H'). cbn in E. subst k4. cbn [fst].
    exact (shape_trans _ _ _ E1 (shape_trans _ _ _ H (shape_trans _ _ _ H' (B _ _ _ _ _ _ _ _)))).
  - destruct (acond c k) as [k1 m1] eqn:E1. apply C in E1. specialize (IHa (Tr empty (cguards c) k1)). destruct (astmt a _) as [k2 m2].
    apply shape_tr in IHa as (e & g & k3 & E & H). cbn in E. subst k2. cbn [alt fst].
    exact (shape_trans _ _ _ E1 (shape_trans _ _ _ H (shape_trans _ _ _ (B _ _ _ _ _ _ _ _) (A _ _)))).
  - specialize (IHa k). destruct (astmt a k) as [k1 m1]. destruct (acond c k1) as [k2 m2] eqn:E2. apply C in E2.
    exact (shape_trans _ _ _ IHa (shape_trans _ _ _ E2 (A _ _))).
Qed.

Lemma astmt_hold x s : ~ In x (assigned s) -> forall k k' m, astmt s k = (k', m) -> hold x k k'.
Proof.
  induction s as [|c|y v|a IHa b IHb|a IHa|c a IHa|c a IHa b IHb|c a IHa|a IHa c| | |]; cbn [Nullflow_model.astmt assigned];
    intros NA k k' m E; try (injection E as <- <-; apply hold_refl); rewrite ?in_app_iff in NA.
  - eapply acond_hold, E.
  - injection E as <- <-. apply assign_hold. left. intros ->. apply NA. left. reflexivity.
  - destruct (astmt a k) as [k1 m1] eqn:E1. destruct (astmt b k1) as [k2 m2] eqn:E2. injection E as <- <-.
    eapply hold_trans; [eapply IHa; [tauto|exact E1]|eapply IHb; [tauto|exact E2]].
  - destruct (astmt a _) as [k1 m1] eqn:E1. injection E as <- <-. destruct (hold_blk _ _ _ _ (IHa NA _ _ _ E1)) as (g & k2 & -> & _ & H).
    cbn [pop_block]. exact (hold_trans _ _ _ _ H (hold_add _ _ _)).
  - destruct (acond c k) as [k1 m1] eqn:E1. destruct (astmt a _) as [k2 m2] eqn:E2. injection E as <- <-.
    destruct (hold_tr _ _ _ _ _ (IHa NA _ _ _ E2)) as (e & g & k3 & -> & _ & H). cbn [alt].
    exact (hold_trans _ _ _ _ (acond_hold _ _ _ _ _ E1) (hold_trans _ _ _ _ H (hold_pop _ _ _ _ _ _ _ _ _))).
  - destruct (acond c k) as [k1 m1] eqn:E1. destruct (astmt a _) as [k2 m2] eqn:E2. destruct (astmt b _) as [k4 m4] eqn:E3. injection E as <- <-.
    assert (NA1 : ~ In x (assigned a)) by tauto. assert (NA2 : ~ In x (assigned b)) by tauto.
    destruct (hold_tr _ _ _ _ _ (IHa NA1 _ _ _ E2)) as (e & g & k3 & -> & _ & H). cbn [alt] in E3.
    destruct (hold_fa _ _ _ _ _ _ _ (IHb NA2 _ _ _ E3)) as (e' & g' & te' & tg' & k5 & -> & _ & H').
    exact (hold_trans _ _ _ _ (acond_hold _ _ _ _ _ E1) (hold_trans _ _ _ _ H (hold_trans _ _ _ _ H' (hold_pop _ _ _ _ _ _ _ _ _)))).
  - destruct (acond c k) as [k1 m1] eqn:E1. destruct (astmt a _) as [k2 m2] eqn:E2. injection E as <- <-.
    destruct (hold_tr _ _ _ _ _ (IHa NA _ _ _ E2)) as (e & g & k3 & -> & _ & H). cbn [alt].
    exact (hold_trans _ _ _ _ (acond_hold _ _ _ _ _ E1) (hold_trans _ _ _ _ H (hold_trans _ _ _ _ (hold_pop _ _ _ _ _ _ _ _ _) (hold_add _ _ _)))).
  - destruct (astmt a k) as [k1 m1] eqn:E1. destruct (acond c k1) as [k2 m2] eqn:E2. injection E as <- <-.
    exact (hold_trans _ _ _ _ (IHa NA _ _ _ E1) (hold_trans _ _ _ _ (acond_hold _ _ _ _ _ E2) (hold_add _ _ _))).
Qed.

Lemma add_known k g x : In (RVar x) (side true g) -> guarded (add_guards k g) x = true.
Proof. intros H. apply guarded_add. right. exact H. Qed.
Lemma pop_known_false g mrF e fg te tg env x : In (RVar x) (side false g) -> guarded (pop_branches g true mrF (Fa e fg te tg env)) x = true.
Proof.
  intros H. cbn [Nullflow_model.pop_branches]. assert (H' : In (RVar x) (side true (g_invert g))) by (rewrite side_invert; exact H).
  destruct mrF; [apply guarded_add; left|]; apply add_known, H'.
Qed.
Lemma pop_known_true g mrT e fg te tg env x : In (RVar x) (side true g) -> guarded (pop_branches g mrT true (Fa e fg te tg env)) x = true.
Proof. intros H. cbn [Nullflow_model.pop_branches]. apply add_known, H. Qed.

Lemma astmt_covered x s : forall (K : Prop) k k' m, (K -> guarded k x = true) -> astmt s k = (k', m) ->
  (covered K s x -> ~ In x m) /\ (knows K s x -> guarded k' x = true).
Proof.
  induction s as [|c|y v|a IHa b IHb|a IHa|c a IHa|c a IHa b IHb|c a IHa|a IHa c| | |]; cbn [Nullflow_model.astmt covered knows];
    intros K k k' m G E; try (injection E as <- <-; split; [exact (fun _ f => f)|exact G]).
  - split; [intros C; exact (acond_covered _ _ _ _ _ _ G C E)|]. intros k1. exact (hold_guarded _ _ _ (acond_hold x _ _ _ _ E) (G k1)).
  - injection E as <- <-. split; [exact (fun _ f => f)|]. intros [k1 H]. exact (hold_guarded _ _ _ (assign_hold x k y v H) (G k1)).
  - destruct (astmt a k) as [k1 m1] eqn:E1. destruct (astmt b k1) as [k2 m2] eqn:E2. injection E as <- <-.
    destruct (IHa _ _ _ _ G E1) as [A1 A2]. destruct (IHb _ _ _ _ A2 E2) as [B1 B2]. split; [|exact B2].
    intros [C1 C2]. rewrite in_app_iff. intros [I|I]; [exact (A1 C1 I)|exact (B1 C2 I)].
  - destruct (astmt a _) as [k1 m1] eqn:E1. injection E as <- <-.
    assert (G' : K -> guarded (Blk None k) x = true) by exact G. destruct (IHa _ _ _ _ G' E1) as [A1 A2]. split; [exact A1|].
    intros KN. specialize (A2 KN). pose proof (astmt_shape a (Blk None k)) as S. rewrite E1 in S. apply shape_blk in S as (g & k2 & E & _). cbn in E. subst k1.
    cbn [pop_block]. apply guarded_add. cbn [guarded] in A2. apply orb_prop in A2 as [A2|A2]; [right; apply guarded_side, A2|left; exact A2].
  - destruct (acond c k) as [k1 m1] eqn:E1. destruct (astmt a _) as [k2 m2] eqn:E2. injection E as <- <-.
    pose proof (acond_hold x _ _ _ _ E1) as H1.
    assert (G' : K \/ settles true c x -> guarded (Tr empty (cguards c) k1) x = true).
    { cbn [guarded]. intros [k0|k0]; [rewrite (hold_guarded _ _ _ H1 (G k0)), orb_true_r; reflexivity|]. apply cguards_settles, guarded_side in k0. rewrite k0. reflexivity. }
    destruct (IHa _ _ _ _ G' E2) as [A1 A2]. split.
    + intros [C1 C2]. rewrite in_app_iff. intros [I|I]; [exact (acond_covered _ _ _ _ _ _ G C1 E1 I)|exact (A1 C2 I)].
    + pose proof (astmt_shape a (Tr empty (cguards c) k1)) as S. rewrite E2 in S. apply shape_tr in S as (e & g & k3 & E & _). cbn in E. subst k2. cbn [alt].
      intros [[k0 NA]|[Q ST]].
      * destruct (hold_tr _ _ _ _ _ (astmt_hold x a NA _ _ _ E2)) as (e0 & g0 & k0' & [= <- <- <-] & _ & H).
        exact (hold_guarded _ _ _ (hold_pop _ _ _ _ _ _ _ _ _) (hold_guarded _ _ _ H (hold_guarded _ _ _ H1 (G k0)))).
      * rewrite (quits_escapes unreach shown a Q). apply pop_known_false, cguards_settles, ST.
  - destruct (acond c k) as [k1 m1] eqn:E1. destruct (astmt a _) as [k2 m2] eqn:E2. destruct (astmt b _) as [k4 m4] eqn:E3. injection E as <- <-.
    pose proof (acond_hold x _ _ _ _ E1) as H1.
    assert (G' : K \/ settles true c x -> guarded (Tr empty (cguards c) k1) x = true).
    { cbn [guarded]. intros [k0|k0]; [rewrite (hold_guarded _ _ _ H1 (G k0)), orb_true_r; reflexivity|]. apply cguards_settles, guarded_side in k0. rewrite k0. reflexivity. }
    destruct (IHa _ _ _ _ G' E2) as [A1 A2].
    pose proof (astmt_shape a (Tr empty (cguards c) k1)) as S. rewrite E2 in S. apply shape_tr in S as (e & g & k3 & E & _). cbn in E. subst k2. cbn [alt] in E3.
    assert (HA : ~ In x (assigned a) -> hold x k1 k3).
    { intros NA. destruct (hold_tr _ _ _ _ _ (astmt_hold x a NA _ _ _ E2)) as (e0 & g0 & k0' & [= <- <- <-] & _ & H). exact H. }
    assert (G2 : (K /\ ~ In x (assigned a)) \/ settles false c x -> guarded (Fa empty (g_invert (cguards c)) e g k3) x = true).
    { cbn [guarded]. intros [[k0 NA]|k0]; [rewrite (hold_guarded _ _ _ (HA NA) (hold_guarded _ _ _ H1 (G k0))), orb_true_r; reflexivity|].
      apply cguards_settles in k0. change false with (negb true) in k0. rewrite <- side_invert in k0. apply guarded_side in k0. rewrite k0. reflexivity. }
    destruct (IHb _ _ _ _ G2 E3) as [B1 B2]. split.
    + intros (C1 & C2 & C3). rewrite !in_app_iff. intros [I|[I|I]]; [exact (acond_covered _ _ _ _ _ _ G C1 E1 I)|exact (A1 C2 I)|exact (B1 C3 I)].
    + pose proof (astmt_shape b (Fa empty (g_invert (cguards c)) e g k3)) as S. rewrite E3 in S.
      apply shape_fa in S as (e' & g' & te' & tg' & k5 & E & _). cbn in E. subst k4.
      intros [(k0 & NA & NB)|[[Q ST]|[Q ST]]].
      * destruct (hold_fa _ _ _ _ _ _ _ (astmt_hold x b NB _ _ _ E3)) as (e0 & g0 & te0 & tg0 & k0' & [= <- <- <- <- <-] & _ & H).
        exact (hold_guarded _ _ _ (hold_pop _ _ _ _ _ _ _ _ _) (hold_guarded _ _ _ H (hold_guarded _ _ _ (HA NA) (hold_guarded _ _ _ H1 (G k0))))).
      * rewrite (quits_escapes unreach shown a Q). apply pop_known_false, cguards_settles, ST.
      * rewrite (quits_escapes unreach shown b Q). apply pop_known_true, cguards_settles, ST.
  - destruct (acond c k) as [k1 m1] eqn:E1. destruct (astmt a _) as [k2 m2] eqn:E2. injection E as <- <-.
    pose proof (acond_hold x _ _ _ _ E1) as H1.
    assert (G' : K \/ settles true c x -> guarded (Tr empty (cguards c) k1) x = true).
    { cbn [guarded]. intros [k0|k0]; [rewrite (hold_guarded _ _ _ H1 (G k0)), orb_true_r; reflexivity|]. apply cguards_settles, guarded_side in k0. rewrite k0. reflexivity. }
    destruct (IHa _ _ _ _ G' E2) as [A1 A2]. split.
    + intros [C1 C2]. rewrite in_app_iff. intros [I|I]; [exact (acond_covered _ _ _ _ _ _ G C1 E1 I)|exact (A1 C2 I)].
    + pose proof (astmt_shape a (Tr empty (cguards c) k1)) as S. rewrite E2 in S. apply shape_tr in S as (e & g & k3 & E & _). cbn in E. subst k2. cbn [alt].
      intros [[k0 NA]|ST]; apply guarded_add; [left|right].
      * destruct (hold_tr _ _ _ _ _ (astmt_hold x a NA _ _ _ E2)) as (e0 & g0 & k0' & [= <- <- <-] & _ & H).
        exact (hold_guarded _ _ _ (hold_pop _ _ _ _ _ _ _ _ _) (hold_guarded _ _ _ H (hold_guarded _ _ _ H1 (G k0)))).
      * rewrite side_invert. apply cguards_settles, ST.
  - destruct (astmt a k) as [k1 m1] eqn:E1. destruct (acond c k1) as [k2 m2] eqn:E2. injection E as <- <-.
    destruct (IHa _ _ _ _ G E1) as [A1 A2]. split.
    + intros [C1 C2]. rewrite in_app_iff. intros [I|I]; [exact (A1 C1 I)|exact (acond_covered _ _ _ _ _ _ A2 C2 E2 I)].
    + intros [KN|ST]; apply guarded_add; [left; exact (hold_guarded _ _ _ (acond_hold x _ _ _ _ E2) (A2 KN))|right].
      rewrite side_invert. apply cguards_settles, ST.
Qed.
End Covered.

(** * Straight-line bodies *)
Section Linear.
Variable local : nat -> bool.
Variable loopexec : bool.
Variable unreach : bool.
Variable shown : Flow_model.stmt -> bool.
Notation astmt := (astmt local loopexec unreach shown).
Definition bare (k : stack) : Prop := forall x, guarded k x = false.

Lemma deref_case k x : bare k -> deref k x = (if poss (ns (find k x)) then (put (touch k x) (single x (Entry NS_NOTNULL (lset (look (touch k x) x)))), [x]) else (touch k x, [])).
Proof. intros B. unfold deref. rewrite touch_guarded, B, look_ns, touch_ns, andb_true_r. reflexivity. Qed.
Lemma touch_bare k x : bare k -> bare (touch k x).
Proof. intros B y. rewrite touch_guarded. apply B. Qed.
Lemma bare_false k : (forall x, guarded k x = true -> False) -> bare k.
Proof. intros H x. destruct (guarded k x) eqn:E; [destruct (H x E)|reflexivity]. Qed.

Lemma acond_linear c k k' m : linear (SExpr c) -> acond c k = (k', m) -> bare k ->
  bare k' /\ (m = [] -> forall y, ns (find k' y) = ns (find k y)) /\
  (m = [] -> forall r, vent k r -> forall v, ceval r c v -> forall x, v <> RFault x) /\
  (forall x m', m = x :: m' -> forall r, (forall y, r y = negb (poss (ns (find k y)))) -> ceval r c (RFault x)) /\
  (m = [] -> forall r, vent k r -> exists b, ceval r c (RVal b)).
Proof.
  destruct c as [x|x|x|x| | | |c|a b|a b]; cbn [linear acond]; intros L E B; try contradiction.
  1-3: injection E as <- <-; split; [apply touch_bare, B|]; split; [intros _ y; apply touch_ns|];
    split; [intros _ r V v X; inversion X; discriminate|]; split; [discriminate|]; intros _ r V; eexists; constructor.
  - rewrite (deref_case k x B) in E. destruct (poss (ns (find k x))) eqn:P; injection E as <- <-.
    + split; [intros y; rewrite guarded_put; apply touch_bare, B|]. split; [discriminate|]. split; [discriminate|]. split; [|discriminate].
      intros z m' [= <- _] r R. constructor. rewrite R, P. reflexivity.
    + split; [apply touch_bare, B|]. split; [intros _ y; apply touch_ns|]. split; [|split; [discriminate|]].
      * intros _ r V v X. specialize (V x P). inversion X; subst; congruence.
      * intros _ r V. exists true. constructor. exact (V x P).
  - injection E as <- <-. split; [exact B|]. split; [reflexivity|]. split; [intros _ r V v X; inversion X; discriminate|].
    split; [discriminate|]. intros _ r V. exists true. constructor.
Qed.

Lemma astmt_linear s : forall k k' m, linear s -> astmt s k = (k', m) -> bare k ->
  bare k' /\
  (m = [] -> forall r, vent k r -> forall o r', exec r s o r' -> (forall x, o <> OFault x) /\ (o = ONormal -> vent k' r')) /\
  (forall r, (forall y, r y = negb (poss (ns (find k y)))) ->
    (m = [] -> exists r', exec r s ONormal r' /\ forall y, r' y = negb (poss (ns (find k' y)))) /\
    (forall x m', m = x :: m' -> exists r', exec r s (OFault x) r')).
Proof.
  induction s as [|c|x v|a IHa b IHb|a IHa|c a IHa|c a IHa b IHb|c a IHa|a IHa c| | |]; intros k k' m L E B; cbn [linear] in L; try contradiction;
    cbn [Nullflow_model.astmt] in E.
  - injection E as <- <-. split; [exact B|]. split.
    + intros _ r V o r' X. inversion X; subst. split; [discriminate|auto].
    + intros r R. split; [intros _; exists r; split; [constructor|exact R]|discriminate].
  - destruct (acond_linear c k k' m L E B) as (B' & Q & S & F & T). split; [exact B'|]. split.
    + intros M r V o r' X. inversion X as [|r0 c0 w C0| | | | | | | | | | | | | | | | | | | | |]; subst. specialize (S eq_refl _ V _ C0).
      split; [intros x Z; destruct w; try discriminate; exact (S _ eq_refl)|]. intros _ x H. apply V. rewrite <- Q by reflexivity. exact H.
    + intros r R. assert (V : vent k r) by (intros y H; rewrite R, H; reflexivity). split.
      * intros M. destruct (T M r V) as [w C0]. exists r. split; [exact (X_expr r c _ C0)|]. intros y. rewrite (Q M). apply R.
      * intros x m' M. exists r. exact (X_expr r c _ (F x m' M r R)).
  - injection E as <- <-. split; [apply bare_false; intros y Y; apply assign_guarded in Y; rewrite B in Y; discriminate|]. split.
    + intros _ r V o r' X. inversion X as [| |r0 x0 v0 w W| | | | | | | | | | | | | | | | | | | |]; subst. split; [discriminate|]. intros _ y Y.
      rewrite assign_find in Y. unfold set. destruct (Nat.eqb x y); [exact (vals_poss v w W Y)|apply V, Y].
    + intros r R. split; [|discriminate]. intros _. exists (set r x (negb (poss (vstate v)))). split; [constructor; destruct v; reflexivity || exact I|].
      intros y. rewrite assign_find. unfold set. destruct (Nat.eqb x y); [reflexivity|apply R].
  - destruct L as [La Lb]. destruct (astmt a k) as [k1 m1] eqn:E1. destruct (astmt b k1) as [k2 m2] eqn:E2. injection E as <- <-.
    destruct (IHa _ _ _ La E1 B) as (B1 & S1 & T1). destruct (IHb _ _ _ Lb E2 B1) as (B2 & S2 & T2). split; [exact B2|]. split.
    + intros M r V o r' X. apply app_eq_nil in M as [-> ->].
      inversion X as [| | |r0 a0 b0 r1 o0 r2 X1 X2|r0 a0 b0 o0 r1 X1 O| | | | | | | | | | | | | | | | | | ]; subst.
      * exact (S2 eq_refl _ (proj2 (S1 eq_refl _ V _ _ X1) eq_refl) _ _ X2).
      * split; [exact (proj1 (S1 eq_refl _ V _ _ X1))|]. intros Z. destruct (O Z).
    + intros r R. destruct (T1 r R) as [T3 T4]. split.
      * intros M. apply app_eq_nil in M as [-> ->]. destruct (T3 eq_refl) as (r1 & X1 & R1). destruct (proj1 (T2 r1 R1) eq_refl) as (r2 & X2 & R2).
        exists r2. split; [exact (X_seq _ _ _ _ _ _ X1 X2)|exact R2].
      * intros x m' M. destruct m1 as [|z m1]; cbn in M.
        -- destruct (T3 eq_refl) as (r1 & X1 & R1). destruct (proj2 (T2 r1 R1) x m' M) as (r2 & X2). exists r2. exact (X_seq _ _ _ _ _ _ X1 X2).
        -- injection M as -> _. destruct (T4 _ _ eq_refl) as (r1 & X1). exists r1. apply X_seq_out; [exact X1|discriminate].
  - destruct (astmt a _) as [k1 m1] eqn:E1. injection E as <- <-.
    assert (B0 : bare (Blk None k)) by (intros y; exact (B y)). destruct (IHa _ _ _ L E1 B0) as (B1 & S1 & T1).
    pose proof (astmt_shape local loopexec unreach shown a (Blk None k)) as S. rewrite E1 in S. apply shape_blk in S as (g & k2 & E & _). cbn in E. subst k1.
    cbn [pop_block]. split; [|split].
    + apply bare_false. intros y Y. specialize (B1 y). cbn [guarded] in B1. apply orb_false_elim in B1 as [B1 B2].
      apply guarded_add in Y as [Y|Y]; [congruence|]. apply guarded_side in Y. congruence.
    + intros M r V o r' X. inversion X as [| | | | |r0 a0 o0 r1 X1| | | | | | | | | | | | | | | | |]; subst.
      destruct (S1 eq_refl r V _ _ X1) as [A1 A2]. split; [exact A1|]. intros Z. apply vent_add. exact (A2 Z).
    + intros r R. destruct (T1 r R) as [T3 T4]. split.
      * intros M. destruct (T3 M) as (r1 & X1 & R1). exists r1. split; [constructor; exact X1|]. intros y. rewrite find_add. apply R1.
      * intros x m' M. destruct (T4 _ _ M) as (r1 & X1). exists r1. constructor. exact X1.
Qed.
End Linear.

(** * The statements *)
Lemma start_plains init r : agrees init r -> plains (Base (fun x => Entry (init x) false) None).
Proof. intros A x. exact (proj1 (A x)). Qed.
Lemma start_vent init r : agrees init r -> vent (Base (fun x => Entry (init x) false) None) r.
Proof. intros A x H. cbn in H. destruct (A x) as [P Q]. apply Q; intros E; rewrite E in H; discriminate. Qed.
Lemma complaints_sound local unreach shown init s r o r' : sober s -> plain_values s -> agrees init r ->
  complaints local false unreach shown init s = [] -> exec r s o r' -> forall x, o <> OFault x.
Proof.
  intros S V A C X. unfold complaints in C. destruct (astmt _ _ _ _ _ _) as [k' m] eqn:E. cbn in C. subst m.
  refine (proj1 (astmt_fine local false unreach shown s eq_refl _ _ r S V E (start_plains _ _ A) nd_none (start_vent _ _ A) _ _ _ X)).
  intros y H. discriminate H.
Qed.
Lemma complaints_covered local loopexec unreach shown init s x : covered False s x -> ~ In x (complaints local loopexec unreach shown init s).
Proof.
  intros C. unfold complaints. destruct (astmt _ _ _ _ _ _) as [k' m] eqn:E.
  exact (proj1 (astmt_covered local loopexec unreach shown x s False _ _ _ (fun f => match f with end) E) C).
Qed.
Lemma complaints_linear local loopexec unreach shown init s : linear s -> (forall x, plain_state (init x)) ->
  (complaints local loopexec unreach shown init s = [] <-> forall r o r' x, agrees init r -> exec r s o r' -> o <> OFault x) /\
  (forall x m, complaints local loopexec unreach shown init s = x :: m -> exists r r', agrees init r /\ exec r s (OFault x) r').
Proof.
  intros L P. unfold complaints. destruct (astmt _ _ _ _ _ _) as [k' m] eqn:E. cbn [snd].
  assert (B : bare (Base (fun x => Entry (init x) false) None)) by (intros y; reflexivity).
  destruct (astmt_linear local loopexec unreach shown s _ _ _ L E B) as (_ & S & T).
  assert (A : agrees init (fun y => negb (poss (init y)))).
  { intros x. split; [apply P|]. intros H1 H2. specialize (P x). destruct (init x); cbn in *; try contradiction; reflexivity || congruence. }
  destruct (T (fun y => negb (poss (init y))) (fun y => eq_refl)) as [_ T2].
  assert (F : forall x m', m = x :: m' -> exists r r', agrees init r /\ exec r s (OFault x) r').
  { intros x m' M. destruct (T2 x m' M) as (r' & X). eauto. }
  split; [split|exact F].
  - intros -> r o r' x A' X. exact (proj1 (S eq_refl r (start_vent _ _ A') _ _ X) x).
  - intros H. destruct m as [|x m']; [reflexivity|]. destruct (F x m' eq_refl) as (r & r' & A' & X). destruct (H r _ r' x A' X eq_refl).
Qed.
