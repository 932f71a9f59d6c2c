(** Lemmas on guards. *)
From Verif Require Import Cbase Guard_model Guard_spec.
From Coq Require Import Lia ZArith List Bool.
Import ListNotations.

(** ** References *)
Lemma sim_exact dom : forall l l' b, exact dom l -> exact dom l' ->
  sim b (ref_of l) (ref_of l') = true -> l = l'.
Proof.
  induction l as [x|l IH f|l IH|l IH i|l IH x]; intros [y|l' g|l'|l' j|l' y] b H H' E;
    cbn in *; try discriminate; try tauto.
  - apply Nat.eqb_eq in E. now subst.
  - apply andb_prop in E as [E1 E2]. apply Nat.eqb_eq in E2. f_equal; eauto.
  - f_equal. destruct H, H'. eauto.
  - destruct H as [-> _], H' as [? _]. discriminate.
  - destruct H as [-> _], H' as [? _]. discriminate.
  - destruct H, H'. destruct (sim b _ _) eqn:S; [|discriminate]. apply Z.eqb_eq in E. f_equal; eauto.
Qed.

Lemma sim_refl : forall l b, sim b (ref_of l) (ref_of l) = true.
Proof.
  induction l; intros b; cbn; rewrite ?IHl, ?Nat.eqb_refl, ?Z.eqb_refl; reflexivity.
Qed.

Lemma real_same_eq : forall l l', real_same (ref_of l) (ref_of l') = true -> ref_of l = ref_of l'.
Proof.
  induction l as [x|l IH f|l IH|l IH i|l IH x]; intros [y|l' g|l'|l' j|l' y] E;
    cbn in *; try discriminate;
    try (destruct (real_same (ref_of l) (ref_of l')) eqn:S; cbn in E; try discriminate; apply IH in S);
    try discriminate; try congruence.
  - apply Nat.eqb_eq in E. now subst.
  - apply Nat.eqb_eq in E. congruence.
  - apply Z.eqb_eq in E. congruence.
Qed.

(** ** Sets *)
Lemma In_insert s e r : In r (rs_insert s e) -> In r s \/ r = e.
Proof.
  unfold rs_insert. destruct (same_member s e); auto. rewrite in_app_iff. cbn. firstorder.
Qed.

Lemma In_fold_insert : forall s2 s1 r, In r (fold_left rs_insert s2 s1) -> In r s1 \/ In r s2.
Proof.
  induction s2 as [|e s2 IH]; intros s1 r H; cbn in *; auto.
  apply IH in H as [H|H]; auto. apply In_insert in H as [H|H]; auto.
Qed.

Lemma In_union s1 s2 r : In r (rs_union s1 s2) -> In r s1 \/ In r s2.
Proof.
  unfold rs_union. destruct s1; auto. apply In_fold_insert.
Qed.

Lemma In_fold_inter s2 : forall s1 acc r,
  In r (fold_left (fun s el => if member s2 el then rs_insert s el else s) s1 acc) ->
  In r acc \/ (In r s1 /\ member s2 r = true).
Proof.
  induction s1 as [|e s1 IH]; intros acc r H; cbn in *; auto.
  apply IH in H as [H|[H1 H2]]; auto.
  destruct (member s2 e) eqn:M; auto. apply In_insert in H as [H|H]; subst; auto.
Qed.

Lemma In_intersect s1 s2 r : In r (rs_intersect s1 s2) -> In r s1 /\ member s2 r = true.
Proof.
  intros H. apply In_fold_inter in H as [[]|H]. exact H.
Qed.

(** ** Evaluation *)
Section P.
  Variables (const : nat -> Z) (bits : nat -> Z -> Z -> Z) (rel : nat -> Z -> Z -> bool).
  Notation ev := (ev const bits rel).
  Notation condition := (condition const).

  Lemma ev_frame s e v s' : ev s e v s' ->
    forall l, direct l -> ~ In (root l) (assigns e) -> s' l = s l.
  Proof.
    induction 1; intros lo D N; cbn [assigns] in N;
      rewrite ?in_app_iff in N; cbn [In] in N;
      repeat match goal with IH : forall l, direct l -> _ |- _ => specialize (IH lo D) end;
      try reflexivity; try (now auto); try (now intuition congruence).
    destruct H0 as [_ H0]. rewrite H0 by intuition congruence. intuition.
  Qed.

  Lemma ev_noassign s e v s' : ev s e v s' -> assigns e = [] -> s' = s.
  Proof.
    induction 1; intros A; cbn [assigns] in A;
      repeat match goal with H : _ ++ _ = [] |- _ => apply app_eq_nil in H as [? ?] end;
      try reflexivity; try discriminate;
      repeat match goal with IH : assigns _ = [] -> _ |- _ => specialize (IH ltac:(assumption)) end;
      congruence.
  Qed.

  Lemma val_noassign e : val_expr e -> assigns e = [].
  Proof.
    induction e; cbn; intros H; try tauto; auto.
    destruct H. rewrite IHe1, IHe2; auto.
  Qed.
  Lemma null_noassign e : null_const const e -> assigns e = [].
  Proof. induction e; cbn; intros H; tauto || auto. Qed.

  Lemma null_zero s e v s' : ev s e v s' -> null_const const e -> v = 0.
  Proof. induction 1; cbn; intros N; try tauto; auto. Qed.

  Lemma val_guards e : val_expr e -> n_guards (build e) = None.
  Proof.
    induction e as [| | |e IH| |o e IH| | | | |o a IHa b IHb| | | |t e IH|]; cbn; intros H; try tauto; auto.
    - destruct o; cbn; auto.
    - destruct H as [Ha Hb]. unfold n_bin. rewrite (IHa Ha).
      destruct o; cbn; auto; destruct (_ && _ && _); auto; destruct (_ && _); auto.
  Qed.

  Lemma variable_val e : variable e -> val_expr e -> null_like (build e) = false.
  Proof.
    intros H V.
    assert (K : n_val (build e) = None /\ n_unk (build e) = false).
    { revert H V.
      induction e as [| | |e IH| |o e IH| | | | |o a IHa b IHb| | | |t e IH|];
        cbn [variable val_expr build]; intros H V; try tauto; auto.
      - destruct o; cbn; auto. destruct (IH H V) as [-> _]. auto.
      - destruct V as [Va Vb]. unfold n_bin.
        assert (E : v_arith o (n_val (build a)) (n_val (build b)) = None).
        { destruct H as [H|H]; [destruct (IHa H Va) as [-> _] | destruct (IHb H Vb) as [-> _]];
            unfold v_arith; auto. destruct (n_val (build a)); auto. }
        rewrite E. destruct o; cbn; auto;
          destruct (_ && _ && _); auto; destruct (_ && _); auto.
    }
    destruct K as [K1 K2]. unfold null_like, is_null_value. rewrite K1, K2. reflexivity.
  Qed.

  Lemma number_val e : number e -> null_like (build e) = false.
  Proof.
    intros H. assert (K : exists z, n_val (build e) = Some z /\ z <> 0 /\ n_unk (build e) = false).
    { induction e as [|z| |e IH| | | | | | | | | | |t e IH|]; cbn [number build] in *; try tauto; auto.
      - exists z. auto.
      - destruct (IH H) as (z & E1 & E2 & _). exists z. auto. }
    destruct K as (z & K1 & K2 & K3). unfold null_like, is_null_value. rewrite K1, K3.
    apply Z.eqb_neq in K2. rewrite K2. reflexivity.
  Qed.
  Lemma operand_val e : variable e \/ number e -> val_expr e -> null_like (build e) = false.
  Proof. intros [H|H] V; [apply variable_val|apply number_val]; auto. Qed.

  Lemma null_guards e : null_const const e -> n_guards (build e) = None.
  Proof. induction e; cbn; intros H; tauto || auto. Qed.

  (** What is tested has a reference, no value and no guards of its own. *)
  Lemma tested_node dom e : tested dom e ->
    n_guards (build e) = None /\ null_like (build e) = false /\
    exists l, n_ref (build e) = Some (ref_of l) /\ exact dom l /\ In l (mentions e) /\
      forall s v s', ev s e v s' -> v <> 0 -> value s' l <> 0.
  Proof.
    induction e as [t l| | |e IH| | | | | | | | | |t x e IH|t e IH|]; cbn [tested]; intros H; try tauto.
    - cbn. repeat split. exists l. repeat split; auto.
      intros s v s' E; inversion E; subst; auto.
    - destruct (IH H) as (G & N & l & R & X & I & V). cbn. repeat split; auto.
      exists l. repeat split; auto. intros s v s' E; inversion E; subst; eauto.
    - cbn. repeat split. exists (LVar x). repeat split; cbn; auto.
      intros s v s' E; inversion E; subst. destruct H7 as [<- _]. auto.
    - destruct (IH H) as (G & N & l & R & X & I & V). cbn. repeat split; auto.
      + unfold null_like, is_null_value in *. cbn. apply orb_false_iff in N as [-> _]. reflexivity.
      + exists l. repeat split; auto. intros s v s' E; inversion E; subst. intros Hv.
        eapply V; [eassumption|]. intros ->. auto.
  Qed.

  (** ** The invariant: each reference of the guards is a constant or an lvalue of the condition
      which is not null. *)
  Definition good (dom : bool) (e : expr) (P : lval -> Prop) (s : list ref) : Prop :=
    forall r, In r s -> (exists c, r = RConst c) \/
      exists l, r = ref_of l /\ exact dom l /\ In l (mentions e) /\ P l.
  Definition tset (g : guards) : list ref := match g with None => [] | Some (t, _) => t end.
  Definition fset (g : guards) : list ref := match g with None => [] | Some (_, f) => f end.

  Definition shaped dom e (g : guards) : Prop :=
    good dom e (fun _ => True) (tset g) /\ good dom e (fun _ => True) (fset g).
  Definition holds dom e (g : guards) (v : Z) (s : store) : Prop :=
    (v <> 0 -> good dom e (fun l => value s l <> 0) (tset g)) /\
    (v = 0 -> good dom e (fun l => value s l <> 0) (fset g)).

  Lemma good_nil dom e P : good dom e P [].
  Proof. intros r []. Qed.
  Lemma good_mono dom e e' (P Q : lval -> Prop) s :
    (forall l, In l (mentions e) -> In l (mentions e')) ->
    (forall l, In l (mentions e) -> P l -> Q l) -> good dom e P s -> good dom e' Q s.
  Proof.
    intros M I G r H. destruct (G r H) as [C|(l & E & X & IN & p)]; [now left|right].
    exists l. repeat split; auto.
  Qed.
  Lemma good_incl dom e e' P s :
    (forall l, In l (mentions e) -> In l (mentions e')) -> good dom e P s -> good dom e' P s.
  Proof. intros M. apply good_mono; auto. Qed.
  Lemma good_one dom e (P : lval -> Prop) l :
    exact dom l -> In l (mentions e) -> P l -> good dom e P [ref_of l].
  Proof. intros X I p r [<-|[]]. right. exists l. auto. Qed.
  Lemma good_const dom e P c : good dom e P [RConst c].
  Proof. intros r [<-|[]]. left. eauto. Qed.
  Lemma good_union dom e P s1 s2 : good dom e P s1 -> good dom e P s2 -> good dom e P (rs_union s1 s2).
  Proof. intros G1 G2 r H. apply In_union in H as [H|H]; auto. Qed.
  Lemma good_inter_l dom e P s1 s2 : good dom e P s1 -> good dom e P (rs_intersect s1 s2).
  Proof. intros G r H. apply In_intersect in H as [H _]; auto. Qed.

  Lemma sim_const : forall r c b, sim b r (RConst c) = false.
  Proof. destruct r; reflexivity. Qed.
  Lemma const_sim c r b : sim b (RConst c) r = false.
  Proof. destruct r; reflexivity. Qed.

  (** An element of the intersection is one of either set, where references are told apart. *)
  Lemma good_inter_r dom e e' P s1 s2 :
    good dom e (fun _ => True) s1 -> good dom e' P s2 ->
    (forall l, In l (mentions e') -> In l (mentions e)) ->
    good dom e P (rs_intersect s1 s2).
  Proof.
    intros G1 G2 M r H. apply In_intersect in H as [H1 H2].
    destruct (G1 r H1) as [C|(l & E & X & IN & _)]; [now left|right].
    unfold member in H2. apply existsb_exists in H2 as (r' & I' & S).
    destruct (G2 r' I') as [[c ->]|(l' & E' & X' & IN' & p)].
    - unfold similar in S. rewrite sim_const in S. discriminate.
    - subst. apply (sim_exact dom l l') in S; auto. subst l'.
      exists l. auto.
  Qed.

  Lemma invert_t g : tset (g_invert g) = fset g.
  Proof. now destruct g as [[? ?]|]. Qed.
  Lemma invert_f g : fset (g_invert g) = tset g.
  Proof. now destruct g as [[? ?]|]. Qed.
  Lemma and_t a b : tset (g_and a b) = rs_union (tset a) (tset b) \/
                    (b = None /\ tset (g_and a b) = tset a) \/ (a = None /\ tset (g_and a b) = tset b).
  Proof. destruct a as [[? ?]|], b as [[? ?]|]; cbn; auto. Qed.
  Lemma and_f a b : fset (g_and a b) = rs_intersect (fset a) (fset b) \/ fset (g_and a b) = [].
  Proof. destruct a as [[? ?]|], b as [[? ?]|]; cbn; auto. Qed.
  Lemma or_t a b : tset (g_or a b) = rs_intersect (tset a) (tset b) \/ tset (g_or a b) = [].
  Proof. destruct a as [[? ?]|], b as [[? ?]|]; cbn; auto. Qed.
  Lemma or_f a b : fset (g_or a b) = rs_union (fset a) (fset b) \/
                    (b = None /\ fset (g_or a b) = fset a) \/ (a = None /\ fset (g_or a b) = fset b).
  Proof. destruct a as [[? ?]|], b as [[? ?]|]; cbn; auto. Qed.

  Lemma good_and_t dom e P a b : good dom e P (tset a) -> good dom e P (tset b) ->
    good dom e P (tset (g_and a b)).
  Proof.
    intros. destruct (and_t a b) as [->|[[_ ->]|[_ ->]]]; auto using good_union.
  Qed.
  Lemma good_or_f dom e P a b : good dom e P (fset a) -> good dom e P (fset b) ->
    good dom e P (fset (g_or a b)).
  Proof.
    intros. destruct (or_f a b) as [->|[[_ ->]|[_ ->]]]; auto using good_union.
  Qed.

  Lemma produce_not n : n_guards (produce (n_not n)) = g_invert (n_guards (produce n)).
  Proof.
    destruct n as [g r t v u]. destruct t; cbn; auto.
    destruct r as [r|], g as [[? ?]|]; reflexivity.
  Qed.

  Lemma compare_guards ne x y :
    n_guards (n_compare ne x y) =
    if null_like x then (if ne then add_true (n_guards y) (n_ref y) else add_false (n_guards y) (n_ref y))
    else if null_like y then (if ne then add_true (n_guards x) (n_ref x) else add_false (n_guards x) (n_ref x))
    else n_guards x.
  Proof. unfold n_compare. destruct (null_like x) eqn:E; cbn; rewrite ?E; reflexivity. Qed.

  Lemma produce_compare ne x y : n_guards (produce (n_compare ne x y)) = n_guards (n_compare ne x y).
  Proof. unfold n_compare. destruct (null_like x); reflexivity. Qed.

  (** The guards of a comparison with a null constant. *)
  Lemma null_test dom a b ne : tested dom a -> null_const const b ->
    exists l, exact dom l /\ In l (mentions a) /\
      (forall s v s', ev s a v s' -> v <> 0 -> value s' l <> 0) /\
      forall g, g = n_guards (n_compare ne (build a) (build b)) \/
                g = n_guards (n_compare ne (build b) (build a)) ->
        g = None \/ g = if ne then Some ([ref_of l], []) else Some ([], [ref_of l]).
  Proof.
    intros Ta Nb. destruct (tested_node _ _ Ta) as (G & N & l & R & X & I & V).
    pose proof (null_guards b Nb) as Gb.
    exists l. repeat split; auto. intros g [->| ->]; rewrite compare_guards, N, G, R, ?Gb;
      destruct (null_like (build b)), ne; cbn; auto.
  Qed.

  Lemma bz_nz b : bz b <> 0 <-> b = true.
  Proof. destruct b; cbn; split; congruence || discriminate. Qed.
  Lemma bz_z b : bz b = 0 <-> b = false.
  Proof. destruct b; cbn; split; congruence || discriminate. Qed.

  Ltac inl := cbn [mentions]; rewrite ?in_app_iff; auto.

  Lemma shape dom e : condition dom e -> shaped dom e (n_guards (produce (build e))).
  Proof.
    induction 1 as [e H|z|t c v|a b Ha Hb|a b Ha Hb|a b Ha Hb|a b Ha Hb|a b Ha Hb Va Vb|a b Ha Hb Va Vb
                   |k a b Ha Hb|f a Ha|f n a Ha|e H IH|e H IH|a b Ha IHa Hb IHb K|a b Ha IHa Hb IHb K].
    - destruct (tested_node _ _ H) as (G & N & l & R & X & I & V).
      cbn [produce n_guards]. rewrite G, R. destruct (ty_eqb _ _); cbn; split; auto using good_nil; apply good_one; auto.
    - cbn. split; auto using good_nil.
    - destruct t; cbn; split; auto using good_nil; apply good_const.
    - cbn [build]. rewrite produce_compare.
      destruct (null_test dom a b false Ha Hb) as (l & X & I & _ & C).
      destruct (C _ (or_introl eq_refl)) as [-> | ->]; split; cbn; auto using good_nil.
      apply good_one; inl.
    - cbn [build]. rewrite produce_compare.
      destruct (null_test dom b a false Ha Hb) as (l & X & I & _ & C).
      destruct (C _ (or_intror eq_refl)) as [-> | ->]; split; cbn; auto using good_nil.
      apply good_one; inl.
    - cbn [build]. rewrite produce_compare.
      destruct (null_test dom a b true Ha Hb) as (l & X & I & _ & C).
      destruct (C _ (or_introl eq_refl)) as [-> | ->]; split; cbn; auto using good_nil.
      apply good_one; inl.
    - cbn [build]. rewrite produce_compare.
      destruct (null_test dom b a true Ha Hb) as (l & X & I & _ & C).
      destruct (C _ (or_intror eq_refl)) as [-> | ->]; split; cbn; auto using good_nil.
      apply good_one; inl.
    - cbn [build]. rewrite produce_compare, compare_guards, !operand_val, val_guards; auto.
      split; apply good_nil.
    - cbn [build]. rewrite produce_compare, compare_guards, !operand_val, val_guards; auto.
      split; apply good_nil.
    - cbn. rewrite val_guards; auto. split; apply good_nil.
    - cbn. split; apply good_nil.
    - destruct (tested_node _ _ Ha) as (G & N & l & R & X & I & V).
      cbn. rewrite R. destruct n; cbn; split; auto using good_nil; apply good_one; auto.
    - exact IH.
    - cbn [build]. rewrite produce_not. destruct IH. split; rewrite ?invert_t, ?invert_f; auto.
    - destruct IHa as [A1 A2], IHb as [B1 B2].
      assert (M1 : forall l, In l (mentions a) -> In l (mentions (EAnd a b))) by (intros; inl).
      assert (M2 : forall l, In l (mentions b) -> In l (mentions (EAnd a b))) by (intros; inl).
      change (n_guards (produce (build (EAnd a b)))) with
        (g_and (n_guards (produce (build a))) (n_guards (produce (build b)))).
      set (ga := n_guards (produce (build a))) in *. set (gb := n_guards (produce (build b))) in *.
      split.
      + apply good_and_t; [exact (good_mono _ _ _ _ _ _ M1 (fun _ _ p => p) A1)
                          |exact (good_mono _ _ _ _ _ _ M2 (fun _ _ p => p) B1)].
      + destruct (and_f ga gb) as [-> | ->]; auto using good_nil.
        apply good_inter_l. exact (good_mono _ _ _ _ _ _ M1 (fun _ _ p => p) A2).
    - destruct IHa as [A1 A2], IHb as [B1 B2].
      assert (M1 : forall l, In l (mentions a) -> In l (mentions (EOr a b))) by (intros; inl).
      assert (M2 : forall l, In l (mentions b) -> In l (mentions (EOr a b))) by (intros; inl).
      change (n_guards (produce (build (EOr a b)))) with
        (g_or (n_guards (produce (build a))) (n_guards (produce (build b)))).
      set (ga := n_guards (produce (build a))) in *. set (gb := n_guards (produce (build b))) in *.
      split.
      + destruct (or_t ga gb) as [-> | ->]; auto using good_nil.
        apply good_inter_l. exact (good_mono _ _ _ _ _ _ M1 (fun _ _ p => p) A1).
      + apply good_or_f; [exact (good_mono _ _ _ _ _ _ M1 (fun _ _ p => p) A2)
                         |exact (good_mono _ _ _ _ _ _ M2 (fun _ _ p => p) B2)].
  Qed.

  (** ** What the first operand has tested survives the second. *)
  Lemma direct_ploc s l : ldirect l -> direct (ploc s l) /\ root (ploc s l) = lroot l.
  Proof. induction l; cbn; tauto. Qed.
  Lemma direct_ploc_any s s' l : ldirect l -> ploc s l = ploc s' l.
  Proof. induction l; cbn; try tauto. intros H. f_equal; auto. Qed.

  Lemma keeps_value a b s v s' l : keeps a b -> ev s b v s' -> In l (mentions a) ->
    value s' l = value s l.
  Proof.
    intros [K|K] E I.
    - now rewrite (ev_noassign _ _ _ _ E K).
    - destruct (K l I) as [D N]. unfold value. rewrite (direct_ploc_any s' s l D).
      destruct (direct_ploc s l D) as [D1 R1].
      apply (ev_frame _ _ _ _ E); auto. now rewrite R1.
  Qed.

  Lemma inv_eq s a b u s2 : ev s (EEq a b) u s2 ->
    exists v s1 w, ev s a v s1 /\ ev s1 b w s2 /\ u = bz (Z.eqb v w).
  Proof. intros E; inversion E; subst; eauto 8. Qed.
  Lemma inv_ne s a b u s2 : ev s (ENe a b) u s2 ->
    exists v s1 w, ev s a v s1 /\ ev s1 b w s2 /\ u = bz (negb (Z.eqb v w)).
  Proof. intros E; inversion E; subst; eauto 8. Qed.
  Lemma inv_not s a u s2 : ev s (ENot a) u s2 -> exists v, ev s a v s2 /\ u = bz (Z.eqb v 0).
  Proof. intros E; inversion E; subst; eauto 8. Qed.
  Lemma inv_paren s a u s2 : ev s (EParen a) u s2 -> ev s a u s2.
  Proof. intros E; inversion E; subst; eauto 8. Qed.
  Lemma inv_call s f n a w s2 : ev s (ECall f n a) w s2 -> exists v, ev s a v s2 /\ honest n v w.
  Proof. intros E; inversion E; subst; eauto 8. Qed.
  Lemma inv_and s a b u s2 : ev s (EAnd a b) u s2 ->
    (ev s a 0 s2 /\ u = 0) \/
    exists v s1 w, ev s a v s1 /\ v <> 0 /\ ev s1 b w s2 /\ u = bz (negb (Z.eqb w 0)).
  Proof. intros E; inversion E; subst; eauto 10. Qed.
  Lemma inv_or s a b u s2 : ev s (EOr a b) u s2 ->
    (exists v, ev s a v s2 /\ v <> 0 /\ u = 1) \/
    exists s1 w, ev s a 0 s1 /\ ev s1 b w s2 /\ u = bz (negb (Z.eqb w 0)).
  Proof. intros E; inversion E; subst; eauto 10. Qed.

  Lemma sound dom e : condition dom e -> forall s v s', ev s e v s' ->
    holds dom e (n_guards (produce (build e))) v s'.
  Proof.
    induction 1 as [e H|z|t c v0|a b Ha Hb|a b Ha Hb|a b Ha Hb|a b Ha Hb|a b Ha Hb Va Vb|a b Ha Hb Va Vb
                   |k a b Ha Hb|f a Ha|f n a Ha|e H IH|e H IH|a b Ha IHa Hb IHb K|a b Ha IHa Hb IHb K];
      intros s v s' E.
    - destruct (tested_node _ _ H) as (G & N & l & R & X & I & V).
      cbn [produce n_guards]. rewrite G, R.
      destruct (ty_eqb _ _); cbn; split; intros; auto using good_nil.
      apply good_one; eauto.
    - cbn. split; intros; apply good_nil.
    - destruct t; cbn; split; intros; auto using good_nil; apply good_const.
    - cbn [build]. rewrite produce_compare.
      destruct (null_test dom a b false Ha Hb) as (l & X & I & V & C).
      apply inv_eq in E as (x & s1 & y & Ea & Eb & ->).
      pose proof (null_zero _ _ _ _ Eb Hb) as Z0. subst y.
      pose proof (ev_noassign _ _ _ _ Eb (null_noassign _ Hb)) as S0. subst s'.
      destruct (C _ (or_introl eq_refl)) as [-> | ->]; split; cbn [tset fset]; intros Q; auto using good_nil.
      apply good_one; inl. apply bz_z in Q. apply Z.eqb_neq in Q. eapply V; [eassumption|lia].
    - cbn [build]. rewrite produce_compare.
      destruct (null_test dom b a false Ha Hb) as (l & X & I & V & C).
      apply inv_eq in E as (x & s1 & y & Ea & Eb & ->).
      pose proof (null_zero _ _ _ _ Ea Hb) as Z0. subst x.
      destruct (C _ (or_intror eq_refl)) as [-> | ->]; split; cbn [tset fset]; intros Q; auto using good_nil.
      apply good_one; inl. apply bz_z in Q. apply Z.eqb_neq in Q. eapply V; [eassumption|lia].
    - cbn [build]. rewrite produce_compare.
      destruct (null_test dom a b true Ha Hb) as (l & X & I & V & C).
      apply inv_ne in E as (x & s1 & y & Ea & Eb & ->).
      pose proof (null_zero _ _ _ _ Eb Hb) as Z0. subst y.
      pose proof (ev_noassign _ _ _ _ Eb (null_noassign _ Hb)) as S0. subst s'.
      destruct (C _ (or_introl eq_refl)) as [-> | ->]; split; cbn [tset fset]; intros Q; auto using good_nil.
      apply good_one; inl. apply bz_nz in Q. apply negb_true_iff, Z.eqb_neq in Q. eapply V; [eassumption|lia].
    - cbn [build]. rewrite produce_compare.
      destruct (null_test dom b a true Ha Hb) as (l & X & I & V & C).
      apply inv_ne in E as (x & s1 & y & Ea & Eb & ->).
      pose proof (null_zero _ _ _ _ Ea Hb) as Z0. subst x.
      destruct (C _ (or_intror eq_refl)) as [-> | ->]; split; cbn [tset fset]; intros Q; auto using good_nil.
      apply good_one; inl. apply bz_nz in Q. apply negb_true_iff, Z.eqb_neq in Q. eapply V; [eassumption|lia].
    - cbn [build]. rewrite produce_compare, compare_guards, !operand_val, val_guards; auto.
      split; intros; apply good_nil.
    - cbn [build]. rewrite produce_compare, compare_guards, !operand_val, val_guards; auto.
      split; intros; apply good_nil.
    - cbn. rewrite val_guards; auto. split; intros; apply good_nil.
    - cbn. split; intros; apply good_nil.
    - destruct (tested_node _ _ Ha) as (G & N & l & R & X & I & V).
      cbn. rewrite R. apply inv_call in E as (x & Ea & Hn).
      destruct n; cbn; split; intros; auto using good_nil; apply good_one; auto; eapply V; eauto;
        intros ->; cbn in *; tauto.
    - apply inv_paren in E. exact (IH _ _ _ E).
    - apply inv_not in E as (x & Ea & ->). cbn [build]. rewrite produce_not.
      destruct (IH _ _ _ Ea) as [I1 I2]. split; rewrite ?invert_t, ?invert_f; intros Q.
      + apply bz_nz, Z.eqb_eq in Q. exact (I2 Q).
      + apply bz_z, Z.eqb_neq in Q. exact (I1 Q).
    - assert (M1 : forall l, In l (mentions a) -> In l (mentions (EAnd a b))) by (intros; inl).
      assert (M2 : forall l, In l (mentions b) -> In l (mentions (EAnd a b))) by (intros; inl).
      pose proof (shape _ _ Ha) as [SA1 SA2]. pose proof (shape _ _ Hb) as [SB1 SB2].
      change (n_guards (produce (build (EAnd a b)))) with
        (g_and (n_guards (produce (build a))) (n_guards (produce (build b)))).
      set (ga := n_guards (produce (build a))) in *. set (gb := n_guards (produce (build b))) in *.
      apply inv_and in E as [[Ea ->]|(x & s1 & y & Ea & Nx & Eb & ->)].
      + destruct (IHa _ _ _ Ea) as [_ I2]. split; intros Q; [congruence|].
        destruct (and_f ga gb) as [-> | ->]; auto using good_nil.
        apply good_inter_l. apply (good_incl _ _ _ _ _ M1). auto.
      + destruct (IHa _ _ _ Ea) as [I1 _]. destruct (IHb _ _ _ Eb) as [J1 J2]. split; intros Q.
        * apply bz_nz, negb_true_iff, Z.eqb_neq in Q.
          apply good_and_t.
          -- refine (good_mono _ _ _ _ _ _ M1 _ (I1 Nx)).
             intros l IL. cbn. rewrite (keeps_value _ _ _ _ _ _ K Eb IL). auto.
          -- apply (good_incl _ _ _ _ _ M2). auto.
        * apply bz_z, negb_false_iff, Z.eqb_eq in Q.
          destruct (and_f ga gb) as [-> | ->]; auto using good_nil.
          apply good_inter_r with (e' := b); auto. apply (good_incl _ _ _ _ _ M1). auto.
    - assert (M1 : forall l, In l (mentions a) -> In l (mentions (EOr a b))) by (intros; inl).
      assert (M2 : forall l, In l (mentions b) -> In l (mentions (EOr a b))) by (intros; inl).
      pose proof (shape _ _ Ha) as [SA1 SA2]. pose proof (shape _ _ Hb) as [SB1 SB2].
      change (n_guards (produce (build (EOr a b)))) with
        (g_or (n_guards (produce (build a))) (n_guards (produce (build b)))).
      set (ga := n_guards (produce (build a))) in *. set (gb := n_guards (produce (build b))) in *.
      apply inv_or in E as [(x & Ea & Nx & ->)|(s1 & y & Ea & Eb & ->)].
      + destruct (IHa _ _ _ Ea) as [I1 _]. split; intros Q; [|discriminate].
        destruct (or_t ga gb) as [-> | ->]; auto using good_nil.
        apply good_inter_l. apply (good_incl _ _ _ _ _ M1). auto.
      + destruct (IHa _ _ _ Ea) as [_ I2]. destruct (IHb _ _ _ Eb) as [J1 J2]. split; intros Q.
        * apply bz_nz, negb_true_iff, Z.eqb_neq in Q.
          destruct (or_t ga gb) as [-> | ->]; auto using good_nil.
          apply good_inter_r with (e' := b); auto. apply (good_incl _ _ _ _ _ M1). auto.
        * apply bz_z, negb_false_iff, Z.eqb_eq in Q.
          apply good_or_f.
          -- refine (good_mono _ _ _ _ _ _ M1 _ (I2 eq_refl)).
             intros l IL. cbn. rewrite (keeps_value _ _ _ _ _ _ K Eb IL). auto.
          -- apply (good_incl _ _ _ _ _ M2). auto.
  Qed.

  Lemma good_member dom e (P : lval -> Prop) s l : good dom e P s -> exact dom l ->
    member s (ref_of l) = true -> P l.
  Proof.
    intros G X M. unfold member in M. apply existsb_exists in M as (r & I & S).
    destruct (G r I) as [[c ->]|(l' & -> & X' & _ & p)].
    - unfold similar in S. rewrite sim_const in S. discriminate.
    - apply (sim_exact dom) in S; auto. now subst.
  Qed.

  Lemma guarded_tset g r : is_guarded g r = member (tset g) r.
  Proof. now destruct g as [[? ?]|]. Qed.
  Lemma null_fset g r : must_be_null g r = member (fset g) r.
  Proof. now destruct g as [[? ?]|]. Qed.

  Theorem guards_sound dom e s v s' l : condition dom e -> ev s e v s' -> exact dom l ->
    (is_guarded (test_guards e) (ref_of l) = true -> v <> 0 -> value s' l <> 0) /\
    (must_be_null (test_guards e) (ref_of l) = true -> v = 0 -> value s' l <> 0).
  Proof.
    intros C E X. destruct (sound dom e C s v s' E) as [S1 S2].
    rewrite guarded_tset, null_fset. unfold test_guards. split; intros M Q.
    - exact (good_member _ _ _ _ _ (S1 Q) X M).
    - exact (good_member _ _ _ _ _ (S2 Q) X M).
  Qed.
End P.

(** ** Laws *)
Lemma test_not e : test_guards (ENot e) = g_invert (test_guards e).
Proof. apply produce_not. Qed.
Lemma test_and a b : test_guards (EAnd a b) = g_and (test_guards a) (test_guards b).
Proof. reflexivity. Qed.
Lemma test_or a b : test_guards (EOr a b) = g_or (test_guards a) (test_guards b).
Proof. reflexivity. Qed.
Lemma invert_invert g : g_invert (g_invert g) = g.
Proof. now destruct g as [[? ?]|]. Qed.
Lemma invert_and a b : g_invert (g_and a b) = g_or (g_invert a) (g_invert b).
Proof. destruct a as [[? ?]|], b as [[? ?]|]; reflexivity. Qed.
Lemma invert_or a b : g_invert (g_or a b) = g_and (g_invert a) (g_invert b).
Proof. destruct a as [[? ?]|], b as [[? ?]|]; reflexivity. Qed.

Lemma same_eq a b : test_guards a = test_guards b -> same_guards a b.
Proof. unfold same_guards. intros ->. auto. Qed.

(** References built are never rooted at a constant. *)
Definition wf_ref (r : ref) : Prop := (exists c, r = RConst c) \/ exists l, r = ref_of l.
Definition wf_set (s : list ref) : Prop := forall r, In r s -> wf_ref r.

Lemma wf_insert s r : wf_set s -> wf_ref r -> wf_set (rs_insert s r).
Proof. intros W R x H. apply In_insert in H as [H| ->]; auto. Qed.
Lemma wf_union s t : wf_set s -> wf_set t -> wf_set (rs_union s t).
Proof. intros W R x H. apply In_union in H as [H|H]; auto. Qed.
Lemma wf_inter s t : wf_set s -> wf_set (rs_intersect s t).
Proof. intros W x H. apply In_intersect in H as [H _]; auto. Qed.
Lemma wf_nil : wf_set [].
Proof. intros x []. Qed.

Definition wf_guards (g : guards) : Prop := wf_set (tset g) /\ wf_set (fset g).
Definition wf_node (n : node) : Prop :=
  wf_guards (n_guards n) /\ forall r, n_ref n = Some r -> wf_ref r.

Lemma wf_add_true g r : wf_guards g -> (forall x, r = Some x -> wf_ref x) -> wf_guards (add_true g r).
Proof.
  intros [W1 W2] R. destruct r as [r|]; [|split; auto].
  destruct g as [[t f]|]; cbn in *; split; auto using wf_nil; try (apply wf_insert; auto using wf_nil).
  intros x [<-|[]]; auto.
Qed.
Lemma wf_invert g : wf_guards g -> wf_guards (g_invert g).
Proof. intros [W1 W2]. destruct g as [[? ?]|]; split; auto. Qed.
Lemma add_false_invert g r : add_false g r = g_invert (add_true (g_invert g) r).
Proof. destruct r, g as [[? ?]|]; reflexivity. Qed.
Lemma wf_add_false g r : wf_guards g -> (forall x, r = Some x -> wf_ref x) -> wf_guards (add_false g r).
Proof. intros. rewrite add_false_invert. auto using wf_invert, wf_add_true. Qed.
Lemma wf_and a b : wf_guards a -> wf_guards b -> wf_guards (g_and a b).
Proof.
  intros [A1 A2] [B1 B2]. destruct a as [[? ?]|], b as [[? ?]|]; cbn in *; split; cbn;
    auto using wf_nil, wf_union, wf_inter.
Qed.
Lemma wf_or a b : wf_guards a -> wf_guards b -> wf_guards (g_or a b).
Proof.
  intros. rewrite <- (invert_invert (g_or a b)), invert_or. auto using wf_invert, wf_and.
Qed.
Lemma wf_none : wf_guards None.
Proof. split; apply wf_nil. Qed.
Lemma wf_produce n : wf_node n -> wf_guards (n_guards (produce n)).
Proof. intros [W R]. cbn. destruct (ty_eqb _ _); auto using wf_add_true. Qed.

Lemma wf_mk g r t v u : wf_guards g -> (forall x, r = Some x -> wf_ref x) -> wf_node (Node g r t v u).
Proof. split; auto. Qed.
Lemma no_ref : forall x : ref, None = Some x -> wf_ref x.
Proof. discriminate. Qed.

Lemma wf_build e : wf_node (build e).
Proof.
  induction e as [t l|z|t c v|e IH|e IH|o e IH|a IHa b IHb|a IHa b IHb|a IHa b IHb|a IHa b IHb|o a IHa b IHb
                 |a IHa b IHb|p IHp a IHa b IHb|t x e IH|t e IH|f n a IH]; cbn [build].
  - apply wf_mk; [apply wf_none|]. intros x [= <-]. right. eauto.
  - apply wf_mk; [apply wf_none|apply no_ref].
  - apply wf_mk; [apply wf_none|]. intros x [= <-]. left. eauto.
  - exact IH.
  - destruct IH as [W R]. unfold n_not. destruct (n_ty (build e)); apply wf_mk; auto using wf_invert, no_ref, wf_add_false.
  - destruct IH as [W R]. destruct o; apply wf_mk; auto using no_ref.
  - unfold n_logic. apply wf_mk; auto using no_ref. apply wf_and; apply wf_produce; auto.
  - unfold n_logic. apply wf_mk; auto using no_ref. apply wf_or; apply wf_produce; auto.
  - destruct IHa, IHb. unfold n_compare.
    destruct (null_like (build a)); apply wf_mk; auto using no_ref; destruct (null_like _); auto using wf_add_false.
  - destruct IHa, IHb. unfold n_compare.
    destruct (null_like (build a)); apply wf_mk; auto using no_ref; destruct (null_like _); auto using wf_add_true.
  - destruct IHa, IHb. unfold n_bin. destruct o; try (apply wf_mk; auto using no_ref; fail);
      destruct (_ && _ && _); try (apply wf_mk; auto using no_ref; fail);
      destruct (_ && _); apply wf_mk; auto using no_ref.
  - destruct IHa, IHb. apply wf_mk; auto.
  - pose proof (wf_produce _ IHp). destruct IHa. apply wf_mk; auto.
  - apply wf_mk; [apply wf_none|]. intros y [= <-]. right. exists (LVar x). reflexivity.
  - destruct IH. apply wf_mk; auto.
  - destruct IH. apply wf_mk; auto using no_ref. destruct n; auto using wf_none, wf_add_true, wf_add_false.
Qed.

Lemma wf_test e : wf_guards (test_guards e).
Proof. apply wf_produce, wf_build. Qed.

Lemma member_app s t r : member (s ++ t) r = member s r || member t r.
Proof. unfold member. now rewrite existsb_app. Qed.

Lemma member_cons x t r : member (x :: t) r = similar r x || member t r.
Proof. reflexivity. Qed.
Lemma member_nil r : member [] r = false.
Proof. reflexivity. Qed.

Lemma member_insert s x r : wf_set s -> wf_ref x -> member (rs_insert s x) r = member s r || similar r x.
Proof.
  intros W X. unfold rs_insert. destruct (same_member s x) eqn:M.
  - destruct X as [[c ->]|[l ->]].
    + unfold similar. rewrite sim_const. now rewrite orb_false_r.
    + unfold same_member in M. apply existsb_exists in M as (y & I & S).
      destruct (W y I) as [[c ->]|[l' ->]].
      * destruct l; discriminate.
      * apply real_same_eq in S. rewrite S. destruct (similar r (ref_of l')) eqn:E;
          [|now rewrite orb_false_r].
        rewrite orb_true_r. unfold member. apply existsb_exists. eauto.
  - rewrite member_app. cbn. now rewrite orb_false_r.
Qed.

Lemma member_fold : forall t s r, wf_set s -> wf_set t ->
  member (fold_left rs_insert t s) r = member s r || member t r.
Proof.
  induction t as [|x t IH]; intros s r W T; cbn [fold_left].
  - now rewrite member_nil, orb_false_r.
  - rewrite member_cons, IH.
    + rewrite member_insert by auto using in_eq. now rewrite <- orb_assoc.
    + apply wf_insert; auto using in_eq.
    + intros y I. apply T. now right.
Qed.

Lemma member_union s t r : wf_set s -> wf_set t -> member (rs_union s t) r = member s r || member t r.
Proof.
  intros W T. unfold rs_union. destruct s; [reflexivity|]. now apply member_fold.
Qed.

Lemma guarded_and a b r : is_guarded (test_guards (EAnd a b)) r =
  is_guarded (test_guards a) r || is_guarded (test_guards b) r.
Proof.
  rewrite test_and. destruct (wf_test a) as [A _], (wf_test b) as [B _].
  destruct (test_guards a) as [[? ?]|], (test_guards b) as [[? ?]|]; cbn in *;
    rewrite ?orb_false_r; auto. now rewrite member_union.
Qed.
Lemma null_or a b r : must_be_null (test_guards (EOr a b)) r =
  must_be_null (test_guards a) r || must_be_null (test_guards b) r.
Proof.
  rewrite test_or. destruct (wf_test a) as [_ A], (wf_test b) as [_ B].
  destruct (test_guards a) as [[? ?]|], (test_guards b) as [[? ?]|]; cbn in *;
    rewrite ?orb_false_r; auto. now rewrite member_union.
Qed.

(** Intersections, where references are told apart. *)
Definition exact_set dom (s : list ref) : Prop :=
  forall r, In r s -> (exists c, r = RConst c) \/ exists l, r = ref_of l /\ exact dom l.

Lemma exact_wf dom s : exact_set dom s -> wf_set s.
Proof. intros E r H. destruct (E r H) as [?|(l & -> & _)]; [left|right]; eauto. Qed.

Lemma member_inter_fold dom t : exact_set dom t -> forall s acc l, exact dom l ->
  exact_set dom s -> wf_set acc ->
  member (fold_left (fun s el => if member t el then rs_insert s el else s) s acc) (ref_of l) =
  member acc (ref_of l) || (member s (ref_of l) && member t (ref_of l)).
Proof.
  intros T. induction s as [|x s IH]; intros acc l L X W; cbn [fold_left].
  - rewrite member_nil. now rewrite orb_false_r.
  - assert (X' : exact_set dom s) by (intros y I; apply X; now right).
    assert (Wx : wf_ref x) by (apply (exact_wf dom (x :: s) X); apply in_eq).
    rewrite member_cons, IH; auto.
    + destruct (member t x) eqn:M.
      * rewrite member_insert by auto.
        destruct (similar (ref_of l) x) eqn:S; rewrite ?orb_false_r, ?orb_true_r; auto.
        cbn. replace (member t (ref_of l)) with true; [now rewrite orb_true_r|].
        destruct (X x (in_eq _ _)) as [[c ->]|(l' & -> & L')].
        -- unfold similar in S. rewrite sim_const in S. discriminate.
        -- apply (sim_exact dom) in S; auto. now subst.
      * destruct (similar (ref_of l) x) eqn:S; auto. cbn.
        assert (N : member t (ref_of l) = false).
        { destruct (X x (in_eq _ _)) as [[c ->]|(l' & -> & L')].
          -- unfold similar in S. rewrite sim_const in S. discriminate.
          -- apply (sim_exact dom) in S; auto. now subst. }
        rewrite N, andb_false_r. reflexivity.
    + destruct (member t x); auto. now apply wf_insert.
Qed.

Lemma member_inter dom s t l : exact dom l -> exact_set dom s -> exact_set dom t ->
  member (rs_intersect s t) (ref_of l) = member s (ref_of l) && member t (ref_of l).
Proof.
  intros. unfold rs_intersect. rewrite (member_inter_fold dom); auto using wf_nil.
Qed.

Lemma shaped_exact const dom e : condition const dom e ->
  exact_set dom (tset (test_guards e)) /\ exact_set dom (fset (test_guards e)).
Proof.
  intros C. destruct (shape const (fun _ a _ => a) (fun _ _ _ => true) dom e C) as [S1 S2].
  split; intros r I; [destruct (S1 r I) as [?|(l & ? & ? & _)] | destruct (S2 r I) as [?|(l & ? & ? & _)]];
    eauto.
Qed.

Lemma guarded_or const dom a b l : condition const dom a -> condition const dom b -> exact dom l ->
  is_guarded (test_guards (EOr a b)) (ref_of l) =
  is_guarded (test_guards a) (ref_of l) && is_guarded (test_guards b) (ref_of l).
Proof.
  intros A B L. rewrite test_or.
  destruct (shaped_exact _ _ _ A) as [A1 _], (shaped_exact _ _ _ B) as [B1 _].
  destruct (test_guards a) as [[? ?]|], (test_guards b) as [[? ?]|]; cbn in *;
    rewrite ?andb_false_r; auto. now apply (member_inter dom).
Qed.
Lemma null_and const dom a b l : condition const dom a -> condition const dom b -> exact dom l ->
  must_be_null (test_guards (EAnd a b)) (ref_of l) =
  must_be_null (test_guards a) (ref_of l) && must_be_null (test_guards b) (ref_of l).
Proof.
  intros A B L. rewrite test_and.
  destruct (shaped_exact _ _ _ A) as [_ A1], (shaped_exact _ _ _ B) as [_ B1].
  destruct (test_guards a) as [[? ?]|], (test_guards b) as [[? ?]|]; cbn in *;
    rewrite ?andb_false_r; auto. now apply (member_inter dom).
Qed.

(** ** The condition of a for *)
Lemma for_weaker e : forall r, (is_guarded (for_guards e) r = true -> is_guarded (test_guards e) r = true) /\
                          must_be_null (for_guards e) r = must_be_null (test_guards e) r.
Proof.
  intros r. unfold for_guards, test_guards. destruct (wf_build e) as [W R].
  cbn. destruct (ty_eqb _ _); auto.
  destruct (n_ref (build e)) as [x|] eqn:E; [|cbn; auto]. specialize (R x eq_refl).
  destruct (n_guards (build e)) as [[t f]|] eqn:G; cbn in *; auto.
  - destruct W as [W _]. cbn in W. rewrite member_insert by auto. split; auto.
    intros ->. reflexivity.
  - split; auto. discriminate.
Qed.
Lemma for_same e : n_ty (build e) <> Tptr -> for_guards e = test_guards e.
Proof. unfold for_guards, test_guards. cbn. destruct (n_ty (build e)); cbn; congruence. Qed.

Lemma null_test_forms l n : n = ELit 0 \/ (exists t c, n = EConst t c (Some 0)) ->
  let p := ERef Tptr l in
  test_guards (ENe p n) = test_guards p /\ test_guards (ENe n p) = test_guards p /\
  test_guards (ENot (EEq p n)) = test_guards p /\ test_guards (ENot (EEq n p)) = test_guards p /\
  test_guards (EEq p n) = test_guards (ENot p) /\ test_guards (EEq n p) = test_guards (ENot p).
Proof. intros [->|(t & c & ->)]; cbn; auto 10. Qed.
