(** * Proofs about resolution, lists of bounds and substitution *)
From Coq Require Import ZArith List Bool Lia ZifyBool.
From Verif Require Import Cbase Cbase_facts Constr_model Constr_spec Constr_proofs.
Import ListNotations.
Local Open Scope Z_scope.

(** ** propagateConstants without zero right operands *)

Record psound (e : cexpr) (x : cexpr * bool * Z) : Prop := {
  ps_lit : is_lit (fst (fst x)) = true -> snd x = 0 /\ snd (fst x) = false;
  ps_p : snd (fst x) = false -> snd x = 0;
  ps_weight : weight (fst (fst x)) + Z.abs (snd x) <= weight e;
  ps_den : forall rho v, den rho e = Some v ->
           exists w, den rho (fst (fst x)) = Some w /\ v = shift w (snd x) }.

Lemma ps_rz : forall e a p z, psound e (a, p, z) -> psound e (removeZero a, p, z).
Proof.
  intros e a p z []; constructor; simpl in *.
  - rewrite rz_lit; auto.
  - auto.
  - rewrite rz_weight; auto.
  - intros rho v H. destruct (ps_den0 rho v H) as (w & Hw & ->).
    exists w. split; auto. apply rz_den; auto.
Qed.

Lemma node_sound : forall op l r x1 x2,
  psound l x1 -> psound r x2 -> weight l + weight r < 2147483648 ->
  exists x, prop_node op op x1 x2 = Ok x /\ psound (Binary op l r) x.
Proof.
  intros op l r [[a1 p1] z1] [[a2 p2] z2] P1 P2 Hw.
  apply ps_rz in P1. apply ps_rz in P2. unfold prop_node.
  set (e1 := removeZero a1) in *. set (e2 := removeZero a2) in *. clearbody e1 e2. clear a1 a2.
  destruct P1 as [L1 Q1 W1 D1]. destruct P2 as [L2 Q2 W2 D2]. simpl in *.
  pose proof (weight_nonneg e1). pose proof (weight_nonneg e2).
  rewrite (as_int_zop op z1 z2 (weight l + weight r)) by lia. simpl.
  assert (Hd : forall rho v, den rho (Binary op l r) = Some v ->
     exists w1 w2 w, den rho e1 = Some w1 /\ den rho e2 = Some w2 /\
       match op with PLUS => vadd w1 w2 | MINUS => vsub w1 w2 end = Some w /\
       v = shift w (zop op z1 z2)).
  { intros rho v K. simpl in K.
    destruct (den rho l) as [x|] eqn:El; [|discriminate].
    destruct (den rho r) as [y|] eqn:Er; [|discriminate].
    apply D1 in El as (w1 & E1 & ->). apply D2 in Er as (w2 & E2 & ->).
    destruct (vop_shift _ _ _ _ _ _ K) as (w & Hw' & ->). eauto 7. }
  destruct (is_lit e1) eqn:E1.
  - destruct (L1 eq_refl) as [-> ->]. apply is_lit_inv in E1 as (v1 & ->). simpl in *.
    destruct (is_lit e2) eqn:E2; simpl.
    + destruct (L2 eq_refl) as [-> ->]. apply is_lit_inv in E2 as (v2 & ->). simpl in *.
      rewrite as_long_ok by (destruct op; simpl; lia). simpl.
      replace (zop op 0 0) with 0 in * by (destruct op; reflexivity).
      eexists; split; [reflexivity|]. constructor; simpl; auto.
      * destruct op; simpl; lia.
      * intros rho v K. apply Hd in K as (w1 & w2 & w & [= <-] & [= <-] & Hw' & ->).
        exists w. split; auto. destruct op; simpl in *; congruence.
    + rewrite (ipl_ok PLUS _ _ (weight l + weight r)) by (destruct op; simpl; lia). simpl.
      destruct op; (eexists; split; [reflexivity|]); constructor; simpl; auto; try congruence;
        try lia; intros rho v K; apply Hd in K as (w1 & w2 & w & [= <-] & Hw2 & Hw' & ->).
      * exists w2. split; auto.
        destruct w2 as [a|b o]; simpl in *; inversion Hw'; subst; simpl; f_equal; lia.
      * rewrite Hw2. destruct w2 as [a|b o]; simpl in *; [|discriminate].
        inversion Hw'; subst. eexists; split; [reflexivity|]. simpl; f_equal; lia.
  - simpl. destruct (is_lit e2) eqn:E2.
    + destruct (L2 eq_refl) as [-> ->]. apply is_lit_inv in E2 as (v2 & ->). simpl in *.
      rewrite (ipl_ok op _ _ (weight l + weight r)) by (destruct op; simpl; lia). simpl.
      eexists; split; [reflexivity|]. constructor; simpl; auto; try congruence.
      * destruct op; simpl; lia.
      * intros rho v K. apply Hd in K as (w1 & w2 & w & Hw1 & [= <-] & Hw' & ->).
        exists w1. split; auto.
        destruct w1 as [a|b o], op; simpl in *; inversion Hw'; subst; simpl; f_equal; lia.
    + eexists; split; [reflexivity|]. refine (ps_rz _ (Binary op e1 e2) _ _ _).
      constructor; simpl; auto; try congruence.
      * intros K. apply orb_false_elim in K as [K1 K2]. rewrite (Q1 K1), (Q2 K2).
        destruct op; reflexivity.
      * destruct op; simpl; lia.
      * intros rho v K. apply Hd in K as (w1 & w2 & w & -> & -> & Hw' & ->). eauto.
Qed.

Lemma propagate_sound : forall e, no_zero_right e = true -> weight e < 2147483648 ->
  exists x, propagate e = Ok x /\ psound e x.
Proof.
  induction e as [t|u a IH|op l IHl r IHr]; intros Hz Hw.
  - eexists; split; [reflexivity|]. constructor; simpl; auto; try lia.
    intros rho v H. exists v. rewrite shift_0. auto.
  - eexists; split; [reflexivity|]. constructor; simpl; auto; try lia.
    intros rho v H. exists v. rewrite shift_0. auto.
  - simpl in Hz, Hw. apply andb_prop in Hz as [Hz H0]. apply andb_prop in Hz as [Hl Hr].
    pose proof (weight_nonneg l). pose proof (weight_nonneg r).
    destruct IHl as (x1 & E1 & P1); auto; [lia|]. destruct IHr as (x2 & E2 & P2); auto; [lia|].
    destruct (node_sound op l r x1 x2 P1 P2 Hw) as (x & Ex & P).
    exists x. split; auto.
    assert (Hrz : removeZero (Binary op l r) = Binary op l r /\
      (match r with
       | Binary _ (Term (TLit z)) t => if z =? 0 then propagate t else propagate r
       | _ => propagate r end) = propagate r).
    { destruct r as [|u a|op' [t|u a|op'' x0 y] r']; auto. destruct t; auto.
      destruct (Z.eqb_spec z 0) as [->|N]; [discriminate|].
      simpl. destruct (Z.eqb_spec z 0); [contradiction|]. auto. }
    destruct Hrz as [Erz Er].
    cbn [propagate]. rewrite E1. cbn [obind]. rewrite Er, E2. cbn [obind]. rewrite Erz. exact Ex.
Qed.

(** ** Similar expressions have the same value *)

Lemma similar_den : forall rho a b, similar a b = true -> den rho a = den rho b.
Proof.
  intros rho. induction a as [t|u a IH|op l IHl r IHr]; intros [t'|u' a'|op' l' r'] H;
    try discriminate.
  - destruct t, t'; simpl in H; unfold term_similar in H; simpl in H; try discriminate;
      try (apply andb_prop in H as [H1 H2]; apply Nat.eqb_eq in H1);
      try (apply Nat.eqb_eq in H); simpl; repeat f_equal; lia.
  - simpl in H. apply andb_prop in H as [H1 H2]. simpl. rewrite (IH _ H2).
    destruct u, u'; try discriminate; reflexivity.
  - simpl in H. apply andb_prop in H as [H H2]. apply andb_prop in H as [H1 H3].
    simpl. rewrite (IHl _ H3), (IHr _ H2).
    destruct op, op'; try discriminate; reflexivity.
Qed.

Lemma value_den : forall rho e z, expr_value e = Some z -> den rho e = Some (VI z).
Proof.
  intros rho [t| |] z H; try discriminate. destruct t; simpl in *; congruence.
Qed.

Lemma cmpZ_holds : forall a x y, cmpZ a x y = true -> cmp_holds a x y.
Proof. intros [] x y; simpl; lia. Qed.

(** ** isAlwaysTrue *)

Lemma sizeof_none : forall c, no_sizeof (expr c) = true ->
  sizeOfMaxSet c = Ok false \/ sizeOfMaxSet c = UBhav.
Proof.
  intros [l a r] H. unfold sizeOfMaxSet. simpl in *.
  destruct a; auto; destruct l as [t|u b|op x y]; auto; destruct u; auto;
    destruct r as [t'|u' b'|op' x' y']; auto; destruct (expr_value y') as [i|]; auto;
    destruct (i =? _); auto; simpl in H; apply andb_prop in H as [H _];
    destruct b, x' as [t'| |]; auto; destruct t'; auto; discriminate.
Qed.

Lemma always_true_sound : forall c, no_zero_right (expr c) = true ->
  no_sizeof (expr c) = true -> weight (expr c) < 2147483648 ->
  isAlwaysTrue c = Ok true -> forall rho, atom_meaningful rho c -> atom_true rho c.
Proof.
  intros [l a r] Hz Hs Hw H rho Hm. unfold isAlwaysTrue in H.
  destruct (sizeof_none _ Hs) as [E|E]; rewrite E in H; simpl in *; try discriminate.
  unfold atom_true, atom_meaningful, atom_says in *. simpl in *.
  destruct (den rho l) as [x|] eqn:Dl; [|congruence].
  destruct (den rho r) as [y|] eqn:Dr; [|congruence].
  assert (K : (exists p q, expr_value l = Some p /\ expr_value r = Some q) \/
     (if similar l r && match a with EQ | GTE | LTE => true | _ => false end
      then Ok true else
        obind (propagate r) (fun x => let '(r', p, k) := x in
        if similar l r' && p then Ok (cmpZ a 0 k) else Ok false)) = Ok true).
  { destruct (expr_value l), (expr_value r); eauto. }
  destruct K as [(p & q & Ep & Eq)|K].
  - rewrite Ep, Eq in H. injection H as H.
    rewrite (value_den rho _ _ Ep) in Dl. rewrite (value_den rho _ _ Eq) in Dr.
    inversion Dl; inversion Dr; subst. simpl. apply cmpZ_holds; auto.
  - clear H. destruct (similar l r && _) eqn:Es.
    + apply andb_prop in Es as [Es Ea]. apply (similar_den rho) in Es.
      assert (x = y) by congruence. subst y.
      destruct x as [x|b o]; simpl in *.
      * destruct a; simpl in *; try discriminate; lia.
      * destruct (block_eq_dec b b); [|congruence]. destruct a; simpl in *; try discriminate; lia.
    + destruct (propagate_sound r Hz Hw) as ([[r' p] k] & Ep & P). rewrite Ep in K. simpl in K.
      destruct (similar l r' && p) eqn:Es'; [|discriminate]. injection K as K.
      apply andb_prop in Es' as [Es' Hp]. apply (similar_den rho) in Es'.
      destruct (ps_den _ _ P rho y Dr) as (w & Hw' & ->). simpl in *.
      assert (x = w) by congruence. subst w. apply cmpZ_holds in K.
      destruct x as [x|b o]; simpl in *.
      * destruct a; simpl in *; lia.
      * destruct (block_eq_dec b b); [|congruence]. destruct a; simpl in *; lia.
Qed.

(** ** rangeCheck *)

Lemma range_tail_sound : forall up e1 e2, no_zero_right e1 = true -> no_zero_right e2 = true ->
  weight e1 < 2147483648 -> weight e2 < 2147483648 ->
  rangeTail up e1 e2 = Ok true ->
  forall rho x y, den rho e1 = Some x -> den rho e2 = Some y ->
  match x, y with
  | VI p, VI q => if up then p <= q else q <= p
  | VP b o, VP b' o' => b = b' /\ if up then o <= o' else o' <= o
  | _, _ => False
  end.
Proof.
  intros up e1 e2 Z1 Z2 W1 W2 H rho x y Dx Dy. unfold rangeTail in H.
  destruct (expr_value e1) as [p|] eqn:E1.
  1: destruct (expr_value e2) as [q|] eqn:E2.
  { rewrite (value_den rho _ _ E1) in Dx. rewrite (value_den rho _ _ E2) in Dy.
    inversion Dx; inversion Dy; subst. destruct up; inversion H; lia. }
  all: destruct (propagate_sound e1 Z1 W1) as ([[a1 p1] k1] & F1 & P1);
    destruct (propagate_sound e2 Z2 W2) as ([[a2 p2] k2] & F2 & P2);
    rewrite F1 in H; cbn [obind] in H; rewrite F2 in H; cbn [obind] in H;
    injection H as H; apply andb_prop in H as [H Hs]; apply andb_prop in H as [_ H];
    destruct (ps_den _ _ P1 rho x Dx) as (w1 & G1 & ->);
    destruct (ps_den _ _ P2 rho y Dy) as (w2 & G2 & ->);
    pose proof (ps_p _ _ P1) as Q1; pose proof (ps_p _ _ P2) as Q2; simpl in *;
    apply (similar_den rho) in Hs; assert (w1 = w2) by congruence; subst w2;
    destruct w1; simpl; destruct up, p1, p2; try rewrite (Q1 eq_refl) in *;
    try rewrite (Q2 eq_refl) in *; try split; auto; lia.
Qed.

Lemma similar_vals : forall rho e1 e2 x y, similar e1 e2 = true ->
  den rho e1 = Some x -> den rho e2 = Some y -> x = y.
Proof. intros rho e1 e2 x y H. apply (similar_den rho) in H. congruence. Qed.

Lemma range_sound : forall a1 e1 a2 e2, strict_ok a1 a2 = true ->
  no_zero_right e1 = true -> no_zero_right e2 = true ->
  weight e1 < 2147483648 -> weight e2 < 2147483648 ->
  rangeCheck a1 e1 a2 e2 = Ok true ->
  forall rho v x y P, den rho e1 = Some x -> den rho e2 = Some y ->
  vcmp a2 v y = Some P -> P -> exists Q, vcmp a1 v x = Some Q /\ Q.
Proof.
  intros a1 e1 a2 e2 Hs Z1 Z2 W1 W2 H rho v x y P Dx Dy HP HH.
  unfold rangeCheck in H. destruct (canResolve a1 a2) eqn:Ec; [|discriminate]. simpl in H.
  assert (K : x = y /\ (a1 = GTE \/ a1 = LTE \/ a1 = EQ) \/
     exists up, rangeTail up e1 e2 = Ok true /\
       up = match a1 with GTE | GT => true | _ => false end /\ a1 <> EQ).
  { destruct a1.
    - right. exists false. repeat split; auto; discriminate.
    - destruct (similar e1 e2) eqn:Es.
      + left. split; eauto using similar_vals.
      + right. exists false. repeat split; auto; discriminate.
    - right. exists true. repeat split; auto; discriminate.
    - destruct (similar e1 e2) eqn:Es.
      + left. split; eauto using similar_vals.
      + right. exists true. repeat split; auto; discriminate.
    - injection H as H. left. split; eauto using similar_vals. }
  destruct K as [(-> & K) | (up & K & -> & N)].
  - destruct v as [v|b o], y as [y|b' o']; simpl in *; try discriminate.
    + injection HP as <-. eexists; split; [reflexivity|].
      destruct K as [->|[->| ->]]; destruct a2; simpl in *; try discriminate; lia.
    + destruct (block_eq_dec b b'); [|discriminate].
      injection HP as <-. eexists; split; [reflexivity|].
      destruct K as [->|[->| ->]]; destruct a2; simpl in *; try discriminate; lia.
  - pose proof (range_tail_sound _ _ _ Z1 Z2 W1 W2 K rho x y Dx Dy) as R.
    destruct v as [v|b o], y as [y|b' o'], x as [x|b1 o1]; simpl in *; try discriminate;
      try contradiction.
    + injection HP as <-. eexists; split; [reflexivity|].
      destruct a1, a2; simpl in *; try discriminate; try congruence; lia.
    + destruct R as [-> R]. destruct (block_eq_dec b b'); [|discriminate].
      injection HP as <-. eexists; split; [reflexivity|].
      destruct a1, a2; simpl in *; try discriminate; try congruence; lia.
Qed.

(** ** satisfies *)

Lemma satisfies_sound : forall pre post, plain (first pre) -> plain (first post) ->
  strict_ok (ar (first pre)) (ar (first post)) = true ->
  satisfies pre post = Ok true ->
  forall rho, atom_meaningful rho (first pre) -> atom_true rho (first post) ->
  atom_true rho (first pre).
Proof.
  intros [[l1 a1 r1] o1] [[l2 a2 r2] o2] (Z1 & S1 & W1) (Z2 & S2 & W2) Hs H rho Hm Ht.
  unfold satisfies in H. simpl in *.
  destruct (isAlwaysTrue _) as [[|]| |] eqn:E; simpl in H; try discriminate.
  - eapply always_true_sound; eauto.
  - destruct (similar l1 l2) eqn:El; [|discriminate].
    apply (similar_den rho) in El.
    unfold atom_meaningful, atom_true, atom_says in *. simpl in *.
    rewrite El in *. destruct (den rho l2) as [v|] eqn:D0; [|congruence].
    destruct (den rho r1) as [x|] eqn:Dx; [|congruence].
    destruct (den rho r2) as [y|] eqn:Dy; [|contradiction].
    destruct (vcmp a2 v y) as [P|] eqn:EP; [|contradiction].
    destruct (range_sound a1 r1 a2 r2 Hs Z1 Z2 W1 W2 H rho v x y P Dx Dy EP Ht) as (Q & -> & HQ).
    exact HQ.
Qed.

Lemma resolve_inv : forall c p, resolve c p = Ok true ->
  exists el, In el p /\ satisfies c el = Ok true.
Proof.
  induction p as [|el p IH]; simpl; intros H; [discriminate|].
  destruct (satisfies c el) as [[|]| |] eqn:E; simpl in H; try discriminate; eauto.
  destruct (IH H) as (x & Hx & K). eauto.
Qed.

Lemma add_inv : forall s el s', list_add s el = Ok s' ->
  (s' = s /\ resolve el s = Ok true) \/ s' = s ++ [el].
Proof.
  intros s el s' H. unfold list_add in H.
  destruct (resolve el s) as [[|]| |] eqn:E; simpl in H; inversion H; auto.
Qed.

Lemma constr_true_single : forall rho c, ors c = nil ->
  (constr_true rho c <-> atom_true rho (first c)).
Proof.
  intros rho [f o] H. simpl in *. subst o. unfold constr_true. simpl. split.
  - intros (a & [->|[]] & K). auto.
  - eauto.
Qed.

Lemma add_sound : forall s el s', list_add s el = Ok s' ->
  (forall c, In c (el :: s) -> nonstrict c) ->
  forall rho, atom_meaningful rho (first el) ->
  (all_true rho s' <-> all_true rho s /\ constr_true rho el).
Proof.
  intros s el s' H Hc rho Hm. destruct (add_inv _ _ _ H) as [[-> Hr]| ->].
  - split; [|tauto]. intros K. split; auto.
    apply resolve_inv in Hr as (x & Hx & Hs).
    destruct (Hc el) as (A1 & A2 & A3); [left; auto|].
    destruct (Hc x) as (B1 & B2 & B3); [right; auto|].
    apply constr_true_single; auto.
    eapply satisfies_sound; eauto.
    + destruct A3 as [-> |[-> | ->]]; reflexivity.
    + apply constr_true_single; auto.
  - unfold all_true. split.
    + intros K. split; [intros c Hi; apply K, in_or_app; auto|].
      apply K, in_or_app. right. left. auto.
    + intros [K1 K2] c Hi. apply in_app_or in Hi as [Hi|[<-|[]]]; auto.
Qed.

Lemma add_incl : forall s el s' c, list_add s el = Ok s' -> In c s' -> In c (el :: s).
Proof.
  intros s el s' c H K. destruct (add_inv _ _ _ H) as [[-> _]| ->]; [right; auto|].
  apply in_app_or in K as [K|[K|[]]]; [right|left]; auto.
Qed.

Lemma addAll_sound : forall news s s', list_addAll s news = Ok s' ->
  (forall c, In c (s ++ news) -> nonstrict c) ->
  forall rho, (forall c, In c news -> atom_meaningful rho (first c)) ->
  (all_true rho s' <-> all_true rho s /\ all_true rho news).
Proof.
  induction news as [|el r IH]; simpl; intros s s' H Hc rho Hm.
  - inversion H; subst. unfold all_true. simpl. split; [intros K; split; [exact K|intros c []]|tauto].
  - destruct (list_add s el) as [s1| |] eqn:E; simpl in H; try discriminate.
    rewrite (IH _ _ H).
    + rewrite (add_sound _ _ _ E).
      * unfold all_true. simpl. split.
        -- intros [[K1 K2] K3]. split; auto. intros c [<-|K]; auto.
        -- intros [K1 K2]. split; auto.
      * intros c [<-|K]; apply Hc, in_or_app; simpl; auto.
      * apply Hm. auto.
    + intros c K. apply Hc, in_or_app. apply in_app_or in K as [K|K]; [|simpl; auto].
      apply (add_incl _ _ _ _ E) in K as [<-|K]; simpl; auto.
    + intros c K. apply Hm. auto.
Qed.

Lemma resolve_sound : forall c p, resolve c p = Ok true -> (forall x, In x (c :: p) -> nonstrict x) ->
  forall rho, atom_meaningful rho (first c) -> all_true rho p -> constr_true rho c.
Proof.
  intros c p Hr Hc rho Hm Hp. apply resolve_inv in Hr as (x & Hx & Hs).
  destruct (Hc c) as (A1 & A2 & A3); [left; auto|].
  destruct (Hc x) as (B1 & B2 & B3); [right; auto|].
  apply constr_true_single; auto. eapply satisfies_sound; eauto.
  - destruct A3 as [-> |[-> | ->]]; reflexivity.
  - apply constr_true_single; auto.
Qed.

Lemma subsume_incl : forall l1 l2 ret res c, subsumeEnsures l1 l2 ret = Ok res -> In c res -> In c (ret ++ l1).
Proof.
  induction l1 as [|el r IH]; cbn [subsumeEnsures]; intros l2 ret res c H K.
  - injection H as ->. apply in_or_app; auto.
  - destruct (resolve el l2) as [b| |] eqn:E; cbn [obind] in H; try discriminate. destruct b.
    + specialize (IH _ _ _ _ H K). apply in_app_or in IH as [|]; apply in_or_app; cbn; auto.
    + destruct (list_add ret el) as [s1| |] eqn:Ea; cbn [obind] in H; try discriminate.
      specialize (IH _ _ _ _ H K). apply in_app_or in IH as [IH|]; [|apply in_or_app; cbn; auto].
      apply (add_incl _ _ _ _ Ea) in IH as [->|]; apply in_or_app; cbn; auto.
Qed.

Lemma subsume_sound : forall l1 l2 ret res, subsumeEnsures l1 l2 ret = Ok res ->
  (forall c, In c (ret ++ l1 ++ l2) -> nonstrict c) ->
  forall rho, (forall c, In c l1 -> atom_meaningful rho (first c)) ->
  (all_true rho ret /\ all_true rho l1 -> all_true rho res) /\
  (all_true rho l2 -> all_true rho res -> all_true rho ret /\ all_true rho l1).
Proof.
  induction l1 as [|el r IH]; cbn [subsumeEnsures]; intros l2 ret res H Hc rho Hm.
  - injection H as ->. split; [tauto|]. intros _ K. split; [exact K|intros c []].
  - destruct (resolve el l2) as [b| |] eqn:E; cbn [obind] in H; try discriminate. destruct b.
    + destruct (IH _ _ _ H) with (rho := rho) as [I1 I2].
      * intros c K. apply Hc. rewrite !in_app_iff in *. cbn. tauto.
      * intros c K. apply Hm. right; exact K.
      * split.
        -- intros [K1 K2]. apply I1. split; [exact K1|]. intros c K. apply K2. right; exact K.
        -- intros L K. destruct (I2 L K) as [K1 K2]. split; [exact K1|].
           intros c [<-|Hi]; [|auto]. eapply resolve_sound; eauto.
           ++ intros x [<-|Hx]; apply Hc; rewrite !in_app_iff; cbn; auto.
           ++ apply Hm. left; reflexivity.
    + destruct (list_add ret el) as [s1| |] eqn:Ea; cbn [obind] in H; try discriminate.
      assert (A : all_true rho s1 <-> all_true rho ret /\ constr_true rho el).
      { apply (add_sound _ _ _ Ea); [|apply Hm; left; reflexivity].
        intros c [<-|K]; apply Hc; rewrite !in_app_iff; cbn; auto. }
      destruct (IH _ _ _ H) with (rho := rho) as [I1 I2].
      * intros c K. apply Hc. rewrite !in_app_iff in *. cbn.
        destruct K as [K|K]; [|tauto]. apply (add_incl _ _ _ _ Ea) in K as [->|K]; auto.
      * intros c K. apply Hm. right; exact K.
      * split.
        -- intros [K1 K2]. apply I1. rewrite A. split; [split; [exact K1|apply K2; left; reflexivity]|].
           intros c K. apply K2. right; exact K.
        -- intros L K. destruct (I2 L K) as [K1 K2]. apply A in K1 as [K1 K3]. split; [exact K1|].
           intros c [<-|Hi]; auto.
Qed.

Lemma merge_sound : forall l1 l2 res, mergeKnown l1 l2 = Ok res ->
  (forall c, In c (l1 ++ l2) -> nonstrict c) ->
  forall rho, (forall c, In c (l1 ++ l2) -> atom_meaningful rho (first c)) ->
  (all_true rho res <-> all_true rho l1 /\ all_true rho l2).
Proof.
  intros l1 l2 res H Hc rho Hm. unfold mergeKnown in H.
  destruct (subsumeEnsures l1 l2 nil) as [r| |] eqn:E1; cbn [obind] in H; try discriminate.
  destruct (subsumeEnsures l2 r nil) as [t| |] eqn:E2; cbn [obind] in H; try discriminate.
  assert (R : forall c, In c r -> In c l1) by (intros c K; apply (subsume_incl _ _ _ _ _ E1 K)).
  assert (T : forall c, In c t -> In c l2) by (intros c K; apply (subsume_incl _ _ _ _ _ E2 K)).
  destruct (subsume_sound _ _ _ _ E1) with (rho := rho) as [S1 S1'].
  { intros c K. apply Hc. exact K. }
  { intros c K. apply Hm. apply in_or_app; auto. }
  destruct (subsume_sound _ _ _ _ E2) with (rho := rho) as [S2 S2'].
  { intros c K. apply Hc. cbn [app] in K. apply in_app_or in K as [K|K]; apply in_or_app; auto. }
  { intros c K. apply Hm. apply in_or_app; auto. }
  assert (A : all_true rho res <-> all_true rho t /\ all_true rho r).
  { apply (addAll_sound _ _ _ H).
    - intros c K. apply Hc. apply in_app_or in K as [K|K]; apply in_or_app; auto.
    - intros c K. apply Hm. apply in_or_app; auto. }
  rewrite A. assert (N : all_true rho nil) by (intros c []). split.
  - intros [K1 K2]. destruct (S2' K2 K1) as [_ L2]. destruct (S1' L2 K2) as [_ L1]. auto.
  - intros [K1 K2]. auto.
Qed.

(** ** Substitution *)

Lemma strong_sound : forall p c rho, ar c = GTE -> (forall el, In el p -> atom_true rho el) ->
  atom_true rho (strong_loop c p) -> atom_true rho c.
Proof.
  induction p as [|el p IH]; simpl; intros c rho Ha Hp H; auto.
  apply IH in H; [|destruct (_ && _); auto|auto].
  destruct (_ && _) eqn:E; auto. apply andb_prop in E as [E1 E2].
  apply (similar_den rho) in E2. specialize (Hp el (or_introl eq_refl)).
  destruct c as [l a r], el as [l1 a1 r1]. simpl in *. subst a.
  unfold atom_true, atom_says in *. simpl in *. rewrite E2 in Hp.
  destruct (den rho l) as [x|] eqn:Dl; [|contradiction].
  destruct (den rho r) as [y|] eqn:Dr; [|contradiction].
  destruct (den rho r1) as [z|] eqn:Dz; [|contradiction].
  destruct a1; simpl in *; try discriminate; rewrite Dz in H.
  - destruct x, y, z; simpl in *; try contradiction; try lia;
    repeat destruct (block_eq_dec _ _); try congruence; try contradiction; simpl in *; lia.
  - destruct x, y, z; simpl in *; try contradiction; try lia;
    repeat destruct (block_eq_dec _ _); try congruence; try contradiction; simpl in *; lia.
Qed.

Lemma replace_den : forall rho old new, den rho old = den rho new ->
  forall e, den rho (replace e old new) = den rho e.
Proof.
  intros rho old new H. induction e as [t|u a IH|op l IHl r IHr]; cbn [replace];
    destruct (similar _ old) eqn:E;
    try (apply (similar_den rho) in E; congruence); auto.
  - simpl. rewrite IH. auto.
  - simpl. rewrite IHl, IHr. auto.
Qed.

Lemma eq_true_den : forall rho l r, atom_true rho (Atom l EQ r) -> den rho l = den rho r.
Proof.
  intros rho l r H. unfold atom_true, atom_says in H. simpl in H.
  destruct (den rho l) as [x|]; [|contradiction]. destruct (den rho r) as [y|]; [|contradiction].
  destruct x, y; simpl in H; try contradiction.
  - congruence.
  - destruct (block_eq_dec _ _); [|contradiction]. simpl in H. congruence.
Qed.

Lemma subst_sound : forall swap p c rho, (forall el, In el p -> atom_true rho el) ->
  atom_says rho (subst_loop swap c p) = atom_says rho c.
Proof.
  intros swap. induction p as [|el p IH]; simpl; intros c rho Hp; auto.
  rewrite IH; auto. destruct (_ && negb _) eqn:E; auto.
  apply andb_prop in E as [E _]. specialize (Hp el (or_introl eq_refl)).
  destruct el as [l a r]. simpl in *. destruct a; try discriminate.
  apply eq_true_den in Hp.
  destruct (search r l && swap _ _); unfold atom_replace, atom_says; simpl;
    rewrite !replace_den; auto.
Qed.

(** ** constraint_simplify *)

Lemma sreg_regular : forall e, sreg e -> regular e.
Proof.
  induction e as [t|u a IH|op l IHl r IHr]; simpl.
  - destruct t; simpl; tauto.
  - intros H. destruct a as [t| |]; auto. destruct t; simpl in *; try contradiction; auto.
  - intros (A & B & [C|[C|C]]); repeat split; auto.
    right. right. apply is_lit_inv in C as (z & ->). reflexivity.
Qed.

Lemma simp_ex : forall G e, regular e -> typ G e <> None -> weight e < WB ->
  exists e' f0, (forall f, (f0 <= f)%nat -> simplify f e = Ok e') /\ sr G e e' /\ sreg e' /\
    (constant_only e = true -> is_lit e' = true).
Proof.
  intros G e H1 H2 H3. destruct (simplify_regular G e H1 H2 H3) as (f & e' & E & S' & _ & R & C).
  exists e', f. split; [|auto]. intros f' Hf. eapply simplify_mono; eauto.
Qed.

Lemma equiv_refl : forall rho c, atom_equiv rho c c.
Proof. intros. unfold atom_equiv. destruct (atom_says rho c); auto. exists P. tauto. Qed.

Lemma equiv_trans : forall rho a b c, atom_equiv rho a b -> atom_equiv rho b c -> atom_equiv rho a c.
Proof.
  intros rho a b c. unfold atom_equiv. destruct (atom_says rho a) as [P|]; auto.
  intros (Q & -> & H) (R & -> & K). exists R. tauto.
Qed.

Lemma equiv_sides : forall rho l a r l' r',
  (forall v, den rho l = Some v -> den rho l' = Some v) ->
  (forall v, den rho r = Some v -> den rho r' = Some v) ->
  atom_equiv rho (Atom l a r) (Atom l' a r').
Proof.
  intros rho l a r l' r' Hl Hr. unfold atom_equiv, atom_says. simpl.
  destruct (den rho l) as [x|]; auto. rewrite (Hl x eq_refl).
  destruct (den rho r) as [y|]; auto. rewrite (Hr y eq_refl).
  destruct (vcmp a x y) as [P|]; auto. exists P. tauto.
Qed.

Lemma equiv_sr : forall G rho l a r l' r', respects rho G ->
  typ G l <> None -> typ G r <> None -> sr G l l' -> sr G r r' ->
  atom_equiv rho (Atom l a r) (Atom l' a r').
Proof.
  intros G rho l a r l' r' Hr Tl Tr S1 S2. apply equiv_sides; intros v K;
  [eapply sr_den with (G := G) (e := l)| eapply sr_den with (G := G) (e := r)]; eauto.
Qed.

Lemma equiv_swap : forall rho c, atom_equiv rho c (swapLR c).
Proof.
  intros rho [l a r]. unfold atom_equiv, atom_says, swapLR. simpl.
  destruct (den rho l) as [x|]; auto. destruct (den rho r) as [y|]; auto.
  destruct x as [x|b o], y as [y|b' o']; simpl; auto.
  - eexists. split; [reflexivity|]. destruct a; simpl; lia.
  - destruct (block_eq_dec b b'); auto. destruct (block_eq_dec b' b); [|congruence].
    eexists. split; [reflexivity|]. destruct a; simpl; lia.
Qed.

Lemma equiv_solve : forall G rho op x y a r, respects rho G -> typ G y = Some false ->
  atom_equiv rho (Atom (Binary op x y) a r) (solve (Atom (Binary op x y) a r)).
Proof.
  intros G rho op x y a r Hr Ht. unfold atom_equiv, atom_says, solve. simpl.
  destruct (den rho x) as [vx|]; auto. destruct (den rho y) as [vy|] eqn:Dy; auto.
  pose proof (typ_den _ _ _ _ _ Hr Ht Dy) as K. destruct vy as [vy|]; [|discriminate].
  destruct op, (den rho r) as [vr|], vx as [vx|b o]; simpl; auto; destruct vr as [vr|b' o']; simpl; auto;
    try destruct (block_eq_dec b b'); auto;
    eexists; split; try reflexivity; destruct a; simpl; lia.
Qed.

Lemma typ_same : forall G a b t, sr G a b -> typ G a = Some t -> typ G b = Some t.
Proof. intros G a b t H. apply (sr_typ _ _ _ H). Qed.

Definition c_result (G : nat -> bool) (c : atom) : Prop :=
  exists c' f0, (forall f, (f0 <= f)%nat -> c_simplify f c = Ok c') /\
    forall rho, respects rho G -> atom_equiv rho c c'.

Lemma csimp_starts : forall G c t, regular (lexpr c) -> regular (expr c) ->
  typ G (lexpr c) = Some t -> typ G (expr c) = Some t ->
  weight (lexpr c) + weight (expr c) < WB ->
  starts_single (lexpr c) -> flat G (lexpr c) -> c_result G c.
Proof.
  intros G [l a r] t Rl Rr Tl Tr W St Fl. simpl in *.
  pose proof (weight_nonneg l). pose proof (weight_nonneg r).
  destruct (tooDeep (Atom l a r)) eqn:Ed.
  { exists (Atom l a r), 1%nat. split; [|intros; apply equiv_refl].
    intros [|f] Hf; [lia|]. simpl. rewrite Ed. reflexivity. }
  destruct (simp_ex G l) as (l1 & f1 & E1 & S1 & R1 & C1); auto; try congruence; try lia.
  destruct (simp_ex G r) as (r1 & f2 & E2 & S2 & R2 & C2); auto; try congruence; try lia.
  pose proof (sr_starts _ _ _ S1 St) as St1.
  assert (Fl1 : flat G l1) by (apply (sr_flat _ _ _ S1); congruence).
  pose proof (typ_same _ _ _ _ S1 Tl) as Tl1. pose proof (typ_same _ _ _ _ S2 Tr) as Tr1.
  pose proof (sr_weight _ _ _ S1). pose proof (sr_weight _ _ _ S2).
  assert (Hnb : (forall op x y, l1 <> Binary op x y) -> c_result G (Atom l a r)).
  { intros Nb. exists (Atom l1 a r1), (S (max f1 f2)). split.
    - intros [|f] Hf; [lia|]. cbn [c_simplify]. rewrite Ed. cbn [lexpr ar expr].
      rewrite E1 by lia. cbn [obind]. rewrite E2 by lia. cbn [obind].
      pose proof (single_nonlit _ (starts_has _ St1)) as Hnl.
      destruct l1 as [tt|u b|op x y]; cbn [obind]; cbn [lexpr ar expr];
        try rewrite Hnl; auto. exfalso. eapply Nb; reflexivity.
    - intros rho Hrho. eapply equiv_sr; eauto; congruence. }
  destruct l1 as [tt|u b|op x y]; try (apply Hnb; discriminate). clear Hnb.
  destruct Fl1 as (Fx & Fy & Ty & Sy). destruct R1 as (Rx & Ry & _).
  simpl in Tl1. rewrite Ty in Tl1.
  assert (Tx : typ G x = Some t) by (destruct op, (typ G x) as [[]|]; congruence).
  assert (Sx : starts_single x).
  { destruct St1 as (u & L & O). exists u. simpl in *. split; auto.
    pose proof (left_occ _ _ L). lia. }
  set (op' := match op with PLUS => MINUS | MINUS => PLUS end).
  pose proof (weight_nonneg x). pose proof (weight_nonneg y). pose proof (weight_nonneg r1).
  destruct (simp_ex G x) as (l2 & f3 & E3 & S3 & R3 & C3); auto using sreg_regular; try congruence.
  { simpl in *. lia. }
  assert (Te : typ G (Binary op' r1 y) = Some t).
  { simpl. rewrite Tr1, Ty. destruct op', t; reflexivity. }
  destruct (simp_ex G (Binary op' r1 y)) as (r2 & f4 & E4 & S4 & R4 & C4); try congruence.
  { simpl. split; [|split]; auto using sreg_regular. }
  { simpl in *. lia. }
  pose proof (single_nonlit _ (starts_has _ (sr_starts _ _ _ S3 Sx))) as Hnl.
  exists (Atom l2 a r2), (S (max (max f1 f2) (max f3 f4))). split.
  - intros [|f] Hf; [lia|]. cbn [c_simplify]. rewrite Ed. cbn [lexpr ar expr].
    rewrite E1 by lia. cbn [obind]. rewrite E2 by lia. cbn [obind solve lexpr ar expr].
    rewrite E3 by lia. cbn [obind]. fold op'. rewrite E4 by lia. cbn [obind lexpr ar expr].
    rewrite Hnl. reflexivity.
  - intros rho Hrho. eapply equiv_trans; [eapply (equiv_sr G); eauto; congruence|].
    eapply equiv_trans; [eapply equiv_solve; eauto|].
    unfold solve. cbn [lexpr ar expr]. fold op'. eapply equiv_sr; eauto; congruence.
Qed.

Lemma csimp_ok : forall G c, solvable G c -> c_result G c.
Proof.
  intros G [l a r] (Rl & Rr & (t & Tl & Tr) & W & H). simpl in *.
  destruct H as [[H1 H2]|H]; [eapply csimp_starts; eauto|].
  assert (Hc : constant_only l = true) by tauto.
  pose proof (weight_nonneg l). pose proof (weight_nonneg r).
  destruct (tooDeep (Atom l a r)) eqn:Ed.
  { exists (Atom l a r), 1%nat. split; [|intros; apply equiv_refl].
    intros [|f] Hf; [lia|]. simpl. rewrite Ed. reflexivity. }
  destruct (simp_ex G l) as (l1 & f1 & E1 & S1 & R1 & C1); auto; try congruence; try (unfold WB; lia).
  destruct (simp_ex G r) as (r1 & f2 & E2 & S2 & R2 & C2); auto; try congruence; try (unfold WB; lia).
  pose proof (C1 Hc) as Hl. apply is_lit_inv in Hl as (k & ->).
  assert (Heq : forall rho, respects rho G -> atom_equiv rho (Atom l a r) (Atom (Lit k) a r1)).
  { intros rho Hrho. eapply (equiv_sr G); eauto; congruence. }
  destruct H as [(_ & Hst & Hfl)|[_ H]].
  - pose proof (sr_starts _ _ _ S2 Hst) as St. pose proof (single_nonlit _ (starts_has _ St)) as Hnl.
    pose proof (sr_weight _ _ _ S1). pose proof (sr_weight _ _ _ S2).
    destruct (csimp_starts G (Atom r1 (flipAr a) (Lit k)) t) as (c' & f3 & E3 & Q); simpl; auto.
    { apply sreg_regular; auto. }
    { apply (typ_same _ _ _ _ S2 Tr). }
    { apply (typ_same _ _ _ _ S1 Tl). }
    { unfold WB. simpl in *. lia. }
    { apply (sr_flat _ _ _ S2); congruence. }
    exists c', (S (max f3 (max f1 f2))). split.
    + intros [|f] Hf; [lia|]. cbn [c_simplify]. rewrite Ed. cbn [lexpr ar expr].
      rewrite E1 by lia. cbn [obind]. rewrite E2 by lia. cbn [obind Lit lexpr ar expr is_lit].
      rewrite Hnl. cbn [andb negb]. apply E3. lia.
    + intros rho Hrho. eapply equiv_trans; [apply Heq; auto|].
      eapply equiv_trans; [|apply Q; auto]. apply (equiv_swap rho (Atom (Lit k) a r1)).
  - exists (Atom (Lit k) a r1), (S (max f1 f2)). split; auto.
    intros [|f] Hf; [lia|]. cbn [c_simplify]. rewrite Ed. cbn [lexpr ar expr].
    rewrite E1 by lia. cbn [obind]. rewrite E2 by lia. cbn [obind Lit lexpr ar expr is_lit].
    rewrite (C2 H). reflexivity.
Qed.

Lemma c_simplify_mono1 : forall f c r, c_simplify f c = Ok r -> c_simplify (S f) c = Ok r.
Proof.
  induction f as [|f IH]; intros c r H; [discriminate|].
  assert (K : forall n c, c_simplify (S n) c =
      if tooDeep c then Ok c else
      obind (simplify n (lexpr c)) (fun l1 =>
      obind (simplify n (expr c)) (fun r1 =>
      let c1 := Atom l1 (ar c) r1 in
      obind (match l1 with
             | Binary _ _ _ =>
                 let c2 := solve c1 in
                 obind (simplify n (lexpr c2)) (fun l2 =>
                 obind (simplify n (expr c2)) (fun r2 => Ok (Atom l2 (ar c2) r2)))
             | _ => Ok c1
             end) (fun c3 =>
      if is_lit (lexpr c3) && negb (is_lit (expr c3))
      then c_simplify n (swapLR c3)
      else Ok c3)))) by reflexivity.
  rewrite K in H |- *. clear K. destruct (tooDeep c); auto.
  destruct (simplify f (lexpr c)) as [l1| |] eqn:E1; try discriminate.
  rewrite (simplify_mono1 _ _ _ E1). cbn [obind] in *.
  destruct (simplify f (expr c)) as [r1| |] eqn:E2; try discriminate.
  rewrite (simplify_mono1 _ _ _ E2). cbn [obind] in *. cbv zeta in *.
  assert (T : forall c3, (if is_lit (lexpr c3) && negb (is_lit (expr c3))
      then c_simplify f (swapLR c3) else Ok c3) = Ok r ->
      (if is_lit (lexpr c3) && negb (is_lit (expr c3))
      then c_simplify (S f) (swapLR c3) else Ok c3) = Ok r).
  { intros c3. destruct (_ && _); auto. }
  destruct l1 as [t|u a|op x y]; cbn [obind] in *; auto.
  destruct (simplify f (lexpr (solve _))) as [l2| |] eqn:E3; try discriminate.
  rewrite (simplify_mono1 _ _ _ E3). cbn [obind] in *.
  destruct (simplify f (expr (solve _))) as [r2| |] eqn:E4; try discriminate.
  rewrite (simplify_mono1 _ _ _ E4). cbn [obind] in *. auto.
Qed.

Lemma c_simplify_mono : forall f f' c r, (f <= f')%nat ->
  c_simplify f c = Ok r -> c_simplify f' c = Ok r.
Proof. intros f f' c r H K. induction H; auto using c_simplify_mono1. Qed.

Lemma strong_sub_sound : forall G c p fuel c', solvable G (strong_loop c p) ->
  strongSubstitute fuel c p = Ok c' ->
  forall rho, respects rho G -> (forall el, In el p -> atom_true rho el) ->
  atom_meaningful rho (strong_loop c p) -> atom_true rho c' -> atom_true rho c.
Proof.
  intros G c p fuel c' Hs H rho Hr Hp Hm Ht. unfold strongSubstitute in H.
  destruct (arith_eqb (ar c) GTE) eqn:E; [|inversion H; subst; auto].
  assert (Ea : ar c = GTE) by (destruct (ar c); try discriminate; auto).
  destruct (csimp_ok G _ Hs) as (c2 & f0 & E2 & Q).
  assert (c2 = c').
  { specialize (E2 (max f0 fuel) (Nat.le_max_l _ _)).
    apply (c_simplify_mono _ (max f0 fuel)) in H; [congruence|lia]. }
  subst c2. specialize (Q rho Hr). apply (strong_sound p c rho Ea Hp).
  unfold atom_equiv, atom_meaningful, atom_true in *.
  destruct (atom_says rho (strong_loop c p)) as [P|]; [|congruence].
  destruct Q as (P' & E' & I). rewrite E' in Ht. tauto.
Qed.
