(** Proofs about the checking of modifies clauses. *)
From Verif Require Import Cbase Mods_model Mods_spec.
From Coq Require Import List ZArith Arith Bool Lia.
Import ListNotations.
Open Scope nat_scope.

(** ** References *)
Lemma oz_eqb_eq a b : oz_eqb a b = true <-> a = b.
Proof.
  destruct a, b; simpl; split; intros H; try discriminate; try reflexivity.
  - apply Z.eqb_eq in H. now subst.
  - injection H as ->. apply Z.eqb_refl.
Qed.
Lemma realSame_eq a b : realSame a b = true <-> a = b.
Proof.
  revert b. induction a; intros [ | | | | | | ]; simpl;
    try (split; intros H; discriminate);
    try (rewrite Nat.eqb_eq; split; congruence);
    try (rewrite IHa; split; congruence);
    rewrite andb_true_iff, IHa, ?oz_eqb_eq, ?Nat.eqb_eq; split; [intros [-> ->] | intros [= -> ->] | intros [-> ->] | intros [= -> ->]]; auto.
Qed.
Lemma simAux_root n : forall a b, simAux n a b = true -> rootOf a = rootOf b.
Proof.
  induction n as [|n IH]; intros a b H; [discriminate|].
  destruct a, b; simpl in *; try discriminate;
    try (apply Nat.eqb_eq in H; now subst);
    try (apply andb_true_iff in H as [H _]); auto.
  symmetry. auto.
Qed.
Lemma similar_root a b : similar a b = true -> rootOf a = rootOf b.
Proof. apply simAux_root. Qed.
Lemma same_root a b : same a b = true -> rootOf a = rootOf b.
Proof.
  revert b. induction a; intros [ | | | | | | ] H; simpl in *; try discriminate;
    try (apply Nat.eqb_eq in H; now subst);
    try (apply andb_true_iff in H as [H _]); auto.
Qed.
Lemma same_cvar x k : same (Cvar x) k = true <-> k = Cvar x.
Proof. destruct k; simpl; split; intros H; try discriminate; [apply Nat.eqb_eq in H; now subst | injection H as ->; apply Nat.eqb_refl]. Qed.
Lemma includedBy_cvar e x : includedBy e (Cvar x) = true -> rootOf e = Cvar x.
Proof.
  induction e; simpl; intros H; auto; try discriminate.
  apply Nat.eqb_eq in H. now subst.
Qed.
Lemma rootOf_leaf s : match rootOf s with Cvar _ | Glob _ | Param _ => True | _ => False end.
Proof. induction s; simpl; auto. Qed.

(** ** Sets *)
Lemma isSameMember_In l s : isSameMember l s = true <-> In s l.
Proof.
  unfold isSameMember. rewrite existsb_exists. split.
  - intros (x & Hx & E). apply realSame_eq in E. now subst.
  - intros H. exists s. split; [auto | now apply realSame_eq].
Qed.
Lemma In_insert l s e : In e (insert l s) <-> In e l \/ e = s.
Proof.
  unfold insert. destruct (isSameMember l s) eqn:E.
  - apply isSameMember_In in E. split; auto. intros [H| ->]; auto.
  - rewrite in_app_iff. simpl. intuition.
Qed.
Lemma In_fold_insert l2 : forall l1 e, In e (fold_left insert l2 l1) <-> In e l1 \/ In e l2.
Proof.
  induction l2 as [|a l2 IH]; intros l1 e; simpl; [tauto|].
  rewrite IH, In_insert. split; intros H; decompose [or] H; subst; auto.
Qed.
Lemma In_union l1 l2 e : In e (union l1 l2) <-> In e l1 \/ In e l2.
Proof. unfold union. destruct l1; [simpl; tauto | apply In_fold_insert]. Qed.
Lemma In_unionExcept l2 ex : forall l1 e, In e (unionExcept l1 l2 ex) <-> In e l1 \/ (In e l2 /\ same e ex = false).
Proof.
  unfold unionExcept. induction l2 as [|a l2 IH]; intros l1 e; simpl; [tauto|].
  rewrite IH. destruct (same a ex) eqn:E; [|rewrite In_insert];
    split; intros H; decompose [or and] H; subst; auto; congruence.
Qed.
Lemma In_mapInsert f l e : In e (mapInsert f l) <-> exists x, In x l /\ e = f x.
Proof.
  unfold mapInsert. assert (forall acc, In e (fold_left (fun t x => insert t (f x)) l acc) <-> In e acc \/ exists x, In x l /\ e = f x) as G.
  { induction l as [|a l IH]; intros acc; simpl.
    - split; auto. intros [H|(x & [] & _)]; auto.
    - rewrite IH, In_insert. split.
      + intros [[H| ->]|(x & Hx & ->)]; eauto.
      + intros [H|(x & [->|Hx] & ->)]; eauto. }
  rewrite G. simpl. tauto.
Qed.
Lemma In_removeIndirection l e : In e (removeIndirection l) <-> exists x, In x l /\ isAddress x = false /\ e = mkAdr x.
Proof.
  unfold removeIndirection. rewrite In_mapInsert. split.
  - intros (x & Hx & ->). apply filter_In in Hx as [Hx E]. exists x. repeat split; auto. now destruct (isAddress x).
  - intros (x & Hx & E & ->). exists x. split; auto. apply filter_In. now rewrite E.
Qed.
Lemma In_deleteBase l b e : In e (deleteBase l b) <-> In e l /\ includedBy e b = false.
Proof. unfold deleteBase. rewrite filter_In, negb_true_iff. tauto. Qed.

(** ** The table *)
Lemma valuesOf_cons k vs t s : valuesOf ((k, vs) :: t) s = if same s k then vs else valuesOf t s.
Proof. reflexivity. Qed.
Lemma change_cons k vs t s f :
  change ((k, vs) :: t) s f = if same s k then (k, f vs) :: t else (k, vs) :: change t s f.
Proof. reflexivity. Qed.
Lemma valuesOf_change t y f x :
  valuesOf (change t (Cvar y) f) (Cvar x) = if Nat.eqb x y then f (valuesOf t (Cvar y)) else valuesOf t (Cvar x).
Proof.
  induction t as [|[k vs] t IH].
  - simpl. destruct (Nat.eqb x y) eqn:E; auto.
  - rewrite change_cons, !valuesOf_cons. destruct (same (Cvar y) k) eqn:Ey; rewrite valuesOf_cons.
    + apply same_cvar in Ey. subst k. simpl. destruct (Nat.eqb x y) eqn:E; auto.
    + rewrite IH. destruct (Nat.eqb x y) eqn:E.
      * apply Nat.eqb_eq in E. subst x. now rewrite Ey.
      * destruct (same (Cvar x) k); auto.
Qed.
Lemma valuesOf_clear t y x :
  valuesOf (clear t (Cvar y)) (Cvar x) = if Nat.eqb x y then [] else deleteBase (valuesOf t (Cvar x)) (Cvar y).
Proof.
  unfold clear. cbn [isCvar rootOf isLocalVar negb andb]. unfold clearAux.
  induction t as [|[k vs] t IH]; cbn [map valuesOf fst snd].
  - now destruct (Nat.eqb x y).
  - destruct (same (Cvar x) k) eqn:Ex; auto. apply same_cvar in Ex. subst k. cbn [includedBy same].
    now destruct (Nat.eqb x y).
Qed.
Lemma valuesOf_app t1 t2 s : valuesOf (t1 ++ t2) s = if existsb (fun k => same s (fst k)) t1 then valuesOf t1 s else valuesOf t2 s.
Proof. induction t1 as [|[k vs] t1 IH]; simpl; auto. destruct (same s k); auto. Qed.
Lemma valuesOf_none t s : existsb (fun k => same s (fst k)) t = false -> valuesOf t s = [].
Proof. induction t as [|[k vs] t IH]; simpl; auto. destruct (same s k); [discriminate|auto]. Qed.
Lemma valuesOf_change_other t k f x : k <> Cvar x -> valuesOf (change t k f) (Cvar x) = valuesOf t (Cvar x).
Proof.
  intros N. induction t as [|[k' vs] t IH]; cbn [change valuesOf].
  - destruct (same (Cvar x) k) eqn:E; auto. apply same_cvar in E. congruence.
  - destruct (same k k') eqn:E; cbn [valuesOf].
    + destruct (same (Cvar x) k') eqn:E'; auto. apply same_cvar in E'. subst k'.
      exfalso. destruct k; simpl in E; try discriminate. apply Nat.eqb_eq in E. congruence.
    + now rewrite IH.
Qed.
Lemma existsb_change t k f s : existsb (fun e => same s (fst e)) t = true -> existsb (fun e => same s (fst e)) (change t k f) = true.
Proof.
  induction t as [|[k' vs] t IH]; cbn [change existsb fst]; [discriminate|].
  destruct (same k k'); cbn [existsb fst]; auto. rewrite !orb_true_iff. intuition.
Qed.
Lemma valuesOf_tabUnion t1 t2 x v :
  In v (valuesOf (tabUnion t1 t2) (Cvar x)) <-> In v (valuesOf t1 (Cvar x)) \/ exists vs, In (Cvar x, vs) t2 /\ In v vs.
Proof.
  assert (forall k vs t1, In v (valuesOf (if existsb (fun k0 => same k (fst k0)) t1 then change t1 k (fun ws => union ws vs) else t1 ++ [(k, vs)]) (Cvar x)) <->
     In v (valuesOf t1 (Cvar x)) \/ (k = Cvar x /\ In v vs)) as G.
  { intros k vs t. destruct (existsb (fun k0 => same k (fst k0)) t) eqn:E.
    - assert ({k = Cvar x} + {k <> Cvar x}) as [->|N] by (repeat decide equality).
      + rewrite valuesOf_change, Nat.eqb_refl, In_union. intuition.
      + rewrite valuesOf_change_other by auto. intuition.
    - rewrite valuesOf_app, valuesOf_cons.
      destruct (existsb (fun k0 => same (Cvar x) (fst k0)) t) eqn:E1.
      + split; auto. intros [H|[-> H]]; auto. congruence.
      + rewrite (valuesOf_none _ _ E1). destruct (same (Cvar x) k) eqn:E2.
        * apply same_cvar in E2. subst k. simpl. intuition.
        * split; [intros []|]. intros [[]|[-> _]]. simpl in E2. now rewrite Nat.eqb_refl in E2. }
  revert t1. unfold tabUnion. induction t2 as [|[k vs] t2 IH]; intros t1.
  - simpl. split; auto. intros [H|(vs & [] & _)]; auto.
  - cbn [fold_left]. rewrite IH. clear IH. cbn [fst snd].
    assert (forall t', (In v (valuesOf t' (Cvar x)) <-> In v (valuesOf t1 (Cvar x)) \/ (k = Cvar x /\ In v vs)) ->
      (In v (valuesOf t' (Cvar x)) \/ (exists vs', In (Cvar x, vs') t2 /\ In v vs') <->
       In v (valuesOf t1 (Cvar x)) \/ (exists vs', In (Cvar x, vs') ((k, vs) :: t2) /\ In v vs'))) as F.
    { intros t' F. rewrite F. split.
      + intros [[H|[-> H]]|(vs' & Hi & H)]; eauto 6 using in_eq, in_cons.
      + intros [H|(vs' & [Hi|Hi] & H)]; eauto. injection Hi as -> ->. auto. }
    apply F. destruct vs as [|v0 vs]; [simpl; intuition|apply G].
Qed.
Lemma valuesOf_In t x v : In v (valuesOf t (Cvar x)) -> exists vs, In (Cvar x, vs) t /\ In v vs.
Proof.
  induction t as [|[k vs] t IH]; cbn [valuesOf]; [intros []|].
  destruct (same (Cvar x) k) eqn:E.
  - apply same_cvar in E. subst k. eauto using in_eq.
  - intros H. destruct (IH H) as (vs' & ? & ?). eauto using in_cons.
Qed.

(** ** What a reference stands for when the function is entered *)
Section Entry.
  Variable m0 : mem.
  Fixpoint reg (s : sref) (o : obj) : Prop :=
    match s with
    | Cvar _ => False
    | Param i => o = Root (RLoc i)
    | Glob g => o = Root (RGlob g)
    | Ptr (Adr a) | Fetch (Adr a) _ => reg a o
    | Ptr a | Fetch a _ => exists o' k k', reg a o' /\ m0 (o', k) = VPtr (o, k')
    | Field a f => exists o' k, reg a o' /\ o = Sub o' k f
    | Adr _ => False
    end.
  Definition vals (s : sref) (o : obj) : Prop :=
    match s with
    | Adr a => reg a o
    | _ => exists o' k k', reg s o' /\ m0 (o', k) = VPtr (o, k')
    end.
  Lemma reg_ptr s o : reg (Ptr s) o <-> vals s o.
  Proof. destruct s; simpl; tauto. Qed.
  Lemma reg_fetch s i o : reg (Fetch s i) o <-> vals s o.
  Proof. destruct s; simpl; tauto. Qed.
  Lemma reg_field s f o : reg (Field s f) o <-> exists o' k, reg s o' /\ o = Sub o' k f.
  Proof. simpl. tauto. Qed.
  Lemma reg_mkPtr s o : reg (mkPtr s) o <-> vals s o.
  Proof. destruct s; try apply reg_ptr. simpl. tauto. Qed.
  Lemma vals_mkAdr s o : vals (mkAdr s) o <-> reg s o.
  Proof.
    destruct s as [x|g|x|s|s i|s f|s]; try reflexivity.
    destruct i as [[| |]|]; reflexivity.
  Qed.
  Lemma vals_content s o' k o k' : reg s o' -> m0 (o', k) = VPtr (o, k') -> vals s o.
  Proof. destruct s; simpl; eauto 6. intros []. Qed.
  Lemma reg_notAdr s o : reg s o -> isAddress s = false.
  Proof. destruct s; simpl; auto. intros []. Qed.
  Lemma reg_vals_root s : forall o, reg s o \/ vals s o -> isLocalVar (rootOf s) = false.
  Proof.
    induction s; intros o; try (simpl; tauto); cbn [rootOf].
    - simpl. intros [[]|(? & ? & ? & [] & _)].
    - rewrite reg_ptr. intros [H|H]; eauto. destruct H as (o' & k & k' & H & _). apply reg_ptr in H. eauto.
    - rewrite reg_fetch. intros [H|H]; eauto. destruct H as (o' & k & k' & H & _). apply reg_fetch in H. eauto.
    - rewrite reg_field. intros [(o' & k & H & _)|(o' & k & k' & H & _)]; eauto.
      apply reg_field in H as (o'' & ? & H & _). eauto.
    - simpl. intros [[]|H]; eauto.
  Qed.

  Lemma vals_notAdr s o : isAddress s = false -> (vals s o <-> exists o' k k', reg s o' /\ m0 (o', k) = VPtr (o, k')).
  Proof. destruct s; simpl; intros H; try discriminate; tauto. Qed.
  Lemma vals_ext a b : isAddress a = false -> isAddress b = false -> (forall o, reg a o <-> reg b o) -> forall o, vals a o <-> vals b o.
  Proof.
    intros Ha Hb E o. rewrite !vals_notAdr by auto.
    split; intros (o' & k & k' & H & H'); exists o', k, k'; split; auto; now apply E.
  Qed.
  Lemma simAux_sem n : forall a b, simAux n a b = true -> (forall o, reg a o <-> reg b o) /\ (forall o, vals a o <-> vals b o).
  Proof.
    induction n as [|n IH]; intros a b H; [discriminate|].
    assert (isAddress a = isAddress b) as EA by (destruct a, b; simpl in *; auto; discriminate).
    assert (isAddress a = false -> (forall o, reg a o <-> reg b o) -> (forall o, reg a o <-> reg b o) /\ (forall o, vals a o <-> vals b o)) as K.
    { intros Ha E. split; auto. apply vals_ext; auto. congruence. }
    destruct a, b; cbn [simAux] in H; try discriminate;
      try (apply Nat.eqb_eq in H; subst; split; intros; tauto);
      try (apply andb_true_iff in H as [H H2]); destruct (IH _ _ H) as [R V].
    - apply K; [reflexivity|]. intros o. rewrite !reg_ptr. auto.
    - apply K; [reflexivity|]. intros o. rewrite reg_ptr, reg_fetch. symmetry. auto.
    - apply K; [reflexivity|]. intros o. rewrite reg_ptr, reg_fetch. auto.
    - apply K; [reflexivity|]. intros o. rewrite !reg_fetch. auto.
    - apply K; [reflexivity|]. intros o. rewrite !reg_field. apply Nat.eqb_eq in H2. subst.
      split; intros (o' & k & Hr & ->); exists o', k; split; auto; now apply R.
    - split; intros o; simpl; [tauto|apply R].
  Qed.
  Lemma readClause_notAdr c : isAddress (readClause c) = false.
  Proof. now destruct c. Qed.
  Lemma reg_readClause c : forall o, reg (readClause c) o <-> denotes m0 ownFrame c o.
  Proof.
    induction c; intros o; cbn [readClause denotes].
    - reflexivity.
    - reflexivity.
    - rewrite reg_ptr, vals_notAdr by apply readClause_notAdr.
      split; intros (o' & k & k' & H & H'); exists o', k, k'; split; auto; now apply IHc.
    - rewrite reg_fetch, vals_notAdr by apply readClause_notAdr.
      split; intros (o' & k & k' & H & H'); exists o', k, k'; split; auto; now apply IHc.
    - rewrite reg_field. split; intros (o' & k & H & H'); exists o', k; split; auto; now apply IHc.
  Qed.

  (** ** What passes the check is allowed *)
  Variable fl : flags.
  Variable ann : glob -> checked.
  Variable onlyParam : var -> bool.
  Variable clause : list cplace.
  Hypothesis Hann : forall g, ann g = ChChecked.
  Hypothesis Hmg : f_modglobs fl = true.
  Let okay := allowed m0 onlyParam clause.

  Lemma allowed_deref o k o' k' : okay o -> m0 (o, k) = VPtr (o', k') -> okay o'.
  Proof.
    intros [(c & Hc & B)|(i & Hi & B)] E; [left; exists c | right; exists i]; split; auto; eapply below_deref; eauto.
  Qed.
  Lemma allowed_fld o k f : okay o -> okay (Sub o k f).
  Proof.
    intros [(c & Hc & B)|(i & Hi & B)]; [left; exists c | right; exists i]; split; auto; now apply below_fld.
  Qed.
  Lemma checkGlobMod_true g : checkGlobMod fl ann g = true.
  Proof. unfold checkGlobMod, isCheckedModify. rewrite Hann. simpl. auto. Qed.
  Lemma member_allowed s o : member (mods clause) s = true -> reg s o \/ vals s o -> okay o.
  Proof.
    unfold member, mods. intros H. apply existsb_exists in H as (e & He & S).
    apply in_map_iff in He as (c & <- & Hc). apply simAux_sem in S as [R V].
    intros [H|H].
    - apply R, reg_readClause in H. left. exists c. split; auto. now apply below_here.
    - apply V, vals_notAdr in H; [|apply readClause_notAdr]. destruct H as (o' & k & k' & H & E).
      apply reg_readClause in H. left. exists c. split; auto. eapply below_deref; [apply below_here; eauto|eauto].
  Qed.
  Lemma checkModifyVal_allowed s : checkModifyVal fl ann onlyParam clause s = true -> forall o, reg s o \/ vals s o -> okay o.
  Proof.
    induction s as [x|g|i|s IH|s IH i|s IH f|s IH]; intros H; cbn [checkModifyVal] in H.
    - intros o [[]|(? & ? & ? & [] & _)].
    - rewrite checkGlobMod_true in H. intros o. now apply member_allowed.
    - intros o Ho. apply orb_true_iff in H as [H|H]; [eapply member_allowed; eauto|].
      right. exists i. split; auto. destruct Ho as [->|(o' & k & k' & -> & E)].
      + now apply below_here.
      + eapply below_deref; [apply below_here; reflexivity|eauto].
    - intros o Ho. apply orb_true_iff in H as [H|H]; [eapply member_allowed; eauto|].
      rewrite reg_ptr in Ho. destruct Ho as [Ho|(o' & k & k' & Ho & E)]; eauto.
      apply reg_ptr in Ho. eapply allowed_deref; eauto.
    - intros o Ho. apply orb_true_iff in H as [H|H]; [eapply member_allowed; eauto|].
      rewrite reg_fetch in Ho. destruct Ho as [Ho|(o' & k & k' & Ho & E)]; eauto.
      apply reg_fetch in Ho. eapply allowed_deref; eauto.
    - intros o Ho. apply orb_true_iff in H as [H|H]; [eapply member_allowed; eauto|].
      assert (forall o, reg (Field s f) o -> okay o) as G.
      { intros o1 (o' & k & Ho1 & ->). apply allowed_fld. eauto. }
      destruct Ho as [Ho|(o' & k & k' & Ho & E)]; eauto. eapply allowed_deref; eauto.
    - intros o Ho. apply orb_true_iff in H as [H|H]; [eapply member_allowed; eauto|].
      destruct Ho as [[]|Ho]. eauto.
  Qed.
  Lemma checkModify_allowed s o : checkModify fl ann onlyParam clause s = true -> reg s o -> visible o -> okay o.
  Proof.
    intros H Ho V. destruct s as [x|g|i|s|s i|s f|s]; try (destruct Ho; fail); cbn [checkModify] in H.
    - rewrite checkGlobMod_true in H. eapply member_allowed; eauto.
    - simpl in Ho. subst o. destruct V.
    - apply (checkModifyVal_allowed (Ptr s)); auto.
    - apply (checkModifyVal_allowed (Fetch s i)); auto.
    - assert (match s with Param _ => True | _ => member (mods clause) (Field s f) || checkModifyVal fl ann onlyParam clause s = true end) as H'
        by (destruct s; auto). clear H.
      destruct s as [x|g|j|s|s i|s f'|s]; try (apply (checkModifyVal_allowed (Field _ f) H'); auto; fail).
      simpl in Ho. destruct Ho as (o' & k & -> & ->). destruct V.
  Qed.
  Lemma reference_visible s : isReference s = false -> forall o, reg s o -> ~ visible o.
  Proof.
    induction s; simpl isReference; try discriminate; intros H o Ho.
    - destruct Ho.
    - simpl in Ho. subst o. intros [].
    - destruct Ho as (o' & k & Ho & ->). apply (IHs H _ Ho).
    - destruct Ho.
  Qed.
End Entry.

Lemma rootOf_mkPtr s : rootOf (mkPtr s) = rootOf s.
Proof. now destruct s. Qed.
Lemma rootOf_mkAdr s : rootOf (mkAdr s) = rootOf s.
Proof. destruct s as [x|g|x|s|s i|s f|s]; auto. now destruct i as [[| |]|]. Qed.
Lemma rootOf_fixBase s v : rootOf (fixBase s v) = rootOf v.
Proof. induction s; simpl; auto; now rewrite ?rootOf_mkPtr, ?rootOf_mkAdr. Qed.

(** ** What can be reached in an execution *)
Section Exec.
  Variables (m0 : mem) (np : nat) (kind : var -> vkind).
  Hypothesis Hentry : entryMem np kind m0.

  Fixpoint okAdr (s v : sref) : Prop :=
    match s with
    | Cvar _ | Glob _ | Param _ => True
    | Ptr a | Fetch a _ | Field a _ => okAdr a v
    | Adr a => isAddress (fixBase a v) = false /\ okAdr a v
    end.
  Definition Ent (t : table) (s E : sref) : Prop :=
    match rootOf s with
    | Cvar x => exists v, In v (valuesOf t (Cvar x)) /\ E = fixBase s v /\ okAdr s v
    | Glob _ => E = s
    | _ => False
    end.
  Lemma canAlias_complete t x v : In v (valuesOf t (Cvar x)) -> forall s n, rootOf s = Cvar x -> okAdr s v -> size s <= n ->
    In (fixBase s v) (canAliasAux n t s).
  Proof.
    intros Hv. induction s; intros n R O L; cbn [rootOf okAdr size] in *; try discriminate;
      (destruct n as [|n]; [lia|]); cbn [canAliasAux fixBase].
    - injection R as ->. auto.
    - apply In_union. left. apply In_mapInsert. eexists. split; [apply IHs; auto; lia|auto].
    - apply In_union. left. apply In_mapInsert. eexists. split; [apply IHs; auto; lia|auto].
    - apply In_union. left. apply In_mapInsert. eexists. split; [apply IHs; auto; lia|auto].
    - destruct O as [O1 O2]. apply In_union. left. apply In_removeIndirection. eexists. split; [apply IHs; auto; lia|auto].
  Qed.
  Lemma Ent_ptr t s E : Ent t s E -> exists E', Ent t (mkPtr s) E' /\ forall o, reg m0 E' o <-> vals m0 E o.
  Proof.
    unfold Ent. rewrite rootOf_mkPtr. destruct (rootOf s) eqn:R; try tauto.
    - intros (v & Hv & -> & O). destruct s; cbn [mkPtr].
      7:{ cbn [okAdr] in O. exists (fixBase s v). split; [exists v; tauto|]. intros o. cbn [fixBase]. symmetry. apply vals_mkAdr. }
      all: eexists; (split; [exists v; split; [exact Hv|split; [reflexivity|exact O]]|]); intros o; apply (reg_mkPtr m0).
    - intros ->. exists (mkPtr s). split; auto. intros o. apply reg_mkPtr.
  Qed.
  Lemma Ent_fetch t s E i : Ent t s E -> Ent t (Fetch s i) (Fetch E i).
  Proof.
    unfold Ent. cbn [rootOf]. destruct (rootOf s) eqn:R; try tauto.
    - intros (v & Hv & -> & O). exists v. auto.
    - intros ->. auto.
  Qed.
  Lemma Ent_field t s E i : Ent t s E -> Ent t (Field s i) (Field E i).
  Proof.
    unfold Ent. cbn [rootOf]. destruct (rootOf s) eqn:R; try tauto.
    - intros (v & Hv & -> & O). exists v. auto.
    - intros ->. auto.
  Qed.
  Lemma Ent_adr t s E o : Ent t s E -> reg m0 E o -> exists E', Ent t (mkAdr s) E' /\ vals m0 E' o.
  Proof.
    unfold Ent. rewrite rootOf_mkAdr. destruct (rootOf s) eqn:R; try tauto.
    - intros (v & Hv & -> & O) H.
      assert (exists E', Ent t (Adr s) E' /\ vals m0 E' o) as G.
      { exists (mkAdr (fixBase s v)). split; [|now apply vals_mkAdr]. unfold Ent. cbn [rootOf]. rewrite R.
        exists v. split; [auto|split; [reflexivity|]]. split; [exact (reg_notAdr _ _ _ H)|exact O]. }
      unfold Ent in G. cbn [rootOf] in G. rewrite R in G.
      destruct s as [y|g|y|s|s i|s f|s]; auto.
      + cbn [mkAdr]. exists (fixBase s v). split; [exists v; auto|]. now apply reg_mkPtr.
      + cbn [mkAdr]. destruct i as [[| |]|]; auto. exists (fixBase s v). split; [exists v; auto|]. now apply (reg_fetch m0 _ (Some 0%Z)).
    - intros -> H. exists (mkAdr s). split; auto. now apply vals_mkAdr.
  Qed.

  Definition bare (l : loc) : Prop := exists x, l = cell x /\ kind x = KPtr.
  Definition okobj (o : obj) : Prop :=
    match o with Root (RLoc x) => kind x = KInt | Root (RArg _) => False | _ => True end.
  Definition quiet (o : obj) : Prop :=
    match rootObj o with
    | RNew _ => True
    | RLoc y => kind y = KInt \/ (isSub o = true /\ ~ (kind y = KStruct /\ y < np))
    | _ => False
    end.
  Record J (t : table) (m : mem) : Prop := mkJ {
    J_mem : forall l, ~ bare l -> m l = m0 l \/ isNum (m l);
    J_ptr : forall x o1 k1, kind x = KPtr -> m (cell x) = VPtr (o1, k1) ->
      okobj o1 /\ (quiet o1 \/ exists v, In v (valuesOf t (Cvar x)) /\ vals m0 v o1);
    J_str : forall x, kind x = KStruct -> x < np -> In (Param x) (valuesOf t (Cvar x)) }.

  Lemma visible_okobj o : visible o -> okobj o.
  Proof. destruct o as [[| | | |]|]; simpl; auto; intros []. Qed.
  Lemma quiet_visible o : quiet o -> ~ visible o.
  Proof. unfold quiet, visible. destruct (rootObj o); tauto. Qed.
  Lemma okobj_bare o k : okobj o -> ~ bare (o, k).
  Proof. intros H (x & E & K). injection E as -> ->. simpl in H. congruence. Qed.
  Lemma quiet_sub o k f : quiet o -> quiet (Sub o k f).
  Proof.
    unfold quiet. simpl. destruct (rootObj o) eqn:R; auto. intros [H|[_ H]]; auto.
  Qed.
  Lemma J_content t m o k o1 k1 : J t m -> ~ bare (o, k) -> m (o, k) = VPtr (o1, k1) -> m0 (o, k) = VPtr (o1, k1) /\ visible o1.
  Proof.
    intros Jm B E. destruct (J_mem _ _ Jm _ B) as [H|H]; [|rewrite E in H; destruct H].
    rewrite E in H. split; auto. now destruct (Hentry _ _ _ _ (eq_sym H)).
  Qed.
  Lemma J_quiet t m o k o1 k1 : J t m -> quiet o -> m (o, k) = VPtr (o1, k1) -> False.
  Proof.
    intros Jm Q E.
    assert (~ bare (o, k)) as B.
    { intros (x & E' & K). injection E' as -> ->. unfold quiet in Q. simpl in Q. destruct Q as [Q|[Q _]]; congruence. }
    destruct (J_content _ _ _ _ _ _ Jm B E) as [E0 _]. destruct (Hentry _ _ _ _ E0) as [_ [V|(i & Li & R & C)]].
    - exact (quiet_visible _ Q V).
    - unfold quiet in Q. rewrite R in Q.
      destruct C as [(K & -> & _)|(K & S)], Q as [Q|[Q1 Q2]]; try congruence; [discriminate|tauto].
  Qed.

  Definition where_ (t : table) (p : place) (l : loc) : Prop :=
    (exists x, p = PVar x /\ l = cell x) \/
    (okobj (fst l) /\ (quiet (fst l) \/ exists E, Ent t (srefOf p) E /\ reg m0 E (fst l))).
  Lemma follow t m p l o1 k1 : J t m -> where_ t p l -> m l = VPtr (o1, k1) ->
    okobj o1 /\ (quiet o1 \/ exists E, Ent t (srefOf p) E /\ vals m0 E o1).
  Proof.
    intros Jm [(x & -> & ->)|[O W]] E.
    - destruct (kind x) eqn:K.
      2:{ destruct (J_ptr _ _ Jm _ _ _ K E) as [O [Q|(v & Hv & V)]]; split; auto. right. exists v. split; auto.
          unfold Ent. simpl. exists v. auto. }
      all: exfalso; (assert (~ bare (cell x)) as NB by (intros (y & Ey & Ky); injection Ey as ->; congruence));
        destruct (J_content _ _ _ _ _ _ Jm NB E) as [E0 _];
        destruct (Hentry _ _ _ _ E0) as [_ [[]|(i & Li & R & C)]]; simpl in R; injection R as ->;
        destruct C as [(C & _)|(C & C')]; try congruence; discriminate.
    - destruct l as [o k]. cbn [fst] in *.
      destruct (J_content _ _ _ _ _ _ Jm (okobj_bare _ _ O) E) as [E0 V]. split; [now apply visible_okobj|].
      destruct W as [Q|(E' & HE & R)]; [destruct (J_quiet _ _ _ _ _ _ Jm Q E)|].
      right. exists E'. split; auto. eapply vals_content; eauto.
  Qed.
  Lemma Ent_ptr' t p E : Ent t (srefOf p) E -> exists E', Ent t (Ptr (srefOf p)) E' /\ forall o, reg m0 E' o <-> vals m0 E o.
  Proof.
    intros H. destruct (Ent_ptr _ _ _ H) as (E' & H1 & H2). exists E'. split; auto.
    now destruct p.
  Qed.
  Lemma at_where t m p l : J t m -> at_ m p l -> where_ t p l.
  Proof.
    intros Jm H. induction H as [x|g|p l [o1 k1] Ha IH E|p l o k i j Ha IH E Hi|p o k f Ha IH].
    - left. eauto.
    - right. simpl. split; auto. right. exists (Glob g). now split.
    - right. destruct (follow _ _ _ _ _ _ Jm IH E) as [O [Q|(E' & H1 & H2)]]; split; auto.
      right. destruct (Ent_ptr' _ _ _ H1) as (E2 & H3 & H4). exists E2. split; auto. now apply H4.
    - right. destruct (follow _ _ _ _ _ _ Jm IH E) as [O [Q|(E' & H1 & H2)]]; split; auto.
      right. exists (Fetch E' i). split; [now apply Ent_fetch|]. now apply reg_fetch.
    - right. cbn [fst]. split; [exact I|]. destruct IH as [(x & -> & E)|[O W]].
      + injection E as -> ->. destruct (kind x) eqn:K.
        1,2: left; unfold quiet; simpl; right; split; auto; intros []; congruence.
        destruct (lt_dec x np) as [L|L].
        * right. exists (Field (Param x) f). split.
          { unfold Ent. simpl. exists (Param x). repeat split; auto. now apply (J_str _ _ Jm). }
          simpl. eauto.
        * left. unfold quiet. simpl. right. tauto.
      + destruct W as [Q|(E & H1 & H2)]; [left; now apply quiet_sub|].
        right. exists (Field E f). split; [now apply Ent_field|]. simpl. eauto.
  Qed.
  Lemma ev_where t m e o1 k1 : J t m -> plainExp kind e -> ev m e (VPtr (o1, k1)) ->
    okobj o1 /\ (quiet o1 \/ exists a E, srefExp e = Some a /\ Ent t a E /\ vals m0 E o1 /\
                               match a with Adr b => isLocalVar b = false | _ => True end).
  Proof.
    intros Jm P H. remember (VPtr (o1, k1)) as w eqn:E. destruct H as [p l Ha|p l Ha|n|]; [| | |discriminate].
    - destruct (follow _ _ _ _ _ _ Jm (at_where _ _ _ _ Jm Ha) E) as [O [Q|(E' & H1 & H2)]]; split; auto.
      right. exists (srefOf p), E'. repeat split; auto. now destruct p.
    - injection E as ->. destruct (at_where _ _ _ _ Jm Ha) as [(x & -> & E)|[O W]].
      + injection E as -> ->. simpl in P. simpl. split; auto. left. unfold quiet. simpl. auto.
      + cbn [fst] in *. split; auto. destruct W as [Q|(E & H1 & H2)]; auto.
        destruct (Ent_adr _ _ _ _ H1 H2) as (E' & H3 & H4). destruct p as [y|g|p|p i|p f].
        * inversion Ha. subst. simpl in P. left. unfold quiet. simpl. auto.
        * right. exists (Adr (Glob g)), E'. repeat split; auto.
        * right. exists (srefOf p), E'. repeat split; auto. now destruct p.
        * right. exists (mkAdr (Fetch (srefOf p) i)), E'. repeat split; auto.
          cbn [mkAdr]. destruct i as [[| |]|]; auto. now destruct p.
        * right. exists (Adr (Field (srefOf p) f)), E'. repeat split; auto.
    - injection E as <- <-. split; [exact I|]. left. exact I.
  Qed.

  (** *** Assignments *)
  Lemma addMust_grows t s a x v : In v (valuesOf t (Cvar x)) -> In v (valuesOf (addMust t s a) (Cvar x)).
  Proof.
    intros H. unfold addMust.
    assert ({s = Cvar x} + {s <> Cvar x}) as [->|N] by (repeat decide equality).
    - rewrite valuesOf_change, Nat.eqb_refl. apply In_unionExcept. left. apply In_insert. auto.
    - now rewrite valuesOf_change_other.
  Qed.
  Lemma addAlias_grows t s a x v : In v (valuesOf t (Cvar x)) -> In v (valuesOf (addAlias np t s a) (Cvar x)).
  Proof.
    intros H. unfold addAlias. destruct (similar s a); auto.
    destruct (match a with Adr b => isDirectParam np b | _ => false end); auto.
    destruct (isLocalVar s && isLocalVar a); auto using addMust_grows.
  Qed.
  Lemma addAlias_has t x a E : rootOf a <> Cvar x -> match a with Adr b => isLocalVar b = false | _ => True end ->
    isLocalVar (rootOf E) = false -> E = a \/ In E (canAlias t a) ->
    In E (valuesOf (addAlias np t (Cvar x) a) (Cvar x)).
  Proof.
    intros R A L H. unfold addAlias.
    destruct (similar (Cvar x) a) eqn:S. { apply similar_root in S. simpl in S. congruence. }
    assert (match a with Adr b => isDirectParam np b | _ => false end = false) as ->.
    { destruct a; auto. now destruct a. }
    assert (In E (valuesOf (addMust t (Cvar x) a) (Cvar x))) as G.
    { unfold addMust. rewrite valuesOf_change, Nat.eqb_refl. apply In_unionExcept. destruct H as [->|H].
      - left. apply In_insert. auto.
      - right. split; auto. destruct (same E (Cvar x)) eqn:Q; auto. apply same_root in Q. rewrite Q in L. discriminate. }
    destruct (isLocalVar (Cvar x) && isLocalVar a); auto using addMust_grows.
  Qed.
  Lemma clear_keeps t x y v : x <> y -> isLocalVar (rootOf v) = false -> In v (valuesOf t (Cvar y)) -> In v (valuesOf (clear t (Cvar x)) (Cvar y)).
  Proof.
    intros N L H. rewrite valuesOf_clear. destruct (Nat.eqb y x) eqn:E; [apply Nat.eqb_eq in E; congruence|].
    apply In_deleteBase. split; auto. destruct (includedBy v (Cvar x)) eqn:Q; auto.
    apply includedBy_cvar in Q. rewrite Q in L. discriminate.
  Qed.
  Lemma Ent_clear t x a E o : rootOf a <> Cvar x -> vals m0 E o -> Ent t a E -> Ent (clear t (Cvar x)) a E.
  Proof.
    unfold Ent. intros R V. destruct (rootOf a) as [y| | | | | |] eqn:Ra; auto.
    intros (v & Hv & -> & O). exists v. split; auto. apply clear_keeps; [congruence| |exact Hv].
    rewrite <- (rootOf_fixBase a v). eapply reg_vals_root; eauto.
  Qed.
  Lemma size_mkAdr s : size (mkAdr s) <= S (size s).
  Proof. destruct s as [y|g|y|s|s i|s f|s]; simpl; try lia. destruct i as [[| |]|]; simpl; lia. Qed.
  Lemma size_srefOf p : size (srefOf p) = S (steps p).
  Proof. induction p; simpl; lia. Qed.
  Lemma size_srefExp e a : srefExp e = Some a -> size a <= S (stepsExp e).
  Proof.
    destruct e; simpl; intros H; try discriminate; injection H as <-.
    - rewrite size_srefOf. lia.
    - etransitivity; [apply size_mkAdr|]. rewrite size_srefOf. lia.
  Qed.
  Lemma rootOf_srefOf p : rootOf (srefOf p) = match rootPlace p with PVar x => Cvar x | PGlob g => Glob g | _ => Cvar 0 end.
  Proof. induction p; simpl; auto. Qed.
  Lemma rootPlace_leaf p : match rootPlace p with PVar _ | PGlob _ => True | _ => False end.
  Proof. induction p; simpl; auto. Qed.
  Lemma rootOf_srefExp e a x : srefExp e = Some a -> notFrom x e -> rootOf a <> Cvar x.
  Proof.
    destruct e; simpl; intros H N; try discriminate; injection H as <-;
      rewrite ?rootOf_mkAdr, rootOf_srefOf; pose proof (rootPlace_leaf p) as L;
      destruct (rootPlace p); try contradiction; congruence.
  Qed.
  Lemma Ent_canAlias t a E : Ent t a E -> size a <= searchLimit -> E = a \/ In E (canAlias t a).
  Proof.
    unfold Ent. destruct (rootOf a) eqn:R; try tauto. intros (v & Hv & -> & O) L. right.
    unfold canAlias. eapply canAlias_complete; eauto.
  Qed.
  Lemma J_set t m x e v : J t m -> kind x = KPtr -> plainExp kind e -> notFrom x e -> stepsExp e < searchLimit ->
    ev m e v -> J (updateAliases np t (Cvar x) e) (upd m (cell x) v).
  Proof.
    intros Jm K P N L Hev. constructor.
    - intros l B. unfold upd. destruct (loc_eq_dec l (cell x)) as [->|D]; [destruct B; exists x; auto|].
      now apply (J_mem _ _ Jm).
    - intros y o1 k1 Ky. unfold upd. destruct (loc_eq_dec (cell y) (cell x)) as [D|D].
      + injection D as ->. intros ->. destruct (ev_where _ _ _ _ _ Jm P Hev) as [O [Q|(a & E & Ha & HE & V & A)]]; split; auto.
        right. exists E. split; auto. unfold updateAliases. rewrite Ha.
        apply addAlias_has; auto.
        * eapply rootOf_srefExp; eauto.
        * eapply reg_vals_root; eauto.
        * apply Ent_canAlias; [|pose proof (size_srefExp _ _ Ha); lia]. eapply Ent_clear; eauto. eapply rootOf_srefExp; eauto.
      + intros Hy. destruct (J_ptr _ _ Jm _ _ _ Ky Hy) as [O [Q|(w & Hw & V)]]; split; auto.
        right. exists w. split; auto. unfold updateAliases.
        assert (In w (valuesOf (clear t (Cvar x)) (Cvar y))) as G.
        { apply clear_keeps; [congruence| |exact Hw]. eapply reg_vals_root; eauto. }
        destruct (srefExp e); auto using addAlias_grows.
    - intros y Ky Ly. unfold updateAliases.
      assert (In (Param y) (valuesOf (clear t (Cvar x)) (Cvar y))) as G.
      { apply clear_keeps; [congruence|reflexivity|]. now apply (J_str _ _ Jm). }
      destruct (srefExp e); auto using addAlias_grows.
  Qed.
  Lemma J_num t m l z : J t m -> J t (upd m l (VNum z)).
  Proof.
    intros Jm. constructor.
    - intros l' B. unfold upd. destruct (loc_eq_dec l' l); simpl; auto. now apply (J_mem _ _ Jm).
    - intros y o1 k1 Ky. unfold upd. destruct (loc_eq_dec (cell y) l); [discriminate|]. now apply (J_ptr _ _ Jm).
    - apply (J_str _ _ Jm).
  Qed.
  Lemma J_updAll t ws : forall m, J t m -> Forall (fun a : loc * val => isNum (snd a)) ws -> J t (updAll m ws).
  Proof.
    induction ws as [|[l v] ws IH]; intros m Jm F; auto. inversion F; subst. unfold updAll. simpl.
    apply IH; auto. destruct v; [now apply J_num|contradiction].
  Qed.
  Lemma J_grow t t' m : J t m -> (forall x v, In v (valuesOf t (Cvar x)) -> In v (valuesOf t' (Cvar x))) -> J t' m.
  Proof.
    intros Jm G. constructor.
    - apply (J_mem _ _ Jm).
    - intros x o1 k1 K E. destruct (J_ptr _ _ Jm _ _ _ K E) as [O [Q|(v & Hv & V)]]; split; eauto.
    - intros x K L. apply G. now apply (J_str _ _ Jm).
  Qed.
  Lemma startTable_param i : i < np -> In (Param i) (valuesOf (startTable np) (Cvar i)).
  Proof.
    unfold startTable. intros L.
    assert (forall l t, In i l \/ In (Param i) (valuesOf t (Cvar i)) -> In (Param i) (valuesOf (fold_left (fun t i => addAlias np t (Cvar i) (Param i)) l t) (Cvar i))) as G.
    { induction l as [|j l IH]; intros t H; simpl; [destruct H as [[]|]; auto|].
      apply IH. destruct H as [[->|H]|H]; auto using addAlias_grows.
      right. apply addAlias_has; auto. simpl. congruence. }
    apply G. left. apply in_seq. lia.
  Qed.
  Lemma J_start : J (startTable np) m0.
  Proof.
    constructor.
    - auto.
    - intros x o1 k1 K E. destruct (Hentry _ _ _ _ E) as [V [[]|(i & Li & R & C)]]. simpl in R. injection R as <-.
      split; [now apply visible_okobj|]. right. exists (Param x). split; [now apply startTable_param|].
      simpl. eauto 6.
    - intros x K L. now apply startTable_param.
  Qed.

  (** *** Calls *)
  Lemma fixBaseParam_glob args c g : rootOf (readClause c) = Glob g -> fixBaseParam args (readClause c) = Some (readClause c).
  Proof.
    induction c; simpl; intros R; try discriminate; auto; rewrite IHc; auto; simpl; f_equal.
    now destruct c.
  Qed.
  Lemma fixBaseParam_size args c s n : fixBaseParam args (readClause c) = Some s ->
    Forall (fun e => csteps c + stepsExp e < n) args -> size s <= n \/ exists g, rootOf s = Glob g.
  Proof.
    intros H F.
    assert (forall c s k, fixBaseParam args (readClause c) = Some s -> Forall (fun e => k + stepsExp e < n) args ->
             csteps c <= k -> size s + k <= n + csteps c \/ exists g, rootOf s = Glob g) as G.
    { clear. induction c; cbn [readClause fixBaseParam csteps]; intros s k H F L.
      - destruct (nth_error args i) as [e|] eqn:N; [|discriminate]. apply nth_error_In in N.
        rewrite Forall_forall in F. specialize (F _ N). apply size_srefExp in H. left. lia.
      - injection H as <-. right. exists g. reflexivity.
      - destruct (fixBaseParam args (readClause c)) as [b|]; [|discriminate]. injection H as <-.
        destruct (IHc b k eq_refl F ltac:(lia)) as [H|(g & H)]; [left|right; exists g; now rewrite rootOf_mkPtr].
        destruct b; simpl in *; lia.
      - destruct (fixBaseParam args (readClause c)) as [b|]; [|discriminate]. injection H as <-.
        destruct (IHc b k eq_refl F ltac:(lia)) as [H|(g & H)]; [left; simpl in *; lia|right; exists g; auto].
      - destruct (fixBaseParam args (readClause c)) as [b|]; [|discriminate]. injection H as <-.
        destruct (IHc b k eq_refl F ltac:(lia)) as [H|(g & H)]; [left; simpl in *; lia|right; exists g; auto]. }
    destruct (G c s (csteps c) H F (le_n _)); auto. left. lia.
  Qed.
  Lemma callMem_arg m vs i k : k <> 0%Z -> callMem m vs (Root (RArg i), k) = m (Root (RArg i), k).
  Proof. intros N. simpl. destruct k; congruence. Qed.
  Lemma callMem_other m vs o k : match o with Root (RArg _) => False | _ => True end -> callMem m vs (o, k) = m (o, k).
  Proof. destruct o as [[| | | |]|]; simpl; tauto. Qed.
  (** A pointer found by a called function. *)
  Lemma call_arg t m args vs i k o1 k1 : J t m -> Forall (plainExp kind) args -> Forall2 (ev m) args vs ->
    callMem m vs (Root (RArg i), k) = VPtr (o1, k1) ->
    okobj o1 /\ (quiet o1 \/ exists e a E, nth_error args i = Some e /\ srefExp e = Some a /\ Ent t a E /\ vals m0 E o1).
  Proof.
    intros Jm P F E. destruct (Z.eq_dec k 0) as [->|N].
    - cbn [callMem] in E.
      assert (exists e, nth_error args i = Some e /\ ev m e (VPtr (o1, k1))) as (e & He & V).
      { clear P. revert i E. induction F as [|e v args vs Hev F IH]; intros i E; [destruct i; discriminate|].
        destruct i as [|i]; simpl in *; [exists e; subst; auto|auto]. }
      assert (plainExp kind e) as Pe by (rewrite Forall_forall in P; apply P; eapply nth_error_In; eauto).
      destruct (ev_where _ _ _ _ _ Jm Pe V) as [O [Q|(a & E' & Ha & HE & Hv & _)]]; split; auto. right. eauto 8.
    - rewrite callMem_arg in E by auto. exfalso.
      assert (~ bare (Root (RArg i), k)) as B by (intros (x & Ex & _); discriminate).
      destruct (J_content _ _ _ _ _ _ Jm B E) as [E0 _]. destruct (Hentry _ _ _ _ E0) as [_ [[]|(j & _ & R & _)]]. discriminate.
  Qed.
  Definition argObj (o : obj) : Prop := exists i, rootObj o = RArg i.
  Lemma J_argsub t m vs o k o1 k1 : J t m -> argObj o -> isSub o = true -> callMem m vs (o, k) = VPtr (o1, k1) -> False.
  Proof.
    intros Jm (i & R) S E. destruct o as [|o z f]; [discriminate|]. rewrite callMem_other in E by exact I.
    assert (~ bare (Sub o z f, k)) as B by (intros (x & Ex & _); discriminate).
    destruct (J_content _ _ _ _ _ _ Jm B E) as [E0 _].
    destruct (Hentry _ _ _ _ E0) as [_ [V|(j & _ & R' & _)]]; [unfold visible in V; rewrite R in V; auto|congruence].
  Qed.
  Lemma denotes_call t m args vs c : J t m -> Forall (plainExp kind) args -> Forall2 (ev m) args vs ->
    forall o, denotes (callMem m vs) callFrame c o ->
    (argObj o /\ forall i, o = Root (RArg i) -> c = CParam i) \/
    (okobj o /\ (quiet o \/ exists s E, fixBaseParam args (readClause c) = Some s /\ Ent t s E /\ reg m0 E o)).
  Proof.
    intros Jm P F.
    assert (forall c, (forall o, denotes (callMem m vs) callFrame c o ->
       (argObj o /\ forall i, o = Root (RArg i) -> c = CParam i) \/
       (okobj o /\ (quiet o \/ exists s E, fixBaseParam args (readClause c) = Some s /\ Ent t s E /\ reg m0 E o))) ->
       forall o' k o k', denotes (callMem m vs) callFrame c o' -> callMem m vs (o', k) = VPtr (o, k') ->
       okobj o /\ (quiet o \/ exists s E, fixBaseParam args (readClause c) = Some s /\ Ent t s E /\ vals m0 E o)) as D.
    { clear c. intros c IH o' k o k' H E. destruct (IH _ H) as [[A Ai]|[O W]].
      - destruct o' as [r|o' z f]; [|destruct (J_argsub _ _ _ _ _ _ _ Jm A eq_refl E)].
        destruct A as (i & R). simpl in R. subst r. rewrite (Ai i eq_refl).
        destruct (call_arg _ _ _ _ _ _ _ _ Jm P F E) as [Oo [Q|(e & a & E' & He & Ha & HE & V)]]; split; auto.
        right. exists a, E'. cbn [readClause fixBaseParam]. rewrite He. auto.
      - assert (match o' with Root (RArg _) => False | _ => True end) as NA by (destruct o' as [[| | | |]|]; simpl in *; auto).
        rewrite callMem_other in E by auto.
        destruct (J_content _ _ _ _ _ _ Jm (okobj_bare _ _ O) E) as [E0 V]. split; [now apply visible_okobj|].
        destruct W as [Q|(s & E' & Hs & HE & R)]; [destruct (J_quiet _ _ _ _ _ _ Jm Q E)|].
        right. exists s, E'. repeat split; auto. eapply vals_content; eauto. }
    induction c; cbn [denotes readClause fixBaseParam]; intros o H.
    - subst o. left. split; [exists i; reflexivity|]. intros j Hj. injection Hj as ->. reflexivity.
    - subst o. right. split; [exact I|]. right. exists (Glob g), (Glob g). repeat split; auto.
    - right. destruct H as (o' & k & k' & H & E). destruct (D c IHc _ _ _ _ H E) as [O [Q|(s & E' & Hs & HE & V)]]; split; auto.
      right. rewrite Hs. destruct (Ent_ptr _ _ _ HE) as (E2 & H1 & H2). exists (mkPtr s), E2. repeat split; auto. now apply H2.
    - right. destruct H as (o' & k & k' & H & E). destruct (D c IHc _ _ _ _ H E) as [O [Q|(s & E' & Hs & HE & V)]]; split; auto.
      right. rewrite Hs. exists (Fetch s None), (Fetch E' None). split; [reflexivity|]. split; [now apply Ent_fetch|now apply reg_fetch].
    - destruct H as (o' & k & H & ->). destruct (IHc _ H) as [[(i & R) A]|[O W]].
      + left. split; [exists i; exact R|]. intros j Hj. discriminate.
      + right. split; [exact I|]. destruct W as [Q|(s & E' & Hs & HE & R)]; [left; now apply quiet_sub|].
        right. rewrite Hs. exists (Field s f), (Field E' f). split; [reflexivity|]. split; [now apply Ent_field|]. simpl. eauto.
  Qed.

  (** ** Messages *)
  Variable fl : flags.
  Variable ann : glob -> checked.
  Variable onlyParam : var -> bool.
  Variable clause : list cplace.
  Hypothesis Hann : forall g, ann g = ChChecked.
  Hypothesis Hmg : f_modglobs fl = true.
  Let chk := checkModify fl ann onlyParam clause.
  Let chkVal := checkModifyVal fl ann onlyParam clause.

  Definition modMsg (s : sref) (alias : option sref) : list msg :=
    if chk s then []
    else match alias with
         | None => [MMod s]
         | Some a => if sameName s a then [MMod s]
                     else if isReference s && negb (isAddress a) then [MModAlias s a] else []
         end.
  Definition callMsg (s : sref) (alias : option sref) : list msg :=
    if chkVal s then []
    else match alias with
         | None => [MCall s]
         | Some a => if sameName s a then [MCall s] else [MCallAlias s a]
         end.
  Lemma checkModifyAuxAux_out s alias st :
    out (checkModifyAuxAux fl ann onlyParam clause s alias st) = out st ++ modMsg s alias /\
    tab (checkModifyAuxAux fl ann onlyParam clause s alias st) = tab st.
  Proof.
    unfold checkModifyAuxAux, modMsg. fold (chk s). destruct (chk s); [rewrite app_nil_r; auto|].
    assert (match rootOf s with Glob g => negb (checkGlobMod fl ann g) | _ => false end = false) as ->.
    { destruct (rootOf s); auto. now rewrite checkGlobMod_true. }
    destruct alias as [a|]; auto. destruct (sameName s a); auto.
    destruct (isReference s && negb (isAddress a)); auto. rewrite app_nil_r; auto.
  Qed.
  Lemma checkCallModifyAux_out s alias st :
    out (fst (checkCallModifyAux fl ann onlyParam clause s alias st)) = out st ++ callMsg s alias /\
    tab (fst (checkCallModifyAux fl ann onlyParam clause s alias st)) = tab st /\
    snd (checkCallModifyAux fl ann onlyParam clause s alias st) = negb (chkVal s).
  Proof.
    unfold checkCallModifyAux, callMsg. fold (chkVal s). destruct (chkVal s); [rewrite app_nil_r; auto|].
    assert (match rootOf s with Glob g => negb (isCheckedModify ann g) | _ => false end = false) as ->.
    { destruct (rootOf s); auto. unfold isCheckedModify. now rewrite Hann. }
    destruct alias as [a|]; auto. destruct (sameName s a); auto.
  Qed.
  Lemma fold_out (g : state -> sref -> state) h l :
    (forall st c, out (g st c) = out st ++ h c /\ tab (g st c) = tab st) ->
    forall st, out (fold_left g l st) = out st ++ flat_map h l /\ tab (fold_left g l st) = tab st.
  Proof.
    intros H. induction l as [|c l IH]; intros st; simpl; [rewrite app_nil_r; auto|].
    destruct (IH (g st c)) as [-> ->], (H st c) as [-> ->]. now rewrite app_assoc.
  Qed.
  Definition modMsgs (t : table) (s : sref) : list msg :=
    modMsg s None ++ (if isReference s then flat_map (fun c => if similar c s then [] else modMsg c (Some s)) (allAliases t s) else []).
  Definition callMsgs (t : table) (s : sref) : list msg :=
    callMsg s None ++ flat_map (fun c => if negb (similar c s) || (negb (chkVal s) && sameName c s) then callMsg c (Some s) else []) (allAliases t s).
  Lemma checkModifyAll_out s st :
    out (checkModifyAll fl ann onlyParam clause s st) = out st ++ modMsgs (tab st) s /\
    tab (checkModifyAll fl ann onlyParam clause s st) = tab st.
  Proof.
    unfold checkModifyAll, modMsgs. destruct (checkModifyAuxAux_out s None st) as [Ho Ht].
    destruct (isReference s); [|rewrite app_nil_r; auto]. rewrite Ht.
    match goal with |- context [fold_left ?g ?l ?s0] =>
      destruct (fun H => fold_out g (fun c => if similar c s then [] else modMsg c (Some s)) l H s0) as [-> ->] end.
    - intros st' c. destruct (similar c s); [rewrite app_nil_r; auto|apply checkModifyAuxAux_out].
    - rewrite Ho, Ht, app_assoc. auto.
  Qed.
  Lemma checkCallModifyVal_out s st :
    out (checkCallModifyVal fl ann onlyParam clause s st) = out st ++ callMsgs (tab st) s /\
    tab (checkCallModifyVal fl ann onlyParam clause s st) = tab st.
  Proof.
    unfold checkCallModifyVal, callMsgs. destruct (checkCallModifyAux_out s None st) as (Ho & Ht & He).
    destruct (checkCallModifyAux fl ann onlyParam clause s None st) as [st1 err]. cbn [fst snd] in *. rewrite Ht.
    match goal with |- context [fold_left ?g ?l ?s0] =>
      destruct (fun H => fold_out g (fun c => if negb (similar c s) || (negb (chkVal s) && sameName c s) then callMsg c (Some s) else []) l H s0) as [-> ->] end.
    - intros st' c. rewrite He. destruct (negb (similar c s) || (negb (chkVal s) && sameName c s)); [|rewrite app_nil_r; auto].
      destruct (checkCallModifyAux_out c (Some s) st') as (H1 & H2 & _). auto.
    - rewrite Ho, Ht, app_assoc. auto.
  Qed.
  Definition elemMsgs (t : table) (args : list pexp) (e : cplace) : list msg :=
    match fixBaseParam args (readClause e) with Some s => callMsgs t s | None => [] end.
  Lemma checkCall_out cl args st :
    out (checkCall fl ann onlyParam clause (Some cl) args st) = out st ++ flat_map (elemMsgs (tab st) args) cl /\
    tab (checkCall fl ann onlyParam clause (Some cl) args st) = tab st.
  Proof.
    simpl. revert st. induction cl as [|c cl IH]; intros st; simpl; [rewrite app_nil_r; auto|].
    destruct (IH (match fixBaseParam args (readClause c) with
       | Some s => checkCallModifyVal fl ann onlyParam clause s st | None => st end)) as [-> ->].
    unfold elemMsgs at 2. destruct (fixBaseParam args (readClause c)) as [s|].
    - destruct (checkCallModifyVal_out s st) as [-> ->]. now rewrite app_assoc.
    - auto.
  Qed.

  (** *** Silence *)
  Lemma Ent_shown t s E : Ent t s E -> (exists g, rootOf s = Glob g) /\ E = s \/ exists x, rootOf s = Cvar x.
  Proof. unfold Ent. destruct (rootOf s) eqn:R; try tauto; eauto. Qed.
  Lemma silent_mod t m p l : J t m -> at_ m p l -> steps p < searchLimit -> modMsgs t (srefOf p) = [] -> visible (fst l) ->
    allowed m0 onlyParam clause (fst l).
  Proof.
    intros Jm Ha L S V. destruct (at_where _ _ _ _ Jm Ha) as [(x & -> & ->)|[O [Q|(E & HE & R)]]].
    - destruct V.
    - destruct (quiet_visible _ Q V).
    - unfold modMsgs in S. apply app_eq_nil in S as [S1 S2].
      assert (chk E = true \/ isReference E = false) as [C|C].
      { destruct (Ent_shown _ _ _ HE) as [[_ ->]|(x & Rx)].
        - left. unfold modMsg in S1. destruct (chk (srefOf p)); auto. discriminate.
        - pose proof (Ent_canAlias _ _ _ HE ltac:(rewrite size_srefOf; lia)) as C.
          destruct C as [->|C]. { pose proof (reg_vals_root m0 _ _ (or_introl R)) as H. rewrite Rx in H. discriminate. }
          destruct (isReference (srefOf p)) eqn:IR.
          + destruct (isReference E) eqn:IE; auto. left.
            assert (similar E (srefOf p) = false) as NS.
            { destruct (similar E (srefOf p)) eqn:NS; auto. apply similar_root in NS.
              pose proof (reg_vals_root m0 _ _ (or_introl R)) as H. rewrite NS, Rx in H. discriminate. }
            assert (In E (allAliases t (srefOf p))) as IA by (unfold allAliases; apply In_union; auto).
            destruct (chk E) eqn:CE; auto. exfalso.
            assert (modMsg E (Some (srefOf p)) = []) as Z.
            { pose proof (in_flat_map (fun c => if similar c (srefOf p) then [] else modMsg c (Some (srefOf p))) (allAliases t (srefOf p))) as I.
              rewrite S2 in I. destruct (modMsg E (Some (srefOf p))) as [|y r] eqn:Z; auto.
              destruct (proj2 (I y)). exists E. rewrite NS, Z. split; auto. now left. }
            unfold modMsg in Z. rewrite CE, IE in Z. destruct (sameName E (srefOf p)); [discriminate|].
            assert (isAddress (srefOf p) = false) as NA by now destruct p.
            rewrite NA in Z. discriminate.
          + exfalso. clear - IR Ha V Rx. revert V.
            assert (exists y, rootObj (fst l) = RLoc y) as (y & Hy).
            { induction Ha; simpl in IR, Rx; try discriminate; simpl; eauto. }
            unfold visible. rewrite Hy. auto. }
      + eapply checkModify_allowed; eauto.
      + destruct (reference_visible m0 _ C _ R V).
  Qed.
  Lemma silent_call t s E o : Ent t s E -> reg m0 E o \/ vals m0 E o -> size s <= searchLimit \/ (exists g, rootOf s = Glob g) ->
    callMsgs t s = [] -> allowed m0 onlyParam clause o.
  Proof.
    intros HE R L S. unfold callMsgs in S. apply app_eq_nil in S as [S1 S2].
    apply (checkModifyVal_allowed m0 fl ann onlyParam clause Hann Hmg E); auto. fold (chkVal E).
    destruct (Ent_shown _ _ _ HE) as [[_ ->]|(x & Rx)].
    - unfold callMsg in S1. destruct (chkVal s); auto. discriminate.
    - destruct L as [L|(g & Rg)]; [|congruence].
      pose proof (reg_vals_root m0 _ _ R) as RL.
      destruct (Ent_canAlias _ _ _ HE L) as [->|C]; [rewrite Rx in RL; discriminate|].
      assert (similar E s = false) as NS.
      { destruct (similar E s) eqn:NS; auto. apply similar_root in NS. rewrite NS, Rx in RL. discriminate. }
      destruct (chkVal E) eqn:CE; auto. exfalso.
      pose proof (in_flat_map (fun c => if negb (similar c s) || (negb (chkVal s) && sameName c s) then callMsg c (Some s) else []) (allAliases t s)) as I.
      rewrite S2 in I. 
      assert (exists y r, callMsg E (Some s) = y :: r) as (y & r & Z).
      { unfold callMsg. rewrite CE. destruct (sameName E s); eauto. }
      destruct (proj2 (I y)). exists E. rewrite NS. simpl. rewrite Z. split; [unfold allAliases; apply In_union; auto|now left].
  Qed.
  Lemma silent_callee t m args vs cl o : J t m -> Forall (plainExp kind) args -> Forall2 (ev m) args vs ->
    Forall (fun c => Forall (fun e => csteps c + stepsExp e < searchLimit) args) cl ->
    flat_map (elemMsgs t args) cl = [] -> may (callMem m vs) callFrame cl o -> visible o ->
    allowed m0 onlyParam clause o.
  Proof.
    intros Jm P F L S (c & Hc & B) V.
    assert (elemMsgs t args c = []) as Sc.
    { destruct (elemMsgs t args c) as [|y r] eqn:Z; auto. exfalso.
      assert (In y (flat_map (elemMsgs t args) cl)) as I by (apply in_flat_map; exists c; rewrite Z; split; auto; now left).
      rewrite S in I. destruct I. }
    rewrite Forall_forall in L. specialize (L _ Hc). unfold elemMsgs in Sc.
    assert ((argObj o /\ forall i, o = Root (RArg i) -> c = CParam i) \/
            (okobj o /\ (quiet o \/ allowed m0 onlyParam clause o))) as G.
    { clear V. induction B as [o D|o' k o k' B IH E|o k f B IH].
      - destruct (denotes_call _ _ _ _ _ Jm P F _ D) as [A|[O [Q|(s & E & Hs & HE & R)]]]; auto.
        right. split; auto. right. rewrite Hs in Sc. eapply silent_call; eauto. eapply fixBaseParam_size; eauto.
      - right. destruct IH as [[A Ai]|[O W]].
        + destruct o' as [r|o' z f]; [|destruct (J_argsub _ _ _ _ _ _ _ Jm A eq_refl E)].
          destruct A as (i & R). simpl in R. subst r. pose proof (Ai i eq_refl). subst c.
          destruct (call_arg _ _ _ _ _ _ _ _ Jm P F E) as [Oo [Q|(e & a & E' & He & Ha & HE & Vv)]]; split; auto.
          right. cbn [readClause fixBaseParam] in Sc. rewrite He, Ha in Sc. eapply silent_call; eauto.
          apply (fixBaseParam_size args (CParam i)); auto. simpl. now rewrite He.
        + assert (match o' with Root (RArg _) => False | _ => True end) as NA by (destruct o' as [[| | | |]|]; simpl in *; auto).
          rewrite callMem_other in E by auto.
          destruct (J_content _ _ _ _ _ _ Jm (okobj_bare _ _ O) E) as [E0 V]. split; [now apply visible_okobj|].
          destruct W as [Q|A]; [destruct (J_quiet _ _ _ _ _ _ Jm Q E)|]. right. eapply allowed_deref; eauto.
      - destruct IH as [[(i & R) A]|[O W]].
        + left. split; [exists i; exact R|]. intros j Hj. discriminate.
        + right. split; [exact I|]. destruct W as [Q|A]; [left; now apply quiet_sub|right; now apply allowed_fld]. }
    destruct G as [[(i & R) _]|[_ [Q|A]]]; auto.
    - unfold visible in V. rewrite R in V. destruct V.
    - destruct (quiet_visible _ Q V).
  Qed.

  (** ** Bodies *)
  Let chkStmt := checkStmt np fl ann onlyParam clause.
  Let chkBody := checkBody np fl ann onlyParam clause.
  Lemma checkStmt_if a b st : chkStmt (If a b) st =
    let st1 := chkBody a st in let st2 := chkBody b (setTab st1 (tab st)) in setTab st2 (tabUnion (tab st1) (tab st2)).
  Proof. reflexivity. Qed.
  Lemma checkStmt_while a st : chkStmt (While a) st =
    let st1 := chkBody a st in setTab st1 (tabUnion (tab st1) (tab st)).
  Proof. reflexivity. Qed.
  Lemma checkBody_cons c l st : chkBody (c :: l) st = chkBody l (chkStmt c st).
  Proof. reflexivity. Qed.
  Lemma checkBody_app a : forall b st, chkBody (a ++ b) st = chkBody b (chkBody a st).
  Proof. induction a as [|c a IH]; intros b st; auto. cbn [app]. rewrite !checkBody_cons. apply IH. Qed.

  Definition noMust (l : list msg) : Prop := forall s, ~ In (MMust s) l.
  Lemma noMust_app a b : noMust a -> noMust b -> noMust (a ++ b).
  Proof. intros A B s H. apply in_app_or in H as [H|H]; [eapply A|eapply B]; eauto. Qed.
  Lemma noMust_nil : noMust [].
  Proof. intros s []. Qed.
  Lemma noMust_flat {A} (f : A -> list msg) l : (forall x, noMust (f x)) -> noMust (flat_map f l).
  Proof. intros H s I. apply in_flat_map in I as (x & _ & I). eapply H; eauto. Qed.
  Lemma noMust_modMsg s a : noMust (modMsg s a).
  Proof.
    unfold modMsg. intros x. destruct (chk s); [intros []|]. destruct a as [a|]; [|intros [|[]]; discriminate].
    destruct (sameName s a); [intros [|[]]; discriminate|].
    destruct (isReference s && negb (isAddress a)); [intros [|[]]; discriminate|intros []].
  Qed.
  Lemma noMust_callMsg s a : noMust (callMsg s a).
  Proof.
    unfold callMsg. intros x. destruct (chkVal s); [intros []|]. destruct a as [a|]; [|intros [|[]]; discriminate].
    destruct (sameName s a); intros [|[]]; discriminate.
  Qed.
  Lemma noMust_modMsgs t s : noMust (modMsgs t s).
  Proof.
    unfold modMsgs. apply noMust_app; [apply noMust_modMsg|]. destruct (isReference s); [|apply noMust_nil].
    apply noMust_flat. intros c. destruct (similar c s); [apply noMust_nil|apply noMust_modMsg].
  Qed.
  Lemma noMust_callMsgs t s : noMust (callMsgs t s).
  Proof.
    unfold callMsgs. apply noMust_app; [apply noMust_callMsg|].
    apply noMust_flat. intros c. destruct (negb (similar c s) || (negb (chkVal s) && sameName c s)); [apply noMust_callMsg|apply noMust_nil].
  Qed.

  Definition extends (f : state -> state) : Prop := forall st, exists l, out (f st) = out st ++ l /\ noMust l.
  Lemma extends_body l : Forall (fun c => extends (chkStmt c)) l -> extends (chkBody l).
  Proof.
    induction 1 as [|c l Hc Hl IH]; intros st; [exists []; rewrite app_nil_r; split; auto using noMust_nil|].
    rewrite checkBody_cons. destruct (IH (chkStmt c st)) as (e1 & E1 & N1), (Hc st) as (e2 & E2 & N2).
    exists (e2 ++ e1). rewrite E1, E2, app_assoc. auto using noMust_app.
  Qed.
  Fixpoint stmt_ext (c : stmt) : extends (chkStmt c).
  Proof.
    assert (forall l, Forall (fun c => extends (chkStmt c)) l) as G.
    { fix go 1. intros [|c' l]; constructor; auto. }
    intros st. destruct c as [p|p e|[cl|] args|a b|a].
    - exists (modMsgs (tab st) (srefOf p)). split; [apply checkModifyAll_out|apply noMust_modMsgs].
    - exists (modMsgs (tab st) (srefOf p)). split; [apply checkModifyAll_out|apply noMust_modMsgs].
    - eexists. split; [apply checkCall_out|]. apply noMust_flat. intros c. unfold elemMsgs.
      destruct (fixBaseParam args (readClause c)); [apply noMust_callMsgs|apply noMust_nil].
    - unfold chkStmt. cbn [checkStmt checkCall]. destruct (f_moduncon fl).
      + exists [MUncon]. split; auto. intros s [|[]]; discriminate.
      + exists []. rewrite app_nil_r. auto using noMust_nil.
    - rewrite checkStmt_if. cbv zeta. cbn [out setTab].
      destruct (extends_body b (G b) (setTab (chkBody a st) (tab st))) as (e1 & E1 & N1), (extends_body a (G a) st) as (e2 & E2 & N2).
      exists (e2 ++ e1). rewrite E1. cbn [out setTab]. rewrite E2, app_assoc. auto using noMust_app.
    - rewrite checkStmt_while. cbv zeta. cbn [out setTab]. apply (extends_body a (G a) st).
  Qed.
  Lemma body_ext l : extends (chkBody l).
  Proof. apply extends_body. apply Forall_forall. intros c _. apply stmt_ext. Qed.
  Lemma silent_before l st : out (chkBody l st) = [] -> out st = [].
  Proof. intros H. destruct (body_ext l st) as (e & E & _). rewrite H in E. symmetry in E. now apply app_eq_nil in E. Qed.

  Lemma go_Forall (P : stmt -> Prop) l :
    (fix go l := match l with [] => True | c :: l => P c /\ go l end) l <-> Forall P l.
  Proof.
    induction l as [|c l IH]; split; intros H; auto.
    - destruct H. constructor; auto. now apply IH.
    - inversion H; subst. split; auto. now apply IH.
  Qed.
  Lemma noSet_if a b : noSet (If a b) <-> Forall noSet a /\ Forall noSet b.
  Proof. rewrite <- !go_Forall. reflexivity. Qed.
  Lemma noSet_while a : noSet (While a) <-> Forall noSet a.
  Proof. rewrite <- !go_Forall. reflexivity. Qed.
  Lemma tame_if u a b : tame kind u (If a b) <-> Forall (tame kind u) a /\ Forall (tame kind u) b.
  Proof. rewrite <- !go_Forall. reflexivity. Qed.
  Lemma tame_while u a : tame kind u (While a) <-> Forall (tame kind u) a /\ Forall noSet a.
  Proof. rewrite <- !go_Forall. reflexivity. Qed.
  Lemma Forall_snd (A B : Type) (P : A -> Prop) (Q : B -> Prop) (l : list (A * B)) :
    Forall (fun a => P (fst a) /\ Q (snd a)) l -> Forall (fun a => Q (snd a)) l.
  Proof. intros H. eapply Forall_impl; [|exact H]. intros a [_ X]. exact X. Qed.
  Lemma run_noSet m l w m' : run isNum m l w m' -> forall t, Forall noSet l -> J t m -> J t m'.
  Proof.
    induction 1 as [m|m p l z r w m' Ha Hr IH|m p e l v r w m' Ha He Hr IH|m cl args vs ws r w m' Hargs Hws Hr IH
      |m args vs ws r w m' Hargs Hws Hr IH|m a b r w1 m1 w2 m' Ha IHa Hr IHr|m a b r w1 m1 w2 m' Ha IHa Hr IHr
      |m a r w m' Hr IH|m a r w1 m1 w2 m' Ha IHa Hr IHr]; intros t N Jm; auto; inversion N as [|? ? Nc Nr]; subst.
    - apply IH; auto. now apply J_num.
    - destruct Nc.
    - apply IH; auto. apply J_updAll; auto. eapply Forall_impl; [|exact Hws]. intros x [_ X]. exact X.
    - apply IH; auto. now apply J_updAll.
    - apply noSet_if in Nc as [Na Nb]. auto.
    - apply noSet_if in Nc as [Na Nb]. auto.
    - auto.
    - pose proof Nc as Na. apply noSet_while in Na. auto.
  Qed.
  Lemma tabUnion_grow1 t1 t2 x v : In v (valuesOf t1 (Cvar x)) -> In v (valuesOf (tabUnion t1 t2) (Cvar x)).
  Proof. intros H. apply valuesOf_tabUnion. auto. Qed.
  Lemma tabUnion_grow2 t1 t2 x v : In v (valuesOf t2 (Cvar x)) -> In v (valuesOf (tabUnion t1 t2) (Cvar x)).
  Proof. intros H. apply valuesOf_tabUnion. right. now apply valuesOf_In. Qed.

  Theorem run_silent m l w m' : run isNum m l w m' -> forall st, Forall (tame kind (f_moduncon fl)) l -> J (tab st) m ->
    out (chkBody l st) = [] ->
    (forall o, In o w -> visible o -> allowed m0 onlyParam clause o) /\ J (tab (chkBody l st)) m'.
  Proof.
    induction 1 as [m|m p l z r w m' Ha Hr IH|m p e l v r w m' Ha He Hr IH|m cl args vs ws r w m' Hargs Hws Hr IH
      |m args vs ws r w m' Hargs Hws Hr IH|m a b r w1 m1 w2 m' Ha IHa Hr IHr|m a b r w1 m1 w2 m' Ha IHa Hr IHr
      |m a r w m' Hr IH|m a r w1 m1 w2 m' Ha IHa Hr IHr]; intros st T Jm S;
      try (inversion T as [|? ? Tc Tr]; subst); try rewrite checkBody_cons in *.
    - split; auto. intros o [].
    - pose proof (silent_before _ _ S) as S0. destruct (checkModifyAll_out (srefOf p) st) as [Eo Et].
      unfold chkStmt in S0 at 1. cbn [checkStmt] in S0. rewrite Eo in S0. apply app_eq_nil in S0 as [S1 S2].
      destruct (IH (chkStmt (Num p) st)) as [IH1 IH2]; auto.
      { unfold chkStmt. cbn [checkStmt]. rewrite Et. now apply J_num. }
      split; auto. intros o [<-|Ho]; auto. intros V. exact (silent_mod _ _ _ _ Jm Ha Tc S2 V).
    - destruct p as [x| | | |]; try contradiction. destruct Tc as (K & P & N & L). inversion Ha; subst.
      destruct (IH (chkStmt (Set_ (PVar x) e) st)) as [IH1 IH2]; auto.
      { unfold chkStmt. cbn [checkStmt tab setTab srefOf].
        destruct (checkModifyAll_out (Cvar x) st) as [_ ->]. now apply J_set. }
      split; auto. intros o [<-|Ho]; auto. intros [].
    - destruct Tc as [P L]. pose proof (silent_before _ _ S) as S0. destruct (checkCall_out cl args st) as [Eo Et].
      unfold chkStmt in S0 at 1. cbn [checkStmt] in S0. rewrite Eo in S0. apply app_eq_nil in S0 as [S1 S2].
      destruct (IH (chkStmt (Call (Some cl) args) st)) as [IH1 IH2]; auto.
      { unfold chkStmt. cbn [checkStmt]. rewrite Et. apply J_updAll; auto. eapply Forall_impl; [|exact Hws]. intros x [_ X]. exact X. }
      split; auto. intros o Ho V. apply in_app_or in Ho as [Ho|Ho]; auto.
      apply in_map_iff in Ho as (a & <- & Hi). rewrite Forall_forall in Hws. destruct (Hws _ Hi) as [M _].
      exact (silent_callee _ _ _ _ _ _ Jm P Hargs L S2 M V).
    - exfalso. simpl in Tc. pose proof (silent_before _ _ S) as S0. unfold chkStmt in S0. cbn [checkStmt checkCall] in S0.
      rewrite Tc in S0. unfold say in S0. cbn [out] in S0. apply app_eq_nil in S0 as [_ S0]. discriminate.
    - apply tame_if in Tc as [Ta Tb]. pose proof (silent_before _ _ S) as S0. rewrite checkStmt_if in *. cbv zeta in *. cbn [out setTab] in S0.
      pose proof (silent_before _ _ S0) as S1. cbn [out setTab] in S1.
      destruct (IHa st Ta Jm S1) as [A1 A2].
      match goal with H : out (chkBody r ?s) = [] |- _ => destruct (IHr s) as [B1 B2]; auto end.
      { cbn [tab setTab]. eapply J_grow; [exact A2|]. intros x v. apply tabUnion_grow1. }
      split; auto. intros o Ho V. apply in_app_or in Ho as [Ho|Ho]; auto.
    - apply tame_if in Tc as [Ta Tb]. pose proof (silent_before _ _ S) as S0. rewrite checkStmt_if in *. cbv zeta in *. cbn [out setTab] in S0.
      destruct (IHa (setTab (chkBody a st) (tab st)) Tb Jm S0) as [A1 A2].
      match goal with H : out (chkBody r ?s) = [] |- _ => destruct (IHr s) as [B1 B2]; auto end.
      { cbn [tab setTab]. eapply J_grow; [exact A2|]. intros x v. apply tabUnion_grow2. }
      split; auto. intros o Ho V. apply in_app_or in Ho as [Ho|Ho]; auto.
    - rewrite checkStmt_while in *. cbv zeta in *.
      match goal with H : out (chkBody r ?s) = [] |- _ => destruct (IH s) as [B1 B2]; auto end.
      cbn [tab setTab]. eapply J_grow; [exact Jm|]. intros x v. apply tabUnion_grow2.
    - pose proof Tc as Tw. apply tame_while in Tw as [Ta Na]. pose proof (silent_before _ _ S) as S0. rewrite checkStmt_while in S0.
      cbv zeta in S0. cbn [out setTab] in S0. destruct (IHa st Ta Jm S0) as [A1 A2].
      destruct (IHr st) as [B1 B2]; auto. { eapply run_noSet; eauto. }
      split; auto. intros o Ho V. apply in_app_or in Ho as [Ho|Ho]; auto.
  Qed.
  Theorem silent_function l w m' : tameBody kind (f_moduncon fl) l -> run isNum m0 l w m' ->
    (forall x, In x (checkFunction np fl ann onlyParam clause l) -> exists s, x = MMust s) ->
    forall o, In o w -> visible o -> allowed m0 onlyParam clause o.
  Proof.
    intros T R S. eapply (run_silent _ _ _ _ R (mkSt (startTable np) [] [])); auto using J_start.
    destruct (body_ext l (mkSt (startTable np) [] [])) as (e & E & N). cbn [out app] in E.
    unfold checkFunction in S. fold chkBody in S. rewrite E in *. destruct e as [|x e]; auto.
    destruct (S x) as (s & ->); [now left|]. destruct (N s). now left.
  Qed.

  (** ** Exactness *)
  Fixpoint flat (s : sref) : bool :=
    match s with Cvar _ | Glob _ | Param _ => true | Ptr a | Fetch a _ | Field a _ => flat a | Adr _ => false end.
  Variable ad : bool.
  Definition okval (v : sref) : Prop := flat v = true \/ (ad = true /\ exists b, v = Adr b /\ flat b = true).
  Definition okentry (x : var) (v : sref) : Prop := okval v /\ (kind x <> KPtr -> v = Param x /\ x < np).
  Definition F (t : table) : Prop := forall k vs, In (k, vs) t -> exists x, k = Cvar x /\ forall v, In v vs -> okentry x v.
  Lemma F_values t x v : F t -> In v (valuesOf t (Cvar x)) -> okentry x v.
  Proof. intros Ft H. apply valuesOf_In in H as (vs & H & Hv). destruct (Ft _ _ H) as (y & E & G). injection E as <-. auto. Qed.
  Lemma F_compound t s : F t -> isLocalVar s = false -> valuesOf t s = [].
  Proof.
    intros Ft L. induction t as [|[k vs] t IH]; auto. cbn [valuesOf].
    destruct (Ft k vs (or_introl eq_refl)) as (x & -> & _).
    assert (same s (Cvar x) = false) as -> by (destruct s; auto; discriminate).
    apply IH. intros k' vs' H. apply (Ft k' vs'). now right.
  Qed.
  Lemma F_change t x f : F t -> (forall vs, (forall v, In v vs -> okentry x v) -> forall v, In v (f vs) -> okentry x v) -> F (change t (Cvar x) f).
  Proof.
    intros Ft H. induction t as [|[k vs] t IH].
    - intros k vs [E|[]]. injection E as <- <-. exists x. split; auto. apply H. intros v [].
    - rewrite change_cons. destruct (same (Cvar x) k) eqn:S.
      + apply same_cvar in S. subst k. intros k' vs' [E|E]; [|apply (Ft k' vs'); now right].
        injection E as <- <-. exists x. split; auto. apply H. destruct (Ft _ _ (or_introl eq_refl)) as (y & E & G).
        injection E as <-. auto.
      + intros k' vs' [E|E]; [apply (Ft k' vs'); now left|]. apply IH in E; auto. intros k2 vs2 H2. apply (Ft k2 vs2). now right.
  Qed.
  Lemma F_clear t x : F t -> F (clear t (Cvar x)).
  Proof.
    intros Ft k vs H. unfold clear in H. cbn [isCvar rootOf isLocalVar negb andb] in H. unfold clearAux in H.
    apply in_map_iff in H as ([k' vs'] & E & H). injection E as <- <-. destruct (Ft _ _ H) as (y & E & G). cbn [fst snd] in *. exists y. split; auto.
    intros v Hv. destruct (includedBy k' (Cvar x)); [destruct Hv|]. apply In_deleteBase in Hv as [Hv _]. auto.
  Qed.
  Lemma F_union t1 t2 : F t1 -> F t2 -> F (tabUnion t1 t2).
  Proof.
    revert t1. unfold tabUnion. induction t2 as [|[k vs] t2 IH]; intros t1 F1 F2; auto. cbn [fold_left fst snd].
    apply IH; [|intros k' vs' H; apply (F2 k' vs'); now right].
    destruct (F2 k vs (or_introl eq_refl)) as (x & -> & G).
    assert (F (if existsb (fun k => same (Cvar x) (fst k)) t1 then change t1 (Cvar x) (fun ws => union ws vs) else t1 ++ [(Cvar x, vs)])) as C.
    { destruct (existsb (fun k => same (Cvar x) (fst k)) t1).
      - apply F_change; auto. intros ws Hw v Hv. apply In_union in Hv as [Hv|Hv]; auto.
      - intros k' vs' H. apply in_app_or in H as [H|[H|[]]]; [now apply F1|]. injection H as <- <-. eauto. }
    destruct vs; auto.
  Qed.

  (** What can be found in the table. *)
  Lemma canAlias_inv t E : F t -> forall s n, In E (canAliasAux n t s) ->
    exists x v, rootOf s = Cvar x /\ In v (valuesOf t (Cvar x)) /\ E = fixBase s v.
  Proof.
    intros Ft s. revert E. induction s; intros E n H; (destruct n as [|n]; [destruct H|]); cbn [canAliasAux] in H;
      try (apply In_union in H as [H|H]); try (rewrite F_compound in H by auto; destruct H).
    - exists x, E. auto.
    - apply In_mapInsert in H as (e & H & ->). destruct (IHs _ _ H) as (x & v & R & Hv & ->). exists x, v. auto.
    - apply In_mapInsert in H as (e & H & ->). destruct (IHs _ _ H) as (x & v & R & Hv & ->). exists x, v. auto.
    - apply In_mapInsert in H as (e & H & ->). destruct (IHs _ _ H) as (x & v & R & Hv & ->). exists x, v. auto.
    - apply In_removeIndirection in H as (e & H & _ & ->). destruct (IHs _ _ H) as (x & v & R & Hv & ->). exists x, v. auto.
  Qed.
  Lemma aliasedBy_local t E : F t -> forall s n, In E (aliasedByAux n t s) -> isLocalVar (rootOf E) = true.
  Proof.
    intros Ft s n. revert E s. induction n as [|n IH]; intros E s H; [destruct H|]. cbn [aliasedByAux] in H.
    apply In_fold_insert in H as [H|H].
    - destruct s; try (destruct H; fail); try (apply In_mapInsert in H as (e & H & ->); apply IH in H; rewrite ?rootOf_mkPtr; exact H).
      apply In_removeIndirection in H as (e & H & _ & ->). rewrite rootOf_mkAdr. eauto.
    - unfold keysFor in H. apply in_map_iff in H as ([k vs] & <- & H). apply filter_In in H as [H _].
      destruct (Ft _ _ H) as (x & -> & _). reflexivity.
  Qed.
  Definition cand (t : table) (s E : sref) : Prop :=
    isLocalVar (rootOf E) = false /\
    ((exists g, rootOf s = Glob g /\ E = s) \/
     exists x v, rootOf s = Cvar x /\ In v (valuesOf t (Cvar x)) /\ E = fixBase s v).
  Lemma aliases_cand t s E : F t -> isLocalVar (rootOf E) = false -> In E (allAliases t s) -> cand t s E.
  Proof.
    intros Ft L H. split; auto. apply In_union in H as [H|H].
    - apply aliasedBy_local in H; auto. congruence.
    - right. eapply canAlias_inv; eauto.
  Qed.
  Lemma cand_ptr t s E : cand t (mkPtr s) E -> exists E', cand t s E' /\ (forall o, vals m0 E' o <-> reg m0 E o).
  Proof.
    intros [L C]. rewrite rootOf_mkPtr in C. destruct C as [(g & R & ->)|(x & v & R & Hv & ->)].
    - exists s. rewrite rootOf_mkPtr in L. split; [split; eauto|]. intros o. symmetry. apply reg_mkPtr.
    - exists (fixBase s v). rewrite rootOf_fixBase in L. split; [split; [now rewrite rootOf_fixBase|eauto 6]|].
      intros o. destruct s; cbn [mkPtr]; try (symmetry; apply (reg_mkPtr m0)). apply (vals_mkAdr m0).
  Qed.
  Lemma cand_fetch t s i E : cand t (Fetch s i) E -> exists E', cand t s E' /\ E = Fetch E' i.
  Proof.
    intros [L [(g & R & ->)|(x & v & R & Hv & ->)]].
    - exists s. split; auto. split; eauto.
    - exists (fixBase s v). split; auto. split; eauto 6.
  Qed.
  Lemma cand_field t s i E : cand t (Field s i) E -> exists E', cand t s E' /\ E = Field E' i.
  Proof.
    intros [L [(g & R & ->)|(x & v & R & Hv & ->)]].
    - exists s. split; auto. split; eauto.
    - exists (fixBase s v). split; auto. split; eauto 6.
  Qed.
  Lemma cand_adr t s E : cand t (mkAdr s) E -> exists E', cand t s E' /\ (forall o, vals m0 E o <-> reg m0 E' o).
  Proof.
    intros [L C]. rewrite rootOf_mkAdr in C. destruct C as [(g & R & ->)|(x & v & R & Hv & ->)].
    - exists s. rewrite rootOf_mkAdr in L. split; [split; eauto|]. intros o. apply vals_mkAdr.
    - exists (fixBase s v). rewrite rootOf_fixBase in L. split; [split; [now rewrite rootOf_fixBase|eauto 6]|].
      intros o. destruct s as [y|g|y|s|s i|s f|s]; cbn [mkAdr]; try (apply (vals_mkAdr m0)).
      + symmetry. apply (reg_mkPtr m0).
      + destruct i as [[| |]|]; try (apply (vals_mkAdr m0)). symmetry. apply (reg_fetch m0 _ (Some 0%Z)).
  Qed.

  (** No address is left within what is checked. *)
  Lemma flat_srefOf p : flat (srefOf p) = true.
  Proof. induction p; auto. Qed.
  Lemma fix_flat t p x v : F t -> typedPlace kind ad p -> rootPlace p = PVar x -> In v (valuesOf t (Cvar x)) ->
    match p with PVar _ => okval (fixBase (srefOf p) v) | _ => flat (fixBase (srefOf p) v) = true end.
  Proof.
    intros Ft T R Hv. destruct (F_values _ _ _ Ft Hv) as [Ov Kv].
    induction p as [y|g|p IH|p IH i|p IH f]; cbn [rootPlace typedPlace srefOf fixBase] in *.
    - exact Ov.
    - discriminate.
    - destruct T as [T Kp]. specialize (IH T R). destruct p; cbn [srefOf fixBase] in *.
      1: { destruct Ov as [Hf|(_ & b & -> & Hf)]; [|exact Hf]. destruct v; auto; discriminate. }
      all: match goal with H : flat ?z = true |- _ => destruct z; auto; discriminate end.
    - destruct T as (T1 & T2 & Kp). specialize (IH T2 R). destruct p; cbn [srefOf fixBase flat] in *; auto.
      destruct Ov as [Hf|(Had & _)]; auto; congruence.
    - destruct T as [T1 T2]. specialize (IH T1 R). destruct p; cbn [srefOf fixBase flat] in *; auto.
      injection R as ->. destruct (Kv T2) as [-> _]. reflexivity.
  Qed.
  Lemma place_flat t p E : F t -> typedPlace kind ad p -> cand t (srefOf p) E -> match p with PVar _ => okval E | _ => flat E = true end.
  Proof.
    intros Ft T [L [(g & R & ->)|(x & v & R & Hv & ->)]].
    - pose proof (flat_srefOf p). destruct p; auto. left. auto.
    - apply (fix_flat t p x v); auto. rewrite rootOf_srefOf in R. pose proof (rootPlace_leaf p).
      destruct (rootPlace p); try contradiction; congruence.
  Qed.
  Lemma okval_mkAdr s : ad = true -> flat s = true -> okval (mkAdr s).
  Proof.
    intros Had H. unfold okval. destruct s as [y|g|y|s|s i|s f|s]; cbn [mkAdr flat] in *; eauto 6; try discriminate.
    destruct i as [[| |]|]; eauto 6.
  Qed.
  Lemma exp_okval t e a E : F t -> plainExp kind e -> typedExp np kind ad e -> srefExp e = Some a -> cand t a E -> okval E.
  Proof.
    intros Ft P T Ha C. destruct e as [p|p| |]; cbn [srefExp typedExp] in *; try discriminate; injection Ha as <-.
    - destruct T as [T K]. pose proof (place_flat _ _ _ Ft T C) as G. destruct p; auto; now left.
    - destruct T as (Had & T & O). pose proof C as [L [(g & R & ->)|(x & v & R & Hv & ->)]].
      + apply okval_mkAdr; auto. apply flat_srefOf.
      + rewrite rootOf_mkAdr in R. assert (rootPlace p = PVar x) as Rp.
        { rewrite rootOf_srefOf in R. pose proof (rootPlace_leaf p). destruct (rootPlace p); try contradiction; congruence. }
        assert (forall q, typedPlace kind ad q -> rootPlace q = PVar x -> okval (fixBase (srefOf q) v)) as Q.
        { intros q Tq Rq. pose proof (fix_flat _ _ _ _ Ft Tq Rq Hv) as G. destruct q; auto; now left. }
        pose proof (fix_flat _ _ _ _ Ft T Rp Hv) as G.
        destruct p as [y|g|p|p i|p f]; cbn [srefOf mkAdr] in *.
        * injection Rp as ->. cbn [plainExp] in P. destruct (F_values _ _ _ Ft Hv) as [_ Kv].
          destruct Kv as [_ Kv]; [congruence|lia].
        * discriminate.
        * apply Q; [apply T|auto].
        * destruct T as [T1 T2]. congruence.
        * apply okval_mkAdr; auto.
  Qed.

  Lemma srefExp_local e a : typedExp np kind ad e -> srefExp e = Some a -> isLocalVar a = true ->
    exists y, a = Cvar y /\ (e = EAt (PVar y) \/ e = EAddr (PDeref (PVar y))).
  Proof.
    intros T Ha L. destruct e as [p|p| |]; cbn [srefExp] in Ha; try discriminate; injection Ha as <-.
    - destruct p as [y| | | |]; try discriminate. exists y. auto.
    - destruct p as [y|g|p|p i|p f]; cbn [srefOf mkAdr] in *; try discriminate.
      + destruct p as [y| | | |]; try discriminate. exists y. auto.
      + destruct T as (-> & [T _] & _). discriminate.
  Qed.
  (** The table stays so when a pointer is assigned. *)
  Lemma exp_self_okval e a : typedExp np kind ad e -> srefExp e = Some a -> okval a.
  Proof.
    intros T Ha. destruct e as [p|p| |]; cbn [srefExp typedExp] in *; try discriminate; injection Ha as <-.
    - left. apply flat_srefOf.
    - apply okval_mkAdr; [tauto|apply flat_srefOf].
  Qed.
  Lemma fix_okval t e a v x : F t -> plainExp kind e -> typedExp np kind ad e -> srefExp e = Some a -> rootOf a = Cvar x ->
    In v (valuesOf t (Cvar x)) -> okval (fixBase a v).
  Proof.
    intros Ft P T Ha R Hv. destruct e as [p|p| |]; cbn [srefExp typedExp] in *; try discriminate; injection Ha as <-.
    - assert (rootPlace p = PVar x) as Rp.
      { rewrite rootOf_srefOf in R. pose proof (rootPlace_leaf p). destruct (rootPlace p); try contradiction; congruence. }
      destruct T as [T _]. pose proof (fix_flat _ _ _ _ Ft T Rp Hv) as G. destruct p; auto; now left.
    - rewrite rootOf_mkAdr in R. assert (rootPlace p = PVar x) as Rp.
      { rewrite rootOf_srefOf in R. pose proof (rootPlace_leaf p). destruct (rootPlace p); try contradiction; congruence. }
      destruct T as (Had & T & O).
      assert (forall q, typedPlace kind ad q -> rootPlace q = PVar x -> okval (fixBase (srefOf q) v)) as Q.
      { intros q Tq Rq. pose proof (fix_flat _ _ _ _ Ft Tq Rq Hv) as G. destruct q; auto; now left. }
      pose proof (fix_flat _ _ _ _ Ft T Rp Hv) as G.
      destruct p as [y|g|p|p i|p f]; cbn [srefOf mkAdr] in *.
      + injection Rp as ->. cbn [plainExp] in P. destruct (F_values _ _ _ Ft Hv) as [_ Kv].
        destruct Kv as [_ Kv]; [congruence|lia].
      + discriminate.
      + apply Q; [apply T|auto].
      + destruct T as [T1 T2]. congruence.
      + apply okval_mkAdr; auto.
  Qed.
  Lemma F_addMust t x a : F t -> kind x = KPtr -> okval a -> (forall E, In E (canAlias t a) -> okval E) -> F (addMust t (Cvar x) a).
  Proof.
    intros Ft K Oa Oc. unfold addMust. apply F_change; auto. intros vs Hvs v Hv.
    apply In_unionExcept in Hv as [Hv|[Hv _]]; [apply In_insert in Hv as [Hv| ->]|]; auto; split; auto; congruence.
  Qed.
  Lemma F_set t x e : F t -> kind x = KPtr -> plainExp kind e -> typedExp np kind ad e -> F (updateAliases np t (Cvar x) e).
  Proof.
    intros Ft K P T. unfold updateAliases. pose proof (F_clear _ x Ft) as F1.
    destruct (srefExp e) as [a|] eqn:Ha; auto. unfold addAlias. destruct (similar (Cvar x) a); auto.
    destruct (match a with Adr b => isDirectParam np b | _ => false end); auto.
    assert (F (addMust (clear t (Cvar x)) (Cvar x) a)) as F2.
    { apply F_addMust; auto; [eapply exp_self_okval; eauto|]. intros E HE. apply canAlias_inv in HE as (y & v & R & Hv & ->); auto.
      eapply fix_okval; eauto. }
    cbn [isLocalVar andb]. destruct (isLocalVar a) eqn:L; auto.
    destruct (srefExp_local _ _ T Ha L) as (y & -> & He).
    assert (kind y = KPtr) as Ky by (destruct He as [-> | ->]; cbn [typedExp typedPlace] in *; tauto).
    apply F_addMust; auto; [left; reflexivity|]. intros E HE. apply canAlias_inv in HE as (z & v & R & Hv & ->); auto.
    injection R as <-. cbn [fixBase]. now destruct (F_values _ _ _ F2 Hv).
  Qed.
  Lemma startTable_inv : F (startTable np) /\ forall x v, In v (valuesOf (startTable np) (Cvar x)) -> v = Param x /\ x < np.
  Proof.
    unfold startTable.
    assert (forall l t, (forall i, In i l -> i < np) -> (forall k vs, In (k, vs) t -> exists x, k = Cvar x /\ forall v, In v vs -> v = Param x /\ x < np) ->
      forall k vs, In (k, vs) (fold_left (fun t i => addAlias np t (Cvar i) (Param i)) l t) -> exists x, k = Cvar x /\ forall v, In v vs -> v = Param x /\ x < np) as G.
    { induction l as [|i l IH]; intros t Hl Ht; auto. cbn [fold_left]. apply IH; [intros j Hj; apply Hl; now right|].
      assert (F t) as Ft.
      { intros k vs H. destruct (Ht _ _ H) as (x & -> & G). exists x. split; auto. intros v Hv. destruct (G _ Hv) as [-> L].
        split; auto. left. reflexivity. }
      unfold addAlias. destruct (similar (Cvar i) (Param i)); auto. cbn [isLocalVar andb]. unfold addMust.
      assert (canAlias t (Param i) = []) as -> by (unfold canAlias; cbn [canAliasAux searchLimit]; now apply F_compound).
      intros k vs H.
      assert (forall t : table, (forall k vs, In (k, vs) t -> exists x, k = Cvar x /\ forall v, In v vs -> v = Param x /\ x < np) ->
        In (k, vs) (change t (Cvar i) (fun vs0 => unionExcept (insert vs0 (Param i)) [] (Cvar i))) ->
        exists x, k = Cvar x /\ forall v, In v vs -> v = Param x /\ x < np) as Q.
      { clear - Hl. intros t. induction t as [|[k' vs'] t IHt]; intros Ht H.
        - destruct H as [E|[]]. injection E as <- <-. exists i. split; auto. intros v Hv.
          apply In_insert in Hv as [[]| ->]. split; auto. apply Hl. now left.
        - rewrite change_cons in H. destruct (same (Cvar i) k') eqn:S.
          + apply same_cvar in S. subst k'. destruct H as [E|H]; [|apply (Ht k vs); now right]. injection E as <- <-.
            exists i. split; auto. intros v Hv.
            destruct (Ht _ _ (or_introl eq_refl)) as (y & Ey & G). injection Ey as <-.
            apply In_insert in Hv as [Hv| ->]; auto. split; auto. apply Hl. now left.
          + destruct H as [E|H]; [apply (Ht k vs); now left|]. apply IHt; auto. intros k2 vs2 H2. apply (Ht k2 vs2). now right. }
      exact (Q t Ht H). }
    assert (forall k vs, In (k, vs) (fold_left (fun t i => addAlias np t (Cvar i) (Param i)) (seq 0 np) []) ->
      exists x, k = Cvar x /\ forall v, In v vs -> v = Param x /\ x < np) as S.
    { apply G; [|intros k vs []]. intros i Hi. apply in_seq in Hi. lia. }
    split.
    - intros k vs H. destruct (S _ _ H) as (x & -> & Q). exists x. split; auto. intros v Hv. destruct (Q _ Hv) as [-> L].
      split; auto. left. reflexivity.
    - intros x v H. apply valuesOf_In in H as (vs & H & Hv). destruct (S _ _ H) as (y & E & Q). injection E as <-. auto.
  Qed.

  (** Every entry of the table is exact. *)
  Definition V (t : table) (m : mem) : Prop :=
    forall x v o1 k1, In v (valuesOf t (Cvar x)) -> isLocalVar (rootOf v) = false -> kind x = KPtr -> m (cell x) = VPtr (o1, k1) ->
      vals m0 v o1 /\ visible o1.
  Lemma at_okobj t m p l : J t m -> at_ m p l -> match p with PVar _ => True | _ => okobj (fst l) end.
  Proof.
    intros Jm Ha. destruct (at_where _ _ _ _ Jm Ha) as [(x & -> & _)|[O _]]; auto. destruct p; auto.
  Qed.
  Lemma followX t m p l o1 k1 E : J t m -> F t -> V t m -> at_ m p l ->
    match p with PVar _ => True | _ => reg m0 E (fst l) end -> cand t (srefOf p) E -> m l = VPtr (o1, k1) -> vals m0 E o1 /\ visible o1.
  Proof.
    intros Jm Ft Vm Ha R [L C] El. pose proof (at_okobj _ _ _ _ Jm Ha) as O.
    assert ((exists x, p = PVar x) \/ okobj (fst l) /\ reg m0 E (fst l)) as [(x & ->)|[O' R']] by (destruct p; eauto).
    - inversion Ha; subst. destruct C as [(g & Rg & _)|(y & v & Ry & Hv & ->)]; [discriminate|]. cbn in Ry. injection Ry as <-.
      cbn [srefOf fixBase] in *. destruct (kind x) eqn:K; eauto.
      all: exfalso; assert (where_ t (PVar x) (cell x)) as W by (left; eauto);
        (assert (~ bare (cell x)) as NB by (intros (y & Ey & Ky); injection Ey as ->; congruence));
        destruct (J_content _ _ _ _ _ _ Jm NB El) as [E0 _];
        destruct (Hentry _ _ _ _ E0) as [_ [[]|(i & Li & Ri & Ci)]]; simpl in Ri; injection Ri as ->;
        destruct Ci as [(Ci & _)|(Ci & Ci')]; try congruence; discriminate.
    - destruct l as [o k]. cbn [fst] in *.
      destruct (J_content _ _ _ _ _ _ Jm (okobj_bare _ _ O') El) as [E0 Vo]. split; auto. eapply vals_content; eauto.
  Qed.
  Lemma atX t m p l : J t m -> F t -> V t m -> at_ m p l -> typedPlace kind ad p -> forall E, cand t (srefOf p) E ->
    match p with PVar _ => True | _ => reg m0 E (fst l) end /\ (outside p -> visible (fst l)).
  Proof.
    intros Jm Ft Vm Ha. induction Ha as [x|g|p l [o1 k1] Ha IH El|p l o k i j Ha IH El Hi|p o k f Ha IH]; intros T E C.
    - split; auto.
    - destruct C as [_ [(g' & Rg & ->)|(x & v & R & _)]]; [|discriminate]. split; [reflexivity|intros _; exact I].
    - cbn [typedPlace srefOf] in *.
      assert (mkPtr (srefOf p) = Ptr (srefOf p)) as Ep by now destruct p.
      rewrite <- Ep in C. apply cand_ptr in C as (E' & C' & Q). destruct T as [T _]. destruct (IH T _ C') as [R _].
      destruct (followX _ _ _ _ _ _ _ Jm Ft Vm Ha R C' El) as [Hv Vo]. cbn [fst]. split; [now apply Q|auto].
    - cbn [typedPlace srefOf] in *. destruct T as (_ & T & _). apply cand_fetch in C as (E' & C' & ->). destruct (IH T _ C') as [R _].
      destruct (followX _ _ _ _ _ _ _ Jm Ft Vm Ha R C' El) as [Hv Vo]. cbn [fst]. split; [now apply reg_fetch|auto].
    - cbn [typedPlace srefOf] in *. destruct T as [T Kp]. apply cand_field in C as (E' & C' & ->). destruct (IH T _ C') as [R Vo].
      cbn [fst] in *. split; [|exact Vo]. destruct p as [x| | | |]; try (simpl; eauto; fail).
      destruct C' as [_ [(g & Rg & _)|(y & v & Ry & Hv & ->)]]; [discriminate|]. cbn in Ry. injection Ry as <-.
      destruct (F_values _ _ _ Ft Hv) as [_ Kv]. destruct (Kv Kp) as [-> _]. inversion Ha; subst. simpl. eauto.
  Qed.
  Lemma evX t m e o1 k1 a E : J t m -> F t -> V t m -> plainExp kind e -> typedExp np kind ad e -> ev m e (VPtr (o1, k1)) ->
    srefExp e = Some a -> cand t a E -> vals m0 E o1 /\ visible o1.
  Proof.
    intros Jm Ft Vm P T H Ha C. remember (VPtr (o1, k1)) as w eqn:Ew. destruct H as [p l Hp|p l Hp|n|]; try discriminate;
      cbn [srefExp typedExp] in *; injection Ha as <-.
    - destruct T as [T K]. destruct (atX _ _ _ _ Jm Ft Vm Hp T _ C) as [R _]. eapply followX; eauto.
    - injection Ew as ->. destruct T as (Had & T & O). destruct (cand_adr _ _ _ C) as (E' & C' & Q).
      destruct (atX _ _ _ _ Jm Ft Vm Hp T _ C') as [R Vo]. cbn [fst] in *.
      assert ((exists y, p = PVar y) \/ outside p /\ reg m0 E' o1) as [(y & ->)|[O' R']] by (destruct p; eauto).
      + exfalso. destruct C' as [_ [(g & Rg & _)|(z & v & Rz & Hv & _)]]; [discriminate|]. cbn in Rz. injection Rz as <-.
        destruct (F_values _ _ _ Ft Hv) as [_ Kv]. cbn [plainExp] in P. destruct Kv as [_ Kv]; [congruence|lia].
      + split; [now apply Q|auto].
  Qed.
  Lemma V_num t m l z : V t m -> V t (upd m l (VNum z)).
  Proof. intros H x v o1 k1 Hv L K. unfold upd. destruct (loc_eq_dec (cell x) l); [discriminate|eauto]. Qed.
  Lemma V_updAll t ws : forall m, V t m -> Forall (fun a : loc * val => isNum (snd a)) ws -> V t (updAll m ws).
  Proof.
    induction ws as [|[l v] ws IH]; intros m Vm Fw; auto. inversion Fw; subst. unfold updAll. simpl.
    apply IH; auto. destruct v; [now apply V_num|contradiction].
  Qed.
  Lemma V_start : V (startTable np) m0.
  Proof.
    intros x v o1 k1 Hv L K E. destruct startTable_inv as [_ S]. destruct (S _ _ Hv) as [-> Lx].
    split; [simpl; eauto 6|]. now destruct (Hentry _ _ _ _ E).
  Qed.
  Lemma values_clear_sub t x y v : In v (valuesOf (clear t (Cvar x)) (Cvar y)) -> y <> x /\ In v (valuesOf t (Cvar y)).
  Proof.
    rewrite valuesOf_clear. destruct (Nat.eqb y x) eqn:E; [intros []|]. intros H. apply In_deleteBase in H as [H _].
    split; auto. apply Nat.eqb_neq. auto.
  Qed.
  Lemma cand_clear t x a E : cand (clear t (Cvar x)) a E -> cand t a E.
  Proof.
    intros [L [C|(y & v & R & Hv & ->)]]; split; auto. right. exists y, v. apply values_clear_sub in Hv as [_ Hv]. auto.
  Qed.
  Lemma V_set t m x e v : J t m -> F t -> V t m -> kind x = KPtr -> plainExp kind e -> typedExp np kind ad e -> notFrom x e ->
    ev m e v -> V (updateAliases np t (Cvar x) e) (upd m (cell x) v).
  Proof.
    intros Jm Ft Vm K P T N Hev. unfold updateAliases. pose proof (F_clear _ x Ft) as F1.
    set (t1 := clear t (Cvar x)) in *.
    assert (V t1 (upd m (cell x) v)) as V1.
    { intros y w o1 k1 Hw L Ky. apply values_clear_sub in Hw as [Ny Hw]. unfold upd. destruct (loc_eq_dec (cell y) (cell x)) as [Ec|Ec]; [injection Ec; congruence|eauto]. }
    destruct (srefExp e) as [a|] eqn:Ha; auto. unfold addAlias.
    destruct (similar (Cvar x) a) eqn:S; auto.
    destruct (match a with Adr b => isDirectParam np b | _ => false end); auto.
    assert (forall w, In w (valuesOf (addMust t1 (Cvar x) a) (Cvar x)) -> isLocalVar (rootOf w) = false -> forall o1 k1, v = VPtr (o1, k1) ->
      vals m0 w o1 /\ visible o1) as G.
    { intros w Hw L o1 k1 ->. unfold addMust in Hw. rewrite valuesOf_change, Nat.eqb_refl in Hw.
      apply (evX t m e o1 k1 a w); auto.
      assert (cand t1 a w -> cand t a w) as Q by apply cand_clear.
      apply In_unionExcept in Hw as [Hw|[Hw _]].
      - unfold t1 in Hw. rewrite valuesOf_clear, Nat.eqb_refl in Hw. apply In_insert in Hw as [[]| ->].
        split; auto. left. pose proof (rootOf_leaf a) as Lf.
        destruct e as [p|p| |]; cbn [srefExp] in Ha; try discriminate; injection Ha as <-;
          rewrite ?rootOf_mkAdr, rootOf_srefOf in *; pose proof (rootPlace_leaf p);
          destruct (rootPlace p); try contradiction; try discriminate; eauto.
      - apply Q. split; auto. right. eapply canAlias_inv; eauto. }
    assert (V (addMust t1 (Cvar x) a) (upd m (cell x) v)) as V2.
    { intros y w o1 k1 Hw L Ky. destruct (Nat.eq_dec y x) as [->|Ny].
      - unfold upd. destruct (loc_eq_dec (cell x) (cell x)); [|congruence]. intros ->. eauto.
      - unfold addMust in Hw. rewrite valuesOf_change in Hw. apply Nat.eqb_neq in Ny. rewrite Ny in Hw. eauto. }
    cbn [isLocalVar andb]. destruct (isLocalVar a) eqn:La; auto.
    destruct (srefExp_local _ _ T Ha La) as (z & -> & He).
    assert (z <> x) as Nz by (pose proof (rootOf_srefExp _ _ _ Ha N) as Q; cbn in Q; congruence).
    intros y w o1 k1 Hw L Ky Ey. unfold addMust at 1 in Hw. rewrite valuesOf_change in Hw.
    destruct (Nat.eqb y z) eqn:Eyz; [|eapply V2; eauto]. apply Nat.eqb_eq in Eyz. subst y.
    apply In_unionExcept in Hw as [Hw|[Hw _]].
    - apply In_insert in Hw as [Hw| ->]; [eapply V2; eauto|discriminate].
    - unfold canAlias in Hw. cbn [canAliasAux searchLimit] in Hw. apply (G w Hw L o1 k1).
      unfold upd in Ey. destruct (loc_eq_dec (cell z) (cell x)) as [Ec|Ec]; [injection Ec; congruence|].
      remember v as v' eqn:Ev. destruct He as [-> | ->]; inversion Hev; subst.
      + match goal with H : at_ m (PVar z) _ |- _ => inversion H; subst end. auto.
      + match goal with H : at_ m (PDeref _) _ |- _ => inversion H; subst end.
        match goal with H : at_ m (PVar z) _ |- _ => inversion H; subst end. congruence.
  Qed.

  (** ** Objects which are not reached in two ways *)
  Hypothesis Hun : unaliased m0.
  Fixpoint toC (s : sref) : cplace :=
    match s with
    | Param i => CParam i
    | Glob g => CGlob g
    | Cvar x => CParam x
    | Ptr a => CDeref (toC a)
    | Fetch a i => CIdx (toC a) i
    | Field a f => CFld (toC a) f
    | Adr a => toC a
    end.
  Lemma flat_notAdr s : flat s = true -> isAddress s = false.
  Proof. now destruct s. Qed.
  Lemma reg_toC s : flat s = true -> isLocalVar (rootOf s) = false -> forall o, reg m0 s o -> denotes m0 ownFrame (toC s) o.
  Proof.
    induction s; cbn [flat rootOf toC denotes]; intros Fl L o H; try discriminate; auto.
    - apply reg_ptr, vals_notAdr in H; [|now apply flat_notAdr]. destruct H as (o' & k & k' & H & E). exists o', k, k'. auto.
    - apply reg_fetch, vals_notAdr in H; [|now apply flat_notAdr]. destruct H as (o' & k & k' & H & E). exists o', k, k'. auto.
    - destruct H as (o' & k & H & E). exists o', k. auto.
  Qed.
  Inductive ext (c : cplace) : cplace -> Prop :=
  | ext_here : ext c c
  | ext_deref c' : ext c c' -> ext c (CDeref c')
  | ext_fld c' f : ext c c' -> ext c (CFld c' f).
  Lemma below_ext c o : below m0 ownFrame c o -> exists c', ext c c' /\ denotes m0 ownFrame c' o.
  Proof.
    induction 1 as [o H|o' k o k' B (c' & Hc & D) E|o k f B (c' & Hc & D)].
    - exists c. split; auto. constructor.
    - exists (CDeref c'). split; [now constructor|]. simpl. eauto 6.
    - exists (CFld c' f). split; [now constructor|]. simpl. eauto.
  Qed.
  Lemma shape_prefix c c' : ext c c' -> forall E, flat E = true -> isLocalVar (rootOf E) = false -> shape (toC E) = shape c' ->
    exists e, In e (lookedUpVal E) /\ flat e = true /\ isLocalVar (rootOf e) = false /\ shape (toC e) = shape c.
  Proof.
    induction 1 as [|c' H IH|c' f H IH]; intros E Fl L S.
    - exists E. split; auto. destruct E; simpl in *; auto; discriminate.
    - destruct E; cbn [toC shape] in S; try discriminate; injection S as S; cbn [flat rootOf lookedUpVal] in *;
        destruct (IH _ Fl L S) as (e & H1 & H2); exists e; split; auto; now right.
    - destruct E; cbn [toC shape] in S; try discriminate; injection S as S Sf; cbn [flat rootOf lookedUpVal] in *;
        destruct (IH _ Fl L S) as (e & H1 & H2); exists e; split; auto; now right.
  Qed.
  Lemma shape_similar n : forall e c, flat e = true -> isLocalVar (rootOf e) = false -> shape (toC e) = shape c -> size e + size (readClause c) <= n ->
    simAux n e (readClause c) = true /\ simAux n (readClause c) e = true.
  Proof.
    induction n as [|n IH]; intros e c Fl L S Hn; [destruct e; simpl in Hn; lia|].
    destruct e, c; cbn [toC shape flat rootOf isLocalVar] in *; try discriminate; cbn [readClause size] in *.
    - injection S as ->. simpl. rewrite Nat.eqb_refl. auto.
    - injection S as ->. simpl. rewrite Nat.eqb_refl. auto.
    - injection S as S. destruct (IH e c Fl L S) as [A B]; [lia|]. cbn [simAux]. auto.
    - injection S as S. destruct (IH e c Fl L S) as [A B]; [lia|]. cbn [simAux]. auto.
    - injection S as S. destruct (IH e c Fl L S) as [A B]; [lia|]. cbn [simAux]. auto.
    - injection S as S. destruct (IH e c Fl L S) as [A B]; [lia|]. cbn [simAux]. rewrite A, B.
      split; [destruct i; auto|auto].
    - injection S as S Sf. subst f0. destruct (IH e c Fl L S) as [A B]; [lia|]. cbn [simAux]. rewrite A, B, Nat.eqb_refl. auto.
  Qed.
  Lemma shape_similar' e c : flat e = true -> isLocalVar (rootOf e) = false -> shape (toC e) = shape c -> similar e (readClause c) = true.
  Proof. intros Fl L S. unfold similar. now apply shape_similar. Qed.
  Lemma below_prefix c E o : flat E = true -> isLocalVar (rootOf E) = false -> reg m0 E o -> below m0 ownFrame c o ->
    exists e, In e (lookedUpVal E) /\ similar e (readClause c) = true.
  Proof.
    intros Fl L R B. destruct (below_ext _ _ B) as (c' & X & D). pose proof (reg_toC _ Fl L _ R) as D'.
    destruct (shape_prefix _ _ X E Fl L (Hun _ _ _ D' D)) as (e & H1 & H2 & H3 & H4). exists e. split; auto. now apply shape_similar'.
  Qed.
  Lemma looked_checked E e : In e (lookedUpVal E) -> member (mods clause) e = true -> chkVal E = true.
  Proof.
    unfold chkVal. induction E; cbn [lookedUpVal checkModifyVal]; intros H M; auto;
      try (destruct H as [<-|H]; [rewrite M; auto|rewrite IHE by auto; apply orb_true_r]).
    - rewrite checkGlobMod_true by auto. destruct H as [<-|[]]. auto.
    - destruct H as [<-|[]]. now rewrite M.
  Qed.
  Lemma only_checked E i : rootOf E = Param i -> onlyParam i = true -> chkVal E = true.
  Proof.
    unfold chkVal. induction E; cbn [rootOf checkModifyVal]; intros R O; try discriminate; try (rewrite IHE by auto; apply orb_true_r).
    injection R as ->. rewrite O. apply orb_true_r.
  Qed.
  Lemma shape_root c : forall E, isLocalVar (rootOf E) = false -> flat E = true -> forall i, ext (CParam i) c -> shape (toC E) = shape c -> rootOf E = Param i.
  Proof.
    intros E L Fl i X. revert E L Fl. induction X as [|c' X IH|c' f X IH]; intros E L Fl S; destruct E; cbn [toC shape] in S; try discriminate;
      cbn [rootOf isLocalVar flat] in *; try discriminate; try (injection S; intros; subst; auto; apply IH; auto; fail).
  Qed.
  Lemma not_allowed E o : flat E = true -> isLocalVar (rootOf E) = false -> chkVal E = false -> reg m0 E o -> ~ allowed m0 onlyParam clause o.
  Proof.
    intros Fl L C R [(c & Hc & B)|(i & Hi & B)].
    - destruct (below_prefix _ _ _ Fl L R B) as (e & H1 & H2).
      assert (chkVal E = true) as H; [|congruence]. eapply looked_checked; eauto.
      unfold member. apply existsb_exists. exists (readClause c). split; auto. unfold mods. apply in_map. auto.
    - destruct (below_ext _ _ B) as (c' & X & D). pose proof (reg_toC _ Fl L _ R) as D'.
      assert (chkVal E = true) as H; [|congruence]. eapply only_checked; eauto. eapply shape_root; eauto.
  Qed.

  (** ** Messages are true *)
  Lemma outside_reference p : isReference (srefOf p) = true -> outside p.
  Proof. induction p; simpl; auto. discriminate. Qed.
  Lemma chkVal_chk E : chkVal E = true -> chk E = true.
  Proof. unfold chk, chkVal. destruct E; simpl; auto. destruct E; auto. Qed.
  Lemma local_chkVal E : isLocalVar (rootOf E) = true -> chkVal E = true.
  Proof. unfold chkVal. induction E; cbn [rootOf checkModifyVal isLocalVar]; intros H; try discriminate; auto; rewrite IHE by auto; apply orb_true_r. Qed.
  Lemma local_chk E : isLocalVar (rootOf E) = true -> chk E = true.
  Proof.
    intros H. pose proof (local_chkVal E H) as C. unfold chk, chkVal in *. destruct E; cbn [checkModify checkModifyVal] in *; auto; try discriminate.
    destruct E; auto; discriminate.
  Qed.

  Lemma flat_map_nonempty {A B} (f : A -> list B) l : flat_map f l <> [] -> exists x, In x l /\ f x <> [].
  Proof.
    induction l as [|a l IH]; simpl; [tauto|]. destruct (f a) eqn:E.
    - simpl. intros H. destruct (IH H) as (x & ? & ?). eauto.
    - intros _. exists a. split; auto. rewrite E. discriminate.
  Qed.
  Lemma cand_self t p : isLocalVar (rootOf (srefOf p)) = false -> cand t (srefOf p) (srefOf p).
  Proof.
    intros L. split; auto. left. rewrite rootOf_srefOf in *. pose proof (rootPlace_leaf p).
    destruct (rootPlace p); try contradiction; try discriminate. eauto.
  Qed.
  Lemma glob_reference p : isLocalVar (rootOf (srefOf p)) = false -> outside p.
  Proof. induction p; simpl; auto. discriminate. Qed.
  Lemma exact_mod t m p : J t m -> F t -> V t m -> typedPlace kind ad p -> modMsgs t (srefOf p) <> [] ->
    forall l, at_ m p l -> visible (fst l) /\ ~ allowed m0 onlyParam clause (fst l).
  Proof.
    intros Jm Ft Vm T M l Ha.
    assert (exists E, cand t (srefOf p) E /\ outside p /\ chk E = false) as (E & C & O & Ce).
    { unfold modMsgs in M. destruct (modMsg (srefOf p) None) as [|y r] eqn:E1.
      - simpl in M. destruct (isReference (srefOf p)) eqn:Rf; [|congruence]. apply flat_map_nonempty in M as (E & HE & N).
        exists E. destruct (similar E (srefOf p)); [congruence|]. unfold modMsg in N. destruct (chk E) eqn:Ce; [congruence|].
        split; [|split; auto using outside_reference]. apply aliases_cand; auto.
        destruct (isLocalVar (rootOf E)) eqn:L; auto. apply local_chk in L. congruence.
      - unfold modMsg in E1. destruct (chk (srefOf p)) eqn:Ce; [discriminate|].
        assert (isLocalVar (rootOf (srefOf p)) = false) as L.
        { destruct (isLocalVar (rootOf (srefOf p))) eqn:L; auto. apply local_chk in L. congruence. }
        exists (srefOf p). split; [now apply cand_self|]. split; auto. now apply glob_reference. }
    destruct (atX _ _ _ _ Jm Ft Vm Ha T _ C) as [R Vo]. split; auto.
    pose proof (place_flat _ _ _ Ft T C) as Fl.
    assert (flat E = true /\ reg m0 E (fst l)) as [Fl' R'] by (destruct p; auto; destruct O).
    apply (not_allowed E); auto; [apply C|]. destruct (chkVal E) eqn:Cv; auto. apply chkVal_chk in Cv. congruence.
  Qed.

  Lemma okval_mkPtr b : okval b -> flat (mkPtr b) = true.
  Proof. intros [Fb|(_ & b' & -> & Fb)]; auto. now destruct b. Qed.
  Lemma okval_flat b : ad = false -> okval b -> flat b = true.
  Proof. intros H [Fb|(A & _)]; auto. congruence. Qed.
  Definition compound (c : cplace) : bool := match c with CParam _ => false | _ => true end.
  (** What is checked for an item of a clause. *)
  Lemma item_flat t args c : F t -> Forall (plainExp kind) args -> Forall (typedExp np kind ad) args -> typedItem ad c ->
    forall s, fixBaseParam args (readClause c) = Some s ->
    (okval s /\ (compound c = true -> flat s = true)) /\ forall E, cand t s E -> okval E /\ (compound c = true -> flat E = true).
  Proof.
    intros Ft Pa Ta. induction c; cbn [readClause fixBaseParam typedItem compound]; intros T s H.
    - destruct (nth_error args i) as [e|] eqn:Ne; [|discriminate]. apply nth_error_In in Ne.
      rewrite Forall_forall in Pa, Ta. split; [split; [eapply exp_self_okval; eauto|discriminate]|].
      intros E C. split; [|discriminate]. eapply exp_okval; eauto.
    - injection H as <-. split; [split; auto; now left|]. intros E [L [(g' & R & ->)|(x & v & R & _)]]; [|discriminate].
      split; auto. now left.
    - destruct (fixBaseParam args (readClause c)) as [b|] eqn:Eb; [|discriminate]. injection H as <-.
      destruct (IHc T _ eq_refl) as [[Ob Fb] G].
      assert (flat (mkPtr b) = true) as Fs by now apply okval_mkPtr.
      split; [split; auto; now left|]. intros E C.
      assert (flat E = true) as FE; [|split; auto; now left].
      assert (isAddress b = false -> flat E = true) as Q.
      { intros NA. assert (mkPtr b = Ptr b) as Eb' by (destruct b; auto; discriminate). rewrite Eb' in C.
        destruct C as [L [(g & R & ->)|(x & v & R & Hv & ->)]].
        - rewrite <- Eb'. exact Fs.
        - cbn [fixBase]. apply okval_mkPtr. apply (G (fixBase b v)). split; [|eauto 6].
          cbn [fixBase] in L. now rewrite rootOf_mkPtr in L. }
      destruct (compound c) eqn:Cc; [apply Q, flat_notAdr; auto|]. destruct c; try discriminate.
      cbn [readClause fixBaseParam] in Eb. destruct (nth_error args i) as [e|] eqn:Ne; [|discriminate]. apply nth_error_In in Ne.
      rewrite Forall_forall in Pa, Ta. specialize (Pa _ Ne). specialize (Ta _ Ne).
      destruct e as [p|p| |]; cbn [srefExp] in Eb; try discriminate; injection Eb as <-.
      + apply Q. apply flat_notAdr, flat_srefOf.
      + assert (mkPtr (mkAdr (srefOf p)) = srefOf p \/ isAddress (mkAdr (srefOf p)) = false) as [Ep|NA]; [| |now apply Q].
        { destruct p as [y|g|p|p i'|p f]; cbn [srefOf mkAdr]; auto.
          - right. now destruct p.
          - destruct i' as [[| |]|]; auto. right. now destruct p. }
        rewrite Ep in C. destruct Ta as (Had & Tp & Op). pose proof (place_flat _ _ _ Ft Tp C) as Fl. destruct p as [y| | | |]; auto.
        exfalso. destruct C as [L [(g & R & ->)|(x & v & R & Hv & ->)]]; [discriminate|]. cbn in R. injection R as <-.
        destruct (F_values _ _ _ Ft Hv) as [_ Kv]. cbn [plainExp] in Pa. destruct Kv as [_ Kv]; [congruence|lia].
    - destruct T as [Had T]. destruct (fixBaseParam args (readClause c)) as [b|] eqn:Eb; [|discriminate]. injection H as <-.
      destruct (IHc T _ eq_refl) as [[Ob Fb] G].
      assert (flat b = true) as Fb' by (apply okval_flat; auto).
      split; [split; auto; now left|]. intros E C. apply cand_fetch in C as (E' & C' & ->). destruct (G _ C') as [OE _].
      assert (flat E' = true) by (apply okval_flat; auto). split; auto. now left.
    - destruct T as [T O]. destruct (fixBaseParam args (readClause c)) as [b|] eqn:Eb; [|discriminate]. injection H as <-.
      destruct (IHc T _ eq_refl) as [[Ob Fb] G]. assert (compound c = true) as Cc by (destruct c; auto; destruct O).
      split; [split; auto; left; now apply Fb|]. intros E C. apply cand_field in C as (E' & C' & ->). destruct (G _ C') as [_ FE].
      split; auto. left. now apply FE.
  Qed.
  Lemma callX t m args vs i k o1 k1 a E : J t m -> F t -> V t m -> Forall (plainExp kind) args -> Forall (typedExp np kind ad) args ->
    Forall2 (ev m) args vs -> callMem m vs (Root (RArg i), k) = VPtr (o1, k1) ->
    fixBaseParam args (Param i) = Some a -> cand t a E -> vals m0 E o1 /\ visible o1.
  Proof.
    intros Jm Ft Vm Pa Ta Fv Ec Ha C. destruct (Z.eq_dec k 0) as [->|N].
    - cbn [callMem] in Ec. cbn [fixBaseParam] in Ha.
      assert (exists e, nth_error args i = Some e /\ ev m e (VPtr (o1, k1))) as (e & He & Hv).
      { clear - Fv Ec. revert i Ec. induction Fv as [|e v args vs Hev Fv IH]; intros i E; [destruct i; discriminate|].
        destruct i as [|i]; simpl in *; [exists e; subst; auto|auto]. }
      rewrite He in Ha. apply nth_error_In in He. rewrite Forall_forall in Pa, Ta. eapply evX; eauto.
    - rewrite callMem_arg in Ec by auto. exfalso.
      assert (~ bare (Root (RArg i), k)) as B by (intros (x & Ex & _); discriminate).
      destruct (J_content _ _ _ _ _ _ Jm B Ec) as [E0 _]. destruct (Hentry _ _ _ _ E0) as [_ [[]|(j & _ & R & _)]]. discriminate.
  Qed.
  Lemma denotesX t m args vs c : J t m -> F t -> V t m -> Forall (plainExp kind) args -> Forall (typedExp np kind ad) args ->
    Forall2 (ev m) args vs -> typedItem ad c -> outsideItem c ->
    forall s, fixBaseParam args (readClause c) = Some s -> forall E, cand t s E ->
    forall o, denotes (callMem m vs) callFrame c o -> reg m0 E o /\ visible o.
  Proof.
    intros Jm Ft Vm Pa Ta Fv.
    assert (forall c, typedItem ad c -> (outsideItem c -> forall s, fixBaseParam args (readClause c) = Some s -> forall E, cand t s E ->
       forall o, denotes (callMem m vs) callFrame c o -> reg m0 E o /\ visible o) ->
       forall s, fixBaseParam args (readClause c) = Some s -> forall E, cand t s E ->
       forall o' k o k', denotes (callMem m vs) callFrame c o' -> callMem m vs (o', k) = VPtr (o, k') -> vals m0 E o /\ visible o) as D.
    { clear c. intros c T IH s Hs E C o' k o k' H Ec.
      assert ((exists i, c = CParam i) \/ outsideItem c) as [(i & ->)|O].
      { destruct c; simpl in *; eauto. right. tauto. }
      - simpl in H. subst o'. eapply callX; eauto.
      - destruct (IH O s Hs E C o' H) as [R Vo].
        rewrite callMem_other in Ec by (destruct o' as [[| | | |]|]; simpl in *; auto).
        destruct (J_content _ _ _ _ _ _ Jm (okobj_bare _ k (visible_okobj _ Vo)) Ec) as [E0 V1]. split; auto.
        eapply vals_content; eauto. }
    induction c; cbn [denotes readClause fixBaseParam typedItem outsideItem]; intros T O s Hs E C o H.
    - destruct O.
    - subst o. injection Hs as <-. destruct C as [_ [(g' & R & ->)|(x & v & R & _)]]; [|discriminate]. split; [reflexivity|exact I].
    - destruct (fixBaseParam args (readClause c)) as [b|] eqn:Eb in Hs; [|discriminate]. injection Hs as <-.
      apply cand_ptr in C as (E' & C' & Q). destruct H as (o' & k & k' & H & Ec).
      destruct (D c T (IHc T) b Eb E' C' _ _ _ _ H Ec) as [Hv Vo]. split; [now apply Q|auto].
    - destruct T as [Had T]. destruct (fixBaseParam args (readClause c)) as [b|] eqn:Eb in Hs; [|discriminate]. injection Hs as <-.
      apply cand_fetch in C as (E' & C' & ->). destruct H as (o' & k & k' & H & Ec).
      destruct (D c T (IHc T) b Eb E' C' _ _ _ _ H Ec) as [Hv Vo]. split; [now apply reg_fetch|auto].
    - destruct T as [T _]. destruct (fixBaseParam args (readClause c)) as [b|] eqn:Eb in Hs; [|discriminate]. injection Hs as <-.
      apply cand_field in C as (E' & C' & ->). destruct H as (o' & k & H & ->).
      destruct (IHc T O b Eb E' C' o' H) as [R Vo]. split; [simpl; eauto|exact Vo].
  Qed.
  Lemma fixBaseParam_root args s a : fixBaseParam args s = Some a -> match rootOf s with Param _ | Glob _ => True | _ => False end ->
    match rootOf a with Param _ => False | _ => True end.
  Proof.
    revert a. induction s; cbn [fixBaseParam rootOf]; intros a H R; try contradiction.
    - injection H as <-. exact I.
    - destruct (nth_error args i) as [e|]; [|discriminate]. destruct e as [p|p| |]; cbn [srefExp] in H; try discriminate;
        injection H as <-; rewrite ?rootOf_mkAdr, rootOf_srefOf; pose proof (rootPlace_leaf p); now destruct (rootPlace p).
    - destruct (fixBaseParam args s) as [b|] eqn:Eb in H; [|discriminate]. injection H as <-. rewrite rootOf_mkPtr. exact (IHs b Eb R).
    - destruct (fixBaseParam args s) as [b|] eqn:Eb in H; [|discriminate]. injection H as <-. exact (IHs b Eb R).
    - destruct (fixBaseParam args s) as [b|] eqn:Eb in H; [|discriminate]. injection H as <-. exact (IHs b Eb R).
    - destruct (fixBaseParam args s) as [b|] eqn:Eb in H; [|discriminate]. injection H as <-. rewrite rootOf_mkAdr. exact (IHs b Eb R).
  Qed.
  Lemma readClause_root c : match rootOf (readClause c) with Param _ | Glob _ => True | _ => False end.
  Proof. induction c; simpl; auto. Qed.
  Lemma exact_call t m args cl : J t m -> F t -> V t m -> Forall (plainExp kind) args -> Forall (typedExp np kind ad) args ->
    Forall (fun c => typedItem ad c /\ outsideItem c) cl -> flat_map (elemMsgs t args) cl <> [] ->
    exists c, In c cl /\ forall vs o, Forall2 (ev m) args vs -> denotes (callMem m vs) callFrame c o ->
      visible o /\ ~ allowed m0 onlyParam clause o.
  Proof.
    intros Jm Ft Vm Pa Ta Tc M. apply flat_map_nonempty in M as (c & Hc & M). exists c. split; auto.
    rewrite Forall_forall in Tc. destruct (Tc _ Hc) as [T O]. unfold elemMsgs in M.
    destruct (fixBaseParam args (readClause c)) as [s|] eqn:Es; [|congruence].
    assert (exists E, cand t s E /\ chkVal E = false) as (E & C & Ce).
    { unfold callMsgs in M. destruct (callMsg s None) as [|y r] eqn:E1.
      - simpl in M. apply flat_map_nonempty in M as (E & HE & N). exists E.
        destruct (negb (similar E s) || (negb (chkVal s) && sameName E s)); [|congruence].
        unfold callMsg in N. destruct (chkVal E) eqn:Ce; [congruence|]. split; auto. apply aliases_cand; auto.
        destruct (isLocalVar (rootOf E)) eqn:L; auto. apply local_chkVal in L. congruence.
      - unfold callMsg in E1. destruct (chkVal s) eqn:Ce; [discriminate|]. exists s. split; auto.
        assert (isLocalVar (rootOf s) = false) as L.
        { destruct (isLocalVar (rootOf s)) eqn:L; auto. apply local_chkVal in L. congruence. }
        split; auto. left. pose proof (fixBaseParam_root _ _ _ Es (readClause_root c)) as R. pose proof (rootOf_leaf s) as R'.
        destruct (rootOf s) as [|g| | | | |] eqn:Rs; try contradiction; try discriminate. exists g. auto. }
    intros vs o Fv D. destruct (denotesX _ _ _ _ _ Jm Ft Vm Pa Ta Fv T O _ Es _ C _ D) as [R Vo]. split; auto.
    destruct (item_flat _ _ _ Ft Pa Ta T _ Es) as [_ G]. destruct (G _ C) as [_ Fl].
    apply (not_allowed E); auto; [|apply C]. apply Fl. destruct c; auto; destruct O.
  Qed.

  Definition stmtMsgs (t : table) (c : stmt) : list msg :=
    match c with
    | Num p | Set_ p _ => modMsgs t (srefOf p)
    | Call (Some cl) args => flat_map (elemMsgs t args) cl
    | _ => []
    end.
  Lemma straight_out c st : straight c -> out (chkStmt c st) = out st ++ stmtMsgs (tab st) c.
  Proof.
    destruct c as [p|p e|[cl|] args|a b|a]; intros S; try contradiction; unfold chkStmt; cbn [checkStmt stmtMsgs].
    - apply checkModifyAll_out.
    - unfold setTab. cbn [out]. apply checkModifyAll_out.
    - apply checkCall_out.
  Qed.
  Lemma first_msg l : forall st, Forall straight l -> out (chkBody l st) <> out st ->
    exists l1 c l2, l = l1 ++ c :: l2 /\ stmtMsgs (tab (chkBody l1 st)) c <> [].
  Proof.
    induction l as [|c l IH]; intros st S N; [exfalso; apply N; reflexivity|]. inversion S as [|? ? Sc Sl]; subst.
    destruct (stmtMsgs (tab st) c) as [|y r] eqn:M.
    - rewrite checkBody_cons in N. destruct (IH (chkStmt c st)) as (l1 & c' & l2 & -> & H); auto.
      { rewrite (straight_out _ _ Sc), M, app_nil_r. auto. }
      exists (c :: l1), c', l2. split; auto.
    - exists [], c, l. split; auto. unfold chkBody. cbn [checkBody]. rewrite M. discriminate.
  Qed.
  Lemma reach m l w m' : run isNum m l w m' -> forall st, Forall (tame kind (f_moduncon fl)) l -> Forall (typed np kind ad) l -> Forall straight l ->
    J (tab st) m -> F (tab st) -> V (tab st) m -> J (tab (chkBody l st)) m' /\ F (tab (chkBody l st)) /\ V (tab (chkBody l st)) m'.
  Proof.
    induction 1 as [m|m p l z r w m' Ha Hr IH|m p e l v r w m' Ha He Hr IH|m cl args vs ws r w m' Hargs Hws Hr IH
      |m args vs ws r w m' Hargs Hws Hr IH|m a b r w1 m1 w2 m' Ha IHa Hr IHr|m a b r w1 m1 w2 m' Ha IHa Hr IHr
      |m a r w m' Hr IH|m a r w1 m1 w2 m' Ha IHa Hr IHr]; intros st T Y S Jm Ft Vm;
      try (inversion T as [|? ? Tc Tr]; subst); try (inversion Y as [|? ? Yc Yr]; subst); try (inversion S as [|? ? Sc Sr]; subst);
      try contradiction; try rewrite checkBody_cons in *; auto.
    - destruct (checkModifyAll_out (srefOf p) st) as [_ Et].
      apply IH; auto; unfold chkStmt; cbn [checkStmt]; rewrite Et; auto using J_num, V_num.
    - destruct p as [x| | | |]; try contradiction. destruct Tc as (K & P & N & L). destruct Yc as [_ Ye].
      replace l with (cell x) in * by (now inversion Ha).
      apply IH; auto; unfold chkStmt; cbn [checkStmt tab setTab srefOf]; destruct (checkModifyAll_out (Cvar x) st) as [_ ->];
        auto using J_set, F_set, V_set.
    - destruct Tc as [P L]. destruct (checkCall_out cl args st) as [_ Et].
      assert (Forall (fun a : loc * val => isNum (snd a)) ws) as Fw by (eapply Forall_impl; [|exact Hws]; intros x [_ X]; exact X).
      apply IH; auto; unfold chkStmt; cbn [checkStmt]; rewrite Et; auto using J_updAll, V_updAll.
  Qed.
  Theorem exact_function l x : tameBody kind (f_moduncon fl) l -> Forall (typed np kind ad) l -> Forall straight l ->
    In x (checkFunction np fl ann onlyParam clause l) -> (forall s, x <> MMust s) ->
    exists l1 c l2, l = l1 ++ c :: l2 /\ forall w m, run isNum m0 l1 w m -> forbidden m0 onlyParam clause m c.
  Proof.
    intros T Y S H N. unfold checkFunction in H. fold chkBody in H. set (st0 := mkSt (startTable np) [] []) in *.
    apply in_app_or in H as [H|H].
    2:{ exfalso. destruct (f_mustmod fl); [|destruct H]. apply in_map_iff in H as (s & <- & _). now apply (N s). }
    destruct (first_msg l st0 S) as (l1 & c & l2 & -> & M). { intros E. rewrite E in H. destruct H. }
    exists l1, c, l2. split; auto. intros w m R. unfold tameBody in T. apply Forall_app in T as [T1 T2], Y as [Y1 Y2], S as [S1 S2].
    destruct (reach _ _ _ _ R st0 T1 Y1 S1 J_start (proj1 startTable_inv) V_start) as (Jm & Ft & Vm).
    inversion T2 as [|? ? Tc _]; inversion Y2 as [|? ? Yc _]; inversion S2 as [|? ? Sc _]; subst.
    destruct c as [p|p e|[cl|] args|a b|a]; try contradiction; cbn [stmtMsgs forbidden] in *.
    - eapply exact_mod; eauto.
    - exfalso. destruct p as [y| | | |]; contradiction.
    - destruct Tc as [P _], Yc as [Y' C]. eapply exact_call; eauto.
  Qed.

  (** ** Everything listed is modified *)
  Hypothesis Hmust : f_mustmod fl = true.
  Lemma checkModifyAuxAux_seen s alias st : seen (checkModifyAuxAux fl ann onlyParam clause s alias st) = seen st ++ lookedUp s.
  Proof.
    unfold checkModifyAuxAux, look. rewrite Hmust. destruct (checkModify fl ann onlyParam clause s); auto.
    destruct (match rootOf s with Glob g => negb (checkGlobMod fl ann g) | _ => false end); auto.
    destruct alias as [a|]; auto. destruct (sameName s a); auto. destruct (isReference s && negb (isAddress a)); auto.
  Qed.
  Lemma fold_seen (g : state -> sref -> state) h l :
    (forall st c, seen (g st c) = seen st ++ h c) -> forall st, seen (fold_left g l st) = seen st ++ flat_map h l.
  Proof. intros H. induction l as [|c l IH]; intros st; simpl; [now rewrite app_nil_r|]. now rewrite IH, H, app_assoc. Qed.
  Definition modSeen (t : table) (s : sref) : list sref :=
    lookedUp s ++ (if isReference s then flat_map (fun c => if similar c s then [] else lookedUp c) (allAliases t s) else []).
  Lemma checkModifyAll_seen s st : seen (checkModifyAll fl ann onlyParam clause s st) = seen st ++ modSeen (tab st) s.
  Proof.
    unfold checkModifyAll, modSeen. destruct (checkModifyAuxAux_out s None st) as [_ Ht].
    destruct (isReference s); [|rewrite app_nil_r; apply checkModifyAuxAux_seen]. rewrite Ht.
    rewrite (fold_seen _ (fun c => if similar c s then [] else lookedUp c)).
    - now rewrite checkModifyAuxAux_seen, app_assoc.
    - intros st' c. destruct (similar c s); [now rewrite app_nil_r|apply checkModifyAuxAux_seen].
  Qed.
  Lemma Ent_cand t s E : Ent t s E -> isLocalVar (rootOf E) = false -> cand t s E.
  Proof.
    unfold Ent. intros H L. split; auto. destruct (rootOf s) eqn:R; try contradiction; eauto. destruct H as (v & Hv & -> & _). eauto 6.
  Qed.
  Lemma reference_looked E : isReference E = true -> lookedUp E = lookedUpVal E.
  Proof. destruct E; simpl; auto; try discriminate. destruct E; auto. discriminate. Qed.
  Lemma marked t m p l c : J t m -> F t -> typedPlace kind ad p -> at_ m p l -> steps p < searchLimit -> visible (fst l) ->
    below m0 ownFrame c (fst l) -> exists e, In e (modSeen t (srefOf p)) /\ similar e (readClause c) = true.
  Proof.
    intros Jm Ft T Ha L Vo B. destruct (at_where _ _ _ _ Jm Ha) as [(x & -> & ->)|[O [Q|(E & HE & R)]]].
    - destruct Vo.
    - destruct (quiet_visible _ Q Vo).
    - pose proof (reg_vals_root m0 _ _ (or_introl R)) as RL. pose proof (Ent_cand _ _ _ HE RL) as C.
      assert (flat E = true) as Fl.
      { pose proof (place_flat _ _ _ Ft T C) as G. destruct p as [y| | | |]; auto. inversion Ha; subst. destruct Vo. }
      destruct (below_prefix _ _ _ Fl RL R B) as (e & He & Se). exists e. split; auto.
      assert (isReference E = true) as RE.
      { destruct (isReference E) eqn:RE; auto. destruct (reference_visible m0 _ RE _ R Vo). }
      rewrite <- (reference_looked _ RE) in He. unfold modSeen. apply in_or_app.
      destruct (Ent_shown _ _ _ HE) as [[_ ->]|(x & Rx)]; auto. right.
      assert (isReference (srefOf p) = true) as Rp.
      { destruct (isReference (srefOf p)) eqn:IR; auto. exfalso. clear - IR Ha Vo Rx. revert Vo.
        assert (exists y, rootObj (fst l) = RLoc y) as (y & Hy).
        { induction Ha; simpl in IR, Rx; try discriminate; simpl; eauto. }
        unfold visible. rewrite Hy. auto. }
      rewrite Rp. apply in_flat_map. exists E.
      assert (similar E (srefOf p) = false) as NS.
      { destruct (similar E (srefOf p)) eqn:NS; auto. apply similar_root in NS. rewrite NS, Rx in RL. discriminate. }
      rewrite NS. split; auto. destruct (Ent_canAlias _ _ _ HE ltac:(rewrite size_srefOf; lia)) as [->|CA].
      { rewrite Rx in RL. discriminate. }
      unfold allAliases. apply In_union. auto.
  Qed.
  Definition grows (f : state -> state) : Prop := forall st e, In e (seen st) -> In e (seen (f st)).
  Lemma grows_body l : Forall (fun c => grows (chkStmt c)) l -> grows (chkBody l).
  Proof. induction 1 as [|c l Hc Hl IH]; intros st e H; auto. rewrite checkBody_cons. auto. Qed.
  Fixpoint stmt_grows (c : stmt) : noCall c -> grows (chkStmt c).
  Proof.
    assert (forall l, Forall noCall l -> Forall (fun c => grows (chkStmt c)) l) as G.
    { fix go 1. intros [|c' l] N; constructor; inversion N; auto. }
    intros N st e H. destruct c as [p|p x|cl args|a b|a].
    - unfold chkStmt. cbn [checkStmt]. rewrite checkModifyAll_seen. apply in_or_app. auto.
    - unfold chkStmt. cbn [checkStmt setTab seen]. rewrite checkModifyAll_seen. apply in_or_app. auto.
    - destruct N.
    - rewrite checkStmt_if. cbv zeta. cbn [seen setTab]. destruct N as [Na Nb]. apply go_Forall in Na, Nb.
      apply (grows_body _ (G b Nb)). cbn [seen setTab]. now apply (grows_body _ (G a Na)).
    - rewrite checkStmt_while. cbv zeta. cbn [seen setTab]. cbn [noCall] in N. apply go_Forall in N. now apply (grows_body _ (G a N)).
  Qed.
  Lemma body_grows l : Forall noCall l -> grows (chkBody l).
  Proof. intros N. apply grows_body. eapply Forall_impl; [|exact N]. intros c. apply stmt_grows. Qed.
  Lemma noCall_if a b : noCall (If a b) <-> Forall noCall a /\ Forall noCall b.
  Proof. rewrite <- !go_Forall. reflexivity. Qed.
  Lemma noCall_while a : noCall (While a) <-> Forall noCall a.
  Proof. rewrite <- !go_Forall. reflexivity. Qed.
  Lemma typed_if a b : typed np kind ad (If a b) <-> Forall (typed np kind ad) a /\ Forall (typed np kind ad) b.
  Proof. rewrite <- !go_Forall. reflexivity. Qed.
  Lemma typed_while a : typed np kind ad (While a) <-> Forall (typed np kind ad) a.
  Proof. rewrite <- !go_Forall. reflexivity. Qed.
  Lemma body_F l : Forall (typed np kind ad) l -> Forall (tame kind (f_moduncon fl)) l -> Forall noCall l -> forall st, F (tab st) -> F (tab (chkBody l st)).
  Proof.
    assert (forall c, typed np kind ad c -> tame kind (f_moduncon fl) c -> noCall c -> forall st, F (tab st) -> F (tab (chkStmt c st))) as G.
    { fix go 1. intros c Y T N st Ft.
      assert (forall l, Forall (typed np kind ad) l -> Forall (tame kind (f_moduncon fl)) l -> Forall noCall l -> forall st, F (tab st) -> F (tab (chkBody l st))) as Gl.
      { clear - go. fix gol 1. intros [|c l] Y T N st Ft; [exact Ft|]. rewrite checkBody_cons.
        assert (Forall (typed np kind ad) l /\ Forall (tame kind (f_moduncon fl)) l /\ Forall noCall l) as (Y' & T' & N') by (inversion Y; inversion T; inversion N; auto).
        apply gol; auto. apply go; auto; [inversion Y|inversion T|inversion N]; auto. }
      destruct c as [p|p e|cl args|a b|a].
      - unfold chkStmt. cbn [checkStmt]. now destruct (checkModifyAll_out (srefOf p) st) as [_ ->].
      - destruct p as [x| | | |]; try contradiction. destruct T as (K & P & Nf & L), Y as [_ Y].
        unfold chkStmt. cbn [checkStmt tab setTab srefOf]. destruct (checkModifyAll_out (Cvar x) st) as [_ ->]. now apply F_set.
      - destruct N.
      - apply typed_if in Y as [Ya Yb]. apply tame_if in T as [Ta Tb]. apply noCall_if in N as [Na Nb].
        rewrite checkStmt_if. cbv zeta. cbn [tab setTab]. apply F_union; apply Gl; auto.
      - apply typed_while in Y. apply tame_while in T as [T _]. apply noCall_while in N.
        rewrite checkStmt_while. cbv zeta. cbn [tab setTab]. apply F_union; auto. }
    induction l as [|c l IH]; intros Y T N st Ft; auto. rewrite checkBody_cons. inversion Y; inversion T; inversion N; subst. apply IH; auto.
  Qed.
  Theorem run_marks m l w m' : run isNum m l w m' -> forall st, Forall (tame kind (f_moduncon fl)) l -> Forall (typed np kind ad) l -> Forall noCall l ->
    J (tab st) m -> F (tab st) ->
    J (tab (chkBody l st)) m' /\
    forall o c, In o w -> visible o -> below m0 ownFrame c o -> exists e, In e (seen (chkBody l st)) /\ similar e (readClause c) = true.
  Proof.
    induction 1 as [m|m p l z r w m' Ha Hr IH|m p e l v r w m' Ha He Hr IH|m cl args vs ws r w m' Hargs Hws Hr IH
      |m args vs ws r w m' Hargs Hws Hr IH|m a b r w1 m1 w2 m' Ha IHa Hr IHr|m a b r w1 m1 w2 m' Ha IHa Hr IHr
      |m a r w m' Hr IH|m a r w1 m1 w2 m' Ha IHa Hr IHr]; intros st T Y N Jm Ft;
      try (inversion T as [|? ? Tc Tr]; subst); try (inversion Y as [|? ? Yc Yr]; subst); try (inversion N as [|? ? Nc Nr]; subst);
      try contradiction; try rewrite checkBody_cons in *.
    - split; auto. intros o c [].
    - destruct (checkModifyAll_out (srefOf p) st) as [_ Et].
      destruct (IH (chkStmt (Num p) st)) as [J' G]; auto.
      { unfold chkStmt. cbn [checkStmt]. rewrite Et. now apply J_num. }
      { unfold chkStmt. cbn [checkStmt]. now rewrite Et. }
      split; auto. intros o c [<-|Ho] Vo B; eauto.
      destruct (marked _ _ _ _ _ Jm Ft Yc Ha Tc Vo B) as (e & He & Se). exists e. split; auto.
      apply body_grows; auto. unfold chkStmt. cbn [checkStmt]. rewrite checkModifyAll_seen. apply in_or_app. auto.
    - destruct p as [x| | | |]; try contradiction. destruct Tc as (K & P & Nf & L), Yc as [_ Ye].
      replace l with (cell x) in * by (now inversion Ha).
      destruct (IH (chkStmt (Set_ (PVar x) e) st)) as [J' G]; auto.
      { unfold chkStmt. cbn [checkStmt tab setTab srefOf]. destruct (checkModifyAll_out (Cvar x) st) as [_ ->]. now apply J_set. }
      { unfold chkStmt. cbn [checkStmt tab setTab srefOf]. destruct (checkModifyAll_out (Cvar x) st) as [_ ->]. now apply F_set. }
      split; auto. intros o c [<-|Ho] Vo B; eauto. destruct Vo.
    - apply tame_if in Tc as [Ta Tb]. apply typed_if in Yc as [Ya Yb]. apply noCall_if in Nc as [Na Nb].
      destruct (IHa st Ta Ya Na Jm Ft) as [A1 A2]. rewrite checkStmt_if. cbv zeta.
      set (s1 := chkBody a st) in *. set (s2 := chkBody b (setTab s1 (tab st))).
      destruct (IHr (setTab s2 (tabUnion (tab s1) (tab s2)))) as [B1 B2]; auto.
      { cbn [tab setTab]. eapply J_grow; [exact A1|]. intros x v. apply tabUnion_grow1. }
      { cbn [tab setTab]. apply F_union; apply body_F; auto. }
      split; auto. intros o c Ho Vo B. apply in_app_or in Ho as [Ho|Ho]; eauto.
      destruct (A2 _ _ Ho Vo B) as (e & He & Se). exists e. split; auto. apply body_grows; auto. cbn [seen setTab].
      apply (body_grows b Nb (setTab s1 (tab st))). exact He.
    - apply tame_if in Tc as [Ta Tb]. apply typed_if in Yc as [Ya Yb]. apply noCall_if in Nc as [Na Nb].
      rewrite checkStmt_if. cbv zeta. set (s1 := chkBody a st) in *. 
      destruct (IHa (setTab s1 (tab st)) Tb Yb Nb Jm Ft) as [A1 A2]. set (s2 := chkBody b (setTab s1 (tab st))) in *.
      destruct (IHr (setTab s2 (tabUnion (tab s1) (tab s2)))) as [B1 B2]; auto.
      { cbn [tab setTab]. eapply J_grow; [exact A1|]. intros x v. apply tabUnion_grow2. }
      { cbn [tab setTab]. apply F_union; apply body_F; auto. }
      split; auto. intros o c Ho Vo B. apply in_app_or in Ho as [Ho|Ho]; eauto.
      destruct (A2 _ _ Ho Vo B) as (e & He & Se). exists e. split; auto. apply body_grows; auto.
    - apply tame_while in Tc as [Ta Ts]. apply typed_while in Yc. apply noCall_while in Nc.
      rewrite checkStmt_while. cbv zeta. apply IH; auto; cbn [tab setTab].
      + eapply J_grow; [exact Jm|]. intros x v. apply tabUnion_grow2.
      + apply F_union; auto. apply body_F; auto.
    - pose proof Tc as Tw. apply tame_while in Tw as [Ta Ts]. pose proof Yc as Yw. apply typed_while in Yw. pose proof Nc as Nw. apply noCall_while in Nw.
      destruct (IHa st Ta Yw Nw Jm Ft) as [A1 A2]. destruct (IHr st) as [B1 B2]; auto. { eapply run_noSet; eauto. }
      split; auto. intros o c Ho Vo B. apply in_app_or in Ho as [Ho|Ho]; [|rewrite checkBody_cons in B2; eauto].
      destruct (A2 _ _ Ho Vo B) as (e & He & Se). exists e. split; auto. apply body_grows; auto.
  Qed.
  Theorem reported_untouched l c w m' : tameBody kind (f_moduncon fl) l -> Forall (typed np kind ad) l -> Forall noCall l ->
    run isNum m0 l w m' -> In (MMust (readClause c)) (checkFunction np fl ann onlyParam clause l) ->
    forall o, In o w -> visible o -> ~ below m0 ownFrame c o.
  Proof.
    intros T Y N R H o Ho Vo B. unfold checkFunction in H. fold chkBody in H. set (st0 := mkSt (startTable np) [] []) in *.
    apply in_app_or in H as [H|H].
    - destruct (body_ext l st0) as (e & E & Ne). rewrite E in H. exact (Ne _ H).
    - rewrite Hmust in H. apply in_map_iff in H as (s & E & H). injection E as ->. unfold unmodified in H.
      apply filter_In in H as [_ H]. apply negb_true_iff in H.
      destruct (run_marks _ _ _ _ R st0 T Y N J_start (proj1 startTable_inv)) as [_ G].
      destruct (G _ _ Ho Vo B) as (e & He & Se).
      assert (existsb (fun s => similar s (readClause c)) (seen (chkBody l st0)) = true) as X; [|congruence].
      apply existsb_exists. eauto.
  Qed.
  Lemma looked_below E e c : In e (lookedUpVal E) -> flat E = true -> similar e (readClause c) = true -> forall o, reg m0 E o -> below m0 ownFrame c o.
  Proof.
    assert (forall e, similar e (readClause c) = true -> forall o, reg m0 e o -> below m0 ownFrame c o) as K.
    { intros e' S o R. apply simAux_sem with (m0 := m0) in S as [Q _]. apply below_here, reg_readClause, Q, R. }
    induction E; cbn [lookedUpVal flat]; intros H Fl S o R; try discriminate.
    - destruct H.
    - destruct H as [<-|[]]. eauto.
    - destruct H as [<-|[]]. eauto.
    - destruct H as [<-|H]; eauto. apply reg_ptr, vals_notAdr in R; [|now apply flat_notAdr].
      destruct R as (o' & k & k' & R & Em). eapply below_deref; eauto.
    - destruct H as [<-|H]; eauto. apply reg_fetch, vals_notAdr in R; [|now apply flat_notAdr].
      destruct R as (o' & k & k' & R & Em). eapply below_deref; eauto.
    - destruct H as [<-|H]; eauto. destruct R as (o' & k & R & ->). apply below_fld. eauto.
  Qed.
  Lemma lookedUp_sub E e : In e (lookedUp E) -> In e (lookedUpVal E).
  Proof. destruct E; simpl; auto; try tauto. destruct E; simpl; tauto. Qed.
  Lemma lookedUpVal_root E e : In e (lookedUpVal E) -> rootOf e = rootOf E.
  Proof. induction E; simpl; intros H; try tauto; destruct H as [<-|H]; auto; try (destruct H; fail). Qed.
  Theorem run_marks_exact m l w m' : run isNum m l w m' -> forall st, Forall (tame kind (f_moduncon fl)) l -> Forall (typed np kind ad) l -> Forall straight l -> Forall noCall l ->
    J (tab st) m -> F (tab st) -> V (tab st) m ->
    forall c e, In e (seen (chkBody l st)) -> similar e (readClause c) = true ->
    In e (seen st) \/ exists o, In o w /\ visible o /\ below m0 ownFrame c o.
  Proof.
    induction 1 as [m|m p l z r w m' Ha Hr IH|m p e l v r w m' Ha He Hr IH|m cl args vs ws r w m' Hargs Hws Hr IH
      |m args vs ws r w m' Hargs Hws Hr IH|m a b r w1 m1 w2 m' Ha IHa Hr IHr|m a b r w1 m1 w2 m' Ha IHa Hr IHr
      |m a r w m' Hr IH|m a r w1 m1 w2 m' Ha IHa Hr IHr]; intros st T Y S N Jm Ft Vm c x Hx Sx;
      try (inversion T as [|? ? Tc Tr]; subst); try (inversion Y as [|? ? Yc Yr]; subst); try (inversion N as [|? ? Nc Nr]; subst);
      try (inversion S as [|? ? Sc Sr]; subst); try contradiction; try rewrite checkBody_cons in *; auto.
    - destruct (checkModifyAll_out (srefOf p) st) as [_ Et].
      assert (In x (seen (chkStmt (Num p) st)) \/ exists o, In o w /\ visible o /\ below m0 ownFrame c o) as [G|(o & G)].
      { apply (IH (chkStmt (Num p) st)); auto; unfold chkStmt; cbn [checkStmt]; rewrite Et; auto using J_num, V_num. }
      2:{ right. exists o. simpl. tauto. }
      unfold chkStmt in G. cbn [checkStmt] in G. rewrite checkModifyAll_seen in G. apply in_app_or in G as [G|G]; auto. right.
      assert (isLocalVar (rootOf x) = false) as Lx.
      { apply similar_root in Sx. rewrite Sx. pose proof (readClause_root c). now destruct (rootOf (readClause c)). }
      assert (exists E, cand (tab st) (srefOf p) E /\ outside p /\ In x (lookedUpVal E)) as (E & C & O & HE).
      { unfold modSeen in G. apply in_app_or in G as [G|G].
        - apply lookedUp_sub in G. pose proof (lookedUpVal_root _ _ G) as Rx. rewrite Rx in Lx.
          exists (srefOf p). split; [now apply cand_self|]. split; [now apply glob_reference|auto].
        - destruct (isReference (srefOf p)) eqn:Rp; [|destruct G]. apply in_flat_map in G as (E & HE & G).
          destruct (similar E (srefOf p)); [destruct G|]. apply lookedUp_sub in G. pose proof (lookedUpVal_root _ _ G) as Rx. rewrite Rx in Lx.
          exists E. split; [now apply aliases_cand|]. split; [now apply outside_reference|auto]. }
      destruct (atX _ _ _ _ Jm Ft Vm Ha Yc _ C) as [R Vo]. pose proof (place_flat _ _ _ Ft Yc C) as Fl.
      assert (flat E = true /\ reg m0 E (fst l)) as [Fl' R'] by (destruct p; auto; destruct O).
      exists (fst l). split; [now left|]. split; auto. eapply looked_below; eauto.
    - destruct p as [y| | | |]; try contradiction. destruct Tc as (K & P & Nf & L), Yc as [_ Ye].
      replace l with (cell y) in * by (now inversion Ha).
      assert (In x (seen (chkStmt (Set_ (PVar y) e) st)) \/ exists o, In o w /\ visible o /\ below m0 ownFrame c o) as [G|(o & G)].
      { apply (IH (chkStmt (Set_ (PVar y) e) st)); auto; unfold chkStmt; cbn [checkStmt tab setTab srefOf];
          destruct (checkModifyAll_out (Cvar y) st) as [_ ->]; auto using J_set, F_set, V_set. }
      2:{ right. exists o. simpl. tauto. }
      unfold chkStmt in G. cbn [checkStmt setTab seen srefOf] in G. rewrite checkModifyAll_seen in G. apply in_app_or in G as [G|G]; auto.
      destruct G.
  Qed.
  Theorem unreported_modified l c w m' : tameBody kind (f_moduncon fl) l -> Forall (typed np kind ad) l -> Forall straight l -> Forall noCall l ->
    run isNum m0 l w m' -> In c clause -> ~ In (MMust (readClause c)) (checkFunction np fl ann onlyParam clause l) ->
    exists o, In o w /\ visible o /\ below m0 ownFrame c o.
  Proof.
    intros T Y S N R Hc H. unfold checkFunction in H. fold chkBody in H. set (st0 := mkSt (startTable np) [] []) in *.
    rewrite Hmust in H.
    destruct (existsb (fun s => similar s (readClause c)) (seen (chkBody l st0))) eqn:X.
    - apply existsb_exists in X as (e & He & Se).
      destruct (run_marks_exact _ _ _ _ R st0 T Y S N J_start (proj1 startTable_inv) V_start c e He Se) as [[]|G]. exact G.
    - exfalso. apply H. apply in_or_app. right. apply in_map. unfold unmodified. apply filter_In. split.
      + unfold mods. apply in_map. exact Hc.
      + now rewrite X.
  Qed.
End Exec.

(** ** Storage for the examples *)
Definition memOf (ws : list (loc * val)) : mem := updAll (fun _ => VNum 0) ws.
Lemma updAll_ptr ws : forall m l l', updAll m ws l = VPtr l' -> In (l, VPtr l') ws \/ m l = VPtr l'.
Proof.
  induction ws as [|[a v] ws IH]; intros m l l' H; auto. simpl in H. apply IH in H as [H|H]; [simpl; auto|].
  unfold upd in H. simpl in H. destruct (loc_eq_dec l a) as [->|]; [subst v; simpl; auto|auto].
Qed.
Lemma memOf_ptr ws l l' : memOf ws l = VPtr l' -> In (l, VPtr l') ws.
Proof. intros H. apply updAll_ptr in H as [H|H]; [auto|discriminate]. Qed.
(** The way to every object. *)
Fixpoint wayTo (h : nat -> cplace) (o : obj) : cplace :=
  match o with
  | Root (RLoc i) => CParam i
  | Root (RGlob g) => CGlob g
  | Root (RHeap n) | Root (RNew n) | Root (RArg n) => h n
  | Sub o _ f => CFld (wayTo h o) f
  end.
Lemma unaliased_by h m0 : (forall o' k o k', m0 (o', k) = VPtr (o, k') -> wayTo h o = CDeref (wayTo h o')) -> unaliased m0.
Proof.
  intros H. assert (forall c o, denotes m0 ownFrame c o -> shape c = wayTo h o) as G.
  { induction c as [i|g|c IH|c IH i|c IH f]; simpl; intros o D.
    - now subst.
    - now subst.
    - destruct D as (o' & k & k' & D & E). now rewrite (IH _ D), (H _ _ _ _ E).
    - destruct D as (o' & k & k' & D & E). now rewrite (IH _ D), (H _ _ _ _ E).
    - destruct D as (o' & k & D & ->). simpl. now rewrite (IH _ D). }
  intros c c' o D D'. now rewrite (G _ _ D), (G _ _ D').
Qed.
