(** Proofs for C114-C116: what is modified, what has an influence, and loops. *)
From Verif Require Import Cbase Order_model Order_spec Order_proofs Order_ev_proofs Eff_model Eff_spec.
From Coq Require Import List ZArith Bool Lia Arith.
Import ListNotations.
Open Scope Z_scope.

(** ** Steps that modify only [W] and look only at [R], which [W] does not meet *)
Section Steps.
Variable W : obj -> bool.
Definition fr {X} (m : rel X) : Prop :=
  forall s x s' d, m s x s' d -> forall o, W o = false -> s' o = s o /\ ~ In o (map fst d).
Lemma fr_give : forall {X} (x : X), fr (give x).
Proof. intros X x s y s' d (-> & -> & ->) o _; split; [reflexivity | intros []]. Qed.
Lemma fr_mapr : forall {X Y} (g : X -> Y) m, fr m -> fr (mapr g m).
Proof. intros X Y g m F s y s' d (x & H & _); eapply F; eauto. Qed.
Lemma fr_after : forall {X Y} (m : rel X) (n : X -> rel Y), fr m -> (forall x, fr (n x)) -> fr (after m n).
Proof.
  intros X Y m n F N s y s' d (x & s1 & d1 & H1 & H2) o Ho.
  destruct (F _ _ _ _ H1 o Ho) as [A B]; destruct (N x _ _ _ _ H2 o Ho) as [C D].
  split; [| exact D]; rewrite C, flush_other; auto.
Qed.
Lemma fr_either : forall {X Y} (m : rel X) (n : rel Y), fr m -> fr n -> fr (either m n).
Proof.
  intros X Y m n M N s r s' d [(s1 & d1 & d2 & H1 & H2 & ->) | (s1 & d1 & d2 & H1 & H2 & ->)] o Ho.
  - destruct (M _ _ _ _ H1 o Ho), (N _ _ _ _ H2 o Ho); split; [congruence | rewrite map_app, in_app_iff; tauto].
  - destruct (N _ _ _ _ H1 o Ho), (M _ _ _ _ H2 o Ho); split; [congruence | rewrite map_app, in_app_iff; tauto].
Qed.
Lemma fr_reading : forall m, fr m -> fr (reading m).
Proof. intros m F s r s' d [H _]; eapply F; eauto. Qed.
Lemma fr_storing : forall {X} (m : rel X) tgt vl, fr m ->
  (forall s r s' d, m s r s' d -> W (tgt r) = true) -> fr (storing m tgt vl).
Proof.
  intros X m tgt vl F T s r s' d (s1 & d1 & H & K) o Ho.
  destruct (F _ _ _ _ H o Ho) as [A B]; specialize (T _ _ _ _ H).
  assert (tgt r <> o) as N by congruence.
  destruct K as [[-> ->] | [-> ->]].
  - split; [rewrite upd_other; auto | exact B].
  - split; [exact A |]; rewrite map_app, in_app_iff; cbn; tauto.
Qed.
Lemma fr_flush : forall {X} (m : rel X) s x s' d o, fr m -> m s x s' d -> W o = false -> flush s' d o = s o.
Proof. intros X m s x s' d o F H Ho; destruct (F _ _ _ _ H o Ho) as [A B]; rewrite flush_other; auto. Qed.

Variable R : obj -> bool.
Definition ag {X} (m : rel X) : Prop :=
  forall sa sb xa xb sa' sb' da db, (forall o, R o = true -> sa o = sb o) ->
    m sa xa sa' da -> m sb xb sb' db -> xa = xb.
Hypothesis Disj : forall o, R o = true -> W o = false.

Lemma ag_give : forall {X} (x : X), ag (give x).
Proof. intros X x sa sb xa xb sa' sb' da db _ (-> & _) (-> & _); reflexivity. Qed.
Lemma ag_mapr : forall {X Y} (g : X -> Y) m, ag m -> ag (mapr g m).
Proof. intros X Y g m A sa sb xa xb sa' sb' da db H (ya & Ha & ->) (yb & Hb & ->); f_equal; eapply A; eauto. Qed.
Lemma ag_after : forall {X Y} (m : rel X) (n : X -> rel Y), fr m -> ag m -> (forall x, ag (n x)) -> ag (after m n).
Proof.
  intros X Y m n F A N sa sb xa xb sa' sb' da db H (ya & sa1 & da1 & Ha1 & Ha2) (yb & sb1 & db1 & Hb1 & Hb2).
  pose proof (A _ _ _ _ _ _ _ _ H Ha1 Hb1) as <-.
  eapply (N ya); [| exact Ha2 | exact Hb2].
  intros o Ho; rewrite (fr_flush m sa ya sa1 da1 o F Ha1 (Disj o Ho)), (fr_flush m sb ya sb1 db1 o F Hb1 (Disj o Ho)); auto.
Qed.
Lemma ag_either : forall {X Y} (m : rel X) (n : rel Y), fr m -> fr n -> ag m -> ag n -> ag (either m n).
Proof.
  intros X Y m n FM FN M N.
  assert (forall s r s' d, either m n s r s' d -> exists s1 d1 t1 s2 d2 t2,
            m s1 (fst r) t1 d1 /\ n s2 (snd r) t2 d2 /\ forall o, R o = true -> s1 o = s o /\ s2 o = s o) as K.
  { intros s r s' d [(s1 & d1 & d2 & H1 & H2 & ->) | (s1 & d1 & d2 & H1 & H2 & ->)].
    - exists s, d1, s1, s1, d2, s'; split; [exact H1 | split; [exact H2 |]]; intros o Ho; split; [reflexivity |].
      apply (FM _ _ _ _ H1 o (Disj o Ho)).
    - exists s1, d2, s', s, d1, s1; split; [exact H2 | split; [exact H1 |]]; intros o Ho; split; [| reflexivity].
      apply (FN _ _ _ _ H1 o (Disj o Ho)). }
  intros sa sb xa xb sa' sb' da db H Ha Hb.
  destruct (K _ _ _ _ Ha) as (s1 & d1 & t1 & s2 & d2 & t2 & A1 & A2 & A3).
  destruct (K _ _ _ _ Hb) as (s3 & d3 & t3 & s4 & d4 & t4 & B1 & B2 & B3).
  destruct xa as [xa ya], xb as [xb yb]; cbn [fst snd] in *; f_equal.
  - eapply (M s1 s3); [| exact A1 | exact B1]; intros o Ho; destruct (A3 o Ho), (B3 o Ho); rewrite H0, H2; auto.
  - eapply (N s2 s4); [| exact A2 | exact B2]; intros o Ho; destruct (A3 o Ho), (B3 o Ho); rewrite H1, H3; auto.
Qed.
Lemma ag_reading : forall m, fr m -> ag m -> (forall s o s' d, m s o s' d -> R o = true) -> ag (reading m).
Proof.
  intros m F A T sa sb [oa va] [ob vb] sa' sb' da db H [Ha Va] [Hb Vb]; cbn [fst snd] in *.
  pose proof (A _ _ _ _ _ _ _ _ H Ha Hb) as <-; f_equal; subst.
  pose proof (T _ _ _ _ Ha) as Q.
  rewrite (proj1 (F _ _ _ _ Ha oa (Disj oa Q))), (proj1 (F _ _ _ _ Hb oa (Disj oa Q))); auto.
Qed.
Lemma ag_storing : forall {X} (m : rel X) tgt vl, ag m -> ag (storing m tgt vl).
Proof.
  intros X m tgt vl A sa sb xa xb sa' sb' da db H (s1 & d1 & Ha & _) (s2 & d2 & Hb & _); eapply A; eauto.
Qed.
End Steps.

Section Eff.
Variable glob_var : var -> bool.
Variable glob_arr : arr -> bool.
Variable decl : fname -> fdecl.
Variable uncon : bool.
Variable unother : Z -> Z.
Variable binother : Z -> Z -> Z.
Variable addr : arr -> Z.
Variable body : fname -> exprs -> list Z -> state -> Z * (obj -> option Z).
Hypothesis Honest : honest glob_var glob_arr decl body.
Local Notation ev := (ev unother binother addr body).
Local Notation evL := (evL unother binother addr body).
Local Notation evs := (evs unother binother addr body).
Local Notation nodeE := (nodeE glob_var glob_arr decl uncon).
Local Notation nodeL := (nodeL glob_var glob_arr decl uncon).
Local Notation nodesA := (nodesA glob_var glob_arr decl uncon).
Local Notation callNode := (callNode decl).

Lemma named_ref : forall e a, by_name e = true -> In a (denotes e) -> ref (nodeE e) = Some (SArr a).
Proof.
  induction e; intros b C D; cbn [by_name denotes] in C, D; try (destruct D; fail).
  - destruct D as [-> | []]; reflexivity.
  - rewrite node_paren; auto.
  - destruct (denotes e2 ++ denotes e3); [destruct D | discriminate].
  - destruct (denotes e2); [destruct D | discriminate].
Qed.
Lemma nth_arrays : forall es n l, nth_error (arrays es) n = Some l ->
  exists e, nth_error (nodesA es) n = Some (nodeE e) /\ l = denotes e /\ (all_by_name es = true -> by_name e = true).
Proof.
  induction es using exprs_mind with (P := fun _ => True) (P0 := fun _ => True); auto; intros n l H;
    [destruct n; discriminate |].
  cbn [arrays] in H; rewrite nodes_cons; cbn [all_by_name]; destruct n as [|n]; cbn [nth_error] in *.
  - injection H as <-; exists e; rewrite andb_true_iff; tauto.
  - destruct (IHes0 n l H) as (e' & A & B & C); exists e'; rewrite andb_true_iff; tauto.
Qed.

Variable W : obj -> bool.
Definition global (o : obj) : bool := match o with OVar x => glob_var x | OElem a _ => glob_arr a end.
Definition okset (s : sref) : Prop :=
  (isUncon s = true -> forall o, global o = true -> W o = true) /\ forall o, covers s o = true -> W o = true.
Definition setsok (l : list sref) : Prop := forall s, In s l -> okset s.

Lemma setsok_incl : forall l m, (forall s, In s m -> In s l) -> setsok l -> setsok m.
Proof. intros l m I H s Hs; apply H, I, Hs. Qed.

(** What a call may modify is covered. *)
Lemma call_W : forall f args o, named (Call f args) = true -> setsok (sets (nodeE (Call f args))) ->
  may_write glob_var glob_arr decl f args o -> W o = true.
Proof.
  intros f args o N S H; cbn [named] in N; rewrite node_call in S; unfold Order_model.callNode in S; cbn [sets] in S.
  unfold may_write in H; destruct (mods (decl f)) as [ms|].
  - assert (forall m t, In m ms -> In t (fixMod (map argNode (nodesA args)) m) -> covers t o = true -> W o = true) as K.
    { intros m t Hm Ht Hc; apply (S t); [| exact Hc]; apply in_union; right; apply in_flat_map; eauto. }
    destruct o as [x | a k].
    + eapply (K (MVar x) (SVar x)); [exact H | left; reflexivity | cbn; apply Nat.eqb_refl].
    + destruct H as [H | (n & l & H1 & H2 & H3)].
      * eapply (K (MArr a) (SElem a None)); [exact H | left; reflexivity | cbn; apply Nat.eqb_refl].
      * destruct (nth_arrays _ _ _ H2) as (e & A & -> & B).
        eapply (K (MDeref n) (SPtr (SArr a))); [exact H1 | | cbn; apply Nat.eqb_refl].
        cbn [fixMod]; rewrite nth_error_map, A; cbn [option_map argNode ref]; rewrite (named_ref e a (B N) H3); left; reflexivity.
  - destruct (S (SUncon f)) as [U _]; [apply in_insert; auto |]; apply (U eq_refl); destruct o; exact H.
Qed.

Definition cond (e : expr) : bool := named e && subscripted e.

Lemma every_unfold : forall P e, every P e = P e && match e with
  | Const _ | Var _ | Arr _ => true
  | Fetch _ e | Paren e | Un _ e => every P e
  | Bin _ e1 e2 | And e1 e2 | Or e1 e2 | Comma e1 e2 => every P e1 && every P e2
  | Cond p t f => every P p && every P t && every P f
  | Asg l e | AsgOp _ l e => everyL P l && every P e
  | Pre l | Post l => everyL P l
  | Call _ args => everys P args
  end.
Proof. intros P []; reflexivity. Qed.
Lemma everyL_unfold : forall P l, everyL P l = match l with LV _ => true | LF a i => P (Fetch a i) && every P i end.
Proof. intros P []; reflexivity. Qed.
Lemma everys_unfold : forall P es, everys P es = match es with ENil => true | ECons e r => every P e && everys P r end.
Proof. intros P []; reflexivity. Qed.

Ltac split_every H := rewrite every_unfold, ?andb_true_iff in H; decompose [and] H; clear H.
Ltac nodes := rewrite ?node_fetch, ?node_paren, ?node_un, ?node_bin, ?node_and, ?node_or, ?node_cond, ?node_comma,
      ?node_asg, ?node_asgop, ?node_pre, ?node_post, ?node_call, ?node_lf in *.
Ltac sub S := eapply setsok_incl; [| exact S]; intros ?s ?Hs;
   cbn [sets fetchNode unNode opNode condNode commaNode asgNode asgOpNode incNode];
   rewrite ?in_set, ?in_union; tauto.

(** Where the storage of an element is. *)
Lemma elem_covers : forall b i s k s' d, simple_value i = true -> ev i s k s' d ->
  covers (SElem b (val (nodeE i))) (OElem b k) = true.
Proof.
  intros b i s k s' d S R; cbn [covers]; destruct (val (nodeE i)) as [z|] eqn:V; rewrite Nat.eqb_refl; [| reflexivity].
  assert (k = z) as -> by (eapply known_ev; eauto); rewrite Z.eqb_refl; reflexivity.
Qed.
Lemma lval_covers : forall l s o s' d, everyL subscripted l = true -> evL l s o s' d ->
  exists t, ref (nodeL l) = Some t /\ covers t o = true /\ isUncon t = false.
Proof.
  intros [x | b i] s o s' d C H; rewrite everyL_unfold in C.
  - destruct H as (-> & _ & _); exists (SVar x); split; [reflexivity | split; [cbn; apply Nat.eqb_refl | reflexivity]].
  - apply andb_true_iff in C; destruct C as [C _]; destruct H as (k & H & ->).
    rewrite node_lf; exists (SElem b (val (nodeE i))); split; [reflexivity | split; [| reflexivity]].
    eapply elem_covers; eauto.
Qed.
(** The conditions on subscripts are needed to find the storage assigned to. *)
Definition placed (Sb : expr -> bool) : Prop := forall l, everyL Sb l = true -> (forall t, ref (nodeL l) = Some t -> okset t) ->
  forall s o s' d, evL l s o s' d -> W o = true.
Lemma placed_subscripted : placed subscripted.
Proof. intros l C K s o s' d H; destruct (lval_covers l s o s' d C H) as (t & E & Q & _); apply (K t E), Q. Qed.
Lemma placed_uniform : (forall b j k, W (OElem b j) = W (OElem b k)) -> forall Sb, placed Sb.
Proof.
  intros N Sb [x | b i] _ K s o s' d H.
  - destruct H as (-> & _); destruct (K (SVar x) eq_refl) as [_ Q]; apply Q; cbn; apply Nat.eqb_refl.
  - destruct (K (SElem b (val (nodeE i))) ltac:(rewrite node_lf; reflexivity)) as [_ Q].
    destruct H as (k & _ & ->); destruct (val (nodeE i)) as [z|].
    + rewrite (N b k z); apply Q; cbn [covers]; rewrite Nat.eqb_refl, Z.eqb_refl; reflexivity.
    + apply Q; cbn [covers]; apply Nat.eqb_refl.
Qed.

Lemma frame_all : forall Sb, placed Sb ->
  (forall e, every named e = true -> every Sb e = true -> setsok (sets (nodeE e)) -> fr W (ev e))
  /\ (forall l, everyL named l = true -> everyL Sb l = true -> setsok (sets (nodeL l)) -> fr W (evL l))
  /\ (forall es, everys named es = true -> everys Sb es = true ->
        (forall n, In n (nodesA es) -> setsok (sets n)) -> fr W (evs es)).
Proof.
  intros Sb T.
  apply expr_lval_exprs_ind.
  - intros z _ _ _; apply fr_give.
  - intros x _ _ _ s r s' d (_ & -> & ->) o _; split; [reflexivity | intros []].
  - intros b _ _ _; apply fr_give.
  - intros b i IH N C S; split_every N; split_every C; nodes.
    apply fr_mapr, fr_reading, fr_mapr, IH; auto.
  - intros e IH N C S; split_every N; split_every C; nodes; exact (IH H0 H2 S).
  - intros o e IH N C S; split_every N; split_every C; nodes; apply fr_mapr, IH; auto.
  - intros o e1 IH1 e2 IH2 N C S; split_every N; split_every C; nodes; apply fr_mapr, fr_either; [apply IH1 | apply IH2]; auto; sub S.
  - intros e1 IH1 e2 IH2 N C S; split_every N; split_every C; nodes; apply fr_after; [apply IH1; auto; sub S |].
    intros v; destruct (v =? 0); [apply fr_give | apply fr_mapr, IH2; auto; sub S].
  - intros e1 IH1 e2 IH2 N C S; split_every N; split_every C; nodes; apply fr_after; [apply IH1; auto; sub S |].
    intros v; destruct (v =? 0); [apply fr_mapr, IH2; auto; sub S | apply fr_give].
  - intros p IHp t IHt f IHf N C S; split_every N; split_every C; nodes; apply fr_after; [apply IHp; auto; sub S |].
    intros v; destruct (v =? 0); [apply IHf | apply IHt]; auto; sub S.
  - intros e1 IH1 e2 IH2 N C S; split_every N; split_every C; nodes; apply fr_after; [apply IH1; auto; sub S |].
    intros v; apply IH2; auto; sub S.
  - (* Asg *)
    intros l IHl e IH N C S; split_every N; split_every C; nodes.
    apply fr_mapr, fr_storing; [apply fr_either; [apply IHl | apply IH]; auto; sub S |].
    intros s r s' d [(s1 & d1 & d2 & A & _ & _) | (s1 & d1 & d2 & _ & A & _)];
      (eapply T; [| | exact A]; [assumption |]; intros t Ht; apply S; cbn [sets asgNode]; apply in_set; auto).
  - (* AsgOp *)
    intros o l IHl e IH N C S; split_every N; split_every C; nodes.
    apply fr_mapr, fr_storing; [apply fr_either; [apply fr_reading, IHl | apply IH]; auto; sub S |].
    intros s r s' d [(s1 & d1 & d2 & [A _] & _ & _) | (s1 & d1 & d2 & _ & [A _] & _)];
      (eapply T; [| | exact A]; [assumption |]; intros t Ht; apply S; cbn [sets asgOpNode]; apply in_set; auto).
  - intros l IHl N C S; split_every N; split_every C; nodes.
    apply fr_mapr, fr_storing; [apply fr_reading, IHl; auto; sub S |].
    intros s r s' d [A _]; (eapply T; [| | exact A]; [assumption |]; intros t Ht; apply S; cbn [sets incNode]; apply in_set; auto).
  - intros l IHl N C S; split_every N; split_every C; nodes.
    apply fr_mapr, fr_storing; [apply fr_reading, IHl; auto; sub S |].
    intros s r s' d [A _]; (eapply T; [| | exact A]; [assumption |]; intros t Ht; apply S; cbn [sets incNode]; apply in_set; auto).
  - (* Call *)
    intros f args IH N C S; split_every N; split_every C.
    apply fr_after.
    + apply IH; auto; intros n Hn; rewrite node_call in S; eapply setsok_incl; [| exact S]; intros s Hs.
      unfold Order_model.callNode; cbn [sets].
      assert (In s (fold_left union (map sets (map argNode (nodesA args))) [])) as X.
      { rewrite in_unions; right; exists (sets n); split; [| exact Hs].
        rewrite map_map; apply in_map_iff; exists n; auto. }
      destruct (mods (decl f)); [rewrite in_union | rewrite in_insert]; auto.
    + intros vs s r s' d (_ & -> & ->) o Ho; split; [| intros []].
      unfold stored; destruct (snd (body f args vs s) o) as [v|] eqn:E; [| reflexivity].
      rewrite (call_W f args o H S (proj1 (Honest f args vs s) o v E)) in Ho; discriminate.
  - intros x _ _ _; apply fr_give.
  - intros b i IH N C S; rewrite everyL_unfold, andb_true_iff in N, C; destruct N, C; nodes; apply fr_mapr, IH; auto.
  - intros _ _ _; apply fr_give.
  - intros e IH r IHr N C S; rewrite everys_unfold, andb_true_iff in N, C; destruct N, C; rewrite nodes_cons in S.
    apply fr_mapr, fr_either; [apply IH; auto; apply S; left; reflexivity | apply IHr; auto; intros n Hn; apply S; right; exact Hn].
Qed.

(** ** What has an influence *)
Variable R : obj -> bool.
Hypothesis Disj : forall o, R o = true -> W o = false.
Definition usesok (l : list sref) : Prop := forall s, In s l -> forall o, covers s o = true -> R o = true.
Lemma usesok_incl : forall l m, (forall s, In s m -> In s l) -> usesok l -> usesok m.
Proof. intros l m I H s Hs; apply H, I, Hs. Qed.

Lemma call_R : forall f args o, named (Call f args) = true -> listed decl (Call f args) = true ->
  usesok (uses (nodeE (Call f args))) -> may_read decl f args o -> R o = true.
Proof.
  intros f args o N G U H; cbn [named listed] in N, G; apply negb_true_iff in G; rewrite node_call in U.
  unfold Order_model.callNode in U; cbn [uses] in U.
  destruct o as [x | a k]; cbn [may_read] in H.
  - eapply (U (SVar x)); [| cbn; apply Nat.eqb_refl].
    apply in_union; right; apply in_unions; left; apply in_union; right.
    change (SVar x) with (globRef (GVar x)); apply in_map; exact H.
  - destruct H as [H | H].
    + exfalso; rewrite <- not_true_iff_false in G; apply G, existsb_exists; exists (GArr a); auto.
    + apply in_concat in H; destruct H as (l & Hl & Ha); apply In_nth_error in Hl; destruct Hl as (n & Hn).
      destruct (nth_arrays _ _ _ Hn) as (e & A & -> & B).
      eapply (U (SDer (SArr a))); [| cbn; apply Nat.eqb_refl].
      apply in_union; left; apply in_union; right; apply in_flat_map; exists (argNode (nodeE e)); split.
      * apply in_map; eapply nth_error_In; exact A.
      * cbn [argNode ref]; rewrite (named_ref e a (B N) Ha); left; reflexivity.
Qed.

Lemma uses_op1 : forall n1 n2 v s, In s (use (uses n1) (ref n1)) \/ In s (use (uses n2) (ref n2)) -> In s (uses (opNode n1 n2 v)).
Proof. intros n1 n2 v s; unfold opNode; cbn [uses]; rewrite !in_use, in_union, in_use; tauto. Qed.

Ltac subu U := eapply usesok_incl; [| exact U]; intros ?s ?Hs;
   cbn [uses ref fetchNode unNode opNode condNode commaNode asgNode asgOpNode incNode use];
   rewrite ?in_use, ?in_insert, ?in_union, ?in_use, ?in_union, ?in_use in *; tauto.
Lemma agree_all :
  (forall e, every named e = true -> every subscripted e = true -> every (listed decl) e = true -> setsok (sets (nodeE e)) ->
     usesok (use (uses (nodeE e)) (ref (nodeE e))) -> ag R (ev e))
  /\ (forall l, everyL named l = true -> everyL subscripted l = true -> everyL (listed decl) l = true -> setsok (sets (nodeL l)) ->
        usesok (uses (nodeL l)) -> ag R (evL l))
  /\ (forall es, everys named es = true -> everys subscripted es = true -> everys (listed decl) es = true ->
        (forall n, In n (nodesA es) -> setsok (sets n)) ->
        (forall n, In n (nodesA es) -> usesok (use (uses n) (ref n))) -> ag R (evs es)).
Proof.
  destruct (frame_all subscripted placed_subscripted) as (FE & FL & FA).
  assert (forall l, everyL subscripted l = true -> (forall t, ref (nodeL l) = Some t -> forall o, covers t o = true -> R o = true) ->
     forall s o s' d, evL l s o s' d -> R o = true) as T.
  { intros l C K s o s' d H; destruct (lval_covers l s o s' d C H) as (t & E & Q & _); apply (K t E), Q. }
  apply expr_lval_exprs_ind.
  - intros z _ _ _ _ _; apply ag_give.
  - intros x _ _ _ _ U sa sb xa xb sa' sb' da db H (-> & _) (-> & _).
    apply H; apply (U (SVar x)); [left; reflexivity | cbn; apply Nat.eqb_refl].
  - intros b _ _ _ _ _; apply ag_give.
  - intros b i IH N C G S U; split_every N; split_every C; split_every G; nodes.
    apply ag_mapr, ag_reading with (W := W); [exact Disj | apply fr_mapr, FE; auto | apply ag_mapr, IH; auto; subu U |].
    intros s o s' d (k & A & ->); apply (U (SElem b (val (nodeE i)))); [| eapply elem_covers; eauto].
    cbn [use fetchNode ref]; apply in_insert; auto.
  - intros e IH N C G S U; split_every N; split_every C; split_every G; nodes; apply IH; auto.
  - intros o e IH N C G S U; split_every N; split_every C; split_every G; nodes; apply ag_mapr, IH; auto.
  - intros o e1 IH1 e2 IH2 N C G S U; split_every N; split_every C; split_every G; nodes.
    apply ag_mapr, ag_either with (W := W); [exact Disj | apply FE; auto; sub S | apply FE; auto; sub S | apply IH1; auto; [sub S | subu U] | apply IH2; auto; [sub S | subu U]].
  - intros e1 IH1 e2 IH2 N C G S U; split_every N; split_every C; split_every G; nodes.
    apply ag_after with (W := W); [exact Disj | apply FE; auto; sub S | apply IH1; auto; [sub S | subu U] |].
    intros v; destruct (v =? 0); [apply ag_give | apply ag_mapr, IH2; auto; [sub S | subu U]].
  - intros e1 IH1 e2 IH2 N C G S U; split_every N; split_every C; split_every G; nodes.
    apply ag_after with (W := W); [exact Disj | apply FE; auto; sub S | apply IH1; auto; [sub S | subu U] |].
    intros v; destruct (v =? 0); [apply ag_mapr, IH2; auto; [sub S | subu U] | apply ag_give].
  - intros p IHp t IHt f IHf N C G S U; split_every N; split_every C; split_every G; nodes.
    apply ag_after with (W := W); [exact Disj | apply FE; auto; sub S | apply IHp; auto; [sub S | subu U] |].
    intros v; destruct (v =? 0); [apply IHf | apply IHt]; auto; first [sub S | subu U].
  - intros e1 IH1 e2 IH2 N C G S U; split_every N; split_every C; split_every G; nodes.
    apply ag_after with (W := W); [exact Disj | apply FE; auto; sub S | apply IH1; auto; [sub S | subu U] |].
    intros v; apply IH2; auto; [sub S | subu U].
  - (* Asg *)
    intros l IHl e IH N C G S U; split_every N; split_every C; split_every G; nodes.
    apply ag_mapr, ag_storing, ag_either with (W := W);
      [exact Disj | apply FL; auto; sub S | apply FE; auto; sub S | apply IHl; auto; [sub S | subu U] | apply IH; auto; [sub S | subu U]].
  - (* AsgOp *)
    intros o l IHl e IH N C G S U; split_every N; split_every C; split_every G; nodes.
    apply ag_mapr, ag_storing, ag_either with (W := W);
      [exact Disj | apply fr_reading, FL; auto; sub S | apply FE; auto; sub S | | apply IH; auto; [sub S | subu U]].
    apply ag_reading with (W := W); [exact Disj | apply FL; auto; sub S | apply IHl; auto; [sub S | subu U] |].
    apply T; [assumption |]; intros t Ht p Hp; apply (U t); [| exact Hp]; apply in_use; auto.
  - intros l IHl N C G S U; split_every N; split_every C; split_every G; nodes.
    apply ag_mapr, ag_storing, ag_reading with (W := W); [exact Disj | apply FL; auto; sub S | apply IHl; auto; [sub S | subu U] |].
    apply T; [assumption |]; intros t Ht p Hp; apply (U t); [| exact Hp]; cbn [incNode uses ref use]; apply in_use; auto.
  - intros l IHl N C G S U; split_every N; split_every C; split_every G; nodes.
    apply ag_mapr, ag_storing, ag_reading with (W := W); [exact Disj | apply FL; auto; sub S | apply IHl; auto; [sub S | subu U] |].
    apply T; [assumption |]; intros t Ht p Hp; apply (U t); [| exact Hp]; cbn [incNode uses ref use]; apply in_use; auto.
  - (* Call *)
    intros f args IH N C G S U; split_every N; split_every C; split_every G.
    assert (usesok (uses (nodeE (Call f args)))) as U' by (eapply usesok_incl; [| exact U]; intros s Hs; apply in_use; auto).
    assert (forall n, In n (nodesA args) -> setsok (sets n)) as S'.
    { intros n Hn; rewrite node_call in S; eapply setsok_incl; [| exact S]; intros s Hs.
      unfold Order_model.callNode; cbn [sets].
      assert (In s (fold_left union (map sets (map argNode (nodesA args))) [])) as X.
      { rewrite in_unions; right; exists (sets n); split; [| exact Hs].
        rewrite map_map; apply in_map_iff; exists n; auto. }
      destruct (mods (decl f)); [rewrite in_union | rewrite in_insert]; auto. }
    apply ag_after with (W := W); [exact Disj | apply FA; auto | apply IH; auto |].
    + intros n Hn; eapply usesok_incl; [| exact U']; intros s Hs; rewrite node_call; unfold Order_model.callNode; cbn [uses].
      apply in_union; right; apply in_unions; right; exists (uses (argNode n)); split; [| exact Hs].
      apply in_map, in_map; exact Hn.
    + intros vs sa sb xa xb sa' sb' da db E (-> & _) (-> & _).
      apply (Honest f args vs sa); intros o Ho; apply E; eapply call_R; eauto.
  - intros x _ _ _ _ _; apply ag_give.
  - intros b i IH N C G S U; rewrite everyL_unfold, andb_true_iff in N, C, G; destruct N, C, G; nodes.
    apply ag_mapr, IH; auto; subu U.
  - intros _ _ _ _ _; apply ag_give.
  - intros e IH r IHr N C G S U; rewrite everys_unfold, andb_true_iff in N, C, G; destruct N, C, G; rewrite nodes_cons in S, U.
    apply ag_mapr, ag_either with (W := W); [exact Disj | apply FE; auto; apply S; left; reflexivity
      | apply FA; auto; intros n Hn; apply S; right; exact Hn | apply IH; auto; [apply S | apply U]; left; reflexivity
      | apply IHr; auto; intros n Hn; [apply S | apply U]; right; exact Hn].
Qed.
End Eff.
