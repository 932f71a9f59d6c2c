(** * Proofs about scopes *)
From Coq Require Import Arith List Bool Lia.
From Verif Require Import Scope_model Scope_spec.
Import ListNotations.

(** ** Entries *)

Definition orP (P : nat -> bool) (e : entry) : entry := orU (P (eid e)) e.
Definition mapU (P : nat -> bool) (l : list entry) : list entry := map (orP P) l.

Lemma orU_id : forall e b, (b = true -> used e = true) -> orU b e = e.
Proof. intros [n i u] b H; unfold orU; cbn in *; destruct b; [rewrite H by reflexivity|]; reflexivity. Qed.
Lemma orU_orU : forall a b e, orU b (orU a e) = orU (a || b) e.
Proof. intros a b [n i u]; unfold orU; cbn; destruct a, b, u; reflexivity. Qed.
Lemma orP_orP : forall P Q e, orP Q (orP P e) = orP (fun i => P i || Q i) e.
Proof. intros; unfold orP; cbn [eid orU]; rewrite <- orU_orU; reflexivity. Qed.
Lemma mapU_mapU : forall P Q l, mapU Q (mapU P l) = mapU (fun i => P i || Q i) l.
Proof. intros; unfold mapU; rewrite map_map; apply map_ext; intro; apply orP_orP. Qed.
Lemma mapU_names : forall P l, map ename (mapU P l) = map ename l.
Proof. intros; unfold mapU; rewrite map_map; reflexivity. Qed.
Lemma mapU_ids : forall P l, map eid (mapU P l) = map eid l.
Proof. intros; unfold mapU; rewrite map_map; reflexivity. Qed.
Lemma mapU_ext : forall P Q l, (forall e, In e l -> orP P e = orP Q e) -> mapU P l = mapU Q l.
Proof. intros; apply map_ext_in; auto. Qed.
Lemma mapU_id : forall P l, (forall e, In e l -> P (eid e) = true -> used e = true) -> mapU P l = l.
Proof.
  intros P l H; unfold mapU; rewrite <- (map_id l) at 2; apply map_ext_in; intros e He.
  apply orU_id; auto.
Qed.

Lemma getE_name : forall l k e, getE l k = Some e -> ename e = k /\ In e l.
Proof.
  induction l as [|a l IH]; cbn; intros k e H; [discriminate|].
  destruct (Nat.eqb_spec (ename a) k); [injection H as <-; auto|].
  destruct (IH k e H); auto.
Qed.
Lemma getE_none : forall l k, getE l k = None <-> ~ In k (map ename l).
Proof.
  induction l as [|a l IH]; cbn; intro k; [tauto|].
  destruct (Nat.eqb_spec (ename a) k); split; intro H; try discriminate; try tauto.
  - intros [E|E]; [tauto|]; apply IH in H; tauto.
  - apply IH; tauto.
Qed.
Lemma getE_in : forall l e, NoDup (map ename l) -> In e l -> getE l (ename e) = Some e.
Proof.
  induction l as [|a l IH]; cbn; intros e Hn He; [tauto|].
  apply NoDup_cons_iff in Hn; destruct Hn as [Hn Hd].
  destruct (Nat.eqb_spec (ename a) (ename e)) as [E|E].
  - destruct He as [->|He]; [reflexivity|]. destruct Hn; rewrite E; apply in_map; exact He.
  - destruct He as [->|He]; [tauto|]; auto.
Qed.
Lemma getE_mapU : forall P l k, getE (mapU P l) k = option_map (orP P) (getE l k).
Proof.
  induction l as [|a l IH]; cbn; intro k; [reflexivity|].
  destruct (Nat.eqb (ename a) k); [reflexivity|apply IH].
Qed.
Lemma getE_app : forall l m k,
  getE (l ++ m) k = match getE l k with Some e => Some e | None => getE m k end.
Proof.
  induction l as [|a l IH]; cbn; intros m k; [reflexivity|]. destruct (Nat.eqb (ename a) k); auto.
Qed.
Lemma getE_setE : forall f, (forall e, ename (f e) = ename e) -> forall l k k',
  getE (setE l k f) k' = if Nat.eqb k k' then option_map f (getE l k) else getE l k'.
Proof.
  intros f Hf; induction l as [|a l IH]; cbn; intros k k'; [destruct (Nat.eqb k k'); reflexivity|].
  destruct (Nat.eqb_spec (ename a) k); cbn; [rewrite Hf|rewrite IH];
    destruct (Nat.eqb_spec (ename a) k'), (Nat.eqb_spec k k'); subst; try reflexivity; try congruence.
Qed.
Lemma setE_names : forall f, (forall e, ename (f e) = ename e) -> forall l k,
  map ename (setE l k f) = map ename l.
Proof.
  intros f Hf; induction l as [|a l IH]; cbn; intro k; [reflexivity|].
  destruct (Nat.eqb (ename a) k); cbn; [rewrite Hf|rewrite IH]; reflexivity.
Qed.
Lemma setE_in : forall f l k e, In e (setE l k f) -> In e l \/ exists a, getE l k = Some a /\ e = f a.
Proof.
  intros f; induction l as [|a l IH]; cbn; intros k e; [tauto|].
  destruct (Nat.eqb_spec (ename a) k); cbn; intros [<-|H]; eauto.
  destruct (IH k e H) as [|[b ?]]; eauto.
Qed.
Lemma setE_ext : forall f g l k e, getE l k = Some e -> f e = g e -> setE l k f = setE l k g.
Proof.
  induction l as [|a l IH]; cbn; intros k e H E; [reflexivity|].
  destruct (Nat.eqb (ename a) k); [injection H as <-; rewrite E; reflexivity|].
  rewrite (IH k e) by assumption; reflexivity.
Qed.

(** ** Scopes of a stack *)

Definition isNormal (t : tab) : bool := match tkind t with KNormal => true | _ => false end.
Definition pairs (l : list entry) : scope := map (fun e => (ename e, eid e)) l.
Definition scopes (s : list tab) : list scope := map (fun t => pairs (entries t)) (filter isNormal s).
Definition sids (s : list tab) : list nat := map snd (concat (scopes s)).

Definition wfB (t : tab) (r : list tab) : Prop :=
  NoDup (map ename (entries t)) /\
  forall e, In e (entries t) ->
    exists o, look (dropMode t) r (ename e) = Some o /\ eid o = eid e /\ (used o = true -> used e = true).
Definition wfT (t : tab) (r : list tab) : Prop :=
  match tkind t with
  | KNormal => NoDup (map ename (entries t)) /\ NoDup (map eid (entries t)) /\
               forall e, In e (entries t) -> ~ In (eid e) (sids r)
  | KSwitch => entries t = nil
  | KFalse => (exists u v, r = u :: v /\ tkind u = KTrue) /\ wfB t r
  | _ => wfB t r
  end.
Fixpoint wf (s : list tab) : Prop := match s with nil => True | t :: r => wf r /\ wfT t r end.

Lemma wfB_of : forall t r, copies t = true -> wfT t r -> wfB t r.
Proof. intros [[] es] r; unfold wfT, copies; cbn; intros E H; try discriminate; tauto. Qed.

Lemma inScope_pairs : forall l k, inScope (pairs l) k = option_map eid (getE l k).
Proof. induction l as [|a l IH]; cbn; intro k; [reflexivity|]. destruct (Nat.eqb (ename a) k); auto. Qed.

Lemma look_name : forall s m k e, look m s k = Some e -> ename e = k.
Proof.
  induction s as [|t r IH]; cbn; intros m k e H; [discriminate|].
  assert (W : (match getE (entries t) k with Some e => Some e | None => look (dropMode t) r k end)
              = Some e -> ename e = k).
  { destruct (getE (entries t) k) eqn:G; intro E; [injection E as <-; exact (proj1 (getE_name _ _ _ G))|eauto]. }
  destruct m; [auto| |eauto]. destruct (isCase t); eauto.
Qed.

Lemma look_resolve : forall s m k, wf s ->
  (m = SkipOne -> exists u v, s = u :: v /\ tkind u = KTrue) ->
  option_map eid (look m s k) = resolve (scopes s) k.
Proof.
  induction s as [|t r IH]; intros m k Hw Hm; [reflexivity|].
  destruct Hw as [Hr Ht].
  assert (C : copies t = true -> scopes (t :: r) = scopes r)
    by (unfold scopes, isNormal, copies; cbn; destruct (tkind t); congruence).
  assert (W : option_map eid (match getE (entries t) k with Some e => Some e | None => look (dropMode t) r k end)
              = resolve (scopes (t :: r)) k).
  { assert (D : option_map eid (look (dropMode t) r k) = resolve (scopes r) k).
    { apply IH; [assumption|]. unfold dropMode; destruct (tkind t) eqn:K; try discriminate.
      intros _; unfold wfT in Ht; rewrite K in Ht; exact (proj1 Ht). }
    destruct (copies t) eqn:Ec.
    - rewrite (C eq_refl), <- D.
      destruct (getE (entries t) k) as [e|] eqn:G; [|reflexivity].
      destruct (wfB_of t r Ec Ht) as [_ Hb]. destruct (getE_name _ _ _ G) as [Hn Hi].
      destruct (Hb e Hi) as (o & Ho & He & _). rewrite Hn in Ho; rewrite Ho; cbn; rewrite He; reflexivity.
    - unfold scopes at 1, isNormal. unfold wfT in Ht. unfold copies in Ec. destruct (tkind t) eqn:K; try discriminate.
      + cbn [filter]. rewrite K. cbn [map resolve]. rewrite inScope_pairs.
        destruct (getE (entries t) k); cbn; [reflexivity|exact D].
      + cbn [filter]. rewrite K, Ht. cbn. exact D. }
  destruct m; cbn [look]; [exact W| |].
  - destruct (isCase t) eqn:K; [|exact W].
    rewrite C by (unfold copies; unfold isCase in K; destruct (tkind t); congruence).
    apply IH; [assumption|discriminate].
  - destruct (Hm eq_refl) as (u & v & E & K); injection E as -> ->.
    rewrite C by (unfold copies; rewrite K; reflexivity). apply IH; [assumption|discriminate].
Qed.

Lemma quiet_resolve : forall s k, wf s -> option_map eid (quiet s k) = resolve (scopes s) k.
Proof.
  induction s as [|t r IH]; intros k Hw; [reflexivity|]. destruct Hw as [Hr Ht]. cbn [quiet].
  destruct (copies t) eqn:Ec.
  - assert (C : scopes (t :: r) = scopes r)
      by (unfold scopes, isNormal; unfold copies in Ec; cbn; destruct (tkind t); congruence).
    rewrite C. destruct (getE (entries t) k) as [e|] eqn:G; [|auto].
    destruct (wfB_of t r Ec Ht) as [_ Hb]. destruct (getE_name _ _ _ G) as [Hn Hi].
    destruct (Hb e Hi) as (o & Ho & He & _). cbn. rewrite <- He.
    rewrite <- (look_resolve r (dropMode t) k Hr).
    + rewrite Hn in Ho; rewrite Ho; reflexivity.
    + unfold dropMode; destruct (tkind t) eqn:K; try discriminate.
      intros _; unfold wfT in Ht; rewrite K in Ht; exact (proj1 Ht).
  - unfold scopes, isNormal. unfold wfT in Ht. unfold copies in Ec. cbn [filter].
    destruct (tkind t) eqn:K; try discriminate.
    + cbn [map resolve]. rewrite inScope_pairs.
      destruct (getE (entries t) k); cbn; [reflexivity|apply IH; exact Hr].
    + rewrite Ht; cbn; apply IH; exact Hr.
Qed.

Lemma resolve_in : forall env k i, resolve env k = Some i -> In (k, i) (concat env).
Proof.
  induction env as [|sc env IH]; cbn; intros k i H; [discriminate|].
  apply in_or_app. destruct (inScope sc k) eqn:E; [left|right; auto].
  injection H as <-. clear - E. induction sc as [|[y d] sc IH]; cbn in *; [discriminate|].
  destruct (Nat.eqb_spec y k); [injection E as <-; subst; auto|auto].
Qed.
Lemma sids_cons : forall t r, isNormal t = true -> sids (t :: r) = map eid (entries t) ++ sids r.
Proof.
  intros t r H; unfold sids, scopes, pairs; cbn; rewrite H; cbn. rewrite map_app, map_map; reflexivity.
Qed.
Lemma sids_skip : forall t r, isNormal t = false -> sids (t :: r) = sids r.
Proof. intros t r H; unfold sids, scopes; cbn; rewrite H; reflexivity. Qed.
Lemma NoDup_app_intro : forall (A : Type) (a b : list A), NoDup a -> NoDup b ->
  (forall x, In x a -> ~ In x b) -> NoDup (a ++ b).
Proof.
  induction a as [|x a IH]; cbn; intros b Ha Hb H; [assumption|].
  apply NoDup_cons_iff in Ha; constructor; [rewrite in_app_iff|apply IH]; firstorder.
Qed.
Lemma sids_nodup : forall s, wf s -> NoDup (sids s).
Proof.
  induction s as [|t r IH]; intro H; [constructor|]. destruct H as [Hr Ht].
  destruct (isNormal t) eqn:N; [rewrite sids_cons by assumption|rewrite sids_skip by assumption; auto].
  unfold isNormal in N; unfold wfT in Ht; destruct (tkind t); try discriminate.
  destruct Ht as (_ & H2 & H3). apply NoDup_app_intro; auto.
  intros x Hx; apply in_map_iff in Hx; destruct Hx as (e & <- & He); auto.
Qed.
Lemma nodup_snd_inj : forall (l : list (nat * nat)) a b i,
  NoDup (map snd l) -> In (a, i) l -> In (b, i) l -> a = b.
Proof.
  induction l as [|[x j] l IH]; cbn; intros a b i Hd Ha Hb; [tauto|].
  apply NoDup_cons_iff in Hd; destruct Hd as [Hn Hd].
  destruct Ha as [Ea|Ha], Hb as [Eb|Hb]; try congruence; eauto.
  - injection Ea as -> ->. destruct Hn; apply (in_map snd) in Hb; exact Hb.
  - injection Eb as -> ->. destruct Hn; apply (in_map snd) in Ha; exact Ha.
Qed.

(** What is seen from the top of a stack. *)
Lemma vis : forall s k e, wf s -> look Here s k = Some e -> resolve (scopes s) k = Some (eid e).
Proof. intros s k e Hw H; rewrite <- (look_resolve s Here k Hw) by discriminate; rewrite H; reflexivity. Qed.
Lemma vis_in : forall s k i, resolve (scopes s) k = Some i -> In i (sids s).
Proof. intros s k i H; apply resolve_in in H; unfold sids; apply (in_map snd) in H; exact H. Qed.
Lemma vis_inj : forall s k k' i, wf s ->
  resolve (scopes s) k = Some i -> resolve (scopes s) k' = Some i -> k = k'.
Proof.
  intros s k k' i Hw H H'; apply resolve_in in H; apply resolve_in in H'.
  exact (nodup_snd_inj _ _ _ _ (sids_nodup s Hw) H H').
Qed.
Lemma look_inj : forall s k k' e e', wf s -> look Here s k = Some e -> look Here s k' = Some e' ->
  eid e = eid e' -> k = k' /\ e = e'.
Proof.
  intros s k k' e e' Hw H H' E. apply vis in H as V; [|assumption]. apply vis in H' as V'; [|assumption].
  rewrite E in V. assert (k = k') by (eapply vis_inj; eauto). subst; split; congruence.
Qed.

(** ** Changes of a stack: the marks of the entries chosen by [P] are set *)

Definition hereOf (es : list entry) (m : mode) (r : list tab) (k : nat) : option entry :=
  match getE es k with Some e => Some e | None => look m r k end.

Lemma look_Here : forall t r k, look Here (t :: r) k = hereOf (entries t) (dropMode t) r k.
Proof. reflexivity. Qed.

Inductive upd (P : nat -> bool) : list tab -> list tab -> Prop :=
| upd_nil : upd P nil nil
| upd_pass : forall t r r', copies t = false -> upd P r r' ->
    upd P (t :: r) (Tab (tkind t) (mapU P (entries t)) :: r')
| upd_copy : forall t es r, copies t = true -> wfB (Tab (tkind t) es) r ->
    (forall k, hereOf es (dropMode t) r k = option_map (orP P) (hereOf (entries t) (dropMode t) r k)) ->
    upd P (t :: r) (Tab (tkind t) es :: r).

Lemma scopes_cons : forall t r, scopes (t :: r) = if isNormal t then pairs (entries t) :: scopes r else scopes r.
Proof. intros t r; unfold scopes; cbn [filter]; destruct (isNormal t); reflexivity. Qed.
Lemma pairs_mapU : forall P l, pairs (mapU P l) = pairs l.
Proof. intros; unfold pairs, mapU; rewrite map_map; reflexivity. Qed.
Lemma upd_scopes : forall P s s', upd P s s' -> scopes s' = scopes s.
Proof.
  induction 1 as [|t r r' Hc Hu IH|t es r Hc Hb Hk]; [reflexivity| |]; rewrite !scopes_cons; unfold isNormal; cbn [tkind entries].
  - rewrite IH, pairs_mapU; reflexivity.
  - unfold copies in Hc; destruct (tkind t); try discriminate; reflexivity.
Qed.
Lemma upd_sids : forall P s s', upd P s s' -> sids s' = sids s.
Proof. intros P s s' H; unfold sids; rewrite (upd_scopes _ _ _ H); reflexivity. Qed.
Lemma upd_wf : forall P s s', upd P s s' -> wf s -> wf s'.
Proof.
  induction 1 as [|t r r' Hc Hu IH|t es r Hc Hb Hk]; [auto| |]; intros [Hr Ht]; split; auto.
  - unfold wfT in *; cbn [tkind entries]; unfold copies in Hc; destruct (tkind t) eqn:K; try discriminate.
    + rewrite mapU_names, mapU_ids. destruct Ht as (H1 & H2 & H3); split; [|split]; auto.
      intros e He. unfold mapU in He; apply in_map_iff in He; destruct He as (a & <- & Ha).
      rewrite (upd_sids _ _ _ Hu). exact (H3 a Ha).
    + rewrite Ht; reflexivity.
  - unfold wfT in *; cbn [tkind]; unfold copies in Hc; destruct (tkind t) eqn:K; try discriminate; try exact Hb.
    split; [exact (proj1 Ht)|exact Hb].
Qed.
Lemma upd_look : forall P s s' k, upd P s s' -> look Here s' k = option_map (orP P) (look Here s k).
Proof.
  intros P s s' k H; induction H as [|t r r' Hc Hu IH|t es r Hc Hb Hk]; [reflexivity| |].
  - cbn [look entries]. rewrite getE_mapU. destruct (getE (entries t) k); [reflexivity|].
    unfold dropMode in *; cbn [tkind]; unfold copies in Hc; destruct (tkind t); try discriminate; exact IH.
  - exact (Hk k).
Qed.
Lemma upd_trans : forall P Q s s1 s2, upd P s s1 -> upd Q s1 s2 -> upd (fun i => P i || Q i) s s2.
Proof.
  intros P Q s s1 s2 H; revert s2; induction H as [|t r r' Hc Hu IH|t es r Hc Hb Hk]; intros s2 H2; inversion H2; subst.
  - constructor.
  - cbn [tkind entries]. rewrite mapU_mapU. apply upd_pass; auto.
  - unfold copies in *; cbn in *; congruence.
  - unfold copies in *; cbn in *; congruence.
  - cbn [tkind entries] in *. apply upd_copy; auto.
    intro k. match goal with H : forall k, hereOf _ (dropMode (Tab _ _)) _ k = _ |- _ =>
      change (dropMode (Tab (tkind t) es)) with (dropMode t) in H; rewrite (H k) end.
    rewrite (Hk k). destruct (hereOf (entries t) (dropMode t) r k); [|reflexivity].
    cbn [option_map]; rewrite orP_orP; reflexivity.
Qed.

(** Only entries which are seen and not yet marked matter. *)
Definition same (P Q : nat -> bool) (s : list tab) : Prop :=
  forall i, In i (sids s) -> P i = Q i \/ exists k o, look Here s k = Some o /\ eid o = i /\ used o = true.

Lemma same_orP : forall P Q s k o, wf s -> same P Q s -> look Here s k = Some o -> orP P o = orP Q o.
Proof.
  intros P Q s k o Hw Hs H. pose proof (vis _ _ _ Hw H) as V.
  destruct (Hs (eid o) (vis_in _ _ _ V)) as [E|(k' & o' & H' & E & U)].
  - unfold orP; rewrite E; reflexivity.
  - destruct (look_inj s k k' o o' Hw H H' (eq_sym E)) as [_ ->].
    unfold orP; rewrite !orU_id; auto.
Qed.
Lemma same_tail : forall P Q t r, wf (t :: r) -> copies t = false -> same P Q (t :: r) -> same P Q r.
Proof.
  intros P Q t r [Hr Ht] Hc Hs i Hi.
  assert (Hi' : In i (sids (t :: r))).
  { destruct (isNormal t) eqn:N; [rewrite sids_cons by assumption; apply in_or_app; auto
                                 |rewrite sids_skip by assumption; assumption]. }
  destruct (Hs i Hi') as [E|(k & o & Hl & E & U)]; [auto|right; exists k, o; split; [|auto]].
  cbn [look] in Hl. unfold dropMode, copies in *. unfold wfT in Ht.
  destruct (getE (entries t) k) as [e|] eqn:G; [exfalso|].
  - injection Hl as ->. destruct (getE_name _ _ _ G) as [_ Hin].
    destruct (tkind t); try discriminate; [|rewrite Ht in Hin; exact Hin].
    destruct Ht as (_ & _ & H3). apply (H3 o Hin). rewrite E; exact Hi.
  - destruct (tkind t); try discriminate; exact Hl.
Qed.
Lemma upd_same : forall P Q s s', wf s -> upd P s s' -> same P Q s -> upd Q s s'.
Proof.
  intros P Q s s' Hw H; induction H as [|t r r' Hc Hu IH|t es r Hc Hb Hk]; intro Hs; [constructor| |].
  - rewrite (mapU_ext P Q).
    + apply upd_pass; [assumption|]. apply IH; [exact (proj1 Hw)|eapply same_tail; eauto].
    + intros e He. destruct Hw as [Hr Ht].
      assert (G : getE (entries t) (ename e) = Some e).
      { apply getE_in; [|assumption]. unfold wfT in Ht; unfold copies in Hc; destruct (tkind t); try discriminate; [tauto|rewrite Ht in He; destruct He]. }
      apply (same_orP P Q (t :: r) (ename e)); [split; assumption|assumption|].
      cbn [look]; rewrite G; reflexivity.
  - apply upd_copy; [assumption|assumption|]. intro k. rewrite (Hk k).
    destruct (hereOf (entries t) (dropMode t) r k) as [o|] eqn:E; [|reflexivity]. cbn [option_map]. f_equal.
    exact (same_orP P Q (t :: r) k o Hw Hs E).
Qed.
Lemma upd_ext : forall P Q s s', wf s -> upd P s s' -> (forall i, In i (sids s) -> P i = Q i) -> upd Q s s'.
Proof. intros P Q s s' Hw H E; apply (upd_same P Q s s' Hw H); intros i Hi; left; auto. Qed.
Lemma upd_all : forall P Q s s', (forall i, P i = Q i) -> upd P s s' -> upd Q s s'.
Proof.
  intros P Q s s' E H.
  assert (O : forall e, orP P e = orP Q e) by (intro e; unfold orP; rewrite E; reflexivity).
  induction H as [|t r r' Hc Hu IH|t es r Hc Hb Hk]; [constructor| |].
  - rewrite (mapU_ext P Q) by auto. apply upd_pass; assumption.
  - apply upd_copy; [assumption|assumption|]. intro k; rewrite Hk.
    destruct (hereOf (entries t) (dropMode t) r k); [cbn [option_map]; rewrite O|]; reflexivity.
Qed.
Lemma upd_refl : forall P s, wf s -> (forall i, In i (sids s) -> P i = false) -> upd P s s.
Proof.
  intros P s; induction s as [|t r IH]; intros Hw Hp; [constructor|]. destruct Hw as [Hr Ht].
  assert (Hi : forall i, In i (sids r) -> P i = false).
  { intros i Hi; apply Hp. destruct (isNormal t) eqn:N; [rewrite sids_cons by assumption; apply in_or_app; auto
                                 |rewrite sids_skip by assumption; assumption]. }
  destruct (copies t) eqn:Hc.
  - destruct t as [k es]. apply (upd_copy P (Tab k es) es r Hc); [apply wfB_of; auto|].
    intro x. destruct (hereOf (entries (Tab k es)) (dropMode (Tab k es)) r x) as [o|] eqn:E; cbn [entries] in *; rewrite E; [|reflexivity].
    cbn [option_map]; f_equal. symmetry; apply orU_id. rewrite Hp; [discriminate|].
    apply (vis_in (Tab k es :: r) x). apply vis; [split; assumption|exact E].
  - destruct t as [k es].
    assert (E : mapU P es = es).
    { apply mapU_id; intros e He; unfold wfT in Ht; unfold copies in Hc; cbn [tkind entries] in *; destruct k; try discriminate.
      - rewrite Hp; [discriminate|]. rewrite sids_cons by reflexivity. apply in_or_app; left; apply in_map; exact He.
      - rewrite Ht in He; destruct He. }
    pose proof (upd_pass P (Tab k es) r r Hc (IH Hr Hi)) as U. cbn [tkind entries] in U. rewrite E in U; exact U.
Qed.

(** ** Looking up a name *)

Definition only (b : bool) (j i : nat) : bool := b && Nat.eqb i j.

Lemma only_false : forall b j i, i <> j -> only b j i = false.
Proof. intros b j i H; unfold only; destruct (Nat.eqb_spec i j); [tauto|apply andb_false_r]. Qed.
Lemma only_same : forall b j, only b j j = b.
Proof. intros; unfold only; rewrite Nat.eqb_refl; apply andb_true_r. Qed.

Lemma touch_some : forall s k f b e, wf s -> look Here s k = Some e ->
  (forall a, ename (f a) = ename a) -> f e = orU b e ->
  exists s', touch s k f = (s', Some e) /\ upd (only b (eid e)) s s'.
Proof.
  induction s as [|t r IH]; intros k f b e Hw Hl Hn Hf; [discriminate|].
  pose proof Hw as Hw0. destruct Hw as [Hr Ht]. cbn [touch].
  pose proof (vis _ _ _ Hw0 Hl) as V.
  assert (O : forall k' o, k' <> k -> look Here (t :: r) k' = Some o -> orP (only b (eid e)) o = o).
  { intros k' o Hk Ho. apply orU_id. rewrite only_false; [discriminate|].
    intro E. destruct (look_inj (t :: r) k' k o e Hw0 Ho Hl E); tauto. }
  cbn [look] in Hl. destruct (getE (entries t) k) as [e0|] eqn:G.
  - injection Hl as ->. destruct (getE_name _ _ _ G) as [Hne Hie].
    eexists; split; [reflexivity|]. destruct (copies t) eqn:Hc.
    + destruct (wfB_of t r Hc Ht) as [Hd Hb]. apply upd_copy; [assumption| |].
      * split; cbn [entries]; [rewrite setE_names by assumption; assumption|].
        intros a Ha. apply setE_in in Ha. destruct Ha as [Ha|(a0 & Ga & ->)]; [exact (Hb a Ha)|].
        rewrite G in Ga; injection Ga as <-. rewrite Hf. destruct (Hb e Hie) as (o & Ho & Hi & Hu).
        exists o; split; [exact Ho|split; [exact Hi|]]. intro U; cbn; rewrite (Hu U); apply orb_true_r.
      * intro k'. unfold hereOf. rewrite getE_setE by assumption. destruct (Nat.eqb_spec k k') as [<-|Hk].
        -- rewrite G; cbn [option_map]. rewrite Hf. unfold orP; rewrite only_same; reflexivity.
        -- assert (L := O k'). cbn [look] in L.
           destruct (match getE (entries t) k' with Some e1 => Some e1 | None => look (dropMode t) r k' end) as [o|] eqn:E; [|reflexivity].
           cbn [option_map]. rewrite (L o); auto.
    + assert (N : tkind t = KNormal).
      { unfold wfT in Ht; unfold copies in Hc; destruct (tkind t); try discriminate; [reflexivity|rewrite Ht in Hie; destruct Hie]. }
      unfold wfT in Ht; rewrite N in Ht; destruct Ht as (H1 & H2 & H3).
      assert (E : setE (entries t) k f = mapU (only b (eid e)) (entries t)).
      { rewrite (setE_ext f (orU b) _ _ e G Hf). clear - G H2. revert G H2.
        induction (entries t) as [|a l IHl]; cbn; intros G H2; [reflexivity|].
        apply NoDup_cons_iff in H2; destruct H2 as [Hi H2].
        destruct (Nat.eqb (ename a) k).
        - injection G as ->. f_equal; [unfold orP; rewrite only_same; reflexivity|].
          symmetry; apply mapU_id. intros a Ha. rewrite only_false; [discriminate|].
          intro E; apply Hi; rewrite <- E; apply in_map; exact Ha.
        - f_equal; [|auto]. symmetry; apply orU_id. rewrite only_false; [discriminate|].
          intro E; apply Hi; rewrite E; apply in_map. exact (proj2 (getE_name _ _ _ G)). }
      rewrite E. apply upd_pass; [assumption|]. apply upd_refl; [assumption|].
      intros i Hi; apply only_false; intros ->. exact (H3 e Hie Hi).
  - destruct (copies t) eqn:Hc.
    + rewrite Hl. eexists; split; [reflexivity|]. destruct (wfB_of t r Hc Ht) as [Hd Hb].
      pose proof (look_name _ _ _ _ Hl) as Hne.
      assert (Hfe : ename (f e) = k) by (rewrite Hn; exact Hne).
      apply upd_copy; [assumption| |].
      * split; cbn [entries].
        -- rewrite map_app; cbn [map]. rewrite Hfe. apply getE_none in G.
           apply NoDup_app_intro; [assumption|repeat constructor; auto|].
           intros x Hx [<-|[]]; tauto.
        -- intros a Ha. apply in_app_or in Ha. destruct Ha as [Ha|[<-|[]]]; [exact (Hb a Ha)|].
           exists e. rewrite Hfe. split; [exact Hl|]. rewrite Hf; split; [reflexivity|].
           intro U; cbn; rewrite U; apply orb_true_r.
      * intro k'. unfold hereOf. rewrite getE_app. destruct (Nat.eq_dec k' k) as [->|Hk].
        -- rewrite G. cbn [getE]. rewrite Hfe, Nat.eqb_refl, Hl; cbn [option_map].
           rewrite Hf. unfold orP; rewrite only_same; reflexivity.
        -- assert (L := O k'). cbn [look] in L. destruct (getE (entries t) k') as [o|] eqn:E.
           ++ cbn [option_map]; rewrite (L o); auto.
           ++ cbn [getE]. rewrite Hfe. destruct (Nat.eqb_spec k k'); [congruence|].
              destruct (look (dropMode t) r k') as [o|] eqn:E'; [|reflexivity].
              cbn [option_map]; rewrite (L o); auto.
    + assert (D : dropMode t = Here) by (unfold copies in Hc; unfold dropMode; destruct (tkind t); try discriminate; reflexivity).
      rewrite D in Hl. destruct (IH k f b e Hr Hl Hn Hf) as (r' & Hr' & U). rewrite Hr'.
      eexists; split; [reflexivity|]. destruct t as [kd es].
      pose proof (upd_pass _ (Tab kd es) r r' Hc U) as UU. cbn [tkind entries] in UU.
      rewrite (mapU_id (only b (eid e)) es) in UU; [exact UU|].
      intros a Ha. rewrite only_false; [discriminate|]. intro E.
      unfold wfT in Ht; unfold copies in Hc; cbn [tkind entries] in *; destruct kd; try discriminate; [|rewrite Ht in Ha; exact Ha].
      destruct Ht as (_ & _ & H3). apply (H3 a Ha). rewrite E.
      apply (vis_in r k). apply vis; assumption.
Qed.
Lemma touch_none : forall s k f, look Here s k = None -> touch s k f = (s, None).
Proof.
  induction s as [|t r IH]; intros k f H; [reflexivity|]. cbn [touch]. cbn [look] in H.
  destruct (getE (entries t) k); [discriminate|]. destruct (copies t) eqn:Hc; [rewrite H; reflexivity|].
  rewrite IH; [reflexivity|]. unfold dropMode in H; unfold copies in Hc; destruct (tkind t); try discriminate; exact H.
Qed.

(** ** Merging *)

Definition usedBy (es : list entry) (i : nat) : bool := existsb (fun e => only (used e) (eid e) i) es.

(** The entries [es] are copies of entries seen in [s]. *)
Definition cop (es : list entry) (s : list tab) : Prop :=
  forall e, In e es -> exists o, look Here s (ename e) = Some o /\ eid o = eid e /\ (used o = true -> used e = true).

Lemma cop_ids : forall es s e, wf s -> cop es s -> In e es -> resolve (scopes s) (ename e) = Some (eid e).
Proof.
  intros es s e Hw Hc He. destruct (Hc e He) as (o & Ho & Hi & _). rewrite <- Hi. apply vis; assumption.
Qed.

Lemma fold_touch : forall (g : entry -> entry -> entry), (forall e o, g e o = orU (used e) o) ->
  forall es s, wf s ->
  (forall e, In e es -> exists o, look Here s (ename e) = Some o /\ eid o = eid e) ->
  upd (usedBy es) s (fold_left (fun s e => fst (touch s (ename e) (g e))) es s).
Proof.
  intros g Hg; induction es as [|e es IH]; intros s Hw Hc; [apply upd_refl; auto|].
  cbn [fold_left]. destruct (Hc e (or_introl eq_refl)) as (o & Ho & Hi).
  destruct (touch_some s (ename e) (g e) (used e) o Hw Ho) as (s1 & E1 & U1);
    [intro a; rewrite Hg; reflexivity|apply Hg|].
  rewrite E1; cbn [fst]. rewrite Hi in U1.
  apply (upd_trans _ _ _ _ _ U1). apply IH; [exact (upd_wf _ _ _ U1 Hw)|].
  intros a Ha. destruct (Hc a (or_intror Ha)) as (o' & Ho' & Hi').
  exists (orP (only (used e) (eid e)) o'). rewrite (upd_look _ _ _ _ U1), Ho'. split; [reflexivity|exact Hi'].
Qed.

Lemma cop_upd : forall P es s s', wf s -> upd P s s' -> cop es s ->
  (forall e, In e es -> P (eid e) = false) -> cop es s'.
Proof.
  intros P es s s' Hw U Hc Hp e He. destruct (Hc e He) as (o & Ho & Hi & Hu).
  exists o. rewrite (upd_look _ _ _ _ U), Ho. split; [|auto]. cbn [option_map]; f_equal.
  apply orU_id. rewrite Hi, (Hp e He); discriminate.
Qed.

Lemma delE_in : forall l k e, In e (delE l k) <-> In e l /\ ename e <> k.
Proof.
  intros; unfold delE; rewrite filter_In. rewrite negb_true_iff, Nat.eqb_neq; tauto.
Qed.
Lemma delE_nodup : forall l k, NoDup (map ename l) -> NoDup (map ename (delE l k)).
Proof.
  unfold delE; induction l as [|a l IH]; cbn; intros k H; [constructor|].
  apply NoDup_cons_iff in H; destruct H as [H1 H2].
  destruct (Nat.eqb (ename a) k); cbn; [auto|]. constructor; [|auto].
  intro Hx; apply H1; apply in_map_iff in Hx; destruct Hx as (b & E & Hb). apply filter_In in Hb.
  rewrite <- E; apply in_map; tauto.
Qed.
Lemma usedBy_del : forall l k t i, NoDup (map ename l) -> getE l k = Some t ->
  usedBy l i = only (used t) (eid t) i || usedBy (delE l k) i.
Proof.
  unfold usedBy, delE; induction l as [|a l IH]; cbn; intros k t i Hd G; [discriminate|].
  apply NoDup_cons_iff in Hd; destruct Hd as [H1 H2].
  destruct (Nat.eqb_spec (ename a) k) as [E|E]; cbn.
  - injection G as ->. f_equal. f_equal. clear - H1 E. rewrite E in H1. clear E.
    induction l as [|b l IH]; cbn in *; [reflexivity|].
    destruct (Nat.eqb_spec (ename b) k); cbn; [tauto|]. f_equal; apply IH; tauto.
  - rewrite (IH k t i H2 G). rewrite !orb_assoc; f_equal; apply orb_comm.
Qed.
Lemma delE_none : forall l k, getE l k = None -> delE l k = l.
Proof.
  unfold delE; induction l as [|a l IH]; cbn; intros k H; [reflexivity|].
  destruct (Nat.eqb (ename a) k); [discriminate|]. cbn; f_equal; auto.
Qed.

Lemma popFalse_ok : forall mf fs ts s, wf s -> NoDup (map ename fs) -> NoDup (map ename ts) ->
  cop fs s -> cop ts s ->
  exists ts' s' P, popFalse mf fs ts s = (ts', s') /\ upd P s s' /\ NoDup (map ename ts') /\ cop ts' s' /\
    forall i, P i || usedBy ts' i = usedBy fs i || usedBy ts i.
Proof.
  intro mf; induction fs as [|e fs IH]; intros ts s Hw Hf Ht Cf Ct.
  - exists ts, s, (fun _ => false). split; [reflexivity|]. split; [apply upd_refl; auto|].
    split; [assumption|split; [assumption|reflexivity]].
  - cbn [popFalse]. destruct (Cf e (or_introl eq_refl)) as (o & Ho & Hi & Hu).
    cbn [map] in Hf; apply NoDup_cons_iff in Hf; destruct Hf as [Hnf Hf].
    assert (D : exists b, (forall f, f = match getE ts (ename e) with
               | Some t => if mf then fun old => orU (used e) (setU (used t) old) else setU (used t || used e)
               | None => orU (used e) end -> (forall a, ename (f a) = ename a) /\ f o = orU b o) /\
             forall i, only b (eid e) i || usedBy (delE ts (ename e)) i = only (used e) (eid e) i || usedBy ts i).
    { destruct (getE ts (ename e)) as [t|] eqn:G.
      - destruct (getE_name _ _ _ G) as [Hnt Hit]. destruct (Ct t Hit) as (o' & Ho' & Hi' & Hu').
        rewrite Hnt, Ho in Ho'; injection Ho' as <-.
        exists (used t || used e). split.
        + intros f ->. destruct mf; split; try reflexivity.
          * destruct o as [n j u]; unfold orU, setU; cbn in *. f_equal.
            destruct (used e), (used t), u; try reflexivity. discriminate (Hu' eq_refl).
          * destruct o as [n j u]; unfold orU, setU; cbn in *. f_equal.
            destruct (used e), (used t), u; try reflexivity. discriminate (Hu eq_refl).
        + intro i. rewrite (usedBy_del ts (ename e) t i Ht G). rewrite <- Hi', <- Hi. unfold only.
          destruct (Nat.eqb i (eid o)), (used e), (used t); reflexivity.
      - exists (used e). split; [intros f ->; split; reflexivity|]. intro i; rewrite (delE_none ts (ename e) G); reflexivity. }
    destruct D as (b & Db & Du).
    set (f := match getE ts (ename e) with
              | Some t => if mf then fun old => orU (used e) (setU (used t) old) else setU (used t || used e)
              | None => orU (used e) end) in *.
    destruct (Db f eq_refl) as [D1 D2]. clearbody f.
    destruct (touch_some s (ename e) f b o Hw Ho D1 D2) as (s1 & E1 & U1). rewrite E1.
    rewrite Hi in U1.
    assert (Cne : forall es, cop es s -> (forall a, In a es -> ename a <> ename e) -> cop es s1).
    { intros es Ce Hne. apply (cop_upd _ es s s1 Hw U1 Ce). intros a Ha. apply only_false. intro E.
      apply (Hne a Ha). apply (vis_inj s _ _ (eid e) Hw).
      - rewrite <- E; apply (cop_ids es); assumption.
      - apply (cop_ids (e :: fs)); [assumption|assumption|left; reflexivity]. }
    destruct (IH (delE ts (ename e)) s1) as (ts' & s' & P & E & U & N & C & Hp).
    + exact (upd_wf _ _ _ U1 Hw).
    + assumption.
    + apply delE_nodup; assumption.
    + apply Cne; [intros a Ha; apply Cf; right; exact Ha|].
      intros a Ha Ea; apply Hnf; rewrite <- Ea; apply in_map; exact Ha.
    + apply Cne; [intros a Ha; apply delE_in in Ha; apply Ct; tauto|].
      intros a Ha; apply delE_in in Ha; tauto.
    + exists ts', s', (fun i => only b (eid e) i || P i). rewrite E. split; [reflexivity|].
      split; [exact (upd_trans _ _ _ _ _ U1 U)|]. split; [assumption|split; [assumption|]].
      intro i. rewrite <- orb_assoc, Hp. cbn [usedBy existsb].
      change (existsb (fun e0 : entry => only (used e0) (eid e0) i) fs) with (usedBy fs i).
      rewrite <- (orb_assoc (only (used e) (eid e) i)), (orb_comm (usedBy fs i)), (orb_assoc (only b _ _)), Du.
      rewrite <- orb_assoc; f_equal; apply orb_comm.
Qed.

Lemma popTrue_fold : forall mf ts s, popTrue mf ts s =
  fold_left (fun s e => fst (touch s (ename e)
    (fun old => if mf then setU (used old || used e) old else orU (used e) old))) ts s.
Proof. intro mf; induction ts as [|e ts IH]; intro s; [reflexivity|]; cbn; apply IH. Qed.

Lemma setU_or : forall (b : bool) e o, (if b then setU (used o || used e) o else orU (used e) o) = orU (used e) o.
Proof. intros [] e [n i u]; unfold setU, orU; cbn; [rewrite orb_comm|]; reflexivity. Qed.

Lemma popBranches_ok : forall mf kf kt fs ts s, wf s -> NoDup (map ename fs) -> NoDup (map ename ts) ->
  cop fs s -> cop ts s ->
  upd (fun i => usedBy ts i || usedBy fs i) s (popBranches mf (Tab kf fs :: Tab kt ts :: s)).
Proof.
  intros mf kf kt fs ts s Hw Hf Ht Cf Ct. cbn [popBranches entries].
  destruct (popFalse_ok mf fs ts s Hw Hf Ht Cf Ct) as (ts' & s' & P & E & U & N & C & Hp). rewrite E.
  rewrite popTrue_fold.
  apply (upd_ext (fun i => P i || usedBy ts' i)); [assumption| |intros; rewrite Hp; apply orb_comm].
  apply (upd_trans _ _ _ _ _ U). apply fold_touch; [intros; apply setU_or|exact (upd_wf _ _ _ U Hw)|].
  intros e He; destruct (C e He) as (o & Ho & Hi & _); eauto.
Qed.

(** ** The table of a branch *)

Definition bt (P : nat -> bool) (es : list entry) (s : list tab) : Prop :=
  NoDup (map ename es) /\ cop es s /\
  forall k, hereOf es Here s k = option_map (orP P) (look Here s k).
Definition closed (P : nat -> bool) (s : list tab) : Prop :=
  forall i, In i (sids s) -> P i = true -> exists k, resolve (scopes s) k = Some i.

Lemma bt_nil : forall s, bt (fun _ => false) nil s.
Proof.
  intro s; split; [constructor|split; [intros e []|]]. intro k; unfold hereOf; cbn.
  destruct (look Here s k) as [[]|]; reflexivity.
Qed.
Lemma bt_used : forall P es s, wf s -> bt P es s -> closed P s -> same (usedBy es) P s.
Proof.
  intros P es s Hw (Hd & Hc & Hk) Hcl i Hi.
  destruct (usedBy es i) eqn:Eu.
  - unfold usedBy in Eu; apply existsb_exists in Eu; destruct Eu as (e & He & Eo).
    unfold only in Eo; apply andb_prop in Eo; destruct Eo as [Ue Ei]; apply Nat.eqb_eq in Ei; subst i.
    destruct (Hc e He) as (o & Ho & Hio & _). specialize (Hk (ename e)). unfold hereOf in Hk.
    rewrite (getE_in es e Hd He), Ho in Hk. cbn [option_map] in Hk. injection Hk as Hk.
    destruct (used o) eqn:Uo; [right; eauto|left].
    rewrite Hk in Ue; cbn in Ue; rewrite Uo, orb_false_r, Hio in Ue. rewrite Ue; reflexivity.
  - destruct (P i) eqn:Ep; [|auto]. right. destruct (Hcl i Hi Ep) as (k & Hr).
    rewrite <- (look_resolve s Here k Hw) in Hr by discriminate.
    destruct (look Here s k) as [o|] eqn:Ho; [|discriminate]. cbn in Hr; injection Hr as Hr.
    exists k, o; split; [exact Ho|split; [assumption|]].
    specialize (Hk k). rewrite Ho in Hk; unfold hereOf in Hk. destruct (getE es k) as [e|] eqn:G.
    + exfalso. cbn in Hk; injection Hk as ->. destruct (getE_name _ _ _ G) as [_ He].
      unfold usedBy in Eu. assert (X : existsb (fun e => only (used e) (eid e) i) es = true).
      { apply existsb_exists; eexists; split; [exact He|]. cbn. rewrite Hr, Ep, only_same; reflexivity. }
      congruence.
    + rewrite Ho in Hk; cbn in Hk; injection Hk as Hk. rewrite Hk; cbn; rewrite Hr, Ep; reflexivity.
Qed.
Lemma same_or : forall P Q P' Q' s, same P P' s -> same Q Q' s -> same (fun i => P i || Q i) (fun i => P' i || Q' i) s.
Proof.
  intros P Q P' Q' s H H' i Hi. destruct (H i Hi) as [E|]; [|auto]. destruct (H' i Hi) as [E'|]; [|auto].
  left; rewrite E, E'; reflexivity.
Qed.
Lemma bt_same : forall P Q es s, wf s -> bt P es s -> same P Q s -> bt Q es s.
Proof.
  intros P Q es s Hw (Hd & Hc & Hk) Hs. split; [assumption|split; [assumption|]]. intro k; rewrite Hk.
  destruct (look Here s k) as [o|] eqn:Ho; [|reflexivity]. cbn [option_map]; f_equal. eapply same_orP; eauto.
Qed.
Lemma closed_or : forall P Q s, closed P s -> closed Q s -> closed (fun i => P i || Q i) s.
Proof. intros P Q s H H' i Hi E; apply orb_prop in E; destruct E; auto. Qed.
Lemma bt_false : forall es s s', wf s -> upd (fun _ => false) s s' -> forall P, bt P es s -> bt P es s'.
Proof.
  intros es s s' Hw U P (Hd & Hc & Hk).
  assert (L : forall k, look Here s' k = look Here s k).
  { intro k; rewrite (upd_look _ _ _ _ U). destruct (look Here s k) as [[]|]; reflexivity. }
  split; [assumption|split].
  - intros e He; destruct (Hc e He) as (o & Ho & H); exists o; rewrite L; auto.
  - intro k; unfold hereOf; rewrite L; apply Hk.
Qed.
Lemma closed_scopes : forall P s s', scopes s' = scopes s -> closed P s -> closed P s'.
Proof. intros P s s' E H i; unfold sids; rewrite E; apply H. Qed.

(** What happens above a branch [t] stays in it. *)
Lemma upd_branch : forall Q t r s1, copies t = true -> upd Q (t :: r) s1 ->
  exists es, s1 = Tab (tkind t) es :: r /\ wfB (Tab (tkind t) es) r /\
    forall k, hereOf es (dropMode t) r k = option_map (orP Q) (hereOf (entries t) (dropMode t) r k).
Proof. intros Q t r s1 Hc U; inversion U; subst; [congruence|eauto]. Qed.

(** The same with what is below the branch being [s]. *)
Lemma branch_step : forall Q P k0 es0 r s s1, copies (Tab k0 es0) = true ->
  (forall k, look (dropMode (Tab k0 es0)) r k = look Here s k) -> bt P es0 s ->
  upd Q (Tab k0 es0 :: r) s1 ->
  exists es, s1 = Tab k0 es :: r /\ bt (fun i => P i || Q i) es s.
Proof.
  intros Q P k0 es0 r s s1 Hc Hl (Hd & Hcp & Hk) U.
  destruct (upd_branch Q _ _ _ Hc U) as (es & -> & [Hd' Hb] & Hh). cbn [tkind entries] in *.
  exists es; split; [reflexivity|]. split; [exact Hd'|split].
  - intros e He; destruct (Hb e He) as (o & Ho & H). exists o; split; [|exact H]. rewrite <- Hl. exact Ho.
  - intro k. specialize (Hh k). specialize (Hk k). unfold hereOf in *. rewrite Hl in Hh. rewrite Hh, Hk.
    destruct (look Here s k) as [o|]; [|reflexivity]. cbn [option_map]; rewrite orP_orP; reflexivity.
Qed.

Lemma wf_push : forall k s, (k = KTrue \/ k = KCase \/ k = KNormal \/ k = KSwitch) -> wf s -> wf (push k s).
Proof.
  intros k s Hk Hw; split; [assumption|]. unfold wfT, wfB; cbn.
  destruct Hk as [->|[->|[->| ->]]]; cbn; try reflexivity.
  - split; [constructor|intros e []].
  - split; [constructor|intros e []].
  - split; [constructor|split; [constructor|intros e []]].
Qed.
