(** * Variables not used, according to the specification *)
From Coq Require Import Arith List Bool Lia.
From Verif Require Import Scope_model Scope_spec Scope_proofs Scope_run.
Import ListNotations.

Definition eids (env : list scope) : list nat := map snd (concat env).

Lemma seen_eids : forall env d, seen env d -> In d (eids env).
Proof. intros env d (k & H); apply resolve_in in H; apply (in_map snd) in H; exact H. Qed.

(** The declarations in a statement which is not itself a declaration, in inner blocks. *)
Definition nested (c : stmt) : list nat := if isDecl c then nil else declared c.
Fixpoint nestedL (l : stmts) : list nat :=
  match l with LNil => nil | LCons a r => nested a ++ nestedL r end.
Fixpoint nestedC (c : cases) : list nat :=
  match c with CNil => nil | CCons l _ r => nestedL l ++ nestedC r end.

Lemma nested_incl : forall c, incl (nested c) (declared c).
Proof. intros c; unfold nested; destruct (isDecl c); [intros ? []|apply incl_refl]. Qed.
Lemma nestedL_incl : forall l, incl (nestedL l) (declaredL l).
Proof. induction l; cbn; [intros ? []|]. apply incl_app; [apply incl_appl, nested_incl|apply incl_appr; assumption]. Qed.
Lemma nestedC_incl : forall c, incl (nestedC c) (declaredC c).
Proof. induction c; cbn; [intros ? []|]. apply incl_app; [apply incl_appl, nestedL_incl|apply incl_appr; assumption]. Qed.

(** [ev] refers only to declarations in [vs] or [ds], and reports those in [ns] which it does not refer to. *)
Lemma uids_app : forall a b, uids (a ++ b) = uids a ++ uids b.
Proof. intros; apply flat_map_app. Qed.
Lemma uids_in : forall ev d, In d (uids ev) <-> In (Unused d) ev.
Proof.
  intros ev d; unfold uids; rewrite in_flat_map. split.
  - intros (v & Hv & Hd). destruct v as [y o|j|j o]; cbn in Hd; try tauto. destruct Hd as [<-|[]]; exact Hv.
  - intro H; exists (Unused d); split; [exact H|left; reflexivity].
Qed.
Definition rep (vs ds ns : list nat) (ev : list event) : Prop :=
  (forall d, usedIn ev d = true -> In d vs \/ In d ds) /\
  (forall d, In (Unused d) ev <-> In d ns /\ usedIn ev d = false) /\ incl ns ds /\ NoDup (uids ev).

Lemma rep_app : forall vs d1 n1 e1 d2 n2 e2,
  rep vs d1 n1 e1 -> rep (vs ++ d1) d2 n2 e2 -> NoDup (d1 ++ d2) ->
  (forall d, In d (d1 ++ d2) -> ~ In d vs) -> (forall d, In d n1 -> usedIn e2 d = false) ->
  rep vs (d1 ++ d2) (n1 ++ n2) (e1 ++ e2).
Proof.
  intros vs d1 n1 e1 d2 n2 e2 (R1 & U1 & I1 & N1) (R2 & U2 & I2 & N2) Hd Hv Hn. split; [|split; [|split]].
  - intros d H; rewrite usedIn_app in H; rewrite in_app_iff. apply orb_prop in H; destruct H as [H|H].
    + destruct (R1 d H); auto.
    + destruct (R2 d H) as [H'|]; [|auto]. apply in_app_or in H'; destruct H'; auto.
  - intro d. rewrite usedIn_app, !in_app_iff, U1, U2, orb_false_iff. split.
    + intros [[H1 H2]|[H1 H2]]; (split; [auto|split; [|]]); auto.
      destruct (usedIn e1 d) eqn:E; [exfalso|reflexivity].
      destruct (R1 d E) as [V|V]; [apply (Hv d); [apply in_or_app; right; auto|exact V]|].
      exact (NoDup_app_x _ _ _ d Hd V (I2 d H1)).
    + intros [[H|H] [H1 H2]]; auto.
  - apply incl_app; [apply incl_appl|apply incl_appr]; assumption.
  - rewrite uids_app. apply NoDup_app_intro; [assumption|assumption|]. intros d H1 H2.
    apply uids_in, U1 in H1; apply uids_in, U2 in H2. exact (NoDup_app_x _ _ _ d Hd (I1 d (proj1 H1)) (I2 d (proj1 H2))).
Qed.
Lemma rep_vs : forall vs vs' ds ns ev, incl vs vs' -> rep vs ds ns ev -> rep vs' ds ns ev.
Proof. intros vs vs' ds ns ev H (R & U & I); split; [|split]; auto. intros d Hd; destruct (R d Hd); auto. Qed.
Lemma expr_quiet : forall e env, uids (exprS env e) = nil.
Proof.
  induction e as [|x|a IHa b IHb|a IHa b IHb|a IHa b IHb|mf p IHp a IHa b IHb]; intro env; cbn [exprS];
    rewrite ?uids_app; try reflexivity; rewrite ?IHp, ?IHa, ?IHb; reflexivity.
Qed.
Lemma rep_expr : forall e env, rep (eids env) nil nil (exprS env e).
Proof.
  intros e env; split; [|split; [|split; [intros ? []|]]].
  - intros d H; left; exact (seen_eids _ _ (exprS_refs _ _ _ H)).
  - intro d; split; [|intros [[] _]]. intro H. apply uids_in in H. rewrite expr_quiet in H. destruct H.
  - rewrite expr_quiet; constructor.
Qed.
(** Pieces which do not declare anything for what follows. *)
Lemma rep_seq : forall vs d1 n1 e1 d2 n2 e2, rep vs d1 n1 e1 -> rep vs d2 n2 e2 -> NoDup (d1 ++ d2) ->
  (forall d, In d (d1 ++ d2) -> ~ In d vs) -> rep vs (d1 ++ d2) (n1 ++ n2) (e1 ++ e2).
Proof.
  intros vs d1 n1 e1 d2 n2 e2 H1 H2 Hd Hv. apply rep_app; [assumption|eapply rep_vs; [|exact H2]; apply incl_appl, incl_refl|assumption|assumption|].
  intros d Hn. destruct (usedIn e2 d) eqn:E; [exfalso|reflexivity].
  apply (proj1 (proj2 (proj2 H1))) in Hn. destruct (proj1 H2 d E) as [V|V].
  - apply (Hv d); [apply in_or_app; auto|exact V].
  - exact (NoDup_app_x _ _ _ d Hd Hn V).
Qed.

Definition outside (ds vs : list nat) : Prop := NoDup ds /\ forall d, In d ds -> ~ In d vs.

Lemma outside_app : forall a b vs, outside (a ++ b) vs -> outside a vs /\ outside b vs.
Proof.
  intros a b vs [H1 H2]; split; split; eauto using NoDup_app_l, NoDup_app_r; intros d Hd; apply H2; apply in_or_app; auto.
Qed.

(** The end of a block. *)
Lemma rep_block : forall vs ds ns ev (n : scope), rep vs ds ns ev -> outside ds vs -> incl (map snd n) ds -> NoDup (map snd n) -> (forall d, In d ns -> ~ In d (map snd n)) ->
  (forall d, In d ds -> In d ns \/ In d (map snd n)) -> rep vs ds ds (ev ++ unusedOf n ev).
Proof.
  intros vs ds ns ev n (R & U & I & N) Ho Hn Nn Hx Hd. split; [|split; [|split; [apply incl_refl|]]].
  - intros d H; rewrite usedIn_app, usedIn_unused, orb_false_r in H; auto.
  - intro d. rewrite usedIn_app, usedIn_unused, orb_false_r, in_app_iff, U.
    assert (E : In (Unused d) (unusedOf n ev) <-> In d (map snd n) /\ usedIn ev d = false).
    { unfold unusedOf. rewrite !in_map_iff. split.
      - intros (p & E & Hp). apply filter_In in Hp. injection E as <-. destruct Hp as [Hp Hq].
        split; [exists p; auto|]. apply negb_true_iff; exact Hq.
      - intros [(p & <- & Hp) Hq]. exists p; split; [reflexivity|]. apply filter_In; split; [assumption|]. rewrite Hq; reflexivity. }
    rewrite E. split; [intros [[H1 H2]|[H1 H2]]; split; auto|].
    intros [H1 H2]. destruct (Hd d H1); auto.
  - rewrite uids_app. apply NoDup_app_intro; [assumption| |].
    + clear - Nn. unfold unusedOf, uids. induction n as [|[x d] n IH]; cbn [filter map flat_map]; [constructor|].
      cbn [map snd] in Nn. apply NoDup_cons_iff in Nn; destruct Nn as [N1 N2].
      destruct (negb (usedIn ev (snd (x, d)))); cbn [map flat_map app snd]; [|auto]. constructor; [|auto].
      intro H. apply N1. apply in_flat_map in H. destruct H as (v & Hv & Hd). apply in_map_iff in Hv.
      destruct Hv as (q & <- & Hq). destruct Hd as [<-|[]]. apply filter_In in Hq. apply in_map; tauto.
    + intros d H1 H2. apply uids_in, U in H1. apply uids_in in H2. unfold unusedOf in H2. apply in_map_iff in H2.
      destruct H2 as (q & E & Hq). injection E as <-. apply filter_In in Hq.
      apply (Hx (snd q) (proj1 H1)). apply in_map; tauto.
Qed.

Definition news (sc : scope) (r : scope) (ds ns : list nat) : Prop :=
  exists n, r = sc ++ n /\ incl (map snd n) ds /\ (forall d, In d ds -> In d ns \/ In d (map snd n)) /\
    (forall d, In d ns -> ~ In d (map snd n)) /\ NoDup (map snd n).

Lemma eids_cons : forall sc env, eids (sc :: env) = map snd sc ++ eids env.
Proof. intros; unfold eids; cbn; apply map_app. Qed.

Lemma rep_nil : forall vs, rep vs nil nil nil.
Proof. intro vs; split; [discriminate|split; [intro d; split; [intros []|intros [[] _]]|split; [intros ? []|constructor]]]. Qed.

Theorem spec_unused :
  (forall c sc env, ok c -> outside (declared c) (eids (sc :: env)) ->
     rep (eids (sc :: env)) (declared c) (nested c) (snd (stmtS sc env c)) /\
     news sc (fst (stmtS sc env c)) (declared c) (nested c)) /\
  (forall l sc env, okL l -> outside (declaredL l) (eids (sc :: env)) ->
     rep (eids (sc :: env)) (declaredL l) (nestedL l) (snd (stmtsS sc env l)) /\
     news sc (fst (stmtsS sc env l)) (declaredL l) (nestedL l)) /\
  (forall c sc env, okC c -> outside (declaredC c) (eids (sc :: env)) ->
     rep (eids (sc :: env)) (declaredC c) (nestedC c) (snd (casesS sc env c)) /\
     news sc (fst (casesS sc env c)) (declaredC c) (nestedC c)).
Proof.
  assert (Same : forall sc ds, news sc sc ds ds).
  { intros sc ds; exists nil; rewrite app_nil_r; split; [reflexivity|split; [intros ? []|split; [auto|split; [auto|constructor]]]]. }
  assert (Seq : forall sc env d1 n1 e1 r1 d2 n2 e2 r2,
    rep (eids (sc :: env)) d1 n1 e1 -> news sc r1 d1 n1 ->
    rep (eids (r1 :: env)) d2 n2 e2 -> news r1 r2 d2 n2 ->
    outside (d1 ++ d2) (eids (sc :: env)) ->
    rep (eids (sc :: env)) (d1 ++ d2) (n1 ++ n2) (e1 ++ e2) /\ news sc r2 (d1 ++ d2) (n1 ++ n2)).
  { intros sc env d1 n1 e1 r1 d2 n2 e2 r2 R1 (m1 & -> & I1 & D1 & X1 & Y1) R2 (m2 & -> & I2 & D2 & X2 & Y2) [Ho Hv]. split.
    - apply rep_app; [assumption| |assumption|assumption|].
      + eapply rep_vs; [|exact R2]. intros x. rewrite !eids_cons, map_app, !in_app_iff. specialize (I1 x). tauto.
      + intros d Hn. destruct (usedIn e2 d) eqn:E; [exfalso|reflexivity].
        pose proof (proj1 (proj2 (proj2 R1)) d Hn) as Hd. destruct (proj1 R2 d E) as [V|V].
        * rewrite eids_cons, map_app in V. apply in_app_or in V; destruct V as [V|V].
          -- apply in_app_or in V; destruct V as [V|V]; [|exact (X1 d Hn V)].
             apply (Hv d); [apply in_or_app; auto|]. rewrite eids_cons; apply in_or_app; auto.
          -- apply (Hv d); [apply in_or_app; auto|]. rewrite eids_cons; apply in_or_app; auto.
        * exact (NoDup_app_x _ _ _ d Ho Hd V).
    - exists (m1 ++ m2). rewrite app_assoc, map_app; split; [reflexivity|split; [|split; [|split]]].
      + apply incl_app; [apply incl_appl|apply incl_appr]; assumption.
      + intros d Hd; rewrite !in_app_iff. apply in_app_or in Hd; destruct Hd as [Hd|Hd]; [specialize (D1 d Hd)|specialize (D2 d Hd)]; tauto.
      + intros d Hd Hm. apply in_app_or in Hd; apply in_app_or in Hm. destruct Hd as [Hd|Hd], Hm as [Hm|Hm].
        * exact (X1 d Hd Hm).
        * exact (NoDup_app_x _ _ _ d Ho (proj1 (proj2 (proj2 R1)) d Hd) (I2 d Hm)).
        * exact (NoDup_app_x _ _ _ d Ho (I1 d Hm) (proj1 (proj2 (proj2 R2)) d Hd)).
        * exact (X2 d Hd Hm).
      + apply NoDup_app_intro; [assumption|assumption|]. intros d Ha Hb.
        exact (NoDup_app_x _ _ _ d Ho (I1 d Ha) (I2 d Hb)). }
  assert (Out : forall sc env r ds1 ns1 ds2, outside (ds1 ++ ds2) (eids (sc :: env)) -> news sc r ds1 ns1 ->
    outside ds2 (eids (r :: env))).
  { intros sc env r ds1 ns1 ds2 [Ho Hv] (m & -> & I & _). split; [exact (NoDup_app_r _ _ _ Ho)|].
    intros d Hd. rewrite eids_cons, map_app, !in_app_iff. intros [[V|V]|V].
    - apply (Hv d); [apply in_or_app; auto|]. rewrite eids_cons; apply in_or_app; auto.
    - exact (NoDup_app_x _ _ _ d Ho (I d V) Hd).
    - apply (Hv d); [apply in_or_app; auto|]. rewrite eids_cons; apply in_or_app; auto. }
  assert (E0 : forall sc env, eids (nil :: sc :: env) = eids (sc :: env)) by reflexivity.
  assert (Pre : forall e env ds ns ev, rep (eids env) ds ns ev -> outside ds (eids env) -> rep (eids env) ds ns (exprS env e ++ ev)).
  { intros e env ds ns ev R [O1 O2]. exact (rep_seq _ nil nil _ ds ns ev (rep_expr e env) R O1 O2). }
  assert (Post : forall e env ds ns ev, rep (eids env) ds ns ev -> outside ds (eids env) -> rep (eids env) ds ns (ev ++ exprS env e)).
  { intros e env ds ns ev R [O1 O2]. pose proof (rep_seq _ ds ns ev nil nil _ R (rep_expr e env)) as H.
    rewrite !app_nil_r in H. exact (H O1 O2). }
  assert (Nn : forall a, isDecl a = false -> nested a = declared a) by (intros a E; unfold nested; rewrite E; reflexivity).
  apply program_ind.
  - intros e sc env _ Ho. cbn [stmtS fst snd declared]. split; [apply rep_expr|apply Same].
  - intros x d e sc env _ Ho. cbn [stmtS fst snd declared]. unfold nested; cbn [isDecl]. split.
    + split; [|split; [|split; [intros ? []|]]].
      * intros i H. pose proof (proj2 (proj1 spec_refs (SDecl x d e) sc env) i H) as [S|S]; [left; apply seen_eids; exact S|right; exact S].
      * intro i; split; [|intros [[] _]]. intro H. apply in_app_or in H. exfalso. destruct H as [H|H].
        -- destruct (resolve env x); [destruct H as [H|[]]; discriminate|destruct H].
        -- apply (proj1 (proj2 (rep_expr e ((sc ++ [(x, d)]) :: env)))) in H; destruct H as [[] _].
      * rewrite uids_app, expr_quiet, app_nil_r. destruct (resolve env x); constructor.
    + exists [(x, d)]. split; [reflexivity|split; [apply incl_refl|split; [auto|split; [intros ? []|repeat constructor; intros []]]]].
  - intros l IH sc env [_ Hok] Ho. cbn [stmtS declared] in *. unfold nested; cbn [isDecl declared].
    destruct (IH nil (sc :: env) Hok) as [R N]; [rewrite E0; exact Ho|]. rewrite E0 in R.
    destruct (stmtsS nil (sc :: env) l) as [b ev]. cbn [fst snd] in *. split; [|apply Same].
    destruct N as (n & -> & I & D & X & Y). exact (rep_block _ _ _ _ n R Ho I Y X D).
  - intros p a IH sc env [Hd Hok] Ho. cbn [stmtS declared] in *. unfold nested; cbn [isDecl declared].
    destruct (IH sc env Hok Ho) as [R _]. rewrite (Nn a Hd) in R.
    destruct (stmtS sc env a) as [b ev]. cbn [fst snd] in *. split; [apply Pre; assumption|apply Same].
  - intros mt mf p a IHa b IHb sc env (Hda & Hoka & Hdb & Hokb) Ho. cbn [stmtS declared] in *. unfold nested; cbn [isDecl declared].
    destruct (outside_app _ _ _ Ho) as [Oa Ob].
    destruct (IHa sc env Hoka Oa) as [Ra _]. rewrite (Nn a Hda) in Ra.
    destruct (IHb sc env Hokb Ob) as [Rb _]. rewrite (Nn b Hdb) in Rb.
    destruct (stmtS sc env a) as [ba ea], (stmtS sc env b) as [bb eb]. cbn [fst snd] in *.
    split; [|apply Same]. apply Pre; [|assumption]. exact (rep_seq _ _ _ _ _ _ _ Ra Rb (proj1 Ho) (proj2 Ho)).
  - intros ex p a IH sc env [Hd Hok] Ho. cbn [stmtS declared] in *. unfold nested; cbn [isDecl declared].
    destruct (IH sc env Hok Ho) as [R _]. rewrite (Nn a Hd) in R.
    destruct (stmtS sc env a) as [b ev]. cbn [fst snd] in *. split; [apply Pre; assumption|apply Same].
  - intros a IH p sc env [Hd Hok] Ho. cbn [stmtS declared] in *. unfold nested; cbn [isDecl declared].
    destruct (IH sc env Hok Ho) as [R _]. rewrite (Nn a Hd) in R.
    destruct (stmtS sc env a) as [b ev]. cbn [fst snd] in *. split; [apply Post; assumption|apply Same].
  - intros al p l _ c IHc sc env (-> & _ & Hok) Ho. cbn [stmtS declared stmtsS declaredL app] in *. unfold nested; cbn [isDecl declared declaredL app].
    destruct (IHc nil (sc :: env) Hok) as [R N]; [rewrite E0; exact Ho|]. rewrite E0 in R.
    destruct (casesS nil (sc :: env) c) as [b ev]. cbn [fst snd] in *. split; [|apply Same].
    destruct N as (n & -> & I & D & X & Y). cbn [app]. apply Pre; [|assumption]. exact (rep_block _ _ _ _ n R Ho I Y X D).
  - intros sc env _ _. cbn [stmtsS declaredL nestedL fst snd]. split; [apply rep_nil|apply Same].
  - intros a IHa l IHl sc env [Hoka Hokl] Ho. cbn [stmtsS declaredL nestedL] in *.
    destruct (IHa sc env Hoka (proj1 (outside_app _ _ _ Ho))) as [Ra Na].
    destruct (stmtS sc env a) as [b ev]. cbn [fst snd] in *.
    destruct (IHl b env Hokl (Out _ _ _ _ _ _ Ho Na)) as [Rl Nl].
    destruct (stmtsS b env l) as [b' ev']. cbn [fst snd] in *. eapply Seq; eauto.
  - intros sc env _ _. cbn [casesS declaredC nestedC fst snd]. split; [apply rep_nil|apply Same].
  - intros l IHl z c IHc sc env (_ & Hokl & Hokc) Ho. cbn [casesS declaredC nestedC] in *.
    destruct (IHl sc env Hokl (proj1 (outside_app _ _ _ Ho))) as [Ra Na].
    destruct (stmtsS sc env l) as [b ev]. cbn [fst snd] in *.
    destruct (IHc b env Hokc (Out _ _ _ _ _ _ Ho Na)) as [Rl Nl].
    destruct (casesS b env c) as [b' ev']. cbn [fst snd] in *. eapply Seq; eauto.
Qed.

Lemma body_ok : forall globals l, bodyOk globals l -> checkBody globals l = bodyS globals l.
Proof.
  intros globals l (H1 & H2 & H3 & H4). unfold checkBody, bodyS.
  set (s := [Tab KNormal (map (fun g => Ent (fst g) (snd g) false) globals)]).
  assert (E : map ename (map (fun g : nat * nat => Ent (fst g) (snd g) false) globals) = map fst globals) by (rewrite map_map; reflexivity).
  assert (E' : map eid (map (fun g : nat * nat => Ent (fst g) (snd g) false) globals) = map snd globals) by (rewrite map_map; reflexivity).
  assert (Es : scopes s = [globals]).
  { unfold s; rewrite scopes_cons; cbn [isNormal tkind entries]. f_equal. exact (pairs_ents globals). }
  destruct (proj1 run_ok (SBlock l) s globals nil) as (s' & R & _).
  - split; assumption.
  - reflexivity.
  - split; [exact I|]. unfold wfT; cbn [tkind entries]. rewrite E, E'. split; [assumption|split].
    + exact (NoDup_app_l _ _ _ H2).
    + intros e _ [].
  - discriminate.
  - exact Es.
  - split; [exact (NoDup_app_r _ _ _ H2)|]. intros d Hd Hs. cbn [declared] in Hd. unfold sids in Hs; rewrite Es in Hs.
    cbn in Hs; rewrite app_nil_r in Hs. exact (NoDup_app_x _ _ _ d H2 Hs Hd).
  - rewrite R; reflexivity.
Qed.

Lemma body_unused : forall globals l, bodyOk globals l ->
  (forall d, In (Unused d) (bodyS globals l) <-> In d (declaredL l) /\ usedIn (bodyS globals l) d = false) /\
  NoDup (uids (bodyS globals l)).
Proof.
  intros globals l (H1 & H2 & H3 & H4). unfold bodyS.
  destruct (proj1 spec_unused (SBlock l) globals nil) as [(_ & U & _ & N) _].
  - split; assumption.
  - split; [exact (NoDup_app_r _ _ _ H2)|]. intros i Hi Hs. cbn [declared] in Hi. unfold eids in Hs; cbn in Hs; rewrite app_nil_r in Hs.
    exact (NoDup_app_x _ _ _ i H2 Hs Hi).
  - split; [exact U|exact N].
Qed.
