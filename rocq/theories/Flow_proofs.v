(** Proofs about the flow of control. *)
From Verif Require Import Cbase Flow_model Flow_spec.

Lemma kmust_conditional k : kmust (makeConditional k) = false.
Proof. destruct k; reflexivity. Qed.
Lemma kmust_combine a b : kmust (combine a b) = true -> kmust a = true /\ kmust b = true.
Proof. destruct a, b; cbn; auto; discriminate. Qed.
Lemma combine_error a b : combine a b = XK_ERROR -> a = XK_ERROR \/ b = XK_ERROR.
Proof. destruct a, b; cbn; auto; discriminate. Qed.
Lemma conditional_error k : makeConditional k = XK_ERROR -> k = XK_ERROR.
Proof. destruct k; cbn; auto; discriminate. Qed.
Lemma must_combineControl t e : mustEscape (combineControl t e) = true -> mustEscape t = true /\ mustEscape e = true.
Proof.
  unfold mustEscape, combineControl; cbn [xk mustB]. intros H. apply orb_prop in H as [H|H].
  - apply kmust_combine in H as [H1 H2]. rewrite H1, H2. auto.
  - apply andb_prop in H as [H1 H2]. unfold mustEscape in *.
    destruct (mustB t), (mustB e), (kmust (xk t)), (kmust (xk e)); auto.
Qed.

Lemma combineControl_not t e : mustEscape (combineControl t e) = false -> mustEscape t = true -> mustEscape e = true -> False.
Proof.
  intros H T E. unfold combineControl in H. rewrite T, E in H. unfold mustEscape in H; cbn [xk mustB] in H.
  rewrite !orb_true_r in H. cbn in H. rewrite ?orb_true_r in H. discriminate.
Qed.

(** * Expressions *)
Lemma enode_error e : xk (enode e) <> XK_ERROR.
Proof.
  induction e; cbn [enode plain xk combineControl]; try discriminate; auto.
  - destruct k; cbn; discriminate.
  - intros H. apply combine_error in H as [H|H]; auto.
  - intros H. apply combine_error in H as [H|H]; auto.
Qed.
Lemma enode_must e : mustEscape (enode e) = true -> ~ eexec e ONormal.
Proof.
  induction e; intros H X.
  - discriminate.
  - inversion X; subst. destruct k; try discriminate. congruence.
  - inversion X; subst. exact (IHe H H1).
  - inversion X; subst. cbn [enode] in H. unfold mustEscape in *; cbn [xk mustB] in H.
    apply orb_prop in H as [H|H].
    + apply kmust_combine in H as [H _]. rewrite H in IHe1. exact (IHe1 eq_refl H2).
    + apply orb_prop in H as [H|H].
      * apply IHe1; [rewrite H; apply orb_true_r|assumption].
      * apply IHe2; [rewrite H; apply orb_true_r|assumption].
  - cbn [enode] in H. apply must_combineControl in H as [H1 H2]. inversion X; subst; [eapply IHe1|eapply IHe2]; eauto.
Qed.
Lemma eexec_nobreak e o : eexec e o -> o = ONormal \/ o = OExit.
Proof. induction 1; auto. Qed.
Lemma enode_exact e : plain_expr e -> mustEscape (enode e) = false -> eexec e ONormal.
Proof.
  induction e; intros P H; cbn [plain_expr] in P.
  - constructor.
  - constructor. intros ->. discriminate.
  - constructor. auto.
  - destruct P.
  - destruct P as [P1 P2]. cbn [enode] in H.
    destruct (mustEscape (enode e1)) eqn:E1; [|apply X_cond_a; auto].
    destruct (mustEscape (enode e2)) eqn:E2; [|apply X_cond_b; auto].
    destruct (combineControl_not _ _ H E1 E2).
Qed.

(** * Lists of statements *)
Inductive execs : list stmt -> entry -> out -> Prop :=
| XL_nil : execs [] Top ONormal
| XL_cons a l en o : exec a en ONormal -> execs l Top o -> execs (a :: l) en o
| XL_out a l en o : exec a en o -> o <> ONormal -> execs (a :: l) en o
| XL_at a l m o : execs l (At m) o -> execs (a :: l) (At m) o.

Lemma execs_app l1 l2 en o :
  (execs l1 en ONormal /\ execs l2 Top o) \/ (execs l1 en o /\ o <> ONormal) \/ (exists m, en = At m /\ execs l2 (At m) o) ->
  execs (l1 ++ l2) en o.
Proof.
  revert en; induction l1 as [|a l1 IH]; intros en H; cbn [app].
  - destruct H as [[H1 H2]|[[H1 H2]|(m & -> & H)]]; [| |exact H].
    + inversion H1; subst. exact H2.
    + inversion H1; subst. congruence.
  - destruct H as [[H1 H2]|[[H1 H2]|(m & -> & H)]].
    + inversion H1; subst.
      * eapply XL_cons; [eassumption|]. apply IH. auto.
      * congruence.
      * apply XL_at. apply IH. auto.
    + inversion H1; subst.
      * eapply XL_cons; [eassumption|]. apply IH. auto.
      * apply XL_out; assumption.
      * apply XL_at. apply IH. auto.
    + apply XL_at. apply IH. right; right. eauto.
Qed.
Lemma execs_one s en o : exec s en o -> execs [s] en o.
Proof.
  intros H. destruct o; try (apply XL_out; [exact H|discriminate]).
  eapply XL_cons; [exact H|constructor].
Qed.
Lemma flatten_exec s : forall en o, exec s en o -> execs (flatten s) en o.
Proof.
  induction s; intros en o X; cbn [flatten]; try (apply execs_one; exact X).
  - apply execs_app. inversion X; subst; eauto 6.
  - inversion X; subst; auto.
  - destruct (core s); try (apply execs_one; exact X); inversion X; subst; auto.
Qed.

Lemma is_marker_exec s m en o : is_marker s = Some m -> exec s en o -> en = Top \/ en = At m.
Proof.
  unfold is_marker. induction s; cbn [core]; try discriminate.
  - intros [= ->] X. inversion X; auto.
  - intros H X. inversion X; subst. auto.
Qed.

Lemma exec_marks s en o : exec s en o -> forall m, en = At m -> In m (marks s).
Proof.
  induction 1; intros m0 E; try discriminate; cbn [marks]; try rewrite in_app_iff; eauto;
    try (injection E as ->; cbn; eauto; fail).
  - injection E as <-. apply filter_In. split; [apply IHexec; reflexivity|reflexivity].
Qed.

Lemma flatten_markers s m : In m (top_marks s) <-> exists e, In e (flatten s) /\ is_marker e = Some m.
Proof.
  induction s; cbn [top_marks flatten];
    try (split; [intros []|intros (q & [<-|[]] & D); discriminate D]).
  - unfold is_marker; split.
    + intros [->|[]]. exists (Marker m fallthrough). split; [left|]; reflexivity.
    + intros (e & [<-|[]] & D). cbn in D. left. congruence.
  - rewrite in_app_iff, IHs1, IHs2. split.
    + intros [(e & H & D)|(e & H & D)]; exists e; rewrite in_app_iff; auto.
    + intros (e & H & D). rewrite in_app_iff in H. destruct H; [left|right]; eauto.
  - exact IHs.
  - assert (D : (flatten (NotReached s) = flatten s) \/
               (flatten (NotReached s) = [NotReached s] /\ top_marks s = match is_marker s with Some m => [m] | None => [] end)).
    { cbn [flatten]. unfold is_marker. clear IHs. destruct (core s) eqn:Ec; auto; right; (split; [reflexivity|]);
        (induction s; cbn [core] in Ec; try discriminate; try (injection Ec as -> ->); try reflexivity; cbn [top_marks]; auto). }
    cbn [flatten] in D. destruct D as [D|[D1 D2]]; [rewrite D; exact IHs|]. rewrite D1, D2.
    split.
    + destruct (is_marker s) as [m'|] eqn:E; [|intros []]. intros [->|[]]. exists (NotReached s). split; [left; reflexivity|exact E].
    + intros (e & [<-|[]] & E). change (is_marker (NotReached s)) with (is_marker s) in E. rewrite E. left; reflexivity.
Qed.

(** The switch: what the loop over the statements has established. *)
Section Switch.
Variable f : stmt -> node.
Variable enum : option (list nat).
Definition stepf := fun w s => sw_step enum w s (f s).
(** The statements since the last case marker of the list, if there is one. *)
Definition casem (s : stmt) : bool := match is_marker s with Some m => case_mark m | None => false end.

(** [open l]: control entering the list at some case marker could go on to its end or break. *)
Definition closed (l : list stmt) : Prop :=
  forall l1 e l2, l = l1 ++ e :: l2 -> casem e = true ->
  (forall x, In x l2 -> canB (f x) = false \/ casem x = true) /\
  (exists x, In x l2 /\ mustEscape (f x) = true /\ casem x = false).

Record inv (l : list stmt) (w : sw) : Prop := {
  i_in : inSwitch w = existsb casem l;
  i_def : hasDefault w = existsb (fun s => match is_marker s with Some MD => true | _ => false end) l;
  i_ft : inSwitch w = true -> fallThrough w = negb (breaks w);
  i_cur : inSwitch w = true -> exists l1 e l2, l = l1 ++ e :: l2 /\ casem e = true /\ existsb casem l2 = false /\
          (breaks w = existsb (fun x => canB (f x)) l2) /\ (thisReturn w = existsb (fun x => mustEscape (f x)) l2);
  i_must : mustReturn w = true -> forall l1 e l2 e' l3, l = l1 ++ e :: l2 ++ e' :: l3 -> casem e = true -> casem e' = true ->
          forall x, In x l2 -> casem x = true \/ canB (f x) = false
}.

Lemma inv0 : inv [] sw0.
Proof.
  split; cbn; try reflexivity; try discriminate.
  intros _ l1 e l2 e' l3 H. destruct l1; discriminate.
Qed.
Lemma casem_step w s : casem s = false -> stepf w s =
  let brk := breaks w || canB (f s) in
  Sw (mustReturn w) (thisReturn w || mustEscape (f s)) (hasDefault w) (inSwitch w) brk (if brk then false else fallThrough w) (used w).
Proof. unfold casem, stepf, sw_step. destruct (is_marker s) as [[]|]; cbn; try discriminate; reflexivity. Qed.

Lemma split_last {A} (l : list A) x l1 e l2 : l ++ [x] = l1 ++ e :: l2 ->
  (l2 = [] /\ l = l1 /\ x = e) \/ (exists l2', l2 = l2' ++ [x] /\ l = l1 ++ e :: l2').
Proof.
  intros H. destruct l2 as [|y l2 _] using rev_ind.
  - left. apply app_inj_tail in H as [-> ->]. auto.
  - right. exists l2. rewrite app_comm_cons, app_assoc in H. apply app_inj_tail in H as [-> ->]. auto.
Qed.

Lemma inv_step l w s : inv l w -> inv (l ++ [s]) (stepf w s).
Proof.
  intros I. destruct (casem s) eqn:C.
  - assert (Ms : exists m, is_marker s = Some m /\ case_mark m = true).
    { unfold casem in C. destruct (is_marker s) as [m|]; [eauto|discriminate]. }
    destruct Ms as (m & Em & Cm).
    assert (St : stepf w s = Sw (if inSwitch w && negb (fallThrough w) && (negb (thisReturn w) || breaks w) then false else mustReturn w)
                   false (match m with MD => true | _ => hasDefault w end) true false true (used (stepf w s))).
    { unfold stepf, sw_step. rewrite Em. destruct m; [discriminate| |]; reflexivity. }
    rewrite St. split; cbn [inSwitch hasDefault fallThrough breaks thisReturn mustReturn].
    + rewrite existsb_app; cbn [existsb]. rewrite C. now rewrite orb_true_r.
    + rewrite existsb_app; cbn [existsb]. rewrite Em, (i_def _ _ I). destruct m; cbn; rewrite ?orb_false_r, ?orb_true_r; reflexivity.
    + reflexivity.
    + intros _. exists l, s, []. auto.
    + intros M l1 e l2 e' l3 H Ce Ce' x Hx.
      rewrite app_comm_cons, app_assoc in H. apply split_last in H as [(-> & H & ->)|(l3' & -> & H)].
      * destruct (inSwitch w) eqn:Ei.
        2:{ pose proof (i_in _ _ I) as Q. rewrite Ei in Q. rewrite H in Q. rewrite existsb_app in Q; cbn [existsb] in Q.
            rewrite Ce in Q. rewrite orb_true_r in Q. discriminate. }
        pose proof (i_ft _ _ I Ei) as F. destruct (i_cur _ _ I Ei) as (k1 & k & k2 & Hk & Ck & Nk & B & _).
        assert (Bf : breaks w = false).
        { destruct (breaks w); [|reflexivity]. rewrite F in M. cbn in M. rewrite orb_true_r in M. discriminate. }
        assert (Mw : mustReturn w = true).
        { rewrite F, Bf in M. cbn in M. exact M. }
        rewrite Hk in H.
        (* the place of the last marker relative to [e] *)
        assert (Pl : (k1 = l1 /\ k = e /\ k2 = l2) \/ (exists l2a, l2 = l2a ++ k :: k2)).
        { clear - H Ce Nk. revert l1 H. induction k1 as [|y k1 IH]; intros l1 H.
          - destruct l1 as [|z l1]; cbn in H; injection H as -> H; [left; auto|].
            exfalso. rewrite H in Nk. rewrite existsb_app in Nk; cbn [existsb] in Nk. rewrite Ce, orb_true_r in Nk. discriminate.
          - destruct l1 as [|z l1]; cbn in H; injection H as -> H.
            + right. exists k1. auto.
            + destruct (IH _ H) as [(-> & -> & ->)|?]; auto. }
        destruct Pl as [(-> & -> & ->)|(l2a & ->)].
        -- right. rewrite B in Bf. destruct (canB (f x)) eqn:Eb; [|reflexivity].
           enough (existsb (fun x => canB (f x)) l2 = true) by congruence. apply existsb_exists. eauto.
        -- apply in_app_or in Hx as [Hx|[<-|Hx]].
           ++ eapply (i_must _ _ I Mw l1 e l2a k k2); try eassumption.
              rewrite Hk. exact H.
           ++ auto.
           ++ right. rewrite B in Bf. destruct (canB (f x)) eqn:Eb; [|reflexivity].
              enough (existsb (fun x => canB (f x)) k2 = true) by congruence. apply existsb_exists. eauto.
      * assert (Mw : mustReturn w = true) by (destruct (_ && _) in M; [discriminate|exact M]).
        eapply (i_must _ _ I Mw l1 e l2 e' l3'); try eassumption.
        rewrite H, <- app_assoc. reflexivity.
  - rewrite (casem_step _ _ C). cbv zeta. split; cbn [inSwitch hasDefault fallThrough breaks thisReturn mustReturn].
    + rewrite existsb_app; cbn [existsb]. rewrite C, !orb_false_r. apply I.
    + rewrite existsb_app; cbn [existsb]. rewrite (i_def _ _ I). unfold casem in C.
      destruct (is_marker s) as [[]|]; cbn in *; try discriminate; now rewrite !orb_false_r.
    + intros Ei. pose proof (i_ft _ _ I Ei) as F. destruct (breaks w || canB (f s)) eqn:Eb; [reflexivity|].
      apply orb_false_iff in Eb as [Eb _]. rewrite F, Eb. reflexivity.
    + intros Ei. destruct (i_cur _ _ I Ei) as (k1 & k & k2 & Hk & Ck & Nk & B & T).
      exists k1, k, (k2 ++ [s]). rewrite !existsb_app; cbn [existsb]. rewrite B, T, Nk, C, !orb_false_r.
      rewrite Hk, <- app_assoc. auto.
    + intros M l1 e l2 e' l3 H Ce Ce' x Hx.
      rewrite app_comm_cons, app_assoc in H. apply split_last in H as [(-> & H & ->)|(l3' & -> & H)]; [congruence|].
      eapply (i_must _ _ I M l1 e l2 e' l3'); try eassumption. rewrite H, <- app_assoc. reflexivity.
Qed.
Lemma inv_fold l : inv l (fold_left stepf l sw0).
Proof.
  induction l as [|x l IH] using rev_ind; [exact inv0|]. rewrite fold_left_app; cbn [fold_left]. apply inv_step, IH.
Qed.

Lemma casem_escape_free l1 e l2 k1 k k2 :
  l1 ++ e :: l2 = k1 ++ k :: k2 -> casem e = true -> existsb casem k2 = false ->
  (k1 = l1 /\ k = e /\ k2 = l2) \/ (exists l2a, l2 = l2a ++ k :: k2).
Proof.
  intros H Ce Nk. revert l1 H. induction k1 as [|y k1 IH]; intros l1 H.
  - destruct l1 as [|z l1]; cbn in H; injection H as -> H; [left; auto|].
    exfalso. rewrite <- H in Nk. rewrite existsb_app in Nk; cbn [existsb] in Nk. rewrite Ce, orb_true_r in Nk. discriminate.
  - destruct l1 as [|z l1]; cbn in H; injection H as -> H.
    + right. eauto.
    + destruct (IH _ H) as [(-> & -> & ->)|?]; auto.
Qed.

Lemma sw_closed l : sw_end (fold_left stepf l sw0) = true -> closed l.
Proof.
  intros S l1 e l2 -> Ce. pose proof (inv_fold (l1 ++ e :: l2)) as I.
  set (w := fold_left stepf (l1 ++ e :: l2) sw0) in *.
  assert (Ei : inSwitch w = true).
  { rewrite (i_in _ _ I), existsb_app; cbn [existsb]. rewrite Ce. now rewrite orb_true_r. }
  destruct (i_cur _ _ I Ei) as (k1 & k & k2 & Hk & Ck & Nk & B & T).
  unfold sw_end in S. rewrite Ei in S; cbn [andb] in S.
  destruct (thisReturn w) eqn:Et; [|discriminate]. destruct (breaks w) eqn:Eb; [discriminate|]. cbn in S.
  assert (NB : forall x, In x k2 -> canB (f x) = false).
  { intros x Hx. destruct (canB (f x)) eqn:E; [|reflexivity].
    enough (existsb (fun x => canB (f x)) k2 = true) by congruence. apply existsb_exists; eauto. }
  symmetry in T. apply existsb_exists in T as (r & Hr & Er).
  assert (Cr : casem r = false).
  { destruct (casem r) eqn:E; [|reflexivity]. enough (existsb casem k2 = true) by congruence. apply existsb_exists; eauto. }
  destruct (casem_escape_free _ _ _ _ _ _ Hk Ce Nk) as [(-> & -> & ->)|(l2a & ->)].
  - split; [intros x Hx; left; auto|exists r; auto].
  - split.
    + intros x Hx. apply in_app_or in Hx as [Hx|[<-|Hx]]; auto.
      apply or_comm. eapply (i_must _ _ I S l1 e l2a k k2); eauto.
    + exists r. split; [apply in_or_app; right; right; exact Hr|auto].
Qed.

Lemma used_spec l : let w := fold_left stepf l sw0 in
  forall en, enum = Some en -> NoDup (used w) /\ (forall c, In c (used w) -> In c en /\ exists s, In s l /\ is_marker s = Some (MC c)).
Proof.
  cbv zeta. intros en En. induction l as [|x l [N U]] using rev_ind; [split; [constructor|intros c []]|].
  rewrite fold_left_app; cbn [fold_left]. set (w := fold_left stepf l sw0) in *.
  assert (Keep : forall c, In c (used w) -> In c en /\ exists s, In s (l ++ [x]) /\ is_marker s = Some (MC c)).
  { intros c Hc. destruct (U c Hc) as (? & s & ? & ?). split; [assumption|]. exists s. rewrite in_app_iff. auto. }
  unfold stepf, sw_step. destruct (is_marker x) as [[lb|c|]|] eqn:Ex; cbn [used]; auto.
  rewrite En. destruct (existsb (Nat.eqb c) en) eqn:E1; cbn [andb]; auto.
  destruct (existsb (Nat.eqb c) (used w)) eqn:E2; cbn [negb]; auto.
  split.
  - constructor; [|exact N]. intros Hc. enough (existsb (Nat.eqb c) (used w) = true) by congruence.
    apply existsb_exists. exists c. split; [exact Hc|apply Nat.eqb_refl].
  - intros c' [<-|Hc]; [|auto]. apply existsb_exists in E1 as (c' & Hc' & Ec'). apply Nat.eqb_eq in Ec'. subst c'.
    split; [exact Hc'|]. exists x. rewrite in_app_iff. split; [right; left; reflexivity|exact Ex].
Qed.

Lemma sw_all_spec l : sw_all enum (fold_left stepf l sw0) = true ->
  (forall en, enum = Some en -> NoDup en) ->
  forall c, (forall en, enum = Some en -> In c en) ->
  (exists s, In s l /\ is_marker s = Some (MC c)) \/ (exists s, In s l /\ is_marker s = Some MD).
Proof.
  intros A ND c Hc. pose proof (inv_fold l) as I. pose proof (used_spec l) as U. cbv zeta in U.
  set (w := fold_left stepf l sw0) in *.
  assert (D : hasDefault w = true -> exists s, In s l /\ is_marker s = Some MD).
  { rewrite (i_def _ _ I). intros H. apply existsb_exists in H as (s & Hs & H). exists s. split; [exact Hs|].
    destruct (is_marker s) as [[]|]; try discriminate; reflexivity. }
  unfold sw_all in A. destruct enum as [en|] eqn:En; [|right; auto].
  apply orb_prop in A as [A|A]; [right; auto|]. apply Nat.eqb_eq in A.
  destruct (U en eq_refl) as [N Us]. left.
  assert (Inc : incl en (used w)).
  { apply NoDup_length_incl; [exact N|lia|]. intros x Hx. apply Us, Hx. }
  destruct (Us c (Inc c (Hc en eq_refl))) as [_ H]. exact H.
Qed.
End Switch.

Section Analysis.
Variable unreach : bool.
Variable shown : stmt -> bool.
Notation analyse := (analyse unreach shown).

Lemma switch_eq e enum a : analyse (Switch e enum a) =
  let w := fold_left (stepf analyse enum) (flatten a) sw0 in let n := enode e in
  Node (if sw_all enum w && sw_end w then XK_MUSTRETURN else xk n) (mustB n) (canB n) false.
Proof.
  cbn [Flow_model.analyse].
  match goal with |- context [(fix loop (s : stmt) (w : sw) {struct s} : sw := _)] =>
    set (lp := (fix loop (s : stmt) (w : sw) {struct s} : sw := _)) end.
  assert (L : forall s w, lp s w = fold_left (stepf analyse enum) (flatten s) w).
  { induction s; intros w; try reflexivity.
    - cbn [flatten]. rewrite fold_left_app, <- IHs1, <- IHs2. reflexivity.
    - cbn [flatten]. rewrite <- IHs. reflexivity.
    - cbn [flatten]. transitivity (match core s with Seq _ _ | Block _ => lp s w | _ => stepf analyse enum w (NotReached s) end).
      { destruct s; reflexivity. }
      destruct (core s); try reflexivity; apply IHs. }
  rewrite <- L. reflexivity.
Qed.

Lemma enode_noBreak e : canB (enode e) = false.
Proof. induction e; cbn [enode plain canB combineControl]; auto; rewrite IHe1, IHe2; reflexivity. Qed.

(** ** A statement that cannot break does not *)
Lemma noBreak s : canB (analyse s) = false -> forall en, ~ exec s en OBreak.
Proof.
  induction s; intros H en X.
  - inversion X.
  - inversion X.
  - inversion X; subst. apply eexec_nobreak in H1 as [?|?]; discriminate.
  - inversion X.
  - discriminate.
  - inversion X.
  - inversion X.
  - inversion X.
  - cbn [Flow_model.analyse] in H. unfold concat in H.
    assert (K : canB (analyse s1) = false /\ canB (analyse s2) = false).
    { destruct (_ && _ && _) in H; [destruct (is_semi s2); [|destruct (shown s2)]|]; try discriminate H;
        apply orb_false_iff in H; exact H. }
    destruct K as [K1 K2]. inversion X; subst; [eapply IHs2|eapply IHs1|eapply IHs2]; eauto.
  - inversion X; subst. eapply IHs; eauto.
  - inversion X; subst. eapply IHs; eauto.
  - inversion X; subst. eapply IHs; eauto.
  - apply orb_false_iff in H as [H1 H2]. inversion X; subst; [eapply IHs1|eapply IHs2]; eauto.
  - clear H. remember (While v s) as w eqn:Ew. remember OBreak as o eqn:Eo. revert Ew Eo.
    induction X; intros Ew Eo; try discriminate; try (injection Ew as -> ->); subst; auto;
      destruct o; cbn in *; try discriminate; try contradiction.
  - clear H. remember (DoWhile s) as w eqn:Ew. remember OBreak as o eqn:Eo. revert Ew Eo.
    induction X; intros Ew Eo; try discriminate; try (injection Ew as ->); subst; auto;
      destruct o; cbn in *; try discriminate; try contradiction.
  - clear H. remember (For test s) as w eqn:Ew. remember OBreak as o eqn:Eo. revert Ew Eo.
    induction X; intros Ew Eo; try discriminate; try (injection Ew as -> ->); subst; auto;
      destruct o; cbn in *; try discriminate; try contradiction.
  - inversion X; subst; match goal with H : ends _ OBreak |- _ => inversion H; subst; congruence end.
Qed.

Lemma leads_jump s : leads s = true -> jump (analyse s) = true.
Proof.
  induction s; cbn [leads]; try discriminate; intros H; try reflexivity.
  cbn [Flow_model.analyse]. unfold concat. specialize (IHs1 H).
  destruct (_ && _ && _); [destruct (is_semi s2); [|destruct (shown s2)]|]; cbn; auto.
Qed.

Lemma marker_not_must s m : is_marker s = Some m -> forall en o, exec s en o -> o = ONormal.
Proof.
  unfold is_marker. induction s; cbn [core]; try discriminate.
  - intros _ en o X. inversion X; reflexivity.
  - intros H en o X. inversion X; subst. eauto.
Qed.

(** Control that has entered a closed list at a case marker neither reaches its end nor breaks. *)
Lemma closed_exec l : closed analyse l ->
  (forall x, In x l -> mustEscape (analyse x) = true -> forall en, ~ exec x en ONormal) ->
  forall l1 e l2 o, l = l1 ++ e :: l2 -> casem e = true -> execs l2 Top o -> o <> ONormal /\ o <> OBreak.
Proof.
  intros Cl Mu l1 e l2 o El Ce X. destruct (Cl l1 e l2 El Ce) as [NB (r & Hr & Er & Cr)].
  assert (Sub : forall x, In x l2 -> In x l) by (intros x Hx; rewrite El, in_app_iff; right; right; exact Hx).
  clear Cl El Ce. split.
  - intros ->. revert X Hr Sub. clear NB. induction l2 as [|x l2 IH]; intros X Hr Sub; [destruct Hr|].
    inversion X; subst; [|congruence]. destruct Hr as [->|Hr].
    + eapply Mu; [apply Sub; left; reflexivity|exact Er|eassumption].
    + apply IH; auto. intros y Hy. apply Sub. right; exact Hy.
  - intros ->. clear Hr. revert X NB Sub. induction l2 as [|x l2 IH]; intros X NB Sub; [inversion X|].
    inversion X; subst.
    + apply IH; auto; intros y Hy; [apply NB|apply Sub]; right; exact Hy.
    + destruct (NB x (or_introl eq_refl)) as [B|C].
      * eapply noBreak; eauto.
      * unfold casem in C. destruct (is_marker x) as [m|] eqn:Em; [|discriminate].
        pose proof (marker_not_must _ _ Em _ _ H1). discriminate.
Qed.

(** Entering a list at a case marker. *)
Lemma execs_at l m o : case_mark m = true ->
  (forall x, In x l -> is_marker x = None -> ~ In m (marks x)) ->
  execs l (At m) o -> exists l1 e l2, l = l1 ++ e :: l2 /\ is_marker e = Some m /\ execs l2 Top o.
Proof.
  intros Cm. induction l as [|x l IH]; intros N X; [inversion X|].
  assert (Ent : forall o', exec x (At m) o' -> is_marker x = Some m).
  { intros o' X'. destruct (is_marker x) as [m'|] eqn:E.
    - destruct (is_marker_exec _ _ _ _ E X') as [D|D]; congruence.
    - exfalso. eapply N; [left; reflexivity|exact E|]. eapply exec_marks; eauto. }
  inversion X; subst.
  - exists [], x, l. split; [reflexivity|]. split; [eauto|assumption].
  - pose proof (marker_not_must _ _ (Ent _ H1) _ _ H1). congruence.
  - destruct IH as (l1 & e & l2 & -> & E & X'); [intros y Hy; apply N; right; exact Hy|assumption|].
    exists (x :: l1), e, l2. auto.
Qed.

Lemma top_marks_incl s m : In m (top_marks s) -> In m (marks s).
Proof.
  induction s; cbn [top_marks marks]; auto; try (intros []; fail).
  rewrite !in_app_iff. tauto.
Qed.
(** Markers that all stand directly in the body do not stand inside its other statements. *)
Lemma marks_length s : (List.length (top_marks s) <= List.length (marks s))%nat.
Proof. induction s; cbn [top_marks marks List.length]; rewrite ?app_length; lia. Qed.
Lemma app_len_inj {A} (a b c d : list A) : a ++ b = c ++ d -> List.length a = List.length c -> a = c /\ b = d.
Proof.
  revert c; induction a as [|x a IH]; intros [|y c] E L; try discriminate; cbn in *; [auto|].
  injection E as -> E. injection L as L. destruct (IH _ E L) as [-> ->]. auto.
Qed.
Lemma tops_split a b : marks a ++ marks b = top_marks a ++ top_marks b -> marks a = top_marks a /\ marks b = top_marks b.
Proof.
  intros H. pose proof (marks_length a). pose proof (marks_length b).
  assert (L : List.length (marks a ++ marks b) = List.length (top_marks a ++ top_marks b)) by (rewrite H; reflexivity).
  rewrite !app_length in L. apply app_len_inj in H; [exact H|lia].
Qed.
Lemma tidy_elements s x : marks s = top_marks s -> In x (flatten s) -> is_marker x = None -> marks x = [].
Proof.
  revert x; induction s; intros x M Hx Nx; cbn [flatten marks top_marks] in *;
    try (destruct Hx as [<-|[]]; cbn; auto; fail).
  - destruct Hx as [<-|[]]. discriminate.
  - apply tops_split in M as [M1 M2]. apply in_app_or in Hx as [Hx|Hx]; eauto.
  - eauto.
  - assert (D : In x (flatten s) \/ (x = NotReached s /\ match core s with Seq _ _ | Block _ => False | _ => True end)).
    { destruct (core s); (left; exact Hx) || (right; destruct Hx as [<-|[]]; auto). }
    destruct D as [D|[-> D]]; [eauto|]. cbn [marks]. unfold is_marker in Nx; cbn [core] in Nx. rewrite M.
    clear - Nx D. induction s; cbn [core top_marks] in *; auto; try discriminate; contradiction.
Qed.

(** ** A statement that must escape does not end normally *)
Definition sound (s : stmt) : Prop := mustEscape (analyse s) = true -> forall en, ~ exec s en ONormal.


Lemma sound_all s : tidy s -> marks_ok s -> sound s /\ (forall x, In x (flatten s) -> sound x).
Proof.
  assert (One : forall s, flatten s = [s] -> sound s -> sound s /\ (forall x, In x (flatten s) -> sound x)).
  { intros t E S. split; [exact S|]. rewrite E. intros x [<-|[]]. exact S. }
  induction s; intros T M.
  - apply One; [reflexivity|]. intros H. discriminate.
  - apply One; [reflexivity|]. intros H. discriminate.
  - apply One; [reflexivity|]. intros H en X. inversion X; subst. eapply enode_must; [exact H|eassumption].
  - apply One; [reflexivity|]. intros H en X. inversion X.
  - apply One; [reflexivity|]. intros H en X. inversion X.
  - apply One; [reflexivity|]. intros H en X. inversion X.
  - apply One; [reflexivity|]. intros H en X. inversion X.
  - apply One; [reflexivity|]. intros H. discriminate.
  - destruct T as [T1 T2], M as (M1 & M2 & M3). destruct (IHs1 T1 M1) as [S1 F1], (IHs2 T2 M2) as [S2 F2].
    split; [|cbn [flatten]; intros x Hx; apply in_app_or in Hx as [Hx|Hx]; auto].
    intros H en X. cbn [Flow_model.analyse] in H. unfold concat in H.
    destruct (mustEscape (analyse s1) && negb (jump (analyse s2)) && unreach) eqn:E.
    + apply andb_prop in E as [E _]. apply andb_prop in E as [E1 E2].
      inversion X; subst.
      * eapply S1; eauto.
      * congruence.
      * destruct M3 as [L|[L|[en L]]].
        -- rewrite (leads_jump _ L) in E2. discriminate.
        -- match goal with X2 : exec s2 (At _) _ |- _ => pose proof (exec_marks _ _ _ X2 _ eq_refl) as K end.
           rewrite L in K. destruct K.
        -- eapply S1; eauto.
    + assert (E2 : mustEscape (analyse s2) = true) by exact H.
      inversion X; subst; [eapply S2|congruence|eapply S2]; eauto.
  - destruct (IHs T M) as [S F]. split; [|exact F]. intros H en X. inversion X; subst. eapply S; eauto.
  - destruct (IHs T M) as [S F].
    assert (S' : sound (NotReached s)) by (intros H en X; inversion X; congruence).
    split; [exact S'|]. cbn [flatten]. destruct (core s); try exact F; intros x [<-|[]]; exact S'.
  - apply One; [reflexivity|]. intros H. unfold mustEscape in H; cbn [Flow_model.analyse xk mustB] in H.
    rewrite kmust_conditional in H. discriminate.
  - apply One; [reflexivity|]. destruct T as [T1 T2], M as [M1 M2].
    destruct (IHs1 T1 M1) as [S1 _], (IHs2 T2 M2) as [S2 _]. intros H en X.
    apply must_combineControl in H as [H1 H2]. inversion X; subst; [eapply S1|eapply S2]; eauto.
  - apply One; [reflexivity|]. intros H. unfold mustEscape in H; cbn [Flow_model.analyse xk mustB] in H.
    destruct v as [z|]; [|discriminate]. destruct (z =? 0) eqn:Ez; [discriminate|]. destruct (canB (analyse s)) eqn:Eb; [discriminate|].
    intros en X. remember (While (Some z) s) as w eqn:Ew. remember ONormal as o eqn:Eo. revert Ew Eo.
    induction X; intros Ew Eo; try discriminate; try (injection Ew as -> ->); subst; auto.
    + rewrite (H0 z eq_refl) in Ez. discriminate.
    + destruct o; cbn in *; try discriminate; try contradiction. eapply noBreak; eauto.
    + destruct o; cbn in *; try discriminate; try contradiction. eapply noBreak; eauto.
  - apply One; [reflexivity|]. intros H. unfold mustEscape in H; cbn [Flow_model.analyse xk mustB] in H.
    rewrite kmust_conditional in H. discriminate.
  - apply One; [reflexivity|]. intros H. unfold mustEscape in H; cbn [Flow_model.analyse xk mustB] in H.
    destruct (negb test && negb (canB (analyse s))) eqn:E; [|rewrite kmust_conditional in H; discriminate].
    destruct test; [discriminate|]. destruct (canB (analyse s)) eqn:Eb; [discriminate|].
    intros en X. remember (For false s) as w eqn:Ew. remember ONormal as o eqn:Eo. revert Ew Eo.
    induction X; intros Ew Eo; try discriminate; try (injection Ew as -> ->); subst; auto;
      destruct o; cbn in *; try discriminate; try contradiction; eapply noBreak; eauto.
  - apply One; [reflexivity|]. destruct T as (T & Tm & Tc & Tn). cbn [marks_ok] in M.
    destruct (IHs T M) as [_ F]. intros H en X.
    unfold mustEscape in H. rewrite switch_eq in H. cbv zeta in H. cbn [xk mustB] in H.
    set (w := fold_left (stepf analyse enum) (flatten s) sw0) in *.
    assert (Lab : forall l o, ~ exec s (At (ML l)) o).
    { intros l o X'. pose proof (exec_marks _ _ _ X' _ eq_refl) as K. apply Tc in K. discriminate. }
    assert (At_case : sw_end w = true -> forall m o, case_mark m = true -> exec s (At m) o -> o <> ONormal /\ o <> OBreak).
    { intros Ew m o Cm X'. apply flatten_exec in X'. apply execs_at in X' as (l1 & e' & l2 & El & Em & X'); [|exact Cm|].
      - eapply closed_exec; [apply (sw_closed _ enum); exact Ew| |exact El| |exact X'].
        + intros x Hx Hm en'. apply (F x Hx Hm).
        + unfold casem. rewrite Em. exact Cm.
      - intros x Hx Nx K. rewrite (tidy_elements _ _ Tm Hx Nx) in K. destruct K. }
    destruct (sw_all enum w && sw_end w) eqn:Esw.
    + apply andb_prop in Esw as [Ea Ee]. inversion X; subst.
      * match goal with X' : exec s _ _ |- _ => destruct (At_case Ee (MC c) _ eq_refl X') end.
        match goal with K : ends _ _ |- _ => inversion K; subst; congruence end.
      * match goal with X' : exec s _ _ |- _ => destruct (At_case Ee MD _ eq_refl X') end.
        match goal with K : ends _ _ |- _ => inversion K; subst; congruence end.
      * match goal with Hc : forall l, enum = Some l -> In c l |- _ =>
          destruct (sw_all_spec _ _ _ Ea Tn c Hc) as [K|K]; apply flatten_markers in K; apply top_marks_incl in K; contradiction end.
      * eapply Lab; eauto.
    + assert (K : ~ eexec e ONormal) by (apply enode_must; exact H).
      inversion X; subst; try contradiction. eapply Lab; eauto.
Qed.

Lemma must_sound s : tidy s -> marks_ok s -> sound s.
Proof. intros T M. exact (proj1 (sound_all s T M)). Qed.

(** ** The message about paths without return *)
Lemma error_message s : xk (analyse s) = XK_ERROR -> messages unreach shown s <> [].
Proof.
  induction s; cbn [Flow_model.analyse messages]; try discriminate.
  - intros H. exfalso. eapply enode_error; exact H.
  - unfold concat. intros H K. apply app_eq_nil in K as [K1 K]. apply app_eq_nil in K as [K2 K].
    unfold unreached in K.
    destruct (mustEscape (analyse s1) && negb (jump (analyse s2)) && unreach) eqn:E.
    + destruct (is_semi s2); [discriminate|]. destruct (shown s2); [discriminate K|discriminate H].
    + cbn [xk] in H. exact (IHs2 H K2).
  - exact IHs.
  - cbn [xk]. intros H. apply IHs. now apply conditional_error.
  - cbn [xk combineControl]. intros H K. apply app_eq_nil in K as [K1 K2]. apply combine_error in H as [H|H]; [exact (IHs1 H K1)|exact (IHs2 H K2)].
  - cbn [xk]. destruct v as [z|]; [|discriminate]. destruct (_ && _); discriminate.
  - cbn [xk]. intros H. apply IHs. now apply conditional_error.
  - cbn [xk]. intros H. destruct (_ && _) in H; [discriminate|]. apply IHs. now apply conditional_error.
  - intros H. exfalso. fold (analyse (Switch e enum s)) in H.
    change (xk (analyse (Switch e enum s)) = XK_ERROR) in H. rewrite switch_eq in H. cbv zeta in H; cbn [xk] in H.
    destruct (_ && _) in H; [discriminate|]. eapply enode_error; exact H.
Qed.

Lemma run_exec body en o : run body en o -> exists en', exec body en' o.
Proof. induction 1; eauto. Qed.

Lemma no_missed body : tidy body -> marks_ok body -> falls_off body ->
  noret unreach shown body = true \/ messages unreach shown body <> [].
Proof.
  intros T M R. apply run_exec in R as [en X]. unfold noret.
  destruct (mustEscape (analyse body)) eqn:E; [destruct (must_sound _ T M E _ X)|]. cbn [negb andb].
  destruct (xk (analyse body)) eqn:K; auto. right. now apply error_message.
Qed.

(** ** Exactness *)
Lemma structured_jump s : structured s -> messages unreach shown s = [] -> jump (analyse s) = false.
Proof.
  induction s; intros S M; try reflexivity; try contradiction S.
  cbn [structured messages] in *. destruct S as [S _]. apply app_eq_nil in M as [M1 M]. apply app_eq_nil in M as [M2 M].
  specialize (IHs1 S M1). cbn [Flow_model.analyse]. unfold concat. unfold unreached in M.
  destruct (mustEscape (analyse s1) && negb (jump (analyse s2)) && unreach); [|exact IHs1].
  destruct (is_semi s2); [exact IHs1|]. destruct (shown s2); [discriminate M|exact IHs1].
Qed.
Lemma exact_normal s : unreach = true -> structured s -> messages unreach shown s = [] ->
  mustEscape (analyse s) = false -> exec s Top ONormal.
Proof.
  intros U. induction s; intros S M H; cbn [structured messages] in *; try discriminate; try contradiction; try (constructor; fail).
  - constructor. apply enode_exact; assumption.
  - destruct S as [S1 S2]. apply app_eq_nil in M as [M1 M]. apply app_eq_nil in M as [M2 M]. unfold unreached in M.
    cbn [Flow_model.analyse] in H. unfold concat in H.
    pose proof (structured_jump _ S2 M2) as J.
    replace (mustEscape (analyse s1) && negb (jump (analyse s2)) && unreach) with (mustEscape (analyse s1)) in H, M
      by (rewrite J, U; cbn; now rewrite !andb_true_r).
    destruct (mustEscape (analyse s1)) eqn:E1.
    + destruct (is_semi s2); [discriminate|]. destruct (shown s2); discriminate.
    + eapply X_seq; eauto.
  - constructor. auto.
  - destruct S as [S1 S2]. apply app_eq_nil in M as [M1 M2].
    destruct (mustEscape (analyse s1)) eqn:E1; [|apply X_else_a; auto].
    destruct (mustEscape (analyse s2)) eqn:E2; [|apply X_else_b; auto].
    destruct (combineControl_not _ _ H E1 E2).
  - constructor. intros z ->. contradiction.
  - destruct test; [constructor|contradiction].
Qed.

Lemma structured_tidy s : structured s -> tidy s /\ marks_ok s /\ marks s = [].
Proof.
  induction s; cbn [structured]; try contradiction; cbn [tidy marks_ok marks]; auto.
  - intros [S1 S2]. destruct (IHs1 S1) as (? & ? & E1), (IHs2 S2) as (? & ? & E2). rewrite E1, E2. auto 8.
  - intros [S1 S2]. destruct (IHs1 S1) as (? & ? & E1), (IHs2 S2) as (? & ? & E2). rewrite E1, E2. auto 8.
  - destruct v; [contradiction|]. auto.
  - destruct test; [|contradiction]. auto.
Qed.

Lemma exact_noret body : unreach = true -> structured body -> messages unreach shown body = [] ->
  (noret unreach shown body = true <-> falls_off body).
Proof.
  intros U S M. destruct (structured_tidy _ S) as (T & K & _). split.
  - intros N. unfold noret in N. apply andb_prop in N as [N _]. apply negb_true_iff in N.
    apply R_end; [|discriminate]. now apply exact_normal.
  - intros R. destruct (no_missed _ T K R); [assumption|contradiction].
Qed.

(** ** Unreachable code *)
Lemma unreached_sound a b : tidy a -> marks_ok (Seq a b) -> unreached unreach shown a b = true ->
  (forall en, ~ exec a en ONormal) /\ marks b = [].
Proof.
  intros T (M1 & _ & M3) U. unfold unreached in U. apply andb_prop in U as [U _]. apply andb_prop in U as [U _].
  apply andb_prop in U as [U J]. assert (S := must_sound _ T M1 U). split; [exact S|].
  destruct M3 as [L|[L|[en L]]]; [|exact L|destruct (S _ L)].
  rewrite (leads_jump _ L) in J. discriminate.
Qed.

Definition imp (a a' : stmt) : Prop := marks a = marks a' /\ forall en o, exec a en o -> exec a' en o.
Lemma imp_refl a : imp a a.
Proof. split; auto. Qed.
Lemma imp_seq a a' b b' : imp a a' -> imp b b' -> imp (Seq a b) (Seq a' b').
Proof.
  intros [Ma Ia] [Mb Ib]. split; [cbn; congruence|]. intros en o X. inversion X; subst.
  - eapply X_seq; eauto.
  - eapply X_seq_out; eauto.
  - eapply X_seq_at; eauto.
Qed.
Lemma imp_cut a a' b b' : (forall en, ~ exec a en ONormal) -> marks b = [] -> marks b' = [] -> imp a a' -> imp (Seq a b) (Seq a' b').
Proof.
  intros N B B' [Ma Ia]. split; [cbn; congruence|]. intros en o X. inversion X; subst.
  - exfalso; eapply N; eauto.
  - eapply X_seq_out; eauto.
  - match goal with H : exec b (At _) _ |- _ => pose proof (exec_marks _ _ _ H _ eq_refl) as K end. rewrite B in K. destruct K.
Qed.
Lemma imp_block a a' : imp a a' -> imp (Block a) (Block a').
Proof. intros [M I]. split; [exact M|]. intros en o X. inversion X; subst. constructor; auto. Qed.
Lemma imp_notreached a a' : imp a a' -> imp (NotReached a) (NotReached a').
Proof. intros [M I]. split; [exact M|]. intros en o X. inversion X; subst. constructor; auto. Qed.
Lemma imp_if a a' : imp a a' -> imp (If a) (If a').
Proof. intros [M I]. split; [exact M|]. intros en o X. inversion X; subst; [apply X_if_exit|apply X_if_skip|apply X_if; auto]. Qed.
Lemma imp_ifelse a a' b b' : imp a a' -> imp b b' -> imp (IfElse a b) (IfElse a' b').
Proof.
  intros [Ma Ia] [Mb Ib]. split; [cbn; congruence|]. intros en o X.
  inversion X; subst; [apply X_else_exit|apply X_else_a; auto|apply X_else_b; auto].
Qed.
Lemma imp_while v a a' : imp a a' -> imp (While v a) (While v a').
Proof.
  intros [M I]. split; [exact M|]. intros en o X. remember (While v a) as w eqn:Ew. revert Ew.
  induction X; intros Ew; try discriminate; injection Ew as -> ->.
  - apply X_while_exit.
  - apply X_while_end; assumption.
  - eapply X_while; eauto.
  - eapply X_while_round; eauto.
  - eapply X_while_at; eauto.
  - eapply X_while_at_round; eauto.
Qed.
Lemma imp_do a a' : imp a a' -> imp (DoWhile a) (DoWhile a').
Proof.
  intros [M I]. split; [exact M|]. intros en o X. remember (DoWhile a) as w eqn:Ew. revert Ew.
  induction X; intros Ew; try discriminate; injection Ew as ->.
  - eapply X_do; eauto.
  - eapply X_do_round; eauto.
  - eapply X_do_end; eauto.
  - eapply X_do_exit; eauto.
Qed.
Lemma imp_for t a a' : imp a a' -> imp (For t a) (For t a').
Proof.
  intros [M I]. split; [exact M|]. intros en o X. remember (For t a) as w eqn:Ew. revert Ew.
  induction X; intros Ew; try discriminate; injection Ew as Et Ea; subst.
  - apply X_for_exit.
  - apply X_for_end.
  - eapply X_for; eauto.
  - eapply X_for_round; eauto.
  - eapply X_for_at; eauto.
  - eapply X_for_at_round; eauto.
Qed.
Lemma imp_switch e en a a' : imp a a' -> imp (Switch e en a) (Switch e en a').
Proof.
  intros [M I]. split; [cbn; congruence|]. intros n o X. inversion X; subst.
  - apply X_switch_exit.
  - eapply X_switch_case; eauto. congruence.
  - eapply X_switch_default; eauto. congruence.
  - eapply X_switch_none; eauto; congruence.
  - eapply X_switch_label; eauto.
Qed.

Lemma pruned_same s s' : pruned (unreached unreach shown) s s' -> tidy s -> marks_ok s -> imp s s' /\ imp s' s.
Proof.
  induction 1; intros T M.
  - split; apply imp_refl.
  - destruct T as [T1 T2]. pose proof M as (M1 & M2 & _). destruct (IHpruned T1 M1) as [I1 I2].
    destruct (unreached_sound _ _ T1 M H0) as [N B].
    split; [apply imp_cut; auto|]. apply imp_cut; auto. intros en X. apply I2 in X. exact (N _ X).
  - destruct T as [T1 T2], M as (M1 & M2 & _). destruct (IHpruned1 T1 M1), (IHpruned2 T2 M2). split; apply imp_seq; assumption.
  - destruct (IHpruned T M). split; apply imp_block; assumption.
  - destruct (IHpruned T M). split; apply imp_notreached; assumption.
  - destruct (IHpruned T M). split; apply imp_if; assumption.
  - destruct T as [T1 T2], M as [M1 M2]. destruct (IHpruned1 T1 M1), (IHpruned2 T2 M2). split; apply imp_ifelse; assumption.
  - destruct (IHpruned T M). split; apply imp_while; assumption.
  - destruct (IHpruned T M). split; apply imp_do; assumption.
  - destruct (IHpruned T M). split; apply imp_for; assumption.
  - destruct T as [T _]. destruct (IHpruned T M). split; apply imp_switch; assumption.
Qed.

Lemma run_imp s s' : imp s s' -> forall en o, run s en o -> run s' en o.
Proof.
  intros [_ I] en o R. induction R.
  - apply R_end; auto.
  - eapply R_goto; eauto.
Qed.
Lemma pruned_run s s' : pruned (unreached unreach shown) s s' -> tidy s -> marks_ok s ->
  forall en o, run s en o <-> run s' en o.
Proof. intros P T M en o. destruct (pruned_same _ _ P T M). split; apply run_imp; assumption. Qed.

(** ** Falling through *)
Lemma last_flatten s : In (lastStatement s) (flatten s).
Proof.
  induction s; cbn [lastStatement flatten]; auto; try (left; reflexivity).
  - apply in_or_app. auto.
  - destruct (core s); auto; left; reflexivity.
Qed.
Lemma last_exec s en : exec s en ONormal -> exists en', exec (lastStatement s) en' ONormal.
Proof.
  revert en; induction s; intros en X; cbn [lastStatement]; eauto.
  - inversion X; subst; eauto. congruence.
  - inversion X; subst. eauto.
  - inversion X; subst. congruence.
Qed.
Lemma last_marker s m : is_marker (lastStatement s) = Some m -> ends_in_marker s.
Proof.
  induction s; cbn [lastStatement]; try discriminate; cbn [ends_in_marker]; auto.
  assert (K : is_marker s = Some m -> ends_in_marker s).
  { clear IHs. unfold is_marker. induction s; cbn [core]; try discriminate; cbn [ends_in_marker]; auto. }
  destruct (core s); auto.
Qed.
Lemma no_fall a b : tidy a -> marks_ok a -> falls unreach shown a b = false ->
  (exists c, b = Marker (MC c) false) \/ b = Marker MD false ->
  (forall en, ~ exec a en ONormal) \/ ends_in_marker a.
Proof.
  intros T M F B. unfold falls in F.
  assert (F' : negb (mustEscape (analyse (lastStatement a))) && match is_marker (lastStatement a) with Some _ => false | None => true end = false).
  { destruct B as [[c ->]| ->]; exact F. }
  destruct (is_marker (lastStatement a)) as [m|] eqn:E; [right; eapply last_marker; exact E|].
  rewrite andb_true_r in F'. apply negb_false_iff in F'. left. intros en X. apply last_exec in X as [en' X].
  destruct (sound_all a T M) as [_ S]. exact (S _ (last_flatten a) F' _ X).
Qed.
End Analysis.

Lemma direct_ok s : direct s -> tidy s /\ marks_ok s /\ (forall m, In m (marks s) -> case_mark m = true).
Proof.
  induction s; cbn [direct tidy marks_ok marks]; intros D; auto; try (split; [exact I|split; [exact I|intros m0 []; fail]]).
  - destruct m; [contradiction| |]; (split; [exact I|split; [exact I|]]); intros m0 [<-|[]]; reflexivity.
  - destruct D as (D1 & D2 & D3). destruct (IHs1 D1) as (? & ? & ?), (IHs2 D2) as (? & ? & ?).
    split; [auto|]. split; [tauto|]. intros m Hm. apply in_app_or in Hm as [|]; auto.
  - destruct D as (D1 & D2). destruct (IHs1 D1) as (? & ? & ?), (IHs2 D2) as (? & ? & ?).
    split; [auto|]. split; [auto|]. intros m Hm. apply in_app_or in Hm as [|]; auto.
  - destruct D as (D & Dm & Dn). destruct (IHs D) as (T & M & C). split; [auto|]. split; [exact M|].
    intros m Hm. apply filter_In in Hm as [Hm _]. auto.
Qed.
Lemma no_missed_direct unreach shown body : direct body -> falls_off body ->
  noret unreach shown body = true \/ messages unreach shown body <> [].
Proof. intros D. destruct (direct_ok _ D) as (T & M & _). now apply no_missed. Qed.

(** Functions for which the message is wrong. *)
Lemma comma_no_fall : ~ falls_off (Block (Expr (EComma (ECall XK_MUSTEXIT) EOther))).
Proof.
  intros R. apply run_exec in R as [en X]. repeat match goal with
  | H : exec (Block _) _ _ |- _ => inversion H; subst; clear H
  | H : exec (Expr _) _ _ |- _ => inversion H; subst; clear H
  | H : eexec (EComma _ _) _ |- _ => inversion H; subst; clear H
  | H : eexec (ECall _) _ |- _ => inversion H; subst; clear H
  end. congruence.
Qed.
Lemma block_inv a en o : exec (Block a) en o -> exec a en o.
Proof. intros X. inversion X; assumption. Qed.
Lemma do_no_fall : ~ falls_off (Block (DoWhile (Block Ret))).
Proof.
  intros R. apply run_exec in R as [en X]. apply block_inv in X.
  remember (DoWhile (Block Ret)) as w eqn:Ew. remember ONormal as o eqn:Eo. revert Ew Eo.
  induction X; intros Ew Eo; try discriminate; injection Ew as ->; subst;
    match goal with H : exec (Block Ret) _ _ |- _ => inversion H; subst; clear H end;
    match goal with H : exec Ret _ _ |- _ => inversion H; subst; clear H end;
    try discriminate; match goal with H : loops _ |- _ => destruct H; discriminate end.
Qed.
Definition continue_loop : stmt := While (Some 1) (Block (Seq (If Cont) Ret)).
Lemma continue_no_fall : ~ falls_off (Block continue_loop).
Proof.
  intros R. apply run_exec in R as [en X]. apply block_inv in X.
  assert (B : forall en o, exec (Block (Seq (If Cont) Ret)) en o -> o = OCont \/ o = OReturn \/ o = OExit).
  { clear X. intros en0 o X. apply block_inv in X. inversion X; subst; clear X.
    - match goal with H : exec Ret _ _ |- _ => inversion H; auto end.
    - match goal with H : exec (If _) _ _ |- _ => inversion H; subst; auto; try congruence end.
      match goal with H : exec Cont _ _ |- _ => inversion H; auto end.
    - match goal with H : exec Ret _ _ |- _ => inversion H end. }
  remember continue_loop as w eqn:Ew. remember ONormal as o eqn:Eo. revert Ew Eo. unfold continue_loop.
  induction X; intros Ew Eo; try discriminate; injection Ew as -> ->; subst; auto.
  - match goal with H : forall z, Some 1 = Some z -> z = 0 |- _ => specialize (H 1 eq_refl) end. lia.
  - match goal with H : exec (Block _) _ _ |- _ => destruct (B _ _ H) as [->|[->| ->]] end; cbn in *; discriminate || contradiction.
  - match goal with H : exec (Block _) _ _ |- _ => destruct (B _ _ H) as [->|[->| ->]] end; cbn in *; discriminate || contradiction.
Qed.
