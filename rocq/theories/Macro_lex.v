(* The shape of the pieces of a text. *)
From Verif Require Import Cbase Cbase_facts Macro_model Macro_spec Macro_proofs.
Import ListNotations.
Open Scope nat_scope.
Open Scope list_scope.

Fixpoint runS (st : lst) (s : cstr) : option lst :=
  match s with
  | [] => Some st
  | c :: r => match ext st c with Some st' => runS st' r | None => None end
  end.

Definition whole (p : piece) : Prop :=
  match snd p with [] => False | c :: r => runS (start c) r = Some (fst p) end.

Definition flat (l : list piece) : cstr := List.concat (map snd l).

Inductive chain : list piece -> Prop :=
| ch_nil : chain []
| ch_one : forall p, whole p -> chain [p]
| ch_cons : forall p q r, whole p ->
    (forall c w, snd q = c :: w -> ext (fst p) c = None) -> chain (q :: r) -> chain (p :: q :: r).

Lemma runS_app : forall a st b, runS st (a ++ b) = match runS st a with Some s => runS s b | None => None end.
Proof.
  induction a as [|c a IH]; intros; cbn [app runS]; auto. destruct (ext st c); auto.
Qed.

Lemma runS_end : forall s st st', runS st s = Some st' -> endFrom st s = st'.
Proof.
  induction s as [|c r IH]; intros st st' H; cbn [runS endFrom] in *; [now inversion H|].
  destruct (ext st c); [auto|discriminate].
Qed.
Lemma runS_pieces : forall s st cur st', runS st s = Some st' -> piecesFrom st cur s = [(st', rev cur ++ s)].
Proof.
  induction s as [|c r IH]; intros st cur st' H; cbn [runS piecesFrom] in *.
  - inversion H. now rewrite app_nil_r.
  - destruct (ext st c); [|discriminate]. rewrite (IH _ _ _ H). cbn [rev]. now rewrite <- app_assoc.
Qed.

Lemma whole_pieces : forall p, whole p -> pieces (snd p) = [p] /\ endOf (snd p) = fst p /\ snd p <> [].
Proof.
  intros [st t] H. unfold whole in H. cbn [fst snd] in *. destruct t as [|c r]; [contradiction|].
  cbn [pieces endOf]. rewrite (runS_pieces _ _ _ _ H), (runS_end _ _ _ H). repeat split; auto. discriminate.
Qed.
Lemma whole_tokens : forall p, whole p -> tokens (snd p) = if blank p then [] else [snd p].
Proof.
  intros p H. unfold tokens. destruct (whole_pieces p H) as [E _]. rewrite E. unfold nonblank. cbn [filter].
  now destruct (blank p).
Qed.

Lemma chain_from : forall txt st cur, whole (st, rev cur) ->
  chain (piecesFrom st cur txt) /\
  (exists p r w, piecesFrom st cur txt = p :: r /\ snd p = rev cur ++ w) /\
  flat (piecesFrom st cur txt) = rev cur ++ txt.
Proof.
  induction txt as [|c txt IH]; intros st cur W; cbn [piecesFrom].
  - split; [now constructor|]. split.
    + exists (st, rev cur), [], []. cbn [snd]. now rewrite app_nil_r.
    + unfold flat. cbn [map List.concat snd]. now rewrite !app_nil_r.
  - destruct (ext st c) as [st'|] eqn:E.
    + assert (W' : whole (st', rev (c :: cur))).
      { unfold whole in *. cbn [fst snd rev] in *. destruct (rev cur) as [|d r]; [contradiction|].
        cbn [app]. rewrite runS_app, W. cbn [runS]. now rewrite E. }
      destruct (IH st' (c :: cur) W') as [C [[p [r [w [Q S]]]] F]]. split; [exact C|]. split.
      * exists p, r, (c :: w). split; auto. rewrite S. cbn [rev]. now rewrite <- app_assoc.
      * rewrite F. cbn [rev]. now rewrite <- app_assoc.
    + assert (W' : whole (start c, rev [c])) by (unfold whole; reflexivity).
      destruct (IH (start c) [c] W') as [C [[p [r [w [Q S]]]] F]]. split.
      * rewrite Q in C |- *. apply (ch_cons (st, rev cur) p r); auto.
        intros x y H. assert (X : x :: y = rev [c] ++ w) by (etransitivity; [symmetry; exact H | exact S]). inversion X; subst. exact E.
      * split.
        -- exists (st, rev cur), (piecesFrom (start c) [c] txt), []. cbn [snd]. now rewrite app_nil_r.
        -- unfold flat in *. cbn [map List.concat snd]. rewrite F. reflexivity.
Qed.

Lemma chain_pieces : forall s, chain (pieces s) /\ flat (pieces s) = s.
Proof.
  intros [|c r]; [split; [constructor|reflexivity]|]. cbn [pieces].
  destruct (chain_from r (start c) [c]) as [A [_ B]]; [reflexivity|]. split; auto.
Qed.

Lemma chain_inv : forall p r, chain (p :: r) ->
  whole p /\ chain r /\ (forall c, hdc (flat r) = Some c -> ext (fst p) c = None).
Proof.
  intros p r H. inversion H; subst.
  - repeat split; auto. + constructor. + intros c E. discriminate.
  - repeat split; auto. intros c E. unfold flat in E. cbn [map List.concat] in E.
    destruct (snd q) as [|x w] eqn:Q.
    + assert (Wq : whole q) by (inversion H4; auto). unfold whole in Wq. rewrite Q in Wq. contradiction.
    + cbn in E. inversion E; subst. eapply H3; reflexivity.
Qed.

(* ---- shapes ---- *)

Fixpoint inLit (q : ascii) (e : bool) (s : cstr) : option bool :=
  match s with
  | [] => Some e
  | c :: r => if e then inLit q false r
              else if Ascii.eqb c q then None else inLit q (Ascii.eqb c chB) r
  end.
Lemma inLit_app : forall a q e b, inLit q e (a ++ b) = match inLit q e a with Some e' => inLit q e' b | None => None end.
Proof.
  induction a as [|c a IH]; intros; cbn [app inLit]; auto.
  destruct e; auto. destruct (Ascii.eqb c q); auto.
Qed.

Definition numC (c : ascii) : bool := wordC c || inSet (lit ".+-") c.
Definition opShape (s : cstr) : Prop :=
  (exists c, s = [c] /\ white c = false /\ wordC c = false /\ quoteC c = false) \/ In s longOps.
Definition shape (st : lst) (t : cstr) : Prop :=
  match st with
  | LWhite => forallb white t = true
  | LId l => (match t with c :: r => letterC c = true /\ forallb wordC r = true | [] => False end)
             /\ (l = true <-> t = [chL])
  | LNum _ => forallb numC t = true
  | LLit q esc => quoteC q = true /\ exists pre b, (pre = [] \/ pre = [chL]) /\ t = pre ++ q :: b /\ inLit q false b = Some esc
  | LEnd => exists q pre b, quoteC q = true /\ (pre = [] \/ pre = [chL]) /\ t = pre ++ q :: b ++ [q] /\ inLit q false b = Some false
  | LOp s => t = s /\ opShape s
  | _ => True
  end.

Lemma shape_start : forall c, shape (start c) [c].
Proof.
  intros c. unfold start.
  destruct (white c) eqn:A; [simpl; now rewrite A|].
  destruct (letterC c) eqn:B.
  { simpl. split; auto. split; intros E.
    - apply eqb_eq in E. now subst.
    - inversion E. reflexivity. }
  destruct (digitC c) eqn:C.
  { simpl. unfold numC, wordC. now rewrite B, C. }
  destruct (quoteC c) eqn:D.
  { simpl. split; auto. exists [], []. auto. }
  simpl. split; auto. left. exists c. unfold wordC. rewrite B, C. auto.
Qed.

Lemma shape_ext : forall st t c st', shape st t -> ext st c = Some st' -> shape st' (t ++ [c]).
Proof.
  intros st t c st' S H. destruct st; cbn [ext] in H; simpl in S.
  - destruct (white c) eqn:E; inversion H; subst. simpl. rewrite forallb_app, S. simpl. now rewrite E.
  - destruct S as [S L]. destruct t as [|d r]; [contradiction|]. destruct S as [S1 S2].
    destruct (wordC c) eqn:E.
    + inversion H; subst. simpl. split.
      * split; auto. rewrite forallb_app, S2. simpl. now rewrite E.
      * split; [discriminate|]. intros X. apply (f_equal (@List.length ascii)) in X. cbn in X. rewrite app_length in X. cbn in X. lia.
    + destruct (isL && quoteC c) eqn:F; inversion H; subst. apply andb_true_iff in F. destruct F as [F1 F2].
      simpl. split; auto. apply L in F1. inversion F1; subst. exists [chL], []. auto.
  - destruct (wordC c || Ascii.eqb c ".") eqn:E.
    + inversion H; subst. simpl. rewrite forallb_app, S. simpl. unfold numC.
      destruct (wordC c); auto. simpl in *. unfold inSet. cbn. now rewrite E.
    + destruct (e && inSet (lit "+-") c) eqn:F; inversion H; subst. simpl. rewrite forallb_app, S. simpl.
      apply andb_true_iff in F. destruct F as [_ F]. unfold numC. unfold inSet in *. cbn in *.
      rewrite !orb_true_iff in F. destruct F as [F|[F|F]]; try discriminate; rewrite F; rewrite ?orb_true_r; auto.
  - destruct S as [Q [pre [b [P [T L]]]]]. subst t. destruct esc.
    + inversion H; subst. simpl. split; auto. exists pre, (b ++ [c]). split; auto. split.
      * now rewrite <- app_assoc.
      * rewrite inLit_app, L. reflexivity.
    + destruct (Ascii.eqb c q) eqn:E; inversion H; subst; simpl.
      * apply eqb_eq in E. subst. exists q, pre, b. repeat split; auto. now rewrite <- app_assoc.
      * split; auto. exists pre, (b ++ [c]). split; auto. split.
        -- now rewrite <- app_assoc.
        -- rewrite inLit_app, L. cbn [inLit]. now rewrite E.
  - discriminate.
  - destruct S as [-> S].
    destruct (cstr_eqb (s ++ [c]) (lit "/*")); [inversion H; subst; exact I|].
    destruct (cstr_eqb (s ++ [c]) (lit "//")); [inversion H; subst; exact I|].
    destruct (cstr_eqb s (lit ".") && digitC c) eqn:D.
    + inversion H; subst. apply andb_true_iff in D. destruct D as [D1 D]. apply cstr_eqb_eq in D1. subst.
      simpl. unfold numC, wordC. rewrite D. rewrite !orb_true_r. reflexivity.
    + destruct (existsb (cstr_eqb (s ++ [c])) longOps) eqn:F; inversion H; subst.
      simpl. split; auto. right. apply existsb_exists in F. destruct F as [x [I F]]. apply cstr_eqb_eq in F. now subst.
  - destruct (star && Ascii.eqb c "/"); inversion H; subst; exact I.
  - discriminate.
  - destruct (Ascii.eqb c "010"); inversion H; subst; exact I.
Qed.

Lemma shape_run : forall s st t st', shape st t -> runS st s = Some st' -> shape st' (t ++ s).
Proof.
  induction s as [|c r IH]; intros st t st' S H; cbn [runS] in H.
  - inversion H; subst. now rewrite app_nil_r.
  - destruct (ext st c) eqn:E; [|discriminate].
    replace (t ++ c :: r) with ((t ++ [c]) ++ r) by now rewrite <- app_assoc.
    eapply IH; eauto. eapply shape_ext; eauto.
Qed.
Lemma whole_shape : forall p, whole p -> shape (fst p) (snd p).
Proof.
  intros [st t] H. unfold whole in H. cbn [fst snd] in *. destruct t as [|c r]; [contradiction|].
  change (c :: r) with ([c] ++ r). eapply shape_run; eauto. apply shape_start.
Qed.
