(** No false alarms about uses, with branches and loops. *)
From Verif Require Import Cbase Own_model Own_spec Own_proofs Own_use_proofs Own_leak_proofs
  Ownbr_model Ownbr_spec Ownbr_proofs.
From Coq Require Import List Arith Bool Lia.
Import ListNotations.
Open Scope nat_scope.

(** What is known is justified by one of the states in which the program may be. *)
Definition justified (s : state) (S : cstate -> Prop) : Prop :=
  NoDup (keys (al s)) /\
  (exists c, S c) /\
  (forall v, dst s v <> DDef -> exists c, S c /\ use_err c v <> []) /\
  (forall v w, In w (canAlias (al s) v) -> exists c, S c /\ env c v = env c w).
Definition Post (p : prog) (S : cstate -> Prop) (c' : cstate) : Prop :=
  exists c q, S c /\ path p q false /\ c' = fold_left cstep q c.

Lemma justified_mono s (S T : cstate -> Prop) : (forall c, S c -> T c) -> justified s S -> justified s T.
Proof.
  intros H [ND [[c Sc] [J1 J2]]]; split; [exact ND | split; [exists c; auto | split]].
  - intros v Dv; destruct (J1 v Dv) as [c' [A B]]; exists c'; auto.
  - intros v w I; destruct (J2 v w I) as [c' [A B]]; exists c'; auto.
Qed.
Lemma use_err_freed c o v : use_err c v <> [] ->
  (forall x, In x (match o with New x => [x] | Copy x _ => [x] | _ => [] end) -> v <> x) ->
  use_err (cstep c o) v <> [].
Proof.
  intros H N; unfold use_err; rewrite cstep_env.
  assert (E : env_step (env c) (next c) o v = env c v).
  { destruct o as [x | x y | x | x]; cbn [env_step]; try reflexivity;
      (destruct (Nat.eqb_spec v x); [exfalso; apply (N x); [left; reflexivity | assumption] | reflexivity]). }
  rewrite E; unfold use_err in H; destruct (env c v) as [b |]; [| discriminate].
  rewrite cstep_freed; destruct (freed c b) eqn:F; [| congruence].
  destruct o as [x | x y | x | x]; try discriminate.
  destruct (env c x); [rewrite orb_true_r |]; discriminate.
Qed.
Lemma justified_step s (S : cstate -> Prop) o :
  justified s S -> (forall c, S c -> flat_map (use_err c) (reads o) = []) ->
  justified (step s o) (fun c' => exists c, S c /\ c' = cstep c o) /\ flat_map (use_msg s) (reads o) = [].
Proof.
  intros [ND [[c0 S0] [J1 J2]]] HE.
  assert (HR : forall c x, S c -> In x (reads o) -> exists b, env c x = Some b /\ freed c b = false).
  { intros c x Sc I; exact (use_err_ok c o (HE c Sc) x I). }
  assert (HD : forall x, In x (reads o) -> dst s x = DDef).
  { intros x I; destruct (dst s x) eqn:D; [| reflexivity | |]; exfalso;
      (destruct (J1 x) as [c [Sc Uc]]; [congruence |]; apply Uc; destruct (HR c x Sc I) as [b [E F]]; unfold use_err; rewrite E, F; reflexivity). }
  split; [split; [rewrite step_al; apply step_nodup; exact ND | split; [exists (cstep c0 o), c0; tauto | split]] |].
  - intros v; rewrite (step_dst _ _ _ ND).
    destruct o as [x | x y | x | x]; cbn [reads] in *.
    + destruct (Nat.eqb_spec v x) as [-> | N]; [congruence |]; intros D; destruct (J1 v D) as [c [Sc Uc]].
      exists (cstep c (New x)); split; [exists c; tauto |]; apply use_err_freed; [exact Uc | intros z [<- | []]; exact N].
    + destruct (Nat.eqb_spec v x) as [-> | N]; [congruence |]; destruct (Nat.eqb_spec v y) as [-> | N2]; [congruence |].
      intros D; destruct (J1 v D) as [c [Sc Uc]].
      exists (cstep c (Copy x y)); split; [exists c; tauto |]; apply use_err_freed; [exact Uc | intros z [<- | []]; exact N].
    + destruct (mem v (x :: allAliases (al s) x)) eqn:M.
      * intros _; assert (W : exists c, S c /\ env c v = env c x).
        { apply mem_in in M; destruct M as [<- | M]; [exists c0; tauto |].
          apply in_allAliases in M; [| exact ND]; destruct M as [[_ M] | M]; apply J2 in M; destruct M as [c [A B]]; exists c; auto. }
        destruct W as [c [Sc Ec]]; exists (cstep c (Release x)); split; [exists c; tauto |].
        destruct (HR c x Sc (or_introl eq_refl)) as [b [Eb Fb]].
        unfold use_err; rewrite cstep_env; cbn [env_step]; rewrite Ec, Eb, cstep_freed, Eb, Nat.eqb_refl; discriminate.
      * intros D; destruct (J1 v D) as [c [Sc Uc]].
        exists (cstep c (Release x)); split; [exists c; tauto |]; apply use_err_freed; [exact Uc | intros z []].
    + destruct (Nat.eqb_spec v x) as [-> | N]; [congruence |]; intros D; destruct (J1 v D) as [c [Sc Uc]].
      exists (cstep c (Use x)); split; [exists c; tauto |]; apply use_err_freed; [exact Uc | intros z []].
  - assert (G : forall v w, In w (canAlias (al (step s o)) v) ->
              exists c, S c /\ env (cstep c o) v = env (cstep c o) w).
    { intros v w; rewrite step_al; destruct o as [x | x y | x | x]; cbn [table_step].
      - rewrite canAlias_clear; intros [N1 [N2 I]]; destruct (J2 v w I) as [c [Sc Ec]]; exists c; split; [exact Sc |].
        rewrite !cstep_env; cbn [env_step]; destruct (Nat.eqb_spec v x); [congruence |]; destruct (Nat.eqb_spec w x); [congruence | exact Ec].
      - set (e c v := if Nat.eqb v x then env c y else env c v).
        assert (CE : forall c v, env (cstep c (Copy x y)) v = e c v) by (intros c v0; rewrite cstep_env; reflexivity).
        setoid_rewrite CE.
        assert (H1 : forall v w, In w (canAlias (clear (al s) x) v) -> exists c, S c /\ e c v = e c w).
        { intros v0 w0; rewrite canAlias_clear; intros [N1 [N2 I]]; destruct (J2 v0 w0 I) as [c [Sc Ec]]; exists c; split; [exact Sc |].
          unfold e; destruct (Nat.eqb_spec v0 x); [congruence |]; destruct (Nat.eqb_spec w0 x); [congruence | exact Ec]. }
        unfold addAlias; destruct (Nat.eqb_spec x y) as [-> | N]; [apply H1 |].
        assert (Exy : forall c, e c x = e c y).
        { intros c; unfold e; rewrite Nat.eqb_refl; destruct (Nat.eqb_spec y x); [congruence | reflexivity]. }
        assert (H2 : forall v w, In w (canAlias (addMust (clear (al s) x) x y) v) -> exists c, S c /\ e c v = e c w).
        { intros v0 w0; rewrite in_addMust; intros [I | [-> [-> | [I _]]]];
            [apply H1, I | exists c0; split; [exact S0 | apply Exy] | setoid_rewrite Exy; apply H1, I]. }
        rewrite in_addMust; intros [I | [-> [-> | [I _]]]];
          [apply H2, I | exists c0; split; [exact S0 | symmetry; apply Exy] | setoid_rewrite <- Exy; apply H2, I].
      - intros I; destruct (J2 v w I) as [c [Sc Ec]]; exists c; split; [exact Sc |]; rewrite !cstep_env; exact Ec.
      - intros I; destruct (J2 v w I) as [c [Sc Ec]]; exists c; split; [exact Sc |]; rewrite !cstep_env; exact Ec. }
    intros v w I; destruct (G v w I) as [c [Sc Ec]]; exists (cstep c o); split; [exists c; tauto | exact Ec].
  - assert (U : forall x, In x (reads o) -> use_msg s x = []) by (intros x I; unfold use_msg; rewrite (HD x I); reflexivity).
    destruct o as [x | x y | x | x]; cbn [reads flat_map] in *; [reflexivity | | |];
      rewrite (U _ (or_introl eq_refl)); reflexivity.
Qed.
Lemma justified_meet decls a b t f (S T : cstate -> Prop) :
  justified t S -> justified f S -> (forall c, S c -> T c) -> justified (meet decls a b t f) T.
Proof.
  intros [ND [[c Sc] [J1 J2]]] [ND' [_ [J1' J2']]] HT; split; [| split; [exists c; auto | split]].
  - cbn [meet al]; apply nodup_union, ND.
  - intros v D; cbn [meet dst] in D; apply mergeVar_not_def in D; cbn [stateOf fst] in D.
    destruct D as [D | D]; [destruct (J1 v D) as [c' [A B]] | destruct (J1' v D) as [c' [A B]]]; exists c'; auto.
  - intros v w; cbn [meet al]; rewrite in_union by exact ND'.
    intros [I | I]; [destruct (J2 v w I) as [c' [A B]] | destruct (J2' v w I) as [c' [A B]]]; exists c'; auto.
Qed.
Lemma meet_use decls a b t f : filter about_use (out (meet decls a b t f)) = filter about_use (out f).
Proof.
  unfold meet; cbn [out]; rewrite filter_app.
  assert (E : forall l, filter about_use (flat_map (fun v => if snd (mergeVar (a v) (b v) (stateOf t v) (stateOf f v)) then [MBranch v] else []) l) = []).
  { induction l as [| d l IH]; cbn [flat_map]; [reflexivity |]; rewrite filter_app, IH.
    destruct (snd _); reflexivity. }
  rewrite E; apply app_nil_r.
Qed.
Lemma no_ret_escapes p : no_ret p = true -> escapes p = false.
Proof.
  induction p; cbn [no_ret escapes]; intros H; try reflexivity; try discriminate;
    apply andb_true_iff in H; destruct H as [H1 H2]; auto.
  rewrite (IHp1 H1); reflexivity.
Qed.
Lemma justified_exec touch decls p : no_ret p = true -> forall s (S : cstate -> Prop),
  justified s S -> (forall c q r, S c -> path p q r -> errs (fold_left cstep q c) = []) ->
  filter about_use (out (exec touch decls p s)) = filter about_use (out s) /\
  justified (exec touch decls p s) (Post p S).
Proof.
  induction p as [| o | p IHp q IHq | p IHp q IHq | p IHp | p IHp |]; cbn [no_ret exec]; intros NR s S J HE.
  - split; [reflexivity |]; apply (justified_mono s S); [| exact J].
    intros c Sc; exists c, []; repeat split; [exact Sc | constructor].
  - assert (X : forall c, S c -> flat_map (use_err c) (reads o) = []).
    { intros c Sc; pose proof (HE c [o] false Sc (p_do o)) as H; cbn [fold_left] in H; rewrite cstep_errs in H.
      apply app_nil_both in H; apply H. }
    destruct (justified_step s S o J X) as [J' U]; split; [rewrite step_use_out, U; apply app_nil_r |].
    apply (justified_mono _ _ _ (fun c' H => H)) in J'; eapply justified_mono; [| exact J'].
    intros c' [c [Sc ->]]; exists c, [o]; repeat split; [exact Sc | constructor].
  - apply andb_true_iff in NR; destruct NR as [N1 N2].
    destruct (path_some q) as [q0 [r0 Q0]].
    assert (H1 : forall c l r, S c -> path p l r -> errs (fold_left cstep l c) = []).
    { intros c l r Sc P; destruct r; [apply (HE c l true Sc), p_seq_ret; exact P |].
      pose proof (HE c _ _ Sc (p_seq _ _ _ _ _ P Q0)) as H; rewrite fold_left_app in H.
      clear - H; revert H; generalize (fold_left cstep l c); induction q0 as [| o q0 IH]; intros c' H; cbn [fold_left] in H; [exact H |].
      apply IH in H; rewrite cstep_errs in H; apply app_nil_both in H; apply H. }
    destruct (IHp N1 s S J H1) as [U1 J1].
    assert (H2 : forall c l r, Post p S c -> path q l r -> errs (fold_left cstep l c) = []).
    { intros c l r [c1 [l1 [S1 [P1 ->]]]] P; rewrite <- fold_left_app; apply (HE c1 _ r S1); econstructor; eassumption. }
    destruct (IHq N2 _ _ J1 H2) as [U2 J2]; split; [congruence |].
    eapply justified_mono; [| exact J2].
    intros c' [c [l [[c1 [l1 [S1 [P1 ->]]]] [P ->]]]]; exists c1, (l1 ++ l); split; [exact S1 | split; [econstructor; eassumption |]].
    rewrite fold_left_app; reflexivity.
  - apply andb_true_iff in NR; destruct NR as [N1 N2].
    destruct (IHp N1 s S J (fun c l r Sc P => HE c l r Sc (p_then _ _ _ _ P))) as [U1 J1].
    set (s' := withOut s (out (exec touch decls p s))).
    assert (J' : justified s' S) by exact J.
    destruct (IHq N2 s' S J' (fun c l r Sc P => HE c l r Sc (p_else _ _ _ _ P))) as [U2 J2].
    unfold popBranches; rewrite (no_ret_escapes p N1), (no_ret_escapes q N2), meet_use.
    split; [rewrite U2; exact U1 |].
    apply (justified_meet decls _ _ _ _ (fun c => Post p S c \/ Post q S c)).
    + eapply justified_mono; [| exact J1]; auto.
    + eapply justified_mono; [| exact J2]; auto.
    + intros c [[c1 [l [S1 [P ->]]]] | [c1 [l [S1 [P ->]]]]]; exists c1, l;
        (split; [exact S1 | split; [| reflexivity]]); [apply p_then | apply p_else]; exact P.
  - assert (H1 : forall c l r, S c -> path p l r -> errs (fold_left cstep l c) = []).
    { intros c l r Sc P; destruct r; [apply (HE c l true Sc), p_loop_ret; exact P |].
      pose proof (HE c _ _ Sc (p_loop _ _ _ _ P (p_loop_end p))) as H; rewrite app_nil_r in H; exact H. }
    destruct (IHp NR s S J H1) as [U1 J1].
    unfold popBranches; rewrite (no_ret_escapes p NR), meet_use; split; [exact U1 |].
    apply (justified_meet decls _ _ _ _ (fun c => Post p S c \/ S c)).
    + eapply justified_mono; [| exact J1]; auto.
    + eapply justified_mono; [| exact J]; auto.
    + intros c [[c1 [l [S1 [P ->]]]] | S1].
      * exists c1, (l ++ []); split; [exact S1 | split; [eapply p_loop; [exact P | constructor] | rewrite app_nil_r; reflexivity]].
      * exists c, []; split; [exact S1 | split; [constructor | reflexivity]].
  - destruct (IHp NR s S J (fun c l r Sc P => HE c l r Sc (p_until_end _ _ _ P))) as [U1 J1].
    split; [exact U1 |]; eapply justified_mono; [| exact J1].
    intros c [c1 [l [S1 [P ->]]]]; exists c1, l; split; [exact S1 | split; [apply p_until_end; exact P | reflexivity]].
  - discriminate.
Qed.
Lemma no_false_use_branches touch decls p :
  no_ret p = true -> (forall q r, path p q r -> correct q) -> filter about_use (bodyMessages touch decls p) = [].
Proof.
  intros NR HC; unfold bodyMessages; rewrite (no_ret_escapes p NR), finish_use.
  destruct (justified_exec touch decls p NR start (fun c => c = cstart)) as [U _].
  - split; [constructor | split; [exists cstart; reflexivity | split]].
    + intros v _; exists cstart; split; [reflexivity | discriminate].
    + intros v w [].
  - intros c q r -> P; exact (HC q r P).
  - exact U.
Qed.
