(** Facts about branches, and uses of released storage. *)
From Verif Require Import Cbase Own_model Own_spec Own_proofs Own_use_proofs Own_leak_proofs Ownbr_model Ownbr_spec.
From Coq Require Import List Arith Bool Lia.
Import ListNotations.
Open Scope nat_scope.

(** ** Union of tables *)
Lemma canAlias_addSet t e v w :
  In w (canAlias (addSet t e) v) <-> In w (canAlias t v) \/ (v = fst e /\ In w (snd e)).
Proof.
  destruct e as [k vs]; unfold addSet; cbn [fst snd]; destruct vs as [| a vs]; [cbn; tauto |].
  rewrite canAlias_change; destruct (Nat.eqb_spec v k) as [-> | N].
  - rewrite fold_insert_in; tauto.
  - tauto.
Qed.
Lemma nodup_addSet t e : NoDup (keys t) -> NoDup (keys (addSet t e)).
Proof. destruct e as [k vs]; unfold addSet; cbn [fst snd]; destruct vs; [tauto | apply nodup_change]. Qed.
Lemma nodup_union t1 t2 : NoDup (keys t1) -> NoDup (keys (unionTables t1 t2)).
Proof.
  unfold unionTables; revert t1; induction t2 as [| e t2 IH]; intros t1 H; cbn [fold_left]; [exact H |].
  apply IH, nodup_addSet, H.
Qed.
Lemma in_union t1 t2 v w :
  NoDup (keys t2) -> (In w (canAlias (unionTables t1 t2) v) <-> In w (canAlias t1 v) \/ In w (canAlias t2 v)).
Proof.
  unfold unionTables; revert t1; induction t2 as [| [k vs] t2 IH]; intros t1 ND; cbn [fold_left]; [cbn; tauto |].
  cbn [keys map fst] in ND; inversion ND as [| ? ? Na Nl]; subst.
  rewrite IH, canAlias_addSet by exact Nl; cbn [canAlias fst snd].
  destruct (Nat.eqb_spec v k) as [-> | N]; [| tauto].
  rewrite (canAlias_absent t2 k Na); cbn; tauto.
Qed.

(** ** Two states of a variable *)
Ltac states := intros [[] []] [[] []]; cbv; try discriminate; auto.
(** If something is known to be defined where branches meet, and nothing is said, it was in both. *)
Lemma merge_def : forall r o, snd (merge r o) = false -> fst (fst (merge r o)) = DDef -> fst r = DDef /\ fst o = DDef.
Proof. states. Qed.
Lemma merge_not_def : forall r o, fst (fst (merge r o)) <> DDef -> fst r <> DDef \/ fst o <> DDef.
Proof.
  intros [[] []] [[] []]; cbv; intros H; try (left; discriminate); try (right; discriminate); congruence.
Qed.
Lemma vst_eqb_eq a b : vst_eqb a b = true -> a = b.
Proof. destruct a as [[] []], b as [[] []]; cbv; congruence. Qed.
Lemma mergeVar_def a b t f : snd (mergeVar a b t f) = false -> fst (fst (mergeVar a b t f)) = DDef -> fst t = DDef /\ fst f = DDef.
Proof.
  unfold mergeVar; destruct (negb a && negb b && vst_eqb t f) eqn:E.
  - apply andb_true_iff in E; destruct E as [_ E]; apply vst_eqb_eq in E; subst; tauto.
  - destruct a; intros H1 H2; apply merge_def in H2; tauto.
Qed.
Lemma mergeVar_not_def a b t f : fst (fst (mergeVar a b t f)) <> DDef -> fst t <> DDef \/ fst f <> DDef.
Proof.
  unfold mergeVar; destruct (negb a && negb b && vst_eqb t f) eqn:E; [tauto |].
  destruct a; intros H; apply merge_not_def in H; tauto.
Qed.

(** ** Execution *)
Section Exec.
Variable touch : prog -> state -> var -> bool.
Variable decls : list var.
Notation exec := (exec touch decls).

Lemma finish_al r d s : al (finish r d s) = al s.
Proof.
  unfold finish; revert s; induction d as [| x d IH]; intros s; cbn [fold_left]; [reflexivity |]; rewrite IH.
  unfold checkFinal, canLose; destruct (_ && _); [| reflexivity]; destruct r; [reflexivity | destruct (aliasedBy _ _); reflexivity].
Qed.
Lemma checkFinal_true s x : exists l, checkFinal true s x = withOut s (out s ++ l) /\
  (l = [] \/ l = [MLeakExit x]) /\ (l = [] -> owner (ak s x) = true -> dst s x = DDead).
Proof.
  unfold checkFinal; destruct (owner (ak s x)); cbn [andb].
  - destruct (dst s x); first [exists [MLeakExit x]; split; [reflexivity | split; [right; reflexivity | discriminate]] |
      exists []; split; [unfold withOut; rewrite app_nil_r; destruct s; reflexivity | split; [left; reflexivity | reflexivity]]].
  - exists []; split; [unfold withOut; rewrite app_nil_r; destruct s; reflexivity | split; [left; reflexivity | discriminate]].
Qed.
Lemma finish_true d s : exists l, finish true d s = withOut s (out s ++ l).
Proof.
  unfold finish; revert s; induction d as [| x d IH]; intros s; cbn [fold_left].
  - exists []; unfold withOut; rewrite app_nil_r; destruct s; reflexivity.
  - destruct (checkFinal_true s x) as [l [E _]]; rewrite E.
    destruct (IH (withOut s (out s ++ l))) as [l' E']; rewrite E'; exists (l ++ l').
    unfold withOut; cbn [dst ak al out]; rewrite app_assoc; reflexivity.
Qed.
Lemma popBranches_out a b mt mf t f : exists l, out (popBranches decls a b mt mf t f) = out f ++ l.
Proof.
  unfold popBranches; destruct mf; [exists []; cbn; rewrite app_nil_r; reflexivity |].
  destruct mt; [exists []; cbn; rewrite app_nil_r; reflexivity | eexists; reflexivity].
Qed.
Lemma exec_grows p s : exists l, out (exec p s) = out s ++ l.
Proof.
  revert s; induction p as [| o | p IHp q IHq | p IHp q IHq | p IHp | p IHp |]; intros s; cbn [Ownbr_model.exec].
  - exists []; rewrite app_nil_r; reflexivity.
  - apply step_grows.
  - destruct (IHp s) as [l E]; destruct (IHq (exec p s)) as [l' E']; rewrite E', E, <- app_assoc; eexists; reflexivity.
  - destruct (IHp s) as [l E]; destruct (IHq (withOut s (out (exec p s)))) as [l' E'].
    destruct (popBranches_out (touch p s) (touch q (withOut s (out (exec p s)))) (escapes p) (escapes q) (exec p s)
                (exec q (withOut s (out (exec p s))))) as [l'' E''].
    rewrite E'', E'; cbn [withOut out]; rewrite E, <- !app_assoc; eexists; reflexivity.
  - destruct (IHp s) as [l E].
    destruct (popBranches_out (touch p s) (fun _ => false) (escapes p) false (exec p s) (withOut s (out (exec p s)))) as [l'' E''].
    rewrite E''; cbn [withOut out]; rewrite E, <- !app_assoc; eexists; reflexivity.
  - apply IHp.
  - destruct (finish_true decls s) as [l E]; rewrite E; exists l; reflexivity.
Qed.
Lemma popBranches_nodup a b mt mf t f :
  NoDup (keys (al t)) -> NoDup (keys (al (popBranches decls a b mt mf t f))).
Proof.
  intros H; unfold popBranches; destruct mf; [| destruct mt]; cbn [al meet]; apply nodup_union, H.
Qed.
Lemma exec_nodup p s : NoDup (keys (al s)) -> NoDup (keys (al (exec p s))).
Proof.
  revert s; induction p as [| o | p IHp q IHq | p IHp q IHq | p IHp | p IHp |]; intros s H; cbn [Ownbr_model.exec]; auto.
  - rewrite step_al; apply step_nodup, H.
  - apply popBranches_nodup, IHp, H.
  - apply popBranches_nodup, IHp, H.
  - rewrite finish_al; exact H.
Qed.

(** ** Paths *)
Lemma escapes_path p q r : path p q r -> escapes p = true -> r = true.
Proof.
  induction 1; cbn [escapes]; intros E; try discriminate; try reflexivity; auto.
  - apply andb_true_iff in E; apply IHpath, E.
  - apply andb_true_iff in E; apply IHpath, E.
Qed.
Lemma path_out p : tidy p = true -> escapes p = false -> exists q, path p q false.
Proof.
  induction p as [| o | p IHp q IHq | p IHp q IHq | p IHp | p IHp |]; cbn [tidy escapes]; intros T E.
  - exists []; constructor.
  - exists [o]; constructor.
  - apply andb_true_iff in T; destruct T as [T T3]; apply andb_true_iff in T; destruct T as [T1 T2]; apply negb_true_iff in T3.
    destruct (IHp T1 T3) as [l L]; destruct (IHq T2 E) as [m M]; exists (l ++ m); econstructor; eassumption.
  - apply andb_true_iff in T; destruct T as [T1 T2]; apply andb_false_iff in E; destruct E as [E | E].
    + destruct (IHp T1 E) as [l L]; exists l; apply p_then; exact L.
    + destruct (IHq T2 E) as [l L]; exists l; apply p_else; exact L.
  - exists []; constructor.
  - apply andb_true_iff in T; destruct T as [T1 T2]; apply negb_true_iff in T2.
    destruct (IHp T1 T2) as [l L]; exists l; apply p_until_end; exact L.
  - discriminate.
Qed.
Lemma path_some p : exists q r, path p q r.
Proof.
  induction p as [| o | p IHp q IHq | p IHp q IHq | p IHp | p IHp |].
  - exists [], false; constructor.
  - exists [o], false; constructor.
  - destruct IHp as [l [[] L]]; [exists l, true; apply p_seq_ret; exact L |].
    destruct IHq as [m [r M]]; exists (l ++ m), r; econstructor; eassumption.
  - destruct IHp as [l [r L]]; exists l, r; apply p_then; exact L.
  - exists [], false; constructor.
  - destruct IHp as [l [r L]]; exists l, r; apply p_until_end; exact L.
  - exists [], true; constructor.
Qed.

(** ** Messages *)
Lemma filter_grows f (a b l : list msg) : b = a ++ l -> filter f b = [] -> filter f a = [].
Proof. intros -> H; rewrite filter_app in H; apply app_nil_both in H; apply H. Qed.
Lemma exec_quiet f p s : filter f (out (exec p s)) = [] -> filter f (out s) = [].
Proof. destruct (exec_grows p s) as [l E]; apply (filter_grows f _ _ l E). Qed.
Lemma popBranches_quiet f a b mt mf t g : filter f (out (popBranches decls a b mt mf t g)) = [] -> filter f (out g) = [].
Proof. destruct (popBranches_out a b mt mf t g) as [l E]; apply (filter_grows f _ _ l E). Qed.
Lemma state_use l : filter about_state l = [] -> filter about_use l = [].
Proof.
  induction l as [| m l IH]; cbn [filter]; [reflexivity |]; unfold about_state; destruct (about_use m); cbn [orb]; [discriminate |].
  destruct m; try exact IH; discriminate.
Qed.
Lemma meet_quiet a b t f v :
  filter about_state (out (meet decls a b t f)) = [] -> In v decls ->
  snd (mergeVar (a v) (b v) (stateOf t v) (stateOf f v)) = false.
Proof.
  unfold meet; cbn [out]; rewrite filter_app; intros E I; apply app_nil_both in E; destruct E as [_ E].
  destruct (snd (mergeVar (a v) (b v) (stateOf t v) (stateOf f v))) eqn:X; [exfalso | reflexivity].
  induction decls as [| d l IH]; [destruct I |]; cbn [flat_map] in E; rewrite filter_app in E.
  apply app_nil_both in E; destruct E as [E1 E2].
  destruct I as [-> | I]; [rewrite X in E1; discriminate | apply IH; assumption].
Qed.
End Exec.

(** ** Code without loops *)
Definition notes (c : cstate) (u : var -> bool) (l : list op) : cstate * (var -> bool) :=
  fold_left (fun cu o => (cstep (fst cu) o, note (fst cu) (snd cu) o)) l (c, u).
Lemma notes_fst l c u : fst (notes c u l) = fold_left cstep l c.
Proof. unfold notes; revert c u; induction l as [| o l IH]; intros c u; cbn [fold_left]; [reflexivity | apply IH]. Qed.
Lemma disciplined_app l m c u :
  disciplined_from c u (l ++ m) = disciplined_from c u l && disciplined_from (fst (notes c u l)) (snd (notes c u l)) m.
Proof.
  revert c u; induction l as [| o l IH]; intros c u; cbn [app disciplined_from]; [reflexivity |].
  rewrite IH, andb_assoc; reflexivity.
Qed.
Lemma notes_app l m c u : notes c u (l ++ m) = notes (fst (notes c u l)) (snd (notes c u l)) m.
Proof. unfold notes; rewrite fold_left_app; destruct (fold_left _ l (c, u)); reflexivity. Qed.

Definition cover (decls : list var) (s : state) (c : cstate) (u : var -> bool) : Prop :=
  (forall v b, env c v = Some b -> b < next c) /\
  complete s c u /\
  (forall v, In v decls -> dst s v = DDef -> exists b, env c v = Some b /\ freed c b = false) /\
  (forall b, freed c b = true -> b < next c).

Lemma cover_step decls s c u o :
  NoDup (keys (al s)) -> incl (ovars o) decls ->
  cover decls s c u -> may_copy u o = true -> flat_map (use_msg s) (reads o) = [] ->
  cover decls (step s o) (cstep c o) (note c u o) /\ flat_map (use_err c) (reads o) = [].
Proof.
  intros ND HI [HB [K [HD HF]]] M E.
  assert (D : forall v, In v (reads o) -> exists b, env c v = Some b /\ freed c b = false).
  { intros v I; apply HD.
    - apply HI; destruct o as [x | x y | x | x]; cbn [reads ovars In] in *; tauto.
    - assert (U : use_msg s v = []).
      { destruct o as [x | x y | x | x]; cbn [reads flat_map] in *; rewrite ?app_nil_r in E;
          (destruct I as [<- | []] || destruct I); exact E. }
      unfold use_msg in U; destruct (dst s v); congruence || reflexivity. }
  split; [split; [| split; [| split]] |].
  - intros v b; rewrite cstep_env, cstep_next; destruct o as [x | x y | x | x]; cbn [env_step]; try apply HB.
    + destruct (Nat.eqb v x); [intros X; injection X as <-; lia | intros X; apply HB in X; lia].
    + destruct (Nat.eqb v x); apply HB.
  - apply complete_step_weak; assumption.
  - intros v Iv; rewrite (step_dst _ _ _ ND); setoid_rewrite cstep_env; setoid_rewrite cstep_freed.
    destruct o as [x | x y | x | x]; cbn [env_step reads] in *.
    + destruct (Nat.eqb v x); [| apply HD; exact Iv].
      intros _; exists (next c); split; [reflexivity |].
      destruct (freed c (next c)) eqn:F; [apply HF in F; lia | reflexivity].
    + destruct (D y (or_introl eq_refl)) as [b [Ey Fy]].
      destruct (Nat.eqb_spec v x) as [-> | Nx]; [intros _; exists b; tauto |].
      destruct (Nat.eqb_spec v y) as [-> | Ny]; [intros _; exists b; tauto | apply HD; exact Iv].
    + destruct (D x (or_introl eq_refl)) as [bx [Ex Fx]]; rewrite Ex.
      destruct (mem v (x :: allAliases (al s) x)) eqn:MM; [discriminate |].
      assert (NI : ~ In v (x :: allAliases (al s) x)) by (rewrite <- mem_in, MM; discriminate).
      intros Dv; destruct (HD v Iv Dv) as [b [Eb Fb]]; exists b; split; [exact Eb |].
      destruct (Nat.eqb_spec b bx) as [-> | N]; [exfalso | exact Fb].
      apply NI; destruct (Nat.eq_dec v x) as [-> | N]; [left; reflexivity | right].
      apply in_allAliases; [exact ND |].
      destruct (proj2 K v x N) as [H | H]; [exists bx; tauto | left; tauto | right; exact H].
    + destruct (D x (or_introl eq_refl)) as [b [Ex Fx]].
      destruct (Nat.eqb_spec v x) as [-> | N]; [intros _; exists b; tauto | apply HD; exact Iv].
  - intros b; rewrite cstep_freed, cstep_next; destruct o as [x | x y | x | x]; try apply HF.
    + intros F; apply HF in F; lia.
    + destruct (env c x) as [bx |] eqn:Ex; [| apply HF].
      intros F; apply orb_true_iff in F; destruct F as [F | F]; [| apply HF; exact F].
      apply Nat.eqb_eq in F; subst; apply HB in Ex; exact Ex.
  - destruct o as [x | x y | x | x]; cbn [reads flat_map] in *; [reflexivity | | |];
      destruct (D _ (or_introl eq_refl)) as [b [Ex Fx]]; unfold use_err; rewrite Ex, Fx; reflexivity.
Qed.
Lemma cover_weaken decls s t c u :
  (forall v w, In w (canAlias (al s) v) -> In w (canAlias (al t) v)) ->
  (forall v, In v decls -> dst t v = DDef -> dst s v = DDef) ->
  cover decls s c u -> cover decls t c u.
Proof.
  intros HA HS [HB [[K1 K2] [HD HF]]]; split; [exact HB | split; [split | split; [| exact HF]]].
  - intros v w Hu N S; apply HA, K1; assumption.
  - intros v w N S; destruct (K2 v w N S) as [H | H]; [left | right]; apply HA; exact H.
  - intros v I Dv; apply HD; [exact I | apply HS; assumption].
Qed.

Lemma cover_exec touch decls p : forall q r, path p q r -> loop_free p = true -> incl (pvars p) decls ->
  forall s c u, NoDup (keys (al s)) -> cover decls s c u -> disciplined_from c u q = true ->
  filter about_state (out (exec touch decls p s)) = [] ->
  errs (fold_left cstep q c) = errs c /\
  (r = false -> cover decls (exec touch decls p s) (fst (notes c u q)) (snd (notes c u q))).
Proof.
  induction 1 as [| o | | p q l m r P1 IH1 P2 IH2 | p q l P1 IH1 | p q l r P1 IH1 | p q l r P1 IH1 | | | | |];
    cbn [loop_free pvars exec]; intros LF HV s c u ND CV D E; try discriminate.
  - split; [reflexivity | intros _; exact CV].
  - cbn [disciplined_from] in D; apply andb_true_iff in D; destruct D as [D _].
    apply state_use in E; rewrite step_use_out in E; apply app_nil_both in E; destruct E as [_ E].
    destruct (cover_step decls s c u o ND HV CV D E) as [CV' E'].
    split; [cbn [fold_left]; rewrite cstep_errs, E', app_nil_r; reflexivity | intros _; exact CV'].
  - split; [reflexivity | discriminate].
  - apply andb_true_iff in LF; destruct LF as [LF1 LF2].
    assert (HV1 : incl (pvars p) decls) by (intros x I; apply HV, in_or_app; left; exact I).
    assert (HV2 : incl (pvars q) decls) by (intros x I; apply HV, in_or_app; right; exact I).
    rewrite disciplined_app in D; apply andb_true_iff in D; destruct D as [D1 D2].
    destruct (IH1 LF1 HV1 s c u ND CV D1 (exec_quiet _ _ _ _ _ E)) as [E1 C1].
    destruct (IH2 LF2 HV2 _ _ _ (exec_nodup touch decls p s ND) (C1 eq_refl) D2 E) as [E2 C2].
    rewrite fold_left_app, notes_app; rewrite notes_fst in *; split; [congruence | exact C2].
  - apply andb_true_iff in LF; destruct LF as [LF1 LF2].
    assert (HV1 : incl (pvars p) decls) by (intros x I; apply HV, in_or_app; left; exact I).
    destruct (IH1 LF1 HV1 s c u ND CV D (exec_quiet _ _ _ _ _ E)) as [E1 C1].
    split; [exact E1 | discriminate].
  - apply andb_true_iff in LF; destruct LF as [LF1 LF2].
    assert (HV1 : incl (pvars p) decls) by (intros x I; apply HV, in_or_app; left; exact I).
    pose proof (popBranches_quiet _ _ _ _ _ _ _ _ E) as Ef.
    pose proof (exec_quiet _ _ _ _ _ Ef) as Et; cbn [withOut out] in Et.
    destruct (IH1 LF1 HV1 s c u ND CV D Et) as [E1 C1]; split; [exact E1 |].
    intros ->; refine (cover_weaken decls _ _ _ _ _ _ (C1 eq_refl)).
    + intros v w I; unfold popBranches; destruct (escapes q); [| destruct (escapes p)]; cbn [al meet];
        apply in_union; try (left; exact I); apply exec_nodup; exact ND.
    + intros v I; revert E; unfold popBranches.
      destruct (escapes p) eqn:Ep; [discriminate (escapes_path _ _ _ P1 Ep) |].
      destruct (escapes q); [intros _; cbn [dst]; tauto |].
      intros E; pose proof (meet_quiet decls _ _ _ _ v E I) as Q; cbn [meet dst]; intros Dv.
      apply (mergeVar_def _ _ _ _ Q) in Dv; apply Dv.
  - apply andb_true_iff in LF; destruct LF as [LF1 LF2].
    assert (HV2 : incl (pvars q) decls) by (intros x I; apply HV, in_or_app; right; exact I).
    pose proof (popBranches_quiet _ _ _ _ _ _ _ _ E) as Ef.
    set (s' := withOut s (out (exec touch decls p s))) in *.
    assert (CV' : cover decls s' c u) by exact CV.
    destruct (IH1 LF2 HV2 s' c u ND CV' D Ef) as [E1 C1]; split; [exact E1 |].
    intros ->; refine (cover_weaken decls _ _ _ _ _ _ (C1 eq_refl)).
    + intros v w I; unfold popBranches; destruct (escapes q); [| destruct (escapes p)]; cbn [al meet];
        apply in_union; try (right; exact I); apply exec_nodup; exact ND.
    + intros v I; revert E; unfold popBranches.
      destruct (escapes q) eqn:Ep; [discriminate (escapes_path _ _ _ P1 Ep) |].
      destruct (escapes p); [intros _; cbn [dst]; tauto |].
      intros E; pose proof (meet_quiet decls _ _ _ _ v E I) as Q; cbn [meet dst]; intros Dv.
      apply (mergeVar_def _ _ _ _ Q) in Dv; apply Dv.
Qed.

Lemma filter_finish f r d s : filter f (out (finish r d s)) = [] -> filter f (out s) = [].
Proof.
  unfold finish; revert s; induction d as [| x d IH]; intros s; cbn [fold_left]; [tauto |]; intros E; apply IH in E.
  revert E; unfold checkFinal, canLose; destruct (_ && _); [| tauto].
  destruct r; [| destruct (aliasedBy _ _); [| tauto]]; cbn [say out]; rewrite filter_app; intros E; apply app_nil_both in E; apply E.
Qed.
Lemma body_quiet f touch decls p :
  filter f (bodyMessages touch decls p) = [] -> filter f (out (exec touch decls p start)) = [].
Proof. unfold bodyMessages; destruct (escapes p); [tauto | apply filter_finish]. Qed.
Lemma cover_start decls : cover decls start cstart (fun _ => true).
Proof.
  split; [intros v b H; discriminate | split; [exact complete_start | split]].
  - intros v _ H; discriminate.
  - intros b H; discriminate.
Qed.
Lemma branches_sound touch decls p q r :
  loop_free p = true -> incl (pvars p) decls -> filter about_state (bodyMessages touch decls p) = [] ->
  path p q r -> disciplined q -> correct q.
Proof.
  intros LF HV E P D.
  destruct (cover_exec touch decls p q r P LF HV start cstart (fun _ => true)) as [H _].
  - constructor.
  - apply cover_start.
  - exact D.
  - apply body_quiet; exact E.
  - exact H.
Qed.
