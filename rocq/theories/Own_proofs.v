(** Facts about the table of aliases and the states of ownership. *)
From Verif Require Import Cbase Own_model Own_spec.
From Coq Require Import List Arith Bool Lia.
Import ListNotations.
Open Scope nat_scope.

(** ** Sets *)
Lemma mem_in x l : mem x l = true <-> In x l.
Proof.
  unfold mem; rewrite existsb_exists; split.
  - intros [y [Hy E]]; apply Nat.eqb_eq in E; subst; exact Hy.
  - intros H; exists x; split; [exact H | apply Nat.eqb_refl].
Qed.
Lemma insert_in x l v : In v (insert x l) <-> v = x \/ In v l.
Proof.
  unfold insert; destruct (mem x l) eqn:E.
  - apply mem_in in E; split; [tauto | intros [-> | H]; assumption].
  - rewrite in_app_iff; cbn; intuition.
Qed.
Lemma unionExcept_in s1 s2 ex v : In v (unionExcept s1 s2 ex) <-> In v s1 \/ (In v s2 /\ v <> ex).
Proof.
  unfold unionExcept; revert s1; induction s2 as [| e s2 IH]; intros s1; cbn [fold_left].
  - cbn; tauto.
  - rewrite IH; destruct (Nat.eqb e ex) eqn:E.
    + apply Nat.eqb_eq in E; subst; cbn; intuition; subst; tauto.
    + apply Nat.eqb_neq in E; rewrite insert_in; cbn; intuition; subst; tauto.
Qed.
Lemma fold_insert_in l2 l1 v : In v (fold_left (fun s e => insert e s) l2 l1) <-> In v l1 \/ In v l2.
Proof.
  revert l1; induction l2 as [| e l2 IH]; intros l1; cbn [fold_left].
  - cbn; tauto.
  - rewrite IH, insert_in; cbn; intuition.
Qed.

(** ** Tables *)
Definition keys (t : table) : list var := map fst t.
Lemma canAlias_absent t x : ~ In x (keys t) -> canAlias t x = [].
Proof.
  induction t as [| [k vs] t IH]; cbn; [reflexivity |]; intros H.
  destruct (Nat.eqb_spec x k); [subst; tauto | apply IH; tauto].
Qed.
Lemma canAlias_change t x f v :
  canAlias (change t x f) v = if Nat.eqb v x then f (canAlias t x) else canAlias t v.
Proof.
  induction t as [| [k vs] t IH]; cbn [change canAlias].
  - destruct (Nat.eqb v x); reflexivity.
  - destruct (Nat.eqb_spec x k) as [-> | N]; cbn [canAlias].
    + destruct (Nat.eqb v k); reflexivity.
    + destruct (Nat.eqb_spec v k) as [-> | N2].
      * destruct (Nat.eqb_spec k x); [congruence | reflexivity].
      * exact IH.
Qed.
Lemma keys_change t x f : keys (change t x f) = if mem x (keys t) then keys t else keys t ++ [x].
Proof.
  induction t as [| [k vs] t IH]; cbn [change keys map fst mem existsb]; [reflexivity |].
  destruct (Nat.eqb_spec x k) as [-> | N]; cbn [map fst orb]; [reflexivity |].
  unfold keys in IH; rewrite IH; unfold mem; destruct (existsb (Nat.eqb x) (map fst t)); reflexivity.
Qed.
Lemma nodup_change t x f : NoDup (keys t) -> NoDup (keys (change t x f)).
Proof.
  intros H; rewrite keys_change; destruct (mem x (keys t)) eqn:E; [exact H |].
  assert (NI : ~ In x (keys t)) by (rewrite <- mem_in, E; discriminate).
  clear E; induction (keys t) as [| a l IH]; cbn; [constructor; [tauto | constructor] |].
  inversion H as [| ? ? Na Nl]; subst; constructor.
  - rewrite in_app_iff; cbn; intros [I | [I | []]]; [tauto | subst; apply NI; left; reflexivity].
  - apply IH; [exact Nl | intros I; apply NI; right; exact I].
Qed.
Lemma nodup_clear t x : NoDup (keys t) -> NoDup (keys (clear t x)).
Proof.
  intros H; unfold keys, clear; rewrite map_map.
  erewrite map_ext; [exact H |]; intros [k vs]; cbn; destruct (Nat.eqb x k); reflexivity.
Qed.
Lemma canAlias_clear t x v w : In w (canAlias (clear t x) v) <-> v <> x /\ w <> x /\ In w (canAlias t v).
Proof.
  induction t as [| [k vs] t IH]; cbn [clear map canAlias fst snd]; [cbn; tauto |].
  fold (clear t x).
  destruct (Nat.eqb_spec x k) as [-> | N]; cbn [canAlias fst snd].
  - destruct (Nat.eqb_spec v k) as [-> | N2]; [cbn; tauto | exact IH].
  - destruct (Nat.eqb_spec v k) as [-> | N2]; [| exact IH].
    rewrite filter_In, negb_true_iff, Nat.eqb_neq; intuition.
Qed.
Lemma in_addMust t sr a v w :
  In w (canAlias (addMust t sr a) v) <->
  In w (canAlias t v) \/ (v = sr /\ (w = a \/ (In w (canAlias t a) /\ w <> sr))).
Proof.
  unfold addMust; rewrite canAlias_change; destruct (Nat.eqb_spec v sr) as [-> | N].
  - rewrite unionExcept_in, insert_in; intuition.
  - intuition.
Qed.
Lemma nodup_addAlias t x y : NoDup (keys t) -> NoDup (keys (addAlias t x y)).
Proof.
  intros H; unfold addAlias; destruct (Nat.eqb x y); [exact H |].
  unfold addMust; repeat apply nodup_change; exact H.
Qed.
Lemma in_aliasedBy t x k : NoDup (keys t) -> (In k (aliasedBy t x) <-> k <> x /\ In x (canAlias t k)).
Proof.
  intros ND; unfold aliasedBy; rewrite in_map_iff; split.
  - intros [[k' vs] [E H]]; cbn in E; subst k'; apply filter_In in H; destruct H as [H1 H2].
    cbn [fst snd] in H2; apply andb_true_iff in H2; destruct H2 as [H2 H3].
    apply negb_true_iff, Nat.eqb_neq in H2; apply mem_in in H3; split; [congruence |].
    induction t as [| [k1 vs1] t IH]; [destruct H1 |]; cbn [canAlias]; cbn [keys map fst] in ND.
    inversion ND as [| ? ? Na Nl]; subst.
    destruct H1 as [E | H1].
    + injection E as -> ->; rewrite Nat.eqb_refl; exact H3.
    + destruct (Nat.eqb_spec k k1) as [-> | N]; [| apply IH; assumption].
      exfalso; apply Na; apply (in_map fst) in H1; exact H1.
  - intros [N H]; induction t as [| [k1 vs1] t IH]; [destruct H |]; cbn [canAlias] in H.
    cbn [keys map fst] in ND; inversion ND as [| ? ? Na Nl]; subst.
    destruct (Nat.eqb_spec k k1) as [-> | N2].
    + exists (k1, vs1); split; [reflexivity |]; apply filter_In; split; [left; reflexivity |].
      cbn [fst snd]; apply andb_true_iff; split; [apply negb_true_iff, Nat.eqb_neq; congruence | apply mem_in; exact H].
    + destruct (IH Nl H) as [e [E1 E2]]; exists e; split; [exact E1 |].
      apply filter_In in E2; apply filter_In; split; [right; apply E2 | apply E2].
Qed.
Lemma in_allAliases t x v :
  NoDup (keys t) -> (In v (allAliases t x) <-> (v <> x /\ In x (canAlias t v)) \/ In v (canAlias t x)).
Proof. intros ND; unfold allAliases; rewrite fold_insert_in, in_aliasedBy by exact ND; tauto. Qed.
Lemma aliasedBy_hd t x c l : NoDup (keys t) -> aliasedBy t x = c :: l -> c <> x /\ In x (canAlias t c).
Proof. intros ND E; apply in_aliasedBy; [exact ND | rewrite E; left; reflexivity]. Qed.

(** ** Folds over variables *)
Lemma fset_same {A} (f : var -> A) x a : fset f x a x = a.
Proof. unfold fset; rewrite Nat.eqb_refl; reflexivity. Qed.
Lemma fset_other {A} (f : var -> A) x a v : v <> x -> fset f x a v = f v.
Proof. intros N; unfold fset; destruct (Nat.eqb_spec v x); [congruence | reflexivity]. Qed.
Lemma fset_either {A} (f : var -> A) x a v : fset f x a v = a \/ fset f x a v = f v.
Proof. unfold fset; destruct (Nat.eqb v x); tauto. Qed.

Lemma fold_kill l s :
  al (fold_left kill l s) = al s /\ out (fold_left kill l s) = out s /\
  (forall v, dst (fold_left kill l s) v = if mem v l then DDead else dst s v) /\
  (forall v, ak (fold_left kill l s) v = if mem v l then KLocal else ak s v).
Proof.
  revert s; induction l as [| a l IH]; intros s; cbn [fold_left]; [repeat split |].
  destruct (IH (kill s a)) as [A [B [C D]]]; repeat split.
  - rewrite A; reflexivity.
  - rewrite B; reflexivity.
  - intros v; rewrite C; unfold kill, setDst, setAk; cbn [dst ak]; unfold fset.
    unfold mem; cbn [existsb]; destruct (existsb (Nat.eqb v) l); [rewrite orb_true_r; reflexivity |].
    destruct (Nat.eqb v a); reflexivity.
  - intros v; rewrite D; unfold kill, setDst, setAk; cbn [dst ak]; unfold fset.
    unfold mem; cbn [existsb]; destruct (existsb (Nat.eqb v) l); [rewrite orb_true_r; reflexivity |].
    destruct (Nat.eqb v a); reflexivity.
Qed.
Lemma fold_dep l s :
  al (fold_left (fun s v => setAk s v KDep) l s) = al s /\ out (fold_left (fun s v => setAk s v KDep) l s) = out s /\
  (forall v, dst (fold_left (fun s v => setAk s v KDep) l s) v = dst s v) /\
  (forall v, ak (fold_left (fun s v => setAk s v KDep) l s) v = if mem v l then KDep else ak s v).
Proof.
  revert s; induction l as [| a l IH]; intros s; cbn [fold_left]; [repeat split |].
  destruct (IH (setAk s a KDep)) as [A [B [C D]]]; repeat split.
  - rewrite A; reflexivity.
  - rewrite B; reflexivity.
  - intros v; rewrite C; reflexivity.
  - intros v; rewrite D; unfold setAk; cbn [ak]; unfold fset.
    unfold mem; cbn [existsb]; destruct (existsb (Nat.eqb v) l); [rewrite orb_true_r; reflexivity |].
    destruct (Nat.eqb v a); reflexivity.
Qed.

(** ** What the parts of a step leave alone *)
Lemma checkUse_al s x : al (checkUse s x) = al s.
Proof. unfold checkUse; destruct (dst s x); reflexivity. Qed.
Lemma checkUse_ak s x : ak (checkUse s x) = ak s.
Proof. unfold checkUse; destruct (dst s x); reflexivity. Qed.
Lemma lose_al s x : al (lose s x) = al s.
Proof. unfold lose, canLose; destruct (_ && _); [destruct (aliasedBy _ _) |]; reflexivity. Qed.
Lemma lose_dst s x : dst (lose s x) = dst s.
Proof. unfold lose, canLose; destruct (_ && _); [destruct (aliasedBy _ _) |]; reflexivity. Qed.
Lemma transfer_al s x y : al (transfer s x y) = al s.
Proof.
  unfold transfer; destruct (ak s y); try reflexivity.
  unfold setDependentComplete; rewrite (proj1 (fold_dep _ _)); reflexivity.
Qed.
Lemma transfer_dst s x y v : dst (transfer s x y) v = dst s v.
Proof.
  unfold transfer; destruct (ak s y); try reflexivity.
  unfold setDependentComplete; rewrite (proj1 (proj2 (proj2 (fold_dep _ _)))); reflexivity.
Qed.
Lemma transfer_out s x y : out (transfer s x y) = out s.
Proof.
  unfold transfer; destruct (ak s y); try reflexivity.
  unfold setDependentComplete; rewrite (proj1 (proj2 (fold_dep _ _))); reflexivity.
Qed.
Lemma passDependent_al s x : al (passDependent s x) = al s.
Proof.
  unfold passDependent, canLose; destruct (dependentReference s x); cbn [kill setDst setAk al];
    destruct (aliasedBy _ _); reflexivity.
Qed.

(** The table after a step. *)
Definition table_step (t : table) (o : op) : table :=
  match o with
  | New x => clear t x
  | Copy x y => addAlias (clear t x) x y
  | _ => t
  end.
Lemma step_al s o : al (step s o) = table_step (al s) o.
Proof.
  destruct o as [x | x y | x | x]; cbn [step table_step].
  - unfold assignNew; cbn [setAl setDst setAk al]; rewrite lose_al; reflexivity.
  - unfold assignCopy; destruct (Nat.eqb_spec x y) as [-> | N].
    + unfold addAlias; rewrite Nat.eqb_refl; cbn [setAl al]; rewrite checkUse_al; reflexivity.
    + cbn [setAl setDst al]; rewrite transfer_al; cbn [setAk setDst al]; rewrite lose_al, checkUse_al; reflexivity.
  - unfold release, killComplete; rewrite (proj1 (fold_kill _ _)).
    destruct (ak (checkUse s x) x); cbn [say al]; rewrite ?passDependent_al, ?checkUse_al; reflexivity.
  - apply checkUse_al.
Qed.
Lemma step_nodup t o : NoDup (keys t) -> NoDup (keys (table_step t o)).
Proof.
  destruct o as [x | x y | x | x]; cbn [table_step]; intros H; try exact H.
  - apply nodup_clear; exact H.
  - apply nodup_addAlias, nodup_clear; exact H.
Qed.

(** ** What really happens, by parts *)
Lemma cuse_env s x : env (cuse s x) = env s.
Proof. unfold cuse; destruct (env s x) as [b |]; [destruct (freed s b) |]; reflexivity. Qed.
Lemma cuse_freed s x : freed (cuse s x) = freed s.
Proof. unfold cuse; destruct (env s x) as [b |]; [destruct (freed s b) |]; reflexivity. Qed.
Lemma cuse_next s x : next (cuse s x) = next s.
Proof. unfold cuse; destruct (env s x) as [b |]; [destruct (freed s b) |]; reflexivity. Qed.
Definition env_step (e : var -> option nat) (n : nat) (o : op) : var -> option nat :=
  match o with
  | New x => fun v => if Nat.eqb v x then Some n else e v
  | Copy x y => fun v => if Nat.eqb v x then e y else e v
  | _ => e
  end.
Lemma cstep_env s o v : env (cstep s o) v = env_step (env s) (next s) o v.
Proof. destruct o; cbn [cstep env env_step]; rewrite ?cuse_env; reflexivity. Qed.
Lemma cstep_next s o : next (cstep s o) = match o with New _ => S (next s) | _ => next s end.
Proof. destruct o; cbn [cstep next]; rewrite ?cuse_next; reflexivity. Qed.
Lemma cstep_freed s o b :
  freed (cstep s o) b = match o with
                        | Release x => match env s x with Some c => Nat.eqb b c || freed s b | None => freed s b end
                        | _ => freed s b end.
Proof. destruct o; cbn [cstep freed]; rewrite ?cuse_env, ?cuse_freed; reflexivity. Qed.

(** ** Both at once *)
Definition both := (state * cstate)%type.
Definition bstep (b : both) (o : op) : both := (step (fst b) o, cstep (snd b) o).
Lemma run_both p s c : fold_left bstep p (s, c) = (fold_left step p s, fold_left cstep p c).
Proof. revert s c; induction p as [| o p IH]; intros s c; cbn [fold_left]; [reflexivity | apply IH]. Qed.
Lemma invariant_both (I : state -> cstate -> Prop) :
  I start cstart -> (forall s c o, I s c -> I (step s o) (cstep c o)) -> forall p, I (run p) (crun p).
Proof.
  intros H0 HS p; unfold run, crun.
  assert (G : forall s c, I s c -> I (fold_left step p s) (fold_left cstep p c)).
  { induction p as [| o p IH]; intros s c H; cbn [fold_left]; [exact H | apply IH, HS, H]. }
  apply G, H0.
Qed.

(** ** Aliases hold *)
Definition holds (s : state) (c : cstate) : Prop :=
  NoDup (keys (al s)) /\
  (forall v w, In w (canAlias (al s) v) -> env c v = env c w) /\
  (forall v b, env c v = Some b -> b < next c).
Lemma holds_step s c o : holds s c -> holds (step s o) (cstep c o).
Proof.
  intros [ND [H B]]; split; [rewrite step_al; apply step_nodup; exact ND | split].
  - intros v w; rewrite step_al, !cstep_env.
    destruct o as [x | x y | x | x]; cbn [table_step env_step]; try apply H.
    + rewrite canAlias_clear; intros [N1 [N2 I]].
      destruct (Nat.eqb_spec v x); [congruence |]; destruct (Nat.eqb_spec w x); [congruence |]; apply H; exact I.
    + set (e v := if Nat.eqb v x then env c y else env c v).
      assert (H1 : forall v w, In w (canAlias (clear (al s) x) v) -> e v = e w).
      { intros v0 w0; rewrite canAlias_clear; intros [N1 [N2 I]]; unfold e.
        destruct (Nat.eqb_spec v0 x); [congruence |]; destruct (Nat.eqb_spec w0 x); [congruence |]; apply H; exact I. }
      change (In w (canAlias (addAlias (clear (al s) x) x y) v) -> e v = e w).
      unfold addAlias; destruct (Nat.eqb_spec x y) as [-> | N]; [apply H1 |].
      assert (Exy : e x = e y).
      { unfold e; rewrite Nat.eqb_refl; destruct (Nat.eqb_spec y x); [congruence | reflexivity]. }
      assert (H2 : forall v w, In w (canAlias (addMust (clear (al s) x) x y) v) -> e v = e w).
      { intros v0 w0; rewrite in_addMust; intros [I | [-> [-> | [I _]]]];
          [apply H1, I | exact Exy | rewrite Exy; apply H1, I]. }
      rewrite in_addMust; intros [I | [-> [-> | [I _]]]];
        [apply H2, I | symmetry; exact Exy | rewrite <- Exy; apply H2, I].
  - intros v b; rewrite cstep_env, cstep_next; destruct o as [x | x y | x | x]; cbn [env_step]; try apply B.
    + destruct (Nat.eqb v x); [intros E; injection E as <-; lia | intros E; apply B in E; lia].
    + destruct (Nat.eqb v x); apply B.
Qed.
Lemma holds_run p : holds (run p) (crun p).
Proof.
  apply (invariant_both holds); [| exact holds_step].
  split; [constructor | split]; [intros v w [] | intros v b E; discriminate].
Qed.
