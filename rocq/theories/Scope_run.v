(** * The checker follows the scopes of C *)
From Coq Require Import Arith List Bool Lia.
From Verif Require Import Scope_model Scope_spec Scope_proofs.
Import ListNotations.

Scheme stmt_mind := Induction for stmt Sort Prop
with stmts_mind := Induction for stmts Sort Prop
with cases_mind := Induction for cases Sort Prop.
Combined Scheme program_ind from stmt_mind, stmts_mind, cases_mind.

(** ** What the specification refers to *)

Lemma usedIn_app : forall a b d, usedIn (a ++ b) d = usedIn a d || usedIn b d.
Proof. intros; apply existsb_app. Qed.
Lemma usedIn_unused : forall sc l d, usedIn (unusedOf sc l) d = false.
Proof.
  intros sc l d; unfold usedIn, unusedOf. induction (filter _ sc) as [|p r IH]; [reflexivity|exact IH].
Qed.

Definition seen (env : list scope) (d : nat) : Prop := exists k, resolve env k = Some d.

Lemma exprS_refs : forall e env d, usedIn (exprS env e) d = true -> seen env d.
Proof.
  assert (A : forall l m d, usedIn (l ++ m) d = true -> usedIn l d = true \/ usedIn m d = true)
    by (intros l m d; rewrite usedIn_app; apply orb_prop).
  induction e as [|x|a IHa b IHb|a IHa b IHb|a IHa b IHb|mf p IHp a IHa b IHb]; cbn [exprS]; intros env d H.
  - discriminate.
  - exists x. unfold usedIn in H; cbn [existsb refersTo] in H. rewrite orb_false_r in H.
    destruct (resolve env x) as [j|]; [|discriminate]. apply Nat.eqb_eq in H; subst; reflexivity.
  - apply A in H; destruct H; auto.
  - apply A in H; destruct H; auto.
  - apply A in H; destruct H; auto.
  - apply A in H; destruct H as [H|H]; [auto|]. apply A in H; destruct H; auto.
Qed.
Lemma inScope_app : forall a b k, inScope (a ++ b) k = match inScope a k with Some d => Some d | None => inScope b k end.
Proof. induction a as [|[y d] a IH]; cbn; intros; [reflexivity|]; destruct (Nat.eqb y k); auto. Qed.
Lemma inScope_in : forall a k d, inScope a k = Some d -> In d (map snd a).
Proof.
  induction a as [|[y e] a IH]; cbn; intros k d H; [discriminate|]; destruct (Nat.eqb y k); [injection H as <-; auto|eauto].
Qed.
Lemma seen_more : forall sc news env d, seen ((sc ++ news) :: env) d -> seen (sc :: env) d \/ In d (map snd news).
Proof.
  intros sc news env d (k & H). cbn in H. rewrite inScope_app in H.
  destruct (inScope sc k) eqn:E; [left; exists k; cbn; rewrite E; exact H|].
  destruct (inScope news k) eqn:E'; [right; injection H as <-; eauto using inScope_in|].
  left; exists k; cbn; rewrite E; exact H.
Qed.
Lemma seen_nil : forall env d, seen (nil :: env) d -> seen env d.
Proof. intros env d (k & H); exists k; exact H. Qed.

Definition refs (sc : scope) (env : list scope) (r : scope * list event) (ds : list nat) : Prop :=
  (exists news, fst r = sc ++ news /\ incl (map snd news) ds) /\
  forall d, usedIn (snd r) d = true -> seen (sc :: env) d \/ In d ds.

Lemma refs_same : forall sc env ev ds, (forall d, usedIn ev d = true -> seen (sc :: env) d \/ In d ds) ->
  refs sc env (sc, ev) ds.
Proof. intros; split; [exists nil; rewrite app_nil_r; split; [reflexivity|intros ? []]|assumption]. Qed.

Lemma spec_refs :
  (forall c sc env, refs sc env (stmtS sc env c) (declared c)) /\
  (forall l sc env, refs sc env (stmtsS sc env l) (declaredL l)) /\
  (forall c sc env, refs sc env (casesS sc env c) (declaredC c)).
Proof.
  apply program_ind.
  - intros e sc env; apply refs_same; intros d H; left; exact (exprS_refs e _ d H).
  - intros x d e sc env; split; cbn [stmtS fst snd declared].
    + exists [(x, d)]; split; [reflexivity|apply incl_refl].
    + intros i H; rewrite usedIn_app in H; apply orb_prop in H; destruct H as [H|H].
      * exfalso; revert H; destruct (resolve env x); discriminate.
      * apply exprS_refs in H. apply seen_more in H; exact H.
  - intros l IH sc env; cbn [stmtS declared]. destruct (stmtsS nil (sc :: env) l) as [b ev] eqn:E.
    apply refs_same. intros d H. rewrite usedIn_app, usedIn_unused, orb_false_r in H.
    pose proof (proj2 (IH nil (sc :: env))) as R; rewrite E in R; destruct (R d H) as [S|]; [|auto].
    left; apply seen_nil; exact S.
  - intros p a IH sc env; cbn [stmtS declared]. destruct (stmtS sc env a) as [b ev] eqn:E.
    apply refs_same. intros d H. rewrite usedIn_app in H. apply orb_prop in H; destruct H as [H|H];
      [left; exact (exprS_refs _ _ _ H)|]. pose proof (proj2 (IH sc env)) as R; rewrite E in R; exact (R d H).
  - intros mt mf p a IHa b IHb sc env; cbn [stmtS declared].
    destruct (stmtS sc env a) as [ba ea] eqn:Ea. destruct (stmtS sc env b) as [bb eb] eqn:Eb.
    apply refs_same. intros d H. rewrite !usedIn_app in H. apply orb_prop in H; destruct H as [H|H];
      [left; exact (exprS_refs _ _ _ H)|]. rewrite in_app_iff.
    pose proof (proj2 (IHa sc env)) as Ra; rewrite Ea in Ra. pose proof (proj2 (IHb sc env)) as Rb; rewrite Eb in Rb.
    apply orb_prop in H; destruct H as [H|H]; [destruct (Ra d H)|destruct (Rb d H)]; auto.
  - intros ex p a IH sc env; cbn [stmtS declared]. destruct (stmtS sc env a) as [b ev] eqn:E.
    apply refs_same. intros d H. rewrite usedIn_app in H. apply orb_prop in H; destruct H as [H|H];
      [left; exact (exprS_refs _ _ _ H)|]. pose proof (proj2 (IH sc env)) as R; rewrite E in R; exact (R d H).
  - intros a IH p sc env; cbn [stmtS declared]. destruct (stmtS sc env a) as [b ev] eqn:E.
    apply refs_same. intros d H. rewrite usedIn_app in H. apply orb_prop in H; destruct H as [H|H];
      [|left; exact (exprS_refs _ _ _ H)]. pose proof (proj2 (IH sc env)) as R; rewrite E in R; exact (R d H).
  - intros al p l IHl c IHc sc env; cbn [stmtS declared].
    destruct (stmtsS nil (sc :: env) l) as [b ev] eqn:E. destruct (casesS b (sc :: env) c) as [b' ev'] eqn:E'.
    apply refs_same. intros d H. rewrite !usedIn_app, usedIn_unused, orb_false_r in H.
    apply orb_prop in H; destruct H as [H|H]; [left; exact (exprS_refs _ _ _ H)|].
    destruct (IHl nil (sc :: env)) as [(n & N1 & N2) R]; rewrite E in N1, R. cbn in N1; subst b.
    destruct (IHc n (sc :: env)) as [_ R']; rewrite E' in R'. rewrite in_app_iff.
    apply orb_prop in H; destruct H as [H|H].
    + destruct (R d H) as [S|]; [|auto]. left; apply seen_nil; exact S.
    + destruct (R' d H) as [S|]; [|auto]. apply (seen_more nil n) in S. destruct S as [S|S]; [left; apply seen_nil; exact S|auto].
  - intros sc env; apply refs_same; discriminate.
  - intros a IHa l IHl sc env; cbn [stmtsS declaredL].
    destruct (stmtS sc env a) as [b ev] eqn:E. destruct (stmtsS b env l) as [b' ev'] eqn:E'.
    destruct (IHa sc env) as [(n & N1 & N2) R]; rewrite E in N1, R; cbn in N1; subst b.
    destruct (IHl (sc ++ n) env) as [(n' & N1' & N2') R']; rewrite E' in N1', R'; cbn in N1'; subst b'.
    split; cbn [fst snd].
    + exists (n ++ n'); rewrite app_assoc; split; [reflexivity|]. rewrite map_app. apply incl_app; [apply incl_appl|apply incl_appr]; assumption.
    + intros d H; rewrite usedIn_app in H; rewrite in_app_iff. apply orb_prop in H; destruct H as [H|H].
      * destruct (R d H); auto.
      * destruct (R' d H) as [S|]; [|auto]. apply seen_more in S; destruct S as [|S]; [auto|]. right; left; exact (N2 _ S).
  - intros sc env; apply refs_same; discriminate.
  - intros l IHl z c IHc sc env; cbn [casesS declaredC].
    destruct (stmtsS sc env l) as [b ev] eqn:E. destruct (casesS b env c) as [b' ev'] eqn:E'.
    destruct (IHl sc env) as [(n & N1 & N2) R]; rewrite E in N1, R; cbn in N1; subst b.
    destruct (IHc (sc ++ n) env) as [(n' & N1' & N2') R']; rewrite E' in N1', R'; cbn in N1'; subst b'.
    split; cbn [fst snd].
    + exists (n ++ n'); rewrite app_assoc; split; [reflexivity|]. rewrite map_app. apply incl_app; [apply incl_appl|apply incl_appr]; assumption.
    + intros d H; rewrite usedIn_app in H; rewrite in_app_iff. apply orb_prop in H; destruct H as [H|H].
      * destruct (R d H); auto.
      * destruct (R' d H) as [S|]; [|auto]. apply seen_more in S; destruct S as [|S]; [auto|]. right; left; exact (N2 _ S).
Qed.

(** ** Branches *)

Lemma and_or_ok : forall Q s s1, wf s -> closed Q s -> upd Q (push KTrue s) s1 -> upd Q s (popAndOr s1).
Proof.
  intros Q s s1 Hw Hc U.
  destruct (branch_step Q (fun _ => false) KTrue nil s s s1 eq_refl (fun _ => eq_refl) (bt_nil s) U) as (es & -> & B).
  cbn [popAndOr entries]. apply (upd_same (usedBy es)); [assumption| |exact (bt_used _ _ _ Hw B Hc)].
  apply (fold_touch (fun e => orU (used e))); [reflexivity|assumption|].
  intros e He; destruct B as (_ & Cp & _); destruct (Cp e He) as (o & Ho & Hi & _); eauto.
Qed.
Lemma two_ok : forall mf P Q s s1 s2, wf s -> closed P s -> closed Q s ->
  upd P (push KTrue s) s1 -> upd Q (push KFalse s1) s2 -> upd (fun i => P i || Q i) s (popBranches mf s2).
Proof.
  intros mf P Q s s1 s2 Hw Hp Hq U1 U2.
  destruct (branch_step P (fun _ => false) KTrue nil s s s1 eq_refl (fun _ => eq_refl) (bt_nil s) U1) as (ts & -> & B1).
  destruct (branch_step Q (fun _ => false) KFalse nil (Tab KTrue ts :: s) s s2 eq_refl (fun _ => eq_refl) (bt_nil s) U2) as (fs & -> & B2).
  apply (upd_same (fun i => usedBy ts i || usedBy fs i)); [assumption| |].
  - apply popBranches_ok; [assumption|exact (proj1 B2)|exact (proj1 B1)|exact (proj1 (proj2 B2))|exact (proj1 (proj2 B1))].
  - apply same_or; apply bt_used; assumption.
Qed.
Lemma one_ok : forall ex P s s1, wf s -> closed P s ->
  upd P (push KTrue s) s1 -> upd P s (popTrueBranch ex s1).
Proof.
  intros ex P s s1 Hw Hp U1. unfold popTrueBranch.
  apply (upd_ext (fun i => P i || false)); [assumption| |intros; apply orb_false_r].
  apply (two_ok ex P (fun _ => false) s s1); [assumption|assumption|intros i _ E; discriminate|assumption|].
  destruct (branch_step P (fun _ => false) KTrue nil s s s1 eq_refl (fun _ => eq_refl) (bt_nil s) U1) as (ts & -> & B1).
  apply upd_refl; [|reflexivity]. split.
  - exact (upd_wf _ _ _ U1 (wf_push KTrue s (or_introl eq_refl) Hw)).
  - split; [eauto|]. split; [constructor|intros e []].
Qed.
Lemma wf_pushF : forall P s s1, wf s -> upd P (push KTrue s) s1 -> wf (push KFalse s1) /\ scopes s1 = scopes s.
Proof.
  intros P s s1 Hw U1. pose proof (upd_scopes _ _ _ U1) as Sc.
  pose proof (upd_wf _ _ _ U1 (wf_push KTrue s (or_introl eq_refl) Hw)) as W.
  destruct (branch_step P (fun _ => false) KTrue nil s s s1 eq_refl (fun _ => eq_refl) (bt_nil s) U1) as (ts & -> & B1).
  split; [|exact Sc]. split; [exact W|]. split; [eauto|]. split; [constructor|intros e []].
Qed.

(** ** Expressions *)

Lemma closed_expr : forall e s, closed (usedIn (exprS (scopes s) e)) s.
Proof. intros e s i _ H; exact (exprS_refs _ _ _ H). Qed.

Lemma exprC_ok : forall e s, wf s ->
  exists s', exprC e s = (s', exprS (scopes s) e) /\ upd (usedIn (exprS (scopes s) e)) s s'.
Proof.
  induction e as [|x|a IHa b IHb|a IHa b IHb|a IHa b IHb|mf p IHp a IHa b IHb]; intros s Hw; cbn [exprC exprS].
  - exists s; split; [reflexivity|apply upd_refl; auto].
  - destruct (look Here s x) as [e|] eqn:L.
    + destruct (touch_some s x (setU true) true e Hw L) as (s' & E & U);
        [reflexivity|reflexivity|].
      rewrite E. rewrite (vis s x e Hw L). exists s'; split; [reflexivity|].
      apply (upd_ext (only true (eid e))); [assumption|exact U|].
      intros i _; cbn; unfold only; rewrite Nat.eqb_sym, orb_false_r; reflexivity.
    + rewrite (touch_none s x _ L). rewrite <- (look_resolve s Here x Hw) by discriminate. rewrite L.
      exists s; split; [reflexivity|apply upd_refl; auto].
  - destruct (IHa s Hw) as (s1 & E1 & U1). pose proof (upd_wf _ _ _ U1 Hw) as W1.
    destruct (IHb s1 W1) as (s2 & E2 & U2). rewrite (upd_scopes _ _ _ U1) in E2, U2.
    unfold andThen; rewrite E1, E2. exists s2; split; [reflexivity|].
    apply (upd_ext _ _ _ _ Hw (upd_trans _ _ _ _ _ U1 U2)). intros; symmetry; apply usedIn_app.
  - destruct (IHa s Hw) as (s1 & E1 & U1). pose proof (upd_wf _ _ _ U1 Hw) as W1.
    destruct (IHb (push KTrue s1) (wf_push KTrue s1 (or_introl eq_refl) W1)) as (s2 & E2 & U2).
    change (scopes (push KTrue s1)) with (scopes s1) in *.
    pose proof (and_or_ok _ s1 s2 W1 (closed_expr b s1) U2) as U3.
    rewrite (upd_scopes _ _ _ U1) in E2, U3.
    unfold andThen; rewrite E1, E2. eexists; split; [reflexivity|].
    apply (upd_ext _ _ _ _ Hw (upd_trans _ _ _ _ _ U1 U3)). intros; symmetry; apply usedIn_app.
  - destruct (IHa s Hw) as (s1 & E1 & U1). pose proof (upd_wf _ _ _ U1 Hw) as W1.
    destruct (IHb (push KTrue s1) (wf_push KTrue s1 (or_introl eq_refl) W1)) as (s2 & E2 & U2).
    change (scopes (push KTrue s1)) with (scopes s1) in *.
    pose proof (and_or_ok _ s1 s2 W1 (closed_expr b s1) U2) as U3.
    rewrite (upd_scopes _ _ _ U1) in E2, U3.
    unfold andThen; rewrite E1, E2. eexists; split; [reflexivity|].
    apply (upd_ext _ _ _ _ Hw (upd_trans _ _ _ _ _ U1 U3)). intros; symmetry; apply usedIn_app.
  - destruct (IHp s Hw) as (s1 & E1 & U1). pose proof (upd_wf _ _ _ U1 Hw) as W1.
    destruct (IHa (push KTrue s1) (wf_push KTrue s1 (or_introl eq_refl) W1)) as (s2 & E2 & U2).
    destruct (wf_pushF _ _ _ W1 U2) as [W2 S2].
    destruct (IHb (push KFalse s2) W2) as (s3 & E3 & U3).
    change (scopes (push KTrue s1)) with (scopes s1) in *. change (scopes (push KFalse s2)) with (scopes s2) in *.
    rewrite S2 in E3, U3.
    pose proof (two_ok mf _ _ s1 s2 s3 W1 (closed_expr a s1) (closed_expr b s1) U2 U3) as U4.
    rewrite (upd_scopes _ _ _ U1) in E2, E3, U4.
    unfold andThen; rewrite E1, E2, E3. eexists; split; [reflexivity|].
    apply (upd_ext _ _ _ _ Hw (upd_trans _ _ _ _ _ U1 U4)). intros; rewrite !usedIn_app; reflexivity.
Qed.

(** ** Declarations *)

Definition ents (n : scope) : list entry := map (fun p => Ent (fst p) (snd p) false) n.
Definition addTop (n : scope) (s : list tab) : list tab :=
  match s with t :: r => Tab (tkind t) (entries t ++ ents n) :: r | nil => nil end.

Lemma addTop_nil : forall s, addTop nil s = s.
Proof. intros [|[k es] r]; [reflexivity|]. cbn. rewrite app_nil_r; reflexivity. Qed.
Lemma addTop_app : forall a b s, addTop (a ++ b) s = addTop b (addTop a s).
Proof. intros a b [|[k es] r]; [reflexivity|]. cbn. unfold ents; rewrite map_app, app_assoc; reflexivity. Qed.
Lemma pairs_ents : forall n, pairs (ents n) = n.
Proof. intro n; unfold pairs, ents; rewrite map_map; cbn. rewrite <- (map_id n) at 2; apply map_ext; intros []; reflexivity. Qed.
Lemma upd_add : forall P n t r s', tkind t = KNormal -> upd P (t :: r) s' ->
  (forall d, In d (map snd n) -> P d = false) -> upd P (addTop n (t :: r)) (addTop n s').
Proof.
  intros P n t r s' K U Hn. inversion U; subst; [|unfold copies in *; rewrite K in *; discriminate].
  cbn [addTop tkind entries].
  assert (E : mapU P (entries t) ++ ents n = mapU P (entries t ++ ents n)).
  { unfold mapU; rewrite map_app; f_equal. symmetry. apply mapU_id. intros e He. unfold ents in He.
    apply in_map_iff in He; destruct He as (p & <- & Hp). cbn. rewrite Hn; [discriminate|]. apply in_map; exact Hp. }
  rewrite E. apply (upd_pass P (Tab (tkind t) (entries t ++ ents n))); assumption.
Qed.

(** ** Statements *)

Definition okTop (s : list tab) : Prop := match s with t :: _ => tkind t <> KSwitch | nil => True end.
Lemma upd_top : forall P s s', upd P s s' -> okTop s -> okTop s'.
Proof. intros P s s' U; inversion U; subst; cbn; auto. Qed.

Definition fresh (ds : list nat) (s : list tab) : Prop := NoDup ds /\ forall d, In d ds -> ~ In d (sids s).

Definition goodS (c : stmt) : Prop := forall s sc env,
  ok c -> isDecl c = false -> wf s -> okTop s -> scopes s = sc :: env -> fresh (declared c) s ->
  exists s', stmtC c s = (s', snd (stmtS sc env c)) /\ fst (stmtS sc env c) = sc /\
    upd (usedIn (snd (stmtS sc env c))) s s'.
Definition goodL (l : stmts) : Prop := forall s sc env,
  okL l -> wf s -> okTop s -> scopes s = sc :: env -> fresh (declaredL l) s ->
  (direct l = nil \/ exists t r, s = t :: r /\ tkind t = KNormal /\ NoDup (map ename (entries t) ++ direct l)) ->
  exists s' n, stmtsC l s = (s', snd (stmtsS sc env l)) /\ fst (stmtsS sc env l) = sc ++ n /\
    map fst n = direct l /\ incl (map snd n) (declaredL l) /\
    upd (usedIn (snd (stmtsS sc env l))) (addTop n s) s'.

(** The tables of the cases of a switch, above those of its block, of the switch, and [s]. *)
Definition swTabs (cs s : list tab) : list tab := cs ++ Tab KNormal nil :: Tab KSwitch nil :: s.
Definition caseT (s : list tab) (P : nat -> bool) (t : tab) : Prop :=
  tkind t = KCase /\ bt P (entries t) s /\ closed P s.
Definition anyP (Ps : list (nat -> bool)) (i : nat) : bool := existsb (fun P => P i) Ps.

Definition goodC (c : cases) : Prop := forall cs s Ps z sc env,
  okC c -> wf s -> okTop s -> scopes s = sc :: env -> fresh (declaredC c) s ->
  Forall2 (caseT s) Ps cs ->
  exists cs' s' Ps' z', casesC c z (swTabs cs s) = (swTabs cs' s', z', snd (casesS nil (sc :: env) c)) /\
    fst (casesS nil (sc :: env) c) = nil /\
    upd (fun _ => false) s s' /\ Forall2 (caseT s') Ps' cs' /\
    (forall i, anyP Ps' i = anyP Ps i || usedIn (snd (casesS nil (sc :: env) c)) i) /\
    (c <> CNil \/ cs <> nil -> cs' <> nil).

Lemma cases_all : forall s Ps cs, Forall2 (caseT s) Ps cs -> Forall (fun t => tkind t = KCase) cs.
Proof. induction 1; constructor; auto. exact (proj1 H). Qed.
Lemma dropCases_app : forall cs t r, Forall (fun t => tkind t = KCase) cs -> isCase t = false ->
  dropCases (cs ++ t :: r) = t :: r /\ takeCases (cs ++ t :: r) = cs.
Proof.
  intros cs t r Hc Ht; induction Hc as [|c cs K Hc IH]; cbn; [rewrite Ht; auto|].
  assert (I : isCase c = true) by (unfold isCase; rewrite K; reflexivity).
  rewrite I. destruct IH as [-> ->]; auto.
Qed.
Lemma look_cases : forall cs t r k, Forall (fun t => tkind t = KCase) cs -> isCase t = false ->
  look SkipCases (cs ++ t :: r) k = look Here (t :: r) k.
Proof.
  intros cs t r k Hc Ht; induction Hc as [|c cs K Hc IH]; cbn [app].
  - cbn [look]; rewrite Ht; reflexivity.
  - cbn [look]. unfold isCase at 1; rewrite K. exact IH.
Qed.
Lemma look_sw : forall cs s k, Forall (fun t => tkind t = KCase) cs ->
  look SkipCases (swTabs cs s) k = look Here s k.
Proof. intros cs s k H; unfold swTabs; rewrite look_cases by auto; reflexivity. Qed.
Lemma wf_cases : forall s rest Ps cs, wf rest -> (forall k, look SkipCases rest k = look Here s k) ->
  Forall2 (caseT s) Ps cs -> wf (cs ++ rest) /\ forall k, look SkipCases (cs ++ rest) k = look Here s k.
Proof.
  intros s rest Ps cs Hw Hl H; induction H as [|P t Ps cs (K & B & C) H IH]; [auto|].
  destruct IH as [IH1 IH2]. cbn [app]. split.
  - split; [assumption|]. unfold wfT; rewrite K. split; [exact (proj1 B)|].
    intros e He. unfold dropMode; rewrite K. destruct B as (_ & Cp & _). destruct (Cp e He) as (o & Ho & Hi).
    exists o; rewrite IH2; auto.
  - intro k. cbn [look]. unfold isCase; rewrite K. apply IH2.
Qed.
Lemma wf_sw : forall s, wf s -> wf (Tab KNormal nil :: Tab KSwitch nil :: s).
Proof. intros s H; apply (wf_push KNormal); [auto|]. apply (wf_push KSwitch); auto. Qed.
Lemma scopes_cases : forall cs rest, Forall (fun t => tkind t = KCase) cs -> scopes (cs ++ rest) = scopes rest.
Proof.
  intros cs rest H; induction H as [|t cs K H IH]; [reflexivity|]. cbn [app]. rewrite scopes_cons. unfold isNormal; rewrite K. exact IH.
Qed.
Lemma scopes_sw : forall cs s, Forall (fun t => tkind t = KCase) cs -> scopes (swTabs cs s) = nil :: scopes s.
Proof. intros cs s H; unfold swTabs; rewrite scopes_cases by assumption; reflexivity. Qed.

Lemma fallInto_ok : forall es s, wf s -> cop es s ->
  exists s', fallInto es (Tab KNormal nil :: Tab KSwitch nil :: s) = (es, Tab KNormal nil :: Tab KSwitch nil :: s') /\
    upd (fun _ => false) s s'.
Proof.
  induction es as [|e es IH]; intros s Hw Hc; [exists s; split; [reflexivity|apply upd_refl; auto]|].
  destruct (Hc e (or_introl eq_refl)) as (o & Ho & Hi & Hu). cbn [fallInto touch entries getE copies tkind].
  destruct (touch_some s (ename e) (fun old => old) false o Hw Ho) as (s1 & E1 & U1);
    [reflexivity|destruct o; reflexivity|].
  rewrite E1.
  assert (U1' : upd (fun _ => false) s s1) by (apply (upd_ext _ _ _ _ Hw U1); reflexivity).
  destruct (IH s1) as (s2 & E2 & U2); [exact (upd_wf _ _ _ U1 Hw)|apply (cop_upd _ es s s1 Hw U1'); [intros a Ha; apply Hc; right; exact Ha|reflexivity]|].
  rewrite E2. exists s2; split.
  - rewrite (orU_id e (used o) Hu). reflexivity.
  - exact (upd_trans _ _ _ _ _ U1' U2).
Qed.

Lemma caseT_upd : forall s s', wf s -> upd (fun _ => false) s s' -> forall Ps cs,
  Forall2 (caseT s) Ps cs -> Forall2 (caseT s') Ps cs.
Proof.
  intros s s' Hw U Ps cs H; induction H as [|P t Ps cs (K & B & C) H IH]; constructor; auto.
  split; [exact K|split; [exact (bt_false _ _ _ Hw U _ B)|exact (closed_scopes _ _ _ (upd_scopes _ _ _ U) C)]].
Qed.

(** The start of a case: a table for it, new or the one of the case before. *)
Lemma newCase_ok : forall z cs s Ps, wf s -> Forall2 (caseT s) Ps cs ->
  exists t cs' s' P Ps', newCase z (swTabs cs s) = swTabs (t :: cs') s' /\ upd (fun _ => false) s s' /\
    Forall2 (caseT s') (P :: Ps') (t :: cs') /\ forall i, anyP (P :: Ps') i = anyP Ps i.
Proof.
  intros z cs s Ps Hw H.
  assert (N : exists t cs' s' P Ps', push KCase (swTabs cs s) = swTabs (t :: cs') s' /\ upd (fun _ => false) s s' /\
    Forall2 (caseT s') (P :: Ps') (t :: cs') /\ forall i, anyP (P :: Ps') i = anyP Ps i).
  { exists (Tab KCase nil), cs, s, (fun _ => false), Ps. split; [reflexivity|]. split; [apply upd_refl; auto|].
    split; [|reflexivity]. constructor; [|assumption]. split; [reflexivity|split; [apply bt_nil|intros i _ E; discriminate]]. }
  destruct z; [|exact N|exact N]. cbn [newCase]. destruct H as [|P t Ps cs (K & B & C) H]; [exact N|].
  unfold swTabs at 1. cbn [app]. unfold isCase; rewrite K.
  destruct (dropCases_app cs (Tab KNormal nil) (Tab KSwitch nil :: s) (cases_all _ _ _ H) eq_refl) as [-> ->].
  destruct (fallInto_ok (entries t) s Hw (proj1 (proj2 B))) as (s' & E & U). rewrite E.
  exists t, cs, s', P, Ps. split; [destruct t as [k es]; cbn in *; subst k; reflexivity|]. split; [exact U|].
  split; [|reflexivity]. apply (caseT_upd s s' Hw U). constructor; [split; [|split]|]; assumption.
Qed.

(** The end of a switch. *)
Lemma mergeCase_fold : forall lr es s, mergeCase lr es s =
  fold_left (fun s e => fst (touch s (ename e) (fun old => if lr then setU (used old || used e) old else orU (used e) old))) es s.
Proof. reflexivity. Qed.
Lemma mergeCases_ok : forall s, wf s -> forall Ps cs lr P l,
  Forall2 (caseT s) Ps cs -> caseT s P l ->
  caseT s (fun i => P i || anyP Ps i) (mergeCases lr l cs (Tab KSwitch nil :: s)).
Proof.
  intros s Hw Ps cs lr P l H; revert lr P l; induction H as [|Q t Ps cs Ht H IH]; intros lr P l Hl.
  - cbn [mergeCases]. destruct Hl as (K & B & C). split; [exact K|split].
    + apply (bt_same P); [assumption|exact B|]. intros i _; left; symmetry; apply orb_false_r.
    + apply closed_or; [exact C|intros i _ E; discriminate].
  - cbn [mergeCases].
    assert (Hw' : wf (Tab KSwitch nil :: s)) by (apply (wf_push KSwitch); auto).
    assert (F : Forall2 (caseT s) (P :: Q :: Ps) (l :: t :: cs)) by (constructor; [|constructor]; assumption).
    destruct (wf_cases s (Tab KSwitch nil :: s) _ _ Hw' (fun _ => eq_refl) F) as [W _].
    inversion F as [|? ? ? ? _ F' E1 E2]; subst.
    destruct (wf_cases s (Tab KSwitch nil :: s) _ _ Hw' (fun _ => eq_refl) F') as [_ L].
    cbn [app] in W, L. destruct Hl as (K & B & C).
    set (rest := t :: cs ++ Tab KSwitch nil :: s) in *.
    assert (U : upd (usedBy (entries t)) (l :: rest) (mergeCase lr (entries t) (l :: rest))).
    { rewrite mergeCase_fold. apply fold_touch; [intros; apply setU_or|assumption|].
      intros e He. destruct Ht as (_ & (_ & Cp & _) & _). destruct (Cp e He) as (o & Ho & Hi & _).
      destruct B as (_ & _ & Hk). specialize (Hk (ename e)). rewrite Ho in Hk. unfold hereOf in Hk.
      exists (orP P o). cbn [look]. unfold dropMode; rewrite K. rewrite L. rewrite Hk. split; [reflexivity|exact Hi]. }
    destruct l as [k0 es0]. cbn in K; subst k0. cbn [entries] in B.
    destruct (branch_step (usedBy (entries t)) P KCase es0 rest s _ eq_refl L B U) as (es & E & B').
    rewrite E.
    assert (T : caseT s (fun i => P i || Q i) (Tab KCase es)).
    { split; [reflexivity|split]; [|apply closed_or; [exact C|exact (proj2 (proj2 Ht))]].
      apply (bt_same (fun i => P i || usedBy (entries t) i)); [assumption|exact B'|].
      apply same_or; [intros i _; left; reflexivity|]. apply bt_used; [assumption|exact (proj1 (proj2 Ht))|exact (proj2 (proj2 Ht))]. }
    destruct (IH false _ _ T) as (K' & B2 & C2). split; [exact K'|split].
    + apply (bt_same (fun i => (P i || Q i) || anyP Ps i)); [assumption|exact B2|].
      intros i _; left; cbn; rewrite orb_assoc; reflexivity.
    + intros i Hi Ei. apply (C2 i Hi). cbn in Ei; rewrite orb_assoc in Ei; exact Ei.
Qed.
Lemma exitSwitch_ok : forall al lr s Ps cs, wf s -> Forall2 (caseT s) Ps cs -> cs <> nil ->
  upd (anyP Ps) s (exitSwitch al lr (cs ++ Tab KSwitch nil :: s)).
Proof.
  intros al lr s Ps cs Hw H Hn. unfold exitSwitch.
  destruct (dropCases_app cs (Tab KSwitch nil) s (cases_all _ _ _ H) eq_refl) as [-> ->].
  destruct H as [|P l Ps cs Hl H]; [congruence|].
  destruct (mergeCases_ok s Hw Ps cs lr P l H Hl) as (K & B & C).
  set (l' := mergeCases lr l cs (Tab KSwitch nil :: s)) in *. clearbody l'.
  apply (upd_same (usedBy (entries l'))); [assumption| |].
  - rewrite mergeCase_fold. apply fold_touch; [intros; apply setU_or|assumption|].
    intros e He. destruct B as (_ & Cp & _). destruct (Cp e He) as (o & Ho & Hi & _); eauto.
  - exact (bt_used _ _ _ Hw B C).
Qed.

Lemma closed_of : forall c s sc env, scopes s = sc :: env -> fresh (declared c) s ->
  closed (usedIn (snd (stmtS sc env c))) s.
Proof.
  intros c s sc env E [_ F] i Hi Hu. destruct (proj2 (proj1 spec_refs c sc env) i Hu) as [S|S].
  - rewrite E; exact S.
  - destruct (F i S Hi).
Qed.
Lemma fresh_upd : forall P ds s s', upd P s s' -> fresh ds s -> fresh ds s'.
Proof. intros P ds s s' U [H1 H2]; split; [assumption|]; rewrite (upd_sids _ _ _ U); assumption. Qed.
Lemma NoDup_app_l : forall (A : Type) (a b : list A), NoDup (a ++ b) -> NoDup a.
Proof. induction a as [|x a IH]; cbn; intros b H; [constructor|]. apply NoDup_cons_iff in H. rewrite in_app_iff in H. constructor; [tauto|]. apply (IH b); tauto. Qed.
Lemma NoDup_app_r : forall (A : Type) (a b : list A), NoDup (a ++ b) -> NoDup b.
Proof. induction a as [|x a IH]; cbn; intros b H; [assumption|]. apply NoDup_cons_iff in H. apply IH; tauto. Qed.
Lemma NoDup_app_x : forall (A : Type) (a b : list A) x, NoDup (a ++ b) -> In x a -> ~ In x b.
Proof.
  induction a as [|y a IH]; cbn; intros b x H Hx; [tauto|]. apply NoDup_cons_iff in H; destruct H as [H1 H2].
  rewrite in_app_iff in H1. destruct Hx as [->|Hx]; [tauto|]. apply IH; assumption.
Qed.
Lemma fresh_app : forall a b s, fresh (a ++ b) s -> fresh a s /\ fresh b s.
Proof.
  intros a b s [H1 H2]; split; split; eauto using NoDup_app_l, NoDup_app_r; intros d Hd; apply H2; apply in_or_app; auto.
Qed.
Lemma fresh_more : forall (a b n : list nat) (N : scope) k es r, fresh (a ++ b) (Tab k es :: r) -> incl (map snd N) a ->
  fresh b (addTop N (Tab k es :: r)).
Proof.
  intros a b _ N k es r H HN. destruct (fresh_app _ _ _ H) as [_ [H1 H2]]. split; [assumption|].
  intros d Hd Hs. cbn [addTop tkind entries] in Hs.
  destruct k; try (rewrite sids_skip in Hs by reflexivity; apply (H2 d Hd); rewrite sids_skip by reflexivity; exact Hs).
  rewrite sids_cons in Hs by reflexivity. cbn [entries] in Hs. rewrite map_app in Hs.
  rewrite <- app_assoc in Hs. apply in_app_or in Hs. destruct Hs as [Hs|Hs].
  - apply (H2 d Hd). rewrite sids_cons by reflexivity. apply in_or_app; left; exact Hs.
  - apply in_app_or in Hs; destruct Hs as [Hs|Hs].
    + unfold ents in Hs; rewrite map_map in Hs; cbn in Hs. apply (NoDup_app_x _ a b d (proj1 H)); [|exact Hd].
      apply HN; exact Hs.
    + apply (H2 d Hd). rewrite sids_cons by reflexivity. apply in_or_app; right; exact Hs.
Qed.

Lemma allUsed_ok : forall P n ev, (forall i, usedIn ev i = P i) ->
  allUsed (Tab KNormal (mapU P (ents n))) = unusedOf n ev.
Proof.
  intros P n ev H; unfold allUsed, unusedOf; cbn [entries].
  induction n as [|[x d] n IH]; [reflexivity|]. cbn [ents mapU map flat_map filter fst snd]. rewrite H.
  cbn [orP used eid orU]. destruct (P d); cbn [orb negb map]; rewrite <- IH; reflexivity.
Qed.

Theorem run_ok : (forall c, goodS c) /\ (forall l, goodL l) /\ (forall c, goodC c).
Proof.
  apply program_ind.
  - (* expression *)
    intros e s sc env _ _ Hw _ Es _. destruct (exprC_ok e s Hw) as (s' & E & U). rewrite Es in E, U.
    exists s'; cbn [stmtC stmtS fst snd]; auto.
  - intros x d e s sc env _ Hd; discriminate.
  - (* block *)
    intros l IH s sc env [Hnd Hok] _ Hw Ht Es Hf. cbn [declared] in Hf.
    destruct (IH (push KNormal s) nil (sc :: env)) as (s1 & n & E & En & Ed & Ei & U).
    + exact Hok.
    + apply wf_push; auto.
    + discriminate.
    + rewrite <- Es; reflexivity.
    + exact Hf.
    + right; exists (Tab KNormal nil), s; split; [reflexivity|split; [reflexivity|exact Hnd]].
    + cbn [stmtC stmtS]. destruct (stmtsS nil (sc :: env) l) as [b ev] eqn:El. cbn [fst snd] in *.
      cbn [app] in En; subst b. unfold andThen; rewrite E. cbn [addTop push tkind entries app] in U.
      inversion U as [|t r r' Hc U' E1 E2|]; subst; [|discriminate]. cbn [tkind entries] in *.
      cbn [exitScope dropCases takeCases isCase tkind app].
      exists r'. split; [|split; [reflexivity|]].
      * f_equal. f_equal. pose proof (allUsed_ok (usedIn ev) n ev (fun _ => eq_refl)) as A.
        pose proof (upd_top _ _ _ U' Ht) as Ht'. destruct r' as [|u r']; [exact A|]. cbn in Ht'.
        destruct (tkind u); try exact A; tauto.
      * apply (upd_ext (usedIn ev)); [assumption|exact U'|]. intros; rewrite usedIn_app, usedIn_unused, orb_false_r; reflexivity.
  - (* if *)
    intros p a IH s sc env [Hd Hok] _ Hw Ht Es Hf. cbn [declared] in Hf.
    destruct (exprC_ok p s Hw) as (s1 & E1 & U1). rewrite Es in E1, U1.
    pose proof (upd_wf _ _ _ U1 Hw) as W1. pose proof (upd_scopes _ _ _ U1) as S1. rewrite Es in S1.
    pose proof (fresh_upd _ _ _ _ U1 Hf) as F1.
    destruct (IH (push KTrue s1) sc env Hok Hd (wf_push KTrue s1 (or_introl eq_refl) W1)) as (s2 & E2 & En & U2);
      [discriminate|exact S1|exact F1|].
    pose proof (closed_of a s1 sc env S1 F1) as C1.
    cbn [stmtC stmtS]. destruct (stmtS sc env a) as [b ev] eqn:El. cbn [fst snd] in *. subst b.
    unfold andThen; rewrite E1, E2. eexists; split; [reflexivity|split; [reflexivity|]].
    apply (upd_ext _ _ _ _ Hw (upd_trans _ _ _ _ _ U1 (one_ok false _ s1 s2 W1 C1 U2))).
    intros; symmetry; apply usedIn_app.
  - (* if else *)
    intros mt mf p a IHa b IHb s sc env (Hda & Hoka & Hdb & Hokb) _ Hw Ht Es Hf. cbn [declared] in Hf.
    destruct (exprC_ok p s Hw) as (s1 & E1 & U1). rewrite Es in E1, U1.
    pose proof (upd_wf _ _ _ U1 Hw) as W1. pose proof (upd_scopes _ _ _ U1) as S1. rewrite Es in S1.
    destruct (fresh_app _ _ _ (fresh_upd _ _ _ _ U1 Hf)) as [Fa Fb].
    destruct (IHa (push KTrue s1) sc env Hoka Hda (wf_push KTrue s1 (or_introl eq_refl) W1)) as (s2 & E2 & En & U2);
      [discriminate|exact S1|exact Fa|].
    destruct (wf_pushF _ _ _ W1 U2) as [W2 S2].
    destruct (IHb (push KFalse s2) sc env Hokb Hdb W2) as (s3 & E3 & En' & U3);
      [discriminate|rewrite <- S1; exact S2| |].
    { destruct Fb as [F1 F2]; split; [assumption|]. unfold push; rewrite sids_skip by reflexivity.
      unfold sids; rewrite S2; exact F2. }
    pose proof (closed_of a s1 sc env S1 Fa) as C1. pose proof (closed_of b s1 sc env S1 Fb) as C2.
    cbn [stmtC stmtS]. destruct (stmtS sc env a) as [ba ea] eqn:Ea. destruct (stmtS sc env b) as [bb eb] eqn:Eb.
    cbn [fst snd] in *. subst ba bb.
    unfold andThen; rewrite E1, E2, E3. eexists; split; [reflexivity|split; [reflexivity|]].
    apply (upd_ext _ _ _ _ Hw (upd_trans _ _ _ _ _ U1 (two_ok mf _ _ s1 s2 s3 W1 C1 C2 U2 U3))).
    intros; rewrite !usedIn_app; reflexivity.
  - (* while *)
    intros ex p a IH s sc env [Hd Hok] _ Hw Ht Es Hf. cbn [declared] in Hf.
    destruct (exprC_ok p s Hw) as (s1 & E1 & U1). rewrite Es in E1, U1.
    pose proof (upd_wf _ _ _ U1 Hw) as W1. pose proof (upd_scopes _ _ _ U1) as S1. rewrite Es in S1.
    pose proof (fresh_upd _ _ _ _ U1 Hf) as F1.
    destruct (IH (push KTrue s1) sc env Hok Hd (wf_push KTrue s1 (or_introl eq_refl) W1)) as (s2 & E2 & En & U2);
      [discriminate|exact S1|exact F1|].
    pose proof (closed_of a s1 sc env S1 F1) as C1.
    cbn [stmtC stmtS]. destruct (stmtS sc env a) as [b ev] eqn:El. cbn [fst snd] in *. subst b.
    unfold andThen; rewrite E1, E2. eexists; split; [reflexivity|split; [reflexivity|]].
    apply (upd_ext _ _ _ _ Hw (upd_trans _ _ _ _ _ U1 (one_ok ex _ s1 s2 W1 C1 U2))).
    intros; symmetry; apply usedIn_app.
  - (* do *)
    intros a IH p s sc env [Hd Hok] _ Hw Ht Es Hf. cbn [declared] in Hf.
    destruct (IH s sc env Hok Hd Hw Ht Es Hf) as (s1 & E1 & En & U1).
    destruct (exprC_ok p s1 (upd_wf _ _ _ U1 Hw)) as (s2 & E2 & U2).
    rewrite (upd_scopes _ _ _ U1), Es in E2, U2.
    cbn [stmtC stmtS]. destruct (stmtS sc env a) as [b ev] eqn:El. cbn [fst snd] in *. subst b.
    unfold andThen; rewrite E1, E2. exists s2; split; [reflexivity|split; [reflexivity|]].
    apply (upd_ext _ _ _ _ Hw (upd_trans _ _ _ _ _ U1 U2)). intros; symmetry; apply usedIn_app.
  - (* switch *)
    intros al p l _ c IHc s sc env (-> & Hcn & Hok) _ Hw Ht Es Hf. cbn [declared declaredL app] in Hf.
    destruct (exprC_ok p s Hw) as (s1 & E1 & U1). rewrite Es in E1, U1.
    pose proof (upd_wf _ _ _ U1 Hw) as W1. pose proof (upd_scopes _ _ _ U1) as S1. rewrite Es in S1.
    destruct (IHc nil s1 nil Falls sc env Hok W1 (upd_top _ _ _ U1 Ht) S1 (fresh_upd _ _ _ _ U1 Hf) (Forall2_nil _))
      as (cs & s2 & Ps & z' & E2 & En & U2 & F & Hp & Hne).
    cbn [stmtC stmtS stmtsS]. destruct (casesS nil (sc :: env) c) as [b ev] eqn:El. cbn [fst snd] in *. subst b.
    unfold andThen; rewrite E1. cbn [stmtsC app].
    change (push KNormal (push KSwitch s1)) with (swTabs nil s1). rewrite E2.
    unfold exitScope, swTabs.
    destruct (dropCases_app cs (Tab KNormal nil) (Tab KSwitch nil :: s2) (cases_all _ _ _ F) eq_refl) as [-> ->].
    cbn [tkind]. change (unusedOf nil ev) with (@nil event). rewrite !app_nil_r.
    eexists; split; [reflexivity|split; [reflexivity|]].
    pose proof (upd_wf _ _ _ U2 W1) as W2.
    pose proof (exitSwitch_ok al (match z' with Returns => true | _ => false end) s2 Ps cs W2 F (Hne (or_introl Hcn))) as U3.
    apply (upd_ext _ _ _ _ Hw (upd_trans _ _ _ _ _ U1 (upd_trans _ _ _ _ _ U2 U3))).
    intros i _; rewrite usedIn_app, Hp; reflexivity.
  - (* no statement *)
    intros s sc env _ Hw _ _ _ _. exists s, nil. rewrite addTop_nil, app_nil_r.
    split; [reflexivity|split; [reflexivity|split; [reflexivity|split; [intros ? []|apply upd_refl; auto]]]].
  - (* statements *)
    intros a IHa l IHl s sc env [Hoka Hokl] Hw Ht Es Hf Hdir. cbn [declaredL] in Hf.
    destruct (isDecl a) eqn:Da.
    + destruct a as [|x d e| | | | | |]; try discriminate. clear IHa Da. cbn [declared app] in Hf.
      destruct Hdir as [Hdir|(t & r & -> & K & Hnd)]; [discriminate|]. cbn [direct] in Hnd.
      assert (G : getE (entries t) x = None).
      { apply getE_none. intro Hx. apply (NoDup_app_x _ _ _ x Hnd Hx). left; reflexivity. }
      destruct t as [kt es]; cbn in K; subst kt. cbn [entries] in *.
      pose proof Hw as [Wr Wt]. unfold wfT in Wt; cbn [tkind entries] in Wt; destruct Wt as (N1 & N2 & N3).
      rewrite scopes_cons in Es. cbn [isNormal tkind entries] in Es. injection Es as Esc Eenv.
      set (s1 := addTop [(x, d)] (Tab KNormal es :: r)).
      assert (W1 : wf s1).
      { split; [assumption|]. unfold wfT; cbn [tkind entries ents map fst snd]. rewrite !map_app. cbn [map ename eid].
        split; [|split].
        - apply NoDup_app_intro; [assumption|repeat constructor; auto|]. intros y Hy [<-|[]].
          apply getE_none in G; tauto.
        - apply NoDup_app_intro; [assumption|repeat constructor; auto|]. intros y Hy [<-|[]].
          apply (proj2 Hf d (or_introl eq_refl)). rewrite sids_cons by reflexivity. apply in_or_app; left; exact Hy.
        - intros a Ha; apply in_app_or in Ha; destruct Ha as [Ha|[<-|[]]]; [auto|]. cbn. intro Hx.
          apply (proj2 Hf d (or_introl eq_refl)). rewrite sids_cons by reflexivity. apply in_or_app; right; exact Hx. }
      assert (S1 : scopes s1 = (sc ++ [(x, d)]) :: env).
      { unfold s1. cbn [addTop]. rewrite scopes_cons. cbn [isNormal tkind entries]. rewrite Eenv, <- Esc.
        unfold pairs; rewrite map_app; reflexivity. }
      destruct (exprC_ok e s1 W1) as (s2 & E2 & U2). rewrite S1 in E2, U2.
      pose proof (fresh_more [d] (declaredL l) nil [(x, d)] KNormal es r Hf (incl_refl _)) as F1. fold s1 in F1.
      assert (U2n := U2). unfold s1 in U2n; cbn [addTop] in U2n.
      inversion U2n as [|t0 r0 r2 Hc0 Ur E3 E4|]; subst; [|discriminate]. cbn [tkind entries] in *. clear U2n.
      set (s2 := Tab KNormal (mapU (usedIn (exprS ((pairs es ++ [(x, d)]) :: scopes r) e)) (es ++ ents [(x, d)])) :: r2) in *.
      destruct (IHl s2 (pairs es ++ [(x, d)]) (scopes r)) as (s' & n & E & En & Ed & Ei & U).
      * exact Hokl.
      * exact (upd_wf _ _ _ U2 W1).
      * discriminate.
      * exact (eq_trans (upd_scopes _ _ _ U2) S1).
      * exact (fresh_upd _ _ _ _ U2 F1).
      * right. exists (Tab KNormal (mapU (usedIn (exprS ((pairs es ++ [(x, d)]) :: scopes r) e)) (es ++ ents [(x, d)]))), r2.
        split; [reflexivity|split; [reflexivity|]]. cbn [entries]. rewrite mapU_names, map_app, <- app_assoc.
        exact Hnd.
      * cbn [stmtsC stmtC stmtsS stmtS].
        destruct (stmtsS (pairs es ++ [(x, d)]) (scopes r) l) as [b ev] eqn:El. cbn [fst snd] in *.
        unfold andThen. cbn [declare entries]. rewrite G. cbn [tkind].
        change (Tab KNormal (es ++ [Ent x d false]) :: r) with s1.
        rewrite (E2 : exprC e s1 = (s2, exprS ((pairs es ++ [(x, d)]) :: scopes r) e)), E.
        exists s', ((x, d) :: n). split; [|split; [|split; [|split]]].
        -- f_equal. f_equal. f_equal. rewrite <- (quiet_resolve r x Wr). destruct (quiet r x); reflexivity.
        -- rewrite En, <- app_assoc; reflexivity.
        -- cbn; rewrite Ed; reflexivity.
        -- cbn [map snd declared declaredL app]. intros y [<-|Hy]; [left; reflexivity|right; exact (Ei y Hy)].
        -- change ((x, d) :: n) with ([(x, d)] ++ n). rewrite addTop_app. fold s1.
           set (ev1 := match resolve (scopes r) x with Some o => [Shadow d o] | None => [] end).
           assert (Ev1 : forall i, usedIn ev1 i = false) by (intro i; unfold ev1; destruct (resolve (scopes r) x); reflexivity).
           assert (Hn : forall i, In i (map snd n) -> usedIn (exprS ((pairs es ++ [(x, d)]) :: scopes r) e) i = false).
           { intros i Hi. destruct (usedIn _ i) eqn:Eu; [exfalso|reflexivity].
             apply exprS_refs in Eu. destruct Eu as (k & Hk). rewrite <- S1 in Hk. apply vis_in in Hk.
             exact (proj2 F1 i (Ei i Hi) Hk). }
           pose proof (upd_add _ n (Tab KNormal (es ++ ents [(x, d)])) r s2 eq_refl U2 Hn) as UA.
           pose proof (upd_trans _ _ _ _ _ UA U) as UU.
           apply (upd_all _ _ _ _) with (2 := UU).
           intro i. rewrite !usedIn_app, Ev1; reflexivity.
    + destruct (fresh_app _ _ _ Hf) as [Fa Fl].
      destruct (IHa s sc env Hoka Da Hw Ht Es Fa) as (s1 & E1 & En1 & U1).
      pose proof (upd_wf _ _ _ U1 Hw) as W1. pose proof (upd_scopes _ _ _ U1) as S1. rewrite Es in S1.
      assert (Dd : direct (LCons a l) = direct l) by (destruct a; try reflexivity; discriminate).
      rewrite Dd in *.
      pose proof (proj2 (proj1 spec_refs a sc env)) as Ra.
      destruct (IHl s1 sc env Hokl W1 (upd_top _ _ _ U1 Ht) S1 (fresh_upd _ _ _ _ U1 Fl)) as (s' & n & E & En & Ed & Ei & U).
      { destruct Hdir as [|(t & r & -> & K & Hnd)]; [auto|right]. inversion U1; subst; [|unfold copies in *; rewrite K in *; discriminate].
        eexists; eexists; split; [reflexivity|split; [exact K|]]. cbn [entries]; rewrite mapU_names; exact Hnd. }
      cbn [stmtsC stmtsS declaredL]. destruct (stmtS sc env a) as [b ev] eqn:Ea. cbn [fst snd] in *. subst b.
      destruct (stmtsS sc env l) as [b' ev'] eqn:El. cbn [fst snd] in *. subst b'.
      unfold andThen; rewrite E1, E. exists s', n.
      split; [reflexivity|split; [reflexivity|split; [exact Ed|split; [apply incl_appr; exact Ei|]]]].
      assert (UA : upd (usedIn ev) (addTop n s) (addTop n s1)).
      { destruct Hdir as [D|(t & r & -> & K & _)].
        - rewrite D in Ed. destruct n; [|discriminate]. rewrite !addTop_nil; exact U1.
        - apply upd_add; [exact K|exact U1|]. intros i Hi. destruct (usedIn ev i) eqn:Eu; [exfalso|reflexivity].
          apply Ei in Hi. destruct (Ra i Eu) as [(k & Hk)|Hk].
          + rewrite <- Es in Hk. apply vis_in in Hk. exact (proj2 Fl i Hi Hk).
          + exact (NoDup_app_x _ _ _ i (proj1 Hf) Hk Hi). }
      apply (upd_all _ _ _ _) with (2 := upd_trans _ _ _ _ _ UA U). intro i; symmetry; apply usedIn_app.
  - (* no case *)
    intros cs s Ps z sc env _ Hw _ _ _ F. exists cs, s, Ps, z.
    split; [reflexivity|split; [reflexivity|split; [apply upd_refl; auto|split; [exact F|split]]]].
    + intro i; cbn; rewrite orb_false_r; reflexivity.
    + intros [H|H]; [congruence|exact H].
  - (* cases *)
    intros l IHl z' c IHc cs s Ps z sc env (Hd & Hokl & Hokc) Hw Ht Es Hf F. cbn [declaredC] in Hf.
    destruct (newCase_ok z cs s Ps Hw F) as (t & cs1 & s1 & P & Ps1 & E1 & U1 & F1 & A1).
    pose proof (upd_wf _ _ _ U1 Hw) as W1. pose proof (upd_scopes _ _ _ U1) as S1. rewrite Es in S1.
    destruct (fresh_app _ _ _ (fresh_upd _ _ _ _ U1 Hf)) as [Fl Fc].
    destruct (wf_cases s1 _ _ _ (wf_sw s1 W1) (fun _ => eq_refl) F1) as [W2 _].
    pose proof (cases_all _ _ _ F1) as K1.
    pose proof (scopes_sw (t :: cs1) s1 K1) as S2. rewrite S1 in S2.
    assert (Fl2 : fresh (declaredL l) (swTabs (t :: cs1) s1)).
    { destruct Fl as [G1 G2]; split; [assumption|]. unfold sids in *; rewrite S2, S1 in *. exact G2. }
    destruct (IHl (swTabs (t :: cs1) s1) nil (sc :: env) Hokl W2) as (s2 & n & E2 & En & Ed & Ei & U2);
      [inversion K1; subst; cbn; congruence|exact S2|exact Fl2|left; exact Hd|].
    rewrite Hd in Ed; destruct n; [|discriminate]. rewrite addTop_nil in U2.
    inversion F1 as [|? ? ? ? Ht1 F1' Eq1 Eq2]; subst. destruct Ht1 as (K & B & C).
    destruct t as [k0 es0]; cbn in K; subst k0. cbn [entries] in B.
    inversion K1 as [|? ? _ K1']; subst.
    destruct (branch_step _ P KCase es0 (swTabs cs1 s1) s1 s2 eq_refl (fun k => look_sw cs1 s1 k K1') B U2) as (es & -> & B').
    cbn [casesC casesS]. pose proof (proj2 (proj1 (proj2 spec_refs) l nil (sc :: env))) as R.
    destruct (stmtsS nil (sc :: env) l) as [b ev] eqn:El. cbn [fst snd app] in *. subst b.
    assert (Cl : closed (usedIn ev) s1).
    { intros i Hi Hu. destruct (R i Hu) as [Sn|Hn]; [rewrite S1; exact (seen_nil _ _ Sn)|].
      destruct (proj2 Fl i Hn Hi). }
    destruct (IHc (Tab KCase es :: cs1) s1 ((fun i => P i || usedIn ev i) :: Ps1) z' sc env Hokc W1 (upd_top _ _ _ U1 Ht) S1 Fc)
      as (cs2 & s3 & Ps2 & z2 & E3 & En3 & U3 & F3 & A3 & N3).
    { constructor; [|assumption]. split; [reflexivity|split; [exact B'|apply closed_or; assumption]]. }
    rewrite E1, E2. change (Tab KCase es :: swTabs cs1 s1) with (swTabs (Tab KCase es :: cs1) s1). rewrite E3.
    destruct (casesS nil (sc :: env) c) as [b' ev'] eqn:Ec. cbn [fst snd] in *. subst b'.
    exists cs2, s3, Ps2, z2. split; [reflexivity|split; [reflexivity|split; [exact (upd_trans _ _ _ _ _ U1 U3)|split; [exact F3|split]]]].
    + intro i. rewrite A3, usedIn_app, <- A1. cbn. rewrite <- !orb_assoc; f_equal.
      rewrite (orb_assoc (existsb _ _)), (orb_comm (existsb _ _) (usedIn ev i)), <- !orb_assoc; reflexivity.
    + intros _; apply N3; right; discriminate.
Qed.
