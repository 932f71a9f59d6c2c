(** Proofs about the labels of a switch. *)
From Verif Require Import Cbase Cbase_facts Switch_model Switch_spec.
From Coq Require Import Lia.


Lemma mem_In : forall n l, mem n l = true <-> In n l.
Proof.
  intros n l. unfold mem. rewrite existsb_exists. split.
  - intros [x [H E]]. apply cstr_eqb_eq in E. subst x. exact H.
  - intros H. exists n. split; [exact H|apply cstr_eqb_refl].
Qed.
Lemma mem_notIn : forall n l, mem n l = false <-> ~ In n l.
Proof. intros n l. rewrite <- mem_In. destruct (mem n l); split; congruence. Qed.

Definition isDefault (s : st) : bool := match s with SDefault _ => true | _ => false end.

Section P.
Variable known : cstr -> bool.
Variable ms : list cstr.

(** The members and the others among the names of the labels. *)
Definition nameOf (s : st) : list cstr :=
  match s with SCase _ e => match labelName known e with Some n => [n] | None => [] end | _ => [] end.
Definition inside (l : list st) : list cstr := filter (fun n => mem n ms) (flat_map nameOf l).
Definition outside (l : list st) : list cstr := filter (fun n => negb (mem n ms)) (flat_map nameOf l).

Lemma inside_snoc : forall l s, inside (l ++ [s]) = inside l ++ filter (fun n => mem n ms) (nameOf s).
Proof. intros. unfold inside. rewrite flat_map_app, filter_app. cbn [flat_map]. rewrite app_nil_r. reflexivity. Qed.
Lemma outside_snoc : forall l s, outside (l ++ [s]) = outside l ++ filter (fun n => negb (mem n ms)) (nameOf s).
Proof. intros. unfold outside. rewrite flat_map_app, filter_app. cbn [flat_map]. rewrite app_nil_r. reflexivity. Qed.

Definition run (l : list st) : acc := fold_left (checkElement known (Some ms)) l (mkAcc false [] []).
Lemma run_snoc : forall l s, run (l ++ [s]) = checkElement known (Some ms) (run l) s.
Proof. intros. unfold run. rewrite fold_left_app. reflexivity. Qed.

Record good (l : list st) (a : acc) : Prop := {
  g_used : forall n, In n (used a) <-> In n (inside l);
  g_nodup : NoDup (used a);
  g_default : hasDefault a = existsb isDefault l;
  g_dup : forall n, count_occ msg_eq_dec (said a) (DuplicateCase n) = pred (count_occ cstr_eq_dec (inside l) n);
  g_dupdef : count_occ msg_eq_dec (said a) DuplicateDefault = pred (List.length (filter isDefault l));
  g_not : forall n, count_occ msg_eq_dec (said a) (NotMember n) = count_occ cstr_eq_dec (outside l) n;
  g_no : forall t, ~ In (MissingCase t) (said a) /\ ~ In NotACase (said a) }.

Lemma filter_default : forall l, (List.length (filter isDefault l) = 0)%nat <-> existsb isDefault l = false.
Proof.
  induction l as [|s l IH]; [split; reflexivity|]. cbn [filter existsb]. destruct (isDefault s); cbn [orb List.length].
  - split; intros H; discriminate H.
  - exact IH.
Qed.

Lemma count_snoc : forall (A : Type) (d : forall x y : A, {x = y} + {x <> y}) l x y,
  count_occ d (l ++ [x]) y = (count_occ d l y + (if d x y then 1 else 0))%nat.
Proof.
  intros. rewrite count_occ_app. cbn [count_occ]. destruct (d x y); reflexivity.
Qed.

Lemma run_good : forall l, good l (run l).
Proof.
  induction l as [|s l IH] using rev_ind.
  - constructor; cbn; try reflexivity; try tauto. constructor.
  - rewrite run_snoc. destruct IH as [Hu Hn Hd Hc He Ho Hx]. set (a := run l) in *. clearbody a.
    assert (Plain : isDefault s = false -> nameOf s = [] -> checkElement known (Some ms) a s = a -> good (l ++ [s]) a).
    { intros E1 E2 _. constructor.
      - intros n. rewrite inside_snoc, E2. cbn [filter]. rewrite app_nil_r. apply Hu.
      - exact Hn.
      - rewrite existsb_app. cbn [existsb]. rewrite E1, !orb_false_r. exact Hd.
      - intros n. rewrite inside_snoc, E2. cbn [filter]. rewrite app_nil_r. apply Hc.
      - rewrite filter_app. cbn [filter]. rewrite E1, app_nil_r. exact He.
      - intros n. rewrite outside_snoc, E2. cbn [filter]. rewrite app_nil_r. apply Ho.
      - exact Hx. }
    destruct s as [ft e|ft| | | | | | | | |]; try (apply Plain; reflexivity).
    + cbn [checkElement]. unfold checkCase. destruct (labelName known e) as [n|] eqn:En.
      2: { apply Plain; [reflexivity|cbn; rewrite En; reflexivity|cbn [checkElement]; unfold checkCase; rewrite En; reflexivity]. }
      clear Plain.
      assert (N : nameOf (SCase ft e) = [n]) by (cbn; rewrite En; reflexivity).
      assert (D : existsb isDefault (l ++ [SCase ft e]) = existsb isDefault l).
      { rewrite existsb_app. cbn. apply orb_false_r. }
      assert (F : filter isDefault (l ++ [SCase ft e]) = filter isDefault l).
      { rewrite filter_app. cbn. apply app_nil_r. }
      destruct (mem n ms) eqn:Em.
      * assert (I : inside (l ++ [SCase ft e]) = inside l ++ [n]).
        { rewrite inside_snoc, N. cbn [filter]. rewrite Em. reflexivity. }
        assert (O : outside (l ++ [SCase ft e]) = outside l).
        { rewrite outside_snoc, N. cbn [filter]. rewrite Em. apply app_nil_r. }
        destruct (mem n (used a)) eqn:Eu; constructor; cbn [used hasDefault said]; try rewrite I; try rewrite O; try rewrite D; try rewrite F.
        -- intros k. rewrite Hu, in_app_iff. cbn [In]. apply mem_In in Eu. apply Hu in Eu. split; [tauto|].
           intros [H|[->|[]]]; assumption.
        -- exact Hn.
        -- exact Hd.
        -- intros k. rewrite count_snoc, count_snoc, Hc. apply mem_In in Eu. apply Hu in Eu.
           destruct (msg_eq_dec (DuplicateCase n) (DuplicateCase k)) as [E|E]; destruct (cstr_eq_dec n k) as [E'|E'].
           ++ subst k. apply (count_occ_In cstr_eq_dec) in Eu. lia.
           ++ exfalso. congruence.
           ++ exfalso. congruence.
           ++ lia.
        -- rewrite count_snoc, He. destruct (msg_eq_dec (DuplicateCase n) DuplicateDefault); [discriminate|lia].
        -- intros k. rewrite count_snoc, Ho. destruct (msg_eq_dec (DuplicateCase n) (NotMember k)); [discriminate|lia].
        -- intros t. rewrite !in_app_iff. cbn [In]. destruct (Hx t) as [X1 X2]. split.
           ++ intros [H|[H|[]]]; [tauto|discriminate H].
           ++ intros [H|[H|[]]]; [tauto|discriminate H].
        -- intros k. rewrite !in_app_iff, Hu. tauto.
        -- apply mem_notIn in Eu. clear - Hn Eu. induction (used a) as [|x r IH]; cbn.
           ++ constructor; [intros []|constructor].
           ++ inversion_clear Hn as [|? ? N1 N2]. constructor.
              ** rewrite in_app_iff. cbn [In]. intros [H|[H|[]]]; [tauto|]. apply Eu. left. congruence.
              ** apply IH; [exact N2|]. intros H. apply Eu. right. exact H.
        -- exact Hd.
        -- intros k. rewrite count_snoc, Hc. apply mem_notIn in Eu. destruct (cstr_eq_dec n k) as [E'|E'].
           ++ subst k. rewrite Hu in Eu. apply (count_occ_not_In cstr_eq_dec) in Eu. rewrite Eu. reflexivity.
           ++ f_equal. lia.
        -- exact He.
        -- exact Ho.
        -- exact Hx.
      * assert (I : inside (l ++ [SCase ft e]) = inside l).
        { rewrite inside_snoc, N. cbn [filter]. rewrite Em. apply app_nil_r. }
        assert (O : outside (l ++ [SCase ft e]) = outside l ++ [n]).
        { rewrite outside_snoc, N. cbn [filter]. rewrite Em. reflexivity. }
        constructor; cbn [used hasDefault said]; try rewrite I; try rewrite O; try rewrite D; try rewrite F.
        -- exact Hu.
        -- exact Hn.
        -- exact Hd.
        -- intros k. rewrite count_snoc, Hc. destruct (msg_eq_dec (NotMember n) (DuplicateCase k)); [discriminate|lia].
        -- rewrite count_snoc, He. destruct (msg_eq_dec (NotMember n) DuplicateDefault); [discriminate|lia].
        -- intros k. rewrite !count_snoc, Ho.
           destruct (msg_eq_dec (NotMember n) (NotMember k)) as [E|E]; destruct (cstr_eq_dec n k) as [E'|E']; try (exfalso; congruence); reflexivity.
        -- intros t. rewrite !in_app_iff. cbn [In]. destruct (Hx t) as [X1 X2]. split.
           ++ intros [H|[H|[]]]; [tauto|discriminate H].
           ++ intros [H|[H|[]]]; [tauto|discriminate H].
    + clear Plain. cbn [checkElement].
      assert (I : inside (l ++ [SDefault ft]) = inside l) by (rewrite inside_snoc; cbn; apply app_nil_r).
      assert (O : outside (l ++ [SDefault ft]) = outside l) by (rewrite outside_snoc; cbn; apply app_nil_r).
      assert (F : List.length (filter isDefault (l ++ [SDefault ft])) = S (List.length (filter isDefault l))).
      { rewrite filter_app, app_length. cbn. lia. }
      assert (D : existsb isDefault (l ++ [SDefault ft]) = true).
      { rewrite existsb_app. cbn. apply orb_true_r. }
      constructor; cbn [used hasDefault said]; try rewrite I; try rewrite O; try rewrite D; try rewrite F.
      * exact Hu.
      * exact Hn.
      * reflexivity.
      * intros n. destruct (hasDefault a); [|apply Hc]. rewrite count_snoc, Hc. destruct (msg_eq_dec DuplicateDefault (DuplicateCase n)); [discriminate|lia].
      * destruct (hasDefault a) eqn:E.
        -- rewrite count_snoc, He. destruct (msg_eq_dec DuplicateDefault DuplicateDefault) as [_|X]; [|congruence].
           destruct (List.length (filter isDefault l)) eqn:L; [|cbn [pred]; lia].
           apply filter_default in L. congruence.
        -- rewrite He. symmetry in Hd. apply filter_default in Hd. rewrite Hd. reflexivity.
      * intros n. destruct (hasDefault a); [|apply Ho]. rewrite count_snoc, Ho. destruct (msg_eq_dec DuplicateDefault (NotMember n)); [discriminate|lia].
      * intros t. destruct (hasDefault a); [|apply Hx]. rewrite !in_app_iff. cbn [In]. destruct (Hx t) as [X1 X2]. split.
        -- intros [H|[H|[]]]; [tauto|discriminate H].
        -- intros [H|[H|[]]]; [tauto|discriminate H].
Qed.
End P.

(** Without an enumerated type only the default is looked at. *)
Definition runNone (known : cstr -> bool) (l : list st) : acc := fold_left (checkElement known None) l (mkAcc false [] []).
Lemma runNone_good : forall known l,
  hasDefault (runNone known l) = existsb isDefault l
  /\ (forall m, In m (said (runNone known l)) -> m = DuplicateDefault)
  /\ count_occ msg_eq_dec (said (runNone known l)) DuplicateDefault = pred (List.length (filter isDefault l)).
Proof.
  intros known l. induction l as [|s l [H1 [H2 H3]]] using rev_ind.
  - cbn. repeat split. intros m [].
  - assert (E : runNone known (l ++ [s]) = checkElement known None (runNone known l) s).
    { unfold runNone. rewrite fold_left_app. reflexivity. }
    rewrite E. rewrite existsb_app, filter_app, app_length. set (a := runNone known l) in *. clearbody a.
    destruct s as [ft e|ft| | | | | | | | |]; cbn [checkElement checkCase existsb filter isDefault List.length orb];
      try (rewrite orb_false_r; split; [exact H1|split; [exact H2|rewrite H3; f_equal; lia]]).
    cbn [hasDefault said]. rewrite orb_true_r. split; [reflexivity|]. destruct (hasDefault a) eqn:D.
    + split.
      * intros m Hm. apply in_app_iff in Hm. destruct Hm as [Hm|[Hm|[]]]; [apply H2; exact Hm|congruence].
      * rewrite count_snoc, H3. destruct (msg_eq_dec DuplicateDefault DuplicateDefault) as [_|X]; [|congruence].
        destruct (List.length (filter isDefault l)) eqn:L; [apply filter_default in L; congruence|cbn [pred]; lia].
    + split; [exact H2|]. rewrite H3. symmetry in H1. apply filter_default in H1. rewrite H1. reflexivity.
Qed.

(** The names of expressions. *)
Lemma rootVarName_names : forall e n, rootVarName e = Some n <-> names n e.
Proof.
  induction e as [m|e IH|z|e IH|a IHa b IHb]; intros n; cbn [rootVarName].
  - split; [intros [= ->]; constructor|intros H; inversion H; reflexivity].
  - rewrite IH. split; [intros H; constructor; exact H|intros H; inversion H; assumption].
  - split; [discriminate|intros H; inversion H].
  - split; [discriminate|intros H; inversion H].
  - split; [discriminate|intros H; inversion H].
Qed.
Lemma labelName_names : forall known e n, labelName known e = Some n <-> names n e /\ known n = true.
Proof.
  intros known e n. unfold labelName. destruct (rootVarName e) as [m|] eqn:E.
  - destruct (known m) eqn:K.
    + rewrite <- rootVarName_names, E. split; [intros [= ->]; split; [reflexivity|exact K]|intros [[= ->] _]; reflexivity].
    + rewrite <- rootVarName_names, E. split; [discriminate|intros [[= ->] H]; congruence].
  - rewrite <- rootVarName_names, E. split; [discriminate|intros [H _]; discriminate H].
Qed.
Lemma names_eval : forall value n e, names n e -> eval value e = value n.
Proof. intros value n e H. induction H; [reflexivity|exact IHnames]. Qed.

(** The elements of a switch and its labels. *)
Definition toLabel (value : cstr -> Z) (s : st) : list label :=
  match s with SCase _ e => [LCase (eval value e)] | SDefault _ => [LDefault] | _ => [] end.

Lemma flatten_count : forall value s x,
  (count_occ label_eq_dec (flat_map (toLabel value) (flatten s)) x <= count_occ label_eq_dec (labels value s) x)%nat.
Proof.
  intros value s x. induction s; cbn [flatten labels flat_map toLabel app]; try (cbn [count_occ]; lia).
  rewrite flat_map_app, !count_occ_app. lia.
Qed.
Lemma labels_empty : forall v w s, labels v s = [] -> labels w s = [].
Proof.
  intros v w s. induction s; cbn [labels]; try discriminate; try reflexivity; try assumption.
  intros H. apply app_eq_nil in H. destruct H as [H1 H2]. rewrite IHs1, IHs2 by assumption. reflexivity.
Qed.
Lemma flatten_structured : forall value s, structured s = true -> flat_map (toLabel value) (flatten s) = labels value s.
Proof.
  intros value s. induction s; cbn [structured flatten labels flat_map toLabel app]; try reflexivity; intros H.
  - destruct (labels (fun _ => 0) s) eqn:E; [|discriminate H]. symmetry. apply (labels_empty (fun _ => 0)). exact E.
  - apply andb_true_iff in H. destruct H as [H1 H2]. rewrite flat_map_app, IHs1, IHs2 by assumption. reflexivity.
  - apply IHs. exact H.
Qed.
Definition caseOf (s : st) : list cexpr := match s with SCase _ e => [e] | _ => [] end.
Lemma flatten_direct : forall s, flat_map caseOf (flatten s) = direct s.
Proof.
  induction s; cbn [flatten direct flat_map caseOf app]; try reflexivity.
  - rewrite flat_map_app, IHs1, IHs2. reflexivity.
  - exact IHs.
Qed.

Lemma hasDefaultLabel_In : forall l, hasDefaultLabel l = true <-> In LDefault l.
Proof.
  intros l. unfold hasDefaultLabel. rewrite existsb_exists. split.
  - intros [x [H E]]. destruct x; [discriminate E|exact H].
  - intros H. exists LDefault. split; [exact H|reflexivity].
Qed.
Lemma caseFor_In : forall z l, caseFor z l = true <-> In (LCase z) l.
Proof.
  intros z l. induction l as [|[y|] l IH]; cbn [caseFor In].
  - split; [discriminate|intros []].
  - rewrite orb_true_iff, Z.eqb_eq, IH. split; intros [H|H]; try (right; exact H); left; congruence.
  - rewrite IH. split; [tauto|intros [H|H]; [discriminate H|exact H]].
Qed.

Lemma flatten_In : forall value s x, In x (flat_map (toLabel value) (flatten s)) -> In x (labels value s).
Proof.
  intros value s x H. apply (count_occ_In label_eq_dec) in H. pose proof (flatten_count value s x).
  apply (count_occ_In label_eq_dec). lia.
Qed.
Lemma default_label : forall value l, existsb isDefault l = true <-> In LDefault (flat_map (toLabel value) l).
Proof.
  intros value l. rewrite existsb_exists, in_flat_map. split.
  - intros [s [H E]]. exists s. split; [exact H|]. destruct s; try discriminate E. left. reflexivity.
  - intros [s [H E]]. exists s. split; [exact H|]. destruct s; cbn in E; try (destruct E as [E|[]]; discriminate E); try (destruct E); reflexivity.
Qed.
Lemma inside_count : forall known ms value l n, In n ms ->
  (count_occ cstr_eq_dec (inside known ms l) n <= count_occ label_eq_dec (flat_map (toLabel value) l) (LCase (value n)))%nat.
Proof.
  intros known ms value l n Hn. induction l as [|s l IH]; [cbn; lia|].
  unfold inside in *. cbn [flat_map]. rewrite filter_app, !count_occ_app.
  enough (count_occ cstr_eq_dec (filter (fun m => mem m ms) (nameOf known s)) n
          <= count_occ label_eq_dec (toLabel value s) (LCase (value n)))%nat by lia. clear IH.
  destruct s; cbn [nameOf toLabel filter count_occ]; try lia.
  destruct (labelName known e) as [m|] eqn:E; cbn [filter count_occ]; [|lia].
  apply labelName_names in E. destruct E as [E _]. rewrite (names_eval value m e E).
  destruct (mem m ms); cbn [count_occ]; [|lia]. destruct (cstr_eq_dec m n) as [->|X]; [|lia].
  destruct (label_eq_dec (LCase (value n)) (LCase (value n))); [lia|congruence].
Qed.
Lemma inside_In : forall known ms l n,
  In n (inside known ms l) <-> In n ms /\ known n = true /\ exists e, In e (flat_map caseOf l) /\ names n e.
Proof.
  intros known ms l n. unfold inside. rewrite filter_In, mem_In, in_flat_map. split.
  - intros [[s [H E]] Hm]. split; [exact Hm|]. destruct s; try destruct E. cbn [nameOf] in E.
    destruct (labelName known e) as [m|] eqn:L; [|destruct E]. destruct E as [->|[]]. apply labelName_names in L.
    destruct L as [L K]. split; [exact K|]. exists e. split; [|exact L]. apply in_flat_map. exists (SCase ft e). split; [exact H|left; reflexivity].
  - intros [Hm [K [e [H E]]]]. split; [|exact Hm]. apply in_flat_map in H. destruct H as [s [H X]]. exists s. split; [exact H|].
    destruct s; try destruct X. subst e0. 2: { destruct H0. } cbn [nameOf].
    assert (L : labelName known e = Some n) by (apply labelName_names; split; assumption). rewrite L. left. reflexivity.
Qed.
Lemma outside_In : forall known ms l n,
  In n (outside known ms l) <-> ~ In n ms /\ known n = true /\ exists e, In e (flat_map caseOf l) /\ names n e.
Proof.
  intros known ms l n. unfold outside. rewrite filter_In, negb_true_iff, mem_notIn, in_flat_map. split.
  - intros [[s [H E]] Hm]. split; [exact Hm|]. destruct s; try destruct E. cbn [nameOf] in E.
    destruct (labelName known e) as [m|] eqn:L; [|destruct E]. destruct E as [->|[]]. apply labelName_names in L.
    destruct L as [L K]. split; [exact K|]. exists e. split; [|exact L]. apply in_flat_map. exists (SCase ft e). split; [exact H|left; reflexivity].
  - intros [Hm [K [e [H E]]]]. split; [|exact Hm]. apply in_flat_map in H. destruct H as [s [H X]]. exists s. split; [exact H|].
    destruct s; try destruct X. subst e0. 2: { destruct H0. } cbn [nameOf].
    assert (L : labelName known e = Some n) by (apply labelName_names; split; assumption). rewrite L. left. reflexivity.
Qed.

(** The messages of a switch over an enumerated type. *)
Lemma checkSwitch_some : forall known ms s,
  checkSwitch known (Some ms) s =
  let a := run known ms (flatten s) in
  if incomplete ms a then (checkFirst s ++ said a ++ [MissingCase (missingText (subtract ms (used a)))], false)
  else (checkFirst s ++ said a, true).
Proof. intros. unfold checkSwitch, checkSwitchExpr, checkElements, run. cbv zeta. destruct (incomplete _ _); reflexivity. Qed.
Lemma checkSwitch_none : forall known s,
  checkSwitch known None s = (checkFirst s ++ said (runNone known (flatten s)), hasDefault (runNone known (flatten s))).
Proof. reflexivity. Qed.
Lemma checkFirst_In : forall s m, In m (checkFirst s) -> m = NotACase.
Proof.
  intros s m. unfold checkFirst. destruct (isDefined s); [|intros []]. destruct (_ || _); [intros []|]. intros [H|[]]. congruence.
Qed.

Lemma incl_enters : forall known ms value s n,
  incomplete ms (run known ms (flatten s)) = false -> In n ms -> enters value (value n) s = true.
Proof.
  intros known ms value s n HI Hn. destruct (run_good known ms (flatten s)) as [Hu Hnd Hd _ _ _ _].
  unfold enters. apply orb_true_iff. unfold incomplete in HI. apply andb_false_iff in HI. destruct HI as [HI|HI].
  - right. apply negb_false_iff in HI. apply hasDefaultLabel_In. apply flatten_In. apply (default_label value). congruence.
  - left. apply negb_false_iff, Nat.eqb_eq in HI. apply caseFor_In. apply flatten_In.
    assert (IN : In n (used (run known ms (flatten s)))).
    { assert (I : incl ms (used (run known ms (flatten s)))).
      { apply NoDup_length_incl; [exact Hnd|lia|]. intros k Hk. apply Hu in Hk. apply inside_In in Hk. apply Hk. }
      apply I. exact Hn. }
    apply Hu in IN. apply (count_occ_In cstr_eq_dec) in IN. pose proof (inside_count known ms value (flatten s) n Hn).
    apply (count_occ_In label_eq_dec). lia.
Qed.

Lemma missing_iff : forall known ms s,
  (exists t, In (MissingCase t) (fst (checkSwitch known (Some ms) s))) <-> incomplete ms (run known ms (flatten s)) = true.
Proof.
  intros known ms s. rewrite checkSwitch_some. cbv zeta. destruct (run_good known ms (flatten s)) as [_ _ _ _ _ _ Hx].
  destruct (incomplete ms (run known ms (flatten s))); cbn [fst].
  - split; [reflexivity|]. intros _. eexists. apply in_or_app. right. apply in_or_app. right. left. reflexivity.
  - split; [|discriminate]. intros [t H]. apply in_app_iff in H. destruct H as [H|H]; [apply checkFirst_In in H; discriminate H|].
    exfalso. exact (proj1 (Hx t) H).
Qed.

Theorem silent_covers : forall known ms value s,
  (forall t, ~ In (MissingCase t) (fst (checkSwitch known (Some ms) s))) ->
  forall n, In n ms -> enters value (value n) s = true.
Proof.
  intros known ms value s H n Hn. apply (incl_enters known ms); [|exact Hn].
  destruct (incomplete ms (run known ms (flatten s))) eqn:E; [|reflexivity]. exfalso. apply missing_iff in E. destruct E as [t E]. exact (H t E).
Qed.

(** The text of the message. *)
Lemma unparseFrom_commas : forall l acc, unparseFrom acc l = acc ++ match l with [] => [] | _ => lit ", " ++ commas l end.
Proof.
  induction l as [|n l IH]; intros acc; cbn [unparseFrom].
  - rewrite app_nil_r. reflexivity.
  - rewrite IH. destruct l as [|m l]; [rewrite app_nil_r; reflexivity|].
    change (commas (n :: m :: l)) with (n ++ lit ", " ++ commas (m :: l)). rewrite <- !app_assoc. reflexivity.
Qed.
Lemma unparse_commas : forall l, unparse l = commas l.
Proof.
  intros [|n [|m l]]; [reflexivity|cbn; reflexivity|].
  unfold unparse. rewrite unparseFrom_commas. reflexivity.
Qed.
Lemma missingText_message : forall l, l <> [] -> missingText l = missingMessage l.
Proof.
  intros l H. unfold missingText, missingMessage. rewrite unparse_commas. destruct l as [|n [|m l]]; [congruence| |]; reflexivity.
Qed.

Lemma inside_plain : forall known ms value s n, plain known ms value s -> In n ms ->
  (In n (inside known ms (flatten s)) <-> In (LCase (value n)) (labels value s)).
Proof.
  intros known ms value s n [Hs Hp] Hn. rewrite inside_In, flatten_direct, <- (flatten_structured value s Hs). split.
  - intros [_ [K [e [H E]]]]. rewrite <- flatten_direct in H. apply in_flat_map in H. destruct H as [x [H X]].
    apply in_flat_map. exists x. split; [exact H|]. destruct x; try destruct X. subst e0. 2: { destruct H0. }
    left. rewrite (names_eval value n e E). reflexivity.
  - intros H. apply in_flat_map in H. destruct H as [x [H X]]. destruct x as [ft e|ft| | | | | | | | |]; cbn in X; try (destruct X as [X|[]]; discriminate X); try destruct X as [].
    2: { destruct H0. }
    injection H0 as E. assert (D : In e (direct s)).
    { rewrite <- flatten_direct. apply in_flat_map. exists (SCase ft e). split; [exact H|left; reflexivity]. }
    destruct (Hp e D) as [m [Nm [K I]]]. rewrite (names_eval value m e Nm) in E. apply (I n Hn) in E. subst m.
    split; [exact Hn|]. split; [exact K|]. exists e. split; assumption.
Qed.

Lemma hasDefault_plain : forall known ms value s, plain known ms value s ->
  existsb isDefault (flatten s) = hasDefaultLabel (labels value s).
Proof.
  intros known ms value s [Hs _]. apply eq_true_iff_eq. rewrite (default_label value), (flatten_structured value s Hs), hasDefaultLabel_In. reflexivity.
Qed.

Lemma filter_ext_In : forall (A : Type) (f g : A -> bool) l, (forall x, In x l -> f x = g x) -> filter f l = filter g l.
Proof.
  intros A f g l. induction l as [|x l IH]; intros H; [reflexivity|]. cbn [filter].
  rewrite (H x) by (left; reflexivity). rewrite IH by (intros y Hy; apply H; right; exact Hy). reflexivity.
Qed.

Lemma subtract_unhandled : forall known ms value s, plain known ms value s ->
  hasDefault (run known ms (flatten s)) = false ->
  subtract ms (used (run known ms (flatten s))) = unhandled value s ms.
Proof.
  intros known ms value s P Hf. destruct (run_good known ms (flatten s)) as [Hu _ Hd _ _ _ _].
  unfold subtract, unhandled. apply filter_ext_In. intros n Hn. f_equal. apply eq_true_iff_eq.
  rewrite mem_In, Hu, (inside_plain known ms value s n P Hn). unfold enters.
  rewrite orb_true_iff, caseFor_In. rewrite Hd, (hasDefault_plain known ms value s P) in Hf. rewrite Hf. split; [tauto|]. intros [H|H]; [exact H|discriminate H].
Qed.

Lemma incomplete_plain : forall known ms value s, NoDup ms -> plain known ms value s ->
  incomplete ms (run known ms (flatten s)) = true -> unhandled value s ms <> [] /\ hasDefault (run known ms (flatten s)) = false.
Proof.
  intros known ms value s ND P HI. unfold incomplete in HI. apply andb_true_iff in HI. destruct HI as [HD HL].
  apply negb_true_iff in HD. apply negb_true_iff, Nat.eqb_neq in HL. split; [|exact HD].
  rewrite <- (subtract_unhandled known ms value s P HD). destruct (run_good known ms (flatten s)) as [Hu Hnd _ _ _ _ _].
  intros E. apply HL.
  assert (I1 : incl (used (run known ms (flatten s))) ms).
  { intros k Hk. apply Hu in Hk. apply inside_In in Hk. apply Hk. }
  assert (I2 : incl ms (used (run known ms (flatten s)))).
  { intros k Hk. destruct (mem k (used (run known ms (flatten s)))) eqn:M; [apply mem_In; exact M|].
    exfalso. assert (X : In k (subtract ms (used (run known ms (flatten s))))).
    { unfold subtract. apply filter_In. split; [exact Hk|]. rewrite M. reflexivity. }
    rewrite E in X. exact X. }
  pose proof (NoDup_incl_length Hnd I1). pose proof (NoDup_incl_length ND I2). lia.
Qed.

Theorem missing_exact : forall known ms value s t, NoDup ms -> plain known ms value s ->
  (In (MissingCase t) (fst (checkSwitch known (Some ms) s))
   <-> unhandled value s ms <> [] /\ t = missingMessage (unhandled value s ms)).
Proof.
  intros known ms value s t ND P. rewrite checkSwitch_some. cbv zeta.
  destruct (run_good known ms (flatten s)) as [_ _ _ _ _ _ Hx].
  destruct (incomplete ms (run known ms (flatten s))) eqn:E; cbn [fst].
  - destruct (incomplete_plain known ms value s ND P E) as [NE HD]. rewrite (subtract_unhandled known ms value s P HD).
    rewrite (missingText_message _ NE). split.
    + intros H. split; [exact NE|]. apply in_app_iff in H. destruct H as [H|H]; [apply checkFirst_In in H; discriminate H|].
      apply in_app_iff in H. destruct H as [H|[H|[]]]; [exfalso; exact (proj1 (Hx t) H)|congruence].
    + intros [_ ->]. apply in_or_app. right. apply in_or_app. right. left. reflexivity.
  - split.
    + intros H. apply in_app_iff in H. destruct H as [H|H]; [apply checkFirst_In in H; discriminate H|].
      exfalso. exact (proj1 (Hx t) H).
    + intros [NE _]. exfalso. apply NE. unfold unhandled. destruct (filter _ ms) as [|n r] eqn:F; [reflexivity|].
      assert (IN : In n (filter (fun k => negb (enters value (value k) s)) ms)) by (rewrite F; left; reflexivity).
      apply filter_In in IN. destruct IN as [IN X]. rewrite (incl_enters known ms value s n E IN) in X. discriminate X.
Qed.

Theorem missing_once : forall known ms s,
  (List.length (filter (fun m => match m with MissingCase _ => true | _ => false end) (fst (checkSwitch known ms s))) <= 1)%nat.
Proof.
  assert (Z : forall l, (forall t, ~ In (MissingCase t) l) -> filter (fun m => match m with MissingCase _ => true | _ => false end) l = []).
  { induction l as [|m l IH]; intros H; [reflexivity|]. cbn [filter]. destruct m; try (apply IH; intros t X; apply (H t); right; exact X).
    exfalso. apply (H text). left. reflexivity. }
  assert (Z1 : forall s, filter (fun m => match m with MissingCase _ => true | _ => false end) (checkFirst s) = []).
  { intros s. apply Z. intros t H. apply checkFirst_In in H. discriminate H. }
  intros known [ms|] s.
  - rewrite checkSwitch_some. cbv zeta. destruct (run_good known ms (flatten s)) as [_ _ _ _ _ _ Hx].
    destruct (incomplete ms _); cbn [fst]; rewrite !filter_app, Z1, (Z (said _)); try (cbn; lia); intros t; apply (Hx t).
  - rewrite checkSwitch_none. cbn [fst]. rewrite filter_app, Z1, Z; [cbn; lia|]. intros t H.
    apply (proj1 (proj2 (runNone_good known (flatten s)))) in H. discriminate H.
Qed.

(** Duplicates. *)
Lemma dup_count : forall known ms s n,
  count_occ msg_eq_dec (fst (checkSwitch known (Some ms) s)) (DuplicateCase n)
  = pred (count_occ cstr_eq_dec (inside known ms (flatten s)) n).
Proof.
  intros known ms s n. rewrite checkSwitch_some. cbv zeta. destruct (run_good known ms (flatten s)) as [_ _ _ Hc _ _ _].
  assert (Z : count_occ msg_eq_dec (checkFirst s) (DuplicateCase n) = 0%nat).
  { apply count_occ_not_In. intros H. apply checkFirst_In in H. discriminate H. }
  destruct (incomplete ms _); cbn [fst]; rewrite !count_occ_app, Z, Hc; cbn [count_occ]; [|lia].
  destruct (msg_eq_dec _ _) as [X|_]; [discriminate X|lia].
Qed.
Lemma filter_default_count : forall value l,
  List.length (filter isDefault l) = count_occ label_eq_dec (flat_map (toLabel value) l) LDefault.
Proof.
  intros value l. induction l as [|s l IH]; [reflexivity|]. cbn [filter flat_map]. rewrite count_occ_app, <- IH.
  destruct s; cbn [isDefault toLabel count_occ List.length]; try lia;
    destruct (label_eq_dec _ LDefault) as [X|X]; try discriminate X; try congruence; cbn [List.length]; lia.
Qed.
Lemma dupdef_count : forall known ms s,
  count_occ msg_eq_dec (fst (checkSwitch known ms s)) DuplicateDefault = pred (List.length (filter isDefault (flatten s))).
Proof.
  intros known ms s.
  assert (Z : count_occ msg_eq_dec (checkFirst s) DuplicateDefault = 0%nat).
  { apply count_occ_not_In. intros H. apply checkFirst_In in H. discriminate H. }
  destruct ms as [ms|].
  - rewrite checkSwitch_some. cbv zeta. destruct (run_good known ms (flatten s)) as [_ _ _ _ Hc _ _].
    destruct (incomplete ms _); cbn [fst]; rewrite !count_occ_app, Z, Hc; cbn [count_occ]; [|lia].
    destruct (msg_eq_dec _ _) as [X|_]; [discriminate X|lia].
  - rewrite checkSwitch_none. cbn [fst]. rewrite count_occ_app, Z. apply (runNone_good known (flatten s)).
Qed.

Theorem duplicate_true : forall known ms value s n,
  In (DuplicateCase n) (fst (checkSwitch known (Some ms) s)) ->
  (2 <= count_occ label_eq_dec (labels value s) (LCase (value n)))%nat.
Proof.
  intros known ms value s n H. apply (count_occ_In msg_eq_dec) in H. rewrite dup_count in H.
  destruct (count_occ cstr_eq_dec (inside known ms (flatten s)) n) as [|[|k]] eqn:E; cbn [pred] in H; try lia.
  assert (Hn : In n ms).
  { assert (X : In n (inside known ms (flatten s))) by (apply (count_occ_In cstr_eq_dec); lia). apply inside_In in X. apply X. }
  pose proof (inside_count known ms value (flatten s) n Hn). pose proof (flatten_count value s (LCase (value n))). lia.
Qed.
Theorem duplicate_default_true : forall known ms value s,
  In DuplicateDefault (fst (checkSwitch known ms s)) -> (2 <= count_occ label_eq_dec (labels value s) LDefault)%nat.
Proof.
  intros known ms value s H. apply (count_occ_In msg_eq_dec) in H. rewrite dupdef_count, (filter_default_count value) in H.
  pose proof (flatten_count value s LDefault). lia.
Qed.
Lemma duplicate_case_enum : forall known s n, ~ In (DuplicateCase n) (fst (checkSwitch known None s)).
Proof.
  intros known s n H. rewrite checkSwitch_none in H. cbn [fst] in H. apply in_app_iff in H.
  destruct H as [H|H]; [apply checkFirst_In in H; discriminate H|]. apply (proj1 (proj2 (runNone_good known (flatten s)))) in H. discriminate H.
Qed.

(** For plain switches. *)
Lemma inside_count_plain : forall known ms value s n, plain known ms value s -> In n ms ->
  count_occ cstr_eq_dec (inside known ms (flatten s)) n = count_occ label_eq_dec (labels value s) (LCase (value n)).
Proof.
  intros known ms value s n [Hs Hp] Hn. rewrite <- (flatten_structured value s Hs). rewrite <- flatten_direct in Hp.
  induction (flatten s) as [|x l IH]; [reflexivity|].
  assert (IH' : count_occ cstr_eq_dec (inside known ms l) n = count_occ label_eq_dec (flat_map (toLabel value) l) (LCase (value n))).
  { apply IH. intros e He. apply Hp. cbn [flat_map]. apply in_or_app. right. exact He. }
  clear IH. unfold inside in *. cbn [flat_map]. rewrite filter_app, !count_occ_app, IH'. f_equal.
  destruct x as [ft e|ft| | | | | | | | |]; cbn [nameOf toLabel filter count_occ]; try reflexivity.
  destruct (Hp e) as [m [Nm [K I]]]; [cbn [flat_map caseOf]; left; reflexivity|].
  assert (L : labelName known e = Some m) by (apply labelName_names; split; assumption). rewrite L, (names_eval value m e Nm). cbn [filter].
  destruct (label_eq_dec (LCase (value m)) (LCase (value n))) as [E|E].
  - injection E as E. apply (I n Hn) in E. subst m. apply mem_In in Hn. rewrite Hn. cbn [count_occ].
    destruct (cstr_eq_dec n n) as [_|X]; [reflexivity|congruence].
  - destruct (mem m ms); cbn [count_occ]; [|reflexivity]. destruct (cstr_eq_dec m n) as [->|_]; [congruence|reflexivity].
Qed.

Theorem duplicate_exact : forall known ms value s n, plain known ms value s -> In n ms ->
  count_occ msg_eq_dec (fst (checkSwitch known (Some ms) s)) (DuplicateCase n)
  = pred (count_occ label_eq_dec (labels value s) (LCase (value n))).
Proof. intros. rewrite dup_count, (inside_count_plain known ms value s n) by assumption. reflexivity. Qed.
Theorem duplicate_default_exact : forall known ms value s, structured s = true ->
  count_occ msg_eq_dec (fst (checkSwitch known ms s)) DuplicateDefault
  = pred (count_occ label_eq_dec (labels value s) LDefault).
Proof. intros. rewrite dupdef_count, (filter_default_count value), flatten_structured by assumption. reflexivity. Qed.

(** If all labels are members, silence about duplicates means that C's constraint is met. *)
Theorem duplicates_silent : forall known ms value s, plain known ms value s ->
  (forall e, In e (direct s) -> exists n, names n e /\ In n ms) ->
  ((~ In DuplicateDefault (fst (checkSwitch known (Some ms) s))
    /\ forall n, ~ In (DuplicateCase n) (fst (checkSwitch known (Some ms) s)))
   <-> labelsDiffer (labels value s)).
Proof.
  intros known ms value s P A. pose proof (proj1 P) as Hs. unfold labelsDiffer. rewrite (NoDup_count_occ label_eq_dec). split.
  - intros [H1 H2] [z|].
    + destruct (in_dec label_eq_dec (LCase z) (labels value s)) as [I|I]; [|apply (count_occ_not_In label_eq_dec) in I; lia].
      assert (X : exists n, In n ms /\ value n = z).
      { rewrite <- (flatten_structured value s Hs) in I. apply in_flat_map in I. destruct I as [x [H X]].
        destruct x as [ft e|ft| | | | | | | | |]; cbn in X; try (destruct X as [X|[]]; discriminate X); try (destruct X as []; fail).
        destruct X as [X|[]]. injection X as X. destruct (A e) as [n [Nn Hn]].
        { rewrite <- flatten_direct. apply in_flat_map. exists (SCase ft e). split; [exact H|left; reflexivity]. }
        exists n. split; [exact Hn|]. rewrite <- X. symmetry. apply names_eval. exact Nn. }
      destruct X as [n [Hn <-]]. specialize (H2 n). apply (count_occ_not_In msg_eq_dec) in H2.
      rewrite (duplicate_exact known ms value s n P Hn) in H2. lia.
    + apply (count_occ_not_In msg_eq_dec) in H1. rewrite (duplicate_default_exact known (Some ms) value s Hs) in H1. lia.
  - intros H. split.
    + intros X. apply (duplicate_default_true known (Some ms) value) in X. specialize (H LDefault). lia.
    + intros n X. apply (duplicate_true known ms value) in X. specialize (H (LCase (value n))). lia.
Qed.

(** Labels which are no members. *)
Theorem notMember_iff : forall known ms s n,
  In (NotMember n) (fst (checkSwitch known (Some ms) s))
  <-> ~ In n ms /\ known n = true /\ exists e, In e (direct s) /\ names n e.
Proof.
  intros known ms s n. rewrite <- flatten_direct, <- (outside_In known ms (flatten s) n).
  rewrite checkSwitch_some. cbv zeta. destruct (run_good known ms (flatten s)) as [_ _ _ _ _ Ho _].
  assert (E : In (NotMember n) (said (run known ms (flatten s))) <-> In n (outside known ms (flatten s))).
  { rewrite (count_occ_In msg_eq_dec), Ho, (count_occ_In cstr_eq_dec). reflexivity. }
  rewrite <- E. destruct (incomplete ms _); cbn [fst]; rewrite !in_app_iff; cbn [In]; split.
  - intros [H|[H|[H|[]]]]; [apply checkFirst_In in H; discriminate H|exact H|discriminate H].
  - tauto.
  - intros [H|H]; [apply checkFirst_In in H; discriminate H|exact H].
  - tauto.
Qed.

(** The first statement. *)
Lemma notACase_iff : forall known ms s, In NotACase (fst (checkSwitch known ms s)) <-> In NotACase (checkFirst s).
Proof.
  intros known [ms|] s.
  - rewrite checkSwitch_some. cbv zeta. destruct (run_good known ms (flatten s)) as [_ _ _ _ _ _ Hx].
    destruct (incomplete ms _); cbn [fst]; rewrite !in_app_iff; cbn [In]; split; try tauto.
    + intros [H|[H|[H|[]]]]; [exact H|exfalso; exact (proj2 (Hx []) H)|discriminate H].
    + intros [H|H]; [exact H|exfalso; exact (proj2 (Hx []) H)].
  - rewrite checkSwitch_none. cbn [fst]. rewrite in_app_iff. split; [|tauto]. intros [H|H]; [exact H|].
    apply (proj1 (proj2 (runNone_good known (flatten s)))) in H. discriminate H.
Qed.
Lemma lost_app_label : forall a b, lost a = false -> (exists r, a = ILabel :: r) -> lost (a ++ b) = false.
Proof. intros a b _ [r ->]. reflexivity. Qed.
Lemma first_marker : forall s, free otherDeclaration s = true -> isMarker (firstStatement s) = true -> exists r, items s = ILabel :: r.
Proof.
  induction s; cbn [free firstStatement isMarker items]; intros F H; try discriminate H; try (eexists; reflexivity).
  - cbn [otherDeclaration negb andb] in F. apply andb_true_iff in F. destruct F as [F1 F2].
    destruct (isDefined s1) eqn:D.
    + destruct (IHs1 F1 H) as [r E]. rewrite E. eexists. reflexivity.
    + destruct s1; try discriminate D. discriminate F1.
  - cbn [otherDeclaration negb andb] in F. apply IHs; assumption.
Qed.
Lemma first_defined : forall s, free otherDeclaration s = true -> isDefined (firstStatement s) = true.
Proof.
  induction s; cbn [free firstStatement otherDeclaration negb andb]; intros F; try reflexivity; try discriminate F.
  - apply andb_true_iff in F. destruct F as [F1 F2]. destruct (isDefined s1); auto.
  - auto.
Qed.
Theorem first_silent : forall known ms s, free otherDeclaration s = true ->
  ~ In NotACase (fst (checkSwitch known ms s)) -> lost (items s) = false.
Proof.
  intros known ms s F H. rewrite notACase_iff in H. unfold checkFirst in H. pose proof (first_defined s F) as D. rewrite D in H.
  assert (D' : isDefined s = true) by (destruct s; try reflexivity; discriminate D). rewrite D' in H. cbn [negb orb] in H.
  destruct (isMarker (firstStatement s)) eqn:M.
  - destruct (first_marker s F M) as [r ->]. reflexivity.
  - exfalso. apply H. left. reflexivity.
Qed.
Lemma lost_app : forall a b, lost a = true -> lost (a ++ b) = true.
Proof. induction a as [|[]]; cbn; intros b H; try discriminate H; auto. Qed.
Theorem first_said : forall known ms s, free uninitialized s = true ->
  In NotACase (fst (checkSwitch known ms s)) -> lost (items s) = true.
Proof.
  intros known ms s F H. rewrite notACase_iff in H. unfold checkFirst in H. destruct (isDefined s) eqn:D; [|destruct H].
  destruct (isDefined (firstStatement s)) eqn:D2; [|destruct H]. cbn [negb orb] in H.
  destruct (isMarker (firstStatement s)) eqn:M; [destruct H|]. clear H D.
  induction s; cbn [free firstStatement isDefined isMarker items uninitialized negb andb] in *; try discriminate; try reflexivity.
  - destruct initialized; [reflexivity|discriminate F].
  - apply andb_true_iff in F. destruct F as [F1 F2]. destruct (isDefined s1) eqn:D.
    + apply lost_app. apply IHs1; assumption.
    + destruct s1; try discriminate D. cbn [items app lost]. apply IHs2; assumption.
  - apply IHs; assumption.
Qed.

(** All paths. *)
Theorem allpaths_enum : forall known ms value s, snd (checkSwitch known (Some ms) s) = true ->
  forall n, In n ms -> enters value (value n) s = true.
Proof.
  intros known ms value s H n Hn. rewrite checkSwitch_some in H. cbv zeta in H.
  destruct (incomplete ms (run known ms (flatten s))) eqn:E; [discriminate H|]. exact (incl_enters known ms value s n E Hn).
Qed.
Theorem allpaths_plain : forall known value s, snd (checkSwitch known None s) = true -> forall z, enters value z s = true.
Proof.
  intros known value s H z. rewrite checkSwitch_none in H. cbn [snd] in H. rewrite (proj1 (runNone_good known (flatten s))) in H.
  unfold enters. apply orb_true_iff. right. apply hasDefaultLabel_In. apply flatten_In. apply (default_label value). exact H.
Qed.
Theorem allpaths_exact : forall known ms value s, NoDup ms -> plain known ms value s ->
  (snd (checkSwitch known (Some ms) s) = true <-> forall n, In n ms -> enters value (value n) s = true).
Proof.
  intros known ms value s ND P. split; [apply allpaths_enum|]. intros H. rewrite checkSwitch_some. cbv zeta.
  destruct (incomplete ms (run known ms (flatten s))) eqn:E; [|reflexivity]. exfalso.
  destruct (incomplete_plain known ms value s ND P E) as [NE _]. apply NE. unfold unhandled.
  destruct (filter _ ms) as [|n r] eqn:F; [reflexivity|].
  assert (IN : In n (filter (fun k => negb (enters value (value k) s)) ms)) by (rewrite F; left; reflexivity).
  apply filter_In in IN. destruct IN as [IN X]. rewrite (H n IN) in X. discriminate X.
Qed.
Lemma fresh_value : forall l, exists z, caseFor z l = false.
Proof.
  intros l. exists (fold_right (fun x m => match x with LCase y => Z.max (y + 1) m | LDefault => m end) 0 l).
  assert (G : forall l z, fold_right (fun x m => match x with LCase y => Z.max (y + 1) m | LDefault => m end) 0 l <= z -> caseFor z l = false).
  { clear l. induction l as [|[y|] l IH]; intros z H; cbn [fold_right caseFor] in *; [reflexivity| |apply IH; exact H].
    apply orb_false_iff. split; [apply Z.eqb_neq; lia|apply IH; lia]. }
  apply G. lia.
Qed.
Theorem allpaths_plain_exact : forall known value s, structured s = true ->
  (snd (checkSwitch known None s) = true <-> forall z, enters value z s = true).
Proof.
  intros known value s Hs. split; [apply allpaths_plain|]. intros H. rewrite checkSwitch_none. cbn [snd].
  rewrite (proj1 (runNone_good known (flatten s))). apply (default_label value). rewrite (flatten_structured value s Hs).
  destruct (fresh_value (labels value s)) as [z Hz]. specialize (H z). unfold enters in H. rewrite Hz in H. apply hasDefaultLabel_In. exact H.
Qed.
