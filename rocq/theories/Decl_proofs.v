From Verif Require Import Cbase Decl_model Decl_spec.
From Coq Require Import Lia.

Fixpoint plug (c p : cty) : cty :=
  match c with
  | Unk | Base | Exp _ => p
  | Ptr u => Ptr (plug u p)
  | Arr u => Arr (plug u p)
  | Fix u n => Fix (plug u p) n
  | Fcn u q => Fcn (plug u p) q
  end.
Fixpoint noExp (c : cty) : bool :=
  match c with
  | Unk | Base => true
  | Exp _ => false
  | Ptr u | Arr u | Fix u _ | Fcn u _ => noExp u
  end.

Lemma remP_noExp : forall c, noExp c = true -> noExp (remP c) = true.
Proof. induction c; cbn; auto. Qed.
Lemma noExp_base : forall c, noExp c = true -> baseisExp c = false.
Proof.
  intros c H. unfold baseisExp. apply remP_noExp in H. destruct (remP c) as [| |u|u|u n|u q|u]; try reflexivity.
  cbn in H. apply remP_noExp in H. destruct (remP u); try reflexivity. discriminate.
Qed.
Lemma newBase_plug : forall c p, noExp c = true -> newBase c p = Some (plug c p).
Proof.
  induction c; intros p H; try reflexivity; try discriminate H;
    (pose proof (noExp_base _ H) as B; cbn [newBase plug noExp] in *; rewrite B, IHc by exact H; reflexivity).
Qed.
Lemma newBase_exp : forall c p, newBase (Exp c) p = Some p.
Proof. reflexivity. Qed.

Lemma ptrs_S : forall n t, ptrs (S n) t = Ptr (ptrs n t).
Proof. reflexivity. Qed.
Lemma ptrs_in : forall n t, ptrs n (Ptr t) = Ptr (ptrs n t).
Proof. induction n; intros; [reflexivity|]. rewrite !ptrs_S, IHn. reflexivity. Qed.
Lemma ptrs_noExp : forall n t, noExp (ptrs n t) = noExp t.
Proof. induction n; intros; [reflexivity|]. rewrite ptrs_S. cbn [noExp]. apply IHn. Qed.
Lemma ptrs_plug : forall n t p, plug (ptrs n t) p = ptrs n (plug t p).
Proof. induction n; intros; [reflexivity|]. rewrite !ptrs_S. cbn [plug]. rewrite IHn. reflexivity. Qed.

Lemma arrays_noExp : forall ds t, noExp (arrays ds t) = noExp t.
Proof. induction ds as [|[n|] ds IH]; intros t; cbn [arrays fold_right noExp]; [reflexivity|apply IH|apply IH]. Qed.
Lemma arrays_plug : forall ds t p, plug (arrays ds t) p = arrays ds (plug t p).
Proof.
  unfold arrays. induction ds as [|[n|] ds IH]; intros t p; cbn [fold_right plug]; [reflexivity| |];
    rewrite IH; reflexivity.
Qed.
Lemma arrays_getBase : forall ds t, getBase (arrays ds t) = getBase t.
Proof. unfold arrays. induction ds as [|[n|] ds IH]; intros t; cbn [fold_right getBase]; auto. Qed.
Lemma arrays_app : forall a b t, arrays (a ++ b) t = arrays a (arrays b t).
Proof. intros. unfold arrays. rewrite fold_right_app. reflexivity. Qed.

Lemma inner_arrays : forall ds d t, (forall u n, t <> Fix u n) -> (forall u, t <> Arr u) ->
  match d with Some n => mkInnerFixed (arrays ds t) n | None => mkInner (arrays ds t) end = arrays (ds ++ [d]) t.
Proof.
  intros ds d t H1 H2. unfold arrays. induction ds as [|[n|] ds IH].
  - cbn [fold_right app]. destruct d; destruct t; try reflexivity; exfalso; (eapply H1; reflexivity) || (eapply H2; reflexivity).
  - cbn [fold_right app]. destruct d; cbn [mkInnerFixed mkInner]; rewrite IH; reflexivity.
  - cbn [fold_right app]. destruct d; cbn [mkInnerFixed mkInner]; rewrite IH; reflexivity.
Qed.

Lemma notExpecting_arrays : forall ds, notExpecting (arrays ds Unk) = arrays ds Unk.
Proof. intros [|[n|] ds]; reflexivity. Qed.

Lemma suffixes_app : forall b ds d, suffixes b (ds ++ [d]) = suffix (suffixes b ds) d.
Proof. intros. unfold suffixes. rewrite fold_left_app. reflexivity. Qed.

Lemma build_suffixes : forall named ds, build_base named (suffixes DId ds) = Some (arrays ds Unk).
Proof.
  intros named ds. induction ds as [|d ds IH] using rev_ind; [reflexivity|].
  rewrite suffixes_app. rewrite <- inner_arrays by discriminate.
  destruct d; cbn [suffix build_base]; rewrite IH; cbn [option_map]; [|reflexivity].
  rewrite notExpecting_arrays. destruct named; reflexivity.
Qed.

Lemma c_suffixes : forall ds t, c_base (suffixes DId ds) t = arrays ds t.
Proof.
  induction ds as [|d ds IH] using rev_ind; intro t; [reflexivity|].
  rewrite suffixes_app. destruct d; cbn [suffix c_base]; rewrite IH, arrays_app; reflexivity.
Qed.

(** What a legal declarator without parentheses can be. *)
Lemma c_base_wrap : forall b t, unparenthesised_base b ->
  (exists ds, b = suffixes DId ds) \/ ~ legal (c_base b t) \/
  (exists ps, b = DFun DId ps).
Proof.
  assert (I : forall b, unparenthesised_base b ->
    (exists ds, b = suffixes DId ds) \/ (exists ps ds, b = suffixes (DFun DId ps) ds)
    \/ (forall x, ~ legal (c_base b x))).
  2: {
    intros b t H. destruct (I b H) as [A|[(ps & ds & ->)|L]]; auto.
    assert (E : forall l x, c_base (suffixes (DFun DId ps) l) x = Fcn (arrays l x) ps).
    { induction l as [|e l IH] using rev_ind; intro x; [reflexivity|].
      rewrite suffixes_app. destruct e; cbn [suffix c_base]; rewrite IH, arrays_app; reflexivity. }
    destruct ds as [|d ds]; [right; right; eexists; reflexivity|right; left].
    rewrite E. destruct d; cbn; tauto. }
  assert (NL : forall b x, unparenthesised_base b -> legal (c_base b x) -> legal x).
  { induction b; intros x H L; cbn [unparenthesised_base c_base] in *; auto; try contradiction.
    - specialize (IHb _ H L). cbn in IHb. destruct x; tauto.
    - specialize (IHb _ H L). cbn in IHb. destruct x; tauto.
    - specialize (IHb _ H L). cbn in IHb. destruct x; tauto. }
  induction b; intros H; cbn [unparenthesised_base] in H; try contradiction.
  - left. exists []. reflexivity.
  - destruct (IHb H) as [[ds ->]|[(ps & ds & ->)|L]].
    + left. exists (ds ++ [None]). rewrite suffixes_app. reflexivity.
    + right; left. exists ps, (ds ++ [None]). rewrite suffixes_app. reflexivity.
    + right; right. intros x. cbn [c_base]. apply L.
  - destruct (IHb H) as [[ds ->]|[(ps & ds & ->)|L]].
    + left. exists (ds ++ [Some n]). rewrite suffixes_app. reflexivity.
    + right; left. exists ps, (ds ++ [Some n]). rewrite suffixes_app. reflexivity.
    + right; right. intros x. cbn [c_base]. apply L.
  - destruct b as [| |b|b n|b q]; cbn [unparenthesised_base] in H; try contradiction.
    + right; left. exists ps, []. reflexivity.
    + right; right. intros x L. cbn [c_base] in L. apply NL in L; [|exact H]. exact L.
    + right; right. intros x L. cbn [c_base] in L. apply NL in L; [|exact H]. exact L.
    + right; right. intros x L. cbn [c_base] in L. apply NL in L; [|exact H]. exact L.
Qed.

Lemma adj_arrays : forall n ds, adj n (arrays ds Unk) = Some (arrays ds (ptrs n Unk)).
Proof.
  intros n ds. assert (E : adj n (arrays ds Unk) = newBase (arrays ds Unk) (ptrs n (getBase (arrays ds Unk))))
    by (destruct ds as [|[k|] ds]; reflexivity).
  rewrite E, arrays_getBase, newBase_plug by (rewrite arrays_noExp; reflexivity).
  rewrite arrays_plug. reflexivity.
Qed.

Lemma mkF_ptrs_unk : forall n ps, mkF (ptrs n Unk) ps = Fcn (ptrs n Unk) ps.
Proof. intros [|[|n]] ps; reflexivity. Qed.

Lemma build_DBase : forall named b, build named (DBase b) = build_base named b.
Proof. reflexivity. Qed.
Lemma build_DStars : forall named n b, build named (DStars n b) = obind (build_base named b) (adj n).
Proof. reflexivity. Qed.
Lemma build_DPar : forall named d, build_base named (DPar d) = option_map expect (build named d).
Proof. reflexivity. Qed.
Lemma build_DFun : forall named b ps, build_base named (DFun b ps) = option_map (fun t => mkF t ps) (build_base named b).
Proof. reflexivity. Qed.

Lemma unparenthesised_ok : forall named d, unparenthesised d -> legal (c_decl d Base) ->
  declared named d = Some (c_decl d Base).
Proof.
  intros named d H L. unfold declared. destruct d as [b|n b]; cbn [unparenthesised c_decl] in *; rewrite ?build_DBase, ?build_DStars.
  - destruct (c_base_wrap b Base H) as [[ds ->]|[N|[ps ->]]]; [|contradiction|reflexivity].
    rewrite build_suffixes. cbn [obind]. rewrite newBase_plug by (rewrite arrays_noExp; reflexivity).
    rewrite arrays_plug, c_suffixes. reflexivity.
  - destruct (c_base_wrap b (ptrs n Base) H) as [[ds ->]|[N|[ps ->]]]; [|contradiction|].
    + rewrite build_suffixes. cbn [obind]. rewrite adj_arrays. cbn [obind].
      rewrite newBase_plug by (rewrite arrays_noExp, ptrs_noExp; reflexivity).
      rewrite arrays_plug, ptrs_plug, c_suffixes. reflexivity.
    + rewrite build_DFun. cbn [build_base option_map obind c_base mkF adj newBase getBase]. rewrite mkF_ptrs_unk. 
      rewrite newBase_plug by (cbn [noExp]; rewrite ptrs_noExp; reflexivity).
      cbn [plug]. rewrite ptrs_plug. reflexivity.
Qed.

(** * Pointers to functions *)
Lemma loop1_ptrs : forall n t args fp, expLoop1 (ptrs n t) args fp = expLoop1 t args (ptrs n fp).
Proof.
  induction n; intros; [reflexivity|]. rewrite ptrs_S. cbn [expLoop1]. rewrite IHn, ptrs_in. reflexivity.
Qed.
Definition arrs (k : nat) (t : cty) : cty := Nat.iter k Arr t.
Lemma arrs_S : forall n t, arrs (S n) t = Arr (arrs n t).
Proof. reflexivity. Qed.
Lemma arrs_in : forall n t, arrs n (Arr t) = Arr (arrs n t).
Proof. induction n; intros; [reflexivity|]. rewrite !arrs_S, IHn. reflexivity. Qed.
Lemma loop1_arrays : forall ds t args fp, expLoop1 (arrays ds t) args fp = expLoop1 t args (arrs (List.length ds) fp).
Proof.
  unfold arrays. induction ds as [|[n|] ds IH]; intros; cbn [fold_right expLoop1 List.length]; [reflexivity| |];
    rewrite IH, arrs_in; reflexivity.
Qed.
Lemma loop2_ptrs : forall m e p, expLoop2 (ptrs m (Exp e)) p = Some (ptrs m p).
Proof. induction m; intros; [reflexivity|]. rewrite ptrs_S. cbn [expLoop2]. rewrite IHm, ptrs_in. reflexivity. Qed.
Lemma loop3_ptrs : forall n t r, expLoop3 (ptrs n t) r = expLoop3 t (ptrs n r).
Proof. induction n; intros; [reflexivity|]. rewrite ptrs_S. cbn [expLoop3]. rewrite IHn, ptrs_in. reflexivity. Qed.
Lemma loop3_arrs : forall n r, expLoop3 (arrs n Unk) r = Some (arrs n r).
Proof. induction n; intros; [reflexivity|]. rewrite arrs_S. cbn [expLoop3]. rewrite IHn, arrs_in. reflexivity. Qed.

Lemma mkF_ptrs_exp : forall m e ps, mkF (ptrs m (Exp e)) ps = Fcn (ptrs m (Exp e)) ps.
Proof. intros [|[|m]] e ps; reflexivity. Qed.
Lemma getBase_ptrs : forall m t, getBase (ptrs m t) = getBase t.
Proof. induction m; intros; [reflexivity|]. apply IHm. Qed.
Lemma remP_ptrs : forall m t, remP (ptrs m t) = remP t.
Proof. induction m; intros; [reflexivity|]. apply IHm. Qed.

(** A parenthesised declarator followed by parameters, after stars. *)
Lemma build_called : forall named m b e ps, build_base named b = Some (Exp e) ->
  build named (stars m (DFun b ps)) = Some (Fcn (ptrs m (Exp e)) ps).
Proof.
  intros named m b e ps H. destruct m as [|m].
  - cbn [stars]. rewrite build_DBase, build_DFun, H. reflexivity.
  - cbn [stars]. rewrite build_DStars, build_DFun, H. cbn [option_map obind mkF adj newBase getBase].
    change (baseisExp (Exp e)) with false. cbn iota. cbn [option_map]. rewrite mkF_ptrs_exp. reflexivity.
Qed.

Lemma newBase_called : forall m e ps p, newBase (Fcn (ptrs m (Exp e)) ps) p
  = newBaseExp (Fcn (ptrs m (Exp e)) ps) p.
Proof.
  intros. cbn [newBase]. assert (baseisExp (Fcn (ptrs m (Exp e)) ps) = true) as ->; [|reflexivity].
  unfold baseisExp. cbn [remP]. rewrite remP_ptrs. reflexivity.
Qed.

Lemma function_pointer : forall named m n ds ps, n <> O ->
  declared named (stars m (DFun (DPar (DStars n (suffixes DId ds))) ps))
  = Some (arrs (List.length ds) (ptrs n (Fcn (ptrs m Base) ps))).
Proof.
  intros named m n ds ps Hn. unfold declared.
  rewrite (build_called named m _ (arrays ds (ptrs n Unk))).
  - cbn [obind]. rewrite newBase_called. unfold newBaseExp. cbn [asFcn obind].
    rewrite getBase_ptrs. cbn [getBase]. rewrite loop1_arrays, loop1_ptrs. cbn [expLoop1 obind].
    rewrite loop2_ptrs. cbn [obind]. rewrite loop3_ptrs, loop3_arrs. reflexivity.
  - rewrite build_DPar, build_DStars, build_suffixes. cbn [obind]. rewrite adj_arrays. cbn [option_map]. unfold expect.
    destruct n as [|n]; [congruence|]. destruct ds as [|[k|] ds]; reflexivity.
Qed.

Lemma arrs_arrays : forall ds t, Forall (fun d => d = None) ds -> arrs (List.length ds) t = arrays ds t.
Proof.
  intros ds t H. induction H; [reflexivity|]. subst. cbn [List.length]. rewrite arrs_S, IHForall. reflexivity.
Qed.

Lemma c_fp : forall m n ds ps, 
  c_decl (stars m (DFun (DPar (DStars n (suffixes DId ds))) ps)) Base = arrays ds (ptrs n (Fcn (ptrs m Base) ps)).
Proof. intros [|m] n ds ps; cbn [stars c_decl c_base]; rewrite c_suffixes; reflexivity. Qed.

Lemma function_pointer_ok : forall named m n ds ps, n <> O -> Forall (fun d => d = None) ds ->
  let d := stars m (DFun (DPar (DStars n (suffixes DId ds))) ps) in
  declared named d = Some (c_decl d Base).
Proof.
  intros named m n ds ps Hn Hd d. unfold d. rewrite function_pointer by exact Hn.
  rewrite c_fp, arrs_arrays by exact Hd. reflexivity.
Qed.

(** * Functions returning pointers to functions *)
Lemma function_returning : forall named m n p1 p2,
  declared named (stars m (DFun (DPar (stars n (DFun DId p1))) p2))
  = Some (Fcn (Fcn (ptrs m Base) p2) p1).
Proof.
  intros named m n p1 p2. unfold declared.
  rewrite (build_called named m _ (Ptr (Fcn (ptrs n Unk) p1))).
  - cbn [obind]. rewrite newBase_called. unfold newBaseExp. cbn [asFcn obind].
    rewrite getBase_ptrs. cbn [getBase expLoop1 obind]. rewrite loop2_ptrs. cbn [obind mkF expLoop3].
    f_equal. f_equal. destruct m as [|[|m]]; reflexivity.
  - destruct n as [|n]; [reflexivity|].
    cbn [stars]. rewrite build_DPar, build_DStars, build_DFun. cbn [build_base option_map obind mkF adj newBase getBase]. rewrite mkF_ptrs_unk. reflexivity.
Qed.

(** * Parenthesised declarators *)
Lemma parenthesised_lost : forall named m d c, build named d = Some c ->
  declared named (stars m (DPar d)) = Some (ptrs m Base).
Proof.
  intros named m d c H. unfold declared. destruct m as [|m]; cbn [stars];
    rewrite ?build_DBase, ?build_DStars, build_DPar, H.
  - reflexivity.
  - cbn [option_map obind]. unfold expect. set (e := if isAP c then c else Ptr c).
    cbn [adj newBase getBase]. change (baseisExp (Exp e)) with false. cbn iota. cbn [obind].
    clear. induction m; cbn.
    + reflexivity.
    + assert (P : forall k, newBase (ptrs (S k) (Exp e)) Base = Some (ptrs (S k) Base)).
      { induction k.
        - reflexivity.
        - rewrite ptrs_S. cbn [newBase].
          assert (baseisExp (Ptr (ptrs (S k) (Exp e))) = false) as ->.
          { unfold baseisExp. cbn [remP]. rewrite remP_ptrs. reflexivity. }
          rewrite IHk. reflexivity. }
      apply (P (S m)).
Qed.

Lemma pointer_to_array : forall m n k, n <> O ->
  declared true (stars m (DFix (DPar (DStars n DId)) k)) = Some (Fix (ptrs n (ptrs m Base)) k).
Proof.
  intros m n k Hn. destruct n as [|n]; [congruence|]. unfold declared.
  assert (B : build_base true (DFix (DPar (DStars (S n) DId)) k) = Some (Fix (ptrs (S n) Unk) k)) by reflexivity.
  destruct m as [|m]; cbn [stars]; rewrite ?build_DBase, ?build_DStars.
  - rewrite B. cbn [obind]. rewrite newBase_plug by (cbn [noExp]; rewrite ptrs_noExp; reflexivity).
    cbn [plug]. rewrite ptrs_plug. reflexivity.
  - rewrite B. cbn [obind adj]. rewrite newBase_plug by (cbn [noExp]; rewrite ptrs_noExp; reflexivity).
    cbn [plug getBase]. rewrite ptrs_plug, getBase_ptrs. cbn [getBase plug obind].
    rewrite newBase_plug by (cbn [noExp]; rewrite !ptrs_noExp; reflexivity).
    cbn [plug]. rewrite !ptrs_plug. reflexivity.
Qed.
