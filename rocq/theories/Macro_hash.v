(* Definitions in which a `#' has no parameter. *)
From Verif Require Import Cbase Cbase_facts Macro_model Macro_spec Macro_proofs Macro_lex Macro_str Macro_sub Macro_build.
Import ListNotations.
Open Scope nat_scope.
Open Scope list_scope.

Lemma skip_len : forall (p : ascii -> bool) s, List.length (skip_while p s) <= List.length s.
Proof. induction s as [|c s IH]; cbn; [lia|]. destruct (p c); cbn; lia. Qed.

(* it ends, and keeps the messages *)
Lemma collect_total : forall fuel ps trail txt cur refs dl cc st ms, List.length txt < fuel ->
  exists d more, collectAux fuel ps trail txt cur refs dl cc st ms = Some d /\ d_msgs d = rev ms ++ more.
Proof.
  induction fuel as [|f IH]; intros ps trail txt cur refs dl cc st ms L; [lia|].
  destruct txt as [|c rest].
  { cbn [collectAux]. eexists. exists []. split; [reflexivity|]. cbn [d_msgs]. now rewrite app_nil_r. }
  cbn [List.length] in L. cbn [collectAux].
  assert (K : forall txt' cur' refs' dl' cc' st' ms', List.length txt' <= List.length rest -> (ms' = ms \/ exists m, ms' = m :: ms) ->
    exists d more, collectAux f ps trail txt' cur' refs' dl' cc' st' ms' = Some d /\ d_msgs d = rev ms ++ more).
  { intros txt' cur' refs' dl' cc' st' ms' L' M. destruct (IH ps trail txt' cur' refs' dl' cc' st' ms' ltac:(lia)) as [d [more [E1 E2]]].
    destruct M as [->|[m ->]]; [eauto|]. exists d, ([m] ++ more). split; auto. rewrite E2. cbn [rev]. now rewrite <- app_assoc. }
  assert (Kt : forall b : bool, forall m : msg, (if b then ms else m :: ms) = ms \/ exists x, (if b then ms else m :: ms) = x :: ms) by (intros [] m; eauto).
  assert (Kf : forall b : bool, forall m : msg, (if b then m :: ms else ms) = ms \/ exists x, (if b then m :: ms else ms) = x :: ms) by (intros [] m; eauto).
  destruct (isQuote c); [apply K; auto|].
  destruct (Ascii.eqb c chB).
  { destruct dl; [|apply K; auto]. destruct rest; apply K; auto; cbn; lia. }
  destruct (Ascii.eqb c chA); [destruct dl; apply K; auto|].
  destruct (Ascii.eqb c chH && _).
  { destruct rest as [|d rest'].
    - destruct ps; apply K; eauto.
    - destruct (Ascii.eqb d chH).
      + apply K; auto. assert (X := skip_len isHor rest'). cbn. lia.
      + destruct ps; [|apply K; auto]. apply K; auto. apply skip_len. }
  destruct (isIdChar c) eqn:EI; cbn [andb]; [|apply K; auto].
  destruct (match ps with Some (_ :: _) => true | _ => false end); [|apply K; auto].
  assert (SL : List.length (skip_while isIdChar (c :: rest)) <= List.length rest) by (cbn [skip_while]; rewrite EI; apply skip_len).
  match goal with |- context [match ?x with Some _ => _ | None => _ end] => destruct x end; apply K; auto.
Qed.

Section Bad.
  Variable ps : list cstr.
  Variable trail : cstr.
  Hypothesis PS : ps <> [].

  Lemma look_mem : forall w, memS ps w = false -> look ps w = None.
  Proof.
    intros w H. apply look_none. intros I. unfold memS in H.
    assert (existsb (cstr_eqb w) ps = true); [|congruence]. apply existsb_exists. exists w. split; auto. apply cstr_eqb_refl.
  Qed.

  Definition complains (o : option defn) : Prop := exists d, o = Some d /\ d_msgs d <> [].

  Lemma complains_from : forall fuel txt cur refs dl cc st m ms, List.length txt < fuel ->
    complains (collectAux fuel (Some ps) trail txt cur refs dl cc st (m :: ms)).
  Proof.
    intros. destruct (collect_total fuel (Some ps) trail txt cur refs dl cc st (m :: ms) H) as [d [more [E1 E2]]].
    exists d. split; auto. rewrite E2. cbn [rev]. destruct (rev ms); discriminate.
  Qed.

  (* a word that is no parameter, after # *)
  Lemma word_bad : forall q r2 fuel cur refs ms, chain (q :: r2) -> isWord q = true -> memS ps (snd q) = false ->
    List.length (snd q ++ flat r2) < fuel ->
    complains (collectAux fuel (Some ps) trail (snd q ++ flat r2) cur refs None false true ms).
  Proof.
    intros q r2 fuel cur refs ms C IW M L. destruct (chain_inv _ _ C) as [W [C' BD]].
    assert (S := whole_shape q W). unfold isWord in IW. destruct (fst q) eqn:FP; try discriminate.
    simpl in S. destruct S as [S LL]. apply look_mem in M. destruct (snd q) as [|c w] eqn:T; [contradiction|]. destruct S as [S1 S2].
    destruct fuel as [|f]; [cbn in L; lia|].
    destruct (bound_word isL (flat r2) BD) as [B1 B2].
    assert (FW : forallb isIdChar (c :: w) = true).
    { rewrite <- fb_word. cbn [forallb]. now rewrite (letter_word c S1). }
    destruct (tw_app isIdChar (c :: w) (flat r2) FW B1) as [T1 T2]. cbn [app] in T1, T2.
    assert (Wc := letter_word c S1). destruct (word_not_special c Wc) as [Q [NA [NB [NH _]]]].
    cbn [app collectAux]. rewrite T1, T2.
    rewrite cls_quote, Q, (neq_eqb _ _ NB), (neq_eqb _ _ NA), (neq_eqb _ _ NH), cls_word, Wc.
    replace (match ps with [] => false | _ :: _ => true end) with true by (destruct ps; congruence).
    cbn [andb]. rewrite M.
    match goal with |- complains (match (if ?b then None else None) with _ => _ end) => destruct b end;
      apply complains_from; cbn in L; rewrite app_length in L; lia.
  Qed.

  Lemma notword_first : forall q r2, chain (q :: r2) -> isWord q = false -> isOpen (fst q) = false -> fst q <> LBlkEnd ->
    match snd q ++ flat r2 with
    | [] => false
    | e :: r => isIdStart e && negb (Ascii.eqb e chL && hdIs isQuote r)
    end = false.
  Proof.
    intros q r2 C IW O NC. destruct (chain_inv _ _ C) as [W [_ _]]. assert (S := whole_shape q W). unfold isWord in IW.
    destruct (whole_pieces q W) as [_ [_ NE]].
    destruct (snd q) as [|e w] eqn:T; [congruence|]. cbn [app]. rewrite cls_start.
    destruct (letterC e) eqn:EL; [|reflexivity]. cbn [andb].
    assert (WC : forall x, wordC x = true -> white x = false /\ quoteC x = false) by (intros x X; destruct (word_not_special x X) as [? [_ [_ [_ ?]]]]; auto).
    destruct (fst q) eqn:FQ; try discriminate; simpl in S.
    - cbn [forallb] in S. apply andb_true_iff in S. destruct S as [S _]. destruct (WC e (letter_word e EL)). congruence.
    - (* a number does not begin with a letter *)
      exfalso. unfold whole in W. rewrite T in W. unfold start in W. rewrite EL in W. destruct (WC e (letter_word e EL)) as [X _]. rewrite X in W.
      rewrite FQ in W.
      assert (Y : forall w q e1, runS (LLit q e1) w <> Some (LNum e0)).
      { clear. induction w as [|y w IH]; intros q e1; [discriminate|]. cbn [runS ext]. destruct e1; [apply IH|].
        destruct (Ascii.eqb y q); [|apply IH]. destruct w; cbn; discriminate. }
      assert (Z : forall w l, runS (LId l) w <> Some (LNum e0)).
      { clear - Y. induction w as [|y w IH]; intros l; [discriminate|]. cbn [runS ext]. destruct (wordC y); [apply IH|].
        destruct (l && quoteC y); [apply Y|discriminate]. }
      now apply Z in W.
    - destruct S as [q0 [pre [b [Q [P [E _]]]]]]. destruct P as [->| ->]; cbn [app] in E; inversion E; subst.
      + destruct (WC q0 (letter_word q0 EL)). congruence.
      + cbn [app hdIs]. rewrite cls_quote, Q. reflexivity.
    - destruct S as [E [[c [-> [A [Wd Q]]]]|S]].
      + inversion E; subst. rewrite (letter_word _ EL) in Wd. discriminate.
      + subst s. cbn in S. repeat (destruct S as [S|S]; [inversion S; subst e; discriminate|]). destruct S.
    - congruence.
  Qed.

  Lemma collect_bad : forall n l, List.length l <= n -> chain l -> (forall p, In p l -> bp ps p) ->
    hashesOk (memS ps) l = false -> forall fuel cur refs ms, List.length (flat l) < fuel ->
    complains (collectAux fuel (Some ps) trail (flat l) cur refs None false false ms).
  Proof.
    induction n as [|n IH]; intros l LN C B HO fuel cur refs ms L; [destruct l; [discriminate|cbn in LN; lia]|].
    destruct l as [|p r]; [discriminate|].
    destruct (chain_inv _ _ C) as [W [C' BD]].
    change (flat (p :: r)) with (snd p ++ flat r) in *.
    assert (BR : forall q, In q r -> bp ps q) by (intros q I; apply B; now right).
    cbn [hashesOk] in HO.
    destruct (isHash p) eqn:EH.
    - assert (TP : snd p = [chH]).
      { assert (S := whole_shape p W). unfold isHash in EH. destruct (fst p) eqn:FP; try discriminate. simpl in S. destruct S as [-> _].
        apply cstr_eqb_eq in EH. exact EH. }
      assert (FP : fst p = LOp [chH]).
      { unfold isHash in EH. destruct (fst p) eqn:FP; try discriminate. apply cstr_eqb_eq in EH. now rewrite EH. }
      destruct fuel as [|f]; [lia|]. rewrite TP in *. cbn [app List.length] in L |- *.
      (* the step over # *)
      set (ok := match skip_while isHor (flat r) with [] => false | e :: r0 => isIdStart e && negb (Ascii.eqb e chL && hdIs isQuote r0) end).
      assert (STEP : collectAux (S f) (Some ps) trail (chH :: flat r) cur refs None false false ms
         = collectAux f (Some ps) trail (skip_while isHor (flat r)) cur refs None false ok (if ok then ms else MNotArg :: ms)).
      { subst ok. destruct (flat r) as [|d fr] eqn:FR; [reflexivity|].
        assert (ND : Ascii.eqb d chH = false).
        { apply neq_eqb. intros ->. specialize (BD chH eq_refl). rewrite FP in BD. discriminate. }
        cbn [collectAux]. replace (isQuote chH) with false by reflexivity.
        replace (Ascii.eqb chH chB) with false by reflexivity. replace (Ascii.eqb chH chA) with false by reflexivity.
        replace (Ascii.eqb chH chH) with true by reflexivity. cbn [andb]. rewrite ND. reflexivity. }
      rewrite STEP.
      assert (LS : List.length (skip_while isHor (flat r)) < f) by (assert (X := skip_len isHor (flat r)); lia).
      destruct ok eqn:EOK; [|now apply complains_from].
      (* a word follows *)
      assert (AFTER : forall q r2, chain (q :: r2) -> (forall x, In x (q :: r2) -> bp ps x) -> skip_while isHor (flat r) = snd q ++ flat r2 ->
         (isWord q && memS ps (snd q)) && hashesOk (memS ps) r2 = false -> List.length r2 <= n ->
         complains (collectAux f (Some ps) trail (skip_while isHor (flat r)) cur refs None false true ms)).
      { intros q r2 C2 B2 SK HQ L2. rewrite SK in LS |- *.
        destruct (isWord q) eqn:IW.
        - destruct (memS ps (snd q)) eqn:IM; [|now apply word_bad]. cbn [andb] in HQ.
          destruct (look_in ps _ IM) as [k LK].
          destruct (par_step ps trail PS q r2 f cur refs ms true k C2 B2 IW LK LS) as [f' [L' E']]. rewrite E'.
          destruct (chain_inv _ _ C2) as [_ [C3 _]]. apply IH; auto. intros x I. apply B2. now right.
        - exfalso. destruct (B2 q (or_introl eq_refl)) as [O [NC _]].
          assert (X := notword_first q r2 C2 IW O NC). subst ok. rewrite SK in EOK. congruence. }
      destruct r as [|q r2].
      { subst ok. discriminate. }
      change (flat (q :: r2)) with (snd q ++ flat r2) in *.
      destruct (chain_inv _ _ C') as [Wq [C2 Bq]]. destruct (BR q (or_introl eq_refl)) as [Oq [NCq [_ [NNq _]]]].
      destruct (isWhite q) eqn:EW.
      + assert (FQ : fst q = LWhite) by (unfold isWhite in EW; destruct (fst q); congruence).
        assert (NHq : isHash q = false) by (unfold isHash; rewrite FQ; reflexivity).
        cbn [hashesOk] in HO. rewrite NHq in HO. cbn [andb] in HO.
        assert (SKW : skip_while isHor (snd q ++ flat r2) = flat r2).
        { apply (skip_white ps q r2); auto; [apply BR; now left|]. intros x I. apply BR. now right. }
        destruct r2 as [|q' r3].
        * exfalso. subst ok. rewrite SKW in EOK. discriminate.
        * destruct (chain_inv _ _ C2) as [Wq' _].
          apply (AFTER q' r3); auto.
          -- intros x I. apply BR. now right.
          -- cbn [hashesOk] in HO. destruct (isWord q' && memS ps (snd q')) eqn:E; [|reflexivity]. cbn [andb] in HO |- *.
             apply andb_true_iff in E. destruct E as [E _]. unfold isWord in E.
             assert (X : isHash q' = false) by (unfold isHash; destruct (fst q'); try discriminate; reflexivity). rewrite X in HO. exact HO.
          -- cbn in LN. lia.
      + apply (AFTER q r2); auto.
        * apply (skip_notwhite q (flat r2) Wq). intros X. unfold isWhite in EW. rewrite X in EW. discriminate.
        * cbn [hashesOk] in HO. destruct (isWord q && memS ps (snd q)) eqn:E; [|reflexivity]. cbn [andb] in HO |- *.
          apply andb_true_iff in E. destruct E as [E _]. unfold isWord in E.
          assert (X : isHash q = false) by (unfold isHash; destruct (fst q); try discriminate; reflexivity). rewrite X in HO. exact HO.
        * cbn in LN. lia.
    - cbn [andb] in HO. 
      destruct (isWord p) eqn:EW.
      + destruct (look ps (snd p)) as [k|] eqn:LK.
        * destruct (par_step ps trail PS p r fuel cur refs ms false k C B EW LK L) as [f' [L' E']]. rewrite E'.
          apply IH; auto. cbn in LN. lia.
        * assert (CP := piece_copies ps trail PS p (flat r) W (B p (or_introl eq_refl)) BD EH (fun _ => LK)).
          destruct (CP fuel cur refs ms L) as [f' [L' E']]. rewrite E'. apply IH; auto. cbn in LN. lia.
      + assert (CP := piece_copies ps trail PS p (flat r) W (B p (or_introl eq_refl)) BD EH ltac:(congruence)).
        destruct (CP fuel cur refs ms L) as [f' [L' E']]. rewrite E'. apply IH; auto. cbn in LN. lia.
  Qed.
End Bad.
