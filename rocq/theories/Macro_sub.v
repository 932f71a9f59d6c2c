(* Definitions and substitution. *)
From Verif Require Import Cbase Cbase_facts Macro_model Macro_spec Macro_proofs Macro_lex Macro_str.
Import ListNotations.
Open Scope nat_scope.
Open Scope list_scope.

Lemma fb_word : forall t, forallb wordC t = forallb isIdChar t.
Proof. induction t as [|c t IH]; auto. cbn [forallb]. now rewrite cls_word, IH. Qed.

Lemma tw_app : forall (p : ascii -> bool) w r, forallb p w = true -> hdIs p r = false ->
  take_while p (w ++ r) = w /\ skip_while p (w ++ r) = r.
Proof.
  induction w as [|c w IH]; intros r A B.
  - cbn [app]. destruct r as [|d r]; [split; reflexivity|]. cbn in *. rewrite B. auto.
  - cbn [forallb] in A. apply andb_true_iff in A. destruct A as [A1 A2]. destruct (IH r A2 B) as [X Y].
    cbn. rewrite A1. rewrite X, Y. auto.
Qed.
Lemma tw_split : forall (p : ascii -> bool) s, s = take_while p s ++ skip_while p s /\
  forallb p (take_while p s) = true /\ hdIs p (skip_while p s) = false.
Proof.
  induction s as [|c s [A [B C]]]; [auto|]. cbn. destruct (p c) eqn:E.
  - split; [cbn; now rewrite <- A|]. split; auto. cbn. now rewrite E, B.
  - split; auto.
Qed.

(* ---- the loop of collect_expansion ---- *)
Section Collect.
  Variable ps : list cstr.
  Variable trail : cstr.
  Hypothesis PS : ps <> [].

  Let CA := fun f => collectAux f (Some ps) trail.

  (* copying t leads to the same loop behind t *)
  Definition copies (t rest : cstr) (dl dl' : option ascii) : Prop :=
    forall fuel cur refs ms, List.length (t ++ rest) < fuel ->
    exists fuel', List.length rest < fuel' /\
      CA fuel (t ++ rest) cur refs dl false false ms = CA fuel' rest (rev t ++ cur) refs dl' false false ms.

  Lemma copies_nil : forall r d, copies [] r d d.
  Proof. intros r d fuel cur refs ms H. exists fuel. auto. Qed.
  Lemma copies_app : forall a b r d1 d2 d3, copies a (b ++ r) d1 d2 -> copies b r d2 d3 -> copies (a ++ b) r d1 d3.
  Proof.
    intros a b r d1 d2 d3 A B fuel cur refs ms H. rewrite <- app_assoc in *.
    destruct (A fuel cur refs ms H) as [f1 [L1 E1]]. destruct (B f1 (rev a ++ cur) refs ms L1) as [f2 [L2 E2]].
    exists f2. split; auto. rewrite E1, E2. rewrite rev_app_distr, <- app_assoc. reflexivity.
  Qed.

  Lemma neq_eqb : forall a b : ascii, a <> b -> Ascii.eqb a b = false.
  Proof. intros a b H. apply not_true_is_false. intros E. now apply eqb_eq in E. Qed.

  Lemma nonempty_ps : match ps with _ :: _ => true | [] => false end = true.
  Proof. destruct ps; congruence. Qed.

  (* a character that means nothing *)
  Lemma copies_char : forall c r dl, quoteC c = false -> c <> chB -> (c <> chA \/ dl <> None) -> (c <> chH \/ dl <> None) ->
    wordC c = false -> copies [c] r dl dl.
  Proof.
    intros c r dl Q B A H W fuel cur refs ms L. destruct fuel as [|f]; [cbn in L; lia|]. exists f. split; [cbn in L; lia|].
    unfold CA. cbn [app collectAux]. rewrite cls_quote, Q, cls_word, W, (neq_eqb _ _ B). cbn [andb rev app].
    destruct (Ascii.eqb c chA) eqn:EA.
    - apply eqb_eq in EA. destruct dl as [q|]; [reflexivity|]. destruct A; congruence.
    - destruct (Ascii.eqb c chH) eqn:EH; [|reflexivity].
      apply eqb_eq in EH. destruct dl as [q|]; [reflexivity|]. destruct H; congruence.
  Qed.

  Lemma copies_simple : forall t r, (forall c, In c t -> quoteC c = false /\ c <> chB /\ c <> chA /\ c <> chH /\ wordC c = false) ->
    copies t r None None.
  Proof.
    induction t as [|c t IH]; intros r H; [apply copies_nil|].
    change (c :: t) with ([c] ++ t). eapply copies_app.
    - destruct (H c (or_introl eq_refl)) as [A [B [C [D E]]]]. apply copies_char; auto.
    - apply IH. intros d I. apply H. now right.
  Qed.

  (* a run of identifier characters that is no parameter *)
  Lemma copies_run : forall w r dl, w <> [] -> forallb isIdChar w = true -> hdIs isIdChar r = false ->
    (dl <> None \/ (exists c w', w = c :: w' /\ isIdStart c = false) \/ look ps w = None
     \/ (w = [chL] /\ hdIs isQuote r = true)) ->
    copies w r dl dl.
  Proof.
    intros w r dl N F B X fuel cur refs ms L. destruct fuel as [|f]; [cbn in L; lia|]. exists f.
    destruct w as [|c w]; [congruence|]. split; [cbn in L; rewrite app_length in L; lia|].
    destruct (tw_app isIdChar (c :: w) r F B) as [T1 T2]. cbn [app] in T1, T2.
    assert (W : isIdChar c = true) by (cbn [forallb] in F; apply andb_true_iff in F; apply F).
    rewrite cls_word in W. destruct (word_not_special c W) as [Q [NA [NB [NH _]]]].
    unfold CA. cbn [app collectAux]. rewrite T1, T2.
    rewrite cls_quote, Q, (neq_eqb _ _ NB), (neq_eqb _ _ NA), (neq_eqb _ _ NH), cls_word, W.
    replace (match ps with [] => false | _ :: _ => true end) with true by (destruct ps; congruence).
    cbn [andb].
    match goal with |- match ?x with Some _ => _ | None => _ end = _ => assert (E : x = None) end.
    { destruct X as [X|[[d [w' [X1 X2]]]|[X|[X1 X2]]]].
      - destruct dl; [now rewrite andb_false_r|congruence].
      - inversion X1; subst. now rewrite X2.
      - destruct (isIdStart c && _ && _); auto.
      - inversion X1; subst. rewrite X2. cbn [List.length Nat.eqb andb]. reflexivity. }
    rewrite E. reflexivity.
  Qed.

  (* inside a literal *)
  Lemma copies_in : forall n b q r, List.length b <= n -> quoteC q = true -> inLit q false b = Some false ->
    hdIs isIdChar r = false -> copies b r (Some q) (Some q).
  Proof.
    induction n as [|n IH]; intros b q r L Q H R.
    - destruct b; [apply copies_nil|cbn in L; lia].
    - destruct b as [|c b]; [apply copies_nil|]. cbn [inLit] in H.
      destruct (Ascii.eqb c q) eqn:CQ; [discriminate|].
      destruct (Ascii.eqb c chB) eqn:CB.
      + apply eqb_eq in CB. subst c. destruct b as [|d b]; [discriminate|]. cbn [inLit] in H.
        change (chB :: d :: b) with ([chB; d] ++ b). eapply copies_app; [|apply (IH b q r); auto; cbn in L; lia].
        intros fuel cur refs ms F. destruct fuel as [|f]; [cbn in F; lia|]. exists f. split; [cbn in F; lia|]. reflexivity.
      + destruct (quoteC c) eqn:QC.
        * change (c :: b) with ([c] ++ b). eapply copies_app; [|apply (IH b q r); auto; cbn in L; lia].
          intros fuel cur refs ms F. destruct fuel as [|f]; [cbn in F; lia|]. exists f. split; [cbn in F; lia|].
          unfold CA. cbn [app collectAux]. rewrite cls_quote, QC, CQ. reflexivity.
        * destruct (wordC c) eqn:WC.
          -- destruct (tw_split isIdChar (c :: b)) as [S [F B]].
             set (w := take_while isIdChar (c :: b)) in *. set (b' := skip_while isIdChar (c :: b)) in *.
             assert (WN : w <> []). { subst w. cbn. rewrite cls_word, WC. discriminate. }
             assert (LW : forall u e, forallb isIdChar u = true -> inLit q false (u ++ e) = inLit q false e).
             { induction u as [|x u IHu]; intros e Fu; auto. cbn [forallb] in Fu. apply andb_true_iff in Fu. destruct Fu as [F1 F2].
               rewrite cls_word in F1. destruct (word_not_special x F1) as [X1 [X2 [X3 [X4 X5]]]]. cbn [app inLit].
               assert (NQ : x <> q) by (intros ->; congruence). rewrite (neq_eqb _ _ NQ), (neq_eqb _ _ X3). auto. }
             assert (H' : inLit q false b' = Some false).
             { rewrite <- (LW w b' F), <- S. cbn [inLit]. now rewrite CQ, CB. }
             clearbody w b'. rewrite S. eapply copies_app.
             ++ apply copies_run; auto.
                ** destruct b' as [|x b']; [exact R|exact B].
                ** left. discriminate.
             ++ apply (IH b' q r); auto. assert (LL := f_equal (@List.length ascii) S). rewrite app_length in LL. cbn in LL, L.
                destruct w; [congruence|]. cbn in LL. lia.
          -- change (c :: b) with ([c] ++ b). eapply copies_app; [|apply (IH b q r); auto; cbn in L; lia].
             apply copies_char; auto; try (right; discriminate). intros ->. discriminate.
  Qed.

  Lemma copies_open : forall q r, quoteC q = true -> copies [q] r None (Some q).
  Proof.
    intros q r Q fuel cur refs ms F. destruct fuel as [|f]; [cbn in F; lia|]. exists f. split; [cbn in F; lia|].
    unfold CA. cbn [app collectAux]. now rewrite cls_quote, Q.
  Qed.
  Lemma copies_close : forall q r, quoteC q = true -> copies [q] r (Some q) None.
  Proof.
    intros q r Q fuel cur refs ms F. destruct fuel as [|f]; [cbn in F; lia|]. exists f. split; [cbn in F; lia|].
    unfold CA. cbn [app collectAux]. rewrite cls_quote, Q, (proj2 (eqb_eq q q) eq_refl). reflexivity.
  Qed.

  Lemma quote_not_id : forall q, quoteC q = true -> isIdChar q = false.
  Proof. intros q. allchars q; vm_compute; auto; discriminate. Qed.

  Lemma copies_lit : forall q pre b r, quoteC q = true -> (pre = [] \/ pre = [chL]) -> inLit q false b = Some false ->
    copies (pre ++ q :: b ++ [q]) r None None.
  Proof.
    intros q pre b r Q P L.
    assert (X : copies (q :: b ++ [q]) r None None).
    { change (q :: b ++ [q]) with ([q] ++ (b ++ [q])). eapply copies_app; [apply copies_open; auto|].
      eapply copies_app; [|apply copies_close; auto].
      apply (copies_in (List.length b)); auto. cbn. now apply quote_not_id. }
    destruct P as [->| ->]; [exact X|].
    eapply copies_app; [|exact X]. apply copies_run; auto.
    - discriminate.
    - cbn. now apply quote_not_id.
    - right. right. right. split; auto. cbn. now rewrite cls_quote.
  Qed.

  Lemma look_none : forall w, ~ In w ps -> look ps w = None.
  Proof.
    intros w. unfold look. generalize 0. generalize ps. induction ps0 as [|p l IH]; intros n H; [reflexivity|].
    cbn [lookFrom]. rewrite IH by (intros I; apply H; now right).
    destruct (cstr_eqb p w) eqn:E; auto. apply cstr_eqb_eq in E. exfalso. apply H. now left.
  Qed.

  Lemma parts_run : forall w t cur, forallb isIdChar w = true -> partsFrom cur (w ++ t) = partsFrom (rev w ++ cur) t.
  Proof.
    induction w as [|c w IH]; intros t cur F; auto. cbn [forallb] in F. apply andb_true_iff in F. destruct F as [F1 F2].
    cbn [app partsFrom]. rewrite <- cls_word, F1. rewrite IH by auto. cbn [rev]. now rewrite <- app_assoc.
  Qed.

  Lemma num_cases : forall c, numC c = true -> wordC c = true \/
    (wordC c = false /\ quoteC c = false /\ c <> chB /\ c <> chA /\ c <> chH).
  Proof. intros c. allchars c; vm_compute; intros H; try discriminate; auto; right; repeat split; discriminate. Qed.

  Lemma copies_num : forall n t r, List.length t <= n -> forallb numC t = true -> hdIs isIdChar r = false ->
    (forall w, In w (partsFrom [] t) -> w <> [] -> ~ In w ps) -> copies t r None None.
  Proof.
    induction n as [|n IH]; intros t r L F R H.
    - destruct t; [apply copies_nil|cbn in L; lia].
    - destruct t as [|c t]; [apply copies_nil|]. cbn [forallb] in F. apply andb_true_iff in F. destruct F as [F1 F2].
      destruct (num_cases c F1) as [W|[W [Q [B [A HH]]]]].
      + destruct (tw_split isIdChar (c :: t)) as [S [FW BD]].
        set (w := take_while isIdChar (c :: t)) in *. set (t' := skip_while isIdChar (c :: t)) in *.
        assert (WN : w <> []). { subst w. cbn. rewrite cls_word, W. discriminate. }
        clearbody w t'.
        assert (PE : partsFrom [] (c :: t) = partsFrom (rev w) t').
        { rewrite S at 1. rewrite parts_run by auto. now rewrite app_nil_r. }
        assert (LT : List.length t' <= n).
        { assert (LL := f_equal (@List.length ascii) S). rewrite app_length in LL. cbn in LL, L. destruct w; [congruence|]. cbn in LL. lia. }
        assert (IN : In w (partsFrom (rev w) t')).
        { destruct t' as [|x t']; cbn [partsFrom].
          - rewrite rev_involutive. now left.
          - cbn in BD. rewrite cls_word in BD. rewrite BD. rewrite rev_involutive. now left. }
        rewrite S. eapply copies_app.
        * apply copies_run; auto.
          -- destruct t' as [|x t']; [exact R|exact BD].
          -- right. right. left. apply look_none. apply H; auto. now rewrite PE.
        * destruct t' as [|x t']; [apply copies_nil|].
          apply IH; auto.
          -- assert (G : forallb numC (w ++ x :: t') = true) by (rewrite <- S; cbn [forallb]; now rewrite F1, F2).
             rewrite forallb_app in G. apply andb_true_iff in G. apply G.
          -- intros u I NU. apply H; auto. rewrite PE. cbn [partsFrom] in I |- *. cbn in BD. rewrite cls_word in BD. rewrite BD in *.
             destruct I as [I|I]; [|now right]. 
             exfalso. apply NU. symmetry. exact I.
      + change (c :: t) with ([c] ++ t). eapply copies_app; [apply copies_char; auto|].
        apply IH; auto; [cbn in L; lia|]. intros u I NU. apply H; auto. cbn [partsFrom]. rewrite W. now right.
  Qed.

  (* ---- piece by piece ---- *)
  Definition bp (p : piece) : Prop :=
    isOpen (fst p) = false /\ fst p <> LBlkEnd /\ ~ In chA (snd p) /\ ~ In ch_nl (snd p) /\ snd p <> lit "##" /\
    (isNumber p = true -> forall w, In w (partsFrom [] (snd p)) -> ~ In w ps).

  Definition bound (st : lst) (rest : cstr) : Prop := forall c, hdc rest = Some c -> ext st c = None.

  Lemma bound_word : forall l rest, bound (LId l) rest -> hdIs isIdChar rest = false /\ (l = true -> hdIs isQuote rest = false).
  Proof.
    intros l [|c r] B; [auto|]. specialize (B c eq_refl). cbn [ext] in B. cbn. rewrite cls_word, cls_quote.
    destruct (wordC c); [discriminate|]. split; auto. intros ->. cbn [andb] in B. destruct (quoteC c); [discriminate|reflexivity].
  Qed.
  Lemma bound_num : forall e rest, bound (LNum e) rest -> hdIs isIdChar rest = false.
  Proof.
    intros e [|c r] B; [auto|]. specialize (B c eq_refl). cbn [ext] in B. cbn. rewrite cls_word.
    now destruct (wordC c).
  Qed.

  Lemma white_simple : forall c, white c = true -> quoteC c = false /\ c <> chB /\ c <> chA /\ c <> chH /\ wordC c = false.
  Proof.
    intros c W. destruct (excl c) as [A _]. destruct (A W) as [X1 [X2 [X3 [X4 [X5 X6]]]]]. repeat split; auto.
    now apply white_not_word.
  Qed.

  Lemma longOps_simple : forall s, In s longOps -> s <> lit "##" -> forall c, In c s ->
    quoteC c = false /\ c <> chB /\ c <> chA /\ c <> chH /\ wordC c = false.
  Proof.
    intros s I N c IC. cbn in I.
    repeat (destruct I as [I|I]; [subst s; cbn in IC; first [now exfalso; apply N |
      repeat (destruct IC as [IC|IC]; [subst c; repeat split; discriminate|]); contradiction]|]).
    contradiction.
  Qed.

  Lemma piece_copies : forall p rest, whole p -> bp p -> bound (fst p) rest -> isHash p = false ->
    (isWord p = true -> look ps (snd p) = None) -> copies (snd p) rest None None.
  Proof.
    intros p rest W [O [NC [NA [NN [NP NUM]]]]] B H LK. assert (S := whole_shape p W).
    assert (NE : snd p <> []) by apply (whole_pieces p W).
    destruct p as [st t]. unfold isHash, isWord, isNumber in *. cbn [fst snd] in *. destruct st; try discriminate.
    - apply copies_simple. intros c I. apply white_simple. simpl in S. rewrite forallb_forall in S. auto.
    - apply copies_run; auto.
      + simpl in S. destruct S as [S _]. destruct t as [|c w]; [contradiction|]. destruct S as [S1 S2].
        rewrite <- fb_word. cbn [forallb]. rewrite (letter_word c S1). exact S2.
      + apply (bound_word isL rest B).
    - apply (copies_num (List.length t)); auto. now apply (bound_num e).
    - simpl in S. destruct S as [q [pre [b [Q [P [-> L]]]]]]. now apply copies_lit.
    - simpl in S. destruct S as [-> [[c [-> [A [Wd Q]]]]|S]].
      + destruct (Ascii.eqb c chB) eqn:EB.
        * intros fuel cur refs ms F. destruct fuel as [|f]; [cbn in F; lia|]. exists f. split; [cbn in F; lia|].
          apply eqb_eq in EB. subst c. reflexivity.
        * apply copies_char; auto.
          -- intros ->. discriminate.
          -- left. intros ->. apply NA. now left.
          -- left. intros ->. discriminate H.
      + apply copies_simple. now apply longOps_simple.
    - congruence.
  Qed.

  Lemma no_hh : forall l x, chain l -> (forall p, In p l -> snd p <> lit "##") -> flat l = chH :: chH :: x -> False.
  Proof.
    intros [|q r] x C N F; [discriminate|]. destruct (chain_inv _ _ C) as [W [_ B]].
    change (flat (q :: r)) with (snd q ++ flat r) in F. unfold whole in W.
    destruct (snd q) as [|c w] eqn:T; [contradiction|]. cbn [app] in F. injection F as -> F.
    replace (start chH) with (LOp [chH]) in W by reflexivity.
    destruct w as [|d w].
    - cbn [runS] in W. inversion W as [E]. cbn [app] in F. rewrite <- E in B.
      specialize (B chH). rewrite F in B. specialize (B eq_refl). discriminate.
    - cbn [app] in F. injection F as -> F. cbn [runS] in W.
      replace (ext (LOp [chH]) chH) with (Some (LOp (lit "##"))) in W by reflexivity.
      destruct w as [|e w].
      + apply (N q (or_introl eq_refl)). exact T.
      + cbn [runS] in W. replace (ext (LOp (lit "##")) e) with (@None lst) in W by (allchars e; reflexivity). discriminate.
  Qed.

  Lemma hor_of_white : forall c, white c = true -> c <> ch_nl -> isHor c = true.
  Proof. intros c. allchars c; vm_compute; auto; intros H N; try discriminate; exfalso; now apply N. Qed.
  Lemma hor_white : forall c, isHor c = true -> white c = true.
  Proof. intros c. allchars c; vm_compute; auto. Qed.

  Lemma first_not_white : forall p c w, whole p -> fst p <> LWhite -> snd p = c :: w -> isHor c = false.
  Proof.
    intros p c w W N T. destruct (isHor c) eqn:H; auto. exfalso. apply hor_white in H. apply N.
    unfold whole in W. rewrite T in W. rewrite start_white in W by auto.
    assert (G : forall s st, runS LWhite s = Some st -> st = LWhite).
    { induction s as [|x s IH]; intros st E; cbn [runS ext] in E; [now inversion E|]. destruct (white x); [auto|discriminate]. }
    eapply G; eauto.
  Qed.

  Lemma skip_white : forall p r, whole p -> bp p -> fst p = LWhite -> chain (p :: r) ->
    (forall q, In q r -> bp q) ->
    skip_while isHor (snd p ++ flat r) = flat r.
  Proof.
    intros p r W [_ [_ [_ [NN _]]]] E C BR. assert (S := whole_shape p W). rewrite E in S. simpl in S.
    apply tw_app.
    - rewrite forallb_forall in S |- *. intros c I. apply hor_of_white; auto. intros ->. contradiction.
    - destruct (chain_inv _ _ C) as [_ [_ B]]. destruct (flat r) as [|c x] eqn:F; auto. cbn.
      specialize (B c eq_refl). rewrite E in B. cbn [ext] in B. destruct (isHor c) eqn:H; auto.
      apply hor_white in H. rewrite H in B. discriminate.
  Qed.
  Lemma skip_notwhite : forall p r, whole p -> fst p <> LWhite -> skip_while isHor (snd p ++ r) = snd p ++ r.
  Proof.
    intros p r W N. destruct (snd p) as [|c w] eqn:T; [unfold whole in W; rewrite T in W; contradiction|].
    cbn [app skip_while]. now rewrite (first_not_white p c w).
  Qed.

  Lemma no_after : forall l, chain l -> (forall p, In p l -> bp p) ->
    match skip_while isHor (flat l) with a :: b :: _ => Ascii.eqb a chH && Ascii.eqb b chH | _ => false end = false.
  Proof.
    intros l C B.
    assert (X : exists l', skip_while isHor (flat l) = flat l' /\ chain l' /\ (forall p, In p l' -> bp p)).
    { destruct l as [|p r]; [exists []; split; [reflexivity|split; [constructor|intros p []]]|].
      destruct (chain_inv _ _ C) as [W [C' _]].
      destruct (isWhite p) eqn:E.
      - exists r. split; [|split; auto; intros q I; apply B; now right].
        apply skip_white; auto.
        + apply B. now left. + unfold isWhite in E. destruct (fst p); congruence.
        + intros q I. apply B. now right.
      - exists (p :: r). split; auto. apply (skip_notwhite p (flat r)); auto. intros F. unfold isWhite in E. rewrite F in E. discriminate. }
    destruct X as [l' [-> [C' B']]]. destruct (flat l') as [|a [|b x]] eqn:F; auto.
    destruct (Ascii.eqb a chH) eqn:EA; auto. destruct (Ascii.eqb b chH) eqn:EB; auto. exfalso.
    apply eqb_eq in EA, EB. subst. eapply (no_hh l'); eauto. intros p I. apply (B' p I).
  Qed.

  Definition markEnd : cstr := [chA; ch_space].
  Fixpoint er (cur : cstr) (l : list piece) : list ref * cstr :=
    match l with
    | [] => ([], cur ++ markEnd)
    | p :: r =>
        if isHash p then
          match r with
          | q :: r' =>
              if isWhite q then
                match r' with
                | q' :: r'' =>
                    match look ps (snd q') with
                    | Some k => let x := er [] r'' in (mkRef cur k false false true :: fst x, snd x)
                    | None => ([], [])
                    end
                | [] => ([], [])
                end
              else match look ps (snd q) with
                   | Some k => let x := er [] r' in (mkRef cur k false false true :: fst x, snd x)
                   | None => ([], [])
                   end
          | [] => ([], [])
          end
        else if isWord p then
          match look ps (snd p) with
          | Some k => let x := er [] r in (mkRef cur k false false false :: fst x, snd x)
          | None => er (cur ++ snd p) r
          end
        else er (cur ++ snd p) r
    end.

  (* a parameter *)
  Lemma par_step : forall p r fuel cur refs ms st k, chain (p :: r) -> (forall q, In q (p :: r) -> bp q) ->
    isWord p = true -> look ps (snd p) = Some k -> List.length (snd p ++ flat r) < fuel ->
    exists fuel', List.length (flat r) < fuel' /\
      CA fuel (snd p ++ flat r) cur refs None false st ms =
      CA fuel' (flat r) [] (mkRef (rev cur) k false false st :: refs) None false false ms.
  Proof.
    intros p r fuel cur refs ms st k C B IW LK L. destruct (chain_inv _ _ C) as [W [C' BD]].
    assert (S := whole_shape p W). unfold isWord in IW. destruct (fst p) eqn:FP; try discriminate.
    simpl in S. destruct S as [S LL]. destruct (snd p) as [|c w] eqn:T; [contradiction|]. destruct S as [S1 S2].
    destruct fuel as [|f]; [cbn in L; lia|]. exists f. split; [cbn in L; rewrite app_length in L; lia|].
    destruct (bound_word isL (flat r) BD) as [B1 B2].
    assert (FW : forallb isIdChar (c :: w) = true).
    { rewrite <- fb_word. cbn [forallb]. now rewrite (letter_word c S1). }
    destruct (tw_app isIdChar (c :: w) (flat r) FW B1) as [T1 T2]. cbn [app] in T1, T2.
    assert (Wc := letter_word c S1). destruct (word_not_special c Wc) as [Q [NA [NB [NH _]]]].
    unfold CA. cbn [app collectAux]. rewrite T1, T2.
    rewrite cls_quote, Q, (neq_eqb _ _ NB), (neq_eqb _ _ NA), (neq_eqb _ _ NH), cls_word, Wc.
    replace (match ps with [] => false | _ :: _ => true end) with true by (destruct ps; congruence).
    cbn [andb]. rewrite cls_start, S1.
    replace (Nat.eqb (List.length (c :: w)) 1 && Ascii.eqb c chL && hdIs isQuote (flat r)) with false.
    2:{ symmetry. destruct w as [|d w]; [|reflexivity]. destruct (Ascii.eqb c chL) eqn:E; [|reflexivity].
        apply eqb_eq in E. subst c. rewrite (B2 (proj2 LL eq_refl)). reflexivity. }
    cbn [negb andb]. rewrite LK. rewrite no_after; auto. intros q I. apply B. now right.
  Qed.

  Lemma look_in : forall w, memS ps w = true -> exists k, look ps w = Some k.
  Proof.
    intros w. unfold look, memS. generalize 0. generalize ps. induction ps0 as [|p l IH]; intros n H; [discriminate|].
    cbn [existsb] in H. cbn [lookFrom]. destruct (lookFrom (S n) l w) as [k|] eqn:E; [eauto|].
    destruct (cstr_eqb w p) eqn:EQ.
    - apply cstr_eqb_eq in EQ. subst. rewrite cstr_eqb_refl. eauto.
    - destruct (IH (S n) H) as [k X]. congruence.
  Qed.

  Lemma collect_er : forall n l, List.length l <= n -> chain l -> (forall p, In p l -> bp p) ->
    hashesOk (memS ps) l = true -> forall fuel cur refs ms, List.length (flat l) < fuel ->
    CA fuel (flat l) cur refs None false false ms =
    Some (mkDefn (rev refs ++ fst (er (rev cur) l)) (snd (er (rev cur) l)) (rev ms)).
  Proof.
    induction n as [|n IH]; intros l LN C B HO fuel cur refs ms L.
    - destruct l; [|cbn in LN; lia]. destruct fuel; [cbn in L; lia|]. unfold CA. cbn. rewrite app_nil_r.
      unfold markEnd. rewrite <- app_assoc. reflexivity.
    - destruct l as [|p r].
      { destruct fuel; [cbn in L; lia|]. unfold CA. cbn. rewrite app_nil_r. unfold markEnd. rewrite <- app_assoc. reflexivity. }
      destruct (chain_inv _ _ C) as [W [C' BD]].
      change (flat (p :: r)) with (snd p ++ flat r) in *.
      assert (BR : forall q, In q r -> bp q) by (intros q I; apply B; now right).
      cbn [hashesOk] in HO. apply andb_true_iff in HO. destruct HO as [HO1 HO2].
      destruct (isHash p) eqn:EH.
      + (* # *)
        assert (TP : snd p = [chH]).
        { assert (S := whole_shape p W). unfold isHash in EH. destruct (fst p) eqn:FP; try discriminate. simpl in S. destruct S as [-> _].
          apply cstr_eqb_eq in EH. exact EH. }
        assert (FP : fst p = LOp [chH]).
        { unfold isHash in EH. destruct (fst p) eqn:FP; try discriminate. apply cstr_eqb_eq in EH. now rewrite EH. }
        destruct fuel as [|f]; [lia|].
        (* the step over # and white space *)
        assert (STEP : forall q r2, chain (q :: r2) -> isWord q = true -> flat r <> [] ->
          skip_while isHor (flat r) = snd q ++ flat r2 ->
          CA (S f) (chH :: flat r) cur refs None false false ms = CA f (snd q ++ flat r2) cur refs None false true ms).
        { intros q r2 C2 IWq NE SK. destruct (flat r) as [|d fr] eqn:FR; [congruence|].
          assert (ND : Ascii.eqb d chH = false).
          { apply neq_eqb. intros ->. specialize (BD chH eq_refl). rewrite FP in BD. discriminate. }
          unfold CA. cbn [collectAux]. replace (isQuote chH) with false by reflexivity.
          replace (Ascii.eqb chH chB) with false by reflexivity. replace (Ascii.eqb chH chA) with false by reflexivity.
          replace (Ascii.eqb chH chH) with true by reflexivity. cbn [andb]. rewrite ND, SK.
          destruct (chain_inv _ _ C2) as [Wq [_ Bq]]. assert (S := whole_shape q Wq). unfold isWord in IWq.
          destruct (fst q) eqn:FQ; try discriminate. simpl in S. destruct S as [S LL].
          destruct (snd q) as [|e w] eqn:T; [contradiction|]. destruct S as [S1 S2].
          cbn [app]. rewrite cls_start, S1.
          replace (Ascii.eqb e chL && hdIs isQuote (w ++ flat r2)) with false; [reflexivity|].
          symmetry. destruct (Ascii.eqb e chL) eqn:EL; [|reflexivity]. apply eqb_eq in EL. subst e.
          destruct (bound_word isL (flat r2) Bq) as [_ B2]. destruct w as [|x w].
          - cbn [app andb]. apply B2. now apply LL.
          - cbn. cbn [forallb] in S2. apply andb_true_iff in S2. destruct S2 as [S2 _].
            rewrite cls_quote. apply (word_not_special x S2). }
        rewrite TP in *. cbn [app] in L |- *.
        destruct r as [|q r2]; [discriminate|].
        destruct (chain_inv _ _ C') as [Wq [C2 Bq]].
        cbn [er]. rewrite EH. destruct (isWhite q) eqn:EW.
        * destruct r2 as [|q' r3]; [discriminate|]. apply andb_true_iff in HO1. destruct HO1 as [IWq IM].
          destruct (look_in _ IM) as [k LK]. rewrite LK.
          assert (FQ : fst q = LWhite) by (unfold isWhite in EW; destruct (fst q); congruence).
          rewrite (STEP q' r3); auto.
          -- destruct (par_step q' r3 f cur refs ms true k C2) as [f' [L' E']]; auto.
             { intros x I. apply BR. right. exact I. }
             { change (S (List.length (snd q ++ snd q' ++ flat r3)) < S f) in L. rewrite app_length in L. lia. }
             unfold CA in *. rewrite E'. destruct (chain_inv _ _ C2) as [_ [C3 _]].
             cbn [hashesOk] in HO2. apply andb_true_iff in HO2. destruct HO2 as [_ HO2].
             apply andb_true_iff in HO2. destruct HO2 as [_ HO2].
             rewrite (IH r3); auto.
             ++ cbn [rev fst snd]. rewrite <- app_assoc. reflexivity.
             ++ cbn in LN. lia.
             ++ intros x I. apply BR. right. now right.
          -- change (flat (q :: q' :: r3)) with (snd q ++ flat (q' :: r3)).
             destruct (whole_pieces q Wq) as [_ [_ NEq]]. destruct (snd q); [congruence|discriminate].
          -- change (flat (q :: q' :: r3)) with (snd q ++ flat (q' :: r3)). rewrite skip_white; auto.
             ++ apply BR. now left. ++ intros x I. apply BR. now right.
        * apply andb_true_iff in HO1. destruct HO1 as [IWq IM].
          destruct (look_in _ IM) as [k LK]. rewrite LK.
          rewrite (STEP q r2); auto.
          -- destruct (par_step q r2 f cur refs ms true k C') as [f' [L' E']]; auto.
             { change (S (List.length (snd q ++ flat r2)) < S f) in L. lia. }
             unfold CA in *. rewrite E'.
             cbn [hashesOk] in HO2. apply andb_true_iff in HO2. destruct HO2 as [_ HO2].
             rewrite (IH r2); auto.
             ++ cbn [rev fst snd]. rewrite <- app_assoc. reflexivity.
             ++ cbn in LN. lia.
             ++ intros x I. apply BR. now right.
          -- change (flat (q :: r2)) with (snd q ++ flat r2).
             destruct (whole_pieces q Wq) as [_ [_ NEq]]. destruct (snd q); [congruence|discriminate].
          -- change (flat (q :: r2)) with (snd q ++ flat r2). apply skip_notwhite; auto.
             intros F. unfold isWhite in EW. rewrite F in EW. discriminate.
      + cbn [er]. rewrite EH.
        assert (COPY : (isWord p = true -> look ps (snd p) = None) ->
          CA fuel (snd p ++ flat r) cur refs None false false ms =
          Some (mkDefn (rev refs ++ fst (er (rev cur ++ snd p) r)) (snd (er (rev cur ++ snd p) r)) (rev ms))).
        { intros LK. assert (BP := B p (or_introl eq_refl)).
          destruct (piece_copies p (flat r) W BP BD EH LK fuel cur refs ms L) as [f' [L' E']].
          rewrite E'. rewrite (IH r); auto; [|cbn in LN; lia].
          rewrite rev_app_distr, rev_involutive. reflexivity. }
        destruct (isWord p) eqn:EW.
        * destruct (look ps (snd p)) as [k|] eqn:LK.
          -- destruct (par_step p r fuel cur refs ms false k C B EW LK L) as [f' [L' E']].
             rewrite E'. rewrite (IH r); auto; [|cbn in LN; lia].
             cbn [rev fst snd]. rewrite <- app_assoc. reflexivity.
          -- now apply COPY.
        * now apply COPY.
  Qed.
End Collect.
