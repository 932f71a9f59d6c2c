(* Tokens read one by one, and the rescanning of object-like macros. *)
From Verif Require Import Cbase Cbase_facts Macro_model Macro_spec Macro_proofs Macro_lex Macro_str Macro_sub Macro_build.
Import ListNotations.
Open Scope nat_scope.
Open Scope list_scope.

Lemma strRest_ok : forall b q e rest, inLit q e b = Some false -> strRest q e (b ++ q :: rest) = Some (b ++ [q], rest).
Proof.
  induction b as [|c b IH]; intros q e rest H; cbn [inLit] in H.
  - inversion H; subst. cbn [app strRest]. now rewrite (proj2 (eqb_eq q q) eq_refl).
  - cbn [app strRest]. destruct e.
    + rewrite (IH q false rest H). reflexivity.
    + destruct (Ascii.eqb c q); [discriminate|]. now rewrite (IH q _ rest H).
Qed.

Lemma numRest_ok : forall w c2 e st rest, runS (LNum e) w = Some st -> e = existsb (Ascii.eqb c2) (lit "eEpP") ->
  bound st rest -> numRest c2 (w ++ rest) = (w, rest).
Proof.
  induction w as [|c w IH]; intros c2 e st rest R E B; cbn [runS] in R.
  - inversion R; subst. cbn [app]. destruct rest as [|d rest]; [reflexivity|]. specialize (B d eq_refl). cbn [ext] in B.
    cbn [numRest]. rewrite cls_word. destruct (wordC d || Ascii.eqb d "."); [discriminate|]. cbn [orb].
    destruct (existsb (Ascii.eqb c2) (lit "eEpP")); [|reflexivity]. cbn [andb] in *.
    unfold inSet in B. cbn in B. destruct (Ascii.eqb d "+"); [discriminate|]. now destruct (Ascii.eqb d "-").
  - cbn [app numRest]. rewrite cls_word. cbn [ext] in R. destruct (wordC c || Ascii.eqb c ".") eqn:X.
    + cbn [orb]. rewrite (IH c _ st rest R); auto.
    + cbn [orb]. destruct (e && inSet (lit "+-") c) eqn:Y; [|discriminate]. apply andb_true_iff in Y. destruct Y as [Y1 Y2].
      rewrite E in Y1. rewrite Y1. unfold inSet in Y2. cbn in Y2. rewrite orb_false_r in Y2.
      cbn [andb]. rewrite Y2. rewrite (IH c _ st rest R); auto.
      apply orb_true_iff in Y2. destruct Y2 as [Y2|Y2]; apply eqb_eq in Y2; subst c; reflexivity.
Qed.

Lemma run_num : forall w e st, runS (LNum e) w = Some st -> exists e', st = LNum e'.
Proof.
  induction w as [|c w IH]; intros e st R; cbn [runS] in R; [inversion R; eauto|].
  cbn [ext] in R. destruct (wordC c || Ascii.eqb c "."); [eauto|]. destruct (e && _); [eauto|discriminate].
Qed.

Ltac opcase d := repeat match goal with
  | |- context [Ascii.eqb d ?x] => let E := fresh in destruct (Ascii.eqb d x) eqn:E; [apply eqb_eq in E; subst d; try discriminate|]
  | |- context [Ascii.eqb ?x d] => let E := fresh in destruct (Ascii.eqb x d) eqn:E; [apply eqb_eq in E; subst d; try discriminate|]
  end.

Lemma opLen_one : forall c r, bound (LOp [c]) r -> opLen c r = 1.
Proof.
  intros c r B. unfold opLen.
  destruct (existsb (Ascii.eqb c) (lit "&+|")) eqn:E1.
  { apply existsb_exists in E1. destruct E1 as [x [I E]]. apply eqb_eq in E. subst x.
    destruct r as [|d r]; [reflexivity|]. specialize (B d eq_refl). cbn in I.
    destruct I as [<-|[<-|[<-|[]]]]; cbn [hdIs]; opcase d; reflexivity. }
  destruct (existsb (Ascii.eqb c) (lit "*!%=^/")) eqn:E2.
  { apply existsb_exists in E2. destruct E2 as [x [I E]]. apply eqb_eq in E. subst x.
    destruct r as [|d r]; [reflexivity|]. specialize (B d eq_refl). cbn in I.
    repeat (destruct I as [<-|I]; [cbn [hdIs]; opcase d; reflexivity|]). destruct I. }
  destruct (Ascii.eqb c chM) eqn:E3.
  { apply eqb_eq in E3. subst c. destruct r as [|d r]; [reflexivity|]. specialize (B d eq_refl). cbn [hdIs]; opcase d; reflexivity. }
  destruct (existsb (Ascii.eqb c) (lit "<>")) eqn:E4; [|reflexivity].
  apply existsb_exists in E4. destruct E4 as [x [I E]]. apply eqb_eq in E. subst x.
  destruct r as [|d r]; [reflexivity|]. specialize (B d eq_refl). cbn in I.
  destruct I as [<-|[<-|[]]]; cbn [hdIs]; opcase d; reflexivity.
Qed.

Lemma shift_tok : forall a d rest, a = "<"%char \/ a = ">"%char -> Ascii.eqb "="%char d = false ->
  getTok (a :: a :: d :: rest) = TTok KOther [a; a] (d :: rest).
Proof.
  intros a d rest H Y.
  assert (O : opLen a (a :: d :: rest) = if Ascii.eqb "="%char d then 3 else 2) by (destruct H; subst a; reflexivity).
  rewrite Y in O.
  assert (G : getTok (a :: a :: d :: rest) = TTok KOther (firstn (opLen a (a :: d :: rest)) (a :: a :: d :: rest))
                (skipn (opLen a (a :: d :: rest)) (a :: a :: d :: rest))) by (destruct H; subst a; reflexivity).
  rewrite G, O. reflexivity.
Qed.

(* the pieces that can be in a file or a definition of the theorem *)

Lemma getTok_piece : forall p rest, whole p -> sp p -> bound (fst p) rest -> blank p = false ->
  exists k, getTok (snd p ++ rest) = TTok k (snd p) rest /\ (k = KName <-> isWord p = true).
Proof.
  intros p rest W [O [NC [NA NH]]] B BL. assert (S := whole_shape p W). unfold whole in W.
  destruct p as [st t]. unfold blank, isWord in *. cbn [fst snd] in *.
  destruct st; try discriminate; simpl in S.
  - (* name *)
    destruct S as [S SL]. destruct t as [|c w]; [contradiction|]. destruct S as [S1 S2]. exists KName. split; [|split; auto].
    assert (WD := letter_word c S1). destruct (word_not_special c WD) as [Q _].
    destruct (bound_word isL rest B) as [B1 B2].
    assert (F : forallb isIdChar (c :: w) = true) by (cbn [forallb]; rewrite <- fb_word, cls_word, WD; exact S2).
    destruct (tw_app isIdChar (c :: w) rest F B1) as [T1 T2]. cbn [app] in *. unfold getTok. rewrite cls_quote, Q.
    assert (NL : Ascii.eqb c chL && hdIs isQuote (w ++ rest) = false).
    { destruct (Ascii.eqb c chL) eqn:EL; [|reflexivity]. apply eqb_eq in EL. subst c. cbn [andb].
      destruct w as [|d w]; [cbn [app]; apply B2; now apply SL|]. cbn [app hdIs]. cbn [forallb] in S2. apply andb_true_iff in S2.
      rewrite cls_quote. destruct S2 as [S2 _]. now destruct (word_not_special d S2). }
    rewrite NL, cls_start, S1. now rewrite T1, T2.
  - (* number *)
    exists KNum. split; [|split; discriminate]. destruct t as [|c w]; [contradiction|].
    unfold start in W. destruct (white c) eqn:EW.
    { exfalso. destruct w as [|d w]; [discriminate|]. cbn [runS ext] in W. destruct (white d) eqn:D.
      - assert (X : forall w, runS LWhite w = None \/ runS LWhite w = Some LWhite).
        { induction w0 as [|y w0 IH]; [now right|]. cbn [runS ext]. destruct (white y); auto. }
        destruct (X w); congruence.
      - discriminate. }
    destruct (letterC c) eqn:EL.
    { exfalso. assert (X : forall w l, runS (LId l) w = None \/ (exists l', runS (LId l) w = Some (LId l')) \/
                 exists q e w', runS (LId l) w = runS (LLit q e) w').
      { induction w0 as [|y w0 IH]; intros l; [right; left; cbn; eauto|]. cbn [runS ext]. destruct (wordC y); [apply IH|].
        destruct (l && quoteC y); [right; right; eauto|auto]. }
      assert (Y' : forall w q e0, runS (LLit q e0) w <> Some (LNum e)).
      { induction w0 as [|y w0 IH]; intros q e0; [discriminate|]. cbn [runS ext]. destruct e0; [apply IH|].
        destruct (Ascii.eqb y q); [|apply IH]. destruct w0; cbn; discriminate. }
      destruct (X w (Ascii.eqb c "L")) as [Z|[[l' Z]|[q [e0 [w' Z]]]]]; rewrite Z in W; try discriminate. now apply Y' in W. }
    destruct (digitC c) eqn:ED.
    + assert (Q : quoteC c = false) by (destruct (word_not_special c) as [Q _]; [unfold wordC; now rewrite EL, ED|exact Q]).
      cbn [app]. unfold getTok. rewrite cls_quote, Q, cls_start, EL.
      assert (NL : Ascii.eqb c chL = false) by (apply neq_eqb; intros ->; discriminate). rewrite NL. cbn [andb].
      rewrite cls_digit, ED. rewrite (numRest_ok w "."%char false _ rest W eq_refl B). reflexivity.
    + destruct (quoteC c) eqn:EQ.
      { exfalso. assert (Y' : forall w q e0, runS (LLit q e0) w <> Some (LNum e)).
        { induction w0 as [|y w0 IH]; intros q e0; [discriminate|]. cbn [runS ext]. destruct e0; [apply IH|].
          destruct (Ascii.eqb y q); [|apply IH]. destruct w0; cbn; discriminate. }
        now apply Y' in W. }
      assert (FW : forall w s, s <> [] -> runS (LOp s) w = Some (LNum e) -> 
                  exists w', s = lit "." /\ exists d, digitC d = true /\ w = d :: w' /\ runS (LNum false) w' = Some (LNum e)).
      { induction w0 as [|y w0 IH]; intros s NS R; [discriminate|]. cbn [runS ext] in R.
        destruct (cstr_eqb (s ++ [y]) (lit "/*")).
        { exfalso. assert (X : forall w b, runS (LBlk b) w <> Some (LNum e)).
          { induction w1 as [|z w1 IH1]; intros b; [discriminate|]. cbn [runS ext]. destruct (b && Ascii.eqb z "/"); [|apply IH1].
            destruct w1; discriminate. }
          now apply X in R. }
        destruct (cstr_eqb (s ++ [y]) (lit "//")).
        { exfalso. assert (X : forall w, runS LLine w <> Some (LNum e)).
          { induction w1 as [|z w1 IH1]; [discriminate|]. cbn [runS ext]. destruct (Ascii.eqb z "010"); [discriminate|apply IH1]. }
          now apply X in R. }
        destruct (cstr_eqb s (lit ".") && digitC y) eqn:DD.
        { apply andb_true_iff in DD. destruct DD as [D1 D2]. apply cstr_eqb_eq in D1. exists w0. split; auto. exists y. auto. }
        destruct (existsb (cstr_eqb (s ++ [y])) longOps); [|discriminate].
        destruct (IH (s ++ [y])) as [w' [E _]]; [now destruct s|exact R|].
        exfalso. destruct s as [|a [|b s]]; [congruence|discriminate|discriminate]. }
      cbn [app]. unfold getTok.
      destruct (FW w [c] ltac:(discriminate) W) as [w' [Ec [d [D [-> R]]]]]. inversion Ec; subst c.
      cbn [isQuote]. cbn [app hdIs]. rewrite cls_quote. replace (quoteC "."%char) with false by reflexivity.
      replace (Ascii.eqb "."%char chL) with false by reflexivity. cbn [andb].
      replace (isIdStart "."%char) with false by reflexivity. replace (is_digit "."%char) with false by reflexivity.
      rewrite (proj2 (eqb_eq "."%char "."%char) eq_refl). cbn [andb]. rewrite cls_digit, D.
      rewrite (numRest_ok w' "."%char false _ rest R eq_refl B). reflexivity.
  - (* literal *)
    destruct S as [q [pre [b [Q [P [-> L]]]]]]. exists KStr. split; [|split; discriminate].
    destruct P as [->| ->]; cbn [app].
    + unfold getTok. rewrite cls_quote, Q. rewrite <- app_assoc. cbn [app]. rewrite (strRest_ok b q false rest L). reflexivity.
    + unfold getTok. replace (isQuote chL) with false by reflexivity. cbn [hdIs]. rewrite cls_quote, Q.
      replace (Ascii.eqb chL chL) with true by reflexivity. cbn [andb]. rewrite <- app_assoc. cbn [app].
      rewrite (strRest_ok b q false rest L). reflexivity.
  - (* operator *)
    destruct S as [-> S]. destruct S as [[c [-> [A [Wd Q]]]]|S].
    + cbn [app]. unfold getTok. rewrite cls_quote, Q.
      assert (ES : letterC c = false /\ digitC c = false) by (unfold wordC in Wd; now apply orb_false_iff in Wd).
      destruct ES as [E1 E2].
      assert (NL : Ascii.eqb c chL = false) by (apply neq_eqb; intros ->; discriminate). rewrite NL. cbn [andb].
      rewrite cls_start, E1, cls_digit, E2.
      assert (ND : Ascii.eqb c "." && hdIs is_digit rest = false).
      { destruct (Ascii.eqb c ".") eqn:X; [|reflexivity]. apply eqb_eq in X. subst c. destruct rest as [|d rest]; [reflexivity|].
        specialize (B d eq_refl). cbn [hdIs andb]. rewrite cls_digit. destruct (digitC d) eqn:Y; [|reflexivity].
        exfalso. cbn [ext] in B. rewrite Y in B. cbn in B.
        destruct (Ascii.eqb d "*"); discriminate. }
      rewrite ND.
      assert (NHr : isHor c = false).
      { apply not_true_is_false. intros X. apply hor_white in X. congruence. }
      rewrite NHr. cbn [andb].
      destruct (Ascii.eqb c "(") eqn:P1; [exists KLparen; split; [reflexivity|split; discriminate]|].
      destruct (Ascii.eqb c ")") eqn:P2; [exists KRparen; split; [reflexivity|split; discriminate]|].
      destruct (Ascii.eqb c ",") eqn:P3; [exists KComma; split; [reflexivity|split; discriminate]|].
      assert (NS : Ascii.eqb c "/" && hdIs (fun d => Ascii.eqb d "/" || Ascii.eqb d "*") rest = false).
      { destruct (Ascii.eqb c "/") eqn:X; [|reflexivity]. apply eqb_eq in X. subst c. destruct rest as [|d rest]; [reflexivity|].
        specialize (B d eq_refl). cbn [hdIs andb]. 
        destruct (Ascii.eqb d "/") eqn:Y; [apply eqb_eq in Y; subst d; discriminate|].
        destruct (Ascii.eqb d "*") eqn:Z; [apply eqb_eq in Z; subst d; discriminate|]. reflexivity. }
      rewrite NS. rewrite (opLen_one c rest B). exists KOther. split; [reflexivity|split; discriminate].
    + exists KOther. split; [|split; discriminate]. cbn in S.
      repeat (destruct S as [<-|S]; [first
        [ exfalso; apply NH; now left
        | destruct rest as [|d rest]; [reflexivity|]; specialize (B d eq_refl); cbn [app lit list_ascii_of_string] in *;
          first [reflexivity
            | destruct (Ascii.eqb "="%char d) eqn:Y; [apply eqb_eq in Y; subst d; discriminate|]; apply shift_tok; auto]]|]).
      destruct S.
Qed.

Lemma white_cases : forall c, white c = true -> isHor c = true \/ c = ch_nl.
Proof.
  intros c H. destruct (Ascii.eqb c ch_nl) eqn:E; [right; now apply eqb_eq|left].
  apply hor_of_white; auto. intros ->. discriminate.
Qed.

Lemma getTok_white : forall c w rest, forallb white (c :: w) = true -> bound LWhite rest ->
  exists k t u, getTok ((c :: w) ++ rest) = TTok k t (u ++ rest) /\ k <> KName /\ c :: w = t ++ u /\ t <> [].
Proof.
  intros c w rest F B. cbn [forallb] in F. apply andb_true_iff in F. destruct F as [F1 F2].
  destruct (white_simple c F1) as [Q [_ [_ [_ WD]]]].
  assert (ES : letterC c = false /\ digitC c = false) by (unfold wordC in WD; now apply orb_false_iff in WD).
  destruct ES as [E1 E2]. cbn [app]. unfold getTok. rewrite cls_quote, Q.
  assert (NL : Ascii.eqb c chL = false) by (apply neq_eqb; intros ->; discriminate). rewrite NL. cbn [andb].
  rewrite cls_start, E1, cls_digit, E2.
  assert (ND : Ascii.eqb c "." = false) by (apply neq_eqb; intros ->; discriminate). rewrite ND. cbn [andb].
  destruct (isHor c && negb (code c =? 12)%Z) eqn:H.
  - assert (HR : hdIs isHor rest = false).
    { destruct rest as [|d rest]; [reflexivity|]. cbn. specialize (B d eq_refl). cbn [ext] in B.
      apply not_true_is_false. intros X. apply hor_white in X. rewrite X in B. discriminate. }
    destruct (tw_split isHor w) as [S [T1 T2]]. set (a := take_while isHor w) in *. set (b := skip_while isHor w) in *. clearbody a b.
    exists KSpace, (c :: a), b. subst w.
    assert (HB : hdIs isHor (b ++ rest) = false) by (destruct b; auto).
    rewrite <- app_assoc. destruct (tw_app isHor a (b ++ rest) T1 HB) as [-> ->]. repeat split; discriminate.
  - exists KOther, [c], w.
    assert (N : forall x, white x = false -> Ascii.eqb c x = false) by (intros x X; apply neq_eqb; congruence).
    rewrite !N by reflexivity. cbn [andb].
    assert (O : opLen c (w ++ rest) = 1).
    { unfold opLen. cbn [existsb lit list_ascii_of_string]. rewrite !N by reflexivity. reflexivity. }
    rewrite O. repeat split; discriminate.
Qed.

(* ---- scanning ---- *)
Lemma visible_app : forall a b, visible (a ++ b) = visible a ++ visible b.
Proof. intros. apply filter_app. Qed.

Definition tokOf (p : piece) : list (bool * cstr) := if blank p then [] else [(isWord p, snd p)].
Definition toksOf (l : list piece) : list (bool * cstr) := flat_map tokOf l.
Lemma toksOf_sp : forall s, spTok s = toksOf (pieces s).
Proof.
  intros s. unfold spTok, toksOf. induction (pieces s) as [|p l IH]; auto.
  cbn [filter flat_map]. unfold tokOf at 1. destruct (blank p); cbn [negb map app]; now rewrite IH.
Qed.

Lemma visible_piece : forall p, whole p -> sp p -> blank p = false -> visible [snd p] = [snd p].
Proof.
  intros p W [O [NC _]] BL. cbn [visible filter]. assert (X : forallb white (snd p) = false).
  { destruct (whole_pieces p W) as [_ [_ NE]]. unfold whole in W. destruct (snd p) as [|c w] eqn:T; [congruence|].
    cbn [forallb]. destruct (white c) eqn:WC; [|reflexivity]. exfalso.
    unfold start in W. rewrite WC in W. unfold blank in BL.
    assert (Y : forall w, runS LWhite w = None \/ runS LWhite w = Some LWhite).
    { induction w0 as [|y w0 IH]; [now right|]. cbn [runS ext]. destruct (white y); auto. }
    destruct (Y w) as [Z|Z]; rewrite Z in W; inversion W as [V]. rewrite <- V in BL. discriminate. }
  now rewrite X.
Qed.

Section Scan.
  Variable tb : table.
  Definition tbOk : Prop := forall n b, bodyOf tb n = Some b -> forall p, In p (pieces b) -> sp p.
  Hypothesis TB : tbOk.

  Definition bodyToks (n : cstr) : option (list (bool * cstr)) := option_map spTok (bodyOf tb n).
  Definition count (hid : list cstr) : nat := List.length (filter (fun e => negb (memS hid (fst e))) tb).

  Lemma memS_cons : forall n hid m, memS (n :: hid) m = cstr_eqb m n || memS hid m.
  Proof. reflexivity. Qed.

  Lemma count_less : forall n b hid, bodyOf tb n = Some b -> memS hid n = false -> count (n :: hid) < count hid.
  Proof.
    intros n b hid H M. unfold count. clear TB. induction tb as [|[m c] r IH]; [discriminate|].
    cbn [bodyOf] in H. cbn [filter fst]. rewrite memS_cons.
    assert (LE : forall l : table, List.length (filter (fun e => negb (memS (n :: hid) (fst e))) l)
                 <= List.length (filter (fun e => negb (memS hid (fst e))) l)).
    { induction l as [|e l IHl]; auto. cbn [filter]. rewrite memS_cons. destruct (memS hid (fst e)).
      - rewrite orb_true_r. cbn [negb]. exact IHl.
      - rewrite orb_false_r. destruct (cstr_eqb (fst e) n); cbn [negb List.length]; lia. }
    destruct (cstr_eqb m n) eqn:E.
    - apply cstr_eqb_eq in E. subst m. rewrite M. cbn [orb negb List.length]. specialize (LE r). lia.
    - destruct (memS hid m); cbn [orb negb List.length]; [apply IH; auto|]. specialize (IH H). lia.
  Qed.

  Definition mset (hid : list cstr) (st : list frame) : Prop := forall n, disabled st n = memS hid n.

  Definition goes (s s' : scan) : Prop := exists k, forall f, scanRun (k + f) tb s = scanRun f tb s'.
  Lemma goes_refl : forall s, goes s s. Proof. intros s. exists 0. reflexivity. Qed.
  Lemma goes_step : forall s s1 s2, scanStep tb s = SGo s1 -> goes s1 s2 -> goes s s2.
  Proof. intros s s1 s2 E [k G]. exists (S k). intros f. cbn [scanRun plus]. rewrite E. apply G. Qed.
  Lemma goes_trans : forall a b c, goes a b -> goes b c -> goes a c.
  Proof. intros a b c [k G] [j H]. exists (k + j). intros f. rewrite <- Nat.add_assoc, G. apply H. Qed.

  (* the step at a token *)
  Lemma step_tok : forall m txt below out k t r, (m = None \/ hdc txt <> Some chA) -> getTok txt = TTok k t r ->
    scanStep tb (mkScan (mkFrame m txt :: below) out) =
      match k with
      | KName => match bodyOf tb t with
                 | Some b => if disabled (mkFrame m txt :: below) t
                             then SGo (mkScan (mkFrame m r :: below) (t :: out))
                             else SGo (mkScan (mkFrame (Some t) (tailTrim (headTrim (objText b)) (hdc r)) :: mkFrame m r :: below) out)
                 | None => SGo (mkScan (mkFrame m r :: below) (t :: out))
                 end
      | _ => SGo (mkScan (mkFrame m r :: below) (t :: out))
      end.
  Proof.
    intros m txt below out k t r H G. destruct txt as [|c s]; [discriminate|].
    unfold scanStep. cbn [s_stack s_out]. destruct m as [n|].
    - destruct H as [H|H]; [discriminate|]. rewrite neq_eqb by (intros ->; now apply H). rewrite G.
      destruct k; try reflexivity.
    - rewrite G. destruct k; reflexivity.
  Qed.

  Lemma mset_text : forall hid m t1 t2 below, mset hid (mkFrame m t1 :: below) -> mset hid (mkFrame m t2 :: below).
  Proof. intros hid m t1 t2 below H n. rewrite <- (H n). reflexivity. Qed.

  Definition tailOk (m : option cstr) (rest : cstr) : Prop := rest = [] \/ (rest = markEnd /\ m <> None).

  Lemma closed_at : forall p, whole p -> isOpen (fst p) = false -> ext (fst p) chA = None.
  Proof.
    intros p W O. assert (S := whole_shape p W). destruct p as [st t]. cbn [fst snd] in *. destruct st; try discriminate; auto.
    - destruct isL; reflexivity.
    - destruct e; reflexivity.
    - simpl in S. destruct S as [-> [[c [-> [A [Wd Q]]]]|S]].
      + cbn [ext app]. destruct c as [[] [] [] [] [] [] [] []]; reflexivity.
      + cbn in S. repeat (destruct S as [<-|S]; [reflexivity|]). destruct S.
  Qed.

  Lemma bound_next : forall p r rest m, chain (p :: r) -> isOpen (fst p) = false -> tailOk m rest -> bound (fst p) (flat r ++ rest).
  Proof.
    intros p r rest m C O T c H. destruct (chain_inv _ _ C) as [W [_ B]].
    destruct (flat r) as [|d w] eqn:F.
    - destruct T as [->|[-> _]]; [discriminate|]. cbn in H. inversion H; subst c. now apply closed_at.
    - cbn in H. inversion H; subst c. now apply B.
  Qed.

  Lemma first_notat : forall p, whole p -> sp p -> forall rest, hdc (snd p ++ rest) <> Some chA.
  Proof.
    intros p W [_ [_ [NA _]]] rest. destruct (whole_pieces p W) as [_ [_ NE]]. destruct (snd p) as [|c w]; [congruence|].
    cbn. intros E. inversion E; subst. apply NA. now left.
  Qed.

  Lemma chain_white : forall u r p, chain (p :: r) -> fst p = LWhite -> u <> [] -> forallb white u = true -> chain ((LWhite, u) :: r).
  Proof.
    intros u r p C E NE F.
    assert (W : whole (LWhite, u)).
    { unfold whole. cbn [fst snd]. destruct u as [|c u]; [congruence|]. cbn [forallb] in F. apply andb_true_iff in F. destruct F as [F1 F2].
      rewrite (start_white c F1). clear NE F1. induction u as [|d u IH]; [reflexivity|]. cbn [forallb] in F2. apply andb_true_iff in F2.
      destruct F2 as [F1 F2]. cbn [runS ext]. rewrite F1. auto. }
    inversion C; subst; constructor; auto. rewrite E in H2. exact H2.
  Qed.

  Lemma visible_nil : forall t, forallb white t = true -> visible [t] = [].
  Proof. intros t H. cbn [visible filter]. rewrite H. reflexivity. Qed.

  (* the pushed text: markers around the body *)
  Lemma pushed : forall n b x, bodyOf tb n = Some b -> exists pre rest,
    tailTrim (headTrim (objText b)) x = pre ++ b ++ rest /\ (pre = [] \/ pre = [chA; ch_space]) /\ (rest = [] \/ rest = markEnd).
  Proof.
    intros n b x H.
    assert (SPb := TB n b H).
    assert (NA : ~ In chA b).
    { intros I. destruct (chain_pieces b) as [_ F]. rewrite <- F in I. unfold flat in I. apply in_concat in I.
      destruct I as [t [I1 I2]]. apply in_map_iff in I1. destruct I1 as [p [<- I1]].
      destruct (SPb p I1) as [_ [_ [X _]]]. exact (X I2). }
    assert (NHb : ~ In chH b).
    { intros I. destruct (chain_pieces b) as [_ F]. rewrite <- F in I. unfold flat in I. apply in_concat in I.
      destruct I as [t [I1 I2]]. apply in_map_iff in I1. destruct I1 as [p [<- I1]].
      destruct (SPb p I1) as [_ [_ [_ X]]]. exact (X I2). }
    assert (NH : noHH b = true).
    { clear - NHb. induction b as [|a b IH]; auto. cbn [noHH]. destruct b as [|c b]; auto.
      rewrite IH by (intros X; apply NHb; now right). rewrite neq_eqb by (intros ->; apply NHb; now left). reflexivity. }
    assert (CL : forall p, In p (pieces b) -> isOpen (fst p) = false /\ fst p <> LBlkEnd) by (intros p I; split; apply (SPb p I)).
    assert (E : objText b = [chA; ch_space] ++ b ++ markEnd).
    { unfold objText.
      assert (E1 := collect_plain (List.length b) None [] b [ch_space; chA] None (S (List.length b)) (le_n _) (Nat.lt_succ_diag_r _) I NA NH).
      destruct (chain_pieces b) as [CP FP]. assert (DL := dlRun_chain (pieces b) CP CL). rewrite FP in DL. rewrite DL in E1. cbn [endMark] in E1.
      assert (EC : collect None b [] = Some (mkDefn [] ([chA; ch_space] ++ b ++ markEnd) [])).
      { unfold collect. destruct b as [|a [|c r]]; auto.
        cbn [noHH] in NH. apply andb_true_iff in NH. destruct NH as [NH _]. apply negb_true_iff in NH. change "#"%char with chH in NH. now rewrite NH. }
      rewrite EC. reflexivity. }
    assert (HT : headTrim (objText b) = objText b \/ headTrim (objText b) = b ++ markEnd).
    { rewrite E. destruct b as [|c b']; [now left|]. unfold headTrim. cbn [app].
      match goal with |- context [if ?x then _ else _] => destruct x end; auto. }
    assert (TT : forall y, tailTrim (y ++ markEnd) x = y ++ markEnd \/ tailTrim (y ++ markEnd) x = y).
    { intros y. unfold tailTrim. rewrite rev_app_distr. cbn [rev app markEnd]. destruct (rev y) as [|c1 r] eqn:R; auto.
      match goal with |- context [if ?x then _ else _] => destruct x end; auto. right.
      apply (f_equal (@rev ascii)) in R. rewrite rev_involutive in R. symmetry. exact R. }
    destruct HT as [HT|HT]; rewrite HT.
    - rewrite E, app_assoc. destruct (TT ([chA; ch_space] ++ b)) as [Z|Z]; rewrite Z.
      + exists [chA; ch_space], markEnd. rewrite <- app_assoc. auto.
      + exists [chA; ch_space], []. rewrite app_nil_r. auto.
    - destruct (TT b) as [Z|Z]; rewrite Z.
      + exists [], markEnd. auto.
      + exists [], []. rewrite app_nil_r. auto.
  Qed.

  Lemma nest_cons : forall d hid x l, nest bodyToks (S d) hid (x :: l) = nest bodyToks (S d) hid [x] ++ nest bodyToks (S d) hid l.
  Proof. intros. cbn [nest flat_map]. now rewrite app_nil_r. Qed.

  Lemma read_ok : forall d n l, List.length (flat l) <= n -> forall hid m rest below out, chain l -> (forall p, In p l -> sp p) ->
    tailOk m rest -> mset hid (mkFrame m [] :: below) -> count hid <= d ->
    exists outs, goes (mkScan (mkFrame m (flat l ++ rest) :: below) out) (mkScan (mkFrame m rest :: below) (rev outs ++ out)) /\
      visible outs = nest bodyToks (S d) hid (toksOf l).
  Proof.
    induction d as [d IHd] using (well_founded_induction lt_wf). induction n as [|n IHn]; intros l LN hid m rest below out C SP T MS CT.
    - assert (l = []).
      { destruct l as [|p r]; auto. exfalso. destruct (chain_inv _ _ C) as [W _]. destruct (whole_pieces p W) as [_ [_ NE]].
        unfold flat in LN. cbn [map List.concat] in LN. rewrite app_length in LN. destruct (snd p); [congruence|]. cbn in LN. lia. }
      subst l. exists []. split; [apply goes_refl|reflexivity].
    - destruct l as [|p r]; [exists []; split; [apply goes_refl|reflexivity]|].
      destruct (chain_inv _ _ C) as [W [C' BD]]. destruct (whole_pieces p W) as [_ [_ NE]].
      assert (SPp := SP p (or_introl eq_refl)). assert (SPr : forall q, In q r -> sp q) by (intros q I; apply SP; now right).
      assert (BN : bound (fst p) (flat r ++ rest)) by (eapply bound_next; eauto; apply SPp).
      assert (LF : List.length (flat (p :: r)) = List.length (snd p) + List.length (flat r)).
      { unfold flat. cbn [map List.concat]. apply app_length. }
      assert (LP : 1 <= List.length (snd p)) by (destruct (snd p); [congruence|cbn; lia]).
      assert (HN : m = None \/ hdc (snd p ++ flat r ++ rest) <> Some chA) by (right; exact (first_notat p W SPp _)).
      change (flat (p :: r)) with (snd p ++ flat r). rewrite <- app_assoc.
      destruct (blank p) eqn:BL.
      + (* white space *)
        assert (FW : fst p = LWhite).
        { unfold blank in BL. destruct (fst p) eqn:E; try discriminate; auto.
          - destruct SPp as [_ [X _]]. congruence.
          - destruct SPp as [X _]. rewrite E in X. discriminate. }
        assert (SH := whole_shape p W). rewrite FW in SH. simpl in SH.
        destruct (snd p) as [|c w] eqn:TP; [congruence|]. rewrite FW in BN.
        destruct (getTok_white c w (flat r ++ rest) SH BN) as [k [t [u [G [K [S NT]]]]]].
        rewrite S in SH. rewrite forallb_app in SH. apply andb_true_iff in SH. destruct SH as [S1 S2].
        assert (NX : exists l', flat l' = u ++ flat r /\ chain l' /\ (forall q, In q l' -> sp q) /\ toksOf l' = toksOf r).
        { destruct u as [|y u]; [exists r; auto|]. exists ((LWhite, y :: u) :: r). split; [reflexivity|].
          split; [eapply chain_white; eauto; discriminate|]. split; [|reflexivity].
          intros q [<-|I]; [|auto]. destruct SPp as [X1 [X2 [X3 X4]]]. rewrite TP in X3, X4. rewrite S in X3, X4.
          split; [reflexivity|]. split; [discriminate|]. cbn [snd]. split; intros I; [apply X3|apply X4]; apply in_or_app; now right. }
        destruct NX as [l' [F' [C2 [SP2 T2]]]].
        assert (LT : List.length (flat l') <= n).
        { rewrite F', app_length. assert (X := f_equal (@List.length ascii) S). rewrite app_length in X.
          assert (1 <= List.length t) by (destruct t; [congruence|cbn; lia]). lia. }
        destruct (IHn l' LT hid m rest below (t :: out) C2 SP2 T MS CT) as [outs [GO VI]].
        exists (t :: outs). split.
        * eapply goes_step.
          -- rewrite (step_tok m _ below out k t (u ++ flat r ++ rest) HN G).
             destruct k; try congruence; reflexivity.
          -- rewrite F', <- app_assoc in GO. cbn [rev]. rewrite <- app_assoc. exact GO.
        * assert (VC : visible (t :: outs) = visible outs) by (cbn [visible filter]; rewrite S1; reflexivity). rewrite VC, VI, T2.
          unfold toksOf at 2. cbn [flat_map]. unfold tokOf at 1. rewrite BL. reflexivity.
      + (* a token *)
        destruct (getTok_piece p (flat r ++ rest) W SPp BN BL) as [k [G K]].
        assert (VP := visible_piece p W SPp BL).
        assert (TO : toksOf (p :: r) = (isWord p, snd p) :: toksOf r) by (unfold toksOf; cbn [flat_map]; unfold tokOf at 1; rewrite BL; reflexivity).
        assert (COPY : scanStep tb (mkScan (mkFrame m (snd p ++ flat r ++ rest) :: below) out)
                         = SGo (mkScan (mkFrame m (flat r ++ rest) :: below) (snd p :: out)) ->
          nest bodyToks (S d) hid [(isWord p, snd p)] = [snd p] ->
          exists outs, goes (mkScan (mkFrame m (snd p ++ flat r ++ rest) :: below) out) (mkScan (mkFrame m rest :: below) (rev outs ++ out)) /\
            visible outs = nest bodyToks (S d) hid (toksOf (p :: r))).
        { intros ST NS. destruct (IHn r ltac:(lia) hid m rest below (snd p :: out) C' SPr T MS CT) as [outs [GO VI]].
          exists (snd p :: outs). split.
          - eapply goes_step; [exact ST|]. cbn [rev]. rewrite <- app_assoc. exact GO.
          - rewrite TO. transitivity (nest bodyToks (S d) hid [(isWord p, snd p)] ++ nest bodyToks (S d) hid (toksOf r)); [|symmetry; apply nest_cons].
            transitivity ([snd p] ++ visible outs).
            + transitivity (visible [snd p] ++ visible outs); [exact (visible_app [snd p] outs)|f_equal; exact VP].
            + f_equal; [symmetry; exact NS|exact VI]. }
        assert (ST := step_tok m _ below out k (snd p) (flat r ++ rest) HN G).
        destruct (isWord p) eqn:EW.
        * assert (k = KName) by now apply K. subst k. destruct (bodyOf tb (snd p)) as [b|] eqn:EB.
          -- assert (DIS : disabled (mkFrame m (snd p ++ flat r ++ rest) :: below) (snd p) = memS hid (snd p)).
             { apply (mset_text hid m [] _ below MS). }
             rewrite DIS in ST. destruct (memS hid (snd p)) eqn:ME.
             ++ apply COPY; auto. cbn [nest flat_map app]. unfold bodyToks. rewrite EB. cbn [option_map]. rewrite ME. reflexivity.
             ++ clear COPY. assert (CL := count_less (snd p) b hid EB ME).
                destruct d as [|d']; [lia|].
                destruct (pushed (snd p) b (hdc (flat r ++ rest)) EB) as [pre [rs [EP [PR RS]]]]. rewrite EP in ST.
                destruct (chain_pieces b) as [CB FB].
                assert (MS2 : mset (snd p :: hid) (mkFrame (Some (snd p)) [] :: mkFrame m (flat r ++ rest) :: below)).
                { intros x. unfold disabled. cbn [existsb f_mac]. rewrite memS_cons. f_equal.
                  - destruct (cstr_eqb (snd p) x) eqn:E1; destruct (cstr_eqb x (snd p)) eqn:E2; auto.
                    + apply cstr_eqb_eq in E1. rewrite E1, cstr_eqb_refl in E2. discriminate.
                    + apply cstr_eqb_eq in E2. rewrite E2, cstr_eqb_refl in E1. discriminate.
                  - apply (mset_text hid m [] (flat r ++ rest) below MS x). }
                assert (TR : tailOk (Some (snd p)) rs) by (destruct RS as [->| ->]; [now left|right; split; auto; discriminate]).
                set (o1 := match pre with [] => out | _ => [ch_space] :: out end).
                destruct (IHd d' (Nat.lt_succ_diag_r d') (List.length (flat (pieces b))) (pieces b) (le_n _) (snd p :: hid) (Some (snd p)) rs
                            (mkFrame m (flat r ++ rest) :: below) o1 CB (TB _ _ EB) TR MS2 (proj1 (Nat.lt_succ_r _ _) (Nat.lt_le_trans _ _ _ CL CT))) as [ob [GB VB]].
                set (o2 := match rs with [] => rev ob ++ o1 | _ => [ch_space] :: rev ob ++ o1 end).
                destruct (IHn r ltac:(lia) hid m rest below o2 C' SPr T MS CT) as [outs [GO VI]].
                set (s1 := (match pre with [] => [] | _ => [[ch_space]] end) : list cstr).
                set (s2 := (match rs with [] => [] | _ => [[ch_space]] end) : list cstr).
                assert (V1 : visible s1 = []) by (subst s1; destruct PR as [->| ->]; reflexivity).
                assert (V2 : visible s2 = []) by (subst s2; destruct RS as [->| ->]; reflexivity).
                assert (EO : rev (s1 ++ ob ++ s2 ++ outs) ++ out = rev outs ++ o2).
                { subst o2 o1 s1 s2. rewrite !rev_app_distr, <- !app_assoc.
                  destruct PR as [->| ->]; destruct RS as [->| ->]; reflexivity. }
                exists (s1 ++ ob ++ s2 ++ outs). split.
                ** eapply goes_step; [exact ST|].
                   eapply goes_trans; [instantiate (1 := mkScan (mkFrame (Some (snd p)) (b ++ rs) :: mkFrame m (flat r ++ rest) :: below) o1)|].
                   { destruct PR as [->| ->]; [apply goes_refl|]. subst o1.
                     eapply goes_step; [reflexivity|]. apply goes_refl. }
                   eapply goes_trans; [rewrite FB in GB; exact GB|].
                   eapply goes_trans; [instantiate (1 := mkScan (mkFrame (Some (snd p)) [] :: mkFrame m (flat r ++ rest) :: below) o2)|].
                   { destruct RS as [->| ->]; [apply goes_refl|]. subst o2.
                     eapply goes_step; [reflexivity|]. apply goes_refl. }
                   eapply goes_step; [reflexivity|]. cbn [s_out].
                   rewrite EO. exact GO.
                ** rewrite !visible_app, V1, V2, VB, VI, TO. cbn [app].
                   assert (NS : nest bodyToks (S (S d')) hid [(true, snd p)] = nest bodyToks (S d') (snd p :: hid) (toksOf (pieces b))).
                   { cbn [nest flat_map]. unfold bodyToks at 1. rewrite EB. cbn [option_map]. rewrite ME, app_nil_r, toksOf_sp. reflexivity. }
                   transitivity (nest bodyToks (S (S d')) hid [(true, snd p)] ++ nest bodyToks (S (S d')) hid (toksOf r)); [|symmetry; apply nest_cons].
                   rewrite NS. reflexivity.
          -- apply COPY; auto. cbn [nest flat_map app]. unfold bodyToks. rewrite EB. reflexivity.
        * assert (NK : k <> KName) by (intros X; apply K in X; discriminate).
          apply COPY; [rewrite ST; destruct k; try congruence; reflexivity|]. reflexivity.
  Qed.

  Lemma scan_ok : forall txt, (forall p, In p (pieces txt) -> sp p) ->
    exists k outs, (forall f, k <= f -> scanRun f tb (scanText txt) = Some outs) /\
      visible outs = nest bodyToks (S (List.length tb)) [] (spTok txt).
  Proof.
    intros txt SP. destruct (chain_pieces txt) as [C F].
    assert (CT : count [] <= List.length tb).
    { unfold count. generalize (fun e : cstr * cstr => negb (memS [] (fst e))). intros g. clear. induction tb as [|e r IH]; auto.
      cbn [filter]. destruct (g e); cbn [List.length]; lia. }
    destruct (read_ok (List.length tb) (List.length (flat (pieces txt))) (pieces txt) (le_n _) [] None [] [] [] C SP) as [outs [[k G] V]]; auto.
    - now left.
    - intros n. reflexivity.
    - exists (k + 1), outs. split.
      + intros f LE. rewrite F, app_nil_r in G. unfold scanText. replace f with (k + S (f - k - 1)) by lia. rewrite G.
        rewrite app_nil_r. cbn [scanRun scanStep s_stack s_out]. now rewrite rev_involutive.
      + rewrite V, toksOf_sp. reflexivity.
  Qed.
End Scan.
