(* Proofs about macro definitions and calls. *)
From Verif Require Import Cbase Cbase_facts Macro_model Macro_spec.
Import ListNotations.
Open Scope nat_scope.
Open Scope list_scope.

Lemma cls_all : forall c,
  isIdStart c = letterC c /\ is_digit c = digitC c /\ isSpace c = white c /\ isQuote c = quoteC c.
Proof.
  intros [a b c0 d e f g h].
  destruct a, b, c0, d, e, f, g, h; vm_compute; auto.
Qed.
Lemma cls_start : forall c, isIdStart c = letterC c. Proof. intros; apply cls_all. Qed.
Lemma cls_digit : forall c, is_digit c = digitC c. Proof. intros; apply cls_all. Qed.
Lemma cls_space : forall c, isSpace c = white c. Proof. intros; apply cls_all. Qed.
Lemma cls_quote : forall c, isQuote c = quoteC c. Proof. intros; apply cls_all. Qed.
Lemma cls_word : forall c, isIdChar c = wordC c.
Proof. intros c. unfold isIdChar, wordC. now rewrite cls_start, cls_digit. Qed.

(* every fact about one character, by trying all of them *)
Ltac allchars c := destruct c as [[] [] [] [] [] [] [] []].

Lemma eqb_eq : forall a b : ascii, Ascii.eqb a b = true <-> a = b.
Proof. apply Ascii.eqb_eq. Qed.

Lemma excl : forall c,
  (white c = true -> letterC c = false /\ digitC c = false /\ quoteC c = false /\ c <> chA /\ c <> chB /\ c <> chH) /\
  (letterC c = true -> digitC c = false /\ quoteC c = false /\ c <> chA /\ c <> chB /\ c <> chH) /\
  (digitC c = true -> quoteC c = false /\ c <> chA /\ c <> chB /\ c <> chH) /\
  (quoteC c = true -> c <> chA /\ c <> chB /\ c <> chH).
Proof.
  intros c. allchars c; vm_compute; repeat split; intros; try discriminate; auto.
Qed.
Lemma white_not_word : forall c, white c = true -> wordC c = false.
Proof. intros c H. unfold wordC. destruct (excl c) as [A _]. destruct (A H) as [B [C _]]. now rewrite B, C. Qed.
Lemma word_not_special : forall c, wordC c = true -> quoteC c = false /\ c <> chA /\ c <> chB /\ c <> chH /\ white c = false.
Proof.
  intros c H. destruct (excl c) as [W [A [B _]]]. unfold wordC in H.
  destruct (letterC c) eqn:E.
  - destruct (A eq_refl) as [_ [Q [X [Y Z]]]]. repeat split; auto.
    destruct (white c); auto. destruct (W eq_refl); congruence.
  - simpl in H. destruct (B H) as [Q [X [Y Z]]]. repeat split; auto.
    destruct (white c); auto. destruct (W eq_refl) as [_ [? _]]. congruence.
Qed.

(* ------------------------------------------------------------------ *)
(* The automaton *)

Fixpoint endFrom (st : lst) (txt : cstr) : lst :=
  match txt with
  | [] => st
  | c :: r => match ext st c with Some st' => endFrom st' r | None => endFrom (start c) r end
  end.
Definition endOf (s : cstr) : lst := match s with [] => LWhite | c :: r => endFrom (start c) r end.

(* the next character begins a new piece, or white space goes on *)
Definition J (st : lst) (c : ascii) : Prop := st = LWhite \/ ext st c = None.

Lemma pf_app : forall a st cur c b,
  ext (endFrom st a) c = None ->
  piecesFrom st cur (a ++ c :: b) = piecesFrom st cur a ++ piecesFrom (start c) [c] b.
Proof.
  induction a as [|x a IH]; intros st cur c b H; cbn [app piecesFrom endFrom] in *.
  - now rewrite H.
  - destruct (ext st x) eqn:E; rewrite IH by exact H; reflexivity.
Qed.

Lemma ef_app : forall a st c b,
  ext (endFrom st a) c = None -> endFrom st (a ++ c :: b) = endFrom (start c) b.
Proof.
  induction a as [|x a IH]; intros st c b H; cbn [app endFrom] in *.
  - now rewrite H.
  - destruct (ext st x) eqn:E; now apply IH.
Qed.

Lemma nb_app : forall a b, nonblank (a ++ b) = nonblank a ++ nonblank b.
Proof. intros. unfold nonblank. now rewrite filter_app, map_app. Qed.

Lemma ef_app_gen : forall a st b, endFrom st (a ++ b) = endFrom (endFrom st a) b.
Proof.
  induction a as [|x a IH]; intros; cbn [app endFrom]; auto.
  destruct (ext st x); apply IH.
Qed.

Lemma start_white : forall c, white c = true -> start c = LWhite.
Proof. intros c H. unfold start. now rewrite H. Qed.

(* the pieces after white space do not depend on it *)
Lemma nb_white : forall txt cur, nonblank (piecesFrom LWhite cur txt) = tokens txt.
Proof.
  induction txt as [|c r IH]; intros cur; [reflexivity|].
  cbn [piecesFrom ext]. unfold tokens, pieces. destruct (white c) eqn:E.
  - rewrite IH. rewrite start_white by auto. now rewrite IH.
  - reflexivity.
Qed.
Lemma pf_app_white : forall a st cur b,
  endFrom st a = LWhite -> 
  nonblank (piecesFrom st cur (a ++ b)) = nonblank (piecesFrom st cur a) ++ tokens b.
Proof.
  induction a as [|x a IH]; intros st cur b H; cbn [app piecesFrom endFrom] in *.
  - subst. rewrite nb_white. reflexivity.
  - destruct (ext st x) eqn:E.
    + now apply IH.
    + unfold nonblank in *. cbn [filter map]. destruct (negb (blank (st, rev cur))); cbn [map app]; rewrite IH; auto.
Qed.

Lemma tok_app : forall a c b, J (endOf a) c ->
  tokens (a ++ c :: b) = tokens a ++ tokens (c :: b) /\ endOf (a ++ c :: b) = endOf (c :: b).
Proof.
  intros [|x a] c b H; [split; reflexivity|].
  destruct H as [H|H]; cbn [endOf app] in *.
  - split.
    + unfold tokens at 1 2. cbn [pieces]. now apply pf_app_white.
    + rewrite ef_app_gen, H. cbn [endFrom ext]. destruct (white c) eqn:E; auto. now rewrite start_white.
  - split.
    + unfold tokens. cbn [pieces]. rewrite pf_app by exact H. apply nb_app.
    + now apply ef_app.
Qed.

Lemma tok_app2 : forall a b, (match b with [] => True | c :: _ => J (endOf a) c end) ->
  tokens (a ++ b) = tokens a ++ tokens b.
Proof.
  intros a [|c b] H. - now rewrite !app_nil_r. - now apply tok_app.
Qed.

(* a state and the last character that led to it *)
Definition agrees (st : lst) (c : ascii) : Prop :=
  match st with
  | LWhite => white c = true
  | LId l => wordC c = true /\ (l = true -> c = chL)
  | LNum e => (wordC c = true \/ c = "."%char \/ c = "+"%char \/ c = "-"%char) /\
              (e = true -> inSet (lit "eEpP") c = true)
  | LLit q _ => quoteC q = true
  | LEnd => quoteC c = true
  | LOp s => (s = [c] /\ white c = false /\ wordC c = false /\ quoteC c = false)
             \/ (exists s', s = s' ++ [c] /\ In s longOps)
  | LBlkEnd => c = "/"%char
  | _ => True
  end.

Lemma agrees_start : forall c, agrees (start c) c.
Proof.
  intros c. unfold start.
  destruct (white c) eqn:A; [exact A|].
  destruct (letterC c) eqn:B.
  { simpl. unfold wordC. rewrite B. split; auto. intros E. now apply eqb_eq in E. }
  destruct (digitC c) eqn:C.
  { simpl. unfold wordC. rewrite B, C. split; auto. discriminate. }
  destruct (quoteC c) eqn:D; [exact D|].
  simpl. left. unfold wordC. now rewrite B, C.
Qed.

Lemma agrees_ext : forall st c0 c st', agrees st c0 -> ext st c = Some st' -> agrees st' c.
Proof.
  intros st c0 c st' A H. destruct st; cbn [ext] in H.
  - destruct (white c) eqn:E; inversion H; subst. exact E.
  - destruct (wordC c) eqn:E.
    + inversion H; subst. split; auto. discriminate.
    + destruct (isL && quoteC c) eqn:F; inversion H; subst. apply andb_true_iff in F. apply F.
  - destruct (wordC c || Ascii.eqb c ".") eqn:E.
    + inversion H; subst. split; auto. apply orb_true_iff in E. destruct E as [E|E]; auto.
      apply eqb_eq in E. auto.
    + destruct (e && inSet (lit "+-") c) eqn:F; inversion H; subst. split; [|discriminate].
      apply andb_true_iff in F. destruct F as [_ F]. unfold inSet in F. cbn in F.
      rewrite !orb_true_iff in F. destruct F as [F|[F|F]]; try discriminate; apply eqb_eq in F; auto.
  - destruct esc; [inversion H; subst; exact A|].
    destruct (Ascii.eqb c q) eqn:E; inversion H; subst; [|exact A].
    apply eqb_eq in E. subst. exact A.
  - discriminate.
  - destruct (cstr_eqb (s ++ [c]) (lit "/*")); [inversion H; subst; exact I|].
    destruct (cstr_eqb (s ++ [c]) (lit "//")); [inversion H; subst; exact I|].
    destruct (cstr_eqb s (lit ".") && digitC c) eqn:D.
    + inversion H; subst. apply andb_true_iff in D. destruct D as [_ D].
      split; [|discriminate]. left. unfold wordC. rewrite D. apply orb_true_r.
    + destruct (existsb (cstr_eqb (s ++ [c])) longOps) eqn:F; inversion H; subst.
      right. exists s. split; auto. apply existsb_exists in F. destruct F as [x [I F]].
      apply cstr_eqb_eq in F. now rewrite F.
  - destruct (star && Ascii.eqb c "/") eqn:E; inversion H; subst; [|exact I].
    apply andb_true_iff in E. destruct E as [_ E]. now apply eqb_eq in E.
  - discriminate.
  - destruct (Ascii.eqb c "010"); inversion H; subst. exact I.
Qed.

Lemma agrees_from : forall a st c0 c, agrees st c0 -> agrees (endFrom st (a ++ [c])) c.
Proof.
  induction a as [|x a IH]; intros st c0 c A; cbn [app endFrom].
  - destruct (ext st c) eqn:E.
    + eapply agrees_ext; eauto.
    + apply agrees_start.
  - destruct (ext st x) eqn:E.
    + eapply IH. eapply agrees_ext; eauto.
    + eapply IH. apply agrees_start.
Qed.
Lemma agrees_end : forall a c, agrees (endOf (a ++ [c])) c.
Proof.
  intros [|x a] c; cbn [app endOf].
  - cbn [endFrom]. apply agrees_start.
  - eapply agrees_from. apply agrees_start.
Qed.

Lemma closed_space : forall st c0, agrees st c0 -> isOpen st = false -> J st ch_space.
Proof.
  intros st c0 A H. destruct st; try discriminate; unfold J; auto; right; cbn [ext].
  - now destruct isL.
  - now destruct e.
  - simpl in A. assert (E : existsb (cstr_eqb (s ++ [ch_space])) longOps = false).
    { apply not_true_is_false. intros E. apply existsb_exists in E. destruct E as [x [I E]].
      apply cstr_eqb_eq in E. subst x. cbn in I.
      repeat (destruct I as [I|I]; [apply (f_equal (@rev ascii)) in I; rewrite rev_app_distr in I; discriminate|]). exact I. }
    rewrite E.
    assert (N : forall t, cstr_eqb (s ++ [ch_space]) (t ++ ["*"%char]) = false /\ cstr_eqb (s ++ [ch_space]) (t ++ ["/"%char]) = false).
    { intros t. split; apply not_true_is_false; intros X; apply cstr_eqb_eq in X; apply app_inj_tail in X; destruct X; discriminate. }
    destruct (N ["/"%char]) as [N1 N2]. cbn [app] in N1, N2. cbn [lit list_ascii_of_string]. rewrite N1, N2.
    replace (digitC ch_space) with false by reflexivity. rewrite andb_false_r. reflexivity.
Qed.

(* what unsafe_chars misses *)
Definition gap (st : lst) (c1 c2 : ascii) : Prop :=
  (st = LOp (lit "/") /\ c2 = "*"%char) \/ (st = LOp (lit "-") /\ c2 = ">"%char)
  \/ (c1 = "$"%char /\ (wordC c2 = true \/ c2 = "."%char)).

Lemma letterRule_eq : forall c, letterRule c = wordC c || Ascii.eqb c "."%char.
Proof. intros. unfold letterRule. now rewrite cls_word. Qed.

Lemma unsafe_word : forall c1 c2, wordC c1 = true -> c1 <> "$"%char ->
  unsafe c1 c2 = false -> wordC c2 = false /\ Ascii.eqb c2 "."%char = false.
Proof.
  intros c1 c2 W D U. unfold unsafe in U. rewrite letterRule_eq in U.
  assert (X : wordC c2 || Ascii.eqb c2 "." = false).
  { destruct (Ascii.eqb c1 "+" || Ascii.eqb c1 "-"); [apply orb_false_iff in U; apply U|].
    match type of U with (if ?b then _ else _) = _ => destruct b eqn:B end; [apply orb_false_iff in U; apply U|].
    destruct (Ascii.eqb c1 chL); [apply orb_false_iff in U; apply U|].
    destruct (isIdStart c1 && negb (Ascii.eqb c1 "$")) eqn:E; [exact U|].
    exfalso. unfold wordC in W. rewrite cls_start in E.
    rewrite !orb_false_iff in B. destruct B as [[[[[_ B] _] _] _] _]. rewrite cls_digit in B.
    rewrite B, orb_false_r in W. rewrite W in E. cbn in E.
    apply negb_false_iff in E. now apply eqb_eq in E. }
  now apply orb_false_iff in X.
Qed.

Lemma unsafe_L : forall c2, unsafe chL c2 = false -> quoteC c2 = false.
Proof.
  intros c2 U. unfold unsafe in U. cbn -[isQuote letterRule] in U. apply orb_false_iff in U. rewrite <- cls_quote. apply U.
Qed.

Lemma unsafe_exp : forall c1 c2, inSet (lit "eEpP") c1 = true -> unsafe c1 c2 = false -> inSet (lit "+-") c2 = false.
Proof.
  intros c1 c2 I U. unfold inSet in I. cbn in I. rewrite !orb_true_iff in I.
  destruct I as [I|[I|[I|[I|I]]]]; try discriminate; apply eqb_eq in I; subst c1; unfold unsafe in U; cbn -[letterRule] in U;
    rewrite !orb_false_iff in U; destruct U as [[A B] _]; unfold inSet; cbn; now rewrite A, B.
Qed.

Lemma unsafe_sign : forall c1 c2, c1 = "."%char \/ c1 = "+"%char \/ c1 = "-"%char -> unsafe c1 c2 = false ->
  wordC c2 = false /\ Ascii.eqb c2 "."%char = false.
Proof.
  intros c1 c2 H U. assert (X : letterRule c2 = false).
  { destruct H as [H|[H|H]]; subst; unfold unsafe in U; cbn -[letterRule] in U; apply orb_false_iff in U; apply U. }
  rewrite letterRule_eq in X. now apply orb_false_iff in X.
Qed.

Lemma in_longOps_app : forall s c, In (s ++ [c]) longOps ->
  (exists d, s = [d] /\ In [d; c] longOps) \/ (s = lit "<<" /\ c = "="%char) \/ (s = lit ">>" /\ c = "="%char).
Proof.
  intros s c I. assert (I2 := I). cbn in I.
  repeat (destruct I as [I|I];
    [ apply (f_equal (@rev ascii)) in I; rewrite rev_app_distr in I; cbn in I; inversion I as [[E1 E2]];
      apply (f_equal (@rev ascii)) in E2; rewrite rev_involutive in E2; cbn in E2; subst;
      first [left; eexists; split; [reflexivity|exact I2] | right; auto; fail | right; left; split; reflexivity | right; right; split; reflexivity] |]).
  contradiction.
Qed.

Lemma unsafe_op : forall c1 c2, In [c1; c2] longOps -> unsafe c1 c2 = false -> c1 = "-"%char /\ c2 = ">"%char.
Proof.
  intros c1 c2 I U. cbn in I.
  repeat (destruct I as [I|I]; [injection I as <- <-; first [split; reflexivity | discriminate U]|]). contradiction.
Qed.

Lemma unsafe_ok : forall st c1 c2, agrees st c1 -> isOpen st = false -> unsafe c1 c2 = false ->
  ~ gap st c1 c2 -> J st c2.
Proof.
  intros st c1 c2 A O U G. destruct st; try discriminate; unfold J; auto; right; cbn [ext]; simpl in A.
  - destruct A as [W L]. destruct (Ascii.eqb c1 "$"%char) eqn:D.
    + apply eqb_eq in D. assert (N : wordC c2 = false).
      { destruct (wordC c2) eqn:X; auto. exfalso. apply G. right. right. auto. }
      rewrite N. destruct isL; auto. rewrite (L eq_refl) in D. discriminate.
    + assert (D' : c1 <> "$"%char) by (intros ->; discriminate).
      destruct (unsafe_word _ _ W D' U) as [N _]. rewrite N.
      destruct isL; auto. rewrite (L eq_refl) in U. now rewrite (unsafe_L _ U).
  - destruct A as [W E].
    assert (N : wordC c2 = false /\ Ascii.eqb c2 "."%char = false).
    { destruct W as [W|W].
      - destruct (Ascii.eqb c1 "$"%char) eqn:D.
        + apply eqb_eq in D. split.
          * destruct (wordC c2) eqn:X; auto. exfalso. apply G. right. right. auto.
          * destruct (Ascii.eqb c2 "."%char) eqn:X; auto. exfalso. apply eqb_eq in X. apply G. right. right. auto.
        + apply (unsafe_word c1); auto. intros ->; discriminate.
      - now apply (unsafe_sign c1). }
    destruct N as [N1 N2]. rewrite N1, N2. cbn [orb]. destruct e; auto.
    cbn [andb]. now rewrite (unsafe_exp _ _ (E eq_refl) U).
  - assert (X : forall d, s = [d] -> d = c1).
    { intros d ->. destruct A as [[A _]|[s' [A _]]]; [now inversion A|]. destruct s' as [|y [|]]; now inversion A. }
    assert (LS : exists s', s = s' ++ [c1]).
    { destruct A as [[A _]|[s' [A _]]]; [exists []; exact A|now exists s']. }
    destruct (cstr_eqb (s ++ [c2]) (lit "/*")) eqn:E1.
    { exfalso. apply cstr_eqb_eq in E1. destruct s as [|y [|z s]]; try discriminate.
      - inversion E1; subst. apply G. left. auto.
      - exfalso. inversion E1. now destruct s. }
    destruct (cstr_eqb (s ++ [c2]) (lit "//")) eqn:E2.
    { exfalso. apply cstr_eqb_eq in E2. destruct s as [|y [|z s]]; try discriminate.
      - inversion E2; subst. rewrite <- (X _ eq_refl) in U. discriminate.
      - inversion E2. now destruct s. }
    destruct (cstr_eqb s (lit ".") && digitC c2) eqn:E3.
    { exfalso. apply andb_true_iff in E3. destruct E3 as [E3 D]. apply cstr_eqb_eq in E3.
      cbn in E3. rewrite <- (X _ E3) in U. destruct (unsafe_sign "."%char c2 (or_introl eq_refl) U) as [N _].
      unfold wordC in N. rewrite D, orb_true_r in N. discriminate. }
    destruct (existsb (cstr_eqb (s ++ [c2])) longOps) eqn:E4; auto.
    exfalso. apply existsb_exists in E4. destruct E4 as [x [I E4]]. apply cstr_eqb_eq in E4. subst x.
    destruct (in_longOps_app _ _ I) as [[d [-> I2]]|[[-> ->]|[-> ->]]].
    + rewrite <- (X _ eq_refl) in U. destruct (unsafe_op _ _ I2 U) as [-> ->]. apply G. right. left. auto.
    + destruct LS as [s' LS]. destruct s' as [|y [|z [|]]]; inversion LS; subst. discriminate U.
    + destruct LS as [s' LS]. destruct s' as [|y [|z [|]]]; inversion LS; subst. discriminate U.
Qed.
