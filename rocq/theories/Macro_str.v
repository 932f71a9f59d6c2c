(* Stringification. *)
From Verif Require Import Cbase Cbase_facts Macro_model Macro_spec Macro_proofs Macro_lex.
Import ListNotations.
Open Scope nat_scope.
Open Scope list_scope.

Definition esc1 (c : ascii) (o : cstr) : cstr :=
  if Ascii.eqb c ch_dquote || Ascii.eqb c chB then c :: chB :: o else c :: o.

Lemma sl_white : forall c r a o e ns, white c = true -> a <> chA ->
  strLoop (c :: r) (a :: o) e None ns = strLoop r (a :: o) e None (if (ns =? 0)%Z then 1%Z else ns).
Proof.
  intros c r a o e ns W A. cbn [strLoop]. rewrite cls_space, W.
  destruct (Ascii.eqb a chA) eqn:E; auto. now apply eqb_eq in E.
Qed.

Definition sp0 (ns : Z) (o : cstr) : cstr := if (0 <? ns)%Z then ch_space :: o else o.

Lemma sl_plain : forall c r o ns, white c = false -> quoteC c = false -> c <> chB -> isPrint c = true ->
  strLoop (c :: r) o false None ns = strLoop r (c :: sp0 ns o) false None 0.
Proof.
  intros c r o ns W Q B P. cbn [strLoop]. rewrite cls_space, W, cls_quote, Q, P.
  assert (N : Ascii.eqb c chB = false) by (apply not_true_is_false; intros E; now apply eqb_eq in E).
  assert (D : Ascii.eqb c ch_dquote = false).
  { apply not_true_is_false; intros E; apply eqb_eq in E. subst. discriminate. }
  rewrite N, D. reflexivity.
Qed.

Lemma quote_not_back : forall c, quoteC c = true -> Ascii.eqb c chB = false /\ white c = false /\ isPrint c = true.
Proof. intros c. allchars c; vm_compute; auto; discriminate. Qed.

Lemma sl_open : forall c r o ns, quoteC c = true ->
  strLoop (c :: r) o false None ns = strLoop r (esc1 c (sp0 ns o)) false (Some c) 0.
Proof.
  intros c r o ns Q. destruct (quote_not_back c Q) as [B [W P]]. cbn [strLoop]. rewrite cls_space, W, cls_quote, Q, P, B.
  unfold esc1. rewrite B. unfold sp0.
  destruct (Ascii.eqb c ch_dquote); reflexivity.
Qed.

Lemma sl_in : forall c r o e q ns, quoteC q = true -> isPrint c = true ->
  strLoop (c :: r) o e (Some q) ns =
  (if e then strLoop r (esc1 c o) false (Some q) ns
   else if Ascii.eqb c q then strLoop r (esc1 c o) false None ns
   else strLoop r (esc1 c o) (Ascii.eqb c chB) (Some q) ns).
Proof.
  intros c r o e q ns Q P. cbn [strLoop]. rewrite P. unfold esc1. destruct e.
  - cbn [andb]. destruct (Ascii.eqb c ch_dquote), (Ascii.eqb c chB); reflexivity.
  - destruct (Ascii.eqb c q) eqn:E.
    + apply eqb_eq in E. subst. destruct (quote_not_back q Q) as [B _]. rewrite B. cbn [andb].
      destruct (Ascii.eqb q ch_dquote); reflexivity.
    + cbn [andb]. destruct (Ascii.eqb c ch_dquote), (Ascii.eqb c chB); reflexivity.
Qed.

Lemma esc1_rev : forall c o, esc1 c o = rev (escapeLit [c]) ++ o.
Proof.
  intros. unfold esc1. cbn [escapeLit]. unfold ch_dquote, chB.
  destruct (Ascii.eqb c """" || Ascii.eqb c "\"); reflexivity.
Qed.
Lemma escapeLit_cons : forall c r, escapeLit (c :: r) = escapeLit [c] ++ escapeLit r.
Proof. intros. cbn [escapeLit]. destruct (Ascii.eqb c """" || Ascii.eqb c "\"); reflexivity. Qed.
Lemma escapeLit_app : forall a b, escapeLit (a ++ b) = escapeLit a ++ escapeLit b.
Proof.
  induction a as [|c a IH]; intros; auto. change ((c :: a) ++ b) with (c :: (a ++ b)).
  rewrite escapeLit_cons, IH, (escapeLit_cons c a). now rewrite app_assoc.
Qed.

Lemma sl_lit : forall b r o e q ns e', quoteC q = true -> forallb isPrint b = true -> inLit q e b = Some e' ->
  strLoop (b ++ r) o e (Some q) ns = strLoop r (rev (escapeLit b) ++ o) e' (Some q) ns.
Proof.
  induction b as [|c b IH]; intros r o e q ns e' Q P H.
  - cbn in H. now inversion H.
  - cbn [forallb] in P. apply andb_true_iff in P. destruct P as [P1 P2]. cbn [app].
    rewrite (sl_in c (b ++ r) o e q ns Q P1). rewrite escapeLit_cons, rev_app_distr, <- app_assoc, <- esc1_rev.
    cbn [inLit] in H. destruct e; [now apply IH|].
    destruct (Ascii.eqb c q) eqn:E; [discriminate|]. now apply IH.
Qed.

Definition plainC (c : ascii) : bool := negb (white c) && negb (quoteC c) && negb (Ascii.eqb c chB) && isPrint c.
Lemma sl_plains : forall t c r o ns, plainC c = true -> forallb plainC t = true ->
  strLoop ((c :: t) ++ r) o false None ns = strLoop r (rev (c :: t) ++ sp0 ns o) false None 0.
Proof.
  induction t as [|d t IH]; intros c r o ns C T.
  - cbn [app rev]. unfold plainC in C. rewrite !andb_true_iff, !negb_true_iff in C. destruct C as [[[A B] D] E].
    apply sl_plain; auto. intros ->. discriminate.
  - change ((c :: d :: t) ++ r) with (c :: ((d :: t) ++ r)).
    assert (C' := C). unfold plainC in C'. rewrite !andb_true_iff, !negb_true_iff in C'. destruct C' as [[[A B] D] E].
    rewrite sl_plain; auto; [|intros ->; discriminate].
    cbn [forallb] in T. apply andb_true_iff in T. destruct T as [T1 T2].
    rewrite IH; auto. unfold sp0 at 1. cbn [Z.ltb Z.compare]. cbn [rev]. rewrite <- !app_assoc. reflexivity.
Qed.

Definition okPiece (p : piece) : Prop :=
  isOpen (fst p) = false /\ fst p <> LBlkEnd /\ ~ In chA (snd p) /\ snd p <> lit "\" /\
  (forall c, In c (snd p) -> isWhite p = true \/ (32 <= code c <= 126)%Z).

Lemma word_plain : forall c, wordC c = true -> isPrint c = true -> plainC c = true.
Proof.
  intros c W P. destruct (word_not_special c W) as [Q [A [B [H S]]]]. unfold plainC. rewrite S, Q, P. cbn.
  destruct (Ascii.eqb c chB) eqn:E; auto. apply eqb_eq in E. contradiction.
Qed.

Lemma num_plain : forall c, numC c = true -> plainC c = true.
Proof. intros c. allchars c; vm_compute; auto. Qed.
Lemma word_print : forall c, wordC c = true -> isPrint c = true.
Proof. intros c. allchars c; vm_compute; auto. Qed.
Lemma letter_word : forall c, letterC c = true -> wordC c = true.
Proof. intros c H. unfold wordC. now rewrite H. Qed.
Lemma longOps_plain : forall s, In s longOps -> forallb plainC s = true.
Proof.
  intros s I. cbn in I. repeat (destruct I as [I|I]; [subst; reflexivity|]). contradiction.
Qed.

(* one piece that is not white space *)
Lemma sl_piece : forall p r o ns, whole p -> okPiece p -> blank p = false ->
  strLoop (snd p ++ r) o false None ns = strLoop r (rev (spellIn p) ++ sp0 ns o) false None 0
  /\ spellIn p <> [] /\ (forall x, hdc (rev (spellIn p)) = Some x -> x <> chA).
Proof.
  intros p r o ns W [O [NB [NA [NS PR]]]] BL. assert (S := whole_shape p W).
  assert (NE : snd p <> []) by apply (whole_pieces p W).
  assert (LAST : forall x, hdc (rev (snd p)) = Some x -> x <> chA).
  { intros x H ->. apply NA. destruct (rev (snd p)) as [|y l] eqn:E; [discriminate|]. inversion H; subst.
    apply in_rev. rewrite E. now left. }
  assert (PL : forall st, fst p = st -> (forall q e, st <> LLit q e) -> st <> LEnd -> forallb plainC (snd p) = true ->
    strLoop (snd p ++ r) o false None ns = strLoop r (rev (spellIn p) ++ sp0 ns o) false None 0
    /\ spellIn p <> [] /\ (forall x, hdc (rev (spellIn p)) = Some x -> x <> chA)).
  { intros st E _ N2 PLN. assert (SP : spellIn p = snd p) by (unfold spellIn; destruct (fst p); auto; congruence).
    rewrite SP. split; auto. destruct (snd p) as [|c t] eqn:T; [contradiction|].
    cbn [forallb] in PLN. apply andb_true_iff in PLN. destruct PLN. now apply sl_plains. }
  destruct p as [st t]. cbn [fst snd] in *. destruct st; try discriminate.
  - (* LId *)
    simpl in S. destruct S as [S _]. destruct t as [|c w]; [contradiction|]. destruct S as [S1 S2].
    apply (PL (LId isL)); auto; try discriminate. cbn [forallb]. rewrite andb_true_iff. split.
    + apply word_plain; [|apply word_print]; now apply letter_word.
    + rewrite forallb_forall in S2 |- *. intros x I. apply word_plain; [|apply word_print]; auto.
  - (* LNum *)
    apply (PL (LNum e)); auto; try discriminate. simpl in S. rewrite forallb_forall in S |- *. intros x I. apply num_plain. auto.
  - (* LEnd *)
    simpl in S. destruct S as [q [pre [b [Q [PRE [T L]]]]]]. subst t.
    assert (PRN : forall c, In c (pre ++ q :: b ++ [q]) -> isPrint c = true).
    { intros c I. destruct (PR c I) as [X|X]; [discriminate|]. unfold isPrint. rewrite andb_true_iff, !Z.leb_le. lia. }
    assert (PB : forallb isPrint b = true).
    { apply forallb_forall. intros c I. apply PRN. apply in_or_app. right. right. apply in_or_app. now left. }
    assert (PQ : isPrint q = true).
    { apply PRN. apply in_or_app. right. now left. }
    assert (MAIN : forall o' ns', strLoop ((q :: b ++ [q]) ++ r) o' false None ns' =
              strLoop r (rev (escapeLit (q :: b ++ [q])) ++ sp0 ns' o') false None 0).
    { intros o' ns'. cbn [app]. rewrite sl_open by auto. rewrite <- app_assoc. rewrite (sl_lit b _ _ false q 0 false Q PB L).
      cbn [app]. rewrite sl_in by auto. rewrite (proj2 (eqb_eq q q) eq_refl).
      f_equal. rewrite escapeLit_cons, escapeLit_app, !rev_app_distr, <- !app_assoc, !esc1_rev. reflexivity. }
    unfold spellIn. cbn [fst snd].
    assert (TAIL : forall pre', hdc (rev (escapeLit (pre' ++ q :: b ++ [q]))) = Some q).
    { intros pre'. rewrite !escapeLit_app, rev_app_distr.
      rewrite escapeLit_cons, escapeLit_app, !rev_app_distr.
      cbn [escapeLit]. destruct (Ascii.eqb q """" || Ascii.eqb q "\"); reflexivity. }
    destruct PRE as [->| ->].
    + cbn [app] in *. split; [apply MAIN|]. split.
      * rewrite escapeLit_cons. cbn [escapeLit]. destruct (Ascii.eqb q """" || Ascii.eqb q "\"); discriminate.
      * intros x H. assert (TN := TAIL []). cbn [app] in TN. rewrite TN in H. inversion H; subst. apply (excl x) in Q. apply Q.
    + split.
      * cbn [app]. rewrite sl_plain; auto; try discriminate. cbn [app] in MAIN. rewrite MAIN.
        rewrite (escapeLit_cons chL), rev_app_distr, <- app_assoc. reflexivity.
      * split; [discriminate|]. intros x H. rewrite TAIL in H. inversion H; subst. apply (excl x) in Q. apply Q.
  - (* LOp *)
    simpl in S. destruct S as [-> S]. apply (PL (LOp s)); auto; try discriminate.
    destruct S as [[c [-> [A [B C]]]]|S].
    + cbn [forallb]. unfold plainC. rewrite A, C. cbn [negb andb].
      assert (X : Ascii.eqb c chB = false).
      { apply not_true_is_false. intros E. apply eqb_eq in E. subst. now apply NS. }
      rewrite X. destruct (PR c (or_introl eq_refl)) as [Y|Y]; [discriminate|].
      unfold isPrint. cbn. rewrite !andb_true_iff, !Z.leb_le. lia.
    + now apply longOps_plain.
Qed.

Lemma sl_whites : forall w r a o ns, forallb white w = true -> a <> chA -> w <> [] ->
  strLoop (w ++ r) (a :: o) false None ns = strLoop r (a :: o) false None (if (ns =? 0)%Z then 1%Z else ns).
Proof.
  induction w as [|c w IH]; intros r a o ns W A N; [congruence|].
  cbn [forallb] in W. apply andb_true_iff in W. destruct W as [W1 W2]. cbn [app]. rewrite sl_white by auto.
  destruct w as [|d w]; [reflexivity|]. rewrite IH by (auto; discriminate).
  destruct (ns =? 0)%Z eqn:E; auto. now rewrite E.
Qed.

Definition spN (ns : Z) (l : list piece) : cstr :=
  if (ns =? -1)%Z then spellAll l
  else if (ns =? 0)%Z then spellRest l
  else match l with [] => [] | _ => ch_space :: spellRest l end.

Lemma blank_white : forall p, okPiece p -> blank p = true -> fst p = LWhite.
Proof.
  intros p [O [N _]] B. unfold blank in B. destruct (fst p); try discriminate; auto. congruence.
Qed.

Lemma sl_all : forall l a o ns, chain l -> (forall p, In p l -> okPiece p) -> a <> chA ->
  (ns = -1 \/ ns = 0 \/ (ns = 1 /\ match l with p :: _ => blank p = false | [] => True end))%Z ->
  exists b o', strLoop (flat l) (a :: o) false None ns = Some (b :: o') /\ b <> chA /\ b :: o' = rev (spN ns l) ++ a :: o.
Proof.
  induction l as [|p l IH]; intros a o ns C OK A NS.
  - exists a, o. cbn. split; auto. split; auto.
    unfold spN. destruct (ns =? -1)%Z; [reflexivity|]. destruct (ns =? 0)%Z; reflexivity.
  - destruct (chain_inv _ _ C) as [W [C' BD]].
    change (flat (p :: l)) with (snd p ++ flat l).
    assert (OKP := OK p (or_introl eq_refl)).
    destruct (blank p) eqn:B.
    + assert (FW := blank_white p OKP B).
      assert (S := whole_shape p W). rewrite FW in S. simpl in S.
      rewrite sl_whites; auto; [|apply (whole_pieces p W)].
      assert (NX : match l with p :: _ => blank p = false | [] => True end).
      { destruct l as [|q l]; auto. destruct (blank q) eqn:BQ; auto. exfalso.
        assert (FQ := blank_white q (OK q (or_intror (or_introl eq_refl))) BQ).
        destruct (chain_inv _ _ C') as [WQ _]. assert (SQ := whole_shape q WQ). rewrite FQ in SQ. simpl in SQ.
        destruct (snd q) as [|c w] eqn:TQ; [now apply (whole_pieces q WQ)|].
        cbn [forallb] in SQ. apply andb_true_iff in SQ. destruct SQ as [SQ _].
        specialize (BD c). unfold flat in BD. cbn [map List.concat] in BD. rewrite TQ in BD. specialize (BD eq_refl).
        rewrite FW in BD. cbn [ext] in BD. rewrite SQ in BD. discriminate. }
      destruct NS as [->|[->|[-> NS]]]; [| |congruence]; cbn [Z.eqb].
      * destruct (IH a o (-1)%Z C' (fun q I => OK q (or_intror I)) A (or_introl eq_refl)) as [b [o' [E [NB R]]]].
        exists b, o'. split; auto. split; auto. rewrite R. f_equal. unfold spN. cbn [Z.eqb Z.opp Pos.eqb]. f_equal.
        unfold spellAll. rewrite B. destruct l as [|q l]; auto. now rewrite NX.
      * destruct (IH a o 1%Z C' (fun q I => OK q (or_intror I)) A (or_intror (or_intror (conj eq_refl NX)))) as [b [o' [E [NB R]]]].
        exists b, o'. split; auto. split; auto. rewrite R. f_equal. unfold spN. cbn [Z.eqb Z.opp Pos.eqb]. f_equal.
        cbn [spellRest]. rewrite B. destruct l; reflexivity.
    + destruct (sl_piece p (flat l) (a :: o) ns W OKP B) as [E [NE LS]]. rewrite E.
      destruct (rev (spellIn p)) as [|x y] eqn:RV.
      { exfalso. apply NE. apply (f_equal (@rev ascii)) in RV. now rewrite rev_involutive in RV. }
      cbn [app]. destruct (IH x (y ++ sp0 ns (a :: o)) 0%Z C' (fun q I => OK q (or_intror I)) (LS x eq_refl) (or_intror (or_introl eq_refl))) as [b [o' [E2 [NB R]]]].
      exists b, o'. split; auto. split; auto. rewrite R. unfold spN at 1. cbn [Z.eqb].
      change (x :: y ++ sp0 ns (a :: o)) with ((x :: y) ++ sp0 ns (a :: o)). rewrite <- RV.
      unfold spN. destruct NS as [->|[->|[-> NS]]]; cbn [Z.eqb Z.opp Pos.eqb].
      * unfold spellAll. cbn [spellRest]. rewrite B. rewrite rev_app_distr, <- app_assoc. reflexivity.
      * cbn [spellRest]. rewrite B. rewrite rev_app_distr, <- app_assoc. reflexivity.
      * cbn [spellRest]. rewrite B. cbn [rev]. rewrite rev_app_distr, <- !app_assoc. reflexivity.
Qed.

Lemma rawOk_pieces : forall raw, rawOk raw -> forall p, In p (pieces raw) -> okPiece p.
Proof.
  intros raw [C NC NA NBK PR] p I. unfold okPiece. split; [now apply C|]. split; [now apply NC|]. split.
  - intros X. apply NA. destruct (chain_pieces raw) as [_ F]. rewrite <- F. unfold flat.
    apply in_concat. exists (snd p). split; auto. now apply in_map.
  - split; [now apply NBK|]. intros c H. now apply (PR p).
Qed.

Lemma stringify_ok : forall raw, rawOk raw -> stringify raw = Some (stringOf raw).
Proof.
  intros raw R. unfold stringify. destruct (chain_pieces raw) as [C F].
  destruct (sl_all (pieces raw) ch_dquote [] (-1)%Z C (rawOk_pieces raw R)) as [b [o' [E [_ Q]]]]; auto; [discriminate|].
  rewrite F in E. rewrite E. f_equal. change (rev (ch_dquote :: b :: o')) with (rev (b :: o') ++ [ch_dquote]).
  rewrite Q. unfold spN. cbn [Z.eqb Z.opp Pos.eqb]. rewrite rev_app_distr, rev_involutive. reflexivity.
Qed.

(* ---- the result is one token ---- *)
Lemma run_plain : forall t, forallb plainC t = true -> runS (LLit ch_dquote false) t = Some (LLit ch_dquote false).
Proof.
  induction t as [|c t IH]; intros H; auto. cbn [forallb] in H. apply andb_true_iff in H. destruct H as [H1 H2].
  unfold plainC in H1. rewrite !andb_true_iff, !negb_true_iff in H1. destruct H1 as [[[A B] D] E].
  cbn [runS ext]. assert (X : Ascii.eqb c ch_dquote = false).
  { apply not_true_is_false. intros X. apply eqb_eq in X. subst. discriminate. }
  rewrite X. fold chB. rewrite D. now apply IH.
Qed.
Lemma run_escape : forall t, runS (LLit ch_dquote false) (escapeLit t) = Some (LLit ch_dquote false).
Proof.
  induction t as [|c t IH]; auto. rewrite escapeLit_cons, runS_app. cbn [escapeLit].
  destruct (Ascii.eqb c """" || Ascii.eqb c "\") eqn:E.
  - cbn [runS ext]. replace (Ascii.eqb "\" ch_dquote) with false by reflexivity. cbn. exact IH.
  - apply orb_false_iff in E. destruct E as [E1 E2]. cbn [runS ext]. unfold ch_dquote. fold chB.
    change "034"%char with """"%char. rewrite E1. unfold chB. rewrite E2. exact IH.
Qed.

Lemma spellIn_run : forall p, whole p -> okPiece p -> blank p = false ->
  runS (LLit ch_dquote false) (spellIn p) = Some (LLit ch_dquote false).
Proof.
  intros p W OKP B. assert (S := whole_shape p W). destruct OKP as [O [NB [NA [NS PR]]]].
  unfold spellIn. destruct p as [st t]. cbn [fst snd] in *. destruct st; try discriminate.
  - apply run_plain. simpl in S. destruct S as [S _]. destruct t as [|c w]; [contradiction|]. destruct S as [S1 S2].
    cbn [forallb]. rewrite andb_true_iff. split.
    + apply word_plain; [|apply word_print]; now apply letter_word.
    + rewrite forallb_forall in S2 |- *. intros x I. apply word_plain; [|apply word_print]; auto.
  - apply run_plain. simpl in S. rewrite forallb_forall in S |- *. intros x I. apply num_plain. auto.
  - apply run_escape.
  - apply run_plain. simpl in S. destruct S as [-> S].
    destruct S as [[c [-> [A [B' C]]]]|S]; [|now apply longOps_plain].
    cbn [forallb]. unfold plainC. rewrite A, C. cbn [negb andb].
    assert (X : Ascii.eqb c chB = false).
    { apply not_true_is_false. intros E. apply eqb_eq in E. subst. now apply NS. }
    rewrite X. destruct (PR c (or_introl eq_refl)) as [Y|Y]; [discriminate|].
    unfold isPrint. cbn. rewrite !andb_true_iff, !Z.leb_le. lia.
Qed.

Lemma spellRest_run : forall l, chain l -> (forall p, In p l -> okPiece p) ->
  runS (LLit ch_dquote false) (spellRest l) = Some (LLit ch_dquote false).
Proof.
  induction l as [|p l IH]; intros C OK; auto. destruct (chain_inv _ _ C) as [W [C' _]].
  assert (IH' := IH C' (fun q I => OK q (or_intror I))). cbn [spellRest]. destruct (blank p) eqn:B.
  - destruct l as [|q l]; auto.
  - rewrite runS_app, spellIn_run; auto. apply OK. now left.
Qed.

Lemma stringOf_whole : forall raw, rawOk raw -> whole (LEnd, stringOf raw).
Proof.
  intros raw R. unfold whole, stringOf. cbn [fst snd].
  replace (start """") with (LLit ch_dquote false) by reflexivity.
  assert (X : runS (LLit ch_dquote false) (spellAll (pieces raw)) = Some (LLit ch_dquote false)).
  { destruct (chain_pieces raw) as [C _]. assert (OK := rawOk_pieces raw R).
    unfold spellAll. destruct (pieces raw) as [|p r] eqn:E; auto.
    destruct (blank p).
    - destruct (chain_inv _ _ C) as [_ [C' _]]. apply spellRest_run; auto. intros q I. apply OK. now right.
    - now apply spellRest_run. }
  rewrite runS_app, X. reflexivity.
Qed.
