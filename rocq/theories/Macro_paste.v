(* The operator ##. *)
From Verif Require Import Cbase Cbase_facts Macro_model Macro_spec Macro_proofs Macro_lex Macro_str Macro_sub Macro_build.
Import ListNotations.
Open Scope nat_scope.
Open Scope list_scope.

Lemma cls_white : forall c, isSpace c = white c.
Proof. intros c. destruct c as [[] [] [] [] [] [] [] []]; reflexivity. Qed.
Lemma hblank_hor : forall c, hblank c = isHor c.
Proof. intros c. destruct c as [[] [] [] [] [] [] [] []]; reflexivity. Qed.
Lemma skip_ext : forall (p q : ascii -> bool) s, (forall c, p c = q c) -> skip_while p s = skip_while q s.
Proof. induction s as [|c s IH]; intros E; auto. cbn [skip_while]. rewrite E. destruct (q c); auto. Qed.

Lemma dropTail_ok : forall f s, List.length s <= f -> hdIs (Ascii.eqb chM) (skip_while white s) = false -> dropTail f s = skip_while white s.
Proof.
  induction f as [|f IH]; intros s L H; [destruct s; [reflexivity|cbn in L; lia]|].
  destruct s as [|c s]; [reflexivity|]. cbn [dropTail]. cbn [skip_while] in *. rewrite cls_white. destruct (white c); [apply IH; auto; cbn in L; lia|].
  cbn [hdIs] in H. rewrite Ascii.eqb_sym in H. now rewrite H.
Qed.

Lemma rawArg_left : forall raw next, hdIs (Ascii.eqb chM) (rev (rtrim raw)) = false -> rawArg false true raw next = Some (rtrim raw).
Proof.
  intros raw next H. unfold rawArg, rtrim in *. rewrite rev_involutive in H. cbn [app]. f_equal. f_equal.
  apply dropTail_ok; auto. rewrite rev_length. lia.
Qed.

Lemma noMark_tail : forall a b, noMark (a ++ b) = true -> noMark b = true.
Proof.
  induction a as [|c a IH]; intros b H; auto. apply IH. destruct a as [|d a]; cbn [app] in *.
  - destruct b; [reflexivity|]. cbn [noMark] in H. now apply andb_true_iff in H.
  - cbn [noMark] in H. now apply andb_true_iff in H.
Qed.
Lemma skip_split : forall (p : ascii -> bool) s, exists a, s = a ++ skip_while p s.
Proof.
  induction s as [|c s [a IH]]; [now exists []|]. cbn [skip_while]. destruct (p c); [|now exists []].
  exists (c :: a). cbn. now rewrite <- IH.
Qed.
Lemma take_skip : forall (p : ascii -> bool) s, take_while p s ++ skip_while p s = s.
Proof. induction s as [|c s IH]; auto. cbn. destruct (p c); cbn; auto. now rewrite IH. Qed.

Lemma mark_pair : forall a m r, noMark (a :: m :: r) = true -> Ascii.eqb a chA && Ascii.eqb m chM = false.
Proof. intros a m r H. cbn [noMark] in H. apply andb_true_iff in H. destruct H as [H _]. apply negb_true_iff in H. exact H. Qed.

Lemma rawArg_right : forall raw next, noMark (raw ++ next) = true -> rawArg true false raw next = Some (ltrim raw).
Proof.
  intros raw next H. unfold rawArg, ltrim. rewrite (skip_ext isSpace white) by apply cls_white.
  destruct (skip_split white raw) as [a EA]. destruct (skip_split isIdChar (skip_while white raw)) as [b EB].
  assert (N : noMark (skip_while isIdChar (skip_while white raw) ++ next) = true).
  { apply (noMark_tail (a ++ b)). rewrite <- app_assoc, (app_assoc b), <- EB, app_assoc, <- EA. exact H. }
  assert (TS := take_skip isIdChar (skip_while white raw)).
  destruct (skip_while isIdChar (skip_while white raw)) as [|x [|y mid]].
  - cbn [app] in N. destruct next as [|c [|d next]].
    + now rewrite TS.
    + now rewrite TS.
    + rewrite (mark_pair _ _ _ N). now rewrite TS.
  - cbn [app] in N. destruct next as [|c next]; [now rewrite TS|]. rewrite (mark_pair _ _ _ N). now rewrite TS.
  - cbn [app] in N. rewrite (mark_pair _ _ _ N). now rewrite TS.
Qed.

(* a definition `x ## y' *)
Lemma hor_skip : forall w r, forallb isHor w = true -> hdIs isHor r = false -> skip_while isHor (w ++ r) = r.
Proof. intros w r F H. exact (proj2 (tw_app isHor w r F H)). Qed.

Lemma hor_copy : forall w f ps trail rest cur refs cc ms, forallb isHor w = true -> List.length (w ++ rest) < f ->
  exists f' cc', List.length rest < f' /\
    collectAux f ps trail (w ++ rest) cur refs None cc false ms = collectAux f' ps trail rest (rev w ++ cur) refs None cc' false ms.
Proof.
  induction w as [|c w IH]; intros f ps trail rest cur refs cc ms F L; [exists f, cc; auto|].
  cbn [forallb] in F. apply andb_true_iff in F. destruct F as [F1 F2]. destruct f as [|f]; [cbn in L; lia|]. cbn [app List.length] in L |- *.
  assert (X : isQuote c = false /\ Ascii.eqb c chB = false /\ Ascii.eqb c chA = false /\ Ascii.eqb c chH = false /\ isIdChar c = false).
  { clear - F1. destruct c as [[] [] [] [] [] [] [] []]; try discriminate; repeat split; reflexivity. }
  destruct X as [X1 [X2 [X3 [X4 X5]]]]. cbn [collectAux]. rewrite X1, X2, X3, X4, X5. cbn [andb].
  destruct (IH f ps trail rest (c :: cur) refs false ms F2 ltac:(lia)) as [f' [cc' [L' E]]]. exists f', cc'. split; auto.
  rewrite E. cbn [rev]. now rewrite <- app_assoc.
Qed.

Lemma dropHor_all : forall w cur, forallb isHor w = true -> hdIs isHor cur = false -> dropHor (rev w ++ cur) = cur.
Proof. intros w cur F H. apply hor_skip; auto. rewrite forallb_forall in *. intros c I. apply F. now apply in_rev. Qed.

Lemma word_step : forall ps trail w rest f cur refs cc ms k,
  ps <> [] -> paramOk w -> hdIs isIdChar rest = false -> (w = [chL] -> hdIs isQuote rest = false) -> look ps w = Some k -> List.length (w ++ rest) < f ->
  exists f', List.length rest < f' /\
  collectAux f (Some ps) trail (w ++ rest) cur refs None cc false ms
  = collectAux f' (Some ps) trail rest [] (mkRef (rev cur) k cc
      (match skip_while isHor rest with a :: b :: _ => Ascii.eqb a chH && Ascii.eqb b chH | _ => false end) false :: refs) None false false ms.
Proof.
  intros ps trail w rest f cur refs cc ms k NE P B1 B2 LK L. destruct w as [|c w]; [contradiction|]. destruct P as [S1 S2].
  destruct f as [|f]; [lia|]. exists f. split; [cbn in L; rewrite app_length in L; lia|].
  assert (FW : forallb isIdChar (c :: w) = true).
  { rewrite <- fb_word. cbn [forallb]. now rewrite (letter_word c S1). }
  destruct (tw_app isIdChar (c :: w) rest FW B1) as [T1 T2]. cbn [app] in T1, T2.
  assert (Wc := letter_word c S1). destruct (word_not_special c Wc) as [Q [NA [NB [NH _]]]].
  cbn [app collectAux]. rewrite T1, T2.
  rewrite cls_quote, Q, (neq_eqb _ _ NB), (neq_eqb _ _ NA), (neq_eqb _ _ NH), cls_word, Wc, cls_start, S1.
  replace (match ps with [] => false | _ :: _ => true end) with true by (destruct ps; congruence).
  cbn [andb].
  assert (X : Nat.eqb (List.length (c :: w)) 1 && Ascii.eqb c chL && hdIs isQuote rest = false).
  { destruct w as [|d w]; [|reflexivity]. cbn [List.length Nat.eqb andb]. destruct (Ascii.eqb c chL) eqn:E; [|reflexivity].
    apply eqb_eq in E. subst c. cbn [andb]. now apply B2. }
  rewrite X. cbn [negb andb]. rewrite LK. reflexivity.
Qed.

Lemma start_notquote_hor : forall y z, paramOk y -> hdIs isHor (y ++ z) = false.
Proof.
  intros [|c y] z P; [contradiction|]. destruct P as [P _]. cbn. clear - P. destruct c as [[] [] [] [] [] [] [] []]; try reflexivity; discriminate.
Qed.

Lemma paste_ok : forall x y w1 w2 trail a b,
  paramOk x -> paramOk y -> x <> y -> forallb hblank w1 = true -> forallb hblank w2 = true ->
  noMark (a_raw b) = true ->
  hdIs (Ascii.eqb chM) (rev (rtrim (a_raw a))) = false ->
  exists d, collect (Some [x; y]) (x ++ w1 ++ lit "##" ++ w2 ++ y) trail = Some d /\ d_msgs d = [] /\
    expandCall (Some [x; y]) d [a; b] = Some ([chA; ch_space] ++ rtrim (a_raw a) ++ ltrim (a_raw b) ++ markEnd).
Proof.
  intros x y w1 w2 trail a b PX PY NXY H1 H2 NM NT.
  assert (F1 : forallb isHor w1 = true) by (rewrite forallb_forall in *; intros c I; rewrite <- hblank_hor; auto).
  assert (F2 : forallb isHor w2 = true) by (rewrite forallb_forall in *; intros c I; rewrite <- hblank_hor; auto).
  set (body := x ++ w1 ++ lit "##" ++ w2 ++ y).
  assert (LX : look [x; y] x = Some 0).
  { unfold look. cbn [lookFrom]. rewrite cstr_eqb_refl. destruct (cstr_eqb y x) eqn:E; [|reflexivity]. apply cstr_eqb_eq in E. congruence. }
  assert (LY : look [x; y] y = Some 1) by (unfold look; cbn [lookFrom]; now rewrite cstr_eqb_refl).
  assert (B1 : hdIs isIdChar (w1 ++ lit "##" ++ w2 ++ y) = false /\ hdIs isQuote (w1 ++ lit "##" ++ w2 ++ y) = false).
  { destruct w1 as [|c w1]; [split; reflexivity|]. cbn [forallb] in F1. apply andb_true_iff in F1. destruct F1 as [F1 _]. cbn.
    clear - F1. destruct c as [[] [] [] [] [] [] [] []]; try discriminate; split; reflexivity. }
  assert (ST : collect (Some [x; y]) body trail = collectAux (S (List.length body)) (Some [x; y]) trail body [ch_space; chA] [] None false false []).
  { unfold collect. subst body. destruct x as [|c x]; [contradiction|]. destruct PX as [PX _]. cbn [app].
    destruct (x ++ _) as [|d r]; auto. assert (Y : Ascii.eqb c chH = false) by (clear - PX; destruct c as [[] [] [] [] [] [] [] []]; try reflexivity; discriminate).
    now rewrite Y. }
  rewrite ST. unfold body at 2.
  destruct (word_step [x; y] trail x (w1 ++ lit "##" ++ w2 ++ y) (S (List.length body)) [ch_space; chA] [] false [] 0) as [f1 [L1 E1]]; auto.
  { discriminate. } { apply B1. } { intros _; apply B1. }
  rewrite E1.
  rewrite hor_skip by (auto; reflexivity).
  change (match lit "##" ++ w2 ++ y with a0 :: b0 :: _ => Ascii.eqb a0 chH && Ascii.eqb b0 chH | _ => false end) with true.
  destruct (hor_copy w1 f1 (Some [x; y]) trail (lit "##" ++ w2 ++ y) [] [mkRef (rev [ch_space; chA]) 0 false true false] false [] F1 L1) as [f2 [cc2 [L2 E2]]].
  rewrite E2. clear E1 E2. destruct f2 as [|f2]; [lia|].
  change (lit "##" ++ w2 ++ y) with (chH :: chH :: w2 ++ y) in *. cbn [List.length] in L2.
  assert (E3 : forall cur refs cc, collectAux (S f2) (Some [x; y]) trail (chH :: chH :: w2 ++ y) cur refs None cc false []
     = collectAux f2 (Some [x; y]) trail (skip_while isHor (w2 ++ y)) (dropHor cur) refs None true false
         (if match skip_while isHor (w2 ++ y) with [] => negb (hdIs isHor trail) | _ => false end then [MEnd] else [])) by reflexivity.
  rewrite E3. rewrite hor_skip; auto; [|assert (Z := start_notquote_hor y [] PY); now rewrite app_nil_r in Z].
  rewrite dropHor_all by auto.
  assert (YN : y <> []) by (destruct y; [contradiction|discriminate]).
  replace (match y with [] => negb (hdIs isHor trail) | _ :: _ => false end) with false by (destruct y; congruence).
  destruct (word_step [x; y] trail y [] f2 [] [mkRef (rev [ch_space; chA]) 0 false true false] true [] 1) as [f3 [L3 E4]]; auto.
  { discriminate. } { rewrite app_nil_r. rewrite app_length in L2. lia. }
  rewrite app_nil_r in E4. rewrite E4. destruct f3 as [|f3]; [lia|].
  eexists. split; [reflexivity|]. split; [reflexivity|].
  cbn [expandCall d_refs d_tail rev app build r_text r_arg r_before r_after r_str nth orb].
  rewrite rawArg_left by auto.
  assert (BE : behind [mkRef [chA; ch_space] 0 false true false; mkRef [] 1 true false false] [a; b] 1 = []) by reflexivity.
  unfold markEnd. cbn [skip_while] in *.
  match goal with |- context [rawArg true false (a_raw b) ?n] => assert (BN : n = []) by reflexivity; rewrite BN end.
  rewrite rawArg_right by (now rewrite app_nil_r).
  cbn [app]. repeat rewrite <- app_assoc. reflexivity.
Qed.
