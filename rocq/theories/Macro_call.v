(* A call of a macro in the text around it. *)
From Verif Require Import Cbase Cbase_facts Macro_model Macro_spec Macro_proofs Macro_lex Macro_str Macro_sub Macro_build Macro_hash Macro_scan.
Import ListNotations.
Open Scope nat_scope.
Open Scope list_scope.

Lemma lastState_end : forall s, endOf s = lastState s.
Proof.
  intros s. destruct s as [|c r]; [reflexivity|]. destruct (last_piece (c :: r) ltac:(discriminate)) as [l [p [A [B _]]]].
  unfold lastState. rewrite A, rev_app_distr. exact B.
Qed.

Lemma fresh_closed : forall pre n, fresh pre n -> isOpen (endOf pre) = false.
Proof.
  intros pre n [LN [W|E]]; rewrite lastState_end; [now rewrite W|].
  destruct (lastState pre); auto; cbn [ext] in E.
  - destruct esc; [discriminate|]. destruct (Ascii.eqb n q); discriminate.
  - destruct (star && _); discriminate.
  - destruct (Ascii.eqb n "010") eqn:X; [|discriminate]. apply eqb_eq in X. subst n. discriminate.
Qed.

Lemma digit_first : forall M c, hdc M = Some c -> digitC c = true ->
  exists t r, tokens (view ([chA; ch_space] ++ M)) = t :: r /\ begins digitC t = true.
Proof.
  intros [|x M] c H D; [discriminate|]. cbn in H. inversion H; subst x.
  assert (NA : c <> chA) by (intros ->; discriminate).
  assert (NW : white c = false) by (destruct c as [[] [] [] [] [] [] [] []]; try reflexivity; discriminate).
  assert (V : view ([chA; ch_space] ++ c :: M) = ch_space :: c :: view M).
  { unfold view. cbn. rewrite (neq_eqb _ _ NA). reflexivity. }
  rewrite V. unfold tokens, nonblank. cbn [pieces]. change (start ch_space) with LWhite. cbn [piecesFrom ext]. rewrite NW.
  cbn [filter blank fst negb map snd rev app].
  change (piecesFrom (start c) [c] (view M)) with (pieces (c :: view M)).
  destruct (chain_pieces (c :: view M)) as [CH FL]. destruct (pieces (c :: view M)) as [|p l]; [discriminate|].
  destruct (chain_inv _ _ CH) as [W _]. destruct (whole_pieces p W) as [_ [_ NE]].
  change (flat (p :: l)) with (snd p ++ flat l) in FL. unfold whole in W.
  destruct (snd p) as [|y w] eqn:SP; [congruence|]. cbn [app] in FL. inversion FL; subst y.
  assert (ST : start c = LNum false).
  { unfold start. rewrite NW, D. destruct (letterC c) eqn:L; auto. exfalso. clear - D L. destruct c as [[] [] [] [] [] [] [] []]; discriminate. }
  rewrite ST in W. destruct (run_num _ _ _ W) as [e E].
  assert (NB : blank p = false) by (unfold blank; now rewrite E).
  cbn [filter]. rewrite NB. cbn [negb map]. rewrite SP. eexists _, _. split; [reflexivity|]. exact D.
Qed.

Lemma next_apart : forall prev post, apartP prev (nextOf post) -> forall q r, pieces post = q :: r -> apartP prev [Own q].
Proof. intros prev post H q r E. unfold nextOf in H. rewrite E in H. exact H. Qed.

Lemma call_ok : forall ps args body trail pre n post,
  let items := substItems (rawF ps args) (expF ps args) (pieces body) in
  ps <> [] -> NoDup ps -> List.length args = List.length ps -> bodyOk ps body ->
  (forall w a, In w (hashed (pieces body)) -> argOf ps args w = Some a -> rawOk (a_raw a)) ->
  (forall a, In a args -> marksOk (a_exp a) = true /\ allClosed (pieces (unmark (a_exp a)))) ->
  apart (items ++ nextOf post) -> fresh pre n ->
  (forall t r, itemTokens items = t :: r -> begins digitC t = true -> lastState pre <> LOp (lit ".")) ->
  exists d x, collect (Some ps) body trail = Some d /\ d_msgs d = [] /\ expandCall (Some ps) d args = Some x /\
    tokens (view x) = itemTokens items /\
    tokens (pre ++ view (tailTrim (headTrim x) (hdc post)) ++ post) = tokens pre ++ itemTokens items ++ tokens post.
Proof.
  intros ps args body trail pre n post items NE ND LEN BO RAW EXP AP FR DOT.
  destruct (substitution_gen ps args body trail (nextOf post) NE ND LEN BO RAW EXP AP) as [d [M [prev [E1 [E2 [E3 [G [AP' T]]]]]]]].
  fold items in T. exists d, ([chA; ch_space] ++ M ++ markEnd). repeat (split; [assumption|]). split.
  - rewrite app_assoc. destruct (good_marker _ _ G) as [_ [_ TM]]. rewrite TM. exact T.
  - rewrite (context_ok pre n post M prev G (next_apart _ _ AP') (fresh_closed _ _ FR) (proj1 FR)).
    + now rewrite T.
    + destruct FR as [LN [W|E]]; unfold J; rewrite lastState_end; auto.
    + intros c H D. destruct (digit_first M c H D) as [t [r [X B]]]. rewrite lastState_end. rewrite T in X. now apply (DOT t r X).
Qed.

Lemma plain_ok : forall ps body trail args pre n post,
  match ps with None => True | Some l => l = [] /\ ~ In chH body end -> ~ In chA body -> noHH body = true ->
  (forall p, In p (pieces body) -> isOpen (fst p) = false /\ fst p <> LBlkEnd) ->
  apart (map Own (pieces body) ++ nextOf post) -> fresh pre n ->
  (forall t r, tokens body = t :: r -> begins digitC t = true -> lastState pre <> LOp (lit ".")) ->
  exists d x, collect ps body trail = Some d /\ d_msgs d = [] /\ expandCall ps d args = Some x /\
    tokens (view x) = tokens body /\
    tokens (pre ++ view (tailTrim (headTrim x) (hdc post)) ++ post) = tokens pre ++ tokens body ++ tokens post.
Proof.
  intros ps body trail args pre n post HP NA NH CL AP FR DOT.
  destruct (plain_gen ps body trail (nextOf post) HP NA NH CL AP) as [prev [E1 [G [AP' T]]]].
  eexists _, ([chA; ch_space] ++ body ++ markEnd). split; [exact E1|]. split; [reflexivity|]. split.
  { destruct ps as [l|]; [destruct HP as [-> _]|]; reflexivity. } split.
  - rewrite app_assoc. destruct (good_marker _ _ G) as [_ [_ TM]]. rewrite TM. exact T.
  - rewrite (context_ok pre n post body prev G (next_apart _ _ AP') (fresh_closed _ _ FR) (proj1 FR)).
    + now rewrite T.
    + destruct FR as [LN [W|E]]; unfold J; rewrite lastState_end; auto.
    + intros c H D. destruct (digit_first body c H D) as [t [r [X B]]]. rewrite lastState_end. rewrite T in X. now apply (DOT t r X).
Qed.

(* a definition is reported exactly if a # has no parameter *)
Lemma hash_reports : forall ps body trail, ps <> [] ->
  allClosed (pieces body) -> (forall p, In p (pieces body) -> fst p <> LBlkEnd) -> ~ In "@"%char body -> ~ In "010"%char body ->
  (forall p, In p (pieces body) -> snd p <> lit "##") ->
  (forall p w, In p (pieces body) -> isNumber p = true -> In w (partsFrom [] (snd p)) -> ~ In w ps) ->
  exists d, collect (Some ps) body trail = Some d /\ (d_msgs d = [] <-> hashesOk (memS ps) (pieces body) = true).
Proof.
  intros ps body trail NE CL NC NA NL NP NN.
  assert (BP : forall p, In p (pieces body) -> bp ps p).
  { intros p I. split; [now apply CL|]. split; [now apply NC|]. split.
    { intros X. apply NA. now apply (in_pieces_char body p). } split.
    { intros X. apply NL. now apply (in_pieces_char body p). } split; [now apply NP|]. intros N w. now apply (NN p). }
  destruct (chain_pieces body) as [C F].
  assert (ST : collect (Some ps) body trail = collectAux (S (List.length body)) (Some ps) trail body [ch_space; chA] [] None false false []).
  { unfold collect. destruct body as [|a [|b r]]; auto.
    destruct (Ascii.eqb a chH && Ascii.eqb b chH) eqn:E; auto. exfalso. apply andb_true_iff in E. destruct E as [E1 E2].
    apply eqb_eq in E1. apply eqb_eq in E2. subst a b.
    assert (E3 : pieces (chH :: chH :: r) = piecesFrom (LOp (lit "##")) [chH; chH] r) by reflexivity.
    assert (X : forall r, exists st, In (st, lit "##") (piecesFrom (LOp (lit "##")) [chH; chH] r)).
    { clear. intros [|c r]; [exists (LOp (lit "##")); now left|]. cbn [piecesFrom].
      assert (N : ext (LOp (lit "##")) c = None) by (destruct c as [[] [] [] [] [] [] [] []]; reflexivity). rewrite N. eexists. now left. }
    destruct (X r) as [st I]. rewrite <- E3 in I. now apply (NP _ I). }
  rewrite ST.
  destruct (hashesOk (memS ps) (pieces body)) eqn:H.
  - assert (CE := collect_er ps trail NE (List.length (pieces body)) (pieces body) (le_n _) C BP H (S (List.length body)) [ch_space; chA] [] []).
    rewrite F in CE. eexists. split; [apply CE; lia|]. cbn. tauto.
  - destruct (collect_bad ps trail NE (List.length (pieces body)) (pieces body) (le_n _) C BP H (S (List.length body)) [ch_space; chA] [] []) as [d [D1 D2]].
    { rewrite F. lia. }
    rewrite F in D1. exists d. split; auto. split; [contradiction|discriminate].
Qed.

Lemma start_reports : forall ps r trail, exists d, collect ps (chH :: chH :: r) trail = Some d /\ In MStart (d_msgs d).
Proof.
  intros ps r trail. unfold collect. cbn [andb]. change (Ascii.eqb chH chH) with true. cbn [andb].
  destruct (collect_total (S (List.length r)) ps trail r [ch_space; chA] [] None false false [MStart] ltac:(lia)) as [d [more [E M]]].
  exists d. split; auto. rewrite M. now left.
Qed.
