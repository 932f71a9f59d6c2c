(* The text of a call. *)
From Verif Require Import Cbase Cbase_facts Macro_model Macro_spec Macro_proofs Macro_lex Macro_str Macro_sub.
Import ListNotations.
Open Scope nat_scope.
Open Scope list_scope.

Lemma view_app : forall a b, view (a ++ b) = view a ++ view b.
Proof. intros. unfold view. apply filter_app. Qed.
Lemma view_id : forall t, ~ In chA t -> view t = t.
Proof.
  induction t as [|c t IH]; intros N; auto. cbn [view filter]. rewrite neq_eqb by (intros ->; apply N; now left).
  cbn [negb]. f_equal. apply IH. intros I. apply N. now right.
Qed.
Lemma view_unmark : forall s, view s = unmark s. Proof. reflexivity. Qed.

Definition linked (prev : option item) (st : lst) (c1 : ascii) : Prop :=
  st = LWhite \/ exists i w, prev = Some i /\ rev (itemText i) = c1 :: w /\
    (forall s, st = LOp s -> itemText i = s) /\ (st = LId true -> itemText i = [chL]).

Definition good (prev : option item) (o : cstr) : Prop :=
  exists o' c1, o = o' ++ [c1] /\ c1 <> chA /\ isOpen (endOf (view o)) = false /\ linked prev (endOf (view o)) c1.

Lemma good_agrees : forall prev o, good prev o -> exists o' c1, o = o' ++ [c1] /\ c1 <> chA /\
  isOpen (endOf (view o)) = false /\ linked prev (endOf (view o)) c1 /\ agrees (endOf (view o)) c1 /\ lastc o = Some c1.
Proof.
  intros prev o [o' [c1 [E [N [O L]]]]]. exists o', c1. repeat (split; [assumption|]). split.
  - subst o. rewrite view_app. rewrite (view_id [c1]) by (intros [->|[]]; congruence). apply agrees_end.
  - subst o. unfold lastc. now rewrite rev_app_distr.
Qed.

Lemma good_space : forall prev o, good prev o -> J (endOf (view o)) ch_space.
Proof. intros prev o G. destruct (good_agrees _ _ G) as [o' [c1 [_ [_ [O [_ [A _]]]]]]]. eapply closed_space; eauto. Qed.

Lemma good_marker : forall prev o, good prev o -> good prev (o ++ markEnd) /\ endOf (view (o ++ markEnd)) = LWhite
  /\ tokens (view (o ++ markEnd)) = tokens (view o).
Proof.
  intros prev o G. assert (S := good_space _ _ G).
  replace (view (o ++ markEnd)) with (view o ++ [ch_space]) by now rewrite view_app.
  destruct (tok_app (view o) ch_space [] S) as [T E]. rewrite T, E. cbn [endOf endFrom tokens].
  split; [|split; [reflexivity|now rewrite app_nil_r]].
  exists (o ++ [chA]), ch_space. split; [now rewrite <- app_assoc|]. split; [discriminate|].
  replace (view (o ++ markEnd)) with (view o ++ [ch_space]) by now rewrite view_app. rewrite E. cbn. split; auto. now left.
Qed.

Lemma last_piece : forall s, s <> [] -> exists l p, pieces s = l ++ [p] /\ endOf s = fst p /\ whole p /\ s = flat l ++ snd p.
Proof.
  assert (G : forall txt st cur, whole (st, rev cur) -> exists l p, piecesFrom st cur txt = l ++ [p] /\ endFrom st txt = fst p /\ whole p).
  { induction txt as [|c txt IH]; intros st cur W; cbn [piecesFrom endFrom].
    - exists [], (st, rev cur). auto.
    - destruct (ext st c) as [st'|] eqn:E.
      + apply IH. unfold whole in *. cbn [fst snd rev] in *. destruct (rev cur) as [|d r]; [contradiction|].
        cbn [app]. rewrite runS_app, W. cbn [runS]. now rewrite E.
      + destruct (IH (start c) [c]) as [l [p [A [B C]]]]; [reflexivity|].
        exists ((st, rev cur) :: l), p. rewrite A. auto. }
  intros [|c r] N; [congruence|]. destruct (G r (start c) [c]) as [l [p [A [B C]]]]; [reflexivity|].
  exists l, p. split; [exact A|]. split; [exact B|]. split; auto.
  destruct (chain_pieces (c :: r)) as [_ F]. cbn [pieces] in F. rewrite A in F. rewrite <- F.
  unfold flat. rewrite map_app, concat_app. cbn. now rewrite app_nil_r.
Qed.

Lemma linked_piece : forall p c w, whole p -> rev (snd p) = c :: w -> linked (Some (Own p)) (fst p) c.
Proof.
  intros p c w W R. right. exists (Own p), w. cbn [itemText]. split; auto. split; auto.
  assert (S := whole_shape p W). split.
  - intros s E. rewrite E in S. simpl in S. apply S.
  - intros E. rewrite E in S. simpl in S. destruct S as [_ S]. now apply S.
Qed.

(* text of one piece *)
Lemma step_text : forall prev o p, good prev o -> whole p -> isOpen (fst p) = false -> ~ In chA (snd p) ->
  (forall c, hdc (snd p) = Some c -> J (endOf (view o)) c) ->
  good (Some (Own p)) (o ++ snd p) /\ endOf (view (o ++ snd p)) = fst p /\
  tokens (view (o ++ snd p)) = tokens (view o) ++ (if blank p then [] else [snd p]).
Proof.
  intros prev o p G W O NA HJ. rewrite view_app, (view_id (snd p)) by auto.
  destruct (whole_pieces p W) as [_ [E NE]]. assert (TK := whole_tokens p W).
  assert (T : exists c r, snd p = c :: r) by (destruct (snd p); [congruence|eauto]).
  destruct T as [c [r T]]. destruct (tok_app (view o) c r) as [X Y]; [apply HJ; now rewrite T|].
  rewrite <- T in X, Y. rewrite X, Y, TK, E. split; auto.
  destruct (exists_last NE) as [t' [x L]].
  exists (o ++ t'), x. split; [rewrite L; now rewrite app_assoc|]. split.
  { intros ->. apply NA. rewrite L. apply in_or_app. right. now left. }
  rewrite view_app, (view_id (snd p)) by auto. rewrite Y, E. split; auto.
  apply (linked_piece p x (rev t')); auto. rewrite L. now rewrite rev_app_distr.
Qed.

(* a string made by # *)
Lemma step_made : forall prev o s, good prev o -> whole (LEnd, s) -> ~ In chA s ->
  (exists r, s = ch_dquote :: r) ->
  (forall i, prev = Some i -> itemText i <> [chL]) ->
  good (Some (Made s)) (o ++ s) /\ endOf (view (o ++ s)) = LEnd /\
  tokens (view (o ++ s)) = tokens (view o) ++ [s].
Proof.
  intros prev o s G W NA [r T] NL.
  destruct (step_text prev o (LEnd, s) G W eq_refl NA) as [G' [E K]].
  - cbn [snd]. intros c H. rewrite T in H. inversion H; subst.
    destruct (good_agrees _ _ G) as [o' [c1 [_ [N1 [O [L [A _]]]]]]]. unfold J.
    destruct (endOf (view o)) as [|isL|e|? ?| |z|?| |] eqn:ST; try discriminate; auto; right; cbn [ext]; try reflexivity.
    + destruct isL; [|reflexivity]. exfalso.
      destruct L as [L|[i [w [P [_ [_ L]]]]]]; [discriminate|]. apply (NL i P). auto.
    + now destruct e.
    + assert (X : existsb (cstr_eqb (z ++ [ch_dquote])) longOps = false).
      { apply not_true_is_false. intros X. apply existsb_exists in X. destruct X as [x [I X]].
        apply cstr_eqb_eq in X. subst x. cbn in I.
        repeat (destruct I as [I|I]; [apply (f_equal (@rev ascii)) in I; rewrite rev_app_distr in I; discriminate|]). exact I. }
      rewrite X.
      assert (N : forall t, cstr_eqb (z ++ [ch_dquote]) (t ++ ["*"%char]) = false /\ cstr_eqb (z ++ [ch_dquote]) (t ++ ["/"%char]) = false).
      { intros t. split; apply not_true_is_false; intros Z; apply cstr_eqb_eq in Z; apply app_inj_tail in Z; destruct Z; discriminate. }
      destruct (N ["/"%char]) as [M1 M2]. cbn [app] in M1, M2. cbn [lit list_ascii_of_string]. rewrite M1, M2.
      replace (digitC ch_dquote) with false by reflexivity. rewrite andb_false_r. reflexivity.
  - cbn [snd] in *. split; [|split; auto].
    destruct G' as [o' [c1 [E1 [N1 [O1 L1]]]]]. exists o', c1. repeat (split; [assumption|]).
    destruct L1 as [L1|[i [w [P [R [L1 L2]]]]]]; [now left|]. right.
    exists (Made s), w. inversion P; subst i. auto.
Qed.

Lemma marksOk_last : forall e x c, marksOk e = true -> e = x ++ [c] -> c <> chA.
Proof.
  intros e x c M E ->. subst e. induction x as [|d x IH].
  - cbn in M. discriminate.
  - cbn [app marksOk] in M. apply andb_true_iff in M. apply IH. apply M.
Qed.

Lemma clash_gap : forall i q c1 c2 st w, rev (itemText i) = c1 :: w -> (forall s, st = LOp s -> itemText i = s) ->
  hdc (snd q) = Some c2 -> clash i (Own q) = false -> ~ gap st c1 c2.
Proof.
  intros i [sq tq] c1 c2 st w R LO H CL G. unfold clash, clashT in CL. cbn [snd] in *. destruct tq as [|d t]; [discriminate|].
  inversion H; subst d. rewrite !orb_false_iff in CL. destruct CL as [[C1 C2] C3].
  destruct G as [[E F]|[[E F]|[E F]]]; subst.
  - rewrite (LO _ eq_refl) in C1. discriminate.
  - rewrite (LO _ eq_refl) in C2. discriminate.
  - unfold ends in C3. rewrite R in C3. cbn [begins] in C3. change (true && (wordC c2 || Ascii.eqb c2 "."%char) = false) in C3. cbn [andb] in C3.
    destruct F as [F|F]; [rewrite F in C3; discriminate|]. subst. discriminate.
Qed.

(* next characters that cannot join *)
Lemma J_unsafe : forall prev o q c2, good prev o -> (forall i, prev = Some i -> clash i (Own q) = false) ->
  hdc (snd q) = Some c2 -> (forall c1, lastc o = Some c1 -> unsafe c1 c2 = false) -> J (endOf (view o)) c2.
Proof.
  intros prev o q c2 G CL H U. destruct (good_agrees _ _ G) as [o' [c1 [_ [N1 [O [L [A LC]]]]]]].
  destruct L as [L|[i [w [P [R [LO _]]]]]]; [now left|].
  eapply unsafe_ok; eauto. eapply clash_gap; eauto.
Qed.

Definition apartP (prev : option item) (l : list item) : Prop :=
  match prev with Some i => apart (i :: l) | None => apart l end.

Lemma apartP_head : forall prev j l, apartP prev (j :: l) -> (forall i, prev = Some i -> clash i j = false) /\ apart (j :: l).
Proof.
  intros [i|] j l H; cbn [apartP] in H.
  - cbn [apart] in H. destruct H as [H1 H2]. split; auto. intros i' E. now inversion E; subst.
  - split; auto. discriminate.
Qed.
Lemma apart_tail : forall l p r, apart (map Own (l ++ [p]) ++ r) -> apart (Own p :: r).
Proof.
  induction l as [|q l IH]; intros p r H; [exact H|]. apply IH.
  change (map Own ((q :: l) ++ [p]) ++ r) with (Own q :: (map Own (l ++ [p]) ++ r)) in H.
  destruct (map Own (l ++ [p]) ++ r) as [|j x] eqn:E; [exact I|]. cbn [apart] in H. apply H.
Qed.

Lemma marker_cases : forall o s, marker o s = [] \/ marker o s = markEnd.
Proof.
  intros [c1|] [|c2 s]; cbn; auto. destruct (unsafe c1 c2); auto.
Qed.

(* an expanded argument *)
Lemma add_exp : forall prev o e r, good prev o -> marksOk e = true -> allClosed (pieces (unmark e)) ->
  apartP prev (map Own (pieces (unmark e)) ++ r) ->
  exists prev', good prev' (o ++ marker (lastc o) e ++ e) /\ apartP prev' r /\
    tokens (view (o ++ marker (lastc o) e ++ e)) = tokens (view o) ++ tokens (unmark e).
Proof.
  intros prev o e r G M C AP. destruct e as [|x e].
  - exists prev. replace (marker (lastc o) []) with (@nil ascii) by (destruct (lastc o); reflexivity).
    cbn [app unmark filter]. rewrite !app_nil_r. split; auto.
  - set (E := x :: e) in *. assert (NE : unmark E <> []).
    { subst E. cbn [marksOk] in M. apply andb_true_iff in M. destruct M as [M _]. cbn [unmark filter].
      destruct (Ascii.eqb x "@") eqn:X; [|discriminate]. cbn [negb].
      destruct e as [|y e]; [discriminate|]. cbn [begins] in M. apply eqb_eq in M. subst y. discriminate. }
    destruct (last_piece (unmark E) NE) as [l [p [PE [EE [Wp FL]]]]].
    exists (Some (Own p)).
    assert (APT : apart (Own p :: r)).
    { assert (AP' : apart (map Own (pieces (unmark E)) ++ r)).
      { destruct prev as [i|]; [|exact AP]. cbn [apartP] in AP. destruct (map Own (pieces (unmark E)) ++ r) as [|j y]; [exact I|].
        cbn [apart] in AP. apply AP. }
      rewrite PE in AP'. now apply (apart_tail l). }
    set (m := marker (lastc o) E).
    assert (G1 : good prev (o ++ m) /\ tokens (view (o ++ m)) = tokens (view o)
                 /\ (endOf (view (o ++ m)) = LWhite \/ (m = [] /\ forall c1, lastc o = Some c1 -> unsafe c1 x = false))).
    { destruct (marker_cases (lastc o) E) as [Z|Z]; fold m in Z; rewrite Z.
      - rewrite app_nil_r. split; auto. split; auto. right. split; auto. intros c1 LC. subst m E. rewrite LC in Z. cbn in Z.
        destruct (unsafe c1 x); [discriminate|reflexivity].
      - destruct (good_marker prev o G) as [A [B D]]. auto. }
    clearbody m. destruct G1 as [G1 [T1 S1]].
    rewrite app_assoc. set (o1 := o ++ m) in *.
    assert (HJ : forall c, hdc (unmark E) = Some c -> J (endOf (view o1)) c).
    { intros c H. destruct S1 as [S1|[S1 S2]]; [left; exact S1|].
      subst m. assert (o1 = o) by (subst o1; apply app_nil_r). rewrite H0 in *. clear H0.
      destruct (Ascii.eqb x chA) eqn:XA.
      - (* starts with a marker *)
        apply eqb_eq in XA. subst x. subst E. cbn [marksOk] in M. apply andb_true_iff in M. destruct M as [M _].
        replace (Ascii.eqb chA "@") with true in M by reflexivity. destruct e as [|y e]; [discriminate|].
        cbn [begins] in M. apply eqb_eq in M. subst y. cbn in H. inversion H; subst c.
        change (" "%char) with ch_space. eapply good_space; eauto.
      - assert (HX : hdc (unmark E) = Some x).
        { subst E. cbn [unmark filter]. unfold chA in XA. rewrite XA. reflexivity. }
        rewrite HX in H. inversion H; subst c.
        destruct (pieces (unmark E)) as [|q0 ql] eqn:PQ; [destruct l; discriminate|].
        destruct (apartP_head prev (Own q0) (map Own ql ++ r)) as [CL _]; [exact AP|].
        apply (J_unsafe prev o q0); auto.
        destruct (chain_pieces (unmark E)) as [CP FP]. rewrite PQ in CP, FP.
        change (flat (q0 :: ql)) with (snd q0 ++ flat ql) in FP.
        destruct (chain_inv _ _ CP) as [W0 _]. destruct (whole_pieces q0 W0) as [_ [_ N0]].
        destruct (snd q0) as [|d w0] eqn:T0; [congruence|]. rewrite <- FP in HX. exact HX. }
    assert (VU : view (o1 ++ E) = view o1 ++ unmark E) by (rewrite view_app; reflexivity).
    destruct (unmark E) as [|u ue] eqn:UE; [congruence|].
    destruct (tok_app (view o1) u ue (HJ u eq_refl)) as [TK EK].
    split; [|split; [exact APT|]].
    + destruct (exists_last (l := E)) as [e' [y LE]]; [subst E; discriminate|].
      assert (NY := marksOk_last E e' y M LE).
      exists (o1 ++ e'), y. split; [rewrite LE; now rewrite app_assoc|]. split; auto.
      rewrite VU, EK, EE. split.
      * apply C. rewrite PE. apply in_or_app. right. now left.
      * assert (EY : u :: ue = unmark e' ++ [y]).
        { rewrite <- UE, LE. unfold unmark. rewrite filter_app. cbn [filter].
          change "@"%char with chA. now rewrite (neq_eqb _ _ NY). }
        destruct (whole_pieces p Wp) as [_ [_ NP]]. destruct (exists_last NP) as [tp [z LP]].
        assert (z = y). { rewrite FL, LP, app_assoc in EY. apply app_inj_tail in EY. apply EY. } subst z.
        apply (linked_piece p y (rev tp)); auto. rewrite LP. now rewrite rev_app_distr.
    + rewrite VU, TK, T1. reflexivity.
Qed.

Section Build.
  Variable ps : list cstr.
  Variable args : list arg.
  Variable all : list ref.
  Hypothesis ND : NoDup ps.
  Hypothesis LEN : List.length args = List.length ps.
  Hypothesis EXPM : forall a, In a args -> marksOk (a_exp a) = true.
  Hypothesis EXPC : forall a, In a args -> allClosed (pieces (unmark (a_exp a))).

  Definition rawF (n : cstr) : option cstr := option_map a_raw (argOf ps args n).
  Definition expF (n : cstr) : option cstr := option_map (fun a => unmark (a_exp a)) (argOf ps args n).

  Lemma look_argOf : forall w, match look ps w with
    | Some k => argOf ps args w = Some (nth k args noArg) /\ In (nth k args noArg) args
    | None => argOf ps args w = None
    end.
  Proof.
    intros w. unfold look.
    assert (X : forall l (al : list arg) n, NoDup l -> List.length al = List.length l ->
      match lookFrom n l w with
      | Some k => n <= k /\ k < n + List.length l /\ argOf l al w = Some (nth (k - n) al noArg) /\ In w l
      | None => argOf l al w = None
      end).
    { induction l as [|p l IH]; intros al n NDl LN; [now destruct al|].
      destruct al as [|a al]; [discriminate|]. cbn [lookFrom]. inversion NDl as [|? ? NI NDl']; subst.
      cbn in LN. injection LN as LN.
      specialize (IH al (S n) NDl' LN). destruct (lookFrom (S n) l w) as [k|].
      - destruct IH as [A [B [D F]]]. split; [lia|]. split; [cbn; lia|]. split; [|now right].
        cbn [argOf]. destruct (cstr_eqb p w) eqn:E.
        + apply cstr_eqb_eq in E. subst. contradiction.
        + rewrite D. replace (k - n) with (S (k - S n)) by lia. reflexivity.
      - cbn [argOf]. destruct (cstr_eqb p w) eqn:E; [|exact IH]. split; [lia|]. split; [cbn; lia|].
        replace (n - n) with 0 by lia. split; auto. apply cstr_eqb_eq in E. now left. }
    specialize (X ps args 0 ND LEN). destruct (lookFrom 0 ps w) as [k|]; auto.
    destruct X as [_ [B [D _]]]. rewrite Nat.sub_0_r in D. split; auto. apply nth_In. rewrite LEN. lia.
  Qed.

  Lemma er_front : forall l cur, hashesOk (memS ps) l = true ->
    exists X, allText (fst (er ps cur l)) (snd (er ps cur l)) = cur ++ X.
  Proof.
    induction l as [|p l IH]; intros cur H.
    - exists markEnd. reflexivity.
    - cbn [hashesOk] in H. apply andb_true_iff in H. destruct H as [H1 H2]. cbn [er].
      destruct (isHash p).
      + destruct l as [|q r']; [discriminate|]. destruct (isWhite q).
        * destruct r' as [|q' r'']; [discriminate|]. apply andb_true_iff in H1. destruct H1 as [_ H1].
          destruct (look_in ps _ H1) as [k ->]. eexists. unfold allText. cbn [fst snd map r_text List.concat].
          rewrite <- app_assoc. reflexivity.
        * apply andb_true_iff in H1. destruct H1 as [_ H1].
          destruct (look_in ps _ H1) as [k ->]. eexists. unfold allText. cbn [fst snd map r_text List.concat].
          rewrite <- app_assoc. reflexivity.
      + destruct (IH (cur ++ snd p) H2) as [X E]. rewrite <- app_assoc in E.
        destruct (isWord p); [|eauto].
        destruct (look ps (snd p)); [|eauto].
        eexists. unfold allText. cbn [fst snd map r_text List.concat]. rewrite <- app_assoc. reflexivity.
  Qed.

  Definition isText (p : piece) : Prop := isHash p = false /\ (isWord p = true -> look ps (snd p) = None).
  Definition HypA (o : cstr) (l : list piece) : Prop :=
    match l with
    | p :: _ => isText p -> forall c, hdc (snd p) = Some c -> J (endOf (view o)) c
    | [] => True
    end.

  Lemma chain_HypA : forall p r o, chain (p :: r) -> endOf (view o) = fst p -> HypA o r.
  Proof.
    intros p [|q r] o C E; [exact I|]. intros _ c H. rewrite E. right.
    destruct (chain_inv _ _ C) as [_ [C' B]]. apply B.
    change (flat (q :: r)) with (snd q ++ flat r). destruct (snd q); [discriminate|]. exact H.
  Qed.
  Lemma HypA_end : forall o l, (forall c, ext (endOf (view o)) c = None) -> HypA o l.
  Proof. intros o [|p r] H; [exact I|]. intros _ c _. right. apply H. Qed.

  Lemma text_items : forall p l, isText p -> 
    substItems rawF expF (p :: l) = Own p :: substItems rawF expF l.
  Proof.
    intros p l [H1 H2]. cbn [substItems]. rewrite H1. destruct (isWord p) eqn:W; auto.
    unfold expF. assert (X := look_argOf (snd p)). rewrite (H2 eq_refl) in X. now rewrite X.
  Qed.

  (* HypA after an argument: the marker has been put where it is needed *)
  Lemma HypA_marker : forall prev o l R, good prev o -> chain l -> hashesOk (memS ps) l = true ->
    apartP prev (substItems rawF expF l ++ R) ->
    let o' := o ++ marker (lastc o) (allText (fst (er ps [] l)) (snd (er ps [] l))) in
    good prev o' /\ tokens (view o') = tokens (view o) /\ HypA o' l.
  Proof.
    intros prev o l R G C HO AP o'.
    destruct (marker_cases (lastc o) (allText (fst (er ps [] l)) (snd (er ps [] l)))) as [Z|Z].
    - assert (EO : o' = o) by (subst o'; rewrite Z; apply app_nil_r). rewrite EO. split; auto. split; auto.
      destruct l as [|p r]; [exact I|]. intros IT c H. rewrite (text_items p r IT) in AP.
      destruct (apartP_head _ _ _ AP) as [CL _]. eapply J_unsafe; eauto.
      intros c1 LC.
      assert (HD : exists X, allText (fst (er ps [] (p :: r))) (snd (er ps [] (p :: r))) = snd p ++ X).
      { cbn [hashesOk] in HO. apply andb_true_iff in HO. destruct HO as [_ HO].
        destruct (er_front r (snd p) HO) as [X E]. exists X. rewrite <- E.
        destruct IT as [I1 I2]. cbn [er]. rewrite I1. destruct (isWord p); [rewrite (I2 eq_refl)|]; reflexivity. }
      destruct HD as [X HD]. rewrite HD, LC in Z. destruct (snd p) as [|d w]; [discriminate|]. inversion H; subst d.
      cbn in Z. destruct (unsafe c1 c); [discriminate|reflexivity].
    - destruct (good_marker prev o G) as [A [B D]]. subst o'. rewrite Z. split; auto. split; auto.
      destruct l as [|p r]; [exact I|]. intros _ c _. now left.
  Qed.

  Lemma stringOf_noat : forall a, rawOk (a_raw a) -> ~ In chA (stringOf (a_raw a)).
  Proof.
    intros a R. unfold stringOf.
    assert (E : forall t, ~ In chA t -> ~ In chA (escapeLit t)).
    { induction t as [|c t IH]; intros N; auto. cbn [escapeLit]. 
      assert (c <> chA) by (intros ->; apply N; now left).
      assert (~ In chA t) by (intros X; apply N; now right).
      destruct (Ascii.eqb c """" || Ascii.eqb c "\"); cbn; intros [X|X]; try congruence; [discriminate| |].
      - destruct X as [X|X]; [congruence|]. now apply IH.
      - now apply IH. }
    assert (SR : forall l, (forall p, In p l -> ~ In chA (snd p)) -> ~ In chA (spellRest l)).
    { induction l as [|p l IH]; intros N; auto. cbn [spellRest].
      assert (N' : forall q, In q l -> ~ In chA (snd q)) by (intros q J; apply N; now right).
      destruct (blank p).
      - destruct l as [|q l]; [auto|]. intros [X|X]; [discriminate|]. now apply (IH N').
      - intros X. apply in_app_or in X. destruct X as [X|X]; [|now apply (IH N')].
        assert (NP := N p (or_introl eq_refl)). unfold spellIn in X. destruct (fst p); try contradiction. now apply (E (snd p)). }
    assert (PN : forall p, In p (pieces (a_raw a)) -> ~ In chA (snd p)).
    { intros p J X. apply (ro_noat _ R). destruct (chain_pieces (a_raw a)) as [_ F]. rewrite <- F. unfold flat.
      apply in_concat. exists (snd p). split; auto. now apply in_map. }
    intros [X|X]; [discriminate|]. apply in_app_or in X. destruct X as [X|[X|[]]]; [|discriminate].
    unfold spellAll in X. destruct (pieces (a_raw a)) as [|p r]; [contradiction|]. destruct (blank p).
    - apply (SR r) in X; auto. intros q J. apply PN. now right.
    - now apply (SR (p :: r)) in X.
  Qed.

  Lemma itemTokens_app : forall a b, itemTokens (a ++ b) = itemTokens a ++ itemTokens b.
  Proof. intros. unfold itemTokens. now rewrite filter_app, map_app. Qed.
  Lemma itemTokens_own : forall l, itemTokens (map Own l) = nonblank l.
  Proof.
    induction l as [|p l IH]; auto. unfold itemTokens, nonblank in *. cbn [map filter itemBlank].
    destruct (blank p); cbn [negb map itemText]; now rewrite IH.
  Qed.

  Lemma build_ok : forall n l, List.length l <= n -> forall out cur prev R, good prev (out ++ cur) -> chain l ->
    (forall p, In p l -> bp ps p) -> hashesOk (memS ps) l = true ->
    (forall w a, In w (hashed l) -> argOf ps args w = Some a -> rawOk (a_raw a)) ->
    apartP prev (substItems rawF expF l ++ R) -> HypA (out ++ cur) l ->
    exists M prev', build all args (fst (er ps cur l)) (snd (er ps cur l)) out = Some (((out ++ cur) ++ M) ++ markEnd) /\
      good prev' ((out ++ cur) ++ M) /\ apartP prev' R /\
      tokens (view ((out ++ cur) ++ M)) = tokens (view (out ++ cur)) ++ itemTokens (substItems rawF expF l).
  Proof.
    induction n as [|n IH]; intros l LN out cur prev R G C B HO RAW AP HA.
    - destruct l; [|cbn in LN; lia]. cbn [er fst snd build substItems]. exists [], prev. rewrite app_nil_r, app_assoc.
      repeat (split; [auto; fail|]). now rewrite app_nil_r.
    - destruct l as [|p r].
      { cbn [er fst snd build substItems]. exists [], prev. rewrite app_nil_r, app_assoc.
        repeat (split; [auto; fail|]). now rewrite app_nil_r. }
      destruct (chain_inv _ _ C) as [W [C' BD]].
      assert (BR : forall q, In q r -> bp ps q) by (intros q I; apply B; now right).
      assert (HOr := HO). cbn [hashesOk] in HOr. apply andb_true_iff in HOr. destruct HOr as [HO1 HO2].
      assert (RAWr : forall w a, In w (hashed r) -> argOf ps args w = Some a -> rawOk (a_raw a)).
      { intros w a I. apply RAW. cbn [hashed]. apply in_or_app. now right. }
      assert (MADE : forall (q : piece) (r2 : list piece) k, chain r2 -> (forall x, In x r2 -> bp ps x) -> hashesOk (memS ps) r2 = true ->
         (forall w a, In w (hashed r2) -> argOf ps args w = Some a -> rawOk (a_raw a)) -> List.length r2 <= n ->
         look ps (snd q) = Some k -> rawOk (a_raw (nth k args noArg)) ->
         apartP prev (Made (stringOf (a_raw (nth k args noArg))) :: substItems rawF expF r2 ++ R) ->
         exists M prev', build all args (mkRef cur k false false true :: fst (er ps [] r2)) (snd (er ps [] r2)) out
             = Some (((out ++ cur) ++ M) ++ markEnd) /\
           good prev' ((out ++ cur) ++ M) /\ apartP prev' R /\
           tokens (view ((out ++ cur) ++ M)) = tokens (view (out ++ cur)) ++ stringOf (a_raw (nth k args noArg)) :: itemTokens (substItems rawF expF r2)).
      { intros q r2 k C2 B2 H2 RW2 L2 LK RK AP2.
        set (a := nth k args noArg) in *.
        cbn [build r_text r_arg r_str]. fold a. rewrite (stringify_ok _ RK).
        set (s := stringOf (a_raw a)) in *.
        destruct (apartP_head _ _ _ AP2) as [CL AP3].
        destruct (step_made prev (out ++ cur) s G (stringOf_whole _ RK) (stringOf_noat a RK)) as [G' [E' T']].
        { eexists. reflexivity. }
        { intros i P X. specialize (CL i P). unfold clash in CL. rewrite X in CL. discriminate. }
        destruct (IH r2 L2 ((out ++ cur) ++ s) [] (Some (Made s)) R) as [M [prev' [BX [GX [AX TX]]]]]; auto.
        - now rewrite app_nil_r.
        - rewrite app_nil_r. apply HypA_end. intros c. now rewrite E'.
        - exists (s ++ M), prev'. rewrite !app_nil_r in *. rewrite !app_assoc. split; auto. split; auto. split; auto.
          rewrite TX, T'. rewrite <- app_assoc. reflexivity. }
      destruct (isHash p) eqn:EH.
      + destruct r as [|q r2]; [discriminate|]. destruct (chain_inv _ _ C') as [_ [C2 _]].
        cbn [er substItems] in AP |- *. rewrite EH in *.
        destruct (isWhite q) eqn:EW.
        * destruct r2 as [|q' r3]; [discriminate|]. apply andb_true_iff in HO1. destruct HO1 as [_ IM].
          destruct (look_in ps _ IM) as [k LK]. rewrite LK. 
          assert (LA := look_argOf (snd q')). rewrite LK in LA. destruct LA as [LA _].
          assert (RF : rawF (snd q') = Some (a_raw (nth k args noArg))) by (unfold rawF; now rewrite LA).
          assert (RK : rawOk (a_raw (nth k args noArg))).
          { apply (RAW (snd q')); auto. cbn [hashed]. rewrite EH, EW. now left. }
          rewrite RF in *. destruct (chain_inv _ _ C2) as [_ [C3 _]].
          cbn [hashesOk] in HO2. apply andb_true_iff in HO2. destruct HO2 as [_ HO2]. apply andb_true_iff in HO2. destruct HO2 as [_ HO2].
          cbn [fst snd]. apply (MADE q'); auto; [| |cbn in LN; lia].
          { intros x I. apply BR. right. now right. }
          { intros w a I. apply RAWr. cbn [hashed]. apply in_or_app. right. apply in_or_app. now right. }
        * apply andb_true_iff in HO1. destruct HO1 as [_ IM].
          destruct (look_in ps _ IM) as [k LK]. rewrite LK.
          assert (LA := look_argOf (snd q)). rewrite LK in LA. destruct LA as [LA _].
          assert (RF : rawF (snd q) = Some (a_raw (nth k args noArg))) by (unfold rawF; now rewrite LA).
          assert (RK : rawOk (a_raw (nth k args noArg))).
          { apply (RAW (snd q)); auto. cbn [hashed]. rewrite EH, EW. now left. }
          rewrite RF in *.
          cbn [hashesOk] in HO2. apply andb_true_iff in HO2. destruct HO2 as [_ HO2].
          cbn [fst snd]. apply (MADE q); auto; [| |cbn in LN; lia].
          { intros x I. apply BR. now right. }
          { intros w a I. apply RAWr. cbn [hashed]. apply in_or_app. now right. }
      + assert (COPY : isText p ->
          exists M prev', build all args (fst (er ps (cur ++ snd p) r)) (snd (er ps (cur ++ snd p) r)) out = Some (((out ++ cur) ++ M) ++ markEnd) /\
            good prev' ((out ++ cur) ++ M) /\ apartP prev' R /\
            tokens (view ((out ++ cur) ++ M)) = tokens (view (out ++ cur)) ++ itemTokens (substItems rawF expF (p :: r))).
        { intros IT. assert (BPp := B p (or_introl eq_refl)). destruct BPp as [O [_ [NA _]]].
          destruct (step_text prev (out ++ cur) p G W O NA (HA IT)) as [G' [E' T']].
          rewrite (text_items p r IT) in AP |- *. destruct (apartP_head _ _ _ AP) as [_ AP'].
          rewrite <- app_assoc in G', E', T'.
          destruct (IH r ltac:(cbn in LN; lia) out (cur ++ snd p) (Some (Own p)) R G' C' BR HO2 RAWr AP') as [M [prev' [BX [GX [AX TX]]]]].
          - eapply chain_HypA; eauto.
          - exists (snd p ++ M), prev'. rewrite !app_assoc in *. split; auto. split; auto. split; auto.
            rewrite TX, T'. unfold itemTokens. cbn [filter itemBlank].
            destruct (blank p); cbn [negb map itemText]; [now rewrite app_nil_r|now rewrite <- app_assoc]. }
        cbn [er]. rewrite EH. destruct (isWord p) eqn:EW.
        * destruct (look ps (snd p)) as [k|] eqn:LK; [|apply COPY; split; auto].
          clear COPY MADE. assert (LA := look_argOf (snd p)). rewrite LK in LA. destruct LA as [LA IA].
          assert (EF : expF (snd p) = Some (unmark (a_exp (nth k args noArg)))) by (unfold expF; now rewrite LA).
          cbn [substItems] in AP |- *. rewrite EH, EW, EF in *. set (a := nth k args noArg) in *.
          rewrite <- app_assoc in AP.
          cbn [fst snd build r_text r_arg r_str r_before r_after orb]. fold a.
          destruct (add_exp prev (out ++ cur) (a_exp a) (substItems rawF expF r ++ R) G (EXPM a IA) (EXPC a IA) AP) as [prev1 [G' [AP' T']]].
          set (m1 := marker (lastc (out ++ cur)) (a_exp a) ++ a_exp a) in *.
          set (o2 := (out ++ cur) ++ m1) in *.
          destruct (HypA_marker prev1 o2 r R G' C' HO2 AP') as [G2 [T2 H2]].
          set (m2 := marker (lastc o2) (allText (fst (er ps [] r)) (snd (er ps [] r)))) in *.
          destruct (IH r ltac:(cbn in LN; lia) (o2 ++ m2) [] prev1 R) as [M [prev' [BX [GX [AX TX]]]]]; auto; try (rewrite app_nil_r; assumption).
          exists (m1 ++ m2 ++ M), prev'. rewrite app_nil_r in *. subst o2. rewrite !app_assoc in *. split; auto. split; auto. split; auto.
          rewrite TX, T2, T'. rewrite itemTokens_app, itemTokens_own. now rewrite <- app_assoc.
        * apply COPY. split; auto. intros X. congruence.
  Qed.
End Build.

Lemma in_pieces_char : forall s p c, In p (pieces s) -> In c (snd p) -> In c s.
Proof.
  intros s p c I J. destruct (chain_pieces s) as [_ F]. rewrite <- F. unfold flat. apply in_concat.
  exists (snd p). split; auto. now apply in_map.
Qed.

(* the call written into the text that surrounds it *)
Definition front (c : ascii) : bool := wordC c || Ascii.eqb c "("%char || quoteC c.

Lemma endOf_app : forall a c r, J (endOf a) c -> endOf (a ++ c :: r) = endOf (c :: r).
Proof. intros. now apply tok_app. Qed.
Lemma tokens_app : forall a c r, J (endOf a) c -> tokens (a ++ c :: r) = tokens a ++ tokens (c :: r).
Proof. intros. now apply tok_app. Qed.

Lemma context_ok : forall pre n post M prev,
  good prev ([chA; ch_space] ++ M) ->
  (forall q r, pieces post = q :: r -> apartP prev [Own q]) ->
  isOpen (endOf pre) = false -> letterC n = true -> J (endOf pre) n ->
  (forall c, hdc M = Some c -> digitC c = true -> endOf pre <> LOp (lit ".")) ->
  tokens (pre ++ view (tailTrim (headTrim ([chA; ch_space] ++ M ++ markEnd)) (hdc post)) ++ post)
  = tokens pre ++ tokens (view ([chA; ch_space] ++ M)) ++ tokens post.
Proof.
  intros pre n post M prev G AP OP LN JN DOT.
  assert (SPC : J (endOf pre) ch_space).
  { destruct pre as [|x pre] using rev_ind; [now left|]. eapply closed_space; eauto. apply agrees_end. }
  set (Y := [chA; ch_space] ++ M) in *.
  assert (VY : view Y = ch_space :: view M) by reflexivity.
  (* the front *)
  assert (FR : exists h, headTrim (Y ++ markEnd) = h ++ markEnd /\ endOf (view h) = endOf (view Y) /\
     tokens (view h) = tokens (view Y) /\ lastc h = lastc Y /\ (exists c w, view h = c :: w /\ J (endOf pre) c)).
  { destruct M as [|c M].
    - exists Y. split; [reflexivity|]. repeat split. exists ch_space, []. split; auto.
    - destruct (isIdChar c || Ascii.eqb c "("%char || isQuote c) eqn:FC.
      + exists (c :: M). assert (CA : c <> chA) by (intros ->; discriminate).
        assert (VM : view (c :: M) = c :: view M) by (cbn [view filter]; now rewrite (neq_eqb _ _ CA)).
        split; [subst Y; unfold headTrim; cbn [app]; rewrite FC; reflexivity|].
        rewrite VY, VM. change (ch_space :: c :: view M) with ([ch_space] ++ c :: view M).
        rewrite endOf_app, tokens_app by (now left). split; auto. split; auto. split.
        { subst Y. unfold lastc. cbn [rev app]. destruct (rev M); reflexivity. }
        exists c, (view M). split; auto.
        destruct JN as [JN|JN]; [now left|].
        assert (WH : endOf pre = LWhite \/ endOf pre <> LWhite) by (destruct (endOf pre); auto; right; discriminate).
        destruct WH as [WH|NW]; [now left|]. right.
        rewrite !orb_true_iff in FC. destruct FC as [[FC|FC]|FC].
        * rewrite cls_word in FC. destruct (endOf pre) as [|isL|e|? ?| |z|?| |]; try discriminate; try (exfalso; now apply NW); cbn [ext] in *; auto.
          -- assert (X : wordC n = true) by now apply letter_word. rewrite X in JN. discriminate.
          -- assert (X : wordC n = true) by now apply letter_word. rewrite X in JN. discriminate.
          -- assert (NB : forall k, wordC k = false -> cstr_eqb (z ++ [c]) (lit "/*") = false /\ cstr_eqb (z ++ [c]) (lit "//") = false).
             { intros _ _. split; apply not_true_is_false; intros X; apply cstr_eqb_eq in X;
                 [change (lit "/*") with ([("/")%char] ++ ["*"%char]) in X|change (lit "//") with ([("/")%char] ++ ["/"%char]) in X];
                 apply app_inj_tail in X; destruct X as [_ ->]; discriminate. }
             destruct (NB ch_space eq_refl) as [N1 N2]. rewrite N1, N2.
             destruct (cstr_eqb z (lit ".") && digitC c) eqn:DD.
             ++ apply andb_true_iff in DD. destruct DD as [D1 D2]. apply cstr_eqb_eq in D1. subst z. exfalso. now apply (DOT c).
             ++ assert (X : existsb (cstr_eqb (z ++ [c])) longOps = false).
                { apply not_true_is_false. intros X. apply existsb_exists in X. destruct X as [x [I X]].
                  apply cstr_eqb_eq in X. subst x. cbn in I.
                  repeat (destruct I as [I|I]; [apply (f_equal (@rev ascii)) in I; rewrite rev_app_distr in I; cbn in I; injection I as I _; subst c; discriminate|]). exact I. }
                now rewrite X.
        * apply eqb_eq in FC. subst c. destruct (endOf pre) as [|isL|e|? ?| |z|?| |]; try discriminate; try (exfalso; now apply NW); cbn [ext] in *; auto.
          -- now destruct isL.
          -- now destruct e.
          -- assert (X : existsb (cstr_eqb (z ++ ["("%char])) longOps = false).
             { apply not_true_is_false. intros X. apply existsb_exists in X. destruct X as [x [I X]].
               apply cstr_eqb_eq in X. subst x. cbn in I.
               repeat (destruct I as [I|I]; [apply (f_equal (@rev ascii)) in I; rewrite rev_app_distr in I; cbn in I; discriminate|]). exact I. }
             rewrite X. replace (digitC "("%char) with false by reflexivity. rewrite andb_false_r.
             assert (N1 : cstr_eqb (z ++ ["("%char]) (lit "/*") = false).
             { apply not_true_is_false; intros Z; apply cstr_eqb_eq in Z. change (lit "/*") with ([("/")%char] ++ ["*"%char]) in Z. apply app_inj_tail in Z. destruct Z; discriminate. }
             assert (N2 : cstr_eqb (z ++ ["("%char]) (lit "//") = false).
             { apply not_true_is_false; intros Z; apply cstr_eqb_eq in Z. change (lit "//") with ([("/")%char] ++ ["/"%char]) in Z. apply app_inj_tail in Z. destruct Z; discriminate. }
             now rewrite N1, N2.
        * rewrite cls_quote in FC.
          assert (WN : wordC n = true) by now apply letter_word.
          assert (QC : wordC c = false /\ c <> "."%char /\ digitC c = false /\ c <> "+"%char /\ c <> "-"%char
                       /\ c <> "*"%char /\ c <> "/"%char /\ ~ In c (lit "=<>&|#.")).
          { unfold quoteC in FC. cbn in FC. rewrite !orb_true_iff in FC.
            destruct FC as [FC|[FC|FC]]; try discriminate; apply eqb_eq in FC; subst c; repeat split; try discriminate; cbn; intuition discriminate. }
          destruct QC as [Q1 [Q2 [Q3 [Q4 [Q5 [Q6 [Q7 Q8]]]]]]].
          destruct (endOf pre) as [|isL|e|? ?| |z|?| |]; try discriminate; try (exfalso; now apply NW); cbn [ext] in *; auto.
          -- rewrite WN in JN. discriminate.
          -- rewrite WN in JN. discriminate.
          -- rewrite Q3, andb_false_r.
             assert (N1 : cstr_eqb (z ++ [c]) (lit "/*") = false).
             { apply not_true_is_false; intros Z; apply cstr_eqb_eq in Z. change (lit "/*") with ([("/")%char] ++ ["*"%char]) in Z. apply app_inj_tail in Z. destruct Z; congruence. }
             assert (N2 : cstr_eqb (z ++ [c]) (lit "//") = false).
             { apply not_true_is_false; intros Z; apply cstr_eqb_eq in Z. change (lit "//") with ([("/")%char] ++ ["/"%char]) in Z. apply app_inj_tail in Z. destruct Z; congruence. }
             assert (X : existsb (cstr_eqb (z ++ [c])) longOps = false).
             { apply not_true_is_false. intros X. apply existsb_exists in X. destruct X as [x [I X]].
               apply cstr_eqb_eq in X. subst x. cbn in I.
               repeat (destruct I as [I|I]; [apply (f_equal (@rev ascii)) in I; rewrite rev_app_distr in I; cbn in I; injection I as I _; subst c; first [congruence|apply Q8; cbn; tauto]|]). exact I. }
             now rewrite N1, N2, X.
      + exists Y. split; [subst Y; unfold headTrim; cbn [app]; now rewrite FC|]. repeat split. exists ch_space, (view (c :: M)). split; auto. }
  destruct FR as [h [EH [HE [HT [HL [c [w [HV HJ]]]]]]]]. 
  replace ([chA; ch_space] ++ M ++ markEnd) with (Y ++ markEnd) by (subst Y; now rewrite <- app_assoc).
  rewrite EH.
  destruct (good_agrees _ _ G) as [o' [c1 [EY [N1 [O1 [LK [AG LC]]]]]]].
  rewrite LC in HL. assert (EH1 : exists h', h = h' ++ [c1]).
  { unfold lastc in HL. destruct h as [|x h'] using rev_ind; [discriminate|]. rewrite rev_app_distr in HL. inversion HL; subst. eauto. }
  destruct EH1 as [h' EH1].
  assert (VH : forall a, view (h ++ a) = view h ++ view a) by (intros; apply view_app).
  assert (TT : tailTrim (h ++ markEnd) (hdc post) = h ++ markEnd \/
     (tailTrim (h ++ markEnd) (hdc post) = h /\ forall c2, hdc post = Some c2 -> unsafe c1 c2 = false)).
  { unfold tailTrim. rewrite EH1. rewrite !rev_app_distr. cbn [rev app markEnd].
    match goal with |- context [if ?b then _ else _] => destruct b eqn:TB end; [|now left].
    right. split; [cbn [rev]; now rewrite rev_involutive|]. intros c2 H2. rewrite H2 in TB.
    apply andb_true_iff in TB. destruct TB as [_ TB]. now apply negb_true_iff in TB. }
  destruct TT as [TT|[TT US]]; rewrite TT.
  - rewrite VH, HV. change (view markEnd) with [ch_space]. rewrite <- app_assoc. cbn [app].
    rewrite tokens_app by exact HJ. rewrite app_comm_cons, <- HV.
    assert (S2 : J (endOf (view h)) ch_space) by (rewrite HE; eapply good_space; eauto).
    rewrite tokens_app by exact S2. rewrite HT.
    f_equal. f_equal. destruct post as [|x post]; [reflexivity|].
    change (ch_space :: x :: post) with ([ch_space] ++ x :: post). rewrite tokens_app by now left. reflexivity.
  - destruct post as [|c2 post].
    + rewrite app_nil_r. rewrite HV, tokens_app by exact HJ. rewrite <- HV, HT. cbn. now rewrite app_nil_r.
    + rewrite HV. cbn [app]. rewrite tokens_app by exact HJ. rewrite app_comm_cons, <- HV.
      rewrite tokens_app; [now rewrite HT|]. rewrite HE.
      destruct (pieces (c2 :: post)) as [|q r] eqn:PQ.
      { exfalso. destruct (chain_pieces (c2 :: post)) as [_ F]. rewrite PQ in F. discriminate. }
      specialize (AP q r eq_refl).
      apply (J_unsafe prev Y q); auto.
      * intros i E. subst prev. apply AP.
      * destruct (chain_pieces (c2 :: post)) as [CP FP]. rewrite PQ in CP, FP.
        change (flat (q :: r)) with (snd q ++ flat r) in FP. destruct (chain_inv _ _ CP) as [W0 _].
        destruct (whole_pieces q W0) as [_ [_ N0]]. destruct (snd q); [congruence|]. inversion FP; subst. reflexivity.
      * intros d LD. rewrite LC in LD. inversion LD; subst d. now apply US.
Qed.

(* the whole: definition and call *)
Lemma substitution_gen : forall ps args body trail R,
  ps <> [] -> NoDup ps -> List.length args = List.length ps -> bodyOk ps body ->
  (forall w a, In w (hashed (pieces body)) -> argOf ps args w = Some a -> rawOk (a_raw a)) ->
  (forall a, In a args -> marksOk (a_exp a) = true /\ allClosed (pieces (unmark (a_exp a)))) ->
  apart (substItems (rawF ps args) (expF ps args) (pieces body) ++ R) ->
  exists d M prev, collect (Some ps) body trail = Some d /\ d_msgs d = [] /\
    expandCall (Some ps) d args = Some ([chA; ch_space] ++ M ++ markEnd) /\
    good prev ([chA; ch_space] ++ M) /\ apartP prev R /\
    tokens (view ([chA; ch_space] ++ M)) = itemTokens (substItems (rawF ps args) (expF ps args) (pieces body)).
Proof.
  intros ps args body trail R NE ND LEN BO RAW EXP AP.
  destruct (chain_pieces body) as [C F].
  assert (BP : forall p, In p (pieces body) -> bp ps p).
  { intros p I. split; [now apply (bo_closed _ _ BO)|]. split; [now apply (bo_nocomment _ _ BO)|]. split.
    { intros X. apply (bo_noat _ _ BO). now apply (in_pieces_char body p). } split.
    { intros X. apply (bo_line _ _ BO). now apply (in_pieces_char body p). } split.
    { now apply (bo_nopaste _ _ BO). } intros N w. now apply (bo_number _ _ BO p). }
  assert (HO := bo_hash _ _ BO).
  assert (COL : collect (Some ps) body trail =
    Some (mkDefn (fst (er ps [chA; ch_space] (pieces body))) (snd (er ps [chA; ch_space] (pieces body))) [])).
  { assert (ST : collect (Some ps) body trail = collectAux (S (List.length body)) (Some ps) trail body [ch_space; chA] [] None false false []).
    { unfold collect. destruct body as [|a [|b r]]; auto.
      destruct (Ascii.eqb a chH && Ascii.eqb b chH) eqn:E; auto. exfalso.
      apply andb_true_iff in E. destruct E as [E1 E2]. apply eqb_eq in E1, E2. subst.
      assert (I : In (LOp (lit "##"), lit "##") (pieces (chH :: chH :: r))).
      { cbn [pieces]. change (start chH) with (LOp [chH]). cbn [piecesFrom].
        replace (ext (LOp [chH]) chH) with (Some (LOp (lit "##"))) by reflexivity.
        destruct r as [|x r]; [now left|]. cbn [piecesFrom].
        assert (X : ext (LOp (lit "##")) x = None).
        { cbn [ext lit list_ascii_of_string app]. destruct x as [[] [] [] [] [] [] [] []]; reflexivity. }
        rewrite X. now left. }
      now apply (bo_nopaste _ _ BO _ I). }
    rewrite ST. assert (X := collect_er ps trail NE (List.length (pieces body)) (pieces body) (le_n _) C BP HO (S (List.length body)) [ch_space; chA] [] []).
    rewrite F in X. rewrite X by lia. reflexivity. }
  rewrite COL. eexists. 
  destruct (build_ok ps args (fst (er ps [chA; ch_space] (pieces body))) ND LEN (fun a I => proj1 (EXP a I)) (fun a I => proj2 (EXP a I))
              (List.length (pieces body)) (pieces body) (le_n _) [] [chA; ch_space] None R) as [M [prev [BX [GX [AX TX]]]]]; auto.
  - exists [chA], ch_space. repeat split; auto; [discriminate|]. left. reflexivity.
  - destruct (pieces body); [exact I|]. intros _ c _. now left.
  - exists M, prev. split; [reflexivity|]. split; [reflexivity|]. split; [|split; [exact GX|split; [exact AX|exact TX]]].
    unfold expandCall. destruct ps; [congruence|]. cbn [app] in BX |- *. exact BX.
Qed.

(* macros without parameters *)

(* the delimiter that is expected after some text *)
Fixpoint dlRun (dl : option ascii) (s : cstr) : option ascii :=
  match s with
  | [] => dl
  | c :: r =>
      if isQuote c then dlRun (match dl with None => Some c | Some q => if Ascii.eqb c q then None else Some q end) r
      else if Ascii.eqb c chB then match dl, r with Some _, _ :: r' => dlRun dl r' | _, _ => dlRun dl r end
      else dlRun dl r
  end.
Definition endMark (dl : option ascii) : cstr := match dl with None => markEnd | Some _ => [] end.

Lemma dlRun_plain : forall t r, (forall c, In c t -> quoteC c = false) -> dlRun None (t ++ r) = dlRun None r.
Proof.
  induction t as [|c t IH]; intros r H; auto. cbn [app dlRun]. rewrite cls_quote, (H c (or_introl eq_refl)).
  assert (E : dlRun None (t ++ r) = dlRun None r) by (apply IH; intros d I; apply H; now right).
  destruct (Ascii.eqb c chB); auto.
Qed.
Lemma dlRun_lit : forall n q b r, List.length b <= n -> quoteC q = true -> inLit q false b = Some false ->
  dlRun (Some q) (b ++ q :: r) = dlRun None r.
Proof.
  induction n as [|n IH]; intros q b r L Q H.
  - destruct b; [|cbn in L; lia]. cbn [app dlRun]. rewrite cls_quote, Q. now rewrite (proj2 (eqb_eq q q) eq_refl).
  - destruct b as [|c b]; [cbn [app dlRun]; rewrite cls_quote, Q; now rewrite (proj2 (eqb_eq q q) eq_refl)|].
    cbn [inLit] in H. destruct (Ascii.eqb c q) eqn:CQ; [discriminate|].
    cbn [app dlRun]. rewrite cls_quote. destruct (quoteC c) eqn:QC.
    + rewrite CQ. assert (CB : Ascii.eqb c chB = false) by (apply neq_eqb; intros ->; discriminate).
      rewrite CB in H. apply (IH q b r); auto. cbn in L; lia.
    + destruct (Ascii.eqb c chB) eqn:CB.
      * destruct b as [|d b]; [discriminate|]. cbn [inLit] in H. cbn [app]. apply (IH q b r); auto. cbn in L; lia.
      * apply (IH q b r); auto. cbn in L; lia.
Qed.
Lemma dlRun_piece : forall p r, whole p -> isOpen (fst p) = false -> fst p <> LBlkEnd -> dlRun None (snd p ++ r) = dlRun None r.
Proof.
  intros p r W O N. assert (S := whole_shape p W). destruct p as [st t]. cbn [fst snd] in *.
  destruct st; try discriminate; simpl in S.
  - apply dlRun_plain. intros c I. rewrite forallb_forall in S. now apply white_simple, S.
  - destruct S as [S _]. destruct t as [|c w]; [contradiction|]. destruct S as [S1 S2].
    apply dlRun_plain. intros d I. assert (X : wordC d = true).
    { destruct I as [->|I]; [now apply letter_word|]. rewrite forallb_forall in S2. auto. }
    now destruct (word_not_special d X).
  - apply dlRun_plain. intros d I. rewrite forallb_forall in S. specialize (S d I).
    destruct (num_cases d S) as [X|X]; [now destruct (word_not_special d X)|].
    destruct X as [_ [X _]]. exact X.
  - destruct S as [q [pre [b [Q [P [-> L]]]]]]. destruct P as [->| ->]; cbn [app].
    + cbn [dlRun]. rewrite cls_quote, Q. rewrite <- app_assoc. now apply (dlRun_lit (List.length b)).
    + change (dlRun None (q :: (b ++ [q]) ++ r) = dlRun None r).
      cbn [dlRun]. rewrite cls_quote, Q. rewrite <- app_assoc. now apply (dlRun_lit (List.length b)).
  - destruct S as [-> [[c [-> [A [Wd Q]]]]|S]].
    + apply dlRun_plain. intros d [<-|[]]. exact Q.
    + apply dlRun_plain. intros c I. cbn in S.
      repeat (destruct S as [S|S]; [subst s; cbn in I; repeat (destruct I as [I|I]; [subst c; reflexivity|]); contradiction|]).
      contradiction.
  - congruence.
Qed.
Lemma dlRun_chain : forall l, chain l -> (forall p, In p l -> isOpen (fst p) = false /\ fst p <> LBlkEnd) -> dlRun None (flat l) = None.
Proof.
  induction l as [|p l IH]; intros C H; auto. destruct (chain_inv _ _ C) as [W [C' _]].
  change (flat (p :: l)) with (snd p ++ flat l). destruct (H p (or_introl eq_refl)). rewrite dlRun_piece; auto.
  apply IH; auto. intros q I. apply H. now right.
Qed.

Lemma collect_plain : forall n ps trail txt cur dl fuel, List.length txt <= n -> n < fuel ->
  match ps with None => True | Some l => l = [] /\ ~ In chH txt end -> ~ In chA txt ->
  noHH txt = true ->
  collectAux fuel ps trail txt cur [] dl false false [] = Some (mkDefn [] (rev cur ++ txt ++ endMark (dlRun dl txt)) []).
Proof.
  induction n as [|n IH]; intros ps trail txt cur dl [|f] LN LF HP NA NH; try lia.
  - destruct txt; [|cbn in LN; lia]. cbn [collectAux]. destruct dl; cbn [rev].
    + cbn. now rewrite !app_nil_r.
    + rewrite <- !app_assoc. reflexivity.
  - destruct txt as [|c rest].
    { cbn [collectAux]. destruct dl; cbn [rev].
      + cbn. now rewrite !app_nil_r.
      + rewrite <- !app_assoc. reflexivity. }
    assert (NA' : ~ In chA rest) by (intros X; apply NA; now right).
    assert (NH' : noHH rest = true) by (destruct rest; [reflexivity|]; cbn [noHH] in NH; apply andb_true_iff in NH; apply NH).
    assert (HP' : match ps with None => True | Some l => l = [] /\ ~ In chH rest end).
    { destruct ps; auto. destruct HP as [H1 H2]. split; auto. intros X. apply H2. now right. }
    assert (ONE : forall dl', collectAux f ps trail rest (c :: cur) [] dl' false false [] = Some (mkDefn [] (rev cur ++ (c :: rest) ++ endMark (dlRun dl' rest)) [])).
    { intros dl'. rewrite (IH ps trail rest (c :: cur) dl' f); auto; [|cbn in LN; lia|lia].
      cbn [rev]. rewrite <- app_assoc. reflexivity. }
    cbn [collectAux dlRun]. destruct (isQuote c); [apply ONE|].
    destruct (Ascii.eqb c chB) eqn:EB.
    { destruct dl as [q|]; [|apply ONE]. destruct rest as [|d rest']; [apply ONE|].
      rewrite (IH ps trail rest' (d :: c :: cur) (Some q) f); auto; [|cbn in LN; lia|lia| | |].
      - cbn [rev]. rewrite <- !app_assoc. reflexivity.
      - destruct ps; auto. destruct HP as [H1 H2]. split; auto. intros X. apply H2. right. now right.
      - intros X. apply NA. right. now right.
      - destruct rest'; [reflexivity|]. cbn [noHH] in NH'. apply andb_true_iff in NH'. apply NH'. }
    rewrite neq_eqb by (intros ->; apply NA; now left).
    destruct (Ascii.eqb c chH) eqn:EH.
    { destruct ps as [l|].
      { exfalso. destruct HP as [_ HP]. apply HP. apply eqb_eq in EH. now left. }
      destruct dl; cbn [andb]; [rewrite andb_false_r; apply ONE|].
      destruct rest as [|d rest']; [apply ONE|].
      cbn [noHH] in NH. apply andb_true_iff in NH. destruct NH as [NH _]. change "#"%char with chH in NH. rewrite EH in NH. cbn [andb] in NH.
      apply negb_true_iff in NH. rewrite NH. apply ONE. }
    cbn [andb]. destruct ps as [l|]; [|rewrite andb_false_r; apply ONE].
    destruct HP as [-> _]. rewrite andb_false_r. apply ONE.
Qed.

Lemma plain_gen : forall ps body trail R,
  match ps with None => True | Some l => l = [] /\ ~ In chH body end -> ~ In chA body -> noHH body = true ->
  (forall p, In p (pieces body) -> isOpen (fst p) = false /\ fst p <> LBlkEnd) -> apart (map Own (pieces body) ++ R) ->
  exists prev, collect ps body trail = Some (mkDefn [] ([chA; ch_space] ++ body ++ markEnd) []) /\
    good prev ([chA; ch_space] ++ body) /\ apartP prev R /\
    tokens (view ([chA; ch_space] ++ body)) = tokens body.
Proof.
  intros ps body trail R HP NA NH CL AP.
  assert (E1 := collect_plain (List.length body) ps trail body [ch_space; chA] None (S (List.length body)) (le_n _) (Nat.lt_succ_diag_r _) HP NA NH).
  destruct (chain_pieces body) as [CP FP].
  assert (DL := dlRun_chain (pieces body) CP CL). rewrite FP in DL. rewrite DL in E1. cbn [endMark] in E1.
  assert (EC : collect ps body trail = Some (mkDefn [] ([chA; ch_space] ++ body ++ markEnd) [])).
  { unfold collect. destruct body as [|a [|b r]]; auto.
    cbn [noHH] in NH. apply andb_true_iff in NH. destruct NH as [NH _]. apply negb_true_iff in NH. change "#"%char with chH in NH. now rewrite NH. }
  destruct body as [|x body].
  - exists None. split; auto. split; [|split; auto].
    exists [chA], ch_space. repeat split; auto; [discriminate|]. now left.
  - set (B := x :: body) in *. destruct (last_piece B) as [l [p [PB [EB [Wp FL]]]]]; [subst B; discriminate|].
    exists (Some (Own p)). split; auto.
    assert (V : view ([chA; ch_space] ++ B) = [ch_space] ++ B) by (rewrite view_app, (view_id B NA); reflexivity).
    assert (EO : endOf ([ch_space] ++ B) = endOf B) by (subst B; apply endOf_app; now left).
    rewrite V. split; [|split].
    + destruct (whole_pieces p Wp) as [_ [_ NP]]. destruct (exists_last NP) as [tp [z LP]].
      exists ([chA; ch_space] ++ flat l ++ tp), z. split.
      { rewrite FL, LP. now rewrite !app_assoc. } split.
      { intros ->. apply NA. rewrite FL, LP. apply in_or_app. right. apply in_or_app. right. now left. }
      rewrite V, EO, EB. split; [apply CL; rewrite PB; apply in_or_app; right; now left|].
      apply (linked_piece p z (rev tp)); auto. rewrite LP. now rewrite rev_app_distr.
    + rewrite PB in AP. now apply (apart_tail l).
    + subst B. rewrite tokens_app by now left. reflexivity.
Qed.
