(** Proofs about the checks of names. *)
From Verif Require Import Cbase Cbase_facts Bsearch_model Bsearch_spec Bsearch_proofs.
From Verif Require Import Names_model Names_spec.
From Coq Require Import Lia.
Open Scope nat_scope.

(** ** Characters *)
Definition check_all (f : ascii -> bool) : bool :=
  forallb f (map ascii_of_nat (seq 0 256)).
Lemma all_chars : forall f, check_all f = true -> forall c, f c = true.
Proof.
  intros f H c. unfold check_all in H. rewrite forallb_forall in H. apply H.
  rewrite <- (ascii_nat_embedding c). apply in_map. apply in_seq.
  pose proof (nat_ascii_bounded c). lia.
Qed.
Definition memb (c : ascii) (l : list ascii) : bool := existsb (Ascii.eqb c) l.
Lemma memb_iff : forall c l, memb c l = true <-> In c l.
Proof.
  intros c l. unfold memb. rewrite existsb_exists. split.
  - intros (x & H & E). apply Ascii.eqb_eq in E. subst. exact H.
  - intros H. exists c. split; [exact H|apply Ascii.eqb_refl].
Qed.
Lemma upper_iff : forall c, isupper c = true <-> In c upper_set.
Proof.
  intros c. rewrite <- memb_iff.
  assert (Bool.eqb (isupper c) (memb c upper_set) = true) as H
    by (apply (all_chars (fun c => Bool.eqb (isupper c) (memb c upper_set))); vm_compute; reflexivity).
  apply Bool.eqb_prop in H. rewrite H. tauto.
Qed.
Lemma lower_iff : forall c, islower c = true <-> In c lower_set.
Proof.
  intros c. rewrite <- memb_iff.
  assert (Bool.eqb (islower c) (memb c lower_set) = true) as H
    by (apply (all_chars (fun c => Bool.eqb (islower c) (memb c lower_set))); vm_compute; reflexivity).
  apply Bool.eqb_prop in H. rewrite H. tauto.
Qed.
Lemma digit_iff : forall c, is_digit c = true <-> In c digit_set.
Proof.
  intros c. rewrite <- memb_iff.
  assert (Bool.eqb (is_digit c) (memb c digit_set) = true) as H
    by (apply (all_chars (fun c => Bool.eqb (is_digit c) (memb c digit_set))); vm_compute; reflexivity).
  apply Bool.eqb_prop in H. rewrite H. tauto.
Qed.
Lemma not_upper_iff : forall c, negb (isupper c) = true <-> ~ In c upper_set.
Proof. intros c. rewrite <- upper_iff. destruct (isupper c); cbn; intuition congruence. Qed.
Lemma not_lower_iff : forall c, negb (islower c) = true <-> ~ In c lower_set.
Proof. intros c. rewrite <- lower_iff. destruct (islower c); cbn; intuition congruence. Qed.

Lemma match_char : forall nc pc, matchPrefixChar nc pc = true <-> denotes pc nc.
Proof.
  intros nc pc. unfold matchPrefixChar. split.
  - destruct (nc =c pc) eqn:E; [apply Ascii.eqb_eq in E; subst; intros _; constructor|].
    repeat match goal with |- (if ?b then _ else _) = true -> _ =>
      let F := fresh "F" in destruct b eqn:F; [apply Ascii.eqb_eq in F; subst pc; intros H|clear F] end.
    + apply d_upper, upper_iff, H.
    + apply d_lower, lower_iff, H.
    + apply d_any.
    + apply d_digit, digit_iff, H.
    + apply d_notupper, not_upper_iff, H.
    + apply d_notlower, not_lower_iff, H.
    + apply d_letter. unfold isalpha in H. apply Bool.orb_true_iff in H.
      rewrite upper_iff, lower_iff in H. exact H.
    + apply d_alnum. unfold isalpha in H. rewrite !Bool.orb_true_iff in H.
      rewrite upper_iff, lower_iff, digit_iff in H. tauto.
    + discriminate.
  - intros H. destruct (nc =c pc) eqn:E; [reflexivity|].
    destruct H; try reflexivity.
    + rewrite Ascii.eqb_refl in E. discriminate.
    + cbn. apply upper_iff; assumption.
    + cbn. apply lower_iff; assumption.
    + cbn. apply not_upper_iff; assumption.
    + cbn. apply not_lower_iff; assumption.
    + cbn. unfold isalpha. apply Bool.orb_true_iff. rewrite upper_iff, lower_iff. assumption.
    + cbn. unfold isalpha. rewrite !Bool.orb_true_iff. rewrite upper_iff, lower_iff, digit_iff. tauto.
    + cbn. apply digit_iff; assumption.
Qed.

(** ** Prefixes *)
Lemma getChar_app : forall a x b, getChar (a ++ x :: b) (S (List.length a)) = x.
Proof. intros. unfold getChar. replace (S (List.length a) - 1) with (List.length a) by lia. apply nth_middle. Qed.

(** [name] is what has been read followed by what remains. *)
Lemma loop_plain : forall rest name prefix last done todo n,
  name = done ++ todo -> n = S (List.length done) -> ~ In "*"%char rest ->
  (getChar prefix (S (List.length name)) <> "*"%char \/ True) ->
  (forall k, nth_error rest k <> Some "*"%char) ->
  prefix = prefix -> (exists pre, prefix = pre ++ rest /\ List.length pre = List.length done) ->
  (prefixLoop name prefix rest last n = true <-> begins rest todo).
Proof.
  induction rest as [|pc rest IH]; intros name prefix last done todo n EN En NS _ NE _ (pre & EP & LP).
  - cbn [prefixLoop]. split; [intros _|reflexivity]. exists [], todo. split; [reflexivity|constructor].
  - cbn [prefixLoop].
    destruct (pc =c "*"%char) eqn:ES; [apply Ascii.eqb_eq in ES; subst; exfalso; apply NS; left; reflexivity|].
    destruct todo as [|x todo].
    + rewrite app_nil_r in EN. subst name n.
      replace (List.length done <? S (List.length done)) with true by (symmetry; apply Nat.ltb_lt; lia).
      assert (begins (pc :: rest) [] <-> False) as BF.
      { split; [|tauto]. intros (w & r & E & F). destruct w; [inversion F|discriminate]. }
      rewrite BF. split; [|tauto].
      intros H. apply Bool.andb_true_iff in H as [H H3]. apply Bool.andb_true_iff in H as [H1 H2].
      apply Ascii.eqb_eq in H3. subst prefix. apply Nat.leb_le in H2. rewrite app_length in H2. cbn in H2.
      destruct rest as [|q rest']; [cbn in H2; lia|].
      apply NS. right. left.
      unfold getChar in H3. replace (S (List.length done) + 1 - 1) with (S (List.length done)) in H3 by lia.
      rewrite <- LP in H3. rewrite app_nth2 in H3 by lia.
      replace (S (List.length pre) - List.length pre) with 1 in H3 by lia. cbn in H3. exact H3.
    + subst n.
      replace (List.length name <? S (List.length done)) with false
        by (symmetry; apply Nat.ltb_ge; subst name; rewrite app_length; cbn; lia).
      subst name. rewrite getChar_app.
      destruct (matchPrefixChar x pc) eqn:EM.
      * assert (forall b, begins (pc :: rest) (x :: b) <-> begins rest b) as BB.
        { intros b. split.
          - intros (w & r & E & F). inversion F; subst. injection E as <- ->.
            eexists _, _. split; [reflexivity|eassumption].
          - intros (w & r & -> & F). exists (x :: w), r. split; [reflexivity|].
            constructor; [apply match_char; exact EM|exact F]. }
        rewrite BB. apply IH with (done := done ++ [x]).
        -- rewrite <- app_assoc. reflexivity.
        -- rewrite app_length. cbn. lia.
        -- intros I. apply NS. right. exact I.
        -- right. exact I.
        -- intros k. exact (NE (S k)).
        -- reflexivity.
        -- exists (pre ++ [pc]). split; [subst prefix; rewrite <- app_assoc; reflexivity|].
           rewrite !app_length. cbn. lia.
      * split; [discriminate|]. intros (w & r & E & F). inversion F; subst. injection E as <- ->.
        match goal with D : denotes _ _ |- _ => apply match_char in D; congruence end.
Qed.

Lemma match_plain : forall name p, no_star p ->
  (matchPrefix name (Some p) = true <-> begins p name).
Proof.
  intros name p NS. cbn [matchPrefix].
  apply loop_plain with (done := []).
  - reflexivity.
  - reflexivity.
  - exact NS.
  - right. exact I.
  - intros k E. apply NS. eapply nth_error_In. exact E.
  - reflexivity.
  - exists []. split; reflexivity.
Qed.

Lemma rest_matches : forall k todo done last, k >= List.length todo ->
  (restMatches k (done ++ todo) (S (List.length done)) last = true
   <-> Forall (denotes last) todo).
Proof.
  induction k as [|k IH]; intros todo done last K.
  - destruct todo; [|cbn in K; lia]. cbn. split; [constructor|reflexivity].
  - cbn [restMatches]. destruct todo as [|x todo].
    + rewrite app_nil_r. replace (S (List.length done) <=? List.length done) with false
        by (symmetry; apply Nat.leb_gt; lia).
      split; [constructor|reflexivity].
    + replace (S (List.length done) <=? List.length (done ++ x :: todo)) with true
        by (symmetry; apply Nat.leb_le; rewrite app_length; cbn; lia).
      rewrite getChar_app. destruct (matchPrefixChar x last) eqn:E.
      * specialize (IH todo (done ++ [x]) last). rewrite <- app_assoc in IH. cbn [app] in IH.
        replace (S (List.length (done ++ [x]))) with (S (S (List.length done))) in IH
          by (rewrite app_length; cbn; lia).
        rewrite IH by (cbn in K; lia). split.
        -- intros F. constructor; [apply match_char; exact E|exact F].
        -- intros F. inversion F; assumption.
      * split; [discriminate|]. intros F. inversion F; subst.
        match goal with D : denotes _ _ |- _ => apply match_char in D; congruence end.
Qed.

Lemma rest_past : forall k name n last, List.length name < n -> restMatches k name n last = true.
Proof.
  intros [|k] name n last H; cbn [restMatches]; [reflexivity|].
  replace (n <=? List.length name) with false by (symmetry; apply Nat.leb_gt; lia). reflexivity.
Qed.

Lemma loop_star : forall p c name prefix last done todo,
  name = done ++ todo -> ~ In "*"%char (p ++ [c]) ->
  (exists pre, prefix = pre ++ p ++ [c; "*"%char] /\ List.length pre = List.length done) ->
  (prefixLoop name prefix (p ++ [c; "*"%char]) last (S (List.length done)) = true <->
   exists w rest, todo = w ++ rest /\ Forall2 denotes p w /\
    match rest with
    | [] => 2 <= List.length done + List.length p
    | a :: rest' => denotes c a /\ Forall (denotes c) (skipn 1 rest')
    end).
Proof.
  induction p as [|pc p IH]; intros c name prefix last done todo EN NS (pre & EP & LP).
  - cbn [app prefixLoop].
    destruct (c =c "*"%char) eqn:ES; [apply Ascii.eqb_eq in ES; subst; exfalso; apply NS; left; reflexivity|].
    destruct todo as [|x todo].
    + rewrite app_nil_r in EN. subst name.
      replace (List.length done <? S (List.length done)) with true by (symmetry; apply Nat.ltb_lt; lia).
      subst prefix. cbn [app].
      replace (S (List.length done) + 1 <=? List.length (pre ++ [c; "*"%char])) with true
        by (symmetry; apply Nat.leb_le; rewrite app_length; cbn; lia).
      replace (getChar (pre ++ [c; "*"%char]) (S (List.length done) + 1)) with "*"%char.
      2:{ unfold getChar. rewrite app_nth2 by lia.
          replace (S (List.length done) + 1 - 1 - List.length pre) with 1 by lia. reflexivity. }
      rewrite Ascii.eqb_refl, !Bool.andb_true_r. split.
      * intros H. apply Nat.ltb_lt in H. exists [], []. split; [reflexivity|]. split; [constructor|]. cbn; lia.
      * intros (w & r & E & F & G). inversion F; subst. cbn in E. subst r. cbn in G. apply Nat.ltb_lt. lia.
    + replace (List.length name <? S (List.length done)) with false
        by (symmetry; apply Nat.ltb_ge; subst name; rewrite app_length; cbn; lia).
      subst name. rewrite getChar_app.
      destruct (matchPrefixChar x c) eqn:EM.
      * cbn [prefixLoop]. rewrite Ascii.eqb_refl.
        assert (forall w r, x :: todo = w ++ r -> Forall2 denotes [] w -> w = [] /\ r = x :: todo) as WR.
        { intros w r E F. inversion F; subst. split; [reflexivity|]. symmetry. exact E. }
        destruct todo as [|y todo].
        -- rewrite rest_past by (rewrite app_length; cbn; lia). split; [intros _|reflexivity].
           exists [], [x]. split; [reflexivity|]. split; [constructor|]. split; [apply match_char; exact EM|constructor].
        -- pose proof (rest_matches (List.length (done ++ x :: y :: todo)) todo (done ++ [x; y]) c) as R.
           rewrite <- app_assoc in R. cbn [app] in R.
           replace (S (List.length (done ++ [x; y]))) with (S (S (S (List.length done)))) in R
             by (rewrite app_length; cbn; lia).
           rewrite R by (rewrite app_length; cbn; lia). split.
           ++ intros F. exists [], (x :: y :: todo). split; [reflexivity|]. split; [constructor|].
              split; [apply match_char; exact EM|exact F].
           ++ intros (w & r & E & F & G). destruct (WR _ _ E F) as [-> ->]. exact (proj2 G).
      * split; [discriminate|]. intros (w & r & E & F & G). inversion F; subst. cbn in E. subst r.
        destruct G as [D _]. apply match_char in D. congruence.
  - cbn [app prefixLoop].
    destruct (pc =c "*"%char) eqn:ES; [apply Ascii.eqb_eq in ES; subst; exfalso; apply NS; left; reflexivity|].
    destruct todo as [|x todo].
    + rewrite app_nil_r in EN. subst name.
      replace (List.length done <? S (List.length done)) with true by (symmetry; apply Nat.ltb_lt; lia).
      assert (getChar prefix (S (List.length done) + 1) = "*"%char -> False) as NG.
      { subst prefix. unfold getChar. rewrite app_nth2 by lia.
        replace (S (List.length done) + 1 - 1 - List.length pre) with 1 by lia. cbn [app nth].
        intros H. apply NS. right. destruct p as [|q p]; cbn in H; [subst c; left; reflexivity|left; exact H]. }
      split.
      * intros H. apply Bool.andb_true_iff in H as [_ H]. apply Ascii.eqb_eq in H. tauto.
      * intros (w & r & E & F & _). destruct w; [inversion F|discriminate].
    + replace (List.length name <? S (List.length done)) with false
        by (symmetry; apply Nat.ltb_ge; subst name; rewrite app_length; cbn; lia).
      subst name. rewrite getChar_app.
      destruct (matchPrefixChar x pc) eqn:EM.
      * specialize (IH c (done ++ x :: todo) prefix pc (done ++ [x]) todo).
        replace (S (List.length (done ++ [x]))) with (S (S (List.length done))) in IH
          by (rewrite app_length; cbn; lia).
        rewrite IH.
        -- rewrite app_length. cbn [List.length]. split.
           ++ intros (w & r & -> & F & G). exists (x :: w), r. split; [reflexivity|].
              split; [constructor; [apply match_char; exact EM|exact F]|].
              destruct r; [lia|exact G].
           ++ intros (w & r & E & F & G). inversion F; subst. injection E as <- ->.
              eexists _, r. split; [reflexivity|]. split; [eassumption|].
              destruct r; [lia|exact G].
        -- rewrite <- app_assoc. reflexivity.
        -- intros I. apply NS. right. exact I.
        -- exists (pre ++ [pc]). split; [subst prefix; rewrite <- app_assoc; reflexivity|].
           rewrite !app_length. cbn. lia.
      * split; [discriminate|]. intros (w & r & E & F & _). inversion F; subst. injection E as <- ->.
        match goal with D : denotes _ _ |- _ => apply match_char in D; congruence end.
Qed.

Lemma match_star : forall name p c, no_star (p ++ [c]) ->
  (matchPrefix name (Some (p ++ [c; "*"%char])) = true <-> accepted p c name).
Proof.
  intros name p c NS. cbn [matchPrefix].
  exact (loop_star p c name (p ++ [c; "*"%char]) "000"%char [] name eq_refl NS
           (ex_intro _ [] (conj eq_refl eq_refl))).
Qed.

(** ** Name spaces *)
Lemma space_eqb_iff : forall a b, space_eqb a b = true <-> a = b.
Proof. intros [] []; cbn; split; congruence. Qed.

(** The name spaces an entry of a chosen name space is in. *)
Definition spacesOf (f : space) : list space :=
  match f with
  | ENUM => [ENUM; CONST; EXTERNAL]
  | TYPE => [TYPE; EXTERNAL]
  | GLOB => [GLOB; EXTERNAL]
  | CONST => [CONST; EXTERNAL]
  | ITER => [ITER; EXTERNAL]
  | f => [f]
  end.
Definition varAt (u : uentry) (s : vscope) : bool :=
  match ekind_of u, s with
  | KVar _ AtGlobal, AtGlobal | KVar _ AtFile, AtFile | KVar _ InBlock, InBlock => true
  | _, _ => false
  end.
Definition macroVar (m : bool) (u : uentry) : bool :=
  m && match ekind_of u with KVar (VKNORMAL | VKSPEC | VKYIELDPARAM) InBlock => true | _ => false end.
Definition isIn (m : bool) (u : uentry) (x : space) : bool :=
  match x with
  | UNCHECKEDMACRO => isExpandedMacro u
  | TAG => isAnyTag u
  | ENUM => isEnumConstant u
  | TYPE => match ekind_of u with KDatatype => true | _ => false end
  | FILESTATIC => (isFunction u && isStatic u) || (negb (isExpandedMacro u) && varAt u AtFile)
  | GLOB => negb (isExpandedMacro u) && varAt u AtGlobal
  | MACROVAR => macroVar m u
  | LOCAL => negb (isExpandedMacro u) && negb (macroVar m u) && varAt u InBlock
  | CONST => isConstant u || isEnumConstant u
  | ITER => isIter u
  | EXTERNAL => match ekind_of u with KDatatype => true | _ => false end
                || isConstant u || isEnumConstant u || isIter u
                || (isFunction u && negb (isStatic u))
                || (negb (isExpandedMacro u) && varAt u AtGlobal)
  end.
Lemma unchecked_iff : forall u, unchecked_macro u <-> isExpandedMacro u = true.
Proof.
  intros [k st nm]. unfold unchecked_macro, isExpandedMacro. cbn [ekind_of].
  split; [intros [s ->]; reflexivity|]. destruct k as [[] vs| | | | | |]; try discriminate. eauto.
Qed.
Lemma varAt_iff : forall u s, (exists k, ekind_of u = KVar k s) <-> varAt u s = true.
Proof.
  intros [k st nm] s. unfold varAt. cbn [ekind_of].
  split; [intros [k' ->]; destruct s; reflexivity|].
  destruct k as [k' []| | | | | |]; destruct s; try discriminate; eauto.
Qed.
Lemma macroVar_iff : forall m u, macro_variable m u <-> macroVar m u = true.
Proof.
  intros m u. unfold macro_variable. rewrite unchecked_iff. destruct u as [k st nm].
  unfold macroVar, isExpandedMacro. cbn [ekind_of]. split.
  - intros (-> & _ & k' & -> & [-> |[-> | ->]]); reflexivity.
  - destruct m; [|discriminate]. destruct k as [vk []| | | | | |]; try discriminate;
      destruct vk; try discriminate; intros _; (split; [reflexivity|]);
      (split; [discriminate|eauto]).
    all: eexists; split; [reflexivity|tauto].
Qed.
Lemma is_a_iff : forall m u x, is_a m u x <-> isIn m u x = true.
Proof.
  intros m u x.
  assert (forall b, b = false <-> ~ b = true) as NB by (intros []; intuition congruence).
  destruct x; cbn [is_a isIn];
    rewrite ?Bool.orb_true_iff, ?Bool.andb_true_iff, ?Bool.negb_true_iff, ?NB,
      ?unchecked_iff, ?varAt_iff, ?macroVar_iff; try tauto.
  all: unfold isAnyTag, isEnumConstant, isFunction, isConstant, isIter;
    destruct u as [[] st nm]; cbn [ekind_of isStatic] in *; try (intuition congruence).
Qed.
Lemma chosen_spaces : forall m u f0, reasonable u -> ~ param_copy u -> chooseSpace m u = Some f0 ->
  forall y, is_a m u y <-> In y (spacesOf f0).
Proof.
  intros m u f0 R C CH y. rewrite is_a_iff.
  destruct u as [k st nm]. unfold reasonable, param_copy in R, C. cbn [ekind_of isStatic] in R, C.
  destruct k as [vk vs| | | | | |].
  - destruct vk, vs, m, st; try discriminate R; try (exfalso; exact (C I)); cbn in CH;
      injection CH as <-; destruct y; cbn; intuition congruence.
  - destruct m, st; cbn in CH; injection CH as <-; destruct y; cbn; intuition congruence.
  - subst st. cbn in CH. injection CH as <-; destruct m, y; cbn; intuition congruence.
  - subst st. cbn in CH. injection CH as <-; destruct m, y; cbn; intuition congruence.
  - subst st. cbn in CH. injection CH as <-; destruct m, y; cbn; intuition congruence.
  - subst st. cbn in CH. injection CH as <-; destruct m, y; cbn; intuition congruence.
  - subst st. cbn in CH. injection CH as <-; destruct m, y; cbn; intuition congruence.
Qed.
Lemma chosen_total : forall m u, reasonable u -> ~ param_copy u -> exists f, chooseSpace m u = Some f.
Proof.
  intros m [k st nm] R C. unfold reasonable, param_copy in R, C. cbn [ekind_of isStatic] in R, C.
  destruct k as [vk vs| | | | | |];
    [destruct vk, vs, m, st; try discriminate R; try (exfalso; exact (C I))|destruct st|..];
    try subst st; cbn; eauto.
Qed.
Lemma chosen_iter : forall m u, reasonable u -> chooseSpace m u = Some ITER -> ekind_of u = KIter.
Proof.
  intros m [k st nm] R. unfold reasonable in R. cbn [ekind_of isStatic] in *.
  destruct k as [vk vs| | | | | |]; [destruct vk, vs, m, st|destruct st|..]; try subst st;
    cbn; try discriminate; reflexivity.
Qed.

Lemma fallBack_eqs : forall s f, fallBack s f =
  match f with
  | ENUM => match str s ENUM with
            | Some _ => ENUM
            | None => match str s CONST with Some _ => CONST | None => EXTERNAL end
            end
  | GLOB | TYPE | CONST => match str s f with Some _ => f | None => EXTERNAL end
  | _ => f
  end.
Proof.
  intros s []; try reflexivity; unfold fallBack, on;
    [destruct (str s ENUM) eqn:E, (str s CONST) eqn:F|
     destruct (str s GLOB) eqn:E|destruct (str s TYPE) eqn:E|destruct (str s CONST) eqn:E];
    rewrite ?E, ?F; reflexivity.
Qed.

Lemma governs_iff : forall s m u f0, reasonable u -> ~ param_copy u ->
  chooseSpace m u = Some f0 ->
  (f0 = ITER -> str s ITER <> None \/ str s EXTERNAL = None) ->
  forall x p, governs s m u x p <-> (x = fallBack s f0 /\ str s x = Some p).
Proof.
  intros s m u f0 R C CH HI x p.
  pose proof (chosen_spaces m u f0 R C CH) as SP.
  assert (governs s m u x p <->
    (In x (spacesOf f0) /\ str s x = Some p /\
     (x = CONST -> In ENUM (spacesOf f0) -> str s ENUM = None) /\
     (x = EXTERNAL -> forall y, In y (spacesOf f0) -> y <> EXTERNAL -> str s y = None))) as G.
  { unfold governs. rewrite SP. split.
    - intros (A & B & D). repeat split; try assumption.
      + intros -> E. apply D; [apply SP; exact E|left; auto].
      + intros -> y Y NY. apply D; [apply SP; exact Y|right; auto].
    - intros (A & B & D & E). repeat split; try assumption.
      intros y Y [[-> ->]|[NY ->]]; [apply D; [reflexivity|apply SP; exact Y]|
        apply E; [reflexivity|apply SP; exact Y|exact NY]]. }
  rewrite G. clear G SP.
  rewrite fallBack_eqs.
  destruct f0; cbn [spacesOf In].
  all: try solve [split; [intros ([<-|[]] & B & _); auto|intros [-> B]; repeat split; auto; try discriminate;
              intros _ y [<-|[]] NY; congruence]].
  - destruct (str s ENUM) eqn:EE.
    + split.
      * intros ([<-|[<-|[<-|[]]]] & B & D & E); [auto| |].
        -- specialize (D eq_refl (or_introl eq_refl)). congruence.
        -- specialize (E eq_refl ENUM (or_introl eq_refl)). rewrite EE in E. discriminate E. discriminate.
      * intros [-> B]. repeat split; auto; discriminate.
    + destruct (str s CONST) eqn:EC.
      * split.
        -- intros ([<-|[<-|[<-|[]]]] & B & D & E); [congruence|auto|].
           specialize (E eq_refl CONST (or_intror (or_introl eq_refl))). rewrite EC in E. discriminate E. discriminate.
        -- intros [-> B]. repeat split; auto; discriminate.
      * split.
        -- intros ([<-|[<-|[<-|[]]]] & B & D & E); [congruence|congruence|auto].
        -- intros [-> B]. repeat split; auto; try discriminate.
           intros _ y [<-|[<-|[<-|[]]]] NY; congruence.
  - destruct (str s GLOB) eqn:EE.
    + split.
      * intros ([<-|[<-|[]]] & B & D & E); [auto|].
        specialize (E eq_refl GLOB (or_introl eq_refl)). rewrite EE in E. discriminate E. discriminate.
      * intros [-> B]. repeat split; auto; discriminate.
    + split.
      * intros ([<-|[<-|[]]] & B & D & E); [congruence|auto].
      * intros [-> B]. repeat split; auto; try discriminate. intros _ y [<-|[<-|[]]] NY; congruence.
  - destruct (str s TYPE) eqn:EE.
    + split.
      * intros ([<-|[<-|[]]] & B & D & E); [auto|].
        specialize (E eq_refl TYPE (or_introl eq_refl)). rewrite EE in E. discriminate E. discriminate.
      * intros [-> B]. repeat split; auto; discriminate.
    + split.
      * intros ([<-|[<-|[]]] & B & D & E); [congruence|auto].
      * intros [-> B]. repeat split; auto; try discriminate. intros _ y [<-|[<-|[]]] NY; congruence.
  - destruct (str s CONST) eqn:EE.
    + split.
      * intros ([<-|[<-|[]]] & B & D & E); [auto|].
        specialize (E eq_refl CONST (or_introl eq_refl)). rewrite EE in E. discriminate E. discriminate.
      * intros [-> B]. repeat split; auto; try discriminate. intros _ [E|[E|[]]]; discriminate.
    + split.
      * intros ([<-|[<-|[]]] & B & D & E); [congruence|auto].
      * intros [-> B]. repeat split; auto; try discriminate. intros _ y [<-|[<-|[]]] NY; congruence.
  - specialize (HI eq_refl). split.
    + intros ([<-|[<-|[]]] & B & D & E); [auto|].
      specialize (E eq_refl ITER (or_introl eq_refl)). destruct HI as [HI|HI]; [|congruence].
      exfalso. apply HI, E. discriminate.
    + intros [-> B]. repeat split; auto; discriminate.
Qed.

Lemma not_consistent_iff : forall s m u, reasonable u -> ~ param_copy u ->
  (ekind_of u = KIter -> str s ITER <> None \/ str s EXTERNAL = None) ->
  forall x, In (NotConsistent x) (checkPrefix s m u) <->
    exists p, governs s m u x p /\ matchPrefix (realName u) (Some p) = false.
Proof.
  intros s m u R C HI x. destruct (chosen_total m u R C) as [f0 CH].
  assert (f0 = ITER -> str s ITER <> None \/ str s EXTERNAL = None) as HI'
    by (intros ->; apply HI; eapply chosen_iter; eassumption).
  pose proof (governs_iff s m u f0 R C CH HI') as G.
  unfold checkPrefix. rewrite CH. rewrite in_app_iff. split.
  - intros [H|H].
    + unfold on in H. destruct (str s (fallBack s f0)) as [p|] eqn:E; [|destruct H].
      destruct (matchPrefix (realName u) (Some p)) eqn:M; cbn in H; [destruct H|].
      destruct H as [H|[]]. injection H as <-. exists p. split; [|exact M].
      apply G. split; [reflexivity|exact E].
    + apply in_flat_map in H as (y & _ & H). exfalso.
      destruct (excl s y && checkExclude (fallBack s f0) y); [|destruct H].
      destruct (str s y); [|destruct H]. destruct (matchPrefix _ _); [|destruct H].
      destruct H as [H|[]]. discriminate.
  - intros (p & GV & M). apply G in GV as [-> E]. left. unfold on. rewrite E, M. left. reflexivity.
Qed.

(** An identifier is its own copy's business: nothing is said about copies of parameters. *)
Lemma copy_silent : forall s m u, param_copy u -> checkPrefix s m u = [].
Proof.
  intros s m [k st nm] C. unfold param_copy in C. cbn [ekind_of] in C.
  unfold checkPrefix. destruct k as [vk vs| | | | | |]; try destruct C.
  destruct vk, vs; try destruct C; destruct st; reflexivity.
Qed.

Lemma other_iff : forall s m u f0, reasonable u -> ~ param_copy u -> chooseSpace m u = Some f0 ->
  forall x, In (MatchesOther x) (checkPrefix s m u) <->
    In x excludeCodes /\ excl s x = true /\ checkExclude (fallBack s f0) x = true /\
    exists p, str s x = Some p /\ matchPrefix (realName u) (Some p) = true.
Proof.
  intros s m u f0 R C CH x. unfold checkPrefix. rewrite CH, in_app_iff, in_flat_map. split.
  - intros [H|(y & Y & H)].
    + destruct (_ && _); [|destruct H]. destruct H as [H|[]]. discriminate.
    + destruct (excl s y) eqn:X; [|destruct H]. destruct (checkExclude (fallBack s f0) y) eqn:K; [|destruct H].
      cbn [andb] in H. destruct (str s y) as [p|] eqn:E; [|destruct H].
      destruct (matchPrefix (realName u) (Some p)) eqn:M; [|destruct H].
      destruct H as [H|[]]. injection H as <-. eauto 10.
  - intros (Y & X & K & p & E & M). right. exists x. split; [exact Y|].
    rewrite X, K, E. cbn [andb]. rewrite M. left. reflexivity.
Qed.

Lemma excluded_iff : forall s m u, reasonable u -> ~ param_copy u ->
  forall x, x <> CONST -> x <> ITER ->
  (x = EXTERNAL -> ~ unchecked_macro u /\ ~ own_prefix s u) ->
  (In (MatchesOther x) (checkPrefix s m u) <->
   excl s x = true /\ ~ is_a m u x /\
   exists p, str s x = Some p /\ matchPrefix (realName u) (Some p) = true).
Proof.
  intros s m u R C x NC NI HE. destruct (chosen_total m u R C) as [f0 CH].
  rewrite (other_iff s m u f0 R C CH).
  pose proof (chosen_spaces m u f0 R C CH x) as SP.
  assert (forall p, str s x = Some p -> (checkExclude (fallBack s f0) x = true <-> ~ is_a m u x)) as K.
  { intros p E. rewrite SP. destruct (space_eqb x EXTERNAL) eqn:XE.
    - apply space_eqb_iff in XE. subst x. destruct (HE eq_refl) as [NM NO].
      rewrite fallBack_eqs. destruct f0; cbn [spacesOf In checkExclude space_eqb negb andb];
        try (intuition congruence).
      + destruct (str s ENUM) eqn:EE.
        { exfalso. apply NO. right. left. split; [|left; congruence].
          clear - CH R. destruct u as [[vk vs| | | | | |] st nm]; unfold reasonable in R; cbn [ekind_of isStatic] in *;
            [destruct vk, vs, m, st|destruct st|..]; try subst st; cbn in CH; try discriminate; reflexivity. }
        destruct (str s CONST) eqn:EC.
        { exfalso. apply NO. right. left. split; [|right; congruence].
          clear - CH R. destruct u as [[vk vs| | | | | |] st nm]; unfold reasonable in R; cbn [ekind_of isStatic] in *;
            [destruct vk, vs, m, st|destruct st|..]; try subst st; cbn in CH; try discriminate; reflexivity. }
        cbn. intuition congruence.
      + destruct (str s GLOB); cbn; intuition congruence.
      + destruct (str s TYPE); cbn; intuition congruence.
      + exfalso. apply NM. apply unchecked_iff.
        clear - CH R. destruct u as [[vk vs| | | | | |] st nm]; unfold reasonable in R; cbn [ekind_of isStatic] in *;
            [destruct vk, vs, m, st|destruct st|..]; try subst st; cbn in CH; try discriminate; reflexivity.
      + destruct (str s CONST) eqn:EC.
        { exfalso. apply NO. left. split; [|congruence].
          clear - CH R. destruct u as [[vk vs| | | | | |] st nm]; unfold reasonable in R; cbn [ekind_of isStatic] in *;
            [destruct vk, vs, m, st|destruct st|..]; try subst st; cbn in CH; try discriminate; reflexivity. }
        cbn. intuition congruence.
      + exfalso. apply NO. right. right. eapply chosen_iter; eassumption.
    - assert (x <> EXTERNAL) as NX by (intros ->; discriminate).
      assert (checkExclude (fallBack s f0) x = negb (space_eqb (fallBack s f0) x)) as ->
        by (destruct x; try reflexivity; congruence).
      rewrite Bool.negb_true_iff. rewrite <- Bool.not_true_iff_false, space_eqb_iff.
      rewrite fallBack_eqs. destruct f0; cbn [spacesOf In]; try (intuition congruence).
      + destruct (str s ENUM) eqn:EE; [intuition congruence|].
        destruct (str s CONST) eqn:EC; intuition congruence.
      + destruct (str s GLOB) eqn:EE; intuition congruence.
      + destruct (str s TYPE) eqn:EE; intuition congruence.
      + destruct (str s CONST) eqn:EE; intuition congruence. }
  assert (In x excludeCodes) as IX by (destruct x; cbn; try tauto; congruence).
  split.
  - intros (_ & X & KE & p & E & M). split; [exact X|]. split; [apply (K p E), KE|eauto].
  - intros (X & NA & p & E & M). split; [exact IX|]. split; [exact X|]. split; [apply (K p E), NA|eauto].
Qed.

(** ** Reserved names *)
Lemma in_when : forall (A : Type) (b : bool) (x y : A), In y (when b x) <-> b = true /\ y = x.
Proof. intros A [] x y; cbn; intuition congruence. Qed.

Lemma equalPrefix_iff : forall p s, equalPrefix s p = true <-> starts p s.
Proof.
  induction p as [|b p IH]; intros s; cbn [equalPrefix].
  - split; [intros _; exists s; reflexivity|reflexivity].
  - destruct s as [|a s].
    + split; [discriminate|intros [r H]; discriminate].
    + rewrite Bool.andb_true_iff, Ascii.eqb_eq, IH. unfold starts. split.
      * intros [-> [r ->]]. exists r. reflexivity.
      * intros [r H]. injection H as -> ->. eauto.
Qed.

Lemma ch_self : forall a b : ascii, (a =c b) = true <-> a = b.
Proof. intros. apply Ascii.eqb_eq. Qed.
Definition nul : ascii := "000"%char.
Lemma not_upper_nul : isupper nul = false. Proof. reflexivity. Qed.
Lemma not_lower_nul : islower nul = false. Proof. reflexivity. Qed.
Lemma not_digit_nul : is_digit nul = false. Proof. reflexivity. Qed.
Lemma upper_not_nul : forall c, isupper c = true -> c <> nul.
Proof. intros c H ->. discriminate. Qed.

Definition chAt (name : cstr) (n : nat) : ascii :=
  if n <=? List.length name then getChar name n else "000"%char.
Lemma chAt1 : forall a r, chAt (a :: r) 1 = a. Proof. reflexivity. Qed.
Lemma chAt2 : forall a b r, chAt (a :: b :: r) 2 = b. Proof. reflexivity. Qed.
Lemma chAt3 : forall a b c r, chAt (a :: b :: c :: r) 3 = c. Proof. reflexivity. Qed.
Lemma chAt4 : forall a b c d r, chAt (a :: b :: c :: d :: r) 4 = d. Proof. reflexivity. Qed.

Lemma one_one : forall a f set name, f nul = false ->
  (forall c, f c = true <-> In c set) ->
  ((chAt name 1 =c a) && f (chAt name 2) = true <-> then_one [a] set name).
Proof.
  intros a f set name N F. unfold then_one. rewrite Bool.andb_true_iff, ch_self.
  destruct name as [|x [|y r]].
  - cbn. split; [intros [_ H]; unfold nul in N; congruence|intros (c & r & _ & E); discriminate].
  - replace (chAt [x] 2) with nul by reflexivity. rewrite N.
    split; [intros [_ H]; discriminate|intros (c & r & _ & E); discriminate].
  - rewrite chAt1, chAt2, F. split.
    + intros [-> H]. exists y, r. auto.
    + intros (c & r' & H & E). injection E as -> -> ->. auto.
Qed.
Lemma two_one : forall a b f set name, f nul = false ->
  (forall c, f c = true <-> In c set) ->
  ((chAt name 1 =c a) && (chAt name 2 =c b) && f (chAt name 3) = true <-> then_one [a; b] set name).
Proof.
  intros a b f set name N F. unfold then_one. rewrite !Bool.andb_true_iff, !ch_self.
  destruct name as [|x [|y [|z r]]].
  - replace (chAt [] 3) with nul by reflexivity. rewrite N.
    split; [intros [_ H]; discriminate|intros (c & r & _ & E); discriminate].
  - replace (chAt [x] 3) with nul by reflexivity. rewrite N.
    split; [intros [_ H]; discriminate|intros (c & r & _ & E); discriminate].
  - replace (chAt [x; y] 3) with nul by reflexivity. rewrite N.
    split; [intros [_ H]; discriminate|intros (c & r & _ & E); discriminate].
  - rewrite chAt1, chAt2, chAt3, F. split.
    + intros [[-> ->] H]. exists z, r. auto.
    + intros (c & r' & H & E). injection E as -> -> -> ->. auto.
Qed.
Lemma three_one : forall a b c f set name, f nul = false ->
  (forall c, f c = true <-> In c set) ->
  ((chAt name 1 =c a) && (chAt name 2 =c b) && (chAt name 3 =c c) && f (chAt name 4) = true
   <-> then_one [a; b; c] set name).
Proof.
  intros a b c f set name N F. unfold then_one. rewrite !Bool.andb_true_iff, !ch_self.
  destruct name as [|x [|y [|z [|v r]]]].
  1-4: replace (f (chAt _ 4)) with false by (symmetry; exact N);
    split; [intros [_ H]; discriminate|intros (d & r & _ & E); discriminate].
  rewrite chAt1, chAt2, chAt3, chAt4, F. split.
  - intros [[[-> ->] ->] H]. exists v, r. auto.
  - intros (d & r' & H & E). injection E as -> -> -> -> ->. auto.
Qed.

Lemma upper_not_empty : upper_set <> []. Proof. discriminate. Qed.
Lemma locale_iff : forall name,
  (4 <=? List.length name) && ((chAt name 1 =c "L"%char) && (chAt name 2 =c "C"%char)
     && (chAt name 3 =c "_"%char)) && isupper (chAt name 4) = true
  <-> then_one (lit "LC_") upper_set name.
Proof.
  intros name. change (lit "LC_") with ["L"%char; "C"%char; "_"%char].
  rewrite <- (three_one _ _ _ isupper upper_set name not_upper_nul upper_iff).
  rewrite !Bool.andb_true_iff, Nat.leb_le. split; [tauto|].
  intros [[[A B] D] H]. repeat split; try assumption.
  unfold chAt in H. destruct (4 <=? List.length name) eqn:E; [apply Nat.leb_le; exact E|discriminate H].
Qed.
Lemma signal_iff : forall name,
  (chAt name 1 =c "S"%char) && (chAt name 2 =c "I"%char) && (chAt name 3 =c "G"%char)
  && (((chAt name 4 =c "_"%char) && ((5 <=? List.length name) && isupper (getChar name 5)))
      || isupper (chAt name 4)) = true
  <-> then_one (lit "SIG") upper_set name \/ then_one (lit "SIG_") upper_set name.
Proof.
  intros name. change (lit "SIG") with ["S"%char; "I"%char; "G"%char].
  rewrite <- (three_one _ _ _ isupper upper_set name not_upper_nul upper_iff).
  rewrite !Bool.andb_true_iff, Bool.orb_true_iff, !Bool.andb_true_iff.
  assert ((((chAt name 1 =c "S"%char) = true /\ (chAt name 2 =c "I"%char) = true) /\ (chAt name 3 =c "G"%char) = true) /\
          (chAt name 4 =c "_"%char) = true /\ (5 <=? List.length name) = true /\ isupper (getChar name 5) = true
          <-> then_one (lit "SIG_") upper_set name) as H; [|tauto].
  rewrite !ch_self, Nat.leb_le, upper_iff. unfold then_one.
  destruct name as [|a [|b [|c [|d [|e r]]]]].
  1-5: (split; [intros (_ & _ & L & _); cbn in L; lia|intros (d' & r' & _ & E); discriminate]).
  rewrite chAt1, chAt2, chAt3, chAt4. change (getChar (a :: b :: c :: d :: e :: r) 5) with e. split.
  - intros ([[-> ->] ->] & -> & _ & H). exists e, r. auto.
  - intros (x & r' & H & E). injection E as -> -> -> -> -> ->. repeat split; try assumption. cbn. lia.
Qed.
Lemma sa_iff : forall name,
  (chAt name 1 =c "S"%char) && (chAt name 2 =c "A"%char) && (chAt name 3 =c "_"%char) = true
  <-> starts (lit "SA_") name.
Proof.
  intros name. rewrite !Bool.andb_true_iff, !ch_self. unfold starts.
  destruct name as [|a [|b [|c r]]].
  1-3: (split; [intros [_ H]; discriminate H|intros (r' & E); discriminate]).
  rewrite chAt1, chAt2, chAt3. split.
  - intros [[-> ->] ->]. exists r. reflexivity.
  - intros (r' & E). injection E as -> -> ->. auto.
Qed.
Lemma under_iff : forall name, (chAt name 1 =c "_"%char) = true <-> starts (lit "_") name.
Proof.
  intros name. rewrite ch_self. unfold starts. destruct name as [|a r].
  - split; [discriminate|intros [r E]; discriminate].
  - rewrite chAt1. split; [intros ->; exists r; reflexivity|intros [r' E]; injection E as ->; auto].
Qed.
Lemma under_any_iff : forall name,
  (chAt name 1 =c "_"%char) && ((chAt name 2 =c "_"%char) || isupper (chAt name 2)) = true
  <-> then_one (lit "_") ("_"%char :: upper_set) name.
Proof.
  intros name. change (lit "_") with ["_"%char].
  rewrite <- (one_one "_"%char (fun c => (c =c "_"%char) || isupper c) ("_"%char :: upper_set) name); [tauto|reflexivity|].
  intros c. rewrite Bool.orb_true_iff, ch_self, upper_iff. cbn [In]. intuition congruence.
Qed.
Lemma errno_iff : forall name,
  (chAt name 1 =c "E"%char) && (is_digit (chAt name 2) || isupper (chAt name 2)) = true
  <-> then_one (lit "E") (digit_set ++ upper_set) name.
Proof.
  intros name. change (lit "E") with ["E"%char].
  rewrite <- (one_one "E"%char (fun c => is_digit c || isupper c) (digit_set ++ upper_set) name); [tauto|reflexivity|].
  intros c. rewrite Bool.orb_true_iff, digit_iff, upper_iff, in_app_iff. tauto.
Qed.
Lemma ctype_iff : forall name,
  (((chAt name 1 =c "i"%char) && (chAt name 2 =c "s"%char))
   || ((chAt name 1 =c "t"%char) && (chAt name 2 =c "o"%char))) && islower (chAt name 3) = true
  <-> then_one (lit "is") lower_set name \/ then_one (lit "to") lower_set name.
Proof.
  intros name. change (lit "is") with ["i"%char; "s"%char]. change (lit "to") with ["t"%char; "o"%char].
  rewrite <- !(two_one _ _ islower lower_set name not_lower_nul lower_iff).
  rewrite !Bool.andb_true_iff, Bool.orb_true_iff, !Bool.andb_true_iff. tauto.
Qed.
Lemma strl_iff : forall name,
  (chAt name 1 =c "s"%char) && (chAt name 2 =c "t"%char) && (chAt name 3 =c "r"%char)
  && islower (chAt name 4) = true <-> then_one (lit "str") lower_set name.
Proof. intros name. exact (three_one _ _ _ islower lower_set name not_lower_nul lower_iff). Qed.
Lemma meml_iff : forall name,
  (((chAt name 1 =c "m"%char) && (chAt name 2 =c "e"%char) && (chAt name 3 =c "m"%char))
   || ((chAt name 1 =c "w"%char) && (chAt name 2 =c "c"%char) && (chAt name 3 =c "s"%char)))
  && islower (chAt name 4) = true
  <-> then_one (lit "mem") lower_set name \/ then_one (lit "wcs") lower_set name.
Proof.
  intros name. change (lit "mem") with ["m"%char; "e"%char; "m"%char].
  change (lit "wcs") with ["w"%char; "c"%char; "s"%char].
  rewrite <- !(three_one _ _ _ islower lower_set name not_lower_nul lower_iff).
  rewrite !Bool.andb_true_iff, Bool.orb_true_iff, !Bool.andb_true_iff. tauto.
Qed.

Lemma exists_prefix : forall l n name, Forall (fun m => List.length m = n) l ->
  ((List.length name =? S n) && existsb (equalPrefix name) l = true <->
   exists m c, In m l /\ name = m ++ [c]).
Proof.
  intros l n name H. rewrite Forall_forall in H.
  rewrite Bool.andb_true_iff, Nat.eqb_eq, existsb_exists. split.
  - intros (L & m & I & E). apply equalPrefix_iff in E as [r ->].
    rewrite app_length, (H m I) in L. destruct r as [|c [|d r]]; cbn in L; try lia. eauto.
  - intros (m & c & I & ->). split; [rewrite app_length, (H m I); cbn; lia|].
    exists m. split; [exact I|]. apply equalPrefix_iff. exists [c]. reflexivity.
Qed.
Lemma lastChar : forall m c, getChar (m ++ [c]) (List.length (m ++ [c])) = c.
Proof.
  intros m c. rewrite app_length. cbn [List.length]. replace (List.length m + 1) with (S (List.length m)) by lia.
  apply getChar_app.
Qed.
Lemma math_iff : forall name,
  ((getChar name (List.length name) =c "f"%char) || (getChar name (List.length name) =c "l"%char))
  && (((List.length name =? 4) && existsb (equalPrefix name) math3)
      || ((List.length name =? 5) && existsb (equalPrefix name) math4)
      || ((List.length name =? 6) && existsb (equalPrefix name) math5)) = true
  <-> math_suffixed name.
Proof.
  intros name.
  rewrite Bool.andb_true_iff, !Bool.orb_true_iff, !ch_self.
  rewrite (exists_prefix math3 3), (exists_prefix math4 4), (exists_prefix math5 5)
    by (repeat constructor).
  assert (forall m, In m math_functions <-> In m math3 \/ In m math4 \/ In m math5) as MM.
  { intros m. rewrite <- !in_app_iff. split; [apply incl_Forall_in_iff|apply incl_Forall_in_iff];
      unfold math_functions, math3, math4, math5; cbn [map app];
      repeat (constructor; [cbn; tauto|]); constructor. }
  unfold math_suffixed. split.
  - intros (L & H).
    assert (exists m c, In m math_functions /\ name = m ++ [c]) as (m & c & I & ->).
    { destruct H as [[(m & c & I & ->)|(m & c & I & ->)]|(m & c & I & ->)]; exists m, c;
        (split; [apply MM; tauto|reflexivity]). }
    rewrite lastChar in L. exists m. split; [exact I|]. destruct L as [-> | ->]; [left|right]; reflexivity.
  - intros (m & I & H). apply MM in I.
    assert (exists c, name = m ++ [c] /\ (c = "f"%char \/ c = "l"%char)) as (c & -> & C).
    { destruct H as [-> | ->]; eexists; split; try reflexivity; auto. }
    rewrite lastChar. split; [tauto|].
    destruct I as [I|[I|I]]; [left; left|left; right|right]; exists m, c; auto.
Qed.

Lemma external_iff : forall u, isVisibleExternally u && negb (isAnyTag u) = true <-> linkage u.
Proof.
  intros [k st nm]. unfold linkage, isVisibleExternally. cbn [ekind_of isStatic].
  destruct k as [vk []| | | | | |], st; cbn; intuition congruence.
Qed.
Lemma file_iff : forall u, isFileStatic u || isVisibleExternally u || isAnyTag u = true <-> file_scope u.
Proof.
  intros [k st nm]. unfold file_scope. cbn [ekind_of isStatic].
  destruct k as [vk []| | | | | |], st; cbn; intuition congruence.
Qed.

Lemma reserved_search : forall name, name <> [] ->
  (match bsearch name reservedNames with Found (Some _) => true | _ => false end) = true
  <-> In (Some name) reservedNames.
Proof.
  intros name K.
  assert (sorted reservedNames) as HS by (apply adjacent_sorted; [exact I|vm_compute; reflexivity]).
  assert (~ blind_member name reservedNames) as NB.
  { intros [B _]. vm_compute in B. discriminate. }
  destruct (bsearch_iff name reservedNames K HS) as [A B].
  split.
  - intros H. destruct (in_dec (fun a b : option cstr => ltac:(decide equality; apply (list_eq_dec ascii_dec)))
      (Some name) reservedNames) as [I|N]; [exact I|].
    assert (bsearch name reservedNames = NotFound) as E by (apply B; tauto). rewrite E in H. discriminate.
  - intros H. assert (bsearch name reservedNames = Found (Some name)) as E by (apply A; tauto).
    rewrite E. reflexivity.
Qed.

Lemma when_same : forall b (F f : rflag) (r : rmsg), In (f, r) (when b (F, r)) <-> f = F /\ b = true.
Proof. intros. rewrite in_when. intuition congruence. Qed.
Lemma when_other : forall b (F f : rflag) (R r : rmsg), R <> r -> (In (f, r) (when b (F, R)) <-> False).
Proof. intros. rewrite in_when. intuition congruence. Qed.

Lemma due_iff : forall local u f r, realName u <> [] ->
  (In (f, r) (checkAnsiName local u) <-> due local u f r).
Proof.
  intros local u f r NE.
  unfold checkAnsiName.
  change (fun n : nat => if n <=? List.length (realName u) then getChar (realName u) n else "000"%char)
    with (chAt (realName u)). cbv zeta. cbv beta.
  set (name := realName u) in *.
  fold (chAt name 1) (chAt name 2) (chAt name 3) (chAt name 4).
  pose proof (external_iff u) as EX. pose proof (file_iff u) as FI.
  set (ext := isVisibleExternally u && negb (isAnyTag u)) in *. clearbody ext.
  set (fs := isFileStatic u || isVisibleExternally u || isAnyTag u) in *. clearbody fs.
  pose proof (reserved_search name NE) as RS.
  set (lib := match bsearch name reservedNames with Found (Some _) => true | _ => false end) in *. clearbody lib.
  pose proof (under_iff name) as U1. pose proof (under_any_iff name) as U2.
  pose proof (errno_iff name) as U3. pose proof (locale_iff name) as U4.
  pose proof (signal_iff name) as U5. pose proof (sa_iff name) as U6.
  pose proof (ctype_iff name) as U7. pose proof (math_iff name) as U8.
  pose proof (strl_iff name) as U9. pose proof (meml_iff name) as U10.
  repeat match goal with
  | H : ?b = true <-> _ |- context [when ?b _] =>
      (tryif is_var b then fail else idtac); let v := fresh "b" in set (v := b) in *; clearbody v
  end.
  destruct r; unfold due; fold name; cbv zeta;
    rewrite <- ?EX, <- ?FI, <- ?RS, <- ?U1, <- ?U2, <- ?U3, <- ?U4, <- ?U5, <- ?U6, <- ?U7, <- ?U8,
      <- ?U9, <- ?U10; clear EX FI RS U1 U2 U3 U4 U5 U6 U7 U8 U9 U10.
  all: destruct fs, local, ext; cbn [orb];
    rewrite ?in_app_iff, ?when_same; rewrite ?when_other by discriminate; cbn [In]; clear.
  all: try (timeout 5 (intuition congruence)).
Qed.

(** ** Parameters *)
Lemma strip_iff : forall fpfx x b, bare fpfx x b <-> b = stripPrefix fpfx x.
Proof.
  intros fpfx x b. unfold bare, stripPrefix. destruct fpfx as [p|].
  - destruct (equalPrefix x p) eqn:E.
    + pose proof E as E'. apply equalPrefix_iff in E as [r ->].
      rewrite skipn_app, skipn_all, Nat.sub_diag. cbn [app skipn]. split.
      * intros [(q & Q & H)|[_ N]].
        -- injection Q as <-. apply app_inv_head in H. congruence.
        -- exfalso. apply (N p eq_refl). exists r. reflexivity.
      * intros ->. left. exists p. auto.
    + split.
      * intros [(q & Q & ->)|[-> _]]; [|reflexivity]. injection Q as <-.
        assert (equalPrefix (p ++ b) p = true) by (apply equalPrefix_iff; exists b; reflexivity). congruence.
      * intros ->. right. split; [reflexivity|]. intros q Q S'. injection Q as <-.
        apply equalPrefix_iff in S'. congruence.
  - split.
    + intros [(q & Q & _)|[-> _]]; [discriminate|reflexivity].
    + intros ->. right. split; [reflexivity|discriminate].
Qed.

Lemma forall2_len : forall p w, Forall2 denotes p w -> List.length p = List.length w.
Proof. intros p w H. induction H; cbn; congruence. Qed.

(** ** The lists *)
Definition memstr (n : cstr) (l : list cstr) : bool := existsb (cstr_eqb n) l.
Lemma memstr_iff : forall n l, memstr n l = true <-> In n l.
Proof.
  intros n l. unfold memstr. rewrite existsb_exists. split.
  - intros (x & I & E). apply cstr_eqb_eq in E. subst. exact I.
  - intros I. exists n. split; [exact I|apply cstr_eqb_eq; reflexivity].
Qed.
Definition known (name : cstr) : bool :=
  negb (cstr_eqb name []) &&
  ((match bsearch name reservedNames with Found (Some _) => true | _ => false end)
  || ((((chAt name 1 =c "i"%char) && (chAt name 2 =c "s"%char))
   || ((chAt name 1 =c "t"%char) && (chAt name 2 =c "o"%char))) && islower (chAt name 3))
  || ((chAt name 1 =c "s"%char) && (chAt name 2 =c "t"%char) && (chAt name 3 =c "r"%char)
      && islower (chAt name 4))
  || ((((chAt name 1 =c "m"%char) && (chAt name 2 =c "e"%char) && (chAt name 3 =c "m"%char))
   || ((chAt name 1 =c "w"%char) && (chAt name 2 =c "c"%char) && (chAt name 3 =c "s"%char)))
  && islower (chAt name 4))).
Lemma other_known : forall name, In name other_functions -> name <> [] /\
  (In (Some name) reservedNames \/
   (then_one (lit "is") lower_set name \/ then_one (lit "to") lower_set name) \/
   then_one (lit "str") lower_set name \/
   (then_one (lit "mem") lower_set name \/ then_one (lit "wcs") lower_set name)).
Proof.
  intros name I.
  assert (forallb known other_functions = true) as F by (vm_compute; reflexivity).
  rewrite forallb_forall in F. specialize (F name I). unfold known in F.
  apply Bool.andb_true_iff in F as [NE F].
  assert (name <> []) as N by (intros ->; discriminate NE).
  split; [exact N|]. rewrite !Bool.orb_true_iff in F.
  rewrite <- ctype_iff, <- meml_iff, <- strl_iff, <- (reserved_search name N).
  destruct F as [[[F|F]|F]|F].
  - left. exact F.
  - right. left. exact F.
  - right. right. left. exact F.
  - right. right. right. exact F.
Qed.

Lemma cpp_search : forall name, name <> [] -> (checkCppName name = true <-> In (Some name) cppNames).
Proof.
  intros name K.
  assert (sorted cppNames) as HS by (apply adjacent_sorted; [exact I|vm_compute; reflexivity]).
  assert (~ blind_member name cppNames) as NB.
  { intros [_ B]. change (Z.of_nat (List.length cppNames)) with 39%Z in B.
    apply (blindb_iff 41) in B; [vm_compute in B; discriminate|lia|lia]. }
  destruct (bsearch_iff name cppNames K HS) as [A B].
  unfold checkCppName. split.
  - intros H. destruct (in_dec (fun a b : option cstr => ltac:(decide equality; apply (list_eq_dec ascii_dec)))
      (Some name) cppNames) as [I|N]; [exact I|].
    assert (bsearch name cppNames = NotFound) as F by (apply B; tauto). rewrite F in H. discriminate.
  - intros H. assert (bsearch name cppNames = Found (Some name)) as F by (apply A; tauto).
    rewrite F. reflexivity.
Qed.
Definition absent : list cstr :=
  map lit ["const_cast"; "explicit"; "export"; "typename"; "wchar_t"]%string.
Definition expected (e : option cstr) : bool :=
  match e with
  | Some n => (memstr n cpp_words && negb (memstr n absent)) || memstr n [lit "const_class"; lit "overload"]
  | None => false
  end.
Definition listed (n : cstr) : bool :=
  memstr n absent || existsb (fun e => match e with Some x => cstr_eqb n x | None => false end) cppNames.
Lemma listed_in : forall n,
  existsb (fun e => match e with Some x => cstr_eqb n x | None => false end) cppNames = true ->
  In (Some n) cppNames.
Proof.
  intros n H. apply existsb_exists in H as ([x|] & I & E); [|discriminate].
  apply cstr_eqb_eq in E. subst. exact I.
Qed.
Lemma cpp_iff : forall name, name <> [] ->
  (checkCppName name = true <->
   (In name cpp_words /\ ~ In name absent) \/ name = lit "const_class" \/ name = lit "overload").
Proof.
  intros name K. rewrite (cpp_search name K). split.
  - intros H. assert (forallb expected cppNames = true) as F by (vm_compute; reflexivity).
    rewrite forallb_forall in F. specialize (F _ H). unfold expected in F.
    apply Bool.orb_true_iff in F as [F|F].
    + apply Bool.andb_true_iff in F as [F G]. left. split; [apply memstr_iff; exact F|].
      rewrite <- memstr_iff. destruct (memstr name absent); [discriminate G|discriminate].
    + apply memstr_iff in F. destruct F as [<-|[<-|[]]]; tauto.
  - assert (forallb listed (cpp_words ++ [lit "const_class"; lit "overload"]) = true) as F
      by (vm_compute; reflexivity).
    rewrite forallb_forall in F. intros H.
    assert (~ In name absent) as NA.
    { destruct H as [[_ H]|H]; [exact H|]. rewrite <- memstr_iff.
      destruct H as [-> | ->]; vm_compute; discriminate. }
    assert (In name (cpp_words ++ [lit "const_class"; lit "overload"])) as I.
    { apply in_or_app. destruct H as [[H _]|[-> | ->]]; [left; exact H|right; left; reflexivity|right; right; left; reflexivity]. }
    specialize (F _ I). unfold listed in F. apply Bool.orb_true_iff in F as [F|F].
    + apply memstr_iff in F. contradiction.
    + apply listed_in, F.
Qed.
