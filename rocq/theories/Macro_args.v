(* Collection of the arguments of a call. *)
From Verif Require Import Cbase Cbase_facts Macro_model Macro_spec Macro_proofs Macro_lex Macro_str Macro_sub Macro_build Macro_scan.
Import ListNotations.
Open Scope nat_scope.
Open Scope list_scope.

(* ---- whatever is read comes from the text ---- *)
Lemma strRest_split : forall s q e a b, strRest q e s = Some (a, b) -> s = a ++ b.
Proof.
  induction s as [|c s IH]; intros q e a b H; [discriminate|]. cbn [strRest] in H. destruct e.
  - destruct (strRest q false s) as [[x y]|] eqn:E; inversion H; subst. cbn. f_equal. eapply IH; eauto.
  - destruct (Ascii.eqb c q); [inversion H; reflexivity|].
    destruct (strRest q _ s) as [[x y]|] eqn:E; inversion H; subst. cbn. f_equal. eapply IH; eauto.
Qed.
Lemma numRest_split : forall s c2 a b, numRest c2 s = (a, b) -> s = a ++ b.
Proof.
  induction s as [|c s IH]; intros c2 a b H; cbn [numRest] in H; [inversion H; reflexivity|].
  destruct (isIdChar c || _ || _).
  - destruct (numRest c s) as [x y] eqn:E. inversion H; subst. cbn. f_equal. eapply IH; eauto.
  - inversion H; reflexivity.
Qed.
Lemma getTok_split : forall s k t r, getTok s = TTok k t r -> s = t ++ r /\ (k = KRparen -> t = [")"%char]) /\ (k = KComma -> t = [","%char])
  /\ t <> [].
Proof.
  intros s k t r H. unfold getTok in H. destruct s as [|c s]; [discriminate|].
  destruct (isQuote c).
  { destruct (strRest c false s) as [[a b]|] eqn:E; inversion H; subst. apply strRest_split in E. subst. repeat split; discriminate. }
  destruct (Ascii.eqb c chL && hdIs isQuote s).
  { destruct s as [|q s]; [discriminate|].
    destruct (strRest q false s) as [[a b]|] eqn:E; inversion H; subst. apply strRest_split in E. subst. repeat split; discriminate. }
  destruct (isIdStart c) eqn:IS.
  { inversion H; subst. destruct (tw_split isIdChar (c :: s)) as [A _]. repeat split; auto; try discriminate.
    cbn. unfold isIdChar at 1. rewrite IS. discriminate. }
  destruct (is_digit c).
  { destruct (numRest "." s) as [a b] eqn:E. inversion H; subst. apply numRest_split in E. subst. repeat split; discriminate. }
  destruct (Ascii.eqb c "." && hdIs is_digit s).
  { destruct s as [|d s]; [discriminate|]. destruct (numRest "." s) as [a b] eqn:E. inversion H; subst. apply numRest_split in E. subst. repeat split; discriminate. }
  destruct (isHor c && _).
  { inversion H; subst. destruct (tw_split isHor s) as [A _]. split; [cbn; now rewrite <- A|]. repeat split; discriminate. }
  destruct (Ascii.eqb c "(") ; [inversion H; subst; repeat split; discriminate|].
  destruct (Ascii.eqb c ")") eqn:E1; [apply eqb_eq in E1; inversion H; subst; repeat split; discriminate|].
  destruct (Ascii.eqb c ",") eqn:E2; [apply eqb_eq in E2; inversion H; subst; repeat split; discriminate|].
  destruct (Ascii.eqb c "/" && _); [discriminate|]. inversion H; subst. split; [now rewrite firstn_skipn|]. split; [discriminate|]. split; [discriminate|].
  unfold opLen. repeat match goal with |- context [if ?b then _ else _] => destruct b end; discriminate.
Qed.

Definition closer (comma : bool) : cstr := if comma then [","%char] else [")"%char].

Lemma macarg_split : forall f P txt out comma raw rest, macarg f P txt out = ADone comma raw rest ->
  exists mid, txt = mid ++ closer comma ++ rest /\ raw = rev out ++ mid /\ List.length rest < List.length txt.
Proof.
  induction f as [|f IH]; intros P txt out comma raw rest H; [discriminate|]. cbn [macarg] in H.
  destruct (getTok txt) as [| |k t r] eqn:G; try discriminate.
  destruct (getTok_split _ _ _ _ G) as [S [K1 [K2 NE]]].
  assert (LR : List.length r < List.length txt) by (subst txt; rewrite app_length; destruct t; [congruence|cbn; lia]).
  assert (GO : forall P', macarg f P' r (rev t ++ out) = ADone comma raw rest ->
     exists mid, txt = mid ++ closer comma ++ rest /\ raw = rev out ++ mid /\ List.length rest < List.length txt).
  { intros P' H'. destruct (IH _ _ _ _ _ _ H') as [mid [A [B C]]]. exists (t ++ mid). subst txt r raw. split; [now rewrite <- app_assoc|].
    split; [|lia]. rewrite rev_app_distr, rev_involutive, <- app_assoc. reflexivity. }
  destruct k; try (eapply GO; eauto; fail).
  - destruct P as [|P]; [|eapply GO; eauto]. inversion H; subst. exists []. rewrite (K1 eq_refl) in *. repeat split; auto. now rewrite app_nil_r.
  - destruct P as [|P]; [|eapply GO; eauto]. inversion H; subst. exists []. rewrite (K2 eq_refl) in *. repeat split; auto. now rewrite app_nil_r.
Qed.

Lemma macargs_split : forall f txt l rest, macargs f txt = Some (l, rest) -> l <> [] /\ txt = joined l ++ rest.
Proof.
  induction f as [|f IH]; intros txt l rest H; [discriminate|]. cbn [macargs] in H.
  destruct (macarg (S (List.length txt)) 0 txt []) as [| | |comma raw r] eqn:E; try discriminate.
  destruct (macarg_split _ _ _ _ _ _ _ E) as [mid [A [B _]]]. cbn [rev app] in B. subst raw.
  destruct comma.
  - destruct (macargs f r) as [[l' r']|] eqn:E2; inversion H; subst l rest. destruct (IH _ _ _ E2) as [N S]. split; [discriminate|].
    destruct l' as [|b l']; [congruence|]. cbn [joined]. rewrite A, S. unfold closer. cbn [app]. now rewrite <- app_assoc.
  - inversion H; subst l rest. split; [discriminate|]. rewrite A. unfold closer. cbn [joined]. now rewrite <- app_assoc.
Qed.

(* ---- balanced arguments are read ---- *)
Fixpoint run (l : list piece) (rest : cstr) : Prop :=
  match l with
  | [] => True
  | p :: r => whole p /\ sp p /\ bound (fst p) (flat r ++ rest) /\ run r rest
  end.
Lemma flat_app : forall a b, flat (a ++ b) = flat a ++ flat b.
Proof. intros. unfold flat. now rewrite map_app, concat_app. Qed.
Lemma run_app : forall a b rest, run (a ++ b) rest <-> run a (flat b ++ rest) /\ run b rest.
Proof.
  induction a as [|p a IH]; intros b rest; cbn [app run]; [tauto|].
  rewrite IH, flat_app, <- app_assoc. tauto.
Qed.

Lemma delim_ext : forall c y, c = "("%char \/ c = ")"%char \/ c = ","%char -> ext (LOp [c]) y = None.
Proof. intros c y [->|[->| ->]]; destruct y as [[] [] [] [] [] [] [] []]; reflexivity. Qed.

(* one piece that is no parenthesis and no comma *)
Lemma piece_kind : forall p rest, whole p -> sp p -> bound (fst p) rest -> blank p = false ->
  exists k, getTok (snd p ++ rest) = TTok k (snd p) rest /\
    (k = KLparen <-> kindOf p = TOpenP) /\ (k = KRparen <-> kindOf p = TCloseP) /\ (k = KComma <-> kindOf p = TComma).
Proof.
  intros p rest W SPp B BL. destruct (getTok_piece p rest W SPp B BL) as [k [G _]]. exists k. split; auto.
  destruct (whole_pieces p W) as [_ [_ NE]]. unfold kindOf.
  assert (X : forall c, In c [("(")%char; ")"%char; ","%char] -> (snd p = [c] <-> hdc (snd p ++ rest) = Some c)).
  { intros c I. destruct (snd p) as [|d w] eqn:T; [congruence|]. cbn [app hdc]. split; intros E; [inversion E; reflexivity|].
    inversion E; subst d. unfold whole in W. rewrite T in W. destruct w as [|y w]; [reflexivity|]. exfalso.
    cbn in I. destruct I as [<-|[<-|[<-|[]]]]; cbn [runS] in W.
    - change (start "("%char) with (LOp ["("%char]) in W. rewrite (delim_ext "("%char) in W by auto. discriminate.
    - change (start ")"%char) with (LOp [")"%char]) in W. rewrite (delim_ext ")"%char) in W by auto. discriminate.
    - change (start ","%char) with (LOp [","%char]) in W. rewrite (delim_ext ","%char) in W by auto. discriminate. }
  assert (Y : (k = KLparen <-> hdc (snd p ++ rest) = Some "("%char) /\ (k = KRparen <-> hdc (snd p ++ rest) = Some ")"%char)
              /\ (k = KComma <-> hdc (snd p ++ rest) = Some ","%char)).
  { clear X. destruct (snd p ++ rest) as [|c s] eqn:T; [destruct (snd p); [congruence|discriminate]|]. cbn [hdc].
    unfold getTok in G.
    assert (N : forall K, (isQuote c = true \/ Ascii.eqb c chL = true \/ isIdStart c = true \/ is_digit c = true \/ Ascii.eqb c "." = true \/ isHor c = true) ->
       K <> KLparen -> K <> KRparen -> K <> KComma ->
       (K = KLparen <-> Some c = Some "("%char) /\ (K = KRparen <-> Some c = Some ")"%char) /\ (K = KComma <-> Some c = Some ","%char)).
    { intros K H A1 A2 A3. assert (c <> "("%char /\ c <> ")"%char /\ c <> ","%char).
      { repeat split; intros ->; cbn in H; intuition discriminate. }
      destruct H0 as [B1 [B2 B3]]. repeat split; congruence. }
    destruct (isQuote c) eqn:E1.
    { destruct (strRest c false s) as [[a b]|]; inversion G; subst k. apply N; auto; discriminate. }
    destruct (Ascii.eqb c chL && hdIs isQuote s) eqn:E2.
    { apply andb_true_iff in E2. destruct E2 as [E2 _]. destruct s as [|q s]; [discriminate|].
      destruct (strRest q false s) as [[a b]|]; inversion G; subst k. apply N; auto; discriminate. }
    destruct (isIdStart c) eqn:E3; [inversion G; subst k; apply N; auto; discriminate|].
    destruct (is_digit c) eqn:E4; [destruct (numRest "." s); inversion G; subst k; apply N; auto; discriminate|].
    destruct (Ascii.eqb c "." && hdIs is_digit s) eqn:E5.
    { apply andb_true_iff in E5. destruct E5 as [E5 _]. destruct s as [|d s]; [discriminate|].
      destruct (numRest "." s); inversion G; subst k; apply N; auto 6; discriminate. }
    destruct (isHor c && negb (code c =? 12)%Z) eqn:E6.
    { apply andb_true_iff in E6. destruct E6 as [E6 _]. inversion G; subst k; apply N; auto 8; discriminate. }
    destruct (Ascii.eqb c "(") eqn:P1; [apply eqb_eq in P1; inversion G; subst; repeat split; intros; try discriminate; auto|].
    destruct (Ascii.eqb c ")") eqn:P2; [apply eqb_eq in P2; inversion G; subst; repeat split; intros; try discriminate; auto|].
    destruct (Ascii.eqb c ",") eqn:P3; [apply eqb_eq in P3; inversion G; subst; repeat split; intros; try discriminate; auto|].
    destruct (Ascii.eqb c "/" && _); [discriminate|]. inversion G; subst k.
    repeat split; intros E; try discriminate; inversion E; subst c; discriminate. }
  destruct Y as [Y1 [Y2 Y3]].
  rewrite <- (X "("%char) in Y1 by (cbn; tauto). rewrite <- (X ")"%char) in Y2 by (cbn; tauto). rewrite <- (X ","%char) in Y3 by (cbn; tauto).
  assert (EQ : forall c, cstr_eqb (snd p) [c] = true <-> snd p = [c]) by (intros c; apply cstr_eqb_eq).
  cbn [lit list_ascii_of_string]. 
  destruct (cstr_eqb (snd p) ["("%char]) eqn:P1.
  { apply EQ in P1. rewrite P1 in *. repeat split; intros; try discriminate; try tauto.
    - apply Y2 in H. discriminate. - apply Y3 in H. discriminate. }
  destruct (cstr_eqb (snd p) [")"%char]) eqn:P2.
  { apply EQ in P2. rewrite P2 in *. repeat split; intros; try discriminate; try tauto.
    - apply Y1 in H. discriminate. - apply Y3 in H. discriminate. }
  destruct (cstr_eqb (snd p) [","%char]) eqn:P3.
  { apply EQ in P3. rewrite P3 in *. repeat split; intros; try discriminate; try tauto.
    - apply Y1 in H. discriminate. - apply Y2 in H. discriminate. }
  assert (Z : forall c, cstr_eqb (snd p) [c] = false -> snd p <> [c]) by (intros c A E; apply EQ in E; congruence).
  apply Z in P1, P2, P3. repeat split; intros; try discriminate; exfalso; tauto.
Qed.

Definition passes (P P' : nat) (t rest : cstr) : Prop :=
  forall f out, List.length (t ++ rest) < f -> exists f', List.length rest < f' /\
    macarg f P (t ++ rest) out = macarg f' P' rest (rev t ++ out).
Lemma passes_nil : forall P r, passes P P [] r.
Proof. intros P r f out H. exists f. auto. Qed.
Lemma passes_app : forall P1 P2 P3 a b r, passes P1 P2 a (b ++ r) -> passes P2 P3 b r -> passes P1 P3 (a ++ b) r.
Proof.
  intros P1 P2 P3 a b r A B f out H. rewrite <- app_assoc in *. destruct (A f out H) as [f1 [L1 E1]].
  destruct (B f1 (rev a ++ out) L1) as [f2 [L2 E2]]. exists f2. split; auto. rewrite E1, E2. now rewrite rev_app_distr, <- app_assoc.
Qed.

Lemma passes_white : forall n w rest P, List.length w <= n -> forallb white w = true -> bound LWhite rest -> passes P P w rest.
Proof.
  induction n as [|n IH]; intros w rest P L F B; destruct w as [|c w]; try (cbn in L; lia); try apply passes_nil.
  destruct (getTok_white c w rest F B) as [k [t [u [G [K [S NT]]]]]].
  rewrite S in F |- *. rewrite forallb_app in F. apply andb_true_iff in F. destruct F as [F1 F2].
  assert (LU : List.length u <= n).
  { assert (X := f_equal (@List.length ascii) S). rewrite app_length in X. destruct t; [congruence|]. cbn in X, L. lia. }
  apply passes_app with P; [|now apply IH].
  intros f out H. destruct f as [|f]; [cbn in H; lia|]. exists f.
  split; [rewrite app_length in H; destruct t; [congruence|cbn in H; lia]|].
  rewrite app_assoc, <- S. cbn [macarg]. rewrite G.
  destruct (getTok_split _ _ _ _ G) as [_ [K1 [K2 _]]].
  destruct k; try reflexivity.
  - exfalso. destruct (getTok_split _ _ _ _ G) as [_ _]. unfold getTok in G. cbn [app] in G.
    destruct t as [|d t]; [congruence|]. cbn in S. inversion S; subst d. cbn [forallb] in F1. apply andb_true_iff in F1. destruct F1 as [F1 _].
    destruct (white_simple c F1) as [Q [_ [_ [_ WD]]]].
    assert (ES : letterC c = false /\ digitC c = false) by (unfold wordC in WD; now apply orb_false_iff in WD). destruct ES as [E1 E2].
    rewrite cls_quote, Q, cls_start, E1, cls_digit, E2 in G.
    assert (N : forall x, white x = false -> Ascii.eqb c x = false) by (intros x X; apply neq_eqb; congruence).
    rewrite !N in G by reflexivity. cbn [andb] in G. destruct (isHor c && _); inversion G.
  - rewrite (K1 eq_refl) in F1. discriminate.
  - rewrite (K2 eq_refl) in F1. discriminate.
Qed.

Lemma passes_piece : forall p rest P, whole p -> sp p -> bound (fst p) rest ->
  match kindOf p with
  | TOther => passes P P (snd p) rest
  | TOpenP => passes P (S P) (snd p) rest
  | TCloseP => passes (S P) P (snd p) rest
  | TComma => passes (S P) (S P) (snd p) rest
  end.
Proof.
  intros p rest P W SPp B. destruct (whole_pieces p W) as [_ [_ NE]].
  assert (LP : forall f, List.length (snd p ++ rest) < S f -> List.length rest < f).
  { intros f H. rewrite app_length in H. destruct (snd p); [congruence|cbn in H; lia]. }
  destruct (blank p) eqn:BL.
  - assert (FW : fst p = LWhite).
    { unfold blank in BL. destruct (fst p) eqn:E; try discriminate; auto.
      - destruct SPp as [_ [X _]]. congruence.
      - destruct SPp as [X _]. rewrite E in X. discriminate. }
    assert (SH := whole_shape p W). rewrite FW in SH, B. simpl in SH.
    assert (K : kindOf p = TOther).
    { unfold kindOf. assert (Z : forall c, white c = false -> cstr_eqb (snd p) [c] = false).
      { intros c X. apply not_true_is_false. intros E. apply cstr_eqb_eq in E. rewrite E in SH. cbn [forallb] in SH. rewrite X in SH. discriminate. }
      cbn [lit list_ascii_of_string]. now rewrite !Z by reflexivity. }
    rewrite K. now apply (passes_white (List.length (snd p))).
  - destruct (piece_kind p rest W SPp B BL) as [k [G [K1 [K2 K3]]]].
    destruct (kindOf p) eqn:KO; intros f out H; (destruct f as [|f]; [lia|]); exists f; (split; [now apply LP|]);
      cbn [macarg]; rewrite G.
    + rewrite (proj2 K1 eq_refl). reflexivity.
    + rewrite (proj2 K2 eq_refl). reflexivity.
    + rewrite (proj2 K3 eq_refl). reflexivity.
    + destruct k; try reflexivity.
      * exfalso. assert (X := proj1 K1 eq_refl). discriminate.
      * exfalso. assert (X := proj1 K2 eq_refl). discriminate.
      * exfalso. assert (X := proj1 K3 eq_refl). discriminate.
Qed.

Lemma balanced_passes : forall top ks, balanced top ks -> forall l rest P, map kindOf l = ks -> run l rest ->
  (top = true -> 0 < P) -> passes P P (flat l) rest.
Proof.
  intros top ks H. induction H as [top|top ks H IH|ks H IH|top m ks Hm IHm H IH]; intros l rest P M R T.
  - destruct l; [apply passes_nil|discriminate].
  - destruct l as [|p l]; [discriminate|]. cbn [map] in M. injection M as M1 M2. cbn [run] in R. destruct R as [W [SPp [B R]]].
    change (flat (p :: l)) with (snd p ++ flat l). assert (X := passes_piece p (flat l ++ rest) P W SPp B). rewrite M1 in X.
    apply passes_app with P; auto.
  - destruct l as [|p l]; [discriminate|]. cbn [map] in M. injection M as M1 M2. cbn [run] in R. destruct R as [W [SPp [B R]]].
    destruct P as [|P]; [specialize (T eq_refl); lia|].
    change (flat (p :: l)) with (snd p ++ flat l). assert (X := passes_piece p (flat l ++ rest) P W SPp B). rewrite M1 in X.
    apply passes_app with (S P); auto.
  - destruct l as [|p l]; [discriminate|]. cbn [map] in M. injection M as M1 M2.
    apply map_eq_app in M2. destruct M2 as [l1 [l2 [EL [E1 E2]]]].
    destruct l2 as [|q l2]; [discriminate|]. cbn [map] in E2. injection E2 as E2 E3. subst l.
    cbn [run] in R. destruct R as [W [SPp [B R]]]. apply run_app in R. destruct R as [R1 R2]. cbn [run] in R2.
    destruct R2 as [Wq [SPq [Bq R2]]].
    change (flat (p :: l1 ++ q :: l2)) with (snd p ++ flat (l1 ++ q :: l2)). rewrite flat_app in *.
    change (flat (q :: l2)) with (snd q ++ flat l2) in *.
    assert (X := passes_piece p ((flat l1 ++ snd q ++ flat l2) ++ rest) P W SPp B). rewrite M1 in X.
    assert (Y := passes_piece q (flat l2 ++ rest) P Wq SPq Bq). rewrite E2 in Y.
    apply passes_app with (S P); auto. apply passes_app with (S P).
    + apply IHm; auto. lia.
    + apply passes_app with P; auto.
Qed.

(* an argument as the standard sees it *)
Lemma closed_delim : forall p c, whole p -> isOpen (fst p) = false -> c = ","%char \/ c = ")"%char -> ext (fst p) c = None.
Proof.
  intros p c W O C. assert (S := whole_shape p W). destruct p as [st t]. cbn [fst snd] in *. destruct st; try discriminate; auto.
  - destruct C as [->| ->]; reflexivity.
  - destruct C as [->| ->]; destruct isL; reflexivity.
  - destruct C as [->| ->]; destruct e; reflexivity.
  - simpl in S. destruct S as [-> [[d [-> [A [Wd Q]]]]|S]].
    + cbn [ext app]. destruct C as [->| ->]; destruct d as [[] [] [] [] [] [] [] []]; reflexivity.
    + cbn in S. destruct C as [->| ->]; repeat (destruct S as [<-|S]; [reflexivity|]); destruct S.
Qed.

Lemma pieces_run : forall a c rest, (forall p, In p (pieces a) -> sp p) -> c = ","%char \/ c = ")"%char -> run (pieces a) (c :: rest).
Proof.
  intros a c rest SP C. destruct (chain_pieces a) as [CH _]. induction (pieces a) as [|p l IH]; [exact I|].
  destruct (chain_inv _ _ CH) as [W [CH' B]]. cbn [run]. split; auto. split; [apply SP; now left|]. split; [|apply IH; auto; intros q I; apply SP; now right].
  intros d H. destruct (flat l) as [|x w] eqn:F.
  - cbn in H. inversion H; subst d. apply closed_delim; auto. apply SP. now left.
  - cbn in H. inversion H; subst d. now apply B.
Qed.

Lemma macarg_one : forall a c rest, argText a -> c = ","%char \/ c = ")"%char ->
  macarg (S (List.length (a ++ c :: rest))) 0 (a ++ c :: rest) [] = ADone (Ascii.eqb c ",") a rest.
Proof.
  intros a c rest [SP BA] C. destruct (chain_pieces a) as [_ F].
  assert (P := balanced_passes false _ BA (pieces a) (c :: rest) 0 eq_refl (pieces_run a c rest SP C) ltac:(discriminate)).
  rewrite F in P. destruct (P (S (List.length (a ++ c :: rest))) [] (Nat.lt_succ_diag_r _)) as [f' [L E]].
  rewrite E. destruct f' as [|f']; [lia|]. rewrite app_nil_r.
  assert (RI : rev (rev a) = a) by apply rev_involutive.
  destruct C as [->| ->].
  - change (ADone true (rev (rev a)) rest = ADone true a rest). now rewrite RI.
  - change (ADone false (rev (rev a)) rest = ADone false a rest). now rewrite RI.
Qed.

Lemma macargs_ok : forall l f rest, l <> [] -> (forall a, In a l -> argText a) -> List.length l <= f ->
  macargs f (joined l ++ rest) = Some (l, rest).
Proof.
  induction l as [|a l IH]; intros f rest N A L; [congruence|]. destruct f as [|f]; [cbn in L; lia|]. cbn [macargs].
  destruct l as [|b l].
  - cbn [joined]. rewrite <- app_assoc. cbn [app]. rewrite macarg_one; auto. apply A. now left.
  - cbn [joined]. rewrite <- app_assoc. change ([","%char] ++ joined (b :: l)) with (","%char :: joined (b :: l)). cbn [app].
    rewrite macarg_one; auto; [|apply A; now left].
    change (Ascii.eqb "," ",") with true. cbv iota.
    rewrite IH; auto; [discriminate|intros x I; apply A; now right|cbn in *; lia].
Qed.
Lemma joined_len : forall l, List.length l <= List.length (joined l).
Proof.
  induction l as [|a l IH]; [cbn; lia|]. destruct l as [|b l].
  - cbn [joined]. rewrite app_length. cbn. lia.
  - change (joined (a :: b :: l)) with (a ++ [","%char] ++ joined (b :: l)). rewrite !app_length. cbn [List.length] in *. lia.
Qed.
Lemma collectArgs_ok : forall l rest, l <> [] -> (forall a, In a l -> argText a) ->
  collectArgs (joined l ++ rest) = Some (l, rest).
Proof.
  intros l rest N A. unfold collectArgs. apply macargs_ok; auto. assert (X := joined_len l). rewrite app_length. lia.
Qed.

(* counting *)
Lemma skip_blank : forall s, skip_while isSpace s = [] <-> forallb white s = true.
Proof.
  induction s as [|c s IH]; [split; reflexivity|]. cbn [skip_while forallb]. rewrite cls_space. destruct (white c); [exact IH|]. split; discriminate.
Qed.
Lemma complaint_ok : forall n l, l <> [] -> (n = 1 -> l <> [[]]) ->
  (argComplaint n l = None <-> (n = 0 /\ exists a, l = [a] /\ forallb white a = true) \/ (1 <= n /\ List.length l = n)).
Proof.
  intros n l N N1. unfold argComplaint.
  destruct l as [|a [|b l]]; [congruence| |].
  - unfold countArgs. destruct n as [|n].
    + destruct (skip_while isSpace a) eqn:E; cbn [Nat.eqb Nat.ltb Nat.leb andb].
      * apply skip_blank in E. split; intros _; auto. left. split; auto. exists a. auto.
      * split; [discriminate|]. intros [[_ [x [X1 X2]]]|[X _]]; [|lia]. inversion X1; subst. apply skip_blank in X2. congruence.
    + cbn [Nat.eqb andb]. destruct a as [|c a].
      * cbn [Nat.ltb Nat.leb Nat.eqb]. split; [discriminate|]. intros [[X _]|[_ X]]; [discriminate|]. cbn in X. exfalso. apply N1; auto.
      * destruct n as [|n].
        -- cbn. split; auto.
        -- cbn. split; [discriminate|]. intros [[X _]|[_ X]]; discriminate.
  - change (countArgs n (a :: b :: l)) with (List.length (a :: b :: l)). set (k := List.length (a :: b :: l)). assert (K : 2 <= k) by (subst k; cbn; lia). clearbody k.
    destruct n as [|n].
    + cbn [Nat.eqb andb]. destruct (0 <? k) eqn:E; [|apply Nat.ltb_ge in E; lia]. split; [discriminate|].
      intros [[_ [x [X _]]]|[X _]]; [discriminate|lia].
    + cbn [Nat.eqb andb]. destruct (k <? S n) eqn:E.
      * apply Nat.ltb_lt in E. split; [|intros [[X _]|[_ X]]; lia].
        intros X. exfalso. cbv zeta in X. destruct (k =? 0); [discriminate X|]. destruct (k =? 1); discriminate X.
      * destruct (S n <? k) eqn:E2.
        -- apply Nat.ltb_lt in E2. split; [discriminate|]. intros [[X _]|[_ X]]; lia.
        -- apply Nat.ltb_ge in E, E2. split; auto. intros _. right. lia.
Qed.
