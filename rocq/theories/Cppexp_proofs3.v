(** * Proofs about integer constants in #if *)
From Coq Require Import ZArith List Bool Lia ZifyBool.
From Verif Require Import Cbase Cppexp_model Cppexp_spec Cppexp_proofs2.
Import ListNotations.
Local Open Scope Z_scope.
Local Arguments Z.mul : simpl never.
Local Arguments Z.add : simpl never.
Local Arguments Z.div : simpl never.
Local Arguments Z.ltb : simpl never.
Local Arguments Z.leb : simpl never.

Definition a_base (b : Z) : Prop := b = 8 \/ b = 10 \/ b = 16.

Lemma digit_of_value : forall b c d, a_base b -> digit_value c = Some d -> 0 <= d < b ->
  digit_of b c = Some d.
Proof.
  intros b c d Hb H Hd. unfold digit_value in H. unfold digit_of, is_digit, digit_val.
  destruct ((48 <=? code c) && (code c <=? 57)) eqn:E; [auto|].
  destruct ((97 <=? code c) && (code c <=? 102)) eqn:E2.
  - injection H as <-. assert (b = 16) as -> by (unfold a_base in Hb; lia).
    simpl. rewrite E2. f_equal. lia.
  - destruct ((65 <=? code c) && (code c <=? 70)) eqn:E3; [|discriminate].
    injection H as <-. assert (b = 16) as -> by (unfold a_base in Hb; lia).
    simpl. rewrite E2, E3. f_equal. lia.
Qed.

Lemma digit_value_of : forall b c d, digit_of b c = Some d -> digit_value c = Some d.
Proof.
  intros b c d H. unfold digit_of, is_digit, digit_val in H. unfold digit_value.
  destruct ((48 <=? code c) && (code c <=? 57)) eqn:E; [auto|].
  destruct (b =? 16); simpl in H; [|discriminate].
  destruct ((97 <=? code c) && (code c <=? 102)) eqn:E2; [injection H as <-; f_equal; lia|].
  destruct ((65 <=? code c) && (code c <=? 70)) eqn:E3; [injection H as <-; f_equal; lia|discriminate].
Qed.

Lemma digit_value_range : forall c d, digit_value c = Some d -> 0 <= d < 16.
Proof.
  intros c d H. unfold digit_value in H.
  destruct ((48 <=? code c) && (code c <=? 57)) eqn:E; [injection H as <-; lia|].
  destruct ((97 <=? code c) && (code c <=? 102)) eqn:E2; [injection H as <-; lia|].
  destruct ((65 <=? code c) && (code c <=? 70)) eqn:E3; [injection H as <-; lia|discriminate].
Qed.

Lemma dd_nonneg : forall b s v, a_base b -> digits_denote b s v -> 0 <= v.
Proof. intros b s v Hb H. induction H; try lia. unfold a_base in Hb. nia. Qed.

(** The three facts the loop keeps. *)
Lemma step_value : forall b v d, wrap64 (uwrap64 (wrap64 v * b + d)) = wrap64 (v * b + d).
Proof.
  intros b v d. rewrite wrap_uw. destruct (wrap_ex v) as (k & ->).
  replace ((v + k * MM) * b + d) with (v * b + d + (k * b) * MM) by ring. apply wrap_k.
Qed.

Lemma step_ovf : forall b v d, a_base b -> 0 <= v -> 0 <= d < b ->
  (MM <=? v) || ((18446744073709551615 / b <? uwrap64 (wrap64 v)) ||
                 (uwrap64 (wrap64 v * b + d) <? uwrap64 (wrap64 v)))
  = (MM <=? v * b + d).
Proof.
  intros b v d Hb Hv Hd.
  destruct (Z.leb_spec MM v) as [G|L]; simpl.
  { symmetry. apply Z.leb_le. unfold a_base in Hb. nia. }
  assert (E : uwrap64 (wrap64 v * b + d) = uwrap64 (v * b + d)).
  { rewrite <- (uw_wrap (v * b + d)), <- step_value, wrap_uw, uw_wrap. reflexivity. }
  rewrite E, uw_wrap, (uw_id v) by lia.
  destruct (Z.leb_spec MM (v * b + d)) as [G|G].
  - assert (K : 18446744073709551615 / b < v \/ v * b + d - MM < v).
    { destruct Hb as [->|[->| ->]];
        [change (18446744073709551615 / 8) with 2305843009213693951
        |change (18446744073709551615 / 10) with 1844674407370955161
        |change (18446744073709551615 / 16) with 1152921504606846975]; lia. }
    destruct (Z.ltb_spec (18446744073709551615 / b) v) as [|N]; auto. simpl.
    apply Z.ltb_lt. destruct K as [K|K]; [lia|].
    assert (R : v * b + d < 2 * MM).
    { destruct Hb as [->|[->| ->]]; 
        [change (18446744073709551615 / 8) with 2305843009213693951 in N
        |change (18446744073709551615 / 10) with 1844674407370955161 in N
        |change (18446744073709551615 / 16) with 1152921504606846975 in N]; lia. }
    replace (v * b + d) with (v * b + d - MM + 1 * MM) by lia. rewrite uw_k, uw_id by lia. exact K.
  - rewrite uw_id by (unfold a_base in Hb; nia).
    assert (N : v <= 18446744073709551615 / b).
    { apply Z.div_le_lower_bound; unfold a_base in Hb; nia. }
    unfold a_base in Hb. nia.
Qed.

Lemma step_ub : forall b v d, a_base b -> 0 <= v -> 0 <= d < b ->
  (HH <=? v) || negb (in_long (wrap64 v * b + d)) = (HH <=? v * b + d).
Proof.
  intros b v d Hb Hv Hd.
  destruct (Z.leb_spec HH v) as [G|L]; simpl.
  { symmetry. apply Z.leb_le. unfold a_base in Hb. nia. }
  rewrite wrap_id by lia. unfold in_long, LONG_MIN, LONG_MAX.
  assert (0 <= v * b) by (unfold a_base in Hb; nia). lia.
Qed.

Lemma digits_prefix : forall b s v, a_base b -> digits_denote b s v ->
  exists lg, lg < b /\ forall rest,
    digits b (s ++ rest) 0 false 0 false
    = digits b rest (wrap64 v) (MM <=? v) lg (HH <=? v).
Proof.
  intros b s v Hb H. induction H as [|s c v d H IH Hc Hd].
  - exists 0. split; [unfold a_base in Hb; lia|]. intros rest. reflexivity.
  - destruct IH as (lg & Hlg & IH). exists (Z.max lg d). split; [lia|]. intros rest.
    rewrite <- app_assoc. simpl. rewrite IH. simpl.
    rewrite (digit_of_value b c d) by auto. pose proof (dd_nonneg b s v Hb H).
    rewrite step_value, step_ovf, step_ub by auto. reflexivity.
Qed.

(** Suffixes *)
Lemma suffix_ok : forall suf u, c90_suffix suf u -> suffix suf false false 0 = Some (u, O).
Proof.
  intros suf u H.
  inversion H; subst; simpl in *; intuition subst; reflexivity.
Qed.

Lemma suffix_first : forall b c suf u, c90_suffix (c :: suf) u -> digit_of b c = None.
Proof.
  intros b c suf u H. inversion H; subst; simpl in *; intuition subst;
    unfold digit_of; destruct (b =? 16); reflexivity.
Qed.

Lemma digits_suffix : forall b n o lg ub suf u, c90_suffix suf u -> lg < b ->
  digits b suf n o lg ub = NOk n (u || (n <? 0)) 0 false o ub.
Proof.
  intros b n o lg ub suf u H Hlg.
  assert (E : (b <=? lg) = false) by lia.
  destruct suf as [|c suf].
  - inversion H; subst. simpl. rewrite E. reflexivity.
  - simpl digits. rewrite (suffix_first _ _ _ _ H).
    change (match suffix (c :: suf) false false 0 with
            | Some (u0, errs) => NOk n (u0 || (n <? 0)) errs (b <=? lg) o ub
            | None => NInvalid end = NOk n (u || (n <? 0)) 0 false o ub).
    rewrite (suffix_ok _ _ H), E. reflexivity.
Qed.

Lemma no_dot_digits : forall b s v, digits_denote b s v ->
  existsb (fun c => Ascii.eqb c ".") s = false.
Proof.
  intros b s v H. induction H; auto. rewrite existsb_app, IHdigits_denote. simpl.
  destruct (Ascii.eqb_spec c "."); auto. subst. vm_compute in H0. discriminate.
Qed.

Lemma no_dot_suffix : forall s u, c90_suffix s u ->
  existsb (fun c => Ascii.eqb c ".") s = false.
Proof. intros s u H. inversion H; subst; simpl in *; intuition subst; reflexivity. Qed.

Lemma digits_head : forall b s v, digits_denote b s v ->
  match s with [] => True | c :: _ => exists d, digit_value c = Some d end.
Proof.
  intros b s v H. induction H as [|s c v d H IH Hc Hd]; auto.
  destruct s; simpl; eauto.
Qed.

Lemma second_not_x : forall b c ds v suf u c1 r, digits_denote b (c :: ds) v ->
  c90_suffix suf u -> ds ++ suf = c1 :: r -> Ascii.eqb c1 "x" || Ascii.eqb c1 "X" = false.
Proof.
  intros b c ds v suf u c1 r H Hs E.
  assert (All : forall s w, digits_denote b s w -> Forall (fun k => exists d, digit_value k = Some d) s).
  { intros s w K. induction K; auto. apply Forall_app. split; auto. constructor; eauto. }
  specialize (All _ _ H). inversion All; subst.
  destruct ds as [|k ds].
  - simpl in E. subst suf. inversion Hs; subst; simpl in *; intuition subst; reflexivity.
  - simpl in E. injection E as -> _. inversion H3; subst. destruct H4 as (d & Hd).
    destruct (Ascii.eqb_spec c1 "x"); [subst; vm_compute in Hd; discriminate|].
    destruct (Ascii.eqb_spec c1 "X"); [subst; vm_compute in Hd; discriminate|]. reflexivity.
Qed.

Lemma parse_plain : forall c rest,
  existsb (fun c => Ascii.eqb c ".") (c :: rest) = false ->
  (forall c1 r, rest = c1 :: r -> Ascii.eqb c1 "x" || Ascii.eqb c1 "X" = false) ->
  parseNumber (c :: rest)
  = digits (if Ascii.eqb c "0" then 8 else 10) (c :: rest) 0 false 0 false.
Proof.
  intros c rest Hd Hx. unfold parseNumber. rewrite Hd.
  destruct rest as [|c1 [|c2 r]]; auto. rewrite (Hx c1 (c2 :: r) eq_refl), andb_false_r. reflexivity.
Qed.

(** Every integer constant of C90 is read as its value modulo 2^64. *)
Lemma parse_int_const : forall s v u, int_const s v u ->
  parseNumber s = NOk (wrap64 v) (u || (wrap64 v <? 0)) 0 false (MM <=? v) (HH <=? v).
Proof.
  intros s v u H. destruct H as [c ds suf v u H N Hs|ds suf v u H Hs|x ds suf v u Hx N H Hs].
  - destruct (digits_prefix 10 _ _ ltac:(red; auto) H) as (lg & Hlg & E).
    simpl app. rewrite parse_plain.
    + destruct (Ascii.eqb_spec c "0"); [contradiction|].
      change (c :: ds ++ suf) with ((c :: ds) ++ suf). rewrite E. apply digits_suffix; auto.
    + change (c :: ds ++ suf) with ((c :: ds) ++ suf).
      rewrite existsb_app, (no_dot_digits _ _ _ H), (no_dot_suffix _ _ Hs). reflexivity.
    + intros c1 r K. eapply second_not_x; eauto.
  - destruct (digits_prefix 8 _ _ ltac:(red; auto) H) as (lg & Hlg & E).
    simpl app. rewrite parse_plain.
    + change (digits 8 (("0"%char :: ds) ++ suf) 0 false 0 false
              = NOk (wrap64 v) (u || (wrap64 v <? 0)) 0 false (MM <=? v) (HH <=? v)).
      rewrite E. apply digits_suffix; auto.
    + change ("0"%char :: ds ++ suf) with (("0"%char :: ds) ++ suf).
      rewrite existsb_app, (no_dot_digits _ _ _ H), (no_dot_suffix _ _ Hs). reflexivity.
    + intros c1 r K. eapply second_not_x; eauto.
  - destruct (digits_prefix 16 _ _ ltac:(red; auto) H) as (lg & Hlg & E).
    unfold parseNumber.
    assert (D : existsb (fun c => Ascii.eqb c ".") ("0"%char :: x :: ds ++ suf) = false).
    { simpl. rewrite existsb_app, (no_dot_digits _ _ _ H), (no_dot_suffix _ _ Hs).
      simpl in Hx. destruct Hx as [<-|[<-|[]]]; reflexivity. }
    rewrite D. destruct ds as [|k ds]; [contradiction|].
    change ((k :: ds) ++ suf) with (k :: ds ++ suf) in *.
    assert (X : Ascii.eqb "0" "0" && (Ascii.eqb x "x" || Ascii.eqb x "X") = true).
    { simpl in Hx. destruct Hx as [<-|[<-|[]]]; reflexivity. }
    cbv beta iota. rewrite X. simpl tl.
    change (k :: ds ++ suf) with ((k :: ds) ++ suf). rewrite E. apply digits_suffix; auto.
Qed.

(** Conversely *)

Lemma suffix_none_l : forall s u l e r m, suffix s u l e = Some (r, m) -> (e <= m)%nat.
Proof.
  induction s as [|c s IH]; simpl; intros u l e r m H.
  - injection H as _ <-. auto.
  - destruct (_ || _) in H; [apply IH in H; destruct l; lia|].
    destruct (_ || _) in H; [apply IH in H; destruct u; lia|]. discriminate.
Qed.

Lemma is_l : forall c, Ascii.eqb c "l" || Ascii.eqb c "L" = true -> In c ["l"; "L"]%char.
Proof.
  intros c H. apply orb_prop in H. simpl.
  destruct H as [H|H]; apply Ascii.eqb_eq in H; auto.
Qed.
Lemma is_u : forall c, Ascii.eqb c "u" || Ascii.eqb c "U" = true -> In c ["u"; "U"]%char.
Proof.
  intros c H. apply orb_prop in H. simpl.
  destruct H as [H|H]; apply Ascii.eqb_eq in H; auto.
Qed.

Lemma suffix_both : forall s r, suffix s true true 0 = Some (r, O) -> s = [] /\ r = true.
Proof.
  intros [|c s] r H; simpl in H; [injection H as <-; auto|].
  destruct (_ || _) in H; [apply suffix_none_l in H; lia|].
  destruct (_ || _) in H; [apply suffix_none_l in H; lia|]. discriminate.
Qed.

Lemma suffix_conv : forall s u, suffix s false false 0 = Some (u, O) -> c90_suffix s u.
Proof.
  intros [|c s] u H; simpl in H; [injection H as <-; constructor|].
  destruct (Ascii.eqb c "l" || Ascii.eqb c "L") eqn:El.
  - apply is_l in El. destruct s as [|c' s]; simpl in H; [injection H as <-; apply cs_l; auto|].
    destruct (_ || _) in H; [apply suffix_none_l in H; lia|].
    destruct (Ascii.eqb c' "u" || Ascii.eqb c' "U") eqn:Eu; [|discriminate].
    apply is_u in Eu. apply suffix_both in H as [-> ->]. apply cs_lu; auto.
  - destruct (Ascii.eqb c "u" || Ascii.eqb c "U") eqn:Eu; [|discriminate].
    apply is_u in Eu. destruct s as [|c' s]; simpl in H; [injection H as <-; constructor; auto|].
    destruct (Ascii.eqb c' "l" || Ascii.eqb c' "L") eqn:El'.
    + apply is_l in El'. apply suffix_both in H as [-> ->]. constructor; auto.
    + destruct (_ || _) in H; [apply suffix_none_l in H; lia|]. discriminate.
Qed.

Lemma digits_conv : forall b s n o lg ub n' u o' ub', a_base b ->
  digits b s n o lg ub = NOk n' u 0 false o' ub' ->
  exists ds suf u', s = ds ++ suf /\ c90_suffix suf u' /\
    forall pre w, digits_denote b pre w -> exists w', digits_denote b (pre ++ ds) w'.
Proof.
  intros b s. induction s as [|c s IH]; intros n o lg ub n' u o' ub' Hb H.
  - exists [], [], false. split; [auto|]. split; [constructor|].
    intros pre w K. exists w. rewrite app_nil_r. auto.
  - simpl digits in H. destruct (digit_of b c) as [d|] eqn:E.
    + assert (Hd : 0 <= d < b).
      { pose proof (digit_value_range _ _ (digit_value_of _ _ _ E)) as R. split; [lia|].
        assert (G : forall s n o lg ub n' u e o' ub', digits b s n o lg ub = NOk n' u e false o' ub' ->
                  lg < b).
        { clear. induction s as [|c s IH]; intros n o lg ub n' u e o' ub' H; simpl in H.
          - injection H as _ _ _ H _ _. lia.
          - destruct (digit_of b c); [apply IH in H; lia|].
            destruct (if _ || _ then _ else _) as [[? ?]|] in H; [|discriminate].
            injection H as _ _ _ H _ _. lia. }
        apply G in H. lia. }
      apply IH in H as (ds & suf & u' & -> & Hs & K); auto.
      exists (c :: ds), suf, u'. split; [auto|]. split; [auto|].
      intros pre w P. change (c :: ds) with ([c] ++ ds). rewrite app_assoc.
      eapply K. econstructor; eauto using digit_value_of.
    + change (match suffix (c :: s) false false 0 with
            | Some (u0, errs) => NOk n (u0 || (n <? 0)) errs (b <=? lg) o ub
            | None => NInvalid end = NOk n' u 0 false o' ub') in H.
      destruct (suffix (c :: s) false false 0) as [[u0 e]|] eqn:Es; [|discriminate].
      injection H as _ _ -> _ _ _. apply suffix_conv in Es.
      exists [], (c :: s), u0. split; [auto|]. split; [auto|].
      intros pre w K. exists w. rewrite app_nil_r. auto.
Qed.

(** What is read without an error or a warning about digits is an integer constant,
    or 0x with a suffix only. *)
Lemma parse_conv : forall c s n u o ub, is_digit c = true ->
  parseNumber (c :: s) = NOk n u 0 false o ub ->
  (exists v u', int_const (c :: s) v u') \/
  (exists x suf u', c = "0"%char /\ s = x :: suf /\ In x ["x"; "X"]%char /\ c90_suffix suf u').
Proof.
  intros c s n u o ub Hc H. unfold parseNumber in H.
  destruct (existsb _ _); [discriminate|].
  assert (P : digits (if Ascii.eqb c "0" then 8 else 10) (c :: s) 0 false 0 false = NOk n u 0 false o ub ->
              exists v u', int_const (c :: s) v u').
  { clear H. intros H.
    destruct (Ascii.eqb_spec c "0") as [->|N].
    - apply digits_conv in H as (ds & suf & u' & E & Hs & K); [|red; auto].
      destruct (K [] 0 (dd_nil _)) as (v & Kv). simpl in Kv.
      destruct ds as [|k ds].
      + simpl in E. subst suf. inversion Hs; subst; simpl in *; intuition discriminate.
      + simpl in E. injection E as <- ->. exists v, u'. apply (ic_oct ds suf v u'); auto.
    - apply digits_conv in H as (ds & suf & u' & E & Hs & K); [|red; auto].
      destruct (K [] 0 (dd_nil _)) as (v & Kv). simpl in Kv.
      destruct ds as [|k ds].
      + simpl in E. subst suf. exfalso. unfold is_digit in Hc.
        inversion Hs; subst; simpl in *; intuition subst; discriminate.
      + simpl in E. injection E as <- ->. exists v, u'. apply (ic_dec c ds suf v u'); auto. }
  destruct s as [|c1 [|c2 r]]; auto.
  destruct (Ascii.eqb c "0" && (Ascii.eqb c1 "x" || Ascii.eqb c1 "X")) eqn:E; auto.
  apply andb_prop in E as [E1 E2]. apply Ascii.eqb_eq in E1. subst c.
  assert (X : In c1 ["x"; "X"]%char).
  { apply orb_prop in E2. simpl. destruct E2 as [E|E]; apply Ascii.eqb_eq in E; auto. }
  simpl tl in H. apply digits_conv in H as (ds & suf & u' & E & Hs & K); [|red; auto].
  destruct (K [] 0 (dd_nil _)) as (v & Kv). simpl in Kv.
  destruct ds as [|k ds].
  - right. exists c1, (c2 :: r), u'. simpl in E. rewrite E. auto.
  - left. exists v, u'. rewrite E. apply (ic_hex c1 (k :: ds) suf v u'); auto. discriminate.
Qed.
