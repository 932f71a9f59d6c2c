From Verif Require Import Cbase Cbase_facts Reader_model Reader_spec.
From Coq Require Import ZifyBool.

Lemma numval_dval : forall ds, numval ds = dval ds 0.
Proof. reflexivity. Qed.

Lemma all_digits_codes : forall ds, all_digits ds <-> Forall (fun c => 48 <= code c <= 57) ds.
Proof.
  intros ds. unfold all_digits. split; apply Forall_impl; intros c; unfold is_digit; lia.
Qed.

Lemma dec_numeral : forall z, numeral (dec z) z.
Proof.
  intros z. unfold dec.
  destruct (z <? 0) eqn:E.
  - destruct (dec_nat_spec (- z)) as (A & B & C & D); [lia|].
    exists (dec_nat (- z)). repeat split; auto.
    + right. rewrite numval_dval. repeat split; lia.
    + apply all_digits_codes, A.
    + intros r Hr. destruct D as (d & r' & Hd & Hz); [lia|].
      rewrite Hd in Hr. injection Hr as -> ->. exfalso. apply Hz. reflexivity.
  - destruct (dec_nat_spec z) as (A & B & C & D); [lia|].
    exists (dec_nat z). repeat split; auto.
    + apply all_digits_codes, A.
    + intros r Hr. destruct (Z.eq_dec z 0) as [->|].
      * cbv in Hr. injection Hr as <-. reflexivity.
      * destruct D as (d & r' & Hd & Hz); [lia|].
        rewrite Hd in Hr. injection Hr as -> ->. exfalso. apply Hz. reflexivity.
Qed.

Lemma number_ends_nodigit : forall rest c r, number_ends rest -> rest = c :: r -> is_digit c = false.
Proof. intros rest c r H E. specialize (H c r E). unfold is_digit. lia. Qed.

Lemma after_blanks_skip : forall s, skip_while is_trail s = after_blanks s.
Proof.
  induction s as [|c r IH]; [reflexivity|]. simpl.
  assert (E : is_trail c = (code c =? 32) || (code c =? 10) || (code c =? 9)).
  { unfold is_trail. rewrite !ascii_eqb_code. cbn. lia. }
  rewrite E. destruct (_ || _); congruence.
Qed.

(** The digit loop on digits [ds] starting from a non-negative accumulator. *)
Lemma getInt_digits_nonneg : forall ds i got rest,
  all_digits ds -> number_ends rest -> 0 <= i -> dval ds i <= INT_MAX ->
  getInt_digits i got (ds ++ rest) = ROk (dval ds i, got || negb (match ds with [] => true | _ => false end)) rest.
Proof.
  induction ds as [|d ds IH]; intros i got rest Hd Hr Hi Hm.
  - cbn. rewrite orb_false_r. destruct rest as [|c r]; cbn; [reflexivity|].
    rewrite (number_ends_nodigit _ c r Hr eq_refl). reflexivity.
  - inversion Hd; subst. cbn [app getInt_digits]. rewrite H1.
    pose proof (proj1 (is_digit_range d) H1) as Hdr.
    cbn [dval fold_left] in Hm. fold (dval ds (10*i + digit_val d)) in Hm.
    pose proof (dval_mono ds (10 * i + digit_val d) H2).
    unfold INT_MAX in *.
    replace (in_int (i * 10)) with true by (unfold in_int, INT_MIN, INT_MAX; lia).
    replace (in_int (i * 10 + digit_val d)) with true by (unfold in_int, INT_MIN, INT_MAX; lia).
    replace (i * 10 + digit_val d) with (10 * i + digit_val d) by lia.
    rewrite IH; auto; try lia. cbn [dval fold_left negb]. rewrite !orb_true_r. reflexivity.
Qed.

(** The digit loop from a non-positive accumulator, when nothing overflows. *)
Lemma dval_ge : forall ds i, all_digits ds -> i * 10 ^ Z.of_nat (List.length ds) <= dval ds i.
Proof.
  intros ds i H. rewrite dval_shift. pose proof (dval_nonneg ds 0 H (Z.le_refl 0)). lia.
Qed.

Lemma pow10_pos : forall n : nat, 1 <= 10 ^ Z.of_nat n.
Proof. intros. assert (0 < 10 ^ Z.of_nat n) by (apply Z.pow_pos_nonneg; lia). lia. Qed.

Lemma dval_upper : forall ds, all_digits ds -> dval ds 0 < 10 ^ Z.of_nat (List.length ds).
Proof.
  induction ds as [|d ds IH]; intros H; [cbn; lia|].
  inversion H; subst. apply is_digit_range in H2. cbn [dval fold_left].
  fold (dval ds (10*0+digit_val d)). rewrite dval_shift.
  specialize (IH H3). cbn [List.length]. rewrite Nat2Z.inj_succ, Z.pow_succ_r by lia.
  pose proof (pow10_pos (List.length ds)). nia.
Qed.

(** From an accumulator i <= 0 with i * 10^k >= INT_MIN the loop does not overflow. *)
Lemma getInt_digits_neg : forall ds i rest,
  all_digits ds -> number_ends rest -> i <= 0 ->
  INT_MIN <= i * 10 ^ Z.of_nat (List.length ds) ->
  dval ds i <= INT_MAX ->
  getInt_digits i true (ds ++ rest) = ROk (dval ds i, true) rest.
Proof.
  induction ds as [|d ds IH]; intros i rest Hd Hr Hi Hlo Hup.
  - cbn. destruct rest as [|c r]; cbn; [reflexivity|].
    rewrite (number_ends_nodigit _ c r Hr eq_refl). reflexivity.
  - inversion Hd; subst. cbn [app getInt_digits]. rewrite H1.
    pose proof (proj1 (is_digit_range d) H1) as Hdr.
    cbn [List.length] in Hlo. rewrite Nat2Z.inj_succ, Z.pow_succ_r in Hlo by lia.
    pose proof (pow10_pos (List.length ds)) as Hp.
    assert (Hi10 : INT_MIN <= i * 10) by (unfold INT_MIN in *; nia).
    replace (in_int (i * 10)) with true by (unfold in_int, INT_MIN, INT_MAX in *; lia).
    replace (in_int (i * 10 + digit_val d)) with true by (unfold in_int, INT_MIN, INT_MAX in *; lia).
    cbn [dval fold_left] in *. fold (dval ds (10*i + digit_val d)) in *.
    replace (10 * i + digit_val d) with (i * 10 + digit_val d) in * by lia.
    destruct (Z_le_gt_dec (i * 10 + digit_val d) 0) as [Hle|Hgt].
    + apply IH; auto. nia.
    + rewrite getInt_digits_nonneg; auto; lia.
Qed.

Lemma spaces_digit : forall n d r, is_space d = false ->
  skip_while is_space (repeat ch_space n ++ d :: r) = d :: r.
Proof.
  induction n; intros d r H; cbn.
  - rewrite H. reflexivity.
  - apply IHn, H.
Qed.

Lemma digit_not_space : forall d, is_digit d = true -> is_space d = false.
Proof. intros d H. unfold is_space. rewrite ascii_eqb_code. unfold is_digit in H. cbn. lia. Qed.
Lemma digit_not_minus : forall d, is_digit d = true -> Ascii.eqb d "-"%char = false.
Proof. intros d H. rewrite ascii_eqb_code. unfold is_digit in H. cbn. lia. Qed.

Lemma getInt_nonneg : forall n z rest,
  0 <= z <= INT_MAX -> number_ends rest ->
  reader_getInt (repeat ch_space n ++ dec z ++ rest) = ROk z (after_blanks rest).
Proof.
  intros n z rest Hz Hr.
  unfold dec. replace (z <? 0) with false by lia.
  destruct (dec_nat_cons z) as (d & r & E & Hd & Hdr); [lia|].
  unfold reader_getInt. rewrite E. cbn [app].
  rewrite spaces_digit by (apply digit_not_space, Hd).
  rewrite digit_not_minus by exact Hd.
  change (d :: r ++ rest) with ((d :: r) ++ rest). rewrite <- E.
  rewrite getInt_digits_nonneg; auto.
  - rewrite dec_nat_val by lia. rewrite E. cbn [negb orb rbind getInt_finish].
    rewrite after_blanks_skip. reflexivity.
  - rewrite E. constructor; auto.
  - lia.
  - rewrite dec_nat_val; lia.
Qed.

(** What a negative number is read as: only the first digit carries the sign. *)
Lemma dec_neg_shape : forall z, z < 0 ->
  exists d r, dec z = "-"%char :: d :: r /\ is_digit d = true /\ all_digits r /\
              1 <= digit_val d /\
              z = - (digit_val d * 10 ^ Z.of_nat (List.length r)) - dval r 0.
Proof.
  intros z Hz. unfold dec. replace (z <? 0) with true by lia.
  destruct (dec_nat_spec (- z)) as (A & B & C & D); [lia|].
  destruct D as (d & r & E & Hd0); [lia|].
  rewrite E in *. inversion A; subst.
  pose proof (proj1 (is_digit_range d) H1).
  exists d, r. repeat split; auto; [lia|].
  cbn [dval fold_left] in C. fold (dval r (10*0+digit_val d)) in C.
  rewrite dval_shift in C. replace (10*0+digit_val d) with (digit_val d) in C by lia. lia.
Qed.

Lemma getInt_neg : forall n z d r rest,
  dec z = "-"%char :: d :: r -> is_digit d = true -> all_digits r ->
  1 <= digit_val d ->
  z = - (digit_val d * 10 ^ Z.of_nat (List.length r)) - dval r 0 ->
  INT_MIN <= z -> number_ends rest ->
  reader_getInt (repeat ch_space n ++ dec z ++ rest)
  = ROk (- (digit_val d * 10 ^ Z.of_nat (List.length r)) + dval r 0) (after_blanks rest).
Proof.
  intros n z d r rest E Hd Hr H1 Hz Hlo Hend.
  unfold reader_getInt. rewrite E. cbn [app].
  rewrite spaces_digit by reflexivity. cbn [Ascii.eqb Bool.eqb]. rewrite Hd.
  pose proof (dval_nonneg r 0 Hr (Z.le_refl 0)).
  rewrite getInt_digits_neg; auto; try lia.
  - cbn [rbind getInt_finish]. rewrite after_blanks_skip. f_equal.
    rewrite dval_shift. lia.
  - rewrite dval_shift.
    pose proof (dval_upper r Hr). unfold INT_MAX. nia.
Qed.

Lemma getInt_value_neg : forall n z rest, INT_MIN <= z < 0 -> number_ends rest ->
  exists v, reader_getInt (repeat ch_space n ++ dec z ++ rest) = ROk v (after_blanks rest)
            /\ (v = z <-> one_digit_then_zeros (- z)).
Proof.
  intros n z rest Hz Hr.
  destruct (dec_neg_shape z) as (d & r & E & Hd & Hdr & H1 & Hzv); [lia|].
  eexists. split.
  - eapply getInt_neg; eauto; lia.
  - pose proof (dval_nonneg r 0 Hdr (Z.le_refl 0)).
    pose proof (dval_upper r Hdr). pose proof (proj1 (is_digit_range d) Hd).
    pose proof (pow10_pos (List.length r)).
    set (p := 10 ^ Z.of_nat (List.length r)) in *.
    split.
    + intros Hv. exists (digit_val d), (Z.of_nat (List.length r)).
      fold p. lia.
    + intros (d' & k & Hd' & Hk & Hn).
      assert (Hd'1 : 1 <= d') by (destruct (Z.eq_dec d' 0) as [->|]; [rewrite Z.mul_0_l in Hn; lia|lia]).
      (* k = length r *)
      assert (k = Z.of_nat (List.length r)).
      { destruct (Z.lt_trichotomy k (Z.of_nat (List.length r))) as [L|[L|L]]; auto.
        - assert (d' * 10 ^ k < p).
          { unfold p. replace (Z.of_nat (List.length r)) with (Z.succ (Z.of_nat (List.length r) - 1)) by lia.
            rewrite Z.pow_succ_r by lia.
            assert (10 ^ k <= 10 ^ (Z.of_nat (List.length r) - 1)) by (apply Z.pow_le_mono_r; lia).
            assert (0 < 10 ^ k) by (apply Z.pow_pos_nonneg; lia). nia. }
          nia.
        - assert (10 * p <= 10 ^ k).
          { unfold p. rewrite <- Z.pow_succ_r by lia. apply Z.pow_le_mono_r; lia. }
          nia. }
      subst k. fold p in Hn.
      assert (d' = digit_val d).
      { assert (G : (d' - digit_val d) * p = dval r 0) by lia.
        destruct (Z.lt_trichotomy (d' - digit_val d) 0) as [L|[L|L]]; [nia|lia|nia]. }
      subst d'. lia.
Qed.

Lemma getInt_read_back_iff : forall n z rest,
  INT_MIN <= z <= INT_MAX -> number_ends rest ->
  (reader_getInt (repeat ch_space n ++ dec z ++ rest) = ROk z (after_blanks rest)
   <-> 0 <= z \/ one_digit_then_zeros (- z)).
Proof.
  intros n z rest Hz Hr. destruct (Z_lt_ge_dec z 0) as [Hneg|Hpos].
  - destruct (getInt_value_neg n z rest) as (v & E & I); [lia|exact Hr|].
    rewrite E. split.
    + intros H. injection H as ->. right. apply I. reflexivity.
    + intros [H|H]; [lia|]. apply I in H. rewrite H. reflexivity.
  - split; [intros _; left; lia|]. intros _. apply getInt_nonneg; auto; lia.
Qed.

(** Words. *)
Lemma span_app : forall p w rest,
  Forall (fun c => p c = true) w ->
  (forall c r, rest = c :: r -> p c = false) ->
  span p (w ++ rest) = (w, rest).
Proof.
  induction w as [|c w IH]; intros rest Hw Hr.
  - cbn. destruct rest as [|c r]; cbn; [reflexivity|]. rewrite (Hr c r eq_refl). reflexivity.
  - inversion Hw; subst. cbn. rewrite H1. rewrite IH; auto.
Qed.

Lemma getWord_word : forall w rest,
  w <> [] -> Forall (fun c => is_wordsep c = false) w ->
  (forall c r, rest = c :: r -> is_wordsep c = true) ->
  reader_getWord (w ++ rest) = ROk (Some w) rest.
Proof.
  intros w rest Hn Hw Hr. unfold reader_getWord.
  rewrite span_app.
  - destruct w; [congruence|reflexivity].
  - eapply Forall_impl; [|exact Hw]. intros a ->. reflexivity.
  - intros c r E. rewrite (Hr c r E). reflexivity.
Qed.

Lemma undump_string_ok : forall s rest,
  Forall (fun c => Ascii.eqb c "#"%char = false) s ->
  undump_string (s ++ "#"%char :: rest) = ROk s ("#"%char :: rest).
Proof.
  induction s as [|c s IH]; intros rest H; [reflexivity|].
  inversion H; subst. cbn. rewrite H2. rewrite IH; auto.
Qed.

(** Value conversions for C30. *)
Lemma wrap32_id : forall z, INT_MIN <= z <= INT_MAX -> wrap32 z = z.
Proof. unfold INT_MIN, INT_MAX, wrap32. intros z H. rewrite Z.mod_small; lia. Qed.
Lemma wrap8_id : forall z, -128 <= z <= 127 -> wrap8 z = z.
Proof. unfold wrap8. intros z H. rewrite Z.mod_small; lia. Qed.
Lemma wrap32_range : forall z, INT_MIN <= wrap32 z <= INT_MAX.
Proof.
  unfold wrap32, INT_MIN, INT_MAX. intros z.
  pose proof (Z.mod_pos_bound (z + 2147483648) 4294967296). lia.
Qed.

(** C30 for integers: exact condition. *)
Lemma multiVal_long_iff : forall z rest,
  LONG_MIN <= z <= LONG_MAX -> number_ends rest ->
  (multiVal_undump (multiVal_dump (Some (MVLong z)) ++ rest)
   = ROk (Some (RLong z)) (after_blanks rest)
   <-> INT_MIN <= z <= INT_MAX /\ (0 <= z \/ one_digit_then_zeros (- z))).
Proof.
  intros z rest Hz Hr.
  cbn [multiVal_dump app multiVal_undump Ascii.eqb Bool.eqb].
  destruct (getInt_read_back_iff 0 (wrap32 z) rest (wrap32_range z) Hr) as [I1 I2].
  cbn [repeat app] in *.
  split.
  - intros H.
    assert (E : exists s, reader_getInt (dec (wrap32 z) ++ rest) = ROk z s /\ s = after_blanks rest).
    { destruct (reader_getInt (dec (wrap32 z) ++ rest)); cbn in H; try discriminate.
      injection H as -> ->. eauto. }
    destruct E as (s & E & ->).
    assert (Hv : INT_MIN <= z <= INT_MAX).
    { destruct (Z_lt_ge_dec (wrap32 z) 0) as [Hn|Hn].
      - destruct (dec_neg_shape (wrap32 z) Hn) as (d & r & F & Hd & Hdr & H1 & Hzv).
        pose proof (wrap32_range z) as W.
        pose proof (getInt_neg 0 (wrap32 z) d r rest F Hd Hdr H1 Hzv (proj1 W) Hr) as G.
        cbn [repeat app] in G. rewrite G in E.
        injection E as <-.
        pose proof (dval_nonneg r 0 Hdr (Z.le_refl 0)). pose proof (dval_upper r Hdr).
        unfold INT_MIN, INT_MAX in *. nia.
      - assert (G : reader_getInt (repeat ch_space 0 ++ dec (wrap32 z) ++ rest)
                    = ROk (wrap32 z) (after_blanks rest))
          by (apply getInt_nonneg; auto; pose proof (wrap32_range z); lia).
        cbn [repeat app] in G. rewrite G in E. injection E as E. rewrite <- E. apply wrap32_range. }
    split; [exact Hv|].
    rewrite wrap32_id in * by exact Hv. apply I1, E.
  - intros [Hv Hc]. rewrite wrap32_id in * by exact Hv. rewrite I2 by exact Hc. reflexivity.
Qed.

Lemma multiVal_char_iff : forall z rest,
  -128 <= z <= 127 -> number_ends rest ->
  (multiVal_undump (multiVal_dump (Some (MVChar z)) ++ rest)
   = ROk (Some (RChar z)) (after_blanks rest)
   <-> 0 <= z \/ one_digit_then_zeros (- z)).
Proof.
  intros z rest Hz Hr.
  cbn [multiVal_dump app multiVal_undump Ascii.eqb Bool.eqb].
  assert (Hz' : INT_MIN <= z <= INT_MAX) by (unfold INT_MIN, INT_MAX; lia).
  destruct (Z_lt_ge_dec z 0) as [Hn|Hn].
  - destruct (dec_neg_shape z Hn) as (d & r & F & Hd & Hdr & H1 & Hzv).
    destruct (getInt_read_back_iff 0 z rest Hz' Hr) as [I1 I2]. cbn [repeat app] in *.
    pose proof (getInt_neg 0 z d r rest F Hd Hdr H1 Hzv (proj1 Hz') Hr) as G.
    cbn [repeat app] in G.
    pose proof (dval_nonneg r 0 Hdr (Z.le_refl 0)). pose proof (dval_upper r Hdr).
    split.
    + rewrite G. cbn [rbind]. intros E. injection E as E.
      rewrite wrap8_id in E by nia. apply I1. rewrite G, E. reflexivity.
    + intros C. rewrite I2 by exact C. cbn [rbind]. rewrite wrap8_id by lia. reflexivity.
  - assert (G : reader_getInt (repeat ch_space 0 ++ dec z ++ rest) = ROk z (after_blanks rest))
      by (apply getInt_nonneg; auto; lia).
    cbn [repeat app] in G. rewrite G. cbn [rbind]. rewrite wrap8_id by lia.
    split; [intros _; left; lia|reflexivity].
Qed.

Lemma multiVal_string : forall s rest,
  Forall (fun c => Ascii.eqb c "#"%char = false) s ->
  multiVal_undump (multiVal_dump (Some (MVString s)) ++ "#"%char :: rest)
  = ROk (Some (RString s)) ("#"%char :: rest).
Proof.
  intros s rest H. cbn [multiVal_dump app multiVal_undump Ascii.eqb Bool.eqb].
  rewrite undump_string_ok by exact H. reflexivity.
Qed.

(** In the context in which uentry.c:5280 writes a constant,
    "@<value>@<access>@<null>#<name>", a string value swallows the other fields. *)
Lemma multiVal_string_ctx : forall s mid rest,
  Forall (fun c => Ascii.eqb c "#"%char = false) s ->
  Forall (fun c => Ascii.eqb c "#"%char = false) mid ->
  multiVal_undump (multiVal_dump (Some (MVString s)) ++ mid ++ "#"%char :: rest)
  = ROk (Some (RString (s ++ mid))) ("#"%char :: rest).
Proof.
  intros s mid rest H1 H2. cbn [multiVal_dump app multiVal_undump Ascii.eqb Bool.eqb].
  rewrite app_assoc. rewrite undump_string_ok by (apply Forall_app; auto). reflexivity.
Qed.
