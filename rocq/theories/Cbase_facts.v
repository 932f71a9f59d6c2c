(** Facts about Cbase: strings, decimal printing. *)
From Verif Require Import Cbase.

Lemma code_chr : forall z, 0 <= z < 256 -> code (chr z) = z.
Proof.
  intros z H. unfold code, chr.
  rewrite N_ascii_embedding by lia. lia.
Qed.

Lemma chr_code : forall c, chr (code c) = c.
Proof.
  intros c. unfold chr, code. rewrite N2Z.id. apply ascii_N_embedding.
Qed.

Lemma code_inj : forall a b, code a = code b -> a = b.
Proof. intros a b H. rewrite <- (chr_code a), <- (chr_code b), H. reflexivity. Qed.

Lemma code_range : forall c, 0 <= code c < 256.
Proof.
  intros c. unfold code. pose proof (N_ascii_bounded c). lia.
Qed.

Lemma ascii_eqb_code : forall a b, Ascii.eqb a b = (code a =? code b).
Proof.
  intros a b. destruct (Ascii.eqb_spec a b) as [->|n].
  - symmetry. apply Z.eqb_refl.
  - symmetry. apply Z.eqb_neq. intro H. apply n, code_inj, H.
Qed.

Lemma cstr_eqb_eq : forall a b, cstr_eqb a b = true <-> a = b.
Proof.
  induction a as [|x a IH]; destruct b as [|y b]; simpl; split; intro H;
    try reflexivity; try discriminate.
  - apply andb_true_iff in H. destruct H as [H1 H2].
    apply Ascii.eqb_eq in H1. apply IH in H2. subst. reflexivity.
  - injection H as -> ->. rewrite Ascii.eqb_refl. apply IH. reflexivity.
Qed.

Lemma cstr_eqb_refl : forall a, cstr_eqb a a = true.
Proof. intros. apply cstr_eqb_eq. reflexivity. Qed.

(** Value of a digit string, most significant digit first. *)
Definition dval (ds : cstr) (acc : Z) : Z :=
  fold_left (fun a c => 10 * a + digit_val c) ds acc.
Definition all_digits (ds : cstr) : Prop := Forall (fun c => is_digit c = true) ds.

Lemma is_digit_range : forall c, is_digit c = true <-> 0 <= digit_val c <= 9.
Proof.
  intros c. unfold is_digit, digit_val. rewrite andb_true_iff, !Z.leb_le. lia.
Qed.

Lemma digit_char_val : forall d, 0 <= d <= 9 -> digit_val (digit_char d) = d.
Proof. intros d H. unfold digit_val, digit_char. rewrite code_chr by lia. lia. Qed.

Lemma digit_char_is_digit : forall d, 0 <= d <= 9 -> is_digit (digit_char d) = true.
Proof. intros d H. apply is_digit_range. rewrite digit_char_val; lia. Qed.

Lemma dval_app : forall a b acc, dval (a ++ b) acc = dval b (dval a acc).
Proof. intros. unfold dval. apply fold_left_app. Qed.

Lemma dval_shift : forall ds acc,
  dval ds acc = acc * 10 ^ Z.of_nat (List.length ds) + dval ds 0.
Proof.
  induction ds as [|d ds IH]; intros acc.
  - cbn. lia.
  - cbn [dval fold_left List.length].
    change (fold_left (fun a c => 10 * a + digit_val c) ds (10 * acc + digit_val d))
      with (dval ds (10 * acc + digit_val d)).
    change (fold_left (fun a c => 10 * a + digit_val c) ds (10 * 0 + digit_val d))
      with (dval ds (10 * 0 + digit_val d)).
    rewrite (IH (10 * acc + _)), (IH (10 * 0 + _)).
    rewrite Nat2Z.inj_succ, Z.pow_succ_r by lia. ring.
Qed.

Lemma dval_nonneg : forall ds acc, all_digits ds -> 0 <= acc -> 0 <= dval ds acc.
Proof.
  induction ds as [|d ds IH]; intros acc H Ha; [exact Ha|].
  inversion H; subst. cbn [dval fold_left]. apply IH; auto.
  apply is_digit_range in H2. lia.
Qed.

Lemma dval_mono : forall ds acc, all_digits ds -> 0 <= acc -> acc <= dval ds acc.
Proof.
  induction ds as [|d ds IH]; intros acc H Ha; [apply Z.le_refl|].
  inversion H; subst. apply is_digit_range in H2.
  cbn [dval fold_left]. fold (dval ds (10*acc + digit_val d)).
  specialize (IH (10 * acc + digit_val d) H3). lia.
Qed.

(** Decimal printing: digits, value, no leading zero. *)
Lemma dec_aux_spec : forall fuel n acc,
  0 <= n < 2 ^ Z.of_nat fuel -> (0 < fuel)%nat ->
  exists ds, dec_aux fuel n acc = ds ++ acc /\ all_digits ds /\ ds <> [] /\
             dval ds 0 = n /\ (n <> 0 -> exists d r, ds = d :: r /\ digit_val d <> 0).
Proof.
  induction fuel as [|f IH]; intros n acc Hn Hf; [lia|].
  cbn [dec_aux].
  assert (Hm : 0 <= n mod 10 <= 9) by (pose proof (Z.mod_pos_bound n 10); lia).
  destruct (n / 10 =? 0) eqn:E.
  - apply Z.eqb_eq in E.
    assert (n < 10) by (pose proof (Z.div_mod n 10); lia).
    assert (Emod: n mod 10 = n) by (apply Z.mod_small; lia).
    exists [digit_char (n mod 10)]. repeat split.
    + constructor; [apply digit_char_is_digit; lia|constructor].
    + discriminate.
    + cbn. rewrite digit_char_val by lia. lia.
    + intros Hz. exists (digit_char (n mod 10)), []. split; [reflexivity|].
      rewrite digit_char_val; lia.
  - apply Z.eqb_neq in E.
    assert (Hd : 0 <= n / 10) by (apply Z.div_pos; lia).
    assert (Hlt : n / 10 < 2 ^ Z.of_nat f).
    { rewrite Nat2Z.inj_succ, Z.pow_succ_r in Hn by lia.
      apply Z.div_lt_upper_bound; lia. }
    assert (Hf' : (0 < f)%nat).
    { destruct f; [|lia]. cbn in Hlt. lia. }
    destruct (IH (n / 10) (digit_char (n mod 10) :: acc) (conj Hd Hlt) Hf')
      as (ds & E1 & E2 & E3 & E4 & E5).
    exists (ds ++ [digit_char (n mod 10)]). repeat split.
    + rewrite E1, <- app_assoc. reflexivity.
    + apply Forall_app. split; [exact E2|].
      constructor; [apply digit_char_is_digit; lia|constructor].
    + destruct ds; discriminate.
    + rewrite dval_app, E4. cbn [dval fold_left]. rewrite digit_char_val by lia.
      pose proof (Z.div_mod n 10). lia.
    + intros _. destruct (E5 E) as (d & r & -> & Hd0).
      exists d, (r ++ [digit_char (n mod 10)]). split; [reflexivity|exact Hd0].
Qed.

Lemma dec_nat_spec : forall n, 0 <= n ->
  all_digits (dec_nat n) /\ dec_nat n <> [] /\ dval (dec_nat n) 0 = n /\
  (n <> 0 -> exists d r, dec_nat n = d :: r /\ digit_val d <> 0).
Proof.
  intros n Hn. unfold dec_nat.
  destruct (dec_aux_spec (S (Z.to_nat (Z.log2 n))) n []) as (ds & E1 & E2 & E3 & E4 & E5).
  - rewrite Nat2Z.inj_succ, Z2Nat.id by apply Z.log2_nonneg.
    destruct (Z.eq_dec n 0) as [->|]; [cbn; lia|].
    pose proof (Z.log2_spec n). lia.
  - lia.
  - rewrite app_nil_r in E1. rewrite E1. auto.
Qed.

Lemma dec_nat_digits : forall n, 0 <= n -> all_digits (dec_nat n).
Proof. intros n H. apply dec_nat_spec, H. Qed.

Lemma dec_nat_val : forall n, 0 <= n -> dval (dec_nat n) 0 = n.
Proof. intros n H. apply dec_nat_spec, H. Qed.

Lemma dec_nat_cons : forall n, 0 <= n -> exists d r, dec_nat n = d :: r /\ is_digit d = true /\ all_digits r.
Proof.
  intros n H. destruct (dec_nat_spec n H) as (A & B & _ & _).
  destruct (dec_nat n) as [|d r]; [congruence|].
  inversion A; subst. exists d, r. auto.
Qed.
