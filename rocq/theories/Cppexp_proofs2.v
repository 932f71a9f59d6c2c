(** * Proofs about #if evaluation: values *)
From Coq Require Import ZArith List Bool Lia ZifyBool.
From Verif Require Import Cbase Cppexp_model Cppexp_spec Cppexp_proofs.
Import ListNotations.
Local Open Scope Z_scope.
Local Arguments Z.mul : simpl never.
Local Arguments Z.add : simpl never.
Local Arguments Z.sub : simpl never.
Local Arguments Z.opp : simpl never.
Local Arguments Z.modulo : simpl never.
Local Arguments Z.div : simpl never.
Local Arguments Z.pow : simpl never.
Local Arguments Z.ltb : simpl never.
Local Arguments Z.leb : simpl never.

Notation MM := 18446744073709551616.
Notation HH := 9223372036854775808.

Lemma wrap_ex : forall x, exists k, wrap64 x = x + k * MM.
Proof.
  intros x. exists (- ((x + HH) / MM)). unfold wrap64.
  pose proof (Z.div_mod (x + HH) MM). lia.
Qed.

Lemma wrap_k : forall x k, wrap64 (x + k * MM) = wrap64 x.
Proof.
  intros x k. unfold wrap64. replace (x + k * MM + HH) with (x + HH + k * MM) by lia.
  rewrite Z_mod_plus_full. reflexivity.
Qed.

Lemma wrap_range : forall x, - HH <= wrap64 x < HH.
Proof. intros x. unfold wrap64. pose proof (Z.mod_pos_bound (x + HH) MM). lia. Qed.

Lemma wrap_id : forall x, - HH <= x < HH -> wrap64 x = x.
Proof. intros x H. unfold wrap64. rewrite Z.mod_small; lia. Qed.

Lemma uw_ex : forall x, exists k, uwrap64 x = x + k * MM.
Proof. intros x. exists (- (x / MM)). unfold uwrap64. pose proof (Z.div_mod x MM). lia. Qed.

Lemma uw_k : forall x k, uwrap64 (x + k * MM) = uwrap64 x.
Proof. intros. unfold uwrap64. apply Z_mod_plus_full. Qed.

Lemma uw_range : forall x, 0 <= uwrap64 x < MM.
Proof. intros. unfold uwrap64. apply Z.mod_pos_bound. lia. Qed.

Lemma uw_id : forall x, 0 <= x < MM -> uwrap64 x = x.
Proof. intros. unfold uwrap64. apply Z.mod_small. lia. Qed.

Lemma uw_wrap : forall x, uwrap64 (wrap64 x) = uwrap64 x.
Proof. intros x. destruct (wrap_ex x) as (k & ->). apply uw_k. Qed.

Lemma wrap_uw : forall x, wrap64 (uwrap64 x) = wrap64 x.
Proof. intros x. destruct (uw_ex x) as (k & ->). apply wrap_k. Qed.

Lemma wrap_add : forall x y, wrap64 (wrap64 x + wrap64 y) = wrap64 (x + y).
Proof.
  intros x y. destruct (wrap_ex x) as (k & ->). destruct (wrap_ex y) as (j & ->).
  replace (x + k * MM + (y + j * MM)) with (x + y + (k + j) * MM) by ring. apply wrap_k.
Qed.

Lemma wrap_sub : forall x y, wrap64 (wrap64 x - wrap64 y) = wrap64 (x - y).
Proof.
  intros x y. destruct (wrap_ex x) as (k & ->). destruct (wrap_ex y) as (j & ->).
  replace (x + k * MM - (y + j * MM)) with (x - y + (k - j) * MM) by ring. apply wrap_k.
Qed.

Lemma wrap_mul : forall x y, wrap64 (wrap64 x * wrap64 y) = wrap64 (x * y).
Proof.
  intros x y. destruct (wrap_ex x) as (k & ->). destruct (wrap_ex y) as (j & ->).
  replace ((x + k * MM) * (y + j * MM)) with (x * y + (x * j + k * y + k * j * MM) * MM) by ring.
  apply wrap_k.
Qed.

Lemma wrap_opp : forall x, wrap64 (- wrap64 x) = wrap64 (- x).
Proof.
  intros x. destruct (wrap_ex x) as (k & ->).
  replace (- (x + k * MM)) with (- x + (- k) * MM) by ring. apply wrap_k.
Qed.

(** Equal modulo 2^64. *)
Lemma wrap_eq_uw : forall x y, uwrap64 x = uwrap64 y -> wrap64 x = wrap64 y.
Proof. intros x y H. rewrite <- (wrap_uw x), <- (wrap_uw y). congruence. Qed.

Lemma in_long_range : forall z, in_long z = true <-> - HH <= z < HH.
Proof. intros z. unfold in_long, LONG_MIN, LONG_MAX. lia. Qed.

(** Bitwise operations. *)
Lemma range_shift : forall z, - HH <= z < HH <-> Z.shiftr z 63 = 0 \/ Z.shiftr z 63 = -1.
Proof.
  intros z. rewrite Z.shiftr_div_pow2 by lia. change (2 ^ 63) with HH.
  pose proof (Z.div_mod z HH). pose proof (Z.mod_pos_bound z HH). split; intros; nia.
Qed.

Lemma bit_range : forall f, (f = Z.land \/ f = Z.lor \/ f = Z.lxor) ->
  forall x y, - HH <= x < HH -> - HH <= y < HH -> - HH <= f x y < HH.
Proof.
  intros f Hf x y Hx Hy. rewrite range_shift in *.
  destruct Hf as [->|[->| ->]];
    rewrite ?Z.shiftr_land, ?Z.shiftr_lor, ?Z.shiftr_lxor;
    destruct Hx as [->| ->], Hy as [->| ->]; simpl; auto.
Qed.

Lemma uw_ones : forall x, uwrap64 x = Z.land x (Z.ones 64).
Proof. intros x. rewrite Z.land_ones by lia. reflexivity. Qed.

Lemma bit_mod : forall f, (f = Z.land \/ f = Z.lor \/ f = Z.lxor) ->
  forall x y, uwrap64 (f x y) = f (uwrap64 x) (uwrap64 y).
Proof.
  intros f Hf x y. rewrite !uw_ones.
  apply Z.bits_inj'. intros n Hn.
  destruct Hf as [->|[->| ->]];
    repeat rewrite ?Z.land_spec, ?Z.lor_spec, ?Z.lxor_spec;
    destruct (Z.testbit x n), (Z.testbit y n), (Z.testbit (Z.ones 64) n); reflexivity.
Qed.

Lemma bit_wrap : forall f, (f = Z.land \/ f = Z.lor \/ f = Z.lxor) ->
  forall x y, f (wrap64 x) (wrap64 y) = wrap64 (f x y).
Proof.
  intros f Hf x y.
  rewrite <- (wrap_id (f (wrap64 x) (wrap64 y))) by (apply bit_range; auto using wrap_range).
  apply wrap_eq_uw. rewrite !bit_mod by auto. rewrite !uw_wrap. reflexivity.
Qed.

Lemma bit_conv : forall f, (f = Z.land \/ f = Z.lor \/ f = Z.lxor) ->
  forall x y, wrap64 (f (uwrap64 x) (uwrap64 y)) = f (wrap64 x) (wrap64 y).
Proof.
  intros f Hf x y. rewrite bit_wrap by auto. apply wrap_eq_uw.
  rewrite !bit_mod by auto. f_equal; unfold uwrap64; apply Z.mod_mod; lia.
Qed.

(** ** Types and conversions *)

Lemma conv_wrap : forall u x, wrap64 (conv u x) = wrap64 x.
Proof. intros [] x; auto. apply wrap_uw. Qed.

Lemma conv_in : forall u x, (u = false -> in_type false x) -> in_type u (conv u x).
Proof. intros [] x H; [apply (uw_range x)|exact (H eq_refl)]. Qed.

Lemma or_false : forall a b x, a || b = false -> in_type a x -> in_type false x.
Proof. intros [] [] x H K; try discriminate; auto. Qed.
Lemma or_false_r : forall a b x, a || b = false -> in_type b x -> in_type false x.
Proof. intros [] [] x H K; try discriminate; auto. Qed.

(** A value of either type is determined by its bits. *)
Lemma wrap_inj : forall u x y, in_type u x -> in_type u y -> wrap64 x = wrap64 y -> x = y.
Proof.
  intros [] x y Hx Hy H; simpl in *.
  - assert (K : uwrap64 (wrap64 x) = uwrap64 (wrap64 y)) by congruence.
    rewrite !uw_wrap, !uw_id in K; auto.
  - rewrite !wrap_id in H; auto.
Qed.

Lemma wrap_zero : forall u x, in_type u x -> nz (wrap64 x) = negb (x =? 0).
Proof.
  intros u x H. unfold nz. f_equal. destruct (Z.eqb_spec x 0) as [->|N]; [reflexivity|].
  destruct (Z.eqb_spec (wrap64 x) 0) as [E|]; auto. exfalso. apply N.
  apply (wrap_inj u); auto. destruct u; simpl; lia.
Qed.

Definition same_diag (d d' : diag) : Prop := d_div d' = d_div d /\ d_ovf d' = d_ovf d.

Lemma sd_refl : forall d, same_diag d d.
Proof. split; auto. Qed.
Lemma sd_trans : forall a b c, same_diag a b -> same_diag b c -> same_diag a c.
Proof. intros a b c [] []. split; congruence. Qed.
Lemma sd_ub : forall b d, same_diag d (add_ub b d).
Proof. split; auto. Qed.
Lemma sd_ovf : forall b d d', b = false -> same_diag d d' -> same_diag d (add_ovf b d').
Proof. intros b d d' -> []. split; simpl; auto. rewrite orb_false_r. auto. Qed.
Lemma sd_ub' : forall b d d', same_diag d d' -> same_diag d (add_ub b d').
Proof. intros b d d' []. split; auto. Qed.
Lemma sd_div : forall b d d', b = false -> same_diag d d' -> same_diag d (add_div b d').
Proof. intros b d d' -> []. split; simpl; auto. rewrite orb_false_r. auto. Qed.

(** ** Skipped operands *)

Lemma apply2_skip : forall o x u1 y u2 d v u d',
  apply2 true (bin_tok o) x u1 y u2 d = (v, u, d') ->
  same_diag d d' /\
  (match o with BDiv | BMod => u2 = true -> u1 = true | _ => True end ->
   u = match o with
       | BMul | BDiv | BMod | BAdd | BSub | BAnd | BXor | BOr => u1 || u2
       | BShl | BShr => u1 | BComma => u2 | _ => false end).
Proof.
  intros o x u1 y u2 d v u d' H.
  destruct o; simpl in H; rewrite ?andb_false_r in H; simpl in H;
    try (inversion H; subst; split; [|intros K; reflexivity]; 
         first [apply sd_refl
               |apply sd_ub', sd_ovf; [rewrite ?andb_false_r; reflexivity|apply sd_refl]]).
  - destruct (u1 || u2) eqn:E; inversion H; subst; split; auto using sd_refl.
  - inversion H; subst; split; auto using sd_refl. intros K. destruct u, u2; auto;
    discriminate K; auto.
  - inversion H; subst; split; auto using sd_refl. intros K. destruct u, u2; auto;
    discriminate K; auto.
Qed.

Lemma apply1_skip : forall o y u2 d v u d',
  apply1 true (un_tok o) y u2 d = (v, u, d') ->
  same_diag d d' /\ u = match o with UNot => false | _ => u2 end.
Proof.
  intros o y u2 d v u d' H. destruct o; simpl in H; inversion H; subst; split; auto using sd_refl.
  apply sd_ub', sd_ovf; [reflexivity|apply sd_refl].
Qed.

Lemma meval_skip : forall e d v u d', meval true e d = (v, u, d') ->
  same_diag d d' /\ (same_sign_div e -> u = utype e).
Proof.
  induction e as [v0 u0|e IH|o e IH|o a IHa b IHb|c IHc a IHa b IHb]; intros d v u d' H; simpl in H.
  - inversion H; subst. split; auto using sd_refl.
  - apply IH in H. auto.
  - destruct (meval true e d) as [[y u2] d0] eqn:E. apply IH in E as [E1 E2].
    apply apply1_skip in H as [H1 H2]. split; [eapply sd_trans; eauto|].
    intros K. simpl in *. rewrite H2. destruct o; auto.
  - destruct (meval true a d) as [[x u1] d0] eqn:Ea. apply IHa in Ea as [A1 A2].
    destruct (meval true b d0) as [[y u2] d1] eqn:Eb. apply IHb in Eb as [B1 B2].
    apply apply2_skip in H as [H1 H2]. split; [eauto using sd_trans|].
    intros (Ka & Kb & Ko). rewrite A2, B2 in H2 by auto. simpl. rewrite H2; auto.
  - destruct (meval true c d) as [[x u1] d0] eqn:Ec. apply IHc in Ec as [C1 C2].
    destruct (meval true a d0) as [[y u2] d1] eqn:Ea. apply IHa in Ea as [A1 A2].
    destruct (meval true b d1) as [[z u3] d2] eqn:Eb. apply IHb in Eb as [B1 B2].
    inversion H; subst. split; [eauto using sd_trans|].
    intros (Kc & Ka & Kb). simpl. rewrite A2, B2; auto.
Qed.

(** ** A reported division stays reported *)

Lemma apply2_mono : forall sk o x u1 y u2 d v u d',
  apply2 sk (bin_tok o) x u1 y u2 d = (v, u, d') -> d_div d = true -> d_div d' = true.
Proof.
  intros sk o x u1 y u2 d v u d' H K.
  destruct o; simpl in H; unfold left_shift, right_shift in H;
    repeat match type of H with
           | context [if ?c then _ else _] => destruct c
           end; inversion H; subst; simpl; rewrite ?K; auto.
Qed.

Lemma apply1_mono : forall sk o y u2 d v u d',
  apply1 sk (un_tok o) y u2 d = (v, u, d') -> d_div d = true -> d_div d' = true.
Proof.
  intros sk o y u2 d v u d' H K. destruct o; simpl in H; inversion H; subst; simpl; auto.
Qed.

Lemma meval_mono : forall e sk d v u d', meval sk e d = (v, u, d') ->
  d_div d = true -> d_div d' = true.
Proof.
  induction e as [v0 u0|e IH|o e IH|o a IHa b IHb|c IHc a IHa b IHb]; intros sk d v u d' H K; simpl in H.
  - inversion H; subst; auto.
  - eauto.
  - destruct (meval sk e d) as [[y u2] d0] eqn:E. eapply apply1_mono; eauto.
  - destruct (meval sk a d) as [[x u1] d0] eqn:Ea.
    destruct (meval _ b d0) as [[y u2] d1] eqn:Eb. eapply apply2_mono; eauto.
  - destruct (meval sk c d) as [[x u1] d0] eqn:Ec.
    destruct (meval _ a d0) as [[y u2] d1] eqn:Ea.
    destruct (meval _ b d1) as [[z u3] d2] eqn:Eb. inversion H; subst; eauto.
Qed.

(** ** Evaluated operators *)

Lemma fit_inv : forall u z x, fit u z = CVal x ->
  in_type u x /\ wrap64 z = wrap64 x /\ (u = false -> x = z).
Proof.
  intros [] z x H; unfold fit in H.
  - inversion H. split; [apply (uw_range z)|]. split; [symmetry; apply (wrap_uw z)|discriminate].
  - destruct (_ && _) eqn:E; inversion H; subst. simpl. split; [lia|]. auto.
Qed.

Lemma truth_inv : forall b x, truth b = CVal x -> x = b2z b /\ in_type false x.
Proof. intros [] x H; inversion H; split; simpl; auto; lia. Qed.

Lemma b2z_wrap : forall b, wrap64 (b2z b) = b2z b.
Proof. destruct b; reflexivity. Qed.

Lemma cmp_ok : forall f u1 u2 x y, in_type u1 x -> in_type u2 y ->
  compare_op f (u1 || u2) (wrap64 x) (wrap64 y) =
  b2z (f (conv (u1 || u2) x) (conv (u1 || u2) y)).
Proof.
  intros f u1 u2 x y Hx Hy. unfold compare_op. destruct (u1 || u2) eqn:E; simpl.
  - rewrite !uw_wrap. reflexivity.
  - apply (or_false u1 u2) in Hx; auto. apply (or_false_r u1 u2) in Hy; auto.
    simpl in *. rewrite !wrap_id; auto.
Qed.

Lemma eq_ok : forall u1 u2 x y, in_type u1 x -> in_type u2 y ->
  (wrap64 x =? wrap64 y) = (conv (u1 || u2) x =? conv (u1 || u2) y).
Proof.
  intros u1 u2 x y Hx Hy.
  rewrite <- (conv_wrap (u1 || u2) x), <- (conv_wrap (u1 || u2) y).
  destruct (Z.eqb_spec (conv (u1 || u2) x) (conv (u1 || u2) y)) as [->|N].
  - apply Z.eqb_refl.
  - destruct (Z.eqb_spec (wrap64 (conv (u1 || u2) x)) (wrap64 (conv (u1 || u2) y))); auto.
    exfalso. apply N. apply (wrap_inj (u1 || u2)); auto; apply conv_in; intros K.
    + eapply or_false; eauto. + eapply or_false_r; eauto.
Qed.

Lemma zero_ok : forall u1 u2 y, in_type u2 y ->
  (wrap64 y =? 0) = (conv (u1 || u2) y =? 0).
Proof.
  intros u1 u2 y Hy.
  assert (H0 : in_type u1 0) by (destruct u1; simpl; lia).
  pose proof (eq_ok u1 u2 0 y H0 Hy) as K.
  assert (C0 : conv (u1 || u2) 0 = 0) by (destruct (u1 || u2); reflexivity).
  rewrite C0 in K. change (wrap64 0) with 0 in K.
  rewrite (Z.eqb_sym (wrap64 y)), (Z.eqb_sym (conv _ y)). exact K.
Qed.

Lemma sign_sum : forall a b s, - HH <= a < HH -> - HH <= b < HH -> s = a + b -> - HH <= s < HH ->
  possibleSumSign a b s = true.
Proof.
  intros a b s Ha Hb Hs Hr. unfold possibleSumSign.
  destruct (Z.ltb_spec a 0), (Z.ltb_spec b 0), (Z.ltb_spec s 0); simpl; auto; lia.
Qed.

Lemma all_neg_false : forall x y z, (x < 0 -> y < 0 -> z < 0 -> False) -> all_neg x y z = false.
Proof. intros x y z H. unfold all_neg. lia. Qed.

(** Signed and in range. *)
Lemma signed_or : forall u1 u2 x y, u1 || u2 = false -> in_type u1 x -> in_type u2 y ->
  u1 = false /\ u2 = false /\ - HH <= x < HH /\ - HH <= y < HH.
Proof. intros [] [] x y H; try discriminate. simpl. auto. Qed.

Lemma conv_u : forall u x, u = true -> conv u x = uwrap64 x.
Proof. intros u x ->. reflexivity. Qed.

Lemma apply2_ok : forall o u1 u2 x y r d v u d', o <> BLAnd -> o <> BLOr ->
  in_type u1 x -> in_type u2 y -> cbin 32 o u1 u2 x y = CVal r ->
  apply2 false (bin_tok o) (wrap64 x) u1 (wrap64 y) u2 d = (v, u, d') ->
  v = wrap64 r /\ in_type u r /\ same_diag d d' /\
  u = match o with
       | BMul | BDiv | BMod | BAdd | BSub | BAnd | BXor | BOr => u1 || u2
       | BShl | BShr => u1 | BComma => u2 | _ => false end.
Proof.
  intros o u1 u2 x y r d v u d' N1 N2 Hx Hy Hc H.
  unfold cbin in Hc.
  destruct o; try contradiction; simpl in H.
  - (* mul *)
    destruct (u1 || u2) eqn:E; inversion H; subst.
    + apply fit_inv in Hc as (T & Wr & _). split; [|split; [|split]]; auto using sd_refl.
      rewrite !uw_wrap. exact Wr.
    + apply fit_inv in Hc as (T & Wr & Eq). simpl in Eq. rewrite (Eq eq_refl) in *.
      destruct (signed_or _ _ _ _ E Hx Hy) as (-> & -> & Rx & Ry). simpl in T.
      rewrite !(wrap_id x), !(wrap_id y), (wrap_id (x * y)) by auto.
      split; [|split; [|split]]; auto.
      apply sd_ub', sd_ovf; [|apply sd_refl].
      unfold nz. destruct (Z.eqb_spec x 0) as [->|Nx]; auto. simpl.
      replace (x * y) with (y * x) at 1 by ring. rewrite Z.quot_mul by auto.
      rewrite Z.eqb_refl. simpl. apply all_neg_false. nia.
  - (* div *)
    destruct (conv (u1 || u2) y =? 0) eqn:Ez; [discriminate|].
    assert (Ey : (wrap64 y =? 0) = false).
    { rewrite <- Ez. apply zero_ok; auto. }
    rewrite Ey in H.
    destruct (u1 || u2) eqn:E; inversion H; subst.
    + apply fit_inv in Hc as (T & Wr & _). split; [|split; [|split]]; auto using sd_refl.
      * rewrite !uw_wrap. simpl in Wr. fold (uwrap64 x) in Wr. fold (uwrap64 y) in Wr.
        rewrite Z.quot_div_nonneg in Wr; auto; [apply uw_range|].
        simpl in Ez. fold (uwrap64 y) in Ez. pose proof (uw_range y). lia.
      * apply sd_div; auto using sd_refl.
    + apply fit_inv in Hc as (T & Wr & Eq). simpl in Eq. rewrite (Eq eq_refl) in *.
      destruct (signed_or _ _ _ _ E Hx Hy) as (-> & -> & Rx & Ry). simpl in T, Ez.
      rewrite !(wrap_id x), !(wrap_id y), (wrap_id (Z.quot x y)) by auto.
      split; [|split; [|split]]; auto.
      apply sd_ub', sd_ovf; [|apply sd_div; auto using sd_refl].
      apply all_neg_false. intros K1 K2 K3.
      pose proof (Z.quot_opp_opp x y). 
      assert (0 <= Z.quot (- x) (- y)) by (apply Z.quot_pos; lia). lia.
  - (* mod *)
    destruct (conv (u1 || u2) y =? 0) eqn:Ez; [discriminate|].
    assert (Ey : (wrap64 y =? 0) = false).
    { rewrite <- Ez. apply zero_ok; auto. }
    rewrite Ey in H.
    destruct (fit (u1 || u2) (Z.quot (conv (u1 || u2) x) (conv (u1 || u2) y))) as [q| |] eqn:Ef;
      simpl in Hc; try discriminate. inversion Hc; subst r; clear Hc.
    destruct (u1 || u2) eqn:E; inversion H; subst.
    + split; [|split; [|split]]; auto using sd_refl.
      * rewrite !uw_wrap. simpl. fold (uwrap64 x). fold (uwrap64 y).
        rewrite Z.rem_mod_nonneg; auto; [apply uw_range|].
        simpl in Ez. fold (uwrap64 y) in Ez. pose proof (uw_range y). lia.
      * simpl. fold (uwrap64 x). fold (uwrap64 y).
        simpl in Ez. fold (uwrap64 y) in Ez. pose proof (uw_range y). pose proof (uw_range x).
        rewrite Z.rem_mod_nonneg by lia.
        pose proof (Z.mod_pos_bound (uwrap64 x) (uwrap64 y)). lia.
      * apply sd_div; auto using sd_refl.
    + destruct (signed_or _ _ _ _ E Hx Hy) as (-> & -> & Rx & Ry). simpl in Ez |- *.
      assert (Rr : - HH <= Z.rem x y < HH).
      { pose proof (Z.rem_bound_abs x y). lia. }
      rewrite !(wrap_id x), !(wrap_id y), (wrap_id (Z.rem x y)) by auto.
      split; [|split; [|split]]; auto.
      apply sd_ub', sd_div; auto using sd_refl.
  - (* add *)
    inversion H; subst. apply fit_inv in Hc as (T & Wr & Eq).
    split; [|split; [exact T|split; [|reflexivity]]].
    + rewrite wrap_add. rewrite <- Wr, <- wrap_add, <- (wrap_add (conv _ x)), !conv_wrap. reflexivity.
    + apply sd_ub', sd_ovf; [|apply sd_refl].
      destruct (u1 || u2) eqn:E; auto. simpl in *. rewrite (Eq eq_refl) in T.
      destruct (signed_or _ _ _ _ E Hx Hy) as (_ & _ & Rx & Ry). simpl in T.
      rewrite !(wrap_id x), !(wrap_id y), (wrap_id (x + y)) by auto.
      rewrite sign_sum; auto.
  - (* sub *)
    inversion H; subst. apply fit_inv in Hc as (T & Wr & Eq).
    split; [|split; [exact T|split; [|reflexivity]]].
    + rewrite wrap_sub. rewrite <- Wr, <- wrap_sub, <- (wrap_sub (conv _ x)), !conv_wrap. reflexivity.
    + apply sd_ub', sd_ovf; [|apply sd_refl].
      destruct (u1 || u2) eqn:E; auto. simpl in *. rewrite (Eq eq_refl) in T.
      destruct (signed_or _ _ _ _ E Hx Hy) as (_ & _ & Rx & Ry). simpl in T.
      rewrite !(wrap_id x), !(wrap_id y), (wrap_id (x - y)) by auto.
      rewrite sign_sum; auto; lia.
  - (* shl *)
    destruct ((0 <=? y) && (y <? 32)) eqn:Ey; [|discriminate].
    assert (Hw : wrap64 y = y) by (apply wrap_id; lia). rewrite Hw in H.
    assert (Hn : (y <? 0) = false) by lia. rewrite Hn in H. simpl in H.
    rewrite (uw_id y) in H by lia. unfold left_shift in H.
    destruct (Z.leb_spec 32 y); [lia|].
    apply fit_inv in Hc as (T & Wr & Eq).
    destruct u1; inversion H; subst; simpl in Hx.
    + split; [|split; [|split]]; auto using sd_refl.
      rewrite uw_wrap, uw_id by auto. exact Wr.
    + rewrite (Eq eq_refl) in *. simpl in T. rewrite !(wrap_id x), (wrap_id (x * 2 ^ y)) by auto.
      split; [|split; [|split]]; auto. apply sd_ub', sd_ovf; [|apply sd_refl].
      rewrite Z.div_mul by (apply Z.pow_nonzero; lia). rewrite Z.sub_diag. reflexivity.
  - (* shr *)
    destruct ((0 <=? y) && (y <? 32)) eqn:Ey; [|discriminate].
    assert (Hw : wrap64 y = y) by (apply wrap_id; lia). rewrite Hw in H.
    assert (Hn : (y <? 0) = false) by lia. rewrite Hn in H. simpl in H.
    rewrite (uw_id y) in H by lia. unfold right_shift in H.
    destruct (Z.leb_spec 32 y); [lia|]. inversion Hc; subst r.
    assert (Hp : 0 < 2 ^ y) by (apply Z.pow_pos_nonneg; lia).
    destruct u1; inversion H; subst; simpl in Hx.
    + split; [|split; [|split]]; auto using sd_refl.
      * rewrite uw_wrap, uw_id by auto. reflexivity.
      * simpl. split; [apply Z.div_pos; lia|]. apply Z.div_lt_upper_bound; nia.
    + rewrite !(wrap_id x) by auto.
      assert (- HH <= x / 2 ^ y < HH).
      { split; [apply Z.div_le_lower_bound; nia|apply Z.div_lt_upper_bound; nia]. }
      rewrite wrap_id by auto. split; [|split; [|split]]; auto using sd_refl.
  - inversion H; subst. apply truth_inv in Hc as [-> T]. rewrite cmp_ok, b2z_wrap by auto. auto using sd_refl.
  - inversion H; subst. apply truth_inv in Hc as [-> T]. rewrite cmp_ok, b2z_wrap by auto.
    split; [|split; [|split]]; auto using sd_refl. rewrite Z.gtb_ltb. reflexivity.
  - inversion H; subst. apply truth_inv in Hc as [-> T]. rewrite cmp_ok, b2z_wrap by auto. auto using sd_refl.
  - inversion H; subst. apply truth_inv in Hc as [-> T]. rewrite cmp_ok, b2z_wrap by auto.
    split; [|split; [|split]]; auto using sd_refl. rewrite Z.geb_leb. reflexivity.
  - inversion H; subst. apply truth_inv in Hc as [-> T]. rewrite (eq_ok u1 u2), b2z_wrap by auto. auto using sd_refl.
  - inversion H; subst. apply truth_inv in Hc as [-> T]. rewrite (eq_ok u1 u2), b2z_wrap by auto. auto using sd_refl.
  - inversion H; subst. apply fit_inv in Hc as (T & Wr & Eq).
    split; [|split; [|split]]; auto using sd_refl.
    rewrite bit_wrap by auto. rewrite <- Wr.
    destruct (u1 || u2); simpl; auto. symmetry.
    etransitivity; [apply (bit_conv Z.land); auto|apply bit_wrap; auto].
  - inversion H; subst. apply fit_inv in Hc as (T & Wr & Eq).
    split; [|split; [|split]]; auto using sd_refl.
    rewrite bit_wrap by auto. rewrite <- Wr.
    destruct (u1 || u2); simpl; auto. symmetry.
    etransitivity; [apply (bit_conv Z.lxor); auto|apply bit_wrap; auto].
  - inversion H; subst. apply fit_inv in Hc as (T & Wr & Eq).
    split; [|split; [|split]]; auto using sd_refl.
    rewrite bit_wrap by auto. rewrite <- Wr.
    destruct (u1 || u2); simpl; auto. symmetry.
    etransitivity; [apply (bit_conv Z.lor); auto|apply bit_wrap; auto].
  - inversion H; subst. inversion Hc; subst. auto using sd_refl.
Qed.

Lemma apply2_div0 : forall o u1 u2 x y d v u d',
  in_type u1 x -> in_type u2 y -> cbin 32 o u1 u2 x y = CDiv0 ->
  apply2 false (bin_tok o) (wrap64 x) u1 (wrap64 y) u2 d = (v, u, d') -> d_div d' = true.
Proof.
  intros o u1 u2 x y d v u d' Hx Hy Hc H.
  assert (K : (o = BDiv \/ o = BMod) /\ conv (u1 || u2) y = 0).
  { unfold cbin, fit, truth, cbind in Hc.
    destruct o; try (repeat match type of Hc with context [if ?c then _ else _] => destruct c eqn:?E end; discriminate);
      destruct (Z.eqb_spec (conv (u1 || u2) y) 0); auto;
      repeat match type of Hc with context [if ?c then _ else _] => destruct c end; discriminate. }
  destruct K as [Ho Ez].
  assert (Ey : (wrap64 y =? 0) = true).
  { rewrite <- (conv_wrap (u1 || u2) y), Ez. reflexivity. }
  destruct Ho as [-> | ->]; simpl in H; rewrite Ey in H;
    destruct (u1 || u2); inversion H; subst; simpl; apply orb_true_r.
Qed.

Lemma apply1_ok : forall o u2 y r d v u d', in_type u2 y ->
  (match o with UPos => CVal y | UNeg => fit u2 (- y) | UNot => truth (y =? 0)
   | UCompl => fit u2 (- y - 1) end) = CVal r ->
  apply1 false (un_tok o) (wrap64 y) u2 d = (v, u, d') ->
  v = wrap64 r /\ in_type u r /\ same_diag d d' /\
  u = match o with UNot => false | _ => u2 end.
Proof.
  intros o u2 y r d v u d' Hy Hc H. destruct o; simpl in H; inversion H; subst.
  - inversion Hc; subst. auto using sd_refl.
  - apply fit_inv in Hc as (T & Wr & Eq).
    rewrite wrap_opp. split; [|split; [|split]]; auto.
    apply sd_ub', sd_ovf; [|apply sd_refl]. destruct u; [apply andb_false_r|].
    simpl in *. rewrite (Eq eq_refl) in T. rewrite !(wrap_id y), (wrap_id (- y)) by lia. lia.
  - apply truth_inv in Hc as [-> T]. rewrite b2z_wrap. split; [|split; [|split]]; auto using sd_refl.
    pose proof (wrap_zero u2 y Hy) as K. unfold nz in K. f_equal. destruct (wrap64 y =? 0), (y =? 0); auto; discriminate.
  - apply fit_inv in Hc as (T & Wr & Eq).
    split; [|split; [|split]]; auto using sd_refl.
    rewrite <- Wr. unfold Z.lnot. rewrite <- (wrap_id (Z.pred (- wrap64 y))).
    + replace (Z.pred (- wrap64 y)) with (- wrap64 y - 1) by lia.
      destruct (wrap_ex y) as (k & ->).
      replace (- (y + k * MM) - 1) with (- y - 1 + (- k) * MM) by ring. apply wrap_k.
    + pose proof (wrap_range y). lia.
Qed.

(** ** The main statement *)

Definition evaluated (e : ex) : Prop :=
  forall d v u d', meval false e d = (v, u, d') ->
  (forall x, ceval 32 e = CVal x ->
     v = wrap64 x /\ u = utype e /\ in_type u x /\ same_diag d d') /\
  (ceval 32 e = CDiv0 -> d_div d' = true).

Lemma meval_ok : forall e, consts_fit e -> branches_ok e -> evaluated e.
Proof.
  induction e as [v0 u0|e IH|o e IH|o a IHa b IHb|c IHc a IHa b IHb];
    intros Hf Hb d v u d' H; simpl in H, Hf, Hb.
  - inversion H; subst. split; [|discriminate]. intros x K. inversion K; subst.
    auto using sd_refl.
  - apply IH; auto.
  - destruct (meval false e d) as [[y u2] d0] eqn:E. apply IH in E as [E1 E2]; auto. simpl.
    destruct (ceval 32 e) as [z| |] eqn:Ce; simpl.
    + destruct (E1 z eq_refl) as (-> & -> & T & S1). split.
      * intros x K. destruct (apply1_ok o (utype e) z x d0 v u d' T K H) as (A & B & C & D).
        split; auto. split; [|split; [auto|eapply sd_trans; eauto]].
        rewrite D. destruct o; reflexivity.
      * intros K. exfalso. unfold fit, truth in K.
        destruct o; try discriminate; destruct (utype e); try discriminate;
          destruct (_ && _); discriminate.
    + split; [discriminate|]. intros _. eapply apply1_mono; eauto.
    + split; discriminate.
  - destruct Hf as [Hfa Hfb]. destruct Hb as [Hba Hbb].
    destruct (meval false a d) as [[x0 u1] d0] eqn:Ea. apply IHa in Ea as [A1 A2]; auto. simpl.
    destruct (meval (lazy_skip o x0) b d0) as [[y0 u2] d1] eqn:Eb.
    destruct (ceval 32 a) as [x| |] eqn:Ca; simpl.
    2:{ split; [discriminate|]. intros _. eapply apply2_mono; eauto. eapply meval_mono; eauto. }
    2:{ split; discriminate. }
    destruct (A1 x eq_refl) as (-> & -> & Tx & Sx). clear A1 A2.
    pose proof (wrap_zero _ _ Tx) as Hz.
    assert (Hand : forall r, (o = BLAnd \/ o = BLOr) -> lazy_skip o (wrap64 x) = true ->
              CVal (match o with BLAnd => 0 | _ => 1 end) = CVal r ->
              v = wrap64 r /\ u = false /\ in_type u r /\ same_diag d d').
    { intros r Ho Hl Hr. rewrite Hl in *. simpl in Eb. apply meval_skip in Eb as [Sb _].
      destruct Ho as [-> | ->]; simpl in H, Hl; inversion H; subst; inversion Hr; subst.
      - destruct (nz (wrap64 x)); [discriminate|]. simpl. repeat split; try lia; eauto using sd_trans.
        all: eapply sd_trans; eauto.
      - rewrite Hl. simpl. repeat split; try lia; eauto using sd_trans.
        all: eapply sd_trans; eauto. }
    assert (Hnl : forall r, lazy_skip o (wrap64 x) = false ->
       cbind (ceval 32 b) (fun y => match o with
          | BLAnd | BLOr => truth (negb (y =? 0))
          | _ => cbin 32 o (utype a) (utype b) x y end) = r ->
       (forall z, r = CVal z ->
          v = wrap64 z /\ u = utype (EBin o a b) /\ in_type u z /\ same_diag d d') /\
       (r = CDiv0 -> d_div d' = true)).
    { intros r Hl Hr. rewrite Hl in *. simpl in Eb. apply IHb in Eb as [B1 B2]; auto.
      destruct (ceval 32 b) as [y| |] eqn:Cb; simpl in Hr; subst r.
      2:{ split; [discriminate|]. intros _. eapply apply2_mono; eauto. }
      2:{ split; discriminate. }
      destruct (B1 y eq_refl) as (-> & -> & Ty & Sy). clear B1 B2.
      assert (Hlaz : (o = BLAnd \/ o = BLOr) ->
        (forall z, truth (negb (y =? 0)) = CVal z ->
          v = wrap64 z /\ u = utype (EBin o a b) /\ in_type u z /\ same_diag d d') /\
        (truth (negb (y =? 0)) = CDiv0 -> d_div d' = true)).
      { intros Ho. split; [|discriminate]. intros z Hz'. apply truth_inv in Hz' as [-> T].
        pose proof (wrap_zero _ _ Ty) as Hy.
        destruct Ho as [-> | ->]; simpl in H, Hl; inversion H; subst; rewrite b2z_wrap, Hy in *.
        - destruct (nz (wrap64 x)); [|discriminate]. simpl. split; [auto|]. split; [auto|].
          split; [auto|]. eapply sd_trans; eauto.
        - rewrite Hl. simpl. split; [auto|]. split; [auto|].
          split; [auto|]. eapply sd_trans; eauto. }
      destruct o; try (apply Hlaz; auto; fail);
        (split; [intros z Hz';
           match type of H with apply2 _ ?k _ _ _ _ _ = _ => idtac end;
           edestruct apply2_ok as (P1 & P2 & P3 & P4); [..|exact Hz'|exact H|]; try discriminate; auto;
           split; [auto|]; split; [exact P4|]; split; [auto|]; eauto using sd_trans
         |intros Hd; eapply apply2_div0; [..|exact Hd|exact H]; auto]). }
    destruct o; try (apply (Hnl _ eq_refl eq_refl)); simpl in Hand, Hnl.
    + (* && *)
      destruct (Z.eqb_spec x 0) as [->|N].
      * split; [|discriminate]. intros z Hz'. simpl. apply Hand; auto.
      * apply Hnl; auto. rewrite Hz. destruct (Z.eqb_spec x 0); [contradiction|reflexivity].
    + destruct (Z.eqb_spec x 0) as [->|N].
      * apply Hnl; auto.
      * split; [|discriminate]. intros z Hz'. simpl. apply Hand; auto.
  - destruct Hf as (Hfc & Hfa & Hfb). destruct Hb as (Hbc & Hba & Hbb & Sa & Sb).
    destruct (meval false c d) as [[x0 u0] d0] eqn:Ec. apply IHc in Ec as [C1 C2]; auto.
    destruct (meval _ a d0) as [[y0 u1] d1] eqn:Ea.
    destruct (meval _ b d1) as [[z0 u2] d2] eqn:Eb. inversion H; subst v u d2. clear H. simpl.
    destruct (ceval 32 c) as [x| |] eqn:Cc; simpl.
    2:{ split; [discriminate|]. intros _. eapply meval_mono; eauto. eapply meval_mono; eauto. }
    2:{ split; discriminate. }
    destruct (C1 x eq_refl) as (-> & -> & Tx & Sx). clear C1 C2.
    rewrite (wrap_zero _ _ Tx) in *. simpl in *.
    destruct (Z.eqb_spec x 0) as [->|N]; simpl in *.
    + apply meval_skip in Ea as [Da Ua]. rewrite (Ua Sa). apply IHb in Eb as [B1 B2]; auto.
      destruct (ceval 32 b) as [z| |]; simpl; [| |split; discriminate].
      * destruct (B1 z eq_refl) as (-> & -> & Tz & Sz). split; [|discriminate].
        intros r K. inversion K; subst. rewrite conv_wrap.
        split; [auto|]. split; [auto|]. split; [|eauto using sd_trans].
        apply conv_in. intros K'. eapply or_false_r; eauto.
      * split; [discriminate|]. auto.
    + apply meval_skip in Eb as [Db Ub]. rewrite (Ub Sb). apply IHa in Ea as [A1 A2]; auto.
      destruct (ceval 32 a) as [z| |]; simpl; [| |split; discriminate].
      * destruct (A1 z eq_refl) as (-> & -> & Tz & Sz). split; [|discriminate].
        intros r K. inversion K; subst. rewrite conv_wrap.
        split; [auto|]. split; [auto|]. split; [|eauto using sd_trans].
        apply conv_in. intros K'. eapply or_false; eauto.
      * split; [discriminate|]. intros K. destruct Db as [Db _]. rewrite Db. auto.
Qed.

(** ** Undefined behaviour *)

Lemma fit_long : forall z x, fit false z = CVal x -> in_long z = true.
Proof.
  intros z x H. unfold fit in H. apply in_long_range.
  destruct (_ && _) eqn:E in H; [lia|discriminate].
Qed.

Lemma apply2_noub : forall o u1 u2 x y r d v u d', o <> BLAnd -> o <> BLOr ->
  in_type u1 x -> in_type u2 y -> cbin 32 o u1 u2 x y = CVal r ->
  apply2 false (bin_tok o) (wrap64 x) u1 (wrap64 y) u2 d = (v, u, d') ->
  d_ub d' = d_ub d.
Proof.
  intros o u1 u2 x y r d v u d' N1 N2 Hx Hy Hc H.
  unfold cbin in Hc.
  destruct o; try contradiction; simpl in H; try (inversion H; subst; reflexivity; fail).
  - destruct (u1 || u2) eqn:E; inversion H; subst; auto.
    destruct (signed_or _ _ _ _ E Hx Hy) as (-> & -> & Rx & Ry). simpl in *.
    rewrite (wrap_id x), (wrap_id y) by auto. rewrite (fit_long _ _ Hc). apply orb_false_r.
  - destruct (conv (u1 || u2) y =? 0) eqn:Ez; [discriminate|].
    assert (Ey : (wrap64 y =? 0) = false) by (rewrite <- Ez; apply zero_ok; auto).
    rewrite Ey in H.
    destruct (u1 || u2) eqn:E; inversion H; subst; auto.
    destruct (signed_or _ _ _ _ E Hx Hy) as (-> & -> & Rx & Ry). simpl in *.
    rewrite (wrap_id x), (wrap_id y) by auto. rewrite (fit_long _ _ Hc). apply orb_false_r.
  - destruct (conv (u1 || u2) y =? 0) eqn:Ez; [discriminate|].
    assert (Ey : (wrap64 y =? 0) = false) by (rewrite <- Ez; apply zero_ok; auto).
    rewrite Ey in H.
    destruct (u1 || u2) eqn:E; inversion H; subst; auto.
    destruct (signed_or _ _ _ _ E Hx Hy) as (-> & -> & Rx & Ry). simpl in *.
    rewrite (wrap_id x), (wrap_id y) by auto.
    match type of Hc with cbind ?f _ = _ => destruct f eqn:Ef; try discriminate end.
    pose proof (fit_long _ _ Ef) as G. simpl in G. rewrite G. apply orb_false_r.
  - inversion H; subst. simpl. destruct (u1 || u2) eqn:E; [apply orb_false_r|].
    destruct (signed_or _ _ _ _ E Hx Hy) as (-> & -> & Rx & Ry). simpl in *.
    rewrite (wrap_id x), (wrap_id y) by auto. rewrite (fit_long _ _ Hc). apply orb_false_r.
  - inversion H; subst. simpl. destruct (u1 || u2) eqn:E; [apply orb_false_r|].
    destruct (signed_or _ _ _ _ E Hx Hy) as (-> & -> & Rx & Ry). simpl in *.
    rewrite (wrap_id x), (wrap_id y) by auto. rewrite (fit_long _ _ Hc). apply orb_false_r.
  - destruct ((0 <=? y) && (y <? 32)) eqn:Ey; [|discriminate].
    assert (Hw : wrap64 y = y) by (apply wrap_id; lia). rewrite Hw in H.
    assert (Hn : (y <? 0) = false) by lia. rewrite Hn in H. simpl in H.
    rewrite (uw_id y) in H by lia. unfold left_shift in H.
    destruct (Z.leb_spec 32 y); [lia|].
    destruct u1; inversion H; subst; auto. simpl in *. rewrite (wrap_id x) by auto.
    rewrite (fit_long _ _ Hc). apply orb_false_r.
  - destruct ((0 <=? y) && (y <? 32)) eqn:Ey; [|discriminate].
    assert (Hw : wrap64 y = y) by (apply wrap_id; lia). rewrite Hw in H.
    assert (Hn : (y <? 0) = false) by lia. rewrite Hn in H. simpl in H.
    rewrite (uw_id y) in H by lia. unfold right_shift in H.
    destruct (Z.leb_spec 32 y); [lia|].
    destruct u1; inversion H; subst; auto.
Qed.

Lemma meval_noub : forall e d v u d' x, eager e -> consts_fit e -> branches_ok e ->
  ceval 32 e = CVal x -> meval false e d = (v, u, d') -> d_ub d' = d_ub d.
Proof.
  induction e as [v0 u0|e IH|o e IH|o a IHa b IHb|c IHc a IHa b IHb];
    intros d v u d' r He Hf Hb Hc H; simpl in H, Hf, Hb, Hc, He; [| | | |contradiction].
  - inversion H; subst; auto.
  - eauto.
  - destruct (meval false e d) as [[y u2] d0] eqn:E.
    destruct (ceval 32 e) as [z| |] eqn:Ce; try discriminate. simpl in Hc.
    destruct (proj1 (meval_ok e Hf Hb _ _ _ _ E) z Ce) as (-> & -> & T & _).
    rewrite <- (IH _ _ _ _ _ He Hf Hb eq_refl E).
    destruct o; simpl in H; inversion H; subst; auto. simpl.
    destruct (utype e); simpl; [apply orb_false_r|]. simpl in T.
    rewrite (wrap_id z) by auto. rewrite (fit_long _ _ Hc). apply orb_false_r.
  - destruct Hf as [Hfa Hfb]. destruct Hb as [Hba Hbb]. destruct He as (Ha & He & N1 & N2).
    destruct (meval false a d) as [[x0 u1] d0] eqn:Ea.
    destruct (ceval 32 a) as [x| |] eqn:Ca; try discriminate. simpl in Hc.
    destruct (proj1 (meval_ok a Hfa Hba _ _ _ _ Ea) x Ca) as (-> & -> & Tx & _).
    assert (L : lazy_skip o (wrap64 x) = false) by (destruct o; auto; contradiction).
    rewrite L in H. simpl in H.
    destruct (meval false b d0) as [[y0 u2] d1] eqn:Eb.
    assert (Hc' : cbind (ceval 32 b) (fun y => cbin 32 o (utype a) (utype b) x y) = CVal r)
      by (destruct o; auto; contradiction).
    destruct (ceval 32 b) as [y| |] eqn:Cb; try discriminate. simpl in Hc'.
    destruct (proj1 (meval_ok b Hfb Hbb _ _ _ _ Eb) y Cb) as (-> & -> & Ty & _).
    rewrite <- (IHa _ _ _ _ _ Ha Hfa Hba eq_refl Ea), <- (IHb _ _ _ _ _ He Hfb Hbb eq_refl Eb).
    eapply apply2_noub; [exact N1|exact N2|exact Tx|exact Ty|exact Hc'|exact H].
Qed.

(** ** From expressions to the result of the directive *)

Lemma if_value : forall e x, c_tree e -> supported e -> consts_fit e -> branches_ok e ->
  ceval 64 e = CVal x -> ceval 32 e = ceval 64 e ->
  exists v d, parseExpression (print e) = RVal v d /\ v = wrap64 x /\ (v = 0 <-> x = 0) /\
    d_div d = false /\ d_ovf d = false /\ (eager e -> d_ub d = false).
Proof.
  intros e x Hc Hs Hf Hb H64 H32. rewrite H64 in H32.
  destruct (meval false e (Diag false false false)) as [[v u] d] eqn:E.
  exists v, d. split; [eapply parse_print; eauto|].
  destruct (proj1 (meval_ok e Hf Hb _ _ _ _ E) x H32) as (-> & -> & T & (D1 & D2)).
  split; [auto|]. split.
  - pose proof (wrap_zero _ _ T) as Z0. unfold nz in Z0. split; intros K.
    + rewrite K in Z0. destruct (Z.eqb_spec x 0); auto. discriminate.
    + subst. reflexivity.
  - split; [exact D1|]. split; [exact D2|]. intros He.
    exact (meval_noub e _ _ _ _ x He Hf Hb H32 E).
Qed.

Lemma if_div0 : forall e, c_tree e -> supported e -> consts_fit e -> branches_ok e ->
  ceval 32 e = CDiv0 ->
  exists v d, parseExpression (print e) = RVal v d /\ d_div d = true.
Proof.
  intros e Hc Hs Hf Hb H.
  destruct (meval false e (Diag false false false)) as [[v u] d] eqn:E.
  exists v, d. split; [eapply parse_print; eauto|].
  exact (proj2 (meval_ok e Hf Hb _ _ _ _ E) H).
Qed.
