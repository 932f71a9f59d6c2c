(** Proofs about integer and character constants. *)
From Coq Require Import ZifyBool.
From Verif Require Import Cbase Lits_model Lits_spec.
Open Scope Z_scope.

Lemma code_range : forall c, 0 <= code c < 256.
Proof. intros [[] [] [] [] [] [] [] []]; vm_compute; split; congruence. Qed.

Lemma eqb_code : forall a b, Ascii.eqb a b = (code a =? code b).
Proof.
  intros a b. destruct (Ascii.eqb_spec a b) as [-> | N].
  - now rewrite Z.eqb_refl.
  - symmetry. apply Z.eqb_neq. intro E. apply N. unfold code in E. apply N2Z.inj in E.
    rewrite <- (ascii_N_embedding a), <- (ascii_N_embedding b). now rewrite E.
Qed.

(** Digits are read with their values. *)
Definition reads (dv : ascii -> option Z) (base : Z) : Prop :=
  forall c d, digit c d -> d < base -> dv c = Some d.

Ltac codes :=
  unfold hexValue, octValue, binValue, decValue, HDigit, ODigit, BDigit, Digit, isU, isL in *; unfold between in *;
  change (code "0") with 48 in *; change (code "1") with 49 in *; change (code "7") with 55 in *;
  change (code "9") with 57 in *; change (code "a") with 97 in *; change (code "f") with 102 in *;
  change (code "A") with 65 in *; change (code "F") with 70 in *.

Ltac case_le :=
  repeat match goal with
  | |- context [(?a <=? ?b)] => destruct (Z.leb_spec a b); cbn [andb orb]; try lia
  end.

Lemma reads_hex : reads hexValue 16.
Proof. intros c d D L. codes. inversion D; subst; case_le; f_equal; lia. Qed.
Lemma reads_oct : reads octValue 8.
Proof. intros c d D L. codes. inversion D; subst; case_le; f_equal; lia. Qed.
Lemma reads_bin : reads binValue 2.
Proof. intros c d D L. codes. inversion D; subst; case_le; f_equal; lia. Qed.
Lemma reads_dec : reads decValue 10.
Proof. intros c d D L. codes. inversion D; subst; case_le; f_equal; lia. Qed.

Lemma digit_nonneg : forall c d, digit c d -> 0 <= d.
Proof. intros c d D. inversion D; lia. Qed.

Lemma numeral_nonneg : forall base s v, 1 < base -> numeral base s v -> 0 <= v.
Proof.
  intros base s v B N. induction N as [c d D L | c d s v D L N IH].
  - now apply digit_nonneg in D.
  - apply digit_nonneg in D.
    pose proof (Z.pow_nonneg base (Z.of_nat (List.length s)) ltac:(lia)). nia.
Qed.

Lemma loop_numeral : forall dv base tl, reads dv base -> 1 < base ->
  forall s v, numeral base s v -> forall acc, 0 <= acc ->
  loop dv base acc (s ++ tl) =
  if acc * base ^ Z.of_nat (List.length s) + v <=? LONG_MAX
  then loop dv base (acc * base ^ Z.of_nat (List.length s) + v) tl
  else (Undefined, []).
Proof.
  intros dv base tl R B s v N. induction N as [c d D L | c d s v D L N IH]; intros acc A.
  - cbn [app loop List.length]. rewrite (R _ _ D L). cbv zeta.
    change (Z.of_nat 1) with 1. rewrite Z.pow_1_r.
    pose proof (digit_nonneg _ _ D) as P.
    replace (in_long (acc * base + d)) with (acc * base + d <=? LONG_MAX).
    + reflexivity.
    + unfold in_long, LONG_MIN. assert (0 <= acc * base + d) by nia.
      destruct (Z.leb_spec (-9223372036854775808) (acc * base + d)); [reflexivity | lia].
  - cbn [app loop]. rewrite (R _ _ D L). cbv zeta.
    pose proof (digit_nonneg _ _ D) as P. pose proof (numeral_nonneg _ _ _ B N) as PV.
    assert (Q : 1 <= base ^ Z.of_nat (List.length s)).
    { pose proof (Z.pow_pos_nonneg base (Z.of_nat (List.length s)) ltac:(lia) ltac:(lia)). lia. }
    assert (E : acc * base ^ Z.of_nat (List.length (c :: s)) + (d * base ^ Z.of_nat (List.length s) + v)
              = (acc * base + d) * base ^ Z.of_nat (List.length s) + v).
    { cbn [List.length]. rewrite Nat2Z.inj_succ, Z.pow_succ_r by lia. ring. }
    rewrite E. assert (P2 : 0 <= acc * base + d) by nia.
    rewrite <- IH by exact P2.
    destruct (in_long (acc * base + d)) eqn:I; [reflexivity |].
    rewrite IH by exact P2.
    unfold in_long, LONG_MIN in I.
    assert (G : LONG_MAX < acc * base + d).
    { destruct (Z.leb_spec (-9223372036854775808) (acc * base + d)); [| lia].
      cbn [andb] in I. apply Z.leb_gt in I. exact I. }
    clear - G Q PV P2.
    destruct (Z.leb_spec ((acc * base + d) * base ^ Z.of_nat (List.length s) + v) LONG_MAX) as [Le | _]; [| reflexivity].
    exfalso. nia.
Qed.

Lemma atol_loop : forall s acc, atol acc s = fst (loop decValue 10 acc s).
Proof.
  induction s as [| c r IH]; intro acc; cbn [atol loop]; [reflexivity |].
  destruct (decValue c); cbv zeta; [destruct (in_long _); [apply IH | reflexivity] | reflexivity].
Qed.

(** * Suffixes *)
Definition sfx_type (uns : bool) (ls : longs) : ity :=
  match uns, ls with
  | false, NoL => TInt | true, NoL => TUint | false, OneL => TLint
  | true, OneL => TUlint | false, TwoL => TLlint | true, TwoL => TUllint
  end.

Definition stops (rest : cstr) : bool :=
  match rest with [] => true | c :: _ => negb (isU c) && negb (isL c) end.

Lemma stops_cons : forall c r, stops (c :: r) = true -> isU c = false /\ isL c = false.
Proof. intros c r H. cbn [stops] in H. now destruct (isU c), (isL c). Qed.

Lemma suffix_ok : forall sf uns ls rest, In (sf, (uns, ls)) suffixes -> stops rest = true ->
  suffix (sf ++ rest) = (List.length sf, sfx_type uns ls).
Proof.
  intros sf uns ls rest H S. cbn [suffixes In] in H.
  destruct rest as [| a [| b [| c r]]];
    try (apply stops_cons in S; destruct S as [SU SL]);
    repeat (destruct H as [H | H]; [injection H as <- <- <-;
      cbn [lit list_ascii_of_string app suffix List.length sfx_type];
      rewrite ?SU, ?SL;
      repeat (match goal with |- context [isU ?x] => first [change (isU x) with true | change (isU x) with false]
              | |- context [isL ?x] => first [change (isL x) with true | change (isL x) with false] end);
      rewrite ?SU, ?SL;
      cbn [andb orb]; rewrite ?andb_false_r, ?andb_false_l, ?orb_false_r; reflexivity |]);
    destruct H.
Qed.

Lemma suffix_tail : forall dv base acc sf x, (forall c, suffix_char c = true -> dv c = None) ->
  In (sf, x) suffixes -> loop dv base acc sf = (Val acc, []).
Proof.
  intros dv base acc sf x N H. cbn [suffixes In] in H.
  repeat (destruct H as [H | H]; [injection H as <- _;
    first [reflexivity
          | cbn [lit list_ascii_of_string loop]; rewrite N by reflexivity; reflexivity] |]).
  destruct H.
Qed.

Lemma none_hex : forall c, suffix_char c = true -> hexValue c = None.
Proof. intros [[] [] [] [] [] [] [] []] H; vm_compute in H |- *; congruence. Qed.
Lemma none_oct : forall c, suffix_char c = true -> octValue c = None.
Proof. intros [[] [] [] [] [] [] [] []] H; vm_compute in H |- *; congruence. Qed.
Lemma none_bin : forall c, suffix_char c = true -> binValue c = None.
Proof. intros [[] [] [] [] [] [] [] []] H; vm_compute in H |- *; congruence. Qed.
Lemma none_dec : forall c, suffix_char c = true -> decValue c = None.
Proof. intros [[] [] [] [] [] [] [] []] H; vm_compute in H |- *; congruence. Qed.

(** What follows the digits: a suffix character, nothing, or something outside words. *)
Definition afterc (c : ascii) : Prop := suffix_char c = true \/ ~ word_char c.
Definition after (s : cstr) : Prop := match s with [] => True | c :: _ => afterc c end.

Lemma after_suffix : forall sf x rest, In (sf, x) suffixes -> ends rest -> after (sf ++ rest).
Proof.
  intros sf x rest H E. cbn [suffixes In] in H.
  repeat (destruct H as [H | H]; [injection H as <- _;
    first [left; reflexivity | destruct rest; [exact I | right; exact E]] |]).
  destruct H.
Qed.

Lemma ends_stops : forall rest, ends rest -> stops rest = true.
Proof.
  intros [| c r] E; [reflexivity |]. cbn [ends] in E. cbn [stops].
  unfold isU, isL. rewrite !eqb_code.
  change (code "u") with 117; change (code "U") with 85; change (code "l") with 108; change (code "L") with 76.
  unfold word_char in E.
  destruct (Z.eqb_spec (code c) 117), (Z.eqb_spec (code c) 85), (Z.eqb_spec (code c) 108), (Z.eqb_spec (code c) 76);
    try reflexivity; exfalso; apply E; lia.
Qed.

Lemma afterc_hex : forall c, afterc c -> HDigit c = false.
Proof.
  intros c [H | H].
  - clear -H. destruct c as [[] [] [] [] [] [] [] []]; vm_compute in H |- *; congruence.
  - destruct (HDigit c) eqn:X; [exfalso; apply H | reflexivity]. unfold word_char. codes. clear H.
    rewrite !orb_true_iff, !andb_true_iff, !Z.leb_le in X. lia.
Qed.
Lemma hex_oct : forall c, HDigit c = false -> ODigit c = false.
Proof. intros [[] [] [] [] [] [] [] []] H; vm_compute in H |- *; congruence. Qed.
Lemma hex_dec : forall c, HDigit c = false -> Digit c = false.
Proof. intros [[] [] [] [] [] [] [] []] H; vm_compute in H |- *; congruence. Qed.
Lemma hex_bin : forall c, HDigit c = false -> BDigit c = false.
Proof. intros [[] [] [] [] [] [] [] []] H; vm_compute in H |- *; congruence. Qed.
Lemma afterc_not : forall c, afterc c ->
  Ascii.eqb c "x" = false /\ Ascii.eqb c "X" = false /\ Ascii.eqb c "b" = false /\ Ascii.eqb c "B" = false.
Proof.
  intros c [H | H].
  - destruct c as [[] [] [] [] [] [] [] []]; vm_compute in H |- *; repeat split; congruence.
  - rewrite !eqb_code. unfold word_char in H.
    change (code "x") with 120; change (code "X") with 88; change (code "b") with 98; change (code "B") with 66.
    repeat split; apply Z.eqb_neq; intro E; apply H; lia.
Qed.

(** Runs of digits. *)
Definition takes (p : ascii -> bool) (base : Z) : Prop := forall c d, digit c d -> d < base -> p c = true.
Lemma takes_hex : takes HDigit 16.
Proof. intros c d D L. codes. inversion D; subst; case_le; reflexivity. Qed.
Lemma takes_oct : takes ODigit 8.
Proof. intros c d D L. codes. inversion D; subst; case_le; reflexivity. Qed.
Lemma takes_bin : takes BDigit 2.
Proof. intros c d D L. codes. inversion D; subst; case_le; reflexivity. Qed.
Lemma takes_dec : takes Digit 10.
Proof. intros c d D L. codes. inversion D; subst; case_le; reflexivity. Qed.
Lemma takes_dec8 : takes Digit 8.
Proof. intros c d D L. apply (takes_dec c d D). lia. Qed.

Lemma run_numeral : forall p base, takes p base -> forall s v, numeral base s v ->
  forall tl, match tl with [] => True | c :: _ => p c = false end -> run p (s ++ tl) = List.length s.
Proof.
  intros p base T s v N. induction N as [c d D L | c d s v D L N IH]; intros tl H.
  - cbn [app run List.length]. rewrite (T _ _ D L). destruct tl as [| e r]; [reflexivity |].
    cbn [run]. now rewrite H.
  - cbn [app run List.length]. rewrite (T _ _ D L). f_equal. now apply IH.
Qed.

Lemma numeral_cons : forall base s v, numeral base s v -> exists c r d, s = c :: r /\ digit c d /\ d < base.
Proof. intros base s v N. destruct N; eauto 10. Qed.

Lemma skipn_all_app : forall (a b : cstr), skipn (List.length a) (a ++ b) = b.
Proof. induction a; intro b; cbn; auto. Qed.
Lemma firstn_all_app : forall (a b : cstr), firstn (List.length a) (a ++ b) = a.
Proof. induction a; intro b; cbn; [reflexivity | now f_equal]. Qed.

Lemma digits_then_ok : forall p base k, takes p base -> forall s v, numeral base s v ->
  forall sf uns ls rest, In (sf, (uns, ls)) suffixes -> ends rest ->
  (forall c, HDigit c = false -> p c = false) ->
  digits_then p k (s ++ sf ++ rest) = Some ((k + List.length s + List.length sf)%nat, sfx_type uns ls).
Proof.
  intros p base k T s v N sf uns ls rest IS E F. unfold digits_then.
  rewrite (run_numeral p base T s v N).
  - destruct (numeral_cons _ _ _ N) as (c & r & d & -> & _ & _).
    change (List.length (c :: r)) with (S (List.length r)). cbv iota.
    change (S (List.length r)) with (List.length (c :: r)).
    rewrite skipn_all_app, (suffix_ok _ _ _ _ IS (ends_stops _ E)). reflexivity.
  - pose proof (after_suffix _ _ _ IS E) as A. destruct (sf ++ rest) as [| c r]; [exact I |].
    apply F, afterc_hex, A.
Qed.

Lemma digit_not_x : forall c d, digit c d -> d < 10 ->
  Ascii.eqb c "x" = false /\ Ascii.eqb c "X" = false /\ Ascii.eqb c "b" = false /\ Ascii.eqb c "B" = false.
Proof.
  intros c d D L. rewrite !eqb_code.
  change (code "x") with 120; change (code "X") with 88; change (code "b") with 98; change (code "B") with 66.
  inversion D; subst; repeat split; apply Z.eqb_neq; lia.
Qed.

(** The rule chosen, by notation. *)
Lemma choose_dec : forall c s v sf uns ls rest, 49 <= code c <= 57 -> numeral 10 (c :: s) v ->
  In (sf, (uns, ls)) suffixes -> ends rest ->
  choose ((c :: s) ++ sf ++ rest) = Some (FDec, ((List.length (c :: s) + List.length sf)%nat, sfx_type uns ls)).
Proof.
  intros c s v sf uns ls rest C N IS E.
  assert (Z0 : Ascii.eqb c "0" = false) by (rewrite eqb_code; change (code "0") with 48; apply Z.eqb_neq; lia).
  pose proof (digits_then_ok Digit 10 0 takes_dec _ _ N _ _ _ _ IS E hex_dec) as D.
  unfold choose, tag.
  assert (M1 : match_family FHex ((c :: s) ++ sf ++ rest) = None).
  { cbn [app]. unfold match_family. destruct (s ++ sf ++ rest); [reflexivity |]. now rewrite Z0. }
  assert (M2 : match_family FOctal ((c :: s) ++ sf ++ rest) = None).
  { cbn [app]. unfold match_family. now rewrite Z0. }
  assert (M3 : match_family FBinary ((c :: s) ++ sf ++ rest) = None).
  { cbn [app]. unfold match_family. destruct (s ++ sf ++ rest); [reflexivity |]. now rewrite Z0. }
  assert (M4 : match_family FDec ((c :: s) ++ sf ++ rest) =
               Some ((List.length (c :: s) + List.length sf)%nat, sfx_type uns ls)).
  { exact D. }
  rewrite M1, M2, M3, M4. reflexivity.
Qed.

Lemma choose_zero : forall sf uns ls rest, In (sf, (uns, ls)) suffixes -> ends rest ->
  choose ("0"%char :: sf ++ rest) = Some (FDec, (S (List.length sf), sfx_type uns ls)).
Proof.
  intros sf uns ls rest IS E.
  assert (N0 : numeral 10 ["0"%char] 0).
  { apply n_one; [| lia]. apply (d_dec "0"%char). split; vm_compute; congruence. }
  pose proof (digits_then_ok Digit 10 0 takes_dec _ _ N0 _ _ _ _ IS E hex_dec) as D.
  pose proof (after_suffix _ _ _ IS E) as A.
  unfold choose, tag.
  assert (M1 : match_family FHex ("0"%char :: sf ++ rest) = None).
  { unfold match_family. destruct (sf ++ rest) as [| x r]; [reflexivity |].
    destruct (afterc_not _ A) as (-> & -> & _). reflexivity. }
  assert (M2 : match_family FOctal ("0"%char :: sf ++ rest) = None).
  { unfold match_family, digits_then. cbn [Ascii.eqb]. destruct (sf ++ rest) as [| x r]; [reflexivity |].
    cbn [run]. rewrite (hex_oct _ (afterc_hex _ A)). reflexivity. }
  assert (M3 : match_family FBinary ("0"%char :: sf ++ rest) = None).
  { unfold match_family. destruct (sf ++ rest) as [| x r]; [reflexivity |].
    destruct (afterc_not _ A) as (_ & _ & -> & ->). reflexivity. }
  assert (M4 : match_family FDec ("0"%char :: sf ++ rest) = Some (S (List.length sf), sfx_type uns ls)).
  { exact D. }
  rewrite M1, M2, M3, M4. reflexivity.
Qed.

Lemma numeral_8_10 : forall s v, numeral 8 s v -> exists w, numeral 10 ("0"%char :: s) w.
Proof.
  intros s v N.
  assert (X : exists w, numeral 10 s w).
  { induction N as [c d D L | c d s v D L N [w IH]]; eexists; [apply n_one | apply n_more]; eauto; lia. }
  destruct X as [w X]. eexists. apply n_more; [| | exact X].
  - apply (d_dec "0"%char). split; vm_compute; congruence.
  - change (code "0") with 48. lia.
Qed.

Lemma choose_oct : forall s v sf uns ls rest, numeral 8 s v ->
  In (sf, (uns, ls)) suffixes -> ends rest ->
  choose (("0"%char :: s) ++ sf ++ rest) = Some (FOctal, ((S (List.length s) + List.length sf)%nat, sfx_type uns ls)).
Proof.
  intros s v sf uns ls rest N IS E.
  pose proof (digits_then_ok ODigit 8 1 takes_oct _ _ N _ _ _ _ IS E hex_oct) as D1.
  destruct (numeral_8_10 _ _ N) as [w N10].
  pose proof (digits_then_ok Digit 10 0 takes_dec _ _ N10 _ _ _ _ IS E hex_dec) as D2.
  destruct (numeral_cons _ _ _ N) as (c & r & d & -> & Dg & L).
  destruct (digit_not_x _ _ Dg ltac:(lia)) as (X1 & X2 & X3 & X4).
  unfold choose, tag.
  assert (M1 : match_family FHex (("0"%char :: c :: r) ++ sf ++ rest) = None).
  { unfold match_family. cbn [app]. rewrite X1, X2. reflexivity. }
  assert (M2 : match_family FOctal (("0"%char :: c :: r) ++ sf ++ rest) =
               Some ((S (List.length (c :: r)) + List.length sf)%nat, sfx_type uns ls)).
  { exact D1. }
  assert (M3 : match_family FBinary (("0"%char :: c :: r) ++ sf ++ rest) = None).
  { unfold match_family. cbn [app]. rewrite X3, X4. reflexivity. }
  assert (M4 : match_family FDec (("0"%char :: c :: r) ++ sf ++ rest) =
               Some ((S (List.length (c :: r)) + List.length sf)%nat, sfx_type uns ls)).
  { exact D2. }
  rewrite M1, M2, M3, M4. unfold better. rewrite Nat.ltb_irrefl. reflexivity.
Qed.

(** Nothing is a suffix at a letter that is not u or l. *)
Lemma suffix_none : forall x r, isU x = false -> isL x = false -> suffix (x :: r) = (0%nat, TInt).
Proof.
  intros x r U L. destruct r as [| a [| b r]]; cbn [suffix]; rewrite ?U, ?L; reflexivity.
Qed.

Lemma choose_prefixed : forall fam p base x s v sf uns ls rest,
  (fam = FHex /\ p = HDigit /\ base = 16 /\ (x = "x"%char \/ x = "X"%char) \/
   fam = FBinary /\ p = BDigit /\ base = 2 /\ (x = "b"%char \/ x = "B"%char)) ->
  numeral base s v -> In (sf, (uns, ls)) suffixes -> ends rest ->
  choose (("0"%char :: x :: s) ++ sf ++ rest) =
  Some (fam, ((S (S (List.length s)) + List.length sf)%nat, sfx_type uns ls)).
Proof.
  intros fam p base x s v sf uns ls rest H N IS E.
  assert (M2 : match_family FOctal (("0"%char :: x :: s) ++ sf ++ rest) = None).
  { unfold match_family, digits_then. cbn [app].
    destruct H as [(_ & _ & _ & [-> | ->]) | (_ & _ & _ & [-> | ->])]; reflexivity. }
  assert (M4 : match_family FDec (("0"%char :: x :: s) ++ sf ++ rest) = Some (1%nat, TInt)).
  { unfold match_family, digits_then. cbn [app].
    destruct H as [(_ & _ & _ & [-> | ->]) | (_ & _ & _ & [-> | ->])];
      cbn [run]; change (Digit "0") with true; cbv iota;
      match goal with |- context [Digit ?c] => change (Digit c) with false end; cbv iota;
      cbn [skipn]; rewrite suffix_none by reflexivity; reflexivity. }
  unfold choose, tag. rewrite M2, M4.
  destruct H as [(-> & -> & -> & X) | (-> & -> & -> & X)].
  - pose proof (digits_then_ok HDigit 16 2 takes_hex _ _ N _ _ _ _ IS E (fun c h => h)) as D.
    assert (M1 : match_family FHex (("0"%char :: x :: s) ++ sf ++ rest) =
                 Some ((S (S (List.length s)) + List.length sf)%nat, sfx_type uns ls)).
    { destruct X as [-> | ->]; exact D. }
    assert (M3 : match_family FBinary (("0"%char :: x :: s) ++ sf ++ rest) = None).
    { destruct X as [-> | ->]; reflexivity. }
    rewrite M1, M3. cbn [better].
    destruct (Nat.ltb_spec (S (S (List.length s)) + List.length sf) 1); [lia | reflexivity].
  - pose proof (digits_then_ok BDigit 2 2 takes_bin _ _ N _ _ _ _ IS E hex_bin) as D.
    assert (M3 : match_family FBinary (("0"%char :: x :: s) ++ sf ++ rest) =
                 Some ((S (S (List.length s)) + List.length sf)%nat, sfx_type uns ls)).
    { destruct X as [-> | ->]; exact D. }
    assert (M1 : match_family FHex (("0"%char :: x :: s) ++ sf ++ rest) = None).
    { destruct X as [-> | ->]; reflexivity. }
    rewrite M1, M3. cbn [better].
    destruct (Nat.ltb_spec (S (S (List.length s)) + List.length sf) 1); [lia | reflexivity].
Qed.

(** Values. *)
Lemma process_numeral : forall dv base, reads dv base -> 1 < base ->
  (forall c, suffix_char c = true -> dv c = None) ->
  forall s v sf x, numeral base s v -> In (sf, x) suffixes ->
  loop dv base 0 (s ++ sf) = if v <=? LONG_MAX then (Val v, []) else (Undefined, []).
Proof.
  intros dv base R B NN s v sf x N IS.
  rewrite (loop_numeral dv base sf R B s v N 0) by lia.
  rewrite Z.mul_0_l, Z.add_0_l, (suffix_tail _ _ _ _ _ NN IS). reflexivity.
Qed.

Definition tok_of (fl : lflags) (t rest : cstr) (v : Z) (ty : ity) (ms : list lmsg) : ires :=
  if v <=? LONG_MAX
  then IntTok {| i_text := t; i_rest := rest; i_val := v; i_type := ctype_of fl ty v;
                 i_null := v =? 0; i_msgs := ms |}
  else IntUndefined.

Lemma lex_const : forall fl nt uns ls t v rest, c_const nt uns ls t v -> ends rest ->
  lex_int fl (t ++ rest) = tok_of fl t rest v (sfx_type uns ls) [].
Proof.
  intros fl nt uns ls t v rest C E. destruct C as [nt d v sf uns ls U IS].
  rewrite <- app_assoc. unfold lex_int, tok_of.
  assert (L : (List.length d + List.length sf = List.length (d ++ sf))%nat) by now rewrite app_length.
  destruct U as [c s v C N | | s v N | x s v X N].
  - rewrite (choose_dec _ _ _ _ _ _ _ C N IS E). rewrite L, (app_assoc (c :: s)), firstn_all_app, skipn_all_app.
    unfold process. rewrite atol_loop, (process_numeral _ _ reads_dec ltac:(lia) none_dec _ _ _ _ N IS).
    destruct (v <=? LONG_MAX); reflexivity.
  - change (lit "0" ++ sf ++ rest) with ("0"%char :: sf ++ rest).
    rewrite (choose_zero _ _ _ _ IS E).
    change (S (List.length sf)) with (List.length ("0"%char :: sf)).
    change ("0"%char :: sf ++ rest) with (("0"%char :: sf) ++ rest).
    rewrite firstn_all_app, skipn_all_app. unfold process.
    rewrite atol_loop.
    change (loop decValue 10 0 ("0"%char :: sf)) with (loop decValue 10 0 sf).
    rewrite (suffix_tail _ _ _ _ _ none_dec IS). reflexivity.
  - rewrite (choose_oct _ _ _ _ _ _ N IS E).
    change (S (List.length s)) with (List.length ("0"%char :: s)).
    rewrite L, (app_assoc ("0"%char :: s)), firstn_all_app, skipn_all_app.
    unfold process. change (skipn 1 (("0"%char :: s) ++ sf)) with (s ++ sf).
    rewrite (process_numeral _ _ reads_oct ltac:(lia) none_oct _ _ _ _ N IS).
    destruct (v <=? LONG_MAX); reflexivity.
  - rewrite (choose_prefixed FHex HDigit 16 x s v sf uns ls rest); auto.
    change (S (S (List.length s))) with (List.length ("0"%char :: x :: s)).
    rewrite L, (app_assoc ("0"%char :: x :: s)), firstn_all_app, skipn_all_app.
    unfold process. change (skipn 2 (("0"%char :: x :: s) ++ sf)) with (s ++ sf).
    rewrite (process_numeral _ _ reads_hex ltac:(lia) none_hex _ _ _ _ N IS).
    destruct (v <=? LONG_MAX); reflexivity.
Qed.

Lemma lex_binary : forall fl x s v sf uns ls rest, x = "b"%char \/ x = "B"%char -> numeral 2 s v ->
  In (sf, (uns, ls)) suffixes -> ends rest ->
  lex_int fl (("0"%char :: x :: s ++ sf) ++ rest) =
  tok_of fl ("0"%char :: x :: s ++ sf) rest v (sfx_type uns ls) (if gnuextensions fl then [] else [BinaryNotIso]).
Proof.
  intros fl x s v sf uns ls rest X N IS E.
  change (("0"%char :: x :: s ++ sf) ++ rest) with ((("0"%char :: x :: s) ++ sf) ++ rest).
  rewrite <- app_assoc. unfold lex_int, tok_of.
  rewrite (choose_prefixed FBinary BDigit 2 x s v sf uns ls rest); auto.
  change (S (S (List.length s))) with (List.length ("0"%char :: x :: s)).
  rewrite <- app_length, (app_assoc ("0"%char :: x :: s)), firstn_all_app, skipn_all_app.
  unfold process. change (skipn 2 (("0"%char :: x :: s) ++ sf)) with (s ++ sf).
  rewrite (process_numeral _ _ reads_bin ltac:(lia) none_bin _ _ _ _ N IS).
  destruct (v <=? LONG_MAX); [| reflexivity].
  destruct (gnuextensions fl); reflexivity.
Qed.

(** * Character constants *)
Definition plain (c : ascii) : Prop := c <> "'"%char /\ c <> "\"%char.
Lemma body_plain : forall s rest, Forall plain s -> body (s ++ "'"%char :: rest) = Some (S (List.length s)).
Proof.
  intros s rest H. induction H as [| c s [A B] H IH]; [reflexivity |].
  cbn [app body]. unfold quote, bslash. apply Ascii.eqb_neq in A, B. rewrite A, B, IH. reflexivity.
Qed.
Lemma numeral_plain : forall base s v, numeral base s v -> Forall plain s.
Proof.
  assert (P : forall c d, digit c d -> plain c).
  { intros c d D. split; intros ->; inversion D; subst;
      match goal with H : _ <= code ?x <= _ |- _ => let z := eval vm_compute in (code x) in change (code x) with z in H end; lia. }
  intros base s v N. induction N; constructor; eauto.
Qed.
Lemma digit_not_nl : forall c d, digit c d -> Ascii.eqb c ch_nl = false.
Proof.
  intros c d D. apply Ascii.eqb_neq. intros ->. inversion D; subst;
  match goal with H : _ <= code ?x <= _ |- _ => let z := eval vm_compute in (code x) in change (code x) with z in H end; lia.
Qed.

Lemma body_char : forall b v rest, c_char b v -> body (b ++ "'"%char :: rest) = Some (S (List.length b)).
Proof.
  intros b v rest C. destruct C as [c A B D | c v I | s v N L R | s v N R].
  - apply body_plain. constructor; [split; assumption | constructor].
  - cbn [simple_escapes In] in I.
    repeat (destruct I as [I | I]; [injection I as <- <-; reflexivity |]). destruct I.
  - pose proof (numeral_plain _ _ _ N) as F.
    destruct (numeral_cons _ _ _ N) as (c & r & d & -> & D & _).
    cbn [app body]. change (Ascii.eqb "\" quote) with false. change (Ascii.eqb "\" bslash) with true.
    cbv iota. rewrite (digit_not_nl _ _ D). inversion F; subst. rewrite body_plain by assumption. reflexivity.
  - cbn [app body]. change (Ascii.eqb "\" quote) with false. change (Ascii.eqb "\" bslash) with true.
    change (Ascii.eqb "x" ch_nl) with false. cbv iota.
    rewrite body_plain by (eapply numeral_plain; eauto). reflexivity.
Qed.

Lemma c_char_cons : forall b v, c_char b v -> exists c r, b = c :: r.
Proof. intros b v C. destruct C; eauto. Qed.

Lemma lex_charconst : forall fl wide b v rest, c_char b v ->
  lex_char fl (c_charconst wide b ++ rest) =
  Some {| c_text := c_charconst wide b; c_rest := rest; c_val := processChar (c_charconst wide b);
          c_int := charintliteral fl |}.
Proof.
  intros fl wide b v rest C. destruct (c_char_cons _ _ C) as (c & r & Eb).
  assert (M : match_char (c_charconst wide b ++ rest) = Some (List.length (c_charconst wide b))).
  { pose proof (body_char b v rest C) as B. unfold c_charconst, match_char.
    rewrite <- app_assoc. destruct wide; cbn [app].
    - change (Ascii.eqb "L" quote) with false. change (Ascii.eqb "L" "L") with true.
      change (Ascii.eqb "'" quote) with true. cbv iota.
      rewrite <- app_assoc. cbn [app]. rewrite B. rewrite Eb. cbn [List.length].
      rewrite app_length. cbn [List.length]. do 2 f_equal. lia.
    - change (Ascii.eqb "'" quote) with true. cbv iota.
      rewrite <- app_assoc. cbn [app]. rewrite B. rewrite Eb. cbn [List.length].
      rewrite app_length. cbn [List.length]. do 2 f_equal. lia. }
  unfold lex_char. rewrite M, firstn_all_app, skipn_all_app. reflexivity.
Qed.

Lemma wide_value : forall b, processChar (c_charconst true b) = "'"%char.
Proof. reflexivity. Qed.

(** The constants whose value the scanner works out. *)
Definition known_escape (c : ascii) : bool :=
  Ascii.eqb c "n" || Ascii.eqb c "t" || Ascii.eqb c "034" || Ascii.eqb c "'" || Ascii.eqb c "\".
Definition escaped (b : cstr) : bool := match b with c :: _ => Ascii.eqb c "\" | [] => false end.

Lemma char_value : forall b v, c_char b v ->
  code (processChar (c_charconst false b)) =
  if escaped b && negb (match b with _ :: c :: _ => known_escape c | _ => false end) then 0 else v.
Proof.
  intros b v C. destruct C as [c A B D | c v I | s v N L R | s v N R].
  - apply Ascii.eqb_neq in B. cbn [escaped]. rewrite B. cbn [andb].
    unfold processChar. change (at_ (c_charconst false [c]) 1) with c. unfold bslash. rewrite B. reflexivity.
  - cbn [simple_escapes In] in I.
    repeat (destruct I as [I | I]; [injection I as <- <-; reflexivity |]). destruct I.
  - destruct (numeral_cons _ _ _ N) as (c & r & d & -> & D & Ld).
    cbn [escaped]. change (Ascii.eqb "\" "\") with true. cbn [andb].
    unfold processChar. change (at_ (c_charconst false ("\"%char :: c :: r)) 1) with "\"%char.
    change (negb (Ascii.eqb "\" bslash)) with false. cbv iota.
    change (at_ (c_charconst false ("\"%char :: c :: r)) 2) with c.
    assert (K : known_escape c = false).
    { unfold known_escape. rewrite !eqb_code. change (code "n") with 110. change (code "t") with 116.
      change (code "034") with 34. change (code "'") with 39. change (code "\") with 92.
      clear - D Ld. inversion D; subst;
      repeat match goal with |- context [?a =? ?b] => destruct (Z.eqb_spec a b); [lia |] end; reflexivity. }
    rewrite K. cbn [negb]. unfold known_escape in K.
    apply orb_false_elim in K as [K K5]. apply orb_false_elim in K as [K K4].
    apply orb_false_elim in K as [K K3]. apply orb_false_elim in K as [K1 K2].
    unfold ch_dquote, quote, bslash. rewrite K1, K2, K3, K4, K5. reflexivity.
  - reflexivity.
Qed.

(** * Types *)
Definition as_c (t : ity) : option cty :=
  match t with
  | TInt => Some Int | TUint => Some UInt | TLint => Some Long | TUlint => Some ULong
  | TLlint => Some LLong | TUllint => Some ULLong | TVoidPtr | TBool => None
  end.

(** The integer types among the types given. *)
Definition int_types (l : list ity) : list cty :=
  flat_map (fun t => match as_c t with Some c => [c] | None => [] end) l.

Lemma int_types_of : forall fl uns ls v nt c l, candidates nt uns ls = c :: l ->
  int_types (ctype_of fl (sfx_type uns ls) v) = [c].
Proof.
  intros fl uns ls v nt c l E. unfold ctype_of.
  destruct uns, ls, nt; cbn in E; injection E as <- _; cbn [sfx_type]; try reflexivity;
    destruct (v =? 0), (zeroptr fl), (zerobool fl); reflexivity.
Qed.

Lemma candidates_cons : forall nt uns ls, exists c l, candidates nt uns ls = c :: l /\ ~ In c l.
Proof.
  intros nt uns ls. destruct uns, ls, nt; cbn [candidates]; do 2 eexists; (split; [reflexivity |]);
    cbn [In]; intuition discriminate.
Qed.

Lemma first_fit_in : forall v l t, first_fit v l t -> In t l.
Proof. intros v l t F. induction F; [now left | now right]. Qed.

Lemma first_fit_head : forall v c l t, first_fit v (c :: l) t -> ~ In c l -> (t = c <-> v <= cty_max c).
Proof.
  intros v c l t F N. inversion F; subst; [tauto |].
  split; [intros -> | lia]. exfalso. apply N. eapply first_fit_in; eauto.
Qed.

(** * Texts that are not constants *)
Lemma not_const : forall t, (forall nt d v sf x, unsuffixed nt d v -> In (sf, x) suffixes -> t <> d ++ sf) ->
  forall nt uns ls v, ~ c_const nt uns ls t v.
Proof. intros t H nt uns ls v C. inversion C; subst. eapply H; eauto. Qed.

Ltac head_eq H := cbn [app] in H; injection H; clear H; intros; subst.
Ltac code_absurd :=
  match goal with H : context [code ?x] |- _ => let z := eval vm_compute in (code x) in change (code x) with z in H; lia end.

Lemma numeral_app_one : forall base s v sf c, numeral base s v -> [c] = s ++ sf -> s = [c] /\ sf = [].
Proof.
  intros base s v sf c N E. destruct (numeral_cons _ _ _ N) as (a & r & d & -> & _ & _).
  cbn [app] in E. injection E as <- E. symmetry in E. apply app_eq_nil in E as [-> ->]. auto.
Qed.

Lemma not_const_08 : forall nt uns ls v, ~ c_const nt uns ls (lit "08") v.
Proof.
  apply not_const. intros nt d v sf x U I E. change (lit "08") with ["0"; "8"]%char in E.
  destruct U as [c s v C N | | s v N | y s v X N].
  - cbn [app] in E. injection E as <- _. code_absurd.
  - cbn [app] in E. injection E as <-. revert I. clear. cbn [suffixes In]. intro I.
    repeat (destruct I as [I | I]; [discriminate I |]). exact I.
  - cbn [app] in E. injection E as E. destruct (numeral_app_one _ _ _ _ _ N E) as [-> ->].
    inversion N; subst; [| match goal with H : numeral _ [] _ |- _ => inversion H end].
    match goal with H : digit _ _ |- _ => inversion H; subst end; code_absurd.
  - cbn [app] in E. injection E as <- _. destruct X as [X | X]; discriminate X.
Qed.

Lemma not_const_1lL : forall nt uns ls v, ~ c_const nt uns ls (lit "1lL") v.
Proof.
  apply not_const. intros nt d v sf x U I E. change (lit "1lL") with ["1"; "l"; "L"]%char in E.
  destruct U as [c s v C N | | s v N | y s v X N]; try (cbn in E; discriminate E).
  cbn [app] in E. injection E as <- E. destruct s as [| e s].
  - cbn [app] in E. subst. revert I. clear. cbn [suffixes In]. intro I.
    repeat (destruct I as [I | I]; [discriminate I |]). exact I.
  - cbn [app] in E. injection E as <- _.
    inversion N; subst.
    match goal with H : numeral _ ("l"%char :: _) _ |- _ => destruct (numeral_cons _ _ _ H) as (a & r & d9 & Er & D & _) end.
    injection Er as <- _. inversion D; subst; code_absurd.
Qed.

Lemma known_in : forall c, known_escape c = true <-> In c ["n"; "t"; "034"; "'"; "\"]%char.
Proof.
  intro c. unfold known_escape. rewrite !orb_true_iff, !Ascii.eqb_eq. cbn [In]. split; intuition.
Qed.

Lemma char_exact : forall b v, c_char b v ->
  ((if escaped b && negb (match b with _ :: c :: _ => known_escape c | _ => false end) then 0 else v) = v <->
     (forall r, b <> "\"%char :: r) \/
     (exists c, b = ["\"%char; c] /\ In c ["n"; "t"; "034"; "'"; "\"]%char) \/ v = 0) /\
  ((if escaped b && negb (match b with _ :: c :: _ => known_escape c | _ => false end) then 0 else v) <> v ->
   (if escaped b && negb (match b with _ :: c :: _ => known_escape c | _ => false end) then 0 else v) = 0).
Proof.
  intros b v C.
  set (bad := escaped b && negb (match b with _ :: c :: _ => known_escape c | _ => false end)).
  assert (K : bad = false <-> (forall r, b <> "\"%char :: r) \/
     (exists c, b = ["\"%char; c] /\ In c ["n"; "t"; "034"; "'"; "\"]%char)).
  { subst bad. destruct b as [| a r].
    - split; [left; intros; discriminate | reflexivity].
    - cbn [escaped]. destruct (Ascii.eqb_spec a "\") as [-> | NE].
      + cbn [andb]. split.
        * intro H. apply negb_false_iff in H. destruct r as [| c r]; [discriminate |].
          right. exists c. split; [| now apply known_in].
          assert (r = []).
          { inversion C as [| | ? ? N | ? ? N]; subst; try reflexivity.
            - exfalso. destruct (numeral_cons _ _ _ N) as (x & y & d & Ex & D & Ld). injection Ex as <- <-.
              apply known_in in H. cbn [In] in H. clear - D Ld H.
              destruct H as [H | [H | [H | [H | [H | []]]]]]; subst; inversion D; subst; code_absurd.
            - discriminate H. }
          now subst.
        * intros [H | (c & E & I)]; [exfalso; now apply (H r) |].
          injection E as ->. apply known_in in I. now rewrite I.
      + split; [| reflexivity]. intros _. left. intros q E. injection E as -> _. now apply NE. }
  destruct bad.
  - split; [| reflexivity]. split; [intro; right; right; congruence |].
    intros [H | [H | H]]; [| | congruence]; exfalso;
      assert (true = false) by (apply K; tauto); discriminate.
  - split; [| congruence]. split; [intros _; destruct K as [K _]; specialize (K eq_refl); tauto | reflexivity].
Qed.

Lemma zero_types : forall fl uns ls v,
  (In TVoidPtr (ctype_of fl (sfx_type uns ls) v) <-> v = 0 /\ uns = false /\ ls = NoL /\ zeroptr fl = true) /\
  (In TBool (ctype_of fl (sfx_type uns ls) v) <-> v = 0 /\ uns = false /\ ls = NoL /\ zerobool fl = true).
Proof.
  intros fl uns ls v. unfold ctype_of.
  destruct uns, ls; cbn [sfx_type]; destruct (Z.eqb_spec v 0), (zeroptr fl), (zerobool fl); cbn [app In];
    split; split; intro H;
    repeat match goal with
           | H : _ \/ _ |- _ => destruct H
           | H : False |- _ => destruct H
           | H : _ /\ _ |- _ => destruct H
           end; try discriminate; try contradiction; auto.
Qed.
