From Verif Require Import Cbase Cbase_facts Cmem Path_model Path_proofs Strlit_model Strlit_spec.
From Coq Require Import ZifyBool.
Local Open Scope Z_scope.

(** * Expansion *)

Lemma oct_is_digit : forall c, oct_digit c -> is_digit c = true.
Proof. unfold oct_digit, is_digit. intros. lia. Qed.

Lemma dec_is_digit : forall c, is_digit c = true <-> dec_digit c.
Proof. unfold dec_digit, is_digit. intros. lia. Qed.

Lemma hex_is_xdigit : forall c, is_xdigit c = true <-> hex_digit c.
Proof.
  unfold hex_digit, is_xdigit, is_digit, upper. intros. pose proof (code_range c).
  destruct ((97 <=? code c) && (code c <=? 122)) eqn:E; lia.
Qed.

Lemma xdigit_val_eq : forall c, hex_digit c -> xdigit_val c = hex_digit_value c.
Proof.
  unfold hex_digit, xdigit_val, hex_digit_value, is_digit, digit_val, upper. intros.
  destruct ((48 <=? code c) && (code c <=? 57)) eqn:D;
  destruct ((97 <=? code c) && (code c <=? 122)) eqn:E;
  destruct (code c <=? 57) eqn:F; destruct (code c <=? 70) eqn:G; lia.
Qed.

Lemma hex_value_range : forall c, hex_digit c -> 0 <= hex_digit_value c <= 15.
Proof.
  unfold hex_digit, hex_digit_value. intros.
  destruct (code c <=? 57) eqn:F; destruct (code c <=? 70) eqn:G; lia.
Qed.

Lemma number_mono : forall ds acc, Forall hex_digit ds -> 0 <= acc -> acc <= number 16 hex_digit_value ds acc.
Proof.
  induction ds as [|d ds IH]; intros acc F A; cbn [number]; [lia|].
  inversion F; subst. pose proof (hex_value_range d H1).
  specialize (IH (acc * 16 + hex_digit_value d) H2 ltac:(lia)). lia.
Qed.

Lemma hex_loop_spec : forall ds s acc, Forall hex_digit ds -> ~ starts hex_digit s -> 0 <= acc ->
  number 16 hex_digit_value ds acc <= 255 ->
  hex_loop (ds ++ s) acc = Some (number 16 hex_digit_value ds acc, s).
Proof.
  induction ds as [|d ds IH]; intros s acc F N A B; cbn [app hex_loop number] in *.
  - destruct s as [|c s]; cbn [hex_loop]; auto.
    destruct (is_xdigit c) eqn:E; auto. exfalso. apply N. apply hex_is_xdigit in E. exact E.
  - inversion F; subst. pose proof H1 as H1'. apply hex_is_xdigit in H1'. rewrite H1'.
    rewrite xdigit_val_eq by auto. cbv zeta. pose proof (hex_value_range d H1).
    pose proof (number_mono ds (acc * 16 + hex_digit_value d) H2 ltac:(lia)).
    replace (in_int (acc * 16 + hex_digit_value d)) with true
      by (unfold in_int, INT_MIN, INT_MAX; lia).
    apply IH; auto; lia.
Qed.

Lemma octal_rest : forall ds s c r, ds = c :: r -> (List.length ds <= 3)%nat -> Forall oct_digit ds ->
  no_89 ds s -> snd (octal c (r ++ s)) = s.
Proof.
  intros ds s c r -> L F N. unfold no_89 in N.
  assert (forall x y, s = x :: y -> (List.length r < 2)%nat -> is_digit x = false) as NS.
  { intros x y -> Q. destruct N as [N|N]; [simpl in N; lia|].
    destruct (is_digit x) eqn:E; auto. exfalso. apply N. simpl. apply dec_is_digit. exact E. }
  inversion F; subst. unfold octal.
  destruct r as [|d [|e [|g r]]]; cbn [app].
  - destruct s as [|x y]; auto. rewrite (NS x y) by (auto; simpl; lia). reflexivity.
  - inversion H2; subst. rewrite oct_is_digit by auto. cbv zeta.
    destruct s as [|x y]; auto. rewrite (NS x y) by (auto; simpl; lia). reflexivity.
  - inversion H2; subst. inversion H4; subst. rewrite !oct_is_digit by auto. reflexivity.
  - simpl in L. lia.
Qed.

Lemma octal_value : forall ds s c r, ds = c :: r -> (List.length ds <= 3)%nat -> Forall oct_digit ds ->
  second_zero ds s ->
  octal c (r ++ s) = (number 8 (fun c => code c - 48) ds 0, s).
Proof.
  intros ds s c r E L F [N Z].
  pose proof (octal_rest ds s c r E L F N) as R.
  rewrite (surjective_pairing (octal c (r ++ s))), R. f_equal. clear R. subst ds.
  assert (forall x y, s = x :: y -> (List.length r < 2)%nat -> is_digit x = false) as NS.
  { intros x y -> Q. destruct N as [N|N]; [simpl in N; lia|].
    destruct (is_digit x) eqn:E; auto. exfalso. apply N. simpl. apply dec_is_digit. exact E. }
  inversion F; subst. unfold octal, digit_val.
  destruct r as [|d [|e [|g r]]]; cbn [app number].
  - destruct s as [|x y]; [cbn [fst]; lia|]. rewrite (NS x y) by (auto; simpl; lia). cbn [fst]. lia.
  - subst d. change (is_digit "0"%char) with true. cbv iota zeta. change (code "0"%char) with 48.
    destruct s as [|x y]; [cbn [fst]; lia|]. rewrite (NS x y) by (auto; simpl; lia). cbn [fst]. lia.
  - subst d. inversion H2; subst. inversion H4; subst. change (is_digit "0"%char) with true. cbv iota zeta.
    rewrite oct_is_digit by auto. change (code "0"%char) with 48. cbn [fst]. lia.
  - simpl in L. lia.
Qed.

Lemma number8_nonneg : forall ds acc, Forall oct_digit ds -> 0 <= acc ->
  0 <= number 8 (fun c => code c - 48) ds acc.
Proof.
  induction ds as [|d ds IH]; intros acc F A; cbn [number]; auto.
  inversion F; subst. apply IH; auto. unfold oct_digit in H1. lia.
Qed.

Lemma c_escape_step : forall c v s, c_escape c v ->
  expand_step "092" (c :: s) = Some (v, s) /\ 0 <= v <= 255.
Proof. intros c v s H. inversion H; subst; cbn; split; try reflexivity; lia. Qed.

(** A denoted body expands, one character for one character. *)
Lemma expand_length : forall body vs, denotes no_89 body vs ->
  forall fuel, (List.length body < fuel)%nat ->
  exists out, expand fuel body = Done out /\ List.length out = List.length vs.
Proof.
  intros body vs H. induction H as [|c s vs N1 N2 N3 D IH|c v s vs E D IH|ds s vs L F M B O D IH|ds s vs NE F M B D IH];
    intros fuel FU; (destruct fuel as [|fuel]; [lia|]); cbn [expand].
  - exists []. auto.
  - unfold expand_step. apply Ascii.eqb_neq in N1. unfold ch_back. rewrite N1. cbn [negb].
    cbn [List.length] in FU. destruct (IH fuel ltac:(lia)) as (out & X & Y).
    rewrite X. eexists. split; [reflexivity|]. simpl. congruence.
  - destruct (c_escape_step c v s E) as [-> _]. cbn [List.length] in FU.
    destruct (IH fuel ltac:(lia)) as (out & X & Y).
    rewrite X. eexists. split; [reflexivity|]. simpl. congruence.
  - destruct ds as [|c r]; [simpl in L; lia|]. cbn [app]. unfold expand_step.
    change (Ascii.eqb "092" ch_back) with true. cbn [negb].
    inversion F; subst. rewrite oct_is_digit by auto.
    pose proof (octal_rest (c :: r) s c r eq_refl ltac:(lia) F O) as R.
    rewrite (surjective_pairing (octal c (r ++ s))), R.
    cbn [List.length app] in FU. rewrite app_length in FU.
    destruct (IH fuel ltac:(lia)) as (out & X & Y).
    rewrite X. eexists. split; [reflexivity|]. simpl. congruence.
  - destruct ds as [|c r]; [congruence|]. cbn [app]. unfold expand_step.
    change (Ascii.eqb "092" ch_back) with true. cbn [negb].
    change (is_digit "x"%char) with false. cbv iota. change (Ascii.eqb "x" "x") with true. cbv iota.
    pose proof F as F'. inversion F; subst. apply hex_is_xdigit in H1. rewrite H1.
    change (c :: r ++ s) with ((c :: r) ++ s). rewrite hex_loop_spec by (auto; lia).
    cbn [List.length app] in FU. rewrite app_length in FU.
    destruct (IH fuel ltac:(lia)) as (out & X & Y).
    rewrite X. eexists. split; [reflexivity|]. simpl. congruence.
Qed.

Lemma denotes_weaken : forall (P Q : cstr -> cstr -> Prop) body vs, (forall ds s, P ds s -> Q ds s) ->
  denotes P body vs -> denotes Q body vs.
Proof.
  intros P Q body vs H D. induction D.
  - apply D_nil.
  - apply D_char; auto.
  - apply D_escape; auto.
  - apply D_octal; auto.
  - apply D_hex; auto.
Qed.

Lemma expand_values : forall body vs, denotes second_zero body vs ->
  forall fuel, (List.length body < fuel)%nat -> expand fuel body = Done (map chr vs).
Proof.
  intros body vs H. induction H as [|c s vs N1 N2 N3 D IH|c v s vs E D IH|ds s vs L F M B O D IH|ds s vs NE F M B D IH];
    intros fuel FU; (destruct fuel as [|fuel]; [lia|]); cbn [expand map].
  - reflexivity.
  - unfold expand_step. apply Ascii.eqb_neq in N1. unfold ch_back. rewrite N1. cbn [negb].
    cbn [List.length] in FU. rewrite (IH fuel ltac:(lia)).
    rewrite Z.mod_small by (pose proof (code_range c); lia). reflexivity.
  - destruct (c_escape_step c v s E) as [-> R]. cbn [List.length] in FU. rewrite (IH fuel ltac:(lia)).
    rewrite Z.mod_small by lia. reflexivity.
  - destruct ds as [|c r]; [simpl in L; lia|]. cbn [app]. unfold expand_step.
    change (Ascii.eqb "092" ch_back) with true. cbn [negb].
    inversion F; subst. rewrite oct_is_digit by auto.
    rewrite (octal_value (c :: r) s c r eq_refl ltac:(lia) F O).
    cbn [List.length app] in FU. rewrite app_length in FU. rewrite (IH fuel ltac:(lia)).
    rewrite Z.mod_small by (pose proof (number8_nonneg (c :: r) 0 F ltac:(lia)); lia). reflexivity.
  - destruct ds as [|c r]; [congruence|]. cbn [app]. unfold expand_step.
    change (Ascii.eqb "092" ch_back) with true. cbn [negb].
    change (is_digit "x"%char) with false. cbv iota. change (Ascii.eqb "x" "x") with true. cbv iota.
    pose proof F as F'. inversion F; subst. apply hex_is_xdigit in H1. rewrite H1.
    change (c :: r ++ s) with ((c :: r) ++ s). rewrite hex_loop_spec by (auto; lia).
    cbn [List.length app] in FU. rewrite app_length in FU. rewrite (IH fuel ltac:(lia)).
    rewrite Z.mod_small by (pose proof (number_mono (c :: r) 0 F' ltac:(lia)); lia). reflexivity.
Qed.

(** * The result never exceeds its buffer *)
Lemma hex_loop_shorter : forall s acc v r, hex_loop s acc = Some (v, r) -> (List.length r <= List.length s)%nat.
Proof.
  induction s as [|c s IH]; intros acc v r H; cbn [hex_loop] in H.
  - injection H as <- <-. auto.
  - destruct (is_xdigit c).
    + cbv zeta in H. destruct (in_int _); [|discriminate]. apply IH in H. simpl. lia.
    + injection H as <- <-. auto.
Qed.

Lemma step_shorter : forall c s v r, expand_step c s = Some (v, r) -> (List.length r <= List.length s)%nat.
Proof.
  intros c s v r H. unfold expand_step in H. destruct (negb _).
  - injection H as <- <-. auto.
  - destruct s as [|d s]; [injection H as <- <-; auto|].
    destruct (is_digit d).
    + injection H as H. unfold octal in H. cbn [List.length].
      destruct s as [|x s]; [injection H as <- <-; simpl; lia|].
      destruct (is_digit x); cbv zeta in H; [|injection H as <- <-; simpl; lia].
      destruct s as [|y s]; [injection H as <- <-; simpl; lia|].
      destruct (is_digit y); injection H as <- <-; simpl; lia.
    + destruct (Ascii.eqb d "x"); [|injection H as <- <-; simpl; lia].
      destruct s as [|e s]; [injection H as <- <-; simpl; lia|].
      destruct (is_xdigit e); [|injection H as <- <-; simpl; lia].
      apply hex_loop_shorter in H. simpl in *. lia.
Qed.

Lemma expand_fits : forall fuel s out, expand fuel s = Done out -> (List.length out <= List.length s)%nat.
Proof.
  induction fuel as [|fuel IH]; intros s out H; cbn [expand] in H; [discriminate|].
  destruct s as [|c s]; [injection H as <-; auto|].
  destruct (expand_step c s) as [[v r]|] eqn:E; [|discriminate].
  destruct (expand fuel r) as [o| |] eqn:X; try discriminate. injection H as <-.
  apply IH in X. apply step_shorter in E. simpl. lia.
Qed.

Lemma expand_never_bad : forall fuel s, (List.length s < fuel)%nat -> expand fuel s <> Bad.
Proof.
  induction fuel as [|fuel IH]; intros s L; [lia|]. cbn [expand].
  destruct s as [|c s]; [discriminate|].
  destruct (expand_step c s) as [[v r]|] eqn:E; [|discriminate].
  apply step_shorter in E. simpl in L. specialize (IH r ltac:(lia)).
  destruct (expand fuel r); congruence.
Qed.

(** * Merging *)

(** Writing the known characters [s] from cell [i] on. *)
Lemma store_at : forall (done : list cell) x rest c i, i = List.length done ->
  store (done ++ x :: rest) i c = Some (done ++ Some c :: rest).
Proof. intros. subst. apply store_app. Qed.

(** [escape] after a text without a quote that is not escaped. *)
Fixpoint qsafe (e : bool) (s : cstr) : option bool :=
  match s with
  | [] => Some e
  | c :: r => if Ascii.eqb c ch_back then qsafe (negb e) r
              else if Ascii.eqb c ch_quote && negb e then None else qsafe false r
  end.

Lemma merge_copy : forall body e e' fuel (dn old more : list cell) tail,
  qsafe e body = Some e' -> List.length old = List.length body ->
  merge_loop (List.length body + fuel) (body ++ tail) (List.length dn) (dn ++ old ++ more) e
  = merge_loop fuel tail (List.length dn + List.length body) (dn ++ map Some body ++ more) e'.
Proof.
  induction body as [|c body IH]; intros e e' fuel dn old more tail Q L.
  - destruct old; [|discriminate]. simpl in *. injection Q as <-. rewrite Nat.add_0_r. reflexivity.
  - destruct old as [|x old]; [discriminate|]. injection L as L.
    cbn [List.length Nat.add app merge_loop map qsafe] in *.
    assert (forall e1, qsafe e1 body = Some e' ->
      merge_loop (List.length body + fuel) (body ++ tail) (S (List.length dn)) (dn ++ Some c :: old ++ more) e1
      = merge_loop fuel tail (List.length dn + S (List.length body)) (dn ++ Some c :: map Some body ++ more) e') as H.
    { intros e1 Q1. specialize (IH e1 e' fuel (dn ++ [Some c]) old more tail Q1 L).
      rewrite app_length in IH. cbn [List.length] in IH. rewrite <- !app_assoc in IH. cbn [app] in IH.
      replace (S (List.length dn)) with (List.length dn + 1)%nat by lia.
      replace (List.length dn + S (List.length body))%nat with (List.length dn + 1 + List.length body)%nat by lia.
      exact IH. }
    destruct (Ascii.eqb c ch_back) eqn:B.
    + rewrite (store_at dn) by auto. apply H. exact Q.
    + destruct (Ascii.eqb c ch_quote && negb e) eqn:C; [discriminate|].
      rewrite (store_at dn) by auto. apply H. exact Q.
Qed.

Lemma qsafe_app : forall s e t, qsafe e (s ++ t) = match qsafe e s with Some e' => qsafe e' t | None => None end.
Proof.
  induction s as [|c s IH]; intros e t; simpl; auto.
  destruct (Ascii.eqb c ch_back); auto. destruct (_ && _); auto.
Qed.

Lemma qsafe_plain : forall s e, Forall (fun c => c <> ch_back /\ c <> ch_quote) s -> s <> [] ->
  qsafe e s = Some false.
Proof.
  induction s as [|c s IH]; intros e F N; [congruence|]. inversion F as [|? ? [A B] F']; subst.
  simpl. apply Ascii.eqb_neq in A, B. rewrite A, B. simpl.
  destruct s; [reflexivity|]. apply IH; auto. discriminate.
Qed.

Lemma digits_plain : forall ds, Forall hex_digit ds -> Forall (fun c => c <> ch_back /\ c <> ch_quote) ds.
Proof.
  intros ds. apply Forall_impl. intros c H. unfold hex_digit in H.
  split; intros ->; revert H; vm_compute; intuition congruence.
Qed.

Lemma denotes_qsafe : forall P body vs, denotes P body vs -> qsafe false body = Some false.
Proof.
  intros P body vs H. induction H as [|c s vs N1 N2 N3 D IH|c v s vs E D IH|ds s vs L F M B O D IH|ds s vs NE F M B D IH].
  - reflexivity.
  - cbn [qsafe]. apply Ascii.eqb_neq in N1, N2. unfold ch_back, ch_quote. rewrite N1, N2. exact IH.
  - inversion E; subst; cbn; exact IH.
  - cbn [qsafe]. change (Ascii.eqb "092" ch_back) with true. cbv iota.
    rewrite qsafe_app, qsafe_plain; auto.
    + apply digits_plain. eapply Forall_impl; [|exact F]. intros c. unfold oct_digit, hex_digit. lia.
    + destruct ds; [simpl in L; lia|discriminate].
  - cbn [qsafe]. change (Ascii.eqb "092" ch_back) with true.
    change (Ascii.eqb "x" ch_back) with false. change (Ascii.eqb "x" ch_quote) with false. cbn [negb andb].
    rewrite qsafe_app, qsafe_plain; auto. apply digits_plain. exact F.
Qed.

Lemma merge_single : forall body, qsafe false body = Some false ->
  doMergeString body = Done (map Some body ++ [Some ch_nul]).
Proof.
  intros body Q. unfold doMergeString.
  assert (exists old x, fresh (List.length body) = old ++ [x] /\ List.length old = List.length body)
    as (old & x & EF & LO).
  { assert (List.length (fresh (List.length body)) = S (List.length body)) as LF
      by (unfold fresh; cbn [List.length]; rewrite repeat_length; reflexivity).
    destruct (fresh (List.length body)) as [|x old _] using rev_ind; [discriminate|].
    exists old, x. split; auto. rewrite app_length in LF. simpl in LF. lia. }
  pose proof (merge_copy body false false 1 [] old [x] [] Q LO) as C.
  rewrite app_nil_r in C. cbn [List.length app Nat.add] in C.
  rewrite EF. rewrite <- Nat.add_1_r. rewrite C. cbn [merge_loop].
  rewrite (store_at (map Some body) x []) by (rewrite map_length; reflexivity). reflexivity.
Qed.

Lemma denotes_no_nul : forall P body vs, denotes P body vs -> ~ In ch_nul body.
Proof.
  intros P body vs H. induction H as [|c s vs N1 N2 N3 D IH|c v s vs E D IH|ds s vs L F M B O D IH|ds s vs NE F M B D IH].
  - intros [].
  - intros [X|X]; auto.
  - intros [X|[X|X]]; auto; [discriminate|]. subst c. inversion E.
  - intros [X|X]; [discriminate|]. apply in_app_or in X. destruct X as [X|X]; auto.
    rewrite Forall_forall in F. apply F in X. revert X. vm_compute. intuition congruence.
  - intros [X|[X|X]]; try discriminate. apply in_app_or in X. destruct X as [X|X]; auto.
    rewrite Forall_forall in F. apply F in X. revert X. vm_compute. intuition congruence.
Qed.

Lemma length_single : forall body vs, denotes no_89 body vs ->
  lengthExpandEscapes body = Done (List.length vs).
Proof.
  intros body vs H. unfold lengthExpandEscapes.
  rewrite (merge_single body) by (eapply denotes_qsafe; eauto).
  rewrite read_terminated by (eapply denotes_no_nul; eauto).
  unfold doExpandEscapes. destruct (expand_length body vs H (S (List.length body))) as (out & -> & L); [lia|].
  rewrite L. reflexivity.
Qed.

(** Adjacent literals: the cell between them is skipped. *)
Lemma skip_to_quote : forall ws r, ~ In ch_quote ws ->
  skip_while (fun x => negb (Ascii.eqb x ch_quote)) (ws ++ ch_quote :: r) = ch_quote :: r.
Proof.
  induction ws as [|w ws IH]; intros r N; simpl.
  - reflexivity.
  - destruct (Ascii.eqb_spec w ch_quote) as [->|X]; simpl.
    + exfalso. apply N. left. reflexivity.
    + apply IH. intros I. apply N. right. exact I.
Qed.

Lemma repeat_nones : forall a b, repeat (@None ascii) (a + b) = repeat None a ++ repeat None b.
Proof. intros. apply repeat_app. Qed.

(** What is in the buffer after two adjacent literals, as far as is needed: the first body,
    then the cell as it was. *)
Lemma store_prefix : forall m i c m' k, store m i c = Some m' -> (k < i)%nat ->
  nth_error m' k = nth_error m k.
Proof.
  induction m as [|x m IH]; intros i c m' k H L; [destruct i; discriminate|].
  destruct i; [lia|]. simpl in H. destruct (store m i c) eqn:E; [|discriminate]. injection H as <-.
  destruct k; simpl; auto. eapply IH; eauto. lia.
Qed.

Lemma merge_prefix : forall fuel s i m e m' k, merge_loop fuel s i m e = Done m' -> (k < i)%nat ->
  nth_error m' k = nth_error m k.
Proof.
  induction fuel as [|fuel IH]; intros s i m e m' k H L; cbn [merge_loop] in H; [discriminate|].
  destruct s as [|c s].
  - destruct (store m i ch_nul) eqn:E; [|discriminate]. injection H as <-. eapply store_prefix; eauto.
  - destruct (Ascii.eqb c ch_back).
    + destruct (store m i c) eqn:E; [|discriminate]. erewrite IH; [|exact H|lia]. eapply store_prefix; eauto.
    + destruct (_ && _).
      * destruct (skip_while _ s); [discriminate|]. eapply IH; [exact H|lia].
      * destruct (store m i c) eqn:E; [|discriminate]. erewrite IH; [|exact H|lia]. eapply store_prefix; eauto.
Qed.

Lemma read_stops : forall s m, ~ In ch_nul s -> nth_error m (List.length s) = Some None ->
  (forall k c, nth_error s k = Some c -> nth_error m k = Some (Some c)) -> read_cstr m = None.
Proof.
  induction s as [|c s IH]; intros m N H P.
  - destruct m as [|x m]; [discriminate|]. simpl in H. injection H as ->. reflexivity.
  - destruct m as [|x m]; [discriminate|]. pose proof (P 0%nat c eq_refl) as X. simpl in X. injection X as ->.
    simpl. destruct (Ascii.eqb_spec c ch_nul) as [->|X].
    + exfalso. apply N. left. reflexivity.
    + rewrite (IH m); auto.
      * intros I. apply N. right. exact I.
      * intros k d Hk. apply (P (S k) d). exact Hk.
Qed.

Lemma nth_app_here : forall (A : Type) (a : list A) x b, nth_error (a ++ x :: b) (List.length a) = Some x.
Proof. induction a; simpl; auto. Qed.

Lemma merge_adjacent : forall body ws rest m', qsafe false body = Some false ->
  ~ In ch_quote ws ->
  doMergeString (body ++ ch_quote :: ws ++ ch_quote :: rest) = Done m' ->
  (forall k c, nth_error body k = Some c -> nth_error m' k = Some (Some c)) /\
  nth_error m' (List.length body) = Some (match body with [] => Some ch_nul | _ => None end).
Proof.
  intros body ws rest m' Q NW H. unfold doMergeString in H.
  set (full := body ++ ch_quote :: ws ++ ch_quote :: rest) in *.
  assert (List.length full = List.length body + S (List.length ws + S (List.length rest)))%nat as LF
    by (unfold full; rewrite app_length; cbn [List.length]; rewrite app_length; reflexivity).
  assert (exists old x more, fresh (List.length full) = old ++ x :: more
           /\ List.length old = List.length body
           /\ x = match body with [] => Some ch_nul | _ => None end) as (old & x & more & EF & LO & EX).
  { rewrite LF. unfold fresh. destruct body as [|c body].
    - exists [], (Some ch_nul), (repeat None (0 + S (List.length ws + S (List.length rest)))). split; [|split]; reflexivity.
    - exists (Some ch_nul :: repeat None (List.length body)), None, (repeat None (S (List.length ws + S (List.length rest)))).
      split; [|split; [cbn [List.length]; rewrite repeat_length; reflexivity|reflexivity]].
      cbn [List.length app]. f_equal.
      replace (S (List.length body) + S (List.length ws + S (List.length rest)))%nat
        with (List.length body + S (S (List.length ws + S (List.length rest))))%nat by lia.
      rewrite repeat_app. reflexivity. }
  rewrite EF in H.
  replace (S (List.length full)) with (List.length body + S (S (List.length ws + S (List.length rest))))%nat in H by lia.
  pose proof (merge_copy body false false (S (S (List.length ws + S (List.length rest)))) [] old
     (x :: more)
     (ch_quote :: ws ++ ch_quote :: rest) Q LO) as C.
  cbn [app List.length Nat.add] in C. unfold full in H. rewrite C in H. clear C.
  remember (S (List.length ws + S (List.length rest))) as fu eqn:EFU. clear EFU.
  cbn [merge_loop] in H. change (Ascii.eqb ch_quote ch_back) with false in H.
  change (Ascii.eqb ch_quote ch_quote && negb false) with true in H. cbv iota in H.
  rewrite skip_to_quote in H by auto.
  split.
  - intros k c Hk. assert (k < List.length body)%nat by (apply nth_error_Some; congruence).
    rewrite (merge_prefix _ _ _ _ _ _ k H) by lia.
    rewrite nth_error_app1 by (rewrite map_length; lia). rewrite nth_error_map, Hk. reflexivity.
  - rewrite (merge_prefix _ _ _ _ _ _ (List.length body) H) by lia.
    replace (List.length body) with (List.length (map Some body)) at 1 by apply map_length.
    rewrite nth_app_here, EX. reflexivity.
Qed.

Lemma merge_no_ub : forall fuel s i m e, (i + List.length s < List.length m)%nat -> merge_loop fuel s i m e <> UB.
Proof.
  assert (forall m i c, (i < List.length m)%nat -> exists m', store m i c = Some m' /\ List.length m' = List.length m) as ST.
  { induction m as [|x m IH]; intros i c L; [simpl in L; lia|].
    destruct i; [eexists; split; reflexivity|]. simpl in L. destruct (IH i c ltac:(lia)) as (m' & A & B).
    exists (x :: m'). simpl. rewrite A, B. auto. }
  induction fuel as [|fuel IH]; intros s i m e L; cbn [merge_loop]; [discriminate|].
  destruct s as [|c s].
  - destruct (ST m i ch_nul) as (m' & -> & _); [simpl in L; lia|discriminate].
  - cbn [List.length] in L.
    destruct (ST m i c) as (m' & E & LE); [lia|]. rewrite E.
    destruct (Ascii.eqb c ch_back); [apply IH; lia|].
    destruct (_ && _); [|apply IH; lia].
    destruct (skip_while _ s) eqn:X; [discriminate|]. apply IH.
    assert (forall p (l : cstr), (List.length (skip_while p l) <= List.length l)%nat) as SK.
    { induction l as [|y l IHl]; simpl; auto. destruct (p y); simpl; lia. }
    pose proof (SK (fun x => negb (Ascii.eqb x ch_quote)) s) as K. rewrite X in K. simpl in K. lia.
Qed.

Lemma merge_not_bad : forall fuel s i m e e', (List.length s < fuel)%nat -> qsafe e s = Some e' ->
  merge_loop fuel s i m e <> Bad.
Proof.
  induction fuel as [|fuel IH]; intros s i m e e' L Q; [lia|]. cbn [merge_loop].
  destruct s as [|c s]; [destruct (store m i ch_nul); discriminate|].
  cbn [qsafe List.length] in *. destruct (Ascii.eqb c ch_back).
  - destruct (store m i c); [|discriminate]. eapply IH; [lia|exact Q].
  - destruct (_ && _); [discriminate|]. destruct (store m i c); [|discriminate]. eapply IH; [lia|exact Q].
Qed.

Lemma merge_adjacent_not_bad : forall body ws rest e', qsafe false body = Some false ->
  ~ In ch_quote ws -> qsafe false rest = Some e' ->
  doMergeString (body ++ ch_quote :: ws ++ ch_quote :: rest) <> Bad.
Proof.
  intros body ws rest e' Q NW QR. unfold doMergeString.
  set (full := body ++ ch_quote :: ws ++ ch_quote :: rest).
  assert (List.length full = List.length body + S (List.length ws + S (List.length rest)))%nat as LF
    by (unfold full; rewrite app_length; cbn [List.length]; rewrite app_length; reflexivity).
  assert (exists old more, fresh (List.length full) = old ++ more /\ List.length old = List.length body)
    as (old & more & EF & LO).
  { exists (firstn (List.length body) (fresh (List.length full))), (skipn (List.length body) (fresh (List.length full))).
    split; [symmetry; apply firstn_skipn|]. rewrite firstn_length.
    unfold fresh. cbn [List.length]. rewrite repeat_length. lia. }
  rewrite EF.
  replace (S (List.length full)) with (List.length body + S (S (List.length ws + S (List.length rest))))%nat by lia.
  pose proof (merge_copy body false false (S (S (List.length ws + S (List.length rest)))) [] old
     more (ch_quote :: ws ++ ch_quote :: rest) Q LO) as C.
  cbn [app List.length Nat.add] in C. unfold full. rewrite C. clear C.
  remember (S (List.length ws + S (List.length rest))) as fu eqn:EFU.
  cbn [merge_loop]. change (Ascii.eqb ch_quote ch_back) with false.
  change (Ascii.eqb ch_quote ch_quote && negb false) with true. cbv iota.
  rewrite skip_to_quote by auto. eapply merge_not_bad; [lia|exact QR].
Qed.

(** A second literal makes the length zero, or undefined. *)
Lemma adjacent_length : forall body vs ws rest ws', denotes no_89 body vs -> ~ In ch_quote ws ->
  denotes c_octal rest ws' ->
  lengthExpandEscapes (body ++ ch_quote :: ws ++ ch_quote :: rest)
  = match body with [] => Done 0%nat | _ => UB end.
Proof.
  intros body vs ws rest ws' D NW DR. unfold lengthExpandEscapes.
  destruct (doMergeString (body ++ ch_quote :: ws ++ ch_quote :: rest)) as [m| |] eqn:E.
  - destruct (merge_adjacent body ws rest m) as [A B]; auto; [eapply denotes_qsafe; eauto|].
    destruct body as [|c body].
    + simpl in B. destruct m as [|x m]; [discriminate|]. injection B as ->. reflexivity.
    + rewrite (read_stops (c :: body) m); auto. eapply denotes_no_nul; eauto.
  - exfalso. revert E. unfold doMergeString. apply merge_no_ub.
    unfold fresh. cbn [List.length]. rewrite repeat_length. lia.
  - exfalso. revert E. eapply merge_adjacent_not_bad; eauto; eapply denotes_qsafe; eauto.
Qed.

(** * The warnings *)
Lemma nth_last_map : forall (vs : list Z) k, List.length vs = S k ->
  nth_error (map chr vs ++ [ch_nul]) k = Some (chr (last vs 0)).
Proof.
  intros vs k L. rewrite nth_error_app1 by (rewrite map_length; lia).
  destruct vs as [|v vs _] using rev_ind; [discriminate|].
  rewrite last_last, map_app. rewrite app_length in L. simpl in L.
  replace k with (List.length (map chr vs)) by (rewrite map_length; lia). apply nth_app_here.
Qed.

Lemma check_spec : forall body vs n, denotes no_89 body vs -> (0 < n)%nat ->
  exists w, checkStringLiteralLength n body = Done w /\
  (w = TooLong <-> (n < List.length vs)%nat) /\
  (w = NoRoom \/ w = NoRoomFinalNull <-> List.length vs = n) /\
  (w = Wasted <-> (List.length vs + 1 < n)%nat) /\
  (w = NoWarning <-> (List.length vs + 1 = n)%nat).
Proof.
  intros body vs n D N. unfold checkStringLiteralLength. rewrite (length_single body vs D).
  destruct (List.length vs =? n)%nat eqn:E.
  - apply Nat.eqb_eq in E. unfold doExpandEscapes.
    destruct (expand_length body vs D (S (List.length body))) as (out & -> & L); [lia|].
    destruct (List.length vs) as [|k] eqn:LV; [lia|].
    destruct (nth_error (out ++ [ch_nul]) k) as [c|] eqn:X.
    2: { apply nth_error_None in X. rewrite app_length in X. simpl in X. lia. }
    eexists. split; [reflexivity|]. destruct (Ascii.eqb c ch_nul).
    + split; [split; [discriminate|lia]|]. split; [split; auto|]. split; (split; [discriminate|lia]).
    + split; [split; [discriminate|lia]|]. split; [split; auto|]. split; (split; [discriminate|lia]).
  - apply Nat.eqb_neq in E. destruct (n <? List.length vs)%nat eqn:F.
    + apply Nat.ltb_lt in F. eexists. split; [reflexivity|].
      split; [tauto|]. split; [split; [intros [X|X]; discriminate|lia]|]. split; (split; [discriminate|lia]).
    + apply Nat.ltb_ge in F. destruct (List.length vs <? n - 1)%nat eqn:G.
      * apply Nat.ltb_lt in G. eexists. split; [reflexivity|].
        split; [split; [discriminate|lia]|]. split; [split; [intros [X|X]; discriminate|lia]|].
        split; [split; [lia|auto]|split; [discriminate|lia]].
      * apply Nat.ltb_ge in G. eexists. split; [reflexivity|].
        split; [split; [discriminate|lia]|]. split; [split; [intros [X|X]; discriminate|lia]|].
        split; [split; [discriminate|lia]|split; [lia|auto]].
Qed.

Lemma denotes_range : forall P body vs, denotes P body vs -> Forall (fun v => 0 <= v <= 255) vs.
Proof.
  intros P body vs H. induction H as [|c s vs N1 N2 N3 D IH|c v s vs E D IH|ds s vs L F M B O D IH|ds s vs NE F M B D IH];
    constructor; auto.
  - pose proof (code_range c). lia.
  - destruct (c_escape_step c v s E). lia.
  - pose proof (number8_nonneg ds 0 F ltac:(lia)). lia.
  - pose proof (number_mono ds 0 F ltac:(lia)). lia.
Qed.

Lemma check_final_null : forall body vs n, denotes second_zero body vs -> List.length vs = n -> (0 < n)%nat ->
  checkStringLiteralLength n body = Done (if last vs 0 =? 0 then NoRoomFinalNull else NoRoom).
Proof.
  intros body vs n D L N. unfold checkStringLiteralLength.
  rewrite (length_single body vs) by (eapply denotes_weaken; [|exact D]; intros ds s H; apply H).
  rewrite L, Nat.eqb_refl. unfold doExpandEscapes. rewrite (expand_values body vs D) by lia.
  destruct n as [|k]; [lia|]. rewrite (nth_last_map vs k L).
  assert (0 <= last vs 0 <= 255) as R.
  { pose proof (denotes_range _ _ _ D) as F. destruct vs as [|v vs _] using rev_ind; [discriminate|].
    rewrite last_last. apply Forall_app in F. destruct F as [_ F]. inversion F; subst. auto. }
  rewrite ascii_eqb_code, code_chr by lia. reflexivity.
Qed.
