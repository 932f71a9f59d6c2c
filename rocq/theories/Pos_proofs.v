From Verif Require Import Cbase Cbase_facts Pos_model Pos_spec.
From Coq Require Import ZifyBool.
Local Open Scope Z_scope.

(** * Positions *)
Lemma adjust_app : forall a b l c,
  adjust_position (a ++ b) l c = let '(l', c') := adjust_position a l c in adjust_position b l' c'.
Proof.
  induction a as [|x a IH]; intros b l c; simpl; auto. destruct (Ascii.eqb x ch_nl); apply IH.
Qed.

Lemma skipn_skipn_add : forall (A : Type) m n (l : list A), skipn m (skipn n l) = skipn (n + m) l.
Proof. induction n as [|n IH]; intros [|x l]; simpl; auto. destruct m; reflexivity. Qed.

Lemma segment_split : forall text a b c, (a <= b)%nat -> (b <= c)%nat ->
  segment text a c = segment text a b ++ segment text b c.
Proof.
  intros text a b c H1 H2. unfold segment.
  rewrite <- (firstn_skipn (b - a) (firstn (c - a) (skipn a text))).
  f_equal.
  - rewrite firstn_firstn. f_equal. lia.
  - rewrite skipn_firstn_comm. f_equal; [lia|]. rewrite skipn_skipn_add. f_equal. lia.
Qed.

Lemma last_line_app : forall a b acc, last_line (a ++ b) acc = last_line b (last_line a acc).
Proof.
  induction a as [|x a IH]; intros b acc; simpl; auto. destruct (Ascii.eqb x ch_nl); apply IH.
Qed.

Lemma adjust_spec : forall seg l acc,
  adjust_position seg l (1 + Z.of_nat (List.length acc))
  = (l + newline_count seg, 1 + Z.of_nat (List.length (last_line seg acc))).
Proof.
  induction seg as [|x seg IH]; intros l acc; cbn [adjust_position last_line].
  - unfold newline_count. cbn [count_occ]. f_equal. lia.
  - unfold newline_count in *. cbn [count_occ].
    destruct (Ascii.eqb_spec x ch_nl) as [->|N].
    + specialize (IH (l + 1) []). cbn [List.length] in IH. replace (1 + Z.of_nat 0) with 1 in IH by lia.
      rewrite IH. destruct (Ascii.ascii_dec ch_nl ch_nl); [|congruence]. f_equal. lia.
    + specialize (IH l (acc ++ [x])). rewrite app_length in IH. cbn [List.length] in IH.
      replace (1 + Z.of_nat (List.length acc + 1)) with (1 + Z.of_nat (List.length acc) + 1) in IH by lia.
      rewrite IH. destruct (Ascii.ascii_dec x ch_nl); [congruence|]. reflexivity.
Qed.

(** [off] is what the line numbers are shifted by. *)
Definition pos_at (text : cstr) (off : Z) (p : nat) : Z * Z := (off + line_of text p, column_of text p).

Lemma adjust_from : forall text off a b, (a <= b)%nat ->
  adjust_position (segment text a b) (off + line_of text a) (column_of text a) = pos_at text off b.
Proof.
  intros text off a b H. unfold column_of. rewrite adjust_spec. unfold pos_at, line_of, column_of.
  assert (firstn b text = firstn a text ++ segment text a b) as E.
  { assert (forall k, firstn k text = segment text 0 k) as F0 by (intros k; unfold segment; cbn [skipn]; f_equal; lia).
    rewrite (F0 b), (F0 a). apply segment_split; lia. }
  rewrite E, last_line_app. unfold newline_count. rewrite count_occ_app. f_equal. lia.
Qed.

Definition pinv (text : cstr) (off : Z) (b : pbuf) : Prop :=
  (line_base b <= cur b)%nat /\ Forall (fun m => line_base b <= m)%nat (marks b) /\
  lineno b = off + line_of text (line_base b) /\ colno b = column_of text (line_base b).

Lemma pinit_inv : forall text, pinv text 0 pinit.
Proof. intros. repeat split; simpl; auto. Qed.

Lemma query_inv : forall text off b, pinv text off b -> getLineAndColumn text b = pos_at text off (cur b).
Proof.
  intros text off b (H1 & _ & H3 & H4). unfold getLineAndColumn. rewrite H3, H4. apply adjust_from. exact H1.
Qed.

Lemma fold_min : forall ms c lb, (lb <= c)%nat -> Forall (fun m => lb <= m)%nat ms ->
  let new := fold_left (fun p m => if (m <? p)%nat then m else p) ms c in
  (lb <= new <= c)%nat /\ Forall (fun m => new <= m)%nat ms.
Proof.
  induction ms as [|m ms IH]; intros c lb H F; simpl.
  - split; [lia|constructor].
  - inversion F; subst.
    destruct (IH (if (m <? c)%nat then m else c) lb) as [A B]; auto.
    { destruct (m <? c)%nat; auto. }
    simpl in A, B. destruct (m <? c)%nat eqn:E.
    + split; [apply Nat.ltb_lt in E; lia|]. constructor; [lia|auto].
    + split; [lia|]. constructor; [apply Nat.ltb_ge in E; lia|auto].
Qed.

Lemma update_inv : forall text off b, pinv text off b -> pinv text off (update_position text b).
Proof.
  intros text off b (H1 & H2 & H3 & H4). unfold update_position.
  destruct (fold_min (marks b) (cur b) (line_base b) H1 H2) as [A B].
  set (new := fold_left _ _ _) in *.
  rewrite H3, H4, adjust_from by lia. unfold pos_at.
  repeat split; simpl; auto. lia.
Qed.

Lemma forall_remove : forall (P : nat -> Prop) i l, Forall P l -> Forall P (remove_nth i l).
Proof.
  induction i; intros [|x l] F; simpl; auto; inversion F; subst; auto.
Qed.
Lemma forall_set : forall (P : nat -> Prop) x i l, P x -> Forall P l -> Forall P (set_nth i x l).
Proof.
  induction i; intros [|y l] H F; simpl; auto; inversion F; subst; auto.
Qed.

Lemma step_inv : forall text off b o b', pinv text off b -> is_setline o = false ->
  pstep text b o = Some b' -> pinv text off b'.
Proof.
  intros text off b o b' (H1 & H2 & H3 & H4) NS H. destruct o; simpl in *; try discriminate.
  - destruct (_ <=? _)%nat; [|discriminate]. injection H as <-. repeat split; simpl; auto. lia.
  - destruct ((n <=? cur b)%nat && (line_base b <=? cur b - n)%nat) eqn:E; [|discriminate].
    apply andb_true_iff in E. destruct E as [_ E]. apply Nat.leb_le in E.
    injection H as <-. repeat split; simpl; auto.
  - injection H as <-. repeat split; simpl; auto.
  - destruct (_ <? _)%nat; [|discriminate]. injection H as <-. repeat split; simpl; auto.
    apply forall_remove. exact H2.
  - destruct (nth_error (marks b) i) as [m|] eqn:E; [|discriminate]. injection H as <-.
    repeat split; simpl; auto. rewrite Forall_forall in H2. apply H2. eapply nth_error_In; eauto.
  - destruct (_ <? _)%nat; [|discriminate]. injection H as <-. repeat split; simpl; auto.
    apply forall_set; auto.
  - injection H as <-. apply update_inv. repeat split; auto.
Qed.

Lemma run_inv : forall text off ops b b', pinv text off b -> forallb (fun o => negb (is_setline o)) ops = true ->
  prun text b ops = Some b' -> pinv text off b'.
Proof.
  induction ops as [|o ops IH]; intros b b' H N R; simpl in *.
  - injection R as <-. exact H.
  - apply andb_true_iff in N. destruct N as [N1 N2].
    destruct (pstep text b o) as [b1|] eqn:E; [|discriminate].
    apply (IH b1 b'); auto. apply (step_inv text off b o b1); auto. apply negb_true_iff. exact N1.
Qed.

Lemma positions : forall text ops b, forallb (fun o => negb (is_setline o)) ops = true ->
  prun text pinit ops = Some b ->
  getLineAndColumn text b = (line_of text (cur b), column_of text (cur b)).
Proof.
  intros text ops b N R. rewrite (query_inv text 0 b) by (eapply run_inv; eauto using pinit_inv).
  unfold pos_at. f_equal.
Qed.

Lemma prun_app : forall text a b s, prun text s (a ++ b)
  = match prun text s a with Some s' => prun text s' b | None => None end.
Proof.
  induction a as [|o a IH]; intros b s; simpl; auto. destruct (pstep text s o); auto.
Qed.

(** After [#line n]. *)
Lemma setline_inv : forall text off b n, pinv text off b ->
  pinv text (n - 1 - line_of text (line_base b))
    {| cur := cur b; line_base := line_base b; lineno := n - 1; colno := colno b; marks := marks b |}.
Proof. intros text off b n (H1 & H2 & H3 & H4). repeat split; simpl; auto. lia. Qed.

Lemma line_directive : forall text ops1 n ops2 b1 b, 
  forallb (fun o => negb (is_setline o)) ops1 = true -> forallb (fun o => negb (is_setline o)) ops2 = true ->
  prun text pinit ops1 = Some b1 -> prun text pinit (ops1 ++ SetLine n :: ops2) = Some b ->
  getLineAndColumn text b
  = (n - 1 + (line_of text (cur b) - line_of text (cur b1))
     + newline_count (segment text (line_base b1) (cur b1)), column_of text (cur b)).
Proof.
  intros text ops1 n ops2 b1 b N1 N2 R1 R. rewrite prun_app, R1 in R. cbn [prun pstep] in R.
  pose proof (run_inv text 0 ops1 pinit b1 (pinit_inv text) N1 R1) as I1.
  pose proof (setline_inv text 0 b1 n I1) as I2.
  pose proof (run_inv text _ ops2 _ b I2 N2 R) as I3.
  rewrite (query_inv _ _ _ I3). unfold pos_at. f_equal.
  destruct I1 as (H1 & _).
  assert (line_of text (cur b1) = line_of text (line_base b1) + newline_count (segment text (line_base b1) (cur b1))) as E.
  { pose proof (adjust_from text 0 (line_base b1) (cur b1) H1) as X. unfold column_of in X.
    rewrite adjust_spec in X. unfold pos_at in X. injection X as X _. lia. }
  lia.
Qed.

(** * Line markers *)
Lemma reader_newlines : forall n out, reader_line (newlines n ++ out) = reader_line out + Z.of_nat n.
Proof.
  induction n as [|n IH]; intros out; [simpl; lia|].
  change (newlines (S n) ++ out) with (ONewline :: newlines n ++ out). cbn [reader_line]. rewrite IH. lia.
Qed.

Lemma pieces_effect : forall ps s,
  let s' := fold_left opiece ps s in
  input_line s' - out_line s' = input_line s - out_line s + total piece_dropped ps - total piece_strings ps /\
  reader_line (output s') - out_line s' = reader_line (output s) - out_line s - 2 * total piece_strings ps.
Proof.
  induction ps as [|p ps IH]; intros s; cbn [fold_left total fold_right]; [lia|].
  specialize (IH (opiece s p)). cbv zeta in *. destruct IH as [A B].
  fold (total piece_dropped ps) (total piece_strings ps).
  rewrite A, B. destruct p; cbn [opiece input_line out_line output piece_dropped piece_strings];
    try rewrite reader_newlines; lia.
Qed.

Lemma total_nonneg : forall ps, 0 <= total piece_dropped ps /\ 0 <= total piece_strings ps.
Proof.
  induction ps as [|p ps IH]; cbn [total fold_right]; [lia|].
  fold (total piece_dropped ps) (total piece_strings ps). destruct p; cbn [piece_dropped piece_strings]; lia.
Qed.

(** One line, starting in step: exactly when it ends in step, and by how much it is off. *)
Lemma line_step : forall ps s, in_step s ->
  let s' := oline s ps in
  let a := total piece_dropped ps in let k := total piece_strings ps in
  out_line s' = input_line s' /\
  reader_line (output s') = input_line s' - (if (k <=? a) && (a <? k + 8) then 2 * k else 0).
Proof.
  intros ps s [S1 S2] s' a k. pose proof (pieces_effect ps s) as P. cbv zeta in P. destruct P as [A B].
  fold a in A. fold k in A, B. pose proof (total_nonneg ps) as [Na Nk]. fold a in Na. fold k in Nk.
  unfold s', oline, onewline, output_line_command.
  set (t := fold_left opiece ps s) in *. cbn [input_line out_line output reader_line].
  destruct (input_line t + 1 =? out_line t + 1) eqn:E1.
  - cbn [input_line out_line output reader_line]. split; [lia|].
    replace ((k <=? a) && (a <? k + 8)) with true by lia. lia.
  - destruct ((out_line t + 1 <? input_line t + 1) && (input_line t + 1 <? out_line t + 1 + 8)) eqn:E2.
    + cbn [input_line out_line output]. split; [lia|].
      change (newlines (Z.to_nat (input_line t + 1 - (out_line t + 1))) ++ ONewline :: output t)
        with (newlines (Z.to_nat (input_line t + 1 - (out_line t + 1))) ++ (ONewline :: output t)).
      rewrite reader_newlines. cbn [reader_line].
      replace ((k <=? a) && (a <? k + 8)) with true by lia. lia.
    + cbn [input_line out_line output reader_line]. split; [lia|].
      replace ((k <=? a) && (a <? k + 8)) with false by lia. lia.
Qed.

Lemma good_line_step : forall ps s, in_step s -> (in_step (oline s ps) <-> good_line ps).
Proof.
  intros ps s I. destruct (line_step ps s I) as [A B]. pose proof (total_nonneg ps) as [Na Nk].
  unfold in_step, good_line.
  destruct ((total piece_strings ps <=? total piece_dropped ps) && (total piece_dropped ps <? total piece_strings ps + 8)) eqn:E;
    split; intros H; try split; lia.
Qed.

Lemma good_lines : forall ls s, in_step s -> Forall good_line ls -> in_step (fold_left oline ls s).
Proof.
  induction ls as [|l ls IH]; intros s I F; cbn [fold_left]; auto. inversion F; subst.
  apply IH; auto. apply good_line_step; auto.
Qed.

Lemma input_pieces : forall ps s, input_line (fold_left opiece ps s) = input_line s + total piece_newlines ps.
Proof.
  induction ps as [|p ps IH]; intros s; cbn [fold_left total fold_right]; [lia|].
  rewrite IH. fold (total piece_newlines ps). destruct p; cbn [opiece input_line piece_newlines]; lia.
Qed.

Lemma input_oline : forall ps s, input_line (oline s ps) = input_line s + total piece_newlines ps + 1.
Proof.
  intros ps s. unfold oline, onewline, output_line_command. cbn [input_line out_line output].
  rewrite <- input_pieces.
  destruct (_ =? _); [reflexivity|]. destruct (_ && _); reflexivity.
Qed.

Lemma input_olines : forall ls s, input_line (fold_left oline ls s) = input_line s + source_line ls - 1.
Proof.
  induction ls as [|l ls IH]; intros s; cbn [fold_left source_line fold_right]; [lia|].
  rewrite IH, input_oline. fold (source_line ls). lia.
Qed.

Lemma lines_in_step : forall ls, Forall good_line ls ->
  reader_line (output (fold_left oline ls oinit)) = source_line ls.
Proof.
  intros ls F. assert (in_step oinit) as I by (split; reflexivity).
  destruct (good_lines ls oinit I F) as [_ H]. rewrite H, input_olines. cbn [input_line oinit]. lia.
Qed.

Lemma first_bad_line : forall ls ps, Forall good_line ls -> ~ good_line ps ->
  reader_line (output (fold_left oline (ls ++ [ps]) oinit))
  = source_line (ls ++ [ps]) - 2 * total piece_strings ps.
Proof.
  intros ls ps F B. assert (in_step oinit) as I by (split; reflexivity).
  pose proof (good_lines ls oinit I F) as J.
  pose proof (input_olines (ls ++ [ps]) oinit) as E. rewrite fold_left_app in *. cbn [fold_left] in *.
  destruct (line_step ps _ J) as [_ R]. rewrite R, E. cbn [input_line oinit].
  pose proof (total_nonneg ps). unfold good_line in B.
  replace ((total piece_strings ps <=? total piece_dropped ps) && (total piece_dropped ps <? total piece_strings ps + 8)) with true by lia.
  lia.
Qed.

(** Once wrong, the number stays wrong over plain lines. *)
Lemma plain_line : forall s, out_line s = input_line s ->
  let s' := oline s [] in out_line s' = input_line s' /\
  reader_line (output s') - input_line s' = reader_line (output s) - input_line s.
Proof.
  intros s H. unfold oline, onewline, output_line_command. cbn [fold_left input_line out_line output].
  replace (input_line s + 1 =? out_line s + 1) with true by lia.
  cbn [input_line out_line output reader_line]. lia.
Qed.

Lemma plain_lines : forall n s, out_line s = input_line s ->
  let s' := fold_left oline (repeat [] n) s in out_line s' = input_line s' /\
  reader_line (output s') - input_line s' = reader_line (output s) - input_line s.
Proof.
  induction n as [|n IH]; intros s H; cbn [repeat fold_left]; [auto|].
  destruct (plain_line s H) as [A B]. destruct (IH _ A) as [C D]. cbv zeta. split; [exact C|lia].
Qed.

Lemma stays_wrong : forall ls ps n, Forall good_line ls -> ~ good_line ps ->
  reader_line (output (fold_left oline (ls ++ [ps] ++ repeat [] n) oinit))
  = source_line (ls ++ [ps] ++ repeat [] n) - 2 * total piece_strings ps.
Proof.
  intros ls ps n F B.
  pose proof (first_bad_line ls ps F B) as H.
  pose proof (input_olines (ls ++ [ps]) oinit) as E1.
  pose proof (input_olines (ls ++ [ps] ++ repeat [] n) oinit) as E2.
  rewrite app_assoc in *. rewrite (fold_left_app oline (ls ++ [ps])) in *.
  assert (out_line (fold_left oline (ls ++ [ps]) oinit) = input_line (fold_left oline (ls ++ [ps]) oinit)) as I.
  { assert (in_step oinit) as I by (split; reflexivity).
    pose proof (good_lines ls oinit I F) as J. rewrite fold_left_app. cbn [fold_left]. apply (line_step ps _ J). }
  destruct (plain_lines n _ I) as [A D]. cbn [input_line oinit] in *. lia.
Qed.
