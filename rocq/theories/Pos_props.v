(** C42, C48: source positions in the preprocessor and line numbers after it (src/cpplib.c). *)
From Verif Require Import Cbase Cbase_facts Pos_model Pos_spec Pos_proofs.
From Coq Require Import ZifyBool.

Definition two_lines : cstr := lit "int a;" ++ [ch_nl] ++ lit "  char b;" ++ [ch_nl].

(** C42. Without [#line]: after any reading, backing up, marking, going back to marks, moving
    and clearing them and synchronising, the position reported is that of the next character. *)
Theorem C42_position : forall text ops b,
  forallb (fun o => negb (is_setline o)) ops = true ->
  prun text pinit ops = Some b ->
  getLineAndColumn text b = (line_of text (cur b), column_of text (cur b)).
Proof. exact positions. Qed.
Print Assumptions C42_position.

Definition C42_ops : list pop :=
  [Advance 3; SetMark; Advance 6; Update; SetMark; Back 2; Advance 4; GotoMark 1; Advance 7; MoveMark 0;
   Update; Back 1; ClearMark 1; Update].
Example C42_position_ex : exists b, prun two_lines pinit C42_ops = Some b /\
  cur b = 9%nat /\ line_base b = 9%nat /\ lineno b = 2 /\ getLineAndColumn two_lines b = (2, 3).
Proof. eexists. split; [vm_compute; reflexivity|]. vm_compute. auto. Qed.

(** C42. With a [#line n] directive: the line reported afterwards counts from [n] at the line
    after the directive, plus whatever newlines lay, when the directive was obeyed, between the
    last synchronisation and it. *)
Theorem C42_line_directive : forall text ops1 n ops2 b1 b,
  forallb (fun o => negb (is_setline o)) ops1 = true ->
  forallb (fun o => negb (is_setline o)) ops2 = true ->
  prun text pinit ops1 = Some b1 ->
  prun text pinit (ops1 ++ SetLine n :: ops2) = Some b ->
  getLineAndColumn text b
  = (n - 1 + (line_of text (cur b) - line_of text (cur b1))
     + newline_count (segment text (line_base b1) (cur b1)), column_of text (cur b)).
Proof. exact line_directive. Qed.
Print Assumptions C42_line_directive.

(** C42. So when no newline was read since the last synchronisation (which follows every
    newline token), the line after [#line n] is line [n], and so on. *)
Theorem C42_line_directive_exact : forall text ops1 n ops2 b1 b,
  forallb (fun o => negb (is_setline o)) ops1 = true ->
  forallb (fun o => negb (is_setline o)) ops2 = true ->
  prun text pinit ops1 = Some b1 -> prun text pinit (ops1 ++ SetLine n :: ops2) = Some b ->
  newline_count (segment text (line_base b1) (cur b1)) = 0 ->
  fst (getLineAndColumn text b) = n + (line_of text (cur b) - (line_of text (cur b1) + 1)).
Proof.
  intros text ops1 n ops2 b1 b N1 N2 R1 R E.
  rewrite (line_directive text ops1 n ops2 b1 b N1 N2 R1 R), E. cbn [fst]. lia.
Qed.
Print Assumptions C42_line_directive_exact.

Definition line_text : cstr := lit "x" ++ [ch_nl] ++ lit "#line 50" ++ [ch_nl] ++ lit "y" ++ [ch_nl] ++ lit "z".
Example C42_line_directive_ex : exists b1 b,
  prun line_text pinit [Advance 2; Update; Advance 8] = Some b1 /\
  newline_count (segment line_text (line_base b1) (cur b1)) = 0 /\
  prun line_text pinit ([Advance 2; Update; Advance 8] ++ SetLine 50 :: [Advance 1; Update; Advance 2]) = Some b /\
  getLineAndColumn line_text b = (51, 1).
Proof. eexists. eexists. split; [vm_compute; reflexivity|]. split; [vm_compute; reflexivity|].
  split; [vm_compute; reflexivity|]. vm_compute. reflexivity. Qed.

(** C42. A comment over several lines before [#line] on the same line: the newlines of the
    comment are counted a second time ([do_line] 5280 stores the number without moving the
    place it belongs to). *)
Definition comment_line_text : cstr :=
  lit "/* one" ++ [ch_nl] ++ lit "two */ #line 50" ++ [ch_nl] ++ lit "y".
Theorem C42_line_after_comment_refuted : exists text ops1 n ops2 b1 b,
  prun text pinit ops1 = Some b1 /\ prun text pinit (ops1 ++ SetLine n :: ops2) = Some b /\
  line_of text (cur b) = line_of text (cur b1) + 1 /\ fst (getLineAndColumn text b) <> n.
Proof.
  exists comment_line_text, [Advance 22], 50, [Update; Advance 1; Update].
  eexists. eexists. split; [vm_compute; reflexivity|]. split; [vm_compute; reflexivity|].
  split; [vm_compute; reflexivity|]. vm_compute. discriminate.
Qed.
Print Assumptions C42_line_after_comment_refuted.

(** C48. Line numbers downstream: after any sequence of source lines none of which mixes
    continuations inside strings with lines lost outside them, a reader of the preprocessed
    text counting newlines and obeying the markers is on the right line. *)
Theorem C48_lines_in_step : forall ls, Forall good_line ls ->
  reader_line (output (fold_left oline ls oinit)) = source_line ls.
Proof. exact lines_in_step. Qed.
Print Assumptions C48_lines_in_step.

Definition sample_lines : list (list piece) :=
  [[]; [Comment 3; Text 0 1]; [Continued; Continued]; [Dropped 12]; [Text 2 0; Continued];
   repeat Continued 9; [Text 1 1; Comment 1]; []].
Example C48_lines_in_step_ex :
  Forall good_line sample_lines /\ source_line sample_lines = 42 /\
  rev (output (fold_left oline sample_lines oinit))
  = newlines 9 ++ [ONewline; OMarker 23; ONewline; OMarker 27; ONewline; OMarker 37;
                    ONewline; ONewline; ONewline; OMarker 41] ++ newlines 1.
Proof.
  split; [|split; vm_compute; reflexivity].
  repeat (constructor; [unfold good_line; vm_compute; intuition congruence|]). constructor.
Qed.

(** C48. The condition is exact: from a point in step, a line ends in step if and only if it
    is good. *)
Theorem C48_exactly_good_lines : forall ps s, in_step s -> (in_step (oline s ps) <-> good_line ps).
Proof. exact good_line_step. Qed.
Print Assumptions C48_exactly_good_lines.
Example C48_exactly_ex : in_step oinit /\ ~ good_line [Text 1 0; Continued] /\ good_line [Text 1 0].
Proof. split; [split; reflexivity|]. unfold good_line. vm_compute. intuition congruence. Qed.

(** C48. After a line that is not good every following plain line is numbered too low, by
    twice the continuations inside its strings. *)
Theorem C48_stays_wrong : forall ls ps n, Forall good_line ls -> ~ good_line ps ->
  reader_line (output (fold_left oline (ls ++ [ps] ++ repeat [] n) oinit))
  = source_line (ls ++ [ps] ++ repeat [] n) - 2 * total piece_strings ps.
Proof. exact stays_wrong. Qed.
Print Assumptions C48_stays_wrong.

(** C48. Without the condition: a string continued once, then a backslash-newline outside it;
    ten lines on the numbers are still two too low. *)
Theorem C48_mixed_continuations_refuted : exists ls,
  reader_line (output (fold_left oline ls oinit)) <> source_line ls.
Proof. exists ([Text 1 0; Continued] :: repeat [] 10). vm_compute. discriminate. Qed.
Print Assumptions C48_mixed_continuations_refuted.
