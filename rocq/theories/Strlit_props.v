(** C39, C47: the length of string literals (src/cstring.c, src/exprNode.c). *)
From Verif Require Import Cbase Cbase_facts Cmem Strlit_model Strlit_spec Strlit_proofs.
From Coq Require Import ZifyBool.

(** C39. Missing: short octal escapes followed by 8 or 9 ([C39_octal_refuted]) and adjacent
    literals ([C39_adjacent_refuted]). *)
Theorem C39_length_partial : forall body vs, denotes no_89 body vs ->
  lengthExpandEscapes body = Done (List.length vs).
Proof. exact length_single. Qed.
Print Assumptions C39_length_partial.


(** A body with all kinds of items: a, \n, \x4F, g, \007, 9, \0 *)
Example C39_body : denotes second_zero (lit "a\n\x4Fg\0079\0") [97; 10; 79; 103; 7; 57; 0].
Proof.
  apply (D_char _ "a"%char); try discriminate.
  apply (D_escape _ "n"%char); [constructor|].
  apply (D_hex _ (lit "4F") (lit "g\0079\0")); [discriminate| | |vm_compute; discriminate|].
  { repeat constructor; vm_compute; intuition congruence. }
  { vm_compute. intuition congruence. }
  apply (D_char _ "g"%char); try discriminate.
  apply (D_octal _ (lit "007") (lit "9\0")); [simpl; lia| |left; reflexivity|vm_compute; discriminate| |].
  { repeat constructor; vm_compute; intuition congruence. }
  { split; [left; reflexivity|reflexivity]. }
  apply (D_char _ "9"%char); try discriminate.
  apply (D_octal _ (lit "0") []); [simpl; lia| |right; intros []|vm_compute; discriminate| |].
  { repeat constructor; vm_compute; intuition congruence. }
  { split; [right; intros []|exact I]. }
  apply D_nil.
Qed.
Example C39_length_partial_ex : lengthExpandEscapes (lit "a\n\x4Fg\0079\0") = Done 7%nat.
Proof. vm_compute. reflexivity. Qed.

(** C39. For the same bodies, an array initialised from the literal gets exactly the warning
    its size calls for (the array has [n] > 0 elements; the literal stands for
    [length vs] characters and a terminator). *)
Theorem C39_warning_partial : forall body vs n, denotes no_89 body vs -> (0 < n)%nat ->
  exists w, checkStringLiteralLength n body = Done w /\
  (w = TooLong <-> (n < List.length vs)%nat) /\
  (w = NoRoom \/ w = NoRoomFinalNull <-> List.length vs = n) /\
  (w = Wasted <-> (List.length vs + 1 < n)%nat) /\
  (w = NoWarning <-> (List.length vs + 1 = n)%nat).
Proof. exact check_spec. Qed.
Print Assumptions C39_warning_partial.
Example C39_warning_partial_ex :
  checkStringLiteralLength 6 (lit "a\n\x4Fg\0079\0") = Done TooLong /\
  checkStringLiteralLength 7 (lit "a\n\x4Fg\0079\0") = Done NoRoomFinalNull /\
  checkStringLiteralLength 8 (lit "a\n\x4Fg\0079\0") = Done NoWarning /\
  checkStringLiteralLength 9 (lit "a\n\x4Fg\0079\0") = Done Wasted.
Proof. vm_compute. auto. Qed.

(** C39. When moreover the second digit of every octal escape is 0, the characters
    themselves are right, and with them the two kinds of "no room" warning. *)
Theorem C39_final_null_partial : forall body vs n, denotes second_zero body vs ->
  List.length vs = n -> (0 < n)%nat ->
  doExpandEscapes body = Done (map chr vs) /\
  checkStringLiteralLength n body = Done (if last vs 0 =? 0 then NoRoomFinalNull else NoRoom).
Proof.
  intros body vs n D L N. split; [apply expand_values; [exact D|lia]|apply check_final_null; auto].
Qed.
Print Assumptions C39_final_null_partial.
Example C39_final_null_partial_ex : checkStringLiteralLength 2 (lit "ab") = Done NoRoom.
Proof. vm_compute. reflexivity. Qed.

(** C39 is false: "\18" is two characters in C, one for splint. *)
Theorem C39_octal_refuted : exists body vs, denotes c_octal body vs /\
  List.length vs = 2%nat /\ lengthExpandEscapes body = Done 1%nat /\ body = lit "\18".
Proof.
  exists (lit "\18"), [1; 56]. split; [|vm_compute; auto].
  apply (D_octal _ (lit "1") (lit "8")); [simpl; lia| |right; vm_compute; intuition congruence
    |vm_compute; discriminate|exact I|].
  { repeat constructor; vm_compute; intuition congruence. }
  apply (D_char _ "8"%char); try discriminate. apply D_nil.
Qed.
Print Assumptions C39_octal_refuted.

(** C39 is false for every pair of adjacent literals: the length is 0 when the first is
    empty, and otherwise read from unwritten memory. *)
Theorem C39_adjacent : forall body vs ws rest vs', denotes no_89 body vs -> ~ In ch_quote ws ->
  denotes c_octal rest vs' ->
  lengthExpandEscapes (body ++ ch_quote :: ws ++ ch_quote :: rest)
  = match body with [] => Done 0%nat | _ => UB end.
Proof. exact adjacent_length. Qed.
Print Assumptions C39_adjacent.

Local Lemma denotes_ab : forall P, denotes P (lit "ab") [97; 98].
Proof.
  intros P. apply (D_char _ "a"%char); try discriminate.
  apply (D_char _ "b"%char); try discriminate. apply D_nil.
Qed.

Theorem C39_adjacent_refuted : exists body rest vs vs',
  denotes c_octal body vs /\ denotes c_octal rest vs' /\ (List.length vs + List.length vs' = 2)%nat /\
  lengthExpandEscapes (body ++ ch_quote :: ch_space :: ch_quote :: rest) = Done 0%nat.
Proof.
  exists [], (lit "ab"), [], [97; 98]. split; [apply D_nil|]. split; [apply denotes_ab|]. vm_compute. auto.
Qed.
Print Assumptions C39_adjacent_refuted.
Example C39_adjacent_ex :
  lengthExpandEscapes (lit "ab" ++ ch_quote :: ch_space :: ch_quote :: lit "cd") = UB.
Proof. vm_compute. reflexivity. Qed.

(** C39: the values of octal escapes are wrong: "a\07" ends in the character 7, and is
    reported as ending in a null character; the second digit is never added. *)
Theorem C39_octal_value_refuted : exists body vs, denotes no_89 body vs /\ last vs 0 = 7 /\
  List.length vs = 2%nat /\ checkStringLiteralLength 2 body = Done NoRoomFinalNull /\ body = lit "a\07".
Proof.
  exists (lit "a\07"), [97; 7]. split; [|vm_compute; auto].
  apply (D_char _ "a"%char); try discriminate.
  apply (D_octal _ (lit "07") []); [simpl; lia| |right; intros []|vm_compute; discriminate|right; intros []|].
  { repeat constructor; vm_compute; intuition congruence. }
  apply D_nil.
Qed.
Print Assumptions C39_octal_value_refuted.

(** C47. Whatever the text, expansion ends, and the characters produced fit the buffer
    allocated for them (one cell more than the text, the last for the terminator). *)
Theorem C47_expansion_fits : forall s,
  doExpandEscapes s <> Bad /\
  (forall out, doExpandEscapes s = Done out -> (List.length out <= List.length s)%nat).
Proof.
  intros s. split; [apply expand_never_bad; lia|apply expand_fits].
Qed.
Print Assumptions C47_expansion_fits.
Example C47_expansion_fits_ex : doExpandEscapes (lit "\\\x") = Done (lit "\x").
Proof. vm_compute. reflexivity. Qed.

(** C47. Merging never stores outside its buffer, whatever the text. *)
Theorem C47_merge_fits : forall s, doMergeString s <> UB.
Proof.
  intros s. apply merge_no_ub. unfold fresh. cbn [List.length]. rewrite repeat_length. lia.
Qed.
Print Assumptions C47_merge_fits.
Example C47_merge_fits_ex : doMergeString (lit "\") = Done [Some "092"%char; Some ch_nul].
Proof. vm_compute. reflexivity. Qed.
