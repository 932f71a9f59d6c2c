(** Property theorems C17 (message limit) and C18 (CSV output). *)
From Coq Require Import ZArith List Bool Lia Ascii String.
From Verif Require Import Cbase Limit_model Limit_spec Limit_proofs.
Import ListNotations.
Local Open Scope Z_scope.

(** ** C17 *)

(** Once flushed, printed messages and counted ones add up to the accepted ones, for every
    limit [n] and every history of messages and earlier flushes. *)
Theorem C17_conservation : forall n ops, 0 <= n ->
  total (output n (ops ++ [Flush])) = Z.of_nat (List.length (messages ops)).
Proof. exact conservation. Qed.
Print Assumptions C17_conservation.

(** Without a limit every message is printed. *)
Theorem C17_unlimited : forall n ops, n < 0 -> output n ops = map Shown (messages ops).
Proof. exact unlimited. Qed.
Print Assumptions C17_unlimited.

(** Exactly what is printed for a run of [k + 1] equal messages after any history that ended
    with a different one: nothing is counted unless there are more than [n + 2] of them. *)
Theorem C17_run : forall n h t k, 0 <= n -> last_text h <> t ->
  output n (h ++ repeat (Msg t) (S k) ++ [Flush]) = output n (h ++ [Flush]) ++ run_lines n t (S k).
Proof. exact run_output. Qed.
Print Assumptions C17_run.

(** A different message is printed at once, after what was held back. *)
Theorem C17_change : forall n h t, 0 <= n -> last_text h <> t ->
  output n (h ++ [Msg t]) = output n (h ++ [Flush]) ++ [Shown t].
Proof. exact change_output. Qed.
Print Assumptions C17_change.

Example C17_ex :
  let a : cstr := lit "Variable x: used"%string in let b : cstr := lit "Variable y: used"%string in
  let h := [Msg a; Msg a; Msg a; Msg a; Msg a; Msg b; Flush; Msg b; Msg b; Msg b; Msg a] in
  output 1 (h ++ [Flush]) = [Shown a; Shown a; More 3; Shown b; Shown b; More 2; Shown a] /\
  last_text h <> b /\ total (output 1 (h ++ [Flush])) = 10 /\ run_lines 1 a 5 = [Shown a; Shown a; More 3].
Proof. cbv zeta. split; [vm_compute; reflexivity|]. split; [discriminate|]. split; vm_compute; reflexivity. Qed.

(** Messages that differ only after the colon are not similar: with limit 0 a message whose
    text up to the colon is that of the one before is printed all the same. *)
Theorem C17_similar_refuted : exists p a b,
  a <> b /\ output 0 [Msg (p ++ ":"%char :: a); Msg (p ++ ":"%char :: b); Msg (p ++ ":"%char :: a)]
  = [Shown (p ++ ":"%char :: a); Shown (p ++ ":"%char :: b); Shown (p ++ ":"%char :: a)].
Proof.
  exists (lit "Test expression not boolean"%string), (lit " x"%string), (lit " y"%string).
  split; [discriminate|]. vm_compute. reflexivity.
Qed.
Print Assumptions C17_similar_refuted.

(** Without a final flush (there is none after the global checks) messages are lost. *)
Theorem C17_no_flush_refuted : exists ops,
  total (output 0 ops) < Z.of_nat (List.length (messages ops)).
Proof. exists [Msg (lit "a"%string); Msg (lit "a"%string)]. vm_compute. reflexivity. Qed.
Print Assumptions C17_no_flush_refuted.

(** ** C18 *)

(** A file of rows is read back to the fields of the messages when no text contains a double
    quote and no file or flag name a comma, quote or newline. *)
Theorem C18_round_trip_partial : forall ms,
  (forall m, In m ms -> csv_plain (c_flag m) /\ csv_plain (c_file m) /\ no_quote (c_text m) /\
     match c_add m with Some a => no_quote a | None => True end) ->
  read_csv (csv_file ms) = Some (map fields ms).
Proof. exact parse_file. Qed.
Print Assumptions C18_round_trip_partial.

Local Definition m0 (file text : string) (add : option cstr) : csvmsg :=
  CM 7 250 (lit "fixedformalarray") 2 (lit file) 12 (-1) (lit text) add.

Example C18_round_trip_ex :
  read_csv (csv_file [m0 "a.c" "Array, of size 4" (Some (lit "Line one,
line two")); m0 "b c.h" "" None]) =
  Some [fields (m0 "a.c" "Array, of size 4" (Some (lit "Line one,
line two"))); fields (m0 "b c.h" "" None)].
Proof. vm_compute. reflexivity. Qed.

(** A quote in the message text (a string literal in the source): not readable, or read as
    something else. *)
Theorem C18_quote_refuted : 
  (exists m, read_csv (csv_file [m]) = None) /\
  (exists m r, read_csv (csv_file [m]) = Some [r] /\ r <> fields m).
Proof.
  split.
  - exists (m0 "a.c" "Bad format: ""%d""" None). vm_compute. reflexivity.
  - exists (m0 "a.c" """,""" None). eexists. split; [vm_compute; reflexivity|]. vm_compute. discriminate.
Qed.
Print Assumptions C18_quote_refuted.

(** A comma in a file name: another number of fields. *)
Theorem C18_comma_refuted : exists m r,
  read_csv (csv_file [m]) = Some [r] /\ List.length r <> List.length (fields m).
Proof. exists (m0 "a,b.c" "text" None). eexists. split; [vm_compute; reflexivity|]. vm_compute. discriminate. Qed.
Print Assumptions C18_comma_refuted.
