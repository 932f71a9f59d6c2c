(** Line and column of a place in a text; the line number a reader of the preprocessed text
    has at its end. *)
From Verif Require Import Cbase Pos_model.

Definition newline_count (s : cstr) : Z := Z.of_nat (count_occ Ascii.ascii_dec s ch_nl).

(** The part of [s] after its last newline. *)
Fixpoint last_line (s acc : cstr) : cstr :=
  match s with
  | [] => acc
  | c :: r => if Ascii.eqb c ch_nl then last_line r [] else last_line r (acc ++ [c])
  end.

Definition line_of (text : cstr) (p : nat) : Z := 1 + newline_count (firstn p text).
Definition column_of (text : cstr) (p : nat) : Z := 1 + Z.of_nat (List.length (last_line (firstn p text) [])).

Definition is_setline (o : pop) : bool := match o with SetLine _ => true | _ => false end.

(** The reader counts newlines; a marker says what the number of the next line is.  Written
    latest first; the text starts on line 1. *)
Fixpoint reader_line (out : list oitem) : Z :=
  match out with
  | [] => 1
  | ONewline :: r => reader_line r + 1
  | OMarker n :: _ => n
  end.

(** Continuations inside strings, and source lines that leave no trace in the output. *)
Definition piece_strings (p : piece) : Z := match p with Text k _ => Z.of_nat k | _ => 0 end.
Definition piece_dropped (p : piece) : Z :=
  match p with Continued => 1 | Dropped n => Z.of_nat n | _ => 0 end.
Definition total (f : piece -> Z) (ps : list piece) : Z := fold_right (fun p a => f p + a) 0 ps.

(** Newlines in a piece of a source line. *)
Definition piece_newlines (p : piece) : Z :=
  match p with Comment n => Z.of_nat n | Text k n => Z.of_nat k + Z.of_nat n | Continued => 1 | Dropped n => Z.of_nat n end.
Definition source_line (ls : list (list piece)) : Z :=
  fold_right (fun ps a => total piece_newlines ps + 1 + a) 1 ls.

(** The counters and the reader of the output agree with the source. *)
Definition in_step (s : ostate) : Prop := out_line s = input_line s /\ reader_line (output s) = input_line s.

(** No continuation inside a string, or more of them than lines lost outside strings, or at
    least eight more lines lost. *)
Definition good_line (ps : list piece) : Prop :=
  total piece_strings ps = 0 \/ total piece_dropped ps < total piece_strings ps
  \/ total piece_strings ps + 8 <= total piece_dropped ps.
