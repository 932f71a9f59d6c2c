(** * The text of a message *)
From Verif Require Import Cbase Wrap_model.
Local Open Scope nat_scope.

(** Blanks, newlines and indentation codes are layout, everything else is text. *)
Definition is_text (c : ascii) : bool :=
  negb (is_blank c || Ascii.eqb c ch_nl || is_code c).
Definition text_of (s : cstr) : cstr := filter is_text s.

(** The sum of the indentation codes in a message. *)
Definition codes (s : cstr) : nat :=
  fold_right (fun c n => (if is_code c then Z.to_nat (code c) else 0) + n) 0 s.
(** The width in use and the largest indentation with which splitting always comes to an end. *)
Definition width (maxline : nat) : nat := Nat.max maxline 20.
Definition max_indent (maxline : nat) : nat := Nat.max 4 (width maxline - 21).
