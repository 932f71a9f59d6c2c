(** Model of the tracking of source positions in the preprocessor, src/cpplib.c:
    [adjust_position] 3134–3145, [update_position] 3149–3170,
    [cppBuffer_getLineAndColumn] 3172–3199, parse marks 7384–7447, the assignment of
    [do_line] 5280, and of the line markers it writes, [output_line_command] 3242–3329 with
    the places that count output lines (6121–6123, 6245–6253, 6273, 6445–6447, 6723–6728).

    Simplified: one file buffer; counters are unbounded integers; positions are indices into
    the text of the buffer; of the output only what decides line numbers is kept. *)
From Verif Require Import Cbase.

(** src/cpplib.c 3134–3145 [adjust_position] over the text between two positions. *)
Fixpoint adjust_position (seg : cstr) (line col : Z) : Z * Z :=
  match seg with
  | [] => (line, col)
  | ch :: r => if Ascii.eqb ch ch_nl then adjust_position r (line + 1) 1
               else adjust_position r line (col + 1)
  end.

(** The text from position [a] up to position [b] (empty when [b <= a], as for the pointers
    of [adjust_position]). *)
Definition segment (text : cstr) (a b : nat) : cstr := firstn (b - a) (skipn a text).

(** The fields of [cppBuffer] (src/Headers/cpplib.h 74–112) that matter here. *)
Record pbuf := { cur : nat; line_base : nat; lineno : Z; colno : Z; marks : list nat }.

(** src/cpplib.c 7119–7160 [cppReader_pushBuffer] / [finclude] 7762: a new file buffer; line and
    column 1 (7135–7136). *)
Definition pinit : pbuf := {| cur := 0; line_base := 0; lineno := 1; colno := 1; marks := [] |}.

(** src/cpplib.c 3172–3199 [cppBuffer_getLineAndColumn]. *)
Definition getLineAndColumn (text : cstr) (b : pbuf) : Z * Z :=
  adjust_position (segment text (line_base b) (cur b)) (lineno b) (colno b).

(** src/cpplib.c 3149–3170 [update_position]. *)
Definition update_position (text : cstr) (b : pbuf) : pbuf :=
  let new := fold_left (fun p m => if (m <? p)%nat then m else p) (marks b) (cur b) in
  let '(l, c) := adjust_position (segment text (line_base b) new) (lineno b) (colno b) in
  {| cur := cur b; line_base := new; lineno := l; colno := c; marks := marks b |}.

(** What the scanner does to the buffer. *)
Inductive pop :=
| Advance (n : nat)    (** read [n] characters: [cppReader_getC], [cppReader_forward] *)
| Back (n : nat)       (** [cppReader_forward] with a negative count, as at 1440, 6303 *)
| SetMark              (** 7384 [parseSetMark] *)
| ClearMark (i : nat)  (** 7401 [parseClearMark] of the [i]-th mark *)
| GotoMark (i : nat)   (** 7416 [parseGotoMark] *)
| MoveMark (i : nat)   (** 7435 [parseMoveMark] *)
| Update               (** 3255, from [output_line_command] *)
| SetLine (n : Z).     (** 5280, [#line n]: [ip->lineno = n - 1] *)

Fixpoint remove_nth {A} (i : nat) (l : list A) : list A :=
  match l, i with
  | [], _ => []
  | _ :: r, O => r
  | x :: r, S j => x :: remove_nth j r
  end.
Fixpoint set_nth {A} (i : nat) (x : A) (l : list A) : list A :=
  match l, i with
  | [], _ => []
  | _ :: r, O => x :: r
  | y :: r, S j => y :: set_nth j x r
  end.

(** One step; [None]: reading past the text, backing up over the position counted so far
    other than by a mark, or using a mark that is not set. *)
Definition pstep (text : cstr) (b : pbuf) (o : pop) : option pbuf :=
  let upd c m := {| cur := c; line_base := line_base b; lineno := lineno b; colno := colno b; marks := m |} in
  match o with
  | Advance n => if (cur b + n <=? List.length text)%nat then Some (upd (cur b + n)%nat (marks b)) else None
  | Back n => if (n <=? cur b)%nat && (line_base b <=? cur b - n)%nat then Some (upd (cur b - n)%nat (marks b)) else None
  | SetMark => Some (upd (cur b) (cur b :: marks b))
  | ClearMark i => if (i <? List.length (marks b))%nat then Some (upd (cur b) (remove_nth i (marks b))) else None
  | GotoMark i => match nth_error (marks b) i with Some m => Some (upd m (marks b)) | None => None end
  | MoveMark i => if (i <? List.length (marks b))%nat then Some (upd (cur b) (set_nth i (cur b) (marks b))) else None
  | Update => Some (update_position text b)
  | SetLine n => Some {| cur := cur b; line_base := line_base b; lineno := n - 1; colno := colno b; marks := marks b |}
  end.

Fixpoint prun (text : cstr) (b : pbuf) (ops : list pop) : option pbuf :=
  match ops with
  | [] => Some b
  | o :: r => match pstep text b o with Some b' => prun text b' r | None => None end
  end.

(** * Line markers *)

(** What the preprocessed text contains, as far as line numbers go. *)
Inductive oitem := ONewline | OMarker (n : Z).

(** [input_line]: line of the source reached; [out_line]: [pfile->lineno]; [output]: what has
    been written, latest first. *)
Record ostate := { input_line : Z; out_line : Z; output : list oitem }.

Definition newlines (n : nat) : list oitem := repeat ONewline n.

(** Pieces of a source line. *)
Inductive piece :=
| Comment (n : nat)       (** a comment over [n + 1] lines: 6121–6123, newlines kept, 8460–8463 *)
| Text (cont nl : nat)    (** a string with [cont] continued lines (6245–6253) and [nl] plain
                              newlines (6273) *)
| Continued               (** backslash newline outside strings (6445–6447): newline dropped *)
| Dropped (n : nat).      (** [n] newlines inside a directive: read, nothing written *)

Definition opiece (s : ostate) (p : piece) : ostate :=
  match p with
  | Comment n => {| input_line := input_line s + Z.of_nat n; out_line := out_line s + Z.of_nat n;
                    output := newlines n ++ output s |}
  | Text k n => {| input_line := input_line s + Z.of_nat k + Z.of_nat n;
                   out_line := out_line s + 2 * Z.of_nat k + Z.of_nat n;
                   output := newlines n ++ output s |}
  | Continued => {| input_line := input_line s + 1; out_line := out_line s; output := output s |}
  | Dropped n => {| input_line := input_line s + Z.of_nat n; out_line := out_line s; output := output s |}
  end.

(** src/cpplib.c 3242–3329 [output_line_command] with [conditional] true. *)
Definition output_line_command (s : ostate) : ostate :=
  let line := input_line s in
  if line =? out_line s then s
  else if (out_line s <? line) && (line <? out_line s + 8)
  then {| input_line := line; out_line := line;
          output := newlines (Z.to_nat (line - out_line s)) ++ output s |}
  else {| input_line := line; out_line := line; output := OMarker line :: output s |}.

(** src/cpplib.c 6723–6728: a newline token. *)
Definition onewline (s : ostate) : ostate :=
  output_line_command
    {| input_line := input_line s + 1; out_line := out_line s + 1; output := ONewline :: output s |}.

(** A source line (in pieces) and the newline ending it. *)
Definition oline (s : ostate) (ps : list piece) : ostate := onewline (fold_left opiece ps s).

Definition oinit : ostate := {| input_line := 1; out_line := 1; output := [] |}.
