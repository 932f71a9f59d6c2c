(** Property theorems C19 (splitting messages into lines). *)
From Coq Require Import ZArith List Bool Lia Ascii String.
From Verif Require Import Cbase Wrap_model Wrap_spec Wrap_proofs.
Import ListNotations.
Local Open Scope nat_scope.

(** Hints and plain messages: printing comes to an end, in at most one line per character,
    keeps the text and the width, when the indentation is not too large for the width. *)
Theorem C19_indent_message : forall maxline ind text, ind + codes text <= max_indent maxline ->
  exists ls, (forall fuel, List.length text < fuel -> print_loop fuel maxline ind text = Some ls) /\
    text_of (List.concat ls) = text_of text /\ (forall l, In l ls -> List.length l <= width maxline).
Proof. exact print_keeps. Qed.
Print Assumptions C19_indent_message.

Local Definition hint : cstr :=
  lit "A parameter is not used in the body of the function. If the argument is needed for type compatibility or future plans, use /*@unused@*/ in the argument declaration. (Use -paramuse to inhibit warning)".

Example C19_indent_message_ex :
  2 + codes hint <= max_indent 80 /\
  option_map (map (fun l => string_of_list_ascii l)) (print_loop 300 80 2 hint) = Some
   ["  A parameter is not used in the body of the function. If the argument is"%string;
    "  needed for type compatibility or future plans, use /*@unused@*/ in the"%string;
    "  argument declaration. (Use -paramuse to inhibit warning)"%string].
Proof. split; [vm_compute; lia|]. vm_compute. reflexivity. Qed.

(** Whenever printing does come to an end, text and width are kept, for every indentation. *)
Theorem C19_finished : forall fuel maxline ind text ls, print_loop fuel maxline ind text = Some ls ->
  text_of (List.concat ls) = text_of text /\ forall l, In l ls -> List.length l <= width maxline.
Proof. exact loop_keeps. Qed.
Print Assumptions C19_finished.

(** Error messages: printing comes to an end and keeps the text, for every length of line and
    of location. *)
Theorem C19_error : forall maxlen loclen s fuel, codes s <= 4 -> List.length s < fuel ->
  exists ls, print_error fuel maxlen loclen s = Some ls /\ text_of (List.concat ls) = text_of s.
Proof. exact error_prints. Qed.
Print Assumptions C19_error.

(** One-line messages fit, whatever the length of the location, in lines of at least 42. *)
Theorem C19_error_fits : forall maxlen loclen s fuel, codes s <= 4 -> List.length s < fuel -> ~ In ch_nl s ->
  42 <= maxlen ->
  exists ls, print_error fuel maxlen loclen s = Some ls /\ forall l, In l ls -> List.length l <= maxlen.
Proof. exact error_fits. Qed.
Print Assumptions C19_error_fits.

Local Definition err : cstr :=
  lit "t.c:3:5: Function f called with 3 args, expects 2: f (a, b, some_function_with_a_long_name (c))".
Example C19_error_ex :
  codes err <= 4 /\ ~ In ch_nl err /\ 42 <= 60 /\
  option_map (map (fun l => string_of_list_ascii l)) (print_error 300 60 7 err) = Some
   ["t.c:3:5: Function f called with 3 args, expects 2:"%string;
    "            f (a, b, some_function_with_a_long_name (c))"%string].
Proof.
  split; [vm_compute; lia|]. split; [vm_compute; intuition discriminate|]. split; [lia|]. vm_compute. reflexivity.
Qed.

(** For every larger indentation there is a word of 20 letters whose printing never comes to
    an end: the limit in the theorem above is exact. With -linelen 20 an indentation of 5
    is enough, with -linelen 80 one of 60. *)
Theorem C19_indent_refuted : forall maxline ind, max_indent maxline < ind ->
  exists text, codes text = 0 /\ List.length text = 20 /\ forall fuel, print_loop fuel maxline ind text = None.
Proof. exact never_ends. Qed.
Print Assumptions C19_indent_refuted.

Example C19_indent_refuted_ex : max_indent 20 < 5 /\ max_indent 80 < 60 /\ max_indent 80 = 59.
Proof. vm_compute. lia. Qed.

(** A short message of two lines is printed wider than the line length. *)
Theorem C19_multiline_refuted : exists s ls l,
  codes s = 0 /\ print_error 300 80 7 s = Some ls /\ In l ls /\ 80 < List.length l.
Proof.
  exists (lit "a.c:1:1: Bad
   value used twice").
  eexists. eexists. split; [reflexivity|]. split; [vm_compute; reflexivity|].
  split; [right; left; reflexivity|]. vm_compute. lia.
Qed.
Print Assumptions C19_multiline_refuted.

(** 42 is exact: with a line length of 41 a one-line message is printed wider. *)
Theorem C19_narrow_refuted : exists s ls l,
  codes s = 0 /\ ~ In ch_nl s /\ print_error 300 41 17 s = Some ls /\ In l ls /\ 41 < List.length l.
Proof.
  exists (lit "/dir/fil.c:100:23: f unrecognized_identifier_in_this_expr_1").
  eexists. eexists. split; [reflexivity|]. split; [vm_compute; intuition discriminate|]. split; [vm_compute; reflexivity|].
  split; [right; left; reflexivity|]. vm_compute. lia.
Qed.
Print Assumptions C19_narrow_refuted.
