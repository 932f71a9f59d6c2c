(** The properties C79 to C83: formats of printf and scanf. *)
From Coq Require Import Lia.
From Verif Require Import Cbase Prim_model Tspec_model Format_model Format_spec Format_proofs.

Local Open Scope nat_scope.

(** C79: for a format as C describes it, there is a message about the number of arguments exactly if
    the number is wrong; and the check ends.
    Missing: formats with another flag behind a flag 0. *)
Theorem C79_printf_number_partial :
  forall A is_error matches ignore f args,
    pformat_wf f -> Forall pflags_in_order f -> Forall (fun a => is_error a = false) args ->
    let r := printf_check A is_error matches ignore (pformat_text f) args in
    snd r = Finished
    /\ ((exists m, In m (fst r) /\ about_number m)
        <-> List.length args <> List.length (pformat_args f)).
Proof. exact printf_number. Qed.
Print Assumptions C79_printf_number_partial.

(** The format [%-*.3ld of %%%s] and its three arguments. *)
Definition some_format : list ppiece :=
  [PDir (PD (lit "-") (Some Star) (Some (Num (lit "3"))) Ml "d"); PText (lit " of ");
   PPercent; PDir (PD [] None None Mnone "s")].
Example C79_case :
  pformat_wf some_format /\ Forall pflags_in_order some_format /\ Forall plain_print some_format
  /\ pformat_text some_format = lit "%-*.3ld of %%%s"
  /\ pformat_args some_format = [FNum (Prim P_INT); FNum (Prim P_LINT); FString].
Proof.
  split; [|split; [|split; [|split; reflexivity]]].
  - repeat (apply Forall_cons || apply Forall_nil); cbn; unfold pdir_wf, no_percent; cbn;
      intuition discriminate.
  - repeat constructor.
  - repeat constructor; cbn; intuition discriminate.
Qed.

(** [%0-*d] needs two arguments; given two, splint says there is one too many: for it the minus
    is an unknown conversion, and what follows is text. *)
Theorem C79_flag_order_refuted :
  exists f args, pformat_wf f /\ List.length args = List.length (pformat_args f)
    /\ fst (printf_check bool (fun _ => false) (fun _ fits => fits) false (pformat_text f) args)
       = [Unrecognised; Arity 1 2].
Proof.
  exists [PDir (PD (lit "0-") (Some Star) None Mnone "d")], [true; true].
  split; [repeat constructor|split; reflexivity].
Qed.
Print Assumptions C79_flag_order_refuted.

(** If there was an error in the argument for the star of [%*d], the rest of the directive is taken
    as text, and its argument for one too many. *)
Theorem C79_error_argument_refuted :
  exists f args, pformat_wf f /\ Forall pflags_in_order f
    /\ List.length args = List.length (pformat_args f)
    /\ fst (printf_check bool (fun fits => negb fits) (fun _ fits => fits) false (pformat_text f) args)
       = [Arity 1 2].
Proof.
  exists [PDir (PD [] (Some Star) None Mnone "d")], [false; true].
  split; [repeat constructor|]. split; [repeat constructor|]. split; reflexivity.
Qed.
Print Assumptions C79_error_argument_refuted.

(** C80: for a format as C describes it, there is one message for each argument of another type than
    the directive needs, in order, and then one about a wrong number; nothing else is said if there
    are not too few arguments.
    Missing: formats with another flag behind a flag 0, modifiers of [n], and [l] before conversions
    of doubles. *)
Theorem C80_printf_types_partial :
  forall A is_error matches ignore f args,
    pformat_wf f -> Forall pflags_in_order f -> Forall plain_print f ->
    Forall (fun a => is_error a = false) args ->
    let r := printf_check A is_error matches ignore (pformat_text f) args in
    snd r = Finished /\ verdict A matches (pformat_args f) args (fst r).
Proof. exact printf_verdict. Qed.
Print Assumptions C80_printf_types_partial.

(** The format of C79 with a second argument of another type. *)
Example C80_case :
  printf_check bool (fun _ => false) (fun _ fits => fits) false (pformat_text some_format)
    [true; false; true]
  = ([Mismatch 2 (FNum (Prim P_LINT))], Finished)
  /\ verdict bool (fun _ fits => fits) (pformat_args some_format) [true; false; true]
       [Mismatch 2 (FNum (Prim P_LINT))].
Proof. split; reflexivity. Qed.

(** [%lf] takes a double (C99 7.19.6.1); splint wants a long double. *)
Theorem C80_long_double_refuted :
  exists f, pformat_wf f /\ Forall pflags_in_order f
    /\ pformat_args f = [FNum (Prim P_DOUBLE)]
    /\ fst (printf_check bool (fun _ => false) (fun _ fits => fits) false (pformat_text f) [false])
       = [Mismatch 1 (FNum (Prim P_LDOUBLE))].
Proof. exists [PDir (PD [] None None Ml "f")]. split; [repeat constructor|].
  repeat split; repeat constructor. Qed.
Print Assumptions C80_long_double_refuted.

(** [%ln] takes a pointer to long; splint wants a pointer to int. *)
Theorem C80_long_count_refuted :
  exists f, pformat_wf f /\ Forall pflags_in_order f
    /\ pformat_args f = [FPtr (Prim P_LINT)]
    /\ fst (printf_check bool (fun _ => false) (fun _ fits => fits) false (pformat_text f) [false])
       = [Mismatch 1 (FPtr (Prim P_INT))].
Proof. exists [PDir (PD [] None None Ml "n")]. split; [repeat constructor|].
  repeat split; repeat constructor. Qed.
Print Assumptions C80_long_count_refuted.

(** [%hn] gives a message about contradictory type modifiers. *)
Theorem C80_short_count_refuted :
  exists f, pformat_wf f /\ Forall pflags_in_order f
    /\ pformat_args f = [FPtr (Prim P_SINT)]
    /\ fst (printf_check bool (fun _ => false) (fun _ fits => fits) false (pformat_text f) [true])
       = [Gripe Contradictory].
Proof. exists [PDir (PD [] None None Mh "n")]. split; [repeat constructor|].
  repeat split; repeat constructor. Qed.
Print Assumptions C80_short_count_refuted.

(** C81: the check of any text ends inside of the text, whatever the arguments are.
    Missing: texts with [[] or [m], and those which end with a character that may stand inside of a
    directive. *)
Theorem C81_any_format_partial :
  forall A is_error matches ignore s args,
    ends_inside s = false -> ~ In "["%char s -> ~ In "m"%char s ->
    snd (printf_check A is_error matches ignore s args) = Finished
    /\ snd (scanf_check A is_error matches ignore s args) = Finished.
Proof. exact check_safe. Qed.
Print Assumptions C81_any_format_partial.

(** A text with directives that are wrong, and arguments with errors. *)
Example C81_case :
  ends_inside (lit "%*.%d %z%%* %q!") = false
  /\ ~ In "["%char (lit "%*.%d %z%%* %q!") /\ ~ In "m"%char (lit "%*.%d %z%%* %q!")
  /\ printf_check bool negb (fun _ fits => fits) false (lit "%*.%d %z%%* %q!") [true; false; true]
     = ([Unrecognised], Finished).
Proof.
  split; [reflexivity|]. split; [cbn; intuition discriminate|].
  split; [cbn; intuition discriminate|reflexivity].
Qed.

(** The format [100%]: splint steps over the NUL and searches behind the end of the text. *)
Theorem C81_percent_at_end_refuted :
  exists s : cstr, forall A is_error matches ignore args,
    snd (printf_check A is_error matches ignore s args) = Overrun
    /\ snd (scanf_check A is_error matches ignore s args) = Overrun.
Proof. exists (lit "100%"). intros. split; reflexivity. Qed.
Print Assumptions C81_percent_at_end_refuted.

(** The format [%[]: splint steps over the NUL. *)
Theorem C81_open_set_overrun_refuted :
  exists s : cstr, forall A matches ignore a,
    snd (printf_check A (fun _ => false) matches ignore s [a]) = Overrun
    /\ snd (scanf_check A (fun _ => false) matches ignore s [a]) = Overrun.
Proof.
  exists (lit "%["). intros. split.
  - unfold printf_check. cbn. now destruct (combine ignore (Prim P_UINT) (Prim P_INT)).
  - unfold scanf_check. cbn. now destruct (combine ignore (Prim P_UINT) (Prim P_INT)).
Qed.
Print Assumptions C81_open_set_overrun_refuted.

(** The format [%[abc]: the program stops. *)
Theorem C81_open_set_fatal_refuted :
  exists s : cstr, forall A matches ignore a,
    snd (printf_check A (fun _ => false) matches ignore s [a]) = Fatal
    /\ snd (scanf_check A (fun _ => false) matches ignore s [a]) = Fatal.
Proof.
  exists (lit "%[abc"). intros. split.
  - unfold printf_check. cbn. now destruct (combine ignore (Prim P_UINT) (Prim P_INT)).
  - unfold scanf_check. cbn. now destruct (combine ignore (Prim P_UINT) (Prim P_INT)).
Qed.
Print Assumptions C81_open_set_fatal_refuted.

(** The format [%5m]: a variable which has no value is used. *)
Theorem C81_width_m_refuted :
  exists s : cstr, forall A matches ignore a,
    snd (printf_check A (fun _ => false) matches ignore s [a]) = Uninit.
Proof.
  exists (lit "%5m"). intros.
  unfold printf_check. cbn. now destruct (combine ignore (Prim P_UINT) (Prim P_INT)).
Qed.
Print Assumptions C81_width_m_refuted.

(** C82: the same as C79 for scanf.
    Missing: sets with a percent sign which are suppressed, or negated with a closing bracket. *)
Theorem C82_scanf_number_partial :
  forall A is_error matches ignore f args,
    sformat_wf f -> Forall simple_set f -> Forall (fun a => is_error a = false) args ->
    let r := scanf_check A is_error matches ignore (sformat_text f) args in
    snd r = Finished
    /\ ((exists m, In m (fst r) /\ about_number m)
        <-> List.length args <> List.length (sformat_args f)).
Proof. exact scanf_number. Qed.
Print Assumptions C82_scanf_number_partial.

(** The format [%*d %5lf%[^]x]%[%d]]. *)
Definition some_scan : list spiece :=
  [SDir (SD true [] Mnone (SConv "d")); SText (lit " "); SDir (SD false (lit "5") Ml (SConv "f"));
   SDir (SD false [] Mnone (SSet true (lit "]x"))); SDir (SD false [] Mnone (SSet false (lit "%d")))].
Example C82_case :
  sformat_wf some_scan /\ Forall simple_set some_scan /\ Forall plain_scan some_scan
  /\ sformat_text some_scan = lit "%*d %5lf%[^]x]%[%d]"
  /\ sformat_args some_scan = [FPtr (Prim P_DOUBLE); FString; FString].
Proof.
  split; [|split; [|split; [|split; reflexivity]]].
  - repeat (apply Forall_cons || apply Forall_nil); cbn; unfold sdir_wf, no_percent; cbn;
      intuition discriminate.
  - repeat (apply Forall_cons || apply Forall_nil); cbn; unfold no_percent; cbn;
      intuition discriminate.
  - repeat (apply Forall_cons || apply Forall_nil); cbn; intuition discriminate.
Qed.

(** [%*[^%d]] needs no argument; the [%d] in the suppressed set is taken for a directive. *)
Theorem C82_suppressed_set_refuted :
  exists f, sformat_wf f /\ sformat_args f = []
    /\ fst (scanf_check bool (fun _ => false) (fun _ fits => fits) false (sformat_text f) [])
       = [NoArg 0].
Proof.
  exists [SDir (SD true [] Mnone (SSet true (lit "%d")))].
  split; [|split; reflexivity].
  repeat (apply Forall_cons || apply Forall_nil); cbn; unfold sdir_wf; cbn; intuition discriminate.
Qed.
Print Assumptions C82_suppressed_set_refuted.

(** [%[^]%d]] needs one argument; the set is taken to end before the [%d]. *)
Theorem C82_negated_bracket_refuted :
  exists f, sformat_wf f /\ sformat_args f = [FString]
    /\ fst (scanf_check bool (fun _ => false) (fun _ fits => fits) false (sformat_text f) [true])
       = [NoArg 1].
Proof.
  exists [SDir (SD false [] Mnone (SSet true (lit "]%d")))].
  split; [|split; reflexivity].
  repeat (apply Forall_cons || apply Forall_nil); cbn; unfold sdir_wf; cbn; intuition discriminate.
Qed.
Print Assumptions C82_negated_bracket_refuted.

(** C83: the same as C80 for scanf.
    Missing: the sets of C82, [p], modifiers of [n], and the modifier hh. *)
Theorem C83_scanf_types_partial :
  forall A is_error matches ignore f args,
    sformat_wf f -> Forall simple_set f -> Forall plain_scan f ->
    Forall (fun a => is_error a = false) args ->
    let r := scanf_check A is_error matches ignore (sformat_text f) args in
    snd r = Finished /\ verdict A matches (sformat_args f) args (fst r).
Proof. exact scanf_verdict. Qed.
Print Assumptions C83_scanf_types_partial.

(** The format of C82 with an argument that does not fit, and one argument too many. *)
Example C83_case :
  scanf_check bool (fun _ => false) (fun _ fits => fits) false (sformat_text some_scan)
    [false; true; true; true]
  = ([Mismatch 1 (FPtr (Prim P_DOUBLE)); Arity 3 4], Finished).
Proof. reflexivity. Qed.

(** [%p] reads a pointer; splint says it should not be used in scanf. *)
Theorem C83_pointer_refuted :
  exists f, sformat_wf f /\ sformat_args f = [FVoidPtr]
    /\ fst (scanf_check bool (fun _ => false) (fun _ fits => fits) false (sformat_text f) [true])
       = [NotInScanf].
Proof. exists [SDir (SD false [] Mnone (SConv "p"))]. split; [repeat constructor|].
  repeat split; repeat constructor. Qed.
Print Assumptions C83_pointer_refuted.

(** [%hhd] stores a char; splint wants a pointer to int. *)
Theorem C83_char_refuted :
  exists f, sformat_wf f /\ sformat_args f = [FPtr (Prim P_CHAR)]
    /\ fst (scanf_check bool (fun _ => false) (fun _ fits => fits) false (sformat_text f) [false])
       = [Mismatch 1 (FPtr (Prim P_INT))].
Proof. exists [SDir (SD false [] Mhh (SConv "d"))]. split; [repeat constructor|].
  repeat split; repeat constructor. Qed.
Print Assumptions C83_char_refuted.

(** [%ln] stores a long; splint wants a pointer to int. *)
Theorem C83_long_count_refuted :
  exists f, sformat_wf f /\ sformat_args f = [FPtr (Prim P_LINT)]
    /\ fst (scanf_check bool (fun _ => false) (fun _ fits => fits) false (sformat_text f) [false])
       = [Mismatch 1 (FPtr (Prim P_INT))].
Proof. exists [SDir (SD false [] Ml (SConv "n"))]. split; [repeat constructor|].
  repeat split; repeat constructor. Qed.
Print Assumptions C83_long_count_refuted.
