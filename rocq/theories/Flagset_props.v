(** C21, C22, C23, C24: settings of flags, modes, numeric options and risk levels. *)
From Verif Require Import Cbase Flagtab_model Flagset_model Flagset_spec Flagset_proofs.

(** * C21 *)
(** At the end of every file all the flags are as they were before the first file, whatever the
    flag comments of the files (any flags, with or without values), mode names apart. *)
Theorem C21_files_leave_no_flag_changed : forall c h c',
  savedFlags c = false -> Forall in_files h -> run c (h ++ [OEndFile]) = Ok c' -> flags c' = flags c.
Proof. exact files_restore. Qed.
Print Assumptions C21_files_leave_no_flag_changed.

(** After any history of files and comments, restoring a simple flag gives it the setting it had
    before the files and leaves the other flags as they are. *)
Theorem C21_restore : forall c h c1 e c2, savedFlags c = false -> Forall in_files h -> run c h = Ok c1 ->
  In e flag_table -> simple e -> isGlobal e = false -> flags c1 FLG_NOCOMMENTS = false ->
  apply c1 (OComment (AFlag (fcode e) MAYBE None)) = Ok c2 ->
  flags c2 (fcode e) = flags c (fcode e) /\ forall g, g <> fcode e -> flags c2 g = flags c1 g.
Proof. exact restore_simple. Qed.
Print Assumptions C21_restore.

(** A compound flag gets its own setting back too. *)
Theorem C21_restore_own_setting : forall c h c1 e c2, savedFlags c = false -> Forall in_files h -> run c h = Ok c1 ->
  In e flag_table -> isIdem e = false -> fcode e <> FLG_EXTERNALNAMELEN -> fcode e <> FLG_INTERNALNAMELEN ->
  isGlobal e = false -> flags c1 FLG_NOCOMMENTS = false ->
  apply c1 (OComment (AFlag (fcode e) MAYBE None)) = Ok c2 -> flags c2 (fcode e) = flags c (fcode e).
Proof. exact restore_own. Qed.
Print Assumptions C21_restore_own_setting.

(** Two files; in the second, -nullderef and +boolint, then =nullderef. *)
Definition case_history := [OComment (AFlag FLG_NULLDEREF NO None); OComment (AFlag FLG_MEMCHECKS NO None); OEndFile;
            OComment (AFlag FLG_BOOLINT YES None); OComment (AFlag FLG_NULLDEREF NO None)].
Definition case_flag := F (lit "nullderef") FLG_NULLDEREF false false false true ARG_NONE.
Example C21_case :
  savedFlags init = false /\ Forall in_files case_history /\ In case_flag flag_table /\ simple case_flag /\ isGlobal case_flag = false /\
  (exists c1 c2, run init case_history = Ok c1 /\ apply c1 (OComment (AFlag (fcode case_flag) MAYBE None)) = Ok c2 /\
     [flags c1 FLG_NOCOMMENTS; flags c1 (fcode case_flag); flags c2 (fcode case_flag); flags c2 FLG_BOOLINT; flags init (fcode case_flag)]
     = [false; false; true; true; true]).
Proof.
  split; [vm_compute; reflexivity|]. split; [repeat constructor|]. split; [apply (in_table _ 1); vm_compute; reflexivity|].
  split; [split; [reflexivity|vm_compute; intuition discriminate]|]. split; [reflexivity|].
  apply ok_step2. vm_compute. reflexivity.
Qed.

(** Restoring a compound flag does not restore the flags it stands for: after /*@=null@*/ checking
    of null dereferences is off, though it is on in the default mode and nothing was changed. *)
Theorem C21_restore_compound_refuted : exists c2,
  apply init (OComment (AFlag FLG_NULL MAYBE None)) = Ok c2 /\ [flags init FLG_NULLDEREF; flags c2 FLG_NULLDEREF] = [true; false].
Proof. apply ok_step. vm_compute. reflexivity. Qed.
Print Assumptions C21_restore_compound_refuted.

(** A mode named in a comment stays after the file. *)
Theorem C21_mode_comment_refuted : exists c',
  run init [OComment (AMode (Some Weak) YES); OEndFile] = Ok c' /\ [flags init FLG_RETVALINT; flags c' FLG_RETVALINT] = [true; false].
Proof. apply ok_step. vm_compute. reflexivity. Qed.
Print Assumptions C21_mode_comment_refuted.

(** So does a value. *)
Theorem C21_value_comment_refuted : exists c',
  run init [OComment (AFlag FLG_LINELEN YES (Some (lit "100"))); OEndFile] = Ok c' /\ [values init FLG_LINELEN; values c' FLG_LINELEN] = [80; 100].
Proof. apply ok_step. vm_compute. reflexivity. Qed.
Print Assumptions C21_value_comment_refuted.

(** A flag that cannot be turned off is turned on by restoring it. *)
Theorem C21_idem_refuted : exists e, In e flag_table /\ isGlobal e = false /\ exists c2,
  apply init (OComment (AFlag (fcode e) MAYBE None)) = Ok c2 /\ [flags init (fcode e); flags c2 (fcode e)] = [false; true].
Proof.
  exists (F (lit "partial") FLG_PARTIAL true true false false ARG_NONE). split; [apply (in_table _ 371); vm_compute; reflexivity|].
  split; [reflexivity|]. apply ok_step. vm_compute. reflexivity.
Qed.
Print Assumptions C21_idem_refuted.

(** * C22 *)
(** After a mode is selected every mode flag is on if and only if the mode lists it, whatever the
    settings before; other flags and all values keep their settings. *)
Theorem C22_mode_decides : forall c m e, In e flag_table ->
  flags (set_mode c (Some m)) (fcode e) =
  if isModeFlag e then existsb (Z.eqb (fcode e)) (mode_flags m) else flags c (fcode e).
Proof. exact mode_decides. Qed.
Print Assumptions C22_mode_decides.

Theorem C22_mode_keeps_values : forall c m, values (set_mode c m) = values c.
Proof. exact mode_values. Qed.
Print Assumptions C22_mode_keeps_values.

Theorem C22_same_whatever_before : forall c c' m e, In e flag_table -> isModeFlag e = true ->
  flags (set_mode c (Some m)) (fcode e) = flags (set_mode c' (Some m)) (fcode e).
Proof. intros c c' m e I M. rewrite !mode_decides by exact I. rewrite M. reflexivity. Qed.
Print Assumptions C22_same_whatever_before.

Example C22_case : exists e, In e flag_table /\ isModeFlag e = true /\
  [flags (user_set_flag init FLG_MEMCHECKS true) (fcode e); flags (set_mode (user_set_flag init FLG_MEMCHECKS true) (Some Weak)) (fcode e)] = [true; false].
Proof.
  exists (F (lit "compdestroy") FLG_COMPDESTROY false false false true ARG_NONE). split; [apply (in_table _ 65); vm_compute; reflexivity|]. split; vm_compute; reflexivity.
Qed.

(** * C23 *)
(** After any options the value of each numeric option (lengths of names apart) is the last one
    accepted, read left to right. *)
Theorem C23_values : forall l c f, In f exact_flags -> run init (map option_op l) = Ok c ->
  values c f = value_after l f (values init f).
Proof. intros l c f. apply options_values. Qed.
Print Assumptions C23_values.

(** The lengths of names: the default, the limit of a standard, nought (unlimited), or given. *)
Theorem C23_name_lengths : forall l c f, f = FLG_EXTERNALNAMELEN \/ f = FLG_INTERNALNAMELEN -> run init (map option_op l) = Ok c ->
  values c f = values init f \/ name_value f (values c f) \/
  exists b s, In (f, b, Some s) l /\ digitsb s = true /\ values c f = number_of s.
Proof. intros l c f. apply names_len_origin. Qed.
Print Assumptions C23_name_lengths.

(** In every run, comments and modes included, values stay in range: at least 20 for the line
    length, at least -1 (unlimited) for the message limit, at least 0 for the others. *)
Theorem C23_in_range : forall l c, run init l = Ok c -> in_range (values c).
Proof. exact run_range. Qed.
Print Assumptions C23_in_range.

(** A setting which is refused changes no value. *)
Theorem C23_refused : forall c f b s c', In f number_flags -> apply c (OFlag f b (Some s)) = Ok c' ->
  digitsb s = false \/ accepted f (number_of s) = None -> values c' = values c.
Proof. exact refused_values. Qed.
Print Assumptions C23_refused.

Example C23_case : exists c, run init (map option_op [(FLG_LINELEN, true, Some (lit "7")); (FLG_LIMIT, true, Some (lit "12"));
    (FLG_ANSI89LIMITS, true, None); (FLG_LIMIT, true, Some (lit "x")); (FLG_INCLUDENEST, true, Some (lit "004"))]) = Ok c /\
  [values c FLG_LINELEN; values c FLG_LIMIT; values c FLG_INCLUDENEST; values c FLG_NUMENUMMEMBERS] = [20; 12; 4; 127].
Proof. apply ok_step. vm_compute. reflexivity. Qed.
Example C23_refused_case : exists c', apply init (OFlag FLG_LINELEN true (Some (lit "0"))) = Ok c' /\
  [values c' FLG_LINELEN] = [80].
Proof. apply ok_step. vm_compute. reflexivity. Qed.

(** A number too big for an [int] is not refused: its conversion is undefined. *)
Theorem C23_big_number_refuted : exists s, digitsb s = true /\ apply init (OFlag FLG_LIMIT true (Some s)) = Undefined.
Proof. exists (lit "4294967297"). split; vm_compute; reflexivity. Qed.
Print Assumptions C23_big_number_refuted.

(** * C24 *)
(** In every run, if a risk level is checked so is every less severe one. *)
Theorem C24_levels_ordered : forall l c, run init l = Ok c -> ordered_levels (flags c).
Proof. exact levels_ordered. Qed.
Print Assumptions C24_levels_ordered.

Example C24_case : exists c, run init [OFlag FLG_ITS4MOSTRISKY true None; OComment (AFlag FLG_ITS4RISKY NO None)] = Ok c /\
  map (flags c) levels = [false; false; false; true; true].
Proof. apply ok_step. vm_compute. reflexivity. Qed.

(** The other direction does not hold: +its4low alone leaves the severe levels off. *)
Theorem C24_severe_levels_refuted : exists c, run init [OFlag FLG_ITS4LOWRISK true None] = Ok c /\
  [flags c FLG_ITS4LOWRISK; flags c FLG_ITS4MOSTRISKY] = [true; false].
Proof. apply ok_step. vm_compute. reflexivity. Qed.
Print Assumptions C24_severe_levels_refuted.

(** * C59 *)
(** weak, standard, checks, strict: each mode makes every check of the ones before it and allows
    nothing which they do not, on all the mode flags, whatever the settings before. *)
Theorem C59_modes_ordered : forall w x y z,
  let fs f := exists e, In e flag_table /\ fcode e = f /\ isModeFlag e = true in
  let set c m := flags (set_mode c (Some m)) in
  at_least fs (set w Weak) (set x Standard) /\ at_least fs (set x Standard) (set y Checks) /\ at_least fs (set y Checks) (set z Strict).
Proof. intros w x y z. repeat apply conj; intros f [e [I [<- M]]]; (apply modes_ordered; [cbn; lia | exact I | left; exact M]). Qed.
Print Assumptions C59_modes_ordered.

(** From the same settings the order holds of all the flags of the table. *)
Theorem C59_all_flags_ordered : forall c,
  let fs f := exists e, In e flag_table /\ fcode e = f in
  let set m := flags (set_mode c (Some m)) in
  at_least fs (set Weak) (set Standard) /\ at_least fs (set Standard) (set Checks) /\ at_least fs (set Checks) (set Strict).
Proof. intros c. repeat apply conj; intros f [e [I <-]]; (apply modes_ordered; [cbn; lia | exact I | right; reflexivity]). Qed.
Print Assumptions C59_all_flags_ordered.

(** No two modes are the same, in any settings. *)
Theorem C59_modes_differ : forall c,
  let set m f := flags (set_mode c (Some m)) f in
  [set Weak FLG_BOOLINT; set Standard FLG_BOOLINT; set Weak FLG_NULLDEREF; set Standard FLG_NULLDEREF] = [true; false; false; true] /\
  [set Standard FLG_ENUMINT; set Checks FLG_ENUMINT; set Standard FLG_REDECL; set Checks FLG_REDECL] = [true; false; false; true] /\
  [set Checks FLG_BOUNDSREAD; set Strict FLG_BOUNDSREAD] = [false; true].
Proof. intros c set. unfold set. rewrite !mode_code by (vm_compute; reflexivity). vm_compute. auto. Qed.
Print Assumptions C59_modes_differ.

Example C59_case : exists e, In e flag_table /\ fcode e = FLG_NULLDEREF /\ isModeFlag e = true /\
  [flags (set_mode init (Some Weak)) FLG_NULLDEREF; flags (set_mode init (Some Standard)) FLG_NULLDEREF] = [false; true].
Proof. apply table_code; vm_compute; reflexivity. Qed.
