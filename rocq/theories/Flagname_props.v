(** C20: equivalent spellings of a flag name select the same flag. *)
From Verif Require Import Cbase Flagtab_model Flagname_model Flagname_spec Flagname_proofs.

(** Every spelling of a flag of the table, long words for short ones and separators anywhere,
    selects that flag.  -I, -S, -D and -U, whose argument is part of the word, are apart. *)
Theorem C20_every_spelling_selects_the_flag : forall f s,
  In f flag_table -> directory_flag f = false -> spelled forms s (flag f) -> identify s = fcode f.
Proof. exact spelled_selects. Qed.
Print Assumptions C20_every_spelling_selects_the_flag.

(** In particular every flag is selected by its own name, so no two flags share a spelling. *)
Theorem C20_spellings_are_distinct : forall f g s,
  In f flag_table -> In g flag_table -> directory_flag f = false -> directory_flag g = false ->
  spelled forms s (flag f) -> spelled forms s (flag g) -> f = g.
Proof.
  intros f g s If Ig Df Dg Sf Sg. pose proof (spelled_selects f s If Df Sf) as E. rewrite (spelled_selects g s Ig Dg Sg) in E.
  exact (codes_distinct f g If Ig (eq_sym E)).
Qed.
Print Assumptions C20_spellings_are_distinct.

Theorem C20_mode_names : forall m s, In m mode_names -> spelled forms s m -> identify s = MODENAME_FLAG.
Proof. exact spelled_mode. Qed.
Print Assumptions C20_mode_names.

(** A long word and separators. *)
Example C20_case : exists f, In f flag_table /\ directory_flag f = false /\ flag f = lit "fcnuse" /\
  spelled forms (lit "function-_use") (flag f) /\ identify (lit "function-_use") = fcode f /\ fcode f = FLG_FUNCUNUSED.
Proof.
  destruct (List.find (fun f => cstr_eqb (flag f) (lit "fcnuse")) flag_table) as [f|] eqn:E; [|vm_compute in E; discriminate].
  exists f. pose proof (List.find_some _ _ E) as [I _]. vm_compute in E. injection E as <-.
  repeat split; try exact I; try (vm_compute; reflexivity).
  change (spelled forms (lit "function" ++ lit "-_use") (lit "fcn" ++ lit "use")). apply sp_form; [vm_compute; auto|].
  cbn. apply sp_sep; [right; left; reflexivity|]. apply sp_sep; [right; right; reflexivity|]. repeat apply sp_char. apply sp_end.
Qed.

(** The manual's pair "global" for "glob" is not in the program (it has "globals" for "globs"). *)
Theorem C20_global_refuted : exists f s,
  In f flag_table /\ directory_flag f = false /\ spelled forms_manual s (flag f) /\ identify s = INVALID_FLAG.
Proof.
  destruct (List.find (fun f => cstr_eqb (flag f) (lit "globuse")) flag_table) as [f|] eqn:E; [|vm_compute in E; discriminate].
  exists f, (lit "globaluse"). pose proof (List.find_some _ _ E) as [I _]. vm_compute in E. injection E as <-.
  repeat split; try exact I; try (vm_compute; reflexivity).
  change (spelled forms_manual (lit "global" ++ lit "use") (lit "glob" ++ lit "use")).
  apply sp_form; [left; reflexivity|]. cbn. repeat apply sp_char. apply sp_end.
Qed.
Print Assumptions C20_global_refuted.

(** Canonicalising twice is not the same as once: long words are sought before separators go. *)
Theorem C20_idempotent_refuted : exists s, canonicalize (canonicalize s) <> canonicalize s.
Proof. exists (lit "func-tion"). vm_compute. discriminate. Qed.
Print Assumptions C20_idempotent_refuted.
