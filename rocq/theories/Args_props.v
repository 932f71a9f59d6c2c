(** C41: options are taken in order, each exactly once. *)
From Verif Require Import Cbase Flagtab_model Flagname_model Flagname_spec Flagset_model Flagset_proofs Args_model Args_spec Args_proofs.

(** A command line made of files, flags in any spelling, options with their argument, modes,
    directories and definitions does what the items do, in the order written. *)
Theorem C41_command_line_left_to_right : forall l, Forall wf l ->
  process true (List.concat (map words l)) = List.concat (map meaning l).
Proof. exact (process_items true). Qed.
Print Assumptions C41_command_line_left_to_right.

(** So does a file of options. *)
Theorem C41_options_file_in_order : forall l, Forall wf l ->
  process false (List.concat (map words l)) = List.concat (map meaning_rc l).
Proof. exact (process_items false). Qed.
Print Assumptions C41_options_file_in_order.

(** The flags which control messages, -f and -nof are seen to beforehand, in order. *)
Theorem C41_first_pass : forall l, Forall wf l -> Forall clear l ->
  first_pass (List.concat (map words l)) = List.concat (map beforehand l).
Proof. exact first_items. Qed.
Print Assumptions C41_first_pass.

(** A flag ends as its last occurrence says, whatever precedes it. *)
Theorem C41_last_occurrence_wins : forall l on long name e c c',
  Forall wf l -> named name e -> argtype e = ARG_NONE -> control e = false -> isIdem e = false -> fcode e <> FLG_EXPORTHEADER ->
  settings c (process true (List.concat (map words (l ++ [IFlag on long name e])))) = Ok c' -> flags c' (fcode e) = on.
Proof. exact last_wins. Qed.
Print Assumptions C41_last_occurrence_wins.

Lemma self_spelled : forall s, spelled forms s s.
Proof. induction s; [apply sp_end|apply sp_char; assumption]. Qed.
Lemma find_named : forall (s : cstr) e, List.find (fun f => cstr_eqb (flag f) s) flag_table = Some e -> flag e = s ->
  existsb (Z.eqb (fcode e)) [FLG_INCLUDEPATH; FLG_SPECPATH; FLG_DEFINE; FLG_UNDEFINE; FLG_HELP] = false ->
  match s with c :: _ => Ascii.eqb c "-" | [] => false end = false -> named s e.
Proof.
  intros s e F E D N. split; [exact (proj1 (List.find_some _ _ F))|]. split; [rewrite E; apply self_spelled|]. split.
  - intros r ->. discriminate.
  - intros I. assert (T : existsb (Z.eqb (fcode e)) [FLG_INCLUDEPATH; FLG_SPECPATH; FLG_DEFINE; FLG_UNDEFINE; FLG_HELP] = true)
      by (apply existsb_exists; exists (fcode e); split; [exact I|apply Z.eqb_refl]). congruence.
Qed.
Definition the_flag (s : cstr) : fflag :=
  match List.find (fun f => cstr_eqb (flag f) s) flag_table with Some f => f | None => F [] 0 false false false false ARG_NONE end.

(** -strict +boolint -linelen 60 -Iinc -I sys -DX=1 a.c --nullret +showscan -tmpdir /t *)
Definition the_line : list item := [
  IMode false false Strict; IFlag true false (lit "boolint") (the_flag (lit "boolint"));
  IArg false false (lit "linelen") (the_flag (lit "linelen")) (lit "60"); IJoined false (lit "inc"); IApart false (lit "sys");
  IDefine false (lit "X=1"); IFile (lit "a.c"); IFlag false true (lit "nullret") (the_flag (lit "nullret"));
  IFlag true false (lit "showscan") (the_flag (lit "showscan")); IArg false false (lit "tmpdir") (the_flag (lit "tmpdir")) (lit "/t")].
Ltac plain_word := intros (? & ? & E & [->| ->]); vm_compute in E; discriminate.
Ltac is_named := apply find_named; vm_compute; reflexivity.
Example C41_case : Forall wf the_line /\ Forall clear the_line /\
  words (IFlag false true (lit "nullret") (the_flag (lit "nullret"))) = [lit "--nullret"] /\
  process true (List.concat (map words the_line)) =
    [EMode (Some Strict); ESet FLG_BOOLINT true; ESet FLG_LINELEN false; EValue FLG_LINELEN (lit "60"); EDir FLG_INCLUDEPATH (lit "inc");
     EDir FLG_INCLUDEPATH (lit "sys"); EPass (lit "DX=1"); EFile (lit "a.c"); ESet FLG_NULLRET false; ESet FLG_TMPDIR false; EString FLG_TMPDIR (lit "/t")] /\
  first_pass (List.concat (map words the_line)) = [ESet FLG_SHOWSCAN true].
Proof.
  split; [|split].
  - repeat (apply Forall_cons || apply Forall_nil); cbn [wf]; try exact I.
    + split; [is_named|vm_compute; reflexivity].
    + split; [is_named|]. repeat split; vm_compute; discriminate.
    + split; [discriminate|]. intros _ E. vm_compute in E. discriminate.
    + plain_word.
    + split; [is_named|vm_compute; reflexivity].
    + split; [is_named|vm_compute; reflexivity].
    + split; [is_named|]. repeat split; vm_compute; discriminate.
  - repeat (apply Forall_cons || apply Forall_nil); cbn [clear]; try exact I.
    + right. right. plain_word.
    + plain_word.
    + right. right. plain_word.
  - split; [reflexivity|]. split; vm_compute; reflexivity.
Qed.
Example C41_last_case : exists c', named (lit "nullret") (the_flag (lit "nullret")) /\ isIdem (the_flag (lit "nullret")) = false /\
  settings init (process true (List.concat (map words (the_line ++ [IFlag true false (lit "nullret") (the_flag (lit "nullret"))])))) = Ok c' /\
  flags c' FLG_NULLRET = true.
Proof.
  assert (N : named (lit "nullret") (the_flag (lit "nullret"))) by is_named.
  destruct (ok_step bool (settings init (process true (List.concat (map words (the_line ++ [IFlag true false (lit "nullret") (the_flag (lit "nullret"))])))))
    (fun c => flags c FLG_NULLRET) true) as (c & H & F); [vm_compute; reflexivity|].
  exists c. split; [exact N|]. split; [vm_compute; reflexivity|]. split; [exact H|exact F].
Qed.

(** Not so for -i: what follows its argument, options and files, is dropped. *)
Theorem C41_init_option_refuted : exists a b, process true (a ++ b) <> process true a ++ process true b /\
  process true (a ++ b) = process true a /\ process true b = [ESet FLG_BOOLINT true; EFile (lit "a.c")].
Proof.
  exists [lit "-i"; lit "my.lcs"], [lit "+boolint"; lit "a.c"]. split; [|split; vm_compute; reflexivity].
  vm_compute. discriminate.
Qed.
Print Assumptions C41_init_option_refuted.

(** An obsolete flag, announced as ignored, makes the program write outside a table. *)
Theorem C41_obsolete_flag_refuted : exists argv, process true argv = [EUndefined] /\ argv = [lit "-ansi"; lit "a.c"].
Proof. eexists. split; [|reflexivity]. vm_compute. reflexivity. Qed.
Print Assumptions C41_obsolete_flag_refuted.

(** "--" before a flag is allowed, but --Iinc searches the directory "Iinc". *)
Theorem C41_long_directory_refuted : exists dir, process true [lit "-I" ++ dir] = [EDir FLG_INCLUDEPATH dir] /\
  process true [lit "--I" ++ dir] = [EDir FLG_INCLUDEPATH (lit "I" ++ dir)].
Proof. exists (lit "inc"). split; vm_compute; reflexivity. Qed.
Print Assumptions C41_long_directory_refuted.

(** A spelling of a mode with a separator is taken for the mode but sets no mode. *)
Theorem C41_mode_spelling_refuted : exists s, spelled forms s (lit "strict") /\ identify s = MODENAME_FLAG /\ process true [lit "-" ++ s] = [EMode None].
Proof.
  exists (lit "str-ict"). split; [|split; vm_compute; reflexivity].
  change (spelled forms (lit "str" ++ "-"%char :: lit "ict") (lit "str" ++ lit "ict")). cbn [lit String.list_ascii_of_string app].
  do 3 apply sp_char. apply sp_sep; [right; left; reflexivity|]. apply self_spelled.
Qed.
Print Assumptions C41_mode_spelling_refuted.

(** The argument of an option is looked at as an option by the first pass. *)
Theorem C41_argument_as_option_refuted : exists arg,
  process true [lit "-D"; lit "-booltype"; arg] = [EPass (lit "D"); ESet FLG_BOOLTYPE false; EString FLG_BOOLTYPE arg] /\
  first_pass [lit "-D"; lit "-booltype"; arg] = [ESet FLG_SHOWSCAN true].
Proof. exists (lit "+showscan"). split; vm_compute; reflexivity. Qed.
Print Assumptions C41_argument_as_option_refuted.
