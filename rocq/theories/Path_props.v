(** C37, C45: path and extension handling (src/fileLib.c). *)
From Verif Require Import Cbase Cbase_facts Cmem Path_model Path_spec Path_proofs.

(** C45. Every path has a last component, and removing the path leaves exactly it. *)
Theorem C45_base_name : forall s,
  (exists dir base, path_split s dir base) /\
  (forall dir base, path_split s dir base -> removePath s = base).
Proof. intros s. split; [apply path_split_exists|apply removePath_base]. Qed.
Print Assumptions C45_base_name.
Example C45_base_name_ex : removePath (lit "src.d/Headers/foo.tar.gz") = lit "foo.tar.gz".
Proof. vm_compute. reflexivity. Qed.
Example C45_base_name_ex_split :
  path_split (lit "src.d/foo.gz") (lit "src.d/") (lit "foo.gz").
Proof.
  split; [reflexivity|]. split; [vm_compute; intuition discriminate|].
  right. exists (lit "src.d"). reflexivity.
Qed.

(** C45. A file has the extension [ext] exactly when its last component does, whatever
    the directories are called. *)
Theorem C45_has_extension : forall s dir base ext,
  path_split s dir base -> ~ In "/"%char ext -> ext <> [] ->
  (hasExtension s ext = true <-> exists stem, extension_of base stem ext).
Proof. exact has_ext_iff. Qed.
Print Assumptions C45_has_extension.
Example C45_has_extension_ex :
  hasExtension (lit "a.c/foo.tar.h") (lit ".h") = true /\ hasExtension (lit "a.h/foo") (lit ".h") = false
  /\ extension_of (lit "foo.tar.h") (lit "foo.tar") (lit ".h").
Proof.
  split; [reflexivity|]. split; [reflexivity|]. split; [reflexivity|].
  exists (lit "h"). split; [reflexivity|vm_compute; intuition discriminate].
Qed.

(** C45. Header files are the files whose last component ends in .h, .H or .lh. *)
Theorem C45_header_file : forall s dir base, path_split s dir base ->
  (isHeaderFile s = true <->
   exists stem ext, extension_of base stem ext /\
                    (ext = lit ".h" \/ ext = lit ".H" \/ ext = lit ".lh")).
Proof. exact header_iff. Qed.
Print Assumptions C45_header_file.
Example C45_header_file_ex :
  isHeaderFile (lit "a.c/x.lh") = true /\ isHeaderFile (lit "a.h/x.c") = false
  /\ isHeaderFile (lit "a.h/x") = false.
Proof. vm_compute. auto. Qed.

(** C45. C source files are the files whose last component ends in one of eight extensions. *)
Theorem C45_c_file : forall s dir base, path_split s dir base ->
  (isCExtension (getExtension s) = true <->
   exists stem ext, extension_of base stem ext /\
     In ext [lit ".c"; lit ".C"; lit ".h"; lit ".lh"; lit ".xh"; lit ".H"; lit ".y"; lit ".l"]).
Proof. exact c_ext_iff. Qed.
Print Assumptions C45_c_file.
Example C45_c_file_ex :
  isCExtension (getExtension (lit "a.o/x.c")) = true /\ isCExtension (getExtension (lit "a.c/x")) = false.
Proof. vm_compute. auto. Qed.

(** C45. Removing a given extension removes it when the last component has it, and
    otherwise leaves the path alone. *)
Theorem C45_without_extension : forall s dir base suffix,
  path_split s dir base -> ~ In "/"%char suffix ->
  (forall stem, extension_of base stem suffix -> withoutExtension s suffix = dir ++ stem) /\
  ((forall stem, ~ extension_of base stem suffix) -> withoutExtension s suffix = s).
Proof.
  intros s dir base suffix P N. split.
  - intros stem E. eapply without_same; eauto.
  - intros H. eapply without_other; eauto.
Qed.
Print Assumptions C45_without_extension.
Example C45_without_extension_ex :
  withoutExtension (lit "a.lcl/b.lcl") (lit ".lcl") = lit "a.lcl/b"
  /\ withoutExtension (lit "a.lcl/b") (lit ".lcl") = lit "a.lcl/b"
  /\ withoutExtension (lit "a/b.c") (lit ".lcl") = lit "a/b.c".
Proof. vm_compute. auto. Qed.

(** C45. Skipping leading "./" skips all of them and nothing else. *)
Theorem C45_leading_dots : forall s,
  exists k, s = dotslashes k ++ removePreDirs s /\
            (forall t, removePreDirs s <> "."%char :: "/"%char :: t).
Proof. intros s. eapply removePreDirs_spec. apply Nat.le_refl. Qed.
Print Assumptions C45_leading_dots.
Example C45_leading_dots_ex : removePreDirs (lit "././../x.c") = lit "../x.c".
Proof. vm_compute. reflexivity. Qed.

(** C37, add part. Missing: a last component without extension below a directory whose
    name contains a dot (see [C37_directory_dot_refuted]). *)
Theorem C37_add_partial : forall s dir base suf, path_split s dir base ->
  (forall stem ext, extension_of base stem ext -> addExtension s suf = s) /\
  (no_extension base -> ~ In "."%char dir -> addExtension s suf = s ++ suf).
Proof.
  intros s dir base suf P. split.
  - intros. eapply add_with; eauto.
  - intros. eapply add_without; eauto.
Qed.
Print Assumptions C37_add_partial.
Example C37_add_partial_ex :
  addExtension (lit "lib/ansi") (lit ".lcd") = lit "lib/ansi.lcd"
  /\ addExtension (lit "lib.d/ansi.x") (lit ".lcd") = lit "lib.d/ansi.x".
Proof. vm_compute. auto. Qed.

(** C37, remove part. Missing: as above. *)
Theorem C37_remove_partial : forall s dir base, path_split s dir base ->
  (forall stem ext, extension_of base stem ext -> removeAnyExtension s = dir ++ stem) /\
  (no_extension base -> ~ In "."%char dir -> removeAnyExtension s = s).
Proof.
  intros s dir base P. split.
  - intros. eapply remove_with; eauto.
  - intros. eapply remove_without; eauto.
Qed.
Print Assumptions C37_remove_partial.
Example C37_remove_partial_ex :
  removeAnyExtension (lit "src.d/a.tar.gz") = lit "src.d/a.tar"
  /\ removeAnyExtension (lit "src/a") = lit "src/a".
Proof. vm_compute. auto. Qed.

(** C37 is false for every path with a dot in a directory name: nothing is added ... *)
Theorem C37_directory_dot_add : forall s dir base suf,
  path_split s dir base -> In "."%char dir -> addExtension s suf = s.
Proof. exact add_dotted_dir. Qed.
Print Assumptions C37_directory_dot_add.
(** ... and removing "the extension" can remove the file name: "../lib/ansi" gives ".". *)
Theorem C37_directory_dot_refuted : exists s dir base,
  path_split s dir base /\ no_extension base /\ removeAnyExtension s <> s
  /\ addExtension s (lit ".lcd") = s
  /\ removeAnyExtension s = lit "." /\ s = lit "../lib/ansi".
Proof.
  exists (lit "../lib/ansi"), (lit "../lib/"), (lit "ansi").
  split. { split; [reflexivity|]. split; [vm_compute; intuition discriminate|].
           right. exists (lit "../lib"). reflexivity. }
  split; [vm_compute; intuition discriminate|]. split; [discriminate|]. auto.
Qed.
Print Assumptions C37_directory_dot_refuted.
Example C37_directory_dot_ex : addExtension (lit "../lib/ansi") (lit ".lcd") = lit "../lib/ansi".
Proof. vm_compute. reflexivity. Qed.

(** C37: cleaning a name that does not start with "./" gives that name back. *)
Theorem C37_clean_partial : forall s, ~ In ch_nul s ->
  (forall t, s <> "."%char :: "/"%char :: t) -> cleanName_text s = Some s.
Proof. exact clean_other. Qed.
Print Assumptions C37_clean_partial.
Example C37_clean_partial_ex : cleanName_text (lit "../a.lcl") = Some (lit "../a.lcl").
Proof. vm_compute. reflexivity. Qed.

(** C37: cleaning any longer name that does start with "./" returns a buffer without
    terminator, so that reading it back is undefined behaviour. *)
Theorem C37_clean_unterminated : forall c t, ~ In ch_nul (c :: t) ->
  cleanName_text ("."%char :: "/"%char :: c :: t) = None.
Proof. exact clean_dotslash_ub. Qed.
Print Assumptions C37_clean_unterminated.
Example C37_clean_unterminated_ex :
  cleanName (lit "./a") = Some [Some "a"%char; None] /\ cleanName_text (lit "./a") = None.
Proof. vm_compute. auto. Qed.

Theorem C37_clean_refuted : exists s, s = lit "./list.lcl" /\ cleanName_text s <> Some (lit "list.lcl")
  /\ cleanName_text s = None.
Proof. exists (lit "./list.lcl"). split; [reflexivity|]. vm_compute. split; [discriminate|reflexivity]. Qed.
Print Assumptions C37_clean_refuted.
