(** Uses of global names: what users rely on. *)
From Verif Require Import Cbase Cbase_facts Path_model Uses_model Uses_spec Uses_proofs.
Open Scope nat_scope.

(** For examples: base names as in the file table (src/fileTable.c 349), no special files. *)
Definition base_of (f : file) : cstr := removePath (removeAnyExtension f).
Definition no_special (f : file) : bool := false.
Definition flags (su : bool) : uflags :=
  {| showuses := su; track := true; unusedspecial := false; exportlocal := true;
     funcunused := true; enummemunused := true; constunused := true; typeunused := true; varunused := true |}.
Definition at_ (s : string) : floc := FUser (lit s).

(** Declared in util.h, defined and used in util.c. *)
Definition ex_h : list event := [Decl (at_ "util.h") false; Define (at_ "util.c"); Use (at_ "util.c") false; Use (at_ "util.c") false].

(** A reported name is defined, in a file of some module, and every use of it is in the module
    of the definition (without showuses, none is in the text of a macro). *)
Theorem C156_message_partial : forall base special fl k h f g,
  (exportlocal fl = true -> track fl = true) ->
  first_at (FUser f) h -> defined_at (FUser g) h ->
  export_msg base special fl k h = true ->
  forall l m, used_at l m h \/ (m = false /\ redeclared_at l h) ->
  in_module base (base g) l /\ (showuses fl = false -> m = false).
Proof.
  intros base special fl k h f g TR FA DA M l m C.
  pose proof (export_special base special fl k h f FA M) as PL.
  destruct (export_flag base special fl k h M) as [X K].
  destruct (showuses fl) eqn:SH.
  - apply (export_showuses base special fl k h f g K X SH PL FA DA) in M. destruct M as (_ & H).
    split; [now apply (H l m) | discriminate].
  - apply (export_exact base special fl k h f K X SH (TR X) PL FA) in M. destruct M as (_ & H & l' & D & ID).
    destruct (H l m C) as [-> I]. split; [| reflexivity].
    assert (E : l' = FUser g).
    { apply defined_spec in D. apply defined_spec in DA. congruence. }
    subst l'. destruct ID as (g' & Q & B). injection Q as <-. now rewrite B.
Qed.
Print Assumptions C156_message_partial.

(** Only functions and variables are reported, only with the flag on and only if they are used and
    defined somewhere. *)
Theorem C156_message_of : forall base special fl k h f,
  (exportlocal fl = true -> track fl = true) -> first_at (FUser f) h ->
  export_msg base special fl k h = true ->
  exportlocal fl = true /\ (k = GFunction \/ exists b, k = GVariable b) /\
  (exists l, defined_at l h) /\ (special f = true -> unusedspecial fl = true) /\
  exists l m, used_at l m h \/ (m = false /\ redeclared_at l h).
Proof.
  intros base special fl k h f TR FA M.
  pose proof (export_special base special fl k h f FA M) as PL.
  destruct (export_flag base special fl k h M) as [X K].
  split; [assumption |]. split; [destruct k; try discriminate K; eauto |].
  assert (D : exists l, defined_at l h).
  { destruct (decided h) as [D | ND]; [assumption |].
    destruct (showuses fl) eqn:SH.
    - rewrite (export_showuses_def base special fl k h f SH FA ND) in M. discriminate.
    - apply (export_exact base special fl k h f K X SH (TR X) PL FA) in M.
      destruct M as (_ & _ & l & D & _). eauto. }
  split; [assumption |]. split; [destruct PL; congruence |].
  destruct (showuses fl) eqn:SH.
  - revert M. pose proof FA as FA'. apply first_split in FA'. destruct FA' as (us & ev & rest & -> & A & ST).
    unfold export_msg. rewrite (run_start base fl us ev (FUser f)) by assumption.
    unfold exportLocal. cbn [declared defined used uses]. intros M.
    destruct (eff rest) as [| p q] eqn:E; [rewrite andb_false_r in M; discriminate M |].
    exists (fst p), (snd p). apply (counts_eff us ev (FUser f) rest (fst p) (snd p) A ST).
    rewrite E. left. now destruct p.
  - apply (export_exact base special fl k h f K X SH (TR X) PL FA) in M. exact (proj1 M).
Qed.
Print Assumptions C156_message_of.

(** Nothing is reported if uses are not recorded. *)
Theorem C156_untracked : forall base special fl k h,
  showuses fl = false -> track fl = false -> export_msg base special fl k h = false.
Proof. exact untracked. Qed.
Print Assumptions C156_untracked.

Example ex_reported : export_msg base_of no_special (flags false) GFunction ex_h = true /\
  first_at (at_ "util.h") ex_h /\ defined_at (at_ "util.c") ex_h /\ used_at (at_ "util.c") false ex_h.
Proof.
  split; [reflexivity |]. split; [constructor |].
  split; [apply da_later; [discriminate | constructor] |].
  exists [Decl (at_ "util.h") false; Define (at_ "util.c")], [Use (at_ "util.c") false].
  split; [reflexivity |]. exists (Define (at_ "util.c")). split; [now right; left | discriminate].
Qed.

(** A reported name may be used in another source file, and cannot be static: files of different
    directories with the same name are one module. *)
Theorem C156_other_file_refuted : exists h f g l,
  first_at (FUser f) h /\ defined_at (FUser g) h /\ used_at (FUser l) false h /\ l <> g /\
  removePath l = removePath g /\
  export_msg base_of no_special (flags false) GFunction h = true.
Proof.
  exists [Define (at_ "a/util.c"); Use (at_ "b/util.c") false], (lit "a/util.c"), (lit "a/util.c"), (lit "b/util.c").
  split; [constructor |]. split; [constructor |].
  split; [exists [Define (at_ "a/util.c")], []; split; [reflexivity | exists (Define (at_ "a/util.c")); split; [now left | discriminate]] |].
  split; [discriminate |]. split; reflexivity.
Qed.
Print Assumptions C156_other_file_refuted.

(** A function may be reported as not used outside its module though it is used nowhere: its header
    is read for two source files and declares it with extern. *)
Theorem C156_not_used_refuted : exists h f g,
  first_at (FUser f) h /\ defined_at (FUser g) h /\ (forall l m, ~ used_at l m h) /\
  export_msg base_of no_special (flags false) GFunction h = true.
Proof.
  exists [Decl (at_ "util.h") true; Define (at_ "util.c"); Decl (at_ "util.h") true], (lit "util.h"), (lit "util.c").
  split; [constructor |]. split; [apply da_later; [discriminate | constructor] |]. split; [| reflexivity].
  intros l m (h1 & h2 & E & _).
  match type of E with ?h = _ => assert (I : In (Use l m) h) by (rewrite E; apply in_or_app; right; now left) end.
  destruct I as [I | [I | [I | []]]]; discriminate I.
Qed.
Print Assumptions C156_not_used_refuted.

(** Without showuses, a function or variable that is first declared in the module it is defined
    in and not declared again with extern is reported exactly if it is used, and only outside
    macros in this module. *)
Theorem C157_exact_partial : forall base special fl k h f g,
  exportlocal fl = true -> track fl = true -> showuses fl = false ->
  (k = GFunction \/ exists b, k = GVariable b) ->
  (special f = false \/ unusedspecial fl = true) ->
  first_at (FUser f) h -> defined_at (FUser g) h -> base f = base g -> no_redeclaration h ->
  (export_msg base special fl k h = true <-> only_used_in base (base g) h).
Proof.
  intros base special fl k h f g X TR SH K PL FA DA B NR.
  assert (K' : exportable k = true) by (destruct K as [-> | (b & ->)]; reflexivity).
  rewrite (export_exact base special fl k h f K' X SH TR PL FA). rewrite B. unfold only_used_in, counts. split.
  - intros ((l & m & [C | [_ C]]) & H & _); [| exfalso; now apply (NR l)].
    split; [eauto |]. intros l' m' U. apply H. now left.
  - intros ((l & m & C) & H). split; [eauto |]. split.
    + intros l' m' [U | [_ U]]; [now apply H | exfalso; now apply (NR l')].
    + exists (FUser g). split; [assumption | exists g; auto].
Qed.
Print Assumptions C157_exact_partial.

(** With showuses the places are compared with the definition wherever the declaration is. *)
Theorem C157_showuses_partial : forall base special fl k h f g,
  exportlocal fl = true -> showuses fl = true ->
  (k = GFunction \/ exists b, k = GVariable b) ->
  (special f = false \/ unusedspecial fl = true) ->
  first_at (FUser f) h -> defined_at (FUser g) h -> no_redeclaration h ->
  (export_msg base special fl k h = true <->
   (exists l m, used_at l m h) /\ forall l m, used_at l m h -> in_module base (base g) l).
Proof.
  intros base special fl k h f g X SH K PL FA DA NR.
  assert (K' : exportable k = true) by (destruct K as [-> | (b & ->)]; reflexivity).
  rewrite (export_showuses base special fl k h f g K' X SH PL FA DA). unfold counts. split.
  - intros ((l & m & [C | [_ C]]) & H); [| exfalso; now apply (NR l)].
    split; [eauto |]. intros l' m' U. apply (H l' m'). now left.
  - intros ((l & m & C) & H). split; [eauto |].
    intros l' m' [U | [_ U]]; [now apply (H l' m') | exfalso; now apply (NR l')].
Qed.
Print Assumptions C157_showuses_partial.

Example ex_exact : no_redeclaration ex_h /\ base_of (lit "util.h") = base_of (lit "util.c") /\
  export_msg base_of no_special (flags false) GFunction ex_h = true /\
  export_msg base_of no_special (flags false) GFunction (ex_h ++ [Use (at_ "main.c") false]) = false /\
  export_msg base_of no_special (flags true) GFunction ex_h = true.
Proof.
  split; [| repeat split].
  intros l (h1 & h2 & E & _). assert (I : In (Decl l true) ex_h) by (rewrite E; apply in_or_app; right; now left).
  destruct I as [I | [I | [I | [I | []]]]]; discriminate I.
Qed.

Ltac used_tac := match goal with |- used_at ?l ?m ?h =>
  match h with
  | [?a; ?b] => exists [a], []; split; [reflexivity | exists a; split; [now left | discriminate]]
  | [?a; ?b; ?c] => exists [a; b], []; split; [reflexivity | exists a; split; [now left | discriminate]]
  end end.
Ltac only_tac := match goal with |- only_used_in _ _ _ =>
  split; [eexists _, _; used_tac |];
  let l := fresh in let m := fresh in let h1 := fresh in let h2 := fresh in let E := fresh in
  let I0 := fresh in
  intros l m (h1 & h2 & E & _);
  match type of E with ?h = _ => assert (I0 : In (Use l m) h) by (rewrite E; apply in_or_app; right; now left) end;
  destruct I0 as [I0 | [I0 | [I0 | []]]]; try discriminate I0;
  injection I0 as <- <-; split; [reflexivity | eexists; split; reflexivity]
  end.

(** A function declared in api.h, defined and used only in impl.c is not reported. *)
Theorem C157_other_header_refuted : exists h f g,
  first_at (FUser f) h /\ defined_at (FUser g) h /\ no_redeclaration h /\
  only_used_in base_of (base_of g) h /\
  export_msg base_of no_special (flags false) GFunction h = false.
Proof.
  exists [Decl (at_ "api.h") false; Define (at_ "impl.c"); Use (at_ "impl.c") false], (lit "api.h"), (lit "impl.c").
  split; [constructor |]. split; [apply da_later; [discriminate | constructor] |].
  split.
  - intros l (h1 & h2 & E & _).
    match type of E with ?h = _ => assert (I : In (Decl l true) h) by (rewrite E; apply in_or_app; right; now left) end.
    destruct I as [I | [I | [I | []]]]; discriminate I.
  - split; [| reflexivity]. only_tac.
Qed.
Print Assumptions C157_other_header_refuted.

(** A declaration with extern in another file is taken for a use there, though the name is not
    used in this file. *)
Theorem C157_extern_refuted : exists h f,
  first_at (FUser f) h /\ defined_at (FUser f) h /\ only_used_in base_of (base_of f) h /\
  export_msg base_of no_special (flags false) (GVariable false) h = false.
Proof.
  exists [Define (at_ "count.c"); Decl (at_ "main.c") true; Use (at_ "count.c") false], (lit "count.c").
  split; [constructor |]. split; [constructor |]. split; [| reflexivity]. only_tac.
Qed.
Print Assumptions C157_extern_refuted.

(** Whether all places of uses are shown decides whether the message is given. *)
Theorem C157_showuses_refuted : exists h,
  export_msg base_of no_special (flags false) GFunction h <>
  export_msg base_of no_special (flags true) GFunction h.
Proof.
  exists [Decl (at_ "api.h") false; Define (at_ "impl.c"); Use (at_ "impl.c") false]. cbv. discriminate.
Qed.
Print Assumptions C157_showuses_refuted.

(** Without showuses, the messages depend only on the first declaration, the definition and the
    places of uses: not on the order of the files or how often a name is used; and at most two
    places are kept for a name. *)
Theorem C158_order : forall base special fl k h h' f f',
  showuses fl = false -> (exportlocal fl = true -> track fl = true) ->
  first_at (FUser f) h -> first_at (FUser f') h' -> base f = base f' -> special f = special f' ->
  (forall l m, used_at l m h <-> used_at l m h') ->
  (forall l, redeclared_at l h <-> redeclared_at l h') ->
  (forall l, defined_at l h <-> defined_at l h') ->
  export_msg base special fl k h = export_msg base special fl k h'.
Proof.
  intros base special fl k h h' f f' SH TR FA FA' B SP U R D.
  assert (C : forall l m, counts l m h <-> counts l m h').
  { intros l m. unfold counts. rewrite U, R. tauto. }
  apply eq_true_iff_eq. split; intros M.
  - pose proof (export_special base special fl k h f FA M) as PL.
    destruct (export_flag base special fl k h M) as [X K].
    apply (export_exact base special fl k h f K X SH (TR X) PL FA) in M.
    apply (export_exact base special fl k h' f' K X SH (TR X)); [unfold plain in *; congruence | assumption |].
    destruct M as ((l & m & M1) & M2 & l' & M3 & M4). rewrite B in *.
    split; [exists l, m; now apply C |]. split; [intros; apply M2; now apply C |].
    exists l'. split; [now apply D | assumption].
  - pose proof (export_special base special fl k h' f' FA' M) as PL.
    destruct (export_flag base special fl k h' M) as [X K].
    apply (export_exact base special fl k h' f' K X SH (TR X) PL FA') in M.
    apply (export_exact base special fl k h f K X SH (TR X)); [unfold plain in *; congruence | assumption |].
    destruct M as ((l & m & M1) & M2 & l' & M3 & M4). rewrite B in *.
    split; [exists l, m; now apply C |]. split; [intros; apply M2; now apply C |].
    exists l'. split; [now apply D | assumption].
Qed.
Print Assumptions C158_order.

Theorem C158_two_kept : forall base fl h e,
  showuses fl = false -> run base fl h = Some e -> List.length (uses e) <= 2.
Proof. exact two_kept. Qed.
Print Assumptions C158_two_kept.

Example ex_order :
  let h := [Define (at_ "a.c"); Use (at_ "a.c") false; Use (at_ "b.c") false] in
  let h' := [Define (at_ "a.c"); Use (at_ "b.c") false; Use (at_ "a.c") false; Use (at_ "a.c") false] in
  export_msg base_of no_special (flags false) GFunction h = false /\
  export_msg base_of no_special (flags false) GFunction h' = false /\
  option_map uses (run base_of (flags false) h) = Some [None; Some (at_ "a.c")].
Proof. repeat split. Qed.

(** A name declared in a file is reported as not used exactly if it is never used and not declared
    again with extern, by the message of its kind, if the flag of this is on. *)
Theorem C159_unused_partial : forall base special fl k h f m,
  (special f = false \/ unusedspecial fl = true) ->
  (forall g, defined_at (FUser g) h -> special g = false \/ unusedspecial fl = true) ->
  first_at (FUser f) h ->
  (unused_msg base special fl k h = Some m <->
   (forall l b, ~ used_at l b h) /\ no_redeclaration h /\ message_of fl k m).
Proof.
  intros base special fl k h f m PL PD FA.
  assert (PD' : forall l, defined_at l h -> isSpecialFile special (Some l) = false \/ unusedspecial fl = true).
  { intros [g | |] D; cbn; auto. }
  rewrite (unused_exact base special fl k h f m PL PD' FA), message_of_spec. unfold counts. split.
  - intros (H & E). split; [intros l b U; apply (H l b); now left |].
    split; [intros l R; apply (H l false); now right | assumption].
  - intros (H1 & H2 & E). split; [| assumption].
    intros l b [U | [_ R]]; [now apply (H1 l b) | now apply (H2 l)].
Qed.
Print Assumptions C159_unused_partial.

(** Names declared or defined in special files are not reported without the flag for these. *)
Theorem C159_special : forall base special fl k h f m,
  first_at (FUser f) h -> unused_msg base special fl k h = Some m ->
  (special f = false \/ unusedspecial fl = true) /\
  forall g, defined_at (FUser g) h -> special g = false \/ unusedspecial fl = true.
Proof. exact unused_special. Qed.
Print Assumptions C159_special.

(** No name gets both messages. *)
Theorem C159_exclusive : forall base special fl k h m,
  unused_msg base special fl k h = Some m -> export_msg base special fl k h = false.
Proof. exact exclusive. Qed.
Print Assumptions C159_exclusive.

(** [main], for which a use at a builtin place is added at the end (src/llmain.c 912-927), gets
    neither. *)
Theorem C159_main : forall base special fl k h f,
  (exportlocal fl = true -> track fl = true) ->
  (forall l, defined_at l h -> exists g, l = FUser g) -> first_at (FUser f) h ->
  export_msg base special fl k (h ++ [Use FBuiltin false]) = false /\
  unused_msg base special fl k (h ++ [Use FBuiltin false]) = None.
Proof.
  intros base special fl k h f TR DU FA.
  assert (FA' : first_at (FUser f) (h ++ [Use FBuiltin false])).
  { clear - FA. induction FA; cbn; constructor; assumption. }
  apply (builtin_used base special fl k _ f TR); [| assumption |].
  - intros l D. apply DU. clear - D.
    induction h as [| ev h IH]; cbn in D.
    + inversion D as [| ev h N D']; subst. inversion D'.
    + inversion D as [h0 E | ev0 h0 N D' E]; subst; [constructor | apply da_later; auto].
  - exists h, []. split; [reflexivity |].
    clear - FA. induction FA as [x h | h | u m h F IH].
    + exists (Decl (FUser f) x). split; [now left | discriminate].
    + exists (Define (FUser f)). split; [now left | discriminate].
    + destruct IH as (e & I & N). exists e. split; [now right | assumption].
Qed.
Print Assumptions C159_main.

Example ex_unused :
  unused_msg base_of no_special (flags false) GFunction [Decl (at_ "a.h") false; Define (at_ "a.c")] = Some UFunc /\
  unused_msg base_of no_special (flags false) GConstant [Define (at_ "a.h")] = Some UConst /\
  unused_msg base_of no_special (flags false) GFunction [Define (at_ "m.c"); Use FBuiltin false] = None.
Proof. repeat split. Qed.

(** A variable that is only declared again with extern is used nowhere but not reported. *)
Theorem C159_extern_refuted : exists h f,
  first_at (FUser f) h /\ defined_at (FUser f) h /\ (forall l m, ~ used_at l m h) /\
  unused_msg base_of no_special (flags false) (GVariable false) h = None.
Proof.
  exists [Define (at_ "count.c"); Decl (at_ "main.c") true], (lit "count.c").
  split; [constructor |]. split; [constructor |]. split; [| reflexivity].
  intros l m (h1 & h2 & E & _).
  match type of E with ?h = _ => assert (I : In (Use l m) h) by (rewrite E; apply in_or_app; right; now left) end.
  destruct I as [I | [I | []]]; discriminate I.
Qed.
Print Assumptions C159_extern_refuted.

(** A function declared with extern in one header only and used nowhere is not reported if the
    header is read for two source files. *)
Theorem C159_header_refuted : exists h f g,
  first_at (FUser f) h /\ defined_at (FUser g) h /\ (forall l m, ~ used_at l m h) /\
  (forall l x, In (Decl l x) h -> l = FUser f) /\
  unused_msg base_of no_special (flags false) GFunction h = None.
Proof.
  exists [Decl (at_ "util.h") true; Define (at_ "util.c"); Decl (at_ "util.h") true], (lit "util.h"), (lit "util.c").
  split; [constructor |]. split; [apply da_later; [discriminate | constructor] |]. split; [| split; [| reflexivity]].
  - intros l m (h1 & h2 & E & _).
    match type of E with ?h = _ => assert (I : In (Use l m) h) by (rewrite E; apply in_or_app; right; now left) end.
    destruct I as [I | [I | [I | []]]]; discriminate I.
  - intros l x I. destruct I as [I | [I | [I | []]]]; try discriminate I; now injection I as <- _.
Qed.
Print Assumptions C159_header_refuted.
