(** C49: comments (src/cpplib.c). *)
From Verif Require Import Cbase Cbase_facts Pos_model Comment_model Comment_spec Comment_proofs.
From Coq Require Import ZifyBool.

(** C49. What is skipped is a comment as C has it, and its newlines are counted. *)
Theorem C49_extent : forall cplusplus text read left n,
  skip_comment cplusplus text = Skipped read left n ->
  text = read ++ left /\ n = newlines_in read /\
  (block_comment read \/ (cplusplus = true /\ line_comment read left)).
Proof. exact skip_comment_sound. Qed.
Print Assumptions C49_extent.

(** C49. Every block comment is skipped whole, and nothing more. *)
Theorem C49_block_skipped : forall read left cplusplus, block_comment read ->
  skip_comment cplusplus (read ++ left) = Skipped read left (newlines_in read).
Proof. exact skip_comment_block. Qed.
Print Assumptions C49_block_skipped.

(** C49. Every line comment is skipped up to its newline. *)
Theorem C49_line_skipped : forall read left, line_comment read left ->
  left = [] \/ last read ch_space <> "\"%char ->
  skip_comment true (read ++ left) = Skipped read left (newlines_in read).
Proof. exact skip_comment_line. Qed.
Print Assumptions C49_line_skipped.

(** C49. Only a comment that is not closed runs into the end of the file. *)
Theorem C49_unterminated : forall cplusplus text, skip_comment cplusplus text = AtEof ->
  forall read left, text = read ++ left -> ~ block_comment read.
Proof.
  intros b text H read left E B. rewrite E, (skip_comment_block read left b B) in H. discriminate.
Qed.
Print Assumptions C49_unterminated.

(** A comment with [/*] inside, a line splice in the middle and one before its [*]. *)
Definition comment_text : cstr :=
  lit "\" ++ [ch_nl] ++ lit "*/* a **" ++ [ch_nl] ++ lit " \" ++ [ch_nl] ++ lit "*/ x = 1; */".
Example C49_block_ex :
  skip_comment false comment_text
  = Skipped (lit "\" ++ [ch_nl] ++ lit "*/* a **" ++ [ch_nl] ++ lit " \" ++ [ch_nl] ++ lit "*/") (lit " x = 1; */") 3.
Proof. vm_compute. reflexivity. Qed.
Example C49_block_ex_hyp : block_comment (lit "*/* a **" ++ [ch_nl] ++ lit "*/").
Proof.
  split; [reflexivity|]. exists (lit "/* a **" ++ [ch_nl]). split; [reflexivity|].
  intros (a & b & H).
  do 9 (destruct a as [|? a]; [discriminate H|injection H as _ H]). destruct a; discriminate H.
Qed.
Example C49_line_ex : line_comment (lit "/ a\" ++ [ch_nl] ++ lit "b") (ch_nl :: lit "c") /\
  skip_comment true (lit "/ a\" ++ [ch_nl] ++ lit "b" ++ ch_nl :: lit "c")
  = Skipped (lit "/ a\" ++ [ch_nl] ++ lit "b") (ch_nl :: lit "c") 1.
Proof.
  split; [|vm_compute; reflexivity]. split; [right; eauto|]. exists (lit " ab"). split; [reflexivity|].
  vm_compute. intuition congruence.
Qed.
Example C49_unterminated_ex : skip_comment true (lit "*/ no end *") = AtEof.
Proof. vm_compute. reflexivity. Qed.

(** C49. What is written for a comment has the same length and the same newlines, so lines and
    columns of what follows are unchanged: for any comment read, if the marker character is not
    a newline and a syntactic comment ends in [*/] without a splice. *)
Theorem C49_layout_kept : forall cplusplus text read left n marker lint,
  skip_comment cplusplus text = Skipped read left n ->
  marker <> ch_nl ->
  ((exists r, read = "*"%char :: marker :: r) -> exists mid, read = ["*"%char; marker] ++ mid ++ lit "*/") ->
  exists lead body w act, handle_comment marker lint read = Written lead body w act /\
    layout (lead :: body) = layout ("/"%char :: read).
Proof. exact handle_layout. Qed.
Print Assumptions C49_layout_kept.

(** C49. In particular the newlines counted are those written. *)
Theorem C49_newlines_written : forall cplusplus text read left n marker lint,
  skip_comment cplusplus text = Skipped read left n ->
  marker <> ch_nl ->
  ((exists r, read = "*"%char :: marker :: r) -> exists mid, read = ["*"%char; marker] ++ mid ++ lit "*/") ->
  exists lead body w act, handle_comment marker lint read = Written lead body w act /\
    newlines_in (lead :: body) = n.
Proof.
  intros b text read left n marker lint H NM SY.
  destruct (handle_layout b text read left n marker lint H NM SY) as (lead & body & w & act & A & B).
  exists lead, body, w, act. split; [exact A|]. apply layout_newlines in B. rewrite B.
  destruct (skip_comment_sound _ _ _ _ _ H) as (_ & -> & _). rewrite newlines_cons. reflexivity.
Qed.
Print Assumptions C49_newlines_written.
Example C49_layout_ex : exists read left n,
  skip_comment false (lit "*@null" ++ [ch_nl] ++ lit "@*/ int x;") = Skipped read left n /\
  read = ["*"%char; "@"%char] ++ (lit "null" ++ [ch_nl] ++ lit "@") ++ lit "*/" /\
  handle_comment "@"%char true read
  = Written " "%char (lit "%{null" ++ [ch_nl] ++ lit " %}") false NoAction.
Proof. do 3 eexists. split; [vm_compute; reflexivity|]. split; [reflexivity|]. vm_compute. reflexivity. Qed.

(** C49. An ordinary comment leaves nothing but blanks and newlines, and is reported as
    holding a comment start exactly when it does. *)
Theorem C49_ordinary_blank : forall marker read, ~ (exists r, read = "*"%char :: marker :: r) ->
  exists body w, handle_comment marker false read = Written " "%char body w NoAction /\
    layout body = layout read /\ Forall (fun c => c = " "%char \/ c = ch_nl) body /\
    (w = true <-> occurs (lit "/*") read).
Proof.
  intros marker read N.
  assert (exists body w, remove_comment false read false NoAction = Written " "%char body w NoAction /\
    layout body = layout read /\ Forall (fun c => c = " "%char \/ c = ch_nl) body /\
    (w = true <-> occurs (lit "/*") read)) as R.
  { unfold remove_comment. pose proof (blank_layout read) as A. pose proof (blank_chars read) as B.
    pose proof (blank_nested read) as C. destruct (blank read) as [b w]. exists b, w. auto. }
  unfold handle_comment. destruct read as [|x [|y r]]; [exact R|exact R|].
  destruct (Ascii.eqb x ch_star && Ascii.eqb y marker) eqn:E; [|exact R].
  exfalso. apply andb_true_iff in E. destruct E as [E1 E2]. apply Ascii.eqb_eq in E1. apply Ascii.eqb_eq in E2.
  subst x y. apply N. exists r. reflexivity.
Qed.
Print Assumptions C49_ordinary_blank.
Example C49_ordinary_ex : handle_comment "@"%char false (lit "* a /* b" ++ [ch_nl] ++ lit "*/")
  = Written " "%char (lit "        " ++ [ch_nl] ++ lit "  ") true NoAction.
Proof. vm_compute. reflexivity. Qed.

(** C49. A syntactic comment (that is not one of the few eliminated ones) reaches the parser
    with its text unchanged between the markers, except that the marker characters themselves
    become blanks. *)
Theorem C49_annotation_kept : forall marker lint mid,
  snd (classify (mid ++ lit "%}")) = false ->
  exists w act, handle_comment marker lint (["*"%char; marker] ++ mid ++ lit "*/")
  = Written " "%char (lit "%{" ++ map (fun c => if Ascii.eqb c "%"%char || Ascii.eqb c "{"%char || Ascii.eqb c marker
                                               then " "%char else c) mid ++ lit "%}") w act.
Proof.
  intros marker lint mid H. pose proof (handle_syntactic marker lint mid) as E. cbv zeta in E.
  change (mid ++ lit "%}") with (mid ++ [ch_percent; ch_rbrace]) in H.
  destruct (classify (mid ++ [ch_percent; ch_rbrace])) as [act elim]. cbn [snd] in H. subst elim.
  eexists. exists act. exact E.
Qed.
Print Assumptions C49_annotation_kept.
Example C49_annotation_ex : snd (classify (lit "out only{x}@" ++ lit "%}")) = false /\
  handle_comment "@"%char false (lit "*@out only{x}@*/") = Written " "%char (lit "%{out only x} %}") false NoAction.
Proof. vm_compute. auto. Qed.

(** C49. Suppression regions: opened by the texts starting with "ignore", closed by those
    starting with "end", and by no others. *)
Theorem C49_ignore_exactly : forall text,
  (fst (classify text) = EnterIgnore <-> exists t, text = lit "ignore" ++ t) /\
  (fst (classify text) = ExitIgnore <-> exists t, text = lit "end" ++ t).
Proof.
  intros text. pose proof (equalPrefix_spec (lit "ignore") text) as I. pose proof (equalPrefix_spec (lit "end") text) as J.
  assert (forall t, equalPrefix (lit "ignore" ++ t) (lit "end") = false) as X by reflexivity.
  assert (forall t, equalPrefix (lit "end" ++ t) (lit "ignore") = false) as Y by reflexivity.
  unfold classify.
  destruct (equalPrefix text (lit "ignore")) eqn:E1.
  { split; split; intros H; try reflexivity; try discriminate.
    - apply I. reflexivity.
    - apply J in H. destruct (proj1 I eq_refl) as [t ->]. rewrite X in H. discriminate. }
  destruct (equalPrefix text (lit "end")) eqn:E2.
  { split; split; intros H; try reflexivity; try discriminate.
    - apply I in H. discriminate.
    - apply J. reflexivity. }
  assert (forall a : action * bool, fst a <> EnterIgnore -> fst a <> ExitIgnore ->
    (fst a = EnterIgnore <-> exists t, text = lit "ignore" ++ t) /\ (fst a = ExitIgnore <-> exists t, text = lit "end" ++ t)) as Z.
  { intros a A1 A2. split; split; intros H; try contradiction; [apply I in H|apply J in H]; discriminate. }
  apply Z.
  - destruct (equalPrefix text (lit "notparseable")); [discriminate|].
    destruct (equalPrefix text (lit "notfunction")); [discriminate|].
    destruct (_ || _ || _); [discriminate|]. destruct text as [|s rest]; [discriminate|].
    destruct (_ || _ || _); [|discriminate]. destruct (equalPrefix rest (lit "commentchar")).
    + destruct (Ascii.eqb s "="%char); [discriminate|]. destruct (skipn 12 (s :: rest)) as [|x t]; [discriminate|].
      destruct (_ || _ || _); [|discriminate]. destruct t; discriminate.
    + destruct (equalPrefix (s :: rest) (lit "nestcomment")); discriminate.
  - destruct (equalPrefix text (lit "notparseable")); [discriminate|].
    destruct (equalPrefix text (lit "notfunction")); [discriminate|].
    destruct (_ || _ || _); [discriminate|]. destruct text as [|s rest]; [discriminate|].
    destruct (_ || _ || _); [|discriminate]. destruct (equalPrefix rest (lit "commentchar")).
    + destruct (Ascii.eqb s "="%char); [discriminate|]. destruct (skipn 12 (s :: rest)) as [|x t]; [discriminate|].
      destruct (_ || _ || _); [|discriminate]. destruct t; discriminate.
    + destruct (equalPrefix (s :: rest) (lit "nestcomment")); discriminate.
Qed.
Print Assumptions C49_ignore_exactly.
Example C49_ignore_ex : fst (classify (lit "ignore@%}")) = EnterIgnore /\ fst (classify (lit "end@%}")) = ExitIgnore /\
  fst (classify (lit "endowed%}")) = ExitIgnore /\ fst (classify (lit " ignore@%}")) = NoAction.
Proof. vm_compute. auto. Qed.

(** C49. No syntactic comment ever sets [nestcomment] here: the test at 8299 compares the text
    with its sign, so it never holds. *)
Theorem C49_nestcomment_dead : forall text s, fst (classify text) <> SetNest s.
Proof.
  intros text s. unfold classify.
  destruct (equalPrefix text (lit "ignore")); [discriminate|].
  destruct (equalPrefix text (lit "end")); [discriminate|].
  destruct (equalPrefix text (lit "notparseable")); [discriminate|].
  destruct (equalPrefix text (lit "notfunction")); [discriminate|].
  destruct (_ || _ || _); [discriminate|]. destruct text as [|c rest]; [discriminate|].
  destruct (Ascii.eqb c "="%char || Ascii.eqb c "-"%char || Ascii.eqb c "+"%char) eqn:E; [|discriminate].
  destruct (equalPrefix rest (lit "commentchar")).
  + destruct (Ascii.eqb c "="%char); [discriminate|]. destruct (skipn 12 (c :: rest)) as [|x t]; [discriminate|].
    destruct (Ascii.eqb x ch_space || Ascii.eqb x ch_tab || Ascii.eqb x ch_nl); [|discriminate]. destruct t; discriminate.
  + destruct (equalPrefix (c :: rest) (lit "nestcomment")) eqn:P; [|discriminate].
    exfalso. apply equalPrefix_spec in P. destruct P as [t P]. injection P as -> _. discriminate.
Qed.
Print Assumptions C49_nestcomment_dead.
Theorem C49_nestcomment_refuted : exists sign, classify (sign :: lit "nestcomment@%}") <> (SetNest sign, false)
  /\ (sign = "-"%char \/ sign = "+"%char \/ sign = "="%char).
Proof. exists "-"%char. split; [vm_compute; discriminate|auto]. Qed.
Print Assumptions C49_nestcomment_refuted.

(** C49. The conditions of the layout theorem are needed: a splice inside the closing [*/] of a
    syntactic comment, the marker [*] with an empty comment, and a newline as marker (which
    [commentchar] accepts). *)
Theorem C49_spliced_end_refuted : exists text read left n,
  skip_comment false text = Skipped read left n /\ handle_comment "@"%char false read = AssertFails.
Proof.
  exists (lit "*@null@*\" ++ [ch_nl] ++ lit "/"). do 3 eexists. split; vm_compute; reflexivity.
Qed.
Print Assumptions C49_spliced_end_refuted.
Theorem C49_star_marker_refuted : exists text read left n,
  skip_comment false text = Skipped read left n /\ handle_comment "*"%char false read = AssertFails.
Proof. exists (lit "**/"). do 3 eexists. split; vm_compute; reflexivity. Qed.
Print Assumptions C49_star_marker_refuted.
Theorem C49_newline_marker_refuted : exists text read left n body,
  fst (classify (lit "-commentchar " ++ [ch_nl] ++ lit "%}")) = SetMarker ch_nl /\
  skip_comment false text = Skipped read left n /\
  handle_comment ch_nl false read = Written " "%char body false NoAction /\ newlines_in body <> n.
Proof.
  exists (lit "*" ++ [ch_nl] ++ lit "a" ++ [ch_nl] ++ lit "*/"). do 4 eexists.
  split; [vm_compute; reflexivity|]. split; [vm_compute; reflexivity|]. split; [vm_compute; reflexivity|].
  vm_compute. discriminate.
Qed.
Print Assumptions C49_newline_marker_refuted.

(** C49. A [commentchar] comment without a character takes the [%] written over its own end. *)
Theorem C49_commentchar_default_refuted : exists mid,
  ~ In "%"%char mid /\ handle_comment "@"%char false (["*"%char; "@"%char] ++ mid ++ lit "*/")
  = Written " "%char (repeat " "%char 17) false (SetMarker "%"%char).
Proof. exists (lit "-commentchar "). split; [vm_compute; intuition congruence|]. vm_compute. reflexivity. Qed.
Print Assumptions C49_commentchar_default_refuted.
