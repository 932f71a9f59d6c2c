(** Integer and character constants: what users rely on. *)
From Verif Require Import Cbase Lits_model Lits_spec Lits_proofs.
Open Scope Z_scope.

Definition fl0 : lflags := {| gnuextensions := false; zeroptr := true; zerobool := false; charintliteral := false |}.

(** [0x1fUL;] meets the hypotheses, and [017], [42]. *)
Example ex_const_hex : c_const Hexadecimal true OneL (lit "0x1fUL") 31.
Proof.
  apply (cc Hexadecimal (lit "0x1f") 31 (lit "UL")).
  - apply (u_hex "x" (lit "1f")); [now left |].
    apply (n_more 16 "1" 1 (lit "f") 15); [apply (d_dec "1"); vm_compute; split; congruence | reflexivity |].
    apply (n_one 16 "f"); [apply (d_low "f"); vm_compute; split; congruence | reflexivity].
  - cbn. tauto.
Qed.
Example ex_const_oct : c_const Octal false NoL (lit "017") 15.
Proof.
  apply (cc Octal (lit "017") 15 (lit "")).
  - apply (u_oct (lit "17")).
    apply (n_more 8 "1" 1 (lit "7") 7); [apply (d_dec "1"); vm_compute; split; congruence | reflexivity |].
    apply (n_one 8 "7"); [apply (d_dec "7"); vm_compute; split; congruence | reflexivity].
  - cbn. tauto.
Qed.
Example ex_ends : ends (lit "; x = 1").
Proof. cbn. unfold word_char. vm_compute. intuition congruence. Qed.
Example ex_lex : lex_int fl0 (lit "0x1fUL; x = 1") =
  IntTok {| i_text := lit "0x1fUL"; i_rest := lit "; x = 1"; i_val := 31; i_type := [TUlint];
            i_null := false; i_msgs := [] |}.
Proof. reflexivity. Qed.

(** Every integer constant of C is one token with exactly its value and no message, provided the
    value fits in a long; what comes after it is left. *)
Theorem C148_values : forall fl nt uns ls t v rest,
  c_const nt uns ls t v -> ends rest -> v <= LONG_MAX ->
  exists tk, lex_int fl (t ++ rest) = IntTok tk /\ i_text tk = t /\ i_rest tk = rest /\
             i_val tk = v /\ i_msgs tk = [].
Proof.
  intros fl nt uns ls t v rest C E L. rewrite (lex_const _ _ _ _ _ _ _ C E). unfold tok_of.
  apply Z.leb_le in L. rewrite L. eexists. repeat split.
Qed.
Print Assumptions C148_values.

(** The bound is exact: the value of any greater constant is worked out by arithmetic that is
    undefined. *)
Theorem C148_bound : forall fl nt uns ls t v rest,
  c_const nt uns ls t v -> ends rest -> (lex_int fl (t ++ rest) = IntUndefined <-> LONG_MAX < v).
Proof.
  intros fl nt uns ls t v rest C E. rewrite (lex_const _ _ _ _ _ _ _ C E). unfold tok_of.
  destruct (Z.leb_spec v LONG_MAX); split; intro; try discriminate; try lia; reflexivity.
Qed.
Print Assumptions C148_bound.

(** The constant [0xffffffffffffffff] of C, an unsigned long, is beyond the bound: signed overflow
    in splint. *)
Theorem C148_big_refuted : exists nt uns ls t v,
  c_const nt uns ls t v /\ v <= cty_max ULong /\ lex_int fl0 t = IntUndefined.
Proof.
  exists Hexadecimal, false, NoL, (lit "0xffffffffffffffff"), 18446744073709551615.
  split; [| split; [vm_compute; congruence | reflexivity]].
  apply (cc Hexadecimal (lit "0xffffffffffffffff") _ (lit "")); [| cbn; tauto].
  apply (u_hex "x" (lit "ffffffffffffffff")); [now left |].
  assert (D : digit "f" 15) by (apply (d_low "f"); vm_compute; split; congruence).
  assert (N : numeral 16 (lit "f") 15) by (now apply n_one).
  do 15 (apply (n_more 16 _ _ _ _ D) in N; [| reflexivity]). exact N.
Qed.
Print Assumptions C148_big_refuted.

(** Binary constants are read with their value; the message that they are not ISO C is given
    exactly without +gnuextensions. *)
Theorem C148_binary : forall fl x s v sf uns ls rest,
  x = "b"%char \/ x = "B"%char -> numeral 2 s v -> In (sf, (uns, ls)) suffixes -> ends rest ->
  v <= LONG_MAX ->
  exists tk, lex_int fl (("0"%char :: x :: s ++ sf) ++ rest) = IntTok tk /\
             i_text tk = "0"%char :: x :: s ++ sf /\ i_rest tk = rest /\ i_val tk = v /\
             (i_msgs tk = [] <-> gnuextensions fl = true) /\
             (i_msgs tk = [BinaryNotIso] <-> gnuextensions fl = false).
Proof.
  intros fl x s v sf uns ls rest X N I E L. rewrite (lex_binary _ _ _ _ _ _ _ _ X N I E). unfold tok_of.
  apply Z.leb_le in L. rewrite L. eexists. split; [reflexivity |]. cbn.
  repeat split; destruct (gnuextensions fl); congruence.
Qed.
Print Assumptions C148_binary.

Example ex_binary : lex_int fl0 (lit "0b101u+1") =
  IntTok {| i_text := lit "0b101u"; i_rest := lit "+1"; i_val := 5; i_type := [TUint];
            i_null := false; i_msgs := [BinaryNotIso] |}.
Proof. reflexivity. Qed.

(** [08] is not a constant of C, yet it is read as 8 without a message. *)
Theorem C148_octal_refuted : exists t tk, lex_int fl0 t = IntTok tk /\ i_text tk = t /\ i_val tk = 8 /\
  i_msgs tk = [] /\ forall nt uns ls v, ~ c_const nt uns ls t v.
Proof.
  exists (lit "08"). eexists. split; [reflexivity |]. repeat split. exact not_const_08.
Qed.
Print Assumptions C148_octal_refuted.

(** [1lL] is not a constant of C, yet it is read as 1 without a message. *)
Theorem C148_suffix_refuted : exists t tk, lex_int fl0 t = IntTok tk /\ i_text tk = t /\
  i_msgs tk = [] /\ forall nt uns ls v, ~ c_const nt uns ls t v.
Proof.
  exists (lit "1lL"). eexists. split; [reflexivity |]. repeat split. exact not_const_1lL.
Qed.
Print Assumptions C148_suffix_refuted.

(** The integer type given is the one of C exactly if the value fits the first type of C's list
    for the suffix. *)
Theorem C149_types_partial : forall fl nt uns ls t v rest c ct l,
  c_const nt uns ls t v -> ends rest -> v <= LONG_MAX ->
  c_type nt uns ls v ct -> candidates nt uns ls = c :: l ->
  exists tk, lex_int fl (t ++ rest) = IntTok tk /\ i_text tk = t /\
             int_types (i_type tk) = [c] /\ (int_types (i_type tk) = [ct] <-> v <= cty_max c).
Proof.
  intros fl nt uns ls t v rest c ct l C E L T K. rewrite (lex_const _ _ _ _ _ _ _ C E). unfold tok_of.
  apply Z.leb_le in L. rewrite L. eexists. split; [reflexivity |]. cbn [i_text i_type].
  rewrite (int_types_of _ _ _ _ _ _ _ K). repeat split.
  - intro H. injection H as <-. unfold c_type in T. rewrite K in T.
    destruct (candidates_cons nt uns ls) as (c' & l' & K' & NI). rewrite K in K'. injection K' as <- <-.
    now apply (first_fit_head _ _ _ _ T NI).
  - intro H. f_equal. symmetry. unfold c_type in T. rewrite K in T.
    destruct (candidates_cons nt uns ls) as (c' & l' & K' & NI). rewrite K in K'. injection K' as <- <-.
    now apply (first_fit_head _ _ _ _ T NI).
Qed.
Print Assumptions C149_types_partial.

Example ex_type : c_type Hexadecimal true OneL 31 ULong /\ candidates Hexadecimal true OneL = [ULong; ULLong].
Proof. split; [apply ff_here; vm_compute; congruence | reflexivity]. Qed.

(** [0xffffffff] is an unsigned int in C, an int for splint. *)
Theorem C149_hex_refuted : exists nt uns ls t v tk,
  c_const nt uns ls t v /\ c_type nt uns ls v UInt /\ lex_int fl0 t = IntTok tk /\ i_type tk = [TInt].
Proof.
  exists Hexadecimal, false, NoL, (lit "0xffffffff"), 4294967295. eexists.
  split; [| split; [apply ff_next; [reflexivity | apply ff_here; vm_compute; congruence] | split; reflexivity]].
  apply (cc Hexadecimal (lit "0xffffffff") _ (lit "")); [| cbn; tauto].
  apply (u_hex "x" (lit "ffffffff")); [now left |].
  assert (D : digit "f" 15) by (apply (d_low "f"); vm_compute; split; congruence).
  assert (N : numeral 16 (lit "f") 15) by (now apply n_one).
  do 7 (apply (n_more 16 _ _ _ _ D) in N; [| reflexivity]). exact N.
Qed.
Print Assumptions C149_hex_refuted.

(** [9999999999] is a long in C, an int for splint. *)
Theorem C149_dec_refuted : exists nt uns ls t v tk,
  c_const nt uns ls t v /\ c_type nt uns ls v Long /\ lex_int fl0 t = IntTok tk /\ i_type tk = [TInt].
Proof.
  exists Decimal, false, NoL, (lit "9999999999"), 9999999999. eexists.
  split; [| split; [apply ff_next; [reflexivity | apply ff_here; vm_compute; congruence] | split; reflexivity]].
  apply (cc Decimal (lit "9999999999") _ (lit "")); [| cbn; tauto].
  apply (u_dec "9" (lit "999999999")); [vm_compute; split; congruence |].
  assert (D : digit "9" 9) by (apply (d_dec "9"); vm_compute; split; congruence).
  assert (N : numeral 10 (lit "9") 9) by (now apply n_one).
  do 9 (apply (n_more 10 _ _ _ _ D) in N; [| reflexivity]). exact N.
Qed.
Print Assumptions C149_dec_refuted.

(** A character constant of C is one token; its value is that of C exactly for characters, for the
    escapes n, t, double quote, quote and backslash, and for what denotes 0. *)
Theorem C150_values_partial : forall fl b v rest, c_char b v ->
  exists tk, lex_char fl (c_charconst false b ++ rest) = Some tk /\
    c_text tk = c_charconst false b /\ c_rest tk = rest /\
    (code (c_val tk) = v <->
     (forall r, b <> "\"%char :: r) \/
     (exists c, b = ["\"%char; c] /\ In c ["n"; "t"; "034"; "'"; "\"]%char) \/ v = 0) /\
    (code (c_val tk) <> v -> code (c_val tk) = 0).
Proof.
  intros fl b v rest C. rewrite (lex_charconst _ _ _ _ _ C). eexists. split; [reflexivity |].
  split; [reflexivity |]. split; [reflexivity |]. cbn [c_val]. rewrite (char_value _ _ C).
  exact (char_exact _ _ C).
Qed.
Print Assumptions C150_values_partial.

Example ex_char : c_char (lit "\n") 10 /\ c_char (lit "a") 97 /\
  lex_char fl0 (lit "'\n')") =
  Some {| c_text := lit "'\n'"; c_rest := lit ")"; c_val := ch_nl; c_int := false |}.
Proof.
  split; [apply (ch_simple "n"); cbn; tauto |]. split; [now apply (ch_plain "a") | reflexivity].
Qed.

(** Wide character constants are one token too, but all have the value of a quote. *)
Theorem C150_wide_partial : forall fl b v rest, c_char b v ->
  exists tk, lex_char fl (c_charconst true b ++ rest) = Some tk /\
    c_text tk = c_charconst true b /\ c_rest tk = rest /\ (code (c_val tk) = v <-> v = 39).
Proof.
  intros fl b v rest C. rewrite (lex_charconst _ _ _ _ _ C). eexists. split; [reflexivity |].
  split; [reflexivity |]. split; [reflexivity |]. cbn [c_val]. rewrite wide_value.
  change (code "'") with 39. split; congruence.
Qed.
Print Assumptions C150_wide_partial.

(** The value of [L'a'] is taken to be that of a quote. *)
Theorem C150_wide_refuted : exists b v tk, c_char b v /\ lex_char fl0 (c_charconst true b) = Some tk /\
  code (c_val tk) <> v.
Proof.
  exists (lit "a"), 97. eexists. split; [now apply (ch_plain "a") |]. split; [reflexivity |].
  vm_compute. congruence.
Qed.
Print Assumptions C150_wide_refuted.

(** The values of ['\a'] and ['\r'] are taken to be 0, hence equal. *)
Theorem C150_escape_refuted : exists b v b' v' tk tk',
  c_char b v /\ c_char b' v' /\ v <> v' /\
  lex_char fl0 (c_charconst false b) = Some tk /\ lex_char fl0 (c_charconst false b') = Some tk' /\
  c_val tk = c_val tk'.
Proof.
  exists (lit "\a"), 7, (lit "\r"), 13. do 2 eexists.
  split; [apply (ch_simple "a"); cbn; tauto |]. split; [apply (ch_simple "r"); cbn; tauto |].
  split; [congruence |]. repeat split.
Qed.
Print Assumptions C150_escape_refuted.

(** The value of ['\101'], which is that of A, is taken to be 0. *)
Theorem C150_octal_refuted : exists b v tk, c_char b v /\ v = code "A" /\
  lex_char fl0 (c_charconst false b) = Some tk /\ code (c_val tk) = 0.
Proof.
  exists (lit "\101"), 65. eexists. split; [| repeat split].
  apply (ch_oct (lit "101")); [| cbn; lia | lia].
  apply (n_more 8 "1" 1 (lit "01") 1); [apply (d_dec "1"); vm_compute; split; congruence | reflexivity |].
  apply (n_more 8 "0" 0 (lit "1") 1); [apply (d_dec "0"); vm_compute; split; congruence | reflexivity |].
  apply (n_one 8 "1"); [apply (d_dec "1"); vm_compute; split; congruence | reflexivity].
Qed.
Print Assumptions C150_octal_refuted.

(** A constant is marked as null exactly if its value is 0, whatever its notation and suffix; it
    may be used as a pointer without a cast exactly if moreover it has no suffix and +zeroptr is
    set, as a boolean with +zerobool. *)
Theorem C151_zero_partial : forall fl nt uns ls t v rest,
  c_const nt uns ls t v -> ends rest -> v <= LONG_MAX ->
  exists tk, lex_int fl (t ++ rest) = IntTok tk /\
    (i_null tk = true <-> v = 0) /\
    (In TVoidPtr (i_type tk) <-> v = 0 /\ uns = false /\ ls = NoL /\ zeroptr fl = true) /\
    (In TBool (i_type tk) <-> v = 0 /\ uns = false /\ ls = NoL /\ zerobool fl = true).
Proof.
  intros fl nt uns ls t v rest C E L. rewrite (lex_const _ _ _ _ _ _ _ C E). unfold tok_of.
  apply Z.leb_le in L. rewrite L. eexists. split; [reflexivity |]. cbn [i_null i_type].
  split; [apply Z.eqb_eq |]. exact (zero_types fl uns ls v).
Qed.
Print Assumptions C151_zero_partial.

Example ex_zero : c_const Octal false NoL (lit "0") 0 /\
  lex_int fl0 (lit "0)") =
  IntTok {| i_text := lit "0"; i_rest := lit ")"; i_val := 0; i_type := [TInt; TVoidPtr];
            i_null := true; i_msgs := [] |}.
Proof. split; [apply (cc Octal (lit "0") 0 (lit "")); [constructor | cbn; tauto] | reflexivity]. Qed.

(** [0L], a null pointer constant of C, is not given the type of a pointer with +zeroptr. *)
Theorem C151_long_refuted : exists nt uns ls t tk, c_const nt uns ls t 0 /\
  lex_int fl0 t = IntTok tk /\ zeroptr fl0 = true /\ ~ In TVoidPtr (i_type tk).
Proof.
  exists Octal, false, OneL, (lit "0L"). eexists. split; [| split; [reflexivity |]].
  - apply (cc Octal (lit "0") 0 (lit "L")); [constructor | cbn; tauto].
  - split; [reflexivity |]. cbn. intuition discriminate.
Qed.
Print Assumptions C151_long_refuted.
