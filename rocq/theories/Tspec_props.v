(** The properties C76, C77 and C78: type specifiers. *)
From Coq Require Import List Permutation.
From Verif Require Import Prim_model Tspec_model Tspec_spec Tspec_proofs.
Import ListNotations.

(** C76: a list of specifiers which C allows is accepted without a message; it denotes the type C
    gives it if, and only if, neither char nor double stands before another specifier.
    Missing: the lists in which one of them does. *)
Theorem C76_specifiers_denote_partial :
  forall ig ws t, denotes ws t ->
    snd (complete_type ig ws) = [] /\ (fst (complete_type ig ws) = as_ct t <-> ~ misplaced ws).
Proof. exact valid_specifiers. Qed.
Print Assumptions C76_specifiers_denote_partial.

(** [static unsigned char] and [const long double]. *)
Example C76_case :
  denotes [Qual 0; Unsigned; Char] TUChar /\ ~ misplaced [Qual 0; Unsigned; Char]
  /\ denotes [Qual 1; Long; Double] TLDouble.
Proof.
  split; [|split].
  - exists [Unsigned; Char]. split; [left; cbn; tauto|reflexivity].
  - rewrite misplaced_spec. discriminate.
  - exists [Long; Double]. split; [left; cbn; tauto|reflexivity].
Qed.

(** [char unsigned] is the type unsigned char of C; it is taken for unsigned int, silently. *)
Theorem C76_char_unsigned_refuted :
  exists ws t, denotes ws t /\ complete_type false ws <> (as_ct t, [])
    /\ complete_type false ws = (Prim P_UINT, []) /\ t = TUChar.
Proof.
  exists [Char; Unsigned], TUChar.
  split; [exists [Unsigned; Char]; split; [left; cbn; tauto|constructor]|].
  split; [discriminate|split; reflexivity].
Qed.
Print Assumptions C76_char_unsigned_refuted.

(** [double long] is the type long double of C; it is taken for long int, silently. *)
Theorem C76_double_long_refuted :
  exists ws t, denotes ws t /\ complete_type false ws <> (as_ct t, [])
    /\ complete_type false ws = (Prim P_LINT, []) /\ t = TLDouble.
Proof.
  exists [Double; Long], TLDouble.
  split; [exists [Long; Double]; split; [left; cbn; tauto|constructor]|].
  split; [discriminate|split; reflexivity].
Qed.
Print Assumptions C76_double_long_refuted.

(** [char signed] is a character type; it is taken for int. *)
Theorem C76_char_signed_refuted :
  exists ws t, denotes ws t /\ complete_type false ws <> (as_ct t, [])
    /\ complete_type false ws = (Prim P_INT, []) /\ t = TSChar.
Proof.
  exists [Char; Signed], TSChar.
  split; [exists [Signed; Char]; split; [left; cbn; tauto|constructor]|].
  split; [discriminate|split; reflexivity].
Qed.
Print Assumptions C76_char_signed_refuted.

(** Two types which C keeps apart, char and signed char, are one type. *)
Theorem C76_signed_char_refuted :
  exists ws ws' t t', denotes ws t /\ denotes ws' t' /\ t <> t'
    /\ complete_type false ws = complete_type false ws'.
Proof.
  exists [Char], [Signed; Char], TChar, TSChar.
  split; [exists [Char]; split; [left; cbn; tauto|constructor; constructor]|].
  split; [exists [Signed; Char]; split; [left; cbn; tauto|reflexivity]|].
  split; [discriminate|reflexivity].
Qed.
Print Assumptions C76_signed_char_refuted.

(** C77: specifiers other than char and double may stand in any order, between any storage classes
    and qualifiers. *)
Theorem C77_integers_any_order :
  forall ig ws t, denotes ws t -> ~ In Char ws -> ~ In Double ws ->
    complete_type ig ws = (as_ct t, []).
Proof. exact integers_any_order. Qed.
Print Assumptions C77_integers_any_order.

(** [long const unsigned int static long]. *)
Example C77_case :
  let ws := [Long; Qual 0; Unsigned; Int; Qual 1; Long] in
  denotes ws TULLong /\ ~ In Char ws /\ ~ In Double ws
  /\ complete_type false ws = (Prim P_ULLINT, []).
Proof.
  split; [|repeat split; try reflexivity; cbn; intuition discriminate].
  exists [Unsigned; Long; Long; Int]. split; [left; cbn; tauto|].
  cbn [strip filter is_spec].
  apply (perm_trans (l' := [Unsigned; Long; Int; Long])).
  - constructor.
  - do 2 constructor. constructor.
Qed.

(** C78: a list of the words int, long, short and unsigned which C does not allow gets a message,
    unless it is wrong by a second int or a third long (and unless the flag ignorequals is on).
    Missing: signed, the other words, and the two exceptions. *)
Theorem C78_bad_specifiers_reported_partial :
  forall ws, integer_words ws -> times is_int ws <= 1 -> times is_long ws <= 2 ->
    snd (complete_type false ws) = [] -> exists t, denotes ws t.
Proof. exact integer_words_reported. Qed.
Print Assumptions C78_bad_specifiers_reported_partial.

(** [short unsigned long] is reported. *)
Example C78_case :
  let ws := [Short; Unsigned; Long] in
  integer_words ws /\ times is_int ws <= 1 /\ times is_long ws <= 2
  /\ snd (complete_type false ws) = [Contradictory]
  /\ integer_words [Long; Qual 0; Unsigned] /\ snd (complete_type false [Long; Qual 0; Unsigned]) = [].
Proof. 
  cbn zeta. unfold integer_words. cbn [strip filter is_spec].
  split; [repeat (constructor; [tauto|]); constructor|].
  do 3 (split; [cbn; auto|]).
  split; [repeat (constructor; [tauto|]); constructor|reflexivity].
Qed.

(** [long long long] is accepted. *)
Theorem C78_long_long_long_refuted :
  exists ws, (forall t, ~ denotes ws t) /\ snd (complete_type false ws) = [].
Proof. exists [Long; Long; Long]. split; [denotes_nothing|reflexivity]. Qed.
Print Assumptions C78_long_long_long_refuted.

(** [int int] is accepted. *)
Theorem C78_int_int_refuted :
  exists ws, (forall t, ~ denotes ws t) /\ snd (complete_type false ws) = []
    /\ fst (complete_type false ws) = Prim P_INT.
Proof. exists [Int; Int]. split; [denotes_nothing|split; reflexivity]. Qed.
Print Assumptions C78_int_int_refuted.

(** [signed unsigned] is accepted, as unsigned. *)
Theorem C78_signed_unsigned_refuted :
  exists ws, (forall t, ~ denotes ws t) /\ complete_type false ws = (Prim P_UINT, []).
Proof. exists [Signed; Unsigned]. split; [denotes_nothing|reflexivity]. Qed.
Print Assumptions C78_signed_unsigned_refuted.

(** [long float] is accepted, as float. *)
Theorem C78_long_float_refuted :
  exists ws, (forall t, ~ denotes ws t) /\ complete_type false ws = (Prim P_FLOAT, []).
Proof. exists [Long; Float]. split; [denotes_nothing|reflexivity]. Qed.
Print Assumptions C78_long_float_refuted.

(** [float char] is accepted: the last word counts. *)
Theorem C78_float_char_refuted :
  exists ws, (forall t, ~ denotes ws t) /\ complete_type false ws = (Prim P_CHAR, []).
Proof. exists [Float; Char]. split; [denotes_nothing|reflexivity]. Qed.
Print Assumptions C78_float_char_refuted.

(** [double short] is accepted, as short, though [short double] is reported. *)
Theorem C78_double_short_refuted :
  exists ws, (forall t, ~ denotes ws t) /\ complete_type false ws = (Prim P_SINT, [])
    /\ snd (complete_type false (rev ws)) <> [].
Proof. exists [Double; Short]. split; [denotes_nothing|split; [reflexivity|discriminate]]. Qed.
Print Assumptions C78_double_short_refuted.

(** [unsigned enum e] is accepted, as unsigned int. *)
Theorem C78_unsigned_enum_refuted :
  exists ws, (forall t, ~ denotes ws t) /\ complete_type false ws = (Prim P_UINT, []).
Proof. exists [Unsigned; EnumSpec 0]. split; [denotes_nothing|reflexivity]. Qed.
Print Assumptions C78_unsigned_enum_refuted.

(** Under the flag ignorequals, which is described as being about comparisons of types, [long short]
    is accepted too. *)
Theorem C78_ignorequals_refuted :
  exists ws, (forall t, ~ denotes ws t) /\ snd (complete_type true ws) = []
    /\ snd (complete_type false ws) <> [].
Proof. exists [Long; Short]. split; [denotes_nothing|split; [reflexivity|discriminate]]. Qed.
Print Assumptions C78_ignorequals_refuted.
