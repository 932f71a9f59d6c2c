(** Property theorems C29 and C30. *)
From Verif Require Import Cbase Reader_model Reader_spec Reader_proofs.

(** C29.  Writing an int in decimal gives its standard numeral ... *)
Theorem C29_written_numeral_standard : forall z, numeral (dec z) z.
Proof. exact dec_numeral. Qed.
Print Assumptions C29_written_numeral_standard.

(** ... every non-negative int is read back, and the cursor ends exactly behind
    it (and the blanks after it). *)
Theorem C29_read_back_partial : forall n z rest,
  0 <= z <= INT_MAX -> number_ends rest ->
  reader_getInt (repeat ch_space n ++ dec z ++ rest) = ROk z (after_blanks rest).
Proof. exact getInt_nonneg. Qed.
Print Assumptions C29_read_back_partial.

(** The exact set of ints that survive: the non-negative ones and the negative
    ones with a single significant digit.  Missing for the full C29: all other
    negative ints. *)
Theorem C29_read_back_iff : forall n z rest,
  INT_MIN <= z <= INT_MAX -> number_ends rest ->
  (reader_getInt (repeat ch_space n ++ dec z ++ rest) = ROk z (after_blanks rest)
   <-> 0 <= z \/ one_digit_then_zeros (- z)).
Proof. exact getInt_read_back_iff. Qed.
Print Assumptions C29_read_back_iff.

(** Witness: -12 is read back as -8. *)
Theorem C29_read_back_refuted :
  exists z v, INT_MIN <= z <= INT_MAX /\ v <> z /\
              numeral (lit "-12") z /\
              reader_getInt (lit "-12") = ROk v [].
Proof.
  exists (-12), (-8). split; [|split; [|split]].
  - vm_compute; split; discriminate.
  - discriminate.
  - exact (dec_numeral (-12)).
  - vm_compute; reflexivity.
Qed.
Print Assumptions C29_read_back_refuted.

Example C29_ex_nonneg :
  reader_getInt (lit "  2147483647@x") = ROk 2147483647 (lit "@x").
Proof. vm_compute. reflexivity. Qed.
Example C29_ex_hyp : number_ends (lit "@x") /\ 0 <= 2147483647 <= INT_MAX.
Proof.
  split; [|vm_compute; split; discriminate].
  intros c r H. injection H as <- <-. right. vm_compute. reflexivity.
Qed.
Example C29_ex_neg_ok : reader_getInt (lit "-700 ") = ROk (-700) [].
Proof. vm_compute. reflexivity. Qed.

(** C30.  Exact condition under which an integer constant survives. *)
Theorem C30_long_iff : forall z rest,
  LONG_MIN <= z <= LONG_MAX -> number_ends rest ->
  (multiVal_undump (multiVal_dump (Some (MVLong z)) ++ rest)
   = ROk (Some (RLong z)) (after_blanks rest)
   <-> INT_MIN <= z <= INT_MAX /\ (0 <= z \/ one_digit_then_zeros (- z))).
Proof. exact multiVal_long_iff. Qed.
Print Assumptions C30_long_iff.

Theorem C30_char_iff : forall z rest,
  -128 <= z <= 127 -> number_ends rest ->
  (multiVal_undump (multiVal_dump (Some (MVChar z)) ++ rest)
   = ROk (Some (RChar z)) (after_blanks rest)
   <-> 0 <= z \/ one_digit_then_zeros (- z)).
Proof. exact multiVal_char_iff. Qed.
Print Assumptions C30_char_iff.

(** Strings survive only when directly followed by '#' and free of '#'.
    Missing for the full C30: everything outside these conditions. *)
Theorem C30_string_partial : forall s rest,
  Forall (fun c => Ascii.eqb c "#"%char = false) s ->
  multiVal_undump (multiVal_dump (Some (MVString s)) ++ "#"%char :: rest)
  = ROk (Some (RString s)) ("#"%char :: rest).
Proof. exact multiVal_string. Qed.
Print Assumptions C30_string_partial.

(** In the line format used for constants (value, then two more fields, then
    '#' and the name, uentry.c:5280-5289) every string constant absorbs the
    fields behind it, so it never survives. *)
Theorem C30_string_constant_refuted : forall s mid rest,
  Forall (fun c => Ascii.eqb c "#"%char = false) s ->
  Forall (fun c => Ascii.eqb c "#"%char = false) mid ->
  mid <> [] ->
  exists w, multiVal_undump (multiVal_dump (Some (MVString s)) ++ mid ++ "#"%char :: rest)
            = ROk (Some (RString w)) ("#"%char :: rest) /\ w <> s.
Proof.
  intros s mid rest H1 H2 Hm. exists (s ++ mid). split.
  - exact (multiVal_string_ctx s mid rest H1 H2).
  - intro E. apply Hm. apply (app_inv_head s). rewrite app_nil_r. exact E.
Qed.
Print Assumptions C30_string_constant_refuted.

(** Doubles are written with two decimals: 1/8 comes back as 12/100. *)
Theorem C30_double_refuted : exists k h,
  multiVal_undump (multiVal_dump (Some (MVDouble k))) = ROk (Some (RDouble h)) []
  /\ 100 * k <> 8 * h.
Proof. exists 1, 12. vm_compute. split; [reflexivity|discriminate]. Qed.
Print Assumptions C30_double_refuted.

(** A long constant outside int (here 2^32) comes back as a different value. *)
Theorem C30_long_refuted : exists z v rest,
  LONG_MIN <= z <= LONG_MAX /\
  multiVal_undump (multiVal_dump (Some (MVLong z)) ++ rest) = ROk (Some (RLong v)) rest /\ v <> z.
Proof.
  exists 4294967296, 0, (lit "@@0#N"). vm_compute.
  repeat split; discriminate.
Qed.
Print Assumptions C30_long_refuted.

Example C30_ex_long :
  multiVal_undump (multiVal_dump (Some (MVLong 65536)) ++ lit "@@0#N")
  = ROk (Some (RLong 65536)) (lit "@@0#N").
Proof. vm_compute. reflexivity. Qed.
Example C30_ex_char : -128 <= 97 <= 127 /\ number_ends (lit "@").
Proof. split; [lia|]. intros c r H. injection H as <- <-. right. vm_compute. reflexivity. Qed.
Example C30_ex_string :
  multiVal_undump (multiVal_dump (Some (MVString (lit "a b"))) ++ lit "#N")
  = ROk (Some (RString (lit "a b"))) (lit "#N").
Proof. vm_compute. reflexivity. Qed.
Example C30_ex_string_ctx :
  multiVal_undump (multiVal_dump (Some (MVString (lit "abc"))) ++ lit "@@0#NAME")
  = ROk (Some (RString (lit "abc@@0"))) (lit "#NAME").
Proof. vm_compute. reflexivity. Qed.
