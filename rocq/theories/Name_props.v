(** C38, C46: comparing names (src/cstring.c [cstring_genericEqual]). *)
From Verif Require Import Cbase Cbase_facts Cmem Name_model Name_spec Name_proofs.

Local Notation INDIS ci lk := (indistinct toupper lookLike ci lk).

(** C46. Without a limit on the significant characters, the four answers mean what they
    say, for all names and settings. *)
Theorem C46_answers : forall s t ci lk, ~ In ch_nul s -> ~ In ch_nul t ->
  let r := genericEqual s t 0 ci lk in
  (r = CGE_DISTINCT <-> ~ INDIS ci lk s t) /\
  (r = CGE_CASE <-> by_case toupper lookLike ci lk s t) /\
  (r = CGE_LOOKALIKE <-> by_look toupper lookLike ci lk s t) /\
  (r = CGE_SAME <-> s = t).
Proof. intros s t ci lk Ns Nt. apply (ge_same s t 0 ci lk Ns Nt). lia. Qed.
Print Assumptions C46_answers.
Example C46_answers_ex :
  genericEqual (lit "fooO1") (lit "Foo0l") 0 true true = CGE_CASE
  /\ genericEqual (lit "fooO1") (lit "foo0l") 0 true true = CGE_LOOKALIKE
  /\ genericEqual (lit "fooO1") (lit "foo01") 0 true false = CGE_DISTINCT
  /\ genericEqual (lit "foo") (lit "foo1") 0 true true = CGE_DISTINCT.
Proof. vm_compute. auto. Qed.
Example C46_answers_ex_look : by_look toupper lookLike true true (lit "fooO1") (lit "foo0l").
Proof.
  apply (C46_answers (lit "fooO1") (lit "foo0l") true true);
    vm_compute; intuition discriminate.
Qed.

(** C46. The look-alike characters and the letters of either case are the intended ones. *)
Theorem C46_lookalike : forall a b, lookLike a = lookLike b <-> a = b \/ alike a b.
Proof. exact lookLike_iff. Qed.
Print Assumptions C46_lookalike.
Theorem C46_letter_case : forall a b, toupper a = toupper b <-> a = b \/ other_case a b.
Proof. exact toupper_iff. Qed.
Print Assumptions C46_letter_case.
Example C46_lookalike_ex : alike "l" "1" /\ ~ alike "s" "5" /\ other_case "q" "Q".
Proof.
  split; [exists ["1"; "I"; "l"]%char; cbn; tauto|]. split; [|left; vm_compute; intuition discriminate].
  intros (g & G & A & B). cbn in G. repeat (destruct G as [<-|G]; [cbn in A; intuition discriminate|]). destruct G.
Qed.

(** C46. Without a limit the answer does not depend on the order of the names. *)
Theorem C46_symmetric : forall s t ci lk, ~ In ch_nul s -> ~ In ch_nul t ->
  genericEqual s t 0 ci lk = genericEqual t s 0 ci lk.
Proof. intros. apply ge_sym; auto; lia. Qed.
Print Assumptions C46_symmetric.
Example C46_symmetric_ex :
  genericEqual (lit "IO") (lit "lo") 0 true true = CGE_CASE /\
  genericEqual (lit "lo") (lit "IO") 0 true true = CGE_CASE.
Proof. vm_compute. auto. Qed.

(** C46. Case-insensitive equality is equality of the upper-cased texts, and so an
    equivalence relation. *)
Theorem C46_case_insensitive : forall s t, ~ In ch_nul s -> ~ In ch_nul t ->
  (equalCaseInsensitive s t = true <-> map toupper s = map toupper t).
Proof. exact eci_iff. Qed.
Print Assumptions C46_case_insensitive.
Example C46_case_insensitive_ex :
  equalCaseInsensitive (lit "StdIO_h9") (lit "sTDio_H9") = true /\
  equalCaseInsensitive (lit "StdIO") (lit "stdio_") = false.
Proof. vm_compute. auto. Qed.

(** C46. No comparison reads past the end of either name, with or without a limit. *)
Theorem C46_no_overrun : forall s t n ci lk, ~ In ch_nul s -> ~ In ch_nul t ->
  genericEqual s t n ci lk <> CGE_overrun.
Proof. exact ge_no_overrun. Qed.
Print Assumptions C46_no_overrun.
Example C46_no_overrun_ex : genericEqual (lit "abcdef") (lit "abc") 5 true true = CGE_DISTINCT.
Proof. vm_compute. reflexivity. Qed.

(** C38. With a limit of [n] significant characters the answers are about the first [n]
    characters.  Missing: the first name has exactly [n] characters and the second is
    longer (see [C38_exact_length]). *)
Theorem C38_answers_partial : forall s t n ci lk, ~ In ch_nul s -> ~ In ch_nul t ->
  ~ (List.length s = n /\ n <> 0 /\ n < List.length t)%nat ->
  let r := genericEqual s t n ci lk in
  let a := significant n s in let b := significant n t in
  (r = CGE_DISTINCT <-> ~ INDIS ci lk a b) /\
  (r = CGE_CASE <-> by_case toupper lookLike ci lk a b) /\
  (r = CGE_LOOKALIKE <-> by_look toupper lookLike ci lk a b) /\
  (r = CGE_SAME <-> a = b).
Proof. exact ge_same. Qed.
Print Assumptions C38_answers_partial.
Example C38_answers_partial_ex :
  genericEqual (lit "abcdX") (lit "abcdYZ") 4 false false = CGE_SAME
  /\ genericEqual (lit "abcd") (lit "abc") 4 false false = CGE_DISTINCT.
Proof. vm_compute. auto. Qed.

(** C38. The order of two names matters exactly when there is a limit, one name has
    exactly that many characters, the other is longer, and they agree up to the limit. *)
Theorem C38_order_matters_iff_partial : forall s t n ci lk, ~ In ch_nul s -> ~ In ch_nul t ->
  (genericEqual s t n ci lk <> genericEqual t s n ci lk <->
   n <> 0%nat /\ INDIS ci lk (significant n s) (significant n t) /\
   ((List.length s = n /\ n < List.length t)%nat \/ (List.length t = n /\ n < List.length s)%nat)).
Proof. exact ge_asym_iff. Qed.
Print Assumptions C38_order_matters_iff_partial.

(** C38. In that case the shorter name, given first, is called distinct. *)
Theorem C38_exact_length : forall s t n ci lk, ~ In ch_nul s ->
  (List.length s = n /\ n <> 0 /\ n < List.length t)%nat ->
  genericEqual s t n ci lk = CGE_DISTINCT.
Proof. exact ge_cut. Qed.
Print Assumptions C38_exact_length.

(** C38 is false: "abc" and "abcd" with 3 significant characters. *)
Theorem C38_order_refuted : exists s t n,
  genericEqual s t n false false = CGE_DISTINCT /\ genericEqual t s n false false = CGE_SAME
  /\ s = lit "abc" /\ t = lit "abcd" /\ n = 3%nat.
Proof. exists (lit "abc"), (lit "abcd"), 3%nat. vm_compute. auto. Qed.
Print Assumptions C38_order_refuted.
Example C38_order_matters_ex : INDIS true true (significant 3 (lit "aBC")) (significant 3 (lit "abCd")).
Proof.
  split; [reflexivity|]. cbn. apply Forall_cons; [left; reflexivity|].
  apply Forall_cons; [right; left; split; [discriminate|split; reflexivity]|].
  apply Forall_cons; [left; reflexivity|apply Forall_nil].
Qed.
