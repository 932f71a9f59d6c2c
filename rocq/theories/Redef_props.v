(** C14: when redefining a macro is silent (src/cpplib.c). *)
From Verif Require Import Cbase Redef_model Redef_spec Redef_proofs.

(** C14. For bodies of 7-bit characters without # and parameters without "...", redefining is
    silent exactly when the parameters are the same and the replacement lists are the same up to
    the amount of white space, if their literals contain none. *)
Theorem C14_silent_iff_same : forall p1 b1 p2 b2, params_ok p1 -> params_ok p2 ->
  seven_bit b1 /\ no_hash b1 -> seven_bit b2 /\ no_hash b2 ->
  white_in_literal None b1 = false -> white_in_literal None b2 = false ->
  exists r, silent p1 b1 p2 b2 = Some r /\ (r = true <-> p1 = p2 /\ same_replacement b1 b2).
Proof. exact silent_replacement. Qed.
Print Assumptions C14_silent_iff_same.

(** C14. With literals of any kind, closed or not, what is compared is the text with white space
    inside literals treated like any other: exactly that is overlooked. *)
Theorem C14_silent_iff_text : forall p1 b1 p2 b2, params_ok p1 -> params_ok p2 ->
  seven_bit b1 /\ no_hash b1 -> seven_bit b2 /\ no_hash b2 ->
  exists r, silent p1 b1 p2 b2 = Some r /\ (r = true <-> p1 = p2 /\ same_text b1 b2).
Proof. exact silent_iff. Qed.
Print Assumptions C14_silent_iff_text.

Definition P (n : String.string) : param := {| pname := lit n; prest := false |}.
Definition PR (n : String.string) : param := {| pname := lit n; prest := true |}.

Lemma seven_bit_dec : forall s, forallb (fun c => (0 <? code c) && (code c <? 128)) s = true -> seven_bit s.
Proof.
  intros s H. apply Forall_forall. rewrite forallb_forall in H. intros x I. specialize (H x I).
  apply andb_true_iff in H. destruct H as [H1 H2]. apply Z.ltb_lt in H1. apply Z.ltb_lt in H2. lia.
Qed.
Lemma no_hash_dec : forall s, existsb (Ascii.eqb ch_hash) s = false -> no_hash s.
Proof.
  intros s H I. assert (existsb (Ascii.eqb ch_hash) s = true); [|congruence].
  apply existsb_exists. exists ch_hash. split; [exact I|reflexivity].
Qed.

Definition plus1 : cstr := lit " ((a)  + f('""', b) )".
Definition plus2 : cstr := lit "((a) + f('""', b)	)  ".
Definition plus3 : cstr := lit "((a) + f('""',b) )".
Example C14_hypotheses_met :
  params_ok (Some [P "a"; P "b"]) /\ (seven_bit plus1 /\ no_hash plus1) /\ white_in_literal None plus1 = false /\
  silent (Some [P "a"; P "b"]) plus1 (Some [P "a"; P "b"]) plus2 = Some true /\
  silent (Some [P "a"; P "b"]) plus1 (Some [P "a"; P "b"]) plus3 = Some false /\
  silent (Some [P "a"; P "b"]) plus1 (Some [P "b"; P "a"]) plus1 = Some false /\
  silent (Some []) plus1 None plus1 = Some false.
Proof.
  split; [|split; [split|]].
  - split.
    + repeat (constructor; [split; [split; reflexivity|reflexivity]|]). constructor.
    + repeat constructor; cbn; intuition discriminate.
  - apply seven_bit_dec. reflexivity.
  - apply no_hash_dec. reflexivity.
  - vm_compute. repeat split.
Qed.

(** C14. White space inside a string literal is part of it, but its amount is not compared. *)
Theorem C14_literal_white_refuted : exists b1 b2, (seven_bit b1 /\ no_hash b1) /\ (seven_bit b2 /\ no_hash b2) /\
  silent None b1 None b2 = Some true /\ ~ same_replacement b1 b2.
Proof.
  exists (lit """a b"""), (lit """a  b"""). split; [|split; [|split]].
  - split; [apply seven_bit_dec|apply no_hash_dec]; reflexivity.
  - split; [apply seven_bit_dec|apply no_hash_dec]; reflexivity.
  - reflexivity.
  - intros H. vm_compute in H. discriminate H.
Qed.
Print Assumptions C14_literal_white_refuted.

(** C14. With ##, which is dropped from the stored text, different lists are taken for the same. *)
Theorem C14_paste_refuted : exists b1 b2, seven_bit b1 /\ seven_bit b2 /\
  white_in_literal None b1 = false /\ white_in_literal None b2 = false /\
  silent None b1 None b2 = Some true /\ ~ same_replacement b1 b2.
Proof.
  exists (lit "x##y"), (lit "xy"). split; [|split; [|split; [|split; [|split]]]]; try reflexivity.
  - apply seven_bit_dec; reflexivity.
  - apply seven_bit_dec; reflexivity.
  - intros H. vm_compute in H. discriminate H.
Qed.
Print Assumptions C14_paste_refuted.

(** C14. "..." after the last parameter is not compared. *)
Theorem C14_variadic_refuted : exists p1 p2 b, map pname p1 = map pname p2 /\ map prest p1 <> map prest p2 /\
  (seven_bit b /\ no_hash b) /\ silent (Some p1) b (Some p2) b = Some true.
Proof.
  exists [P "a"], [PR "a"], (lit "g(a)"). split; [reflexivity|]. split; [discriminate|]. split; [|reflexivity].
  split; [apply seven_bit_dec|apply no_hash_dec]; reflexivity.
Qed.
Print Assumptions C14_variadic_refuted.

(** C14. A body with a character from 128 on indexes the character tables before their start. *)
Theorem C14_high_character_refuted : exists b, no_hash b /\ white_in_literal None b = false /\ silent None b None b = None.
Proof. exists [chr 233]. split; [apply no_hash_dec; reflexivity|]. split; reflexivity. Qed.
Print Assumptions C14_high_character_refuted.
