(** Property theorems C25, C26: the hash tables. *)
From Coq Require Import ZArith List Bool Lia Ascii String.
From Verif Require Import Cbase Table_model Table_spec Table_proofs.
Import ListNotations.
Local Open Scope Z_scope.

(** Names for the examples; [rnd0] stands for the table of random numbers. *)
Local Definition str (s : string) : cstr := list_ascii_of_string s.
Local Definition rnd0 (i : Z) : Z := (i * 2654435761 + 12345) mod 256.

Local Definition ops1 : list cop :=
  [CInsert (str "x") 1; CInsert (str "y") 2; CInsert (str "zz") 3; CInsert (str "main") 4;
   CUpdate (str "y") 7; CReplace (str "x") (str "x"); CRemove (str "zz"); CInsert (str "zz") 9;
   CRemove (str "main")].

Local Lemma ops1_names : Forall c_names ops1.
Proof. repeat constructor. Qed.
Local Lemma ops1_sane : Forall c_sane ops1.
Proof. repeat constructor; discriminate. Qed.
Local Lemma ops1_history : c_history fempty ops1.
Proof. vm_compute. repeat (split; try discriminate; auto). Qed.

(** ** C25 *)

(** After any history of operations used within their preconditions, on 7-bit names and
    not storing the reserved number, no bug is reported, and each lookup answers with the
    abstract map, whatever the table of random numbers and the initial size. *)
Theorem C25_history_faithful : forall rnd size ops,
  0 < size -> Forall c_names ops -> Forall c_sane ops -> c_history fempty ops ->
  exists t, c_run rnd ops size = Some (t, false) /\
    forall k, ascii7 k ->
      c_lookup rnd t k = Some (match c_final ops k with Some v => v | None => absent end).
Proof. exact c_history_faithful. Qed.
Print Assumptions C25_history_faithful.

(** The example history meets the hypotheses, goes through growths of a table of
    size 1, and ends with x, y and zz. *)
Example C25_history_faithful_ex :
  (exists t, c_run rnd0 ops1 1 = Some (t, false) /\ t_size t = 8 /\
     c_lookup rnd0 t (str "zz") = Some 9 /\ c_lookup rnd0 t (str "main") = Some (-23)) /\
  c_final ops1 (str "x") = Some 1 /\ c_final ops1 (str "y") = Some 7 /\
  c_final ops1 (str "zz") = Some 9 /\ c_final ops1 (str "main") = None /\
  Forall c_names ops1 /\ Forall c_sane ops1 /\ c_history fempty ops1.
Proof.
  split; [eexists; vm_compute; repeat split|].
  repeat (split; [reflexivity|]). auto using ops1_names, ops1_sane, ops1_history.
Qed.

(** A history with an operation outside its precondition never ends silently. *)
Theorem C25_misuse_reported : forall rnd size ops t bug,
  0 < size -> Forall c_names ops -> Forall c_sane ops -> ~ c_history fempty ops ->
  c_run rnd ops size = Some (t, bug) -> bug = true.
Proof. exact c_history_bug. Qed.
Print Assumptions C25_misuse_reported.

Example C25_misuse_reported_ex :
  let ops := ops1 ++ [CInsert (str "y") 5; CRemove (str "main")] in
  (exists t, c_run rnd0 ops 3 = Some (t, true)) /\ ~ c_history fempty ops.
Proof.
  split; [eexists; vm_compute; reflexivity|].
  vm_compute. intros H.
  repeat match goal with K : _ /\ _ |- _ => destruct K end; congruence.
Qed.

(** The preconditions are needed: a character outside the 7-bit range makes the hash
    index its array of random numbers with a negative number. *)
Theorem C25_eight_bit_name_refuted : exists ops, c_history fempty ops /\ Forall c_sane ops /\
  forall rnd, c_run rnd ops 10 = None.
Proof.
  exists [CInsert [ascii_of_nat 233] 1]. split; [vm_compute; split; [split; [reflexivity|discriminate]|exact I]|].
  split; [repeat constructor|]. intros rnd. reflexivity.
Qed.
Print Assumptions C25_eight_bit_name_refuted.

(** An update to the reserved number hides the entry without any report, and the name can
    then be inserted a second time, with the new number unreachable. *)
Theorem C25_reserved_number_refuted : exists ops t,
  Forall c_names ops /\ c_run rnd0 ops 10 = Some (t, false) /\
  c_lookup rnd0 t (str "a") <> Some (match c_final ops (str "a") with Some v => v | None => absent end).
Proof.
  exists [CInsert (str "a") 1; CUpdate (str "a") (-23); CInsert (str "a") 5].
  eexists. split; [repeat constructor|]. split; [vm_compute; reflexivity|]. vm_compute. discriminate.
Qed.
Print Assumptions C25_reserved_number_refuted.

(** ** C26 *)

Local Definition gops : list (gop Z) :=
  [GInsert _ (str "owner") 1; GInsert _ (str "state") 2; GUpdate _ (str "owner") 5;
   GRemove _ (str "state"); GInsert _ (str "nul") 3; GInsert _ (str "taint") 4;
   GInsert _ (str "state") 6].

(** Same result for the table of objects, as long as not more than 50512 insertions are
    made into a table created with at most 214750 buckets.  Missing for the full C26:
    longer histories, where the int arithmetic of the resizing overflows (see below). *)
Theorem C26_history_faithful_partial : forall rnd (V : Type) size (ops : list (gop V)),
  0 < size <= 214750 -> inserts ops <= 50512 ->
  Forall (fun o => ascii7 (g_name o)) ops -> g_history fempty ops ->
  exists t, g_run rnd V ops size = Some (t, false) /\
    forall k, ascii7 k -> t_lookup rnd V t k = Some (g_final ops k).
Proof. exact g_history_faithful. Qed.
Print Assumptions C26_history_faithful_partial.

Example C26_history_faithful_ex :
  (exists t, g_run rnd0 Z gops 1 = Some (t, false) /\ t_size t = 8 /\
     t_lookup rnd0 Z t (str "state") = Some (Some 6)) /\
  g_final gops (str "state") = Some 6 /\ g_final gops (str "owner") = Some 5 /\
  inserts gops <= 50512 /\ Forall (fun o => ascii7 (g_name o)) gops /\ g_history fempty gops.
Proof.
  split; [eexists; vm_compute; repeat split|]. split; [reflexivity|]. split; [reflexivity|].
  split; [vm_compute; discriminate|]. split; [repeat constructor|].
  vm_compute. repeat (split; try discriminate; auto).
Qed.

Theorem C26_misuse_reported_partial : forall rnd (V : Type) size (ops : list (gop V)) t bug,
  0 < size <= 214750 -> inserts ops <= 50512 ->
  Forall (fun o => ascii7 (g_name o)) ops -> ~ g_history fempty ops ->
  g_run rnd V ops size = Some (t, bug) -> bug = true.
Proof. exact g_history_bug. Qed.
Print Assumptions C26_misuse_reported_partial.

Example C26_misuse_reported_ex :
  let ops := gops ++ [GInsert _ (str "nul") 8] in
  (exists t, g_run rnd0 Z ops 3 = Some (t, true)) /\ ~ g_history fempty ops.
Proof.
  split; [eexists; vm_compute; reflexivity|].
  vm_compute. intros H.
  repeat match goal with K : _ /\ _ |- _ => destruct K end; congruence.
Qed.

(** Overflow: a table of 82000 buckets is asked to grow at its 50619th entry, and the
    computation of the new size overflows int. *)
Theorem C26_growth_overflow_refuted : exists size (ops : list (gop Z)),
  0 < size <= 214750 /\ Forall (fun o => ascii7 (g_name o)) ops /\ g_history fempty ops /\
  forall rnd, g_run rnd Z ops size = None.
Proof.
  exists 82000, (ins_ops Z (Z.to_nat 50618 + 1) 0).
  pose proof (fun rnd => g_overflow rnd Z 0 (Z.to_nat 50618) 82000
    (Z2Nat.id 50618 ltac:(discriminate)) eq_refl) as K.
  split; [split; [reflexivity|discriminate]|].
  split; [exact (proj1 (K (fun _ => 0)))|]. split; [exact (proj1 (proj2 (K (fun _ => 0))))|].
  intros rnd. exact (proj2 (proj2 (K rnd))).
Qed.
Print Assumptions C26_growth_overflow_refuted.

(** A second insertion under the same name keeps the old object (and reports a bug). *)
Theorem C26_duplicate_keeps_old_refuted : exists (ops : list (gop Z)) t,
  g_run rnd0 Z ops 10 = Some (t, true) /\
  t_lookup rnd0 Z t (str "a") <> Some (g_final ops (str "a")).
Proof.
  exists [GInsert _ (str "a") 1; GInsert _ (str "a") 2]. eexists.
  split; [vm_compute; reflexivity|]. vm_compute. discriminate.
Qed.
Print Assumptions C26_duplicate_keeps_old_refuted.
