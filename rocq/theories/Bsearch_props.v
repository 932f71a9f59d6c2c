(** C40: looking a name up in a sorted list (src/cstring.c [cstring_bsearch]). *)
From Verif Require Import Cbase Cbase_facts Bsearch_model Bsearch_spec Bsearch_proofs.

(** C40. In the two lists splint has, exactly the members are found, for every name. *)
Theorem C40_cpp_names : forall key, key <> [] ->
  (bsearch key cppNames = Found (Some key) <-> In (Some key) cppNames) /\
  (bsearch key cppNames = NotFound <-> ~ In (Some key) cppNames).
Proof.
  intros key K.
  assert (sorted cppNames) as HS by (apply adjacent_sorted; [exact I|vm_compute; reflexivity]).
  assert (~ blind_member key cppNames) as NB.
  { intros [_ B]. change (Z.of_nat (List.length cppNames)) with 39 in B.
    apply (blindb_iff 41) in B; [vm_compute in B; discriminate|lia|lia]. }
  destruct (bsearch_iff key cppNames K HS) as [A B]. rewrite A, B. tauto.
Qed.
Print Assumptions C40_cpp_names.

Theorem C40_reserved_names : forall key, key <> [] ->
  (bsearch key reservedNames = Found (Some key) <-> In (Some key) reservedNames) /\
  (bsearch key reservedNames = NotFound <-> ~ In (Some key) reservedNames).
Proof.
  intros key K.
  assert (sorted reservedNames) as HS by (apply adjacent_sorted; [exact I|vm_compute; reflexivity]).
  assert (~ blind_member key reservedNames) as NB.
  { intros [B _]. vm_compute in B. discriminate. }
  destruct (bsearch_iff key reservedNames K HS) as [A B]. rewrite A, B. tauto.
Qed.
Print Assumptions C40_reserved_names.
Example C40_names_ex :
  bsearch (lit "wctomb") reservedNames = Found (Some (lit "wctomb")) /\
  bsearch (lit "BUFSIZ") reservedNames = Found (Some (lit "BUFSIZ")) /\
  bsearch (lit "xor_eq") cppNames = Found (Some (lit "xor_eq")) /\
  bsearch (lit "typename") cppNames = NotFound.
Proof. vm_compute. auto. Qed.

(** C40. In any sorted list: the members are found, except that the last entry is missed
    exactly when the length is one of 1, 4-5, 10-13, 22-29, ...; no internal assertion
    fails and nothing outside the list is read. *)
Theorem C40_any_list : forall key table, key <> [] -> sorted table ->
  let missed := nth_error table (List.length table - 1) = Some (Some key) /\
                blind_length (Z.of_nat (List.length table)) in
  (bsearch key table = Found (Some key) <-> In (Some key) table /\ ~ missed) /\
  (bsearch key table = NotFound <-> ~ (In (Some key) table /\ ~ missed)).
Proof. exact bsearch_iff. Qed.
Print Assumptions C40_any_list.
Example C40_any_list_ex : sorted [Some (lit "a"); Some (lit "ab"); Some (lit "b")] /\ ~ blind_length 3.
Proof.
  split; [apply adjacent_sorted; [exact I|vm_compute; reflexivity]|].
  intros B. apply (blindb_iff 5) in B; [vm_compute in B; discriminate|lia|lia].
Qed.

(** C40 is false for other lists: the only entry of a one-entry list, and the last of four. *)
Theorem C40_last_entry_refuted : exists table key, sorted table /\ In (Some key) table /\
  bsearch key table = NotFound /\ List.length table = 4%nat.
Proof.
  exists [Some (lit "a"); Some (lit "b"); Some (lit "c"); Some (lit "d")], (lit "d").
  split; [apply adjacent_sorted; [exact I|vm_compute; reflexivity]|].
  split; [simpl; auto|]. vm_compute. auto.
Qed.
Print Assumptions C40_last_entry_refuted.
Example C40_last_entry_ex : bsearch (lit "x") [Some (lit "x")] = NotFound.
Proof. vm_compute. reflexivity. Qed.
