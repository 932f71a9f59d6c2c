(** C32: the type table in a library (src/cttable.i, src/ctbase.i, src/lcllib.c:303-312, 546).
    [conv] is the number a named type has in the library (usymtab_convertTypeId), [named_bool]
    tells which types are called like the boolean type; every theorem holds for all of them. *)
From Coq Require Import ZArith Bool List Ascii Lia.
Import ListNotations.
From Verif Require Import Cbase Reader_model Ctab_model Ctdump_model Ctdump_spec Ctdump_proofs.
Local Open Scope Z_scope.

(** The table as it stands in a library: between its heading and the next one. *)
Definition in_library (conv : Z -> Z) (named_bool : Z -> bool) (t : table) (rest : cstr) : cstr :=
  lit ";;ctTable" ++ [ch_nl] ++ cttable_dump conv named_bool t ++ lit ";;tistable" ++ [ch_nl] ++ rest.

(** C32. Loading gives back every entry at its index, as it is stored, and leaves the rest of the
    library unread. *)
Theorem C32_roundtrip : forall conv named_bool t rest, t <> [] ->
  Forall (plain_entry conv) t ->
  Forall (fun e => short_line (ctentry_dump conv named_bool e)) t ->
  cttable_load (in_library conv named_bool t rest) = ROk (map (stored_entry conv named_bool) t) rest.
Proof. exact table_roundtrip. Qed.
Print Assumptions C32_roundtrip.

(** C32. With named types keeping their numbers and without internal markers that is the table itself. *)
Theorem C32_identity : forall conv named_bool t rest, (forall z, conv z = z) -> t <> [] ->
  Forall (plain_entry conv) t -> Forall (fun e => proper_base named_bool (e_cb e)) t ->
  Forall (fun e => short_line (ctentry_dump conv named_bool e)) t ->
  cttable_load (in_library conv named_bool t rest) = ROk t rest.
Proof. exact table_identity. Qed.
Print Assumptions C32_identity.

(** C32. Every table the type constructors can build qualifies as far as kinds and links go. *)
Theorem C32_reachable : forall conv named_bool eq eqs ops rest, let t := run eq eqs ops cttable_init in
  size t <= INT_MAX -> Forall (fun e => plain_base conv (e_cb e)) t ->
  Forall (fun e => short_line (ctentry_dump conv named_bool e)) t ->
  cttable_load (in_library conv named_bool t rest) = ROk (map (stored_entry conv named_bool) t) rest.
Proof. exact reachable_roundtrip. Qed.
Print Assumptions C32_reachable.

(** All four line formats, each kind of type. *)
Definition ex_t : table :=
  run (fun _ _ _ => false) (fun _ _ _ => false)
    [OpPtr 24; OpUser (CBuser 7); OpComplex (CBstruct (lit "s") (lit "va,b,")); OpPtr 60;
     OpComplex (CBfcn 58 (lit "p1,p2,")); OpComplex (CBenum (lit "e") [lit "RED"; lit "BLUE"]);
     OpArr 59; OpFix 60 4; OpComplex (CBconj true 5 60); OpPtr 64; OpArr 64] cttable_init.
Definition ex_lines : list cstr := map (ctentry_dump (fun z => z) (fun _ => false)) (skipn 57 ex_t).
Example C32_roundtrip_ex :
  ex_lines = [lit "-2 ?!"; lit "1 t24|24&"; lit "0 s7|-1 -1 64"; lit "3 Ss{va,b,}^61"; lit "1 t60|60&";
              lit "3 f58 (p1,p2,)!"; lit "3 ee{RED,BLUE}!"; lit "2 y59|59 67 68";
              lit "2 F60/4|60&"; lit "3 C1.5/60|!"; lit "1 t64|64&"; lit "2 y64|64&"] /\
  cttable_load (in_library (fun z => z) (fun _ => false) ex_t (lit "7")) = ROk ex_t (lit "7").
Proof. vm_compute. split; reflexivity. Qed.
Example C32_hypotheses_ex : size ex_t <= INT_MAX /\ Forall (fun e => plain_base (fun z => z) (e_cb e)) ex_t
  /\ Forall (fun e => short_line (ctentry_dump (fun z => z) (fun _ => false) e)) ex_t.
Proof.
  split; [vm_compute; discriminate|]. split.
  - let t := eval vm_compute in ex_t in change ex_t with t.
    repeat (apply Forall_cons; [cbn [e_cb plain_base]|]); try apply Forall_nil;
    repeat match goal with
      | |- True => exact I
      | |- type_number _ => split
      | |- _ /\ _ => split
      | |- Forall _ (_ :: _) => apply Forall_cons
      | |- Forall _ [] => apply Forall_nil
      | |- _ <> [] => discriminate
      | |- _ <= _ => vm_compute; discriminate
      | |- free_of _ _ => intros c I; cbn in I;
          repeat (destruct I as [<-|I]; [split; [discriminate|cbn; intuition discriminate]|]); destruct I
      end.
  - let t := eval vm_compute in ex_t in change ex_t with t. repeat constructor.
Qed.

(** What the hypotheses exclude. A line of 16382 characters or more is written without complaint
    up to 16383 characters, but stops the program that loads the library. *)
Theorem C32_long_line : forall conv named_bool e t rest, plain_entry conv e ->
  16382 <= Z.of_nat (List.length (ctentry_dump conv named_bool e)) ->
  cttable_load (lit ";;ctTable" ++ [ch_nl] ++ cttable_dump conv named_bool (e :: t) ++ rest) = RBug.
Proof. exact long_entry. Qed.
Print Assumptions C32_long_line.

Definition long_struct : entry :=
  mkEntry CTK_COMPLEX (CBstruct (repeat "x"%char (Z.to_nat 16376)) []) ctype_undefined ctype_dne ctype_dne.
Theorem C32_long_line_refuted : exists e, plain_entry (fun z => z) e /\ proper_base (fun _ => false) (e_cb e) /\
  Z.of_nat (List.length (ctentry_dump (fun z => z) (fun _ => false) e)) < 16384 /\
  forall t rest, cttable_load (in_library (fun z => z) (fun _ => false) (e :: t) rest) = RBug.
Proof.
  exists long_struct.
  assert (P : plain_entry (fun z => z) long_struct).
  { unfold plain_entry, long_struct. cbn [e_kind e_cb e_base e_ptr e_arr plain_base].
    split; [unfold CTK_COMPLEX; lia|]. split; [|unfold link; auto].
    split; [|intros c []]. intros c I. apply repeat_spec in I. subst. split; [discriminate|]. intros [E|[]]. discriminate. }
  assert (L : Z.of_nat (List.length (ctentry_dump (fun z => z) (fun _ => false) long_struct)) = 16382).
  { change (ctentry_dump (fun z => z) (fun _ => false) long_struct)
      with ((lit "3" ++ lit " " ++ "S"%char :: repeat "x"%char (Z.to_nat 16376) ++ lit "{" ++ [] ++ lit "}") ++ lit "!").
    rewrite !app_length. cbn [List.length]. rewrite !app_length, repeat_length.
    change (List.length (lit "3")) with 1%nat. change (List.length (lit " ")) with 1%nat.
    change (List.length (lit "{")) with 1%nat. change (List.length (lit "}")) with 1%nat.
    change (List.length (lit "!")) with 1%nat. cbn [List.length]. lia. }
  split; [exact P|]. split; [exact I|]. split; [rewrite L; lia|].
  intros t rest. unfold in_library. apply long_entry; [exact P|rewrite L; lia].
Qed.
Print Assumptions C32_long_line_refuted.

(** A pointer to a user's type named like the boolean type comes back as a pointer to the built-in
    boolean type: the constituent and the link of the same entry then disagree. *)
Theorem C32_named_bool_refuted : exists named_bool t e, plain_entry (fun z => z) e /\ In e t /\
  cttable_load (in_library (fun z => z) named_bool t []) = ROk (map (stored_entry (fun z => z) named_bool) t) [] /\
  e_cb e = CBptr 58 /\ stored_entry (fun z => z) named_bool e = mkEntry CTK_PTR (CBptr CTX_BOOL) 58 ctype_dne ctype_dne.
Proof.
  exists (fun z => z =? 58). 
  exists (run (fun _ _ _ => false) (fun _ _ _ => false) [OpUser (CBuser 7); OpPtr 58] cttable_init).
  exists (mkEntry CTK_PTR (CBptr 58) 58 ctype_dne ctype_dne).
  split; [|split; [|split; [|split]]].
  - unfold plain_entry, link, type_number. cbn [e_kind e_cb e_base e_ptr e_arr plain_base].
    unfold INT_MAX, CTK_PTR, ctype_dne, ctype_undefined. lia.
  - vm_compute. repeat (try (left; reflexivity); right).
  - vm_compute. reflexivity.
  - reflexivity.
  - reflexivity.
Qed.
Print Assumptions C32_named_bool_refuted.

(** A member name that is empty, or a name containing the closing character, would not come back;
    C identifiers are neither. *)
Theorem C32_empty_member_refuted : exists cb, 
  ctbase_undump (ctbase_dump (fun z => z) (fun _ => false) cb ++ lit "!") <> ROk cb (lit "!") /\
  cb = CBenum (lit "e") [[]].
Proof. exists (CBenum (lit "e") [[]]). split; [vm_compute; discriminate|reflexivity]. Qed.
Print Assumptions C32_empty_member_refuted.
