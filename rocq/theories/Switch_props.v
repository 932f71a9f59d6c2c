(** The properties of the checking of the labels of a switch. *)
From Verif Require Import Cbase Switch_model Switch_spec Switch_proofs.

(** Examples: an enumerated type [enum { red, green = 3, blue }], all names known. *)
Definition all_known (_ : cstr) : bool := true.
Definition colours : list cstr := [lit "red"; lit "green"; lit "blue"].
Definition colourValue : cstr -> Z :=
  valueIn (enumerate 0 [(lit "red", None); (lit "green", Some 3); (lit "blue", None)]).
(** [{ case red: f (); break; case (blue): ; }]. *)
Definition ex_two : st :=
  SBlock (SSeq (SSeq (SSeq (SSeq (SCase false (CName (lit "red"))) SSimple) SSimple)
                     (SCase false (CParen (CName (lit "blue"))))) SSimple).
Definition ex_full : st := SBlock (SSeq ex_two (SSeq (SCase true (CName (lit "green"))) SSimple)).

(** C130: if nothing is said about missing cases, the switch does something for the value of every
    member of the type. *)
Theorem C130_silence_covers : forall known ms value s,
  (forall t, ~ In (MissingCase t) (fst (checkSwitch known (Some ms) s))) ->
  forall n, In n ms -> enters value (value n) s = true.
Proof. exact silent_covers. Qed.
Print Assumptions C130_silence_covers.
Example C130_silence_covers_ex :
  fst (checkSwitch all_known (Some colours) ex_full) = [] /\ enters colourValue 3 ex_full = true
  /\ enters colourValue 3 ex_two = false.
Proof. vm_compute. auto. Qed.

(** C130: for a switch as it is usually written the message is given exactly if there are members whose
    values do nothing, and lists these in the order of their declaration. *)
Theorem C130_exact_partial : forall known ms value s t, NoDup ms -> plain known ms value s ->
  (In (MissingCase t) (fst (checkSwitch known (Some ms) s))
   <-> unhandled value s ms <> [] /\ t = missingMessage (unhandled value s ms)).
Proof. exact missing_exact. Qed.
Print Assumptions C130_exact_partial.
Lemma colours_plain : plain all_known colours colourValue ex_two.
Proof.
  split; [reflexivity|]. intros e [<-|[<-|[]]].
  - exists (lit "red"). split; [constructor|split; [reflexivity|]]. intros m [<-|[<-|[<-|[]]]] E; vm_compute in E; try discriminate E; reflexivity.
  - exists (lit "blue"). split; [repeat constructor|split; [reflexivity|]]. intros m [<-|[<-|[<-|[]]]] E; vm_compute in E; try discriminate E; reflexivity.
Qed.
Example C130_exact_ex :
  plain all_known colours colourValue ex_two /\ NoDup colours
  /\ fst (checkSwitch all_known (Some colours) ex_two) = [MissingCase (lit "Missing case in switch: green")]
  /\ fst (checkSwitch all_known (Some colours) (SBlock (SSeq (SCase false (CName (lit "green"))) SSimple)))
     = [MissingCase (lit "Missing cases in switch: red, blue")].
Proof.
  split; [exact colours_plain|]. split; [|vm_compute; auto].
  repeat constructor; cbn; intros H; repeat (destruct H as [H|H]; [discriminate H|]); exact H.
Qed.

(** C130: there is at most one such message for a switch. *)
Theorem C130_once : forall known ms s,
  (List.length (filter (fun m => match m with MissingCase _ => true | _ => false end) (fst (checkSwitch known ms s))) <= 1)%nat.
Proof. exact missing_once. Qed.
Print Assumptions C130_once.
Example C130_once_ex :
  List.length (filter (fun m => match m with MissingCase _ => true | _ => false end) (fst (checkSwitch all_known (Some colours) ex_two))) = 1%nat.
Proof. reflexivity. Qed.

(** Members with the same value: [enum { a, b = 0 }], [switch (x) { case a: ; }]: a case for the second is reported
    missing, though C forbids writing it. *)
Theorem C130_same_value_refuted : exists ms value s,
  NoDup ms /\ (exists t, In (MissingCase t) (fst (checkSwitch all_known (Some ms) s)))
  /\ forall n, In n ms -> enters value (value n) s = true.
Proof.
  exists [lit "a"; lit "b"], (valueIn (enumerate 0 [(lit "a", None); (lit "b", Some 0)])), (SBlock (SSeq (SCase false (CName (lit "a"))) SSimple)).
  split; [repeat constructor; cbn; intros H; repeat (destruct H as [H|H]; [discriminate H|]); exact H|].
  split; [eexists; vm_compute; left; reflexivity|]. intros n [<-|[<-|[]]]; reflexivity.
Qed.
Print Assumptions C130_same_value_refuted.
(** A case whose label is a number, a cast or a sum does not count: [case (enum c) 0:] is a case for the first
    member, but that is reported missing. *)
Theorem C130_not_a_name_refuted : exists ms value s,
  NoDup ms /\ structured s = true /\ (forall n m, In n ms -> In m ms -> value n = value m -> n = m)
  /\ (exists t, In (MissingCase t) (fst (checkSwitch all_known (Some ms) s)))
  /\ forall n, In n ms -> enters value (value n) s = true.
Proof.
  exists [lit "a"], (valueIn (enumerate 0 [(lit "a", None)])), (SBlock (SSeq (SCase false (CCast (CNum 0))) SSimple)).
  split; [repeat constructor; intros []|]. split; [reflexivity|].
  split; [intros n m [<-|[]] [<-|[]] _; reflexivity|].
  split; [eexists; vm_compute; left; reflexivity|]. intros n [<-|[]]; reflexivity.
Qed.
Print Assumptions C130_not_a_name_refuted.
(** A case, or the default, inside of another statement of the switch does not count (a loop which is entered in the
    middle, for example). *)
Theorem C130_inner_default_refuted : exists ms value s,
  NoDup ms /\ (forall n m, In n ms -> In m ms -> value n = value m -> n = m)
  /\ (exists t, In (MissingCase t) (fst (checkSwitch all_known (Some ms) s)))
  /\ forall z, enters value z s = true.
Proof.
  exists [lit "a"], (valueIn (enumerate 0 [(lit "a", None)])), (SBlock (SNest (SBlock (SSeq (SDefault false) SSimple)))).
  split; [repeat constructor; intros []|]. split; [intros n m [<-|[]] [<-|[]] _; reflexivity|].
  split; [eexists; vm_compute; right; left; reflexivity|]. reflexivity.
Qed.
Print Assumptions C130_inner_default_refuted.

(** C131: what is said about duplicate labels is true: the value of the name occurs at least twice, or the default
    does. *)
Theorem C131_duplicates_true : forall known ms value s n,
  In (DuplicateCase n) (fst (checkSwitch known (Some ms) s)) ->
  (2 <= timesLabelled (LCase (value n)) (labels value s))%nat.
Proof. exact duplicate_true. Qed.
Print Assumptions C131_duplicates_true.
Theorem C131_default_true : forall known ms value s,
  In DuplicateDefault (fst (checkSwitch known ms s)) -> (2 <= timesLabelled LDefault (labels value s))%nat.
Proof. exact duplicate_default_true. Qed.
Print Assumptions C131_default_true.
Definition ex_dup : st := SSeq ex_two (SSeq (SSeq (SCase false (CName (lit "blue"))) (SDefault false)) (SDefault true)).
Example C131_duplicates_true_ex :
  fst (checkSwitch all_known (Some colours) ex_dup) = [DuplicateCase (lit "blue"); DuplicateDefault]
  /\ timesLabelled (LCase 4) (labels colourValue ex_dup) = 2%nat /\ timesLabelled LDefault (labels colourValue ex_dup) = 2%nat.
Proof. vm_compute. auto. Qed.

(** C131: for a switch over an enumerated type as it is usually written there is one message for each label which
    repeats an earlier one. *)
Theorem C131_exact_partial : forall known ms value s n, plain known ms value s -> In n ms ->
  timesSaid (DuplicateCase n) (fst (checkSwitch known (Some ms) s))
  = pred (timesLabelled (LCase (value n)) (labels value s)).
Proof. exact duplicate_exact. Qed.
Print Assumptions C131_exact_partial.
Theorem C131_default_exact_partial : forall known ms value s, structured s = true ->
  timesSaid DuplicateDefault (fst (checkSwitch known ms s)) = pred (timesLabelled LDefault (labels value s)).
Proof. exact duplicate_default_exact. Qed.
Print Assumptions C131_default_exact_partial.
(** C131: so nothing is said exactly if the labels are as C requires. *)
Theorem C131_silence_partial : forall known ms value s, plain known ms value s ->
  (forall e, In e (direct s) -> exists n, names n e /\ In n ms) ->
  ((~ In DuplicateDefault (fst (checkSwitch known (Some ms) s))
    /\ forall n, ~ In (DuplicateCase n) (fst (checkSwitch known (Some ms) s)))
   <-> labelsDiffer (labels value s)).
Proof. exact duplicates_silent. Qed.
Print Assumptions C131_silence_partial.
Example C131_exact_ex : plain all_known colours colourValue ex_two
  /\ (forall e, In e (direct ex_two) -> exists n, names n e /\ In n colours)
  /\ labels colourValue ex_two = [LCase 0; LCase 4].
Proof.
  split; [exact colours_plain|]. split; [|reflexivity].
  intros e [<-|[<-|[]]]; eexists; (split; [repeat constructor|]); vm_compute; auto.
Qed.

(** Labels of the same value in a switch over an integer are not reported: [case 1: case 1:]. *)
Theorem C131_integers_refuted : exists value s,
  structured s = true /\ ~ labelsDiffer (labels value s) /\ fst (checkSwitch all_known None s) = [].
Proof.
  exists (fun _ => 0), (SBlock (SSeq (SCase false (CNum 1)) (SCase false (CNum 1)))). split; [reflexivity|]. split; [|reflexivity].
  intros H. inversion_clear H as [|? ? X _]. apply X. left. reflexivity.
Qed.
Print Assumptions C131_integers_refuted.
(** Nor are different members with the same value. *)
Theorem C131_same_value_refuted : exists ms value s,
  NoDup ms /\ structured s = true /\ (forall e, In e (direct s) -> exists n, names n e /\ In n ms)
  /\ ~ labelsDiffer (labels value s) /\ fst (checkSwitch all_known (Some ms) s) = [].
Proof.
  exists [lit "a"; lit "b"], (valueIn (enumerate 0 [(lit "a", None); (lit "b", Some 0)])),
    (SBlock (SSeq (SCase false (CName (lit "a"))) (SCase false (CName (lit "b"))))).
  split; [repeat constructor; cbn; intros H; repeat (destruct H as [H|H]; [discriminate H|]); exact H|].
  split; [reflexivity|]. split; [|split; [|reflexivity]].
  - intros e [<-|[<-|[]]]; eexists; (split; [repeat constructor|]); vm_compute; auto.
  - intros H. inversion_clear H as [|? ? X _]. apply X. left. reflexivity.
Qed.
Print Assumptions C131_same_value_refuted.
(** Nor a second default inside of another statement. *)
Theorem C131_inner_refuted : exists value s,
  (2 <= timesLabelled LDefault (labels value s))%nat /\ fst (checkSwitch all_known None s) = [].
Proof.
  exists (fun _ => 0), (SBlock (SSeq (SDefault false) (SNest (SBlock (SSeq (SDefault false) SSimple))))). split; [apply le_n|reflexivity].
Qed.
Print Assumptions C131_inner_refuted.

(** C132: of the labels which stand directly in the switch exactly those names are reported which are not members of
    the type. *)
Theorem C132_names_exact_partial : forall known ms s n,
  In (NotMember n) (fst (checkSwitch known (Some ms) s))
  <-> ~ In n ms /\ known n = true /\ exists e, In e (direct s) /\ names n e.
Proof. exact notMember_iff. Qed.
Print Assumptions C132_names_exact_partial.
Example C132_names_ex :
  fst (checkSwitch all_known (Some colours) (SSeq ex_full (SCase true (CName (lit "monday"))))) = [NotMember (lit "monday")]
  /\ ~ In (lit "monday") colours.
Proof. split; [reflexivity|]. intros H; repeat (destruct H as [H|H]; [discriminate H|]); exact H. Qed.
(** A label which is a number is not reported, though no member of the type has its value. *)
Theorem C132_number_refuted : exists ms value s z,
  structured s = true /\ In (LCase z) (labels value s) /\ (forall n, In n ms -> value n <> z)
  /\ fst (checkSwitch all_known (Some ms) s) = [].
Proof.
  exists [lit "a"], (fun _ => 0), (SBlock (SSeq (SCase false (CName (lit "a"))) (SCase false (CNum 7)))), 7.
  split; [reflexivity|]. split; [vm_compute; auto|]. split; [intros n _ H; discriminate H|reflexivity].
Qed.
Print Assumptions C132_number_refuted.
(** Nor a constant of another type inside of another statement. *)
Theorem C132_inner_refuted : exists ms value s,
  (exists z, In (LCase z) (labels value s) /\ forall n, In n ms -> value n <> z)
  /\ fst (checkSwitch all_known (Some ms) s) = [].
Proof.
  exists [lit "a"], (fun n => if cstr_eqb n (lit "a") then 0 else 7),
    (SBlock (SSeq (SCase false (CName (lit "a"))) (SNest (SCase false (CName (lit "x")))))).
  split; [|reflexivity]. exists 7. split; [vm_compute; auto|]. intros n [<-|[]] H. discriminate H.
Qed.
Print Assumptions C132_inner_refuted.

(** C133: if nothing is said about the first statement, nothing executable is written before the first label, unless
    there are declarations of something other than variables. *)
Theorem C133_silence_partial : forall known ms s, free otherDeclaration s = true ->
  ~ In NotACase (fst (checkSwitch known ms s)) -> lost (items s) = false.
Proof. exact first_silent. Qed.
Print Assumptions C133_silence_partial.
(** C133: if something is said, then something executable is, unless there are empty blocks or declarations without
    initial value. *)
Theorem C133_said_partial : forall known ms s, free uninitialized s = true ->
  In NotACase (fst (checkSwitch known ms s)) -> lost (items s) = true.
Proof. exact first_said. Qed.
Print Assumptions C133_said_partial.
Example C133_ex :
  free otherDeclaration ex_full = true /\ ~ In NotACase (fst (checkSwitch all_known (Some colours) ex_full))
  /\ free uninitialized (SBlock (SSeq SSimple ex_full)) = true
  /\ In NotACase (fst (checkSwitch all_known (Some colours) (SBlock (SSeq SSimple ex_full)))).
Proof. split; [reflexivity|]. split; [intros []|]. split; [reflexivity|]. left. reflexivity. Qed.
(** Two declarations of types before a statement hide it: [{ typedef int t; typedef int u; f (); case 1: ; }]. *)
Theorem C133_hidden_refuted : exists s, lost (items s) = true /\ fst (checkSwitch all_known None s) = [].
Proof.
  exists (SBlock (SSeq (SSeq SNothing SNothing) (SSeq (SSeq SSimple (SCase false (CNum 1))) SSimple))). split; reflexivity.
Qed.
Print Assumptions C133_hidden_refuted.
(** A variable declared at the start of a switch is taken for a statement, though nothing is lost. *)
Theorem C133_declaration_refuted : exists s,
  lost (items s) = false /\ free otherDeclaration s = true /\ fst (checkSwitch all_known None s) = [NotACase].
Proof. exists (SBlock (SSeq (SInit false) (SSeq (SCase false (CNum 1)) SSimple))). repeat split. Qed.
Print Assumptions C133_declaration_refuted.
(** So is the brace which ends a switch in which nothing is written. *)
Theorem C133_empty_refuted : exists s, items s = [] /\ fst (checkSwitch all_known None s) = [NotACase].
Proof. exists (SBlock SBrace). split; reflexivity. Qed.
Print Assumptions C133_empty_refuted.

(** C134: if splint takes it that control always goes to a label of the switch, then it does for the values of all
    members of an enumerated type, and for all values otherwise. *)
Theorem C134_members_partial : forall known ms value s, snd (checkSwitch known (Some ms) s) = true ->
  forall n, In n ms -> enters value (value n) s = true.
Proof. exact allpaths_enum. Qed.
Print Assumptions C134_members_partial.
Theorem C134_other_types : forall known value s, snd (checkSwitch known None s) = true -> forall z, enters value z s = true.
Proof. exact allpaths_plain. Qed.
Print Assumptions C134_other_types.
(** C134: and it takes it so whenever it is so, for a switch as it is usually written. *)
Theorem C134_exact_partial : forall known ms value s, NoDup ms -> plain known ms value s ->
  (snd (checkSwitch known (Some ms) s) = true <-> forall n, In n ms -> enters value (value n) s = true).
Proof. exact allpaths_exact. Qed.
Print Assumptions C134_exact_partial.
Theorem C134_other_types_exact_partial : forall known value s, structured s = true ->
  (snd (checkSwitch known None s) = true <-> forall z, enters value z s = true).
Proof. exact allpaths_plain_exact. Qed.
Print Assumptions C134_other_types_exact_partial.
Example C134_ex :
  snd (checkSwitch all_known (Some colours) ex_full) = true /\ snd (checkSwitch all_known (Some colours) ex_two) = false
  /\ snd (checkSwitch all_known None ex_full) = false /\ snd (checkSwitch all_known None (SSeq ex_full (SDefault true))) = true.
Proof. repeat split. Qed.
(** A variable of an enumerated type may have a value which is that of no member, for example [red | green]; then
    control goes past a switch with a case for every member, which splint takes to be impossible. *)
Theorem C134_other_value_refuted : exists ms value s z,
  NoDup ms /\ snd (checkSwitch all_known (Some ms) s) = true /\ enters value z s = false.
Proof.
  exists [lit "a"], (fun _ => 1), (SBlock (SSeq (SCase false (CName (lit "a"))) SSimple)), 2.
  split; [repeat constructor; intros []|]. split; reflexivity.
Qed.
Print Assumptions C134_other_value_refuted.
