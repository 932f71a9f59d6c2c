(** C12 and C13: the table of macros (src/cpphash.c, src/cpplib.c). *)
From Verif Require Import Cbase Cbase_facts Hash_model Hash_spec Hash_proofs.

(** C12. After any history every operation has been defined behaviour, and a name has the
    definition last given to it and not since undefined. *)
Theorem C12_finite_map : forall os, Forall plain os ->
  exists s, run init os = Some s /\ forall n, find s n = Some (latest n os None).
Proof. exact finite_map. Qed.
Print Assumptions C12_finite_map.

(** C12. Operations on other names change nothing, wherever they hash to. *)
Theorem C12_other_names : forall os n, Forall plain os ->
  (forall m d, In (Define m d) os -> m <> n) -> (forall m, In (Undef m) os -> m <> n) -> (forall m v, In (Install m v) os -> m <> n) ->
  forall before, Forall plain before ->
  exists s s', run init before = Some s /\ run init (before ++ os) = Some s' /\ find s' n = find s n.
Proof.
  intros os n P D U I before PB. destruct (finite_map before PB) as (s & E & F).
  destruct (finite_map (before ++ os)) as (s' & E' & F'); [apply Forall_app; auto|].
  exists s, s'. split; [exact E|]. split; [exact E'|]. rewrite F, F'. f_equal.
  assert (forall v, latest n (before ++ os) v = latest n os (latest n before v)) as A.
  { clear. induction before as [|o before IH]; intros v; [reflexivity|]. destruct o; cbn [latest app]; apply IH. }
  rewrite A. generalize (latest n before None). clear -P D U I. induction os as [|o os IH]; intros v; [reflexivity|].
  inversion P; subst.
  assert (forall m, m <> n -> cstr_eqb m n = false) as NE by (intros m; apply cstr_eqb_false).
  destruct o; cbn [latest]; try contradiction.
  - rewrite NE by (apply (D _ d); left; reflexivity). apply IH; auto; intros; [eapply D|eapply U|eapply I]; right; eassumption.
  - rewrite NE by (apply U; left; reflexivity). apply IH; auto; intros; [eapply D|eapply U|eapply I]; right; eassumption.
  - rewrite NE by (apply (I _ v0); left; reflexivity). apply IH; auto; intros; [eapply D|eapply U|eapply I]; right; eassumption.
Qed.
Print Assumptions C12_other_names.

Definition obj (s : cstr) : defn :=
  {| nargs := -1; expansion := s; predefined := false; def_line := 1; def_file := lit "x.c";
     noExpand := Some false; rest_args := Some false; pattern := []; argnames := [] |}.
(** Three names sharing a slot; the middle one of the chain is deleted and comes back. *)
Definition three : list op :=
  [Define (lit "aF") (obj (lit "1")); Define (lit "bB") (obj (lit "2")); Define (lit "_N") (obj (lit "3"));
   Undef (lit "bB"); Define (lit "aF") (obj (lit "4")); Install (lit "bB") (Builtin 5 []); Undef (lit "_N"); Undef (lit "zz")].
Example C12_three_ex :
  hashCode (lit "aF") = hashCode (lit "bB") /\ hashCode (lit "_N") = hashCode (lit "bB") /\
  match run init three with
  | Some s => map (find s) [lit "aF"; lit "bB"; lit "_N"] = [Some (Some (Macro (obj (lit "4")))); Some (Some (Builtin 5 [])); Some None]
  | None => False
  end.
Proof. vm_compute. auto. Qed.

(** C13. What is kept: which names are defined, the number of parameters, the replacement text
    without its parameters, where it was defined; and for macros whose replacement list uses no
    parameter, that it uses none.  Missing: where the parameters occur, and [noExpand]. *)
Theorem C13_restored_partial : forall os1 os2 n, (forall o, In o os2 -> o <> Save) ->
  exists s1 s2 v v', run init os1 = Some s1 /\ run init (os1 ++ [Save] ++ os2 ++ [Restore]) = Some s2 /\
    find s1 n = Some v /\ find s2 n = Some v' /\
    match v, v' with
    | None, None => True
    | Some (Builtin k t), Some w => w = Builtin k t
    | Some (Macro d), Some (Macro d') =>
        nargs d' = nargs d /\ expansion d' = expansion d /\ predefined d' = predefined d /\
        def_line d' = def_line d /\ def_file d' = def_file d /\
        (0 <= nargs d -> argnames d' = argnames d) /\ (pattern d = [] <-> pattern d' = [])
    | _, _ => False
    end.
Proof.
  intros os1 os2 n NS. destruct (restored os1 os2 n NS) as (s1 & s2 & v & E1 & E2 & F1 & F2).
  exists s1, s2, v. eexists. split; [exact E1|]. split; [exact E2|]. split; [exact F1|]. split; [exact F2|].
  destruct v as [[d|k t]|]; cbn; auto.
  assert (forall p, p = [] <-> copy_pattern p = []) as CP.
  { intros [|r p]; [split; reflexivity|]. split; [discriminate|]. cbn. intros H. exfalso.
    assert (forall q acc, copy_pattern_loop r false q acc = acc) as L by (induction q; intros; cbn; auto).
    rewrite L in H. discriminate. }
  repeat split; try reflexivity.
  - intros H. assert (0 <=? nargs d = true) as -> by (apply Z.leb_le; exact H). reflexivity.
  - intros H. apply (proj1 (CP _)), (proj1 (CP _)). exact H.
  - intros H. apply (proj2 (CP _)), (proj2 (CP _)). exact H.
Qed.
Print Assumptions C13_restored_partial.

(** [-DTWICE(x)=x+x]. *)
Definition twice : defn :=
  {| nargs := 1; expansion := lit "@ +@ "; predefined := true; def_line := 0; def_file := [];
     noExpand := Some false; rest_args := Some false;
     pattern := [{| stringify := false; raw_before := false; raw_after := false; item_rest := false; nchars := Some 2; argno := 0 |};
                 {| stringify := false; raw_before := false; raw_after := false; item_rest := false; nchars := Some 1; argno := 0 |}];
     argnames := lit "x" |}.

(** C13. The second use of a parameter is lost, and how much text precedes the first is undetermined. *)
Theorem C13_parameter_uses_refuted : exists n d s d',
  run init [Define n d; Save; Restore] = Some s /\ find s n = Some (Some (Macro d')) /\
  ~ same_macro d d' /\ (List.length (pattern d') < List.length (pattern d))%nat /\
  map nchars (pattern d') = [None].
Proof.
  exists (lit "TWICE"), twice.
  destruct (restored [Define (lit "TWICE") twice] [] (lit "TWICE")) as (s1 & s2 & v & E1 & E2 & F1 & F2); [intros o []|].
  exists s2. eexists. split; [exact E2|]. rewrite F2. vm_compute in E1. injection E1 as <-. vm_compute in F1. injection F1 as <-.
  split; [reflexivity|]. split; [|split; [vm_compute; lia|reflexivity]]. intros (_ & _ & P & _). vm_compute in P. discriminate.
Qed.
Print Assumptions C13_parameter_uses_refuted.

(** C13. For every macro, whether it is to be expanded at all is undetermined afterwards. *)
Theorem C13_noexpand_refuted : exists n d s d',
  run init [Define n d; Save; Restore] = Some s /\ find s n = Some (Some (Macro d')) /\
  pattern d = [] /\ noExpand d = Some false /\ noExpand d' = None.
Proof.
  exists (lit "N"), (obj (lit "@ 1@ ")).
  destruct (restored [Define (lit "N") (obj (lit "@ 1@ "))] [] (lit "N")) as (s1 & s2 & v & E1 & E2 & F1 & F2); [intros o []|].
  exists s2. eexists. split; [exact E2|]. rewrite F2. vm_compute in E1. injection E1 as <-. vm_compute in F1. injection F1 as <-.
  repeat split; reflexivity.
Qed.
Print Assumptions C13_noexpand_refuted.
Example C13_restored_ex :
  match run init ([Define (lit "N") (obj (lit "@ 1@ "))] ++ [Save] ++ [Undef (lit "N"); Define (lit "M") (obj (lit "2"))] ++ [Restore]) with
  | Some s => (match find s (lit "N") with Some (Some (Macro d)) => Some (expansion d) | _ => None end, find s (lit "M"))
              = (Some (lit "@ 1@ "), Some None)
  | None => False
  end.
Proof. vm_compute. reflexivity. Qed.
