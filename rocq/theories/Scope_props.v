(** * Property theorems: scopes (C139-C141) *)
From Coq Require Import Arith List Bool.
From Verif Require Import Scope_model Scope_spec Scope_proofs Scope_run Scope_unused.
Import ListNotations.

Fixpoint seqS (l : list stmt) : stmts := match l with nil => LNil | a :: r => LCons a (seqS r) end.
Fixpoint seqC (l : list (list stmt * cend)) : cases :=
  match l with nil => CNil | (a, z) :: r => CCons (seqS a) z (seqC r) end.

(** ** C139: names refer to the innermost declaration *)

Theorem C139_innermost : forall globals l, bodyOk globals l ->
  names (checkBody globals l) = names (bodyS globals l).
Proof. intros globals l H; rewrite (body_ok globals l H); reflexivity. Qed.
Print Assumptions C139_innermost.

(** x (1) is global and declared again in the body and in the true branch, y (2) and z (3) in the body:
    [ { int x; int y = z; if (x) { int x; x; y; } else switch (y) { case 1: x; case 2: { int y; y; } break; default: z; } x && w; } ] *)
Definition sampleBody : stmts := seqS
  [ SDecl 1 11 EConst; SDecl 2 12 (EUse 3);
    SIfElse false false (EUse 1)
      (SBlock (seqS [SDecl 1 13 EConst; SExpr (EUse 1); SExpr (EUse 2)]))
      (SSwitch false (EUse 2) LNil
         (seqC [([SExpr (EUse 1)], Falls);
                ([SBlock (seqS [SDecl 2 14 EConst; SExpr (EUse 2)])], Breaks);
                ([SExpr (EUse 3)], Breaks)]));
    SBlock (seqS [SDecl 1 15 EConst; SDecl 4 16 (EUse 4)]);
    SExpr (EAnd (EUse 1) (EUse 5)) ].
Definition sampleGlobals : scope := [(1, 101); (3, 103)].

Example sample_ok : bodyOk sampleGlobals sampleBody.
Proof.
  split; [|split; [|split]]; cbn.
  - repeat constructor; cbn; intuition discriminate.
  - repeat constructor; cbn; intuition discriminate.
  - repeat constructor; cbn; intuition discriminate.
  - repeat (split || constructor || intro); cbn in *; intuition discriminate.
Qed.
Example C139_innermost_example :
  bodyOk sampleGlobals sampleBody /\
  names (checkBody sampleGlobals sampleBody) =
    [(3, Some 103); (1, Some 11); (1, Some 13); (2, Some 12); (2, Some 12); (1, Some 11); (2, Some 14); (3, Some 103);
     (4, Some 16); (1, Some 11); (5, None)].
Proof. split; [exact sample_ok|reflexivity]. Qed.

(** A variable declared after a case label is unknown in the following cases, although it is in scope there. *)
Theorem C139_case_declaration_refuted : exists globals l,
  NoDup (map fst globals) /\ NoDup (map snd globals ++ declaredL l) /\ NoDup (direct l) /\
  In (2, None) (names (checkBody globals l)) /\ In (2, Some 12) (names (bodyS globals l)).
Proof.
  exists [(1, 101)], (seqS [SSwitch false (EUse 1) LNil
    (seqC [([SExpr (EUse 1); SDecl 2 12 EConst; SExpr (EUse 2)], Breaks); ([SExpr (EUse 2)], Breaks)])]).
  refine (conj _ (conj _ (conj _ (conj _ _)))); try (cbn; repeat constructor; cbn; intuition discriminate).
Qed.
Print Assumptions C139_case_declaration_refuted.

(** ** C140: variables reported as not used *)

Theorem C140_unused : forall globals l, bodyOk globals l ->
  (forall d, In (Unused d) (checkBody globals l) <->
             In d (declaredL l) /\ forall x, ~ In (x, Some d) (names (checkBody globals l))) /\
  NoDup (uids (checkBody globals l)).
Proof.
  intros globals l H; rewrite (body_ok globals l H). destruct (body_unused globals l H) as [U N].
  split; [|exact N]. intro d; rewrite U. split; intros [H1 H2]; (split; [exact H1|]).
  - intros x Hx. unfold names in Hx. apply in_flat_map in Hx. destruct Hx as (v & Hv & Hx).
    destruct v as [y o|j|j o]; cbn in Hx; try tauto. destruct Hx as [E|[]]. injection E as -> ->.
    assert (X : usedIn (bodyS globals l) d = true).
    { unfold usedIn; apply existsb_exists; eexists; split; [exact Hv|]. cbn; apply Nat.eqb_refl. }
    congruence.
  - destruct (usedIn (bodyS globals l) d) eqn:E; [exfalso|reflexivity].
    unfold usedIn in E; apply existsb_exists in E. destruct E as (v & Hv & Er).
    destruct v as [y [o|]|j|j o]; try discriminate. cbn in Er. apply Nat.eqb_eq in Er; subst o.
    apply (H2 y). unfold names; apply in_flat_map. eexists; split; [exact Hv|left; reflexivity].
Qed.
Print Assumptions C140_unused.

Example C140_unused_example :
  bodyOk sampleGlobals sampleBody /\ uids (checkBody sampleGlobals sampleBody) = [15].
Proof. split; [exact sample_ok|reflexivity]. Qed.

(** Messages come where the block of the variable ends, in the order of the declarations. *)
Theorem C140_order : forall globals l, bodyOk globals l -> checkBody globals l = bodyS globals l.
Proof. exact body_ok. Qed.
Print Assumptions C140_order.

Example C140_order_example :
  let l := seqS [SBlock (seqS [SDecl 1 11 EConst; SDecl 2 12 EConst]); SDecl 3 13 EConst; SExpr (EUse 1)] in
  bodyOk [(1, 101)] l /\
  checkBody [(1, 101)] l = [Shadow 11 101; Unused 11; Unused 12; Use 1 (Some 101); Unused 13].
Proof.
  split; [|reflexivity]. split; [|split; [|split]]; cbn; repeat (split || constructor || intro); cbn in *; intuition discriminate.
Qed.

(** A variable declared in the block of a switch is never reported. *)
Theorem C140_switch_block_refuted : exists globals l,
  NoDup (map fst globals) /\ NoDup (map snd globals ++ declaredL l) /\ NoDup (direct l) /\
  uids (bodyS globals l) = [12] /\ uids (checkBody globals l) = nil.
Proof.
  exists [(1, 101)], (seqS [SSwitch false (EUse 1) (seqS [SDecl 2 12 EConst]) (seqC [([SExpr (EUse 1)], Breaks)])]).
  refine (conj _ (conj _ (conj _ (conj _ _)))); try (cbn; repeat constructor; cbn; intuition discriminate).
Qed.
Print Assumptions C140_switch_block_refuted.

(** Cases are merged by name with what is outside the switch: an outer variable counts as used if one of the
    same name in the block of the switch is used. *)
Theorem C140_switch_shadow_refuted : exists globals l,
  NoDup (map fst globals) /\ NoDup (map snd globals ++ declaredL l) /\ NoDup (direct l) /\
  uids (bodyS globals l) = [12] /\ uids (checkBody globals l) = nil /\
  forall x, ~ In (x, Some 12) (names (checkBody globals l)).
Proof.
  exists [(1, 101)], (seqS [SDecl 2 12 EConst;
    SSwitch false (EUse 1) (seqS [SDecl 2 13 EConst]) (seqC [([SExpr (EUse 2)], Breaks)])]).
  refine (conj _ (conj _ (conj _ (conj _ (conj _ _))))); try (cbn; repeat constructor; cbn; intuition discriminate).
Qed.
Print Assumptions C140_switch_shadow_refuted.

(** After a switch without cases in a case of another switch the uses in the cases of that are forgotten: a
    variable which is used is reported. *)
Theorem C140_empty_switch_refuted : exists globals l,
  NoDup (map fst globals) /\ NoDup (map snd globals ++ declaredL l) /\ NoDup (direct l) /\
  uids (bodyS globals l) = nil /\ uids (checkBody globals l) = [12].
Proof.
  exists [(1, 101)], (seqS [SDecl 2 12 EConst;
    SSwitch false (EUse 1) LNil (seqC [([SExpr (EUse 2); SSwitch false (EUse 1) LNil CNil], Breaks)])]).
  refine (conj _ (conj _ (conj _ (conj _ _)))); try (cbn; repeat constructor; cbn; intuition discriminate).
Qed.
Print Assumptions C140_empty_switch_refuted.

(** ** C141: declarations reported as shadowing outer ones *)

Theorem C141_shadow : forall globals l, bodyOk globals l ->
  shadows (checkBody globals l) = shadows (bodyS globals l).
Proof. intros globals l H; rewrite (body_ok globals l H); reflexivity. Qed.
Print Assumptions C141_shadow.

Example C141_shadow_example :
  bodyOk sampleGlobals sampleBody /\
  shadows (checkBody sampleGlobals sampleBody) = [(11, 101); (13, 11); (14, 12); (15, 11)].
Proof. split; [exact sample_ok|reflexivity]. Qed.
