(** * Proofs about the checking of buffer accesses: stores at constant indices *)
From Coq Require Import ZArith List Bool Lia ZifyBool Arith.
From Verif Require Import Cbase Constr_model Constr_proofs Bounds_model Bounds_spec Bounds_proofs.
Import ListNotations.
Local Open Scope Z_scope.

Local Arguments vname : simpl never.
Local Arguments aname : simpl never.

(** ** Shapes of alternatives *)

Definition alts (Q : atom -> Prop) (c : constr) : Prop := Forall Q (first c :: ors c).
Definition noLess (p : list constr) : Prop := Forall (fun a => ar a = GTE \/ ar a = EQ) (atoms p).

Section Shape.
Variables (f : nat) (Q Q' : atom -> Prop) (p : list constr).
Hypothesis NI : noLess p.
Hypothesis CS : forall a b, Q a -> c_simplify f a = Ok b -> Q b.
Hypothesis SB : forall a b, Q a -> subst f false a p = Ok b -> Q' b.

Lemma shape_resolve : forall a o, Q a -> doResolve f a p = Ok o ->
  match o with None => True | Some k => Forall Q' k end.
Proof.
  intros a o G H. unfold doResolve in H. ob H b0 B0. destruct b0; [inversion H; exact I|].
  ob H t TT. ob H b1 B1. destruct b1; [inversion H; exact I|].
  ob H t2 T2. assert (G2 : Q t2).
  { unfold ineqSubstitute in T2. rewrite (ineq_id _ a NI) in T2.
    destruct (arith_eqb (ar a) GTE); [apply (CS a); auto | inversion T2; subst; auto]. }
  ob H b2 B2. destruct b2; [inversion H; exact I|].
  ob H t3 T3. assert (G3 : Q t3).
  { unfold strongSubstitute in T3. rewrite (strong_id _ t2 NI) in T3.
    destruct (arith_eqb (ar t2) GTE); [apply (CS t2); auto | inversion T3; subst; auto]. }
  ob H b3 B3. destruct b3; [inversion H; exact I|].
  ob H u UU. assert (Gu : Q u).
  { unfold unsoundSubstitute in UU. rewrite (unsound_id _ t2 NI) in UU.
    destruct (arith_eqb (ar t2) GTE); [apply (CS t2); auto | inversion UU; subst; auto]. }
  ob H b4 B4. destruct b4; [inversion H; exact I|].
  ob H o1 O1. ob H o2 O2. inversion H; subst o.
  constructor; [apply (SB a); auto|]. apply Forall_app. split.
  - destruct (sameAtom t u); [inversion O1; constructor|]. ob O1 s SS. inversion O1.
    constructor; [|constructor]. apply (SB u); auto.
  - destruct (negb (sameAtom t t3) && negb (sameAtom t3 u)); [|inversion O2; constructor]. ob O2 s SS. inversion O2.
    constructor; [|constructor]. apply (SB t3); auto.
Qed.

Lemma shape_alts : forall l o, Forall Q l -> resolveAlts f l p = Ok o ->
  match o with None => True | Some k => Forall Q' k end.
Proof.
  induction l as [|a l IH]; intros o G H; [inversion H; constructor|].
  inversion G as [|? ? Ga Gl]; subst. cbn [resolveAlts] in H. ob H o1 O1.
  pose proof (shape_resolve a o1 Ga O1) as D. destruct o1 as [k|]; [|inversion H; exact I].
  ob H o2 O2. pose proof (IH o2 Gl O2) as D2. inversion H; subst o. destruct o2; [|exact I].
  apply Forall_app. auto.
Qed.

Lemma shape_reflect : p <> nil -> forall pre ret r, Forall (alts Q) pre -> Forall (alts Q') ret ->
  reflectInto f ret pre p = Ok r -> Forall (alts Q') r.
Proof.
  intros NP. induction pre as [|c pre IH]; intros ret r G Gr H; [inversion H; subst; auto|].
  inversion G as [|? ? Gc Gp]; subst. cbn [reflectInto] in H. ob H o OO.
  destruct o as [c'|]; [|apply (IH ret); auto]. ob H ret' A. apply (IH ret'); auto.
  apply (add_Forall _ ret c'); auto. 
  assert (U : doResolveOr f c p = obind (resolveAlts f (first c :: ors c) p) (fun o =>
    Ok (match o with Some (a :: k) => Some (Constr a k) | _ => None end))).
  { unfold doResolveOr. clear - NP. destruct p; [congruence|reflexivity]. }
  rewrite U in OO. ob OO o1 O1. pose proof (shape_alts _ o1 Gc O1) as D.
  destruct o1 as [[|a k]|]; inversion OO; subst. exact D.
Qed.

End Shape.

(** ** Stores at constant indices *)


(** A requirement of such a store, before and after the sizes are known. *)
Definition preShape (L : list nat) (a : atom) : Prop :=
  exists b z, a = Atom (Unary MAXSET (arr b)) GTE (Lit z) /\ In b L.
Definition litShape (a : atom) : Prop := exists p r q, a = Atom (Lit p) r (Lit q).
Definition readShape (c : constr) : Prop :=
  ors c = nil /\ exists b z, first c = Atom (Unary MAXREAD (arr b)) GTE (Lit z).

Lemma cs_max : forall f u b r z a, u = MAXSET \/ u = MAXREAD ->
  c_simplify f (Atom (Unary u (arr b)) r (Lit z)) = Ok a -> a = Atom (Unary u (arr b)) r (Lit z).
Proof.
  intros f u b r z a HU H. destruct f as [|[|[|f]]]; try discriminate.
  cbn [c_simplify] in H. replace (tooDeep _) with false in H by reflexivity.
  cbn [lexpr expr ar] in H. rewrite simplify_unary_arr, simplify_lit' in H by exact HU.
  cbn [obind is_lit lexpr andb] in H. inversion H. reflexivity.
Qed.

Lemma cs_lit : forall f p r q a, c_simplify f (Atom (Lit p) r (Lit q)) = Ok a -> a = Atom (Lit p) r (Lit q).
Proof.
  intros f p r q a H. destruct f as [|[|f]]; try discriminate.
  cbn [c_simplify] in H. replace (tooDeep _) with false in H by reflexivity.
  cbn [lexpr expr ar] in H. rewrite !simplify_lit' in H. cbn in H. inversion H. reflexivity.
Qed.

Lemma pre_cs : forall L f a b, preShape L a -> c_simplify f a = Ok b -> preShape L b.
Proof.
  intros L f a b (x & z & -> & K) H. apply cs_max in H; [|auto]. subst. exists x, z. auto.
Qed.
Lemma lit_cs : forall f a b, litShape a -> c_simplify f a = Ok b -> litShape b.
Proof. intros f a b (p & r & q & ->) H. apply cs_lit in H. subst. exists p, r, q. auto. Qed.

(** Without equations nothing is put in. *)
Lemma substLoop_noeq : forall f p c, Forall (fun a => ar a = GTE) p -> substLoop f false c p = Ok c.
Proof.
  intros f. induction p as [|a p IH]; intros c F; [reflexivity|]. inversion F as [|? ? Fa Fp]; subst.
  cbn [substLoop]. rewrite Fa. cbn [arith_eqb andb]. auto.
Qed.

Lemma gte_noLess : forall p, Forall (fun a => ar a = GTE) (atoms p) -> noLess p.
Proof. intros p. apply Forall_impl. auto. Qed.

Lemma pre_reflect : forall L f p pre ret r, Forall (fun a => ar a = GTE) (atoms p) ->
  Forall (alts (preShape L)) pre -> Forall (alts (preShape L)) ret ->
  reflectInto f ret pre p = Ok r -> Forall (alts (preShape L)) r.
Proof.
  intros L f p pre ret r F G Gr H. destruct p as [|d p].
  - revert ret G Gr H. induction pre as [|c pre IH]; intros ret G Gr H; [inversion H; subst; auto|].
    inversion G; subst. cbn [reflectInto doResolveOr obind] in H. ob H ret' A.
    apply (IH ret'); auto. apply (add_Forall _ ret c); auto.
  - apply (shape_reflect f (preShape L) (preShape L) (d :: p) (gte_noLess _ F) (pre_cs L f)) with (pre := pre) (ret := ret); auto.
    + intros a b A K. unfold subst in K. rewrite substLoop_noeq in K by exact F. cbn [obind] in K.
      apply (pre_cs L f a b A K).
    + discriminate.
Qed.

Lemma pre_gte : forall L l, Forall (alts (preShape L)) l -> Forall (fun a => ar a = GTE) (atoms l).
Proof.
  intros L l F. unfold atoms. apply Forall_map. revert F. apply Forall_impl.
  intros c H. inversion H as [|? ? (b & z & E & _) _]; subst. rewrite E. reflexivity.
Qed.

Lemma read_gte : forall l, Forall readShape l -> Forall (fun a => ar a = GTE) (atoms l).
Proof.
  intros l F. unfold atoms. apply Forall_map. revert F. apply Forall_impl.
  intros c (_ & b & z & ->). reflexivity.
Qed.

Lemma read_ens : forall f ret pre p r, Forall readShape pre -> Forall readShape ret -> Forall readShape p ->
  reflectEnsInto f ret pre p = Ok r -> Forall readShape r.
Proof.
  intros f ret pre. revert ret. induction pre as [|c pre IH]; intros ret p r F Fr Fp H; [inversion H; subst; auto|].
  inversion F as [|? ? Fc Fl]; subst. cbn [reflectEnsInto] in H. ob H b B. destruct b; [apply (IH ret p); auto|].
  ob H t T. ob H b2 B2. destruct b2; [apply (IH ret p); auto|]. ob H ret' A.
  apply (IH ret' p); auto. apply (add_Forall _ ret (Constr t (ors c))); auto.
  destruct Fc as (E & b & z & K). split; [exact E|]. exists b, z. cbn [first].
  unfold subst in T. rewrite K in T.
  assert (S0 : substLoop f true (Atom (Unary MAXREAD (arr b)) GTE (Lit z)) (atoms p) = Ok (Atom (Unary MAXREAD (arr b)) GTE (Lit z))).
  { clear - Fp. induction Fp as [|d p Hd _ I]; [reflexivity|]. destruct Hd as (_ & b' & z' & E).
    cbn [atoms map substLoop]. rewrite E. cbn [ar arith_eqb andb]. exact I. }
  rewrite S0 in T. cbn [obind] in T. apply cs_max in T; auto.
Qed.

Lemma read_conflicts : forall f l1 ret l2 ret' l2', Forall readShape l1 -> Forall readShape ret -> Forall readShape l2 ->
  fixConflicts f ret l1 l2 = Ok (ret', l2') -> Forall readShape ret' /\ Forall readShape l2'.
Proof.
  intros f. induction l1 as [|c l1 IH]; intros ret l2 ret' l2' F1 Fr F2 H.
  - inversion H; subst. auto.
  - inversion F1 as [|? ? Fc Fl]; subst. cbn [fixConflicts] in H. ob H o A. destruct o as [l2n|].
    + apply (IH ret l2n); auto. clear - A Fc F2. revert l2n A. induction F2 as [|el l Fe Fl IH]; intros l2n A; [discriminate|].
      cbn [conflictIn] in A. destruct (conflicts (first el) (first c)).
      * ob A a X. inversion A; subst. constructor; auto. unfold fixConflict in X.
        destruct Fc as (_ & b & z & E). rewrite E in X. cbn [ar arith_eqb] in X. inversion X; subst.
        destruct Fe as (G1 & G2). split; auto.
      * ob A o O1. destruct o; inversion A; subst. constructor; auto.
    + ob H retn AR. apply (IH retn l2); auto. apply (add_Forall _ ret c); auto.
Qed.

Lemma pre_merge : forall L f i1 i2 i,
  Forall (alts (preShape L)) (reqs i1) -> Forall readShape (ens i1) ->
  Forall (alts (preShape L)) (reqs i2) -> Forall readShape (ens i2) ->
  mergeResolve f i1 i2 = Ok i ->
  Forall (alts (preShape L)) (reqs i) /\ Forall readShape (ens i).
Proof.
  intros L f i1 i2 i A1 A2 B1 B2 H. unfold mergeResolve in H. ob H r1 R1. ob H r2 R2. ob H r RR. ob H e E.
  inversion H; subst. cbn [reqs ens]. split.
  - assert (F1 : Forall (alts (preShape L)) r1) by (apply (addAll_Forall _ (reqs i1) nil); auto).
    assert (F2 : Forall (alts (preShape L)) r2).
    { apply (pre_reflect L f (ens i1) (reqs i2) nil); auto. apply read_gte. exact A2. }
    unfold mergeRequires in RR. ob RR temp T. ob RR ret SS.
    assert (F3 : Forall (alts (preShape L)) temp).
    { apply (pre_reflect L f r2 r1 nil); auto. apply (pre_gte L). exact F2. }
    assert (F4 : Forall (alts (preShape L)) ret).
    { apply (pre_reflect L f temp r2 nil); auto. apply (pre_gte L). exact F3. }
    apply (addAll_Forall _ temp ret); auto.
  - unfold mergeEnsures in E. ob E x X. destruct x as [m n]. cbn [fst snd] in E. ob E ret RE.
    destruct (read_conflicts f (ens i1) nil (ens i2) m n A2 (Forall_nil _) B2 X) as [C1 C2].
    apply (known_Forall _ ret n); auto. apply (read_ens f nil m n); auto.
Qed.

Lemma pre_list : forall L f l acc i, Forall constStore l -> incl (flat_map arrays l) L ->
  (forall a, acc = Some a -> Forall (alts (preShape L)) (reqs a) /\ Forall readShape (ens a)) ->
  forall sz, goL sz f acc l = Ok i ->
  Forall (alts (preShape L)) (reqs i) /\ Forall readShape (ens i).
Proof.
  intros L f l. induction l as [|s l IH]; intros acc i F INC HA sz H.
  - inversion H; subst. destruct acc as [a|]; [apply HA; reflexivity|]. split; constructor.
  - inversion F as [|? ? Fs Fl]; subst. rewrite goL_cons in H. ob H i2 G. ob H a A.
    destruct s as [|b e| | | | | | ]; try contradiction. destruct e as [z| | |]; try contradiction.
    cbn [gen] in G. inversion G; subst i2; clear G.
    assert (S1 : Forall (alts (preShape L)) [single (writeSafe b (INum z))]).
    { constructor; [|constructor]. constructor; [|constructor]. exists b, (wrap32 z). split; [reflexivity|].
      apply INC. left. reflexivity. }
    assert (S2 : Forall readShape [single (readSafe b (INum z))]).
    { constructor; [|constructor]. split; [reflexivity|]. exists b, (wrap32 z). reflexivity. }
    apply (IH (Some a) i Fl) with (sz := sz); auto.
    + intros x X. apply INC. right. exact X.
    + intros a' E. inversion E; subst a'. destruct acc as [a0|].
      * destruct (HA a0 eq_refl) as [H1 H2]. exact (pre_merge L f a0 (Info _ _) a H1 H2 S1 S2 A).
      * inversion A; subst. auto.
Qed.

(** Every array gets its equation. *)
Lemma sizes_in : forall sz l s fx, list_addAll s (map (fun a => single (sizeAtom sz a)) l) = Ok fx ->
  Forall (fun c => exists a, c = single (sizeAtom sz a)) s ->
  Forall (fun c => exists a, c = single (sizeAtom sz a)) fx /\
  incl s fx /\ forall a, In a l -> In (single (sizeAtom sz a)) fx.
Proof.
  intros sz. induction l as [|a l IH]; intros s fx H F.
  - inversion H; subst. split; [exact F|]. split; [apply incl_refl|]. intros a [].
  - cbn [map list_addAll] in H. ob H s1 S1.
    assert (F1 : Forall (fun c => exists a, c = single (sizeAtom sz a)) s1) by (apply (add_Forall _ s (single (sizeAtom sz a))); eauto).
    destruct (IH s1 fx H F1) as (A & B & C). split; [exact A|].
    assert (K : incl s s1 /\ In (single (sizeAtom sz a)) s1).
    { destruct (add_cases _ _ _ S1) as [(-> & R0)| ->].
      - split; [apply incl_refl|]. clear - R0 F. induction F as [|c s (b & ->) _ IHs]; [discriminate|].
        cbn [resolve] in R0. ob R0 v V. destruct v.
        + left. unfold satisfies in V. ob V w W. unfold sizeAtom, single in W. cbn in W. inversion W; subst w.
          cbn [first single sizeAtom lexpr] in V. 
          destruct (similar (Unary MAXSET (arr a)) (Unary MAXSET (arr b))) eqn:E; [|discriminate].
          assert (AB : a = b).
          { change (Nat.eqb (aname a) (aname b) = true) in E. apply Nat.eqb_eq in E. unfold aname in E. lia. }
          subst. reflexivity.
        + right. auto.
      - split; [intros x X; apply in_or_app; auto | apply in_or_app; right; left; reflexivity]. }
    destruct K as [K1 K2]. split; [intros x X; apply B, K1, X|].
    intros b [->|X]; auto.
Qed.

Lemma loop_lit : forall sz f p c, litShape c -> Forall (fun a => exists b, a = sizeAtom sz b) p ->
  substLoop f false c p = Ok c.
Proof.
  intros sz f p c (x & r & y & ->). induction 1 as [|a p (b & ->) _ IH]; [reflexivity|].
  cbn [substLoop]. destruct (arith_eqb _ _ && _); [|exact IH].
  unfold adjust. rewrite andb_false_r. cbn [obind sizeAtom lexpr expr]. exact IH.
Qed.

Lemma loop_pre : forall sz f p b z c, Forall (fun a => exists b, a = sizeAtom sz b) p -> In (sizeAtom sz b) p ->
  substLoop f false (Atom (Unary MAXSET (arr b)) GTE (Lit z)) p = Ok c -> litShape c.
Proof.
  intros sz f p b z c F. induction F as [|a p (b' & ->) Fp IH]; intros K H; [destruct K|].
  cbn [substLoop] in H. change (arith_eqb (ar (sizeAtom sz b')) EQ) with true in H.
  replace (conflicts (Atom (Unary MAXSET (arr b)) GTE (Lit z)) (sizeAtom sz b')) with false in H.
  2:{ unfold conflicts, sizeAtom. cbn [lexpr ar expr arith_eqb andb]. rewrite andb_false_r. reflexivity. }
  cbn [andb negb] in H. unfold adjust in H. rewrite andb_false_r in H. cbn [obind sizeAtom lexpr expr] in H.
  unfold atom_replace in H. cbn [lexpr ar expr] in H. rewrite rep_side_un in H.
  change (replace (Lit z) (Unary MAXSET (arr b')) (Lit (wrap32 (sz b' - 1)))) with (Lit z) in H.
  destruct (Nat.eqb_spec b b') as [->|D].
  - cbn [unop_eqb andb] in H. rewrite (loop_lit sz f p _) in H; auto; [|exists (wrap32 (sz b' - 1)), GTE, z; reflexivity].
    inversion H. exists (wrap32 (sz b' - 1)), GTE, z. reflexivity.
  - cbn [unop_eqb andb] in H. apply IH; auto. destruct K as [K|K]; [|exact K].
    exfalso. apply D. apply (f_equal lexpr) in K. cbn [lexpr sizeAtom] in K.
    injection K as K. unfold aname in K. lia.
Qed.

Lemma sizes_noLess : forall sz fx, Forall (fun c => exists a, c = single (sizeAtom sz a)) fx ->
  noLess fx /\ Forall (fun a => exists b, a = sizeAtom sz b) (atoms fx).
Proof.
  intros sz fx F. unfold noLess, atoms. split; apply Forall_map; revert F; apply Forall_impl; intros c (a & ->).
  - right. reflexivity.
  - exists a. reflexivity.
Qed.

Lemma sizes1 : forall sz f L i i', Forall (alts (preShape L)) (reqs i) -> withSizes f sz L i = Ok i' ->
  Forall (alts litShape) (reqs i').
Proof.
  intros sz f L i i' F H. unfold withSizes in H. ob H fx FX. ob H r RR. inversion H; subst. cbn [reqs].
  unfold fixedArrays in FX. destruct (sizes_in sz L nil fx FX (Forall_nil _)) as (A & _ & B).
  destruct (sizes_noLess sz fx A) as [N1 N2].
  destruct fx as [|d fx0] eqn:EF.
  - (* no array, no requirement *)
    destruct (reqs i) as [|c q] eqn:EQ; [inversion RR; subst; constructor|].
    inversion F as [|? ? Fc _]; subst. inversion Fc as [|? ? (b & z & _ & K) _]; subst. destruct (B b K).
  - rewrite <- EF in *. unfold reflect in RR.
    apply (shape_reflect f (preShape L) litShape fx N1 (pre_cs L f)) with (pre := reqs i) (ret := nil); auto.
    + intros a b (x & z & -> & K) S0. unfold subst in S0. ob S0 c C.
      apply (lit_cs f c b); auto. apply (loop_pre sz f (atoms fx) x z c N2); auto.
      specialize (B x K). apply (in_map first) in B. exact B.
    + rewrite EF. discriminate.
Qed.

Lemma sizes2 : forall sz f L i i', Forall (alts litShape) (reqs i) -> withSizes f sz L i = Ok i' ->
  Forall (alts litShape) (reqs i').
Proof.
  intros sz f L i i' F H. unfold withSizes in H. ob H fx FX. ob H r RR. inversion H; subst. cbn [reqs].
  unfold fixedArrays in FX. destruct (sizes_in sz L nil fx FX (Forall_nil _)) as (A & _ & B).
  destruct (sizes_noLess sz fx A) as [N1 N2].
  destruct fx as [|d fx0] eqn:EF.
  - unfold reflect in RR. clear - RR F. assert (G : Forall (alts litShape) nil) by constructor.
    revert RR G. generalize (@nil constr) at 1 3. revert r. induction (reqs i) as [|c pre IH]; intros r ret H G; [inversion H; subst; auto|].
    inversion F; subst. cbn [reflectInto doResolveOr obind] in H. ob H ret' A.
    apply (IH H3 r ret'); auto. apply (add_Forall _ ret c); auto.
  - rewrite <- EF in *. unfold reflect in RR.
    apply (shape_reflect f litShape litShape fx N1 (lit_cs f)) with (pre := reqs i) (ret := nil); auto.
    + intros a b G S0. unfold subst in S0. rewrite (loop_lit sz f (atoms fx) a G N2) in S0. cbn [obind] in S0.
      apply (lit_cs f a b); auto.
    + rewrite EF. discriminate.
Qed.

Lemma print_lit : forall l m, Forall (alts litShape) l -> printAll l = Ok m ->
  Forall (fun x => litShape (about x)) m.
Proof.
  induction l as [|c l IH]; intros m F H; [inversion H; constructor|].
  inversion F as [|? ? Fc Fl]; subst. cbn [printAll] in H. ob H m1 M1. ob H m2 M2. inversion H; subst.
  apply Forall_app. split; [|apply IH; auto]. unfold printOne in M1. ob M1 b B. destruct b; inversion M1; subst; [constructor|].
  constructor; [|constructor]. cbn [about]. inversion Fc; auto.
Qed.

Lemma const_straight : forall l V, Forall constStore l -> straight V l.
Proof.
  induction l as [|s l IH]; intros V F; [exact I|]. inversion F as [|? ? Fs Fl]; subst.
  destruct s as [|b e| | | | | | ]; try contradiction. destruct e as [z| | |]; try contradiction.
  split; [exact I|]. apply IH. exact Fl.
Qed.

Lemma const_check : forall sz f body m, Forall constStore body -> checkFunction f sz body = Ok m ->
  Forall (fun x => litShape (about x)) m.
Proof.
  intros sz f body m F H. unfold checkFunction in H. rewrite gen_block in H. ob H i G. ob G i0 G0. ob H i' H1.
  destruct (pre_list (flat_map arrays body) f body None i0 F (incl_refl _) ltac:(discriminate) sz G0) as [A _].
  apply (print_lit (reqs i')); auto. apply (sizes2 sz f (flat_map arrays body) i); auto.
  apply (sizes1 sz f (flat_map arrays body) i0); auto.
Qed.

Theorem const_exact : forall sz f body m s0 tr s fin, Forall constStore body ->
  2 * budget sz body < 2147483648 -> checkFunction f sz body = Ok m -> runs body s0 tr s fin ->
  (m = nil <-> Forall (not_beyond sz) tr).
Proof.
  intros sz f body m s0 tr s fin F B H HR. pose proof (const_straight body nil F) as S. split.
  - intros ->. exact (silence_straight f sz body s0 tr s fin S B H HR).
  - intros K. destruct m as [|x m]; [reflexivity|]. exfalso.
    pose proof (const_check sz f body _ F H) as P. inversion P as [|? ? (p & r & q & E) _]; subst.
    destruct x as [a k]. cbn [about] in E. subst a.
    destruct (message_straight f sz body _ p r q k s0 tr s fin S B H (or_introl eq_refl) HR) as (y & Y1 & Y2).
    apply Y2. rewrite Forall_forall in K. apply K. exact Y1.
Qed.
