(** * Proofs about #if evaluation: the operator stack machine *)
From Coq Require Import ZArith List Bool Lia ZifyBool.
From Verif Require Import Cbase Cppexp_model Cppexp_spec.
Import ListNotations.
Local Open Scope Z_scope.
Local Arguments Z.mul : simpl never.
Local Arguments Z.add : simpl never.
Local Arguments Z.min : simpl never.

(** ** What the machine computes, by recursion on the tree *)

Definition lazy_skip (o : binary) (a : Z) : bool :=
  match o with BLAnd => negb (nz a) | BLOr => nz a | _ => false end.

Fixpoint meval (sk : bool) (e : ex) (d : diag) : Z * bool * diag :=
  match e with
  | ENum v u => (wrap64 v, u, d)
  | EPar e => meval sk e d
  | EUn o e => let '(v, u, d) := meval sk e d in apply1 sk (un_tok o) v u d
  | EBin o a b =>
      let '(x, u1, d) := meval sk a d in
      let sk' := sk || lazy_skip o x in
      let '(y, u2, d) := meval sk' b d in
      apply2 sk' (bin_tok o) x u1 y u2 d
  | ECond c a b =>
      let '(x, _, d) := meval sk c d in
      let '(y, u1, d) := meval (sk || negb (nz x)) a d in
      let '(z, u2, d) := meval (sk || nz x) b d in
      (if nz x then y else z, u1 || u2, d)
  end.

(** ** Priorities *)

(** lowest left priority met while reading the expression *)
Definition low (e : ex) : Z :=
  match e with
  | ENum _ _ | EPar _ => 30
  | EUn UPos _ | EUn UNeg _ => 24
  | EUn _ _ => 29
  | EBin o _ _ => lprio (bin_tok o)
  | ECond _ _ _ => 7
  end.

(** operators left pending have right priority at least this *)
Definition pend (e : ex) : Z :=
  match e with
  | ENum _ _ | EPar _ => 30
  | EUn UPos _ | EUn UNeg _ => 25
  | EUn _ _ => 28
  | EBin o _ _ => lprio (bin_tok o) + 1
  | ECond _ _ _ => 6
  end.

Definition holds_after (e : ex) : Prop :=
  forall t r skip d v u d2, e_val t = None -> e_rprio t <= low e -> 0 <= skip ->
  meval (nz skip) e d = (v, u, d2) ->
  exists t' r' skip' d',
    (forall ks, run (print e ++ ks) t r skip d = run ks t' r' skip' d') /\
    (forall L, L < pend e -> reduce L t' r' skip' d' = reduce L (set_val t v u) r skip d2).

Lemma reduce_done : forall L t r skip d, e_rprio t <= L -> reduce L t r skip d = Done t r skip d.
Proof.
  intros L t r skip d H. destruct r; simpl; destruct (Z.leb_spec (e_rprio t) L); auto; lia.
Qed.

Lemma run_op : forall o ks t r skip d t' r' skip' d' t2 r2 skip2 d2,
  reduce (lprio o) t r skip d = Done t' r' skip' d' ->
  push o t' r' skip' d' = Done t2 r2 skip2 d2 ->
  run (KOp o :: ks) t r skip d = run ks t2 r2 skip2 d2.
Proof. intros. cbn [run step]. rewrite H, H0. reflexivity. Qed.

Lemma rprio_set : forall t v u, e_rprio (set_val t v u) = e_rprio t.
Proof. reflexivity. Qed.

Lemma set_set : forall t a b c d, set_val (set_val t a b) c d = set_val t c d.
Proof. reflexivity. Qed.

Lemma nz_skip : forall skip b, 0 <= skip -> nz (if b : bool then skip + 1 else skip) = nz skip || b.
Proof. intros skip [] H; unfold nz; destruct (Z.eqb_spec skip 0); destruct (Z.eqb_spec (skip + 1) 0); simpl; lia || auto. Qed.

Definition strict_bin (o : binary) : bool :=
  match o with BAdd | BSub => false | _ => true end.

(** Reducing a pending binary operator. *)
Lemma reduce_bin : forall o L t r skip d x u1 y u2 v u d2,
  L < lprio (bin_tok o) + 1 ->
  apply2 (nz skip) (bin_tok o) x u1 y u2 d = (v, u, d2) ->
  reduce L (El (Some (bin_tok o)) (rprio_of (bin_tok o)) (Some (y, u2)))
         (set_val t x u1 :: r) skip d =
  reduce L (set_val t v u) r (if lazy_skip o x then skip - 1 else skip) d2.
Proof.
  intros o L t r skip d x u1 y u2 v u d2 HL H.
  cbn [reduce]. cbn [e_rprio].
  assert (Hr : rprio_of (bin_tok o) = lprio (bin_tok o) + 1) by (destruct o; reflexivity).
  destruct (Z.leb_spec (rprio_of (bin_tok o)) L); [lia|].
  destruct o; simpl bin_tok in *; cbn [op_left op_right e_op needs_left needs_right have e_val
    set_val negb andb lazy_skip]; rewrite H; auto; try (destruct (nz x); reflexivity).
Qed.

Lemma reduce_un : forall o L t r skip d y u2 v u d2,
  e_val t = None ->
  L < pend (EUn o (ENum 0 false)) ->
  apply1 (nz skip) (un_tok o) y u2 d = (v, u, d2) ->
  reduce L (El (Some (un_tok o)) (rprio_of (un_tok o)) (Some (y, u2))) (t :: r) skip d =
  reduce L (set_val t v u) r skip d2.
Proof.
  intros o L t r skip d y u2 v u d2 Ht HL H.
  cbn [reduce]. cbn [e_rprio].
  assert (Hr : rprio_of (un_tok o) = pend (EUn o (ENum 0 false))) by (destruct o; reflexivity).
  rewrite Hr. destruct (Z.leb_spec (pend (EUn o (ENum 0 false))) L); [lia|].
  destruct o; simpl un_tok in *; cbn [op_left op_right e_op needs_left needs_right have e_val
    set_val negb andb]; rewrite Ht, H; reflexivity.
Qed.

Lemma lvl_bin : forall o, lprio (bin_tok o) = 2 * strength o + 2.
Proof. destruct o; reflexivity. Qed.

Lemma low_level : forall e, c_tree e -> is_sign e = false ->
  low e >= Z.min 30 (2 * level e + 2) /\ pend e >= Z.min 28 (2 * level e + 2).
Proof.
  intros e H Hs. destruct e as [v u|e|o e|o a b|c a b]; simpl in *; try lia.
  - destruct o; simpl in *; try discriminate; lia.
  - rewrite lvl_bin. lia.
Qed.

Lemma low_any : forall e, low e >= Z.min 24 (2 * level e + 2) /\ pend e >= Z.min 25 (2 * level e + 2).
Proof.
  intros e. destruct e as [v u|e|o e|o a b|c a b]; simpl in *; try lia.
  - destruct o; simpl in *; lia.
  - rewrite lvl_bin. lia.
Qed.

Lemma level_range : forall e, 1 <= level e <= 14.
Proof. destruct e as [| | |o a b|]; simpl; try lia. destruct o; simpl; lia. Qed.

Lemma pend_bin : forall e s, s <= level e -> (s = 12 -> is_sign e = false) -> s <= 12 ->
  c_tree e -> (forall c a b, e = ECond c a b -> s = 1) ->
  2 * s + 2 < pend e.
Proof.
  intros e s Hl Hs H12 Hc Hcond. destruct e as [v u|e|o e|o a b|c a b]; simpl in *; try lia.
  - destruct o; simpl in *; try lia; assert (s <> 12) by (intros K; discriminate (Hs K)); lia.
  - rewrite lvl_bin. lia.
  - rewrite (Hcond _ _ _ eq_refl). lia.
Qed.

Theorem machine : forall e, c_tree e -> supported e -> holds_after e.
Proof.
  induction e as [v0 u0|e IH|o e IH|o a IHa b IHb|c IHc a IHa b IHb];
    intros Hc Hs t r skip d v u d2 Ht Hr Hk He.
  - (* constant *)
    simpl in He. inversion He; subst.
    exists (set_val t (wrap64 v0) u), r, skip, d2. split; [|reflexivity].
    intros ks. simpl. unfold have. rewrite Ht. reflexivity.
  - (* parentheses *)
    simpl in Hc, Hs, He, Hr.
    destruct (IH Hc Hs (El (Some OLpar) 0 None) (t :: r) skip d v u d2) as
      (t1 & r1 & s1 & d1 & R1 & P1); auto.
    { cbn [e_rprio]. pose proof (low_any e). pose proof (level_range e). lia. }
    assert (E1 : reduce 0 t1 r1 s1 d1 = Done (El (Some OLpar) 0 (Some (v, u))) (t :: r) skip d2).
    { rewrite P1; [reflexivity|]. pose proof (low_any e). pose proof (level_range e). lia. }
    exists (El (Some ORpar) 30 None), (El (Some OLpar) 0 (Some (v, u)) :: t :: r), skip, d2. split.
    + intros ks. cbn [print app].
      rewrite (run_op _ _ _ _ _ _ t r skip d (El (Some OLpar) 0 None) (t :: r) skip d);
        [|apply reduce_done; auto|reflexivity].
      rewrite <- app_assoc. rewrite R1. cbn [app].
      erewrite run_op; [|exact E1|reflexivity]. reflexivity.
    + intros L HL. simpl in HL. cbn [reduce e_rprio].
      destruct (Z.leb_spec 30 L); [lia|].
      cbn [op_left op_right e_op needs_left needs_right andb have e_val].
      unfold have. rewrite Ht. reflexivity.
  - (* unary *)
    destruct Hc as [Hc Hl]. destruct Hs as [Hs Hsg]. simpl in He.
    destruct (meval (nz skip) e d) as [[y u2] d0] eqn:Ee.
    pose proof (low_level e Hc Hsg) as Hlow.
    destruct (IH Hc Hs (El (Some (un_tok o)) (rprio_of (un_tok o)) None) (t :: r) skip d y u2 d0) as
      (t1 & r1 & s1 & d1 & R1 & P1); auto.
    { cbn [e_rprio]. destruct o; simpl; lia. }
    exists t1, r1, s1, d1. split.
    + intros ks. cbn [print app].
      rewrite (run_op _ _ _ _ _ _ t r skip d (El (Some (un_tok o)) (rprio_of (un_tok o)) None) (t :: r) skip d).
      * apply R1.
      * apply reduce_done. destruct o; simpl in *; lia.
      * destruct o; reflexivity.
    + intros L HL. rewrite P1.
      * apply (reduce_un o L t r skip d0 y u2 v u d2); auto.
      * destruct o; simpl in *; lia.
  - (* binary *)
    destruct Hc as (Ha & Hb & La & Lb). destruct Hs as (Sa & Sb & N1 & N2). simpl in He, Hr.
    destruct (meval (nz skip) a d) as [[x u1] d0] eqn:Ea.
    destruct (meval (nz skip || lazy_skip o x) b d0) as [[y u2] d3] eqn:Eb.
    rewrite lvl_bin in Hr.
    pose proof (level_range a). pose proof (level_range b).
    assert (Hso : strength o <= 12) by (destruct o; simpl; lia).
    destruct (IHa Ha Sa t r skip d x u1 d0) as (t1 & r1 & s1 & d1 & R1 & P1); auto.
    { destruct (is_sign a) eqn:Es.
      - assert (strength o <> 12) by (intros K; specialize (N2 K); congruence).
        pose proof (low_any a). lia.
      - pose proof (low_level a Ha Es). lia. }
    assert (E1 : reduce (lprio (bin_tok o)) t1 r1 s1 d1 = Done (set_val t x u1) r skip d0).
    { rewrite P1; [apply reduce_done; rewrite rprio_set, lvl_bin; lia|].
      rewrite lvl_bin. apply pend_bin; auto.
      intros c' a' b' ->. simpl in La. destruct o; simpl in *; lia. }
    set (skip' := if lazy_skip o x then skip + 1 else skip).
    destruct (IHb Hb Sb (El (Some (bin_tok o)) (rprio_of (bin_tok o)) None) (set_val t x u1 :: r)
                skip' d0 y u2 d3) as (t3 & r3 & s3 & d4 & R3 & P3); auto.
    { cbn [e_rprio].
      assert (Hrp : rprio_of (bin_tok o) = lprio (bin_tok o) + 1) by (destruct o; reflexivity).
      rewrite Hrp, lvl_bin. destruct (is_sign b) eqn:Es.
      - assert (arithmetic o = false) by (destruct (arithmetic o); auto; discriminate N1; auto).
        pose proof (low_any b). destruct o; simpl in *; try discriminate; lia.
      - pose proof (low_level b Hb Es). lia. }
    { unfold skip'. destruct (lazy_skip o x); lia. }
    { unfold skip'. rewrite nz_skip; auto. }
    exists t3, r3, s3, d4. split.
    + intros ks. cbn [print]. rewrite <- app_assoc. rewrite R1. cbn [app].
      erewrite run_op; [apply R3|exact E1|].
      unfold push, set_val. cbn [e_val].
      destruct o; cbn [bin_tok]; unfold skip'; simpl; auto; destruct (nz x); reflexivity.
    + intros L HL. simpl in HL. rewrite P3.
      * etransitivity; [apply (reduce_bin o L t r skip' d3 x u1 y u2 v u d2); auto|].
        -- unfold skip'. rewrite nz_skip; auto.
        -- f_equal. unfold skip'. destruct (lazy_skip o x); lia.
      * assert (lprio (bin_tok o) + 1 <= pend b); [|lia]. rewrite lvl_bin.
        destruct (is_sign b) eqn:Es.
        -- pose proof (low_any b). destruct o; simpl in *; try lia; discriminate N1; auto.
        -- pose proof (low_level b Hb Es). destruct b; simpl in *; try lia.
  - (* conditional *)
    destruct Hc as (Hcc & Ha & Hb & Lc & Lb). destruct Hs as (Sc & Sa & Sb & La). simpl in He, Hr.
    destruct (meval (nz skip) c d) as [[x u0] d0] eqn:Ec.
    destruct (meval (nz skip || negb (nz x)) a d0) as [[y u1] d3] eqn:Ea.
    destruct (meval (nz skip || nz x) b d3) as [[z u2] d4] eqn:Eb.
    inversion He; subst v u d2.
    destruct (IHc Hcc Sc t r skip d x u0 d0) as (t1 & r1 & s1 & d1 & R1 & P1); auto.
    { pose proof (low_any c). lia. }
    assert (E1 : reduce (lprio OQuest) t1 r1 s1 d1 = Done (set_val t x u0) r skip d0).
    { rewrite P1; [apply reduce_done; rewrite rprio_set; simpl; lia|].
      pose proof (low_any c). simpl. lia. }
    set (skip1 := if negb (nz x) then skip + 1 else skip).
    destruct (IHa Ha Sa (El (Some OQuest) 6 None) (set_val t x u0 :: r) skip1 d0 y u1 d3) as
      (t2 & r2 & s2 & d5 & R2 & P2); auto.
    { pose proof (low_any a). simpl. lia. }
    { unfold skip1. destruct (negb (nz x)); lia. }
    { unfold skip1. rewrite nz_skip; auto. }
    assert (E2 : reduce (lprio OColon) t2 r2 s2 d5 =
                 Done (El (Some OQuest) 6 (Some (y, u1))) (set_val t x u0 :: r) skip1 d3).
    { rewrite P2; [apply reduce_done; simpl; lia|]. pose proof (low_any a). simpl. lia. }
    set (skip2 := if nz x then skip + 1 else skip).
    destruct (IHb Hb Sb (El (Some OColon) 6 None)
                (El (Some OQuest) 6 (Some (y, u1)) :: set_val t x u0 :: r) skip2 d3 z u2 d4) as
      (t3 & r3 & s3 & d6 & R3 & P3); auto.
    { pose proof (low_any b). simpl. lia. }
    { unfold skip2. destruct (nz x); lia. }
    { unfold skip2. rewrite nz_skip; auto. }
    exists t3, r3, s3, d6. split.
    + intros ks. cbn [print]. rewrite <- app_assoc. rewrite R1. cbn [app].
      erewrite run_op; [|exact E1|].
      2:{ unfold push, set_val. cbn [e_val]. reflexivity. }
      rewrite <- app_assoc. cbn [app].
      assert (Hsk : (if nz x then skip else skip + 1) = skip1)
        by (unfold skip1; destruct (nz x); reflexivity).
      rewrite Hsk. fold (set_val t x u0).
      change (El (e_op t) (e_rprio t) (Some (x, u0))) with (set_val t x u0).
      change (rprio_of OQuest) with 6. rewrite R2.
      erewrite run_op; [|exact E2|].
      2:{ unfold push, set_val. cbn [e_val]. reflexivity. }
      assert (Hsk2 : (if nz x then skip1 + 1 else skip1 - 1) = skip2)
        by (unfold skip1, skip2; destruct (nz x); simpl; lia).
      rewrite Hsk2. apply R3.
    + intros L HL. simpl in HL. rewrite P3 by (pose proof (low_any b); lia).
      unfold set_val at 1. cbn [reduce e_rprio e_op].
      destruct (Z.leb_spec 6 L); [lia|].
      cbn [op_left op_right e_op needs_left needs_right andb have e_val set_val].
      f_equal. unfold skip2. destruct (nz x); lia.
Qed.

Lemma parse_print : forall e v u d, c_tree e -> supported e ->
  meval false e (Diag false false false) = (v, u, d) ->
  parseExpression (print e) = RVal v d.
Proof.
  intros e v u d Hc Hs He. unfold parseExpression.
  destruct (machine e Hc Hs (El None 0 None) [] 0 (Diag false false false) v u d) as
    (t & r & s & d' & R & P); auto; try lia.
  { pose proof (low_any e). pose proof (level_range e). simpl. lia. }
  specialize (R []). rewrite app_nil_r in R. rewrite R. cbn [run].
  rewrite P; [reflexivity|]. pose proof (low_any e). pose proof (level_range e). lia.
Qed.
