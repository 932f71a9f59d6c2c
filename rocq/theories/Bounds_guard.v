(** * Proofs about the checking of buffer accesses: a guarded store *)
From Coq Require Import ZArith List Bool Lia ZifyBool Arith.
From Verif Require Import Cbase Constr_model Constr_proofs Bounds_model Bounds_spec Bounds_proofs.
Import ListNotations.
Local Open Scope Z_scope.

Local Arguments vname : simpl never.
Local Arguments aname : simpl never.

Section G.
Variables (x a : nat) (s n k : Z) (f0 : nat).
Hypothesis BN : Z.abs n < 536870912.
Hypothesis BK : Z.abs k < 536870912.
Hypothesis BS : Z.abs s < 536870912.
Let f : nat := (12 + f0)%nat.

Definition idx : cexpr := Binary PLUS (var x) (Lit k).
Definition nidx : cexpr := if k =? 0 then var x else idx.
Definition aU (e : cexpr) : atom := Atom (Unary MAXSET (arr a)) GTE e.
Definition aG : atom := Atom (var x) LTE (Lit (s - k)).
Definition ag : atom := Atom (var x) LTE (Lit (n - 1)).
Definition aS : atom := Atom (Unary MAXSET (arr a)) EQ (Lit s).

Lemma simp_idx : forall j, simplify (S (S j)) idx = Ok nidx.
Proof.
  intros j. rewrite simplify_S. unfold idx. cbn [children]. rewrite simplify_var, simplify_lit'. cbn [obind].
  unfold step2, combineConstants. rewrite (prop_nf (fun _ => 0) PLUS (var x) k) by (try constructor; simpl; lia).
  cbn [obind var zop]. unfold nidx, idx. change (0 + k) with k. destruct (k =? 0).
  - reflexivity.
  - cbn [andb negb obind children]. change (Term (TName (vname x))) with (var x).
    rewrite simplify_var, simplify_lit'. reflexivity.
Qed.

Lemma simp_nidx : forall j, simplify (S (S j)) nidx = Ok nidx.
Proof.
  intros j. unfold nidx at 1. destruct (k =? 0) eqn:K; [rewrite simplify_var | rewrite simp_idx];
    unfold nidx; rewrite K; reflexivity.
Qed.

Lemma simp_minus : forall j p q, Z.abs p < 1073741824 -> Z.abs q < 1073741824 ->
  simplify (S (S j)) (Binary MINUS (Lit p) (Lit q)) = Ok (Lit (p - q)).
Proof.
  intros j p q P Q. rewrite simplify_S. cbn [children]. rewrite !simplify_lit'. cbn [obind].
  unfold step2, combineConstants. rewrite (prop_nf (fun _ => 0) MINUS (Lit p) q) by (try constructor; simpl; lia).
  reflexivity.
Qed.

Lemma cs_idx : forall e, e = idx \/ e = nidx -> forall j, c_simplify (S (S (S j))) (aU e) = Ok (aU nidx).
Proof.
  intros e HE j. cbn [c_simplify]. unfold aU. replace (tooDeep _) with false.
  2:{ symmetry. unfold tooDeep. apply Nat.leb_gt. cbn [lexpr expr]. destruct HE as [-> | ->]; unfold nidx; destruct (k =? 0); simpl; lia. }
  cbn [lexpr expr ar]. rewrite simplify_unary_arr by auto. cbn [obind].
  replace (simplify (S (S j)) e) with (Ok nidx) by (destruct HE as [-> | ->]; [rewrite simp_idx | rewrite simp_nidx]; reflexivity).
  reflexivity.
Qed.

Lemma cs_lit_idx : forall e, e = idx \/ e = nidx -> forall j,
  c_simplify (S (S (S (S j)))) (Atom (Lit s) GTE e) = Ok aG.
Proof.
  intros e HE j. cbn [c_simplify]. replace (tooDeep (Atom (Lit s) GTE e)) with false.
  2:{ symmetry. unfold tooDeep. apply Nat.leb_gt. cbn [lexpr expr]. destruct HE as [-> | ->]; unfold nidx; destruct (k =? 0); simpl; lia. }
  cbn [lexpr expr ar]. rewrite simplify_lit'. cbn [obind].
  replace (simplify (S (S (S j))) e) with (Ok nidx) by (destruct HE as [-> | ->]; [rewrite simp_idx | rewrite simp_nidx]; reflexivity).
  cbn [obind Lit lexpr expr is_lit andb]. replace (is_lit nidx) with false by (unfold nidx; destruct (k =? 0); reflexivity).
  cbn [negb swapLR lexpr expr ar flipAr]. replace (tooDeep (Atom nidx LTE (Term (TLit s)))) with false.
  2:{ symmetry. unfold tooDeep. apply Nat.leb_gt. cbn [lexpr expr]. unfold nidx; destruct (k =? 0); simpl; lia. }
  rewrite simp_nidx. change (Term (TLit s)) with (Lit s). rewrite simplify_lit'. cbn [obind].
  unfold nidx, aG. destruct (k =? 0) eqn:K.
  - cbn. replace (s - k) with s by lia. reflexivity.
  - unfold idx. unfold solve. cbn [lexpr expr ar]. change (Term (TName (vname x))) with (var x).
    rewrite simplify_var. cbn [obind]. rewrite simp_minus by lia. reflexivity.
Qed.

Lemma cs_var_lit : forall z j, c_simplify (S (S j)) (Atom (var x) LTE (Lit z)) = Ok (Atom (var x) LTE (Lit z)).
Proof. reflexivity. Qed.

Lemma cs_guard : forall j, c_simplify (S (S (S j))) (Atom (var x) LTE (Binary MINUS (Lit n) (Lit 1))) = Ok ag.
Proof.
  intros j. cbn [c_simplify]. replace (tooDeep _) with false by reflexivity. cbn [lexpr expr ar].
  rewrite simplify_var. cbn [obind]. rewrite simp_minus by lia. reflexivity.
Qed.

Lemma prop_idx : forall e, e = idx \/ e = nidx ->
  exists p j, propagate e = Ok (var x, p, j).
Proof.
  assert (P : propagate idx = Ok (var x, true, k)).
  { unfold idx. rewrite (prop_nf (fun _ => 0) PLUS (var x) k) by (try constructor; simpl; lia). reflexivity. }
  intros e [-> | ->]; [exists true, k; exact P|]. unfold nidx. destruct (k =? 0); [exists false, 0; reflexivity | exists true, k; exact P].
Qed.

(** nothing is resolved by the size *)
Lemma iat_U : forall e, e = idx \/ e = nidx -> isAlwaysTrue (aU e) = Ok false.
Proof.
  intros e HE. destruct (prop_idx e HE) as (p & j & P). unfold isAlwaysTrue.
  replace (sizeOfMaxSet (aU e)) with (Ok false).
  2:{ symmetry. unfold sizeOfMaxSet, aU. cbn [ar lexpr expr].
      assert (E : e = var x \/ e = idx) by (destruct HE as [-> | ->]; [auto|]; unfold nidx; destruct (k =? 0); auto).
      destruct E as [-> | ->]; [reflexivity|]. unfold idx. cbn [expr_value Lit term_value].
      destruct (k =? -1); reflexivity. }
  cbn [obind aU lexpr expr ar expr_value]. rewrite P. cbn [obind].
  assert (E : e = var x \/ e = idx) by (destruct HE as [-> | ->]; [auto|]; unfold nidx; destruct (k =? 0); auto).
  destruct E as [-> | ->]; reflexivity.
Qed.

Lemma sim_max : similar (Unary MAXSET (arr a)) (Unary MAXSET (arr a)) = true.
Proof. apply similar_refl. Qed.

Lemma res_U : forall e, e = idx \/ e = nidx -> resolve (single (aU e)) [single aS] = Ok false.
Proof.
  intros e HE. destruct (prop_idx e HE) as (p & j & P). cbn [resolve]. unfold satisfies. cbn [first single].
  rewrite (iat_U e HE). cbn [obind aU aS lexpr expr ar]. rewrite sim_max.
  unfold rangeCheck. cbn [canResolve negb].
  assert (E : e = var x \/ e = idx) by (destruct HE as [-> | ->]; [auto|]; unfold nidx; destruct (k =? 0); auto).
  assert (S1 : similar e (Lit s) = false) by (destruct E as [-> | ->]; reflexivity). rewrite S1.
  unfold rangeTail. assert (E1 : expr_value e = None) by (destruct E as [-> | ->]; reflexivity). rewrite E1, P.
  cbn [obind propagate Lit]. rewrite andb_comm. reflexivity.
Qed.

Lemma iat_G : forall z, isAlwaysTrue (Atom (var x) LTE (Lit z)) = Ok false.
Proof. reflexivity. Qed.

Lemma res_G : resolve (single aG) [single aS] = Ok false.
Proof. reflexivity. Qed.

Lemma sub_U : forall e, e = idx \/ e = nidx -> subst f false (aU e) [single aS] = Ok aG.
Proof.
  intros e HE. unfold subst, atoms. cbn [map first single substLoop]. change (arith_eqb (ar aS) EQ) with true.
  replace (conflicts (aU e) aS) with false.
  2:{ symmetry. unfold conflicts, aU, aS. cbn [lexpr ar expr arith_eqb andb]. rewrite andb_false_r. cbn [orb].
      apply orb_false_iff. split; [|reflexivity]. unfold tooDeep. apply Nat.leb_gt. cbn [lexpr expr].
      destruct HE as [-> | ->]; unfold nidx; destruct (k =? 0); simpl; lia. }
  cbn [andb negb]. unfold adjust. rewrite andb_false_r. cbn [obind].
  unfold atom_replace, aU, aS. cbn [lexpr ar expr]. rewrite rep_side_un, Nat.eqb_refl. cbn [unop_eqb andb].
  rewrite rep_un by (destruct HE as [-> | ->]; unfold nidx; destruct (k =? 0); repeat constructor).
  exact (cs_lit_idx e HE _).
Qed.

Lemma sub_G : subst f false aG [single aS] = Ok aG.
Proof. reflexivity. Qed.

Lemma same_GU : sameAtom aG (aU nidx) = false.
Proof. reflexivity. Qed.
Lemma same_UU : sameAtom (aU nidx) (aU nidx) = true.
Proof. unfold sameAtom. rewrite !similar_refl. reflexivity. Qed.
Lemma same_GG : sameAtom aG aG = true.
Proof. unfold sameAtom. rewrite !similar_refl. reflexivity. Qed.

Lemma do_U : doResolve f (aU idx) [single aS] = Ok (Some [aG; aG]).
Proof.
  unfold doResolve. rewrite (res_U idx) by auto. cbn [obind]. rewrite (sub_U idx) by auto. cbn [obind].
  rewrite res_G. cbn [obind]. unfold ineqSubstitute. change (arith_eqb (ar (aU idx)) GTE) with true. cbv iota.
  change (ineq_loop (aU idx) (atoms [single aS])) with (aU idx).
  change f with (S (S (S (9 + f0))))%nat at 1. rewrite (cs_idx idx) by auto. cbn [obind].
  rewrite (res_U nidx) by auto. cbn [obind]. unfold strongSubstitute. change (arith_eqb (ar (aU nidx)) GTE) with true. cbv iota.
  change (strong_loop (aU nidx) (atoms [single aS])) with (aU nidx).
  change f with (S (S (S (9 + f0))))%nat at 1. rewrite (cs_idx nidx) by auto. cbn [obind].
  rewrite (res_U nidx) by auto. cbn [obind]. unfold unsoundSubstitute. change (arith_eqb (ar (aU nidx)) GTE) with true. cbv iota.
  change (unsound_loop (aU nidx) (atoms [single aS])) with (aU nidx).
  change f with (S (S (S (9 + f0))))%nat at 1. rewrite (cs_idx nidx) by auto. cbn [obind].
  rewrite (res_U nidx) by auto. cbn [obind]. rewrite same_GU, (sub_U nidx) by auto. cbn [obind].
  rewrite same_UU. reflexivity.
Qed.

Lemma do_G : forall p, resolve (single aG) p = Ok false -> subst f false aG p = Ok aG ->
  doResolve f aG p = Ok (Some [aG]).
Proof.
  intros p R1 S1. unfold doResolve. rewrite R1. cbn [obind]. rewrite S1. cbn [obind]. rewrite R1. cbn [obind].
  unfold ineqSubstitute. change (arith_eqb (ar aG) GTE) with false. cbv iota. cbn [obind]. rewrite R1. cbn [obind].
  unfold strongSubstitute. change (arith_eqb (ar aG) GTE) with false. cbv iota. cbn [obind]. rewrite R1. cbn [obind].
  unfold unsoundSubstitute. change (arith_eqb (ar aG) GTE) with false. cbv iota. cbn [obind]. rewrite R1. cbn [obind].
  rewrite same_GG. reflexivity.
Qed.

Definition cG : constr := Constr aG [aG].

Lemma refl_G : forall p, p <> nil -> resolve (single aG) p = Ok false -> subst f false aG p = Ok aG ->
  reflect f [cG] p = Ok [cG].
Proof.
  intros p NP R1 S1. unfold reflect. cbn [reflectInto]. unfold doResolveOr. destruct p as [|d p]; [congruence|].
  cbn [first ors cG resolveAlts]. rewrite (do_G (d :: p) R1 S1). reflexivity.
Qed.

(** the guard *)
Lemma res_guard : resolve (single aG) [single ag] = Ok (n - 1 <=? s - k).
Proof.
  cbn [resolve]. unfold satisfies. cbn [first single]. unfold aG at 1. rewrite iat_G. cbn [obind aG ag lexpr expr ar].
  rewrite similar_refl. unfold rangeCheck. cbn [canResolve negb]. unfold rangeTail. cbn [expr_value Lit term_value].
  change (similar (Lit (s - k)) (Lit (n - 1))) with (s - k =? n - 1).
  destruct (s - k =? n - 1) eqn:E.
  - cbn [obind]. replace (n - 1 <=? s - k) with true by lia. reflexivity.
  - cbn [obind]. destruct (n - 1 <=? s - k); reflexivity.
Qed.

Lemma sub_guard : subst f false aG [single ag] = Ok aG.
Proof. reflexivity. Qed.

Lemma refl_guard : reflect f [cG] [single ag] = Ok (if n - 1 <=? s - k then nil else [cG]).
Proof.
  pose proof res_guard as R1. destruct (n - 1 <=? s - k).
  - unfold reflect. cbn [reflectInto]. unfold doResolveOr. cbn [first ors cG resolveAlts].
    unfold doResolve at 1. rewrite R1. reflexivity.
  - apply refl_G; [discriminate | exact R1 | exact sub_guard].
Qed.

Local Notation guarded := (guardedStore x a n k).

Variable size : nat -> Z.
Hypothesis HS : size a - 1 = s.

Lemma fixed_a : fixedArrays size [a] = Ok [single aS].
Proof. unfold fixedArrays, sizeAtom, aS. cbn [map]. rewrite HS, wrap32_id by lia. reflexivity. Qed.

Lemma refl_store : reflect f [single (aU idx)] [single aS] = Ok [cG].
Proof.
  unfold reflect. cbn [reflectInto]. unfold doResolveOr. cbn [first ors single resolveAlts].
  rewrite do_U. reflexivity.
Qed.

Lemma guard_result : checkFunction f size guarded =
  Ok (if n + k <=? size a then nil else [Msg aG false]).
Proof.
  assert (L : gen f size (SIf (TCmp RLt (IVar x) (INum n)) (SStore a (IAdd (IVar x) (INum k)))) =
              Ok (Info (if n - 1 <=? s - k then nil else [cG]) nil)).
  { cbn [gen]. cbn [obind arrays]. unfold withSizes. rewrite fixed_a. cbn [obind reqs ens].
    unfold writeSafe. cbn [mkExpr]. rewrite wrap32_id by lia.
    change (Atom (Unary MAXSET (arr a)) GTE (Binary PLUS (var x) (Lit k))) with (aU idx).
    rewrite refl_store. cbn [obind mayEscape]. unfold doIf, trueEns, cmpAtom. cbn [mkExpr].
    rewrite (wrap32_id n) by lia. change f with (S (S (S (9 + f0))))%nat at 1. rewrite cs_guard. cbn [obind reqs].
    rewrite refl_guard. cbn [obind]. destruct (n - 1 <=? s - k); reflexivity. }
  unfold checkFunction, guardedStore. rewrite gen_block, goL_cons. rewrite L. cbn [obind goL].
  assert (W : forall i, reqs i = (if n - 1 <=? s - k then nil else [cG]) ->
     withSizes f size (flat_map arrays [SIf (TCmp RLt (IVar x) (INum n)) (SStore a (IAdd (IVar x) (INum k)))]) i =
     Ok (Info (if n - 1 <=? s - k then nil else [cG]) (ens i))).
  { intros i E. unfold withSizes. cbn [flat_map arrays app]. rewrite fixed_a. cbn [obind]. rewrite E.
    destruct (n - 1 <=? s - k); [reflexivity|].
    rewrite refl_G by (try discriminate; try exact res_G; exact sub_G). reflexivity. }
  rewrite (W (Info (if n - 1 <=? s - k then nil else [cG]) nil) eq_refl). cbn [obind ens].
  rewrite (W (Info (if n - 1 <=? s - k then nil else [cG]) nil) eq_refl). cbn [obind reqs].
  replace (n + k <=? size a) with (n - 1 <=? s - k) by lia. destruct (n - 1 <=? s - k); reflexivity.
Qed.

Lemma guard_exact : checkFunction f size guarded = Ok nil <->
  (forall s0 tr s1 fin, runs guarded s0 tr s1 fin -> Forall (not_beyond size) tr).
Proof.
  rewrite guard_result. split.
  - intros H s0 tr s1 fin HR. assert (K : n + k <= size a) by (destruct (n + k <=? size a) eqn:E; [lia|discriminate]).
    unfold guardedStore in HR. inversion HR as [|? ? ? ? ? H1|? ? ? ? ? ? ? ? H1 H2]; subst.
    + inversion H1 as [| | | | |? ? ? ? ? ? HT HB|? ? ? HF| | | | | ]; subst. inversion HB.
    + inversion H2; subst. rewrite app_nil_r.
      inversion H1 as [| | | | |? ? ? ? ? ? HT HB|? ? ? HF| | | | | ]; subst; [|constructor].
      inversion HB; subst. constructor; [|constructor]. unfold not_beyond. simpl in *. lia.
  - intros H. destruct (n + k <=? size a) eqn:E; [reflexivity|]. exfalso.
    specialize (H (fun _ => n - 1) [(a, n - 1 + k)] (fun _ => n - 1) true).
    assert (K : Forall (not_beyond size) [(a, n - 1 + k)]).
    { apply H. unfold guardedStore. change [(a, n - 1 + k)] with ([(a, n - 1 + k)] ++ nil).
      eapply RCons; [|apply RNil]. apply RIfT; [simpl; lia|].
      exact (RStore a (IAdd (IVar x) (INum k)) (fun _ => n - 1)). }
    inversion K as [|? ? K1 _]; subst. unfold not_beyond in K1. simpl in K1. lia.
Qed.
End G.
