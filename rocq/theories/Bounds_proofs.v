(** * Proofs about the checking of buffer accesses of function bodies *)
From Coq Require Import ZArith List Bool Lia ZifyBool Arith.
From Verif Require Import Cbase Constr_model Constr_proofs Bounds_model Bounds_spec.
Import ListNotations.
Local Open Scope Z_scope.

Lemma obind_ok : forall A B (x : out A) (g : A -> out B) b,
  obind x g = Ok b -> exists a, x = Ok a /\ g a = Ok b.
Proof. intros A B [a| |] g b H; try discriminate. exists a. auto. Qed.

Ltac ob H a E := apply obind_ok in H; destruct H as (a & E & H).

(** ** Chains *)

Local Arguments vname : simpl never.
Local Arguments aname : simpl never.

Inductive chain : cexpr -> Prop :=
| ChLit : forall z, chain (Lit z)
| ChVar : forall x, chain (var x)
| ChBin : forall op e z, chain e -> chain (Binary op e (Lit z)).

Inductive side : cexpr -> Prop :=
| SdC : forall e, chain e -> side e
| SdU : forall u a, u = MAXSET \/ u = MAXREAD -> side (Unary u (arr a)).

Lemma chain_simple : forall e, chain e -> Constr_proofs.simple e.
Proof. induction 1; simpl; auto. Qed.

Lemma side_simple : forall e, side e -> Constr_proofs.simple e.
Proof. destruct 1; [apply chain_simple; auto | simpl; auto]. Qed.

Lemma sim_eq : forall a b, side a -> side b -> similar a b = true -> a = b.
Proof. intros a b Ha Hb. apply similar_eq; apply side_simple; auto. Qed.

Lemma vname_inj : forall x y, vname x = vname y -> x = y.
Proof. unfold vname. intros. lia. Qed.

Lemma var_arr : forall x a, similar (arr a) (var x) = false.
Proof.
  intros. change (Nat.eqb (aname a) (vname x) = false). apply Nat.eqb_neq. unfold aname, vname. lia.
Qed.

Section S.
Variable sz : nat -> Z.

Fixpoint mu (e : cexpr) : Z :=
  match e with
  | Term (TLit z) => Z.abs z
  | Term _ => 0
  | Unary _ (Term (TName n)) => Z.abs (sz (Nat.div2 n) - 1)
  | Unary _ _ => 0
  | Binary _ l r => mu l + mu r
  end.
Definition mA (a : atom) : Z := mu (lexpr a) + mu (expr a).

Lemma mu_nonneg : forall e, 0 <= mu e.
Proof.
  induction e as [t|u a IH|op l IHl r IHr]; simpl; try lia.
  - destruct t; lia.
  - destruct a as [t| |]; try lia. destruct t; lia.
Qed.

Lemma mA_nonneg : forall a, 0 <= mA a.
Proof. intros a. unfold mA. pose proof (mu_nonneg (lexpr a)). pose proof (mu_nonneg (expr a)). lia. Qed.

Lemma mu_unary : forall u a, mu (Unary u (arr a)) = Z.abs (sz a - 1).
Proof. intros. unfold arr, aname, mu. rewrite Nat.div2_succ_double. reflexivity. Qed.

Fixpoint vin (x : nat) (e : cexpr) : bool :=
  match e with
  | Term (TName n) => Nat.eqb n (vname x)
  | Term _ => false
  | Unary _ a => vin x a
  | Binary _ l r => vin x l || vin x r
  end.

Lemma vin_var : forall x y, vin x (var y) = Nat.eqb y x.
Proof.
  intros. change (Nat.eqb (vname y) (vname x) = Nat.eqb y x). unfold vname.
  destruct (Nat.eqb_spec y x) as [->|N].
  - apply Nat.eqb_refl.
  - apply Nat.eqb_neq. lia.
Qed.

(** normal forms *)
Inductive nform : cexpr -> Prop :=
| NfLit : forall z, nform (Lit z)
| NfVar : forall x, nform (var x)
| NfSum : forall x k, nform (Binary PLUS (var x) (Lit k)).

Lemma nform_chain : forall e, nform e -> chain e.
Proof. destruct 1; repeat constructor. Qed.

Lemma simplify_var : forall f x, simplify (S f) (var x) = Ok (var x).
Proof. reflexivity. Qed.
Lemma simplify_lit' : forall f z, simplify (S f) (Lit z) = Ok (Lit z).
Proof. reflexivity. Qed.
Lemma simplify_unary_arr : forall f u a, u = MAXSET \/ u = MAXREAD ->
  simplify (S (S f)) (Unary u (arr a)) = Ok (Unary u (arr a)).
Proof. intros f u a [-> | ->]; reflexivity. Qed.

Lemma abs_zop : forall op a b, Z.abs (zop op a b) <= Z.abs a + Z.abs b.
Proof. intros [] a b; simpl; lia. Qed.

(** propagate on a normal form with a number added *)
Lemma prop_nf : forall op l z, nform l -> mu l + Z.abs z < 2147483648 ->
  propagate (Binary op l (Lit z)) =
  match l with
  | Term (TLit a) => Ok (Lit (zop op a z), false, 0)
  | Binary _ b (Term (TLit k)) => Ok (b, true, zop op k z)
  | b => Ok (b, true, zop op 0 z)
  end.
Proof.
  intros op l z N M. pose proof (abs_zop op) as Z0. destruct N as [a|x|x k]; simpl in M.
  - cbn. unfold as_int. replace (in_int (zop op 0 0)) with true by (destruct op; reflexivity).
    cbn. rewrite as_long_ok by (specialize (Z0 a z); lia). destruct op; reflexivity.
  - cbn. unfold as_int. replace (in_int (zop op 0 0)) with true by (destruct op; reflexivity).
    cbn. replace (zop op 0 0) with 0 by (destruct op; reflexivity).
    rewrite (ipl_ok op 0 z (Z.abs z)) by lia. reflexivity.
  - assert (P : propagate (Binary PLUS (var x) (Lit k)) = Ok (var x, true, k)).
    { cbn. rewrite (ipl_ok PLUS 0 k (Z.abs k)) by lia. reflexivity. }
    change (propagate (Binary op (Binary PLUS (var x) (Lit k)) (Lit z)))
      with (obind (propagate (Binary PLUS (var x) (Lit k))) (fun x1 =>
            obind (Ok (Lit z, false, 0)) (fun x2 =>
            prop_node op (node_op (removeZero (Binary op (Binary PLUS (var x) (Lit k)) (Lit z))) op) x1 x2))).
    rewrite P. cbn [obind]. unfold prop_node. cbn [removeZero var Lit].
    replace (zop op k 0) with k by (destruct op; simpl; lia).
    rewrite as_int_ok by lia. cbn [obind is_lit var Lit andb lit_val].
    rewrite (ipl_ok op k z (Z.abs k + Z.abs z)) by lia. reflexivity.
Qed.

Section Val.
Variable st : state.

Fixpoint ev (e : cexpr) : Z :=
  match e with
  | Term (TLit z) => z
  | Term (TName n) => st (Nat.div2 n)
  | Term _ => 0
  | Unary _ (Term (TName n)) => sz (Nat.div2 n) - 1
  | Unary _ _ => 0
  | Binary op l r => zop op (ev l) (ev r)
  end.

Lemma ev_var : forall x, ev (var x) = st x.
Proof. intros. unfold var, vname, ev. rewrite Nat.div2_double. reflexivity. Qed.
Lemma ev_unary : forall u a, ev (Unary u (arr a)) = sz a - 1.
Proof. intros. unfold arr, aname, ev. rewrite Nat.div2_succ_double. reflexivity. Qed.

Definition cmp (r : arith) (x y : Z) : Prop :=
  match r with LT => x < y | LTE => x <= y | GT => x > y | GTE => x >= y | EQ => x = y end.
Definition tr (a : atom) : Prop := cmp (ar a) (ev (lexpr a)) (ev (expr a)).

(** propagate on chains *)
Lemma prop_chain : forall e, chain e -> mu e < 2147483648 ->
  exists b p k, propagate e = Ok (b, p, k) /\ ev e = ev b + k /\ mu b + Z.abs k <= mu e /\
    ((exists z, b = Lit z /\ p = false /\ k = 0) \/ ((exists x, b = var x) /\ (p = false -> k = 0))).
Proof.
  induction 1 as [z|x|op e z C IH]; intros M.
  - exists (Lit z), false, 0. refine (conj eq_refl (conj _ (conj _ (or_introl _)))); simpl; try lia.
    exists z. auto.
  - exists (var x), false, 0. refine (conj eq_refl (conj _ (conj _ (or_intror _)))); simpl; try lia.
    split; [exists x|]; auto.
  - simpl in M. destruct IH as (b & p & k & P & E & B & [(y & -> & -> & ->)|((x & ->) & K)]); [lia| |].
    + exists (Lit (zop op y z)), false, 0. simpl in E, B. refine (conj _ (conj _ (conj _ (or_introl _)))).
      * change (propagate (Binary op e (Lit z))) with
          (obind (propagate e) (fun x1 => obind (Ok (Lit z, false, 0)) (fun x2 =>
            prop_node op (node_op (removeZero (Binary op e (Lit z))) op) x1 x2))).
        rewrite P. cbn [obind]. unfold prop_node. cbn [removeZero Lit].
        replace (zop op 0 0) with 0 by (destruct op; reflexivity).
        rewrite as_int_ok by (simpl; lia). cbn [obind is_lit andb lit_val Lit].
        pose proof (abs_zop op y z). rewrite as_long_ok by lia. reflexivity.
      * simpl. rewrite E. destruct op; simpl; lia.
      * simpl. pose proof (abs_zop op y z). lia.
      * eauto.
    + exists (var x), true, (zop op k z). simpl in B.
      refine (conj _ (conj _ (conj _ (or_intror _)))).
      * change (propagate (Binary op e (Lit z))) with
          (obind (propagate e) (fun x1 => obind (Ok (Lit z, false, 0)) (fun x2 =>
            prop_node op (node_op (removeZero (Binary op e (Lit z))) op) x1 x2))).
        rewrite P. cbn [obind]. unfold prop_node. cbn [removeZero Lit var].
        replace (zop op k 0) with k by (destruct op; simpl; lia).
        rewrite as_int_ok by lia. cbn [obind is_lit andb lit_val var Lit].
        rewrite (ipl_ok op k z (Z.abs k + Z.abs z)) by lia. reflexivity.
      * change (ev (Binary op e (Lit z))) with (zop op (ev e) z). rewrite E. destruct op; cbn [zop]; lia.
      * simpl. pose proof (abs_zop op k z). lia.
      * split; [exists x; auto | discriminate].
Qed.

Definition sub (r e : cexpr) : Prop := forall x, vin x r = true -> vin x e = true.

Lemma simp_chain : forall f e r, chain e -> mu e < 2147483648 -> simplify f e = Ok r ->
  nform r /\ ev r = ev e /\ mu r <= mu e /\ sub r e.
Proof.
  induction f as [|f IH]; intros e r C M H; [discriminate|].
  destruct C as [z|x|op e z C].
  - rewrite simplify_lit' in H. inversion H; subst. refine (conj _ (conj _ (conj _ _))); try constructor; try lia.
    intros x. auto.
  - rewrite simplify_var in H. inversion H; subst. refine (conj _ (conj _ (conj _ _))); try constructor; try lia.
    intros y. auto.
  - simpl in M. rewrite simplify_S in H. ob H e1 E1. cbn [children] in E1. ob E1 l' L. ob E1 r' R.
    destruct f as [|f]; [discriminate|]. rewrite simplify_lit' in R. inversion R; subst r'; clear R.
    inversion E1; subst e1; clear E1.
    destruct (IH e l' C) as (N & V & MM & SB); [lia | exact L |].
    unfold step2 in H. ob H e2 E2. ob H e3 E3. unfold combineConstants in E2.
    rewrite prop_nf in E2 by (auto; lia).
    destruct N as [a|x|x k].
    + cbn in E2. inversion E2; subst e2. cbn in E3. inversion E3; subst e3. cbn in H. inversion H; subst r.
      refine (conj _ (conj _ (conj _ _))).
      * constructor.
      * simpl. simpl in V. congruence.
      * simpl in *. pose proof (abs_zop op a z). lia.
      * intros y Y. discriminate.
    + cbn [obind var] in E2. destruct (true && negb (zop op 0 z =? 0)) eqn:K.
      * inversion E2; subst e2. cbn [children] in E3. change (Term (TName (vname x))) with (var x) in E3.
        rewrite simplify_var, simplify_lit' in E3. cbn [obind] in E3. inversion E3; subst e3.
        cbn in H. inversion H; subst r. refine (conj _ (conj _ (conj _ _))).
        -- constructor.
        -- change (ev (Binary op e (Lit z))) with (zop op (ev e) z). rewrite <- V.
           cbn [ev Lit]. generalize (ev (var x)). intros w.
           destruct op; cbn [zop]; lia.
        -- simpl in *. pose proof (abs_zop op 0 z). lia.
        -- intros y Y. simpl in *. rewrite orb_false_r in *. apply SB. exact Y.
      * inversion E2; subst e2. cbn in E3. inversion E3; subst e3. cbn in H. inversion H; subst r.
        refine (conj _ (conj _ (conj _ _))).
        -- constructor.
        -- change (ev (Binary op e (Lit z))) with (zop op (ev e) z). rewrite <- V.
           change (Term (TName (vname x))) with (var x). generalize (ev (var x)). intros w.
           destruct op; cbn [zop] in *; lia.
        -- simpl in *. lia.
        -- intros y Y. simpl in *. rewrite orb_false_r in *. apply SB. exact Y.
    + cbn [obind var Lit] in E2. destruct (true && negb (zop op k z =? 0)) eqn:K.
      * inversion E2; subst e2. cbn [children] in E3. change (Term (TName (vname x))) with (var x) in E3.
        rewrite simplify_var, simplify_lit' in E3. cbn [obind] in E3. inversion E3; subst e3.
        cbn in H. inversion H; subst r. refine (conj _ (conj _ (conj _ _))).
        -- constructor.
        -- change (ev (Binary op e (Lit z))) with (zop op (ev e) z). rewrite <- V.
           change (ev (Binary PLUS (var x) (Lit k))) with (ev (var x) + k). cbn [ev Lit]. generalize (ev (var x)). intros w.
           destruct op; cbn [zop]; lia.
        -- simpl in *. pose proof (abs_zop op k z). lia.
        -- intros y Y. simpl in *. rewrite orb_false_r in *. apply SB. simpl. rewrite ?orb_false_r. exact Y.
      * inversion E2; subst e2. cbn in E3. inversion E3; subst e3. cbn in H. inversion H; subst r.
        refine (conj _ (conj _ (conj _ _))).
        -- constructor.
        -- change (ev (Binary op e (Lit z))) with (zop op (ev e) z). rewrite <- V.
           change (Term (TName (vname x))) with (var x). change (ev (Binary PLUS (var x) (Lit k))) with (ev (var x) + k). generalize (ev (var x)). intros w.
           clear - K. destruct op; cbn [zop] in *; lia.
        -- simpl in *. lia.
        -- intros y Y. simpl in *. rewrite orb_false_r in *. apply SB. simpl. rewrite ?orb_false_r. exact Y.
Qed.

(** ** Atoms *)

Definition okA (a : atom) : Prop :=
  side (lexpr a) /\ chain (expr a) /\ (ar a = GTE \/ ar a = LTE \/ ar a = EQ).
Definition subA (a b : atom) : Prop :=
  forall x, vin x (lexpr a) || vin x (expr a) = true -> vin x (lexpr b) || vin x (expr b) = true.

Lemma subA_refl : forall a, subA a a.
Proof. intros a x H. exact H. Qed.
Lemma subA_trans : forall a b c, subA a b -> subA b c -> subA a c.
Proof. intros a b c H K x X. auto. Qed.

Lemma side_simp : forall f e r, side e -> mu e < 2147483648 -> simplify f e = Ok r ->
  side r /\ ev r = ev e /\ mu r <= mu e /\ sub r e /\
  ((exists u a, r = Unary u (arr a) /\ e = r) \/ (nform r /\ chain e)).
Proof.
  intros f e r [e' C|u a U] M H.
  - destruct (simp_chain f e' r C M H) as (N & V & MM & SB).
    refine (conj (SdC _ (nform_chain _ N)) (conj V (conj MM (conj SB (or_intror (conj N C)))))).
  - destruct f as [|[|f]].
    + discriminate.
    + cbn in H. discriminate.
    + rewrite simplify_unary_arr in H by exact U. inversion H; subst r.
      refine (conj (SdU _ _ U) (conj eq_refl (conj _ (conj _ (or_introl _))))).
      * lia.
      * intros x. auto.
      * exists u, a. auto.
Qed.

Lemma cmp_flip : forall r x y, cmp (flipAr r) y x <-> cmp r x y.
Proof. intros [] x y; simpl; lia. Qed.

Lemma csimp : forall f a a', okA a -> mA a < 2147483648 -> c_simplify f a = Ok a' ->
  okA a' /\ (tr a' <-> tr a) /\ mA a' <= mA a /\ subA a' a /\
  ((exists u b, lexpr a = Unary u (arr b)) \/ (exists x, lexpr a = var x) ->
   lexpr a' = lexpr a /\ ar a' = ar a).
Proof.
  induction f as [|f IH]; intros a a' (SL & CE & AR) M H; [discriminate|].
  cbn [c_simplify] in H. destruct (tooDeep a) eqn:TD.
  { inversion H; subst a'. refine (conj (conj SL (conj CE AR)) (conj (iff_refl _) (conj _ (conj (subA_refl _) _)))); [lia|auto]. }
  ob H l1 L1. ob H r1 R1. unfold mA in *.
  pose proof (mu_nonneg (lexpr a)) as P1. pose proof (mu_nonneg (expr a)) as P2.
  destruct (simp_chain f (expr a) r1 CE) as (NR & VR & MR & SR); [lia | exact R1 |].
  destruct (side_simp f (lexpr a) l1 SL) as (SL1 & VL & ML & SBL & [(u & b & -> & EL)|(NL & CL)]); [lia | exact L1 | |].
  - cbn [obind is_lit arr andb lexpr] in H. inversion H; subst a'; clear H. cbn [lexpr ar expr].
    refine (conj _ (conj _ (conj _ (conj _ _)))).
    + split; [exact SL1|]. split; [apply nform_chain; exact NR | exact AR].
    + unfold tr. cbn [lexpr ar expr]. rewrite VL, VR. tauto.
    + lia.
    + intros x X. cbn [lexpr expr] in X. apply orb_prop in X. apply orb_true_iff. destruct X as [X|X]; [left; apply SBL; exact X | right; apply SR; exact X].
    + intros _. split; [symmetry; symmetry in EL; symmetry; exact EL | reflexivity].
  - assert (SA : subA (Atom l1 (ar a) r1) a).
    { intros x X. cbn [lexpr expr] in X. apply orb_prop in X. apply orb_true_iff. destruct X as [X|X]; [left; apply SBL; exact X | right; apply SR; exact X]. }
    destruct NL as [z|x|x k].
    + cbn [obind lexpr Lit is_lit expr] in H. destruct (true && negb (is_lit r1)) eqn:SW.
      * destruct (IH (swapLR (Atom (Lit z) (ar a) r1)) a') as (O & T & MM & SS & KK).
        { split; [apply SdC; apply nform_chain; exact NR|]. split; [constructor|].
          cbn. destruct AR as [-> |[-> | ->]]; simpl; auto. }
        { unfold swapLR. cbn [lexpr expr]. pose proof (mu_nonneg r1). simpl in ML. simpl. lia. }
        { exact H. }
        refine (conj O (conj _ (conj _ (conj _ _)))).
        -- rewrite T. unfold tr, swapLR. cbn [lexpr ar expr]. rewrite cmp_flip.
           rewrite <- VL, <- VR. tauto.
        -- unfold swapLR in MM. cbn [lexpr expr] in MM. lia.
        -- apply (subA_trans _ _ _ SS). intros y Y. unfold swapLR in Y. cbn [lexpr expr] in Y.
           rewrite orb_comm in Y. apply SA. exact Y.
        -- intros [(u & b & E)|(y & E)].
           ++ rewrite E in CL. inversion CL.
           ++ rewrite E in L1. destruct f as [|f]; [discriminate|]. rewrite simplify_var in L1. discriminate.
      * inversion H; subst a'. cbn [lexpr ar expr]. refine (conj _ (conj _ (conj _ (conj SA _)))).
        -- split; [exact SL1|]. split; [apply nform_chain; exact NR | exact AR].
        -- unfold tr. cbn [lexpr ar expr]. fold (Lit z). rewrite VL, VR. tauto.
        -- simpl in ML. simpl. lia.
        -- intros [(u & b & E)|(y & E)].
           ++ rewrite E in CL. inversion CL.
           ++ rewrite E in L1. destruct f as [|f]; [discriminate|]. rewrite simplify_var in L1. discriminate.
    + cbn [obind lexpr var is_lit andb] in H. inversion H; subst a'. cbn [lexpr ar expr].
      refine (conj _ (conj _ (conj _ (conj SA _)))).
      * split; [exact SL1|]. split; [apply nform_chain; exact NR | exact AR].
      * unfold tr. cbn [lexpr ar expr]. fold (var x). rewrite VL, VR. tauto.
      * simpl in ML. simpl. lia.
      * intros [(u & b & E)|(y & E)].
        -- rewrite E in CL. inversion CL.
        -- rewrite E in L1. destruct f as [|f]; [discriminate|]. rewrite simplify_var in L1. split; [|reflexivity]. rewrite E. injection L1 as L1. unfold var. rewrite L1. reflexivity.
    + ob H c3 C3. unfold solve in C3. cbn [lexpr ar expr] in C3. ob C3 l2 L2. ob C3 r2 R2.
      destruct f as [|f]; [discriminate|]. change (Term (TName (vname x))) with (var x) in L2.
      rewrite simplify_var in L2. inversion L2; subst l2. inversion C3; subst c3; clear C3 L2.
      cbn [lexpr is_lit var andb] in H. inversion H; subst a'; clear H. cbn [lexpr ar expr].
      simpl in ML. pose proof (mu_nonneg r1).
      destruct (simp_chain (S f) (Binary MINUS r1 (Lit k)) r2) as (N2 & V2 & M2 & S2).
      { constructor. apply nform_chain. exact NR. }
      { simpl. lia. }
      { exact R2. }
      refine (conj _ (conj _ (conj _ (conj _ _)))).
      * split; [apply SdC; constructor|]. split; [apply nform_chain; exact N2 | exact AR].
      * unfold tr. cbn [lexpr ar expr]. rewrite V2, <- VL, <- VR. cbn [ev].
        change (Term (TName (vname x))) with (var x). rewrite ev_var.
        cbn [zop Lit]. destruct (ar a); simpl; lia.
      * simpl in M2. simpl. lia.
      * intros y Y. apply SA. cbn [lexpr expr] in *. apply orb_prop in Y. apply orb_true_iff.
        destruct Y as [Y|Y].
        -- left. simpl. simpl in Y. rewrite Y. reflexivity.
        -- right. apply S2 in Y. simpl in Y. rewrite orb_false_r in Y. exact Y.
      * intros [(u & b & E)|(y & E)].
        -- rewrite E in CL. inversion CL.
        -- rewrite E in L1. rewrite simplify_var in L1. discriminate.
Qed.

(** ** Always true and satisfies *)

Lemma iat_sound : forall a, okA a -> mA a < 2147483648 -> isAlwaysTrue a = Ok true -> tr a.
Proof.
  intros a (SL & CE & AR) M H. unfold isAlwaysTrue in H. ob H b B.
  assert (B0 : b = false).
  { unfold sizeOfMaxSet in B. destruct (ar a); try (inversion B; reflexivity);
      (destruct (lexpr a) as [|u e|]; try (inversion B; reflexivity); destruct u; try (inversion B; reflexivity));
      (destruct CE as [z|x|op e' z C]; cbn in B; try (inversion B; reflexivity));
      (destruct (z =? _); [|inversion B; reflexivity]);
      (unfold sizeofBufComp in B; destruct e; destruct C; cbn in B; try discriminate B; inversion B; reflexivity). }
  subst b. unfold mA in M. pose proof (mu_nonneg (lexpr a)) as P1.
  assert (REST : (if similar (lexpr a) (expr a) && match ar a with EQ | GTE | LTE => true | _ => false end
      then Ok true
      else obind (propagate (expr a)) (fun x => let '(r, p, k) := x in
        if similar (lexpr a) r && p then Ok (cmpZ (ar a) 0 k) else Ok false)) = Ok true -> tr a).
  { clear H. intros H. destruct (similar (lexpr a) (expr a) && _) eqn:E1.
    - apply andb_prop in E1 as [E1 E2]. apply sim_eq in E1; [|exact SL|apply SdC; exact CE].
      unfold tr. rewrite E1. destruct AR as [-> |[-> | ->]]; simpl; lia.
    - destruct (prop_chain (expr a) CE) as (b & p & k & P & V & MM & SH); [lia|].
      rewrite P in H. cbn [obind] in H. destruct (similar (lexpr a) b && p) eqn:E2; [|discriminate].
      apply andb_prop in E2 as [E2 ->]. assert (SB : side b).
      { destruct SH as [(z & -> & _)|((x & ->) & _)]; apply SdC; constructor. }
      apply sim_eq in E2; [|exact SL|exact SB]. unfold tr. rewrite V, E2.
      injection H as K. generalize (ev b). intros w. clear - K. destruct (ar a); cbn [cmpZ] in K; cbn [cmp]; lia. }
  destruct (expr_value (lexpr a)) as [v|] eqn:E1; [|exact (REST H)].
  destruct (expr_value (expr a)) as [w|] eqn:E2; [|exact (REST H)].
  unfold tr. destruct SL as [e C|]; [|discriminate].
  destruct C as [z|x|op e' z C]; try discriminate. inversion E1; subst v.
  destruct CE as [z'|x|op e' z' C]; try discriminate. inversion E2; subst w.
  injection H as K. cbn [ev Lit]. clear - K. destruct (ar a); cbn [cmpZ] in K; cbn [cmp]; lia.
Qed.

(** For two numbers the answer is exact. *)
Lemma iat_lit : forall p r q, isAlwaysTrue (Atom (Lit p) r (Lit q)) = Ok (cmpZ r p q).
Proof. intros p [] q; reflexivity. Qed.

Lemma cmpZ_cmp : forall r x y, cmpZ r x y = true <-> cmp r x y.
Proof. intros [] x y; simpl; lia. Qed.

Lemma satisfies_sound : forall c d, okA (first c) -> mA (first c) < 2147483648 ->
  okA (first d) -> mA (first d) < 2147483648 ->
  satisfies c d = Ok true -> tr (first d) -> tr (first c).
Proof.
  intros [a oa] [d od] OA MA OD MD H T. cbn [first] in *. unfold satisfies in H. cbn [first] in H.
  ob H b B. destruct b; [apply iat_sound; assumption|].
  destruct OA as (SL & CE & AR), OD as (SL' & CE' & AR'). unfold mA in *.
  pose proof (mu_nonneg (lexpr a)) as P1. pose proof (mu_nonneg (lexpr d)) as P2.
  destruct (similar (lexpr a) (lexpr d)) eqn:E1; [|discriminate].
  apply sim_eq in E1; [|exact SL|exact SL']. unfold tr in *. rewrite E1. unfold rangeCheck in H.
  destruct (canResolve (ar a) (ar d)) eqn:CR; [|discriminate]. cbn [negb] in H.
  assert (RT : forall up, rangeTail up (expr a) (expr d) = Ok true ->
    if up then ev (expr a) <= ev (expr d) else ev (expr d) <= ev (expr a)).
  { clear H. intros up H. unfold rangeTail in H.
    assert (REST : obind (propagate (expr a)) (fun x1 => obind (propagate (expr d)) (fun x2 =>
      let '(a1, p1, k1) := x1 in let '(a2, p2, k2) := x2 in
      let c1 := if p1 then k1 else 0 in let c2 := if p2 then k2 else 0 in
      Ok ((p1 || p2) && (if up then c1 <=? c2 else c2 <=? c1) && similar a1 a2))) = Ok true ->
      if up then ev (expr a) <= ev (expr d) else ev (expr d) <= ev (expr a)).
    { clear H. intros H.
      destruct (prop_chain (expr a) CE) as (b1 & p1 & k1 & Q1 & V1 & M1 & S1); [lia|].
      destruct (prop_chain (expr d) CE') as (b2 & p2 & k2 & Q2 & V2 & M2 & S2); [lia|].
      rewrite Q1, Q2 in H. cbn [obind] in H. injection H as H.
      apply andb_prop in H as [H H3]. apply andb_prop in H as [_ H2].
      assert (SB1 : side b1) by (destruct S1 as [(z & -> & _)|((x & ->) & _)]; apply SdC; constructor).
      assert (SB2 : side b2) by (destruct S2 as [(z & -> & _)|((x & ->) & _)]; apply SdC; constructor).
      apply sim_eq in H3; [|exact SB1|exact SB2].
      assert (K1 : (if p1 then k1 else 0) = k1).
      { destruct p1; auto. destruct S1 as [(z & _ & _ & ->)|(_ & K)]; auto. symmetry; auto. }
      assert (K2 : (if p2 then k2 else 0) = k2).
      { destruct p2; auto. destruct S2 as [(z & _ & _ & ->)|(_ & K)]; auto. symmetry; auto. }
      rewrite K1, K2 in H2. rewrite V1, V2, H3. clear - H2. destruct up; lia. }
    destruct (expr_value (expr a)) as [v|] eqn:X1; [|exact (REST H)].
    destruct (expr_value (expr d)) as [w|] eqn:X2; [|exact (REST H)].
    destruct CE as [z|x|op e' z C]; try discriminate. inversion X1; subst v.
    destruct CE' as [z'|x|op e' z' C]; try discriminate. inversion X2; subst w.
    injection H as H. simpl. destruct up; clear - H; lia. }
  assert (SE : similar (expr a) (expr d) = true -> ev (expr a) = ev (expr d)).
  { intros E. apply sim_eq in E; [|apply SdC; exact CE|apply SdC; exact CE']. congruence. }
  destruct AR as [AR|[AR|AR]]; rewrite AR in *.
  - assert (LE : ev (expr a) <= ev (expr d)).
    { destruct (similar (expr a) (expr d)); [rewrite SE by reflexivity; lia | exact (RT true H)]. }
    destruct (ar d); try discriminate; simpl in *; lia.
  - assert (LE : ev (expr d) <= ev (expr a)).
    { destruct (similar (expr a) (expr d)); [rewrite SE by reflexivity; lia | exact (RT false H)]. }
    destruct (ar d); try discriminate; simpl in *; lia.
  - injection H as H. apply SE in H. destruct (ar d); try discriminate; simpl in *; lia.
Qed.

(** ** Lists of constraints *)

Definition fit (c : constr) : Prop := okA (first c) /\ mA (first c) < 2147483648.
Definition allT (l : list constr) : Prop := Forall (fun c => tr (first c)) l.

Fixpoint sumE (l : list constr) : Z :=
  match l with nil => 0 | c :: r => mA (first c) + sumE r end.

Lemma sumE_nonneg : forall l, 0 <= sumE l.
Proof. induction l; simpl; [lia|]. pose proof (mA_nonneg (first a)). lia. Qed.
Lemma sumE_app : forall a b, sumE (a ++ b) = sumE a + sumE b.
Proof. induction a; intros; simpl; [lia|]. rewrite IHa. lia. Qed.

Lemma allT_app : forall a b, allT (a ++ b) <-> allT a /\ allT b.
Proof. intros. apply Forall_app. Qed.

Lemma resolve_sound : forall p c, fit c -> Forall fit p -> resolve c p = Ok true ->
  allT p -> tr (first c).
Proof.
  induction p as [|d p IH]; intros c F FP H T; [discriminate|].
  inversion FP as [|? ? Fd Fp]; subst. inversion T as [|? ? Td Tp]; subst.
  cbn [resolve] in H. ob H b B. destruct b.
  - destruct F, Fd. exact (satisfies_sound c d H0 H1 H2 H3 B Td).
  - exact (IH c F Fp H Tp).
Qed.

Lemma add_cases : forall s el s', list_add s el = Ok s' ->
  (s' = s /\ resolve el s = Ok true) \/ s' = s ++ [el].
Proof.
  intros s el s' H. unfold list_add in H. ob H b B. destruct b; inversion H; subst; auto.
Qed.

Lemma add_Forall : forall (P : constr -> Prop) s el s', list_add s el = Ok s' ->
  Forall P s -> P el -> Forall P s'.
Proof.
  intros P s el s' H F E. destruct (add_cases _ _ _ H) as [(-> & _)| ->]; auto.
  apply Forall_app. auto.
Qed.

Lemma add_sum : forall s el s', list_add s el = Ok s' -> sumE s' <= sumE s + mA (first el).
Proof.
  intros s el s' H. pose proof (mA_nonneg (first el)).
  destruct (add_cases _ _ _ H) as [(-> & _)| ->]; [lia|]. rewrite sumE_app. simpl. lia.
Qed.

Lemma add_truth : forall s el s', list_add s el = Ok s' -> Forall fit s -> fit el ->
  (allT s' <-> allT s /\ tr (first el)).
Proof.
  intros s el s' H F E. destruct (add_cases _ _ _ H) as [(-> & R)| ->].
  - split; [|tauto]. intros T. split; auto. apply (resolve_sound s); auto.
  - rewrite allT_app. split; intros [A B]; split; auto.
    + inversion B; auto.
    + constructor; auto.
Qed.

Lemma addAll_Forall : forall (P : constr -> Prop) news s s', list_addAll s news = Ok s' ->
  Forall P s -> Forall P news -> Forall P s'.
Proof.
  intros P. induction news as [|el r IH]; intros s s' H F G; [inversion H; subst; auto|].
  inversion G; subst. cbn [list_addAll] in H. ob H s1 S1.
  apply (IH s1); auto. apply (add_Forall P s el); auto.
Qed.

Lemma addAll_sum : forall news s s', list_addAll s news = Ok s' -> sumE s' <= sumE s + sumE news.
Proof.
  induction news as [|el r IH]; intros s s' H; [inversion H; subst; simpl; lia|].
  cbn [list_addAll] in H. ob H s1 S1. apply IH in H. apply add_sum in S1. simpl. lia.
Qed.

Lemma addAll_truth : forall news s s', list_addAll s news = Ok s' -> Forall fit s -> Forall fit news ->
  (allT s' <-> allT s /\ allT news).
Proof.
  induction news as [|el r IH]; intros s s' H F G.
  - inversion H; subst. split; [intros; split; auto; constructor | tauto].
  - inversion G; subst. cbn [list_addAll] in H. ob H s1 S1.
    rewrite (IH s1 s' H); auto.
    + rewrite (add_truth s el s1 S1) by auto. split.
      * intros [[A B] C]. split; auto. constructor; auto.
      * intros [A B]. inversion B; subst. auto.
    + apply (add_Forall fit s el); auto.
Qed.

Lemma subsume_Forall : forall (P : constr -> Prop) l1 l2 ret r, subsumeEnsures l1 l2 ret = Ok r ->
  Forall P ret -> Forall P l1 -> Forall P r.
Proof.
  intros P. induction l1 as [|el l1 IH]; intros l2 ret r H F G; [inversion H; subst; auto|].
  inversion G; subst. cbn [subsumeEnsures] in H. ob H b B. destruct b; [apply (IH l2 ret); auto|].
  ob H ret' A. apply (IH l2 ret'); auto. apply (add_Forall P ret el); auto.
Qed.

Lemma subsume_sum : forall l1 l2 ret r, subsumeEnsures l1 l2 ret = Ok r -> sumE r <= sumE ret + sumE l1.
Proof.
  induction l1 as [|el l1 IH]; intros l2 ret r H; [inversion H; subst; simpl; lia|].
  cbn [subsumeEnsures] in H. ob H b B. simpl. pose proof (mA_nonneg (first el)).
  destruct b; [apply IH in H; lia|]. ob H ret' A. apply IH in H. apply add_sum in A. lia.
Qed.

Lemma known_Forall : forall (P : constr -> Prop) l1 l2 r, mergeKnown l1 l2 = Ok r ->
  Forall P l1 -> Forall P l2 -> Forall P r.
Proof.
  intros P l1 l2 r H F G. unfold mergeKnown in H. ob H a A. ob H t B.
  apply (subsume_Forall P) in A; auto. apply (subsume_Forall P) in B; auto.
  apply (addAll_Forall P) in H; auto.
Qed.

Lemma known_sum : forall l1 l2 r, mergeKnown l1 l2 = Ok r -> sumE r <= sumE l1 + sumE l2.
Proof.
  intros l1 l2 r H. unfold mergeKnown in H. ob H a A. ob H t B.
  apply subsume_sum in A. apply subsume_sum in B. apply addAll_sum in H. simpl in *. lia.
Qed.

(** ** Replacing *)

Lemma rep_var : forall x new e, chain new -> chain e ->
  chain (replace e (var x) new) /\ mu (replace e (var x) new) <= mu e + mu new /\
  (ev new = st x -> ev (replace e (var x) new) = ev e) /\
  (vin x e = false -> replace e (var x) new = e) /\
  (forall y, vin y (replace e (var x) new) = true -> vin y e = true \/ vin y new = true).
Proof.
  intros x new e N C. pose proof (mu_nonneg new) as P. induction C as [z|y|op e z C IH].
  - change (replace (Lit z) (var x) new) with (Lit z).
    refine (conj _ (conj _ (conj _ (conj _ _)))); auto; [constructor | lia].
  - assert (E : replace (var y) (var x) new = if Nat.eqb y x then new else var y).
    { change (replace (var y) (var x) new) with (if Nat.eqb (vname y) (vname x) then new else var y).
      destruct (Nat.eqb_spec y x) as [->|D]; [rewrite Nat.eqb_refl; reflexivity|].
      replace (Nat.eqb (vname y) (vname x)) with false; auto. symmetry. apply Nat.eqb_neq.
      intros K. apply vname_inj in K. auto. }
    rewrite E. pose proof (vin_var x y) as VV. destruct (Nat.eqb_spec y x) as [->|D].
    + refine (conj N (conj _ (conj _ (conj _ _)))).
      * simpl. lia.
      * intros K. rewrite ev_var. exact K.
      * intros K. congruence.
      * auto.
    + refine (conj (ChVar y) (conj _ (conj _ (conj _ _)))); auto; lia.
  - destruct IH as (I1 & I2 & I3 & I4 & I5).
    change (replace (Binary op e (Lit z)) (var x) new) with (Binary op (replace e (var x) new) (Lit z)).
    refine (conj _ (conj _ (conj _ (conj _ _)))).
    + constructor. exact I1.
    + simpl. lia.
    + intros K. cbn [ev]. rewrite I3 by exact K. reflexivity.
    + intros K. simpl in K. rewrite orb_false_r in K. rewrite I4 by exact K. reflexivity.
    + intros y K. simpl in K. rewrite orb_false_r in K. apply I5 in K. simpl. rewrite orb_false_r. exact K.
Qed.

Lemma rep_un : forall u b new e, chain e -> replace e (Unary u b) new = e.
Proof. induction 1 as [z|y|op e z C IH]; try reflexivity. simpl. rewrite IH. reflexivity. Qed.

Lemma rep_side_var : forall u a x new, replace (Unary u (arr a)) (var x) new = Unary u (arr a).
Proof.
  intros. change (replace (Unary u (arr a)) (var x) new)
    with (Unary u (if similar (arr a) (var x) then new else arr a)).
  rewrite var_arr. reflexivity.
Qed.

Lemma rep_side_un : forall u a b n,
  replace (Unary u (arr a)) (Unary MAXSET (arr b)) (Lit n) =
  if unop_eqb u MAXSET && Nat.eqb a b then Lit n else Unary u (arr a).
Proof.
  intros u a b n. change (replace (Unary u (arr a)) (Unary MAXSET (arr b)) (Lit n))
    with (if unop_eqb u MAXSET && Nat.eqb (aname a) (aname b) then Lit n else Unary u (arr a)).
  replace (Nat.eqb (aname a) (aname b)) with (Nat.eqb a b); [reflexivity|].
  destruct (Nat.eqb_spec a b) as [->|D]; [symmetry; apply Nat.eqb_refl|].
  symmetry. apply Nat.eqb_neq. unfold aname. lia.
Qed.

(** ** Facts used to rewrite *)

Definition varFact (a : atom) : Prop := ar a = EQ /\ (exists x, lexpr a = var x) /\ tr a.
Definition sizeFact (a : atom) : Prop :=
  ar a = EQ /\ exists b, lexpr a = Unary MAXSET (arr b) /\ expr a = Lit (sz b - 1).
Definition fact (U : bool) (c : constr) : Prop :=
  fit c /\ (ar (first c) = GTE \/ varFact (first c) \/ (U = false /\ sizeFact (first c))).

Definition inc1 (a : atom) : Z :=
  match ar a, lexpr a with EQ, Term _ => 2 * mu (expr a) | _, _ => 0 end.
Fixpoint inc (p : list constr) : Z :=
  match p with nil => 0 | c :: r => inc1 (first c) + inc r end.

Lemma inc1_nonneg : forall a, 0 <= inc1 a.
Proof.
  intros a. unfold inc1. pose proof (mu_nonneg (expr a)). destruct (ar a); try lia.
  destruct (lexpr a); lia.
Qed.
Lemma inc_nonneg : forall p, 0 <= inc p.
Proof. induction p; simpl; [lia|]. pose proof (inc1_nonneg (first a)). lia. Qed.
Lemma inc_sum : forall p, inc p <= 2 * sumE p.
Proof.
  induction p as [|c p IH]; cbn [inc sumE]; [lia|]. unfold inc1, mA.
  pose proof (mu_nonneg (lexpr (first c))). pose proof (mu_nonneg (expr (first c))).
  destruct (ar (first c)); try lia. destruct (lexpr (first c)); lia.
Qed.

Lemma fact_fit : forall U p, Forall (fact U) p -> Forall fit p.
Proof. intros U p. apply Forall_impl. intros c [H _]. exact H. Qed.

Definition isU (a : atom) : Prop := ar a = GTE /\ exists u b, lexpr a = Unary u (arr b).

Lemma replace_fact : forall U c el, okA c -> fact U el -> ar (first el) = EQ ->
  let c' := atom_replace c (lexpr (first el)) (expr (first el)) in
  okA c' /\ (tr c' <-> tr c) /\ mA c' <= mA c + inc1 (first el) /\ (U = true -> isU c -> isU c').
Proof.
  intros U c [el oe] (SL & CE & AR) [[(SE & CEl & _) Fm] K] EQA. cbn [first] in *. cbn zeta.
  destruct K as [K|[(_ & (x & X) & T)|(HU & _ & (b & X & Y))]]; [congruence| |].
  - assert (T' : ev (expr el) = st x).
    { unfold tr in T. rewrite EQA, X, ev_var in T. simpl in T. auto. }
    rewrite X. destruct (rep_var x (expr el) (expr c) CEl CE) as (A1 & A2 & A3 & _ & _).
    assert (I : inc1 el = 2 * mu (expr el)) by (unfold inc1; rewrite EQA, X; reflexivity).
    rewrite I. pose proof (mu_nonneg (expr el)).
    assert (LL : side (replace (lexpr c) (var x) (expr el)) /\
                 ev (replace (lexpr c) (var x) (expr el)) = ev (lexpr c) /\
                 mu (replace (lexpr c) (var x) (expr el)) <= mu (lexpr c) + mu (expr el)).
    { destruct SL as [e C|u a HU].
      - destruct (rep_var x (expr el) e CEl C) as (B1 & B2 & B3 & _ & _).
        split; [apply SdC; exact B1|]. split; [apply B3; exact T' | exact B2].
      - rewrite rep_side_var. split; [apply SdU; exact HU|]. split; [reflexivity|lia]. }
    destruct LL as (L1 & L2 & L3). unfold atom_replace.
    refine (conj (conj L1 (conj A1 AR)) (conj _ (conj _ _))).
    + unfold tr. cbn [lexpr ar expr]. rewrite L2, A3 by exact T'. tauto.
    + unfold mA. cbn [lexpr expr]. lia.
    + intros _ (U1 & u & b & U2). split; [exact U1|]. exists u, b. cbn [lexpr].
      rewrite U2. apply rep_side_var.
  - rewrite X, Y. assert (I : inc1 el = 0) by (unfold inc1; rewrite EQA, X; reflexivity). rewrite I.
    unfold atom_replace. rewrite (rep_un _ _ _ (expr c) CE).
    assert (LL : side (replace (lexpr c) (Unary MAXSET (arr b)) (Lit (sz b - 1))) /\
                 ev (replace (lexpr c) (Unary MAXSET (arr b)) (Lit (sz b - 1))) = ev (lexpr c) /\
                 mu (replace (lexpr c) (Unary MAXSET (arr b)) (Lit (sz b - 1))) <= mu (lexpr c)).
    { destruct SL as [e C|u a HU'].
      - rewrite (rep_un _ _ _ e C). split; [apply SdC; exact C|]. split; [reflexivity|lia].
      - rewrite rep_side_un. destruct (unop_eqb u MAXSET && Nat.eqb a b) eqn:E.
        + apply andb_prop in E as [_ E]. apply Nat.eqb_eq in E. subst a.
          split; [apply SdC; constructor|]. split; [rewrite ev_unary; reflexivity|].
          rewrite mu_unary. simpl. lia.
        + split; [apply SdU; exact HU'|]. split; [reflexivity|lia]. }
    destruct LL as (L1 & L2 & L3).
    refine (conj (conj L1 (conj CE AR)) (conj _ (conj _ _))).
    + unfold tr. cbn [lexpr ar expr]. rewrite L2. tauto.
    + unfold mA. cbn [lexpr expr]. lia.
    + congruence.
Qed.

Lemma arith_eqb_eq : forall a b, arith_eqb a b = true <-> a = b.
Proof. intros [] []; simpl; split; congruence. Qed.

Lemma substLoop_spec : forall U f p c c', okA c -> Forall (fact U) p ->
  substLoop f false c (atoms p) = Ok c' ->
  okA c' /\ (tr c' <-> tr c) /\ mA c' <= mA c + inc p /\ (U = true -> isU c -> isU c').
Proof.
  intros U f. induction p as [|el p IH]; intros c c' O F H.
  - inversion H; subst. refine (conj O (conj (iff_refl _) (conj _ _))); auto. simpl. lia.
  - inversion F as [|? ? Fe Fp]; subst. cbn [atoms map substLoop] in H. fold (atoms p) in H. simpl inc.
    pose proof (inc1_nonneg (first el)) as I1.
    destruct (arith_eqb (ar (first el)) EQ && negb (conflicts c (first el))) eqn:E.
    + apply andb_prop in E as [E _]. apply arith_eqb_eq in E.
      unfold adjust in H. rewrite andb_false_r in H. cbn [obind] in H.
      destruct (replace_fact U c el O Fe E) as (R1 & R2 & R3 & R4).
      destruct (IH _ _ R1 Fp H) as (S1 & S2 & S3 & S4).
      refine (conj S1 (conj _ (conj _ _))).
      * rewrite S2. exact R2.
      * lia.
      * auto.
    + destruct (IH _ _ O Fp H) as (S1 & S2 & S3 & S4).
      refine (conj S1 (conj S2 (conj _ S4))). lia.
Qed.

Lemma csimp_isU : forall f a a', okA a -> mA a < 2147483648 -> c_simplify f a = Ok a' -> isU a -> isU a'.
Proof.
  intros f a a' O M H (U1 & u & b & U2). destruct (csimp f a a' O M H) as (_ & _ & _ & _ & K).
  destruct K as [K1 K2]; [left; eauto|]. split; [congruence|]. exists u, b. congruence.
Qed.

Definition good (N : Z) (U : bool) (T : Prop) (a : atom) : Prop :=
  okA a /\ mA a <= N /\ (tr a <-> T) /\ (U = true -> isU a).

Lemma good_csimp : forall N U T f a a', good N U T a -> N < 2147483648 ->
  c_simplify f a = Ok a' -> good N U T a'.
Proof.
  intros N U T f a a' (O & M & E & I) B H.
  destruct (csimp f a a' O) as (O' & E' & M' & _ & _); [lia|exact H|].
  refine (conj O' (conj _ (conj _ _))); [lia|rewrite E'; exact E|].
  intros HU. apply (csimp_isU f a); auto. lia.
Qed.

Lemma good_subst : forall N U T f p a a', good N U T a -> Forall (fact U) p -> N + inc p < 2147483648 ->
  subst f false a p = Ok a' -> good (N + inc p) U T a'.
Proof.
  intros N U T f p a a' (O & M & E & I) F B H. unfold subst in H. ob H c C.
  destruct (substLoop_spec U f p a c O F C) as (O' & E' & M' & I').
  apply (good_csimp _ U T f c); auto. refine (conj O' (conj _ (conj _ _))); [lia|rewrite E'; exact E|auto].
Qed.

Lemma fact_noineq : forall U p, Forall (fact U) p -> Forall (fun a => ar a = GTE \/ ar a = EQ) (atoms p).
Proof.
  intros U p F. unfold atoms. apply Forall_map. revert F. apply Forall_impl.
  intros c [_ [H|[(H & _)|(_ & H & _)]]]; auto.
Qed.

Lemma ineq_id : forall p c, Forall (fun a => ar a = GTE \/ ar a = EQ) p -> ineq_loop c p = c.
Proof.
  induction p as [|a p IH]; intros c F; auto. inversion F as [|? ? Fa Fp]; subst. cbn [ineq_loop].
  destruct Fa as [-> | ->]; cbn [arith_eqb andb]; auto.
Qed.
Lemma strong_id : forall p c, Forall (fun a => ar a = GTE \/ ar a = EQ) p -> strong_loop c p = c.
Proof.
  induction p as [|a p IH]; intros c F; auto. inversion F as [|? ? Fa Fp]; subst. cbn [strong_loop].
  destruct Fa as [-> | ->]; cbn [arith_eqb andb orb]; auto.
Qed.
Lemma unsound_id : forall p c, Forall (fun a => ar a = GTE \/ ar a = EQ) p -> unsound_loop c p = c.
Proof.
  induction p as [|a p IH]; intros c F; auto. inversion F as [|? ? Fa Fp]; subst. cbn [unsound_loop].
  destruct Fa as [-> | ->]; cbn [arith_eqb andb orb]; auto.
Qed.

Lemma good_fit : forall N U T a, good N U T a -> N < 2147483648 -> fit (single a).
Proof. intros N U T a (O & M & _ & _) B. split; [exact O|]. simpl. lia. Qed.

Lemma good_mono : forall N N' U T a, N <= N' -> good N U T a -> good N' U T a.
Proof. intros N N' U T a H (O & M & E & I). refine (conj O (conj _ (conj E I))). lia. Qed.

Lemma doResolve_spec : forall N U T f p a o, good N U T a -> Forall (fact U) p ->
  N + inc p < 2147483648 -> doResolve f a p = Ok o ->
  match o with
  | None => allT p -> T
  | Some k => k <> nil /\ Forall (good (N + inc p) U T) k
  end.
Proof.
  intros N U T f p a o G F B H. pose proof (inc_nonneg p) as IN.
  pose proof (fact_fit U p F) as FF. pose proof (fact_noineq U p F) as NI.
  assert (RS : forall N' b, good N' U T b -> N' < 2147483648 -> resolve (single b) p = Ok true -> allT p -> T).
  { intros N' b Gb Nb R A. pose proof (resolve_sound p (single b) (good_fit _ _ _ _ Gb Nb) FF R A) as K.
    destruct Gb as (_ & _ & E & _). apply E. exact K. }
  unfold doResolve in H. ob H b0 B0. destruct b0.
  { inversion H; subst. apply (RS N a); auto. lia. }
  ob H t TT. pose proof (good_subst N U T f p a t G F B TT) as Gt.
  ob H b1 B1. destruct b1.
  { inversion H; subst. apply (RS _ t Gt); auto. }
  ob H t2 T2. assert (G2 : good N U T t2).
  { unfold ineqSubstitute in T2. rewrite (ineq_id _ a NI) in T2.
    destruct (arith_eqb (ar a) GTE); [apply (good_csimp N U T f a); auto; lia | inversion T2; subst; auto]. }
  ob H b2 B2. destruct b2.
  { inversion H; subst. apply (RS N t2); auto. lia. }
  ob H t3 T3. assert (G3 : good N U T t3).
  { unfold strongSubstitute in T3. rewrite (strong_id _ t2 NI) in T3.
    destruct (arith_eqb (ar t2) GTE); [apply (good_csimp N U T f t2); auto; lia | inversion T3; subst; auto]. }
  ob H b3 B3. destruct b3.
  { inversion H; subst. apply (RS N t3); auto. lia. }
  ob H u UU. assert (Gu : good N U T u).
  { unfold unsoundSubstitute in UU. rewrite (unsound_id _ t2 NI) in UU.
    destruct (arith_eqb (ar t2) GTE); [apply (good_csimp N U T f t2); auto; lia | inversion UU; subst; auto]. }
  ob H b4 B4. destruct b4.
  { inversion H; subst. apply (RS N u); auto. lia. }
  ob H o1 O1. ob H o2 O2. inversion H; subst o. split; [discriminate|].
  assert (F1 : Forall (good (N + inc p) U T) o1).
  { destruct (sameAtom t u); [inversion O1; constructor|]. ob O1 s SS. inversion O1.
    constructor; [|constructor]. apply (good_subst N U T f p u); auto. }
  assert (F2 : Forall (good (N + inc p) U T) o2).
  { destruct (negb (sameAtom t t3) && negb (sameAtom t3 u)); [|inversion O2; constructor]. ob O2 s SS. inversion O2.
    constructor; [|constructor]. apply (good_subst N U T f p t3); auto. }
  constructor; auto. apply Forall_app. auto.
Qed.

Lemma resolveAlts_spec : forall N U T f p, Forall (fact U) p -> N + inc p < 2147483648 ->
  forall l o, Forall (good N U T) l -> resolveAlts f l p = Ok o ->
  match o with
  | None => allT p -> T
  | Some k => (l <> nil -> k <> nil) /\ Forall (good (N + inc p) U T) k
  end.
Proof.
  intros N U T f p F B. induction l as [|a l IH]; intros o G H.
  - inversion H; subst. split; [congruence|constructor].
  - inversion G as [|? ? Ga Gl]; subst. cbn [resolveAlts] in H. ob H o1 O1.
    pose proof (doResolve_spec N U T f p a o1 Ga F B O1) as D. destruct o1 as [k|].
    + ob H o2 O2. pose proof (IH o2 Gl O2) as D2. inversion H; subst o. destruct o2 as [k'|]; [|exact D2].
      destruct D as [D1 D3], D2 as [_ D4]. split.
      * intros _ E. apply D1. destruct k; [reflexivity|discriminate].
      * apply Forall_app. auto.
    + inversion H; subst o. exact D.
Qed.

Definition R (N : Z) (U : bool) (c : constr) : Prop := Forall (good N U (tr (first c))) (first c :: ors c).

Lemma R_fit : forall N U c, R N U c -> N < 2147483648 -> fit c.
Proof. intros N U c H B. inversion H as [|? ? (O & M & _ & _) _]; subst. split; [exact O|lia]. Qed.

Lemma R_fits : forall N U l, Forall (R N U) l -> N < 2147483648 -> Forall fit l.
Proof. intros N U l H B. revert H. apply Forall_impl. intros c H. apply (R_fit N U); auto. Qed.

Lemma R_mono : forall N N' U c, N <= N' -> R N U c -> R N' U c.
Proof. intros N N' U c H. apply Forall_impl. intros a. apply good_mono. exact H. Qed.

Lemma doResolveOr_spec : forall N U f p c o, R N U c -> Forall (fact U) p -> N + inc p < 2147483648 ->
  doResolveOr f c p = Ok o ->
  match o with
  | None => allT p -> tr (first c)
  | Some c' => R (N + inc p) U c' /\ (tr (first c') <-> tr (first c))
  end.
Proof.
  intros N U f p c o G F B H. unfold doResolveOr in H. destruct p as [|d p].
  - inversion H; subst. split; [|tauto]. apply (R_mono N); auto. simpl. lia.
  - ob H o1 O1. pose proof (resolveAlts_spec N U (tr (first c)) f (d :: p) F B _ o1 G O1) as D.
    destruct o1 as [[|a r]|].
    + destruct D as [D _]. exfalso. apply D; [discriminate|reflexivity].
    + inversion H; subst o. destruct D as [_ D]. inversion D as [|? ? Da Dr]; subst.
      assert (E : tr a <-> tr (first c)) by (destruct Da as (_ & _ & E & _); exact E).
      split; [|exact E]. unfold R. cbn [first ors].
      revert D. apply Forall_impl. intros b (O & M & E' & I). refine (conj O (conj M (conj _ I))).
      rewrite E'. symmetry. exact E.
    + inversion H; subst o. exact D.
Qed.

Lemma reflectInto_spec : forall M N U f p, Forall (fact U) p -> M + inc p <= N -> N < 2147483648 ->
  forall pre ret r, Forall (R M U) pre -> Forall (R N U) ret -> reflectInto f ret pre p = Ok r ->
  Forall (R N U) r /\ (allT r -> allT ret) /\ (allT p -> allT r -> allT pre) /\
  (allT ret -> allT pre -> allT r).
Proof.
  intros M N U f p F B B2. induction pre as [|c pre IH]; intros ret r G Gr H.
  - inversion H; subst. refine (conj Gr (conj _ (conj _ _))); auto. intros. constructor.
  - inversion G as [|? ? Gc Gp]; subst. cbn [reflectInto] in H. ob H o OO.
    pose proof (doResolveOr_spec M U f p c o Gc F ltac:(lia) OO) as D. destruct o as [c'|].
    + destruct D as [D E]. apply (R_mono _ N) in D; [|exact B]. ob H ret' A.
      assert (Gr' : Forall (R N U) ret') by (apply (add_Forall _ ret c'); auto).
      pose proof (add_truth ret c' ret' A (R_fits _ _ _ Gr B2) (R_fit _ _ _ D B2)) as AT.
      destruct (IH ret' r Gp Gr' H) as (I1 & I2 & I3 & I4).
      refine (conj I1 (conj _ (conj _ _))).
      * intros T. apply I2 in T. apply AT in T. tauto.
      * intros P T. constructor; [|exact (I3 P T)]. apply I2 in T. apply AT in T. apply E. tauto.
      * intros T1 T2. inversion T2; subst. apply I4; auto. apply AT. split; auto. apply E. auto.
    + destruct (IH ret r Gp Gr H) as (I1 & I2 & I3 & I4).
      refine (conj I1 (conj I2 (conj _ _))).
      * intros P T. constructor; [exact (D P) | exact (I3 P T)].
      * intros T1 T2. inversion T2; subst. auto.
Qed.

Lemma reflect_spec : forall M N U f p pre r, Forall (fact U) p -> M + inc p <= N -> N < 2147483648 ->
  Forall (R M U) pre -> reflect f pre p = Ok r ->
  Forall (R N U) r /\ (allT p -> allT r -> allT pre) /\ (allT pre -> allT r).
Proof.
  intros M N U f p pre r F B B2 G H.
  destruct (reflectInto_spec M N U f p F B B2 pre nil r G (Forall_nil _) H) as (I1 & _ & I3 & I4).
  refine (conj I1 (conj I3 _)). intros T. apply I4; auto. constructor.
Qed.

(** Requirements as facts. *)
Lemma reqs_facts : forall N l, N < 2147483648 -> Forall (R N true) l ->
  Forall (fact true) l /\ inc l = 0.
Proof.
  intros N l B. induction 1 as [|c l Hc Hl IH]; [split; [constructor|reflexivity]|].
  destruct IH as [I1 I2]. pose proof (R_fit _ _ _ Hc B) as Fc.
  inversion Hc as [|? ? (_ & _ & _ & U) _]; subst. destruct (U eq_refl) as [U1 _].
  split.
  - constructor; auto. split; auto.
  - simpl. rewrite I2. unfold inc1. rewrite U1. reflexivity.
Qed.

Lemma mergeRequires_spec : forall N f l1 l2 r, N < 2147483648 ->
  Forall (R N true) l1 -> Forall (R N true) l2 -> mergeRequires f l1 l2 = Ok r ->
  Forall (R N true) r /\ (allT r <-> allT l1 /\ allT l2).
Proof.
  intros N f l1 l2 r B G1 G2 H. unfold mergeRequires in H. ob H temp T. ob H ret SS.
  destruct (reqs_facts N l2 B G2) as [F2 I2].
  destruct (reflect_spec N N true f l2 l1 temp F2 ltac:(lia) B G1 T) as (A1 & A2 & A3).
  destruct (reqs_facts N temp B A1) as [Ft It].
  destruct (reflect_spec N N true f temp l2 ret Ft ltac:(lia) B G2 SS) as (C1 & C2 & C3).
  pose proof (addAll_truth temp ret r H (R_fits _ _ _ C1 B) (R_fits _ _ _ A1 B)) as TT.
  split; [apply (addAll_Forall _ temp ret); auto|].
  rewrite TT. split.
  - intros [X Y]. assert (allT l2) by auto. auto.
  - intros [X Y]. auto.
Qed.

(** ** What is ensured *)

Definition eqEns (a : atom) : Prop :=
  ar a = EQ /\ exists x, lexpr a = var x /\ vin x (expr a) = false.
Definition readEns (a : atom) : Prop := ar a = GTE /\ exists b, lexpr a = Unary MAXREAD (arr b).
Definition over (V : list nat) (a : atom) : Prop :=
  forall x, vin x (lexpr a) || vin x (expr a) = true -> In x V.
Definition ens1 (V : list nat) (c : constr) : Prop :=
  ors c = nil /\ okA (first c) /\ over V (first c) /\
  ((eqEns (first c) /\ tr (first c)) \/ readEns (first c)).
Definition new1 (V V' : list nat) (c : constr) : Prop :=
  ens1 V' c /\ (forall x, ar (first c) = EQ -> lexpr (first c) = var x -> ~ In x V).

Lemma ens_shape : forall a, eqEns a \/ readEns a ->
  (exists u b, lexpr a = Unary u (arr b)) \/ (exists x, lexpr a = var x).
Proof. intros a [(_ & x & H & _)|(_ & b & H)]; [right|left]; eauto. Qed.

Lemma var_inj : forall x y, var x = var y -> x = y.
Proof. intros x y H. injection H as H. apply vname_inj. exact H. Qed.

(** Rewriting the right side and simplifying keeps the shape. *)
Lemma ens_csimp : forall V f a a', okA a -> mA a < 2147483648 -> over V a ->
  (eqEns a /\ tr a) \/ readEns a -> c_simplify f a = Ok a' ->
  okA a' /\ over V a' /\ ((eqEns a' /\ tr a') \/ readEns a') /\ mA a' <= mA a /\
  lexpr a' = lexpr a /\ ar a' = ar a /\ (tr a' <-> tr a).
Proof.
  intros V f a a' HO M OV K H. destruct (csimp f a a' HO M H) as (O' & T' & M' & S' & L').
  assert (SH : eqEns a \/ readEns a) by tauto. destruct (L' (ens_shape a SH)) as [L1 L2].
  refine (conj O' (conj _ (conj _ (conj M' (conj L1 (conj L2 T')))))).
  - intros x X. apply OV. apply S'. exact X.
  - destruct K as [((E1 & x & E2 & E3) & T)|(E1 & b & E2)].
    + left. split; [|apply T'; exact T]. split; [congruence|]. exists x. split; [congruence|].
      destruct (vin x (expr a')) eqn:VX; auto. exfalso.
      (* the variable would occur on the right *)
      assert (Z0 : vin x (expr a) = true); [|congruence].
      revert H. clear T' M' S' L' L1 L2. destruct f as [|f]; [discriminate|]. cbn [c_simplify].
      destruct (tooDeep a); [intros H; inversion H; subst; exact VX|].
      intros H. ob H l1 L1. ob H r1 R1. destruct HO as (SL & CE & AR). unfold mA in M.
      pose proof (mu_nonneg (lexpr a)).
      destruct (simp_chain f (expr a) r1 CE) as (_ & _ & _ & SR); [lia|exact R1|].
      rewrite E2 in L1. destruct f as [|f]; [discriminate|]. rewrite simplify_var in L1. inversion L1; subst l1.
      cbn in H. inversion H; subst a'. cbn [expr] in VX. apply SR. exact VX.
    + right. split; [congruence|]. exists b. congruence.
Qed.

Lemma fixConflict_spec : forall V V' f el c a, ens1 V c -> new1 V V' el -> incl V V' ->
  mA (first el) + mA (first c) < 2147483648 -> fixConflict f (first el) (first c) = Ok a ->
  new1 V V' (Constr a (ors el)) /\ mA a <= mA (first el) + mA (first c) /\
  (tr (first el) -> tr a).
Proof.
  intros V V' f [el oe] [c oc] a (_ & (SC & CC & _) & OV & KC) ((E1 & (SE & CE & AE) & OE & KE) & NE) INC B H.
  cbn [first ors] in *. pose proof (mA_nonneg c) as PC. unfold fixConflict in H.
  destruct (arith_eqb (ar c) EQ) eqn:EC.
  - apply arith_eqb_eq in EC. destruct KC as [((_ & x & X & NX) & TC)|(D & _)]; [|congruence].
    assert (TX : ev (expr c) = st x).
    { unfold tr in TC. rewrite EC, X, ev_var in TC. simpl in TC. auto. }
    rewrite X in H. destruct (rep_var x (expr c) (expr el) CC CE) as (R1 & R2 & R3 & _ & R5).
    set (b := Atom (lexpr el) (ar el) (replace (expr el) (var x) (expr c))) in *.
    assert (OB : okA b) by (refine (conj SE (conj R1 AE))).
    assert (MB : mA b <= mA el + mA c).
    { unfold mA, b. cbn [lexpr expr]. pose proof (mu_nonneg (lexpr c)). lia. }
    assert (TB : tr b <-> tr el).
    { unfold tr, b. cbn [lexpr ar expr]. rewrite R3 by exact TX. tauto. }
    assert (VB : over V' b).
    { intros y Y. unfold b in Y. cbn [lexpr expr] in Y. apply orb_prop in Y. destruct Y as [Y|Y].
      - apply OE. rewrite Y. reflexivity.
      - apply R5 in Y. destruct Y as [Y|Y].
        + apply OE. rewrite Y. apply orb_true_r.
        + apply INC. apply OV. rewrite Y. apply orb_true_r. }
    assert (KB : (eqEns b /\ tr b) \/ readEns b).
    { destruct KE as [((F1 & z & F2 & F3) & F4)|(F1 & k & F2)].
      - left. split; [|apply TB; exact F4]. split; [exact F1|]. exists z. split; [exact F2|].
        unfold b. cbn [expr]. destruct (vin z (replace (expr el) (var x) (expr c))) eqn:VZ; auto.
        apply R5 in VZ. destruct VZ as [VZ|VZ]; [congruence|]. exfalso.
        apply (NE z F1 F2). apply OV. rewrite VZ. apply orb_true_r.
      - right. split; [exact F1|]. exists k. exact F2. }
    destruct (ens_csimp V' f b a OB) as (A1 & A2 & A3 & A4 & A5 & A6 & A7); auto; [lia|].
    refine (conj (conj (conj E1 (conj A1 (conj A2 A3))) _) (conj _ _)).
    + cbn [first]. rewrite A5, A6. exact NE.
    + lia.
    + intros T. apply A7. apply TB. exact T.
  - inversion H; subst a. refine (conj (conj (conj E1 (conj (conj SE (conj CE AE)) (conj OE KE))) NE) (conj _ _)); [lia|auto].
Qed.

Lemma conflictIn_spec : forall V V' f c, ens1 V c -> incl V V' ->
  forall l o, Forall (new1 V V') l -> sumE l + mA (first c) < 2147483648 -> conflictIn f c l = Ok o ->
  match o with
  | None => True
  | Some l' => Forall (new1 V V') l' /\ sumE l' <= sumE l + mA (first c) /\ (allT l -> allT l')
  end.
Proof.
  intros V V' f c HC INC. induction l as [|el l IH]; intros o F B H.
  - inversion H; subst. exact I.
  - inversion F as [|? ? Fe Fl]; subst. cbn [conflictIn] in H. cbn [sumE] in *.
    pose proof (sumE_nonneg l). pose proof (mA_nonneg (first el)).
    destruct (conflicts (first el) (first c)).
    + ob H a A. inversion H; subst o.
      destruct (fixConflict_spec V V' f el c a HC Fe INC) as (A1 & A2 & A3); [lia|exact A|].
      refine (conj _ (conj _ _)).
      * constructor; auto.
      * cbn [sumE first]. lia.
      * intros T. inversion T as [|? ? T1 T2]; subst. constructor; [exact (A3 T1) | exact T2].
    + ob H o1 O1. inversion H; subst o. destruct o1 as [l'|]; [|exact I].
      destruct (IH (Some l') Fl) as (A1 & A2 & A3); [lia|exact O1|].
      refine (conj _ (conj _ _)).
      * constructor; auto.
      * cbn [sumE]. lia.
      * intros T. inversion T as [|? ? T1 T2]; subst. constructor; [exact T1 | exact (A3 T2)].
Qed.

Lemma fixConflicts_spec : forall V V' f, incl V V' -> forall l1 ret l2 ret' l2',
  Forall (ens1 V) l1 -> Forall (ens1 V) ret -> Forall (new1 V V') l2 ->
  sumE l1 + sumE l2 < 2147483648 ->
  fixConflicts f ret l1 l2 = Ok (ret', l2') ->
  Forall (ens1 V) ret' /\ Forall (new1 V V') l2' /\
  sumE ret' + sumE l2' <= sumE ret + sumE l1 + sumE l2 /\
  (allT ret -> allT l1 -> allT l2 -> allT ret' /\ allT l2').
Proof.
  intros V V' f INC. induction l1 as [|c l1 IH]; intros ret l2 ret' l2' F1 Fr F2 B H.
  - inversion H; subst. refine (conj Fr (conj F2 (conj _ _))); [simpl; lia|auto].
  - inversion F1 as [|? ? Fc Fl]; subst. cbn [fixConflicts] in H. cbn [sumE] in *.
    pose proof (sumE_nonneg l1). pose proof (mA_nonneg (first c)). ob H o A.
    pose proof (conflictIn_spec V V' f c Fc INC l2 o F2 ltac:(lia) A) as D. destruct o as [l2n|].
    + destruct D as (D1 & D2 & D3).
      destruct (IH ret l2n ret' l2' Fl Fr D1 ltac:(lia) H) as (I1 & I2 & I3 & I4).
      refine (conj I1 (conj I2 (conj _ _))); [lia|].
      intros T1 T2 T3. inversion T2; subst. auto.
    + ob H retn AR. assert (Fr' : Forall (ens1 V) retn) by (apply (add_Forall _ ret c); auto).
      destruct (IH retn l2 ret' l2' Fl Fr' F2 ltac:(lia) H) as (I1 & I2 & I3 & I4).
      pose proof (add_sum _ _ _ AR).
      refine (conj I1 (conj I2 (conj _ _))); [lia|].
      intros T1 T2 T3. inversion T2; subst. apply I4; auto.
      unfold allT. apply (add_Forall _ ret c); auto.
Qed.

Lemma search_vin : forall x e, chain e -> search e (var x) = vin x e.
Proof.
  induction 1 as [z|y|op e z C IH]; [reflexivity| |].
  - change (search (var y) (var x)) with (Nat.eqb (vname y) (vname x) || false).
    rewrite orb_false_r. reflexivity.
  - change (search (Binary op e (Lit z)) (var x)) with (search e (var x) || (false || false)).
    rewrite IH. simpl. reflexivity.
Qed.

(** Equations about new variables change nothing that was known before. *)
Lemma subst_new : forall V V' f p c, ens1 V c -> Forall (new1 V V') p ->
  substLoop f true (first c) (atoms p) = Ok (first c).
Proof.
  intros V V' f p c HC. induction 1 as [|el p He Hp IH]; [reflexivity|].
  cbn [atoms map substLoop]. fold (atoms p).
  destruct (arith_eqb (ar (first el)) EQ && negb (conflicts (first c) (first el))) eqn:E; [|exact IH].
  apply andb_prop in E as [E _]. apply arith_eqb_eq in E.
  destruct He as ((_ & (_ & CE & _) & OE & KE) & NE).
  destruct KE as [((_ & x & X & NX) & _)|(D & _)]; [|congruence].
  unfold adjust. rewrite X, (search_vin x _ CE), NX. cbn [andb obind].
  assert (Z0 : atom_replace (first c) (lexpr (first el)) (expr (first el)) = first c).
  { destruct HC as (_ & (SC & CC & _) & OC & _). unfold atom_replace. rewrite X.
    assert (NV : vin x (lexpr (first c)) || vin x (expr (first c)) = false).
    { destruct (vin x (lexpr (first c)) || vin x (expr (first c))) eqn:VX; auto.
      exfalso. exact (NE x E X (OC x VX)). }
    apply orb_false_iff in NV as [NV1 NV2].
    destruct (rep_var x (expr (first el)) (expr (first c)) CE CC) as (_ & _ & _ & R4 & _).
    rewrite (R4 NV2). destruct (first c) as [lc rc ec] eqn:FC. cbn [lexpr ar expr] in *.
    f_equal. destruct SC as [e C|u a HU]; [|apply rep_side_var].
    destruct (rep_var x (expr (first el)) e CE C) as (_ & _ & _ & R4' & _). exact (R4' NV1). }
  rewrite Z0. exact IH.
Qed.

Lemma reflectEns_spec : forall V V' f p, Forall (new1 V V') p -> forall pre ret r,
  Forall (ens1 V) pre -> Forall (ens1 V) ret -> sumE pre < 2147483648 ->
  reflectEnsInto f ret pre p = Ok r ->
  Forall (ens1 V) r /\ sumE r <= sumE ret + sumE pre /\ (allT ret -> allT pre -> allT r).
Proof.
  intros V V' f p FP. induction pre as [|c pre IH]; intros ret r F Fr B H.
  - inversion H; subst. refine (conj Fr (conj _ _)); [simpl; lia|auto].
  - inversion F as [|? ? Fc Fl]; subst. cbn [reflectEnsInto] in H. cbn [sumE] in *.
    pose proof (sumE_nonneg pre). pose proof (mA_nonneg (first c)). ob H b Bb.
    assert (SKIP : reflectEnsInto f ret pre p = Ok r ->
      Forall (ens1 V) r /\ sumE r <= sumE ret + (mA (first c) + sumE pre) /\ (allT ret -> allT (c :: pre) -> allT r)).
    { intros K. destruct (IH ret r Fl Fr ltac:(lia) K) as (I1 & I2 & I3).
      refine (conj I1 (conj _ _)); [lia|]. intros T1 T2. inversion T2; subst. auto. }
    destruct b; [exact (SKIP H)|]. ob H t T. ob H b2 B2. destruct b2; [exact (SKIP H)|]. clear SKIP.
    ob H ret' A. unfold subst in T. rewrite (subst_new V V' f p c Fc FP) in T. cbn [obind] in T.
    destruct Fc as (E1 & E2 & E3 & E4).
    destruct (ens_csimp V f (first c) t E2 ltac:(lia) E3 E4 T) as (A1 & A2 & A3 & A4 & A5 & A6 & A7).
    assert (Fn : ens1 V (Constr t (ors c))) by (refine (conj E1 (conj A1 (conj A2 A3)))).
    assert (Fr' : Forall (ens1 V) ret') by (apply (add_Forall _ ret (Constr t (ors c))); auto).
    destruct (IH ret' r Fl Fr' ltac:(lia) H) as (I1 & I2 & I3).
    pose proof (add_sum _ _ _ A) as AS. cbn [first] in AS.
    refine (conj I1 (conj _ _)); [lia|]. intros T1 T2. inversion T2 as [|? ? Tc Tp]; subst. apply I3; auto.
    unfold allT. apply (add_Forall _ ret (Constr t (ors c))); auto. cbn [first]. apply A7. exact Tc.
Qed.

Lemma ens1_mono : forall V V' c, incl V V' -> ens1 V c -> ens1 V' c.
Proof. intros V V' c H (A & B & C & D). refine (conj A (conj B (conj _ D))). intros x X. apply H. apply C. exact X. Qed.

Lemma mergeEnsures_spec : forall V V' f l1 l2 r, incl V V' ->
  Forall (ens1 V) l1 -> Forall (new1 V V') l2 -> sumE l1 + sumE l2 < 2147483648 ->
  mergeEnsures f l1 l2 = Ok r ->
  Forall (ens1 V') r /\ sumE r <= sumE l1 + sumE l2 /\ (allT l1 -> allT l2 -> allT r).
Proof.
  intros V V' f l1 l2 r INC F1 F2 B H. unfold mergeEnsures in H. ob H x X. destruct x as [m n].
  cbn [fst snd] in H. ob H ret RR.
  destruct (fixConflicts_spec V V' f INC l1 nil l2 m n F1 (Forall_nil _) F2 B X) as (A1 & A2 & A3 & A4).
  cbn [sumE] in A3. pose proof (sumE_nonneg n) as PN.
  destruct (reflectEns_spec V V' f n A2 m nil ret A1 (Forall_nil _) ltac:(lia) RR) as (B1 & B2 & B3).
  pose proof (known_sum _ _ _ H). cbn [sumE] in B2.
  refine (conj _ (conj _ _)).
  - apply (known_Forall _ ret n); auto.
    + revert B1. apply Forall_impl. intros c. apply ens1_mono. exact INC.
    + revert A2. apply Forall_impl. intros c [K _]. exact K.
  - lia.
  - intros T1 T2. destruct (A4 (Forall_nil _) T1 T2) as [T3 T4].
    unfold allT. apply (known_Forall _ ret n); auto. apply B3; auto. constructor.
Qed.

Lemma ens_facts : forall V l, Forall (ens1 V) l -> sumE l < 2147483648 -> Forall (fact true) l.
Proof.
  intros V l. induction 1 as [|c l Hc Hl IH]; intros B; [constructor|]. cbn [sumE] in B.
  pose proof (sumE_nonneg l). pose proof (mA_nonneg (first c)). constructor; [|apply IH; lia].
  destruct Hc as (_ & HO & _ & K). split; [split; [exact HO|lia]|].
  destruct K as [((E1 & x & E2 & _) & T)|(E1 & _)]; [right; left|left; exact E1].
  split; [exact E1|]. split; [eauto|exact T].
Qed.

(** ** Statements *)

(** What a list of statements asks for and says, under the final values. *)
Definition inb1 (s : stmt) : Prop :=
  match s with
  | SStore a e | SRead a e => value st e <= sz a - 1
  | _ => True
  end.
Definition inb (l : list stmt) : Prop := Forall inb1 l.
Definition eqn1 (s : stmt) : Prop :=
  match s with SAssign x e => st x = value st e | _ => True end.

Record inv (V : list nat) (W : Z) (P : Prop) (i : info) : Prop := {
  i_reqs : Forall (R (2 * W) true) (reqs i);
  i_ens : Forall (ens1 V) (ens i);
  i_sum : sumE (ens i) <= W;
  i_truth : allT (reqs i) <-> P;
  i_known : P -> allT (ens i) }.

Lemma mk_chain : forall e, simple e -> numbers e < 2147483648 ->
  chain (mkExpr e) /\ mu (mkExpr e) = numbers e /\ ev (mkExpr e) = value st e /\
  (forall x, vin x (mkExpr e) = true <-> In x (varsOf e)).
Proof.
  assert (NN : forall e, 0 <= numbers e) by (induction e; simpl; lia).
  induction e as [z|x|a IHa b _|a IHa b _]; intros S B.
  - simpl in B. cbn [mkExpr]. rewrite wrap32_id by exact B.
    refine (conj (ChLit z) (conj eq_refl (conj eq_refl _))). intros x. simpl. split; [discriminate|tauto].
  - refine (conj (ChVar x) (conj eq_refl (conj (ev_var x) _))). intros y. cbn [mkExpr]. rewrite vin_var. simpl.
    rewrite Nat.eqb_eq. split; [auto|tauto].
  - destruct b as [z| | |]; simpl in S; try contradiction. simpl in B. pose proof (NN a).
    destruct (IHa S) as (C & M & E & VI); [lia|]. cbn [mkExpr]. rewrite wrap32_id by lia.
    refine (conj (ChBin _ _ _ C) (conj _ (conj _ _))).
    + simpl. rewrite M. reflexivity.
    + cbn [ev]. rewrite E. reflexivity.
    + intros x. simpl. rewrite orb_false_r, app_nil_r. apply VI.
  - destruct b as [z| | |]; simpl in S; try contradiction. simpl in B. pose proof (NN a).
    destruct (IHa S) as (C & M & E & VI); [lia|]. cbn [mkExpr]. rewrite wrap32_id by lia.
    refine (conj (ChBin _ _ _ C) (conj _ (conj _ _))).
    + simpl. rewrite M. reflexivity.
    + cbn [ev]. rewrite E. reflexivity.
    + intros x. simpl. rewrite orb_false_r, app_nil_r. apply VI.
Qed.

Definition step_ok (V : list nat) (s : stmt) : Prop :=
  match s with
  | SAssign x e => simple e /\ ~ In x V /\ ~ In x (varsOf e)
  | SStore _ e | SRead _ e => simple e
  | _ => False
  end.

Lemma budget1_nonneg : forall s, 0 <= budget1 sz s.
Proof.
  assert (NN : forall e, 0 <= numbers e) by (induction e; simpl; lia).
  intros [x e|a e|a e| | | | | ]; simpl; try lia; pose proof (NN e); lia.
Qed.

Lemma gen1 : forall f V s i, step_ok V s -> eqn1 s -> 2 * budget1 sz s < 2147483648 -> gen f sz s = Ok i ->
  Forall (R (2 * budget1 sz s) true) (reqs i) /\ Forall (new1 V (mentions s ++ V)) (ens i) /\
  sumE (ens i) <= budget1 sz s /\ (allT (reqs i) <-> inb1 s) /\ (inb1 s -> allT (ens i)).
Proof.
  intros f V s i SO EQN B H. pose proof (budget1_nonneg s) as PB.
  assert (AC : forall u a e, simple e -> u = MAXSET \/ u = MAXREAD -> 2 * (Z.abs (sz a - 1) + numbers e) < 2147483648 ->
     okA (Atom (Unary u (arr a)) GTE (mkExpr e)) /\
     mA (Atom (Unary u (arr a)) GTE (mkExpr e)) = Z.abs (sz a - 1) + numbers e /\
     (tr (Atom (Unary u (arr a)) GTE (mkExpr e)) <-> value st e <= sz a - 1) /\
     isU (Atom (Unary u (arr a)) GTE (mkExpr e)) /\
     over (varsOf e) (Atom (Unary u (arr a)) GTE (mkExpr e))).
  { intros u a e S HU BB.
    assert (NN : forall e, 0 <= numbers e) by (induction e0; simpl; lia). pose proof (NN e).
    destruct (mk_chain e S) as (C & M & E & VI); [lia|].
    refine (conj (conj (SdU u a HU) (conj C (or_introl eq_refl))) (conj _ (conj _ (conj _ _)))).
    - unfold mA. cbn [lexpr expr]. rewrite mu_unary, M. reflexivity.
    - unfold tr. cbn [lexpr ar expr]. rewrite ev_unary, E. simpl. lia.
    - split; [reflexivity|]. exists u, a. reflexivity.
    - intros x X. cbn [lexpr expr] in X. apply VI. apply orb_prop in X. destruct X as [X|X]; [|exact X].
      change (Nat.eqb (aname a) (vname x) = true) in X. apply Nat.eqb_eq in X. exfalso. revert X. unfold aname, vname. lia. }
  assert (ACC : forall u a e, simple e -> u = MAXSET \/ u = MAXREAD -> 2 * (Z.abs (sz a - 1) + numbers e) < 2147483648 ->
     R (2 * (Z.abs (sz a - 1) + numbers e)) true (single (Atom (Unary u (arr a)) GTE (mkExpr e)))).
  { intros u a e S HU BB. destruct (AC u a e S HU BB) as (A1 & A2 & A3 & A4 & A5).
    constructor; [|constructor]. cbn [first single]. refine (conj A1 (conj _ (conj (iff_refl _) _))); [|auto].
    rewrite A2. clear - BB PB. assert (NN : forall e, 0 <= numbers e) by (induction e0; simpl; lia). pose proof (NN e). lia. }
  destruct s as [x e|a e|a e| | | | | ]; cbn [step_ok] in SO; try contradiction;
    cbn [gen] in H; inversion H; subst i; clear H; cbn [reqs ens mentions budget1 inb1 eqn1] in *.
  - destruct SO as (S & NV & NE). destruct (mk_chain e S) as (C & M & E & VI); [lia|].
    refine (conj (Forall_nil _) (conj _ (conj _ (conj _ _)))).
    + constructor; [|constructor]. split.
      * refine (conj eq_refl (conj _ (conj _ _))); cbn [first single].
        -- refine (conj (SdC _ (ChVar x)) (conj C _)). right. right. reflexivity.
        -- intros y Y. unfold ensureEqual in Y. cbn [lexpr expr] in Y. apply orb_prop in Y.
           rewrite vin_var in Y. apply in_or_app. left. destruct Y as [Y|Y].
           ++ apply Nat.eqb_eq in Y. left. exact Y.
           ++ right. apply VI. exact Y.
        -- left. split.
           ++ split; [reflexivity|]. exists x. split; [reflexivity|]. cbn [ensureEqual expr].
              destruct (vin x (mkExpr e)) eqn:VX; auto. apply VI in VX. contradiction.
           ++ unfold tr, ensureEqual. cbn [lexpr ar expr]. rewrite ev_var, E. exact EQN.
      * intros y _ Y. cbn [first single ensureEqual lexpr] in Y. apply var_inj in Y. subst y. exact NV.
    + cbn [sumE first single]. unfold mA, ensureEqual. cbn [lexpr expr]. rewrite M. simpl. lia.
    + split; [auto|]. intros _. constructor.
    + intros _. constructor; [|constructor]. cbn [first single]. unfold tr, ensureEqual. cbn [lexpr ar expr].
      rewrite ev_var, E. exact EQN.
  - destruct (AC MAXSET a e SO (or_introl eq_refl) B) as (A1 & A2 & A3 & A4 & A5).
    destruct (AC MAXREAD a e SO (or_intror eq_refl) B) as (D1 & D2 & D3 & D4 & D5).
    refine (conj _ (conj _ (conj _ (conj _ _)))).
    + constructor; [|constructor]. exact (ACC MAXSET a e SO (or_introl eq_refl) B).
    + constructor; [|constructor]. split.
      * refine (conj eq_refl (conj D1 (conj _ _))).
        -- intros y Y. apply in_or_app. left. exact (D5 y Y).
        -- right. split; [reflexivity|]. exists a. reflexivity.
      * intros y Y. discriminate.
    + cbn [sumE first single]. change (readSafe a e) with (Atom (Unary MAXREAD (arr a)) GTE (mkExpr e)). rewrite D2. lia.
    + split.
      * intros T. inversion T; subst. apply A3. assumption.
      * intros T. constructor; [|constructor]. apply A3. exact T.
    + intros T. constructor; [|constructor]. apply D3. exact T.
  - destruct (AC MAXREAD a e SO (or_intror eq_refl) B) as (D1 & D2 & D3 & D4 & D5).
    refine (conj _ (conj _ (conj _ (conj _ _)))).
    + constructor; [|constructor]. exact (ACC MAXREAD a e SO (or_intror eq_refl) B).
    + constructor; [|constructor]. split.
      * refine (conj eq_refl (conj D1 (conj _ _))).
        -- intros y Y. apply in_or_app. left. exact (D5 y Y).
        -- right. split; [reflexivity|]. exists a. reflexivity.
      * intros y Y. discriminate.
    + cbn [sumE first single]. change (readSafe a e) with (Atom (Unary MAXREAD (arr a)) GTE (mkExpr e)). rewrite D2. lia.
    + split.
      * intros T. inversion T; subst. apply D3. assumption.
      * intros T. constructor; [|constructor]. apply D3. exact T.
    + intros T. constructor; [|constructor]. apply D3. exact T.
Qed.

Lemma merge_step : forall f V W P i1 s i2 i, inv V W P i1 -> 0 <= W ->
  step_ok V s -> eqn1 s -> 2 * (W + budget1 sz s) < 2147483648 ->
  gen f sz s = Ok i2 -> mergeResolve f i1 i2 = Ok i ->
  inv (mentions s ++ V) (W + budget1 sz s) (P /\ inb1 s) i.
Proof.
  intros f V W P i1 s i2 i [IR IE IS IT IK] PW SO EQN B G H. pose proof (budget1_nonneg s) as PB.
  destruct (gen1 f V s i2 SO EQN ltac:(lia) G) as (G1 & G2 & G3 & G4 & G5).
  unfold mergeResolve in H. ob H r1 R1. ob H r2 R2. ob H r RR. ob H e E. inversion H; subst i; clear H.
  set (N := 2 * (W + budget1 sz s)) in *.
  assert (M1 : Forall (R N true) (reqs i1)) by (revert IR; apply Forall_impl; intros c; apply R_mono; unfold N; lia).
  assert (Fr1 : Forall (R N true) r1) by (apply (addAll_Forall _ (reqs i1) nil); auto).
  assert (T1 : allT r1 <-> allT (reqs i1)).
  { rewrite (addAll_truth (reqs i1) nil r1 R1 (Forall_nil _) (R_fits _ _ _ M1 B)).
    split; [tauto|]. intros T. split; [constructor|exact T]. }
  pose proof (ens_facts V (ens i1) IE ltac:(lia)) as FE. pose proof (inc_sum (ens i1)) as IN.
  destruct (reflect_spec (2 * budget1 sz s) N true f (ens i1) (reqs i2) r2 FE ltac:(unfold N; lia) B G1 R2) as (A1 & A2 & A3).
  destruct (mergeRequires_spec N f r1 r2 r B Fr1 A1 RR) as (C1 & C2).
  destruct (mergeEnsures_spec V (mentions s ++ V) f (ens i1) (ens i2) e) as (D1 & D2 & D3); auto.
  { intros x X. apply in_or_app. auto. }
  { lia. }
  assert (TT : allT r <-> P /\ inb1 s).
  { rewrite C2, T1, IT. split.
    - intros [X Y]. split; [exact X|]. apply G4. apply A2; auto.
    - intros [X Y]. split; [exact X|]. apply A3. apply G4. exact Y. }
  constructor; cbn [reqs ens]; auto.
  - lia.
  - intros [X Y]. apply D3; auto.
Qed.

Definition goL (f : nat) : option info -> list stmt -> out info :=
  fix go (acc : option info) (l : list stmt) : out info :=
  match l with
  | nil => Ok (match acc with Some i => i | None => Info nil nil end)
  | s :: r =>
      obind (gen f sz s) (fun i =>
      obind (match acc with None => Ok i | Some a => mergeResolve f a i end) (fun a =>
      go (Some a) r))
  end.

Lemma goL_cons : forall f acc s r, goL f acc (s :: r) =
  obind (gen f sz s) (fun i =>
  obind (match acc with None => Ok i | Some a => mergeResolve f a i end) (fun a =>
  goL f (Some a) r)).
Proof. reflexivity. Qed.

Lemma gen_block : forall f l,
  gen f sz (SBlock l) = obind (goL f None l) (withSizes f sz (flat_map arrays l)).
Proof. reflexivity. Qed.

Lemma straight_cons : forall V s r, straight V (s :: r) -> step_ok V s /\ straight (mentions s ++ V) r.
Proof. intros V s r H. exact H. Qed.

Lemma budget_nonneg : forall l, 0 <= budget sz l.
Proof. induction l; simpl; [lia|]. pose proof (budget1_nonneg a). lia. Qed.

Lemma goL_some : forall f l V W P a i, inv V W P a -> 0 <= W -> straight V l -> Forall eqn1 l ->
  2 * (W + budget sz l) < 2147483648 -> goL f (Some a) l = Ok i ->
  exists V', inv V' (W + budget sz l) (P /\ inb l) i.
Proof.
  intros f. induction l as [|s l IH]; intros V W P a i I PW S E B H.
  - inversion H; subst. exists V. simpl. rewrite Z.add_0_r. destruct I as [I1 I2 I3 I4 I5].
    constructor; auto.
    + rewrite I4. split; [intros; split; auto; constructor | tauto].
    + intros [X _]. auto.
  - apply straight_cons in S as [S1 S2]. inversion E as [|? ? E1 E2]; subst.
    rewrite goL_cons in H. ob H i2 G. ob H a' A. cbn [budget] in *.
    pose proof (budget1_nonneg s). pose proof (budget_nonneg l).
    pose proof (merge_step f V W P a s i2 a' I PW S1 E1 ltac:(lia) G A) as I'.
    destruct (IH _ _ _ a' i I' ltac:(lia) S2 E2 ltac:(lia) H) as (V' & J). exists V'.
    rewrite Z.add_assoc. destruct J as [J1 J2 J3 J4 J5]. constructor; auto.
    + rewrite J4. unfold inb. split.
      * intros [[X Y] Z0]. split; [exact X|]. constructor; auto.
      * intros [X Y]. inversion Y; subst. auto.
    + intros [X Y]. inversion Y; subst. apply J5. auto.
Qed.

Lemma goL_none : forall f l i, straight nil l -> Forall eqn1 l ->
  2 * budget sz l < 2147483648 -> goL f None l = Ok i ->
  exists V', inv V' (budget sz l) (inb l) i.
Proof.
  intros f [|s l] i S E B H.
  - inversion H; subst. exists nil. constructor; simpl; auto.
    + lia.
    + split; intros; constructor.
    + intros. constructor.
  - apply straight_cons in S as [S1 S2]. inversion E as [|? ? E1 E2]; subst.
    rewrite goL_cons in H. ob H i2 G. cbn [obind] in H. cbn [budget] in *.
    pose proof (budget1_nonneg s). pose proof (budget_nonneg l).
    destruct (gen1 f nil s i2 S1 E1 ltac:(lia) G) as (G1 & G2 & G3 & G4 & G5).
    assert (I0 : inv (mentions s ++ nil) (budget1 sz s) (inb1 s) i2).
    { constructor; auto. revert G2. apply Forall_impl. intros c [K _]. exact K. }
    destruct (goL_some f l _ _ _ i2 i I0 ltac:(lia) S2 E2 ltac:(lia) H) as (V' & J). exists V'.
    destruct J as [J1 J2 J3 J4 J5]. constructor; auto.
    + rewrite J4. unfold inb. split.
      * intros [X Y]. constructor; auto.
      * intros Y. inversion Y; subst. auto.
    + intros Y. inversion Y; subst. apply J5. auto.
Qed.

(** ** The sizes of the arrays *)

Lemma R_weaken : forall N c, R N true c -> R N false c.
Proof. intros N c. apply Forall_impl. intros a (A & B & C & _). refine (conj A (conj B (conj C _))). discriminate. Qed.

Lemma sizes_facts : forall l fx, Forall (fun a => Z.abs (sz a - 1) < 1073741824) l ->
  fixedArrays sz l = Ok fx ->
  Forall (fact false) fx /\ inc fx = 0 /\ allT fx.
Proof.
  intros l fx F H. unfold fixedArrays in H.
  assert (K : Forall (fun c => fact false c /\ inc1 (first c) = 0 /\ tr (first c)) fx).
  { apply (addAll_Forall _ _ nil fx H); [constructor|]. apply Forall_map. revert F. apply Forall_impl.
    intros a A. unfold sizeAtom. rewrite wrap32_id by lia. cbn [first single].
    assert (T : tr (Atom (Unary MAXSET (arr a)) EQ (Lit (sz a - 1)))).
    { unfold tr. cbn [lexpr ar expr]. rewrite ev_unary. reflexivity. }
    refine (conj (conj (conj _ _) _) (conj eq_refl T)); cbn [first single].
    - refine (conj (SdU _ _ (or_introl eq_refl)) (conj (ChLit _) _)). right. right. reflexivity.
    - unfold mA. cbn [lexpr expr]. rewrite mu_unary. simpl. lia.
    - right. right. split; [reflexivity|]. split; [reflexivity|]. exists a. split; reflexivity. }
  clear H. induction K as [|c fx (K1 & K2 & K3) _ IH]; [split; [constructor|split; [reflexivity|constructor]]|].
  destruct IH as (I1 & I2 & I3). refine (conj _ (conj _ _)).
  - constructor; auto.
  - simpl. rewrite K2, I2. reflexivity.
  - constructor; auto.
Qed.

Lemma withSizes_spec : forall N f l i i', Forall (fun a => Z.abs (sz a - 1) < 1073741824) l ->
  N < 2147483648 -> Forall (R N false) (reqs i) -> withSizes f sz l i = Ok i' ->
  Forall (R N false) (reqs i') /\ (allT (reqs i') <-> allT (reqs i)).
Proof.
  intros N f l i i' F B G H. unfold withSizes in H. ob H fx FX. ob H r RR. inversion H; subst i'. cbn [reqs].
  destruct (sizes_facts l fx F FX) as (A1 & A2 & A3).
  destruct (reflect_spec N N false f fx (reqs i) r A1 ltac:(lia) B G RR) as (C1 & C2 & C3).
  split; [exact C1|]. split; auto.
Qed.

Lemma arrays_sizes : forall l, (exists V, straight V l) -> 2 * budget sz l < 2147483648 ->
  Forall (fun a => Z.abs (sz a - 1) < 1073741824) (flat_map arrays l).
Proof.
  assert (NN : forall e, 0 <= numbers e) by (induction e; simpl; lia).
  induction l as [|s l IH]; intros (V & S) B; [constructor|].
  apply straight_cons in S as [S1 S2]. cbn [budget] in B. cbn [flat_map].
  pose proof (budget1_nonneg s). pose proof (budget_nonneg l).
  apply Forall_app. split; [|apply IH; [eauto|lia]].
  destruct s as [x e|a e|a e| | | | | ]; cbn [step_ok] in S1; try contradiction; cbn [arrays].
  - constructor.
  - constructor; [|constructor]. simpl budget1 in *. pose proof (NN e). lia.
  - constructor; [|constructor]. simpl budget1 in *. pose proof (NN e). lia.
Qed.

Lemma print_spec : forall l m, Forall fit l -> printAll l = Ok m ->
  (m = nil -> allT l) /\
  (forall p r q k, In (Msg (Atom (Lit p) r (Lit q)) k) m -> ~ allT l).
Proof.
  induction l as [|c l IH]; intros m F H.
  - inversion H; subst. split; [constructor|]. intros p r q k [].
  - inversion F as [|? ? Fc Fl]; subst. cbn [printAll] in H. ob H m1 M1. ob H m2 M2. inversion H; subst m.
    destruct (IH m2 Fl M2) as [I1 I2]. unfold printOne in M1. ob M1 b Bb. split.
    + intros E. apply app_eq_nil in E as [E1 E2]. destruct b; [|inversion M1; subst; discriminate].
      constructor; [|exact (I1 E2)]. destruct Fc. apply iat_sound; auto.
    + intros p r q k K T. inversion T as [|? ? Tc Tl]; subst. apply in_app_or in K. destruct K as [K|K].
      * destruct b; inversion M1; subst; [destruct K|]. destruct K as [K|[]]. inversion K as [[K1 K2]].
        rewrite K1, iat_lit in Bb. injection Bb as Bb. rewrite K1 in Tc. unfold tr in Tc. cbn [lexpr ar expr] in Tc.
        change (ev (Lit p)) with p in Tc. change (ev (Lit q)) with q in Tc. apply cmpZ_cmp in Tc. congruence.
      * exact (I2 p r q k K Tl).
Qed.

Lemma check_spec : forall f body m, straight nil body -> Forall eqn1 body ->
  2 * budget sz body < 2147483648 -> checkFunction f sz body = Ok m ->
  (m = nil -> inb body) /\
  (forall p r q k, In (Msg (Atom (Lit p) r (Lit q)) k) m -> ~ inb body).
Proof.
  intros f body m S E B H. unfold checkFunction in H. rewrite gen_block in H. ob H i G. ob G i0 G0.
  ob H i' H1. destruct (goL_none f body i0 S E B G0) as (V & [J1 _ _ J4 _]).
  pose proof (arrays_sizes body (ex_intro _ nil S) B) as AS.
  assert (J1' : Forall (R (2 * budget sz body) false) (reqs i0)).
  { revert J1. apply Forall_impl. intros c. apply R_weaken. }
  destruct (withSizes_spec _ f _ i0 i AS B J1' G) as (A1 & A2).
  destruct (withSizes_spec _ f _ i i' AS B A1 H1) as (C1 & C2).
  destruct (print_spec (reqs i') m (R_fits _ _ _ C1 B) H) as [P1 P2].
  split.
  - intros K. apply J4, A2, C2, P1. exact K.
  - intros p r q k K I. apply (P2 p r q k K). apply C2, A2, J4. exact I.
Qed.

End Val.
End S.

(** ** Executions *)

Definition accs (s : state) (l : list stmt) : list access :=
  flat_map (fun x => match x with SStore a e | SRead a e => [(a, value s e)] | _ => nil end) l.

Lemma value_ext : forall s s' e, (forall x, In x (varsOf e) -> s x = s' x) -> value s e = value s' e.
Proof.
  induction e as [z|x|a IHa b IHb|a IHa b IHb]; intros H; simpl in *; auto.
  - rewrite IHa, IHb; auto; intros x K; apply H; apply in_or_app; auto.
  - rewrite IHa, IHb; auto; intros x K; apply H; apply in_or_app; auto.
Qed.

Lemma straight_run : forall l V s0 tr s fin, straight V l -> runs l s0 tr s fin ->
  (forall x, In x V -> s x = s0 x) /\ Forall (eqn1 s) l /\ tr = accs s l.
Proof.
  induction l as [|x l IH]; intros V s0 tr s fin S H.
  - inversion H; subst. refine (conj _ (conj _ _)); auto.
  - apply straight_cons in S as [S1 S2].
    destruct x as [y e|a e|a e| | | | | ]; cbn [step_ok] in S1; try contradiction;
      (inversion H as [|? ? ? ? ? HR|? ? ? ? ? ? ? ? HR HS]; subst; [inversion HR|]);
      inversion HR; subst; destruct (IH _ _ _ _ _ S2 HS) as (K1 & K2 & K3); cbn [mentions] in K1.
    + destruct S1 as (_ & N1 & N2).
      assert (E0 : forall z, In z (varsOf e) -> s z = s0 z).
      { intros z Z0. rewrite K1; [|right; apply in_or_app; auto]. unfold update.
        destruct (Nat.eqb_spec z y); congruence. }
      refine (conj _ (conj _ _)).
      * intros z Z0. rewrite K1; [|right; apply in_or_app; auto]. unfold update.
        destruct (Nat.eqb_spec z y); congruence.
      * constructor; [|exact K2]. cbn [eqn1]. rewrite K1; [|left; reflexivity]. unfold update.
        rewrite Nat.eqb_refl. symmetry. apply value_ext. exact E0.
      * exact K3.
    + refine (conj _ (conj _ _)).
      * intros z Z0. apply K1. apply in_or_app. auto.
      * constructor; [exact I | exact K2].
      * cbn [accs flat_map app]. f_equal; [|exact K3]. f_equal. symmetry. apply value_ext.
        intros z Z0. apply K1. apply in_or_app. auto.
    + refine (conj _ (conj _ _)).
      * intros z Z0. apply K1. apply in_or_app. auto.
      * constructor; [exact I | exact K2].
      * cbn [accs flat_map app]. f_equal; [|exact K3]. f_equal. symmetry. apply value_ext.
        intros z Z0. apply K1. apply in_or_app. auto.
Qed.

Lemma inb_accs : forall sz s V l, straight V l ->
  (inb sz s l <-> Forall (not_beyond sz) (accs s l)).
Proof.
  intros sz s V l. revert V. induction l as [|x l IH]; intros V S; [split; intros; constructor|].
  apply straight_cons in S as [S1 S2]. unfold inb in *.
  destruct x as [y e|a e|a e| | | | | ]; cbn [step_ok] in S1; try contradiction; cbn [accs flat_map app].
  - rewrite <- (IH _ S2). split; [intros H; inversion H; auto | intros H; constructor; auto; exact I].
  - split.
    + intros H. inversion H as [|? ? H1 H2]; subst. constructor; [|apply (IH _ S2); exact H2].
      unfold not_beyond. simpl in *. lia.
    + intros H. inversion H as [|? ? H1 H2]; subst. constructor; [|apply (IH _ S2); exact H2].
      unfold not_beyond in H1. simpl in *. lia.
  - split.
    + intros H. inversion H as [|? ? H1 H2]; subst. constructor; [|apply (IH _ S2); exact H2].
      unfold not_beyond. simpl in *. lia.
    + intros H. inversion H as [|? ? H1 H2]; subst. constructor; [|apply (IH _ S2); exact H2].
      unfold not_beyond in H1. simpl in *. lia.
Qed.

Theorem silence_straight : forall f sz body s0 tr s fin, straight nil body ->
  2 * budget sz body < 2147483648 -> checkFunction f sz body = Ok nil ->
  runs body s0 tr s fin -> Forall (not_beyond sz) tr.
Proof.
  intros f sz body s0 tr s fin S B H HR. destruct (straight_run body nil s0 tr s fin S HR) as (_ & E & ->).
  apply (inb_accs sz s nil body S). apply (check_spec sz s f body nil S E B H). reflexivity.
Qed.

Lemma not_all_beyond : forall sz l, ~ Forall (not_beyond sz) l -> exists a, In a l /\ ~ not_beyond sz a.
Proof.
  intros sz. induction l as [|a l IH]; intros H; [exfalso; apply H; constructor|].
  destruct (Z_lt_dec (snd a) (sz (fst a))) as [D|D].
  - destruct IH as (b & B1 & B2).
    + intros K. apply H. constructor; auto.
    + exists b. split; [right|]; auto.
  - exists a. split; [left; reflexivity|]. exact D.
Qed.

Theorem message_straight : forall f sz body m p r q k s0 tr s fin, straight nil body ->
  2 * budget sz body < 2147483648 -> checkFunction f sz body = Ok m ->
  In (Msg (Atom (Lit p) r (Lit q)) k) m ->
  runs body s0 tr s fin -> exists a, In a tr /\ ~ not_beyond sz a.
Proof.
  intros f sz body m p r q k s0 tr s fin S B H M HR.
  destruct (straight_run body nil s0 tr s fin S HR) as (_ & E & ->).
  apply not_all_beyond. intros K. apply (inb_accs sz s nil body S) in K.
  exact (proj2 (check_spec sz s f body m S E B H) p r q k M K).
Qed.
