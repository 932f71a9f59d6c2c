From Coq Require Import ZArith Bool List Lia ZifyBool.
From Verif Require Import Prim_model Oper_model Oper_spec Oper_proofs Oper_proofs2 Oper_proofs3.
Import ListNotations.
Local Open Scope Z_scope.

(** ** A variable compared with zero *)
Lemma small_inr : forall T p v, target_ok T -> integer p = true -> p <> P_BOOL -> (v = 0 \/ v = 1 \/ (v = -1 /\ uns T p = false)) ->
  inr T p v = true.
Proof.
  intros T p v OK I NB D. unfold inr, lo, hi. rewrite I.
  pose proof (width_pow T p OK). pose proof (half_pos T p OK).
  assert (2 <= 2 ^ (width T p - 1)).
  { pose proof (pow_le 1 (width T p - 1)). assert (2 ^ 1 = 2) by reflexivity.
    destruct OK as (A & B & C & E). destruct p; try discriminate I; try congruence; cbn [width] in *; lia. }
  destruct (uns T p); destruct D as [->|[->|[-> D]]]; try discriminate D; lia.
Qed.
Lemma usual_with_int : forall T p, target_ok T -> integer p = true -> p <> P_BOOL ->
  integer (usual T p P_INT) = true /\ usual T p P_INT <> P_BOOL /\ (uns T p = false -> uns T (usual T p P_INT) = false).
Proof.
  intros T p OK I NB. rewrite usual_eq by (exact I || reflexivity).
  destruct (promote_rank T p I) as [A B]. change (promote T P_INT) with P_INT.
  assert (S : uns T p = false -> uns T (promote T p) = false).
  { intros U. unfold promote. destruct (rank p <? 3) eqn:R; [|exact U].
    assert (K : (hi T p <=? hi T P_INT) = true).
    { unfold hi. rewrite U. cbn [uns]. destruct OK as (X & Y & Z & W).
      destruct p; try discriminate I; try discriminate U; cbn [rank width] in *; try lia;
      match goal with |- (2 ^ ?a - 1 <=? 2 ^ ?b - 1) = true => pose proof (pow_le a b); lia end. }
    rewrite K. reflexivity. }
  unfold usual_int. cbn [uns].
  destruct (promote T p) eqn:P; try discriminate A; cbn [rank] in B; try lia; cbn [uns];
    unfold mixed; cbn [rank Z.leb Z.ltb Z.compare Pos.compare Pos.compare_cont];
    (split; [reflexivity|split; [discriminate|]]); try (intros U; specialize (S U); cbn [uns] in S; discriminate);
    intros; reflexivity.
Qed.
Definition var_cmp (T : target) (op : bop) (p : cprim) (v : Z) : option Z :=
  bind2 (conv T false (usual T p P_INT) v) (conv T false (usual T p P_INT) 0) (arith_val T false op (usual T p P_INT)).

Section Check.
Variable fl : oflags.
Variable pmatch : oty -> oty -> bool.
Variable voidn : nat.
Variable lmax : Z.
Variable cut : Z -> Z.
Notation check := (check fl pmatch voidn lmax cut).
Notation binop := (binop fl pmatch voidn lmax cut).
Notation preop := (preop fl lmax).
Notation checkNumerics := (checkNumerics fl pmatch voidn).

Lemma isUns_uns : forall T q, integer q = true -> q <> P_BOOL -> (q = P_CHAR -> charsigned T = true) ->
  isUns (OPrim q) = uns T q.
Proof.
  intros T q I NB CH. destruct q; try discriminate I; cbn [isUns uns]; try reflexivity; [congruence|].
  rewrite CH; reflexivity.
Qed.
Lemma typeofZero_uns : isUns (typeofZero fl) = false.
Proof. unfold typeofZero. destruct (_ || _); reflexivity. Qed.
Lemma lit_zero : forall T dec, target_ok T -> lit_type T dec P_INT 0 = Some P_INT.
Proof.
  intros T dec OK. unfold lit_type. cbn [candidates].
  pose proof (small_inr T P_INT 0 OK eq_refl ltac:(discriminate) (or_introl eq_refl)) as K.
  destruct dec; cbn [find]; rewrite K; reflexivity.
Qed.
Lemma eval_var_zero : forall T env op x p nl dec, target_ok T -> compar op = true -> integer p = true ->
  eval T false env (Bin op (Var x (OPrim p) nl) (Lit dec P_INT 0)) = var_cmp T op p (env x).
Proof.
  intros T env op x p nl dec OK CO I. rewrite eval_bin by (destruct op; discriminate).
  cbn [eval ctypeof var_type]. rewrite I, (lit_zero T dec OK). cbn [bind2].
  unfold var_cmp. destruct op; try discriminate CO; reflexivity.
Qed.
Lemma eval_zero_var : forall T env op x p nl dec, target_ok T -> compar op = true -> integer p = true ->
  eval T false env (Bin op (Lit dec P_INT 0) (Var x (OPrim p) nl)) =
  bind2 (conv T false (usual T p P_INT) 0) (conv T false (usual T p P_INT) (env x)) (arith_val T false op (usual T p P_INT)).
Proof.
  intros T env op x p nl dec OK CO I. rewrite eval_bin by (destruct op; discriminate).
  cbn [eval ctypeof var_type]. rewrite I, (lit_zero T dec OK). cbn [bind2].
  rewrite (usual_sym T P_INT p eq_refl I). destruct op; try discriminate CO; reflexivity.
Qed.
Lemma conv_small : forall T p v, target_ok T -> integer p = true -> p <> P_BOOL ->
  (v = 0 \/ v = 1 \/ (v = -1 /\ uns T p = false)) -> conv T false (usual T p P_INT) v = Some v.
Proof.
  intros T p v OK I NB D. destruct (usual_with_int T p OK I NB) as (A & B & C).
  unfold conv. rewrite small_inr; auto. destruct D as [D|[D|[D E]]]; auto.
Qed.
Lemma var_not_same : forall T op p x, target_ok T -> integer p = true -> p <> P_BOOL ->
  (exists v w a b, inr T p v = true /\ inr T p w = true /\
     var_cmp T op p v = Some a /\ var_cmp T op p w = Some b /\ a <> b) ->
  ~ (forall (env env' : nat -> Z) r r', inr T p (env x) = true -> inr T p (env' x) = true ->
      var_cmp T op p (env x) = Some r -> var_cmp T op p (env' x) = Some r' -> r = r').
Proof.
  intros T op p x OK I NB (v & w & a & b & V & W & A & B & N) H.
  apply N. exact (H (fun _ => v) (fun _ => w) a b V W A B).
Qed.
Lemma unsigned_variable : forall T op x p nl dec m n, target_ok T -> funsignedcompare fl = true ->
  compar op = true -> op <> Le ->
  integer p = true -> p <> P_BOOL -> (p = P_CHAR -> charsigned T = true) ->
  check (Bin op (Var x (OPrim p) nl) (Lit dec P_INT 0)) = Some (m, n) ->
  (In MUnsCmp m <->
   forall (env env' : nat -> Z) r r', inr T p (env x) = true -> inr T p (env' x) = true ->
     eval T false env (Bin op (Var x (OPrim p) nl) (Lit dec P_INT 0)) = Some r ->
     eval T false env' (Bin op (Var x (OPrim p) nl) (Lit dec P_INT 0)) = Some r' -> r = r').
Proof.
  intros T op x p nl dec m n OK F CO NL I NB CH H.
  assert (LM : 0 <= lmax). { cbn [Oper_model.check] in H. destruct (0 <=? lmax) eqn:L; [clear - L; lia|discriminate]. }
  assert (A : check (Var x (OPrim p) nl) = Some ([], Node (OPrim p) VNone nl)) by reflexivity.
  assert (B : check (Lit dec P_INT 0) = Some ([], Node (typeofZero fl) (VInt 0) true)).
  { cbn [Oper_model.check]. assert (L : (0 <=? lmax) = true) by (clear - LM; lia). rewrite L. reflexivity. }
  assert (K : (m, n) = comparison fl pmatch voidn true op (Node (OPrim p) VNone nl) (Node (typeofZero fl) (VInt 0) true)).
  { cbn [Oper_model.check] in H. cbn [Oper_model.check] in B. rewrite B in H.
    cbn [isVar orb] in H.
    destruct (binop true op (Node (OPrim p) VNone nl) (Node (typeofZero fl) (VInt 0) true)) as [[m3 n3]|] eqn:C; [|discriminate].
    inversion H; subst; cbn [app] in *.
    destruct (binop_cases _ _ _ _ _ _ _ _ _ _ _ C) as [(_ & _ & _ & [Q|Q])|(_ & _ & Q)]; [discriminate Q| |].
    - cbn [nt] in Q. unfold typeofZero in Q. destruct (_ || _); discriminate.
    - destruct op; try discriminate CO; exact Q. }
  rewrite (unscmp _ _ _ _ _ _ _ _ _ K). cbn [nt]. rewrite (isUns_uns T p I NB CH), typeofZero_uns.
  cbn [isZero nv]. 
  assert (EQ : (forall (env env' : nat -> Z) r r', inr T p (env x) = true -> inr T p (env' x) = true ->
     eval T false env (Bin op (Var x (OPrim p) nl) (Lit dec P_INT 0)) = Some r ->
     eval T false env' (Bin op (Var x (OPrim p) nl) (Lit dec P_INT 0)) = Some r' -> r = r') <->
     (forall (env env' : nat -> Z) r r', inr T p (env x) = true -> inr T p (env' x) = true ->
      var_cmp T op p (env x) = Some r -> var_cmp T op p (env' x) = Some r' -> r = r')).
  { split; intros Q env env' r r' R1 R2 E1 E2; specialize (Q env env' r r' R1 R2).
    - rewrite !eval_var_zero in Q by assumption. auto.
    - rewrite eval_var_zero in E1, E2 by assumption. auto. }
  rewrite EQ. clear EQ. split.
  - intros (Z & _ & [[U _]|[U _]]); [|discriminate].
    intros env env' r r' R1 R2 E1 E2. unfold var_cmp in *.
    apply bind2_some in E1. destruct E1 as (a & b & Ca & Cb & V). apply bind2_some in E2. destruct E2 as (a' & b' & Ca' & Cb' & V').
    apply (conv_zero _ _ _ _ OK) in Cb. apply (conv_zero _ _ _ _ OK) in Cb'. subst b b'.
    destruct (usual_with_int T p OK I NB) as (IU & _ & _).
    assert (G : forall w w', inr T p w = true -> conv T false (usual T p P_INT) w = Some w' -> 0 <= w').
    { intros w w' R C. apply (conv_nonneg _ _ _ _ _ OK (inr_nonneg _ _ _ U R)) in C; [exact C|].
      destruct (uns T (usual T p P_INT)) eqn:G; [auto|right].
      destruct (usual_hi T _ _ OK I (eq_refl : integer P_INT = true) G) as (G1 & _ & _). unfold inr in R. clear - G1 R. lia. }
    pose proof (G _ _ R1 Ca) as P. pose proof (G _ _ R2 Ca') as P'.
    destruct op; try discriminate Z; try congruence; cbn [arith_val] in V, V'; inversion V; inversion V'; unfold b2z.
    + assert (Q : (a <? 0) = false) by (clear - P; lia). assert (Q' : (a' <? 0) = false) by (clear - P'; lia). rewrite Q, Q'. reflexivity.
    + assert (Q : (0 <=? a) = true) by (clear - P; lia). assert (Q' : (0 <=? a') = true) by (clear - P'; lia). rewrite Q, Q'. reflexivity.
  - intros SAME. refine (conj _ (conj F _)).
    + destruct op; try discriminate CO; try reflexivity; try congruence; exfalso;
        apply (var_not_same T _ p x OK I NB) in SAME; auto; exists 0, 1;
        unfold var_cmp; rewrite !conv_small by auto; cbn [bind2 arith_val];
        do 2 eexists; (refine (conj _ (conj _ (conj eq_refl (conj eq_refl _)))); [apply small_inr; auto|apply small_inr; auto|cbn; discriminate]).
    + left. split; [|reflexivity]. destruct (uns T p) eqn:U; [reflexivity|]. exfalso.
      destruct op; try discriminate CO; try congruence;
        try (apply (var_not_same T _ p x OK I NB) in SAME; auto; exists 0, (-1);
        unfold var_cmp; rewrite !conv_small by auto 6; cbn [bind2 arith_val];
        do 2 eexists; (refine (conj _ (conj _ (conj eq_refl (conj eq_refl _)))); [apply small_inr; auto|apply small_inr; auto|cbn; discriminate]));
        apply (var_not_same T _ p x OK I NB) in SAME; auto; exists 0, 1;
        unfold var_cmp; rewrite !conv_small by auto 6; cbn [bind2 arith_val];
        do 2 eexists; (refine (conj _ (conj _ (conj eq_refl (conj eq_refl _)))); [apply small_inr; auto|apply small_inr; auto|cbn; discriminate]).
Qed.

(** ** Constraints *)
Definition isOZ (t : oty) : bool := match t with OZero _ _ => true | _ => false end.
Lemma rint_kind : forall t, t <> OUnk -> isRealInt fl t = true -> kind_type t = KInt.
Proof.
  intros t N H. destruct t; try congruence; try reflexivity; try discriminate H.
  destruct p; try reflexivity; discriminate H.
Qed.
Lemma int_kind : forall t, t <> OUnk -> isIntT fl t = true -> kind_type t = KInt.
Proof.
  intros t N H. destruct t; try congruence; try reflexivity; try discriminate H.
  destruct p; try reflexivity; discriminate H.
Qed.
Lemma real_kind : forall t, isRealT t = true -> kind_type t = KReal.
Proof. intros t H. destruct t; try discriminate H. destruct p; try reflexivity; discriminate H. Qed.
Lemma rnum_kind : forall t, t <> OUnk -> isRealNumeric fl t = true -> arithmetic (kind_type t) = true.
Proof.
  intros t N H. destruct t; try congruence; try reflexivity; try discriminate H.
  destruct p; try reflexivity; discriminate H.
Qed.
Lemma rbool_kind : forall t, t <> OUnk -> isRealBool fl t = true -> kind_type t = KInt.
Proof.
  intros t N H. destruct t; try congruence; try reflexivity; cbn [isRealBool isBoolT] in H;
    apply andb_prop in H; destruct H as [_ H]; apply int_kind in H; auto.
Qed.
Lemma rptr_kind : forall t, isRealPtr t = true -> kind_type t = KPtr \/ isOZ t = true.
Proof. intros t H. destruct t; try discriminate H; auto. Qed.
Lemma force_kind : forall t, kind_type (force fl t) = kind_type t.
Proof. intros t. destruct t; try reflexivity. destruct zb; cbn; [|reflexivity]. destruct (fboolint fl), zp; reflexivity. Qed.
Lemma force_unk : forall t, t <> OUnk -> force fl t <> OUnk.
Proof.
  intros t N. destruct t; try congruence; try discriminate. destruct zb; cbn; [|discriminate].
  destruct (fboolint fl); [discriminate|]. destruct zp; discriminate.
Qed.
Lemma force_oz : forall t, isOZ (force fl t) = true -> isOZ t = true.
Proof. intros t. destruct t; auto. Qed.
Lemma resolve_kind : forall a b, kind_type a = kind_type b -> kind_type (resolve a b) = kind_type a.
Proof.
  intros a b K. destruct (resolve_one a b) as [[->| ->]|[E ->]]; auto.
  destruct b; try discriminate E. cbn in *. auto.
Qed.
Lemma resolve_oz : forall a b, isOZ (resolve a b) = true -> isOZ a = true \/ isOZ b = true.
Proof. intros a b. destruct (resolve_one a b) as [[->| ->]|[E ->]]; auto; discriminate. Qed.
Lemma arith_unk : forall t, arithmetic (kind_type t) = true -> t <> OUnk.
Proof. intros t H ->. discriminate. Qed.

Hypothesis strict_on : fstrictops fl = true.
Hypothesis type_on : ftype fl = true.

Lemma cn_kind : forall op a b, nt a <> OUnk -> nt b <> OUnk -> fst (checkNumerics op a b) = [] ->
  arithmetic (kind_type (nt a)) = true /\ arithmetic (kind_type (nt b)) = true /\
  (compar op = false -> kind_type (nt a) = kind_type (nt b) -> kind_type (snd (checkNumerics op a b)) = kind_type (nt a)) /\
  (isOZ (snd (checkNumerics op a b)) = true -> isOZ (nt a) = true \/ isOZ (nt b) = true).
Proof.
  intros op a b NA NB. unfold Oper_model.checkNumerics. cbv zeta.
  destruct (negb (tmatch fl pmatch voidn (nt a) (nt b))).
  - destruct (_ && _) eqn:C.
    + intros _. apply andb_prop in C. destruct C as [C1 C2].
      assert (KA : arithmetic (kind_type (nt a)) = true).
      { apply orb_prop in C1. destruct C1 as [C1|C1]; [rewrite (rint_kind _ NA C1)|rewrite (real_kind _ C1)]; reflexivity. }
      assert (KB : arithmetic (kind_type (nt b)) = true).
      { apply orb_prop in C2. destruct C2 as [C2|C2]; [rewrite (rint_kind _ NB C2)|rewrite (real_kind _ C2)]; reflexivity. }
      refine (conj KA (conj KB _)). cbn [snd].
      destruct (isNumLit a); [auto|]. destruct (isNumLit b); [auto|].
      destruct (bigger_one (nt a) (nt b)) as [->| ->]; auto.
    + rewrite type_on. discriminate.
  - destruct (isRealNumeric fl (nt a) && isRealNumeric fl (nt b)) eqn:C.
    + intros _. apply andb_prop in C. destruct C as [C1 C2].
      refine (conj (rnum_kind _ NA C1) (conj (rnum_kind _ NB C2) _)). cbn [snd]. split.
      * intros _ K. rewrite resolve_kind; rewrite !force_kind; auto.
      * intros K. apply resolve_oz in K. destruct K as [K|K]; apply force_oz in K; auto.
    + rewrite strict_on. cbn [negb fst snd].
      match goal with |- context [if ?c then [] else [MStrict]] => destruct c eqn:D end; [|discriminate].
      intros _. apply andb_prop in D. destruct D as [D D3]. apply andb_prop in D. destruct D as [D D2].
      apply andb_prop in D. destruct D as [D0 D1].
      assert (X : arithmetic (kind_type (force fl (nt a))) = true /\ arithmetic (kind_type (nt b)) = true).
      { pose proof (force_unk _ NA) as NF.
        assert (IC : forall t, t <> OUnk -> isCharT fl t = true -> kind_type t = KInt).
        { intros t N H. destruct t; try congruence; try reflexivity; cbn [isCharT] in H;
            try (apply andb_prop in H; destruct H as [_ H]; apply int_kind in H; auto; fail).
          apply orb_prop in H. destruct H as [H|H]; [destruct p; try discriminate H; reflexivity|].
          apply andb_prop in H. destruct H as [_ H]. apply int_kind in H; auto. }
        assert (IB : forall t, t <> OUnk -> isBoolT fl t = true -> kind_type t = KInt).
        { intros t N H. destruct t; try congruence; try reflexivity; cbn [isBoolT] in H;
            apply andb_prop in H; destruct H as [_ H]; apply int_kind in H; auto. }
        apply orb_prop in D3. destruct D3 as [D3|D3]; [apply orb_prop in D3; destruct D3 as [D3|D3]|];
          apply andb_prop in D3; destruct D3 as [E1 E2].
        - split; [destruct (force fl (nt a))|destruct (nt b)]; try discriminate; reflexivity.
        - rewrite (IB _ NF E1), (IB _ NB E2). auto.
        - rewrite (IC _ NF E1), (IC _ NB E2). auto. }
      rewrite force_kind in X. destruct X as [X Y].
      refine (conj X (conj Y (conj _ _))); [|intros; discriminate]. intros NC. congruence.
Qed.

Hypothesis boolops_on : fboolops fl = true.
Hypothesis ptrnum_on : fptrnum fl = true.

Definition agrees (e : expr) (n : node) : Prop :=
  nt n <> OUnk /\ kind_type (nt n) = kindof e /\ (isOZ (nt n) = true -> has_zero e = true).

Lemma oz_kind : forall t, isOZ t = true -> kind_type t = KInt.
Proof. intros t; destruct t; try discriminate; reflexivity. Qed.
Lemma kind_eqb_eq : forall a b, kind_eqb a b = true <-> a = b.
Proof. intros a b; destruct a, b; cbn; split; congruence. Qed.
Lemma checkIntegral_silent : forall a b, nt a <> OUnk -> nt b <> OUnk -> checkIntegral fl a b = [] ->
  kind_type (nt a) = KInt /\ kind_type (nt b) = KInt.
Proof.
  intros a b NA NB H. unfold checkIntegral in H. rewrite strict_on in H. destruct (_ && _) eqn:C; [|discriminate].
  apply andb_prop in C. destruct C as [C1 C2]. split; apply rint_kind; auto.
Qed.
Lemma bin_agrees : forall bv op e1 e2 n1 n2 n, usual_operands op e1 e2 = true ->
  agrees e1 n1 -> agrees e2 n2 -> binop bv op n1 n2 = Some ([], n) ->
  allowed op (kindof e1) (kindof e2) (null_constant e1) (null_constant e2) = true /\ agrees (Bin op e1 e2) n.
Proof.
  intros bv op e1 e2 n1 n2 n U (NA & KA & ZA) (NB & KB & ZB) H.
  destruct (binop_cases _ _ _ _ _ _ _ _ _ _ _ H) as [(_ & _ & _ & [K|K])|(_ & _ & C)]; [congruence|congruence|].
  assert (ARITH : forall o, (o = Add \/ o = Sub \/ o = Mul \/ o = Div) -> forall v a,
    kind_type (nt a) = kind_type (nt n1) -> nt a <> OUnk -> (isOZ (nt a) = true -> isOZ (nt n1) = true) ->
    negb (kind_eqb (kindof e1) KInt && kind_eqb (kindof e2) KReal)
      && negb (kind_eqb (kindof e1) KReal && kind_eqb (kindof e2) KInt) = true ->
    fst (checkNumerics o a n2) = [] ->
    arithmetic (kindof e1) = true /\ arithmetic (kindof e2) = true /\
    agrees (Bin o e1 e2) (Node (snd (checkNumerics o a n2)) v false)).
  { intros o O v a K NU OZ MX F. destruct (cn_kind o a n2 NU NB F) as (A1 & A2 & A3 & A4).
    rewrite K, KA in A1. rewrite KB in A2. refine (conj A1 (conj A2 _)).
    assert (SAME : kindof e1 = kindof e2).
    { clear - A1 A2 MX. destruct (kindof e1), (kindof e2); try discriminate; reflexivity. }
    assert (NC : compar o = false) by (destruct O as [|[|[|]]]; subst; reflexivity).
    assert (KR : kind_type (snd (checkNumerics o a n2)) = kindof e1) by (rewrite A3; congruence).
    unfold agrees; cbn [nt]. split; [|split].
    - apply arith_unk. rewrite KR. exact A1.
    - rewrite KR. clear - O A1 SAME. destruct O as [|[|[|]]]; subst; cbn [kindof]; rewrite <- SAME;
        destruct (kindof e1); try discriminate; reflexivity.
    - intros Q. apply A4 in Q. cbn [has_zero]. destruct Q as [Q|Q]; [rewrite (ZA (OZ Q))|rewrite (ZB Q)]; auto using orb_true_r. }
  assert (ADD : forall o v, (o = Add \/ o = Sub) -> usual_operands o e1 e2 = true ->
     ([], n) = additive fl pmatch voidn o n1 n2 v ->
     allowed o (kindof e1) (kindof e2) (null_constant e1) (null_constant e2) = true /\ agrees (Bin o e1 e2) n).
  { intros o v O UO D. unfold additive in D. cbv zeta in D.
    assert (KF : kind_type (fixArr (nt n1)) = kindof e1) by (rewrite <- KA; destruct (nt n1); reflexivity).
    assert (NF : fixArr (nt n1) <> OUnk) by (destruct (nt n1); try congruence; discriminate).
    destruct (isRealPtr (fixArr (nt n1)) && negb (isZero n1) && (negb (isRealPtr (nt n2)) && isRealInt fl (nt n2))) eqn:C1.
    - inversion D; subst n. clear D.
      assert (C2 : isRealPtr (fixArr (nt n1)) = true /\ isRealInt fl (nt n2) = true).
      { clear - C1. destruct (isRealPtr (fixArr (nt n1))), (isRealInt fl (nt n2)); auto; cbn in C1;
          rewrite ?andb_false_r in C1; discriminate. }
      destruct C2 as [C2 C3]. pose proof (rint_kind _ NB C3) as K2. rewrite KB in K2.
      apply rptr_kind in C2. destruct C2 as [C2|C2].
      + rewrite KF in C2. split.
        * rewrite C2, K2. destruct O; subst; reflexivity.
        * unfold agrees; cbn [nt]. refine (conj NA (conj _ _)).
          -- rewrite KA, C2. destruct O; subst; cbn [kindof]; rewrite C2, K2; reflexivity.
          -- intros Q. cbn [has_zero]. rewrite (ZA Q). reflexivity.
      + assert (C4 : kindof e1 = KInt) by (rewrite <- KF; apply oz_kind, C2). split.
        * rewrite C4, K2. destruct O; subst; reflexivity.
        * unfold agrees; cbn [nt]. refine (conj NA (conj _ _)).
          -- rewrite KA, C4. destruct O; subst; cbn [kindof]; rewrite C4, K2; reflexivity.
          -- intros Q. cbn [has_zero]. rewrite (ZA Q). reflexivity.
    - destruct (negb (isRealPtr (fixArr (nt n1))) && isRealInt fl (fixArr (nt n1)) && (isRealPtr (nt n2) && negb (isZero n2))) eqn:C2.
      + inversion D; subst n. clear D C1.
        assert (C3 : isRealInt fl (fixArr (nt n1)) = true /\ isRealPtr (nt n2) = true).
        { clear - C2. destruct (isRealPtr (fixArr (nt n1))), (isRealInt fl (fixArr (nt n1))), (isRealPtr (nt n2)); auto; discriminate. }
        destruct C3 as [C3 C4]. pose proof (rint_kind _ NF C3) as K1. rewrite KF in K1.
        apply rptr_kind in C4. destruct C4 as [C4|C4].
        * rewrite KB in C4. destruct O; subst o.
          -- split; [rewrite K1, C4; reflexivity|]. unfold agrees; cbn [nt]. refine (conj NB (conj _ _)).
             ++ rewrite KB, C4. cbn [kindof]. rewrite K1, C4. reflexivity.
             ++ intros Q. cbn [has_zero]. rewrite (ZB Q). apply orb_true_r.
          -- exfalso. cbn [usual_operands] in UO. rewrite K1, C4 in UO. discriminate.
        * assert (K2 : kindof e2 = KInt) by (rewrite <- KB; apply oz_kind, C4). split.
          -- rewrite K1, K2. destruct O; subst; reflexivity.
          -- unfold agrees; cbn [nt]. refine (conj NB (conj _ _)).
             ++ rewrite KB, K2. destruct O; subst; cbn [kindof]; rewrite K1, K2; reflexivity.
             ++ intros Q. cbn [has_zero]. rewrite (ZB Q). apply orb_true_r.
      + destruct (checkNumerics o (Node (fixArr (nt n1)) (nv n1) (nn n1)) n2) as [m t] eqn:CN.
        inversion D; subst m n. clear D.
        destruct (ARITH o ltac:(tauto) v (Node (fixArr (nt n1)) (nv n1) (nn n1))) as (A1 & A2 & A3).
        * cbn [nt]. congruence.
        * exact NF.
        * cbn [nt]. intros Q. destruct (nt n1); try discriminate Q; reflexivity.
        * clear - UO O. destruct O; subst; cbn [usual_operands] in UO; apply andb_prop in UO; apply UO.
        * rewrite CN. reflexivity.
        * rewrite CN in A3. cbn [snd] in A3. split; [|exact A3].
          destruct O; subst; cbn [allowed]; rewrite A1, A2; reflexivity. }
  assert (BITS : forall o, shifting o = true \/ (o = Band \/ o = Bxor \/ o = Bor) -> ([], n) = bits fl o n1 n2 ->
     kindof e1 = KInt /\ kindof e2 = KInt /\ nt n <> OUnk /\ kind_type (nt n) = KInt /\
     (isOZ (nt n) = true -> has_zero (Bin o e1 e2) = true)).
  { intros o O D.
    assert (CI : checkIntegral fl n1 n2 = []).
    { pose proof (f_equal fst D) as M. unfold bits in M. cbv zeta in M.
      destruct (shifting o); cbn [fst] in M; symmetry in M; apply app_nil in M; destruct M as [M1 M2].
      - apply app_nil in M1. destruct M1 as [M1 M0]. apply emit_nil in M1. apply emit_nil in M0.
        destruct (negb (isUns (nt n1)) && negb (isNonNeg n1)); cbn [andb] in M0.
        + rewrite M0 in M2. exact M2.
        + rewrite M1 in M2. exact M2.
      - destruct (isUns (nt n1)); apply emit_nil in M1; rewrite M1 in M2; exact M2. }
    destruct (checkIntegral_silent _ _ NA NB CI) as [K1 K2].
    assert (TY : nt n = nt n1 \/ nt n = nt n2).
    { destruct O as [O|O].
      - left. pose proof (f_equal snd D) as M. unfold bits in M. cbv zeta in M. rewrite O in M. cbn [snd] in M. subst n. cbn [nt].
        match goal with |- match (if ?c then _ else _) with _ => _ end = _ => destruct c; [reflexivity|] end. rewrite CI. reflexivity.
      - assert (S : shifting o = false) by (destruct O as [|[|]]; subst; reflexivity).
        rewrite (bits_type _ _ _ _ _ S D). apply widest_one. }
    rewrite KA in K1. rewrite KB in K2. refine (conj K1 (conj K2 _)).
    destruct TY as [E|E]; rewrite E.
    - refine (conj NA (conj _ _)); [congruence|]. intros Q. cbn [has_zero]. rewrite (ZA Q). reflexivity.
    - refine (conj NB (conj _ _)); [congruence|]. intros Q. cbn [has_zero]. rewrite (ZB Q). apply orb_true_r. }
  assert (MULDIV : forall o, (o = Mul \/ o = Div) -> usual_operands o e1 e2 = true ->
    (exists v, fst (checkNumerics o n1 n2) = [] /\ n = Node (snd (checkNumerics o n1 n2)) v false) ->
    allowed o (kindof e1) (kindof e2) (null_constant e1) (null_constant e2) = true /\ agrees (Bin o e1 e2) n).
  { intros o O UO (v & F & ->). destruct (ARITH o ltac:(tauto) v n1 eq_refl NA (fun Q => Q)) as (A1 & A2 & A3).
    - clear - UO O. destruct O; subst; cbn [usual_operands] in UO; apply andb_prop in UO; apply UO.
    - exact F.
    - split; [|exact A3]. destruct O; subst; cbn [allowed]; rewrite A1, A2; reflexivity. }
  assert (CMP : compar op = true -> ([], n) = comparison fl pmatch voidn bv op n1 n2 ->
     allowed op (kindof e1) (kindof e2) (null_constant e1) (null_constant e2) = true /\ nt n = OBool).
  { intros CO D. pose proof (f_equal fst D) as M. pose proof (f_equal snd D) as N.
    unfold comparison in M, N. cbv zeta in M, N. cbn [fst snd] in M, N. split; [|subst n; reflexivity]. clear N D.
    symmetry in M. apply app_nil in M. destruct M as [_ M]. apply app_nil in M. destruct M as [M2 M].
    apply app_nil in M. destruct M as [M3 _]. apply emit_nil in M2. rewrite M2 in M3. cbn [orb] in M3.
    assert (AA : arithmetic (kindof e1) = true -> arithmetic (kindof e2) = true ->
       allowed op (kindof e1) (kindof e2) (null_constant e1) (null_constant e2) = true).
    { intros X Y. destruct op; try discriminate CO; cbn [allowed]; rewrite X, Y; reflexivity. }
    destruct (isRealNumeric fl (nt n1) && isRealNumeric fl (nt n2)) eqn:C1.
    - apply andb_prop in C1. destruct C1 as [C1 C2]. apply AA; [rewrite <- KA|rewrite <- KB]; apply rnum_kind; auto.
    - cbn [orb] in M3.
      destruct (isRealPtr (force fl (nt n1)) && isRealPtr (nt n2)) eqn:C2.
      + apply andb_prop in C2. destruct C2 as [P1 P2]. apply rptr_kind in P1. apply rptr_kind in P2.
        rewrite force_kind, KA in P1. rewrite KB in P2.
        destruct P1 as [P1|P1]; destruct P2 as [P2|P2].
        * destruct op; try discriminate CO; cbn [allowed]; rewrite P1, P2; reflexivity.
        * assert (K2 : kindof e2 = KInt) by (rewrite <- KB; apply oz_kind, P2). specialize (ZB P2).
          destruct op; try discriminate CO; cbn [usual_operands] in U; rewrite P1, K2 in U; cbn [kind_eqb andb negb] in U; try discriminate U;
            rewrite ZB in U; cbn [implb andb] in U; rewrite ?andb_true_r in U; rewrite P1, K2, U; cbn [allowed equality relational arithmetic]; rewrite ?orb_true_r; reflexivity.
        * apply force_oz in P1. assert (K1 : kindof e1 = KInt) by (rewrite <- KA; apply oz_kind, P1). specialize (ZA P1).
          destruct op; try discriminate CO; cbn [usual_operands] in U; rewrite P2, K1 in U; cbn [kind_eqb andb negb] in U; try discriminate U;
            rewrite ZA in U; cbn [implb andb] in U; rewrite P2, K1, U; cbn [allowed equality relational arithmetic]; rewrite ?orb_true_r; reflexivity.
        * apply force_oz in P1. apply AA; [rewrite <- KA|rewrite <- KB]; rewrite oz_kind; auto.
      + destruct (isRealNumeric fl (force fl (nt n1)) && isRealPtr (nt n2) || isRealPtr (force fl (nt n1)) && isRealNumeric fl (nt n2)).
        * rewrite ptrnum_on in M3. discriminate.
        * destruct (cn_kind op (Node (force fl (nt n1)) (nv n1) (nn n1)) n2 (force_unk _ NA) NB M3) as (A1 & A2 & _).
          cbn [nt] in A1. rewrite force_kind, KA in A1. rewrite KB in A2. apply AA; auto. }
  assert (BOOL : nt n = OBool -> kindof (Bin op e1 e2) = KInt -> agrees (Bin op e1 e2) n).
  { intros E K. unfold agrees. rewrite E. refine (conj _ (conj _ _)); [discriminate|rewrite K; reflexivity|discriminate]. }
  assert (LOG : ([], n) = logical fl n1 n2 -> scalar (kindof e1) && scalar (kindof e2) = true /\ nt n = OBool).
  { intros D. unfold logical in D. inversion D as [[M N]]. split; [|reflexivity].
    rewrite boolops_on in M. destruct (isRealBool fl (nt n1) && isRealBool fl (nt n2)) eqn:C1; [|discriminate].
    apply andb_prop in C1. destruct C1 as [C1 C2]. rewrite <- KA, <- KB, (rbool_kind _ NA C1), (rbool_kind _ NB C2). reflexivity. }
  destruct op.
  - destruct C as (v & _ & C). exact (ADD Add v ltac:(auto) U C).
  - destruct C as (v & _ & C). exact (ADD Sub v ltac:(auto) U C).
  - destruct C as (v & _ & C1 & C2). apply MULDIV; auto. exists v. auto.
  - destruct C as (v & _ & C1 & C2). apply MULDIV; auto. exists v. auto.
  - destruct C as (C1 & ->). symmetry in C1. destruct (checkIntegral_silent _ _ NA NB C1) as [K1 K2].
    rewrite KA in K1. rewrite KB in K2. cbn [allowed]. rewrite K1, K2. split; [reflexivity|].
    unfold agrees; cbn [nt kindof]. refine (conj NA (conj _ _)); [congruence|].
    intros Q. cbn [has_zero]. rewrite (ZA Q). reflexivity.
  - destruct (BITS Shl (or_introl eq_refl) C) as (K1 & K2 & K3). rewrite K1, K2. split; [reflexivity|exact K3].
  - destruct (BITS Shr (or_introl eq_refl) C) as (K1 & K2 & K3). rewrite K1, K2. split; [reflexivity|exact K3].
  - destruct (BITS Band ltac:(auto) C) as (K1 & K2 & K3). rewrite K1, K2. split; [reflexivity|exact K3].
  - destruct (BITS Bxor ltac:(auto) C) as (K1 & K2 & K3). rewrite K1, K2. split; [reflexivity|exact K3].
  - destruct (BITS Bor ltac:(auto) C) as (K1 & K2 & K3). rewrite K1, K2. split; [reflexivity|exact K3].
  - destruct (CMP eq_refl C) as [A1 A2]. split; [exact A1|auto].
  - destruct (CMP eq_refl C) as [A1 A2]. split; [exact A1|auto].
  - destruct (CMP eq_refl C) as [A1 A2]. split; [exact A1|auto].
  - destruct (CMP eq_refl C) as [A1 A2]. split; [exact A1|auto].
  - destruct (CMP eq_refl C) as [A1 A2]. split; [exact A1|auto].
  - destruct (CMP eq_refl C) as [A1 A2]. split; [exact A1|auto].
  - destruct (LOG C) as [A1 A2]. split; [exact A1|auto].
  - destruct (LOG C) as [A1 A2]. split; [exact A1|auto].
Qed.
Lemma silent_valid : forall e n, usual_expr e = true -> check e = Some ([], n) -> valid e = true /\ agrees e n.
Proof.
  induction e; intros n U H; cbn [usual_expr] in U.
  - cbn [Oper_model.check] in H. destruct (v <=? lmax); [|discriminate]. inversion H; subst; clear H.
    split; [reflexivity|]. unfold agrees; cbn [nt kindof has_zero].
    destruct (peq suffix P_INT && (v =? 0)) eqn:Z.
    + apply andb_prop in Z. destruct Z as [_ Z]. unfold typeofZero. destruct (_ || _).
      * refine (conj _ (conj eq_refl _)); [discriminate|auto].
      * refine (conj _ (conj eq_refl _)); discriminate.
    + refine (conj _ (conj _ _)); try discriminate. destruct suffix; try discriminate U; reflexivity.
  - cbn in H. inversion H; subst. split; [reflexivity|]. refine (conj _ (conj eq_refl _)); discriminate.
  - cbn in H. inversion H; subst. split; [reflexivity|]. refine (conj _ (conj _ _)); try discriminate.
    cbn. destruct p; try discriminate U; reflexivity.
  - cbn in H. inversion H; subst. split; [reflexivity|]. unfold agrees; cbn [nt kindof has_zero].
    refine (conj _ (conj eq_refl _)); destruct t; try discriminate.
  - cbn [Oper_model.check] in H. exact (IHe n U H).
  - destruct (check_un _ _ _ _ _ _ _ _ _ H) as (m1 & m2 & n1 & A & B & M).
    symmetry in M. apply app_nil in M. destruct M as [-> ->].
    destruct (IHe _ U A) as (V & NU & K & Z). cbn [valid]. rewrite V. cbn [andb]. rewrite <- K. clear IHe H A.
    unfold Oper_model.preop in B. destruct op.
    + destruct (isRealNumeric fl (nt n1)) eqn:R; [|rewrite strict_on in B; discriminate].
      destruct (invert lmax (nv n1)) as [[m v]|]; [|discriminate]. inversion B; subst.
      split; [apply rnum_kind; auto|]. refine (conj NU (conj K Z)).
    + destruct (isRealNumeric fl (nt n1)) eqn:R; [|rewrite strict_on in B; discriminate].
      inversion B; subst. split; [apply rnum_kind; auto|]. refine (conj NU (conj K Z)).
    + assert (B' : (if isRealBool fl (nt n1) then Some ([], Node (nt n1) VNone false)
             else Some (emit (fboolops fl && (negb (isRealPtr (nt n1)) || negb (fptrnegate fl))) MBoolOps, Node OBool VNone false)) = Some ([], n)).
      { destruct (nt n1); try congruence; exact B. }
      destruct (isRealBool fl (nt n1)) eqn:R.
      * inversion B'; subst. rewrite (rbool_kind _ NU R). split; [reflexivity|].
        unfold agrees; cbn [nt kindof has_zero]. refine (conj NU (conj (rbool_kind _ NU R) Z)).
      * inversion B' as [[M N]]. rewrite boolops_on in M. cbn [andb] in M. apply emit_nil in M.
        assert (P : isRealPtr (nt n1) = true) by (destruct (isRealPtr (nt n1)); [reflexivity|discriminate M]).
        split.
        -- apply rptr_kind in P. destruct P as [P|P]; [rewrite P; reflexivity|rewrite (oz_kind _ P); reflexivity].
        -- unfold agrees; cbn [nt kindof]. refine (conj _ (conj eq_refl _)); discriminate.
    + destruct (isRealInt fl (nt n1)) eqn:R; [|rewrite strict_on in B; discriminate].
      inversion B; subst. split; [cbn [allowed1]; rewrite (rint_kind _ NU R); reflexivity|]. refine (conj NU (conj K Z)).
  - destruct (check_bin _ _ _ _ _ _ _ _ _ _ H) as (m1 & m2 & m3 & n1 & n2 & A & B & C & M).
    symmetry in M. apply app_nil in M. destruct M as [-> M]. apply app_nil in M. destruct M as [-> ->].
    apply andb_prop in U. destruct U as [U U3]. apply andb_prop in U. destruct U as [U1 U2].
    destruct (IHe1 _ U1 A) as [V1 G1]. destruct (IHe2 _ U2 B) as [V2 G2].
    destruct (bin_agrees _ _ _ _ _ _ _ U3 G1 G2 C) as [AL AG].
    split; [|exact AG]. cbn [valid]. rewrite V1, V2, AL. reflexivity.
  - destruct (check_cast _ _ _ _ _ _ _ _ _ H) as (n1 & A & B & _).
    apply andb_prop in U. destruct U as [U1 U2]. destruct (IHe _ U1 A) as [V1 G1].
    split; [exact V1|]. unfold agrees. rewrite B. refine (conj _ (conj eq_refl _)); discriminate.
Qed.
End Check.
