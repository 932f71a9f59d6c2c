From Coq Require Import ZArith Bool List Lia ZifyBool.
From Verif Require Import Prim_model Oper_model Oper_spec Oper_proofs.
Import ListNotations.
Local Open Scope Z_scope.

Lemma peq_eq : forall a b, peq a b = true -> a = b.
Proof. intros a b. destruct a, b; intros H; try reflexivity; discriminate H. Qed.

Lemma in_emit : forall b m x, In x (emit b m) <-> b = true /\ x = m.
Proof. intros [|] m x; cbn; intuition congruence. Qed.

Section Check.
Variable fl : oflags.
Variable pmatch : oty -> oty -> bool.
Variable voidn : nat.
Variable lmax : Z.
Variable cut : Z -> Z.
Notation check := (check fl pmatch voidn lmax cut).
Notation binop := (binop fl pmatch voidn lmax cut).
Notation preop := (preop fl lmax).
Notation checkNumerics := (checkNumerics fl pmatch voidn).

(** ** Expressions with values have types *)
Definition valtype (t : oty) : bool := match t with OPrim _ | OBool | OZero _ _ => true | _ => false end.
Lemma force_val : forall t, valtype t = true -> valtype (force fl t) = true.
Proof. intros t H. destruct (force_one fl t) as [->|[->|(zp & zb & ->)]]; auto. Qed.
Lemma valtype_ptr : forall t, valtype t = true -> isPtrT t = false.
Proof. intros t; destruct t; auto; discriminate. Qed.
Lemma resolve_val : forall a b, valtype a = true -> valtype b = true -> valtype (resolve a b) = true.
Proof.
  intros a b A B. destruct (resolve_one a b) as [[->| ->]|[_ ->]]; auto.
Qed.
Lemma checkNumerics_val : forall op a b, compar op = false -> valtype (nt a) = true -> valtype (nt b) = true ->
  fst (checkNumerics op a b) = [] -> valtype (snd (checkNumerics op a b)) = true.
Proof.
  intros op a b NC A B. unfold Oper_model.checkNumerics. cbv zeta.
  destruct (negb (tmatch fl pmatch voidn (nt a) (nt b))).
  - destruct (_ && _).
    + intros _. cbn [snd]. destruct (isNumLit a); auto. destruct (isNumLit b); auto.
      destruct (bigger_one (nt a) (nt b)) as [->| ->]; auto.
    + destruct (ftype fl); cbn [fst snd]; [discriminate|]. intros _.
      destruct (bigger_one (nt a) (nt b)) as [->| ->]; auto.
  - destruct (_ && _).
    + intros _. cbn [snd]. apply resolve_val; apply force_val; assumption.
    + destruct (negb (fstrictops fl)); cbn [fst snd].
      * intros _. rewrite (valtype_ptr _ (force_val _ A)), (valtype_ptr _ B).
        apply resolve_val; [apply force_val|]; assumption.
      * rewrite NC. rewrite andb_false_r. cbn [andb]. discriminate.
Qed.
Lemma binop_val : forall bv op a b n, binop bv op a b = Some ([], n) ->
  valtype (nt a) = true -> valtype (nt b) = true -> valtype (nt n) = true.
Proof.
  intros bv op a b n H A B.
  destruct (binop_cases _ _ _ _ _ _ _ _ _ _ _ H) as [(_ & _ & _ & [E|E])|(_ & _ & C)];
    [rewrite E in A; discriminate|rewrite E in B; discriminate|].
  assert (FA : fixArr (nt a) = nt a) by (destruct (nt a); auto; discriminate).
  assert (AD : forall o v, (o = Add \/ o = Sub) -> ([], n) = additive fl pmatch voidn o a b v -> valtype (nt n) = true).
  { intros o v O D. unfold additive in D. cbv zeta in D. rewrite FA in D.
    destruct (isRealPtr (nt a) && _ && _); [inversion D; subst; exact A|].
    destruct (negb (isRealPtr (nt a)) && _ && _); [inversion D; subst; exact B|].
    pose proof (checkNumerics_val o (Node (nt a) (nv a) (nn a)) b) as K.
    destruct (checkNumerics o (Node (nt a) (nv a) (nn a)) b) as [m' t']. cbn [fst snd nt] in K.
    inversion D; subst; cbn [nt]. apply K; auto. destruct O as [->| ->]; reflexivity. }
  destruct op;
    try (destruct C as (v & _ & C); apply (AD _ _ (or_introl eq_refl) C); fail);
    try (destruct C as (v & _ & C); apply (AD _ _ (or_intror eq_refl) C); fail);
    try (destruct C as (v & _ & C1 & ->); cbn [nt]; apply checkNumerics_val; auto; fail);
    try (destruct C as [_ ->]; exact A);
    try (unfold comparison, logical in C; cbv zeta in C; inversion C; reflexivity).
  all: unfold bits in C; cbv zeta in C; cbn [shifting] in C; inversion C as [[Cm Cn]]; symmetry in Cm;
    apply app_nil in Cm; destruct Cm as [_ Cm2]; rewrite Cm2; cbn [nt]; auto;
    match goal with |- context [widest ?x ?y] => destruct (widest_one x y) as [->| ->]; auto end;
    match goal with |- valtype (if ?c then _ else _) = true => destruct c; auto end.
Qed.
Lemma eval_valtype : forall T ex env e n v, no_enum e = true -> check e = Some ([], n) ->
  eval T ex env e = Some v -> valtype (nt n) = true.
Proof.
  intros T ex env. induction e; intros n w N H E.
  - cbn [Oper_model.check] in H. destruct (v <=? lmax); inversion H; subst; cbn [nt].
    destruct (_ && _); [|reflexivity]. unfold typeofZero. destruct (_ || _); reflexivity.
  - cbn in H; inversion H; reflexivity.
  - cbn in H; inversion H; reflexivity.
  - cbn in *; inversion H; subst; cbn. destruct t; try discriminate; reflexivity.
  - cbn in *; eauto.
  - destruct (check_un _ _ _ _ _ _ _ _ _ H) as (m1 & m2 & n1 & A & B & M).
    symmetry in M. apply app_nil in M. destruct M as [-> ->].
    cbn [eval] in E. destruct (eval T ex env e) eqn:Eu; [|discriminate].
    destruct (preop_type _ _ _ _ _ _ B) as [P|[P|P]]; rewrite P; try reflexivity. eapply IHe; eauto.
  - destruct (check_bin _ _ _ _ _ _ _ _ _ _ H) as (m1 & m2 & m3 & n1 & n2 & A & B & C & M).
    symmetry in M. apply app_nil in M. destruct M as [-> M]. apply app_nil in M. destruct M as [-> ->].
    cbn [no_enum] in N. apply andb_prop in N. destruct N as [N1 N2].
    assert (D : op = Land \/ op = Lor \/ (op <> Land /\ op <> Lor))
      by (destruct op; auto; right; right; split; discriminate).
    destruct (binop_cases _ _ _ _ _ _ _ _ _ _ _ C) as [K|(_ & _ & K)].
    + destruct D as [->|[->|[D1 D2]]].
      * unfold Oper_model.binop in C. destruct (nt n1); try (destruct (nt n2)); inversion C; reflexivity.
      * unfold Oper_model.binop in C. destruct (nt n1); try (destruct (nt n2)); inversion C; reflexivity.
      * exfalso. rewrite eval_bin in E by assumption. apply bind2_some in E. destruct E as (a & b & Ea & Eb & _).
        pose proof (IHe1 _ _ N1 A Ea) as V1. pose proof (IHe2 _ _ N2 B Eb) as V2.
        destruct K as (_ & _ & _ & [K|K]); rewrite K in *; discriminate.
    + destruct D as [->|[->|[D1 D2]]].
      * unfold logical in K. inversion K; reflexivity.
      * unfold logical in K. inversion K; reflexivity.
      * rewrite eval_bin in E by assumption. apply bind2_some in E. destruct E as (a & b & Ea & Eb & _).
        apply (binop_val _ _ _ _ _ C); eauto.
  - destruct (check_cast _ _ _ _ _ _ _ _ _ H) as (n1 & A & B & _). rewrite B. reflexivity.
Qed.

(** ** Shifts and operators on bits *)
Lemma exact_left : forall T env op e1 e2, exact_constants T env (Bin op e1 e2) -> exact_constants T env e1.
Proof.
  intros T env op e1 e2 X. apply (exact_sub T env (Bin op e1 e2)); [|exact X].
  intros c I; cbn [subs]; right; apply in_or_app; auto.
Qed.
Lemma exact_right : forall T env op e1 e2, exact_constants T env (Bin op e1 e2) -> exact_constants T env e2.
Proof.
  intros T env op e1 e2 X. apply (exact_sub T env (Bin op e1 e2)); [|exact X].
  intros c I; cbn [subs]; right; apply in_or_app; auto.
Qed.
Lemma shift_nonneg : forall T env op e1 e2 n v w,
  fshiftneg fl = true -> fshiftimpl fl = true -> fbitwiseops fl = true -> op = Shl \/ op = Shr ->
  target_ok T -> well T env (Bin op e1 e2) = true -> safe T e1 = true -> safe T e2 = true ->
  no_enum (Bin op e1 e2) = true -> exact_constants T env (Bin op e1 e2) ->
  check (Bin op e1 e2) = Some ([], n) ->
  eval T false env e1 = Some v -> eval T false env e2 = Some w -> 0 <= v /\ 0 <= w.
Proof.
  intros T env op e1 e2 n v w F1 F2 F3 O OK W S1 S2 N X H Ev Ew.
  destruct (check_bin _ _ _ _ _ _ _ _ _ _ H) as (m1 & m2 & m3 & n1 & n2 & A & B & C & M).
  symmetry in M. apply app_nil in M. destruct M as [-> M]. apply app_nil in M. destruct M as [-> ->].
  cbn [no_enum well] in N, W. apply andb_prop in N. destruct N as [N1 N2].
  apply andb_prop in W. destruct W as [W1 W2].
  pose proof (exact_left _ _ _ _ _ X) as X1. pose proof (exact_right _ _ _ _ _ X) as X2.
  pose proof (eval_valtype _ _ _ _ _ _ N1 A Ev) as V1. pose proof (eval_valtype _ _ _ _ _ _ N2 B Ew) as V2.
  destruct (binop_cases _ _ _ _ _ _ _ _ _ _ _ C) as [(_ & _ & _ & [K|K])|(_ & _ & K)];
    [rewrite K in V1; discriminate|rewrite K in V2; discriminate|].
  assert (K' : ([], n) = bits fl op n1 n2) by (destruct O; subst; exact K). clear K.
  assert (SH : shifting op = true) by (destruct O; subst; reflexivity).
  unfold bits in K'. cbv zeta in K'. rewrite SH in K'. inversion K' as [[Km Kn]]. clear K' Kn.
  symmetry in Km. apply app_nil in Km. destruct Km as [Km _]. apply app_nil in Km. destruct Km as [Kr Kl].
  apply emit_nil in Kr. apply emit_nil in Kl. rewrite F1 in Kr. rewrite F2 in Kl. rewrite andb_true_r in Kr, Kl.
  split.
  - destruct (isUns (nt n1)) eqn:U.
    + exact (safe_uns fl pmatch voidn lmax cut F3 T env e1 n1 OK W1 S1 N1 X1 A U v Ev).
    + cbn [negb andb] in Kl. apply negb_false_iff in Kl.
      exact (nonneg_val fl pmatch voidn lmax cut T env e1 [] n1 v N1 X1 A Kl Ev).
  - destruct (isUns (nt n2)) eqn:U.
    + exact (safe_uns fl pmatch voidn lmax cut F3 T env e2 n2 OK W2 S2 N2 X2 B U w Ew).
    + cbn [negb andb] in Kr. apply negb_false_iff in Kr.
      exact (nonneg_val fl pmatch voidn lmax cut T env e2 [] n2 w N2 X2 B Kr Ew).
Qed.
Lemma bits_nonneg : forall T env op e1 e2 n v w,
  fbitwiseops fl = true -> op = Band \/ op = Bxor \/ op = Bor ->
  target_ok T -> well T env (Bin op e1 e2) = true -> safe T e1 = true -> safe T e2 = true ->
  no_enum (Bin op e1 e2) = true -> exact_constants T env (Bin op e1 e2) ->
  check (Bin op e1 e2) = Some ([], n) ->
  eval T false env e1 = Some v -> eval T false env e2 = Some w ->
  0 <= v /\ (constant e1 = false -> 0 <= w).
Proof.
  intros T env op e1 e2 n v w F3 O OK W S1 S2 N X H Ev Ew.
  destruct (check_bin _ _ _ _ _ _ _ _ _ _ H) as (m1 & m2 & m3 & n1 & n2 & A & B & C & M).
  symmetry in M. apply app_nil in M. destruct M as [-> M]. apply app_nil in M. destruct M as [-> ->].
  cbn [no_enum well] in N, W. apply andb_prop in N. destruct N as [N1 N2].
  apply andb_prop in W. destruct W as [W1 W2].
  pose proof (exact_left _ _ _ _ _ X) as X1. pose proof (exact_right _ _ _ _ _ X) as X2.
  pose proof (eval_valtype _ _ _ _ _ _ N1 A Ev) as V1. pose proof (eval_valtype _ _ _ _ _ _ N2 B Ew) as V2.
  destruct (binop_cases _ _ _ _ _ _ _ _ _ _ _ C) as [(_ & _ & _ & [K|K])|(_ & _ & K)];
    [rewrite K in V1; discriminate|rewrite K in V2; discriminate|].
  assert (K' : ([], n) = bits fl op n1 n2) by (destruct O as [|[|]]; subst; exact K). clear K.
  assert (SH : shifting op = false) by (destruct O as [|[|]]; subst; reflexivity).
  destruct (bits_silent fl F3 _ _ _ _ SH K') as (L & R & _).
  destruct L as [L|L].
  - split.
    + exact (safe_uns fl pmatch voidn lmax cut F3 T env e1 n1 OK W1 S1 N1 X1 A L v Ev).
    + intros _. destruct (R L) as [R'|R'].
      * exact (safe_uns fl pmatch voidn lmax cut F3 T env e2 n2 OK W2 S2 N2 X2 B R' w Ew).
      * exact (nonneg_val fl pmatch voidn lmax cut T env e2 [] n2 w N2 X2 B R' Ew).
  - split; [exact (nonneg_val fl pmatch voidn lmax cut T env e1 [] n1 v N1 X1 A L Ev)|].
    intros NC. exfalso. unfold isNonNeg in L. destruct (nv n1) as [|z|z|] eqn:V;
      try (rewrite (no_enum_type _ _ _ _ _ _ _ _ N1 A) in L; discriminate).
    rewrite (known_constant _ _ _ _ _ _ _ _ _ A V) in NC. discriminate.
Qed.

(** For variables the message is exact. *)
Lemma neg_exists : forall T p, target_ok T -> integer p = true -> uns T p = false ->
  inr T p (-1) = true.
Proof.
  intros T p OK I U. unfold inr, lo, hi. rewrite I, U. pose proof (half_pos T p OK). lia.
Qed.
Lemma checkIntegral_strict : forall a b x, In x (checkIntegral fl a b) -> x = MStrict.
Proof.
  intros a b x. unfold checkIntegral. destruct (_ && _); [intros []|]. intros H. apply in_emit in H. tauto.
Qed.
Lemma shift_variable : forall T op x p np y q nq m n,
  fshiftneg fl = true -> op = Shl \/ op = Shr -> target_ok T ->
  integer q = true -> q <> P_BOOL -> (q = P_CHAR -> charsigned T = true) ->
  check (Bin op (Var x (OPrim p) np) (Var y (OPrim q) nq)) = Some (m, n) ->
  (In MShiftNeg m <-> exists v, inr T q v = true /\ v < 0).
Proof.
  intros T op x p np y q nq m n F O OK I NB CH H.
  destruct (check_bin _ _ _ _ _ _ _ _ _ _ H) as (m1 & m2 & m3 & n1 & n2 & A & B & C & M).
  cbn in A, B. inversion A; inversion B; subst; clear A B H. cbn [app].
  assert (D : (m3, n) = bits fl op (Node (OPrim p) VNone np) (Node (OPrim q) VNone nq)).
  { destruct (binop_cases _ _ _ _ _ _ _ _ _ _ _ C) as [(_ & _ & _ & [K|K])|(_ & _ & K)];
      [discriminate K|discriminate K|]. destruct O; subst; exact K. }
  assert (SH : shifting op = true) by (destruct O; subst; reflexivity).
  unfold bits in D. cbv zeta in D. rewrite SH in D. apply (f_equal fst) in D. cbn [fst] in D. subst m3.
  cbn [isNonNeg isEnumT nt nv negb]. rewrite !andb_true_r, F, andb_true_r.
  assert (UQ : isUns (OPrim q) = uns T q).
  { destruct q; try discriminate I; cbn [isUns uns]; try reflexivity; [congruence|].
    rewrite CH; reflexivity. }
  rewrite UQ. destruct (uns T q) eqn:U; cbn [negb andb emit app].
  - split.
    + intros K. exfalso. apply in_app_or in K. destruct K as [K|K]; [apply in_emit in K; destruct K; discriminate|].
      match type of K with In _ (if ?c then _ else _) => destruct c; [exact K|] end. apply checkIntegral_strict in K. discriminate.
    + intros (v & V1 & V2). pose proof (inr_nonneg T q v U V1). lia.
  - split; [|intros _; left; reflexivity]. intros _. exists (-1). split; [|lia]. apply neg_exists; auto.
Qed.
End Check.
