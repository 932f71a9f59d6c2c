From Coq Require Import ZArith Bool List Lia ZifyBool.
From Verif Require Import Prim_model Oper_model Oper_spec.
Import ListNotations.
Local Open Scope Z_scope.

(** ** Ranges *)
Lemma pow_le : forall a b, 0 <= a <= b -> 2 ^ a <= 2 ^ b.
Proof. intros; apply Z.pow_le_mono_r; lia. Qed.
Lemma pow_pos : forall a, 0 <= a -> 1 <= 2 ^ a.
Proof. intros a H. pose proof (pow_le 0 a ltac:(lia)). rewrite Z.pow_0_r in H0. exact H0. Qed.
Lemma pow_succ : forall a, 1 <= a -> 2 ^ a = 2 * 2 ^ (a - 1).
Proof. intros a H. replace a with (Z.succ (a - 1)) at 1 by lia. apply Z.pow_succ_r; lia. Qed.
Lemma width_pos : forall T p, target_ok T -> 1 <= width T p.
Proof. intros T p (A & B & C & D). destruct p; cbn [width]; lia. Qed.
Lemma half_pos : forall T p, target_ok T -> 1 <= 2 ^ (width T p - 1).
Proof. intros. pose proof (width_pos T p H). apply pow_pos; lia. Qed.
Lemma width_pow : forall T p, target_ok T -> 2 ^ width T p = 2 * 2 ^ (width T p - 1).
Proof. intros. apply pow_succ, width_pos, H. Qed.

Lemma reduce_inr : forall T p v, target_ok T -> integer p = true -> inr T p (reduce T p v) = true.
Proof.
  intros T p v OK I. unfold inr, reduce, lo, hi. rewrite I.
  pose proof (width_pow T p OK). pose proof (half_pos T p OK).
  destruct (uns T p).
  - pose proof (Z.mod_pos_bound v (2 ^ width T p) ltac:(lia)). lia.
  - pose proof (Z.mod_pos_bound (v + 2 ^ (width T p - 1)) (2 ^ width T p) ltac:(lia)). lia.
Qed.
Lemma fit_inr : forall T x p v w, target_ok T -> fit T x p v = Some w -> inr T p w = true.
Proof.
  intros T x p v w OK. unfold fit. destruct (inr T p v) eqn:I.
  - intros H; inversion H; subst; exact I.
  - destruct x; [discriminate|]. destruct (integer p && uns T p) eqn:E; [|discriminate].
    intros H; inversion H; subst. apply reduce_inr; [exact OK|]. lia.
Qed.
Lemma inr_bool1 : forall T, inr T P_BOOL 1 = true.
Proof. reflexivity. Qed.
Lemma conv_inr : forall T x p v w, target_ok T -> conv T x p v = Some w -> inr T p w = true.
Proof.
  intros T x p v w OK. unfold conv. destruct (inr T p v) eqn:I.
  - intros H; inversion H; subst; exact I.
  - destruct x; [discriminate|]. destruct (integer p) eqn:E; [|discriminate].
    intros H; inversion H; subst. destruct p; try (apply reduce_inr; [exact OK|exact E]); reflexivity.
Qed.
Lemma inr_nonneg : forall T p v, uns T p = true -> inr T p v = true -> 0 <= v.
Proof. intros T p v U. unfold inr, lo. rewrite U. lia. Qed.
Lemma b2z_inr : forall T b, target_ok T -> inr T P_INT (b2z b) = true.
Proof.
  intros T b OK. unfold inr, lo, hi; cbn [uns integer andb].
  pose proof (pow_le 1 (width T P_INT - 1)). destruct OK as (A & B & C & D). cbn [width] in *.
  assert (2 ^ 1 = 2) by reflexivity. destruct b; cbn [b2z]; lia.
Qed.
Lemma inr_integer : forall T p v, inr T p v = true -> integer p = true.
Proof. intros T p v; unfold inr; lia. Qed.

Lemma promote_hi : forall T p, target_ok T -> integer p = true -> hi T p <= hi T (promote T p).
Proof.
  intros T p OK I. unfold promote. destruct (rank p <? 3) eqn:R; [|lia].
  destruct (hi T p <=? hi T P_INT) eqn:K; [lia|].
  clear K. unfold hi. cbn [uns]. destruct OK as (X & Y & Z & W).
  destruct p; try discriminate I; cbn [rank] in R; try lia; cbn [uns width];
  try (destruct (charsigned T); cbn [negb]);
  match goal with |- 2 ^ ?a - 1 <= 2 ^ ?b - 1 => pose proof (pow_le a b); lia end.
Qed.
Lemma promote_rank : forall T p, integer p = true -> integer (promote T p) = true /\ 3 <= rank (promote T p).
Proof.
  intros T p I. unfold promote. destruct (rank p <? 3) eqn:R.
  - destruct (hi T p <=? hi T P_INT); split; try reflexivity; cbn; lia.
  - split; [exact I|lia].
Qed.
Lemma usual_eq : forall T p q, integer p = true -> integer q = true ->
  usual T p q = usual_int T (promote T p) (promote T q).
Proof. intros T p q I J. destruct p; try discriminate; destruct q; try discriminate; reflexivity. Qed.
Lemma mixed_hi : forall T u s, uns T s = false -> 3 <= rank s -> integer s = true -> uns T u = true ->
  uns T (mixed T u s) = false -> hi T u <= hi T (mixed T u s) /\ mixed T u s = s.
Proof.
  intros T u s S R I U. unfold mixed. destruct (rank s <=? rank u); [congruence|].
  destruct (hi T u <=? hi T s) eqn:E; [split; [lia|reflexivity]|].
  destruct s; try discriminate; cbn in *; try lia; discriminate.
Qed.
Lemma signed_hi : forall T p q, target_ok T -> integer p = true -> integer q = true -> 3 <= rank p ->
  uns T p = false -> uns T q = false -> rank p < rank q -> hi T p <= hi T q.
Proof.
  intros T p q OK I J R U V L. destruct OK as (A & B & C & D).
  unfold hi. rewrite U, V.
  destruct p; try discriminate I; try discriminate U; cbn [rank] in *; try lia;
  destruct q; try discriminate J; try discriminate V; cbn [rank width] in *; try lia;
  match goal with |- 2 ^ ?a - 1 <= 2 ^ ?b - 1 => pose proof (pow_le a b); lia end.
Qed.
Lemma usual_int_hi : forall T p q, target_ok T -> integer p = true -> integer q = true ->
  3 <= rank p -> 3 <= rank q -> uns T (usual_int T p q) = false ->
  hi T p <= hi T (usual_int T p q) /\ hi T q <= hi T (usual_int T p q) /\ integer (usual_int T p q) = true.
Proof.
  intros T p q OK I J R S. unfold usual_int.
  destruct (uns T p) eqn:U, (uns T q) eqn:V.
  - destruct (rank p <? rank q); congruence.
  - intros H. destruct (mixed_hi T p q V S J U H) as [A B]. rewrite B in *. repeat split; auto; lia.
  - intros H. destruct (mixed_hi T q p U R I V H) as [A B]. rewrite B in *. repeat split; auto; lia.
  - destruct (rank p <? rank q) eqn:L; intros _; repeat split; auto; try lia.
    + apply signed_hi; auto; lia.
    + destruct (Z.eq_dec (rank p) (rank q)) as [E|N].
      * destruct p; try discriminate I; try discriminate U; cbn [rank] in *; try lia;
        destruct q; try discriminate J; try discriminate V; cbn [rank] in *; lia.
      * apply signed_hi; auto; lia.
Qed.
Lemma usual_hi : forall T p q, target_ok T -> integer p = true -> integer q = true ->
  uns T (usual T p q) = false ->
  hi T p <= hi T (usual T p q) /\ hi T q <= hi T (usual T p q) /\ integer (usual T p q) = true.
Proof.
  intros T p q OK I J. rewrite (usual_eq T p q I J). intros H.
  destruct (promote_rank T p I) as [A B]. destruct (promote_rank T q J) as [C D].
  destruct (usual_int_hi T (promote T p) (promote T q) OK A C B D H) as (E & F & G).
  pose proof (promote_hi T p OK I). pose proof (promote_hi T q OK J).
  repeat split; try exact G; lia.
Qed.
(** A value that is not negative stays so under the conversions of operands. *)
Lemma conv_nonneg : forall T x p v w, target_ok T -> 0 <= v ->
  (uns T p = true \/ v <= hi T p) -> conv T x p v = Some w -> 0 <= w.
Proof.
  intros T x p v w OK V H C. destruct (uns T p) eqn:U.
  - apply (inr_nonneg T p); [exact U|]. apply (conv_inr T x p v); auto.
  - destruct H as [H|H]; [discriminate|]. unfold conv in C.
    destruct (inr T p v) eqn:I; [inversion C; subst; exact V|].
    destruct x; [discriminate|]. destruct (integer p) eqn:J; [|discriminate].
    exfalso. unfold inr, lo in I. rewrite J, U in I. pose proof (half_pos T p OK). lia.
Qed.
Lemma fit_nonneg : forall T x p v w, target_ok T -> 0 <= v -> fit T x p v = Some w -> 0 <= w.
Proof.
  intros T x p v w OK V. unfold fit. destruct (inr T p v); [intros H; inversion H; subst; exact V|].
  destruct x; [discriminate|]. destruct (integer p && uns T p) eqn:E; [|discriminate].
  intros H; inversion H; subst. apply (inr_nonneg T p); [lia|]. apply reduce_inr; [exact OK|lia].
Qed.

(** ** Values lie in the range of their type *)
Lemma lit_type_inr : forall T d p v q, lit_type T d p v = Some q -> inr T q v = true.
Proof. intros T d p v q H. apply find_some in H. apply H. Qed.
Lemma eval_bin : forall T x env op e1 e2, op <> Land -> op <> Lor ->
  eval T x env (Bin op e1 e2) =
  bind2 (eval T x env e1) (eval T x env e2) (fun a b =>
    match op with
    | Shl | Shr =>
        bind2 (conv T x (promote T (ctypeof T e1)) a) (conv T x (promote T (ctypeof T e2)) b)
          (shift_val T x op (promote T (ctypeof T e1)))
    | _ => bind2 (conv T x (usual T (ctypeof T e1) (ctypeof T e2)) a)
                 (conv T x (usual T (ctypeof T e1) (ctypeof T e2)) b)
                 (arith_val T x op (usual T (ctypeof T e1) (ctypeof T e2)))
    end).
Proof. intros T x env op e1 e2 A B. destruct op; try congruence; reflexivity. Qed.
Lemma arith_val_inr : forall T x op p a b v, target_ok T -> arith_val T x op p a b = Some v ->
  inr T (if arith_op op then p else P_INT) v = true.
Proof.
  intros T x op p a b v OK H.
  destruct op; cbn [arith_op arith_val] in *;
    try (destruct (b =? 0); [discriminate|]);
    try (apply (fit_inr _ _ _ _ _ OK H)); try discriminate;
    inversion H; subst; apply b2z_inr; exact OK.
Qed.
Lemma shift_val_inr : forall T x op p a b v, target_ok T -> shift_val T x op p a b = Some v ->
  inr T p v = true.
Proof.
  intros T x op p a b v OK. unfold shift_val. destruct (_ || _); [discriminate|].
  destruct op; try (intros H; apply (fit_inr _ _ _ _ _ OK H)).
  destruct (a <? 0); [discriminate|]. intros H; apply (fit_inr _ _ _ _ _ OK H).
Qed.
Lemma bind2_some : forall a b k v, bind2 a b k = Some v ->
  exists x y, a = Some x /\ b = Some y /\ k x y = Some v.
Proof. intros [x|] [y|] k v H; try discriminate. exists x, y. auto. Qed.
Lemma eval_inr : forall T x env e v, target_ok T -> well T env e = true -> eval T x env e = Some v ->
  inr T (ctypeof T e) v = true.
Proof.
  intros T x env e v OK. revert v. induction e; intros w W H.
  - cbn [eval ctypeof] in *. destruct (lit_type T dec suffix v) eqn:L; [|discriminate].
    inversion H; subst. apply (lit_type_inr _ _ _ _ _ L).
  - cbn in *. inversion H; subst. lia.
  - discriminate.
  - cbn [eval ctypeof well] in *. destruct (integer (var_type t)) eqn:I; [|discriminate].
    inversion H; subst. destruct t; cbn [var_type] in *; try discriminate I; try exact W.
    destruct p; try discriminate I; exact W.
  - cbn in *. auto.
  - cbn [eval] in H. destruct (eval T x env e) as [u|] eqn:E; [|discriminate].
    cbn [well] in W. cbn zeta in H.
    destruct op; cbn [ctypeof]; try (destruct (conv T x (promote T (ctypeof T e)) u) eqn:C; [|discriminate]).
    + apply (fit_inr _ _ _ _ _ OK H).
    + inversion H; subst. apply (conv_inr _ _ _ _ _ OK C).
    + inversion H; subst. apply b2z_inr, OK.
    + apply (fit_inr _ _ _ _ _ OK H).
  - assert (D : op = Land \/ op = Lor \/ (op <> Land /\ op <> Lor))
      by (destruct op; auto; right; right; split; discriminate).
    destruct D as [D|[D|[D1 D2]]].
    + subst op. cbn [eval ctypeof arith_op] in *. destruct (eval T x env e1) as [a|]; [|discriminate].
      destruct (a =? 0); [inversion H; subst; apply (b2z_inr T false), OK|].
      destruct (eval T x env e2); [|discriminate]. inversion H; subst. apply b2z_inr, OK.
    + subst op. cbn [eval ctypeof arith_op] in *. destruct (eval T x env e1) as [a|]; [|discriminate].
      destruct (a =? 0); [|inversion H; subst; apply (b2z_inr T true), OK].
      destruct (eval T x env e2); [|discriminate]. inversion H; subst. apply b2z_inr, OK.
    + rewrite eval_bin in H by assumption. apply bind2_some in H. destruct H as (a & b & A & B & H).
      cbn [ctypeof].
      destruct op; try congruence; cbn [arith_op];
        apply bind2_some in H; destruct H as (a' & b' & A' & B' & H);
        try (apply (shift_val_inr _ _ _ _ _ _ _ OK H)); apply (arith_val_inr _ _ _ _ _ _ _ OK H).
  - cbn [eval ctypeof] in *. destruct (eval T x env e); [|discriminate]. apply (conv_inr _ _ _ _ _ OK H).
Qed.

(** ** What the checks compute *)
Section Check.
Variable fl : oflags.
Variable pmatch : oty -> oty -> bool.
Variable voidn : nat.
Variable lmax : Z.
Variable cut : Z -> Z.
Notation check := (check fl pmatch voidn lmax cut).
Notation binop := (binop fl pmatch voidn lmax cut).
Notation preop := (preop fl lmax).
Notation checkNumerics := (checkNumerics fl pmatch voidn).

Lemma check_un : forall op e m n, check (Un op e) = Some (m, n) ->
  exists m1 m2 n1, check e = Some (m1, n1) /\ preop op n1 = Some (m2, n) /\ m = m1 ++ m2.
Proof.
  intros op e m n H. cbn [Oper_model.check] in H. destruct (check e) as [[m1 n1]|]; [|discriminate].
  destruct (preop op n1) as [[m2 n2]|] eqn:P; [|discriminate].
  inversion H; subst. exists m1, m2, n1. auto.
Qed.
Lemma check_bin : forall op e1 e2 m n, check (Bin op e1 e2) = Some (m, n) ->
  exists m1 m2 m3 n1 n2, check e1 = Some (m1, n1) /\ check e2 = Some (m2, n2)
    /\ binop (isVar e1 || isVar e2) op n1 n2 = Some (m3, n) /\ m = m1 ++ m2 ++ m3.
Proof.
  intros op e1 e2 m n H. cbn [Oper_model.check] in H.
  destruct (check e1) as [[m1 n1]|]; [|discriminate].
  destruct (check e2) as [[m2 n2]|]; [|discriminate].
  destruct (binop (isVar e1 || isVar e2) op n1 n2) as [[m3 n3]|] eqn:P; [|discriminate].
  inversion H; subst. exists m1, m2, m3, n1, n2. auto.
Qed.
Lemma check_cast : forall p e m n, check (Cast p e) = Some (m, n) ->
  exists n1, check e = Some (m, n1) /\ nt n = OPrim p /\ nv n = nv n1.
Proof.
  intros p e m n H. cbn [Oper_model.check] in H. destruct (check e) as [[m1 n1]|]; [|discriminate].
  inversion H; subst. exists n1. auto.
Qed.

(** Known values. *)
Lemma long_some : forall z v, long lmax z = Some v -> v = VInt z /\ - lmax - 1 <= z <= lmax.
Proof.
  intros z v. unfold long. destruct (_ && _) eqn:E; [|discriminate].
  intros H; inversion H; subst. split; [reflexivity|lia].
Qed.
Definition value_of (op : bop) (x y : Z) : Z :=
  match op with Add => x + y | Sub => x - y | Mul => x * y | _ => Z.quot x y end.
Definition valued (op : bop) : bool := match op with Add | Sub | Mul | Div => true | _ => false end.
Lemma arith_int : forall op a b z, arith lmax cut op a b = Some (VInt z) ->
  exists x y, a = VInt x /\ b = VInt y /\ valued op = true /\ z = value_of op x y /\ (op = Div -> y <> 0).
Proof.
  intros op a b z H.
  destruct op; destruct a as [|x|x|], b as [|y|y|]; cbn [arith] in H; try discriminate;
    try (destruct (y =? 0) eqn:E; [discriminate|]); try discriminate;
    apply long_some in H; destruct H as [H _]; inversion H; subst;
    exists x, y; repeat split; try discriminate; lia.
Qed.
Lemma binop_cases : forall bv op a b m n, binop bv op a b = Some (m, n) ->
  (m = [] /\ nv n = VNone /\ (nt n = OUnk \/ nt n = OBool) /\ (nt a = OUnk \/ nt b = OUnk)) \/
  (nt a <> OUnk /\ nt b <> OUnk /\
   match op with
   | Mul | Div => exists v, arith lmax cut op (nv a) (nv b) = Some v /\
       m = fst (checkNumerics op a b) /\ n = Node (snd (checkNumerics op a b)) v false
   | Add | Sub => exists v, arith lmax cut op (nv a) (nv b) = Some v /\ (m, n) = additive fl pmatch voidn op a b v
   | Shl | Shr | Band | Bxor | Bor => (m, n) = bits fl op a b
   | Mod => m = checkIntegral fl a b /\ n = Node (match m with [] => nt a | _ => OUnk end) VNone false
   | Lt | Gt | Le | Ge | Eq | Ne => (m, n) = comparison fl pmatch voidn bv op a b
   | Land | Lor => (m, n) = logical fl a b
   end).
Proof.
  intros bv op a b m n H. unfold Oper_model.binop in H. cbv zeta in H.
  assert (X : (nt a = OUnk \/ nt b = OUnk) \/ (nt a <> OUnk /\ nt b <> OUnk)).
  { destruct (nt a); auto; destruct (nt b); auto; right; split; discriminate. }
  destruct X as [X|[X Y]].
  - left. assert (E : Some ([], Node (if match op with Land | Lor => true | _ => compar op end then OBool else OUnk) VNone false) = Some (m, n)).
    { destruct X as [X|X]; rewrite X in H; [exact H|]. destruct (nt a); exact H. }
    inversion E; subst. cbn [nv nt]. repeat split; auto. destruct (match op with Land | Lor => true | _ => compar op end); auto.
  - right. refine (conj X (conj Y _)).
    assert (E : match op with
      | Mul | Div => match arith lmax cut op (nv a) (nv b) with None => None
          | Some v => let '(m, t) := checkNumerics op a b in Some (m, Node t v false) end
      | Add | Sub => match arith lmax cut op (nv a) (nv b) with None => None
          | Some v => Some (additive fl pmatch voidn op a b v) end
      | Shl | Shr | Band | Bxor | Bor => Some (bits fl op a b)
      | Mod => Some (checkIntegral fl a b, Node (match checkIntegral fl a b with [] => nt a | _ => OUnk end) VNone false)
      | Lt | Gt | Le | Ge | Eq | Ne => Some (comparison fl pmatch voidn bv op a b)
      | Land | Lor => Some (logical fl a b)
      end = Some (m, n)).
    { destruct (nt a); try congruence; destruct (nt b); try congruence; exact H. }
    clear H. destruct op;
      try (destruct (arith lmax cut _ (nv a) (nv b)) as [v|]; [|discriminate]; exists v;
           split; [reflexivity|]; first [ destruct (checkNumerics _ a b) as [m' t'] eqn:C; inversion E; subst; auto
                                        | congruence ]);
      try congruence.
    inversion E; subst. split; reflexivity.
Qed.
Lemma additive_nv : forall op a b v m n, (m, n) = additive fl pmatch voidn op a b v -> nv n = v.
Proof.
  intros op a b v m n H. unfold additive in H. cbv zeta in H.
  destruct (isRealPtr (fixArr (nt a)) && _ && _); [inversion H; reflexivity|].
  destruct (negb (isRealPtr (fixArr (nt a))) && _ && _); [inversion H; reflexivity|].
  destruct (checkNumerics op _ b) as [m' t']. inversion H; reflexivity.
Qed.
Lemma bits_nv : forall op a b m n, (m, n) = bits fl op a b -> nv n = VNone.
Proof. intros op a b m n H. unfold bits in H. cbv zeta in H. destruct (shifting op); inversion H; reflexivity. Qed.
Lemma binop_int : forall bv op a b m n z, binop bv op a b = Some (m, n) -> nv n = VInt z ->
  exists x y, nv a = VInt x /\ nv b = VInt y /\ valued op = true /\ z = value_of op x y /\ (op = Div -> y <> 0).
Proof.
  intros bv op a b m n z H V. destruct (binop_cases _ _ _ _ _ _ H) as [(_ & E & _)|(_ & _ & C)]; [congruence|].
  destruct op;
    try (destruct C as (v & A & B); pose proof (additive_nv _ _ _ _ _ _ B); apply arith_int; congruence);
    try (destruct C as (v & A & B & D); subst n; cbn [nv] in V; apply arith_int; congruence);
    try (apply bits_nv in C; congruence);
    try (destruct C as [_ C]; subst n; discriminate);
    unfold comparison, logical in C; cbv zeta in C; inversion C; subst n; discriminate.
Qed.
Lemma preop_int : forall op a m n z, preop op a = Some (m, n) -> nv n = VInt z ->
  exists x, nv a = VInt x /\ ((op = Neg /\ z = - x) \/ (op = Pos /\ z = x)).
Proof.
  intros op a m n z H V. unfold Oper_model.preop in H. destruct op.
  - destruct (isRealNumeric fl (nt a)); [|inversion H; subst; discriminate].
    unfold invert in H. destruct (nv a) as [|x|x|] eqn:N; try (inversion H; subst; cbn [nv] in V; discriminate).
    destruct (long lmax (-1 * x)) eqn:L; [|discriminate]. inversion H; subst; cbn [nv] in V. subst m0.
    apply long_some in L. destruct L as [L _]. assert (Z : z = -1 * x) by congruence. clear - Z.
    exists x. split; [reflexivity|]. left. split; [reflexivity|lia].
  - destruct (isRealNumeric fl (nt a)); inversion H; subst; cbn [nv] in V; try discriminate.
    exists z. split; [exact V|]. right; auto.
  - destruct (nt a); try destruct (isRealBool _ _); inversion H; subst; discriminate.
  - destruct (isRealInt fl (nt a)); inversion H; subst; discriminate.
Qed.
Lemma known_constant : forall e m n z, check e = Some (m, n) -> nv n = VInt z -> constant e = true.
Proof.
  induction e; intros m n z H V.
  - reflexivity.
  - reflexivity.
  - reflexivity.
  - cbn in H; inversion H; subst; discriminate.
  - cbn [constant Oper_model.check] in *; eauto.
  - destruct (check_un _ _ _ _ H) as (m1 & m2 & n1 & A & B & _).
    destruct (preop_int _ _ _ _ _ B V) as (x & C & _). cbn [constant]. eauto.
  - destruct (check_bin _ _ _ _ _ H) as (m1 & m2 & m3 & n1 & n2 & A & B & C & _).
    destruct (binop_int _ _ _ _ _ _ _ C V) as (x & y & D & E & _). cbn [constant].
    apply andb_true_intro; split; eauto.
  - destruct (check_cast _ _ _ _ H) as (n1 & A & _ & B). cbn [constant]. rewrite B in V. eauto.
Qed.
Lemma conv_exact : forall T p v w, conv T true p v = Some w -> w = v.
Proof. intros T p v w. unfold conv. destruct (inr T p v); congruence. Qed.
Lemma fit_exact : forall T p v w, fit T true p v = Some w -> w = v.
Proof. intros T p v w. unfold fit. destruct (inr T p v); congruence. Qed.
Lemma known_exact : forall T env e m n z v, check e = Some (m, n) -> nv n = VInt z ->
  eval T true env e = Some v -> v = z.
Proof.
  intros T env. induction e; intros m n z w H V E.
  - cbn [Oper_model.check eval] in *. destruct (v <=? lmax); [|discriminate]. inversion H; subst; cbn [nv] in V.
    destruct (lit_type T dec suffix v); congruence.
  - cbn in H; inversion H; subst; discriminate.
  - cbn in H; inversion H; subst; discriminate.
  - cbn in H; inversion H; subst; discriminate.
  - cbn [Oper_model.check eval] in *; eauto.
  - destruct (check_un _ _ _ _ H) as (m1 & m2 & n1 & A & B & _).
    destruct (preop_int _ _ _ _ _ B V) as (x & C & D).
    cbn [eval] in E. destruct (eval T true env e) as [u|] eqn:U; [|discriminate]. cbv zeta in E.
    pose proof (IHe _ _ _ _ A C eq_refl). subst u.
    destruct D as [[-> ->]|[-> ->]];
      (destruct (conv T true (promote T (ctypeof T e)) x) eqn:K; [|discriminate]); apply conv_exact in K; subst.
    + apply fit_exact in E. exact E.
    + congruence.
  - destruct (check_bin _ _ _ _ _ H) as (m1 & m2 & m3 & n1 & n2 & A & B & C & _).
    destruct (binop_int _ _ _ _ _ _ _ C V) as (x & y & D & F & G & -> & NZ).
    rewrite eval_bin in E by (destruct op; discriminate).
    apply bind2_some in E. destruct E as (a & b & Ea & Eb & E).
    pose proof (IHe1 _ _ _ _ A D Ea). pose proof (IHe2 _ _ _ _ B F Eb). subst a b.
    destruct op; try discriminate G; apply bind2_some in E; destruct E as (a & b & Ca & Cb & E);
      apply conv_exact in Ca; apply conv_exact in Cb; subst a b; cbn [arith_val value_of] in *;
      try (apply fit_exact in E; exact E).
    destruct (y =? 0); [discriminate|]. apply fit_exact in E; exact E.
  - destruct (check_cast _ _ _ _ H) as (n1 & A & _ & B). rewrite B in V. cbn [eval] in E.
    destruct (eval T true env e) as [u|] eqn:U; [|discriminate]. apply conv_exact in E.
    pose proof (IHe _ _ _ _ A V eq_refl). congruence.
Qed.

(** Types of results. *)
Lemma resolve_one : forall a b, (resolve a b = a \/ resolve a b = b)
  \/ (isEnumT b = true /\ resolve a b = OPrim P_INT).
Proof.
  intros a b. unfold resolve. destruct (oeqb a b) eqn:E; [auto|]. cbv zeta.
  destruct a as [|p| |i|i|i|i|zp zb]; destruct b as [|q| |j|j|j|j|zq zc]; cbn [isEnumT]; auto;
    try (destruct p; cbn; auto; fail); try (destruct q; cbn; auto; fail).
  destruct p, q; cbn in E; try discriminate E; cbn; auto.
Qed.
Lemma resolve_uns : forall a b, isUns (resolve a b) = true -> isUns a = true \/ isUns b = true.
Proof.
  intros a b H. destruct (resolve_one a b) as [[E|E]|[_ E]]; rewrite E in H; auto. discriminate.
Qed.
Lemma bigger_one : forall a b, bigger a b = a \/ bigger a b = b.
Proof. intros a b. unfold bigger. destruct a; auto; destruct b; auto. destruct (_ <? _); auto. Qed.
Lemma widest_one : forall a b, widest a b = a \/ widest a b = b.
Proof. intros a b. unfold widest. destruct (_ || _); auto. Qed.
Lemma force_one : forall t, force fl t = t \/ force fl t = OPrim P_INT \/ (exists zp zb, force fl t = OZero zp zb).
Proof. intros t. destruct t; auto. destruct zb; cbn; auto. destruct (fboolint fl); auto. destruct zp; eauto. Qed.
Lemma checkNumerics_type : forall op a b,
  let t := snd (checkNumerics op a b) in
  t = nt a \/ t = nt b \/ t = OUnk \/ t = OPrim P_INT \/ (exists zp zb, t = OZero zp zb).
Proof.
  intros op a b. unfold Oper_model.checkNumerics. cbv zeta.
  destruct (negb (tmatch fl pmatch voidn (nt a) (nt b))).
  - destruct (_ && _).
    + cbn [snd]. destruct (isNumLit a); auto. destruct (isNumLit b); auto.
      destruct (bigger_one (nt a) (nt b)) as [->| ->]; auto.
    + destruct (ftype fl); cbn [snd]; auto. destruct (bigger_one (nt a) (nt b)) as [->| ->]; auto.
  - pose proof (force_one (nt a)) as FA. pose proof (force_one (nt b)) as FB.
    destruct (isRealNumeric fl (nt a) && isRealNumeric fl (nt b)).
    + cbn [snd]. destruct (resolve_one (force fl (nt a)) (force fl (nt b))) as [[->| ->]|[_ ->]]; intuition.
    + destruct (negb (fstrictops fl)); cbn [snd]; auto.
      destruct (isPtrT (force fl (nt a))).
      * destruct (_ && _); auto. destruct (isIntT _ _); auto.
      * destruct (isPtrT (nt b)); [destruct (isIntT _ _); auto|].
        destruct (resolve_one (force fl (nt a)) (nt b)) as [[->| ->]|[_ ->]]; intuition.
Qed.
(** A silent operator has a type that comes from its operands. *)
Definition from (a b t : oty) : Prop :=
  t = a \/ t = b \/ t = OUnk \/ t = OPrim P_INT \/ (exists i, t = OPtr i) \/ (exists zp zb, t = OZero zp zb).
Lemma app_nil : forall {X} (a b : list X), a ++ b = [] -> a = [] /\ b = [].
Proof. intros X a b H. apply app_eq_nil in H. exact H. Qed.
Lemma emit_nil : forall b m, emit b m = [] -> b = false.
Proof. intros [|] m; [discriminate|reflexivity]. Qed.
Lemma binop_type : forall bv op a b n, arith_op op = true -> binop bv op a b = Some ([], n) ->
  from (nt a) (nt b) (nt n) \/ nt n = OBool.
Proof.
  intros bv op a b n AO H. unfold from.
  destruct (binop_cases _ _ _ _ _ _ H) as [(_ & _ & [E|E] & _)|(_ & _ & C)]; [auto 10|auto 10|].
  destruct op; try discriminate AO.
  1,2: destruct C as (v & _ & C); unfold additive in C; cbv zeta in C;
    destruct (isRealPtr (fixArr (nt a)) && _ && _); [inversion C; subst; cbn [nt]; auto|];
    destruct (negb (isRealPtr (fixArr (nt a))) && _ && _); [inversion C; subst; cbn [nt]; auto|].
  - pose proof (checkNumerics_type Add (Node (fixArr (nt a)) (nv a) (nn a)) b) as K'; cbv zeta in K'.
    destruct (checkNumerics Add (Node (fixArr (nt a)) (nv a) (nn a)) b) as [m' t'].
    inversion C; subst. cbn [nt snd] in *.
    destruct K' as [->|[->|[->|[->|(zp & zb & ->)]]]]; eauto 10.
    destruct (nt a); cbn [fixArr]; auto. left; right; right; right; right; left. eauto.
  - pose proof (checkNumerics_type Sub (Node (fixArr (nt a)) (nv a) (nn a)) b) as K'; cbv zeta in K'.
    destruct (checkNumerics Sub (Node (fixArr (nt a)) (nv a) (nn a)) b) as [m' t'].
    inversion C; subst. cbn [nt snd] in *.
    destruct K' as [->|[->|[->|[->|(zp & zb & ->)]]]]; eauto 10.
    destruct (nt a); cbn [fixArr]; auto. left; right; right; right; right; left. eauto.
  - destruct C as (v & _ & _ & ->). cbn [nt].
    destruct (checkNumerics_type Mul a b) as [->|[->|[->|[->|(zp & zb & ->)]]]]; eauto 10.
  - destruct C as (v & _ & _ & ->). cbn [nt].
    destruct (checkNumerics_type Div a b) as [->|[->|[->|[->|(zp & zb & ->)]]]]; eauto 10.
  - destruct C as [C ->]. cbn [nt]. auto.
  - unfold bits in C. cbv zeta in C. cbn [shifting] in C. inversion C as [[Cm Cn]]. symmetry in Cm. clear C.
    apply app_nil in Cm. destruct Cm as [Cm Cm2]. subst n. cbn [nt].
    match goal with |- context [widest ?x ?y] => destruct (widest_one x y) as [->| ->]; auto end.
    rewrite Cm2. destruct (isUns (nt a)); cbn [negb andb] in *; auto.
    apply emit_nil in Cm. cbn [negb andb] in Cm. rewrite Cm. auto.
  - unfold bits in C. cbv zeta in C. cbn [shifting] in C. inversion C as [[Cm Cn]]. symmetry in Cm. clear C.
    apply app_nil in Cm. destruct Cm as [Cm Cm2]. subst n. cbn [nt].
    match goal with |- context [widest ?x ?y] => destruct (widest_one x y) as [->| ->]; auto end.
    rewrite Cm2. destruct (isUns (nt a)); cbn [negb andb] in *; auto.
    apply emit_nil in Cm. cbn [negb andb] in Cm. rewrite Cm. auto.
  - unfold bits in C. cbv zeta in C. cbn [shifting] in C. inversion C as [[Cm Cn]]. symmetry in Cm. clear C.
    apply app_nil in Cm. destruct Cm as [Cm Cm2]. subst n. cbn [nt].
    match goal with |- context [widest ?x ?y] => destruct (widest_one x y) as [->| ->]; auto end.
    rewrite Cm2. destruct (isUns (nt a)); cbn [negb andb] in *; auto.
    apply emit_nil in Cm. cbn [negb andb] in Cm. rewrite Cm. auto.
Qed.

Lemma uns_from : forall a b t, from a b t \/ t = OBool -> isUns t = true -> isUns a = true \/ isUns b = true.
Proof.
  intros a b t [[->|[->|[->|[->|[[i ->]|(zp & zb & ->)]]]]]| ->] H; auto; discriminate.
Qed.
Lemma lit_uns : forall T d p v q, isUns (OPrim p) = true -> suffix_ok p = true ->
  lit_type T d p v = Some q -> uns T q = true.
Proof.
  intros T d p v q U S H. apply find_some in H. destruct H as [H _].
  destruct p; try discriminate U; try discriminate S; cbn [candidates] in H;
    cbn [In] in H; intuition (subst; reflexivity).
Qed.
Lemma shift_type : forall op a b m n, shifting op = true -> (m, n) = bits fl op a b ->
  nt n = nt a \/ nt n = OUnk.
Proof.
  intros op a b m n S H. unfold bits in H. cbv zeta in H. rewrite S in H. inversion H; subst; cbn [nt].
  match goal with |- context [match ?x with [] => _ | _ => _ end] => destruct x; auto end.
Qed.
Lemma preop_type : forall op a m n, preop op a = Some (m, n) ->
  nt n = nt a \/ nt n = OPrim P_INT \/ nt n = OBool.
Proof.
  intros op a m n H. unfold Oper_model.preop in H. destruct op.
  - destruct (isRealNumeric fl (nt a)); [|inversion H; subst; auto].
    destruct (invert lmax (nv a)) as [[m' v]|]; [|discriminate]. inversion H; subst; auto.
  - destruct (isRealNumeric fl (nt a)); inversion H; subst; auto.
  - destruct (nt a); try destruct (isRealBool _ _); inversion H; subst; auto.
  - destruct (isRealInt fl (nt a)); inversion H; subst; auto.
Qed.

(** An operand splint takes to be unsigned is unsigned in C, when arithmetic keeps signs. *)
Lemma strict_uns : forall T env e n, well T env e = true -> strict T e = true ->
  check e = Some ([], n) -> isUns (nt n) = true -> forall ex v, eval T ex env e = Some v ->
  uns T (ctypeof T e) = true.
Proof.
  intros T env. induction e; intros n W S H U ex w E.
  - cbn [Oper_model.check eval ctypeof well] in *. destruct (v <=? lmax); [|discriminate].
    inversion H; subst; cbn [nt] in U.
    destruct (peq suffix P_INT && (v =? 0)); [unfold typeofZero in U; destruct (_ || _); discriminate|].
    destruct (lit_type T dec suffix v) eqn:L; [|discriminate]. apply (lit_uns _ _ _ _ _ U) in L; [exact L|lia].
  - cbn in H; inversion H; subst; discriminate.
  - cbn [Oper_model.check well] in *. inversion H; subst; cbn [nt] in U. destruct p; discriminate.
  - cbn [Oper_model.check well ctypeof eval] in *. inversion H; subst; cbn [nt] in U.
    destruct t; try discriminate U. cbn [var_type].
    destruct p; try discriminate U; try reflexivity. discriminate.
  - cbn [Oper_model.check well ctypeof eval strict] in *. eauto.
  - destruct (check_un _ _ _ _ H) as (m1 & m2 & n1 & A & B & M). symmetry in M. apply app_nil in M.
    destruct M as [-> ->]. cbn [eval] in E. destruct (eval T ex env e) as [u|] eqn:Eu; [|discriminate].
    assert (V : isUns (nt n1) = true).
    { destruct (preop_type _ _ _ _ B) as [P|[P|P]]; rewrite P in U; [exact U|discriminate|discriminate]. }
    cbn [well] in W. destruct op; cbn [strict ctypeof] in *; apply andb_prop in S; destruct S as [S1 S2];
      pose proof (IHe _ W S1 A V _ _ Eu) as K; rewrite K in S2; try discriminate; exact S2.
  - destruct (check_bin _ _ _ _ _ H) as (m1 & m2 & m3 & n1 & n2 & A & B & C & M).
    symmetry in M. apply app_nil in M. destruct M as [-> M]. apply app_nil in M. destruct M as [-> ->].
    cbn [well] in W. apply andb_prop in W. destruct W as [W1 W2].
    assert (D : arith_op op = true \/ shifting op = true \/ (compar op = true \/ op = Land \/ op = Lor))
      by (destruct op; cbn; auto).
    destruct D as [D|[D|D]].
    + assert (E' : exists a b, eval T ex env e1 = Some a /\ eval T ex env e2 = Some b).
      { rewrite eval_bin in E by (destruct op; discriminate). apply bind2_some in E.
        destruct E as (a & b & Ea & Eb & _). eauto. }
      destruct E' as (a & b & Ea & Eb).
      cbn [strict ctypeof] in *. rewrite D in *.
      apply andb_prop in S. destruct S as [S S3]. apply andb_prop in S. destruct S as [S1 S2].
      destruct (uns_from _ _ _ (binop_type _ _ _ _ _ D C) U) as [V|V].
      * rewrite (IHe1 _ W1 S1 A V _ _ Ea) in S3. exact S3.
      * rewrite (IHe2 _ W2 S2 B V _ _ Eb), orb_true_r in S3. exact S3.
    + assert (E' : exists a, eval T ex env e1 = Some a).
      { rewrite eval_bin in E by (destruct op; discriminate). apply bind2_some in E.
        destruct E as (a & b & Ea & Eb & _). eauto. }
      destruct E' as (a & Ea).
      assert (V : isUns (nt n1) = true).
      { destruct (binop_cases _ _ _ _ _ _ C) as [(_ & _ & [F|F] & _)|(_ & _ & F)];
          [rewrite F in U; discriminate|rewrite F in U; discriminate|].
        assert (G : ([], n) = bits fl op n1 n2) by (destruct op; try discriminate D; exact F).
        destruct (shift_type _ _ _ _ _ D G) as [K|K]; rewrite K in U; [exact U|discriminate]. }
      destruct op; try discriminate D; cbn [strict ctypeof arith_op] in *; apply andb_prop in S; destruct S as [S1 S2];
        rewrite (IHe1 _ W1 S1 A V _ _ Ea) in S2; exact S2.
    + exfalso. destruct (binop_cases _ _ _ _ _ _ C) as [(_ & _ & [F|F] & _)|(_ & _ & F)];
        [rewrite F in U; discriminate|rewrite F in U; discriminate|].
      destruct D as [D|[D|D]]; [destruct op; try discriminate D| |]; subst;
        unfold comparison, logical in F; cbv zeta in F; inversion F; subst n; discriminate.
  - destruct (check_cast _ _ _ _ H) as (n1 & A & B & _). rewrite B in U. cbn [ctypeof well] in *.
    destruct p; try discriminate U; try reflexivity. discriminate.
Qed.

Lemma no_enum_type : forall e m n, no_enum e = true -> check e = Some (m, n) -> isEnumT (nt n) = false.
Proof.
  induction e; intros m n N H.
  - cbn [Oper_model.check] in H. destruct (v <=? lmax); inversion H; subst; cbn [nt].
    destruct (_ && _); [|reflexivity]. unfold typeofZero. destruct (_ || _); reflexivity.
  - cbn in H; inversion H; subst; reflexivity.
  - cbn in H; inversion H; subst; reflexivity.
  - cbn in *; inversion H; subst. cbn [nt]. destruct t; try reflexivity. discriminate.
  - cbn in *; eauto.
  - destruct (check_un _ _ _ _ H) as (m1 & m2 & n1 & A & B & _).
    destruct (preop_type _ _ _ _ B) as [P|[P|P]]; rewrite P; try reflexivity. cbn in N. eauto.
  - destruct (check_bin _ _ _ _ _ H) as (m1 & m2 & m3 & n1 & n2 & A & B & C & _).
    cbn [no_enum] in N. apply andb_prop in N. destruct N as [N1 N2].
    pose proof (IHe1 _ _ N1 A) as P. pose proof (IHe2 _ _ N2 B) as Q.
    destruct (binop_cases _ _ _ _ _ _ C) as [(_ & _ & [F|F] & _)|(_ & _ & F)];
      [rewrite F; reflexivity|rewrite F; reflexivity|].
    destruct op.
    1,2: destruct F as (v & _ & F); unfold additive in F; cbv zeta in F;
      destruct (isRealPtr (fixArr (nt n1)) && _ && _); [inversion F; subst; exact P|];
      destruct (negb (isRealPtr (fixArr (nt n1))) && _ && _); [inversion F; subst; exact Q|].
    1: pose proof (checkNumerics_type Add (Node (fixArr (nt n1)) (nv n1) (nn n1)) n2) as K; cbv zeta in K;
       destruct (checkNumerics Add (Node (fixArr (nt n1)) (nv n1) (nn n1)) n2) as [m' t'];
       inversion F; subst; cbn [nt snd] in *; destruct K as [->|[->|[->|[->|(zp & zb & ->)]]]]; auto;
       destruct (nt n1); auto.
    1: pose proof (checkNumerics_type Sub (Node (fixArr (nt n1)) (nv n1) (nn n1)) n2) as K; cbv zeta in K;
       destruct (checkNumerics Sub (Node (fixArr (nt n1)) (nv n1) (nn n1)) n2) as [m' t'];
       inversion F; subst; cbn [nt snd] in *; destruct K as [->|[->|[->|[->|(zp & zb & ->)]]]]; auto;
       destruct (nt n1); auto.
    1: destruct F as (v & _ & _ & ->); cbn [nt]; destruct (checkNumerics_type Mul n1 n2) as [->|[->|[->|[->|(zp & zb & ->)]]]]; auto.
    1: destruct F as (v & _ & _ & ->); cbn [nt]; destruct (checkNumerics_type Div n1 n2) as [->|[->|[->|[->|(zp & zb & ->)]]]]; auto.
    1: destruct F as [_ ->]; cbn [nt]; destruct m3; auto.
    1: destruct (shift_type Shl _ _ _ _ eq_refl F) as [->| ->]; auto.
    1: destruct (shift_type Shr _ _ _ _ eq_refl F) as [->| ->]; auto.
    1,2,3: unfold bits in F; cbv zeta in F; cbn [shifting] in F; inversion F; subst; cbn [nt];
      match goal with |- context [widest ?x ?y] => destruct (widest_one x y) as [->| ->]; auto end;
      match goal with |- context [match ?x with [] => _ | _ => _ end] => destruct x; auto end;
      match goal with |- context [if ?x then _ else _] => destruct x; auto end.
    all: unfold comparison, logical in F; cbv zeta in F; inversion F; subst n; reflexivity.
  - destruct (check_cast _ _ _ _ H) as (n1 & A & B & _). rewrite B. reflexivity.
Qed.

(** A known value that is not negative is not negative in C. *)
Lemma nonneg_val : forall T env e m n v, no_enum e = true -> exact_constants T env e ->
  check e = Some (m, n) -> isNonNeg n = true -> eval T false env e = Some v -> 0 <= v.
Proof.
  intros T env e m n v N X H P E. unfold isNonNeg in P. destruct (nv n) as [|z|z|] eqn:V.
  - rewrite (no_enum_type _ _ _ N H) in P. discriminate.
  - pose proof (known_constant _ _ _ _ H V) as K.
    assert (In e (subs e)) by (destruct e; cbn; auto).
    pose proof (known_exact T env e m n z v H V (X e v H0 K E)). lia.
  - rewrite (no_enum_type _ _ _ N H) in P. discriminate.
  - rewrite (no_enum_type _ _ _ N H) in P. discriminate.
Qed.
Lemma exact_sub : forall T env e e', (forall c, In c (subs e') -> In c (subs e)) ->
  exact_constants T env e -> exact_constants T env e'.
Proof. intros T env e e' S X c v I. apply X, S, I. Qed.

Hypothesis bitwise_on : fbitwiseops fl = true.

(** The operands of a silent operator on bits are not both unchecked. *)
Lemma bits_silent : forall op a b n, shifting op = false -> ([], n) = bits fl op a b ->
  (isUns (nt a) = true \/ isNonNeg a = true) /\
  (isUns (nt a) = true -> isUns (nt b) = true \/ isNonNeg b = true) /\
  (nt n = nt a \/ nt n = nt b).
Proof.
  intros op a b n S H. unfold bits in H. cbv zeta in H. rewrite S, bitwise_on in H.
  inversion H as [[Hm Hn]]. clear H Hn. symmetry in Hm. apply app_nil in Hm. destruct Hm as [Hm Hm2]. rewrite Hm2.
  destruct (isUns (nt a)) eqn:U; apply emit_nil in Hm; cbn [negb andb] in *.
  - refine (conj (or_introl eq_refl) (conj _ (widest_one _ _))). intros _. lia.
  - rewrite Hm. refine (conj _ (conj _ (widest_one _ _))); [lia|discriminate].
Qed.

Lemma safe_uns : forall T env e n, target_ok T -> well T env e = true -> safe T e = true ->
  no_enum e = true -> exact_constants T env e ->
  check e = Some ([], n) -> isUns (nt n) = true -> forall v, eval T false env e = Some v -> 0 <= v.
Proof.
  intros T env e n OK. revert n. induction e; intros n W S N X H U w E;
    match type of S with safe T ?e0 = true => destruct (strict T e0) eqn:St;
      [apply (inr_nonneg T (ctypeof T e0));
        [eapply strict_uns; eauto|apply (eval_inr T false env); auto]|]
    end; cbn [safe] in S; rewrite St in S; cbn [orb] in S; try discriminate S.
  - cbn [Oper_model.check well eval no_enum] in *. eapply IHe; eauto.
    apply (exact_sub T env (Paren e)); [intros c I; right; exact I|exact X].
  - destruct op; try discriminate S. cbn [eval] in E. destruct (eval T false env e); [|discriminate].
    cbv zeta in E. inversion E; subst. unfold b2z. match goal with |- context [if ?c then _ else _] => destruct c; lia end.
  - destruct (check_bin _ _ _ _ _ H) as (m1 & m2 & m3 & n1 & n2 & A & B & C & M).
    symmetry in M. apply app_nil in M. destruct M as [-> M]. apply app_nil in M. destruct M as [-> ->].
    cbn [well no_enum] in W, N. apply andb_prop in W. destruct W as [W1 W2].
    apply andb_prop in N. destruct N as [N1 N2].
    assert (X1 : exact_constants T env e1).
    { apply (exact_sub T env (Bin op e1 e2)); [|exact X]. intros c I; cbn [subs]; right; apply in_or_app; auto. }
    assert (X2 : exact_constants T env e2).
    { apply (exact_sub T env (Bin op e1 e2)); [|exact X]. intros c I; cbn [subs]; right; apply in_or_app; auto. }
    rewrite eval_bin in E by (destruct op; discriminate). apply bind2_some in E.
    destruct E as (a & b & Ea & Eb & E).
    pose proof (eval_inr T false env e1 a OK W1 Ea) as R1.
    pose proof (eval_inr T false env e2 b OK W2 Eb) as R2.
    pose proof (inr_integer _ _ _ R1) as I1. pose proof (inr_integer _ _ _ R2) as I2.
    assert (UH : uns T (usual T (ctypeof T e1) (ctypeof T e2)) = true \/
                 (a <= hi T (usual T (ctypeof T e1) (ctypeof T e2)) /\ b <= hi T (usual T (ctypeof T e1) (ctypeof T e2)))).
    { destruct (uns T (usual T (ctypeof T e1) (ctypeof T e2))) eqn:G; [auto|right].
      destruct (usual_hi T _ _ OK I1 I2 G) as (G1 & G2 & _). unfold inr in R1, R2. clear - G1 G2 R1 R2. lia. }
    assert (BITS : forall o, shifting o = false -> ([], n) = bits fl o n1 n2 -> safe T e1 = true -> safe T e2 = true -> 0 <= a /\ 0 <= b).
    { intros o So F S1 S2. destruct (bits_silent _ _ _ _ So F) as (L & R & Ty).
      destruct L as [L|L].
      - split; [exact (IHe1 n1 W1 S1 N1 X1 A L a Ea)|]. destruct (R L) as [R'|R'].
        + exact (IHe2 n2 W2 S2 N2 X2 B R' b Eb).
        + exact (nonneg_val T env e2 [] n2 b N2 X2 B R' Eb).
      - split; [exact (nonneg_val T env e1 [] n1 a N1 X1 A L Ea)|].
        destruct Ty as [Ty|Ty]; rewrite Ty in U.
        + destruct (R U) as [R'|R'].
          * exact (IHe2 n2 W2 S2 N2 X2 B R' b Eb).
          * exact (nonneg_val T env e2 [] n2 b N2 X2 B R' Eb).
        + exact (IHe2 n2 W2 S2 N2 X2 B U b Eb). }
    destruct (binop_cases _ _ _ _ _ _ C) as [(_ & _ & [F|F] & _)|(_ & _ & F)];
      [rewrite F in U; discriminate|rewrite F in U; discriminate|].
    destruct op; try discriminate S; apply bind2_some in E; destruct E as (a' & b' & Ca & Cb & E).
    + destruct F as [Fm Fn]. subst n. cbn [nt] in U.
      assert (0 <= a) by (eapply IHe1; eauto).
      assert (0 <= a') by (apply (conv_nonneg _ _ _ _ _ OK H0) in Ca; [exact Ca|destruct UH as [|[? ?]]; auto]).
      cbn [arith_val] in E. destruct (b' =? 0) eqn:Z0; [discriminate|].
      apply (fit_nonneg T false _ (Z.rem a' b')) in E; [exact E|exact OK|].
      apply Z.rem_nonneg; [clear - Z0; lia|exact H1].
    + assert (V : isUns (nt n1) = true).
      { destruct (shift_type Shl _ _ _ _ eq_refl F) as [K|K]; rewrite K in U; [exact U|discriminate]. }
      assert (0 <= a) by (eapply IHe1; eauto).
      unfold shift_val in E. destruct ((b' <? 0) || _) eqn:Z0; [discriminate|].
      destruct (a' <? 0) eqn:Z1; [discriminate|].
      apply (fit_nonneg T false _ (a' * 2 ^ b')) in E; [exact E|exact OK|].
      pose proof (pow_pos b'). clear - H1 Z0 Z1. nia.
    + assert (V : isUns (nt n1) = true).
      { destruct (shift_type Shr _ _ _ _ eq_refl F) as [K|K]; rewrite K in U; [exact U|discriminate]. }
      assert (0 <= a) by (eapply IHe1; eauto).
      assert (0 <= a').
      { apply (conv_nonneg _ _ _ _ _ OK H0) in Ca; [exact Ca|].
        destruct (uns T (promote T (ctypeof T e1))); [auto|right].
        pose proof (promote_hi T _ OK I1) as PH. unfold inr in R1. clear - PH R1. lia. }
      unfold shift_val in E. destruct ((b' <? 0) || _) eqn:Z0; [discriminate|].
      apply (fit_nonneg T false _ (Z.shiftr a' b')) in E; [exact E|exact OK|].
      apply Z.shiftr_nonneg. exact H1.
    + apply andb_prop in S. destruct S as [S1 S2]. destruct (BITS Band eq_refl F S1 S2) as [P Q].
      apply (conv_nonneg _ _ _ _ _ OK P) in Ca; [|destruct UH as [|[? ?]]; auto].
      apply (conv_nonneg _ _ _ _ _ OK Q) in Cb; [|destruct UH as [|[? ?]]; auto].
      apply (fit_nonneg T false _ _ _ OK) in E; [exact E|]. apply Z.land_nonneg; auto.
    + apply andb_prop in S. destruct S as [S1 S2]. destruct (BITS Bxor eq_refl F S1 S2) as [P Q].
      apply (conv_nonneg _ _ _ _ _ OK P) in Ca; [|destruct UH as [|[? ?]]; auto].
      apply (conv_nonneg _ _ _ _ _ OK Q) in Cb; [|destruct UH as [|[? ?]]; auto].
      apply (fit_nonneg T false _ _ _ OK) in E; [exact E|]. apply Z.lxor_nonneg; tauto.
    + apply andb_prop in S. destruct S as [S1 S2]. destruct (BITS Bor eq_refl F S1 S2) as [P Q].
      apply (conv_nonneg _ _ _ _ _ OK P) in Ca; [|destruct UH as [|[? ?]]; auto].
      apply (conv_nonneg _ _ _ _ _ OK Q) in Cb; [|destruct UH as [|[? ?]]; auto].
      apply (fit_nonneg T false _ _ _ OK) in E; [exact E|]. apply Z.lor_nonneg; auto.
Qed.
End Check.
