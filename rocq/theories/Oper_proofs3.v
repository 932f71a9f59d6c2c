From Coq Require Import ZArith Bool List Lia ZifyBool.
From Verif Require Import Prim_model Oper_model Oper_spec Oper_proofs Oper_proofs2.
Import ListNotations.
Local Open Scope Z_scope.

Section Check.
Variable fl : oflags.
Variable pmatch : oty -> oty -> bool.
Variable voidn : nat.
Variable lmax : Z.
Variable cut : Z -> Z.
Notation check := (check fl pmatch voidn lmax cut).
Notation binop := (binop fl pmatch voidn lmax cut).
Notation preop := (preop fl lmax).
Notation checkNumerics := (checkNumerics fl pmatch voidn).

(** ** Types of one signedness *)
Definition up (p q : cprim) : cprim := if rank p <? rank q then q else p.
Lemma promote_plain : forall T u p, plain_type u p = true -> promote T p = p.
Proof. intros T u p H. destruct p; try discriminate H; reflexivity. Qed.
Lemma usual_plain : forall T u p q, plain_type u p = true -> plain_type u q = true -> usual T p q = up p q.
Proof.
  intros T u p q P Q. destruct u, p; try discriminate P; destruct q; try discriminate Q; reflexivity.
Qed.
Lemma up_plain : forall u p q, plain_type u p = true -> plain_type u q = true -> plain_type u (up p q) = true.
Proof. intros u p q P Q. unfold up. destruct (_ <? _); auto. Qed.
Lemma cn_plain : forall u op p va na q vb nb,
  plain_type u p = true -> plain_type u q = true ->
  (forall z, va = VInt z -> p = base u) -> (forall z, vb = VInt z -> q = base u) ->
  checkNumerics op (Node (OPrim p) va na) (Node (OPrim q) vb nb) = ([], OPrim (up p q)).
Proof.
  intros u op p va na q vb nb P Q A B. unfold Oper_model.checkNumerics, isNumLit. cbn [nt nv].
  destruct (tmatch fl pmatch voidn (OPrim p) (OPrim q)) eqn:M; cbn [negb].
  - clear A B. destruct u, p; try discriminate P; destruct q; try discriminate Q; reflexivity.
  - destruct va as [|za|za|].
    2: { specialize (A _ eq_refl). subst p. destruct u, q; try discriminate Q; reflexivity. }
    all: clear A; destruct vb as [|zb|zb|];
      try (specialize (B _ eq_refl); subst q); try clear B;
      destruct u, p; try discriminate P; try (destruct q; try discriminate Q); reflexivity.
Qed.
Lemma widest_plain : forall u p q, plain_type u p = true -> plain_type u q = true ->
  widest (OPrim p) (OPrim q) = OPrim (up p q).
Proof.
  intros u p q P Q. destruct u, p; try discriminate P; destruct q; try discriminate Q; reflexivity.
Qed.
Lemma bits_type : forall op a b n, shifting op = false -> ([], n) = bits fl op a b -> nt n = widest (nt a) (nt b).
Proof.
  intros op a b n S K. unfold bits in K. cbv zeta in K. rewrite S in K.
  pose proof (f_equal fst K) as Km. pose proof (f_equal snd K) as Kn. cbn [fst snd] in Km, Kn. clear K.
  symmetry in Km. apply app_nil in Km. destruct Km as [Km Km2]. rewrite Km2 in Kn. subst n. cbn [nt]. f_equal.
  destruct (isUns (nt a)); cbn [negb andb] in *; [reflexivity|]. apply emit_nil in Km. rewrite Km. reflexivity.
Qed.
Lemma up_base : forall u, up (base u) (base u) = base u.
Proof. intros [|]; reflexivity. Qed.
Lemma plain_types : forall T u e n, plain T u e = true -> check e = Some ([], n) ->
  nt n = OPrim (ctypeof T e) /\ plain_type u (ctypeof T e) = true
  /\ (forall z, nv n = VInt z -> ctypeof T e = base u).
Proof.
  intros T u. induction e; intros n P H; cbn [plain] in P; try discriminate P.
  - cbn [Oper_model.check] in H. destruct (v <=? lmax); [|discriminate]. inversion H; subst; clear H. cbn [nt nv ctypeof].
    apply andb_prop in P. destruct P as [P L]. apply andb_prop in P. destruct P as [P V].
    destruct (lit_type T dec suffix v) as [q|]; [|discriminate]. apply peq_eq in P. apply peq_eq in L. subst.
    assert (Z : (v =? 0) = false) by (clear - V; lia). rewrite Z, andb_false_r.
    destruct u; auto.
  - destruct t; try discriminate P. cbn in H. inversion H; subst; cbn [nt nv ctypeof var_type].
    repeat split; auto. intros; discriminate.
  - cbn [Oper_model.check] in H. exact (IHe n P H).
  - destruct (check_un _ _ _ _ _ _ _ _ _ H) as (m1 & m2 & n1 & A & B & M).
    symmetry in M. apply app_nil in M. destruct M as [-> ->].
    destruct op; try discriminate P; destruct (IHe _ P A) as (I1 & I2 & I3); cbn [ctypeof];
      rewrite (promote_plain T u _ I2); unfold Oper_model.preop in B; rewrite I1 in B.
    + assert (R : isRealNumeric fl (OPrim (ctypeof T e)) = true) by (destruct u, (ctypeof T e); try discriminate I2; reflexivity).
      rewrite R in B. destruct (invert lmax (nv n1)) as [[m' v]|] eqn:IV; [|discriminate]. inversion B; subst; cbn [nt nv].
      refine (conj eq_refl (conj I2 _)). intros z ->. unfold invert in IV.
      destruct (nv n1) eqn:NV; try discriminate. eauto.
    + assert (R : isRealNumeric fl (OPrim (ctypeof T e)) = true) by (destruct u, (ctypeof T e); try discriminate I2; reflexivity).
      rewrite R in B. inversion B; subst; cbn [nt nv]. auto.
    + assert (R : isRealInt fl (OPrim (ctypeof T e)) = true) by (destruct u, (ctypeof T e); try discriminate I2; reflexivity).
      rewrite R in B. inversion B; subst; cbn [nt nv]. repeat split; auto. intros; discriminate.
  - assert (O : match op with Add | Sub | Mul | Div | Mod | Shl | Shr | Band | Bxor | Bor => True | _ => False end)
      by (destruct op; try discriminate P; exact I).
    assert (Q : plain T u e1 = true /\ plain T u e2 = true /\ (op = Mod -> ctypeof T e1 = ctypeof T e2)).
    { destruct op; try contradiction; try (apply andb_prop in P; destruct P as [P1 P2]);
        try (refine (conj P1 (conj P2 _)); discriminate).
      apply andb_prop in P1. destruct P1 as [P1 P3]. refine (conj P1 (conj P3 _)). intros _. apply peq_eq, P2. }
    destruct Q as (P1 & P2 & PM). clear P.
    destruct (check_bin _ _ _ _ _ _ _ _ _ _ H) as (m1 & m2 & m3 & n1 & n2 & A & B & C & M).
    symmetry in M. apply app_nil in M. destruct M as [-> M]. apply app_nil in M. destruct M as [-> ->].
    destruct (IHe1 _ P1 A) as (I1 & I2 & I3). destruct (IHe2 _ P2 B) as (J1 & J2 & J3).
    clear IHe1 IHe2 H A B P1 P2.
    destruct n1 as [t1 v1 b1], n2 as [t2 v2 b2]; cbn [nt nv] in *; subst t1 t2.
    destruct (binop_cases _ _ _ _ _ _ _ _ _ _ _ C) as [(_ & _ & _ & [K|K])|(_ & _ & K)];
      [discriminate K|discriminate K|].
    assert (G : if arith_op op then ctypeof T (Bin op e1 e2) = up (ctypeof T e1) (ctypeof T e2)
                else ctypeof T (Bin op e1 e2) = ctypeof T e1).
    { destruct op; try contradiction; cbn [ctypeof arith_op]; try (apply (usual_plain T u); assumption);
        apply (promote_plain T u); assumption. }
    assert (PU : plain_type u (up (ctypeof T e1) (ctypeof T e2)) = true) by (apply up_plain; auto).
    assert (LIT : forall o z, arith lmax cut o v1 v2 = Some (VInt z) -> up (ctypeof T e1) (ctypeof T e2) = base u).
    { intros o z AR. destruct (arith_int _ _ _ _ _ _ AR) as (x & y & E1 & E2 & _).
      rewrite (I3 _ E1), (J3 _ E2). apply up_base. }
    set (p := ctypeof T e1) in *. set (q := ctypeof T e2) in *.
    pose proof (fun o => cn_plain u o p v1 b1 q v2 b2 I2 J2 I3 J3) as CN.
    assert (RI : forall r, plain_type u r = true -> isRealPtr (OPrim r) = false) by (intros; reflexivity).
    destruct op; try contradiction; cbn [arith_op] in G; rewrite G.
    + destruct K as (v & AR & K). unfold additive in K. cbv zeta in K. cbn [nt nv fixArr nn isRealPtr isPtrT andb negb] in K.
      rewrite andb_false_r in K. rewrite CN in K. inversion K; subst; cbn [nt nv]. refine (conj eq_refl (conj PU _)).
      intros z ->. eauto.
    + destruct K as (v & AR & K). unfold additive in K. cbv zeta in K. cbn [nt nv fixArr nn isRealPtr isPtrT andb negb] in K.
      rewrite andb_false_r in K. rewrite CN in K. inversion K; subst; cbn [nt nv]. refine (conj eq_refl (conj PU _)).
      intros z ->. eauto.
    + destruct K as (v & AR & _ & ->). rewrite CN. cbn [snd nt nv]. refine (conj eq_refl (conj PU _)). intros z ->. eauto.
    + destruct K as (v & AR & _ & ->). rewrite CN. cbn [snd nt nv]. refine (conj eq_refl (conj PU _)). intros z ->. eauto.
    + destruct K as (_ & ->). cbn [nt nv]. specialize (PM eq_refl).
      assert (E : up p q = p) by (unfold up; rewrite PM, Z.ltb_irrefl; reflexivity). rewrite E.
      repeat split; auto. intros; discriminate.
    + destruct (shift_type _ Shl _ _ _ _ eq_refl K) as [E|E].
      * rewrite E. cbn [nt]. repeat split; auto. rewrite (bits_nv _ _ _ _ _ _ K). intros; discriminate.
      * exfalso. unfold bits in K. cbv zeta in K. cbn [shifting] in K. inversion K as [[Km Kn]]. symmetry in Km.
        apply app_nil in Km. destruct Km as [_ Km]. rewrite Km in Kn. subst n. discriminate E.
    + destruct (shift_type _ Shr _ _ _ _ eq_refl K) as [E|E].
      * rewrite E. cbn [nt]. repeat split; auto. rewrite (bits_nv _ _ _ _ _ _ K). intros; discriminate.
      * exfalso. unfold bits in K. cbv zeta in K. cbn [shifting] in K. inversion K as [[Km Kn]]. symmetry in Km.
        apply app_nil in Km. destruct Km as [_ Km]. rewrite Km in Kn. subst n. discriminate E.
    + rewrite (bits_nv _ _ _ _ _ _ K). split; [|split; [exact PU|intros; discriminate]].
      pose proof (fun S => bits_type _ _ _ _ S K) as BT; rewrite (BT eq_refl). apply (widest_plain u p q I2 J2).
    + rewrite (bits_nv _ _ _ _ _ _ K). split; [|split; [exact PU|intros; discriminate]].
      pose proof (fun S => bits_type _ _ _ _ S K) as BT; rewrite (BT eq_refl). apply (widest_plain u p q I2 J2).
    + rewrite (bits_nv _ _ _ _ _ _ K). split; [|split; [exact PU|intros; discriminate]].
      pose proof (fun S => bits_type _ _ _ _ S K) as BT; rewrite (BT eq_refl). apply (widest_plain u p q I2 J2).
Qed.

(** ** Comparisons of unsigned values with zero *)
Lemma cn_msgs : forall op a b x, In x (fst (checkNumerics op a b)) -> x = MType \/ x = MStrict.
Proof.
  intros op a b x. unfold Oper_model.checkNumerics. cbv zeta.
  destruct (negb _).
  - destruct (_ && _); [intros []|]. destruct (ftype fl); cbn [fst]; [|intros []]. intros [<-|[]]; auto.
  - destruct (_ && _); [intros []|]. destruct (negb (fstrictops fl)); cbn [fst]; [intros []|].
    destruct (_ && _); [intros []|]. intros [<-|[]]; auto.
Qed.
Definition zero_op (op : bop) : bool := match op with Lt | Le | Ge => true | _ => false end.
Lemma unscmp : forall bv op a b m n, (m, n) = comparison fl pmatch voidn bv op a b ->
  (In MUnsCmp m <-> zero_op op = true /\ funsignedcompare fl = true
     /\ ((isUns (nt a) = true /\ isZero b = true) \/ (isUns (nt b) = true /\ isZero a = true))).
Proof.
  intros bv op a b m n H. unfold comparison in H. cbv zeta in H. apply (f_equal fst) in H. cbn [fst] in H. subst m.
  rewrite !in_app_iff.
  assert (A : ~ In MUnsCmp (match op with
      | Eq | Ne | Lt | Gt =>
          if (isRealT (nt a) && negb (isIntT fl (nt a))) || (isRealT (nt b) && negb (isIntT fl (nt b)))
          then match op with Eq | Ne => emit (frealcompare fl) MRealEq | _ => emit (frealrelate fl) MRealRel end
          else []
      | _ => [] end)).
  { destruct op; try (intros []); match goal with |- ~ In _ (if ?c then _ else _) => destruct c; [|intros []] end;
      intros K; apply in_emit in K; destruct K; discriminate. }
  match goal with |- (?x \/ ?y \/ ?z \/ ?t \/ ?s) <-> _ => assert (B : ~ y); [|assert (C : ~ z); [|assert (D : ~ s)]] end.
  - intros K; apply in_emit in K; destruct K; discriminate.
  - match goal with |- ~ In _ (if ?c then _ else _) => destruct c; [intros []|] end.
    match goal with |- ~ In _ (if ?c then _ else _) => destruct c end.
    + intros K; apply in_emit in K; destruct K; discriminate.
    + intros K. apply cn_msgs in K. destruct K; discriminate.
  - destruct op, (nt a), (nt b); try (intros []); intros K; apply in_emit in K; destruct K; discriminate.
  - split.
    + intros [K|[K|[K|[K|K]]]]; try contradiction.
      destruct op; try destruct K; apply in_emit in K; destruct K as [K _];
        apply andb_prop in K; destruct K as [K1 K2]; apply orb_prop in K2;
        refine (conj eq_refl (conj K1 _)); destruct K2 as [K2|K2]; apply andb_prop in K2; auto.
    + intros (Z & F & K). right; right; right; left.
      assert (E : funsignedcompare fl && (isUns (nt a) && isZero b || isUns (nt b) && isZero a) = true).
      { rewrite F. destruct K as [[K1 K2]|[K1 K2]]; rewrite K1, K2; cbn [andb]; auto using orb_true_r. }
      destruct op; try discriminate Z; rewrite E; left; reflexivity.
Qed.
Lemma check_comparison : forall op e1 e2 n1 n2 m n, compar op = true ->
  check e1 = Some ([], n1) -> check e2 = Some ([], n2) -> check (Bin op e1 e2) = Some (m, n) ->
  In MUnsCmp m -> (m, n) = comparison fl pmatch voidn (isVar e1 || isVar e2) op n1 n2.
Proof.
  intros op e1 e2 n1 n2 m n CO A B H IN. cbn [Oper_model.check] in H. rewrite A, B in H.
  destruct (binop (isVar e1 || isVar e2) op n1 n2) as [[m3 n3]|] eqn:C; [|discriminate].
  inversion H; subst; cbn [app] in *.
  destruct (binop_cases _ _ _ _ _ _ _ _ _ _ _ C) as [(-> & _)|(_ & _ & K)]; [contradiction IN|].
  destruct op; try discriminate CO; exact K.
Qed.
Lemma eval_constant : forall T ex env env' e, constant e = true -> eval T ex env e = eval T ex env' e.
Proof.
  intros T ex env env'. induction e; intros C; cbn [constant] in C; try reflexivity; try discriminate.
  - cbn [eval]; auto.
  - cbn [eval]. rewrite (IHe C). reflexivity.
  - apply andb_prop in C. destruct C as [C1 C2]. cbn [eval]. rewrite (IHe1 C1), (IHe2 C2). reflexivity.
  - cbn [eval]. rewrite (IHe C). reflexivity.
Qed.
Lemma conv_zero : forall T ex p v, target_ok T -> conv T ex p 0 = Some v -> v = 0.
Proof.
  intros T ex p v OK. unfold conv.
  destruct (integer p) eqn:I.
  - assert (R : inr T p 0 = true).
    { unfold inr, lo, hi. rewrite I. pose proof (width_pow T p OK). pose proof (half_pos T p OK).
      destruct (uns T p); lia. }
    rewrite R. congruence.
  - assert (R : inr T p 0 = false) by (unfold inr; rewrite I; reflexivity). rewrite R. destruct ex; discriminate.
Qed.
(** The left operand is unsigned, the right one is zero. *)
Lemma zero_right : forall T env e1 e2 n1 n2 a b a' b', target_ok T ->
  well T env e1 = true -> well T env e2 = true -> strict T e1 = true -> exact_constants T env e2 ->
  check e1 = Some ([], n1) -> check e2 = Some ([], n2) -> isUns (nt n1) = true -> isZero n2 = true ->
  eval T false env e1 = Some a -> eval T false env e2 = Some b ->
  conv T false (usual T (ctypeof T e1) (ctypeof T e2)) a = Some a' ->
  conv T false (usual T (ctypeof T e1) (ctypeof T e2)) b = Some b' ->
  0 <= a' /\ b' = 0.
Proof.
  intros T env e1 e2 n1 n2 a b a' b' OK W1 W2 S X A B U Z Ea Eb Ca Cb.
  assert (B0 : b = 0).
  { unfold isZero in Z. destruct (nv n2) as [|z|z|] eqn:V; try discriminate.
    pose proof (known_constant _ _ _ _ _ _ _ _ _ B V) as K.
    assert (I : In e2 (subs e2)) by (destruct e2; cbn; auto).
    pose proof (known_exact _ _ _ _ _ T env e2 _ _ z b B V (X e2 b I K Eb)). lia. }
  subst b. split; [|exact (conv_zero _ _ _ _ OK Cb)].
  pose proof (strict_uns _ _ _ _ _ T env e1 n1 W1 S A U _ _ Ea) as UE.
  pose proof (eval_inr T false env e1 a OK W1 Ea) as R1. pose proof (eval_inr T false env e2 0 OK W2 Eb) as R2.
  apply (conv_nonneg _ _ _ _ _ OK (inr_nonneg _ _ _ UE R1)) in Ca; [exact Ca|].
  destruct (uns T (usual T (ctypeof T e1) (ctypeof T e2))) eqn:G; [auto|right].
  destruct (usual_hi T _ _ OK (inr_integer _ _ _ R1) (inr_integer _ _ _ R2) G) as (G1 & _ & _).
  unfold inr in R1. clear - G1 R1. lia.
Qed.
Lemma usual_sym : forall T p q, integer p = true -> integer q = true -> usual T p q = usual T q p.
Proof.
  intros T p q I J. rewrite !usual_eq by assumption. unfold usual_int.
  destruct (promote_rank T p I) as [A B]. destruct (promote_rank T q J) as [C D].
  destruct (uns T (promote T p)) eqn:U, (uns T (promote T q)) eqn:V; try reflexivity.
  - destruct (rank (promote T p) <? rank (promote T q)) eqn:L, (rank (promote T q) <? rank (promote T p)) eqn:M; try reflexivity; try lia.
    destruct (promote T p); try discriminate A; try discriminate U; cbn [rank] in *; try lia;
      destruct (promote T q); try discriminate C; try discriminate V; cbn [rank] in *; try lia; reflexivity.
  - destruct (rank (promote T p) <? rank (promote T q)) eqn:L, (rank (promote T q) <? rank (promote T p)) eqn:M; try reflexivity; try lia.
    destruct (promote T p); try discriminate A; try discriminate U; cbn [rank] in *; try lia;
      destruct (promote T q); try discriminate C; try discriminate V; cbn [rank] in *; try lia; reflexivity.
Qed.
Lemma unsigned_zero : forall T op e1 e2 n1 n2 m n env env' r r', target_ok T ->
  ((op = Lt \/ op = Ge) /\ constant e2 = true) \/ (op = Le /\ constant e1 = true) ->
  strict T e1 = true -> strict T e2 = true ->
  well T env (Bin op e1 e2) = true -> well T env' (Bin op e1 e2) = true ->
  exact_constants T env (Bin op e1 e2) -> exact_constants T env' (Bin op e1 e2) ->
  check e1 = Some ([], n1) -> check e2 = Some ([], n2) -> check (Bin op e1 e2) = Some (m, n) ->
  In MUnsCmp m -> eval T false env (Bin op e1 e2) = Some r -> eval T false env' (Bin op e1 e2) = Some r' -> r = r'.
Proof.
  intros T op e1 e2 n1 n2 m n env env' r r' OK O S1 S2 W W' X X' A B H IN E E'.
  assert (CO : compar op = true) by (destruct O as [[[->| ->] _]|[-> _]]; reflexivity).
  pose proof (check_comparison _ _ _ _ _ _ _ CO A B H IN) as K.
  apply (unscmp _ _ _ _ _ _ K) in IN. destruct IN as (_ & _ & D). clear K.
  assert (ZC : forall e' k, check e' = Some ([], k) -> isZero k = true -> constant e' = true).
  { intros e' k C Z. unfold isZero in Z. destruct (nv k) eqn:V; try discriminate. exact (known_constant _ _ _ _ _ _ _ _ _ C V). }
  assert (BOTH : constant e1 = true -> constant e2 = true -> r = r').
  { intros C1 C2. rewrite (eval_constant T false env env') in E by (cbn [constant]; rewrite C1, C2; reflexivity). congruence. }
  assert (ONE : forall en, well T en (Bin op e1 e2) = true -> exact_constants T en (Bin op e1 e2) ->
     forall s, eval T false en (Bin op e1 e2) = Some s ->
     (isUns (nt n1) = true /\ isZero n2 = true -> (op = Lt -> s = 0) /\ (op = Ge -> s = 1)) /\
     (isUns (nt n2) = true /\ isZero n1 = true -> op = Le -> s = 1)).
  { intros en We Xe s Es. cbn [well] in We. apply andb_prop in We. destruct We as [W1 W2].
    pose proof (exact_left _ _ _ _ _ Xe) as X1. pose proof (exact_right _ _ _ _ _ Xe) as X2.
    rewrite eval_bin in Es by (destruct op; discriminate). apply bind2_some in Es.
    destruct Es as (a & b & Ea & Eb & Es).
    assert (Es' : exists a' b', conv T false (usual T (ctypeof T e1) (ctypeof T e2)) a = Some a' /\
       conv T false (usual T (ctypeof T e1) (ctypeof T e2)) b = Some b' /\
       arith_val T false op (usual T (ctypeof T e1) (ctypeof T e2)) a' b' = Some s).
    { destruct op; try discriminate CO; apply bind2_some in Es; exact Es. }
    destruct Es' as (a' & b' & Ca & Cb & V). split.
    - intros [U Z]. destruct (zero_right T en e1 e2 n1 n2 a b a' b' OK W1 W2 S1 X2 A B U Z Ea Eb Ca Cb) as [P ->].
      split; intros ->; cbn [arith_val] in V; inversion V; unfold b2z.
      + assert (Q : (a' <? 0) = false) by (clear - P; lia). rewrite Q. reflexivity.
      + assert (Q : (0 <=? a') = true) by (clear - P; lia). rewrite Q. reflexivity.
    - intros [U Z] ->.
      pose proof (inr_integer _ _ _ (eval_inr T false en e1 a OK W1 Ea)) as I1.
      pose proof (inr_integer _ _ _ (eval_inr T false en e2 b OK W2 Eb)) as I2.
      rewrite (usual_sym T _ _ I1 I2) in Ca, Cb.
      destruct (zero_right T en e2 e1 n2 n1 b a b' a' OK W2 W1 S2 X1 B A U Z Eb Ea Cb Ca) as [P ->].
      cbn [arith_val] in V. inversion V; unfold b2z.
      assert (Q : (0 <=? b') = true) by (clear - P; lia). rewrite Q. reflexivity. }
  destruct (ONE env W X r E) as [R1 R2]. destruct (ONE env' W' X' r' E') as [R1' R2'].
  destruct O as [[O C2]|[-> C1]].
  - destruct D as [D|D].
    + destruct (R1 D) as [P Q]. destruct (R1' D) as [P' Q'].
      destruct O as [->| ->]; [rewrite P, P'|rewrite Q, Q']; reflexivity.
    + apply BOTH; [|exact C2]. destruct D as [_ D]. eauto.
  - destruct D as [D|D].
    + apply BOTH; [exact C1|]. destruct D as [_ D]. eauto.
    + rewrite (R2 D eq_refl), (R2' D eq_refl). reflexivity.
Qed.
End Check.
