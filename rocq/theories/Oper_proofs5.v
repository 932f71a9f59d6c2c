From Coq Require Import ZArith Bool List Lia ZifyBool.
From Verif Require Import Prim_model Oper_model Oper_spec Oper_proofs Oper_proofs2 Oper_proofs3 Oper_proofs4.
Import ListNotations.
Local Open Scope Z_scope.

Definition zvar_cmp (T : target) (op : bop) (p : cprim) (v : Z) : option Z :=
  bind2 (conv T false (usual T p P_INT) 0) (conv T false (usual T p P_INT) v) (arith_val T false op (usual T p P_INT)).

Section Check.
Variable fl : oflags.
Variable pmatch : oty -> oty -> bool.
Variable voidn : nat.
Variable lmax : Z.
Variable cut : Z -> Z.
Notation check := (check fl pmatch voidn lmax cut).
Notation binop := (binop fl pmatch voidn lmax cut).
Notation preop := (preop fl lmax).
Notation checkNumerics := (checkNumerics fl pmatch voidn).

Lemma zvar_not_same : forall T op p x, target_ok T -> integer p = true -> p <> P_BOOL ->
  (exists v w a b, inr T p v = true /\ inr T p w = true /\
     zvar_cmp T op p v = Some a /\ zvar_cmp T op p w = Some b /\ a <> b) ->
  ~ (forall (env env' : nat -> Z) r r', inr T p (env x) = true -> inr T p (env' x) = true ->
      zvar_cmp T op p (env x) = Some r -> zvar_cmp T op p (env' x) = Some r' -> r = r').
Proof.
  intros T op p x OK I NB (v & w & a & b & V & W & A & B & N) H.
  apply N. exact (H (fun _ => v) (fun _ => w) a b V W A B).
Qed.
Lemma unsigned_left : forall T op x p nl dec m n, target_ok T -> funsignedcompare fl = true ->
  op = Le \/ op = Eq \/ op = Ne ->
  integer p = true -> p <> P_BOOL -> (p = P_CHAR -> charsigned T = true) ->
  check (Bin op (Lit dec P_INT 0) (Var x (OPrim p) nl)) = Some (m, n) ->
  (In MUnsCmp m <->
   forall env env' r r', inr T p (env x) = true -> inr T p (env' x) = true ->
     eval T false env (Bin op (Lit dec P_INT 0) (Var x (OPrim p) nl)) = Some r ->
     eval T false env' (Bin op (Lit dec P_INT 0) (Var x (OPrim p) nl)) = Some r' -> r = r').
Proof.
  intros T op x p nl dec m n OK F O I NB CH H.
  assert (CO : compar op = true) by (destruct O as [->|[->| ->]]; reflexivity).
  assert (LM : 0 <= lmax). { cbn [Oper_model.check] in H. destruct (0 <=? lmax) eqn:L; [clear - L; lia|discriminate]. }
  assert (B : check (Lit dec P_INT 0) = Some ([], Node (typeofZero fl) (VInt 0) true)).
  { cbn [Oper_model.check]. assert (L : (0 <=? lmax) = true) by (clear - LM; lia). rewrite L. reflexivity. }
  assert (K : (m, n) = comparison fl pmatch voidn true op (Node (typeofZero fl) (VInt 0) true) (Node (OPrim p) VNone nl)).
  { cbn [Oper_model.check] in H. cbn [Oper_model.check] in B. rewrite B in H.
    cbn [isVar orb] in H.
    destruct (binop true op (Node (typeofZero fl) (VInt 0) true) (Node (OPrim p) VNone nl)) as [[m3 n3]|] eqn:C; [|discriminate].
    inversion H; subst; cbn [app] in *.
    destruct (binop_cases _ _ _ _ _ _ _ _ _ _ _ C) as [(_ & _ & _ & [Q|Q])|(_ & _ & Q)]; [|discriminate Q|].
    - cbn [nt] in Q. unfold typeofZero in Q. destruct (_ || _); discriminate.
    - destruct op; try discriminate CO; exact Q. }
  rewrite (unscmp _ _ _ _ _ _ _ _ _ K). cbn [nt]. rewrite (isUns_uns T p I NB CH), typeofZero_uns.
  cbn [isZero nv].
  assert (EQ : (forall (env env' : nat -> Z) r r', inr T p (env x) = true -> inr T p (env' x) = true ->
     eval T false env (Bin op (Lit dec P_INT 0) (Var x (OPrim p) nl)) = Some r ->
     eval T false env' (Bin op (Lit dec P_INT 0) (Var x (OPrim p) nl)) = Some r' -> r = r') <->
     (forall (env env' : nat -> Z) r r', inr T p (env x) = true -> inr T p (env' x) = true ->
      zvar_cmp T op p (env x) = Some r -> zvar_cmp T op p (env' x) = Some r' -> r = r')).
  { split; intros Q env env' r r' R1 R2 E1 E2; specialize (Q env env' r r' R1 R2).
    - rewrite !eval_zero_var in Q by assumption. auto.
    - rewrite eval_zero_var in E1, E2 by assumption. auto. }
  rewrite EQ. clear EQ. split.
  - intros (Z & _ & [[U _]|[U _]]); [discriminate|].
    intros env env' r r' R1 R2 E1 E2. unfold zvar_cmp in *.
    apply bind2_some in E1. destruct E1 as (b & a & Cb & Ca & V). apply bind2_some in E2. destruct E2 as (b' & a' & Cb' & Ca' & V').
    apply (conv_zero _ _ _ _ OK) in Cb. apply (conv_zero _ _ _ _ OK) in Cb'. subst b b'.
    assert (G : forall w w', inr T p w = true -> conv T false (usual T p P_INT) w = Some w' -> 0 <= w').
    { intros w w' R C. apply (conv_nonneg _ _ _ _ _ OK (inr_nonneg _ _ _ U R)) in C; [exact C|].
      destruct (uns T (usual T p P_INT)) eqn:G; [auto|right].
      destruct (usual_hi T _ _ OK I (eq_refl : integer P_INT = true) G) as (G1 & _ & _). unfold inr in R. clear - G1 R. lia. }
    pose proof (G _ _ R1 Ca) as P. pose proof (G _ _ R2 Ca') as P'.
    destruct O as [->|[->| ->]]; try discriminate Z. cbn [arith_val] in V, V'; inversion V; inversion V'; unfold b2z.
    assert (Q : (0 <=? a) = true) by (clear - P; lia). assert (Q' : (0 <=? a') = true) by (clear - P'; lia). rewrite Q, Q'. reflexivity.
  - intros SAME. refine (conj _ (conj F _)).
    + destruct O as [->|[->| ->]]; try reflexivity; exfalso;
        apply (zvar_not_same T _ p x OK I NB) in SAME; auto; exists 0, 1;
        unfold zvar_cmp; rewrite !conv_small by auto; cbn [bind2 arith_val];
        do 2 eexists; (refine (conj _ (conj _ (conj eq_refl (conj eq_refl _)))); [apply small_inr; auto|apply small_inr; auto|cbn; discriminate]).
    + right. split; [|reflexivity]. destruct (uns T p) eqn:U; [reflexivity|]. exfalso.
      apply (zvar_not_same T _ p x OK I NB) in SAME; auto.
      destruct O as [->|[->| ->]]; exists 0, (-1);
        unfold zvar_cmp; rewrite !conv_small by auto 6; cbn [bind2 arith_val];
        do 2 eexists; (refine (conj _ (conj _ (conj eq_refl (conj eq_refl _)))); [apply small_inr; auto|apply small_inr; auto|cbn; discriminate]).
Qed.

(** ** Numeric expressions *)
Lemma number_num : forall p, number p = true -> (isIntT fl (OPrim p) || isRealT (OPrim p)) = true.
Proof. intros p H. destruct p; try discriminate H; reflexivity. Qed.
Definition num_type (r : bool) (t : oty) : Prop := exists p, t = OPrim p /\ number p = true /\ (r = true -> isAnyReal p = false).
Lemma num_not : forall r t, num_type r t -> t <> OUnk /\ isRealPtr t = false /\ fixArr t = t
  /\ isRealNumeric fl t = true /\ (isRealInt fl t || isRealT t) = true /\ force fl t = t.
Proof.
  intros r t (p & -> & N & _). pose proof (number_num _ N) as K.
  refine (conj _ (conj eq_refl (conj eq_refl (conj _ (conj K eq_refl))))); [discriminate|].
  unfold isRealNumeric, isNumericT. rewrite K. reflexivity.
Qed.
Lemma cn_num : forall r op a b, num_type r (nt a) -> num_type r (nt b) ->
  fst (checkNumerics op a b) = [] /\ num_type r (snd (checkNumerics op a b)).
Proof.
  intros r op a b A B. destruct (num_not _ _ A) as (_ & _ & _ & A1 & A2 & A3). destruct (num_not _ _ B) as (_ & _ & _ & B1 & B2 & B3).
  unfold Oper_model.checkNumerics. cbv zeta. rewrite A1, A2, B1, B2, A3, B3. cbn [andb].
  destruct (negb _); cbn [fst snd]; split; try reflexivity.
  - destruct (isNumLit a); [exact B|]. destruct (isNumLit b); [exact A|].
    destruct (bigger_one (nt a) (nt b)) as [->| ->]; assumption.
  - destruct (resolve_one (nt a) (nt b)) as [[->| ->]|[E _]]; try assumption.
    destruct B as (q & B & _). rewrite B in E. discriminate E.
Qed.
Lemma bin_num : forall r bv op a b m n, num_type r (nt a) -> num_type r (nt b) ->
  op = Add \/ op = Sub \/ op = Mul \/ op = Div -> binop bv op a b = Some (m, n) ->
  m = [] /\ num_type r (nt n) /\ arith lmax cut op (nv a) (nv b) = Some (nv n).
Proof.
  intros r bv op a b m n A B O H. destruct (num_not _ _ A) as (A0 & A1 & A2 & _). destruct (num_not _ _ B) as (B0 & B1 & _ & _).
  destruct (binop_cases _ _ _ _ _ _ _ _ _ _ _ H) as [(_ & _ & _ & [K|K])|(_ & _ & C)]; [congruence|congruence|].
  assert (AD : forall v, additive fl pmatch voidn op a b v =
     (fst (checkNumerics op (Node (nt a) (nv a) (nn a)) b), Node (snd (checkNumerics op (Node (nt a) (nv a) (nn a)) b)) v false)).
  { intros v. unfold additive. cbv zeta. rewrite A2, A1, B1. rewrite andb_false_r, andb_false_l.
    destruct (checkNumerics op (Node (nt a) (nv a) (nn a)) b); reflexivity. }
  destruct (cn_num r op a b A B) as [C1 C2].
  destruct (cn_num r op (Node (nt a) (nv a) (nn a)) b A B) as [D1 D2].
  destruct O as [->|[->|[->| ->]]]; destruct C as (v & C & D).
  1,2: rewrite AD in D; apply (f_equal fst) in D as E; apply (f_equal snd) in D; cbn [fst snd] in D, E; subst n; rewrite E, D1; auto.
  all: destruct D as [E ->]; rewrite E, C1; auto.
Qed.
Lemma numeric_quiet : forall e m n, numeric e = true -> check e = Some (m, n) ->
  m = [] /\ num_type (no_real e) (nt n) /\ (forall v, nv n <> VChar v).
Proof.
  induction e; intros m n N H; cbn [numeric] in N; try discriminate N.
  - cbn [Oper_model.check] in H. destruct (v <=? lmax); [|discriminate]. inversion H; subst; cbn [nt nv no_real].
    apply andb_prop in N. destruct N as [N V]. assert (Z : (v =? 0) = false) by (clear - V; lia). rewrite Z, andb_false_r.
    refine (conj eq_refl (conj _ _)); [|discriminate]. exists suffix. destruct suffix; try discriminate N; auto.
  - cbn in H. inversion H; subst. refine (conj eq_refl (conj _ _)); [|discriminate]. exists p. cbn.
    unfold number. rewrite N, orb_true_r. auto.
  - destruct t; try discriminate N. cbn in H. inversion H; subst. refine (conj eq_refl (conj _ _)); [|discriminate].
    exists p. cbn [nt no_real]. refine (conj eq_refl (conj N _)). destruct (isAnyReal p); auto.
  - exact (IHe _ _ N H).
  - destruct (check_un _ _ _ _ _ _ _ _ _ H) as (m1 & m2 & n1 & A & B & ->).
    assert (NE : numeric e = true) by (destruct op; try discriminate N; exact N).
    destruct (IHe _ _ NE A) as (-> & T & V). destruct (num_not _ _ T) as (_ & _ & _ & R & _).
    cbn [no_real app]. unfold Oper_model.preop in B. rewrite R in B. destruct op; try discriminate N.
    + destruct (nv n1) eqn:NV; cbn [invert] in B.
      * inversion B; subst; cbn [nt nv]. refine (conj eq_refl (conj T _)). discriminate.
      * unfold long in B. destruct (_ && _); [|discriminate]. inversion B; subst; cbn [nt nv]. refine (conj eq_refl (conj T _)). discriminate.
      * exfalso. exact (V _ eq_refl).
      * inversion B; subst; cbn [nt nv]. refine (conj eq_refl (conj T _)). discriminate.
    + inversion B; subst; cbn [nt nv]. auto.
  - destruct (check_bin _ _ _ _ _ _ _ _ _ _ H) as (m1 & m2 & m3 & n1 & n2 & A & B & C & ->).
    assert (NE : numeric e1 = true /\ numeric e2 = true /\ (op = Add \/ op = Sub \/ op = Mul \/ op = Div)).
    { destruct op; try discriminate N; apply andb_prop in N; destruct N; auto 6. }
    destruct NE as (N1 & N2 & O). destruct (IHe1 _ _ N1 A) as (-> & T1 & V1). destruct (IHe2 _ _ N2 B) as (-> & T2 & V2).
    assert (T1' : num_type (no_real (Bin op e1 e2)) (nt n1)).
    { destruct T1 as (p & P1 & P2 & P3). exists p. refine (conj P1 (conj P2 _)). cbn [no_real]. intros Q.
      apply andb_prop in Q. destruct Q; auto. }
    assert (T2' : num_type (no_real (Bin op e1 e2)) (nt n2)).
    { destruct T2 as (p & P1 & P2 & P3). exists p. refine (conj P1 (conj P2 _)). cbn [no_real]. intros Q.
      apply andb_prop in Q. destruct Q; auto. }
    destruct (bin_num _ _ _ _ _ _ _ T1' T2' O C) as (-> & T & V).
    refine (conj eq_refl (conj T _)). intros v K. rewrite K in V.
    destruct (nv n1) eqn:W1; [| |destruct (V1 _ eq_refl)|]; (destruct (nv n2) eqn:W2; [| |destruct (V2 _ eq_refl)|]);
      destruct O as [->|[->|[->| ->]]]; cbn [arith] in V; try discriminate V; unfold long in V;
      repeat match goal with H : context [if ?c then _ else _] |- _ => destruct c end; discriminate.
Qed.

(** The values of such expressions are known. *)
Lemma numeric_known : forall T env e v, numeric e = true -> constant e = true -> no_real e = true ->
  values_fit T env lmax e -> eval T true env e = Some v -> exists n, check e = Some ([], n) /\ nv n = VInt v.
Proof.
  intros T env. induction e; intros w N C R F E; cbn [numeric] in N; try discriminate N; try discriminate C; try discriminate R.
  - pose proof (F _ _ (or_introl eq_refl) E) as B. cbn [eval Oper_model.check] in *.
    destruct (lit_type T dec suffix v); [|discriminate]. inversion E; subst w.
    assert (L : (v <=? lmax) = true) by (clear - B; lia). rewrite L. eexists. split; reflexivity.
  - cbn [eval Oper_model.check] in *. apply IHe; auto. intros c v I. apply F. right. exact I.
  - assert (NE : numeric e = true) by (destruct op; try discriminate N; exact N). cbn [constant no_real] in C, R.
    assert (F' : values_fit T env lmax e) by (intros c v I; apply F; right; exact I).
    pose proof (F _ _ (or_introl eq_refl) E) as B. cbn [eval] in E.
    destruct (eval T true env e) as [u|] eqn:U; [|discriminate]. destruct (IHe _ NE C R F' eq_refl) as (n1 & A & V).
    destruct (numeric_quiet _ _ _ NE A) as (_ & TY & _). destruct (num_not _ _ TY) as (_ & _ & _ & Q & _).
    cbv zeta in E. cbn [Oper_model.check]. rewrite A. unfold Oper_model.preop. rewrite Q.
    destruct op; try discriminate N; (destruct (conv T true _ u) eqn:K; [|discriminate]); apply conv_exact in K; subst z.
    + apply fit_exact in E. subst w. rewrite V. cbn [invert]. unfold long.
      assert (L : (- lmax - 1 <=? -1 * u) && (-1 * u <=? lmax) = true) by (clear - B; lia). rewrite L.
      eexists. split; [reflexivity|]. cbn [nv]. f_equal; clear; lia.
    + inversion E; subst. eexists. split; [reflexivity|]. exact V.
  - assert (NE : numeric e1 = true /\ numeric e2 = true /\ (op = Add \/ op = Sub \/ op = Mul \/ op = Div)).
    { destruct op; try discriminate N; apply andb_prop in N; destruct N; auto 6. }
    destruct NE as (N1 & N2 & O). cbn [constant no_real] in C, R. apply andb_prop in C. apply andb_prop in R.
    destruct C as [C1 C2]. destruct R as [R1 R2].
    assert (F1 : values_fit T env lmax e1) by (intros c v I; apply F; right; apply in_or_app; auto).
    assert (F2 : values_fit T env lmax e2) by (intros c v I; apply F; right; apply in_or_app; auto).
    pose proof (F _ _ (or_introl eq_refl) E) as B.
    rewrite eval_bin in E by (destruct O as [->|[->|[->| ->]]]; discriminate).
    apply bind2_some in E. destruct E as (a & b & Ea & Eb & E).
    destruct (IHe1 _ N1 C1 R1 F1 Ea) as (n1 & A & V1). destruct (IHe2 _ N2 C2 R2 F2 Eb) as (n2 & D & V2).
    destruct (numeric_quiet _ _ _ N1 A) as (_ & T1 & _). destruct (numeric_quiet _ _ _ N2 D) as (_ & T2 & _).
    rewrite R1 in T1. rewrite R2 in T2.
    destruct (num_not _ _ T1) as (U1 & _). destruct (num_not _ _ T2) as (U2 & _).
    assert (AR : arith lmax cut op (VInt a) (VInt b) = Some (VInt w)).
    { destruct O as [->|[->|[->| ->]]]; apply bind2_some in E; destruct E as (x & y & X & Y & E); apply conv_exact in X; apply conv_exact in Y;
        subst x y; cbn [arith_val] in E; cbn [arith].
      1-3: apply fit_exact in E; subst w; unfold long;
        match goal with |- (if ?c then _ else _) = _ => assert (L : c = true) by (clear - B; lia); rewrite L; reflexivity end.
      destruct (b =? 0); [discriminate|]. apply fit_exact in E. rewrite <- E. unfold long.
      assert (L : (- lmax - 1 <=? w) && (w <=? lmax) = true) by (clear - B; lia). rewrite L. reflexivity. }
    assert (K : exists m n, binop (isVar e1 || isVar e2) op n1 n2 = Some (m, n)).
    { unfold Oper_model.binop. cbv zeta. rewrite V1, V2.
      destruct T1 as (p & -> & _). destruct T2 as (q & -> & _).
      destruct O as [->|[->|[->| ->]]]; rewrite AR.
      1,2: destruct (additive fl pmatch voidn _ n1 n2 (VInt w)); eauto.
      all: destruct (checkNumerics _ n1 n2); eauto. }
    destruct K as (m & n & K). destruct (bin_num _ _ _ _ _ _ _ T1 T2 O K) as (-> & _ & V).
    rewrite V1, V2, AR in V. exists n. split; [|congruence].
    cbn [Oper_model.check]. rewrite A, D, K. reflexivity.
Qed.

(** ** Null pointers *)
Lemma null_arith : forall op x t nl e m n, fnullpointerarith fl = true ->
  op = Add \/ op = Sub -> (exists k, t = OPtr k \/ t = OArr k) -> numeric e = true -> no_real e = true ->
  check (Bin op (Var x t nl) e) = Some (m, n) ->
  (In MNullArith m <-> nl = true) /\ (In MPtrArith m <-> fpointerarith fl = true).
Proof.
  intros op x t nl e m n F O (k & TY) N R H.
  destruct (check_bin _ _ _ _ _ _ _ _ _ _ H) as (m1 & m2 & m3 & n1 & n2 & A & B & C & ->).
  destruct (numeric_quiet _ _ _ N B) as (-> & T2 & _). rewrite R in T2.
  cbn in A. inversion A; subst m1 n1. cbn [app]. clear A H.
  destruct (binop_cases _ _ _ _ _ _ _ _ _ _ _ C) as [(_ & _ & _ & [K|K])|(_ & _ & D)].
  - cbn [nt] in K. destruct TY; congruence.
  - destruct (num_not _ _ T2) as (U2 & _). congruence.
  - assert (G : forall v, additive fl pmatch voidn op (Node t VNone nl) n2 v =
       (emit (fpointerarith fl) MPtrArith ++ emit (fnullpointerarith fl && nl) MNullArith, Node t v false)).
    { intros v. destruct T2 as (q & Q1 & Q2 & Q3). specialize (Q3 eq_refl).
      pose proof (number_num _ Q2) as Q4. cbn [isRealT] in Q4. rewrite Q3, orb_false_r in Q4.
      unfold additive. cbv zeta. rewrite Q1. cbn [isRealPtr isRealInt isPtrT negb nt nn isZero nv andb]. rewrite Q4.
      destruct TY as [-> | ->]; cbn [fixArr isRealPtr isPtrT andb]; reflexivity. }
    assert (M : m3 = emit (fpointerarith fl) MPtrArith ++ emit (fnullpointerarith fl && nl) MNullArith).
    { destruct O as [->| ->]; destruct D as (v & _ & D); rewrite G in D; apply (f_equal fst) in D; exact D. }
    subst m3. rewrite F. cbn [andb]. rewrite !in_app_iff. unfold emit.
    destruct (fpointerarith fl), nl; cbn; intuition discriminate.
Qed.

(** ** Literals *)
Lemma literal_fits : forall T env e p m n v, target_ok T -> check e = Some (m, n) -> isNumLit n = true ->
  tmatch fl pmatch voidn (OPrim p) (nt n) = false -> matchType fl pmatch voidn (OPrim p) n = true ->
  integer p = true -> 3 <= rank p -> eval T true env e = Some v -> inr T P_INT v = true -> inr T p v = true.
Proof.
  intros T env e p m n v OK H NL TM MT I R E FI. unfold matchType in MT. rewrite TM in MT. cbn [orb] in MT.
  unfold isNumLit in NL. destruct (nv n) as [|z| |] eqn:V; try discriminate NL.
  pose proof (known_exact _ _ _ _ _ _ _ _ _ _ _ _ H V E). subst z.
  unfold matchLiteral in MT. rewrite V in MT.
  assert (RI : isRealInt fl (OPrim p) = true) by (destruct p; try discriminate I; cbn [rank] in R; try lia; reflexivity).
  rewrite RI in MT. destruct (isUns (OPrim p) && (v <? 0)) eqn:U; [discriminate|].
  unfold inr in *. rewrite I in *. cbn [andb integer] in *.
  assert (W : wint T <= width T p) by (destruct OK as (A & B & C & D); destruct p; try discriminate I; cbn [rank] in R; try lia; cbn [width]; lia).
  assert (P : 0 < wint T) by (clear - OK; destruct OK; lia).
  unfold lo, hi in *. cbn [uns width] in FI.
  pose proof (pow_le (wint T - 1) (width T p - 1)) as L1. pose proof (pow_le (wint T) (width T p)) as L2.
  pose proof (pow_le (wint T - 1) (wint T)) as L3.
  destruct (uns T p) eqn:UP.
  - assert (IU : isUns (OPrim p) = true) by (destruct p; try discriminate I; cbn [rank] in R; try lia; try discriminate UP; reflexivity).
    rewrite IU in U. cbn [andb] in U. clear - L1 L2 L3 U FI W P. lia.
  - clear - L1 L2 L3 FI W P. lia.
Qed.
End Check.
