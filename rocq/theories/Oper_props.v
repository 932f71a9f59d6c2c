(** C117-C124: the operators of expressions. *)
From Coq Require Import ZArith Bool List Lia.
From Verif Require Import Prim_model Prim_spec Oper_model Oper_spec Oper_proofs Oper_proofs2 Oper_proofs3 Oper_proofs4 Oper_proofs5.
Import ListNotations.
Local Open Scope Z_scope.
Local Arguments Var _%nat_scope _ _. Local Arguments OPtr _%nat_scope. Local Arguments OArr _%nat_scope.
Local Arguments OEnum _%nat_scope. Local Arguments OSU _%nat_scope.

(** Flags used in the examples: all checks on; and those of the standard mode (src/flags.def), which
    has neither strictops, bitwiseops, pointerarith nor shiftimplementation.  The type of pointers to void has number 0 and
    matches all pointers; other pointers match if they are the same. *)
Definition checked : oflags :=
  OF no_flags false false false true true true true true true true true true true true true true true true true false.
Definition standard : oflags :=
  OF (TF false false false true false false false false false false false false false)
     false true false true false false true false true true true false true true false true true true true true.
Definition with_enumint (f : oflags) : oflags :=
  OF (tfl f) (fboolint f) true (fcharintc f) (fnumliteral f) (fstrictops f) (fbitwiseops f) (fshiftneg f) (fshiftimpl f) (ftype f)
     (fboolops f) (fptrnegate f) (fpointerarith f) (fnullpointerarith f) (frealcompare f) (frealrelate f) (fptrnum f)
     (funsignedcompare f) (fboolcompare f) (fzeroptr f) (fzerobool f).
Definition pm (a b : oty) : bool := oeqb a b || oeqb a (OPtr 0) || oeqb b (OPtr 0).
Definition chk (f : oflags) : expr -> option (list msg * node) := check f pm 0%nat (2 ^ 63 - 1) (fun z => z).
Definition int (x : nat) := Var x (OPrim P_INT) false.
Definition uint (x : nat) := Var x (OPrim P_UINT) false.
Definition lng (x : nat) := Var x (OPrim P_LINT) false.
Definition ushort (x : nat) := Var x (OPrim P_USINT) false.
Definition dbl (x : nat) := Var x (OPrim P_DOUBLE) false.
Definition ptr (x : nat) := Var x (OPtr 1) false.
Definition num (v : Z) := Lit true P_INT v.
Definition unum (v : Z) := Lit true P_UINT v.
Definition lnum (v : Z) := Lit true P_LINT v.
Definition at2 (a b : Z) (x : nat) : Z := match x with O => a | _ => b end.
Local Arguments int _%nat_scope. Local Arguments uint _%nat_scope. Local Arguments lng _%nat_scope.
Local Arguments ushort _%nat_scope. Local Arguments dbl _%nat_scope. Local Arguments ptr _%nat_scope.
Lemma lp64_ok : target_ok lp64.
Proof. repeat split; cbn; lia. Qed.

(** ** C117 *)
Theorem C117_shift_partial : forall fl pmatch voidn lmax cut T env op e1 e2 n v w,
  fshiftneg fl = true -> fshiftimpl fl = true -> fbitwiseops fl = true -> op = Shl \/ op = Shr ->
  target_ok T -> well T env (Bin op e1 e2) = true -> safe T e1 = true -> safe T e2 = true ->
  no_enum (Bin op e1 e2) = true -> exact_constants T env (Bin op e1 e2) ->
  check fl pmatch voidn lmax cut (Bin op e1 e2) = Some ([], n) ->
  eval T false env e1 = Some v -> eval T false env e2 = Some w -> 0 <= v /\ 0 <= w.
Proof. exact shift_nonneg. Qed.
Print Assumptions C117_shift_partial.
(** [u << (u2 * 3 % 5)]. *)
Definition shift_ex := Bin Shl (uint 0) (Paren (Bin Mod (Bin Mul (uint 1) (num 3)) (num 5))).
Example C117_shift_example :
  well lp64 (at2 7 9) shift_ex = true /\ safe lp64 (uint 0) = true
  /\ safe lp64 (Paren (Bin Mod (Bin Mul (uint 1) (num 3)) (num 5))) = true /\ no_enum shift_ex = true
  /\ exact_constants lp64 (at2 7 9) shift_ex
  /\ (exists n, chk checked shift_ex = Some ([], n)) /\ eval lp64 false (at2 7 9) shift_ex = Some 28.
Proof.
  refine (conj eq_refl (conj eq_refl (conj eq_refl (conj eq_refl (conj _ (conj _ eq_refl)))))).
  - intros c v I K E. cbn in I. repeat (destruct I as [<-|I]; [cbn in K; try discriminate K; exact E|]). destruct I.
  - eexists. reflexivity.
Qed.
Theorem C117_variable_partial : forall fl pmatch voidn lmax cut T op x p np y q nq m n,
  fshiftneg fl = true -> op = Shl \/ op = Shr -> target_ok T ->
  integer q = true -> q <> P_BOOL -> (q = P_CHAR -> charsigned T = true) ->
  check fl pmatch voidn lmax cut (Bin op (Var x (OPrim p) np) (Var y (OPrim q) nq)) = Some (m, n) ->
  (In MShiftNeg m <-> exists v, inr T q v = true /\ v < 0).
Proof. exact shift_variable. Qed.
Print Assumptions C117_variable_partial.
Example C117_variable_example : exists m n m' n',
  chk standard (Bin Shr (uint 0) (lng 1)) = Some (m, n) /\ In MShiftNeg m
  /\ chk standard (Bin Shr (uint 0) (ushort 1)) = Some (m', n') /\ ~ In MShiftNeg m'.
Proof. do 4 eexists. split; [reflexivity|]. split; [cbn; auto|]. split; [reflexivity|]. cbn. auto. Qed.
(** An unsigned short operand is taken to make the arithmetic unsigned, though it is promoted to int:
    [u << (s - t)] with a shift by -1 is accepted. *)
Theorem C117_promotion_refuted : exists env n w,
  let e2 := Paren (Bin Sub (ushort 0) (ushort 1)) in
  well lp64 env (Bin Shl (unum 1) e2) = true /\ chk checked (Bin Shl (unum 1) e2) = Some ([], n)
  /\ eval lp64 false env e2 = Some w /\ w < 0.
Proof. exists (at2 0 1). do 2 eexists. cbv zeta. split; [reflexivity|]. split; [reflexivity|]. split; [vm_compute; reflexivity|lia]. Qed.
Print Assumptions C117_promotion_refuted.
(** An operand with a known value gets the type of the other one: [1u << (5l - u)] with u = 10 shifts
    by -5 where long is longer than unsigned int, and is accepted. *)
Theorem C117_literal_refuted : exists env n w,
  let e2 := Paren (Bin Sub (lnum 5) (uint 0)) in
  well lp64 env (Bin Shl (unum 1) e2) = true /\ chk checked (Bin Shl (unum 1) e2) = Some ([], n)
  /\ eval lp64 false env e2 = Some w /\ w < 0.
Proof. exists (at2 10 0). do 2 eexists. cbv zeta. split; [reflexivity|]. split; [reflexivity|]. split; [vm_compute; reflexivity|lia]. Qed.
Print Assumptions C117_literal_refuted.
(** A variable of an enumerated type is taken to be non-negative; C allows negative members. *)
Theorem C117_enum_refuted : exists env n w,
  let e2 := Var 0 (OEnum 0) false in
  well lp64 env (Bin Shl (unum 1) e2) = true /\ chk (with_enumint checked) (Bin Shl (unum 1) e2) = Some ([], n)
  /\ eval lp64 false env e2 = Some w /\ w < 0.
Proof. exists (at2 (-1) 0). do 2 eexists. cbv zeta. split; [reflexivity|]. split; [reflexivity|]. split; [vm_compute; reflexivity|lia]. Qed.
Print Assumptions C117_enum_refuted.
(** A cast keeps the known value: [1u << (short) 40000] is accepted, though the value is -25536. *)
Theorem C117_cast_refuted : exists env n w,
  let e2 := Cast P_SINT (num 40000) in
  well lp64 env (Bin Shl (unum 1) e2) = true /\ chk checked (Bin Shl (unum 1) e2) = Some ([], n)
  /\ eval lp64 false env e2 = Some w /\ w < 0.
Proof. exists (at2 0 0). do 2 eexists. cbv zeta. split; [reflexivity|]. split; [reflexivity|]. split; [vm_compute; reflexivity|lia]. Qed.
Print Assumptions C117_cast_refuted.
(** Known values are not reduced: [1u << ((1u - 2u) * -1l)] is accepted with the known value 1; the value
    is 1 - 2^32. *)
Theorem C117_wrapped_refuted : exists env n w,
  let e2 := Paren (Bin Mul (Paren (Bin Sub (unum 1) (unum 2))) (Un Neg (lnum 1))) in
  well lp64 env (Bin Shl (unum 1) e2) = true /\ chk checked (Bin Shl (unum 1) e2) = Some ([], n)
  /\ eval lp64 false env e2 = Some w /\ w < 0.
Proof. exists (at2 0 0). do 2 eexists. cbv zeta. split; [reflexivity|]. split; [reflexivity|]. split; [vm_compute; reflexivity|lia]. Qed.
Print Assumptions C117_wrapped_refuted.
(** Without bitwiseops, [l | u] counts as unsigned although the result is a long: [1u << (l | u)]. *)
Theorem C117_bitwise_refuted : exists env n w,
  let e2 := Paren (Bin Bor (lng 0) (uint 1)) in
  well lp64 env (Bin Shl (unum 1) e2) = true /\ chk standard (Bin Shl (unum 1) e2) = Some ([], n)
  /\ eval lp64 false env e2 = Some w /\ w < 0.
Proof. exists (at2 (-1) 1). do 2 eexists. cbv zeta. split; [reflexivity|]. split; [reflexivity|]. split; [vm_compute; reflexivity|lia]. Qed.
Print Assumptions C117_bitwise_refuted.
(** The message is not exact: a shift by a bool or by a character constant is reported though no value of
    the operand is negative. *)
Theorem C117_exact_refuted : exists e1 e2 m n m' n',
  chk standard (Bin Shl (unum 1) e1) = Some (m, n) /\ In MShiftNeg m
  /\ (forall env v, well lp64 env e1 = true -> eval lp64 false env e1 = Some v -> 0 <= v)
  /\ chk standard (Bin Shl (unum 1) e2) = Some (m', n') /\ In MShiftNeg m'
  /\ (forall env v, eval lp64 false env e2 = Some v -> 0 <= v).
Proof.
  exists (Var 0 OBool false), (Chr 3). do 4 eexists.
  split; [reflexivity|]. split; [cbn; auto|]. split.
  - intros env v W E. cbn in W, E. inversion E; subst. apply andb_prop in W. destruct W as [W _].
    apply Z.leb_le in W. exact W.
  - split; [reflexivity|]. split; [cbn; auto|]. intros env v E. inversion E. lia.
Qed.
Print Assumptions C117_exact_refuted.

(** ** C118 *)
Theorem C118_bits_partial : forall fl pmatch voidn lmax cut T env op e1 e2 n v w,
  fbitwiseops fl = true -> op = Band \/ op = Bxor \/ op = Bor ->
  target_ok T -> well T env (Bin op e1 e2) = true -> safe T e1 = true -> safe T e2 = true ->
  no_enum (Bin op e1 e2) = true -> exact_constants T env (Bin op e1 e2) ->
  check fl pmatch voidn lmax cut (Bin op e1 e2) = Some ([], n) ->
  eval T false env e1 = Some v -> eval T false env e2 = Some w ->
  0 <= v /\ (constant e1 = false -> 0 <= w).
Proof. exact bits_nonneg. Qed.
Print Assumptions C118_bits_partial.
(** [u & (v | 12u)]. *)
Definition bits_ex := Bin Band (uint 0) (Paren (Bin Bor (uint 1) (unum 12))).
Example C118_bits_example :
  well lp64 (at2 7 9) bits_ex = true /\ safe lp64 (uint 0) = true
  /\ safe lp64 (Paren (Bin Bor (uint 1) (unum 12))) = true /\ no_enum bits_ex = true
  /\ exact_constants lp64 (at2 7 9) bits_ex
  /\ (exists n, chk checked bits_ex = Some ([], n)) /\ eval lp64 false (at2 7 9) bits_ex = Some 5.
Proof.
  refine (conj eq_refl (conj eq_refl (conj eq_refl (conj eq_refl (conj _ (conj _ eq_refl)))))).
  - intros c v I K E. cbn in I. repeat (destruct I as [<-|I]; [cbn in K; try discriminate K; exact E|]). destruct I.
  - eexists. reflexivity.
Qed.
(** If the left operand is signed with a known non-negative value, the right one is not looked at:
    [5 | x] with a signed x. *)
Theorem C118_right_refuted : exists env n w,
  well lp64 env (Bin Bor (num 5) (int 0)) = true /\ chk checked (Bin Bor (num 5) (int 0)) = Some ([], n)
  /\ eval lp64 false env (int 0) = Some w /\ w < 0.
Proof. exists (at2 (-1) 0). do 2 eexists. split; [reflexivity|]. split; [reflexivity|]. split; [vm_compute; reflexivity|lia]. Qed.
Print Assumptions C118_right_refuted.
(** An unsigned short operand is taken to make the arithmetic unsigned: [(s - t) & 7u] with a negative
    difference is accepted. *)
Theorem C118_promotion_refuted : exists env n v,
  let e1 := Paren (Bin Sub (ushort 0) (ushort 1)) in
  well lp64 env (Bin Band e1 (unum 7)) = true /\ chk checked (Bin Band e1 (unum 7)) = Some ([], n)
  /\ eval lp64 false env e1 = Some v /\ v < 0.
Proof. exists (at2 0 1). do 2 eexists. cbv zeta. split; [reflexivity|]. split; [reflexivity|]. split; [vm_compute; reflexivity|lia]. Qed.
Print Assumptions C118_promotion_refuted.

(** ** C119 *)
Theorem C119_type_partial : forall fl pmatch voidn lmax cut T u e n, plain T u e = true ->
  check fl pmatch voidn lmax cut e = Some ([], n) -> nt n = OPrim (ctypeof T e).
Proof. intros fl pmatch voidn lmax cut T u e n P H. exact (proj1 (plain_types fl pmatch voidn lmax cut T u e n P H)). Qed.
Print Assumptions C119_type_partial.
(** [-(l * 3) + i % 7]. *)
Example C119_type_example :
  let e := Bin Add (Un Neg (Paren (Bin Mul (lng 0) (num 3)))) (Bin Mod (int 1) (num 7)) in
  plain lp64 false e = true /\ ctypeof lp64 e = P_LINT /\ exists n, chk checked e = Some ([], n) /\ nt n = OPrim P_LINT.
Proof. cbv zeta. split; [reflexivity|]. split; [reflexivity|]. eexists. split; reflexivity. Qed.
(** The sum of an int and an unsigned int is taken to be an int. *)
Theorem C119_mixed_refuted : exists e n, chk checked e = Some ([], n) /\ e = Bin Add (int 0) (uint 1)
  /\ nt n = OPrim P_INT /\ ctypeof lp64 e = P_UINT.
Proof. do 2 eexists. split; [|split; [reflexivity|]]; [reflexivity|]. split; reflexivity. Qed.
Print Assumptions C119_mixed_refuted.
(** The product of a long and a double is taken to be a long. *)
Theorem C119_real_refuted : exists e n, chk checked e = Some ([], n) /\ e = Bin Mul (lng 0) (dbl 1)
  /\ nt n = OPrim P_LINT /\ ctypeof lp64 e = P_DOUBLE.
Proof. do 2 eexists. split; [|split; [reflexivity|]]; [reflexivity|]. split; reflexivity. Qed.
Print Assumptions C119_real_refuted.
(** The sum of two unsigned shorts is taken to be an unsigned short. *)
Theorem C119_short_refuted : exists e n, chk checked e = Some ([], n) /\ e = Bin Add (ushort 0) (ushort 1)
  /\ nt n = OPrim P_USINT /\ ctypeof lp64 e = P_INT.
Proof. do 2 eexists. split; [|split; [reflexivity|]]; [reflexivity|]. split; reflexivity. Qed.
Print Assumptions C119_short_refuted.
(** The type of a constant does not count: [5l + i] is taken to be an int. *)
Theorem C119_literal_refuted : exists e n, chk checked e = Some ([], n) /\ e = Bin Add (lnum 5) (int 0)
  /\ nt n = OPrim P_INT /\ ctypeof lp64 e = P_LINT.
Proof. do 2 eexists. split; [|split; [reflexivity|]]; [reflexivity|]. split; reflexivity. Qed.
Print Assumptions C119_literal_refuted.
(** A remainder has the type of its left operand: [i % l] is taken to be an int. *)
Theorem C119_remainder_refuted : exists e n, chk checked e = Some ([], n) /\ e = Bin Mod (int 0) (lng 1)
  /\ nt n = OPrim P_INT /\ ctypeof lp64 e = P_LINT.
Proof. do 2 eexists. split; [|split; [reflexivity|]]; [reflexivity|]. split; reflexivity. Qed.
Print Assumptions C119_remainder_refuted.

(** ** C120 *)
Theorem C120_same_partial : forall fl pmatch voidn lmax cut T op e1 e2 n1 n2 m n env env' r r', target_ok T ->
  ((op = Lt \/ op = Ge) /\ constant e2 = true) \/ (op = Le /\ constant e1 = true) ->
  strict T e1 = true -> strict T e2 = true ->
  well T env (Bin op e1 e2) = true -> well T env' (Bin op e1 e2) = true ->
  exact_constants T env (Bin op e1 e2) -> exact_constants T env' (Bin op e1 e2) ->
  check fl pmatch voidn lmax cut e1 = Some ([], n1) -> check fl pmatch voidn lmax cut e2 = Some ([], n2) ->
  check fl pmatch voidn lmax cut (Bin op e1 e2) = Some (m, n) ->
  In MUnsCmp m -> eval T false env (Bin op e1 e2) = Some r -> eval T false env' (Bin op e1 e2) = Some r' -> r = r'.
Proof. exact unsigned_zero. Qed.
Print Assumptions C120_same_partial.
(** [u * 2u - v >= 0]. *)
Definition cmp_ex := Bin Ge (Bin Sub (Bin Mul (uint 0) (unum 2)) (uint 1)) (num 0).
Example C120_same_example :
  strict lp64 (Bin Sub (Bin Mul (uint 0) (unum 2)) (uint 1)) = true /\ well lp64 (at2 3 9) cmp_ex = true
  /\ exact_constants lp64 (at2 3 9) cmp_ex
  /\ (exists n1, chk checked (Bin Sub (Bin Mul (uint 0) (unum 2)) (uint 1)) = Some ([], n1))
  /\ (exists m n, chk checked cmp_ex = Some (m, n) /\ In MUnsCmp m) /\ eval lp64 false (at2 3 9) cmp_ex = Some 1.
Proof.
  refine (conj eq_refl (conj eq_refl (conj _ (conj _ (conj _ eq_refl))))).
  - intros c v I K E. cbn in I. repeat (destruct I as [<-|I]; [cbn in K; try discriminate K; exact E|]). destruct I.
  - eexists. reflexivity.
  - do 2 eexists. split; [reflexivity|]. cbn; auto.
Qed.
Theorem C120_variable_partial : forall fl pmatch voidn lmax cut T op x p nl dec m n, target_ok T -> funsignedcompare fl = true ->
  compar op = true -> op <> Le ->
  integer p = true -> p <> P_BOOL -> (p = P_CHAR -> charsigned T = true) ->
  check fl pmatch voidn lmax cut (Bin op (Var x (OPrim p) nl) (Lit dec P_INT 0)) = Some (m, n) ->
  (In MUnsCmp m <->
   forall env env' r r', inr T p (env x) = true -> inr T p (env' x) = true ->
     eval T false env (Bin op (Var x (OPrim p) nl) (Lit dec P_INT 0)) = Some r ->
     eval T false env' (Bin op (Var x (OPrim p) nl) (Lit dec P_INT 0)) = Some r' -> r = r').
Proof. exact unsigned_variable. Qed.
Print Assumptions C120_variable_partial.
Theorem C120_left_partial : forall fl pmatch voidn lmax cut T op x p nl dec m n, target_ok T -> funsignedcompare fl = true ->
  op = Le \/ op = Eq \/ op = Ne ->
  integer p = true -> p <> P_BOOL -> (p = P_CHAR -> charsigned T = true) ->
  check fl pmatch voidn lmax cut (Bin op (Lit dec P_INT 0) (Var x (OPrim p) nl)) = Some (m, n) ->
  (In MUnsCmp m <->
   forall env env' r r', inr T p (env x) = true -> inr T p (env' x) = true ->
     eval T false env (Bin op (Lit dec P_INT 0) (Var x (OPrim p) nl)) = Some r ->
     eval T false env' (Bin op (Lit dec P_INT 0) (Var x (OPrim p) nl)) = Some r' -> r = r').
Proof. exact unsigned_left. Qed.
Print Assumptions C120_left_partial.
Example C120_variable_example : exists m n m' n' m'' n'',
  chk standard (Bin Lt (uint 0) (num 0)) = Some (m, n) /\ In MUnsCmp m
  /\ chk standard (Bin Ne (uint 0) (num 0)) = Some (m', n') /\ ~ In MUnsCmp m'
  /\ chk standard (Bin Le (num 0) (ushort 0)) = Some (m'', n'') /\ In MUnsCmp m''.
Proof.
  do 6 eexists. split; [reflexivity|]. split; [cbn; auto|]. split; [reflexivity|]. split; [cbn; auto|].
  split; [reflexivity|]. cbn; auto.
Qed.
(** [u <= 0], [0 < u] and [0 >= u] are reported, though they depend on the value of u. *)
Theorem C120_meaningful_refuted : exists e, In e [Bin Le (uint 0) (num 0); Bin Lt (num 0) (uint 0); Bin Ge (num 0) (uint 0)]
  /\ Forall (fun e => exists m n, chk standard e = Some (m, n) /\ In MUnsCmp m
       /\ eval lp64 false (at2 0 0) e <> eval lp64 false (at2 1 0) e)
     [Bin Le (uint 0) (num 0); Bin Lt (num 0) (uint 0); Bin Ge (num 0) (uint 0)].
Proof.
  eexists. split; [left; reflexivity|].
  repeat constructor; do 2 eexists; (split; [reflexivity|]); (split; [cbn; auto|]); cbv; discriminate.
Qed.
Print Assumptions C120_meaningful_refuted.
(** [0 > u] is always false, and not reported. *)
Theorem C120_left_refuted : exists m n, chk checked (Bin Gt (num 0) (uint 0)) = Some (m, n) /\ ~ In MUnsCmp m
  /\ forall env v, well lp64 env (uint 0) = true -> eval lp64 false env (Bin Gt (num 0) (uint 0)) = Some v -> v = 0.
Proof.
  do 2 eexists. split; [reflexivity|]. split; [cbn; auto|]. intros env v W E.
  change (inr lp64 P_UINT (env 0%nat) = true) in W.
  change (bind2 (conv lp64 false P_UINT 0) (conv lp64 false P_UINT (env 0%nat)) (arith_val lp64 false Gt P_UINT) = Some v) in E.
  assert (Z : conv lp64 false P_UINT 0 = Some 0) by reflexivity. rewrite Z in E.
  unfold conv in E. rewrite W in E. cbn [bind2 arith_val] in E. inversion E. unfold b2z.
  assert (P : 0 <= env 0%nat). { unfold inr, lo in W. cbn in W. apply andb_prop in W. destruct W as [W _]. apply Z.leb_le in W. exact W. }
  destruct (Z.ltb_spec (env 0%nat) 0); [lia|reflexivity].
Qed.
Print Assumptions C120_left_refuted.
(** [i < 0u] is always false for an int i, and not reported. *)
Theorem C120_signed_refuted : exists m n, chk checked (Bin Lt (int 0) (unum 0)) = Some (m, n) /\ ~ In MUnsCmp m
  /\ forall env v, eval lp64 false env (Bin Lt (int 0) (unum 0)) = Some v -> v = 0.
Proof.
  do 2 eexists. split; [reflexivity|]. split; [cbn; auto|]. intros env v E.
  change (bind2 (conv lp64 false P_UINT (env 0%nat)) (conv lp64 false P_UINT 0) (arith_val lp64 false Lt P_UINT) = Some v) in E.
  assert (Z : conv lp64 false P_UINT 0 = Some 0) by reflexivity. rewrite Z in E.
  destruct (conv lp64 false P_UINT (env 0%nat)) as [w|] eqn:C; [|discriminate]. cbn [bind2 arith_val] in E. inversion E. unfold b2z.
  assert (P : 0 <= w).
  { unfold conv in C. destruct (inr lp64 P_UINT (env 0%nat)) eqn:W.
    - inversion C; subst. unfold inr, lo in W. cbn in W. apply andb_prop in W. destruct W as [W _]. apply Z.leb_le in W. exact W.
    - cbn [integer] in C. inversion C. unfold reduce. cbn [uns]. apply Z.mod_pos_bound. cbn. lia. }
  destruct (Z.ltb_spec w 0); [lia|reflexivity].
Qed.
Print Assumptions C120_signed_refuted.

(** ** C121 *)
Theorem C121_constraints_partial : forall fl pmatch voidn lmax cut,
  fstrictops fl = true -> ftype fl = true -> fboolops fl = true -> fptrnum fl = true ->
  forall e n, usual_expr e = true -> check fl pmatch voidn lmax cut e = Some ([], n) -> valid e = true.
Proof. intros fl pmatch voidn lmax cut A B C D e n U H. exact (proj1 (silent_valid fl pmatch voidn lmax cut A B C D e n U H)). Qed.
Print Assumptions C121_constraints_partial.
(** [p + (i * 2) == q]; and what breaks the rules is reported: [p * q], [!s], [d % i]. *)
Example C121_constraints_example :
  let e := Bin Eq (Bin Add (ptr 0) (Paren (Bin Mul (int 1) (num 2)))) (ptr 2) in
  usual_expr e = true /\ valid e = true
  /\ (exists m n, chk checked e = Some (m, n) /\ m = [MPtrArith])
  /\ Forall (fun e => usual_expr e = true /\ valid e = false) [Bin Mul (ptr 0) (ptr 1); Un Not (Var 0 (OSU 3) false); Bin Mod (dbl 0) (int 1)].
Proof. cbv zeta. split; [reflexivity|]. split; [reflexivity|]. split; [do 2 eexists; split; reflexivity|]. repeat constructor. Qed.
Example C121_constraints_silent :
  let e := Bin Lt (Paren (Bin Mul (int 1) (num 2))) (Un Neg (int 0)) in
  usual_expr e = true /\ valid e = true /\ exists n, chk checked e = Some ([], n).
Proof. cbv zeta. split; [reflexivity|]. split; [reflexivity|]. eexists. reflexivity. Qed.
(** Comparing variables of different sorts is a type mismatch, whatever the other flags. *)
Definition sort (t : oty) : option nat :=
  match t with
  | OPrim _ | OBool | OEnum _ => Some 0%nat
  | OPtr _ | OArr _ => Some 1%nat
  | OSU _ => Some 2%nat
  | _ => None
  end.
Theorem C121_comparison_partial : forall fl pmatch voidn lmax cut op x t nl y u nl' k l,
  ftype fl = true -> In op [Lt; Gt; Le; Ge; Eq; Ne] -> sort t = Some k -> sort u = Some l -> k <> l ->
  exists m n, check fl pmatch voidn lmax cut (Bin op (Var x t nl) (Var y u nl')) = Some (m, n) /\ In MType m.
Proof.
  intros fl pmatch voidn lmax cut op x t nl y u nl' k l F O K L D.
  assert (M : tmatch fl pmatch voidn t u = false).
  { destruct t; inversion K; subst; destruct u; inversion L; subst; try congruence; reflexivity. }
  assert (C : forall bv a b, matchTypes fl pmatch voidn a b = false -> In MType (fst (comparison fl pmatch voidn bv op a b))).
  { intros bv a b E. unfold comparison. cbn [fst]. rewrite E, F. apply in_or_app. right. left. reflexivity. }
  assert (T : t <> OUnk) by (destruct t; discriminate). assert (U : u <> OUnk) by (destruct u; discriminate).
  cbn [check]. unfold binop. cbn [nt nv nn].
  destruct op; cbn in O; try (exfalso; intuition discriminate);
    (destruct t; [congruence|..]); (destruct u; [congruence|..]); try discriminate; do 2 eexists; (split; [reflexivity|]);
    apply C; unfold matchTypes; cbn [nt nv matchLiteral]; rewrite M; reflexivity.
Qed.
Print Assumptions C121_comparison_partial.
Example C121_comparison_example : exists n, chk standard (Bin Lt (int 0) (ptr 1)) = Some ([MType], n).
Proof. eexists. reflexivity. Qed.
Theorem C121_quiet_partial : forall fl pmatch voidn lmax cut e m n, numeric e = true ->
  check fl pmatch voidn lmax cut e = Some (m, n) -> m = [].
Proof. intros fl pmatch voidn lmax cut e m n N H. exact (proj1 (numeric_quiet fl pmatch voidn lmax cut e m n N H)). Qed.
Print Assumptions C121_quiet_partial.
(** [-(l + u) * d / 3]. *)
Example C121_quiet_example : 
  let e := Bin Div (Bin Mul (Un Neg (Paren (Bin Add (lng 0) (uint 1)))) (dbl 2)) (num 3) in
  numeric e = true /\ exists n, chk checked e = Some ([], n).
Proof. cbv zeta. split; [reflexivity|]. eexists. reflexivity. Qed.
(** An integer minus a pointer is accepted (apart from pointerarith). *)
Theorem C121_minus_refuted : exists n, chk standard (Bin Sub (int 0) (ptr 1)) = Some ([], n) /\ valid (Bin Sub (int 0) (ptr 1)) = false.
Proof. eexists. split; reflexivity. Qed.
Print Assumptions C121_minus_refuted.
(** An expression of the constant 0 is taken for a null pointer: [p == ~0] and [p < 0] are accepted. *)
Theorem C121_zero_refuted : exists n n',
  chk checked (Bin Eq (ptr 0) (Un Compl (num 0))) = Some ([], n) /\ valid (Bin Eq (ptr 0) (Un Compl (num 0))) = false
  /\ chk checked (Bin Lt (ptr 0) (num 0)) = Some ([], n') /\ valid (Bin Lt (ptr 0) (num 0)) = false.
Proof. do 2 eexists. repeat split. Qed.
Print Assumptions C121_zero_refuted.
(** The sum of a long and a double is taken for a long, so its remainder is accepted. *)
Theorem C121_real_refuted : exists n, let e := Bin Mod (Paren (Bin Add (lng 0) (dbl 1))) (num 2) in
  chk checked e = Some ([], n) /\ valid e = false.
Proof. eexists. cbv zeta. split; reflexivity. Qed.
Print Assumptions C121_real_refuted.
(** Without strictops (off in the standard mode) the product of two pointers, the sum of two pointers and
    the sum of two structures are accepted. *)
Theorem C121_strictops_refuted : exists es, es = [Bin Mul (ptr 0) (ptr 1); Bin Add (ptr 0) (ptr 1); Bin Add (Var 0 (OSU 3) false) (Var 1 (OSU 3) false)]
  /\ Forall (fun e => valid e = false /\ exists n, chk standard e = Some ([], n)) es.
Proof. eexists. split; [reflexivity|]. repeat constructor; eexists; reflexivity. Qed.
Print Assumptions C121_strictops_refuted.
(** Reports against the rules of C: [1 + a] with an array a is reported as a type mismatch; under strictops
    the difference of two pointers is reported; with zerobool off, [0 == p] is reported while
    [p == 0] is not; [~0 + i] is reported as pointer arithmetic. *)
Theorem C121_false_refuted : exists es, es = [Bin Add (num 1) (Var 0 (OArr 1) false); Bin Sub (ptr 0) (ptr 1); Bin Eq (num 0) (ptr 0);
     Bin Add (Un Compl (num 0)) (int 0)]
  /\ Forall (fun e => valid e = true /\ exists m n, chk checked e = Some (m, n) /\ m <> []) es.
Proof.
  eexists. split; [reflexivity|]. repeat constructor; do 2 eexists; (split; [reflexivity|]); cbv; discriminate.
Qed.
Print Assumptions C121_false_refuted.

(** ** C122 *)
Theorem C122_null_partial : forall fl pmatch voidn lmax cut op x t nl e m n, fnullpointerarith fl = true ->
  op = Add \/ op = Sub -> (exists k, t = OPtr k \/ t = OArr k) -> numeric e = true -> no_real e = true ->
  check fl pmatch voidn lmax cut (Bin op (Var x t nl) e) = Some (m, n) ->
  (In MNullArith m <-> nl = true) /\ (In MPtrArith m <-> fpointerarith fl = true).
Proof. exact null_arith. Qed.
Print Assumptions C122_null_partial.
Example C122_null_example : exists m n, numeric (Bin Add (int 1) (num 2)) = true /\
  chk standard (Bin Add (Var 0 (OPtr 1) true) (Bin Add (int 1) (num 2))) = Some (m, n) /\ m = [MNullArith].
Proof. do 2 eexists. repeat split. Qed.
(** If the pointer is the right operand, the left one is asked whether it is null: [1 + p] with a possibly
    null p is accepted. *)
Theorem C122_right_refuted : exists n, chk standard (Bin Add (num 1) (Var 0 (OPtr 1) true)) = Some ([], n).
Proof. eexists. reflexivity. Qed.
Print Assumptions C122_right_refuted.
(** And [0l + p] is reported although p is not null. *)
Theorem C122_zero_refuted : exists m n, chk standard (Bin Add (lnum 0) (ptr 0)) = Some (m, n) /\ In MNullArith m.
Proof. do 2 eexists. split; [reflexivity|]. cbn; auto. Qed.
Print Assumptions C122_zero_refuted.
(** [p + 0] is not seen as pointer arithmetic: nothing is reported for a possibly null p, and the type of
    the sum is lost, so that nothing is checked about it. *)
Theorem C122_plus_zero_refuted : exists n n',
  chk standard (Bin Add (Var 0 (OPtr 1) true) (num 0)) = Some ([], n) /\ nt n = OUnk
  /\ chk standard (Bin Mul (Paren (Bin Add (ptr 0) (num 0))) (dbl 1)) = Some ([], n').
Proof. do 2 eexists. repeat split. Qed.
Print Assumptions C122_plus_zero_refuted.

(** ** C123 *)
Theorem C123_literal_partial : forall fl pmatch voidn lmax cut T env e p m n v, target_ok T ->
  check fl pmatch voidn lmax cut e = Some (m, n) -> isNumLit n = true ->
  tmatch fl pmatch voidn (OPrim p) (nt n) = false -> matchType fl pmatch voidn (OPrim p) n = true ->
  integer p = true -> 3 <= rank p -> eval T true env e = Some v -> inr T P_INT v = true -> inr T p v = true.
Proof. exact literal_fits. Qed.
Print Assumptions C123_literal_partial.
(** [7 - 3] is accepted where an unsigned long is expected, [3 - 7] is not. *)
Example C123_literal_example : exists n n',
  chk checked (Bin Sub (num 7) (num 3)) = Some ([], n) /\ matchType checked pm 0%nat (OPrim P_ULINT) n = true
  /\ tmatch checked pm 0%nat (OPrim P_ULINT) (nt n) = false /\ eval lp64 true (at2 0 0) (Bin Sub (num 7) (num 3)) = Some 4
  /\ chk checked (Bin Sub (num 3) (num 7)) = Some ([], n') /\ matchType checked pm 0%nat (OPrim P_ULINT) n' = false.
Proof. do 2 eexists. repeat split. Qed.
(** Types shorter than int: 100000 is accepted for a short. *)
Theorem C123_short_refuted : exists n v, chk checked (num v) = Some ([], n) /\ matchType checked pm 0%nat (OPrim P_SINT) n = true
  /\ inr lp64 P_INT v = true /\ inr lp64 P_SINT v = false.
Proof. eexists. exists 100000. repeat split. Qed.
Print Assumptions C123_short_refuted.
(** Constants that do not fit an int: 5000000000 is accepted for an int. *)
Theorem C123_int_refuted : exists n v, chk checked (num v) = Some ([], n) /\ matchType checked pm 0%nat (OPrim P_INT) n = true
  /\ inr lp64 P_INT v = false /\ lit_type lp64 true P_INT v = Some P_LINT.
Proof. eexists. exists 5000000000. repeat split. Qed.
Print Assumptions C123_int_refuted.

(** ** C124 *)
Theorem C124_known_partial : forall fl pmatch voidn lmax cut T env e m n z v,
  check fl pmatch voidn lmax cut e = Some (m, n) -> nv n = VInt z -> eval T true env e = Some v -> v = z.
Proof. exact known_exact. Qed.
Print Assumptions C124_known_partial.
Theorem C124_complete_partial : forall fl pmatch voidn lmax cut T env e v,
  numeric e = true -> constant e = true -> no_real e = true ->
  values_fit T env lmax e -> eval T true env e = Some v ->
  exists n, check fl pmatch voidn lmax cut e = Some ([], n) /\ nv n = VInt v.
Proof. exact numeric_known. Qed.
Print Assumptions C124_complete_partial.
(** [(3 - 10l) * 5 / 2]. *)
Example C124_complete_example :
  let e := Bin Div (Bin Mul (Paren (Bin Sub (num 3) (lnum 10))) (num 5)) (num 2) in
  numeric e = true /\ constant e = true /\ no_real e = true /\ eval lp64 true (at2 0 0) e = Some (-17)
  /\ values_fit lp64 (at2 0 0) (2 ^ 63 - 1) e.
Proof.
  cbv zeta. refine (conj eq_refl (conj eq_refl (conj eq_refl (conj eq_refl _)))).
  intros c v I E. cbn in I. repeat (destruct I as [<-|I]; [cbv in E; inversion E; subst; lia|]). destruct I.
Qed.
(** Values are not reduced to their type: [1u - 2u] is known to be -1, [(char) 300] to be 300. *)
Theorem C124_wrap_refuted : exists n v n' v',
  chk checked (Bin Sub (unum 1) (unum 2)) = Some ([], n) /\ eval lp64 false (at2 0 0) (Bin Sub (unum 1) (unum 2)) = Some v /\ nv n = VInt (-1) /\ v <> -1
  /\ chk checked (Cast P_CHAR (num 300)) = Some ([], n') /\ eval lp64 false (at2 0 0) (Cast P_CHAR (num 300)) = Some v' /\ nv n' = VInt 300 /\ v' <> 300.
Proof. do 4 eexists. repeat split; discriminate. Qed.
Print Assumptions C124_wrap_refuted.
(** Splint computes known values in a long: the valid expression [9223372036854775807ul + 1ul] makes
    splint itself overflow, which is undefined behaviour. *)
Theorem C124_overflow_refuted : exists e v, e = Bin Add (Lit true P_ULINT 9223372036854775807) (Lit true P_ULINT 1)
  /\ well lp64 (at2 0 0) e = true /\ eval lp64 true (at2 0 0) e = Some v /\ chk checked e = None.
Proof. do 2 eexists. repeat split. Qed.
Print Assumptions C124_overflow_refuted.
(** The minus of a character constant is reported as an internal bug of splint when charint is set. *)
Theorem C124_char_refuted : exists f m n,
  f = OF (TF false false false false false false true false false false false false false)
       false false true true true true true true true true true true true true true true true true true false
  /\ chk f (Un Neg (Chr 97)) = Some (m, n) /\ In MBug m.
Proof. do 3 eexists. split; [reflexivity|]. split; [reflexivity|]. cbn; auto. Qed.
Print Assumptions C124_char_refuted.
