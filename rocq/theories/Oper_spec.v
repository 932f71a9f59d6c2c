(** What C says about operators (C99 6.2.5, 6.3.1, 6.4.4, 6.5): types of constants, integer
    promotions, usual arithmetic conversions, values.  Nothing here uses the checks of the model; the
    syntax of expressions is shared. *)
From Coq Require Import ZArith Bool List.
From Verif Require Import Prim_model Oper_model.
Import ListNotations.
Local Open Scope Z_scope.

(** An implementation of C: the widths of its integer types, and whether char is signed. *)
Record target := Target { wchar : Z; wshort : Z; wint : Z; wlong : Z; wllong : Z; charsigned : bool }.
Definition target_ok (T : target) : Prop :=
  1 < wchar T <= wshort T /\ wshort T <= wint T /\ wint T <= wlong T /\ wlong T <= wllong T.
Definition lp64 : target := Target 8 16 32 64 64 true.

Definition width (T : target) (p : cprim) : Z :=
  match p with
  | P_CHAR | P_UCHAR => wchar T
  | P_SINT | P_USINT => wshort T
  | P_INT | P_UINT => wint T
  | P_LINT | P_ULINT => wlong T
  | P_LLINT | P_ULLINT => wllong T
  | _ => 1
  end.
(** The integer types of C. *)
Definition integer (p : cprim) : bool :=
  match p with
  | P_BOOL | P_CHAR | P_UCHAR | P_SINT | P_USINT | P_INT | P_UINT | P_LINT | P_ULINT | P_LLINT | P_ULLINT => true
  | _ => false
  end.
(** Unsigned types (6.2.5); char is one of them or not, by the implementation. *)
Definition uns (T : target) (p : cprim) : bool :=
  match p with
  | P_BOOL | P_UCHAR | P_USINT | P_UINT | P_ULINT | P_ULLINT => true
  | P_CHAR => negb (charsigned T)
  | _ => false
  end.
Definition lo (T : target) (p : cprim) : Z := if uns T p then 0 else - 2 ^ (width T p - 1).
Definition hi (T : target) (p : cprim) : Z := if uns T p then 2 ^ width T p - 1 else 2 ^ (width T p - 1) - 1.
Definition inr (T : target) (p : cprim) (v : Z) : bool := integer p && (lo T p <=? v) && (v <=? hi T p).

(** 6.3.1.1: conversion rank, and the integer promotions. *)
Definition rank (p : cprim) : Z :=
  match p with
  | P_BOOL => 0 | P_CHAR | P_UCHAR => 1 | P_SINT | P_USINT => 2 | P_INT | P_UINT => 3
  | P_LINT | P_ULINT => 4 | P_LLINT | P_ULLINT => 5 | _ => 6
  end.
Definition promote (T : target) (p : cprim) : cprim :=
  if rank p <? 3 then if hi T p <=? hi T P_INT then P_INT else P_UINT else p.
Definition unsigned_of (p : cprim) : cprim :=
  match p with P_INT => P_UINT | P_LINT => P_ULINT | P_LLINT => P_ULLINT | _ => p end.
(** 6.3.1.8: the usual arithmetic conversions. *)
Definition mixed (T : target) (u s : cprim) : cprim :=
  if rank s <=? rank u then u else if hi T u <=? hi T s then s else unsigned_of s.
Definition usual_int (T : target) (p q : cprim) : cprim :=
  match uns T p, uns T q with
  | true, false => mixed T p q
  | false, true => mixed T q p
  | _, _ => if rank p <? rank q then q else p
  end.
Definition usual (T : target) (p q : cprim) : cprim :=
  match p, q with
  | P_LDOUBLE, _ | _, P_LDOUBLE => P_LDOUBLE
  | P_DOUBLE, _ | _, P_DOUBLE => P_DOUBLE
  | P_FLOAT, _ | _, P_FLOAT => P_FLOAT
  | _, _ => usual_int T (promote T p) (promote T q)
  end.

(** 6.4.4.1: the type of an integer constant is the first of a list that holds its value. *)
Definition candidates (dec : bool) (suffix : cprim) : list cprim :=
  match suffix with
  | P_UINT => [P_UINT; P_ULINT; P_ULLINT]
  | P_LINT => if dec then [P_LINT; P_LLINT] else [P_LINT; P_ULINT; P_LLINT; P_ULLINT]
  | P_ULINT => [P_ULINT; P_ULLINT]
  | P_LLINT => if dec then [P_LLINT] else [P_LLINT; P_ULLINT]
  | P_ULLINT => [P_ULLINT]
  | _ => if dec then [P_INT; P_LINT; P_LLINT] else [P_INT; P_UINT; P_LINT; P_ULINT; P_LLINT; P_ULLINT]
  end.
Definition lit_type (T : target) (dec : bool) (suffix : cprim) (v : Z) : option cprim :=
  find (fun p => inr T p v) (candidates dec suffix).
Definition suffix_ok (p : cprim) : bool :=
  match p with P_INT | P_UINT | P_LINT | P_ULINT | P_LLINT | P_ULLINT => true | _ => false end.

(** The type of an expression; that of a pointer or structure is written [P_VOID]. *)
Definition var_type (t : oty) : cprim :=
  match t with OPrim p => p | OBool => P_BOOL | OEnum _ => P_INT | _ => P_VOID end.
Definition arith_op (op : bop) : bool :=
  match op with Add | Sub | Mul | Div | Mod | Band | Bxor | Bor => true | _ => false end.
Fixpoint ctypeof (T : target) (e : expr) : cprim :=
  match e with
  | Lit dec p v => match lit_type T dec p v with Some q => q | None => P_VOID end
  | Chr _ => P_INT
  | Flt p => p
  | Var _ t _ => var_type t
  | Paren e => ctypeof T e
  | Un Not _ => P_INT
  | Un _ e => promote T (ctypeof T e)
  | Bin op e1 e2 =>
      if arith_op op then usual T (ctypeof T e1) (ctypeof T e2)
      else match op with Shl | Shr => promote T (ctypeof T e1) | _ => P_INT end
  | Cast p _ => p
  end.

(** Values.  With [exact], an evaluation in which a value has to be reduced to fit its type has no
    result; otherwise unsigned results are reduced modulo, as are values converted to a signed type
    that cannot hold them (6.3.1.3 leaves that to the implementation), and a signed result that does
    not fit is undefined behaviour, no result.  Floating values, pointers and structures have no
    value here. *)
Definition reduce (T : target) (p : cprim) (v : Z) : Z :=
  if uns T p then v mod 2 ^ width T p
  else (v + 2 ^ (width T p - 1)) mod 2 ^ width T p - 2 ^ (width T p - 1).
Definition fit (T : target) (exact : bool) (p : cprim) (v : Z) : option Z :=
  if inr T p v then Some v
  else if exact then None
  else if integer p && uns T p then Some (reduce T p v) else None.
Definition conv (T : target) (exact : bool) (p : cprim) (v : Z) : option Z :=
  if inr T p v then Some v
  else if exact then None
  else if integer p then Some (match p with P_BOOL => 1 | _ => reduce T p v end) else None.
Definition b2z (b : bool) : Z := if b then 1 else 0.
Definition bind2 (a b : option Z) (k : Z -> Z -> option Z) : option Z :=
  match a, b with Some x, Some y => k x y | _, _ => None end.
(** The operators on two values of the common type [p]. *)
Definition arith_val (T : target) (exact : bool) (op : bop) (p : cprim) (x y : Z) : option Z :=
  match op with
  | Add => fit T exact p (x + y)
  | Sub => fit T exact p (x - y)
  | Mul => fit T exact p (x * y)
  | Div => if y =? 0 then None else fit T exact p (Z.quot x y)
  | Mod => if y =? 0 then None else fit T exact p (Z.rem x y)
  | Band => fit T exact p (Z.land x y)
  | Bxor => fit T exact p (Z.lxor x y)
  | Bor => fit T exact p (Z.lor x y)
  | Lt => Some (b2z (x <? y)) | Gt => Some (b2z (y <? x)) | Le => Some (b2z (x <=? y))
  | Ge => Some (b2z (y <=? x)) | Eq => Some (b2z (x =? y)) | Ne => Some (b2z (negb (x =? y)))
  | _ => None
  end.
Definition shift_val (T : target) (exact : bool) (op : bop) (p : cprim) (x y : Z) : option Z :=
  if (y <? 0) || (width T p <=? y) then None
  else match op with
  | Shl => if x <? 0 then None else fit T exact p (x * 2 ^ y)
  | _ => fit T exact p (Z.shiftr x y)
  end.
Fixpoint eval (T : target) (exact : bool) (env : nat -> Z) (e : expr) : option Z :=
  match e with
  | Lit dec p v => match lit_type T dec p v with Some _ => Some v | None => None end
  | Chr v => Some v
  | Flt _ => None
  | Var x t _ => if integer (var_type t) then Some (env x) else None
  | Paren e => eval T exact env e
  | Un op e =>
      match eval T exact env e with
      | None => None
      | Some v =>
          let p := promote T (ctypeof T e) in
          match op, conv T exact p v with
          | Not, _ => Some (b2z (v =? 0))
          | _, None => None
          | Neg, Some v => fit T exact p (- v)
          | Pos, Some v => Some v
          | Compl, Some v => fit T exact p (if uns T p then 2 ^ width T p - 1 - v else - v - 1)
          end
      end
  | Bin Land e1 e2 =>
      match eval T exact env e1 with
      | None => None
      | Some v => if v =? 0 then Some 0
                  else match eval T exact env e2 with None => None | Some w => Some (b2z (negb (w =? 0))) end
      end
  | Bin Lor e1 e2 =>
      match eval T exact env e1 with
      | None => None
      | Some v => if v =? 0
                  then match eval T exact env e2 with None => None | Some w => Some (b2z (negb (w =? 0))) end
                  else Some 1
      end
  | Bin op e1 e2 =>
      bind2 (eval T exact env e1) (eval T exact env e2) (fun x y =>
        match op with
        | Shl | Shr =>
            bind2 (conv T exact (promote T (ctypeof T e1)) x) (conv T exact (promote T (ctypeof T e2)) y)
              (shift_val T exact op (promote T (ctypeof T e1)))
        | _ =>
            let p := usual T (ctypeof T e1) (ctypeof T e2) in
            bind2 (conv T exact p x) (conv T exact p y) (arith_val T exact op p)
        end)
  | Cast p e => match eval T exact env e with None => None | Some v => conv T exact p v end
  end.

(** The variables hold values of their types; the suffixes of constants and the types of casts are
    those of C. *)
Fixpoint well (T : target) (env : nat -> Z) (e : expr) : bool :=
  match e with
  | Lit dec p v => suffix_ok p && (0 <=? v)
  | Chr v => inr T P_CHAR v && inr T P_INT v
  | Flt p => isAnyReal p
  | Var x t _ =>
      match t with
      | OPrim p => isAnyReal p || inr T p (env x)
      | OBool | OEnum _ => inr T (var_type t) (env x)
      | _ => true
      end
  | Paren e | Un _ e => well T env e
  | Cast p e => (integer p || isAnyReal p) && well T env e
  | Bin _ e1 e2 => well T env e1 && well T env e2
  end.

(** The expressions inside an expression, itself included; constants are those without variables. *)
Fixpoint subs (e : expr) : list expr :=
  e :: match e with
       | Lit _ _ _ | Chr _ | Flt _ | Var _ _ _ => []
       | Paren e | Un _ e | Cast _ e => subs e
       | Bin _ e1 e2 => subs e1 ++ subs e2
       end.
Fixpoint constant (e : expr) : bool :=
  match e with
  | Lit _ _ _ | Chr _ | Flt _ => true
  | Var _ _ _ => false
  | Paren e | Un _ e | Cast _ e => constant e
  | Bin _ e1 e2 => constant e1 && constant e2
  end.
(** No constant inside [e] needs a reduction to fit its type. *)
Definition exact_constants (T : target) (env : nat -> Z) (e : expr) : Prop :=
  forall c v, In c (subs e) -> constant c = true ->
    eval T false env c = Some v -> eval T true env c = Some v.
(** No variable of an enumerated type. *)
Fixpoint no_enum (e : expr) : bool :=
  match e with
  | Lit _ _ _ | Chr _ | Flt _ => true
  | Var _ t _ => match t with OEnum _ => false | _ => true end
  | Paren e | Un _ e | Cast _ e => no_enum e
  | Bin _ e1 e2 => no_enum e1 && no_enum e2
  end.
(** Arithmetic on an unsigned operand is carried out in an unsigned type: no unsigned type below int
    and no longer signed type beside an unsigned one.  Operands of comparisons, of logical operators
    and of casts, and right operands of shifts, are free. *)
Fixpoint strict (T : target) (e : expr) : bool :=
  match e with
  | Lit _ _ _ | Chr _ | Flt _ | Var _ _ _ | Cast _ _ => true
  | Paren e => strict T e
  | Un Not e => strict T e && negb (uns T (ctypeof T e))
  | Un _ e => strict T e && implb (uns T (ctypeof T e)) (uns T (promote T (ctypeof T e)))
  | Bin op e1 e2 =>
      if arith_op op then
        strict T e1 && strict T e2
        && implb (uns T (ctypeof T e1) || uns T (ctypeof T e2)) (uns T (usual T (ctypeof T e1) (ctypeof T e2)))
      else match op with
      | Shl | Shr => strict T e1 && implb (uns T (ctypeof T e1)) (uns T (promote T (ctypeof T e1)))
      | _ => true
      end
  end.
(** The same below remainders, shifts, operators on bits and negations, which do not need it
    themselves. *)
Fixpoint safe (T : target) (e : expr) : bool :=
  strict T e
  || match e with
     | Paren e => safe T e
     | Un Not _ => true
     | Bin (Mod | Shl | Shr) e1 _ => safe T e1
     | Bin (Band | Bxor | Bor) e1 e2 => safe T e1 && safe T e2
     | _ => false
     end.

(** ** Constraints (C99 6.5.3.3, 6.5.5-6.5.14)
    The kinds of types the constraints speak about.  The types integraltype of splint, which stand
    for an unknown integer type, are integer types. *)
Inductive kind := KInt | KReal | KPtr | KSU | KVoid.
Definition kind_eqb (a b : kind) : bool :=
  match a, b with
  | KInt, KInt | KReal, KReal | KPtr, KPtr | KSU, KSU | KVoid, KVoid => true
  | _, _ => false
  end.
Definition kind_prim (p : cprim) : kind :=
  match p with
  | P_UCHAR | P_CHAR | P_INT | P_UINT | P_SINT | P_USINT | P_LINT | P_ULINT | P_LLINT | P_ULLINT
  | P_ANYINTEGRAL | P_UNSIGNEDINTEGRAL | P_SIGNEDINTEGRAL => KInt
  | P_FLOAT | P_DOUBLE | P_LDOUBLE => KReal
  | P_UNKNOWN | P_VOID | P_BOOL => KVoid
  end.
Definition kind_type (t : oty) : kind :=
  match t with
  | OPrim p => kind_prim p
  | OBool | OEnum _ | OZero _ _ => KInt
  | OPtr _ | OArr _ => KPtr
  | OSU _ => KSU
  | OUnk => KVoid
  end.
Definition arithmetic (k : kind) : bool := match k with KInt | KReal => true | _ => false end.
Definition scalar (k : kind) : bool := match k with KInt | KReal | KPtr => true | _ => false end.
Definition relational (op : bop) : bool := match op with Lt | Gt | Le | Ge => true | _ => false end.
Definition equality (op : bop) : bool := match op with Eq | Ne => true | _ => false end.
(** The constant 0, the null pointer constant. *)
Fixpoint null_constant (e : expr) : bool :=
  match e with Lit _ P_INT v => v =? 0 | Paren e => null_constant e | _ => false end.
(** 6.5.3.3, 6.5.5-6.5.14: the kinds of operands an operator is allowed to have; [n1], [n2]: the
    operand is a null pointer constant. *)
Definition allowed (op : bop) (k1 k2 : kind) (n1 n2 : bool) : bool :=
  match op with
  | Mul | Div => arithmetic k1 && arithmetic k2
  | Mod | Shl | Shr | Band | Bxor | Bor => kind_eqb k1 KInt && kind_eqb k2 KInt
  | Add => (arithmetic k1 && arithmetic k2) || (kind_eqb k1 KPtr && kind_eqb k2 KInt)
           || (kind_eqb k1 KInt && kind_eqb k2 KPtr)
  | Sub => (arithmetic k1 && arithmetic k2) || (kind_eqb k1 KPtr && (kind_eqb k2 KInt || kind_eqb k2 KPtr))
  | Lt | Gt | Le | Ge => (arithmetic k1 && arithmetic k2) || (kind_eqb k1 KPtr && kind_eqb k2 KPtr)
  | Eq | Ne => (arithmetic k1 && arithmetic k2) || (kind_eqb k1 KPtr && kind_eqb k2 KPtr)
               || (kind_eqb k1 KPtr && n2) || (n1 && kind_eqb k2 KPtr)
  | Land | Lor => scalar k1 && scalar k2
  end.
Definition allowed1 (op : uop) (k : kind) : bool :=
  match op with Neg | Pos => arithmetic k | Compl => kind_eqb k KInt | Not => scalar k end.
(** The kind of an expression whose operands are allowed. *)
Fixpoint kindof (e : expr) : kind :=
  match e with
  | Lit _ _ _ | Chr _ => KInt
  | Flt _ => KReal
  | Var _ t _ => kind_type t
  | Paren e => kindof e
  | Un Not _ => KInt
  | Un _ e => kindof e
  | Bin (Add | Sub | Mul | Div) e1 e2 =>
      match kindof e1, kindof e2 with
      | KPtr, KPtr => KInt
      | KPtr, _ | _, KPtr => KPtr
      | KReal, _ | _, KReal => KReal
      | _, _ => KInt
      end
  | Bin _ _ _ => KInt
  | Cast p _ => kind_prim p
  end.
Fixpoint valid (e : expr) : bool :=
  match e with
  | Lit _ _ _ | Chr _ | Flt _ | Var _ _ _ => true
  | Paren e | Cast _ e => valid e
  | Un op e => valid e && allowed1 op (kindof e)
  | Bin op e1 e2 => valid e1 && valid e2 && allowed op (kindof e1) (kindof e2) (null_constant e1) (null_constant e2)
  end.
(** What the theorem on constraints leaves out: variables of unknown type; an integer minus a
    pointer; arithmetic on a real and an integer operand; a pointer compared by order with an
    integer, or for equality with an integer in which the constant 0 is an operand. *)
Fixpoint has_zero (e : expr) : bool :=
  match e with
  | Lit _ _ v => v =? 0
  | Chr _ | Flt _ | Var _ _ _ => false
  | Paren e | Un _ e | Cast _ e => has_zero e
  | Bin _ e1 e2 => has_zero e1 || has_zero e2
  end.
Definition usual_operands (op : bop) (e1 e2 : expr) : bool :=
  match op with
  | Add | Sub | Mul | Div =>
      negb (kind_eqb (kindof e1) KInt && kind_eqb (kindof e2) KReal)
      && negb (kind_eqb (kindof e1) KReal && kind_eqb (kindof e2) KInt)
      && negb (match op with Sub => true | _ => false end && kind_eqb (kindof e1) KInt && kind_eqb (kindof e2) KPtr)
  | Lt | Gt | Le | Ge =>
      negb (kind_eqb (kindof e1) KPtr && kind_eqb (kindof e2) KInt)
      && negb (kind_eqb (kindof e1) KInt && kind_eqb (kindof e2) KPtr)
  | Eq | Ne =>
      implb (kind_eqb (kindof e1) KPtr && kind_eqb (kindof e2) KInt && has_zero e2) (null_constant e2)
      && implb (kind_eqb (kindof e1) KInt && kind_eqb (kindof e2) KPtr && has_zero e1) (null_constant e1)
  | _ => true
  end.
Fixpoint usual_expr (e : expr) : bool :=
  match e with
  | Lit _ p _ => suffix_ok p
  | Flt p => isAnyReal p
  | Chr _ => true
  | Var _ t _ => match t with OUnk | OZero _ _ => false | _ => true end
  | Paren e | Un _ e => usual_expr e
  | Cast p e => usual_expr e && match kind_prim p with KVoid => false | _ => true end
  | Bin op e1 e2 => usual_expr e1 && usual_expr e2 && usual_operands op e1 e2
  end.

(** ** Types of one signedness
    Expressions over constants of type int (or unsigned int) and variables of types int, long and long
    long (or the unsigned ones), without casts and comparisons; both operands of a remainder have the
    same type. *)
Definition base (u : bool) : cprim := if u then P_UINT else P_INT.
Definition plain_type (u : bool) (p : cprim) : bool :=
  match p with P_INT | P_LINT | P_LLINT => negb u | P_UINT | P_ULINT | P_ULLINT => u | _ => false end.
Fixpoint plain (T : target) (u : bool) (e : expr) : bool :=
  match e with
  | Lit dec p v => peq p (base u) && (0 <? v) && match lit_type T dec p v with Some q => peq q (base u) | None => false end
  | Var _ (OPrim p) _ => plain_type u p
  | Paren e | Un (Neg | Pos | Compl) e => plain T u e
  | Bin (Add | Sub | Mul | Div | Shl | Shr | Band | Bxor | Bor) e1 e2 => plain T u e1 && plain T u e2
  | Bin Mod e1 e2 => plain T u e1 && plain T u e2 && peq (ctypeof T e1) (ctypeof T e2)
  | _ => false
  end.

(** ** Numeric expressions
    Expressions over constants other than 0 and variables of the integer types of C other than char
    and bool, or of the real types, with + - * /, unary plus and minus, and parentheses. *)
Definition number (p : cprim) : bool := (integer p && (2 <=? rank p)) || isAnyReal p.
Fixpoint numeric (e : expr) : bool :=
  match e with
  | Lit _ p v => suffix_ok p && (0 <? v)
  | Flt p => isAnyReal p
  | Var _ (OPrim p) _ => number p
  | Paren e | Un (Neg | Pos) e => numeric e
  | Bin (Add | Sub | Mul | Div) e1 e2 => numeric e1 && numeric e2
  | _ => false
  end.
(** No real operands. *)
Fixpoint no_real (e : expr) : bool :=
  match e with
  | Lit _ _ _ | Chr _ => true
  | Flt _ => false
  | Var _ t _ => match t with OPrim p => negb (isAnyReal p) | _ => true end
  | Paren e | Un _ e => no_real e
  | Cast p e => negb (isAnyReal p) && no_real e
  | Bin _ e1 e2 => no_real e1 && no_real e2
  end.
(** The values of all parts of an expression fit a long of which the greatest value is [lmax]. *)
Definition values_fit (T : target) (env : nat -> Z) (lmax : Z) (e : expr) : Prop :=
  forall c v, In c (subs e) -> eval T true env c = Some v -> - lmax - 1 <= v <= lmax.
