(** Model of the checking of unary and binary operators: exprNode_makeOp, checkIntegral,
    checkNumerics, exprNode_preOp (for minus, plus, not and complement), exprNode_cast (the type and
    the known value), exprNode_matchLiteral and exprNode_matchTypes of src/exprNode.c, the arithmetic
    on known values of src/multiVal.c, and the functions on types of src/ctype.c they use.

    Simplified: names of types are replaced by what they stand for, so realType and realishType do
    nothing (no abstract types, no access to bool); charintliteral is off, so the constant 0 is the
    only one whose type is a choice; the assigning operators, which run through the same code, are left out; a message is present
    when its flag is on (no control comments); the state of a reference is one bit, whether it is
    possibly null and not guarded; no variable is called FLT_EPSILON, DBL_EPSILON or LDBL_EPSILON. *)
From Coq Require Import ZArith Bool List.
From Verif Require Import Prim_model.
Import ListNotations.
Local Open Scope Z_scope.

(** Types of operands: unknown, a primitive type, bool, an enumerated type, a pointer, an array,
    a structure or union (src/Headers/ctbase.h); and the type of the constant 0, a choice of int, void
    pointer (the first bit) and bool (the second), src/context.c 3161-3176 context_typeofZero. *)
Inductive oty :=
  | OUnk | OPrim (p : cprim) | OBool | OEnum (n : nat) | OPtr (n : nat) | OArr (n : nat) | OSU (n : nat)
  | OZero (zp zb : bool).

(** src/Headers/multiVal.h 30-45: known values.  The value of a floating constant is left out. *)
Inductive mval := VNone | VInt (z : Z) | VChar (z : Z) | VDouble.

(** The operand of an operator: its type, its known value, whether its reference is possibly null
    and not guarded. *)
Record node := Node { nt : oty; nv : mval; nn : bool }.

Inductive uop := Neg | Pos | Not | Compl.
Inductive bop := Add | Sub | Mul | Div | Mod | Shl | Shr | Band | Bxor | Bor
  | Lt | Gt | Le | Ge | Eq | Ne | Land | Lor.

(** The flags read.  [fcharintc] is the value of context_getFlag (FLG_CHARINT), used by
    ctype_isChar; the one in [tfl] is that at the current place. *)
Record oflags := OF {
  tfl : tflags; fboolint : bool; fenumint : bool; fcharintc : bool; fnumliteral : bool;
  fstrictops : bool; fbitwiseops : bool; fshiftneg : bool; fshiftimpl : bool; ftype : bool;
  fboolops : bool; fptrnegate : bool; fpointerarith : bool; fnullpointerarith : bool;
  frealcompare : bool; frealrelate : bool; fptrnum : bool; funsignedcompare : bool; fboolcompare : bool;
  fzeroptr : bool; fzerobool : bool }.

(** The messages; [MBug] is the report of an internal error (BADBRANCHCONT, llcontbug). *)
Inductive msg :=
  | MShiftNeg | MShiftImpl | MBitLeft | MBitRight | MStrict | MType | MBoolOps
  | MPtrArith | MNullArith | MRealEq | MRealRel | MPtrNum | MUnsCmp | MBoolCmp | MBug.

(** A message under its flag (optgenerror): the message, and whether it was given. *)
Definition emit (b : bool) (m : msg) : list msg := if b then [m] else [].

Section Types.
Variable fl : oflags.
(** ctype_match on two pointer types, arrays or structures, by their numbers; the comparison is
    modelled in Match_model. *)
Variable pmatch : oty -> oty -> bool.
(** The number of the pointer type to void. *)
Variable voidn : nat.

Definition oeqb (a b : oty) : bool :=
  match a, b with
  | OUnk, OUnk | OBool, OBool => true
  | OPrim p, OPrim q => peq p q
  | OEnum i, OEnum j | OPtr i, OPtr j | OArr i, OArr j | OSU i, OSU j => Nat.eqb i j
  | OZero a b, OZero c d => Bool.eqb a c && Bool.eqb b d
  | _, _ => false
  end.

(** src/ctype.c 1741-1753 ctype_match with src/ctbase.i 1287-1600, for these types (see
    Match_model.one_kind and other_kinds); a choice matches when one of its types does. *)
Definition tmatch1 (a b : oty) : bool :=
  if oeqb a b then true
  else match a, b with
  | OUnk, _ | _, OUnk => true
  | OPrim p, OPrim q => closeEnough (tfl fl) p q
  | OBool, OPrim p | OPrim p, OBool => isInt (tfl fl) p && fboolint fl
  | OEnum _, OPrim p | OPrim p, OEnum _ => isInt (tfl fl) p && fenumint fl
  | (OPtr _ | OArr _), (OPtr _ | OArr _) => pmatch a b
  | OSU _, OSU _ => pmatch a b
  | _, _ => false
  end.
Definition choices (t : oty) : list oty :=
  match t with
  | OZero zp zb => OPrim P_INT :: (if zp then [OPtr voidn] else []) ++ (if zb then [OBool] else [])
  | _ => [t]
  end.
Definition tmatch (a b : oty) : bool :=
  oeqb a b || existsb (fun x => existsb (tmatch1 x) (choices b)) (choices a).
(** src/context.c 3161-3176 context_typeofZero, used by src/cscannerHelp.c 2740-2766 for a constant 0
    without suffix. *)
Definition typeofZero : oty :=
  if fzeroptr fl || fzerobool fl then OZero (fzeroptr fl) (fzerobool fl) else OPrim P_INT.
(** src/ctype.c 1115-1158 ctype_isForcePred with ctype_isForceRealNumeric or ctype_isForceRealInt: the
    last type added to the choice is dropped, unless it is numeric too. *)
Definition force (t : oty) : oty :=
  match t with
  | OZero zp true => if fboolint fl then t else if zp then OZero true false else OPrim P_INT
  | OZero _ false => OPrim P_INT
  | _ => t
  end.

(** src/ctype.c 825-834 ctype_isInt. *)
Definition isIntT (t : oty) : bool :=
  match t with
  | OUnk => true
  | OPrim p => isAnyInt p || (isAnyChar p && charint (tfl fl))
  | OBool => fboolint fl
  | OEnum _ => fenumint fl
  | _ => false
  end.
(** src/ctype.c 836-846 ctype_isRegularInt. *)
Definition isRegularInt (t : oty) : bool :=
  match t with
  | OUnk => true
  | OPrim p => closeEnough (tfl fl) P_INT p || (isAnyChar p && charint (tfl fl))
  | OBool => fboolint fl
  | OEnum _ => fenumint fl
  | _ => false
  end.
(** src/ctype.c 856-861 ctype_isChar. *)
Definition isCharT (t : oty) : bool :=
  match t with
  | OUnk => true
  | OPrim p => isAnyChar p || (fcharintc fl && isIntT t)
  | _ => fcharintc fl && isIntT t
  end.
(** src/ctype.c 901-913 ctype_isBool. *)
Definition isBoolT (t : oty) : bool := match t with OBool => true | _ => fboolint fl && isIntT t end.
(** src/ctype.c 951-955 ctype_isReal. *)
Definition isRealT (t : oty) : bool := match t with OPrim p => isAnyReal p | _ => false end.
Definition isEnumT (t : oty) : bool := match t with OEnum _ => true | _ => false end.
(** src/ctype.c 975-981 ctype_isNumeric; 990-1000 ctype_isRealNumeric. *)
Definition isNumericT (t : oty) : bool := isIntT t || isRealT t || isEnumT t.
Definition isRealNumeric (t : oty) : bool := match t with OZero _ _ => true | _ => isNumericT t end.
(** src/ctype.c 1002-1016 ctype_isRealInt. *)
Definition isRealInt (t : oty) : bool := match t with OZero _ _ => true | _ => isIntT t end.
(** src/ctype.c 1035-1051 ctype_isRealBool. *)
Definition isRealBool (t : oty) : bool :=
  match t with OZero _ zb => zb || isBoolT (OPrim P_INT) | _ => isBoolT t end.
(** src/ctype.c 1824-1841 ctype_isPointer; 1053-1060 ctype_isRealPointer. *)
Definition isPtrT (t : oty) : bool := match t with OPtr _ => true | _ => false end.
Definition isRealPtr (t : oty) : bool := match t with OZero zp _ => zp | _ => isPtrT t end.
(** src/ctype.c 2692-2703 ctype_isUnsigned. *)
Definition isUns (t : oty) : bool :=
  match t with
  | OPrim (P_UINT | P_UCHAR | P_USINT | P_ULINT | P_ULLINT | P_UNSIGNEDINTEGRAL) => true
  | _ => false
  end.
(** src/ctype.c 956-967 ctype_isDouble, 2706-2735 ctype_isLongLong, ctype_isLong, ctype_isShort. *)
Definition isDouble (t : oty) : bool := match t with OPrim (P_DOUBLE | P_LDOUBLE) => true | _ => false end.
Definition isLongLong (t : oty) : bool := match t with OPrim (P_LLINT | P_ULLINT) => true | _ => false end.
Definition isLong (t : oty) : bool := match t with OPrim (P_LINT | P_ULINT) => true | _ => false end.
Definition isShort (t : oty) : bool := match t with OPrim (P_SINT | P_USINT) => true | _ => false end.
(** src/ctype.c 2749-2775 ctype_isMoreUnsigned, ctype_isLonger, ctype_widest. *)
Definition moreUns (a b : oty) : bool := isUns a && negb (isUns b).
Definition longer (a b : oty) : bool :=
  (isDouble a && negb (isDouble b)) || (isLongLong a && negb (isLongLong b))
  || (isLong a && negb (isLong b) && negb (isLongLong b)) || (isShort b && negb (isShort a)).
Definition widest (a b : oty) : oty := if moreUns b a || longer b a then b else a.
(** src/cprim.c 482-526 cprim_getExpectedBits. *)
Definition expectedBits (p : cprim) : Z :=
  match p with
  | P_CHAR | P_UCHAR => 8
  | P_DOUBLE => 64 | P_LDOUBLE => 128 | P_FLOAT => 32
  | P_INT | P_UINT => 32
  | P_LINT | P_ULINT => 64
  | P_LLINT | P_ULLINT => 128
  | P_SINT | P_USINT => 8
  | P_UNSIGNEDINTEGRAL | P_SIGNEDINTEGRAL | P_ANYINTEGRAL => 64
  | _ => 0
  end.
(** src/ctype.c 2882-2892 ctype_biggerType, src/ctbase.i 2671-2692 ctbase_isBigger. *)
Definition bigger (a b : oty) : oty :=
  match a, b with
  | OPrim p, OPrim q => if expectedBits p <? expectedBits q then b else a
  | _, _ => a
  end.
(** src/ctype.c 2141-2177 ctype_resolveNumerics. *)
Definition either (p : cprim) (a b : oty) : bool := oeqb a (OPrim p) || oeqb b (OPrim p).
Definition resolve (a b : oty) : oty :=
  if oeqb a b then a
  else
    let a := if isEnumT a then OUnk else a in
    let b := if isEnumT b then OPrim P_INT else b in
    if either P_LDOUBLE a b then OPrim P_LDOUBLE
    else if either P_LLINT a b then OPrim P_LLINT
    else if either P_ULLINT a b then OPrim P_ULLINT
    else if either P_ULINT a b then OPrim P_ULINT
    else if either P_LINT a b then OPrim P_LINT
    else if either P_UINT a b then OPrim P_UINT
    else if either P_INT a b then OPrim P_INT
    else if either P_USINT a b then OPrim P_USINT
    else if either P_SINT a b then OPrim P_SINT
    else if either P_UCHAR a b then OPrim P_UCHAR
    else if either P_CHAR a b then OPrim P_CHAR
    else match a with OUnk => b | _ => a end.

(** src/exprNode.c 9816-9827 exprNode_isNumLiteral: any operand with a known integral value. *)
Definition isNumLit (n : node) : bool := match nv n with VInt _ => true | _ => false end.
(** src/exprNode.c 658-672 exprNode_isNullValue, 1147-1161 exprNode_isZero. *)
Definition isZero (n : node) : bool := match nv n with VInt z => z =? 0 | _ => false end.
(** src/exprNode.c 1163-1187 exprNode_isNonNegative. *)
Definition isNonNeg (n : node) : bool :=
  match nv n with VInt z => 0 <=? z | _ => isEnumT (nt n) end.

(** src/exprNode.c 9845-9973 exprNode_matchLiteral. *)
Definition matchLiteral (expected : oty) (n : node) : bool :=
  match nv n with
  | VNone => false
  | VInt v =>
      if (match expected with OBool => true | _ => false end) then false
      else if isRealInt expected then
        if isUns expected && (v <? 0) then false
        else (fnumliteral fl && (isRegularInt (nt n) || (v =? 0))) || (v =? 0)
      else if isCharT expected then false
      else match expected with
      | OPtr _ | OArr _ =>
          (v =? 0) && (tmatch (nt n) expected || match nt n with OPtr i => Nat.eqb i voidn | _ => false end)
      | _ => if isRealT expected then fnumliteral fl else false
      end
  | VDouble => isRealT expected
  | VChar c => isCharT expected && negb (isUns expected && (c <? 0))
  end.
(** src/exprNode.c 9975-9991 exprNode_matchType; 9993-10019 exprNode_matchTypes. *)
Definition matchType (expected : oty) (n : node) : bool :=
  tmatch expected (nt n) || matchLiteral expected n.
Definition matchTypes (a b : node) : bool :=
  tmatch (nt a) (nt b) || matchLiteral (nt a) b || matchLiteral (nt b) a.

(** src/multiVal.c 107-381 on known values.  The arithmetic is that of the long int of the machine
    splint runs on ([lmax] is LONG_MAX); [None] is a signed overflow there, or a division overflow,
    which are undefined behaviour of splint itself.  Characters are computed in int and cut to
    char ([cut]). *)
Variable lmax : Z.
Variable cut : Z -> Z.
Definition long (z : Z) : option mval :=
  if (- lmax - 1 <=? z) && (z <=? lmax) then Some (VInt z) else None.
(** src/multiVal.c 107-129 multiVal_invert. *)
Definition invert (v : mval) : option (list msg * mval) :=
  match v with
  | VNone => Some ([], VNone)
  | VInt z => match long (-1 * z) with Some r => Some ([], r) | None => None end
  | VChar _ => Some ([MBug], VNone)
  | VDouble => Some ([], VDouble)
  end.
(** src/multiVal.c 291-381 multiVal_add, _subtract, _multiply, _divide; any other operator gives no
    value. *)
Definition arith (op : bop) (a b : mval) : option mval :=
  match op, a, b with
  | Add, VInt x, VInt y => long (x + y)
  | Sub, VInt x, VInt y => long (x - y)
  | Mul, VInt x, VInt y => long (x * y)
  | Div, VInt x, VInt y => if y =? 0 then Some VNone else long (Z.quot x y)
  | Add, VChar x, VChar y => Some (VChar (cut (x + y)))
  | Sub, VChar x, VChar y => Some (VChar (cut (x - y)))
  | Mul, VChar x, VChar y => Some (VChar (cut (x * y)))
  | Div, VChar x, VChar y => if y =? 0 then Some VNone else Some (VChar (cut (Z.quot x y)))
  | (Add | Sub | Mul), VDouble, VDouble => Some VDouble
  | _, _, _ => Some VNone
  end.

Definition compar (op : bop) : bool :=
  match op with Lt | Gt | Le | Ge | Eq | Ne => true | _ => false end.

(** src/exprNode.c 10728-10909 checkNumerics: the messages and the type of the result. *)
Definition checkNumerics (op : bop) (a b : node) : list msg * oty :=
  let t1 := nt a in let t2 := nt b in
  if negb (tmatch t1 t2) then
    if (isRealInt t1 || isRealT t1) && (isRealInt t2 || isRealT t2) then
      ([], if isNumLit a then t2 else if isNumLit b then t1 else bigger t1 t2)
    else if ftype fl then ([MType], OUnk) else ([], bigger t1 t2)
  else if isRealNumeric t1 && isRealNumeric t2 then ([], resolve (force t1) (force t2))
  else let r1 := force t1 in
  if negb (fstrictops fl) then
    ([], if isPtrT r1 then
           if isPtrT t2 && negb (isZero b) then OPrim P_INT
           else if isIntT t2 then t1 else OUnk
         else if isPtrT t2 then if isIntT r1 then t2 else OUnk
         else resolve r1 t2)
  else
    (if negb (isNumericT r1) && negb (isNumericT t2)
        && compar op && ((isEnumT r1 && isEnumT t2) || (isBoolT r1 && isBoolT t2)
                         || (isCharT r1 && isCharT t2))
     then [] else [MStrict], OUnk).

(** src/exprNode.c 5257-5318 checkIntegral: the message; the result is whether there was none. *)
Definition checkIntegral (a b : node) : list msg :=
  if isRealInt (nt a) && isRealInt (nt b) then [] else emit (fstrictops fl) MStrict.

(** src/exprNode.c 5474-5662: plus and minus. *)
Definition fixArr (t : oty) : oty := match t with OArr n => OPtr n | _ => t end.
Definition additive (op : bop) (a b : node) (v : mval) : list msg * node :=
  let t1 := fixArr (nt a) in let t2 := nt b in
  if (isRealPtr t1 && negb (isZero a)) && (negb (isRealPtr t2) && isRealInt t2) then
    (emit (fpointerarith fl) MPtrArith ++ emit (fnullpointerarith fl && nn a) MNullArith,
     Node (nt a) v false)
  else if (negb (isRealPtr t1) && isRealInt t1) && (isRealPtr t2 && negb (isZero b)) then
    (emit (fpointerarith fl) MPtrArith ++ emit (fnullpointerarith fl && nn a) MNullArith,
     Node (nt b) v false)
  else let '(m, t) := checkNumerics op (Node t1 (nv a) (nn a)) b in (m, Node t v false).

(** src/exprNode.c 5664-5768: shifts and operators on bits. *)
Definition shifting (op : bop) : bool := match op with Shl | Shr => true | _ => false end.
Definition bits (op : bop) (a b : node) : list msg * node :=
  let t1 := nt a in let t2 := nt b in
  let right := negb (isUns t2) && negb (isNonNeg b) in
  let left := negb (isUns t1) && negb (isNonNeg a) in
  if shifting op then
    let m := emit (right && fshiftneg fl) MShiftNeg ++ emit (left && fshiftimpl fl) MShiftImpl in
    let reported := if left then fshiftimpl fl else right && fshiftneg fl in
    let m2 := if reported then [] else checkIntegral a b in
    (m ++ m2, Node (match m2 with [] => t1 | _ => OUnk end) VNone false)
  else
    let reported := if isUns t1 then right && fbitwiseops fl else left && fbitwiseops fl in
    let m := if isUns t1 then emit reported MBitRight else emit reported MBitLeft in
    let t1' := if negb (isUns t1) && reported then OPrim P_UINT else t1 in
    let m2 := if reported then [] else checkIntegral a b in
    let t1'' := match m2 with [] => t1' | _ => OUnk end in
    (m ++ m2, Node (widest t1'' t2) VNone false).

(** src/exprNode.c 5777-5976: comparisons.  exprNode_isFalseConstant and uentry_isVariable are
    replaced by [boolvar], whether a message about comparing booleans is due for these operands. *)
Definition comparison (boolvar : bool) (op : bop) (a b : node) : list msg * node :=
  let t1 := nt a in let t2 := nt b in
  let m1 :=
    match op with
    | Eq | Ne | Lt | Gt =>
        if (isRealT t1 && negb (isIntT t1)) || (isRealT t2 && negb (isIntT t2)) then
          match op with Eq | Ne => emit (frealcompare fl) MRealEq | _ => emit (frealrelate fl) MRealRel end
        else []
    | _ => []
    end in
  let hasError := negb (matchTypes a b) && ftype fl in
  let m2 := emit hasError MType in
  let m3 :=
    let r1 := force t1 in
    if hasError || (isRealNumeric t1 && isRealNumeric t2) || (isRealPtr r1 && isRealPtr t2) then []
    else if (isRealNumeric r1 && isRealPtr t2) || (isRealPtr r1 && isRealNumeric t2) then emit (fptrnum fl) MPtrNum
    else fst (checkNumerics op (Node r1 (nv a) (nn a)) b) in
  let m4 :=
    match op with
    | Lt | Le | Ge => emit (funsignedcompare fl && ((isUns t1 && isZero b) || (isUns t2 && isZero a))) MUnsCmp
    | _ => []
    end in
  let m5 :=
    match op, t1, t2 with
    | (Eq | Ne), OBool, OBool => emit (fboolcompare fl && boolvar) MBoolCmp
    | _, _, _ => []
    end in
  (m1 ++ m2 ++ m3 ++ m4 ++ m5, Node OBool VNone false).

(** src/exprNode.c 5978-6018: && and ||. *)
Definition logical (a b : node) : list msg * node :=
  (if isRealBool (nt a) && isRealBool (nt b) then [] else emit (fboolops fl) MBoolOps, Node OBool VNone false).

(** src/exprNode.c 5330-6038 exprNode_makeOp. *)
Definition binop (boolvar : bool) (op : bop) (a b : node) : option (list msg * node) :=
  let logical_op := match op with Land | Lor => true | _ => compar op end in
  match nt a, nt b with
  | OUnk, _ | _, OUnk => Some ([], Node (if logical_op then OBool else OUnk) VNone false)
  | _, _ =>
      match op with
      | Mul | Div =>
          match arith op (nv a) (nv b) with
          | None => None
          | Some v => let '(m, t) := checkNumerics op a b in Some (m, Node t v false)
          end
      | Add | Sub =>
          match arith op (nv a) (nv b) with
          | None => None
          | Some v => Some (additive op a b v)
          end
      | Shl | Shr | Band | Bxor | Bor => Some (bits op a b)
      | Mod => let m := checkIntegral a b in
               Some (m, Node (match m with [] => nt a | _ => OUnk end) VNone false)
      | Lt | Gt | Le | Ge | Eq | Ne => Some (comparison boolvar op a b)
      | Land | Lor => Some (logical a b)
      end
  end.

(** src/exprNode.c 4489-4676 exprNode_preOp for minus, plus, not and complement. *)
Definition preop (op : uop) (a : node) : option (list msg * node) :=
  match op with
  | Neg | Pos =>
      if isRealNumeric (nt a) then
        match op with
        | Neg => match invert (nv a) with
                 | Some (m, v) => Some (m, Node (nt a) v false)
                 | None => None
                 end
        | _ => Some ([], Node (nt a) (nv a) false)
        end
      else Some (emit (fstrictops fl) MStrict, Node (OPrim P_INT) VNone false)
  | Not =>
      match nt a with
      | OUnk => Some ([], Node OUnk VNone false)
      | t => if isRealBool t then Some ([], Node t VNone false)
             else Some (emit (fboolops fl && (negb (isRealPtr t) || negb (fptrnegate fl))) MBoolOps, Node OBool VNone false)
      end
  | Compl =>
      if isRealInt (nt a) then Some ([], Node (nt a) VNone false)
      else Some (emit (fstrictops fl) MStrict, Node (OPrim P_INT) VNone false)
  end.

(** Expressions: integer constants (decimal or not, type given by the suffix), character constants,
    floating constants, variables (whether possibly null), and the operators. *)
Inductive expr :=
  | Lit (dec : bool) (suffix : cprim) (v : Z)
  | Chr (v : Z)
  | Flt (p : cprim)
  | Var (x : nat) (t : oty) (null : bool)
  | Paren (e : expr)
  | Un (op : uop) (e : expr)
  | Bin (op : bop) (e1 e2 : expr)
  | Cast (p : cprim) (e : expr).

(** src/exprNode.c 5977: a variable of type bool compared with a variable. *)
Definition isVar (e : expr) : bool := match e with Var _ _ _ => true | _ => false end.

(** The checking of a whole expression.  Constants: src/exprNode.c 702-750 (the reference of the
    constant zero is possibly null, 714-718), the type by the suffix src/cscanner.l 229-284 and
    src/cscannerHelp.c 2740-2766, the value
    src/cscannerHelp.c 2009-2103, where a constant beyond LONG_MAX overflows.  Parentheses:
    src/exprNode.c 4168-4187.  Cast: 5003-5245, the type is the new one, the known value stays. *)
Fixpoint check (e : expr) : option (list msg * node) :=
  match e with
  | Lit _ p v =>
      if v <=? lmax
      then Some ([], Node (if peq p P_INT && (v =? 0) then typeofZero else OPrim p) (VInt v) (v =? 0))
      else None
  | Chr v => Some ([], Node (OPrim P_CHAR) (VChar v) false)
  | Flt p => Some ([], Node (OPrim p) VDouble false)
  | Var _ t null => Some ([], Node t VNone null)
  | Paren e => check e
  | Un op e =>
      match check e with
      | None => None
      | Some (m, n) => match preop op n with None => None | Some (m', n') => Some (m ++ m', n') end
      end
  | Bin op e1 e2 =>
      match check e1, check e2 with
      | Some (m1, n1), Some (m2, n2) =>
          match binop (isVar e1 || isVar e2) op n1 n2 with
          | None => None
          | Some (m, n) => Some (m1 ++ m2 ++ m, n)
          end
      | _, _ => None
      end
  | Cast p e =>
      match check e with
      | None => None
      | Some (m, n) => Some (m, Node (OPrim p) (nv n) (nn n))
      end
  end.
End Types.
