(** * Buffer-bounds expressions and constraints: simplification and resolution

    Sources: src/constraintExpr.c, src/constraintTerm.c, src/constraintResolve.c,
    src/constraint.c, src/constraintList.c.

    Simplifications made throughout:
    - file locations, changed-type marks ([ct], [origType]) and memory management
      are not represented;
    - the storage or expression a term refers to is represented by a number.  The C
      code decides "same storage" with sRef_similarRelaxed / sRef_sameName
      (constraintTerm.c:530); here it is equality of that number.  (sRef_sameName
      also identifies a[i] with a[j] when both indices are unknown, sRef.c:7500;
      that is idealised away here.)
    - [llassert] failures are not represented; BADEXIT branches are unreachable in
      the model because the enumerations have only the named values. *)
From Coq Require Import ZArith List Bool Lia.
From Verif Require Import Cbase.
Import ListNotations.
Local Open Scope Z_scope.

(** Outcomes: a value, undefined behaviour of the C program (signed overflow or a
    union member read with the wrong kind), or fuel exhausted in the model. *)
Inductive out (A : Type) : Type :=
| Ok (a : A)
| UBhav
| NoFuel.
Arguments Ok {A} a.
Arguments UBhav {A}.
Arguments NoFuel {A}.

Definition obind {A B} (x : out A) (f : A -> out B) : out B :=
  match x with Ok a => f a | UBhav => UBhav | NoFuel => NoFuel end.

(** constraintExprBinaryOpKind, Headers/constraintExprData.h:4-10 *)
Inductive binop := PLUS | MINUS.

(** constraintExprUnaryOpKind, Headers/constraintExprData.h:12-17 *)
Inductive unop := MAXSET | MINSET | MAXREAD | MINREAD.

(** s_constraintTerm, Headers/constraintTerm.h.  [TLit] is CTT_INTLITERAL (a long).
    [TVal n z] is CTT_SREF whose sRef carries a known int value, [TName n] is
    CTT_SREF or CTT_EXPR without one, [TKnown n z] is CTT_EXPR with a known int
    value, [TStr]/[TInit] are CTT_EXPR for a string literal of that length and an
    initialiser block with that many elements, [TSizeof n] is CTT_EXPR of the form
    sizeof applied to the storage numbered [n]. *)
Inductive cterm :=
| TLit (z : Z)
| TVal (n : nat) (z : Z)
| TKnown (n : nat) (z : Z)
| TName (n : nat)
| TSizeof (n : nat)
| TStr (n : nat) (len : Z)
| TInit (n : nat) (len : Z).

(** s_constraintExpr, Headers/constraintExpr.h:5-18 *)
Inductive cexpr :=
| Term (t : cterm)
| Unary (u : unop) (e : cexpr)
| Binary (op : binop) (l r : cexpr).

(** constraintExpr_makeIntLiteral, constraintExpr.c *)
Definition Lit (z : Z) : cexpr := Term (TLit z).

Definition binop_eqb (a b : binop) : bool :=
  match a, b with PLUS, PLUS | MINUS, MINUS => true | _, _ => false end.

Definition unop_eqb (a b : unop) : bool :=
  match a, b with
  | MAXSET, MAXSET | MINSET, MINSET | MAXREAD, MAXREAD | MINREAD, MINREAD => true
  | _, _ => false
  end.

(** [a + b] or [a - b] on mathematical integers. *)
Definition zop (op : binop) (a b : Z) : Z :=
  match op with PLUS => a + b | MINUS => a - b end.

(** C arithmetic at type int and long: overflow is undefined. *)
Definition as_int (z : Z) : out Z := if in_int z then Ok z else UBhav.
Definition as_long (z : Z) : out Z := if in_long z then Ok z else UBhav.

(** constraintExpr_isLit, constraintExpr.c:96-110 *)
Definition is_lit (e : cexpr) : bool :=
  match e with Term (TLit _) => true | _ => false end.

(** constraintExpr_getValue on a literal, constraintExpr.c:1843 *)
Definition lit_val (e : cexpr) : Z :=
  match e with Term (TLit z) => z | _ => 0 end.

(** constraintTerm_canGetValue / getValue, constraintTerm.c:360-432 *)
Definition term_value (t : cterm) : option Z :=
  match t with TLit z => Some z | TVal _ z => Some z | _ => None end.

(** constraintExpr_canGetValue / getValue, constraintExpr.c:1843-1868 *)
Definition expr_value (e : cexpr) : option Z :=
  match e with Term t => term_value t | _ => None end.

(** removeZero with isZeroBinaryOp, constraintExpr.c:112-195:
    [l op (0 op' t)] becomes [l op'' t]. *)
Definition removeZero (e : cexpr) : cexpr :=
  match e with
  | Binary op l (Binary op' (Term (TLit z)) t) =>
      if z =? 0 then
        Binary (match op with
                | PLUS => op'
                | MINUS => match op' with PLUS => MINUS | MINUS => PLUS end
                end) l t
      else e
  | _ => e
  end.

(** The operator of a node after [removeZero] (constraintExpr.c:173-187). *)
Definition node_op (e : cexpr) (dflt : binop) : binop :=
  match e with Binary op _ _ => op | _ => dflt end.

(** [*literal += v] with [literal] an int and [v] a long (constraintExpr.c:277,
    311, 313): the sum is computed at type long and converted to int. *)
Definition int_plus_long (lit : Z) (op : binop) (v : Z) : out Z :=
  obind (as_long (zop op lit v)) (fun z => Ok (wrap32 z)).

(** The part of constraintExpr_propagateConstants after the two recursive calls,
    constraintExpr.c:239-331.  [op] is the operator read before removeZero (line
    224), [nop] the operator stored in the node after removeZero. *)
Definition prop_node (op nop : binop) (x1 x2 : cexpr * bool * Z)
  : out (cexpr * bool * Z) :=
  let '(a1, p1, z1) := x1 in
  let '(a2, p2, z2) := x2 in
  let e1 := removeZero a1 in
  let e2 := removeZero a2 in
  let p := p1 || p2 in
  obind (as_int (zop op z1 z2)) (fun lit =>
  if is_lit e1 && is_lit e2 then
    obind (as_long (zop op (lit_val e1) (lit_val e2))) (fun v =>
    Ok (Lit v, false, lit))
  else if is_lit e1 then
    obind (int_plus_long lit PLUS (lit_val e1)) (fun lit' =>
    match op with
    | PLUS => Ok (e2, true, lit')
    | MINUS => Ok (Binary MINUS (Lit 0) e2, true, lit')
    end)
  else if is_lit e2 then
    obind (int_plus_long lit op (lit_val e2)) (fun lit' =>
    Ok (e1, true, lit'))
  else
    Ok (removeZero (Binary nop e1 e2), p, lit)).

(** constraintExpr_propagateConstants, constraintExpr.c:198-332.  Result: the
    expression without its additive constant, *propagate, *literal. *)
Fixpoint propagate (e : cexpr) : out (cexpr * bool * Z) :=
  match e with
  | Binary op l r =>
      let nop := node_op (removeZero e) op in
      obind (propagate l) (fun x1 =>
      obind (match r with
             | Binary _ (Term (TLit z)) t =>
                 if z =? 0 then propagate t else propagate r
             | _ => propagate r
             end) (fun x2 =>
      prop_node op nop x1 x2))
  | _ => Ok (e, false, 0)
  end.

(** constraintExpr_combineConstants, constraintExpr.c:334-357 *)
Definition combineConstants (e : cexpr) : out cexpr :=
  obind (propagate e) (fun x =>
  let '(e', p, lit) := x in
  if p && negb (lit =? 0) then Ok (Binary PLUS e' (Lit lit)) else Ok e').

(** constraintTerm_similar, constraintTerm.c:490-545 *)
Definition term_similar (a b : cterm) : bool :=
  match term_value a, term_value b with
  | Some x, Some y => x =? y
  | Some _, None | None, Some _ => false
  | None, None =>
      match a, b with
      | TName n, TName m => Nat.eqb n m
      | TSizeof n, TSizeof m => Nat.eqb n m
      | TKnown n x, TKnown m y => Nat.eqb n m && (x =? y)
      | TStr n x, TStr m y => Nat.eqb n m && (x =? y)
      | TInit n x, TInit m y => Nat.eqb n m && (x =? y)
      | _, _ => false
      end
  end.

(** constraintExpr_similar, constraintExpr.c:959-1008; constraintExpr_same
    (1010-1060) has the same body. *)
Fixpoint similar (a b : cexpr) : bool :=
  match a, b with
  | Term s, Term t => term_similar s t
  | Unary u x, Unary v y => unop_eqb u v && similar x y
  | Binary o x y, Binary p z w => binop_eqb o p && similar x z && similar y w
  | _, _ => false
  end.

(** constraintTerm_simplify, constraintTerm.c:172-186 *)
Definition term_simplify (t : cterm) : cterm :=
  match t with TKnown _ z => TLit (wrap32 z) | _ => t end.

(** constraintExpr_simplifybinaryExpr, constraintExpr.c:1292-1320 *)
Definition simplify_binary (op : binop) (l r : cexpr) : out cexpr :=
  match expr_value l, expr_value r with
  | Some a, Some b => obind (as_long (a + b)) (fun z => Ok (Lit z))
  | _, _ =>
      match op with
      | MINUS => if similar l r then Ok (Lit 0) else Ok (Binary op l r)
      | PLUS => Ok (Binary op l r)
      end
  end.

(** constraintExpr_simplifyunaryExpr, constraintExpr.c:1378-1500 *)
Definition simplify_unary (u : unop) (a : cexpr) : cexpr :=
  match u with
  | MINSET | MINREAD => Unary u a
  | MAXSET | MAXREAD =>
      match a with
      | Term (TStr _ len) => Lit (wrap32 len)
      | Term (TInit _ len) => Lit (wrap32 (len - 1))
      | Binary PLUS x y => Binary MINUS (Unary u x) y
      | _ => Unary u a
      end
  end.

(** constraintExpr_simplifyChildren, constraintExpr.c:1216-1252 *)
Definition children (s : cexpr -> out cexpr) (e : cexpr) : out cexpr :=
  match e with
  | Term _ => Ok e
  | Unary u a => obind (s a) (fun a' => Ok (Unary u a'))
  | Binary op l r => obind (s l) (fun l' => obind (s r) (fun r' => Ok (Binary op l' r')))
  end.

(** The switch at the end of constraintExpr_simplify, constraintExpr.c:1533-1550 *)
Definition simplify_top (e : cexpr) : out cexpr :=
  match e with
  | Term t => Ok (Term (term_simplify t))
  | Unary u a => Ok (simplify_unary u a)
  | Binary op l r => simplify_binary op l r
  end.

(** constraintExpr_simplify, constraintExpr.c:1503-1554.  The second call on the
    children is not structural, hence the fuel. *)
Fixpoint simplify (fuel : nat) (e : cexpr) : out cexpr :=
  match fuel with
  | O => NoFuel
  | S f =>
      obind (children (simplify f) e) (fun e1 =>
      obind (combineConstants e1) (fun e2 =>
      obind (children (simplify f) e2) (fun e3 =>
      simplify_top e3)))
  end.

(** ** Constraints *)

(** arithType, Headers/constraint.h.  (NONNEGATIVE, POSITIVE and CASTEQ are not
    generated by the code modelled here.) *)
Inductive arith := LT | LTE | GT | GTE | EQ.

Definition arith_eqb (a b : arith) : bool :=
  match a, b with
  | LT, LT | LTE, LTE | GT, GT | GTE, GTE | EQ, EQ => true
  | _, _ => false
  end.

(** One alternative of s_constraint (Headers/constraint.h): [lexpr ar expr]. *)
Record atom := Atom { lexpr : cexpr; ar : arith; expr : cexpr }.

(** s_constraint: the first alternative and the chain reached through [or]. *)
Record constr := Constr { first : atom; ors : list atom }.

(** constraintExpr_solveBinaryExpr, constraintExpr.c:1331-1376, as used by
    constraint_solve, constraintResolve.c:1467-1477 *)
Definition solve (c : atom) : atom :=
  match lexpr c with
  | Binary op x y =>
      Atom x (ar c) (Binary (match op with PLUS => MINUS | MINUS => PLUS end) (expr c) y)
  | _ => c
  end.

(** flipAr, constraintResolve.c:1479-1497 *)
Definition flipAr (a : arith) : arith :=
  match a with LT => GT | LTE => GTE | EQ => EQ | GT => LT | GTE => LTE end.

(** constraint_swapLeftRight, constraintResolve.c:1499-1511 *)
Definition swapLR (c : atom) : atom := Atom (expr c) (flipAr (ar c)) (lexpr c).

(** constraintExpr_getDepth, constraintExpr.c:2333-2367 *)
Fixpoint depth (e : cexpr) : nat :=
  match e with
  | Term _ => 1
  | Unary _ a => S (depth a)
  | Binary _ l r => S (depth l) + depth r
  end.

(** constraint_tooDeep with constraint_getDepth (sum of both sides),
    constraint.c:1196-1226 *)
Definition tooDeep (c : atom) : bool :=
  Nat.leb 20 (depth (lexpr c) + depth (expr c)).

(** constraint_simplify, constraintResolve.c:1515-1550 *)
Fixpoint c_simplify (fuel : nat) (c : atom) : out atom :=
  match fuel with
  | O => NoFuel
  | S f =>
      if tooDeep c then Ok c else
      obind (simplify f (lexpr c)) (fun l1 =>
      obind (simplify f (expr c)) (fun r1 =>
      let c1 := Atom l1 (ar c) r1 in
      obind (match l1 with
             | Binary _ _ _ =>
                 let c2 := solve c1 in
                 obind (simplify f (lexpr c2)) (fun l2 =>
                 obind (simplify f (expr c2)) (fun r2 => Ok (Atom l2 (ar c2) r2)))
             | _ => Ok c1
             end) (fun c3 =>
      if is_lit (lexpr c3) && negb (is_lit (expr c3))
      then c_simplify f (swapLR c3)
      else Ok c3)))
  end.

(** sizeofBufComp, constraintResolve.c:829-874.  The guard on line 840 uses [&&]
    where both sides have to be terms: with one of them compound, a union member
    of the wrong kind is read. *)
Definition sizeofBufComp (buf e2 : cexpr) : out bool :=
  match buf, e2 with
  | Term b, Term (TSizeof n) =>
      Ok (match b with TName m => Nat.eqb n m | _ => false end)
  | Term _, Term _ => Ok false
  | _, Term (TSizeof _) => UBhav
  | _, Term _ => Ok false
  | Term _, _ => UBhav
  | _, _ => Ok false
  end.

(** sizeOfMaxSet, constraintResolve.c:882-960 *)
Definition sizeOfMaxSet (c : atom) : out bool :=
  match ar c with
  | EQ | GTE | LTE =>
      match lexpr c, expr c with
      | Unary MAXSET buf1, Binary op buf2 con =>
          match expr_value con with
          | None => Ok false
          | Some i =>
              if i =? (match op with MINUS => 1 | PLUS => -1 end)
              then sizeofBufComp buf1 buf2 else Ok false
          end
      | _, _ => Ok false
      end
  | _ => Ok false
  end.

(** constraintExpr_compare, constraintExpr.c:1821-1841, given the two values.
    (Similar expressions that both have values have equal values.) *)
Definition cmpZ (a : arith) (x y : Z) : bool :=
  match a with
  | EQ => x =? y | GT => y <? x | GTE => y <=? x | LTE => x <=? y | LT => x <? y
  end.

(** constraint_isAlwaysTrue, constraintResolve.c:965-1066 *)
Definition isAlwaysTrue (c : atom) : out bool :=
  obind (sizeOfMaxSet c) (fun b =>
  if b then Ok true else
  match expr_value (lexpr c), expr_value (expr c) with
  | Some x, Some y => Ok (cmpZ (ar c) x y)
  | _, _ =>
      if similar (lexpr c) (expr c) &&
         (match ar c with EQ | GTE | LTE => true | _ => false end)
      then Ok true
      else
        obind (propagate (expr c)) (fun x =>
        let '(r, p, k) := x in
        if similar (lexpr c) r && p
        then Ok (cmpZ (ar c) 0 k)
        else Ok false)
  end).

(** arithType_canResolve, constraintResolve.c:800-826 *)
Definition canResolve (a b : arith) : bool :=
  match a with
  | GTE | GT => match b with GT | GTE | EQ => true | _ => false end
  | EQ => match b with EQ => true | _ => false end
  | LT | LTE => match b with LT | LTE | EQ => true | _ => false end
  end.

(** The inner part of rangeCheck shared by GTE/GT and LTE/LT,
    constraintResolve.c:1083-1123 and 1132-1172. *)
Definition rangeTail (up : bool) (e1 e2 : cexpr) : out bool :=
  match expr_value e1, expr_value e2 with
  | Some x, Some y => Ok (if up then x <=? y else y <=? x)
  | _, _ =>
      obind (propagate e1) (fun x1 =>
      obind (propagate e2) (fun x2 =>
      let '(a1, p1, k1) := x1 in
      let '(a2, p2, k2) := x2 in
      let c1 := if p1 then k1 else 0 in
      let c2 := if p2 then k2 else 0 in
      Ok ((p1 || p2) && (if up then c1 <=? c2 else c2 <=? c1) && similar a1 a2)))
  end.

(** rangeCheck, constraintResolve.c:1068-1180 *)
Definition rangeCheck (a1 : arith) (e1 : cexpr) (a2 : arith) (e2 : cexpr) : out bool :=
  if negb (canResolve a1 a2) then Ok false else
  match a1 with
  | GTE => if similar e1 e2 then Ok true else rangeTail true e1 e2
  | GT => rangeTail true e1 e2
  | EQ => Ok (similar e1 e2)
  | LTE => if similar e1 e2 then Ok true else rangeTail false e1 e2
  | LT => rangeTail false e1 e2
  end.

(** constraintResolve_satisfies, constraintResolve.c:745-772: only the first
    alternative of either constraint is looked at. *)
Definition satisfies (pre post : constr) : out bool :=
  obind (isAlwaysTrue (first pre)) (fun b =>
  if b then Ok true else
  if similar (lexpr (first pre)) (lexpr (first post))
  then rangeCheck (ar (first pre)) (expr (first pre)) (ar (first post)) (expr (first post))
  else Ok false).

(** constraintList_resolve, constraintResolve.c:775-798 *)
Fixpoint resolve (c : constr) (p : list constr) : out bool :=
  match p with
  | nil => Ok false
  | el :: p' => obind (satisfies c el) (fun b => if b then Ok true else resolve c p')
  end.

(** constraintList_add, constraintList.c:88-111 *)
Definition list_add (s : list constr) (el : constr) : out (list constr) :=
  obind (resolve el s) (fun b => if b then Ok s else Ok (s ++ [el])).

(** constraintList_addList / addListFree, constraintList.c:130-162 *)
Fixpoint list_addAll (s news : list constr) : out (list constr) :=
  match news with
  | nil => Ok s
  | el :: r => obind (list_add s el) (fun s' => list_addAll s' r)
  end.

(** constraintList_subsumeEnsures, constraintResolve.c:224-245 *)
Fixpoint subsumeEnsures (l1 l2 ret : list constr) : out (list constr) :=
  match l1 with
  | nil => Ok ret
  | el :: r =>
      obind (resolve el l2) (fun b =>
      if b then subsumeEnsures r l2 ret
      else obind (list_add ret el) (fun ret' => subsumeEnsures r l2 ret'))
  end.

(** constraintList_mergeEnsures, constraintResolve.c:68-96, from line 82 on: what is known after
    two statements, [l1] already adjusted for the effects of the second. *)
Definition mergeKnown (l1 l2 : list constr) : out (list constr) :=
  obind (subsumeEnsures l1 l2 nil) (fun r =>
  obind (subsumeEnsures l2 r nil) (fun t => list_addAll t r)).

(** constraintExpr_search, constraintExpr.c:1063-1104 *)
Fixpoint search (c old : cexpr) : bool :=
  similar c old ||
  match c with
  | Term _ => false
  | Unary _ a => search a old
  | Binary _ l r => search l old || search r old
  end.

(** constraintExpr_searchandreplace, constraintExpr.c:1108-1214 (no type changes) *)
Fixpoint replace (c old new : cexpr) : cexpr :=
  if similar c old then new else
  match c with
  | Term _ => c
  | Unary u a => Unary u (replace a old new)
  | Binary op l r => Binary op (replace l old new) (replace r old new)
  end.

(** constraint_searchandreplace, constraintResolve.c:1182-1194 *)
Definition atom_replace (c : atom) (old new : cexpr) : atom :=
  Atom (replace (lexpr c) old new) (ar c) (replace (expr c) old new).

(** The loop of inequalitySubstitute, constraintResolve.c:1260-1283 *)
Fixpoint ineq_loop (c : atom) (p : list atom) : atom :=
  match p with
  | nil => c
  | el :: r =>
      ineq_loop
        (if arith_eqb (ar el) LT && similar (expr el) (expr c)
         then Atom (lexpr c) (ar c) (Binary PLUS (lexpr el) (Lit 1)) else c) r
  end.

(** inequalitySubstitute, constraintResolve.c:1252-1287 *)
Definition ineqSubstitute (fuel : nat) (c : atom) (p : list atom) : out atom :=
  if arith_eqb (ar c) GTE then c_simplify fuel (ineq_loop c p) else Ok c.

(** The loop of inequalitySubstituteStrong, constraintResolve.c:1318-1347 *)
Fixpoint strong_loop (c : atom) (p : list atom) : atom :=
  match p with
  | nil => c
  | el :: r =>
      strong_loop
        (if (arith_eqb (ar el) LT || arith_eqb (ar el) LTE) && similar (lexpr el) (expr c)
         then Atom (lexpr c) (ar c)
                   (if arith_eqb (ar el) LTE then expr el else Binary PLUS (expr el) (Lit 1))
         else c) r
  end.

(** inequalitySubstituteStrong, constraintResolve.c:1300-1351 *)
Definition strongSubstitute (fuel : nat) (c : atom) (p : list atom) : out atom :=
  if arith_eqb (ar c) GTE then c_simplify fuel (strong_loop c p) else Ok c.

(** The loop of inequalitySubstituteUnsound, constraintResolve.c:1370-1394 *)
Fixpoint unsound_loop (c : atom) (p : list atom) : atom :=
  match p with
  | nil => c
  | el :: r =>
      unsound_loop
        (if arith_eqb (ar el) LTE || arith_eqb (ar el) LT
         then Atom (replace (lexpr c) (lexpr el)
                      (if arith_eqb (ar el) LT then Binary MINUS (expr el) (Lit 1) else expr el))
                   (ar c) (expr c)
         else c) r
  end.

(** constraint_conflict, constraintResolve.c:636-687, for single-alternative
    constraints; [isExpr] tells which terms are CTT_EXPR (constraintTerm_isExprNode). *)
Definition isExprTerm (e : cexpr) : bool :=
  match e with
  | Term (TKnown _ _) | Term (TSizeof _) | Term (TStr _ _) | Term (TInit _ _) => true
  | _ => false
  end.

Definition conflict (c1 c2 : atom) : bool :=
  (similar (lexpr c1) (lexpr c2) && arith_eqb (ar c1) EQ && arith_eqb (ar c2) EQ)
  || (arith_eqb (ar c1) EQ && arith_eqb (ar c2) EQ
      && search (lexpr c1) (expr c2) && isExprTerm (lexpr c1))
  || tooDeep c1 || tooDeep c2.

(** The loop of constraint_substitute, constraintResolve.c:1404-1425.  The swap made
    by constraint_adjust (1209-1240) depends on file locations; [swap] says for each
    equality whether it happens (its constraint_simplify is left out). *)
Fixpoint subst_loop (swap : atom -> atom -> bool) (c : atom) (p : list atom) : atom :=
  match p with
  | nil => c
  | el :: r =>
      subst_loop swap
        (if arith_eqb (ar el) EQ && negb (conflict c el) then
           let t := if search (expr el) (lexpr el) && swap el c
                    then Atom (expr el) (ar el) (lexpr el) else el in
           atom_replace c (lexpr t) (expr t)
         else c) r
  end.
