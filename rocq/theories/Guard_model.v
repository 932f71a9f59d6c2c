(** What splint concludes from a test: the guards of a condition, i.e. the references it takes to
    be non-null when the condition is true and when it is false.

    Sources: guardSet.c 54-345, sRefSet.c 85-111, 276-297, 347-362, 544-607, sRef.c 1807-1917
    ([sRef_similar]) and 2034-2096 ([sRef_realSame]), exprNode.c 505-700 (copies of nodes, null
    values, unknown constants), 1330-1345 (references of array elements), 4169 (parentheses),
    4492-4700 (unary operators), 5004-5040 (casts), 5326-5670 (binary operators), 6094-6300
    (assignment), 6342-6470 (conditional expressions), 6898-6910 ([exprNode_produceGuards]), 8222-8262
    (comma), 3747-3840 (calls of functions annotated nullwhentrue / falsewhennull), and
    cgrammar.y 1039-1070, 1961 (where [exprNode_produceGuards] is called).

    Simplified: of an expression node only guards, reference, type (as far as tests look at it),
    value and "is an unknown constant" are kept; references are variables (parameters and other
    variables alike), fields, dereferences, array elements and constants - addresses, conjunctions
    and derived storage are left out; results of calls have no meaningful reference; values of the
    machine type [long] are unbounded; pointer identity of [sRef]s (the first line of
    [sRef_similar] and [sRef_realSame]) is not modelled, it never contradicts the structural
    answer for the references kept. *)
From Verif Require Import Cbase.

(** References (sRef.h, the kinds SK_CVAR/SK_PARAM, SK_FIELD, SK_PTR, SK_ARRAYFETCH, SK_CONST).
    An array element has an index only if the index is a number known to splint. *)
Inductive ref :=
| RVar (x : nat)
| RField (r : ref) (f : nat)
| RPtr (r : ref)
| RFetch (r : ref) (i : option Z)
| RConst (c : nat).

(** sRef.c 1807-1917 [sRef_similar].  [sim false a b] is sRef_similar (a, b) and [sim true a b] is
    sRef_similar (b, a): the case SK_PTR / SK_ARRAYFETCH (1872-1880) calls itself with its
    arguments exchanged. *)
Fixpoint sim (flip : bool) (a b : ref) {struct a} : bool :=
  match a, b with
  | RVar x, RVar y => Nat.eqb x y
  | RFetch a i, RFetch b j =>
      if sim flip a b then
        match i, j with Some i, Some j => Z.eqb i j | _, _ => true end
      else false
  | RFetch a _, RPtr b => sim false a b
  | RPtr a, RFetch b _ => sim true a b
  | RField a f, RField b g => sim flip a b && Nat.eqb f g
  | RPtr a, RPtr b => sim flip a b
  | _, _ => false
  end.
Definition similar (s1 s2 : ref) : bool := sim false s1 s2.

(** sRef.c 2034-2096 [sRef_realSame]. *)
Fixpoint real_same (s1 s2 : ref) : bool :=
  match s1, s2 with
  | RVar x, RVar y => Nat.eqb x y
  | RFetch a i, RFetch b j =>
      if real_same a b then
        match i, j with
        | Some i, Some j => Z.eqb i j
        | None, None => true
        | _, _ => false
        end
      else false
  | RField a f, RField b g => real_same a b && Nat.eqb f g
  | RPtr a, RPtr b => real_same a b
  | RConst _, _ => true
  | _, _ => false
  end.

(** sRefSet.c 544-555, 591-607: tests of membership. *)
Definition same_member (s : list ref) (el : ref) : bool := existsb (real_same el) s.
Definition member (s : list ref) (el : ref) : bool := existsb (similar el) s.
(** sRefSet.c 85-111. *)
Definition rs_insert (s : list ref) (el : ref) : list ref :=
  if same_member s el then s else s ++ [el].
(** sRefSet.c 276-297. *)
Definition rs_union (s1 s2 : list ref) : list ref :=
  match s1 with [] => s2 | _ => fold_left rs_insert s2 s1 end.
(** sRefSet.c 347-362. *)
Definition rs_intersect (s1 s2 : list ref) : list ref :=
  fold_left (fun s el => if member s2 el then rs_insert s el else s) s1 [].

(** guardSet.h: a guard set is undefined, or a set of references which are not null on this branch
    (tguard) and a set of those which are not null on the other branch (fguard). *)
Definition guards := option (list ref * list ref).

(** guardSet.c 82-115 [guardSet_or]. *)
Definition g_or (s t : guards) : guards :=
  match s, t with
  | None, None => None
  | None, Some (t1, t2) => Some (rs_intersect [] t1, rs_union [] t2)
  | Some (_, sf), None => Some ([], sf)
  | Some (st, sf), Some (t1, t2) => Some (rs_intersect st t1, rs_union sf t2)
  end.
(** guardSet.c 117-150 [guardSet_and]. *)
Definition g_and (s t : guards) : guards :=
  match s, t with
  | None, None => None
  | None, Some (t1, t2) => Some (rs_union [] t1, rs_intersect [] t2)
  | Some (st, _), None => Some (st, [])
  | Some (st, sf), Some (t1, t2) => Some (rs_union st t1, rs_intersect sf t2)
  end.
(** guardSet.c 226-252 [guardSet_flip], [guardSet_invert]. *)
Definition g_invert (g : guards) : guards :=
  match g with None => None | Some (t, f) => Some (f, t) end.
(** guardSet.c 273-301; the argument is [None] when the reference is not meaningful. *)
Definition add_true (g : guards) (r : option ref) : guards :=
  match r, g with
  | None, _ => g
  | Some r, None => Some (rs_insert [] r, [])
  | Some r, Some (t, f) => Some (rs_insert t r, f)
  end.
Definition add_false (g : guards) (r : option ref) : guards :=
  match r, g with
  | None, _ => g
  | Some r, None => Some ([], rs_insert [] r)
  | Some r, Some (t, f) => Some (t, rs_insert f r)
  end.
(** guardSet.c 327-344 [guardSet_isGuarded], [guardSet_mustBeNull]. *)
Definition is_guarded (g : guards) (r : ref) : bool :=
  match g with None => false | Some (t, _) => member t r end.
Definition must_be_null (g : guards) (r : ref) : bool :=
  match g with None => false | Some (_, f) => member f r end.

(** ** Expressions *)

(** The type of an expression, as far as tests look at it (ctype_isRealPointer, ctype_isRealBool,
    ctype_isUnknown; everything else is numeric here). *)
Inductive ty := Tptr | Tbool | Tint | Tunknown.
Definition ty_eqb (a b : ty) : bool :=
  match a, b with
  | Tptr, Tptr | Tbool, Tbool | Tint, Tint | Tunknown, Tunknown => true
  | _, _ => false
  end.

(** Storage as written in the program; the index of an array element is a number or a variable. *)
Inductive lval :=
| LVar (x : nat)
| LField (l : lval) (f : nat)
| LDeref (l : lval)
| LIdx (l : lval) (i : Z)
| LIdxV (l : lval) (x : nat).

Inductive bop := Badd | Bsub | Bmul | Bdiv | Bbits (k : nat) | Brel (k : nat).
Inductive uop := Uneg | Ucompl.
(** Annotations of a predicate: nullwhentrue, falsewhennull, neither. *)
Inductive npred := NPtrue | NPfalse | NPnone.

Inductive expr :=
| ERef (t : ty) (l : lval)                    (* use of a variable, field, ... of type t *)
| ELit (z : Z)                                (* a number *)
| EConst (t : ty) (c : nat) (v : option Z)    (* a named constant, its value if known *)
| EParen (e : expr)
| ENot (e : expr)
| EUn (o : uop) (e : expr)
| EAnd (a b : expr)
| EOr (a b : expr)
| EEq (a b : expr)
| ENe (a b : expr)
| EBin (o : bop) (a b : expr)
| EComma (a b : expr)
| ECond (p a b : expr)
| EAssign (t : ty) (x : nat) (e : expr)       (* x = e, x a variable of type t *)
| ECast (t : ty) (e : expr)
| ECall (f : nat) (n : npred) (a : expr).     (* f (a) *)

(** An expression node (exprNode.h): guards, meaningful reference if any, type, known integer
    value, "is an unknown constant". *)
Record node := Node { n_guards : guards; n_ref : option ref; n_ty : ty; n_val : option Z;
                      n_unk : bool }.

(** The reference of storage: exprNode.c 1330-1345 (array elements have a known index when the index
    expression has an integer value), sRef.c (makeField, makePointer). *)
Fixpoint ref_of (l : lval) : ref :=
  match l with
  | LVar x => RVar x
  | LField l f => RField (ref_of l) f
  | LDeref l => RPtr (ref_of l)
  | LIdx l i => RFetch (ref_of l) (Some i)
  | LIdxV l _ => RFetch (ref_of l) None
  end.

(** exprNode.c 658-672 [exprNode_isNullValue]. *)
Definition is_null_value (n : node) : bool :=
  match n_val n with Some z => Z.eqb z 0 | None => false end.
(** exprNode.c 658-700: what the comparison with == and != takes for a null pointer. *)
Definition null_like (n : node) : bool := is_null_value n || n_unk n.

(** exprNode.c 6898-6910 [exprNode_produceGuards]. *)
Definition produce (n : node) : node :=
  Node (if ty_eqb (n_ty n) Tptr then add_true (n_guards n) (n_ref n) else n_guards n)
       None (n_ty n) (n_val n) (n_unk n).

(** exprNode.c 5351-5410, 5417-5423 [exprNode_makeOp] for && and ||; the left operand has been
    through [exprNode_produceGuards] (cgrammar.y 1039, 1053). *)
Definition n_logic (g : guards -> guards -> guards) (a b : node) : node :=
  Node (g (n_guards (produce a)) (n_guards (produce b))) None Tbool None false.

(** exprNode.c 5393-5416 with 11317-11328 [reflectNullTest]: == and !=. *)
Definition n_compare (ne : bool) (a b : node) : node :=
  let '(x, y) := if null_like a then (b, a) else (a, b) in
  Node (if null_like y
        then (if ne then add_true (n_guards x) (n_ref x) else add_false (n_guards x) (n_ref x))
        else n_guards a)
       None Tbool None false.

(** multiVal.c 270-385: values of arithmetic on numbers. *)
Definition v_arith (o : bop) (a b : option Z) : option Z :=
  match a, b with
  | Some x, Some y =>
      match o with
      | Badd => Some (x + y)
      | Bsub => Some (x - y)
      | Bmul => Some (x * y)
      | Bdiv => if Z.eqb y 0 then None else Some (Z.quot x y)
      | _ => None
      end
  | _, _ => None
  end.

(** exprNode.c 5326-5670 for the other operators: guards of the left operand; pointer plus number has
    the reference of the pointer (5482-5521, 5585-5667). *)
Definition n_bin (o : bop) (a b : node) : node :=
  match o with
  | Brel _ => Node (n_guards a) None Tbool None false
  | Badd | Bsub =>
      if ty_eqb (n_ty a) Tptr && negb (is_null_value a) && ty_eqb (n_ty b) Tint then
        Node (n_guards a) (n_ref a) Tptr (v_arith o (n_val a) (n_val b)) false
      else if ty_eqb (n_ty a) Tint && (ty_eqb (n_ty b) Tptr && negb (is_null_value b)) then
        Node (n_guards a) (n_ref b) Tptr (v_arith o (n_val a) (n_val b)) false
      else Node (n_guards a) None Tint (v_arith o (n_val a) (n_val b)) false
  | _ => Node (n_guards a) None Tint (v_arith o (n_val a) (n_val b)) false
  end.

(** exprNode.c 4492-4520, 4650-4681: negation. *)
Definition n_not (n : node) : node :=
  match n_ty n with
  | Tbool | Tunknown => Node (g_invert (n_guards n)) None (n_ty n) None false
  | Tptr => Node (add_false (g_invert (n_guards n)) (n_ref n)) None Tbool None false
  | Tint => Node (g_invert (n_guards n)) None Tbool None false
  end.

(** The node built for an expression, function by function:
    identifiers, fields, elements 1330-1345; numbers 702-; constants 674-700 and entryIdentifier;
    parentheses 4169-; negation 4650-4681; unary minus and complement 4605-4640, 4683-4700;
    && || == != and other operators above; comma 8222-8262 (copy of the left operand, reference
    and type of the right one); ?: 6342-6470 (copy of the predicate after produceGuards, reference
    and type of the second operand, the type of the third if the second is a null value);
    assignment 6094-6300 (copy of the left side); casts 5004-5040; calls 3747-3840. *)
Fixpoint build (e : expr) : node :=
  match e with
  | ERef t l => Node None (Some (ref_of l)) t None false
  | ELit z => Node None None Tint (Some z) false
  | EConst t c v =>
      Node None (Some (RConst c)) t v (match v with None => true | Some _ => false end)
  | EParen e => build e
  | ENot e => n_not (build e)
  | EUn Uneg e => Node (n_guards (build e)) None (n_ty (build e)) (option_map Z.opp (n_val (build e))) false
  | EUn Ucompl e => Node (n_guards (build e)) None (n_ty (build e)) None false
  | EAnd a b => n_logic g_and (build a) (build b)
  | EOr a b => n_logic g_or (build a) (build b)
  | EEq a b => n_compare false (build a) (build b)
  | ENe a b => n_compare true (build a) (build b)
  | EBin o a b => n_bin o (build a) (build b)
  | EComma a b =>
      Node (n_guards (build a)) (n_ref (build b)) (n_ty (build b)) (n_val (build a)) false
  | ECond p a b =>
      Node (n_guards (produce (build p))) (n_ref (build a))
           (if is_null_value (build a) then n_ty (build b) else n_ty (build a))
           (n_val (build p)) false
  | EAssign t x _ => Node None (Some (RVar x)) t None false
  | ECast t e => Node (n_guards (build e)) (n_ref (build e)) t (n_val (build e)) false
  | ECall _ n a =>
      Node (match n with
            | NPtrue => add_false None (n_ref (build a))
            | NPfalse => add_true None (n_ref (build a))
            | NPnone => None
            end) None Tint None false
  end.

(** The guards of a condition: of an if (cgrammar.y 1961), a while (exprNode.c 7924-7943) or the left
    operand of && and ||. *)
Definition test_guards (e : expr) : guards := n_guards (produce (build e)).
(** The guards of the condition of a for: cgrammar.y 1744-1763 passes the node as it is. *)
Definition for_guards (e : expr) : guards := n_guards (build e).
