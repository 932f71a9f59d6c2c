(** Checking that the value of an expression does not depend on the order in which its operands are
    evaluated ([evalorder], [evalorderuncon]).

    Sources: exprNode.c 506-656 (copies of nodes), 752-770 ([exprNode_getValue]), 1358-1398 (subscripts),
    2318-2438 ([checkExpressionDefinedAux]), 2440-2503 ([checkExpressionDefined]), 2726-2876
    ([checkSequencingOne], [checkSequencing]), 2961-3025 and 3202-3204 ([checkGlobMods]), 3746-3796
    ([functionCallSafe]), 4169-4187 ([exprNode_addParens]), 4376-4400 ([exprNode_postOp]), 4500-4640
    ([exprNode_preOp]), 5246-5253 ([evaluationOrderUndefined]), 5329-5347, 5447-5480, 6030-6036
    ([exprNode_makeOp]), 6040-6056 ([exprNode_op]), 6095-6320 ([exprNode_assign]), 6345-6400
    ([exprNode_cond]), 8222-8251 ([exprNode_comma]), 10129-10187 ([exprNode_mergeUSs],
    [exprNode_checkUse]), 10345-10352 ([exprNode_checkSetAny]), 10354-10455 ([exprNode_checkSet]),
    10577-10695 ([checkAnyCall]); sRef.c 1806-1918 ([sRef_similar]), 1926-2010 ([sRef_includedBy]),
    2033-2099 ([sRef_realSame]), 2115-2170 ([sRef_same]), 2325-2376 ([sRef_fixBaseParam]), 6063-6066;
    sRefSet.c 84-111, 276-296 ([sRefSet_insert], [sRefSet_union]), 543-619; multiVal.c 107-129, 294-376.

    Simplified: the objects are integer variables and arrays of integers, which are different objects
    when their names differ; there are no structures and no pointers other than the names of arrays given
    to functions.  The values of constants are unbounded.  All expressions have the right types, all
    variables are defined, [evalorder] is on, and no messages are suppressed.  Functions return fresh
    integers (no parameter is [returned]) and have no [out], [yield] or [sef] parameters; what they may
    have modified only perhaps ([msets]) is always empty.  Values of functions, which are known but mean
    nothing, are left out of the sets (2350, 2371: such elements are passed over). *)
From Verif Require Import Cbase.
From Coq Require Import List ZArith Bool.
Import ListNotations.
Open Scope Z_scope.

(** ** Expressions *)
Definition var := nat.
Definition arr := nat.
Definition fname := nat.

Inductive unop := UMinus | UPlus | UOther.
Inductive binop := BAdd | BSub | BMul | BDiv | BOther.

(** The kinds of expression: a constant, a variable, the name of an array (as an argument), [a[e]],
    [(e)], unary operators, binary operators other than [&&] and [||], these two, the conditional, the
    comma, [=], [op=], [++] and [--] before and after, and calls. *)
Inductive expr :=
| Const (z : Z)
| Var (x : var)
| Arr (a : arr)
| Fetch (a : arr) (i : expr)
| Paren (e : expr)
| Un (o : unop) (e : expr)
| Bin (o : binop) (e1 e2 : expr)
| And (e1 e2 : expr)
| Or (e1 e2 : expr)
| Cond (p t f : expr)
| Comma (e1 e2 : expr)
| Asg (l : lval) (e : expr)
| AsgOp (o : binop) (l : lval) (e : expr)
| Pre (l : lval)
| Post (l : lval)
| Call (f : fname) (args : exprs)
with lval := LV (x : var) | LF (a : arr) (i : expr)
with exprs := ENil | ECons (e : expr) (r : exprs).

Scheme expr_mind := Induction for expr Sort Prop
  with lval_mind := Induction for lval Sort Prop
  with exprs_mind := Induction for exprs Sort Prop.
Combined Scheme expr_lval_exprs_ind from expr_mind, lval_mind, exprs_mind.

(** What is declared of a function: the variables and arrays of its globals list, and its modifies
    clause if it has one: variables, elements of arrays ([a[]]), and what its n-th argument points to. *)
Inductive glob := GVar (x : var) | GArr (a : arr).
Inductive modi := MVar (x : var) | MArr (a : arr) | MDeref (n : nat).
Record fdecl := { globs : list glob; mods : option (list modi) }.

(** ** References to storage *)
(** sRef.h: a variable, an array as a variable ([SK_CVAR]); an element, with its index if known
    ([SK_ARRAYFETCH]); what a reference points to ([SK_PTR]); all that can be reached from a reference
    ([SK_DERIVED]); what an unconstrained function may modify ([SK_UNCONSTRAINED]). *)
Inductive sref :=
| SVar (x : var) | SArr (a : arr) | SElem (a : arr) (k : option Z) | SPtr (s : sref) | SDer (s : sref) | SUncon (f : fname).

Definition optZ_known_eq (j k : option Z) : bool :=
  match j, k with Some j, Some k => j =? k | _, _ => true end.

(** sRef.c 2115-2170. *)
Fixpoint same (s1 s2 : sref) : bool :=
  match s1, s2 with
  | SVar x, SVar y => Nat.eqb x y
  | SArr a, SArr b => Nat.eqb a b
  | SElem a j, SElem b k => Nat.eqb a b && optZ_known_eq j k
  | SPtr s, SPtr t => same s t
  | SDer s, SDer t => same s t
  | _, _ => false
  end.

(** sRef.c 1926-2010. *)
Fixpoint includedBy (small big : sref) : bool :=
  match small with
  | SVar _ | SArr _ => same small big
  | SElem a j =>
      match big with
      | SElem b k => if Nat.eqb a b then optZ_known_eq j k else same (SArr a) big
      | _ => same (SArr a) big
      end
  | SPtr s => match big with SPtr t => same s t | _ => includedBy s big end
  | SDer s => includedBy s big
  | SUncon _ => false
  end.

(** sRef.c 1806-1918: the second argument is looked at first when it is derived. *)
Fixpoint similar (s1 s2 : sref) : bool :=
  match s2 with
  | SDer t => includedBy s1 t
  | _ =>
      match s1, s2 with
      | SVar x, SVar y => Nat.eqb x y
      | SArr a, SArr b => Nat.eqb a b
      | SElem a j, SElem b k => Nat.eqb a b && optZ_known_eq j k
      | SElem a _, SPtr t => same (SArr a) t
      | SPtr s, SPtr t => similar s t
      | SPtr s, SElem b _ => same (SArr b) s
      | SDer s, _ => includedBy s2 s
      | SUncon f, SUncon g => Nat.eqb f g
      | _, _ => false
      end
  end.

(** sRef.c 2033-2099. *)
Fixpoint realSame (s1 s2 : sref) : bool :=
  match s1, s2 with
  | SVar x, SVar y => Nat.eqb x y
  | SArr a, SArr b => Nat.eqb a b
  | SElem a (Some j), SElem b (Some k) => Nat.eqb a b && (j =? k)
  | SElem a None, SElem b None => Nat.eqb a b
  | SPtr s, SPtr t => realSame s t
  | SDer s, SDer t => realSame s t
  | SUncon f, SUncon g => Nat.eqb f g
  | _, _ => false
  end.

(** sRefSet.c 84-111, 276-296, 603-607, 615-619. *)
Definition insert (s : list sref) (el : sref) : list sref :=
  if existsb (realSame el) s then s else s ++ [el].
Definition union (s1 s2 : list sref) : list sref := fold_left insert s2 s1.
Definition member (s : list sref) (el : sref) : bool := existsb (similar el) s.
Definition isUncon (s : sref) : bool := match s with SUncon _ => true | _ => false end.
Definition hasUncon (s : list sref) : bool := existsb isUncon s.

(** ** Nodes *)
(** exprNode.h: what has been used and set by the expression, the storage its value is in, its value if
    known, and whether it is a call ([XPR_CALL]). *)
Record node := { uses : list sref; sets : list sref; ref : option sref; val : option Z; isCall : bool }.

(** exprNode.c 10165-10187: the storage the operand is in is used. *)
Definition use (us : list sref) (r : option sref) : list sref :=
  match r with Some s => insert us s | None => us end.
(** exprNode.c 10354-10455. *)
Definition set (ss : list sref) (r : option sref) : list sref :=
  match r with Some s => insert ss s | None => ss end.

(** ** Messages *)
Inductive msg :=
| MLeftValue              (* 2455: value of left operand is modified by right operand *)
| MLeftUses (s : sref)    (* 2361: left operand uses s, modified by right operand *)
| MRightValue             (* 2374: value of right operand modified by left operand *)
| MRightUses (s : sref)   (* 2384: left operand modifies s, used by right operand *)
| MBoth (s : sref)        (* 2422: both operands modify s *)
| MArgUse (i j : nat) (s : sref)  (* 2800: argument i modifies s, used by argument j *)
| MArgSet (i j : nat) (s : sref)  (* 2836: argument i modifies s, set by argument j *)
| MUncon.                 (* 2332, 2345, 2405, 2768, 2784, 2820: unconstrained functions *)

Definition isUnconMsg (m : msg) : bool := match m with MUncon => true | _ => false end.

Section Check.
Variable glob_var : var -> bool.   (* declared outside of functions *)
Variable glob_arr : arr -> bool.
Variable decl : fname -> fdecl.
Variable uncon : bool.             (* [evalorderuncon] *)

(** sRef.c 6063-6066 with [sRef_getRootBase]. *)
Fixpoint rootGlobal (s : sref) : bool :=
  match s with
  | SVar x => glob_var x
  | SArr a | SElem a _ => glob_arr a
  | SPtr s => rootGlobal s
  | SDer _ | SUncon _ => false
  end.
Definition refGlobal (r : option sref) : bool := match r with Some s => rootGlobal s | None => false end.

Definition unconIf (b : bool) : list msg := if uncon && b then [MUncon] else [].
Definition ofBool (b : bool) (m : msg) : list msg := if b then [m] else [].

(** exprNode.c 2369-2436: one element of what the left operand modifies. *)
Definition checkLeftSet (n2 : node) (s : sref) : list msg :=
  if match ref n2 with Some t => same s t | None => false end then [MRightValue]
  else if member (uses n2) s then [MRightUses s]
  else if member (sets n2) s then if isUncon s then unconIf true else [MBoth s]
  else [].
(** exprNode.c 2318-2438 (without [hadUncon], which leaves out repetitions of one message). *)
Definition checkDefinedAux (n1 n2 : node) : list msg :=
  unconIf (refGlobal (ref n1) && hasUncon (sets n2))
  ++ unconIf (refGlobal (ref n2) && hasUncon (sets n1))
  ++ flat_map (fun s => ofBool (member (sets n2) s) (MLeftUses s)) (uses n1)
  ++ flat_map (checkLeftSet n2) (sets n1).
(** exprNode.c 2440-2503. *)
Definition checkDefined (n1 n2 : node) : list msg :=
  if match ref n1 with Some s => member (sets n2) s | None => false end && negb (isCall n2)
  then [MLeftValue]
  else checkDefinedAux n1 n2.

(** exprNode.c 2726-2853: argument [i] against argument [j]. *)
Definition checkSeq2 (i j : nat) (ni nj : node) : list msg :=
  flat_map (fun s =>
    unconIf (refGlobal (ref nj) && hasUncon (sets ni))
    ++ (if member (uses nj) s then if isUncon s then unconIf true else [MArgUse i j s]
        else if member (sets nj) s then if isUncon s then unconIf true else [MArgSet i j s]
        else [])) (sets ni).
Definition numbered {A} (l : list A) : list (nat * A) := combine (seq 1 (length l)) l.
(** exprNode.c 2855-2876 (the messages are given argument by argument rather than element by element). *)
Definition checkSeq (ns : list node) : list msg :=
  flat_map (fun p => flat_map (fun q =>
    if Nat.eqb (fst p) (fst q) then [] else checkSeq2 (fst p) (fst q) (snd p) (snd q))
    (numbered ns)) (numbered ns).

(** multiVal.c 107-129, 294-376 for integers. *)
Definition valUn (o : unop) (v : option Z) : option Z :=
  match o, v with UMinus, Some z => Some (-1 * z) | UPlus, v => v | _, _ => None end.
Definition valBin (o : binop) (v w : option Z) : option Z :=
  match v, w with
  | Some v, Some w =>
      match o with
      | BAdd => Some (v + w) | BSub => Some (v - w) | BMul => Some (v * w)
      | BDiv => if w =? 0 then None else Some (Z.quot v w)
      | BOther => None
      end
  | _, _ => None
  end.

(** exprNode.c 1358-1398: an element of the array [a] with the subscript [n]. *)
Definition fetchNode (a : arr) (n : node) : node :=
  {| uses := insert (use (uses n) (ref n)) (SArr a); sets := sets n; ref := Some (SElem a (val n)); val := None; isCall := false |}.
(** exprNode.c 5329-5347, 6030-6036. *)
Definition opNode (n1 n2 : node) (v : option Z) : node :=
  {| uses := use (union (use (uses n1) (ref n1)) (uses n2)) (ref n2); sets := union (sets n1) (sets n2);
     ref := None; val := v; isCall := false |}.
(** exprNode.c 6124-6134 and 6270-6320: [=]. *)
Definition asgNode (n1 n2 : node) : node :=
  {| uses := use (union (uses n1) (uses n2)) (ref n2); sets := set (union (sets n1) (sets n2)) (ref n1);
     ref := ref n1; val := val n1; isCall := false |}.
(** exprNode.c 6103-6122 and 6270-6320: [op=]. *)
Definition asgOpNode (n1 n2 : node) (v : option Z) : node :=
  let o := opNode n1 n2 v in
  {| uses := use (union (uses o) (uses n2)) (ref n2); sets := set (union (sets o) (sets n2)) (ref n1);
     ref := ref n1; val := val o; isCall := false |}.
(** exprNode.c 4376-4392 (after), 4500-4562 (before: the value is not kept). *)
Definition incNode (n : node) (v : option Z) : node :=
  {| uses := use (uses n) (ref n); sets := set (sets n) (ref n); ref := None; val := v; isCall := false |}.
(** exprNode.c 4500-4640: the other unary operators. *)
Definition unNode (n : node) (v : option Z) : node :=
  {| uses := use (uses n) (ref n); sets := sets n; ref := None; val := v; isCall := false |}.
(** exprNode.c 6345-6400: the value is that of the condition (createPartialCopy, 545). *)
Definition condNode (p t f : node) : node :=
  {| uses := union (union (use (uses p) (ref p)) (use (uses t) (ref t))) (use (uses f) (ref f));
     sets := union (union (sets p) (sets t)) (sets f); ref := ref t; val := val p; isCall := false |}.
(** exprNode.c 8222-8251: the value is that of the first operand. *)
Definition commaNode (n1 n2 : node) : node :=
  {| uses := use (union (use (uses n1) (ref n1)) (uses n2)) (ref n2); sets := union (sets n1) (sets n2);
     ref := ref n2; val := val n1; isCall := false |}.

(** exprNode.c 3773-3781: each argument is used. *)
Definition argNode (n : node) : node :=
  {| uses := use (uses n) (ref n); sets := sets n; ref := ref n; val := val n; isCall := isCall n |}.
(** sRef.c 2325-2376: what a function may modify, for the arguments of a call. *)
Definition fixMod (ns : list node) (m : modi) : list sref :=
  match m with
  | MVar x => [SVar x]
  | MArr a => [SElem a None]
  | MDeref n => match nth_error ns n with Some k => match ref k with Some s => [SPtr s] | None => [] end | None => [] end
  end.
Definition globRef (g : glob) : sref := match g with GVar x => SVar x | GArr a => SArr a end.
(** exprNode.c 3788-3795, 2961-3025 (globals), 10602-10645 (arguments), 10646-10695 (modifies clause),
    3202-3204. *)
Definition callNode (f : fname) (ns : list node) : node :=
  let derived := flat_map (fun n => match ref n with Some s => [SDer s] | None => [] end) ns in
  let fu := fold_left union (map uses ns) (union [] (map globRef (globs (decl f)))) in
  let fs := fold_left union (map sets ns) [] in
  {| uses := union (union [] derived) fu;
     sets := match mods (decl f) with
             | Some ms => union fs (flat_map (fixMod ns) ms)
             | None => insert fs (SUncon f)
             end;
     ref := None; val := None; isCall := true |}.

(** An expression: its node and the messages given while it is read. *)
Fixpoint check (e : expr) : node * list msg :=
  match e with
  | Const z => ({| uses := []; sets := []; ref := None; val := Some z; isCall := false |}, [])
  | Var x => ({| uses := []; sets := []; ref := Some (SVar x); val := None; isCall := false |}, [])
  | Arr a => ({| uses := []; sets := []; ref := Some (SArr a); val := None; isCall := false |}, [])
  | Fetch a i => let (n, m) := check i in (fetchNode a n, m)
  | Paren e => let (n, m) := check e in
      ({| uses := uses n; sets := sets n; ref := ref n; val := val n; isCall := false |}, m)
  | Un o e => let (n, m) := check e in (unNode n (valUn o (val n)), m)
  | Bin o e1 e2 =>
      let (n1, m1) := check e1 in let (n2, m2) := check e2 in
      (opNode n1 n2 (valBin o (val n1) (val n2)), m1 ++ m2 ++ checkDefined n1 n2)
  | And e1 e2 | Or e1 e2 =>
      let (n1, m1) := check e1 in let (n2, m2) := check e2 in (opNode n1 n2 None, m1 ++ m2)
  | Cond p t f =>
      let (n, m) := check p in let (n1, m1) := check t in let (n2, m2) := check f in
      (condNode n n1 n2, m ++ m1 ++ m2)
  | Comma e1 e2 =>
      let (n1, m1) := check e1 in let (n2, m2) := check e2 in (commaNode n1 n2, m1 ++ m2)
  | Asg l e =>
      let (n1, m1) := checkL l in let (n2, m2) := check e in
      (asgNode n1 n2, m1 ++ m2 ++ checkDefined n1 n2)
  | AsgOp o l e =>
      let (n1, m1) := checkL l in let (n2, m2) := check e in
      (asgOpNode n1 n2 (valBin o (val n1) (val n2)), m1 ++ m2 ++ checkDefined n1 n2)
  | Pre l => let (n, m) := checkL l in (incNode n None, m)
  | Post l => let (n, m) := checkL l in (incNode n (val n), m)
  | Call f args =>
      let (ns, m) := checkArgs args in
      let ns := map argNode ns in (callNode f ns, m ++ checkSeq ns)
  end
with checkL (l : lval) : node * list msg :=
  match l with
  | LV x => ({| uses := []; sets := []; ref := Some (SVar x); val := None; isCall := false |}, [])
  | LF a i => let (n, m) := check i in (fetchNode a n, m)
  end
with checkArgs (es : exprs) : list node * list msg :=
  match es with
  | ENil => ([], [])
  | ECons e r => let (n, m) := check e in let (ns, ms) := checkArgs r in (n :: ns, m ++ ms)
  end.

Definition nodeOf (e : expr) : node := fst (check e).
Definition messages (e : expr) : list msg := snd (check e).
End Check.
