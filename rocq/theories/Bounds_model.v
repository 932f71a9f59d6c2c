(** * Checking buffer accesses of whole function bodies

    Sources: src/constraintGeneration.c ([exprNode_generateConstraints] 109-152, [exprNode_stmt]
    154-265, [exprNode_stmtList] 267-305, [doIf] 307-383, [doIfElse] 394-446, [doWhile] 448-452,
    [constraintList_makeFixedArrayConstraints] 454-499, [exprNode_multiStatement] 839-1019,
    [exprNode_booleanTraverse] 1066-1176, [exprNode_exprTraverse] 1178-1594), src/constraint.c
    (the constraint_make functions, 294-555; [constraint_printError] 657-735; [constraint_isConstantOnly]
    1231-1250),
    src/constraintExpr.c ([constraintExpr_makeExprNode] 432-560), src/constraintResolve.c ([constraintList_mergeEnsures]
    68-97, [constraintList_mergeRequires] 111-141, [exprNode_mergeResolve] 144-220, [doResolve]
    376-482, [doResolveOr] 484-560, [constraintList_reflectChangesOr] 563-590,
    [reflectChangesEnsures] 592-620, [constraint_conflict] 636-687, [constraint_fixConflict] 689-702,
    [constraintList_fixConflicts] 724-741, [constraint_adjust] 1209-1240, [constraint_substitute]
    1404-1434), src/constraintList.c ([constraintList_logicalOr] 380-432, [constraintList_copy]),
    src/exprChecks.c ([exprNode_checkFunction] 941-1106).

    The flags have their defaults: orconstraint is on (context.c:927), redundantconstraints,
    impboundsconstraints and the printing of post conditions are off; the function has no
    requires clause.

    Simplified:
    - the language: int variables, arrays of a fixed size, sums and differences, assignments to
      variables, stores into and reads of array elements (as statements of their own), blocks, if,
      if-else, while, return; tests compare two expressions or look at a variable.  The equation
      [a[e] = v] a store adds is left out: elements occur nowhere else in the language, so nothing
      can be replaced with it;
    - the places [constraint_adjust] compares are reduced to whether the equation comes later in
      the text than the constraint it is put into ([later]);
    - [constraint_copy] is the identity; the generating expression, the original constraint and
      the order in which messages are sorted are left out;
    - an assertion that there are at most ten alternatives (380) is left out. *)
From Coq Require Import ZArith List Bool Lia.
From Verif Require Import Cbase Constr_model.
Import ListNotations.
Local Open Scope Z_scope.

(** ** The language *)

(** Index expressions. *)
Inductive iexp := INum (z : Z) | IVar (x : nat) | IAdd (a b : iexp) | ISub (a b : iexp).

(** Relational operators of tests. *)
Inductive rel := RLt | RLe | RGt | RGe | REq.

(** Tests. *)
Inductive test := TCmp (r : rel) (a b : iexp) | TVar (x : nat).

(** Statements. *)
Inductive stmt :=
| SAssign (x : nat) (e : iexp)
| SStore (a : nat) (e : iexp)
| SRead (a : nat) (e : iexp)
| SBlock (l : list stmt)
| SIf (t : test) (b : stmt)
| SIfElse (t : test) (b c : stmt)
| SWhile (t : test) (b : stmt)
| SReturn.

(** The terms of variables and of arrays. *)
Definition vname (x : nat) : nat := (2 * x)%nat.
Definition aname (a : nat) : nat := S (2 * a).
Definition var (x : nat) : cexpr := Term (TName (vname x)).
Definition arr (a : nat) : cexpr := Term (TName (aname a)).

(** One alternative only. *)
Definition single (a : atom) : constr := Constr a nil.

(** constraintExpr_makeExprNode, constraintExpr.c:432-560, for variables, integer constants (whose
    term becomes a literal at once, constraintTerm.c:172-186 and 212-221), + and -. *)
Fixpoint mkExpr (e : iexp) : cexpr :=
  match e with
  | INum z => Lit (wrap32 z)
  | IVar x => var x
  | IAdd a b => Binary PLUS (mkExpr a) (mkExpr b)
  | ISub a b => Binary MINUS (mkExpr a) (mkExpr b)
  end.

(** constraint_makeWriteSafeExprNode, constraint.c:351-360 *)
Definition writeSafe (a : nat) (e : iexp) : atom := Atom (Unary MAXSET (arr a)) GTE (mkExpr e).

(** constraint_makeReadSafeExprNode, constraint.c:294-305; constraint_makeEnsureMaxReadAtLeast,
    384-394, makes the same comparison. *)
Definition readSafe (a : nat) (e : iexp) : atom := Atom (Unary MAXREAD (arr a)) GTE (mkExpr e).

(** constraint_makeEnsureEqual, constraint.c:396-438 *)
Definition ensureEqual (x : nat) (e : iexp) : atom := Atom (var x) EQ (mkExpr e).

(** ** Resolving *)

Definition atoms (p : list constr) : list atom := map first p.

(** constraintTerm_isExprNode, constraintTerm.c:105-114, for the term of a left side: variables are
    expressions, literals are not. *)
Definition isExprSide (e : cexpr) : bool :=
  match e with Term (TLit _) | Term (TVal _ _) => false | Term _ => true | _ => false end.

(** constraint_conflict, constraintResolve.c:636-687 *)
Definition conflicts (c1 c2 : atom) : bool :=
  (similar (lexpr c1) (lexpr c2) && arith_eqb (ar c1) EQ && arith_eqb (ar c2) EQ)
  || (arith_eqb (ar c1) EQ && arith_eqb (ar c2) EQ
      && search (lexpr c1) (expr c2) && isExprSide (lexpr c1))
  || tooDeep c1 || tooDeep c2.

(** constraint_adjust, constraintResolve.c:1209-1240 *)
Definition adjust (f : nat) (later : bool) (el : atom) : out atom :=
  if search (expr el) (lexpr el) && later
  then c_simplify f (Atom (expr el) (ar el) (lexpr el)) else Ok el.

(** The loop of constraint_substitute, constraintResolve.c:1404-1429 *)
Fixpoint substLoop (f : nat) (later : bool) (c : atom) (p : list atom) : out atom :=
  match p with
  | nil => Ok c
  | el :: r =>
      if arith_eqb (ar el) EQ && negb (conflicts c el) then
        obind (adjust f later el) (fun t =>
        substLoop f later (atom_replace c (lexpr t) (expr t)) r)
      else substLoop f later c r
  end.

(** constraint_substitute, constraintResolve.c:1404-1434 *)
Definition subst (f : nat) (later : bool) (c : atom) (p : list constr) : out atom :=
  obind (substLoop f later c (atoms p)) (c_simplify f).

(** inequalitySubstituteUnsound, constraintResolve.c:1361-1398 *)
Definition unsoundSubstitute (f : nat) (c : atom) (p : list atom) : out atom :=
  if arith_eqb (ar c) GTE then c_simplify f (unsound_loop c p) else Ok c.

(** constraint_same, constraint.c:51-71 *)
Definition sameAtom (a b : atom) : bool :=
  arith_eqb (ar a) (ar b) && similar (lexpr a) (lexpr b) && similar (expr a) (expr b).

(** doResolve, constraintResolve.c:376-482, on one alternative: [None] when it is resolved, else
    the alternatives that replace it. *)
Definition doResolve (f : nat) (a : atom) (p : list constr) : out (option (list atom)) :=
  obind (resolve (single a) p) (fun b0 => if b0 then Ok None else
  obind (subst f false a p) (fun t =>
  obind (resolve (single t) p) (fun b1 => if b1 then Ok None else
  obind (ineqSubstitute f a (atoms p)) (fun t2 =>
  obind (resolve (single t2) p) (fun b2 => if b2 then Ok None else
  obind (strongSubstitute f t2 (atoms p)) (fun t3 =>
  obind (resolve (single t3) p) (fun b3 => if b3 then Ok None else
  obind (unsoundSubstitute f t2 (atoms p)) (fun u =>
  obind (resolve (single u) p) (fun b4 => if b4 then Ok None else
  obind (if sameAtom t u then Ok nil
         else obind (subst f false u p) (fun s => Ok [s])) (fun o1 =>
  obind (if negb (sameAtom t t3) && negb (sameAtom t3 u)
         then obind (subst f false t3 p) (fun s => Ok [s]) else Ok nil) (fun o2 =>
  Ok (Some (t :: o1 ++ o2))))))))))))).

(** The alternatives one after the other, as in doResolveOr, constraintResolve.c:508-556 *)
Fixpoint resolveAlts (f : nat) (l : list atom) (p : list constr) : out (option (list atom)) :=
  match l with
  | nil => Ok (Some nil)
  | a :: r =>
      obind (doResolve f a p) (fun o =>
      match o with
      | None => Ok None
      | Some k => obind (resolveAlts f r p) (fun o' =>
                  Ok (match o' with None => None | Some k' => Some (k ++ k') end))
      end)
  end.

(** doResolveOr, constraintResolve.c:484-560: [None] when the constraint is resolved. *)
Definition doResolveOr (f : nat) (c : constr) (p : list constr) : out (option constr) :=
  match p with
  | nil => Ok (Some c)
  | _ => obind (resolveAlts f (first c :: ors c) p) (fun o =>
         Ok (match o with
             | Some (a :: r) => Some (Constr a r)
             | _ => None
             end))
  end.

(** constraintList_reflectChangesOr, constraintResolve.c:563-590, which is also what
    constraintList_reflectChanges (308-321) does when orconstraint is on. *)
Fixpoint reflectInto (f : nat) (ret pre p : list constr) : out (list constr) :=
  match pre with
  | nil => Ok ret
  | c :: r =>
      obind (doResolveOr f c p) (fun o =>
      match o with
      | None => reflectInto f ret r p
      | Some c' => obind (list_add ret c') (fun ret' => reflectInto f ret' r p)
      end)
  end.
Definition reflect (f : nat) (pre p : list constr) : out (list constr) := reflectInto f nil pre p.

(** reflectChangesEnsures, constraintResolve.c:592-620: [pre] was established before [p]. *)
Fixpoint reflectEnsInto (f : nat) (ret pre p : list constr) : out (list constr) :=
  match pre with
  | nil => Ok ret
  | c :: r =>
      obind (resolve c p) (fun b =>
      if b then reflectEnsInto f ret r p else
      obind (subst f true (first c) p) (fun t =>
      obind (resolve (Constr t (ors c)) p) (fun b' =>
      if b' then reflectEnsInto f ret r p
      else obind (list_add ret (Constr t (ors c))) (fun ret' => reflectEnsInto f ret' r p))))
  end.

(** constraint_fixConflict, constraintResolve.c:689-702 *)
Definition fixConflict (f : nat) (good conflicting : atom) : out atom :=
  if arith_eqb (ar conflicting) EQ
  then c_simplify f (Atom (lexpr good) (ar good)
                          (replace (expr good) (lexpr conflicting) (expr conflicting)))
  else Ok good.

(** conflict, constraintResolve.c:704-717: the list with the first conflicting element rewritten,
    when there is one. *)
Fixpoint conflictIn (f : nat) (c : constr) (l : list constr) : out (option (list constr)) :=
  match l with
  | nil => Ok None
  | el :: r =>
      if conflicts (first el) (first c)
      then obind (fixConflict f (first el) (first c)) (fun a => Ok (Some (Constr a (ors el) :: r)))
      else obind (conflictIn f c r) (fun o =>
           Ok (match o with None => None | Some r' => Some (el :: r') end))
  end.

(** constraintList_fixConflicts, constraintResolve.c:724-741: what is left of the first list and
    the rewritten second list. *)
Fixpoint fixConflicts (f : nat) (ret l1 l2 : list constr) : out (list constr * list constr) :=
  match l1 with
  | nil => Ok (ret, l2)
  | c :: r =>
      obind (conflictIn f c l2) (fun o =>
      match o with
      | Some l2' => fixConflicts f ret r l2'
      | None => obind (list_add ret c) (fun ret' => fixConflicts f ret' r l2)
      end)
  end.

(** constraintList_mergeEnsures, constraintResolve.c:68-97 *)
Definition mergeEnsures (f : nat) (l1 l2 : list constr) : out (list constr) :=
  obind (fixConflicts f nil l1 l2) (fun x =>
  obind (reflectEnsInto f nil (fst x) (snd x)) (fun ret => mergeKnown ret (snd x))).

(** constraintList_mergeRequires, constraintResolve.c:111-141 *)
Definition mergeRequires (f : nat) (l1 l2 : list constr) : out (list constr) :=
  obind (reflect f l1 l2) (fun temp =>
  obind (reflect f l2 temp) (fun ret => list_addAll ret temp)).

(** What is known of a statement: what it requires and what it ensures. *)
Record info := Info { reqs : list constr; ens : list constr }.

(** exprNode_mergeResolve, constraintResolve.c:144-220 *)
Definition mergeResolve (f : nat) (i1 i2 : info) : out info :=
  obind (list_addAll nil (reqs i1)) (fun r1 =>
  obind (reflect f (reqs i2) (ens i1)) (fun r2 =>
  obind (mergeRequires f r1 r2) (fun r =>
  obind (mergeEnsures f (ens i1) (ens i2)) (fun e => Ok (Info r e))))).

(** constraintList_substitute, constraintResolve.c:1449-1466, and the loops of
    constraintList_logicalOr, constraintList.c:380-432; [later]: the other list comes later. *)
Fixpoint orInto (f : nat) (later : bool) (ret l other : list constr) : out (list constr) :=
  match l with
  | nil => Ok ret
  | c :: r =>
      obind (subst f later (first c) other) (fun t =>
      obind (resolve c other) (fun b1 =>
      obind (if b1 then Ok true else resolve (Constr t (ors c)) other) (fun b2 =>
      if b2 then
        obind (resolve c ret) (fun b3 =>
        if b3 then orInto f later ret r other
        else obind (list_add ret c) (fun ret' => orInto f later ret' r other))
      else orInto f later ret r other)))
  end.

(** constraintList_logicalOr, constraintList.c:380-432 *)
Definition logicalOr (f : nat) (l1 l2 : list constr) : out (list constr) :=
  obind (orInto f true nil l1 l2) (fun r => orInto f false r l2 l1).

(** ** Generating constraints *)

(** constraint_makeEnsureLessThan ... GreaterThanEqual, constraint.c:440-482 *)
Definition cmpAtom (f : nat) (r : rel) (a b : iexp) : out atom :=
  match r with
  | RLt => c_simplify f (Atom (mkExpr a) LTE (Binary MINUS (mkExpr b) (Lit 1)))
  | RLe => Ok (Atom (mkExpr a) LTE (mkExpr b))
  | RGt => c_simplify f (Atom (mkExpr a) GTE (Binary PLUS (mkExpr b) (Lit 1)))
  | RGe => Ok (Atom (mkExpr a) GTE (mkExpr b))
  | REq => Ok (Atom (mkExpr a) EQ (mkExpr b))
  end.

(** The operator that holds when a comparison is false; == gives nothing
    (exprNode_booleanTraverse, constraintGeneration.c:1098-1137). *)
Definition negRel (r : rel) : option rel :=
  match r with RLt => Some RGe | RLe => Some RGt | RGt => Some RLe | RGe => Some RLt | REq => None end.

(** What is known when the test is true, and when it is false:
    exprNode_booleanTraverse, constraintGeneration.c:1066-1137; a variable gives nothing. *)
Definition trueEns (f : nat) (t : test) : out (list constr) :=
  match t with
  | TCmp r a b => obind (cmpAtom f r a b) (fun c => Ok [single c])
  | TVar _ => Ok nil
  end.
Definition falseEns (f : nat) (t : test) : out (list constr) :=
  match t with
  | TCmp r a b =>
      match negRel r with
      | Some r' => obind (cmpAtom f r' a b) (fun c => Ok [single c])
      | None => Ok nil
      end
  | TVar _ => Ok nil
  end.

(** exprNode_mayEscape, exprNode.c:6686-6693, with the exit codes of statements: that of a list
    is that of its last statement (exprNode_concat, exprNode.c:6750-6752), a conditional one
    may escape when its body may. *)
Fixpoint mayEscape (s : stmt) : bool :=
  match s with
  | SReturn => true
  | SBlock l => (fix last (l : list stmt) : bool :=
                   match l with nil => false | [s] => mayEscape s | _ :: r => last r end) l
  | SIf _ b | SWhile _ b => mayEscape b
  | SIfElse _ b c => mayEscape b || mayEscape c
  | _ => false
  end.

(** The arrays among the used storage of a statement (exprNode_arrayFetch, exprNode.c:1382-1388;
    the sets of statements are the unions of those of their parts). *)
Fixpoint arrays (s : stmt) : list nat :=
  match s with
  | SStore a _ | SRead a _ => [a]
  | SBlock l => flat_map arrays l
  | SIf _ b | SWhile _ b => arrays b
  | SIfElse _ b c => arrays b ++ arrays c
  | _ => nil
  end.

(** constraint_makeSRefSetBufferSize, constraint.c:316-324: the last index of the array. *)
Definition sizeAtom (size : nat -> Z) (a : nat) : atom :=
  Atom (Unary MAXSET (arr a)) EQ (Lit (wrap32 (size a - 1))).

(** constraintList_makeFixedArrayConstraints, constraintGeneration.c:454-499 *)
Definition fixedArrays (size : nat -> Z) (l : list nat) : out (list constr) :=
  list_addAll nil (map (fun a => single (sizeAtom size a)) l).

(** The end of exprNode_generateConstraints, constraintGeneration.c:141-147 *)
Definition withSizes (f : nat) (size : nat -> Z) (l : list nat) (i : info) : out info :=
  obind (fixedArrays size l) (fun fx =>
  obind (reflect f (reqs i) fx) (fun r => Ok (Info r (ens i)))).

(** doIf, constraintGeneration.c:307-383 (tests have no effects and no requirements): what the
    body ensures is not used. *)
Definition doIf (f : nat) (t : test) (esc : bool) (b : info) : out info :=
  obind (trueEns f t) (fun te =>
  obind (reflect f (reqs b) te) (fun r =>
  obind (reflect f r nil) (fun r' =>
  obind (mergeRequires f r' nil) (fun r'' =>
  obind (if esc then obind (falseEns f t) (fun fe => mergeEnsures f nil fe) else Ok nil) (fun e =>
  Ok (Info r'' e)))))).

(** doIfElse, constraintGeneration.c:394-446 *)
Definition doIfElse (f : nat) (t : test) (b c : info) : out info :=
  obind (trueEns f t) (fun te =>
  obind (falseEns f t) (fun fe =>
  obind (reflect f (reqs b) te) (fun r1 =>
  obind (reflect f (reqs c) fe) (fun r2 =>
  obind (mergeRequires f r1 r2) (fun r =>
  obind (mergeRequires f r nil) (fun r' =>
  obind (mergeEnsures f te (ens b)) (fun e1 =>
  obind (mergeEnsures f nil e1) (fun e1' =>
  obind (mergeEnsures f fe (ens c)) (fun e2 =>
  obind (mergeEnsures f nil e2) (fun e2' =>
  obind (logicalOr f e1' e2') (fun e => Ok (Info r' e)))))))))))).

(** exprNode_stmt / exprNode_multiStatement, constraintGeneration.c:154-265 and 839-1019.
    Statements in a list are merged from the left (exprNode_stmtList, 267-305); a block and the
    bodies of if, else and while go through exprNode_generateConstraints. *)
Fixpoint gen (f : nat) (size : nat -> Z) (s : stmt) : out info :=
  let body b := obind (gen f size b) (withSizes f size (arrays b)) in
  match s with
  | SAssign x e => Ok (Info nil [single (ensureEqual x e)])
  | SStore a e => Ok (Info [single (writeSafe a e)] [single (readSafe a e)])
  | SRead a e => Ok (Info [single (readSafe a e)] [single (readSafe a e)])
  | SReturn => Ok (Info nil nil)
  | SBlock l =>
      obind ((fix go (acc : option info) (l : list stmt) : out info :=
                match l with
                | nil => Ok (match acc with Some i => i | None => Info nil nil end)
                | s :: r =>
                    obind (gen f size s) (fun i =>
                    obind (match acc with None => Ok i | Some a => mergeResolve f a i end) (fun a =>
                    go (Some a) r))
                end) None l) (withSizes f size (flat_map arrays l))
  | SIf t b => obind (body b) (doIf f t (mayEscape b))
  | SWhile t b => obind (body b) (doIf f t (mayEscape b))
  | SIfElse t b c => obind (body b) (fun i => obind (body c) (fun j => doIfElse f t i j))
  end.

(** constraintExpr_isConstantOnly, constraintExpr.c:2716-2775 *)
Fixpoint constantOnly (e : cexpr) : bool :=
  match e with
  | Term (TLit _) => true
  | Term _ => false
  | Unary _ a => constantOnly a
  | Binary _ a b => constantOnly a && constantOnly b
  end.

(** A message: the constraint that could not be resolved, and whether the error is called likely
    rather than possible (constraint_isConstantOnly, constraint.c:1231-1250). *)
Record message := Msg { about : atom; likely : bool }.

(** constraint_printError, constraint.c:657-735, for one constraint *)
Definition printOne (c : constr) : out (list message) :=
  obind (isAlwaysTrue (first c)) (fun b =>
  Ok (if b then nil
      else [Msg (first c) (constantOnly (lexpr (first c)) && constantOnly (expr (first c)))])).

(** constraintList_printError, constraintList.c:310-325 *)
Fixpoint printAll (l : list constr) : out (list message) :=
  match l with
  | nil => Ok nil
  | c :: r => obind (printOne c) (fun m => obind (printAll r) (fun k => Ok (m ++ k)))
  end.

(** exprNode_checkFunction, exprChecks.c:941-1106, on the body of a function whose arrays have the
    sizes [size] *)
Definition checkFunction (f : nat) (size : nat -> Z) (body : list stmt) : out (list message) :=
  obind (gen f size (SBlock body)) (fun i =>
  obind (withSizes f size (flat_map arrays body) i) (fun i' => printAll (reqs i'))).
