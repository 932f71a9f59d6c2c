(** How splint follows null states through a function body: which dereferences it complains of.

    Sources: usymtab.c 2500-2566 (true branches), 2570-2617 and 2721-2760 (operands of || and &&),
    2939-3001 ([updateNullState]), 3003-3214 ([usymtab_popBranches]), 3218-3248 (false branches),
    4349-4385 (leaving a block), 4886-4995 (looking up a variable), 5503-5560 (guards); uentry.c
    10030-10100 (copies, [uentry_setState], [uentry_mergeUses]), 10290-10420 and 10600-10690
    ([uentry_mergeState]); sRef.c 9550-9612 ([sRef_combineNullState]), 5554-5590; varKinds.c
    95-105; guardSet.c 68-78, 157-225, sRefSet.c 155-185; transferChecks.c 2428-2500
    ([transferChecks_assign]); exprNode.c 4755-4783 (dereference), 10344-10365 (the mark that a
    variable is set), 11342-11388 ([updateAliases]); context.c 1580-1590, 1748-1819, 2316-2433;
    clabstract.c 589-603 (parameters); cgrammar.y 1039-1070, 1702-1985.

    Simplified: variables are pointers, parameters or variables declared in the outermost block of
    the function, all initialised, whose addresses are not taken; they are assigned null, fresh or
    possibly null values, not copied from each other, so no aliases arise; blocks declare
    nothing; tables of entries are functions; every message is really given.  Of the null state of a
    reference the reasons kept for messages are left out. *)
From Verif Require Import Cbase Guard_model.
From Verif Require Flow_model.

(** Headers/varKinds.h 48-60. *)
Inductive nstate := NS_ERROR | NS_UNKNOWN | NS_NOTNULL | NS_MNOTNULL | NS_RELNULL | NS_CONSTNULL | NS_POSNULL | NS_DEFNULL | NS_ABSNULL.
(** varKinds.c 99-105. *)
Definition poss (n : nstate) : bool :=
  match n with NS_CONSTNULL | NS_POSNULL | NS_DEFNULL | NS_ABSNULL => true | _ => false end.
(** sRef.c 9843-9860 [sRef_isNotNull]. *)
Definition isnot (n : nstate) : bool := match n with NS_NOTNULL | NS_MNOTNULL => true | _ => false end.
Definition ns_eqb (a b : nstate) : bool :=
  match a, b with
  | NS_ERROR, NS_ERROR | NS_UNKNOWN, NS_UNKNOWN | NS_NOTNULL, NS_NOTNULL | NS_MNOTNULL, NS_MNOTNULL | NS_RELNULL, NS_RELNULL
  | NS_CONSTNULL, NS_CONSTNULL | NS_POSNULL, NS_POSNULL | NS_DEFNULL, NS_DEFNULL | NS_ABSNULL, NS_ABSNULL => true
  | _, _ => false
  end.
(** sRef.c 9550-9612 [sRef_combineNullState]. *)
Definition combine (n1 n2 : nstate) : nstate :=
  if ns_eqb n1 n2 || ns_eqb n2 NS_UNKNOWN then n1
  else match n1 with
  | NS_ERROR => NS_ERROR
  | NS_UNKNOWN => n2
  | NS_POSNULL => NS_POSNULL
  | NS_DEFNULL => NS_POSNULL
  | NS_RELNULL => NS_RELNULL
  | NS_NOTNULL => if ns_eqb n2 NS_MNOTNULL then NS_NOTNULL else NS_POSNULL
  | NS_MNOTNULL => if ns_eqb n2 NS_NOTNULL then NS_NOTNULL else NS_POSNULL
  | NS_CONSTNULL | NS_ABSNULL => n2
  end.

(** ** Programs *)

(** Conditions: [x == NULL], [x != NULL], [x], [*x], some other test, [1], a call of a function
    which does not return, [!], [&&], [||]. *)
Inductive cond :=
| CNull (x : nat) | CNon (x : nat) | CPtr (x : nat) | CDeref (x : nat) | COther | CTrue | CExit
| CNot (c : cond) | CAnd (a b : cond) | COr (a b : cond).
(** Assigned values: [NULL], a value known not to be null, the result of a function which may
    return null, a null constant of an abstract type. *)
Inductive val := VNull | VFresh | VMaybe | VConst.
Inductive stmt :=
| SSkip | SExpr (c : cond) | SSet (x : nat) (v : val) | SSeq (a b : stmt) | SBlock (a : stmt)
| SIf (c : cond) (a : stmt) | SIfElse (c : cond) (a b : stmt)
| SWhile (c : cond) (a : stmt) | SDo (a : stmt) (c : cond)
| SRet | SBrk | SCont.

(** The null state of a value: constants uentry.c 2335, results of annotated functions. *)
Definition vstate (v : val) : nstate :=
  match v with VNull => NS_DEFNULL | VFresh => NS_NOTNULL | VMaybe => NS_POSNULL | VConst => NS_CONSTNULL end.

(** A condition as an expression of the model of guards. *)
Fixpoint cexpr (c : cond) : expr :=
  match c with
  | CNull x => EEq (ERef Tptr (LVar x)) (ELit 0)
  | CNon x => ENe (ERef Tptr (LVar x)) (ELit 0)
  | CPtr x => ERef Tptr (LVar x)
  | CDeref x => ERef Tint (LDeref (LVar x))
  | COther | CExit => ECall 0 NPnone (ELit 0)
  | CTrue => ELit 1
  | CNot c => ENot (cexpr c)
  | CAnd a b => EAnd (cexpr a) (cexpr b)
  | COr a b => EOr (cexpr a) (cexpr b)
  end.
Definition cguards (c : cond) : guards := test_guards (cexpr c).

(** A statement as one of the model of control flow. *)
Definition cflow (c : cond) : Flow_model.expr :=
  match c with CExit => Flow_model.ECall Flow_model.XK_MUSTEXIT | _ => Flow_model.EOther end.
Fixpoint flow (s : stmt) : Flow_model.stmt :=
  match s with
  | SSkip => Flow_model.Semi
  | SExpr c => Flow_model.Expr (cflow c)
  | SSet _ _ => Flow_model.Expr Flow_model.EOther
  | SSeq a b => Flow_model.Seq (flow a) (flow b)
  | SBlock a => Flow_model.Block (flow a)
  | SIf _ a => Flow_model.If (flow a)
  | SIfElse _ a b => Flow_model.IfElse (flow a) (flow b)
  | SWhile c a => Flow_model.While (match c with CTrue => Some 1 | _ => None end) (flow a)
  | SDo a _ => Flow_model.DoWhile (flow a)
  | SRet => Flow_model.Ret
  | SBrk => Flow_model.Brk
  | SCont => Flow_model.Cont
  end.

(** ** The symbol table *)

(** An entry of a variable: its null state and whether it is marked as set. *)
Record entry := Entry { ns : nstate; lset : bool }.
Definition table := nat -> option entry.
Definition empty : table := fun _ => None.
(** The chain of tables from the innermost to that of the function: a block, a true branch, a false
    branch; the table of a false branch lies on that of its true branch, but is looked through as
    if it were not there (usymtab_dropEnv). *)
Inductive stack :=
| Base (e : nat -> entry) (g : guards)
| Blk (g : guards) (s : stack)
| Tr (e : table) (g : guards) (s : stack)
| Fa (e : table) (g : guards) (te : table) (tg : guards) (s : stack).

(** The entry found by walking outwards. *)
Fixpoint find (s : stack) (x : nat) : entry :=
  match s with
  | Base e _ => e x
  | Blk _ s => find s x
  | Tr e _ s | Fa e _ _ _ s => match e x with Some n => n | None => find s x end
  end.
(** usymtab.c 4952-4995 [usymtab_lookupAux] with 4893-4950: the entry after it has been copied
    into the innermost branch; the copy is not marked as set (uentry.c 10003, 10040). *)
Fixpoint look (s : stack) (x : nat) : entry :=
  match s with
  | Base e _ => e x
  | Blk _ s => look s x
  | Tr e _ s | Fa e _ _ _ s => match e x with Some n => n | None => Entry (ns (find s x)) false end
  end.
(** Storing entries in the innermost branch. *)
Definition over (h e : table) : table := fun x => match h x with Some n => Some n | None => e x end.
Fixpoint put (s : stack) (h : table) : stack :=
  match s with
  | Base e g => Base (fun x => match h x with Some n => n | None => e x end) g
  | Blk g s => Blk g (put s h)
  | Tr e g s => Tr (over h e) g s
  | Fa e g te tg s => Fa (over h e) g te tg s
  end.
Definition single (x : nat) (n : entry) : table := fun y => if Nat.eqb x y then Some n else None.
Definition touch (s : stack) (x : nat) : stack := put s (single x (look s x)).

(** guardSet.c 157-225; the levels of variables make no difference here. *)
Definition g_union (s t : guards) : guards :=
  match s, t with
  | _, None => s
  | None, Some _ => t
  | Some (st, sf), Some (t1, t2) => Some (rs_union st t1, rs_union sf t2)
  end.
(** usymtab.c 5503-5508 [usymtab_addGuards]. *)
Definition add_guards (s : stack) (t : guards) : stack :=
  match s with
  | Base e g => Base e (g_union g t)
  | Blk g s => Blk (g_union g t) s
  | Tr e g s => Tr e (g_union g t) s
  | Fa e g te tg s => Fa e (g_union g t) te tg s
  end.
(** usymtab.c 5510-5545 [usymtab_isGuardedAux]. *)
Fixpoint guarded (s : stack) (x : nat) : bool :=
  match s with
  | Base _ g => is_guarded g (RVar x)
  | Blk g s | Tr _ g s | Fa _ g _ _ s => is_guarded g (RVar x) || guarded s x
  end.
(** sRefSet.c 155-185, guardSet.c 68-78 [guardSet_delete]. *)
Fixpoint rs_delete (l : list ref) (r : ref) : list ref :=
  match l with [] => [] | y :: l => if real_same r y then l else y :: rs_delete l r end.
Definition g_delete (g : guards) (r : ref) : guards :=
  match g with None => None | Some (t, f) => Some (rs_delete t r, f) end.
(** usymtab.c 5547-5571 [usymtab_unguard]. *)
Definition g_unguard (g : guards) (r : ref) : guards := if is_guarded g r then g_delete g r else g.
Fixpoint unguard (s : stack) (x : nat) : stack :=
  match s with
  | Base e g => Base e (g_unguard g (RVar x))
  | Blk g s => Blk (g_unguard g (RVar x)) (unguard s x)
  | Tr e g s => Tr e (g_unguard g (RVar x)) (unguard s x)
  | Fa e g te tg s => Fa e (g_unguard g (RVar x)) te tg (unguard s x)
  end.

(** uentry.c 10666-10690 [uentry_mergeState], as far as null states and marks go. *)
Definition merge (must : bool) (old cur : entry) : entry :=
  Entry (if must then ns old else combine (ns old) (ns cur)) (lset old || lset cur).
(** usymtab.c 2721-2745 and 2590-2602: entries of the right operand of && and ||. *)
Definition merge_all (must : bool) (e : table) (s : stack) : stack :=
  put s (fun x => match e x with Some cur => Some (merge must (look s x) cur) | None => None end).

(** ** Statements *)
Section Analysis.
(** Which variables are not parameters; the flag [whileloopexec]; the flag [unreachable], and
    which of its messages are really given. *)
Variable local : nat -> bool.
Variable loopexec : bool.
Variable unreach : bool.
Variable shown : Flow_model.stmt -> bool.

Definition escapes (s : stmt) : bool := Flow_model.mustEscape (Flow_model.analyse unreach shown (flow s)).

(** exprNode.c 4755-4783: dereference; after the message the variable is taken not to be null. *)
Definition deref (s : stack) (x : nat) : stack * list nat :=
  let s := touch s x in
  if poss (ns (look s x)) && negb (guarded s x) then (put s (single x (Entry NS_NOTNULL (lset (look s x)))), [x])
  else (s, []).

(** The guards of the true and of the false branch which concern the variable itself. *)
Definition tests (l : list ref) (x : nat) : bool := existsb (fun r => match r with RVar y => Nat.eqb x y | _ => false end) l.
Definition tset (g : guards) : list ref := match g with Some (t, _) => t | None => [] end.
Definition fset (g : guards) : list ref := match g with Some (_, f) => f | None => [] end.

(** usymtab.c 2939-3001 [updateNullState], for one variable in one branch: [pos]: the guard says
    that it is not null in this branch. *)
Definition update1 (pos : bool) (g : guards) (x : nat) (n : entry) : entry :=
  if lset n then n
  else if pos then Entry NS_NOTNULL (lset n)
  else if negb (is_guarded g (RVar x)) && negb (isnot (ns n)) then Entry NS_DEFNULL (lset n) else n.
(** 3052-3060: first the true guards, then the false ones; here [gt] are those of this branch for
    the first round; parameters are skipped (2946). *)
Definition update (first : list ref) (pos1 : bool) (second : list ref) (pos2 : bool) (g : guards) (s : stack) (e : table) : table :=
  fun x =>
    let e1 := if local x && tests first x then Some (update1 pos1 g x (look s x)) else e x in
    if local x && tests second x then Some (update1 pos2 g x (match e1 with Some n => n | None => look s x end)) else e1.

(** usymtab.c 3062-3160: the new entry outside, from those of the branches. *)
Definition joined (mrT mrF : bool) (old : entry) (f t : option entry) : option entry :=
  match f, t with
  | Some f, Some t =>
      if negb mrF then (if negb mrT then Some (merge false f t) else Some (Entry (ns f) (lset t || lset f)))
      else Some (Entry (ns t) (lset t || lset f))
  | Some f, None => Some (merge mrF old f)
  | None, Some t => if mrF then Some (Entry (ns t) (lset old || lset t)) else Some (merge mrT old t)
  | None, None => None
  end.
(** usymtab.c 3003-3214 [usymtab_popBranches]; [g]: the guards of the condition. *)
Definition pop_branches (g : guards) (mrT mrF : bool) (s : stack) : stack :=
  match s with
  | Fa e fg te tg env =>
      let t := update (tset g) true (fset g) false tg (Tr te tg env) te in
      let f := update (tset g) false (fset g) true fg s e in
      let env := put env (fun x => joined mrT mrF (look env x) (f x) (t x)) in
      let env := if mrT then add_guards env (g_invert g) else env in
      if mrF then add_guards env g else env
  | _ => s
  end.
(** usymtab.c 3218-3248 [usymtab_altBranch]. *)
Definition alt (g : guards) (s : stack) : stack :=
  match s with Tr e tg s => Fa empty (g_invert g) e tg s | _ => s end.
(** Leaving the right operand of && (2721-2760) and || (2570-2617). *)
Definition pop_and (s : stack) : stack := match s with Tr e _ s => merge_all false e s | _ => s end.
Definition pop_or (must : bool) (g : guards) (s : stack) : stack :=
  match s with
  | Tr e _ s => let s := merge_all must e s in if must then add_guards s (g_invert g) else s
  | _ => s
  end.
(** usymtab.c 4349-4385 [usymtab_quietExitScope]. *)
Definition pop_block (s : stack) : stack := match s with Blk g s => add_guards s g | _ => s end.

(** Conditions, with the variables complained of; context.c 1580-1590. *)
Fixpoint acond (c : cond) (s : stack) : stack * list nat :=
  match c with
  | CNull x | CNon x | CPtr x => (touch s x, [])
  | CDeref x => deref s x
  | COther | CTrue | CExit => (s, [])
  | CNot c => acond c s
  | CAnd a b =>
      let '(s, m) := acond a s in
      let '(s, m') := acond b (Tr empty (cguards a) s) in
      (pop_and s, m ++ m')
  | COr a b =>
      let '(s, m) := acond a s in
      let '(s, m') := acond b (Tr empty (g_invert (cguards a)) s) in
      (pop_or (match b with CExit => true | _ => false end) (n_guards (build (cexpr c))) s, m ++ m')
  end.

(** exprNode.c 10344-10365, transferChecks.c 2484-2492, exprNode.c 11383-11386. *)
Definition assign (s : stack) (x : nat) (v : val) : stack :=
  let s := put s (single x (Entry (vstate v) true)) in
  if poss (vstate v) && guarded s x then unguard s x else s.

(** context.c 1748-1819, 2316-2433, exprNode.c 6863 and following. *)
Fixpoint astmt (s : stmt) (k : stack) : stack * list nat :=
  match s with
  | SSkip | SRet | SBrk | SCont => (k, [])
  | SExpr c => acond c k
  | SSet x v => (assign k x v, [])
  | SSeq a b => let '(k, m) := astmt a k in let '(k, m') := astmt b k in (k, m ++ m')
  | SBlock a => let '(k, m) := astmt a (Blk None k) in (pop_block k, m)
  | SIf c a =>
      let '(k, m) := acond c k in
      let '(k, m') := astmt a (Tr empty (cguards c) k) in
      (pop_branches (cguards c) (escapes a) false (alt (cguards c) k), m ++ m')
  | SIfElse c a b =>
      let '(k, m) := acond c k in
      let '(k, m') := astmt a (Tr empty (cguards c) k) in
      let '(k, m'') := astmt b (alt (cguards c) k) in
      (pop_branches (cguards c) (escapes a) (escapes b) k, m ++ m' ++ m'')
  | SWhile c a =>
      let '(k, m) := acond c k in
      let '(k, m') := astmt a (Tr empty (cguards c) k) in
      (add_guards (pop_branches (cguards c) (escapes a) loopexec (alt (cguards c) k)) (g_invert (cguards c)), m ++ m')
  | SDo a c =>
      let '(k, m) := astmt a k in
      let '(k, m') := acond c k in
      (add_guards k (g_invert (cguards c)), m ++ m')
  end.

(** The variables complained of in the body of a function whose variables have the given states at
    first. *)
Definition complaints (init : nat -> nstate) (s : stmt) : list nat :=
  snd (astmt s (Base (fun x => Entry (init x) false) None)).
End Analysis.
