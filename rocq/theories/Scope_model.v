(** * Scopes: which declaration a name refers to, shadowed and unused variables

    Sources: src/usymtab.c ([usymtab_getIndex] 1405-1434, [usymtab_addEntryQuiet] 453-511,
    [usymtab_supEntryAux] 713-1043, [usymtab_enterScope] 2142-2160, [usymtab_trueBranch] 2500-2520,
    [usymtab_popTrueBranch] 2530-2550, [usymtab_popTrueExecBranch] 2559-2568, [usymtab_popOrBranch]
    2571-2622, [usymtab_newCase] 2632-2703, [usymtab_popAndBranch] 2709-2759, [usymtab_exitSwitch]
    2772-2937, [usymtab_popBranches] 3004-3206, [usymtab_altBranch] 3218-3245, [usymtab_allUsed]
    3471-3725, [usymtab_exitScope] 4410-4567, [usymtab_dropEnv] 4652-4682, [usymtab_addRefEntry]
    4887-4950, [usymtab_lookupAux] 4952-4996, [usymtab_lookupQuietAux] 4999-5023), src/uentry.c
    ([uentry_mergeSetStates] 10599-10663, [uentry_setState] 10073-10088, [uentry_mergeUses]
    10090-10100, [uentry_setUsed] 10686-10770), src/context.c (entering and leaving clauses,
    1580-1591, 1714-1813, 2298-2500), src/cgrammar.y (1040-1072, 1842-1910, 1958-1990, 2164-2176).

    The symbol table is a stack of tables, one for each block and one for each branch of a condition;
    in a branch the first use of a variable makes a copy of its entry in the table of the branch,
    and at the end of the branch the copies are merged with the entries they were made of.

    Simplified:
    - of an entry only the name, the declaration it comes from and whether it was used are kept; all
      entries are variables which are not functions (so all are copied into branches), declared in the
      checked file, and not private, yielded or of unknown type; the flags shadow and varunused are on;
    - functions are seen from inside: a table of the global names and the body; parameters are left
      out;
    - a declaration in the table where the name is already declared is merged with it, its messages
      are left out; case labels stand directly in the block of their switch;
    - whether a branch cannot be left at its end (exprNode_mustEscape) is written in the program. *)
From Coq Require Import Arith List Bool.
Import ListNotations.

(** ** The language *)

(** Expressions: the names in them, and what is evaluated conditionally; [mf]: the last operand
    of a conditional expression does not return. *)
Inductive expr :=
| EConst
| EUse (x : nat)
| ESeq (a b : expr)
| EAnd (a b : expr)
| EOr (a b : expr)
| ECond (mf : bool) (p a b : expr).

(** How the statements of a case end. *)
Inductive cend := Falls | Breaks | Returns.

(** Statements.  [SDecl x d e] declares the variable [x] with the initial value [e]; [d] identifies the
    declaration.  [SWhile ex]: the loop is taken to be executed at least once.  The second argument of
    [SSwitch] is what stands before the first case, [al] whether all values are handled. *)
Inductive stmt :=
| SExpr (e : expr)
| SDecl (x d : nat) (e : expr)
| SBlock (l : stmts)
| SIf (p : expr) (a : stmt)
| SIfElse (mt mf : bool) (p : expr) (a b : stmt)
| SWhile (ex : bool) (p : expr) (a : stmt)
| SDo (a : stmt) (p : expr)
| SSwitch (al : bool) (p : expr) (l : stmts) (c : cases)
with stmts := LNil | LCons (s : stmt) (l : stmts)
with cases := CNil | CCons (l : stmts) (z : cend) (c : cases).

(** ** The symbol table *)

(** An entry: its name, its declaration, whether it was used. *)
Record entry := Ent { ename : nat; eid : nat; used : bool }.

(** uskind, src/Headers/usymtab.h *)
Inductive kind := KNormal | KTrue | KFalse | KCase | KSwitch.

Record tab := Tab { tkind : kind; entries : list entry }.

(** usymtab_getIndex, usymtab.c:1405-1434 *)
Fixpoint getE (l : list entry) (k : nat) : option entry :=
  match l with
  | nil => None
  | e :: r => if Nat.eqb (ename e) k then Some e else getE r k
  end.

(** Changing the entry usymtab_getIndex finds. *)
Fixpoint setE (l : list entry) (k : nat) (f : entry -> entry) : list entry :=
  match l with
  | nil => nil
  | e :: r => if Nat.eqb (ename e) k then f e :: r else e :: setE r k f
  end.

Definition isCase (t : tab) : bool := match tkind t with KCase => true | _ => false end.

(** usymtab_dropEnv, usymtab.c:4652-4682, as a mode of the search in what is below: all case branches
    are left out below a case branch, the true branch below a false branch. *)
Inductive mode := Here | SkipCases | SkipOne.
Definition dropMode (t : tab) : mode :=
  match tkind t with KCase => SkipCases | KFalse => SkipOne | _ => Here end.

(** The search of usymtab_addRefEntry, usymtab.c:4900-4947 *)
Fixpoint look (m : mode) (s : list tab) (k : nat) : option entry :=
  match s with
  | nil => None
  | t :: r =>
      let here := match getE (entries t) k with Some e => Some e | None => look (dropMode t) r k end in
      match m with
      | SkipOne => look Here r k
      | SkipCases => if isCase t then look SkipCases r k else here
      | Here => here
      end
  end.

(** The kinds of tables at which usymtab_lookupAux makes a copy (4984-4985). *)
Definition copies (t : tab) : bool :=
  match tkind t with KTrue | KFalse | KCase => true | _ => false end.

(** usymtab_lookupAux, usymtab.c:4952-4996, with usymtab_addRefEntry, 4887-4950: the entry found, which
    is then changed by [f]. *)
Fixpoint touch (s : list tab) (k : nat) (f : entry -> entry) : list tab * option entry :=
  match s with
  | nil => (nil, None)
  | t :: r =>
      match getE (entries t) k with
      | Some e => (Tab (tkind t) (setE (entries t) k f) :: r, Some e)
      | None =>
          if copies t then
            match look (dropMode t) r k with
            | Some e => (Tab (tkind t) (entries t ++ [f e]) :: r, Some e)
            | None => (s, None)
            end
          else let '(r', o) := touch r k f in (t :: r', o)
      end
  end.

(** usymtab_lookupQuietAux, usymtab.c:4999-5023, without [noalt]. *)
Fixpoint quiet (s : list tab) (k : nat) : option entry :=
  match s with
  | nil => None
  | t :: r => match getE (entries t) k with Some e => Some e | None => quiet r k end
  end.

(** Setting the mark, as uentry_setState (uentry.c:10073-10088) does, and adding to it, as uentry_mergeUses and
    uentry_mergeSetStates do (10090-10100, 10599-10663). *)
Definition setU (b : bool) (e : entry) : entry := Ent (ename e) (eid e) b.
Definition orU (b : bool) (e : entry) : entry := Ent (ename e) (eid e) (b || used e).

(** What can be seen: a name in an expression with the declaration it is taken to refer to; the message that a
    variable is not used; the message that a declaration shadows an outer one. *)
Inductive event :=
| Use (x : nat) (d : option nat)
| Unused (d : nat)
| Shadow (d outer : nat).

(** usymtab_supEntryAux, usymtab.c:713-1043, with usymtab_addEntryAux, 589-682 *)
Definition declare (x d : nat) (s : list tab) : list tab * list event :=
  match s with
  | nil => (nil, nil)
  | t :: r =>
      match getE (entries t) x with
      | Some _ => (s, nil)
      | None =>
          (Tab (tkind t) (entries t ++ [Ent x d false]) :: r,
           match quiet r x with Some o => [Shadow d (eid o)] | None => nil end)
      end
  end.

(** usymtab_enterScope, usymtab.c:2142-2160; usymtab_trueBranch, 2500-2520; usymtab_altBranch,
    3218-3245; usymtab_caseBranch, 2482-2488; usymtab_switchBranch, 2490-2498 *)
Definition push (k : kind) (s : list tab) : list tab := Tab k nil :: s.

(** The loops of usymtab_popAndBranch, usymtab.c:2725-2748, and usymtab_popOrBranch, 2599-2606 *)
Definition mergeInto (es : list entry) (s : list tab) : list tab :=
  fold_left (fun s e => fst (touch s (ename e) (orU (used e)))) es s.

(** usymtab_popAndBranch, usymtab.c:2709-2759; usymtab_popOrBranch, 2571-2622 *)
Definition popAndOr (s : list tab) : list tab :=
  match s with t :: env => mergeInto (entries t) env | nil => nil end.

Definition delE (l : list entry) (k : nat) : list entry :=
  filter (fun e => negb (Nat.eqb (ename e) k)) l.

(** The loop over the false branch in usymtab_popBranches, usymtab.c:3074-3126: the tables below and what is
    left of the true branch. *)
Fixpoint popFalse (mf : bool) (fs ts : list entry) (env : list tab) : list entry * list tab :=
  match fs with
  | nil => (ts, env)
  | e :: r =>
      let f := match getE ts (ename e) with
               | Some t => if mf then fun old => orU (used e) (setU (used t) old)
                           else setU (used t || used e)
               | None => orU (used e)
               end in
      match touch env (ename e) f with
      | (env', Some _) => popFalse mf r (delE ts (ename e)) env'
      | (env', None) => popFalse mf r ts env'
      end
  end.

(** The loop over the true branch, usymtab.c:3128-3166 *)
Fixpoint popTrue (mf : bool) (ts : list entry) (env : list tab) : list tab :=
  match ts with
  | nil => env
  | e :: r =>
      let f := fun old => if mf then setU (used old || used e) old else orU (used e) old in
      popTrue mf r (fst (touch env (ename e) f))
  end.

(** usymtab_popBranches, usymtab.c:3004-3206; [mf]: the false branch does not reach its end. *)
Definition popBranches (mf : bool) (s : list tab) : list tab :=
  match s with
  | f :: t :: env => let '(ts, env') := popFalse mf (entries f) (entries t) env in popTrue mf ts env'
  | _ => s
  end.

(** usymtab_popTrueBranch, usymtab.c:2530-2550, and usymtab_popTrueExecBranch, 2559-2568 ([ex]) *)
Definition popTrueBranch (ex : bool) (s : list tab) : list tab := popBranches ex (push KFalse s).

Fixpoint takeCases (s : list tab) : list tab :=
  match s with t :: r => if isCase t then t :: takeCases r else nil | nil => nil end.
Fixpoint dropCases (s : list tab) : list tab :=
  match s with t :: r => if isCase t then dropCases r else s | nil => nil end.

(** usymtab_newCase, usymtab.c:2632-2703; [z]: how the case before ends.  After a case which is not left
    its table is used on; each of its entries is merged with what is below the cases. *)
Fixpoint fallInto (es : list entry) (below : list tab) : list entry * list tab :=
  match es with
  | nil => (nil, below)
  | e :: r =>
      let '(below', o) := touch below (ename e) (fun old => old) in
      let '(r', below'') := fallInto r below' in
      (match o with Some old => orU (used old) e | None => e end :: r', below'')
  end.
Definition newCase (z : cend) (s : list tab) : list tab :=
  match z, s with
  | Falls, t :: r =>
      if isCase t then
        let '(es, below) := fallInto (entries t) (dropCases r) in
        Tab KCase es :: takeCases r ++ below
      else push KCase s
  | _, _ => push KCase s
  end.

(** usymtab_allUsed, usymtab.c:3471-3725 *)
Definition allUsed (t : tab) : list event :=
  flat_map (fun e => if used e then nil else [Unused (eid e)]) (entries t).

(** usymtab_exitScope, usymtab.c:4410-4567: case branches are kept; nothing is reported for the block
    of a switch (4483-4486). *)
Definition exitScope (s : list tab) : list tab * list event :=
  match dropCases s with
  | nil => (s, nil)
  | t :: r =>
      (takeCases s ++ r,
       match r with
       | u :: _ => match tkind u with KSwitch => nil | _ => allUsed t end
       | nil => allUsed t
       end)
  end.

(** usymtab_exitSwitch, usymtab.c:2772-2937: first the earlier cases [cs] are merged into the last one
    [l] ([lr]: the last one returns), then this into the tables [env] below the switch.  (The loop over
    the entries below the switch, 2852-2868, is left out: it is for earlier cases which are not left, but
    after such a case its table is used on.)  Without a case the table of the switch itself takes the
    part of the last case: if the switch is in a case of another one, the tables of all cases of that are
    merged with themselves and taken out (2806-2886). *)
Definition mergeCase (lr : bool) (es : list entry) (s : list tab) : list tab :=
  fold_left (fun s e => fst (touch s (ename e)
    (fun old => if lr then setU (used old || used e) old else orU (used e) old))) es s.
Fixpoint mergeCases (lr : bool) (l : tab) (cs rest : list tab) : tab :=
  match cs with
  | nil => l
  | t :: r =>
      match mergeCase lr (entries t) (l :: t :: r ++ rest) with
      | l' :: _ => mergeCases false l' r rest
      | nil => l
      end
  end.
Definition exitSwitch (al lr : bool) (s : list tab) : list tab :=
  match takeCases s, dropCases s with
  | l :: cs, sw :: env =>
      let l' := mergeCases lr l cs (sw :: env) in
      mergeCase al (entries l') env
  | _, sw :: env => dropCases env
  | _, nil => nil
  end.

(** ** Checking statements *)

(** Two steps one after the other. *)
Definition andThen (r : list tab * list event) (g : list tab -> list tab * list event) : list tab * list event :=
  let '(s, a) := r in let '(s', b) := g s in (s', a ++ b).

(** cgrammar.y:1040-1072; a name is looked up by exprNode_fromIdentifier and marked (uentry_setUsed) *)
Fixpoint exprC (e : expr) (s : list tab) : list tab * list event :=
  match e with
  | EConst => (s, nil)
  | EUse x => let '(s', o) := touch s x (setU true) in (s', [Use x (option_map eid o)])
  | ESeq a b => andThen (exprC a s) (exprC b)
  | EAnd a b | EOr a b =>
      andThen (exprC a s) (fun s => let '(s', l) := exprC b (push KTrue s) in (popAndOr s', l))
  | ECond mf p a b =>
      andThen (exprC p s) (fun s =>
      andThen (exprC a (push KTrue s)) (fun s =>
      let '(s', l) := exprC b (push KFalse s) in (popBranches mf s', l)))
  end.

(** Statements: cgrammar.y:1842-1910, 1958-1990, 2164-2176 *)
Fixpoint stmtC (c : stmt) (s : list tab) : list tab * list event :=
  match c with
  | SExpr e => exprC e s
  | SDecl x d e => andThen (declare x d s) (exprC e)
  | SBlock l => andThen (stmtsC l (push KNormal s)) exitScope
  | SIf p a =>
      andThen (exprC p s) (fun s => let '(s', l) := stmtC a (push KTrue s) in (popTrueBranch false s', l))
  | SIfElse _ mf p a b =>
      andThen (exprC p s) (fun s =>
      andThen (stmtC a (push KTrue s)) (fun s =>
      let '(s', l) := stmtC b (push KFalse s) in (popBranches mf s', l)))
  | SWhile ex p a =>
      andThen (exprC p s) (fun s => let '(s', l) := stmtC a (push KTrue s) in (popTrueBranch ex s', l))
  | SDo a p => andThen (stmtC a s) (exprC p)
  | SSwitch al p l c =>
      andThen (exprC p s) (fun s =>
      andThen (stmtsC l (push KNormal (push KSwitch s))) (fun s =>
      let '(s1, z, ev) := casesC c Falls s in
      let '(s2, ev2) := exitScope s1 in
      (exitSwitch al (match z with Returns => true | _ => false end) s2, ev ++ ev2)))
  end
with stmtsC (l : stmts) (s : list tab) : list tab * list event :=
  match l with
  | LNil => (s, nil)
  | LCons a r => andThen (stmtC a s) (stmtsC r)
  end
with casesC (c : cases) (z : cend) (s : list tab) : list tab * cend * list event :=
  match c with
  | CNil => (s, z, nil)
  | CCons l z' r =>
      let '(s1, e1) := stmtsC l (newCase z s) in
      let '(s2, z2, e2) := casesC r z' s1 in (s2, z2, e1 ++ e2)
  end.

(** The body of a function; [globals] are the names declared outside, with their declarations. *)
Definition checkBody (globals : list (nat * nat)) (l : stmts) : list event :=
  snd (stmtC (SBlock l) [Tab KNormal (map (fun g => Ent (fst g) (snd g) false) globals)]).
