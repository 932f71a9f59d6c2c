(** * Scopes of C (independent of the code) *)
From Coq Require Import Arith List Bool.
From Verif Require Import Scope_model.
Import ListNotations.

(** The declarations in scope, innermost block first: names with their declarations. *)
Definition scope := list (nat * nat).

Fixpoint inScope (sc : scope) (x : nat) : option nat :=
  match sc with
  | nil => None
  | (y, d) :: r => if Nat.eqb y x then Some d else inScope r x
  end.
Fixpoint resolve (env : list scope) (x : nat) : option nat :=
  match env with
  | nil => None
  | sc :: r => match inScope sc x with Some d => Some d | None => resolve r x end
  end.

(** Whether some use refers to the declaration. *)
Definition refersTo (d : nat) (v : event) : bool :=
  match v with Use _ (Some i) => Nat.eqb i d | _ => false end.
Definition usedIn (l : list event) (d : nat) : bool := existsb (refersTo d) l.

(** The end of a block: its variables which no use in it refers to, in the order of their declaration. *)
Definition unusedOf (sc : scope) (l : list event) : list event :=
  map (fun p => Unused (snd p)) (filter (fun p => negb (usedIn l (snd p))) sc).

(** What has to be seen for an expression: each name refers to the innermost declaration in scope. *)
Fixpoint exprS (env : list scope) (e : expr) : list event :=
  match e with
  | EConst => nil
  | EUse x => [Use x (resolve env x)]
  | ESeq a b | EAnd a b | EOr a b => exprS env a ++ exprS env b
  | ECond _ p a b => exprS env p ++ exprS env a ++ exprS env b
  end.

(** Statements, in the block whose declarations so far are [sc]: these declarations afterwards, and
    what has to be seen.  The block of a switch, with all its cases, is one scope. *)
Fixpoint stmtS (sc : scope) (env : list scope) (c : stmt) : scope * list event :=
  match c with
  | SExpr e => (sc, exprS (sc :: env) e)
  | SDecl x d e =>
      let sc' := sc ++ [(x, d)] in
      (sc', (match resolve env x with Some o => [Shadow d o] | None => nil end) ++ exprS (sc' :: env) e)
  | SBlock l => let '(b, ev) := stmtsS nil (sc :: env) l in (sc, ev ++ unusedOf b ev)
  | SIf p a => let '(_, ev) := stmtS sc env a in (sc, exprS (sc :: env) p ++ ev)
  | SIfElse _ _ p a b =>
      let '(_, ea) := stmtS sc env a in
      let '(_, eb) := stmtS sc env b in (sc, exprS (sc :: env) p ++ ea ++ eb)
  | SWhile _ p a => let '(_, ev) := stmtS sc env a in (sc, exprS (sc :: env) p ++ ev)
  | SDo a p => let '(_, ev) := stmtS sc env a in (sc, ev ++ exprS (sc :: env) p)
  | SSwitch _ p l c =>
      let '(b, ev) := stmtsS nil (sc :: env) l in
      let '(b', ev') := casesS b (sc :: env) c in
      (sc, exprS (sc :: env) p ++ (ev ++ ev') ++ unusedOf b' (ev ++ ev'))
  end
with stmtsS (sc : scope) (env : list scope) (l : stmts) : scope * list event :=
  match l with
  | LNil => (sc, nil)
  | LCons a r =>
      let '(sc1, ev1) := stmtS sc env a in
      let '(sc2, ev2) := stmtsS sc1 env r in (sc2, ev1 ++ ev2)
  end
with casesS (sc : scope) (env : list scope) (c : cases) : scope * list event :=
  match c with
  | CNil => (sc, nil)
  | CCons l _ r =>
      let '(sc1, ev1) := stmtsS sc env l in
      let '(sc2, ev2) := casesS sc1 env r in (sc2, ev1 ++ ev2)
  end.

Definition bodyS (globals : scope) (l : stmts) : list event := snd (stmtS globals nil (SBlock l)).

(** All declarations in a program. *)
Fixpoint declared (c : stmt) : list nat :=
  match c with
  | SExpr _ => nil
  | SDecl _ d _ => [d]
  | SBlock l => declaredL l
  | SIf _ a | SWhile _ _ a | SDo a _ => declared a
  | SIfElse _ _ _ a b => declared a ++ declared b
  | SSwitch _ _ l c => declaredL l ++ declaredC c
  end
with declaredL (l : stmts) : list nat :=
  match l with LNil => nil | LCons a r => declared a ++ declaredL r end
with declaredC (c : cases) : list nat :=
  match c with CNil => nil | CCons l _ r => declaredL l ++ declaredC r end.

(** The names declared directly in a list of statements. *)
Fixpoint direct (l : stmts) : list nat :=
  match l with
  | LNil => nil
  | LCons (SDecl x _ _) r => x :: direct r
  | LCons _ r => direct r
  end.
Definition isDecl (c : stmt) : bool := match c with SDecl _ _ _ => true | _ => false end.

(** Declarations stand directly in blocks, no name is declared twice in the same block, a switch has a
    case, and nothing is declared in the block of a switch itself. *)
Fixpoint ok (c : stmt) : Prop :=
  match c with
  | SExpr _ | SDecl _ _ _ => True
  | SBlock l => NoDup (direct l) /\ okL l
  | SIf _ a | SWhile _ _ a | SDo a _ => isDecl a = false /\ ok a
  | SIfElse _ _ _ a b => isDecl a = false /\ ok a /\ isDecl b = false /\ ok b
  | SSwitch _ _ l c => l = LNil /\ c <> CNil /\ okC c
  end
with okL (l : stmts) : Prop :=
  match l with LNil => True | LCons a r => ok a /\ okL r end
with okC (c : cases) : Prop :=
  match c with CNil => True | CCons l _ r => direct l = nil /\ okL l /\ okC r end.

(** Each declaration is another one, and no global name is declared twice. *)
Definition bodyOk (globals : scope) (l : stmts) : Prop :=
  NoDup (map fst globals) /\ NoDup (map snd globals ++ declaredL l) /\ NoDup (direct l) /\ okL l.

(** The parts of what is seen: names with what they refer to, variables reported as not used, declarations
    reported as shadowing others. *)
Definition names (ev : list event) : list (nat * option nat) :=
  flat_map (fun v => match v with Use x d => [(x, d)] | _ => nil end) ev.
Definition uids (ev : list event) : list nat :=
  flat_map (fun v => match v with Unused d => [d] | _ => nil end) ev.
Definition shadows (ev : list event) : list (nat * nat) :=
  flat_map (fun v => match v with Shadow d o => [(d, o)] | _ => nil end) ev.
