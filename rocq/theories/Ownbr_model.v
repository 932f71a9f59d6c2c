(** Ownership of storage held by local variables (Own_model) where control flow divides and meets:
    conditional statements, loops and returns.

    Sources: usymtab.c 2500-2548 ([usymtab_trueBranch], [usymtab_popTrueBranch]), 3003-3204
    ([usymtab_popBranches]), 3217-3250 ([usymtab_altBranch]), 4952-4990 ([usymtab_lookupAux]); uentry.c
    10123-10421 ([branchStateError], [uentry_incompatibleMemoryStates], [branchStateAltError],
    [uentry_relevantReference], [uentry_mergeAliasStates]), 10665-10684 ([uentry_mergeState]); sRef.c
    3804-4010 ([sRef_mergeStateAux]), 8789-8950 ([sRef_combineAliasKindsError]), 8955-9088
    ([sRef_combineAliasKinds]), 9090-9150 ([sRef_combineDefState]); aliasTable.c 640-702
    ([aliasTable_levelUnion], [aliasTable_levelUnionNew]); varKinds.c 428-450 ([alkind_equal]), 494-570
    ([exitkind_combine]); context.c 2300-2330, 2374-2430 ([context_exitWhileClause],
    [context_exitDoWhileClause]), 2483-2512 ([context_returnFunction]); exprNode.c 255-266, 6707-6760,
    7658-7726 ([exprNode_doWhile]), 8198-8220 ([exprNode_return]); exprChecks.c 895-940
    ([exprNode_checkFunctionBody]).

    Simplified: as Own_model; the conditions do not touch the variables, and nothing is known about
    their values; there are no [break], [continue], [switch] or [goto]; the loops are not known to be
    executed.  Whether a variable has been looked up in a branch (which decides which of the two states
    is changed into the other, usymtab.c 4975-4982) is left open: it is any function of the branch and the
    state in which it is entered.  The messages where branches meet are given in the order of the
    declarations; when a message is given, other names of the variable are left as they are (uentry.c
    10230-10234 makes them defined). *)
From Verif Require Import Cbase Own_model.
From Coq Require Import List Arith Bool.
Import ListNotations.
Open Scope nat_scope.

(** ** Programs *)
(** [;]  a statement  [p q]  [if (..) p else q]  [while (..) p]  [do p while (..);]  [return;] *)
Inductive prog :=
| Skip | Do (o : op) | Seq (p q : prog) | If (p q : prog) | Loop (p : prog) | Until (p : prog) | Ret.

(** exprNode.c 6707-6715, 6751 (of two statements, the second), 263 with varKinds.c 494 (both
    branches), 7620 and 7709 (loops never), 8217: [exprNode_mustEscape]. *)
Fixpoint escapes (p : prog) : bool :=
  match p with
  | Skip | Do _ | Loop _ | Until _ => false
  | Seq _ q => escapes q
  | If p q => escapes p && escapes q
  | Ret => true
  end.

(** ** Two states of a variable *)
Definition vst := (dstate * kind)%type.
Definition dstate_eqb (a b : dstate) : bool :=
  match a, b with DUndef, DUndef | DDef, DDef | DDead, DDead | DUnuse, DUnuse => true | _, _ => false end.
Definition kind_eqb (a b : kind) : bool :=
  match a, b with
  | KLocal, KLocal | KFresh, KFresh | KOwned, KOwned | KDep, KDep | KError, KError | KUnknown, KUnknown => true
  | _, _ => false
  end.
Definition vst_eqb (a b : vst) : bool := dstate_eqb (fst a) (fst b) && kind_eqb (snd a) (snd b).

(** uentry.c 10178-10196. *)
Definition incompatible (r o : vst) : bool :=
  negb (kind_eqb (snd r) KError || kind_eqb (snd o) KError)
  && (dstate_eqb (fst r) DDead || (kind_eqb (snd r) KDep && negb (kind_eqb (snd o) KDep)))
  && dstate_eqb (fst o) DDef.
(** uentry.c 10249-10266. *)
Definition relevant (v : vst) : bool := negb (kind_eqb (snd v) KDep).

(** uentry.c 10268-10389: the states as they are given on, and whether something is said. *)
Definition mergeAlias (r o : vst) : vst * vst * bool :=
  if incompatible r o then
    if relevant o then
      if kind_eqb (snd o) KLocal then
        if kind_eqb (snd r) KDep then (r, (fst o, KDep), false) else ((DUnuse, snd r), o, false)
      else ((fst r, KError), o, true)
    else (r, o, false)
  else if incompatible o r then
    if relevant r then
      if kind_eqb (snd r) KLocal then
        if kind_eqb (snd o) KDep then ((fst r, KDep), o, false) else ((DUnuse, snd r), o, false)
      else ((DDef, KError), (DDef, KError), true)
    else (r, o, false)
  else (r, o, false).

(** sRef.c 3832-3878: released in one branch, undefined in the other. *)
Definition mergeDead (r o : vst) : vst :=
  let unset d := dstate_eqb d DUndef || dstate_eqb d DUnuse in
  if (dstate_eqb (fst o) DDead && unset (fst r)) || (dstate_eqb (fst r) DDead && unset (fst o))
  then (DUnuse, snd r) else r.
(** sRef.c 3910-3928: "Dead and dependent -> dead". *)
Definition deadDependent (r o : vst) : vst * vst :=
  let o' := if kind_eqb (snd o) KDep && dstate_eqb (fst r) DDead then (DDead, KUnknown) else o in
  let r' := if kind_eqb (snd r) KDep && dstate_eqb (fst o') DDead then (DDead, KUnknown) else r in
  (r', o').
(** sRef.c 8955-9088 with 8789-8950 for the kinds there are here. *)
Definition combineKinds (r o : vst) : kind * bool :=
  let (rd, rk) := r in let (od, ok) := o in
  if kind_eqb rk ok || kind_eqb rk KError || kind_eqb ok KError || kind_eqb ok KUnknown then (rk, false)
  else if dstate_eqb rd DDead || dstate_eqb od DDead then (KError, false)
  else if kind_eqb rk KUnknown || dstate_eqb rd DUndef then (ok, false)
  else if dstate_eqb od DUndef then (rk, false)
  else match rk, ok with
       | KOwned, KFresh | KFresh, KOwned => (KFresh, false)
       | KLocal, KOwned | KOwned, KLocal => (KLocal, false)
       | KDep, _ => (KDep, false)
       | KLocal, KDep => (KDep, false)
       | _, KDep => (rk, false)
       | _, _ => (KLocal, true)
       end.
(** sRef.c 9090-9150. *)
Definition combineDef (r o : dstate) : dstate := if dstate_eqb r DDef then o else r.

(** uentry.c 10391-10401 and 10665-10684, sRef.c 3804-4010. *)
Definition merge (r0 o0 : vst) : vst * bool :=
  let '(r1, o1, m1) := mergeAlias r0 o0 in
  let r2 := mergeDead r1 o1 in
  let (r3, o3) := deadDependent r2 o1 in
  let (k, m2) := combineKinds r3 o3 in
  ((combineDef (fst r3) (fst o3), k), m1 || m2).

(** ** Tables of aliases *)
(** aliasTable.c 664-690: the entries of the second table which are not empty are added to the first. *)
Definition addSet (t : table) (e : var * list var) : table :=
  match snd e with
  | [] => t
  | vs => change t (fst e) (fun s => fold_left (fun s v => insert v s) vs s)
  end.
(** aliasTable.c 644-702. *)
Definition unionTables (t1 t2 : table) : table := fold_left addSet t2 t1.

(** ** Statements *)
Definition stateOf (s : state) (v : var) : vst := (dst s v, ak s v).
(** usymtab.c 3060-3163: variables looked up in both branches: the state of the second is changed by
    that of the first, and replaces the old one; in one branch: the old state, which is that of the
    other branch, is changed; in none: nothing is done. *)
Definition mergeVar (inT inF : bool) (t f : vst) : vst * bool :=
  if negb inT && negb inF && vst_eqb t f then (t, false)
  else if inT then merge f t else merge t f.
(** usymtab.c 3003-3204, neither branch must return. *)
Definition meet (decls : list var) (inT inF : var -> bool) (t f : state) : state :=
  let m v := mergeVar (inT v) (inF v) (stateOf t v) (stateOf f v) in
  mkSt (fun v => fst (fst (m v))) (fun v => snd (fst (m v)))
       (unionTables (al t) (al f))
       (out f ++ flat_map (fun v => if snd (m v) then [MBranch v] else []) decls).
(** The same when one of the branches must return (3083-3110, 3133-3137): the state of the other; but
    the aliases of both (3176-3177). *)
Definition popBranches (decls : list var) (inT inF : var -> bool) (mustT mustF : bool) (t f : state) : state :=
  if mustF then mkSt (dst t) (ak t) (unionTables (al t) (al f)) (out f)
  else if mustT then mkSt (dst f) (ak f) (unionTables (al t) (al f)) (out f)
  else meet decls inT inF t f.

(** usymtab.c 2500-2520, 3217-3250: a branch begins with the state there was before the first, and all
    that has been said. *)
Definition withOut (s : state) (l : list msg) : state := mkSt (dst s) (ak s) (al s) l.

(** [touch p s v]: [v] has been looked up in the branch [p], entered in the state [s]. *)
Fixpoint exec (touch : prog -> state -> var -> bool) (decls : list var) (p : prog) (s : state) : state :=
  match p with
  | Skip => s
  | Do o => step s o
  | Seq p q => exec touch decls q (exec touch decls p s)
  | If p q =>
      let t := exec touch decls p s in
      let s' := withOut s (out t) in
      let f := exec touch decls q s' in
      popBranches decls (touch p s) (touch q s') (escapes p) (escapes q) t f
  | Loop p =>
      (* usymtab.c 2530-2548 *)
      let t := exec touch decls p s in
      popBranches decls (touch p s) (fun _ => false) (escapes p) false t (withOut s (out t))
  | Until p => exec touch decls p s (* context.c 2413-2430 *)
  | Ret => finish true decls s (* exprNode.c 8214 *)
  end.

(** exprChecks.c 897-938. *)
Definition bodyMessages (touch : prog -> state -> var -> bool) (decls : list var) (p : prog) : list msg :=
  let s := exec touch decls p start in
  out (if escapes p then s else finish true decls s).
