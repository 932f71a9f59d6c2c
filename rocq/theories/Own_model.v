(** How splint follows the ownership of storage held by local variables through straight-line code:
    which variables are known to hold the same storage, which of them must release it, and which uses
    are reported as uses of released storage, which losses as leaks.

    Sources: aliasTable.c 86-104 ([aliasTable_lookupRefs]), 107-158 ([aliasTable_addMustAlias]), 190-262
    ([aliasTable_clearAliases]), 267-345 ([aliasTable_aliasedByAux]), 385-500 ([aliasTable_canAlias]);
    sRefSet.c 80-110 ([sRefSet_insert]), 188-195, 226-260 ([sRefSet_deleteBase]), 302-322
    ([sRefSet_unionExcept]); usymtab.c 5734-5830 (aliases), 3849-4147 ([usymtab_checkFinalScope]),
    4493-4498; exprNode.c 6095-6343 ([exprNode_assign]), 10175-10333 ([exprNode_checkUse]), 10719-10725,
    11342-11385 ([updateAliases]); transferChecks.c 1864-2268 ([transferChecks_passParam]), 2437-2497
    ([transferChecks_assign]), 2595-2765 ([checkTransferAssignAux]), 2771-2925
    ([checkOnlyTransferAux]), 2931-3016 ([checkOwnedTransferAux]), 3020-3163
    ([checkFreshTransferAux]), 3415-4003 ([checkTransferAux]), 4317-4425 ([checkTransfer]), 4427-4529
    ([dependentReference], [transferChecks_canLoseReference], [canLoseLocalReference]); sRef.c 3224-3231,
    5150-5160, 5481-5490, 5630-5765 (kinds of ownership, [sRef_kill]), 5792-5816
    ([sRef_killComplete]), 7612-7660 ([sRef_resetState]), 8430-8453 ([sRef_aliasSetComplete]);
    exprChecks.c 895-940.

    Simplified: the variables are declared without initialisers, in one block, with an abstract mutable
    type which is neither null nor looked into; storage is obtained from a function whose result is
    annotated only and defined, released by passing it to a parameter annotated only, used by passing
    it to a parameter without annotation (implicitly temp); there are no parameters or globals which
    could be aliased; the statements follow each other without branches.  The message about a variable
    stands for all the texts in which it is given (with or without "Last reference"); every message is
    really given. *)
From Verif Require Import Cbase.
From Coq Require Import List Arith Bool.
Import ListNotations.
Open Scope nat_scope.

(** ** Programs *)
Definition var := nat.
(** [x = create ();]  [x = y;]  [destroy (x);]  [use (x);] *)
Inductive op := New (x : var) | Copy (x y : var) | Release (x : var) | Use (x : var).

(** ** Sets and the table of aliases *)
Definition mem (x : var) (l : list var) : bool := existsb (Nat.eqb x) l.
(** sRefSet.c 80-110: at the end, unless it is already there. *)
Definition insert (x : var) (l : list var) : list var := if mem x l then l else l ++ [x].
(** sRefSet.c 302-322. *)
Definition unionExcept (s1 s2 : list var) (ex : var) : list var :=
  fold_left (fun s e => if Nat.eqb e ex then s else insert e s) s2 s1.

(** Keys with the variables they may alias, in the order in which the keys were added. *)
Definition table := list (var * list var).
(** aliasTable.c 86-104, 426-500: the set of a variable. *)
Fixpoint canAlias (t : table) (x : var) : list var :=
  match t with
  | [] => []
  | (k, vs) :: t' => if Nat.eqb x k then vs else canAlias t' x
  end.
(** aliasTable.c 137-154: the entry of a key is changed, or added at the end. *)
Fixpoint change (t : table) (x : var) (f : list var -> list var) : table :=
  match t with
  | [] => [(x, f [])]
  | (k, vs) :: t' => if Nat.eqb x k then (k, f vs) :: t' else (k, vs) :: change t' x f
  end.
(** aliasTable.c 107-158. *)
Definition addMust (t : table) (sr al : var) : table :=
  let ss := canAlias t al in
  change t sr (fun vs => unionExcept (insert al vs) ss sr).
(** usymtab.c 5734-5779: nothing for a variable and itself; both ways for two local variables. *)
Definition addAlias (t : table) (x y : var) : table :=
  if Nat.eqb x y then t else addMust (addMust t x y) y x.
(** aliasTable.c 240-262: the set of the variable is emptied, and it leaves the other sets. *)
Definition clear (t : table) (x : var) : table :=
  map (fun e => if Nat.eqb x (fst e) then (fst e, [])
                else (fst e, filter (fun v => negb (Nat.eqb x v)) (snd e))) t.
(** aliasTable.c 267-345: the other keys in whose sets the variable is. *)
Definition aliasedBy (t : table) (x : var) : list var :=
  map fst (filter (fun e => negb (Nat.eqb x (fst e)) && mem x (snd e)) t).
(** usymtab.c 5792-5809. *)
Definition allAliases (t : table) (x : var) : list var :=
  fold_left (fun s e => insert e s) (canAlias t x) (aliasedBy t x).

(** ** States *)
(** SS_UNDEFINED, SS_DEFINED, SS_DEAD, SS_UNUSEABLE.  The last arises only where branches meet
    (Ownbr_model). *)
Inductive dstate := DUndef | DDef | DDead | DUnuse.
(** AK_LOCAL, AK_FRESH, AK_OWNED, AK_DEPENDENT, AK_ERROR, AK_UNKNOWN.  The last two arise only where
    branches meet. *)
Inductive kind := KLocal | KFresh | KOwned | KDep | KError | KUnknown.
(** "used before definition", "used after being released", "not released before assignment", "not
    released before return" (or scope exit), "Dependent storage passed as only param", "used in
    inconsistent state", "released in one branch, but live in the other" (and the other texts given
    where branches meet), "Unqualified storage passed as only param". *)
Inductive msg := MUndef (x : var) | MReleased (x : var) | MLeak (x : var) | MLeakExit (x : var) | MDependent (x : var)
  | MUnuse (x : var) | MBranch (x : var) | MUnqual (x : var).
Record state := mkSt { dst : var -> dstate; ak : var -> kind; al : table; out : list msg }.

Definition fset {A} (f : var -> A) (x : var) (a : A) : var -> A := fun v => if Nat.eqb v x then a else f v.
Definition setDst (s : state) (x : var) (d : dstate) : state := mkSt (fset (dst s) x d) (ak s) (al s) (out s).
Definition setAk (s : state) (x : var) (k : kind) : state := mkSt (dst s) (fset (ak s) x k) (al s) (out s).
Definition setAl (s : state) (t : table) : state := mkSt (dst s) (ak s) t (out s).
Definition say (s : state) (m : msg) : state := mkSt (dst s) (ak s) (al s) (out s ++ [m]).

(** sRef.c 3224-3231: local variables. *)
Definition start : state := mkSt (fun _ => DUndef) (fun _ => KLocal) [] [].

(** exprNode.c 10175-10333: a variable which is read. *)
Definition checkUse (s : state) (x : var) : state :=
  match dst s x with
  | DDef => s
  | DUndef => setDst (say s (MUndef x)) x DDef
  | DDead => setDst (say s (MReleased x)) x DDef
  | DUnuse => setDst (say s (MUnuse x)) x DDef
  end.

(** Kinds under which storage must be released. *)
Definition owner (k : kind) : bool := match k with KFresh | KOwned => true | _ => false end.

(** transferChecks.c 4468-4497: the first variable which is known to alias it takes over. *)
Definition canLose (s : state) (x : var) : option state :=
  match aliasedBy (al s) x with
  | c :: _ => Some (setAk s c (ak s x))
  | [] => None
  end.

(** transferChecks.c 2619-2701: the storage held so far is lost by an assignment; not if the state is
    dead, undefined or unuseable (2626-2640). *)
Definition lose (s : state) (x : var) : state :=
  if owner (ak s x) && match dst s x with DDef => true | _ => false end
  then match canLose s x with Some s' => s' | None => say s (MLeak x) end
  else s.

(** sRef.c 5726-5757; the original kind of a local variable is local. *)
Definition kill (s : state) (x : var) : state := setDst (setAk s x KLocal) x DDead.
(** sRef.c 8430-8453. *)
Definition killComplete (s : state) (x : var) : state := fold_left kill (x :: allAliases (al s) x) s.
Definition setDependentComplete (s : state) (x : var) : state :=
  fold_left (fun s v => setAk s v KDep) (x :: allAliases (al s) x) s.

(** exprNode.c 6095-6343 with transferChecks.c 2437-2497 for the result of a call: the variable becomes
    fresh. *)
Definition assignNew (s : state) (x : var) : state :=
  let s1 := lose s x in
  let s2 := setAk (setAk s1 x KLocal) x KFresh in
  let s3 := setDst s2 x DDef in
  setAl s3 (clear (al s3) x).

(** transferChecks.c 3415-3600 for an assignment between local variables: what becomes of the kinds. *)
Definition transfer (s : state) (x y : var) : state :=
  match ak s y with
  | KFresh => setDependentComplete (setAk s x KOwned) y
  | KDep => setAk s x KDep
  | KOwned | KLocal | KError | KUnknown => s
  end.

(** exprNode.c 6095-6343 for a variable: assignment to itself changes no state (transferChecks.c
    2609-2618), but its aliases are cleared (exprNode.c 11369-11373). *)
Definition assignCopy (s0 : state) (x y : var) : state :=
  let s := checkUse s0 y in
  if Nat.eqb x y then setAl s (clear (al s) x)
  else
    let s1 := setAk (lose s x) x KLocal in
    let s2 := setDst s1 x (dst s1 y) in
    let s3 := transfer s2 x y in
    let s4 := setAl s3 (addAlias (clear (al s3) x) x y) in
    setDst s4 x DDef.

(** transferChecks.c 4427-4466: the owned variable among those known to alias it, or the first. *)
Definition dependentReference (s : state) (x : var) : option var :=
  let ab := aliasedBy (al s) x in
  match find (fun c => match ak s c with KOwned => true | _ => false end) ab with
  | Some c => Some c
  | None => match ab with c :: _ => Some c | [] => None end
  end.

(** transferChecks.c 3516-3567: dependent storage passed as only. *)
Definition passDependent (s : state) (x : var) : state :=
  let s1 := match dependentReference s x with Some r => kill (kill s r) x | None => s end in
  match canLose s1 x with
  | Some s2 => s2
  | None => match dependentReference s x with Some _ => s1 | None => say s1 (MDependent x) end
  end.

(** transferChecks.c 1864-2268 and 3415-3903: a variable passed to a parameter annotated only. *)
Definition release (s0 : state) (x : var) : state :=
  let s := checkUse s0 x in
  killComplete (match ak s x with
                | KDep => passDependent s x
                | KUnknown => say s (MUnqual x)
                | _ => s
                end) x.

Definition step (s : state) (o : op) : state :=
  match o with
  | New x => assignNew s x
  | Copy x y => assignCopy s x y
  | Release x => release s x
  | Use x => checkUse s x
  end.
Definition run (p : list op) : state := fold_left step p start.

(** usymtab.c 3985-4063: a variable at the end of the function ([isReturn]), or of an inner block. *)
Definition checkFinal (isReturn : bool) (s : state) (x : var) : state :=
  if owner (ak s x) && match dst s x with DDead => false | _ => true end
  then if isReturn then say s (MLeakExit x)
       else match canLose s x with Some s' => s' | None => say s (MLeakExit x) end
  else s.
(** usymtab.c 3849-4147: the variables in the order of their declarations. *)
Definition finish (isReturn : bool) (decls : list var) (s : state) : state :=
  fold_left (checkFinal isReturn) decls s.

(** What is said about a function with this body; and about an inner block. *)
Definition messages (decls : list var) (p : list op) : list msg := out (finish true decls (run p)).
Definition blockMessages (decls : list var) (p : list op) : list msg := out (finish false decls (run p)).
