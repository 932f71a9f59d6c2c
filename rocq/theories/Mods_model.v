(** How splint checks that the body of a function modifies only what its modifies clause lists: the
    table of aliases of references (with fields, pointers and elements of arrays), the test whether the
    clause allows a reference to be modified, and the test that everything listed is modified.

    Sources: sRef.c 1095-1533 ([sRef_canModifyVal], [sRef_canModify], [sRef_checkModifyVal],
    [sRef_checkModify], [sRef_doModifyVal], [sRef_doModify]), 1807-1909 ([sRef_similar]), [sRef_same],
    [sRef_includedBy], [sRef_sameName], [sRef_isReference], [sRef_fixBase], [sRef_fixBaseParam],
    [sRef_makePointer], [sRef_makeAddress], 8310-8358 ([sRef_aliasCheckPred]); sRefSet.c 82-110, 226-260,
    265-322, 604-610, 683-697, 837-930; aliasTable.c 86-158, 190-262, 267-500, 634-690; usymtab.c 2168-2262
    ([usymtab_handleParams]), 3060-3190 ([usymtab_popBranches]), 5734-5809; context.c 2091-2127
    ([context_checkGlobMod]); exprChecks.c 366-391, 556-650 ([exprNode_checkAllMods]), 1157-1246
    ([checkModifyAuxAux]), 1248-1322 ([checkModifyAux]), 1331-1480 ([checkCallModifyAux],
    [exprNode_checkCallModifyVal]); exprNode.c 2945-3185 ([checkGlobMods]), 4441, 4790, 6057-6092
    ([exprNode_checkAssignMod]), 10644-10706 ([checkAnyCall]), 11342-11385 ([updateAliases]); clabstract.c
    2414-2445 ([modListArrayFetch]); system_constants.h 51.

    Simplified: the function has a modifies clause and the flag modifies is set (so the messages are given
    under that flag); there are no observers, no file-static or external storage, no internalState and
    fileSystem, no conditional expressions (so that no reference stands for one of two); the references
    are well typed, so that every alias of a pointer can be followed and has the fields asked for; locals
    are declared at the top of the body, and blocks of branches declare none; no name is declared twice;
    no statement leaves the function early; array variables are pointers to their elements; a called
    function has no result and is not a macro.  The warning about references of more than 25 steps (sRef.c
    3467-3490) and the one about searches for aliases which are cut off are left out; that they are cut
    off is not. *)
From Verif Require Import Cbase.
From Coq Require Import List ZArith Arith Bool.
Import ListNotations.
Open Scope nat_scope.

(** ** References *)
Definition var := nat.
Definition glob := nat.
Definition fld := nat.
(** SK_CVAR of a local variable (the first variables are those of the parameters), SK_CVAR of a variable
    of file or global scope, SK_PARAM, SK_PTR, SK_ARRAYFETCH (with the index if it is known), SK_FIELD,
    SK_ADR. *)
Inductive sref := Cvar (x : var) | Glob (g : glob) | Param (i : var)
  | Ptr (s : sref) | Fetch (s : sref) (i : option Z) | Field (s : sref) (f : fld) | Adr (s : sref).

Definition oz_eqb (a b : option Z) : bool :=
  match a, b with Some x, Some y => Z.eqb x y | None, None => true | _, _ => false end.
(** [sRef_realSame]. *)
Fixpoint realSame (s1 s2 : sref) : bool :=
  match s1, s2 with
  | Cvar x, Cvar y | Glob x, Glob y | Param x, Param y => Nat.eqb x y
  | Ptr a, Ptr b | Adr a, Adr b => realSame a b
  | Fetch a i, Fetch b j => realSame a b && oz_eqb i j
  | Field a f, Field b g => realSame a b && Nat.eqb f g
  | _, _ => false
  end.
(** Both known and different: then two elements of an array are different. *)
Definition idxClash (i j : option Z) : bool :=
  match i, j with Some x, Some y => negb (Z.eqb x y) | _, _ => false end.
(** [sRef_same]. *)
Fixpoint same (s1 s2 : sref) : bool :=
  match s1, s2 with
  | Cvar x, Cvar y | Glob x, Glob y | Param x, Param y => Nat.eqb x y
  | Ptr a, Ptr b | Adr a, Adr b => same a b
  | Fetch a i, Fetch b j => same a b && negb (idxClash i j)
  | Field a f, Field b g => same a b && Nat.eqb f g
  | _, _ => false
  end.
Fixpoint size (s : sref) : nat :=
  match s with
  | Cvar _ | Glob _ | Param _ => 1
  | Ptr a | Fetch a _ | Field a _ | Adr a => S (size a)
  end.
(** sRef.c 1807-1909.  The arguments change places for a pointer and an element (1882-1885), hence the
    bound; it is never reached. *)
Fixpoint simAux (n : nat) (s1 s2 : sref) : bool :=
  match n with
  | 0 => false
  | S n =>
      match s1, s2 with
      | Cvar x, Cvar y | Glob x, Glob y | Param x, Param y => Nat.eqb x y
      | Fetch a i, Fetch b j => simAux n a b && negb (idxClash i j)
      | Fetch a _, Ptr b => simAux n a b
      | Field a f, Field b g => simAux n a b && Nat.eqb f g
      | Ptr a, Ptr b => simAux n a b
      | Ptr a, Fetch b _ => simAux n b a
      | Adr a, Adr b => simAux n a b
      | _, _ => false
      end
  end.
Definition similar (s1 s2 : sref) : bool := simAux (size s1 + size s2) s1 s2.
(** [sRef_includedBy]. *)
Fixpoint includedBy (small big : sref) : bool :=
  match small with
  | Cvar _ | Glob _ | Param _ => same small big
  | Fetch a i =>
      match big with
      | Fetch b j => if same a b && negb (idxClash i j) then true
                     else if same a b then false else includedBy a big
      | _ => includedBy a big
      end
  | Field a f =>
      match big with
      | Field b g => same a b && Nat.eqb f g
      | _ => includedBy a big
      end
  | Ptr a =>
      match big with
      | Ptr b => same a b
      | _ => includedBy a big
      end
  | Adr a => match big with Adr b => similar a b | _ => false end
  end.
(** [sRef_getRootBase]. *)
Fixpoint rootOf (s : sref) : sref :=
  match s with
  | Cvar _ | Glob _ | Param _ => s
  | Ptr a | Fetch a _ | Field a _ | Adr a => rootOf a
  end.
Definition isLocalVar (s : sref) : bool := match s with Cvar _ => true | _ => false end.
Definition isCvar (s : sref) : bool := match s with Cvar _ | Glob _ => true | _ => false end.
Definition isGlob (s : sref) : bool := match s with Glob _ => true | _ => false end.
Definition isAddress (s : sref) : bool := match s with Adr _ => true | _ => false end.
(** [sRef_isReference]. *)
Fixpoint isReference (s : sref) : bool :=
  match s with
  | Ptr _ | Fetch _ _ | Glob _ => true
  | Field a _ => isReference a
  | _ => false
  end.
(** [sRef_sameName]: a parameter and its variable have the same name. *)
Fixpoint sameName (s1 s2 : sref) : bool :=
  match s1, s2 with
  | Cvar x, Cvar y | Glob x, Glob y | Param x, Param y | Cvar x, Param y | Param x, Cvar y => Nat.eqb x y
  | Fetch a i, Fetch b j => oz_eqb i j && sameName a b
  | Field a f, Field b g => Nat.eqb f g && sameName a b
  | Ptr a, Ptr b | Adr a, Adr b => sameName a b
  | _, _ => false
  end.
(** [sRef_buildPointer]. *)
Definition mkPtr (s : sref) : sref := match s with Adr a => a | _ => Ptr s end.
(** [sRef_makeAddress]. *)
Definition mkAdr (s : sref) : sref :=
  match s with
  | Ptr a => a
  | Fetch a (Some 0%Z) => a
  | _ => Adr s
  end.
(** [sRef_fixBase]. *)
Fixpoint fixBase (s base : sref) : sref :=
  match s with
  | Cvar _ | Glob _ | Param _ => base
  | Fetch a i => Fetch (fixBase a base) i
  | Field a f => Field (fixBase a base) f
  | Ptr a => mkPtr (fixBase a base)
  | Adr a => mkAdr (fixBase a base)
  end.

(** clabstract.c 2414-2445, cgrammar.y 842-857: how a modifies clause is read; the index of an element is
    dropped. *)
Inductive cplace := CParam (i : var) | CGlob (g : glob) | CDeref (c : cplace) | CIdx (c : cplace) (i : option Z)
  | CFld (c : cplace) (f : fld).
Fixpoint readClause (c : cplace) : sref :=
  match c with
  | CParam i => Param i
  | CGlob g => Glob g
  | CDeref c => Ptr (readClause c)
  | CIdx c _ => Fetch (readClause c) None
  | CFld c f => Field (readClause c) f
  end.

(** ** Sets of references *)
(** sRefSet.c 82-110, 592-596. *)
Definition isSameMember (l : list sref) (s : sref) : bool := existsb (realSame s) l.
Definition insert (l : list sref) (s : sref) : list sref := if isSameMember l s then l else l ++ [s].
(** sRefSet.c 265-295. *)
Definition union (l1 l2 : list sref) : list sref :=
  match l1 with [] => l2 | _ => fold_left insert l2 l1 end.
(** sRefSet.c 302-322. *)
Definition unionExcept (l1 l2 : list sref) (ex : sref) : list sref :=
  fold_left (fun l e => if same e ex then l else insert l e) l2 l1.
(** sRefSet.c 604-608. *)
Definition member (l : list sref) (s : sref) : bool := existsb (similar s) l.
(** sRefSet.c 226-260. *)
Definition deleteBase (l : list sref) (b : sref) : list sref := filter (fun e => negb (includedBy e b)) l.
Definition mapInsert (f : sref -> sref) (l : list sref) : list sref :=
  fold_left (fun t e => insert t (f e)) l [].
(** sRefSet.c 837-930. *)
Definition addIndirection : list sref -> list sref := mapInsert mkPtr.
Definition removeIndirection (l : list sref) : list sref :=
  mapInsert mkAdr (filter (fun e => negb (isAddress e)) l).
Definition accessField (f : fld) : list sref -> list sref := mapInsert (fun e => Field e f).
Definition fetch (i : option Z) : list sref -> list sref := mapInsert (fun e => Fetch e i).

(** ** The table of aliases *)
Definition table := list (sref * list sref).
(** system_constants.h 51. *)
Definition searchLimit : nat := 8.
(** aliasTable.c 86-104. *)
Fixpoint valuesOf (t : table) (s : sref) : list sref :=
  match t with
  | [] => []
  | (k, vs) :: t' => if same s k then vs else valuesOf t' s
  end.
(** aliasTable.c 425-497; the first argument counts down to the limit of the search. *)
Fixpoint canAliasAux (n : nat) (t : table) (s : sref) : list sref :=
  match n with
  | 0 => []
  | S n =>
      match s with
      | Ptr a => union (addIndirection (canAliasAux n t a)) (valuesOf t s)
      | Adr a => union (removeIndirection (canAliasAux n t a)) (valuesOf t s)
      | Field a f => union (accessField f (canAliasAux n t a)) (valuesOf t s)
      | Fetch a i => union (fetch i (canAliasAux n t a)) (valuesOf t s)
      | _ => valuesOf t s
      end
  end.
Definition canAlias : table -> sref -> list sref := canAliasAux searchLimit.
(** aliasTable.c 267-345. *)
Definition keysFor (t : table) (s : sref) : list sref :=
  map fst (filter (fun e => negb (same s (fst e)) && existsb (similar s) (snd e)) t).
Fixpoint aliasedByAux (n : nat) (t : table) (s : sref) : list sref :=
  match n with
  | 0 => []
  | S n =>
      fold_left insert (keysFor t s)
        match s with
        | Ptr a => addIndirection (aliasedByAux n t a)
        | Adr a => removeIndirection (aliasedByAux n t a)
        | Field a f => accessField f (aliasedByAux n t a)
        | Fetch a i => fetch i (aliasedByAux n t a)
        | _ => []
        end
  end.
Definition aliasedBy : table -> sref -> list sref := aliasedByAux searchLimit.
(** usymtab.c 5787-5804. *)
Definition allAliases (t : table) (s : sref) : list sref := union (aliasedBy t s) (canAlias t s).
(** aliasTable.c 137-154. *)
Fixpoint change (t : table) (s : sref) (f : list sref -> list sref) : table :=
  match t with
  | [] => [(s, f [])]
  | (k, vs) :: t' => if same s k then (k, f vs) :: t' else (k, vs) :: change t' s f
  end.
(** aliasTable.c 107-158. *)
Definition addMust (t : table) (s a : sref) : table :=
  let ss := canAlias t a in
  change t s (fun vs => unionExcept (insert vs a) ss s).
(** aliasTable.c 240-262. *)
Definition clearAux (t : table) (s : sref) : table :=
  map (fun e => (fst e, if includedBy (fst e) s then [] else deleteBase (snd e) s)) t.
(** aliasTable.c 190-238: what is reached through the variable of a parameter is also cleared as
    reached through the parameter. *)
Definition clear (t : table) (s : sref) : table :=
  let rb := rootOf s in
  let t' :=
    if negb (isCvar s) && isLocalVar rb
    then fold_left (fun t e => match e with
                               | Param _ => if sameName e rb then clearAux t (fixBase s e) else t
                               | _ => t
                               end) (valuesOf t rb) t
    else t in
  clearAux t' s.

Section Function.
  (** The number of parameters. *)
  Variable np : nat.

  (** [sRef_isDirectParam]. *)
  Definition isDirectParam (s : sref) : bool := match s with Cvar x => Nat.ltb x np | _ => false end.
  (** usymtab.c 5734-5774. *)
  Definition addAlias (t : table) (s a : sref) : table :=
    if similar s a then t
    else if match a with Adr b => isDirectParam b | _ => false end then t
    else let t1 := addMust t s a in
         if isLocalVar s && isLocalVar a then addMust t1 a s else t1.
  (** usymtab.c 2168-2262: the variable of a parameter aliases the parameter. *)
  Definition startTable : table := fold_left (fun t i => addAlias t (Cvar i) (Param i)) (seq 0 np) [].

  (** aliasTable.c 634-690. *)
  Definition tabUnion (t1 t2 : table) : table :=
    fold_left (fun t e =>
      match snd e with
      | [] => t
      | vs => if existsb (fun k => same (fst e) (fst k)) t
              then change t (fst e) (fun ws => union ws vs)
              else t ++ [(fst e, vs)]
      end) t2 t1.

  (** ** What the clause allows *)
  (** CH_CHECKED (and CH_CHECKMOD, CH_CHECKEDSTRICT), CH_UNKNOWN, CH_UNCHECKED. *)
  Inductive checked := ChChecked | ChUnknown | ChUnchecked.
  Record flags := mkFlags { f_allglobals : bool; f_modglobs : bool; f_modglobsunchecked : bool;
                            f_moduncon : bool; f_mustmod : bool }.
  (** The flags, how the globals are annotated, which parameters are annotated only, and the clause of
      the function. *)
  Variable fl : flags.
  Variable ann : glob -> checked.
  Variable onlyParam : var -> bool.
  Variable clause : list cplace.
  Definition mods : list sref := map readClause clause.

  Definition isCheckedModify (g : glob) : bool := match ann g with ChChecked => true | _ => false end.
  (** context.c 2091-2127, for a function with a modifies clause. *)
  Definition checkGlobMod (g : glob) : bool :=
    if isCheckedModify g || (match ann g with ChUnchecked => false | _ => true end && f_allglobals fl)
    then f_modglobs fl else f_modglobsunchecked fl.

  (** sRef.c 1156-1231. *)
  Fixpoint checkModifyVal (s : sref) : bool :=
    match s with
    | Cvar _ => true
    | Glob g => if checkGlobMod g then member mods s else true
    | Param i => member mods s || onlyParam i
    | Ptr a | Fetch a _ | Field a _ | Adr a => member mods s || checkModifyVal a
    end.
  (** sRef.c 1239-1317. *)
  Definition checkModify (s : sref) : bool :=
    match s with
    | Cvar _ | Param _ => true
    | Glob g => if checkGlobMod g then member mods s else true
    | Field (Param _) _ => true
    | Ptr a | Fetch a _ | Field a _ | Adr a => member mods s || checkModifyVal a
    end.
  (** sRef.c 1350-1418, 1426-1533: the references which are looked up in the clause, to mark what is
      similar to them as modified (sRefSet.c 683-697), when the flag mustmod is set. *)
  Fixpoint lookedUpVal (s : sref) : list sref :=
    match s with
    | Cvar _ => []
    | Glob _ | Param _ => [s]
    | Ptr a | Fetch a _ | Field a _ | Adr a => s :: lookedUpVal a
    end.
  Definition lookedUp (s : sref) : list sref :=
    match s with
    | Cvar _ | Param _ => []
    | Glob _ => [s]
    | Field (Param _) _ => []
    | Ptr a | Fetch a _ | Field a _ | Adr a => s :: lookedUpVal a
    end.

  (** ** Messages *)
  (** "Undocumented modification of s", "Possible undocumented modification of s through alias a", "...
      possible from call to" (with and without an alias), "Undetected modification possible from call to
      unconstrained function", "Suspect object listed in modifies ... not modified". *)
  Inductive msg := MMod (s : sref) | MModAlias (s a : sref) | MCall (s : sref) | MCallAlias (s a : sref)
    | MUncon | MMust (s : sref).
  (** The table of aliases, what was looked up in the clause, the messages. *)
  Record state := mkSt { tab : table; seen : list sref; out : list msg }.
  Definition say (st : state) (m : msg) : state := mkSt (tab st) (seen st) (out st ++ [m]).
  Definition setTab (st : state) (t : table) : state := mkSt t (seen st) (out st).
  Definition look (st : state) (l : list sref) : state :=
    mkSt (tab st) (if f_mustmod fl then seen st ++ l else seen st) (out st).

  (** exprChecks.c 1157-1246. *)
  Definition checkModifyAuxAux (s : sref) (alias : option sref) (st : state) : state :=
    let st := look st (lookedUp s) in
    if checkModify s then st
    else if match rootOf s with Glob g => negb (checkGlobMod g) | _ => false end then st
    else match alias with
         | None => say st (MMod s)
         | Some a => if sameName s a then say st (MMod s)
                     else if isReference s && negb (isAddress a) then say st (MModAlias s a) else st
         end.
  (** sRef.c 8310-8358 with exprChecks.c 366-377: the check of a reference never counts as an error. *)
  Definition checkModifyAll (s : sref) (st : state) : state :=
    let st1 := checkModifyAuxAux s None st in
    if isReference s
    then fold_left (fun st c => if similar c s then st else checkModifyAuxAux c (Some s) st)
           (allAliases (tab st1) s) st1
    else st1.
  (** exprChecks.c 1331-1472: the result tells whether a message was given. *)
  Definition checkCallModifyAux (s : sref) (alias : option sref) (st : state) : state * bool :=
    let st := look st (lookedUpVal s) in
    if checkModifyVal s then (st, false)
    else if match rootOf s with Glob g => negb (isCheckedModify g) | _ => false end then (st, false)
    else match alias with
         | None => (say st (MCall s), true)
         | Some a => if sameName s a then (say st (MCall s), true) else (say st (MCallAlias s a), true)
         end.
  (** exprChecks.c 1474-1480. *)
  Definition checkCallModifyVal (s : sref) (st : state) : state :=
    let '(st1, err) := checkCallModifyAux s None st in
    fold_left (fun st c => if negb (similar c s) || (err && sameName c s)
                           then fst (checkCallModifyAux c (Some s) st) else st)
      (allAliases (tab st1) s) st1.

  (** ** Programs *)
  (** Places: [x], [g], [*p], [p[i]] (with the index if it is a constant), [p.f]; [p->f] is [( *p).f]. *)
  Inductive place := PVar (x : var) | PGlob (g : glob) | PDeref (p : place) | PIdx (p : place) (i : option Z)
    | PFld (p : place) (f : fld).
  (** Pointers: the one at a place, the address of a place, new storage, null. *)
  Inductive pexp := EAt (p : place) | EAddr (p : place) | ENew | ENull.
  (** [p = 1;] (or another number, or [p++;]), [p = e;] for a pointer, a call with the modifies clause of
      the called function, if it has one, and its arguments, [if (...) ... else ...], [while (...) ...]. *)
  Inductive stmt := Num (p : place) | Set_ (p : place) (e : pexp) | Call (cl : option (list cplace)) (args : list pexp)
    | If (a b : list stmt) | While (a : list stmt).

  Fixpoint srefOf (p : place) : sref :=
    match p with
    | PVar x => Cvar x
    | PGlob g => Glob g
    | PDeref p => Ptr (srefOf p)
    | PIdx p i => Fetch (srefOf p) i
    | PFld p f => Field (srefOf p) f
    end.
  (** The reference of a pointer, if it has one which says something ([sRef_isMeaningful]). *)
  Definition srefExp (e : pexp) : option sref :=
    match e with
    | EAt p => Some (srefOf p)
    | EAddr p => Some (mkAdr (srefOf p))
    | ENew | ENull => None
    end.
  (** exprNode.c 11342-11385. *)
  Definition updateAliases (t : table) (s : sref) (e : pexp) : table :=
    let t1 := clear t s in
    match srefExp e with Some a => addAlias t1 s a | None => t1 end.
  (** [sRef_fixBaseParam]: what the called function lists, in terms of the arguments; a reference about
      which nothing is known may always be modified. *)
  Fixpoint fixBaseParam (args : list pexp) (s : sref) : option sref :=
    match s with
    | Cvar _ | Glob _ => Some s
    | Param i => match nth_error args i with Some e => srefExp e | None => None end
    | Ptr a => option_map mkPtr (fixBaseParam args a)
    | Fetch a i => option_map (fun b => Fetch b i) (fixBaseParam args a)
    | Field a f => option_map (fun b => Field b f) (fixBaseParam args a)
    | Adr a => option_map mkAdr (fixBaseParam args a)
    end.
  (** exprNode.c 3047-3129 (with a modifies clause of its own), 10682-10706 (without). *)
  Definition checkCall (cl : option (list cplace)) (args : list pexp) (st : state) : state :=
    match cl with
    | Some l => fold_left (fun st e => match fixBaseParam args (readClause e) with
                                       | Some s => checkCallModifyVal s st
                                       | None => st
                                       end) l st
    | None => if f_moduncon fl then say st MUncon else st
    end.

  (** usymtab.c 3176-3182: both branches start with the table before them; the false branch of a loop is
      empty (usymtab.c [usymtab_popTrueBranch]). *)
  Fixpoint checkStmt (c : stmt) (st : state) : state :=
    match c with
    | Num p => checkModifyAll (srefOf p) st
    | Set_ p e =>
        let st1 := checkModifyAll (srefOf p) st in
        setTab st1 (updateAliases (tab st1) (srefOf p) e)
    | Call cl args => checkCall cl args st
    | If a b =>
        let st1 := (fix go l st := match l with [] => st | c :: l => go l (checkStmt c st) end) a st in
        let st2 := (fix go l st := match l with [] => st | c :: l => go l (checkStmt c st) end) b (setTab st1 (tab st)) in
        setTab st2 (tabUnion (tab st1) (tab st2))
    | While a =>
        let st1 := (fix go l st := match l with [] => st | c :: l => go l (checkStmt c st) end) a st in
        setTab st1 (tabUnion (tab st1) (tab st))
    end.
  Fixpoint checkBody (l : list stmt) (st : state) : state :=
    match l with [] => st | c :: l => checkBody l (checkStmt c st) end.
  (** exprChecks.c 556-650, called when the flag mustmod is set (context.c 2543-2546). *)
  Definition unmodified (st : state) : list sref :=
    filter (fun e => negb (existsb (fun s => similar s e) (seen st))) mods.
  Definition checkFunction (l : list stmt) : list msg :=
    let st := checkBody l (mkSt startTable [] []) in
    out st ++ (if f_mustmod fl then map MMust (unmodified st) else []).
End Function.
