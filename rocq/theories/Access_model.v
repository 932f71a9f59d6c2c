(** Access to the representations of abstract types: which functions and files have it, the [access]
    and [noaccess] comments, and what is reported about casts.

    Sources: context.c 484-519 ([addModuleAccess]), 522-536 ([insertModuleAccess]), 1457-1472
    ([context_addFileAccessType]), 1475-1485 ([context_removeFileAccessType]), 1523-1555 (function
    declarations), 1566-1578 ([context_enterMacro], [context_enterUnknownMacro]), 1822-1838
    ([context_enterConstantMacro]), 1868-1898 ([context_enterFunction]), 2160-2181
    ([context_hasAccess]), 2192-2205 ([context_couldHaveAccess]), 2510-2572
    ([context_exitFunction]), 3438-3491 ([setModuleAccess]), 3494-3512 (entering files), 3521-3526
    ([context_inFunctionLike]), 3601-3647 ([context_exitCFile]), 4290-4337 ([context_setFilename]),
    4339-4350 (iterators); cscannerHelp.c 1262-1436 (the two comments); usymtab.c 1268-1293
    ([usymtab_supAbstractTypeEntry]); uentry.c 1174-1295 ([uentry_makeIdFunction]), 6447-6514
    ([uentry_getRealType]); ctype.c 180-203 ([ctype_realType]), 261-302, 456-495
    ([ctype_baseArrayPtr]), 1085-1091 ([ctype_isRealAP]), 1798-1815 ([ctype_isVoidPointer]),
    2012-2070 ([ctype_getBaseType]); exprNode.c 5004-5245 ([exprNode_cast]).

    Simplified: names of types and names of files without directory and extension are numbers of one
    kind, so that a type and a file may have the same name.  The types a function has access to because
    of its name (nameChecks.c 707-720, 957-970) are given with the function.  Not modelled: old style
    functions, LCL specifications, access given by libraries and for [bool], suppressed regions, and
    the cache of macros: a macro is checked where its definition is read, which is so for macros of files
    that are no headers and outside functions (cscanner.l 377-395).  In casts: no functions, structures,
    [bool] and alternate types; whether two types match is a parameter. *)
From Verif Require Import Cbase.
From Coq Require Import List Arith Bool Ascii.
Import ListNotations.

(** Sets of types ([typeIdSet], typeIdSet.c 180-290), which are values. *)
Definition tset := list nat.
(** typeIdSet.c: [typeIdSet_member]. *)
Definition mem (t : nat) (s : tset) : bool := existsb (Nat.eqb t) s.
(** typeIdSet.c 227-239: [typeIdSet_insert]. *)
Definition tinsert (t : nat) (s : tset) : tset := if mem t s then s else t :: s.
(** typeIdSet.c 241-244: [typeIdSet_removeFresh]. *)
Definition tremove (t : nat) (s : tset) : tset := filter (fun x => negb (Nat.eqb t x)) s.
(** typeIdSet.c: [typeIdSet_union]. *)
Definition tunion (s r : tset) : tset := s ++ r.
(** typeIdSet.c 256-270: [typeIdSet_subtract]. *)
Definition subtract (s r : tset) : tset := filter (fun x => negb (mem x r)) s.

(** The kinds of context, context.h ([kcontext]).  [KGlobal] stands for [CX_INNER] also, which is used
    outside functions only and treated in the same way here. *)
Inductive ckind :=
| KGlobal | KFunction | KMacroFcn | KUnknownMacro | KMacroConst | KIterDef | KIterEnd | KFcnDecl.

(** context.c 3521-3526: [context_inFunctionLike]. *)
Definition inFunctionLike (k : ckind) : bool :=
  match k with
  | KFunction | KMacroFcn | KFcnDecl | KUnknownMacro | KIterDef => true
  | _ => false
  end.

(** The tests of context.c 1477-1478 and 2194. *)
Definition inRealFunction (k : ckind) : bool :=
  match k with KFunction | KMacroFcn | KUnknownMacro => true | _ => false end.

(** The parts of [gc] (context.c 150-245) that are used: [facct], [acct], [nacct], [moduleaccess], [kind],
    [savekind]; the current file; the types that exist and those of them which are abstract. *)
Record st := {
  facct : tset; acct : tset; nacct : tset;
  modules : list (nat * tset);
  kind : ckind; savekind : option ckind;
  file : nat;
  types : tset; abstracts : tset }.

(** The messages of the comments (cscannerHelp.c 1293-1329, 1385-1420). *)
Inductive amsg := MUnrecognized (t : nat) | MNonAbstract (t : nat) | MNonAccessible (t : nat).

(** What happens while files are read: a source file is begun, a line directive names a file (an
    included file is begun, or the file that includes it is resumed), an abstract or other type is
    defined, a comment names a type, the definition of something with a body is begun (with the types it
    has access to because of its name) or ended, the declaration of a function is begun or ended, a
    source file ends. *)
Inductive event :=
| EFile (f : nat)
| ELine (f : nat)
| EAbstract (t : nat)
| EConcrete (t : nat)
| EAccess (t : nat)
| ENoAccess (t : nat)
| EEnter (k : ckind) (a : tset)
| EExit
| EDecl
| EEndDecl
| EEnd.

(** context.c 484-519: [addModuleAccess]. *)
Fixpoint addModuleAccess (b : nat) (s : tset) (l : list (nat * tset)) : list (nat * tset) :=
  match l with
  | [] => [(b, s)]
  | (c, d) :: r => if Nat.eqb c b then (c, tunion d s) :: r else (c, d) :: addModuleAccess b s r
  end.

(** The loop of context.c 527-534. *)
Fixpoint insertFound (b : nat) (t : nat) (l : list (nat * tset)) : list (nat * tset) :=
  match l with
  | [] => []
  | (c, d) :: r => if Nat.eqb c b then (c, tinsert t d) :: r else (c, d) :: insertFound b t r
  end.

(** context.c 522-536: [insertModuleAccess]. *)
Definition insertModuleAccess (b : nat) (t : nat) (l : list (nat * tset)) : list (nat * tset) :=
  addModuleAccess b [t] (insertFound b t l).

(** The loop of context.c 3465-3475. *)
Fixpoint moduleAccess (b : nat) (l : list (nat * tset)) : tset :=
  match l with
  | [] => []
  | (c, d) :: r => if Nat.eqb b c then d else moduleAccess b r
  end.

Section Context.
(** The flags [accessmodule] and [accessfile]; [comments] is off if one of [nocomments] and [noaccess] is
    set (cscannerHelp.c 1288-1289, 1376-1377).  [base] gives the name of a file without directory and
    extension (fileTable.c: [fileTable_getNameBase]). *)
Variables accessmodule accessfile comments : bool.
Variable base : nat -> nat.

(** context.c 1457-1472: [context_addFileAccessType]. *)
Definition addFileAccessType (t : nat) (s : st) : st :=
  {| facct := tinsert t (facct s);
     acct := if inFunctionLike (kind s) then tinsert t (acct s) else acct s;
     nacct := nacct s;
     modules := insertModuleAccess (base (file s)) t (modules s);
     kind := kind s; savekind := savekind s; file := file s;
     types := types s; abstracts := abstracts s |}.

(** context.c 1475-1485: [context_removeFileAccessType]. *)
Definition removeFileAccessType (t : nat) (s : st) : st :=
  {| facct := tremove t (facct s);
     acct := if inRealFunction (kind s) then tremove t (acct s) else acct s;
     nacct := tinsert t (nacct s);
     modules := modules s;
     kind := kind s; savekind := savekind s; file := file s;
     types := types s; abstracts := abstracts s |}.

(** context.c 2160-2175: [context_hasAccess]. *)
Definition hasAccess (t : nat) (s : st) : bool :=
  if inFunctionLike (kind s) then mem t (acct s) else mem t (facct s).

(** context.c 2192-2205: [context_couldHaveAccess]. *)
Definition couldHaveAccess (t : nat) (s : st) : bool :=
  if inRealFunction (kind s) then mem t (acct s) else mem t (facct s).

(** context.c 3438-3491: [setModuleAccess], with the file that has just become the current one. *)
Definition setModuleAccess (f : nat) (s : st) : st :=
  let b := base f in
  let own := if accessfile then (if mem b (types s) then [b] else []) else [] in
  let all := if accessmodule then tunion own (moduleAccess b (modules s)) else own in
  {| facct := all; acct := all; nacct := [];
     modules := modules s;
     kind := kind s; savekind := savekind s; file := f;
     types := types s; abstracts := abstracts s |}.

(** context.c 4290-4337: [context_setFilename]: nothing if the file is the current one. *)
Definition setFilename (f : nat) (s : st) : st :=
  if Nat.eqb (file s) f then s else setModuleAccess f s.

Definition withTypes (ts abs : tset) (s : st) : st :=
  {| facct := facct s; acct := acct s; nacct := nacct s; modules := modules s; kind := kind s;
     savekind := savekind s; file := file s; types := ts; abstracts := abs |}.
Definition withContext (k : ckind) (sk : option ckind) (a : tset) (s : st) : st :=
  {| facct := facct s; acct := a; nacct := nacct s; modules := modules s; kind := k;
     savekind := sk; file := file s; types := types s; abstracts := abstracts s |}.

(** usymtab.c 1268-1293: [usymtab_supAbstractTypeEntry]. *)
Definition supAbstract (t : nat) (s : st) : st :=
  let s1 := withTypes (tinsert t (types s)) (tinsert t (abstracts s)) s in
  if accessmodule then addFileAccessType t s1 else s1.

(** context.c 1879-1888: the access of a function that is entered.  [uentry_hasAccessType]: the set is
    not empty. *)
Definition functionAccess (a : tset) (s : st) : tset :=
  match a with
  | [] => facct s
  | _ => subtract (tunion (facct s) a) (nacct s)
  end.

(** context.c 1868-1898, 1566-1578, 1822-1838, 4339-4350: entering something with a body. *)
Definition enter (k : ckind) (a : tset) (s : st) : st :=
  match k with
  | KGlobal | KFcnDecl => s
  | KFunction | KMacroFcn | KUnknownMacro | KIterEnd => withContext k (savekind s) (functionAccess a s) s
  | KMacroConst => withContext k (savekind s) (subtract (tunion (facct s) a) (nacct s)) s
  | KIterDef => withContext k (savekind s) (subtract (facct s) (nacct s)) s
  end.

(** context.c 2510-2572: [context_exitFunction]. *)
Definition exitFunction (s : st) : st :=
  match kind s with
  | KGlobal | KFcnDecl => s
  | _ => withContext KGlobal (savekind s) (facct s) s
  end.

(** context.c 1523-1555, called at uentry.c 1192-1201 and 1286-1289. *)
Definition enterDecl (s : st) : st :=
  if inFunctionLike (kind s) then s else withContext KFcnDecl (Some (kind s)) (acct s) s.
Definition exitDecl (s : st) : st :=
  match kind s, savekind s with
  | KFcnDecl, Some k => withContext k None (acct s) s
  | _, _ => s
  end.

(** cscannerHelp.c 1288-1330: [access] for one name. *)
Definition accessComment (t : nat) (s : st) : st * list amsg :=
  if comments then
    if mem t (types s) then
      if mem t (abstracts s) then (addFileAccessType t s, []) else (s, [MNonAbstract t])
    else (s, [MUnrecognized t])
  else (s, []).

(** cscannerHelp.c 1376-1421: [noaccess] for one name. *)
Definition noaccessComment (t : nat) (s : st) : st * list amsg :=
  if comments then
    if mem t (types s) then
      if couldHaveAccess t s then (removeFileAccessType t s, [])
      else (s, [if mem t (abstracts s) then MNonAccessible t else MNonAbstract t])
    else (s, [MUnrecognized t])
  else (s, []).

(** context.c 3601-3647: [context_exitCFile]; it is fatal if the file ends within a function (3603-3607). *)
Definition exitCFile (s : st) : option st :=
  match kind s with
  | KGlobal =>
      Some {| facct := facct s; acct := acct s; nacct := []; modules := modules s; kind := kind s;
              savekind := savekind s; file := file s; types := types s; abstracts := abstracts s |}
  | _ => None
  end.

Definition step (s : st) (e : event) : option (st * list amsg) :=
  match e with
  | EFile f => Some (setModuleAccess f s, [])
  | ELine f => Some (setFilename f s, [])
  | EAbstract t => Some (supAbstract t s, [])
  | EConcrete t => Some (withTypes (tinsert t (types s)) (abstracts s) s, [])
  | EAccess t => Some (accessComment t s)
  | ENoAccess t => Some (noaccessComment t s)
  | EEnter k a => Some (enter k a s, [])
  | EExit => Some (exitFunction s, [])
  | EDecl => Some (enterDecl s, [])
  | EEndDecl => Some (exitDecl s, [])
  | EEnd => match exitCFile s with Some s' => Some (s', []) | None => None end
  end.

(** [None] if a fatal error ends the run. *)
Fixpoint run (s : st) (l : list event) : option (st * list amsg) :=
  match l with
  | [] => Some (s, [])
  | e :: r =>
      match step s e with
      | Some (s', m) =>
          match run s' r with
          | Some (s'', m') => Some (s'', m ++ m')
          | None => None
          end
      | None => None
      end
  end.
End Context.

(** context.c 3060-3080 and the start of the first file [f]: nothing is accessible. *)
Definition init (f : nat) : st :=
  {| facct := []; acct := []; nacct := []; modules := []; kind := KGlobal; savekind := None; file := f;
     types := []; abstracts := [] |}.

(** ** The names in a comment *)
(** cscannerHelp.c 1268: blanks, tabs and newlines. *)
Definition isGap (c : ascii) : bool :=
  Ascii.eqb c " " || Ascii.eqb c (ascii_of_nat 9) || Ascii.eqb c (ascii_of_nat 10).
Fixpoint skipGap (s : list ascii) : list ascii :=
  match s with [] => [] | c :: r => if isGap c then skipGap r else s end.

(** cscannerHelp.c 1280-1284: up to a blank, tab, newline or comma. *)
Fixpoint takeName (s : list ascii) : list ascii * list ascii :=
  match s with
  | [] => ([], [])
  | c :: r => if isGap c || Ascii.eqb c "," then ([], s)
              else let (n, q) := takeName r in (c :: n, q)
  end.

(** cscannerHelp.c 1266-1342 and 1352-1435: the loop; [None] if [fuel] does not suffice. *)
Fixpoint namesOf (fuel : nat) (s : list ascii) : option (list (list ascii)) :=
  match fuel with
  | O => None
  | S n =>
      match skipGap s with
      | [] => Some []
      | s1 =>
          let (name, rest) := takeName s1 in
          match rest with
          | [] => Some [name]
          | c :: r =>
              if Ascii.eqb c "," || Ascii.eqb c " " then
                match namesOf n r with Some l => Some (name :: l) | None => None end
              else Some [name]
          end
      end
  end.

(** ** Casts *)
(** Types: [void], unknown types, the other types of the language (arithmetic types, structures),
    pointers, arrays, names. *)
Inductive ty := TVoid | TUnknown | TOther (n : nat) | TPtr (t : ty) | TArr (t : ty) | TName (n : nat).
Inductive tkind := Concrete | Abstract | NumAbstract.

Inductive cmsg :=
| CToPtr | CFromPtr           (* Cast to, from underlying abstract type: 5082-5128 *)
| CToVoid | CFromVoid         (* the same with void pointers: reported unless voidabstract is set *)
| CRedundant | CFrom | CTo    (* 5136-5190 *)
| CNumLit | CNum.             (* numabstractcast, numabstract *)

Section Casts.
(** The definitions of type names, and the types the present context has access to ([context_hasAccess]).
    [matches] is [ctype_match], [equal] is [ctype_equal]. *)
Variable kindOf : nat -> tkind.
Variable body : nat -> ty.
Variable access : nat -> bool.
Variable matches equal : ty -> ty -> bool.
(** The flags [zeroptr] and [voidabstract]. *)
Variables zeroptr voidabstract : bool.

Definition isAbstractName (n : nat) : bool :=
  match kindOf n with Concrete => false | _ => true end.

(** uentry.c 6447-6514: [uentry_getRealType]; ctype.c 180-203: [ctype_realType].  [None] if [fuel] does
    not suffice (a type that is defined by itself is an internal error, 6488-6494). *)
Fixpoint realType (fuel : nat) (t : ty) : option ty :=
  match t with
  | TName n =>
      if isAbstractName n && negb (access n) then Some t
      else match fuel with O => None | S k => realType k (body n) end
  | _ => Some t
  end.

(** ctype.c 2012-2070: [ctype_getBaseType]. *)
Fixpoint getBaseType (t : ty) : ty :=
  match t with TPtr u => getBaseType u | TArr u => getBaseType u | _ => t end.

(** ctype.c 261-268: [ctype_isAbstract]; 271-278: [ctype_isNumAbstract]. *)
Definition isAbstract (t : ty) : bool := match t with TName n => isAbstractName n | _ => false end.
Definition isNumAbstract (t : ty) : bool :=
  match t with TName n => match kindOf n with NumAbstract => true | _ => false end | _ => false end.
(** ctype.c 1878-1881. *)
Definition isAP (t : ty) : bool := match t with TPtr _ | TArr _ => true | _ => false end.

(** [context_hasAccess (ctype_typeId (t))]. *)
Definition tyAccess (t : ty) : bool := match t with TName n => access n | _ => false end.

(** ctype.c 1798-1815: [ctype_isVoidPointer], for the real type [r] of the type. *)
Definition isVoidPtr (r : ty) : bool := match r with TPtr TVoid => true | _ => false end.
Definition isUnknown (t : ty) : bool := match t with TUnknown => true | _ => false end.
Definition isVoid (t : ty) : bool := match t with TVoid => true | _ => false end.

(** exprNode.c 5050-5215: the messages about the cast of an expression of type [t] to [c]; [zero]:
    [exprNode_isZero]; [numlit]: [exprNode_isNumLiteral]. *)
Definition castMsgs (fuel : nat) (c t : ty) (zero numlit : bool) : option (list cmsg) :=
  if isVoid c then Some [] else
  match realType fuel c, realType fuel t,
        realType fuel (getBaseType c), realType fuel (getBaseType t) with
  | Some rc, Some rt, Some rbc, Some rbt =>
      if isAP rc then
        let bc := getBaseType c in
        let bt := getBaseType t in
        if zero && zeroptr && negb (isAbstract rbc && tyAccess bc) then Some []
        else
          Some ((if isAbstract rbc && negb (tyAccess bc) then
                   if isVoidPtr rt || isUnknown t
                   then (if voidabstract then [] else [CToVoid]) else [CToPtr]
                 else [])
                ++ (if isAbstract rbt && negb (tyAccess bt) then
                      if isUnknown c || isVoidPtr rc
                      then (if voidabstract then [] else [CFromVoid]) else [CFromPtr]
                    else []))
      else
        Some ((if isAbstract rbt && negb (tyAccess rbt) then
                 if matches c t then (if equal c t then [CRedundant] else []) else [CFrom]
               else [])
              ++ (if isAbstract rbc && negb (tyAccess rbc) then
                    if matches c t then []
                    else if isNumAbstract rbc then (if numlit then [CNumLit] else [CNum]) else [CTo]
                  else []))
  | _, _, _, _ => None
  end.
End Casts.
