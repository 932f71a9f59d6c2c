(** Recording where a global name is used (uentry_setUsed, src/uentry.c 10686-10797; the lists of
    src/filelocList.c 73-175; fileloc_sameModule, src/fileloc.c 337-376), the messages about
    names that are exported but used in one module only (usymtab_exportLocal, src/usymtab.c
    3413-3467) and about names that are not used at all (usymtab_allUsed, 3469-3650).

    Simplified: global names only (no parameters or local variables, no fields); places are
    in files that are not libraries, or builtin or external; redefinitions keep the first place;
    the flags of the two kinds of messages are the same at all places; uses of a name that has
    not been declared yet belong to no entry and are dropped. *)
From Verif Require Import Cbase.
Open Scope nat_scope.

(** The name of a file; its base name is a parameter below. *)
Definition file := cstr.

(** fileloc kinds (src/Headers/fileloc.h 35-60): in a file, builtin, external. *)
Inductive floc := FUser (f : file) | FBuiltin | FExternal.
(** fileloc_undefined is [None]. *)
Definition loc := option floc.

(** Kinds of entries told apart by the two checks (src/usymtab.c 3423-3428, 3561-3625);
    [GVariable true] has the type of a function. *)
Inductive gkind :=
| GFunction | GVariable (fn : bool) | GConstant | GEnumMember | GType | GTag
| GIter | GEndIter | GExpandedMacro.

(** What is read and written of an entry (uentry). *)
Record ent := { declared : loc; defined : loc; used : bool; uses : list loc }.

(** showuses, exportlocal set anywhere (context_maybeSet), unusedspecial, exportlocal (at the
    declaration), and the flags of unused names. *)
Record uflags := { showuses : bool; track : bool; unusedspecial : bool; exportlocal : bool;
  funcunused : bool; enummemunused : bool; constunused : bool; typeunused : bool; varunused : bool }.

(** fileloc_isDefined. *)
Definition is_def (l : loc) : bool := match l with Some _ => true | None => false end.
(** The file id: invalid ([None]) for builtin and external places. *)
Definition fid (l : floc) : option file := match l with FUser f => Some f | _ => None end.
(** fileId_equal. *)
Definition fid_eqb (a b : option file) : bool :=
  match a, b with Some x, Some y => cstr_eqb x y | None, None => true | _, _ => false end.
(** fileloc_isBuiltin, fileloc_isExternal. *)
Definition is_special_kind (l : floc) : bool := match l with FUser _ => false | _ => true end.

(** src/filelocList.c 150-175 [filelocList_add]: an undefined place goes to the front, the first
    element to the end. *)
Definition add (s : list loc) (el : loc) : list loc :=
  match el, s with
  | Some _, _ => s ++ [el]
  | None, [] => [None]
  | None, x :: r => None :: r ++ [x]
  end.

(** src/filelocList.c 98-111 [filelocList_addUndefined]. *)
Definition addUndefined (s : list loc) : list loc :=
  match s with
  | [] => add s None
  | x :: _ => if is_def x then add s None else s
  end.

(** src/filelocList.c 113-118 [filelocList_hasUndefinedLoc]. *)
Definition hasUndefinedLoc (s : list loc) : bool :=
  match s with x :: _ => negb (is_def x) | [] => false end.

Section Uses.
(** fileloc_getBase: the base name that the file table has for a file. *)
Variable base : file -> cstr.
(** fileTable_isSpecialFile. *)
Variable special : file -> bool.
Variable fl : uflags.

(** src/fileloc.c 351-376 [fileloc_sameModule] with 337-349 [fileloc_sameFile]. *)
Definition sameModule (a b : loc) : bool :=
  match a, b with
  | None, None => true
  | None, Some _ | Some _, None => false
  | Some x, Some y =>
    if is_special_kind x || is_special_kind y then fid_eqb (fid x) (fid y)
    else match x, y with FUser f, FUser g => cstr_eqb (base f) (base g) | _, _ => false end
  end.

(** src/filelocList.c 120-148 [filelocList_addDifferentFile]. *)
Definition addDifferentFile (s : list loc) (where_ l : loc) : list loc :=
  if hasUndefinedLoc s || (2 <=? List.length s) then s
  else if sameModule where_ l then match s with [] => add s l | _ => s end
  else addUndefined s.

(** src/uentry.c 10768-10794, the end of [uentry_setUsed]. *)
Definition setUsed (l : loc) (macro : bool) (e : ent) : ent :=
  {| declared := declared e; defined := defined e; used := true;
     uses := if showuses fl then add (uses e) l
             else if track fl then
               if macro then addUndefined (uses e) else addDifferentFile (uses e) (declared e) l
             else uses e |}.

(** What happens to a name: a declaration (with the keyword extern or without), a definition, a
    use (in the text of a macro or not). *)
Inductive event := Decl (l : floc) (ext : bool) | Define (l : floc) | Use (l : floc) (macro : bool).

(** src/uentry.c 6140-6164 [uentry_setDeclared], 6174-6184 [uentry_setDefined]: the first
    place is kept. *)
Definition keep (old : loc) (l : floc) : loc := match old with Some _ => old | None => Some l end.

(** A new entry has the place of its declaration; a later declaration is merged
    (uentry_mergeDefinition, src/uentry.c 9608-9706): with extern it counts as a use (9664-9667). *)
Definition step (st : option ent) (ev : event) : option ent :=
  match ev, st with
  | Decl l _, None => Some {| declared := Some l; defined := None; used := false; uses := [] |}
  | Decl l ext, Some e =>
    let e := if ext then setUsed (Some l) false e else e in
    Some {| declared := keep (declared e) l; defined := defined e; used := used e; uses := uses e |}
  | Define l, None => Some {| declared := Some l; defined := Some l; used := false; uses := [] |}
  | Define l, Some e =>
    Some {| declared := keep (declared e) l; defined := keep (defined e) l; used := used e; uses := uses e |}
  | Use _ _, None => None
  | Use l m, Some e => Some (setUsed (Some l) m e)
  end.

Definition run (h : list event) : option ent := fold_left step h None.

(** src/fileloc.c 853-864 [fileloc_isSpecialFile]. *)
Definition isSpecialFile (l : loc) : bool :=
  match l with Some (FUser f) => special f | _ => false end.

(** src/usymtab.c 3438-3450: the loop over the recorded uses. *)
Fixpoint use_outside (mod_ : loc) (us : list loc) : bool :=
  match us with
  | [] => false
  | u :: r => if negb (is_def u) || negb (sameModule u mod_) then true else use_outside mod_ r
  end.

(** src/usymtab.c 3423-3428. *)
Definition exportable (k : gkind) : bool :=
  match k with GFunction | GVariable _ => true | _ => false end.

(** src/usymtab.c 3413-3467 [usymtab_exportLocal] for one entry: TRUE if the message is given. *)
Definition exportLocal (k : gkind) (e : ent) : bool :=
  if exportable k && used e then
    let ok := match uses e with [] => true | _ => false end in
    let ok := if isSpecialFile (declared e) && negb (unusedspecial fl) then true
              else ok || use_outside (defined e) (uses e) in
    negb ok && exportlocal fl
  else false.

(** The flag of the message for a name that is not used (src/usymtab.c 3561-3645). *)
Inductive umsg := UFunc | UEnumMem | UConst | UType | UVar.
Definition unused_flag (k : gkind) : option umsg :=
  match k with
  | GFunction | GIter | GVariable true => Some UFunc
  | GEnumMember => Some UEnumMem
  | GConstant => Some UConst
  | GType => Some UType
  | GVariable false => Some UVar
  | GEndIter | GExpandedMacro | GTag => None
  end.
Definition flag_on (m : umsg) : bool :=
  match m with
  | UFunc => funcunused fl | UEnumMem => enummemunused fl | UConst => constunused fl
  | UType => typeunused fl | UVar => varunused fl
  end.

(** src/usymtab.c 3469-3650 [usymtab_allUsed] for one entry. *)
Definition allUsed (k : gkind) (e : ent) : option umsg :=
  let fwhere := match declared e with None => defined e | l => l end in
  match fwhere with
  | None | Some FBuiltin => None
  | Some l =>
    if (isSpecialFile fwhere || isSpecialFile (defined e)) && negb (unusedspecial fl) then None
    else if used e then None
    else match unused_flag k with
         | Some m => match l with FUser _ => if flag_on m then Some m else None | _ => None end
         | None => None
         end
  end.

(** Both messages for a name with a history (src/llmain.c 912-927). *)
Definition export_msg (k : gkind) (h : list event) : bool :=
  match run h with Some e => exportLocal k e | None => false end.
Definition unused_msg (k : gkind) (h : list event) : option umsg :=
  match run h with Some e => allUsed k e | None => None end.
End Uses.
