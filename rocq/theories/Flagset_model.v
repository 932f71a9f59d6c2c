(** Model of the flag and value settings: src/context.c [context_setFlagAux] 3883–4255,
    [context_setValue] 2799–2845, [context_setValueAndFlag] 2849–2854, [context_resetModeFlags]
    672–682, [context_resetAllFlags] 706–930, [context_setModeAux] 972–1390, [context_userSetFlag]
    3715–3817, [context_fileSetFlag] 3820–3840, [context_restoreFlag] 3843–3861,
    [context_saveFlagSettings], [context_restoreFlagSettings] 4276–4288, end of [context_exitCFile]
    3637–3641; src/flags.c [flags_setValueFlag] 1295–1350; src/cstring.c [cstring_toPosInt] 93–110;
    the flag part of src/cscannerHelp.c 962–1115.

    Simplified: the C arrays indexed by flag code are functions of the code, and the value array
    (indexed through [flagcode_valueIndex], an injection on the fifteen value flags) is a function
    of the flag code too.  Warnings, the debugging variables of the parsers, the output streams,
    [gc.anyExports], [gc.library] and string values are left out, and so are the flag markers
    (Mark_model.v).  Codes are those of the table; see Args_model.v for others. *)
From Verif Require Import Cbase Flagtab_model.

Record ctx := Ctx {
  flags : Z -> bool;          (* gc.flags *)
  saveflags : Z -> bool;      (* gc.saveflags *)
  savedFlags : bool;          (* gc.savedFlags *)
  setGlobally : Z -> bool;
  setLocally : Z -> bool;
  values : Z -> Z }.          (* gc.values *)

Definition upd {A} (m : Z -> A) (k : Z) (v : A) : Z -> A := fun x => if x =? k then v else m x.

(** flags.c [flagcode_isIdemFlag], [flagcode_isModeFlag], [flagcode_isGlobalFlag], argument types. *)
Definition entry (f : Z) : option fflag := List.find (fun e => fcode e =? f) flag_table.
Definition has (p : fflag -> bool) (f : Z) : bool := match entry f with Some e => p e | None => false end.
Definition is_number (e : fflag) : bool := match argtype e with ARG_NUMBER => true | _ => false end.
Definition is_char (e : fflag) : bool := match argtype e with ARG_CHAR => true | _ => false end.

Definition MINLINELEN : Z := 20.                            (* constants.h 82 *)

(** context.c 2799–2845: the values afterwards. *)
Definition set_value (vals : Z -> Z) (f val : Z) : Z -> Z :=
  if f =? FLG_LINELEN then
    if val <=? 0 then vals
    else if val <? MINLINELEN then upd vals f MINLINELEN
    else upd vals f val
  else if existsb (Z.eqb f) [FLG_INCLUDENEST; FLG_CONTROLNESTDEPTH; FLG_STRINGLITERALLEN;
                             FLG_NUMSTRUCTFIELDS; FLG_NUMENUMMEMBERS; FLG_INDENTSPACES] then
    if val <? 0 then vals else upd vals f val
  else upd vals f val.
Definition setv (c : ctx) (f val : Z) : ctx :=
  Ctx (flags c) (saveflags c) (savedFlags c) (setGlobally c) (setLocally c) (set_value (values c) f val).

(** [DOSET], context.c 3876–3880. *)
Definition doset (inFile : bool) (c : ctx) (f : Z) (b : bool) : ctx :=
  Ctx (upd (flags c) f b) (saveflags c) (savedFlags c) (setGlobally c)
      (if inFile then upd (setLocally c) f true else setLocally c) (values c).
Definition dosets (inFile : bool) (c : ctx) (b : bool) (l : list Z) : ctx :=
  fold_left (fun c f => doset inFile c f b) l c.

(** The risk levels, context.c 3901–3945: what a level drags along. *)
Definition its4_on (f : Z) : list Z :=
  if f =? FLG_ITS4MOSTRISKY then [FLG_ITS4VERYRISKY; FLG_ITS4RISKY; FLG_ITS4MODERATERISK; FLG_ITS4LOWRISK]
  else if f =? FLG_ITS4VERYRISKY then [FLG_ITS4RISKY; FLG_ITS4MODERATERISK; FLG_ITS4LOWRISK]
  else if f =? FLG_ITS4RISKY then [FLG_ITS4MODERATERISK; FLG_ITS4LOWRISK]
  else if f =? FLG_ITS4MODERATERISK then [FLG_ITS4LOWRISK]
  else [].
Definition its4_off (f : Z) : list Z :=
  if f =? FLG_ITS4LOWRISK then [FLG_ITS4MODERATERISK; FLG_ITS4RISKY; FLG_ITS4VERYRISKY; FLG_ITS4MOSTRISKY]
  else if f =? FLG_ITS4MODERATERISK then [FLG_ITS4RISKY; FLG_ITS4VERYRISKY; FLG_ITS4MOSTRISKY]
  else if f =? FLG_ITS4RISKY then [FLG_ITS4VERYRISKY; FLG_ITS4MOSTRISKY]
  else if f =? FLG_ITS4VERYRISKY then [FLG_ITS4MOSTRISKY]
  else [].

(** The cases of the switch which set a list of flags to the same value, context.c 3967–4243. *)
Definition groups : list (Z * list Z) := [
  (FLG_ALLEMPTY, [FLG_ALLEMPTY; FLG_IFEMPTY; FLG_WHILEEMPTY; FLG_FOREMPTY]); (* 3967–3972 *)
  (FLG_PREDBOOL, [FLG_PREDBOOL; FLG_PREDBOOLINT; FLG_PREDBOOLPTR; FLG_PREDBOOLOTHERS]); (* 3973–3978 *)
  (FLG_GLOBALIAS, [FLG_CHECKSTRICTGLOBALIAS; FLG_CHECKEDGLOBALIAS; FLG_CHECKMODGLOBALIAS; FLG_UNCHECKEDGLOBALIAS]); (* 3979–3984 *)
  (FLG_ALLBLOCK, [FLG_ALLBLOCK; FLG_IFBLOCK; FLG_WHILEBLOCK; FLG_FORBLOCK]); (* 3985–3990 *)
  (FLG_GRAMMAR, [FLG_GRAMMAR]); (* 3991–4004 *)
  (FLG_CODEIMPONLY, [FLG_CODEIMPONLY; FLG_GLOBIMPONLY; FLG_RETIMPONLY; FLG_STRUCTIMPONLY]); (* 4005–4010 *)
  (FLG_SPECALLIMPONLY, [FLG_SPECALLIMPONLY; FLG_SPECGLOBIMPONLY; FLG_SPECRETIMPONLY; FLG_SPECSTRUCTIMPONLY]); (* 4011–4016 *)
  (FLG_ALLIMPONLY, [FLG_ALLIMPONLY; FLG_GLOBIMPONLY; FLG_RETIMPONLY; FLG_STRUCTIMPONLY; FLG_SPECGLOBIMPONLY;
     FLG_SPECRETIMPONLY; FLG_SPECSTRUCTIMPONLY]); (* 4017–4025 *)
  (FLG_ANSI89LIMITS, [FLG_ANSI89LIMITS; FLG_CONTROLNESTDEPTH; FLG_STRINGLITERALLEN; FLG_INCLUDENEST; FLG_NUMSTRUCTFIELDS;
     FLG_NUMENUMMEMBERS]); (* 4026–4044 *)
  (FLG_ISO99LIMITS, [FLG_ISO99LIMITS; FLG_CONTROLNESTDEPTH; FLG_STRINGLITERALLEN; FLG_INCLUDENEST; FLG_NUMSTRUCTFIELDS;
     FLG_NUMENUMMEMBERS]); (* 4045–4063 *)
  (FLG_MODUNSPEC, [FLG_MODNOMODS; FLG_MODGLOBSUNSPEC; FLG_MODSTRICTGLOBSUNSPEC]); (* 4099–4103 *)
  (FLG_EXPORTANY, [FLG_EXPORTVAR; FLG_EXPORTFCN; FLG_EXPORTTYPE; FLG_EXPORTMACRO; FLG_EXPORTCONST]); (* 4104–4111 *)
  (FLG_REPEXPOSE, [FLG_RETEXPOSE; FLG_ASSIGNEXPOSE; FLG_CASTEXPOSE]); (* 4112–4116 *)
  (FLG_RETVAL, [FLG_RETVALBOOL; FLG_RETVALINT; FLG_RETVALOTHER]); (* 4117–4121 *)
  (FLG_DEEPBREAK, [FLG_LOOPLOOPBREAK; FLG_LOOPSWITCHBREAK; FLG_SWITCHLOOPBREAK; FLG_SWITCHSWITCHBREAK;
     FLG_LOOPLOOPCONTINUE; FLG_DEEPBREAK]); (* 4131–4138 *)
  (FLG_LOOPEXEC, [FLG_FORLOOPEXEC; FLG_WHILELOOPEXEC; FLG_ITERLOOPEXEC]); (* 4139–4143 *)
  (FLG_ACCESSALL, [FLG_ACCESSMODULE; FLG_ACCESSFILE; FLG_ACCESSCZECH]); (* 4144–4148 *)
  (FLG_ALLMACROS, [FLG_ALLMACROS; FLG_FCNMACROS; FLG_CONSTMACROS]); (* 4149–4153 *)
  (FLG_BOUNDS, [FLG_BOUNDSREAD; FLG_BOUNDSWRITE; FLG_LIKELYBOUNDSREAD; FLG_LIKELYBOUNDSWRITE]); (* 4154–4159 *)
  (FLG_BOUNDSREAD, [FLG_LIKELYBOUNDSREAD]); (* 4160–4162 *)
  (FLG_BOUNDSWRITE, [FLG_LIKELYBOUNDSWRITE]); (* 4163–4165 *)
  (FLG_LIKELYBOUNDS, [FLG_LIKELYBOUNDSREAD; FLG_LIKELYBOUNDSWRITE]); (* 4166–4170 *)
  (FLG_NULL, [FLG_NULLSTATE; FLG_NULLDEREF; FLG_NULLASSIGN; FLG_NULLPASS; FLG_NULLRET]); (* 4192–4198 *)
  (FLG_MUSTFREE, [FLG_MUSTFREEONLY; FLG_MUSTFREEFRESH]); (* 4199–4202 *)
  (FLG_MEMCHECKS, [FLG_NULLSTATE; FLG_NULLDEREF; FLG_NULLASSIGN; FLG_NULLPASS; FLG_NULLRET; FLG_COMPDEF; FLG_COMPMEMPASS;
     FLG_UNIONDEF; FLG_MEMTRANS; FLG_USERELEASED; FLG_ALIASUNIQUE; FLG_MAYALIASUNIQUE; FLG_MUSTFREEONLY;
     FLG_MUSTFREEFRESH; FLG_MUSTDEFINE; FLG_GLOBSTATE; FLG_COMPDESTROY; FLG_MUSTNOTALIAS; FLG_MEMIMPLICIT;
     FLG_BRANCHSTATE; FLG_MEMTRANS; FLG_EXPOSETRANS; FLG_OBSERVERTRANS; FLG_DEPENDENTTRANS; FLG_NEWREFTRANS;
     FLG_ONLYTRANS; FLG_OWNEDTRANS; FLG_FRESHTRANS; FLG_SHAREDTRANS; FLG_TEMPTRANS; FLG_KEPTTRANS;
     FLG_REFCOUNTTRANS; FLG_STATICTRANS; FLG_UNKNOWNTRANS; FLG_KEEPTRANS; FLG_IMMEDIATETRANS]); (* 4203–4224 *)
  (FLG_MEMTRANS, [FLG_MEMTRANS; FLG_EXPOSETRANS; FLG_OBSERVERTRANS; FLG_DEPENDENTTRANS; FLG_NEWREFTRANS; FLG_ONLYTRANS;
     FLG_OWNEDTRANS; FLG_FRESHTRANS; FLG_SHAREDTRANS; FLG_TEMPTRANS; FLG_KEPTTRANS; FLG_REFCOUNTTRANS;
     FLG_STATICTRANS; FLG_UNKNOWNTRANS; FLG_KEEPTRANS; FLG_IMMEDIATETRANS]) (* 4225–4243 *)
].
Definition group (f : Z) : list Z :=
  match List.find (fun g => fst g =? f) groups with Some g => snd g | None => [] end.

(** constants.h 132–176. *)
Definition ansi89_limits : list (Z * Z) := [
  (FLG_CONTROLNESTDEPTH, 15); (FLG_STRINGLITERALLEN, 509); (FLG_INCLUDENEST, 8); (FLG_NUMSTRUCTFIELDS, 127);
  (FLG_NUMENUMMEMBERS, 127); (FLG_EXTERNALNAMELEN, 6); (FLG_INTERNALNAMELEN, 31)].
Definition iso99_limits : list (Z * Z) := [
  (FLG_CONTROLNESTDEPTH, 63); (FLG_STRINGLITERALLEN, 4095); (FLG_INCLUDENEST, 63); (FLG_NUMSTRUCTFIELDS, 1023);
  (FLG_NUMENUMMEMBERS, 1023); (FLG_EXTERNALNAMELEN, 31); (FLG_INTERNALNAMELEN, 63)].
Definition set_limits (c : ctx) (l : list (Z * Z)) : ctx := fold_left (fun c p => setv c (fst p) (snd p)) l c.

(** context.c 4072–4098: [f] set, and names made distinct if they were not. *)
Definition names_case (inFile : bool) (c : ctx) (f : Z) (b : bool) (distinct len : Z) : ctx :=
  let c := doset inFile c f b in
  if b && negb (flags c distinct) then setv (doset inFile c distinct true) len 0 else c.

(** context.c 3947–4245. *)
Definition switch_case (inFile : bool) (c : ctx) (f : Z) (b : bool) : ctx :=
  if f =? FLG_ANSI89LIMITS then
    let c := dosets inFile c b (group f) in if b then set_limits c ansi89_limits else c
  else if f =? FLG_ISO99LIMITS then
    let c := dosets inFile c b (group f) in if b then set_limits c iso99_limits else c
  else if f =? FLG_EXTERNALNAMELEN then dosets inFile c true [FLG_DISTINCTEXTERNALNAMES; FLG_EXTERNALNAMELEN]
  else if f =? FLG_INTERNALNAMELEN then dosets inFile c true [FLG_DISTINCTINTERNALNAMES; FLG_INTERNALNAMELEN]
  else if f =? FLG_EXTERNALNAMECASEINSENSITIVE then names_case inFile c f b FLG_DISTINCTEXTERNALNAMES FLG_EXTERNALNAMELEN
  else if f =? FLG_INTERNALNAMECASEINSENSITIVE then names_case inFile c f b FLG_DISTINCTINTERNALNAMES FLG_INTERNALNAMELEN
  else if f =? FLG_INTERNALNAMELOOKALIKE then names_case inFile c f b FLG_DISTINCTINTERNALNAMES FLG_INTERNALNAMELEN
  else if f =? FLG_PARTIAL then
    if b then dosets inFile c false [FLG_EXPORTLOCAL; FLG_DECLUNDEF; FLG_SPECUNDEF; FLG_TOPUNUSED] else c
  else if f =? FLG_CZECH then
    dosets inFile (if b then doset inFile c FLG_ACCESSCZECH b else c) b
      [FLG_CZECHFUNCTIONS; FLG_CZECHVARS; FLG_CZECHCONSTANTS; FLG_CZECHTYPES]
  else if f =? FLG_SLOVAK then
    dosets inFile (if b then doset inFile c FLG_ACCESSSLOVAK b else c) b
      [FLG_SLOVAKFUNCTIONS; FLG_SLOVAKVARS; FLG_SLOVAKCONSTANTS; FLG_SLOVAKTYPES]
  else if f =? FLG_CZECHOSLOVAK then
    dosets inFile (if b then doset inFile c FLG_ACCESSCZECHOSLOVAK b else c) b
      [FLG_CZECHOSLOVAKFUNCTIONS; FLG_CZECHOSLOVAKVARS; FLG_CZECHOSLOVAKCONSTANTS; FLG_CZECHOSLOVAKTYPES]
  else dosets inFile c b (group f).

(** context.c 3883–4255. *)
Definition set_flag_aux (c : ctx) (f : Z) (b inFile : bool) : ctx :=
  let c := doset inFile c f (if has isIdem f then true else b) in
  let c := dosets inFile c b (if b then its4_on f else its4_off f) in
  switch_case inFile c f b.
(** context.c 3863–3867. *)
Definition set_flag (c : ctx) (f : Z) (b : bool) : ctx := set_flag_aux c f b false.

(** context.c 672–682. *)
Definition reset_mode_flags (c : ctx) : ctx :=
  fold_left (fun c e => if isModeFlag e then set_flag c (fcode e) false else c) flag_table c.
(** The modes, context.c 1026–1385; [SETFLAGS] 950–955 (all the flags listed are mode flags, so
    none is skipped; [Flagset_proofs] checks it). *)
Inductive mode := Weak | Standard | Checks | Strict.
Definition mode_flags (m : mode) : list Z :=
  match m with Weak => weak_flags | Standard => standard_flags | Checks => checks_flags | Strict => strict_flags end.
Definition set_flags (c : ctx) (l : list Z) : ctx :=
  fold_left (fun c f => if has isModeFlag f then set_flag c f true else c) l c.
(** [None]: a name which is no mode, context.c 1387–1390. *)
Definition set_mode (c : ctx) (m : option mode) : ctx :=
  let c := reset_mode_flags c in match m with Some m => set_flags c (mode_flags m) | None => c end.

(** context.c 3715–3817. *)
Definition user_set_flag (c : ctx) (f : Z) (b : bool) : ctx :=
  let off c := Ctx (upd (flags c) FLG_EXPORTHEADER false) (saveflags c) (savedFlags c) (setGlobally c) (setLocally c) (values c) in
  let set c := set_flag (Ctx (flags c) (saveflags c) (savedFlags c) (upd (setGlobally c) f true) (setLocally c) (values c)) f b in
  if (f =? FLG_NEVERINCLUDE) && b then
    set (if flags c FLG_EXPORTHEADER then off c else c)
  else if (f =? FLG_EXPORTHEADER) && b && flags c FLG_NEVERINCLUDE then off c
  else set c.

(** context.c 4276–4288. *)
Definition save_settings (c : ctx) : ctx := Ctx (flags c) (flags c) true (setGlobally c) (setLocally c) (values c).
Definition restore_settings (c : ctx) : ctx := Ctx (saveflags c) (saveflags c) false (setGlobally c) (setLocally c) (values c).
(** context.c 3637–3641. *)
Definition exit_file (c : ctx) : ctx := if savedFlags c then restore_settings c else c.

Inductive ynm := NO | YES | MAYBE.
(** context.c 3843–3861. *)
Definition restore_flag (c : ctx) (f : Z) : ctx :=
  if savedFlags c then set_flag_aux c f (saveflags c f) false else c.
(** context.c 3820–3840. *)
Definition file_set_flag (c : ctx) (f : Z) (set : ynm) : ctx :=
  let c := if savedFlags c then c else save_settings c in
  match set with
  | NO => set_flag_aux c f false true
  | YES => let c := set_flag_aux c f true true in
           Ctx (flags c) (saveflags c) (savedFlags c) (setGlobally c) (upd (setLocally c) f true) (values c)
  | MAYBE => restore_flag c f
  end.

(** What a setting may lead to: [Undefined] for [int] overflow (cstring.c 101), [Fatal] when the
    program stops with a message (flags.c 1339). *)
Inductive outcome := Ok (c : ctx) | Undefined | Fatal.

(** cstring.c 93–110; [None] when the number does not fit an [int]. *)
Fixpoint pos_int (val : Z) (s : cstr) : option Z :=
  match s with
  | [] => Some val
  | c :: s => if is_digit c then
                let v := val * 10 + (code c - 48) in
                if v <=? INT_MAX then pos_int v s else None
              else Some (-1)
  end.
Definition to_pos_int (s : cstr) : option Z := pos_int 0 s.

(** A [char] as an [int] (signed, as on x86). *)
Definition char_int (c : ascii) : Z := if code c <? 128 then code c else code c - 256.

(** flags.c 1295–1350. *)
Definition set_value_flag (c : ctx) (f : Z) (arg : cstr) : outcome :=
  if f =? FLG_COMMENTCHAR then
    match arg with
    | [ch] => Ok (setv c f (char_int ch))
    | _ => Fatal
    end
  else
    match to_pos_int arg with
    | None => Undefined
    | Some val =>
        if val <? 0 then Ok c
        else Ok (setv (Ctx (upd (flags c) f true) (saveflags c) (savedFlags c) (setGlobally c) (setLocally c) (values c)) f val)
    end.

(** A flag in a semantic comment, cscannerHelp.c 985–1095: a mode name or a flag with the argument
    found after it, if any.  A string argument changes nothing kept here. *)
Inductive annot := AMode (m : option mode) (set : ynm) | AFlag (f : Z) (set : ynm) (arg : option cstr).
Definition process_annot (c : ctx) (a : annot) : outcome :=
  if flags c FLG_NOCOMMENTS then Ok c
  else match a with
       | AMode m MAYBE => Ok c
       | AMode m _ => Ok (set_mode c m)
       | AFlag f set arg =>
           if has isGlobal f then Ok c
           else
             let c := file_set_flag c f set in
             if has is_number f || has is_char f then
               match set, arg with
               | MAYBE, _ => Ok c
               | _, None => Ok c
               | _, Some s => set_value_flag c f s
               end
             else Ok c
       end.

(** What happens to the settings in a run of the program: an option with the number or character
    after it (flags.c 1813–1842), a mode option (1794), a semantic comment, the end of a file. *)
Inductive op := OFlag (f : Z) (b : bool) (arg : option cstr) | OMode (m : option mode) | OComment (a : annot) | OEndFile.
Definition apply (c : ctx) (o : op) : outcome :=
  match o with
  | OFlag f b arg =>
      let c := user_set_flag c f b in
      if has is_number f || has is_char f then
        match arg with Some s => set_value_flag c f s | None => Ok c end
      else Ok c
  | OMode m => Ok (set_mode c m)
  | OComment a => process_annot c a
  | OEndFile => Ok (exit_file c)
  end.
Fixpoint run (c : ctx) (l : list op) : outcome :=
  match l with
  | [] => Ok c
  | o :: l => match apply c o with Ok c => run c l | r => r end
  end.

(** Start of the program: context.c 706–930, 3126–3147. *)
Definition default_values : list (Z * Z) := [
  (FLG_LIMIT, -1); (FLG_BUGSLIMIT, 3); (FLG_LINELEN, 80); (FLG_INDENTSPACES, 3); (FLG_LOCINDENTSPACES, 3);
  (FLG_EXTERNALNAMELEN, 31); (FLG_INTERNALNAMELEN, 63); (FLG_CONTROLNESTDEPTH, 63); (FLG_STRINGLITERALLEN, 4095);
  (FLG_INCLUDENEST, 63); (FLG_NUMSTRUCTFIELDS, 1023); (FLG_NUMENUMMEMBERS, 1023); (FLG_EXPECT, 0); (FLG_LCLEXPECT, 0);
  (FLG_COMMENTCHAR, 64)].
Definition default_on : list Z := [
  FLG_STREAMOVERWRITE; FLG_OBVIOUSLOOPEXEC; FLG_MODIFIES; FLG_NESTCOMMENT; FLG_GLOBALS; FLG_FULLINITBLOCK;
  FLG_INITSIZE; FLG_INITALLELEMENTS; FLG_NULLINIT; FLG_STRINGLITTOOLONG; FLG_MACROCONSTDIST; FLG_LIKELYBOOL;
  FLG_ZEROPTR; FLG_NUMLITERAL; FLG_DUPLICATEQUALS; FLG_SKIPISOHEADERS; FLG_SYSTEMDIREXPAND;
  FLG_UNRECOGCOMMENTS; FLG_UNRECOGFLAGCOMMENTS; FLG_CASTFCNPTR; FLG_DOLCS; FLG_USEVARARGS; FLG_MAINTYPE;
  FLG_SPECMACROS; FLG_REDEF; FLG_MACRONEXTLINE; FLG_SIZEOFFORMALARRAY; FLG_FIXEDFORMALARRAY;
  FLG_UNRECOGDIRECTIVE; FLG_WARNUSE; FLG_PREDASSIGN; FLG_MODOBSERVER; FLG_MACROVARPREFIXEXCLUDE;
  FLG_EXTERNALNAMECASEINSENSITIVE; FLG_PARAMIMPTEMP; FLG_RETIMPONLY; FLG_GLOBIMPONLY; FLG_STRUCTIMPONLY;
  FLG_PREPROC; FLG_NAMECHECKS; FLG_FORMATCODE; FLG_FORMATTYPE; FLG_BADFLAG; FLG_WARNFLAGS; FLG_WARNRC;
  FLG_FILEEXTENSIONS; FLG_WARNPOSIX; FLG_SHOWCOL; FLG_SHOWFUNC; FLG_SUPCOUNTS; FLG_HINTS; FLG_SYNTAX;
  FLG_TYPE; FLG_INCOMPLETETYPE; FLG_ABSTRACT; FLG_NUMABSTRACT; FLG_ITERBALANCE; FLG_ITERYIELD;
  FLG_DUPLICATECASES; FLG_ALWAYSEXITS; FLG_EMPTYRETURN; FLG_MACRORETURN; FLG_UNRECOG; FLG_SYSTEMUNRECOG;
  FLG_LINTCOMMENTS; FLG_ACCESSCZECH; FLG_ACCESSMODULE; FLG_ACCESSFILE; FLG_MACROVARPREFIX;
  FLG_ANNOTATIONERROR; FLG_COMMENTERROR; FLG_GNUEXTENSIONS; FLG_ORCONSTRAINT; FLG_CONSTRAINTLOCATION;
  FLG_WARNSYSFILES].
Definition reset_all (c : ctx) : ctx :=
  let c := Ctx (fun _ => false) (saveflags c) (savedFlags c) (setGlobally c) (setLocally c) (values c) in
  let c := fold_left (fun c p => setv c (fst p) (snd p)) default_values c in
  fold_left (fun c f => Ctx (upd (flags c) f true) (saveflags c) (savedFlags c) (setGlobally c) (setLocally c) (values c)) default_on c.
Definition init : ctx :=
  set_mode (reset_all (Ctx (fun _ => false) (fun _ => false) false (fun _ => false) (fun _ => false) (fun _ => 0))) (Some Standard).
