(** Model of the checks of names, src/nameChecks.c 58–71, 79–430 (name space prefixes), 1135–1173
    (C++ words), 1175–1505 (names reserved by the standard), 1507–1556 (names of parameters of
    declarations), src/Headers/constants.h 181–203, and src/uentry.c 2890–2942, 5554–5600,
    8544–8590.

    Names are sequences of ASCII characters (the scanner accepts letters, digits, '_' and '$',
    src/cscanner.l 59), so isupper etc. are called with defined arguments. A prefix flag is on
    exactly when it has a string: setting it, with + or -, turns it on (src/context.c 3892,
    src/flags.def 2463 [idemStringFlag]) and gives it its argument. Each message is represented
    by the flag that controls it and its kind; +namechecks is on, nothing is suppressed by
    comments, and the location of the name is not in a system file
    (src/nameChecks.c 1224–1227). *)
From Verif Require Import Cbase Bsearch_model.
Open Scope nat_scope.

(** isupper, islower, isdigit, isalpha in the C locale. *)
Definition isupper (c : ascii) : bool := ((65 <=? code c) && (code c <=? 90))%Z.
Definition islower (c : ascii) : bool := ((97 <=? code c) && (code c <=? 122))%Z.
Definition isalpha (c : ascii) : bool := isupper c || islower c.

Notation "x =c y" := (Ascii.eqb x y) (at level 70).

(** src/nameChecks.c 79–108 [matchPrefixChar]; the codes are those of
    src/Headers/constants.h 181–203. *)
Definition matchPrefixChar (nc pc : ascii) : bool :=
  if nc =c pc then true
  else if pc =c "^"%char then isupper nc
  else if pc =c "&"%char then islower nc
  else if pc =c "?"%char then true
  else if pc =c "#"%char then is_digit nc
  else if pc =c "%"%char then negb (isupper nc)
  else if pc =c "~"%char then negb (islower nc)
  else if pc =c "$"%char then isalpha nc
  else if pc =c "/"%char then is_digit nc || isalpha nc
  else false.

(** src/cstring.c 52–60 [cstring_getChar], [n] counted from 1, within the string. *)
Definition getChar (s : cstr) (n : nat) : ascii := nth (n - 1) s "000"%char.

(** src/nameChecks.c 132–143: the loop over the rest of the name after a star;
    [k] is the number of rounds at most. *)
Fixpoint restMatches (k : nat) (name : cstr) (n : nat) (last : ascii) : bool :=
  match k with
  | O => true
  | S k' =>
      if n <=? List.length name then
        if matchPrefixChar (getChar name n) last then restMatches k' name (S n) last else false
      else true
  end.

(** src/nameChecks.c 124–170: the loop over the characters of the prefix. *)
Fixpoint prefixLoop (name prefix rest : cstr) (last : ascii) (n : nat) : bool :=
  match rest with
  | [] => true
  | pc :: rest' =>
      if pc =c "*"%char then restMatches (List.length name) name (S n) last
      else if List.length name <? n then
             (1 <? List.length name) && (n + 1 <=? List.length prefix)
             && (getChar prefix (n + 1) =c "*"%char)
      else if matchPrefixChar (getChar name n) pc
           then prefixLoop name prefix rest' pc (S n)
           else false
  end.

(** src/nameChecks.c 110–173 [matchPrefix]; the name is defined. *)
Definition matchPrefix (name : cstr) (prefix : option cstr) : bool :=
  match prefix with
  | None => true
  | Some p => prefixLoop name p p "000"%char 1
  end.

(** The name spaces with a prefix flag (src/flags.def 2463–2635). *)
Inductive space := MACROVAR | TAG | ENUM | FILESTATIC | GLOB | TYPE | EXTERNAL
                 | UNCHECKEDMACRO | LOCAL | CONST | ITER.
Definition space_eqb (a b : space) : bool :=
  match a, b with
  | MACROVAR, MACROVAR | TAG, TAG | ENUM, ENUM | FILESTATIC, FILESTATIC | GLOB, GLOB
  | TYPE, TYPE | EXTERNAL, EXTERNAL | UNCHECKEDMACRO, UNCHECKEDMACRO | LOCAL, LOCAL
  | CONST, CONST | ITER, ITER => true
  | _, _ => false
  end.

(** src/nameChecks.c 58–71 [excludeCodes]. *)
Definition excludeCodes : list space :=
  [MACROVAR; TAG; ENUM; FILESTATIC; GLOB; TYPE; EXTERNAL; UNCHECKEDMACRO; LOCAL].

(** Kinds of variables, src/Headers/uentry.h (vkind). *)
Inductive vkind := VKSPEC | VKNORMAL | VKPARAM | VKYIELDPARAM | VKREFYIELDPARAM | VKRETPARAM
  | VKREFPARAM | VKSEFPARAM | VKREFSEFPARAM | VKSEFRETPARAM | VKREFSEFRETPARAM | VKEXPMACRO.
(** Where the storage of a variable is: global, of the file, within a function. *)
Inductive vscope := AtGlobal | AtFile | InBlock.
Inductive ekind :=
| KVar (k : vkind) (s : vscope) | KFun | KConst | KEnumConst | KDatatype | KTag | KIter.

Record uentry := { ekind_of : ekind; isStatic : bool; realName : cstr }.

(** src/uentry.c 5565–5569, 4058–4064, src/Headers/uentry.h 215–217 *)
Definition isExpandedMacro (u : uentry) : bool :=
  match ekind_of u with KVar VKEXPMACRO _ => true | _ => false end.
Definition isAnyTag (u : uentry) : bool :=
  match ekind_of u with KTag => true | _ => false end.
Definition isEnumConstant (u : uentry) : bool :=
  match ekind_of u with KEnumConst => true | _ => false end.
(** src/uentry.c 5489–5495: includes tags. *)
Definition isDatatype (u : uentry) : bool :=
  match ekind_of u with KDatatype | KTag => true | _ => false end.
Definition isVariable (u : uentry) : bool :=
  match ekind_of u with KVar _ _ => true | _ => false end.
Definition isConstant (u : uentry) : bool :=
  match ekind_of u with KConst => true | _ => false end.
Definition isIter (u : uentry) : bool :=
  match ekind_of u with KIter => true | _ => false end.
Definition isFunction (u : uentry) : bool :=
  match ekind_of u with KFun => true | _ => false end.
(** src/uentry.c 2890–2896 *)
Definition isFileStatic (u : uentry) : bool :=
  isStatic u &&
  (negb (isVariable u) || match ekind_of u with KVar _ AtFile => true | _ => false end).
(** src/uentry.c 2923–2928 *)
Definition isGlobalVariable (u : uentry) : bool :=
  match ekind_of u with KVar _ AtGlobal | KVar _ AtFile => true | _ => false end.
Definition isRealGlobal (u : uentry) : bool :=
  match ekind_of u with KVar _ AtGlobal => true | _ => false end.
(** src/uentry.c 2898–2914 *)
Definition isExported (u : uentry) : bool :=
  if isVariable u then isRealGlobal u else negb (isStatic u).
(** src/uentry.c 2930–2942; the marker of the end of an iterator is not modelled. *)
Definition isVisibleExternally (u : uentry) : bool :=
  (isVariable u && isRealGlobal u)
  || (negb (isStatic u)
      && (isFunction u || isIter u || isConstant u || isDatatype u || isAnyTag u)).
(** src/uentry.c 5581–5600, 3385–3391 *)
Definition isRefParam (u : uentry) : bool :=
  match ekind_of u with
  | KVar (VKREFPARAM | VKREFYIELDPARAM | VKREFSEFPARAM | VKREFSEFRETPARAM) _ => true
  | _ => false end.
Definition isAnyParam (u : uentry) : bool :=
  match ekind_of u with
  | KVar (VKPARAM | VKSEFPARAM | VKYIELDPARAM | VKRETPARAM | VKSEFRETPARAM) _ => true
  | _ => false end.
Definition isYield (u : uentry) : bool :=
  match ekind_of u with KVar (VKYIELDPARAM | VKREFYIELDPARAM) _ => true | _ => false end.

(** The settings: the string of each prefix flag and whether its exclude flag is on. *)
Record settings := { str : space -> option cstr; excl : space -> bool }.
(** context_getFlag of a prefix flag (see above). *)
Definition on (s : settings) (x : space) : bool :=
  match str s x with Some _ => true | None => false end.

(** src/nameChecks.c 248–318: the name space of an entry; [None]: nothing is checked. *)
Definition chooseSpace (inMacro : bool) (u : uentry) : option space :=
  if isExpandedMacro u then Some UNCHECKEDMACRO
  else if isAnyTag u then Some TAG
  else if isEnumConstant u then Some ENUM
  else if isDatatype u then Some TYPE
  else if isFileStatic u then Some FILESTATIC
  else if isGlobalVariable u then Some GLOB
  else if isVariable u then
         if isRefParam u then None
         else if inMacro then
                if isAnyParam u then (if isYield u then Some MACROVAR else Some LOCAL)
                else Some MACROVAR
         else Some LOCAL
  else if isConstant u then Some CONST
  else if isIter u then Some ITER
  else if isExported u then Some EXTERNAL
  else None.

(** src/nameChecks.c 320–335: a less specific flag when the flag is not set. *)
Definition fallBack (s : settings) (f : space) : space :=
  match f with
  | TYPE | GLOB | ENUM | CONST =>
      let f1 := match f with ENUM => if on s ENUM then ENUM else CONST | _ => f end in
      if on s f1 then f1 else EXTERNAL
  | _ => f
  end.

Inductive nmsg :=
| NotConsistent (f : space)            (** "... name is not consistent with ... prefix" *)
| MatchesOther (x : space).            (** "... name is not a ..., but matches the ... prefix" *)

(** src/nameChecks.c 366–407: whether the exclusion is checked for a name of name space [f]. *)
Definition checkExclude (f x : space) : bool :=
  match x with
  | EXTERNAL => negb (space_eqb f EXTERNAL) && negb (space_eqb f GLOB)
                && negb (space_eqb f TYPE) && negb (space_eqb f UNCHECKEDMACRO)
  | _ => negb (space_eqb f x)
  end.

(** src/nameChecks.c 242–440 [checkPrefix] *)
Definition checkPrefix (s : settings) (inMacro : bool) (u : uentry) : list nmsg :=
  match chooseSpace inMacro u with
  | None => []
  | Some f0 =>
      let f := fallBack s f0 in
      (if on s f && negb (matchPrefix (realName u) (str s f)) then [NotConsistent f] else [])
      ++ flat_map (fun x =>
           if excl s x && checkExclude f x then
             match str s x with
             | Some p => if matchPrefix (realName u) (Some p) then [MatchesOther x] else []
             | None => []
             end
           else []) excludeCodes
  end.

(** src/nameChecks.c 1145–1173 [checkCppName]: whether the message is given. *)
Definition checkCppName (name : cstr) : bool :=
  match bsearch name cppNames with Found (Some _) => true | _ => false end.

Inductive rmsg :=
| RLibrary          (** "reserved for the standard library" *)
| RUnderscore       (** "any identifier beginning with underscore" *)
| RUnderscoreAny    (** "... underscore and either an uppercase letter or another underscore" *)
| RErrno | RLocale | RSignal | RSigaction
| RCtype | RMath | RStr | RMem.
(** The flag of the message. *)
Inductive rflag := ISORESERVED | ISORESERVEDLOCAL.

(** cstring_equalPrefixLit, src/cstring.c 452–462 *)
Fixpoint equalPrefix (s p : cstr) {struct p} : bool :=
  match p with
  | [] => true
  | b :: p' => match s with
               | [] => false
               | a :: s' => (a =c b) && equalPrefix s' p'
               end
  end.

(** src/nameChecks.c 1404–1430: math functions of three, four and five letters. *)
Definition math3 : list cstr := map lit ["cos"%string; "sin"%string; "tan"%string; "exp"%string;
  "log"%string; "pow"%string].
Definition math4 : list cstr := map lit ["acos"%string; "asin"%string; "atan"%string;
  "cosh"%string; "sinh"%string; "sqrt"%string; "ceil"%string; "fabs"%string; "fmod"%string;
  "tanh"%string; "modf"%string].
Definition math5 : list cstr := map lit ["atan2"%string; "floor"%string; "frexp"%string;
  "ldexp"%string; "log10"%string].

Definition when {A} (b : bool) (x : A) : list A := if b then [x] else [].

(** src/nameChecks.c 1179–1505 [checkAnsiName]; [local] is +isoreservedlocal. *)
Definition checkAnsiName (local : bool) (u : uentry) : list (rflag * rmsg) :=
  let name := realName u in
  let length := List.length name in
  let ch n := if n <=? length then getChar name n else "000"%char in
  let fchar := ch 1 in let schar := ch 2 in let tchar := ch 3 in let rchar := ch 4 in
  let lastChar := getChar name length in
  let external := isVisibleExternally u && negb (isAnyTag u) in
  when (match bsearch name reservedNames with Found (Some _) => true | _ => false end)
       (ISORESERVED, RLibrary)
  ++ (if isFileStatic u || isVisibleExternally u || isAnyTag u || local
      then when (fchar =c "_"%char) (ISORESERVED, RUnderscore)
      else when ((fchar =c "_"%char) && ((schar =c "_"%char) || isupper schar))
                (ISORESERVED, RUnderscoreAny))
  ++ when ((fchar =c "E"%char) && (is_digit schar || isupper schar)) (ISORESERVED, RErrno)
  ++ when ((4 <=? length) && ((fchar =c "L"%char) && (schar =c "C"%char) && (tchar =c "_"%char))
           && isupper rchar) (ISORESERVED, RLocale)
  ++ when ((fchar =c "S"%char) && (schar =c "I"%char) && (tchar =c "G"%char)
           && (((rchar =c "_"%char) && ((5 <=? length) && isupper (getChar name 5)))
               || isupper rchar)) (ISORESERVED, RSignal)
  ++ when ((fchar =c "S"%char) && (schar =c "A"%char) && (tchar =c "_"%char))
          (ISORESERVED, RSigaction)
  ++ (if external || local then
        let flg := if external then ISORESERVED else ISORESERVEDLOCAL in
        when ((((fchar =c "i"%char) && (schar =c "s"%char))
               || ((fchar =c "t"%char) && (schar =c "o"%char))) && islower tchar) (flg, RCtype)
        ++ when (((lastChar =c "f"%char) || (lastChar =c "l"%char))
                 && (((length =? 4) && existsb (equalPrefix name) math3)
                     || ((length =? 5) && existsb (equalPrefix name) math4)
                     || ((length =? 6) && existsb (equalPrefix name) math5))) (flg, RMath)
        ++ when ((fchar =c "s"%char) && (schar =c "t"%char) && (tchar =c "r"%char)
                 && islower rchar) (flg, RStr)
        ++ when ((((fchar =c "m"%char) && (schar =c "e"%char) && (tchar =c "m"%char))
                  || ((fchar =c "w"%char) && (schar =c "c"%char) && (tchar =c "s"%char)))
                 && islower rchar) (flg, RMem)
      else []).

Inductive pmsg :=
| ParamHasName (name : cstr)         (** +declparamname *)
| ParamPrefix (name : cstr).         (** "... does not begin with protoparamprefix" *)

(** src/nameChecks.c 1507–1556 [checkParamNames]; [None] is a parameter without a name. *)
Definition checkParamNames (fpfx : option cstr) (noformal : bool)
  (params : list (option cstr)) : list pmsg :=
  match fpfx, noformal with
  | None, false => []
  | _, _ =>
      flat_map (fun p =>
        match p with
        | None => []
        | Some name =>
            match fpfx with
            | None => [ParamHasName name]       (* noformal *)
            | Some pfx => if equalPrefix name pfx then [] else [ParamPrefix name]
            end
        end) params
  end.

(** src/uentry.c 8546–8595: the names of a parameter in the declaration and in the
    definition; whether the message of +declparammatch is given. *)
Definition stripPrefix (fpfx : option cstr) (name : cstr) : cstr :=
  match fpfx with
  | Some pfx => if equalPrefix name pfx then skipn (List.length pfx) name else name
  | None => name
  end.
Definition paramMatchMessage (fpfx : option cstr) (old new : option cstr) : bool :=
  match old, new with
  | Some o, Some n => negb (cstr_eqb (stripPrefix fpfx o) (stripPrefix fpfx n))
  | _, _ => false
  end.
