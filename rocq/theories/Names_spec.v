(** What the manual (doc/html/manual.htm, section 12.2, Figure 23) says about prefixes, and
    which names the C standard reserves, independently of the code. *)
From Verif Require Import Cbase.
From Verif Require Import Bsearch_model Names_model.
Open Scope nat_scope.

(** Figure 23: the characters denoted by a character of a prefix. *)
Definition upper_set : list ascii := list_ascii_of_string "ABCDEFGHIJKLMNOPQRSTUVWXYZ".
Definition lower_set : list ascii := list_ascii_of_string "abcdefghijklmnopqrstuvwxyz".
Definition digit_set : list ascii := list_ascii_of_string "0123456789".
Inductive denotes : ascii -> ascii -> Prop :=
| d_self : forall c, denotes c c
| d_upper : forall c, In c upper_set -> denotes "^"%char c
| d_lower : forall c, In c lower_set -> denotes "&"%char c
| d_notupper : forall c, ~ In c upper_set -> denotes "%"%char c
| d_notlower : forall c, ~ In c lower_set -> denotes "~"%char c
| d_letter : forall c, In c upper_set \/ In c lower_set -> denotes "$"%char c
| d_alnum : forall c, In c upper_set \/ In c lower_set \/ In c digit_set -> denotes "/"%char c
| d_any : forall c, denotes "?"%char c
| d_digit : forall c, In c digit_set -> denotes "#"%char c.

(** A name begins with characters denoted by those of [p]. *)
Definition begins (p name : cstr) : Prop :=
  exists w rest, name = w ++ rest /\ Forall2 denotes p w.
(** "The * character may be used at the end of a prefix string to specify the rest of the
    identifier is zero or more characters matching the character immediately before the *." *)
Definition begins_star (p : cstr) (c : ascii) (name : cstr) : Prop :=
  exists w rest, name = w ++ rest /\ Forall2 denotes p w /\ Forall (denotes c) rest.
Definition no_star (p : cstr) : Prop := ~ In "*"%char p.

(** The identifiers of a program and the name spaces they are in. *)
Definition reasonable (u : uentry) : Prop :=
  match ekind_of u with
  | KVar _ AtGlobal => isStatic u = false
  | KVar _ AtFile => isStatic u = true
  | KVar _ InBlock => True
  | KFun => True
  | _ => isStatic u = false
  end.
(** The reference to a parameter, checked when the parameter itself is (src/nameChecks.c 274). *)
Definition param_copy (u : uentry) : Prop :=
  match ekind_of u with
  | KVar (VKREFPARAM | VKREFYIELDPARAM | VKREFSEFPARAM | VKREFSEFRETPARAM) InBlock => True
  | _ => False
  end.
Definition unchecked_macro (u : uentry) : Prop :=
  exists s, ekind_of u = KVar VKEXPMACRO s.
(** A variable declared in the body of a macro, or yielded by an iterator. *)
Definition macro_variable (inMacro : bool) (u : uentry) : Prop :=
  inMacro = true /\ ~ unchecked_macro u /\
  exists k, ekind_of u = KVar k InBlock /\
            (k = VKNORMAL \/ k = VKSPEC \/ k = VKYIELDPARAM).
Definition is_a (inMacro : bool) (u : uentry) (x : space) : Prop :=
  match x with
  | UNCHECKEDMACRO => unchecked_macro u
  | TAG => ekind_of u = KTag
  | ENUM => ekind_of u = KEnumConst
  | TYPE => ekind_of u = KDatatype
  | FILESTATIC => (ekind_of u = KFun /\ isStatic u = true) \/
                  (~ unchecked_macro u /\ exists k, ekind_of u = KVar k AtFile)
  | GLOB => ~ unchecked_macro u /\ exists k, ekind_of u = KVar k AtGlobal
  | MACROVAR => macro_variable inMacro u
  | LOCAL => ~ unchecked_macro u /\ ~ macro_variable inMacro u /\
             exists k, ekind_of u = KVar k InBlock
  | CONST => ekind_of u = KConst \/ ekind_of u = KEnumConst
  | ITER => ekind_of u = KIter
  | EXTERNAL =>
      ekind_of u = KDatatype \/ ekind_of u = KConst \/ ekind_of u = KEnumConst \/
      ekind_of u = KIter \/ (ekind_of u = KFun /\ isStatic u = false) \/
      (~ unchecked_macro u /\ exists k, ekind_of u = KVar k AtGlobal)
  end.
(** Members of an enumeration are constants; everything exported is in the widest space. *)
Definition narrower (x y : space) : Prop := (x = ENUM /\ y = CONST) \/ (x <> EXTERNAL /\ y = EXTERNAL).
(** "the most specific defined namespace prefix is used" *)
Definition governs (s : settings) (inMacro : bool) (u : uentry) (x : space) (p : cstr) : Prop :=
  is_a inMacro u x /\ str s x = Some p /\
  forall y, is_a inMacro u y -> narrower y x -> str s y = None.

(** Names reserved by the standard (ISO/IEC 9899:1990 7.1.3, 7.13). *)
Definition starts (w name : cstr) : Prop := exists r, name = w ++ r.
(** [w] followed by a character of [set] *)
Definition then_one (w : cstr) (set : list ascii) (name : cstr) : Prop :=
  exists c r, In c set /\ name = w ++ c :: r.
Definition math_functions : list cstr :=
  map lit ["acos"; "asin"; "atan"; "atan2"; "cos"; "sin"; "tan"; "cosh"; "sinh"; "tanh"; "exp";
           "frexp"; "ldexp"; "log"; "log10"; "modf"; "pow"; "sqrt"; "ceil"; "fabs"; "floor";
           "fmod"]%string.
(** The other functions of the library, as identifiers with external linkage. *)
Definition other_functions : list cstr :=
  map lit ["isalnum"; "isalpha"; "iscntrl"; "isdigit"; "isgraph"; "islower"; "isprint"; "ispunct";
    "isspace"; "isupper"; "isxdigit"; "tolower"; "toupper"; "setlocale"; "localeconv"; "longjmp";
    "signal"; "raise"; "remove"; "rename"; "tmpfile"; "tmpnam"; "fclose"; "fflush"; "fopen";
    "freopen"; "setbuf"; "setvbuf"; "fprintf"; "fscanf"; "printf"; "scanf"; "sprintf"; "sscanf";
    "vfprintf"; "vprintf"; "vsprintf"; "fgetc"; "fgets"; "fputc"; "fputs"; "getc"; "getchar";
    "gets"; "putc"; "putchar"; "puts"; "ungetc"; "fread"; "fwrite"; "fgetpos"; "fseek";
    "fsetpos"; "ftell"; "rewind"; "clearerr"; "feof"; "ferror"; "perror"; "atof"; "atoi"; "atol";
    "strtod"; "strtol"; "strtoul"; "rand"; "srand"; "calloc"; "free"; "malloc"; "realloc";
    "abort"; "atexit"; "exit"; "getenv"; "system"; "bsearch"; "qsort"; "abs"; "div"; "labs";
    "ldiv"; "mblen"; "mbtowc"; "wctomb"; "mbstowcs"; "wcstombs"; "memcpy"; "memmove"; "strcpy";
    "strncpy"; "strcat"; "strncat"; "memcmp"; "strcmp"; "strcoll"; "strncmp"; "strxfrm";
    "memchr"; "strchr"; "strcspn"; "strpbrk"; "strrchr"; "strspn"; "strstr"; "strtok"; "memset";
    "strerror"; "strlen"; "clock"; "difftime"; "mktime"; "time"; "asctime"; "ctime"; "gmtime";
    "localtime"; "strftime"]%string.
(** Words of C++ (ISO/IEC 14882:1998 2.11) that are not words of C (1990). *)
Definition cpp_words : list cstr :=
  map lit ["and"; "and_eq"; "asm"; "bitand"; "bitor"; "bool"; "catch"; "class"; "compl";
    "const_cast"; "delete"; "dynamic_cast"; "explicit"; "export"; "false"; "friend"; "inline";
    "mutable"; "namespace"; "new"; "not"; "not_eq"; "operator"; "or"; "or_eq"; "private";
    "protected"; "public"; "reinterpret_cast"; "static_cast"; "template"; "this"; "throw";
    "true"; "try"; "typeid"; "typename"; "using"; "virtual"; "wchar_t"; "xor"; "xor_eq"]%string.

(** What is accepted for [p] followed by [c] and a star: the second character after [p] may be
    anything, and [p] alone must have two characters. *)
Definition accepted (p : cstr) (c : ascii) (name : cstr) : Prop :=
  exists w rest, name = w ++ rest /\ Forall2 denotes p w /\
    match rest with
    | [] => 2 <= List.length p
    | a :: rest' => denotes c a /\ Forall (denotes c) (skipn 1 rest')
    end.


(** Fits a prefix of the manual: without a star, or with one after a character at the end. *)
Definition fits (p name : cstr) : Prop :=
  (no_star p /\ begins p name) \/
  (exists q c, p = q ++ [c; "*"%char] /\ no_star (q ++ [c]) /\ begins_star q c name).
(** The identifier is exported and its own, narrower, prefix is set. *)
Definition own_prefix (s : settings) (u : uentry) : Prop :=
  (ekind_of u = KConst /\ str s CONST <> None) \/
  (ekind_of u = KEnumConst /\ (str s ENUM <> None \/ str s CONST <> None)) \/
  ekind_of u = KIter.

(** A function of <math.h> with f or l appended. *)
Definition math_suffixed (name : cstr) : Prop :=
  exists m, In m math_functions /\ (name = m ++ lit "f" \/ name = m ++ lit "l").
(** Functions and variables with external linkage, types, constants and iterators. *)
Definition linkage (u : uentry) : Prop :=
  match ekind_of u with
  | KVar _ AtGlobal => True
  | KFun | KIter | KConst | KDatatype => isStatic u = false
  | _ => False
  end.
(** Names of file scope. *)
Definition file_scope (u : uentry) : Prop :=
  match ekind_of u with
  | KVar _ AtGlobal => True
  | KVar _ AtFile => isStatic u = true
  | KVar _ InBlock => False
  | KEnumConst => isStatic u = true
  | _ => True
  end.
(** When each message is due. *)
Definition due (local : bool) (u : uentry) (f : rflag) (r : rmsg) : Prop :=
  let name := realName u in
  let far P := (linkage u /\ f = ISORESERVED \/ ~ linkage u /\ local = true /\ f = ISORESERVEDLOCAL) /\ P in
  match r with
  | RLibrary => f = ISORESERVED /\ In (Some name) reservedNames
  | RUnderscore => f = ISORESERVED /\ (file_scope u \/ local = true) /\ starts (lit "_") name
  | RUnderscoreAny => f = ISORESERVED /\ ~ (file_scope u \/ local = true) /\
                      then_one (lit "_") ("_"%char :: upper_set) name
  | RErrno => f = ISORESERVED /\ then_one (lit "E") (digit_set ++ upper_set) name
  | RLocale => f = ISORESERVED /\ then_one (lit "LC_") upper_set name
  | RSignal => f = ISORESERVED /\ (then_one (lit "SIG") upper_set name \/ then_one (lit "SIG_") upper_set name)
  | RSigaction => f = ISORESERVED /\ starts (lit "SA_") name
  | RCtype => far (then_one (lit "is") lower_set name \/ then_one (lit "to") lower_set name)
  | RMath => far (math_suffixed name)
  | RStr => far (then_one (lit "str") lower_set name)
  | RMem => far (then_one (lit "mem") lower_set name \/ then_one (lit "wcs") lower_set name)
  end.


(** A name of a parameter with the prefix taken away, where it has it. *)
Definition bare (fpfx : option cstr) (name b : cstr) : Prop :=
  (exists p, fpfx = Some p /\ name = p ++ b) \/
  (name = b /\ forall p, fpfx = Some p -> ~ starts p name).
