(** Model of the comparison of primitive types, src/cprim.c and src/Headers/cprim.h. *)
From Coq Require Import ZArith Bool.
Local Open Scope Z_scope.

(** The primitive types, numbered as in src/Headers/cprim.h 21-91 (CTX_UNKNOWN … CTX_LDOUBLE);
    the C type is an int, the functions below are only called with these nineteen numbers. *)
Inductive cprim :=
  | P_UNKNOWN | P_VOID | P_BOOL | P_UCHAR | P_CHAR
  | P_INT | P_UINT | P_SINT | P_USINT | P_LINT | P_ULINT | P_LLINT | P_ULLINT
  | P_ANYINTEGRAL | P_UNSIGNEDINTEGRAL | P_SIGNEDINTEGRAL
  | P_FLOAT | P_DOUBLE | P_LDOUBLE.

(** src/Headers/cprim.h 21-91: the number of a primitive type. *)
Definition ctx (c : cprim) : Z :=
  match c with
  | P_UNKNOWN => 0 | P_VOID => 1 | P_BOOL => 2 | P_UCHAR => 3 | P_CHAR => 4
  | P_INT => 5 | P_UINT => 6 | P_SINT => 7 | P_USINT => 8 | P_LINT => 9 | P_ULINT => 10
  | P_LLINT => 11 | P_ULLINT => 12
  | P_ANYINTEGRAL => 13 | P_UNSIGNEDINTEGRAL => 14 | P_SIGNEDINTEGRAL => 15
  | P_FLOAT => 16 | P_DOUBLE => 17 | P_LDOUBLE => 18
  end.

(** src/cprim.c, [==] on the numbers. *)
Definition peq (a b : cprim) : bool := ctx a =? ctx b.

(** src/Headers/cprim.h 36-42: cprim_isUnsignedChar, cprim_isAnyChar. *)
Definition isUnsignedChar (c : cprim) : bool := peq c P_UCHAR.
Definition isAnyChar (c : cprim) : bool := (3 <=? ctx c) && (ctx c <=? 4).
(** src/Headers/cprim.h 96: cprim_isAnyInt. *)
Definition isAnyInt (c : cprim) : bool := (5 <=? ctx c) && (ctx c <=? 15).
(** src/Headers/cprim.h 99-101: cprim_isAnyUnsignedInt. *)
Definition isAnyUnsignedInt (c : cprim) : bool :=
  peq c P_UINT || peq c P_USINT || peq c P_ULINT || peq c P_ULLINT || peq c P_UNSIGNEDINTEGRAL.
(** src/Headers/cprim.h 102: cprim_isAnyReal. *)
Definition isAnyReal (c : cprim) : bool := (16 <=? ctx c) && (ctx c <=? 18).

(** The flags which the comparison reads: context_getFlag for all of them but charint, shortint
    and longint, which are read through context_msgCharInt, context_msgShortInt and
    context_msgLongInt (src/context.c 4410-4428), that is as they are at the current place. *)
Record tflags := TF {
  relaxtypes : bool; ignorequals : bool; ignoresigns : bool; relaxquals : bool;
  floatdouble : bool; matchanyintegral : bool;
  charint : bool; shortint : bool; longint : bool;
  longintegral : bool; longunsignedintegral : bool;
  longunsignedunsignedintegral : bool; longsignedintegral : bool }.

(** src/cprim.c 476-480: cprim_isInt. *)
Definition isInt (f : tflags) (c : cprim) : bool := isAnyInt c || (isAnyChar c && charint f).
(** src/cprim.c 31-39: cprim_isReal, cprim_isNumeric. *)
Definition isNumeric (f : tflags) (c : cprim) : bool := isAnyReal c || isInt f c.

(** src/cprim.c 262-317: what ignoresigns does to each of the two types. *)
Definition unsign (c : cprim) : cprim :=
  match c with
  | P_UCHAR => P_CHAR | P_UINT => P_INT | P_ULINT => P_LINT | P_ULLINT => P_LLINT
  | P_USINT => P_SINT | _ => c
  end.

(** src/cprim.c 226-260: the switch of ignorequals; [true] is the early [return TRUE]. *)
Definition ignorequals_match (f : tflags) (c1 c2 : cprim) : bool :=
  match c1 with
  | P_CHAR | P_UCHAR => isAnyChar c2 || (isAnyInt c2 && charint f)
  | P_DOUBLE | P_FLOAT | P_LDOUBLE => peq c2 P_DOUBLE || peq c2 P_FLOAT || peq c2 P_LDOUBLE
  | P_INT | P_LINT | P_LLINT | P_ULLINT | P_SINT | P_UINT | P_ULINT | P_USINT =>
      isAnyInt c2 || (isAnyChar c2 && charint f)
  | _ => false
  end.

(** src/cprim.c 337-384: the switch used for a comparison which is not deep when relaxquals is on. *)
Definition relaxed (f : tflags) (c1 c2 : cprim) : bool :=
  match c1 with
  | P_DOUBLE => peq c2 P_FLOAT
  | P_LDOUBLE => peq c2 P_DOUBLE || peq c2 P_FLOAT
  | P_SINT => (peq c2 P_CHAR && charint f) || (peq c2 P_INT && shortint f)
              || (peq c2 P_LINT && shortint f && longint f)
  | P_INT => peq c2 P_SINT || (isAnyChar c2 && charint f) || (peq c2 P_LINT && longint f)
  | P_LLINT => peq c2 P_SINT || peq c2 P_INT || peq c2 P_LINT || (isAnyChar c2 && charint f)
  | P_ULLINT => peq c2 P_USINT || peq c2 P_UINT || peq c2 P_ULINT || (isAnyChar c2 && charint f)
  | P_LINT => peq c2 P_SINT || peq c2 P_INT || (isAnyChar c2 && charint f)
  | P_UINT => peq c2 P_USINT || (peq c2 P_UCHAR && charint f)
  | P_USINT => peq c2 P_UCHAR && charint f
  | P_ULINT => peq c2 P_UINT || peq c2 P_USINT || (peq c2 P_UCHAR && charint f)
  | P_UCHAR => peq c2 P_UINT && charint f
  | P_CHAR => (peq c2 P_INT || peq c2 P_SINT) && charint f
  | _ => false
  end.

(** src/cprim.c 388-425: the other switch.  The three cases which fall through are written as
    functions: [plain_llint] is the code from label CTX_LLINT on, [plain_lint] from CTX_LINT on,
    [plain_int] from CTX_INT on. *)
Definition plain_llint (f : tflags) (c2 : cprim) : bool := peq c2 P_CHAR && charint f.
Definition plain_lint (f : tflags) (c2 : cprim) : bool :=
  if peq c2 P_INT && longint f then true else plain_llint f c2.
Definition plain_int (f : tflags) (c2 : cprim) : bool :=
  if peq c2 P_INT && longint f then true
  else if peq c2 P_SINT && shortint f then true
  else plain_lint f c2.
Definition plain (f : tflags) (c1 c2 : cprim) : bool :=
  match c1 with
  | P_DOUBLE | P_LDOUBLE => false
  | P_SINT => if peq c2 P_INT && shortint f then true else plain_int f c2
  | P_INT => plain_int f c2
  | P_LINT => plain_lint f c2
  | P_LLINT => plain_llint f c2
  | P_UINT | P_USINT | P_ULINT | P_ULLINT => peq c2 P_UCHAR && charint f
  | P_UCHAR => peq c2 P_UINT && charint f
  | P_CHAR => (peq c2 P_INT || peq c2 P_SINT) && charint f
  | _ => false
  end.

(** src/cprim.c 319-427: from the second test for equality to the end. *)
Definition last_part (f : tflags) (c1 c2 : cprim) (deep : bool) : bool :=
  if peq c1 c2 then true
  else if floatdouble f && ((peq c1 P_FLOAT && peq c2 P_DOUBLE)
                            || (peq c2 P_FLOAT && peq c1 P_DOUBLE)) then true
  else if negb deep && relaxquals f then relaxed f c1 c2 else plain f c1 c2.

(** src/cprim.c 81-427 cprim_closeEnoughAux for two types of which none is an arbitrary integral
    type: the test at 83 and the part from 221 on. *)
Definition close_ordinary (f : tflags) (c1 c2 : cprim) (deep : bool) : bool :=
  if peq c1 c2 then true
  else if relaxtypes f && isNumeric f c1 && isNumeric f c2 then true
  else if ignorequals f && ignorequals_match f c1 c2 then true
  else if ignoresigns f then last_part f (unsign c1) (unsign c2) deep
  else last_part f c1 c2 deep.

(** src/cprim.c 81-427 for a first type which is no arbitrary integral type: 83 and from 163 on.
    The calls at 172-176, 193 and 210 pass the same first type and an ordinary second one. *)
Definition close_right (f : tflags) (c1 c2 : cprim) (deep : bool) : bool :=
  if peq c1 c2 then true
  else match c2 with
  | P_ANYINTEGRAL =>
      if matchanyintegral f then isAnyInt c1 || (isAnyChar c1 && charint f)
      else if longintegral f then close_ordinary f c1 P_LINT false
      else if longunsignedintegral f then close_ordinary f c1 P_ULINT false
      else false
  | P_UNSIGNEDINTEGRAL =>
      if matchanyintegral f then isAnyInt c1 || (isAnyChar c1 && charint f)
      else if longunsignedunsignedintegral f then close_ordinary f c1 P_ULINT false
      else false
  | P_SIGNEDINTEGRAL =>
      if matchanyintegral f then isAnyInt c2 || (isAnyChar c2 && charint f)
      else if longsignedintegral f then close_ordinary f c1 P_LINT false
      else false
  | _ => close_ordinary f c1 c2 deep
  end.

(** src/cprim.c 81-427 cprim_closeEnoughAux.  The recursion (97-101, 132, 156) is written out: the
    first type of the inner call is an ordinary one. *)
Definition closeEnoughAux (f : tflags) (c1 c2 : cprim) (deep : bool) : bool :=
  if peq c1 c2 then true
  else match c1 with
  | P_ANYINTEGRAL =>
      if matchanyintegral f || ignorequals f then isAnyInt c2 || (isAnyChar c2 && charint f)
      else if longintegral f then close_right f P_LINT c2 false
      else if longunsignedintegral f then close_right f P_ULINT c2 false
      else false
  | P_UNSIGNEDINTEGRAL =>
      if matchanyintegral f then isAnyInt c2 || (isAnyChar c2 && charint f)
      else if ignorequals f then
        if ignoresigns f then isAnyUnsignedInt c2 || (isUnsignedChar c2 && charint f)
        else isAnyInt c2 || (isAnyChar c2 && charint f)
      else if longunsignedunsignedintegral f then close_right f P_ULINT c2 false
      else false
  | P_SIGNEDINTEGRAL =>
      if matchanyintegral f then isAnyInt c2 || (isAnyChar c2 && charint f)
      else if ignorequals f then isAnyInt c2 || (isAnyChar c2 && charint f)
      else if longsignedintegral f then close_right f P_LINT c2 false
      else false
  | _ => close_right f c1 c2 deep
  end.

(** src/cprim.c 60-78: cprim_closeEnough (a value of type c2 used where c1 is expected),
    cprim_closeEnoughDeep (the same for what pointers point to). *)
Definition closeEnough (f : tflags) (c1 c2 : cprim) : bool := closeEnoughAux f c1 c2 false.
Definition closeEnoughDeep (f : tflags) (c1 c2 : cprim) : bool := closeEnoughAux f c1 c2 true.
