(** Integer and character constants of C programs: the rules of the scanner
    (src/cscanner.l 56-66, 228-288) and the functions that compute values and
    types (src/cscannerHelp.c 1950-2103, 2740-2784, src/exprNode.c 702-739).

    Modelled: which rule of the scanner takes how many characters (flex: the
    longest match, of equally long matches the first rule), the value as a C
    [long] with overflow as undefined behaviour, the messages, the type and
    whether the constant is marked as null.

    Simplified: the rules for floating constants are left out (they need a point
    or an exponent after the digits); locations and the text kept in the
    expression are left out; types that are conjunctions are lists. *)
From Verif Require Import Cbase.
Open Scope nat_scope.

(** The classes of characters (cscanner.l 56-66). *)
Definition between (lo hi c : ascii) : bool := ((code lo <=? code c) && (code c <=? code hi))%Z.
(** [BDigit] (cscanner.l 56). *)
Definition BDigit (c : ascii) : bool := between "0" "1" c.
(** [ODigit] (cscanner.l 57). *)
Definition ODigit (c : ascii) : bool := between "0" "7" c.
(** [Digit] (cscanner.l 58). *)
Definition Digit (c : ascii) : bool := between "0" "9" c.
(** [H] (cscanner.l 60). *)
Definition HDigit (c : ascii) : bool := between "a" "f" c || between "A" "F" c || between "0" "9" c.
(** [U] and [L] (cscanner.l 62-63). *)
Definition isU (c : ascii) : bool := Ascii.eqb c "u" || Ascii.eqb c "U".
Definition isL (c : ascii) : bool := Ascii.eqb c "l" || Ascii.eqb c "L".

(** The types given by the rules (cscanner.l 228-284) and by context_typeofZero
    (context.c 3162-3176). *)
Inductive ity := TInt | TUint | TLint | TUlint | TLlint | TUllint | TVoidPtr | TBool.

(** What the seven rules of a family take after the digits, longest first
    (cscanner.l 228-247; 248-261, 262-275 and 276-289 have the same suffixes):
    the number of characters and the type. *)
Definition suffix (s : cstr) : nat * ity :=
  match s with
  | a :: b :: c :: _ =>
      if (isU a && isL b && isL c) || (isL a && isL b && isU c) then (3, TUllint)
      else if (isU a && isL b) || (isL a && isU b) then (2, TUlint)
      else if isL a && isL b then (2, TLlint)
      else if isU a then (1, TUint)
      else if isL a then (1, TLint)
      else (0, TInt)
  | [a; b] =>
      if (isU a && isL b) || (isL a && isU b) then (2, TUlint)
      else if isL a && isL b then (2, TLlint)
      else if isU a then (1, TUint)
      else if isL a then (1, TLint)
      else (0, TInt)
  | [a] => if isU a then (1, TUint) else if isL a then (1, TLint) else (0, TInt)
  | [] => (0, TInt)
  end.

(** The longest run of characters of a class, as [{D}+] takes it. *)
Fixpoint run (p : ascii -> bool) (s : cstr) : nat :=
  match s with
  | c :: r => if p c then S (run p r) else 0
  | [] => 0
  end.

(** The four families of rules. *)
Inductive family := FHex | FOctal | FBinary | FDec.

(** [{D}+] and a suffix after [k] characters of prefix: the length of the match. *)
Definition digits_then (p : ascii -> bool) (k : nat) (r : cstr) : option (nat * ity) :=
  match run p r with
  | 0 => None
  | n => let '(m, t) := suffix (skipn n r) in Some (k + n + m, t)
  end.

(** The match of a family at the start of the text: [0[xX]{H}+] (cscanner.l 228-247),
    [0{ODigit}+] (248-261), [0[bB]{BDigit}+] (262-275), [{Digit}+] (276-289). *)
Definition match_family (f : family) (s : cstr) : option (nat * ity) :=
  match f, s with
  | FHex, z :: x :: r =>
      if Ascii.eqb z "0" && (Ascii.eqb x "x" || Ascii.eqb x "X") then digits_then HDigit 2 r else None
  | FOctal, z :: r => if Ascii.eqb z "0" then digits_then ODigit 1 r else None
  | FBinary, z :: x :: r =>
      if Ascii.eqb z "0" && (Ascii.eqb x "b" || Ascii.eqb x "B") then digits_then BDigit 2 r else None
  | FDec, _ => digits_then Digit 0 s
  | _, _ => None
  end.

(** flex: the longest match; of two equally long ones that of the earlier rule. *)
Definition better (a b : option (family * (nat * ity))) : option (family * (nat * ity)) :=
  match a, b with
  | Some (_, (n, _)), Some (_, (m, _)) => if n <? m then b else a
  | None, _ => b
  | _, None => a
  end.
Definition tag (f : family) (s : cstr) : option (family * (nat * ity)) :=
  match match_family f s with Some p => Some (f, p) | None => None end.
Definition choose (s : cstr) : option (family * (nat * ity)) :=
  better (tag FHex s) (better (tag FOctal s) (better (tag FBinary s) (tag FDec s))).

(** Messages (cscannerHelp.c 1979-2006, 2071-2080). *)
Inductive lmsg := BadAfterSuffix | BadInConstant | BinaryNotIso.

(** A C [long], or undefined behaviour (signed overflow; atol out of range). *)
Inductive lval := Val (z : Z) | Undefined.

(** processSuffix (cscannerHelp.c 1979-2006), on the text from the index on. *)
Definition suffix_char (c : ascii) : bool := isU c || isL c.
Definition processSuffix (s : cstr) : list lmsg :=
  match s with
  | c :: _ => if suffix_char c then (if forallb suffix_char s then [] else [BadAfterSuffix])
              else [BadInConstant]
  | [] => [BadInConstant]
  end.

(** The value of a digit in processHex (cscannerHelp.c 2021-2031). *)
Definition hexValue (c : ascii) : option Z :=
  if between "0" "9" c then Some (code c - code "0")%Z
  else if between "A" "F" c then Some (code c - code "A" + 10)%Z
  else if between "a" "f" c then Some (code c - code "a" + 10)%Z
  else None.
(** ... in processOctal (cscannerHelp.c 2051-2054). *)
Definition octValue (c : ascii) : option Z := if between "0" "7" c then Some (code c - code "0")%Z else None.
(** ... in processBinary (cscannerHelp.c 2086-2089). *)
Definition binValue (c : ascii) : option Z := if between "0" "1" c then Some (code c - code "0")%Z else None.
(** ... in atol. *)
Definition decValue (c : ascii) : option Z := if between "0" "9" c then Some (code c - code "0")%Z else None.

(** The loops of processHex, processOctal and processBinary (cscannerHelp.c 2017-2034,
    2047-2058, 2082-2094): [val * base + tval] in a [long]. *)
Fixpoint loop (dv : ascii -> option Z) (base : Z) (val : Z) (s : cstr) : lval * list lmsg :=
  match s with
  | [] => (Val val, [])
  | c :: r =>
      match dv c with
      | Some t => let v := (val * base + t)%Z in
                  if in_long v then loop dv base v r else (Undefined, [])
      | None => (Val val, processSuffix s)
      end
  end.

(** atol on text that begins with digits (processDec, cscannerHelp.c 2100-2103): stops at
    the first other character, undefined if the value is not in range. *)
Fixpoint atol (val : Z) (s : cstr) : lval :=
  match s with
  | [] => Val val
  | c :: r =>
      match decValue c with
      | Some t => let v := (val * 10 + t)%Z in if in_long v then atol v r else Undefined
      | None => Val val
      end
  end.

(** processHex, processOctal, processBinary, processDec (cscannerHelp.c 2009-2103). *)
Definition process (gnu : bool) (f : family) (t : cstr) : lval * list lmsg :=
  match f with
  | FHex => loop hexValue 16 0 (skipn 2 t)
  | FOctal => loop octValue 8 0 (skipn 1 t)
  | FBinary => let '(v, ms) := loop binValue 2 0 (skipn 2 t) in
               (v, (if gnu then [] else [BinaryNotIso]) ++ ms)
  | FDec => (atol 0 t, [])
  end.

(** The flags read. *)
Record lflags := { gnuextensions : bool; zeroptr : bool; zerobool : bool; charintliteral : bool }.

(** returnInt, context_typeofZero, context_typeofOne (cscannerHelp.c 2740-2758,
    context.c 3162-3191). *)
Definition ctype_of (fl : lflags) (t : ity) (val : Z) : list ity :=
  match t with
  | TInt => if (val =? 0)%Z
            then [TInt] ++ (if zeroptr fl then [TVoidPtr] else []) ++ (if zerobool fl then [TBool] else [])
            else [TInt]
  | _ => [t]
  end.

(** What the scanner returns for an integer constant: its text, the text left, the value,
    the types, whether it is marked null (exprNode_numLiteral, exprNode.c 714-718) and the
    messages. *)
Record itok := { i_text : cstr; i_rest : cstr; i_val : Z; i_type : list ity; i_null : bool;
                 i_msgs : list lmsg }.
Inductive ires := NoInt | IntUndefined | IntTok (t : itok).

(** The scanner at the start of the text of an integer constant (cscanner.l 228-289). *)
Definition lex_int (fl : lflags) (s : cstr) : ires :=
  match choose s with
  | None => NoInt
  | Some (f, (n, ty)) =>
      let t := firstn n s in
      match process (gnuextensions fl) f t with
      | (Undefined, _) => IntUndefined
      | (Val v, ms) =>
          IntTok {| i_text := t; i_rest := skipn n s; i_val := v; i_type := ctype_of fl ty v;
                    i_null := (v =? 0)%Z; i_msgs := ms |}
      end
  end.

(** * Character constants *)
Definition quote : ascii := "'".
Definition bslash : ascii := "\".

(** The length of [(\\.|[^\\'])+'] (cscanner.l 284-287): the first quote that is not
    escaped; [.] is any character but a newline. [None]: no match. *)
Fixpoint body (s : cstr) : option nat :=
  match s with
  | [] => None
  | c :: r =>
      if Ascii.eqb c quote then Some 1
      else if Ascii.eqb c bslash
      then match r with
           | d :: r' => if Ascii.eqb d ch_nl then None
                        else match body r' with Some n => Some (2 + n) | None => None end
           | [] => None
           end
      else match body r with Some n => Some (1 + n) | None => None end
  end.

(** ['(...)+'] and [L'(...)+']: the length of the whole match (cscanner.l 284-287). *)
Definition match_char (s : cstr) : option nat :=
  match s with
  | q :: r =>
      if Ascii.eqb q quote
      then match body r with Some (S (S n)) => Some (3 + n) | _ => None end
      else if Ascii.eqb q "L"
      then match r with
           | q' :: r' => if Ascii.eqb q' quote
                         then match body r' with Some (S (S n)) => Some (4 + n) | _ => None end
                         else None
           | [] => None
           end
      else None
  | [] => None
  end.

(** The character at an index, the terminating NUL beyond the end. *)
Definition at_ (t : cstr) (i : nat) : ascii := nth i t "000"%char.

(** processChar (cscannerHelp.c 1950-1970). *)
Definition processChar (t : cstr) : ascii :=
  let fchar := at_ t 1 in
  if negb (Ascii.eqb fchar bslash) then fchar
  else let next := at_ t 2 in
       if Ascii.eqb next "n" then ch_nl
       else if Ascii.eqb next "t" then ch_tab
       else if Ascii.eqb next ch_dquote then ch_dquote
       else if Ascii.eqb next quote then quote
       else if Ascii.eqb next bslash then bslash
       else "000"%char.

(** exprNode_charLiteral (exprNode.c 724-739): [char], or also [int]. *)
Record ctok := { c_text : cstr; c_rest : cstr; c_val : ascii; c_int : bool }.

(** The scanner at the start of a character constant (cscanner.l 284-287). *)
Definition lex_char (fl : lflags) (s : cstr) : option ctok :=
  match match_char s with
  | None => None
  | Some n => let t := firstn n s in
              Some {| c_text := t; c_rest := skipn n s; c_val := processChar t;
                      c_int := charintliteral fl |}
  end.
