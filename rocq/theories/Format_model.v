(** Model of the check of calls of functions like printf and scanf: checkPrintfArgs and
    checkScanfArgs, src/exprNode.c 1445-1784 and 1790-2102.

    The format is the value kept for a string literal: the token without its first and last double
    quote (src/exprNode.c 862-874).  Escapes are not expanded, and between adjacent literals, which
    the scanner takes as one token (src/cscanner.l 176), the quotes and the white space remain.

    A pointer into the format is the rest of the text from there on; the terminating NUL stands at
    the empty rest, and stepping over it is the outcome [Overrun].  The assignment
    [*( --code) = '%'] (1612, 1938) is the rest with a percent sign put before it.

    Simplifications:
    - an argument is an element of some type [A]; [is_error] is exprNode_isError, [matches] is the
      test at 1700-1706 (exprNode_matchArgType, or a pointer to void for an abstract type);
    - the checks of the state of the argument (checkOneArg, exprNode_checkUse,
      exprNode_checkCallModifyVal), the columns and the text of the messages are left out;
    - isdigit is that of the C locale, characters are not negative. *)
From Verif Require Import Cbase Prim_model Tspec_model.

(** The types which arguments are compared with. *)
Inductive fty :=
  | FNum (c : ct)              (* a result of ctype_combine *)
  | FPtr (c : ct)              (* ctype_makePointer of one *)
  | FCharInt                   (* int, char or unsigned char: 1640-1642 *)
  | FCharPtr                   (* pointer to char or unsigned char: 1979 *)
  | FString                    (* ctype_string *)
  | FVoidPtr
  | FUnknown.

(** The messages.  [NoArg n]: no argument corresponding to format code [n]; [Mismatch n t]: format
    argument [n] expects [t]; [Arity n m]: the format string has [n] arguments, given [m];
    [NotInScanf]: format code should not be used in scanf; [Gripe]: a message of ctype_combine. *)
Inductive msg :=
  | NoArg (n : nat) | Mismatch (n : nat) (t : fty) | Unrecognised
  | Arity (n m : nat) | NotInScanf | Gripe (g : gripe).

(** How the loop ends: [Overrun] reads beyond the end of the format; [Fatal] is llfatalerrorLoc;
    [Uninit] uses the variable expecttype before it is set. *)
Inductive ending := Finished | Overrun | Fatal | Uninit | NoFuel.

(** [*code]. *)
Definition nul : ascii := "000"%char.
Definition key (s : cstr) : ascii := match s with [] => nul | c :: _ => c end.
Definition is (c : ascii) (s : cstr) : bool := Ascii.eqb (key s) c.

(** [strchr (code, '%')] and the step over the percent sign. *)
Fixpoint find_percent (s : cstr) : option cstr :=
  match s with
  | [] => None
  | c :: r => if Ascii.eqb c "%" then Some r else find_percent r
  end.

(** src/exprNode.c 248-251: isFlagKey. *)
Definition isFlagKey (c : ascii) : bool :=
  Ascii.eqb c "-" || Ascii.eqb c "+" || Ascii.eqb c " " || Ascii.eqb c "#".

(** src/exprNode.c 1512-1538: the precision. *)
Definition precision (s : cstr) : cstr :=
  if is "." s then
    let s := tl s in
    if is "*" s then s else skip_while is_digit s
  else s.

(** src/exprNode.c 1540-1571, 1852-1886: the modifier; the type, the first character (the variable
    [modifier] of checkScanfArgs, only set by [l] and [L]) and the rest. *)
Definition is_l (s : cstr) : bool := is "l" s || is "L" s.
Definition modify (s : cstr) : ct * ascii * cstr :=
  if is "h" s then
    let s := tl s in
    if is "h" s then (Prim P_CHAR, nul, tl s) else (Prim P_SINT, nul, s)
  else if is_l s then
    let m := key s in
    let s := tl s in
    if is_l s then (Prim P_LLINT, m, tl s) else (Prim P_LINT, m, s)
  else (Prim P_INT, nul, s).

(** src/exprNode.c 1653-1666, 1986-2001: the character set of [%[], the pointer being behind the
    bracket; the result starts with the closing bracket. *)
Fixpoint find_bracket (s : cstr) : option cstr :=
  match s with
  | [] => None
  | c :: r => if Ascii.eqb c "]" then Some s else find_bracket r
  end.
Definition set_end (s : cstr) : ending + cstr :=
  match s with
  | [] => inl Overrun
  | _ :: r => match find_bracket r with None => inl Fatal | Some r => inr r end
  end.

Section Check.
Variable A : Type.
Variable is_error : A -> bool.
Variable matches : fty -> A -> bool.
(** context_getFlag (FLG_IGNOREQUALS), for ctype_combine. *)
Variable ignore : bool.

Definition one_of (c : ascii) (l : cstr) : bool := existsb (Ascii.eqb c) l.

(** src/exprNode.c 1607-1698: the switch of checkPrintfArgs.  [k] the conversion, [m] the modifier,
    [s] the rest behind the conversion. *)
Definition printf_switch (k : ascii) (m : ct) (s : cstr) : ending + (fty * list msg * cstr) :=
  let combined d := let '(c, gs) := combine ignore d m in inr (FNum c, map Gripe gs, s) in
  if Ascii.eqb k "*" then inr (FNum (Prim P_INT), [], "%"%char :: s)
  else if one_of k (lit "uoxX") then combined (Prim P_UINT)
  else if one_of k (lit "id") then combined (Prim P_INT)
  else if one_of k (lit "eEgGf") then combined (Prim P_DOUBLE)
  else if Ascii.eqb k "c" then inr (FCharInt, [], s)
  else if Ascii.eqb k "s" then inr (FString, [], s)
  else if Ascii.eqb k "[" then
    match set_end s with inl e => inl e | inr s => inr (FString, [], s) end
  else if Ascii.eqb k "p" then inr (FVoidPtr, [], s)
  else if Ascii.eqb k "n" then
    (* 1680: ctype_combine of a pointer always returns the pointer *)
    inr (FPtr (Prim P_INT), map Gripe (snd (combine ignore (Other 0) m)), s)
  else if Ascii.eqb k "m" then inl Uninit
  else inr (FUnknown, [Unrecognised], s).

(** src/exprNode.c 1700-1736: an argument of another type; the unknown type is that of every
    expression (src/ctbase.i 1331-1334). *)
Definition mismatch (n : nat) (t : fty) (a : A) : list msg :=
  match t with
  | FUnknown => []
  | _ => if matches t a then [] else [Mismatch n t]
  end.

(** src/exprNode.c 1762-1768, 2089-2095: after the loop. *)
Definition left_over (i : nat) (args : list A) : list msg :=
  match args with [] => [] | _ => [Arity i (i + List.length args)] end.

(** src/exprNode.c 1478-1768: the loop of checkPrintfArgs.  [args] are the arguments not yet used,
    [i] the number of those used (the variable i less argno). *)
Fixpoint printf_loop (fuel : nat) (s : cstr) (args : list A) (i : nat) : list msg * ending :=
  match fuel with
  | O => ([], NoFuel)
  | S fuel =>
      match find_percent s with
      | None => (left_over i args, Finished)
      | Some s =>
          let s := skip_while isFlagKey s in
          if is "m" s then printf_loop fuel s args i
          else
            let '(m, _, s) := modify (precision (skip_while is_digit s)) in
            match s with
            | [] =>
                (* 1574: over the NUL, which is then treated as an unknown conversion *)
                (match args with
                 | [] => [NoArg i]
                 | a :: _ => if is_error a then [] else [Unrecognised]
                 end, Overrun)
            | k :: s =>
                if Ascii.eqb k "%" then printf_loop fuel s args i
                else
                  match args with
                  | [] => let '(ms, e) := printf_loop fuel s [] (S i) in (NoArg i :: ms, e)
                  | a :: args =>
                      if is_error a then printf_loop fuel s args (S i)
                      else
                        match printf_switch k m s with
                        | inl e => ([], e)
                        | inr (t, ms, s) =>
                            let '(ms', e) := printf_loop fuel s args (S i) in
                            (ms ++ mismatch (S i) t a ++ ms', e)
                        end
                  end
            end
      end
  end.
Definition printf_check (s : cstr) (args : list A) : list msg * ending :=
  printf_loop (S (List.length s)) s args 0.

(** src/exprNode.c 1934-2034: the switch of checkScanfArgs. *)
Definition scanf_switch (k : ascii) (m : ct) (modifier : ascii) (s : cstr)
  : ending + (fty * list msg * cstr) :=
  let combined d := let '(c, gs) := combine ignore d m in inr (FPtr c, map Gripe gs, s) in
  if Ascii.eqb k "*" then inr (FPtr (Prim P_INT), [], "%"%char :: s)
  else if one_of k (lit "uoxX") then combined (Prim P_UINT)
  else if one_of k (lit "id") then combined (Prim P_INT)
  else if one_of k (lit "eEgGf") then
    inr (FPtr (Prim (if Ascii.eqb modifier "l" then P_DOUBLE
                     else if Ascii.eqb modifier "L" then P_LDOUBLE else P_FLOAT)), [], s)
  else if Ascii.eqb k "c" then inr (FCharPtr, [], s)
  else if Ascii.eqb k "s" then inr (FString, [], s)
  else if Ascii.eqb k "[" then
    match set_end s with inl e => inl e | inr s => inr (FString, [], s) end
  else if Ascii.eqb k "p" then inr (FUnknown, [NotInScanf], s)
  else if Ascii.eqb k "n" then inr (FPtr (Prim P_INT), [], s)
  else inr (FUnknown, [Unrecognised], s).

(** src/exprNode.c 1818-2095: the loop of checkScanfArgs. *)
Fixpoint scanf_loop (fuel : nat) (s : cstr) (args : list A) (i : nat) : list msg * ending :=
  match fuel with
  | O => ([], NoFuel)
  | S fuel =>
      match find_percent s with
      | None => (left_over i args, Finished)
      | Some s =>
          let ign := is "*" s in
          let s := if ign then tl s else s in
          let '(m, modifier, s) := modify (skip_while is_digit s) in
          match s with
          | [] =>
              (if ign then []
               else match args with
                    | [] => [NoArg i]
                    | a :: _ => if is_error a then [] else [Unrecognised]
                    end, Overrun)
          | k :: s =>
              if Ascii.eqb k "%" || ign then scanf_loop fuel s args i
              else
                match args with
                | [] => let '(ms, e) := scanf_loop fuel s [] (S i) in (NoArg i :: ms, e)
                | a :: args =>
                    if is_error a then scanf_loop fuel s args (S i)
                    else
                      match scanf_switch k m modifier s with
                      | inl e => ([], e)
                      | inr (t, ms, s) =>
                          let '(ms', e) := scanf_loop fuel s args (S i) in
                          (ms ++ mismatch (S i) t a ++ ms', e)
                      end
                end
          end
      end
  end.
Definition scanf_check (s : cstr) (args : list A) : list msg * ending :=
  scanf_loop (S (List.length s)) s args 0.
End Check.
