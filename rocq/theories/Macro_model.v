(** Macro definitions and macro calls in splint's preprocessor
   (src/cpplib.c).

   Modelled function by function: the character tables
   (initialize_char_syntax), collect_expansion, unsafe_chars, the part of
   cpplib_macroExpand that builds the text of a call (stringified, raw and
   expanded arguments), the trimming of the invented space markers in
   push_macro_expansion and cpplib_getTokenAux, the collection and the
   counting of arguments (macarg, cpplib_macroExpand), and the rescanning of
   object-like macros (the stack of buffers, T_DISABLED,
   cppReader_macroCleanup).

   Simplified: texts are lists of characters, the pointers into the buffers
   are positions in those lists; -traditional is off (its branches are not
   modelled); no rest arguments (`...'); the call stands on one line, so no
   newlines are added after the expansion; the message text is replaced by
   a constructor per kind of message. *)
From Verif Require Import Cbase.
Import ListNotations.
Open Scope nat_scope.
Open Scope list_scope.

(* cpplib.c:561-576 is_idstart; `$' is included since dollars_in_ident is
   TRUE (cpplib.c:954). *)
Definition isIdStart (c : ascii) : bool :=
  ((97 <=? code c)%Z && (code c <=? 122)%Z) || ((65 <=? code c)%Z && (code c <=? 90)%Z)
  || (code c =? 95)%Z || (code c =? 36)%Z.

(* cpplib.c:561-575 is_idchar. *)
Definition isIdChar (c : ascii) : bool := isIdStart c || is_digit c.

(* cpplib.c:579-583 is_hor_space: space, \t, \v, \f, \r. *)
Definition isHor (c : ascii) : bool :=
  (code c =? 32)%Z || (code c =? 9)%Z || (code c =? 11)%Z || (code c =? 12)%Z || (code c =? 13)%Z.

(* cpplib.c:585-590 is_space: the same and \n. *)
Definition isSpace (c : ascii) : bool := isHor c || (code c =? 10)%Z.

(* the two quotation marks of the switches at cpplib.c:1596, 6150. *)
Definition isQuote (c : ascii) : bool := (code c =? 34)%Z || (code c =? 39)%Z.

(* single characters used by the code below: cpplib.c:1578-1663. *)
Definition chA : ascii := "@"%char.
Definition chH : ascii := "#"%char.
Definition chB : ascii := "\"%char.
Definition chL : ascii := "L"%char.
Definition chM : ascii := "-"%char.

(* the characters before the first that does not satisfy p; the loops
   `while (... is_idchar[*p]) p++' at cpplib.c:1722-1725, 4362-4370. *)
Fixpoint take_while (p : ascii -> bool) (s : cstr) : cstr :=
  match s with
  | [] => []
  | c :: r => if p c then c :: take_while p r else []
  end.

(* the first character, if any. *)
Definition hdc (s : cstr) : option ascii := match s with [] => None | c :: _ => Some c end.

(* does the first character exist and satisfy p *)
Definition hdIs (p : ascii -> bool) (s : cstr) : bool :=
  match s with [] => false | c :: _ => p c end.

(* cpplib.c:3928-3968 unsafe_chars: the switch on c1 with its gotos
   unrolled; `letter' is the last line. *)
Definition letterRule (c2 : ascii) : bool := isIdChar c2 || Ascii.eqb c2 "."%char.
Definition unsafe (c1 c2 : ascii) : bool :=
  if Ascii.eqb c1 "+"%char || Ascii.eqb c1 "-"%char
  then Ascii.eqb c2 c1 || Ascii.eqb c2 "="%char || letterRule c2
  else if Ascii.eqb c1 "."%char || is_digit c1 || Ascii.eqb c1 "e"%char || Ascii.eqb c1 "E"%char
          || Ascii.eqb c1 "p"%char || Ascii.eqb c1 "P"%char
  then Ascii.eqb c2 "-"%char || Ascii.eqb c2 "+"%char || letterRule c2
  else if Ascii.eqb c1 chL
  then isQuote c2 || letterRule c2
  else if isIdStart c1 && negb (Ascii.eqb c1 "$"%char)
  then letterRule c2
  else if existsb (Ascii.eqb c1) (lit "<>!%#:^&|*/=")
  then Ascii.eqb c2 c1 || Ascii.eqb c2 "="%char
  else false.

(* src/Headers/cpplib.h:494-512 struct reflist: the text copied before the argument
   (nchars), the argument (argno), raw_before, raw_after, stringify. *)
Record ref := mkRef {
  r_text : cstr; r_arg : nat; r_before : bool; r_after : bool; r_str : bool }.

(* the messages of collect_expansion: cpplib.c:1583, 1655, 1665, 1810 *)
Inductive msg := MStart | MEnd | MNotArg | MNotArg2.

(* the part of DEFINITION that is read when a call is expanded:
   pattern (with the text before each reference), the text after the last
   reference, and the messages. *)
Record defn := mkDefn { d_refs : list ref; d_tail : cstr; d_msgs : list msg }.

(* cpplib.c:1733-1795: the search for the name in the list of parameters;
   create_definition builds the list in reverse (cpplib.c:2258-2273). *)
Fixpoint lookFrom (n : nat) (ps : list cstr) (id : cstr) : option nat :=
  match ps with
  | [] => None
  | p :: r => match lookFrom (S n) r id with
              | Some k => Some k
              | None => if cstr_eqb p id then Some n else None
              end
  end.
Definition look (ps : list cstr) (id : cstr) : option nat := lookFrom 0 ps id.

(* cpplib.c:1637-1644: discard horizontal white space before ##, but not
   before lastp; `cur' is the text since lastp, last character first. *)
Definition dropHor (cur : cstr) : cstr := skip_while isHor cur.

(* cpplib.c:1587-1813, the loop of collect_expansion.  `ps' is None for an
   object-like macro (nargs = -1); `trail' is the white space cut off the end
   of the definition (limit points before it); `cur' is the text written
   since lastp, last character first; `refs' and `ms' are in reverse; `dl' is
   expected_delimiter; `cc' says that concat, and `st' that stringify, points
   to the place where txt begins. *)
Fixpoint collectAux (fuel : nat) (ps : option (list cstr)) (trail : cstr) (txt cur : cstr)
    (refs : list ref) (dl : option ascii) (cc st : bool) (ms : list msg) : option defn :=
  match fuel with
  | O => None
  | S f =>
    match txt with
    | [] =>
        (* cpplib.c:1815-1822 *)
        let cur' := match dl with None => ch_space :: chA :: cur | Some _ => cur end in
        Some (mkDefn (rev refs) (rev cur') (rev ms))
    | c :: rest =>
        if isQuote c then
          (* cpplib.c:1596-1607 *)
          let dl' := match dl with
                     | None => Some c
                     | Some q => if Ascii.eqb c q then None else Some q
                     end in
          collectAux f ps trail rest (c :: cur) refs dl' false false ms
        else if Ascii.eqb c chB then
          (* cpplib.c:1609-1616 *)
          match dl, rest with
          | Some _, d :: rest' => collectAux f ps trail rest' (d :: c :: cur) refs dl false false ms
          | _, _ => collectAux f ps trail rest (c :: cur) refs dl false false ms
          end
        else if Ascii.eqb c chA then
          (* cpplib.c:1618-1626 *)
          match dl with
          | None => collectAux f ps trail rest (c :: c :: cur) refs dl false false ms
          | Some _ => collectAux f ps trail rest (c :: cur) refs dl false false ms
          end
        else if Ascii.eqb c chH && match dl with None => true | Some _ => false end then
          (* cpplib.c:1628-1672 *)
          match rest with
          | d :: rest' =>
              if Ascii.eqb d chH then
                let rest2 := skip_while isHor rest' in
                let atEnd := match rest2 with [] => negb (hdIs isHor trail) | _ => false end in
                collectAux f ps trail rest2 (dropHor cur) refs dl true false
                  (if atEnd then MEnd :: ms else ms)
              else match ps with
              | None => collectAux f ps trail rest (c :: cur) refs dl false false ms
              | Some _ =>
                  let rest2 := skip_while isHor rest in
                  let ok := match rest2 with
                            | [] => false
                            | e :: r => isIdStart e
                                        && negb (Ascii.eqb e chL && hdIs isQuote r)
                            end in
                  collectAux f ps trail rest2 cur refs dl false ok
                    (if ok then ms else MNotArg :: ms)
              end
          | [] => match ps with
                  | None => collectAux f ps trail rest (c :: cur) refs dl false false ms
                  | Some _ => collectAux f ps trail [] cur refs dl false false (MNotArg :: ms)
                  end
          end
        else if isIdChar c && match ps with Some (_ :: _) => true | _ => false end then
          (* cpplib.c:1716-1812 *)
          let id := take_while isIdChar txt in
          let rest' := skip_while isIdChar txt in
          let found :=
            if isIdStart c && negb (Nat.eqb (List.length id) 1 && Ascii.eqb c chL && hdIs isQuote rest')
               && match dl with None => true | Some _ => false end
            then look (match ps with Some l => l | None => [] end) id
            else None in
          match found with
          | Some k =>
              let p1 := skip_while isHor rest' in
              let after := match p1 with a :: b :: _ => Ascii.eqb a chH && Ascii.eqb b chH | _ => false end in
              collectAux f ps trail rest' [] (mkRef (rev cur) k cc after st :: refs) dl false false ms
          | None =>
              collectAux f ps trail rest' (rev id ++ cur) refs dl false false
                (if st then MNotArg2 :: ms else ms)
          end
        else collectAux f ps trail rest (c :: cur) refs dl false false ms
    end
  end.

(* cpplib.c:1512-1585: the definition; `body' ends before the trailing white
   space. *)
Definition collect (ps : option (list cstr)) (body trail : cstr) : option defn :=
  match body with
  | a :: b :: r =>
      if Ascii.eqb a chH && Ascii.eqb b chH
      then collectAux (S (List.length r)) ps trail r [ch_space; chA] [] None false false [MStart]
      else collectAux (S (List.length body)) ps trail body [ch_space; chA] [] None false false []
  | _ => collectAux (S (List.length body)) ps trail body [ch_space; chA] [] None false false []
  end.

(* defn->expansion as one text: cpplib.c:1565-1579. *)
Definition allText (rs : list ref) (tail : cstr) : cstr :=
  List.concat (map r_text rs) ++ tail.

(* the isprint of the C locale at cpplib.c:4246 *)
Definition isPrint (c : ascii) : bool := (32 <=? code c)%Z && (code c <=? 126)%Z.

(* cpplib.c:4249-4254: sprintf "\\%03o" of a character that does not print. *)
Definition octal (c : ascii) : cstr :=
  [chB; digit_char (code c / 64); digit_char (code c / 8 mod 8); digit_char (code c mod 8)].

(* cpplib.c:4249-4254: how many bytes sprintf stores, with the final NUL.
   `(unsigned int) c' of a negative char has eleven octal digits. *)
Definition octalBytes (c : ascii) : Z := if (code c <? 128)%Z then 5 else 13.
(* cpplib.c:4250: the number of bytes reserved for it *)
Definition octalRoom : Z := 4.

(* cpplib.c:4181-4255, the loop over the characters of a stringified
   argument.  `out' is the text written since arg->stringified, last
   character first; `ns' is need_space.  None: a character outside ASCII
   (more bytes are stored than were reserved). *)
Fixpoint strLoop (txt out : cstr) (esc : bool) (ins : option ascii) (ns : Z) : option cstr :=
  match txt with
  | [] => Some out
  | c :: r =>
      let put (out1 : cstr) (ns1 : Z) :=
        let '(esc', ins') :=
          if esc then (false, ins)
          else (Ascii.eqb c chB,
                match ins with
                | Some q => if Ascii.eqb c q then None else Some q
                | None => if isQuote c then Some c else None
                end) in
        let out2 := if Ascii.eqb c ch_dquote
                       || (match ins' with Some _ => true | None => false end && Ascii.eqb c chB)
                    then chB :: out1 else out1 in
        if isPrint c then strLoop r (c :: out2) esc' ins' ns1
        else if (code c <? 128)%Z then strLoop r (rev (octal c) ++ out2) esc' ins' ns1
        else None in
      match ins with
      | None =>
          if isSpace c then
            match out with
            | a :: out' => if Ascii.eqb a chA then strLoop r out' esc ins ns
                           else strLoop r out esc ins (if (ns =? 0)%Z then 1%Z else ns)
            | [] => strLoop r out esc ins (if (ns =? 0)%Z then 1%Z else ns)
            end
          else put (if (0 <? ns)%Z then ch_space :: out else out) 0%Z
      | Some _ => put out ns
      end
  end.

(* cpplib.c:4169-4260: the stringified argument, with its quotes. *)
Definition stringify (raw : cstr) : option cstr :=
  match strLoop raw [ch_dquote] false None (-1)%Z with
  | None => None
  | Some out => Some (rev (ch_dquote :: out))
  end.

(* cpplib.c:4378-4409: the end of a raw argument that is followed by ##.
   The text is given last character first; `-' after an odd number of
   newlines goes with the last newline. *)
Fixpoint countNl (s : cstr) : nat :=
  match s with
  | c :: r => if (code c =? 10)%Z then S (countNl r) else 0
  | [] => 0
  end.
Fixpoint dropTail (fuel : nat) (s : cstr) : cstr :=
  match fuel with
  | O => s
  | S f =>
    match s with
    | [] => []
    | c :: r =>
        if isSpace c then dropTail f r
        else if Ascii.eqb c chM then
          if Nat.odd (countNl r) then dropTail f (tl r) else s
        else s
    end
  end.

(* cpplib.c:4350-4413: a raw argument (next to ##).  `next' is what stands
   behind the argument in the token buffer: the test `p1[0] == '@' && p1[1]
   == '-'' may read it.  None: p1 has passed l1, and memcpy is called with a
   negative length. *)
Definition rawArg (before after : bool) (raw next : cstr) : option cstr :=
  let strip (front mid : cstr) : cstr :=
    front ++ (if after then rev (dropTail (List.length mid) (rev mid)) else mid) in
  if before then
    let s := skip_while isSpace raw in
    let ids := take_while isIdChar s in
    let mid := skip_while isIdChar s in
    match mid with
    | [] => match next with
            | a :: m :: _ => if Ascii.eqb a chA && Ascii.eqb m chM then None else Some (strip ids [])
            | _ => Some (strip ids [])
            end
    | [a] => match next with
             | m :: _ => if Ascii.eqb a chA && Ascii.eqb m chM then None else Some (strip ids mid)
             | [] => Some (strip ids mid)
             end
    | a :: m :: r => if Ascii.eqb a chA && Ascii.eqb m chM then Some (strip ids r) else Some (strip ids mid)
    end
  else Some (strip [] raw).

(* cpplib.c:2960-2995 struct argdata: the argument as written and as
   expanded. *)
Record arg := mkArg { a_raw : cstr; a_exp : cstr }.
Definition noArg : arg := mkArg [] [].

(* cpplib.c:4165-4294: what is put in the token buffer behind the raw
   arguments: each stringified and each expanded argument, once. *)
Fixpoint extras (rs : list ref) (args : list arg) (doneS doneE : list nat) : cstr :=
  match rs with
  | [] => []
  | r :: rest =>
      let a := nth (r_arg r) args noArg in
      if r_str r then
        if existsb (Nat.eqb (r_arg r)) doneS then extras rest args doneS doneE
        else match stringify (a_raw a) with Some s => s | None => [] end
             ++ extras rest args (r_arg r :: doneS) doneE
      else if r_before r || r_after r then extras rest args doneS doneE
      else if existsb (Nat.eqb (r_arg r)) doneE then extras rest args doneS doneE
      else a_exp a ++ extras rest args doneS (r_arg r :: doneE)
  end.
Definition behind (rs : list ref) (args : list arg) (k : nat) : cstr :=
  List.concat (map a_raw (skipn (S k) args)) ++ extras rs args [] [].

(* the last character of the text written so far; cpplib.c:4424, 4437. *)
Definition lastc (s : cstr) : option ascii := hdc (rev s).

(* cpplib.c:4421-4428, 4434-4441: the marker between two texts. *)
Definition marker (o : option ascii) (s : cstr) : cstr :=
  match o, s with
  | Some c1, c2 :: _ => if unsafe c1 c2 then [chA; ch_space] else []
  | _, _ => []
  end.

(* cpplib.c:4307-4475: the expansion of a call of a macro with parameters;
   `all' is the whole pattern.  None: undefined behaviour. *)
Fixpoint build (all : list ref) (args : list arg) (rs : list ref) (tail out : cstr) : option cstr :=
  match rs with
  | [] => Some (out ++ tail)
  | r :: rest =>
      let out1 := out ++ r_text r in
      let a := nth (r_arg r) args noArg in
      if r_str r then
        match stringify (a_raw a) with
        | None => None
        | Some s => build all args rest tail (out1 ++ s)
        end
      else if r_before r || r_after r then
        match rawArg (r_before r) (r_after r) (a_raw a) (behind all args (r_arg r)) with
        | None => None
        | Some s => build all args rest tail (out1 ++ s)
        end
      else
        let out2 := out1 ++ marker (lastc out1) (a_exp a) ++ a_exp a in
        build all args rest tail (out2 ++ marker (lastc out2) (allText rest tail))
  end.

(* cpplib.c:4138-4145: macros without parameters are copied. *)
Definition expandCall (ps : option (list cstr)) (d : defn) (args : list arg) : option cstr :=
  match ps with
  | Some (_ :: _) => build (d_refs d) args (d_refs d) (d_tail d) []
  | _ => Some (allText (d_refs d) (d_tail d))
  end.

(* cpplib.c:4555-4580: the marker at the front of the expansion is skipped
   when it cannot be needed. *)
Definition headTrim (x : cstr) : cstr :=
  match x with
  | a :: b :: c :: r =>
      if Ascii.eqb a chA && Ascii.eqb b ch_space
         && (isIdChar c || Ascii.eqb c "("%char || isQuote c)
      then c :: r else x
  | _ => x
  end.

(* cpplib.c:6682-6698: the marker at the end is dropped when the character
   before it cannot join with the next character of the buffer below (None:
   that buffer is at its end). *)
Definition tailTrim (x : cstr) (below : option ascii) : cstr :=
  match rev x with
  | sp :: a :: c1 :: r =>
      if Ascii.eqb sp ch_space && Ascii.eqb a chA
         && match below with None => true | Some c2 => negb (unsafe c1 c2) end
      then rev (c1 :: r) else x
  | _ => x
  end.

(* what is read from the expansion when it goes straight to the output:
   cpplib.c:6378-6403 drops the `@' of the marker `@ ' (output_escapes is 0);
   used on texts where every `@' belongs to such a marker. *)
Definition view (x : cstr) : cstr := filter (fun c => negb (Ascii.eqb c chA)) x.

(* ------------------------------------------------------------------ *)
(* Tokens as cpplib_getTokenAux reads them from one buffer.  Not modelled:
   comments and directives (a comment gives TStuck, `#' is an ordinary
   character); `...' is read as three tokens. *)
Inductive kind := KName | KNum | KStr | KSpace | KLparen | KRparen | KComma | KOther.

(* cpplib.c:6157-6276: the rest of a string or character constant; None if
   the buffer ends first. *)
Fixpoint strRest (q : ascii) (esc : bool) (s : cstr) : option (cstr * cstr) :=
  match s with
  | [] => None
  | c :: r =>
      if esc then match strRest q false r with Some (a, b) => Some (c :: a, b) | None => None end
      else if Ascii.eqb c q then Some ([c], r)
      else match strRest q (Ascii.eqb c chB) r with Some (a, b) => Some (c :: a, b) | None => None end
  end.

(* cpplib.c:6465-6490: the rest of a number, c2 is the character before. *)
Fixpoint numRest (c2 : ascii) (s : cstr) : cstr * cstr :=
  match s with
  | [] => ([], [])
  | c :: r =>
      if isIdChar c || Ascii.eqb c "."%char
         || (existsb (Ascii.eqb c2) (lit "eEpP") && (Ascii.eqb c "+"%char || Ascii.eqb c "-"%char))
      then let '(a, b) := numRest c r in (c :: a, b)
      else ([], s)
  end.

(* cpplib.c:6283-6376, 6434-6452: how many characters the operator that
   begins with c has. *)
Definition opLen (c : ascii) (r : cstr) : nat :=
  let is2 (p : ascii -> bool) := hdIs p r in
  if existsb (Ascii.eqb c) (lit "&+|") then
    if is2 (fun d => Ascii.eqb d c || Ascii.eqb d "="%char) then 2 else 1
  else if existsb (Ascii.eqb c) (lit "*!%=^/") then
    if is2 (Ascii.eqb "="%char) then 2 else 1
  else if Ascii.eqb c chM then
    if is2 (fun d => Ascii.eqb d chM || Ascii.eqb d "="%char || Ascii.eqb d ">"%char) then 2 else 1
  else if existsb (Ascii.eqb c) (lit "<>") then
    if is2 (Ascii.eqb "="%char) then 2
    else if is2 (Ascii.eqb c) then if hdIs (Ascii.eqb "="%char) (tl r) then 3 else 2
    else 1
  else 1.

(* cpplib.c:6025-6750: one token: its kind, its text, and the rest; TEnd at
   the end of the buffer, TStuck at a comment or in an unterminated
   literal. *)
Inductive tokres := TEnd | TStuck | TTok (k : kind) (t rest : cstr).
Definition getTok (s : cstr) : tokres :=
  match s with
  | [] => TEnd
  | c :: r =>
      if isQuote c then
        match strRest c false r with Some (a, b) => TTok KStr (c :: a) b | None => TStuck end
      else if Ascii.eqb c chL && hdIs isQuote r then
        match r with
        | q :: r' => match strRest q false r' with Some (a, b) => TTok KStr (c :: q :: a) b | None => TStuck end
        | [] => TEnd
        end
      else if isIdStart c then TTok KName (take_while isIdChar s) (skip_while isIdChar s)
      else if is_digit c then let '(a, b) := numRest "."%char r in TTok KNum (c :: a) b
      else if Ascii.eqb c "."%char && hdIs is_digit r then
        match r with
        | d :: r' => let '(a, b) := numRest "."%char r' in TTok KNum (c :: d :: a) b
        | [] => TEnd
        end
      else if isHor c && negb (code c =? 12)%Z then TTok KSpace (c :: take_while isHor r) (skip_while isHor r)
      else if Ascii.eqb c "("%char then TTok KLparen [c] r
      else if Ascii.eqb c ")"%char then TTok KRparen [c] r
      else if Ascii.eqb c ","%char then TTok KComma [c] r
      else if Ascii.eqb c "/"%char && hdIs (fun d => Ascii.eqb d "/"%char || Ascii.eqb d "*"%char) r
      then TStuck
      else TTok KOther (firstn (opLen c r) s) (skipn (opLen c r) s)
  end.

(* ------------------------------------------------------------------ *)
(* Collection of arguments *)

(* cpplib.c:3339-3394 macarg (rest_args = 0), on a buffer without macro
   buffers above it: the text up to the comma or parenthesis that ends the
   argument, which of the two it was (true: comma), and the rest.  `out' is
   the text so far, last character first. *)
Inductive argres := AEof | AStuck | AOut | ADone (comma : bool) (raw rest : cstr).
Fixpoint macarg (fuel : nat) (paren : nat) (txt out : cstr) : argres :=
  match fuel with
  | O => AOut
  | S f =>
    match getTok txt with
    | TEnd => AEof
    | TStuck => AStuck
    | TTok KLparen t rest => macarg f (S paren) rest (rev t ++ out)
    | TTok KRparen t rest =>
        match paren with
        | O => ADone false (rev out) rest
        | S p => macarg f p rest (rev t ++ out)
        end
    | TTok KComma t rest =>
        match paren with
        | O => ADone true (rev out) rest
        | S _ => macarg f paren rest (rev t ++ out)
        end
    | TTok _ t rest => macarg f paren rest (rev t ++ out)
    end
  end.

(* cpplib.c:4022-4059: the loop over the arguments; all of them are
   returned, the code keeps the first nargs. *)
Fixpoint macargs (fuel : nat) (txt : cstr) : option (list cstr * cstr) :=
  match fuel with
  | O => None
  | S f =>
    match macarg (S (List.length txt)) 0 txt [] with
    | ADone false raw rest => Some ([raw], rest)
    | ADone true raw rest =>
        match macargs f rest with
        | Some (l, r) => Some (raw :: l, r)
        | None => None
        end
    | _ => None
    end
  end.
Definition collectArgs (txt : cstr) : option (list cstr * cstr) := macargs (S (List.length txt)) txt.

(* cpplib.c:4061-4085: how many arguments were given. *)
Definition countArgs (nargs : nat) (l : list cstr) : nat :=
  match l with
  | [a] =>
      let bp := match nargs with O => skip_while isSpace a | _ => a end in
      match bp with [] => 0 | _ => 1 end
  | _ => List.length l
  end.

(* cpplib.c:4087-4127: the message about the number of arguments. *)
Inductive argmsg := AGiven | ANone | AJustOne | AOnly (n : nat) | ATooMany (n : nat).
Definition argComplaint (nargs : nat) (l : list cstr) : option argmsg :=
  let i := countArgs nargs l in
  if (nargs =? 0) && (0 <? i) then Some AGiven
  else if i <? nargs then
    if i =? 0 then Some ANone else if i =? 1 then Some AJustOne else Some (AOnly i)
  else if nargs <? i then Some (ATooMany i)
  else None.

(* ------------------------------------------------------------------ *)
(* Rescanning of object-like macros *)

(* the table: the name and the text of the definition. *)
Definition table := list (cstr * cstr).
Fixpoint bodyOf (tb : table) (n : cstr) : option cstr :=
  match tb with
  | [] => None
  | (m, b) :: r => if cstr_eqb m n then Some b else bodyOf r n
  end.

(* the expansion kept in the definition: collect_expansion with nargs = -1
   (cpplib.c:1512). *)
Definition objText (body : cstr) : cstr :=
  match collect None body [] with
  | Some d => allText (d_refs d) (d_tail d)
  | None => []
  end.

(* a buffer: the macro it comes from (None: the file) and the unread text;
   has_escapes is set for the buffers of macros (cpplib.c:4523). *)
Record frame := mkFrame { f_mac : option cstr; f_text : cstr }.

(* T_DISABLED: set when the expansion is pushed (cpplib.c:4533-4534), taken
   back when its buffer is popped (cpplib.c:992-1007); so a macro is disabled
   while a buffer of it is on the stack. *)
Definition disabled (st : list frame) (n : cstr) : bool :=
  existsb (fun f => match f_mac f with Some m => cstr_eqb m n | None => false end) st.

(* the state of the scan: the buffers, innermost first, and what has been
   written, last token first. *)
Record scan := mkScan { s_stack : list frame; s_out : list cstr }.

Inductive sres := SGo (s : scan) | SStop (out : list cstr) | SBad.

(* cpplib.c:6378-6409: `@' in the buffer of a macro. *)
Definition atEsc (r : cstr) : option (cstr * cstr) :=
  match r with
  | [] => Some ([chA], [])
  | c :: r' =>
      if Ascii.eqb c chM then Some (take_while isIdChar r', skip_while isIdChar r')
      else if isSpace c then Some ([c], r')
      else Some ([c], r')
  end.

(* one turn of cpplib_getTokenAux (6025-6750) with the output written by
   cppReader_scanBuffer: the end of a buffer, a marker, a name that is an
   enabled macro (push_macro_expansion, 4539-4582, and the trimming of the
   last marker, 6682-6698), or a token that is copied. *)
Definition scanStep (tb : table) (s : scan) : sres :=
  match s_stack s with
  | [] => SBad
  | mkFrame None [] :: _ => SStop (rev (s_out s))
  | mkFrame (Some _) [] :: below => SGo (mkScan below (s_out s))
  | mkFrame m txt :: below =>
      match m, txt with
      | Some _, c :: r =>
          if Ascii.eqb c chA then
            match atEsc r with
            | Some (t, r') => SGo (mkScan (mkFrame m r' :: below) (t :: s_out s))
            | None => SBad
            end
          else
            match getTok txt with
            | TTok KName t r' =>
                match bodyOf tb t with
                | Some b =>
                    if disabled (s_stack s) t
                    then SGo (mkScan (mkFrame m r' :: below) (t :: s_out s))
                    else SGo (mkScan (mkFrame (Some t) (tailTrim (headTrim (objText b)) (hdc r'))
                                      :: mkFrame m r' :: below) (s_out s))
                | None => SGo (mkScan (mkFrame m r' :: below) (t :: s_out s))
                end
            | TTok _ t r' => SGo (mkScan (mkFrame m r' :: below) (t :: s_out s))
            | _ => SBad
            end
      | _, _ =>
          match getTok txt with
          | TTok KName t r' =>
              match bodyOf tb t with
              | Some b =>
                  if disabled (s_stack s) t
                  then SGo (mkScan (mkFrame m r' :: below) (t :: s_out s))
                  else SGo (mkScan (mkFrame (Some t) (tailTrim (headTrim (objText b)) (hdc r'))
                                    :: mkFrame m r' :: below) (s_out s))
              | None => SGo (mkScan (mkFrame m r' :: below) (t :: s_out s))
              end
          | TTok _ t r' => SGo (mkScan (mkFrame m r' :: below) (t :: s_out s))
          | _ => SBad
          end
      end
  end.

(* cppReader_scanBuffer: the loop over the tokens. *)
Fixpoint scanRun (fuel : nat) (tb : table) (s : scan) : option (list cstr) :=
  match fuel with
  | O => None
  | S f => match scanStep tb s with
           | SGo s' => scanRun f tb s'
           | SStop out => Some out
           | SBad => None
           end
  end.

Definition scanText (txt : cstr) : scan := mkScan [mkFrame None txt] [].
