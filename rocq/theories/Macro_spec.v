(* What the replacement of macros is to do, in terms of the C standard's
   preprocessing tokens.  Independent of the model: the lexical grammar is
   given as an automaton that reads a text by longest match. *)
From Verif Require Import Cbase.
Import ListNotations.
Open Scope nat_scope.
Open Scope list_scope.

(* characters *)
Definition inSet (s : cstr) (c : ascii) : bool := existsb (Ascii.eqb c) s.
Definition digits : cstr := lit "0123456789".
Definition letters : cstr := lit "abcdefghijklmnopqrstuvwxyzABCDEFGHIJKLMNOPQRSTUVWXYZ_$".
Definition white (c : ascii) : bool :=
  inSet [" "%char; "009"%char; "010"%char; "011"%char; "012"%char; "013"%char] c.
Definition digitC (c : ascii) : bool := inSet digits c.
Definition letterC (c : ascii) : bool := inSet letters c.
Definition wordC (c : ascii) : bool := letterC c || digitC c.
Definition quoteC (c : ascii) : bool := inSet [""""%char; "'"%char] c.

(* the operators of two and three characters *)
Definition longOps : list cstr :=
  map lit ["++"; "+="; "--"; "-="; "->"; "<<"; "<="; "<<="; ">>"; ">="; ">>="; "&&"; "&=";
           "||"; "|="; "=="; "!="; "*="; "/="; "%="; "^="; "##"]%string.

(* what has been read of the present piece *)
Inductive lst :=
| LWhite
| LId (isL : bool)          (* identifier; is it just `L' *)
| LNum (e : bool)           (* number; does it end with an exponent letter *)
| LLit (q : ascii) (esc : bool)   (* literal, not closed *)
| LEnd                      (* literal, closed *)
| LOp (s : cstr)
| LBlk (star : bool)        (* block comment, not closed *)
| LBlkEnd
| LLine.                    (* line comment *)

Definition start (c : ascii) : lst :=
  if white c then LWhite
  else if letterC c then LId (Ascii.eqb c "L"%char)
  else if digitC c then LNum false
  else if quoteC c then LLit c false
  else LOp [c].

(* the state after one more character, if the piece goes on *)
Definition ext (st : lst) (c : ascii) : option lst :=
  match st with
  | LWhite => if white c then Some LWhite else None
  | LId isL =>
      if wordC c then Some (LId false)
      else if isL && quoteC c then Some (LLit c false) else None
  | LNum e =>
      if wordC c || Ascii.eqb c "."%char then Some (LNum (inSet (lit "eEpP") c))
      else if e && inSet (lit "+-") c then Some (LNum false) else None
  | LLit q esc =>
      if esc then Some (LLit q false)
      else if Ascii.eqb c q then Some LEnd
      else Some (LLit q (Ascii.eqb c "\"%char))
  | LEnd => None
  | LOp s =>
      if cstr_eqb (s ++ [c]) (lit "/*") then Some (LBlk false)
      else if cstr_eqb (s ++ [c]) (lit "//") then Some LLine
      else if cstr_eqb s (lit ".") && digitC c then Some (LNum false)
      else if existsb (cstr_eqb (s ++ [c])) longOps then Some (LOp (s ++ [c])) else None
  | LBlk star =>
      if star && Ascii.eqb c "/"%char then Some LBlkEnd else Some (LBlk (Ascii.eqb c "*"%char))
  | LBlkEnd => None
  | LLine => if Ascii.eqb c "010"%char then None else Some LLine
  end.

(* the pieces of a text: the state reached and the spelling *)
Definition piece := (lst * list ascii)%type.
Fixpoint piecesFrom (st : lst) (cur : cstr) (txt : cstr) : list piece :=
  match txt with
  | [] => [(st, rev cur)]
  | c :: r =>
      match ext st c with
      | Some st' => piecesFrom st' (c :: cur) r
      | None => (st, rev cur) :: piecesFrom (start c) [c] r
      end
  end.
Definition pieces (txt : cstr) : list piece :=
  match txt with [] => [] | c :: r => piecesFrom (start c) [c] r end.

Definition blank (p : piece) : bool :=
  match fst p with LWhite | LBlkEnd | LLine => true | _ => false end.

(* the preprocessing tokens of a list of pieces, of a text *)
Definition nonblank (l : list piece) : list cstr := map snd (filter (fun p => negb (blank p)) l).
Definition tokens (txt : cstr) : list cstr := nonblank (pieces txt).

(* a piece that could swallow whatever comes after it: a literal or a
   comment that is not closed *)
Definition isOpen (st : lst) : bool :=
  match st with LLit _ _ | LBlk _ | LLine => true | _ => false end.
Definition allClosed (l : list piece) : Prop := forall p, In p l -> isOpen (fst p) = false.

(* ---- stringification: 6.10.3.2 of the standard ---- *)

(* in a literal, a backslash is put before each quotation mark and each
   backslash *)
Fixpoint escapeLit (s : cstr) : cstr :=
  match s with
  | [] => []
  | c :: r => if Ascii.eqb c """"%char || Ascii.eqb c "\"%char
              then "\"%char :: c :: escapeLit r else c :: escapeLit r
  end.
Definition spellIn (p : piece) : cstr := match fst p with LEnd => escapeLit (snd p) | _ => snd p end.

(* white space between tokens becomes one space, at the ends nothing *)
Fixpoint spellRest (l : list piece) : cstr :=
  match l with
  | [] => []
  | p :: r =>
      if blank p
      then match r with [] => [] | _ => " "%char :: spellRest r end
      else spellIn p ++ spellRest r
  end.
Definition spellAll (l : list piece) : cstr :=
  match l with
  | p :: r => if blank p then spellRest r else spellRest l
  | [] => []
  end.
Definition stringOf (raw : cstr) : cstr :=
  """"%char :: spellAll (pieces raw) ++ [""""%char].

(* ---- substitution: 6.10.3.1 of the standard ---- *)

(* the argument that belongs to a parameter *)
Fixpoint argOf {A} (ps : list cstr) (args : list A) (n : cstr) : option A :=
  match ps, args with
  | p :: ps', a :: args' => if cstr_eqb p n then Some a else argOf ps' args' n
  | _, _ => None
  end.

(* a piece of the result: taken over from the definition or an argument, or
   a string made by `#' *)
Inductive item := Own (p : piece) | Made (s : cstr).

Definition isHash (p : piece) : bool := match fst p with LOp s => cstr_eqb s (lit "#") | _ => false end.
Definition isWord (p : piece) : bool := match fst p with LId _ => true | _ => false end.
Definition isWhite (p : piece) : bool := match fst p with LWhite => true | _ => false end.

(* `#' goes with the parameter after it; `raw' gives the argument as
   written, `exp' the argument after replacement of the macros in it *)
Fixpoint substItems (raw exp : cstr -> option cstr) (l : list piece) : list item :=
  match l with
  | [] => []
  | p :: r =>
      if isHash p then
        match r with
        | q :: r' =>
            if isWhite q then
              match r' with
              | q' :: r'' =>
                  match raw (snd q') with
                  | Some a => Made (stringOf a) :: substItems raw exp r''
                  | None => Own p :: substItems raw exp r
                  end
              | [] => Own p :: substItems raw exp r
              end
            else match raw (snd q) with
                 | Some a => Made (stringOf a) :: substItems raw exp r'
                 | None => Own p :: substItems raw exp r
                 end
        | [] => [Own p]
        end
      else if isWord p then
        match exp (snd p) with
        | Some e => map Own (pieces e) ++ substItems raw exp r
        | None => Own p :: substItems raw exp r
        end
      else Own p :: substItems raw exp r
  end.

Definition itemBlank (i : item) : bool := match i with Own p => blank p | Made _ => false end.
Definition itemText (i : item) : cstr := match i with Own p => snd p | Made s => s end.
Definition itemTokens (l : list item) : list cstr :=
  map itemText (filter (fun i => negb (itemBlank i)) l).

(* pairs that the markers do not keep apart: `/' before `*', `-' before `>',
   a `$' at the end of a word before a character that would continue it, and
   `L' before a string made by `#' *)
Definition ends (s : cstr) (c : ascii) : bool :=
  match rev s with d :: _ => Ascii.eqb d c | [] => false end.
Definition begins (p : ascii -> bool) (s : cstr) : bool :=
  match s with c :: _ => p c | [] => false end.
Definition clashT (t u : cstr) : bool :=
  (cstr_eqb t (lit "/") && begins (Ascii.eqb "*"%char) u)
  || (cstr_eqb t (lit "-") && begins (Ascii.eqb ">"%char) u)
  || (ends t "$"%char && begins (fun c => wordC c || Ascii.eqb c "."%char) u).
Definition clash (i j : item) : bool :=
  match j with
  | Own q => clashT (itemText i) (snd q)
  | Made s => cstr_eqb (itemText i) (lit "L")
  end.
Fixpoint apart (l : list item) : Prop :=
  match l with
  | i :: (j :: _) as r => clash i j = false /\ apart r
  | _ => True
  end.

(* the words in a number: what is left between the characters that cannot be
   in an identifier, as `1' and `f' in `1.f' *)
Fixpoint partsFrom (cur : cstr) (s : cstr) : list cstr :=
  match s with
  | [] => [rev cur]
  | c :: r => if wordC c then partsFrom (c :: cur) r else rev cur :: partsFrom [] r
  end.
Definition isNumber (p : piece) : bool := match fst p with LNum _ => true | _ => false end.

(* every `#' stands before a parameter, as the standard demands *)
Fixpoint hashesOk (isPar : cstr -> bool) (l : list piece) : bool :=
  match l with
  | [] => true
  | p :: r =>
      (if isHash p then
         match r with
         | q :: r' => if isWhite q then match r' with q' :: _ => isWord q' && isPar (snd q') | [] => false end
                      else isWord q && isPar (snd q)
         | [] => false
         end
       else true) && hashesOk isPar r
  end.

(* the names that stand behind a `#' *)
Fixpoint hashed (l : list piece) : list cstr :=
  match l with
  | [] => []
  | p :: r =>
      (if isHash p then
         match r with
         | q :: r' => if isWhite q then match r' with q' :: _ => [snd q'] | [] => [] end else [snd q]
         | [] => []
         end
       else []) ++ hashed r
  end.

(* the definitions the theorem is about *)
Definition memS (ps : list cstr) (n : cstr) : bool := existsb (cstr_eqb n) ps.
Definition onLine (c : ascii) : bool := negb (Ascii.eqb c "010"%char).
Record bodyOk (ps : list cstr) (body : cstr) : Prop := mkBodyOk {
  (* no literal is left open, no comments (they are taken out before) *)
  bo_closed : allClosed (pieces body);
  bo_nocomment : forall p, In p (pieces body) -> fst p <> LBlkEnd;
  bo_noat : ~ In "@"%char body;
  bo_line : ~ In "010"%char body;
  bo_nopaste : forall p, In p (pieces body) -> snd p <> lit "##";
  bo_hash : hashesOk (memS ps) (pieces body) = true;
  bo_number : forall p w, In p (pieces body) -> isNumber p = true ->
                In w (partsFrom [] (snd p)) -> ~ In w ps }.

(* a parameter is an identifier *)
Definition paramOk (p : cstr) : Prop :=
  match p with c :: r => letterC c = true /\ forallb wordC r = true | [] => False end.

(* an expanded argument: the markers `@ ' put there by the expansion are
   read as spaces *)
Fixpoint marksOk (s : cstr) : bool :=
  match s with
  | [] => true
  | c :: r => (if Ascii.eqb c "@"%char then begins (Ascii.eqb " "%char) r else true) && marksOk r
  end.
Definition unmark (s : cstr) : cstr := filter (fun c => negb (Ascii.eqb c "@"%char)) s.

(* an argument as written that can be made into a string *)
Record rawOk (raw : cstr) : Prop := mkRawOk {
  ro_closed : allClosed (pieces raw);
  ro_nocomment : forall p, In p (pieces raw) -> fst p <> LBlkEnd;
  ro_noat : ~ In "@"%char raw;
  ro_noback : forall p, In p (pieces raw) -> snd p <> lit "\";
  ro_print : forall p c, In p (pieces raw) -> In c (snd p) ->
               isWhite p = true \/ (32 <= code c <= 126)%Z }.

(* ---- rescanning: 6.10.3.4, macros without parameters ---- *)

(* `nest d hid l': replace the names in l that are macros and not hidden;
   the replacement is read with the name hidden.  d bounds the depth; one
   more than the number of macros is enough, since each level hides one. *)
Section Rescan.
  Variable body : cstr -> option (list (bool * cstr)).   (* (is it a name, spelling) *)
  Fixpoint nest (d : nat) (hid : list cstr) (l : list (bool * cstr)) : list cstr :=
    match d with
    | O => []
    | S d' =>
        flat_map (fun t => match t with
          | (true, n) =>
              match body n with
              | Some b => if memS hid n then [n] else nest d' (n :: hid) b
              | None => [n]
              end
          | (false, s) => [s]
          end) l
    end.
End Rescan.

(* ---- arguments of a call ---- *)

(* a sequence of tokens in which the parentheses match; `top' says that a
   comma may stand outside of them *)
Inductive tk := TOpenP | TCloseP | TComma | TOther.
Inductive balanced : bool -> list tk -> Prop :=
| BNil : forall top, balanced top []
| BOther : forall top l, balanced top l -> balanced top (TOther :: l)
| BComma : forall l, balanced true l -> balanced true (TComma :: l)
| BParen : forall top m l, balanced true m -> balanced top l ->
    balanced top (TOpenP :: m ++ TCloseP :: l).

(* plain text: pieces that are closed, no comment, without the characters
   `@' and `#' *)
Definition sp (p : piece) : Prop :=
  isOpen (fst p) = false /\ fst p <> LBlkEnd /\ ~ In "@"%char (snd p) /\ ~ In "#"%char (snd p).

(* the tokens of a text, with a flag for the identifiers *)
Definition spTok (s : cstr) : list (bool * cstr) :=
  map (fun p => (isWord p, snd p)) (filter (fun p => negb (blank p)) (pieces s)).
(* what is left of a list of written texts without the white space *)
Definition visible (l : list cstr) : list cstr := filter (fun t => negb (forallb white t)) l.

(* arguments with the commas between them and the parenthesis behind them *)
Fixpoint joined (l : list cstr) : cstr :=
  match l with
  | [] => []
  | [a] => a ++ [")"%char]
  | a :: r => a ++ [","%char] ++ joined r
  end.
Definition kindOf (p : piece) : tk :=
  if cstr_eqb (snd p) (lit "(") then TOpenP
  else if cstr_eqb (snd p) (lit ")") then TCloseP
  else if cstr_eqb (snd p) (lit ",") then TComma
  else TOther.
(* an argument: parentheses match, commas only inside of parentheses *)
Definition argText (a : cstr) : Prop :=
  (forall p, In p (pieces a) -> sp p) /\ balanced false (map kindOf (pieces a)).

(* ---- the place of a call ---- *)

(* how the text before the call ends *)
Definition lastState (pre : cstr) : lst :=
  match rev (pieces pre) with p :: _ => fst p | [] => LWhite end.
(* the name of the macro, which begins with the letter n, is a token of its
   own behind pre *)
Definition fresh (pre : cstr) (n : ascii) : Prop :=
  letterC n = true /\ (lastState pre = LWhite \/ ext (lastState pre) n = None).
Definition nextOf (post : cstr) : list item := map Own (firstn 1 (pieces post)).

(* no `##' in the text *)
Fixpoint noHH (s : cstr) : bool :=
  match s with
  | a :: (b :: _) as r => negb (Ascii.eqb a "#"%char && Ascii.eqb b "#"%char) && noHH r
  | _ => true
  end.

(* ---- the operator ## ---- *)
Definition ltrim (s : cstr) : cstr := skip_while white s.
Definition rtrim (s : cstr) : cstr := rev (skip_while white (rev s)).
Definition hblank (c : ascii) : bool := white c && negb (Ascii.eqb c "010"%char).
(* the mark `@-', which the preprocessor puts before names it will not expand
   again, and `-' behind a newline at the end *)
Fixpoint noMark (s : cstr) : bool :=
  match s with
  | a :: (b :: _) as r => negb (Ascii.eqb a "@"%char && Ascii.eqb b "-"%char) && noMark r
  | _ => true
  end.
