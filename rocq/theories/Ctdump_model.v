(** Model of writing the type table to a library and reading it back:
    /repo/src/cttable.i:108-196, 308-407, /repo/src/ctbase.i:890-1145,
    /repo/src/ctype.c:1978-2009, /repo/src/enumNameList.c:206-258,
    /repo/src/reader.c:234-250.

    Simplifications:
    - a parameter list and a field list are the text written for them
      (uentryList.c:556-594): items that each end in a comma, closed by ')' or
      '}'; reading them back is taking the text up to that character;
    - the side effects of reading on the counter of unnamed tags (setTagNo) and on
      the record of implicit alternate types (ctype_recordConj) are left out;
    - internal errors stop with [RBug]. *)
From Verif Require Import Cbase Reader_model Ctab_model.
From Verif Require Dump_model.

Section Dump.
(** usymtab_convertTypeId: the number a type name has in the library. *)
Variable conv : Z -> Z.
(** ctype.c:1994-2003: is this type number a defined type named like the boolean
    type (context_getBoolName)? *)
Variable named_bool : Z -> bool.

(** ctype.c:1984-2009  ctype_dump *)
Definition ctype_dump (c : Z) : cstr :=
  if c <? 0 then lit "0"
  else if named_bool c then dec CTX_BOOL
  else dec c.

(** enumNameList.c:206-221  enumNameList_dump *)
Definition enum_dump (l : list cstr) : cstr :=
  match l with
  | [] => []
  | a :: r => a ++ List.concat (map (fun x => ","%char :: x) r)
  end.

(** ctbase.i:1069-1145  ctbase_dump; the null type and the internal marker of
    parenthesised declarators are both written "?". *)
Definition ctbase_dump (cb : ctbase) : cstr :=
  match cb with
  | CBundef => lit "?"
  | CBunknown => lit "u"
  | CBbool => lit "b"
  | CBprim p => "p"%char :: dec p ++ lit "|"
  | CBuser t => "s"%char :: dec (conv t) ++ lit "|"
  | CBabst t => "a"%char :: dec (conv t) ++ lit "|"
  | CBnumabst t => "n"%char :: dec (conv t) ++ lit "|"
  | CBptr b => "t"%char :: ctype_dump b ++ lit "|"
  | CBarray b => "y"%char :: ctype_dump b ++ lit "|"
  | CBfixed b n => "F"%char :: ctype_dump b ++ lit "/" ++ dec (wrap32 n) ++ lit "|"
  | CBfcn r ps => "f"%char :: ctype_dump r ++ lit " (" ++ ps ++ lit ")"
  | CBstruct n fs => "S"%char :: n ++ lit "{" ++ fs ++ lit "}"
  | CBunion n fs => "U"%char :: n ++ lit "{" ++ fs ++ lit "}"
  | CBenum n ms => "e"%char :: n ++ lit "{" ++ enum_dump ms ++ lit "}"
  | CBconj ex a b => "C"%char :: dec (if ex then 1 else 0) ++ lit "." ++ ctype_dump a
                     ++ lit "/" ++ ctype_dump b ++ lit "|"
  | CBexpfcn _ => lit "?"
  | CBenumlist => lit "u"
  end.

(** cttable.i:108-151  ctentry_dump, without the end of line. *)
Definition ctentry_dump (e : entry) : cstr :=
  let head := dec (e_kind e) ++ lit " " ++ ctbase_dump (e_cb e) in
  if (e_ptr e =? ctype_dne) && (e_arr e =? ctype_dne) && (e_base e =? ctype_dne)
  then head ++ lit "&"
  else if (e_base e =? ctype_undefined) && (e_arr e =? ctype_dne) then
    if e_ptr e =? ctype_dne then head ++ lit "!"
    else head ++ lit "^" ++ dec (e_ptr e)
  else if (e_ptr e =? ctype_dne) && (e_arr e =? ctype_dne) then
    head ++ dec (e_base e) ++ lit "&"
  else head ++ dec (e_base e) ++ lit " " ++ dec (e_ptr e) ++ lit " " ++ dec (e_arr e).

(** cttable.i:313-352, general.c:339-348  cttable_dump: one line per entry. *)
Definition cttable_dump (t : table) : cstr :=
  List.concat (map (fun e => ctentry_dump e ++ [ch_nl]) t).
End Dump.

(** strchr: the text before the first [x] and the text after it. *)
Fixpoint strchr (x : ascii) (s : cstr) : option (cstr * cstr) :=
  match s with
  | [] => None
  | c :: r => if Ascii.eqb c x then Some ([], r)
              else match strchr x r with Some (a, b) => Some (c :: a, b) | None => None end
  end.

(** enumNameList.c:223-258  enumNameList_undump *)
Fixpoint enum_loop (fuel : nat) (s : cstr) (acc : list cstr) : res (list cstr) :=
  match fuel with
  | O => RBug
  | S f =>
      match strchr ","%char s with
      | Some (a, r) => enum_loop f r (acc ++ [a])
      | None => match strchr "}"%char s with
                | Some (a, r) => ROk (acc ++ [a]) r
                | None => RBug
                end
      end
  end.
Definition enum_undump (s : cstr) : res (list cstr) :=
  match s with
  | c :: r => if Ascii.eqb c "}"%char then ROk [] r else enum_loop (S (List.length s)) s []
  | [] => enum_loop 1 [] []
  end.

(** A number followed by the character that must end it. *)
Definition int_then (x : ascii) (s : cstr) : res Z :=
  rbind (reader_getInt s) (fun z s1 => rbind (reader_checkChar s1 x) (fun _ s2 => ROk z s2)).

(** Name, '{' and the text up to '}'. *)
Definition tag_and_fields (s : cstr) : res (cstr * cstr) :=
  match strchr "{"%char s with
  | None => RBug
  | Some (n, r) => match strchr "}"%char r with
                   | Some (fs, r') => ROk (n, fs) r'
                   | None => RBug
                   end
  end.

(** ctbase.i:890-1047  ctbase_undump *)
Definition ctbase_undump (s : cstr) : res ctbase :=
  match s with
  | [] => RUB
  | p :: c =>
      if Ascii.eqb p "?" then ROk CBundef c
      else if Ascii.eqb p "u" then ROk CBunknown c
      else if Ascii.eqb p "b" then ROk CBbool c
      else if Ascii.eqb p "p" then rbind (int_then "|" c) (fun z r => ROk (CBprim z) r)
      else if Ascii.eqb p "s" then rbind (int_then "|" c) (fun z r => ROk (CBuser z) r)
      else if Ascii.eqb p "a" then rbind (int_then "|" c) (fun z r => ROk (CBabst z) r)
      else if Ascii.eqb p "n" then rbind (int_then "|" c) (fun z r => ROk (CBnumabst z) r)
      else if Ascii.eqb p "t" then rbind (int_then "|" c) (fun z r => ROk (CBptr z) r)
      else if Ascii.eqb p "y" then rbind (int_then "|" c) (fun z r => ROk (CBarray z) r)
      else if Ascii.eqb p "F" then
        rbind (int_then "/" c) (fun ct r =>
        rbind (int_then "|" r) (fun n r' => ROk (CBfixed ct n) r'))
      else if Ascii.eqb p "f" then
        match strchr "("%char c with
        | None => RBug
        | Some (before, after) =>
            match reader_getInt before with
            | ROk ct _ => match strchr ")"%char after with
                          | Some (ps, r) => ROk (CBfcn ct ps) r
                          | None => RBug
                          end
            | RBug => RBug
            | RUB => RUB
            end
        end
      else if Ascii.eqb p "S" then
        rbind (tag_and_fields c) (fun nf r => ROk (CBstruct (fst nf) (snd nf)) r)
      else if Ascii.eqb p "U" then
        rbind (tag_and_fields c) (fun nf r => ROk (CBunion (fst nf) (snd nf)) r)
      else if Ascii.eqb p "e" then
        match strchr "{"%char c with
        | None => RBug
        | Some (n, r) => rbind (enum_undump r) (fun ms r' => ROk (CBenum n ms) r')
        end
      else if Ascii.eqb p "C" then
        rbind (int_then "." c) (fun ex r =>
        rbind (int_then "/" r) (fun a r1 =>
        rbind (int_then "|" r1) (fun b r2 => ROk (CBconj (negb (ex =? 0)) a b) r2)))
      else RBug                                        (* "Bad Library line (type)" *)
  end.

(** ctype.c:81-92  ctkind_fromInt *)
Definition ctkind_fromInt (i : Z) : res Z :=
  if (i <? -3) || (3 <? i) then RBug else ROk i [].

(** cttable.i:153-196  ctentry_undump; what follows on the line is ignored. *)
Definition ctentry_undump (s : cstr) : res entry :=
  rbind (reader_getInt s) (fun k s1 =>
  match ctkind_fromInt k with
  | ROk _ _ =>
  rbind (ctbase_undump s1) (fun cb s2 =>
    let '(amp, s3) := reader_optCheckChar s2 "&" in
    if amp then ROk (mkEntry k cb ctype_dne ctype_dne ctype_dne) s3
    else let '(bang, s4) := reader_optCheckChar s2 "!" in
    if bang then ROk (mkEntry k cb ctype_undefined ctype_dne ctype_dne) s4
    else let '(hat, s5) := reader_optCheckChar s2 "^" in
    if hat then rbind (reader_getInt s5) (fun p s6 => ROk (mkEntry k cb ctype_undefined p ctype_dne) s6)
    else rbind (reader_getInt s2) (fun b s6 =>
      let '(amp2, s7) := reader_optCheckChar s6 "&" in
      if amp2 then ROk (mkEntry k cb b ctype_dne ctype_dne) s7
      else rbind (reader_getInt s6) (fun p s8 =>
           rbind (reader_getInt s8) (fun a s9 => ROk (mkEntry k cb b p a) s9))))
  | RBug => RBug
  | RUB => RUB
  end).

(** reader.c:234-250  reader_readLine: a line, or the end of the file, or the
    fatal error for a line that fills the buffer. *)
Inductive line := LEof | LLine (s rest : cstr) | LTooLong.
Definition readLine (f : cstr) : line :=
  match Dump_model.fgets f with
  | None => LEof
  | Some (l, f') =>
      if Z.of_nat (List.length l) =? Dump_model.MAX_DUMP_LINE_LENGTH - 1 then LTooLong
      else LLine l f'
  end.

(** cttable.i:375-378  skip lines that begin with ';'. *)
Definition begins_semi (l : cstr) : bool :=
  match l with c :: _ => Ascii.eqb c ";"%char | [] => false end.

(** cttable.i:385-400  the entries, up to a line that begins with ';' (which is
    consumed) or the end of the file. *)
Fixpoint load_entries (fuel : nat) (l : cstr) (f : cstr) (acc : table) : res table :=
  match fuel with
  | O => RBug
  | S n =>
      if begins_semi l then ROk acc f
      else match ctentry_undump l with
           | ROk e _ =>
               match readLine f with
               | LEof => ROk (acc ++ [e]) []
               | LTooLong => RBug
               | LLine l' f' => load_entries n l' f' (acc ++ [e])
               end
           | RBug => RBug
           | RUB => RUB
           end
  end.

Fixpoint load_skip (fuel : nat) (f : cstr) : res table :=
  match fuel with
  | O => RBug
  | S n =>
      match readLine f with
      | LEof => ROk [] []
      | LTooLong => RBug
      | LLine l f' => if begins_semi l then load_skip n f' else load_entries (S (List.length f)) l f' []
      end
  end.

(** cttable.i:358-407  cttable_load *)
Definition cttable_load (f : cstr) : res table := load_skip (S (List.length f)) f.
