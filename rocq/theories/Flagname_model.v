(** Model of how a flag is named: src/flags.c [canonicalizeFlag] 965–1010, [flags_identifyFlagAux]
    1023–1291, [flags_isModeName] 1446–1461; src/cstring.c [cstring_replaceLit] 214–250,
    [cstring_stripChars] 256–286, [cstring_containsLit] (strstr).

    Simplified: a C string is the list of its characters; moving the rest of a string down in
    place is taking the part before, the replacement and the part after; warnings about obsolete
    flags are left out. *)
From Verif Require Import Cbase Pos_model Flagtab_model.

(** [strstr]: what is before and after the first occurrence. *)
Fixpoint prefix (p s : cstr) : option cstr :=
  match p, s with
  | [], _ => Some s
  | x :: p, y :: s => if Ascii.eqb x y then prefix p s else None
  | _ :: _, [] => None
  end.
Fixpoint strstr (s p : cstr) : option (cstr * cstr) :=
  match prefix p s with
  | Some rest => Some ([], rest)
  | None => match s with
            | [] => None
            | c :: s => match strstr s p with Some (a, b) => Some (c :: a, b) | None => None end
            end
  end.

(** cstring.c 214–250; each round makes the text shorter, [fuel] is its length. *)
Fixpoint replace_lit (fuel : nat) (old new s : cstr) : cstr :=
  match fuel with
  | O => s
  | S fuel => match strstr s old with
              | Some (a, b) => replace_lit fuel old new (a ++ new ++ b)
              | None => s
              end
  end.

(** cstring.c 256–286: [i] is the place looked at. *)
Fixpoint strip_loop (fuel i : nat) (clist s : cstr) : cstr :=
  match fuel with
  | O => s
  | S fuel => match nth_error s i with
              | None => s
              | Some c => if existsb (Ascii.eqb c) clist then strip_loop fuel i clist (remove_nth i s)
                          else strip_loop fuel (S i) clist s
              end
  end.
Definition strip_chars (s clist : cstr) : cstr := strip_loop (S (List.length s)) 0 clist s.

(** flags.c 970–994. *)
Definition transform : list (cstr * cstr) := [
  (lit "function", lit "fcn"); (lit "variable", lit "var"); (lit "constant", lit "const");
  (lit "iterator", lit "iter"); (lit "parameter", lit "param"); (lit "unrecognized", lit "unrecog");
  (lit "qualifier", lit "qual"); (lit "declaration", lit "decl"); (lit "globals", lit "globs");
  (lit "modifies", lit "mods"); (lit "modify", lit "mod"); (lit "pointer", lit "ptr");
  (lit "implies", lit "imp"); (lit "implicit", lit "imp"); (lit "implied", lit "imp");
  (lit "unconstrained", lit "uncon"); (lit "unconst", lit "uncon"); (lit "memory", lit "mem");
  (lit "length", lit "len"); (lit "return", lit "ret"); (lit "system", lit "sys")].

(** flags.c 997–1004. *)
Definition shorten (s : cstr) : cstr :=
  fold_left (fun s t => replace_lit (List.length s) (fst t) (snd t) s) transform s.
(** flags.c 1006–1009. *)
Definition canonicalize (s : cstr) : cstr := strip_chars (shorten s) (lit " -_").

(** flags.c 182–185, 1446–1461. *)
Definition mode_names : list cstr := [lit "weak"; lit "standard"; lit "checks"; lit "strict"].
Definition is_mode_name (s : cstr) : bool := existsb (cstr_eqb s) mode_names.

(** flags.c 1068–1290. *)
Definition synonyms : list (cstr * Z) := [
  (lit "pred", FLG_PREDBOOL); (lit "modobserverstrict", FLG_MODOBSERVERUNCON);
  (lit "czechnames", FLG_CZECH); (lit "slovaknames", FLG_SLOVAK); (lit "czechoslovaknames", FLG_CZECHOSLOVAK);
  (lit "globunspec", FLG_GLOBUNSPEC); (lit "globuncon", FLG_GLOBUNSPEC);
  (lit "modglobsunspec", FLG_MODGLOBSUNSPEC); (lit "modglobsuncon", FLG_MODGLOBSUNSPEC); (lit "modglobsnomods", FLG_MODGLOBSUNSPEC);
  (lit "export", FLG_EXPORTANY); (lit "macrospec", FLG_MACRODECL); (lit "ansireservedlocal", FLG_ISORESERVEDLOCAL);
  (lit "warnposix", FLG_WARNPOSIX); (lit "defuse", FLG_USEDEF); (lit "macroundef", FLG_MACROUNDEF);
  (lit "showcol", FLG_SHOWCOL); (lit "intbool", FLG_BOOLINT); (lit "intchar", FLG_CHARINT);
  (lit "intenum", FLG_ENUMINT); (lit "intlong", FLG_LONGINT); (lit "intshort", FLG_SHORTINT);
  (lit "ansilib", FLG_ANSILIB); (lit "ansistrictlib", FLG_STRICTLIB); (lit "skipansiheaders", FLG_SKIPISOHEADERS);
  (lit "ansireserved", FLG_ISORESERVED); (lit "ansireservedinternal", FLG_ISORESERVEDLOCAL);
  (lit "accessunspec", SKIP_FLAG); (lit "ansilimits", SKIP_FLAG); (lit "staticmods", SKIP_FLAG);
  (lit "bool", SKIP_FLAG); (lit "shiftsigned", SKIP_FLAG); (lit "ansi", SKIP_FLAG);
  (lit "usestderr", SKIP_FLAG); (lit "stdio", SKIP_FLAG)].

(** flags.c 1023–1291, after the first letter has been looked at. *)
Definition lookup (cflag : cstr) : Z :=
  match List.find (fun f => cstr_eqb (flag f) cflag) flag_table with
  | Some f => fcode f
  | None => match List.find (fun t => cstr_eqb cflag (fst t)) synonyms with
            | Some t => snd t
            | None => if is_mode_name cflag then MODENAME_FLAG else INVALID_FLAG
            end
  end.
Definition identify (s : cstr) : Z :=
  match s with
  | [] => INVALID_FLAG                                     (* 1029–1032 *)
  | c :: _ =>                                              (* 1034–1052 *)
      if Ascii.eqb c "I" then FLG_INCLUDEPATH
      else if Ascii.eqb c "S" then FLG_SPECPATH
      else if Ascii.eqb c "D" then FLG_DEFINE
      else if Ascii.eqb c "U" then FLG_UNDEFINE
      else lookup (canonicalize s)
  end.
