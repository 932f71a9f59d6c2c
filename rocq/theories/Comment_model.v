(** Model of comment handling in the preprocessor, src/cpplib.c: [skip_comment] 1025–1122 and
    [cpp_handleComment] 8159–8475.

    Simplified: the buffer is the text after the [/] already read; of the actions of syntactic
    comments only those listed in [action] are kept (expectations about macros and other
    flags are [Other]); the flag [nocomments] is off; warnings are a flag. *)
From Verif Require Import Cbase Pos_model.

Definition ch_backslash : ascii := "\"%char.
Definition ch_star : ascii := "*"%char.
Definition ch_slash : ascii := "/"%char.

(** [c == '\\' && peek == '\n'] for the first two characters of a text. *)
Definition splice (c d : ascii) : bool := Ascii.eqb c ch_backslash && Ascii.eqb d ch_nl.
Definition is_nl (c : ascii) : nat := if Ascii.eqb c ch_nl then 1%nat else 0%nat.
Definition opt_eqb (p : option ascii) (c : ascii) : bool :=
  match p with Some d => Ascii.eqb d c | None => false end.

(** src/cpplib.c 1046–1078: the loop of a [/*] comment; [prev] is [prev_c] ([None]: 0).  Result:
    text read, text left, newlines counted; [None]: end of file. *)
Fixpoint skip_block (text : cstr) (prev : option ascii) : option (cstr * cstr * nat) :=
  let after c r :=
    if opt_eqb prev ch_star && Ascii.eqb c ch_slash then Some ([c], r, O)
    else match skip_block r (Some c) with
         | Some (p, q, n) => Some (c :: p, q, (is_nl c + n)%nat)
         | None => None
         end in
  match text with
  | [] => None
  | c :: r =>
      match r with
      | d :: r' => if splice c d
                   then match skip_block r' prev with
                        | Some (p, q, n) => Some (c :: d :: p, q, S n)
                        | None => None
                        end
                   else after c r
      | [] => after c r
      end
  end.

(** src/cpplib.c 1093–1116: the loop of a [//] comment; the newline ending it is not read. *)
Fixpoint skip_line (text : cstr) : cstr * cstr * nat :=
  let after c r := if Ascii.eqb c ch_nl then ([], c :: r, O)
                   else let '(p, q, n) := skip_line r in (c :: p, q, n) in
  match text with
  | [] => ([], [], O)
  | c :: r =>
      match r with
      | d :: r' => if splice c d then let '(p, q, n) := skip_line r' in (c :: d :: p, q, S n) else after c r
      | [] => after c r
      end
  end.

Inductive skipres :=
| NotComment                                     (** returns '/' *)
| AtEof                                          (** returns EOF *)
| Skipped (read left : cstr) (newlines : nat).   (** returns ' ' *)

(** src/cpplib.c 1025–1122 [skip_comment]; [text] follows the '/'. *)
Fixpoint skip_comment (cplusplus : bool) (text : cstr) : skipres :=
  let start := match text with
    | c :: r => if Ascii.eqb c ch_star
                then match skip_block r None with
                     | Some (p, q, n) => Skipped (c :: p) q n
                     | None => AtEof
                     end
                else if Ascii.eqb c ch_slash && cplusplus
                then let '(p, q, n) := skip_line r in Skipped (c :: p) q n
                else NotComment
    | [] => NotComment
    end in
  match text with
  | c :: d :: r' => if splice c d
                    then match skip_comment cplusplus r' with
                         | Skipped p q n => Skipped (c :: d :: p) q (S n)
                         | x => x
                         end
                    else start
  | _ => start
  end.

Definition ch_percent : ascii := "%"%char.
Definition ch_lbrace : ascii := "{"%char.
Definition ch_rbrace : ascii := "}"%char.

(** src/general.c 455 [mstring_equalPrefix]. *)
Fixpoint equalPrefix (s p : cstr) : bool :=
  match p, s with
  | [], _ => true
  | c :: p', d :: s' => Ascii.eqb c d && equalPrefix s' p'
  | _ :: _, [] => false
  end.
(** [strstr]. *)
Fixpoint containsString (s p : cstr) : bool :=
  equalPrefix s p || match s with [] => false | _ :: r => containsString r p end.

Inductive action :=
| NoAction
| EnterIgnore              (** 8209 [context_enterSuppressRegion] *)
| ExitIgnore               (** 8216 [context_exitSuppressRegion] *)
| SetMarker (c : ascii)    (** 8294 [context_setCommentMarkerChar] *)
| BadMarker                (** 8261, 8274, 8286: errors about [commentchar] *)
| SetNest (sign : ascii)   (** 8301 *)
| Other.                   (** flags and expectations about macros *)

(** src/cpplib.c 8207–8381: what a syntactic comment asks for; [true]: it is eliminated. *)
Definition classify (scomment : cstr) : action * bool :=
  if equalPrefix scomment (lit "ignore") then (EnterIgnore, false)
  else if equalPrefix scomment (lit "end") then (ExitIgnore, false)
  else if equalPrefix scomment (lit "notparseable") then (Other, true)
  else if equalPrefix scomment (lit "notfunction") then (Other, true)
  else if equalPrefix scomment (lit "iter") || equalPrefix scomment (lit "function")
          || equalPrefix scomment (lit "constant") then (Other, false)
  else match scomment with
  | s :: rest =>
      if Ascii.eqb s "="%char || Ascii.eqb s "-"%char || Ascii.eqb s "+"%char then
        if equalPrefix rest (lit "commentchar") then
          (if Ascii.eqb s "="%char then BadMarker
           else match skipn 12 scomment with
                | n :: t => if Ascii.eqb n ch_space || Ascii.eqb n ch_tab || Ascii.eqb n ch_nl
                            then match t with c :: _ => SetMarker c | [] => BadMarker end
                            else BadMarker
                | [] => BadMarker
                end, true)
        else if equalPrefix scomment (lit "nestcomment") then (SetNest s, false)
        else (Other, false)
      else (NoAction, false)
  | [] => (NoAction, false)
  end.

(** src/cpplib.c 8410–8433: the lint comments and their names. *)
Definition lint_table : list (cstr * cstr) :=
  [(lit "*NOTREACHED*/", lit "l_notreach"); (lit "*PRINTFLIKE*/", lit "l_printfli");
   (lit "*FALLTHROUGH*/", lit "l_fallthrou"); (lit "*ARGSUSED*/", lit "l_argsus");
   (lit "*FALLTHRU*/", lit "l_fallth")].
Definition lintcomment (start : cstr) : option cstr :=
  option_map snd (List.find (fun e => equalPrefix start (fst e)) lint_table).

(** src/cpplib.c 8455–8474: blanks for everything but newlines; [true]: a comment starts
    inside. *)
Fixpoint blank (s : cstr) : cstr * bool :=
  match s with
  | [] => ([], false)
  | c :: r => let '(b, w) := blank r in
              (if Ascii.eqb c ch_nl then c :: b else ch_space :: b,
               (Ascii.eqb c ch_slash && match r with d :: _ => Ascii.eqb d ch_star | [] => false end) || w)
  end.

(** [lead]: written for the '/'; [body]: written for the text read; [nested]: the warning. *)
Inductive handled :=
| Written (lead : ascii) (body : cstr) (nested : bool) (act : action)
| AssertFails.   (** a failed [llassert], 8191, 8194 or 8447 *)

(** src/cpplib.c 8393–8474 [removeComment]. *)
Definition remove_comment (lint : bool) (start : cstr) (nested : bool) (act : action) : handled :=
  match (if lint then lintcomment start else None) with
  | Some name =>
      if (List.length name =? List.length start - 3)%nat
      then Written ch_percent ([ch_lbrace] ++ name ++ [ch_percent; ch_rbrace]) nested act
      else AssertFails
  | None => let '(b, w) := blank start in Written ch_space b (nested || w) act
  end.

(** src/cpplib.c 8159–8475 [cpp_handleComment]: [start] is the text of the comment after the
    '/'. *)
Definition handle_comment (marker : ascii) (lint : bool) (start : cstr) : handled :=
  let len := List.length start in
  match start with
  | a :: b :: _ =>
    if Ascii.eqb a ch_star && Ascii.eqb b marker then
      let s1 := set_nth 1 ch_lbrace (set_nth 0 ch_percent start) in
      if negb (Ascii.eqb (nth (len - 2) s1 ch_space) ch_star) then AssertFails else
      let s2 := set_nth (len - 2) ch_percent s1 in
      if negb (Ascii.eqb (nth (len - 1) s2 ch_space) ch_slash) then AssertFails else
      let s3 := set_nth (len - 1) ch_rbrace s2 in
      let nested := containsString (skipn 2 s3) [ch_slash; ch_star] in
      let '(act, eliminate) := classify (skipn 2 s3) in
      if eliminate then remove_comment lint s3 nested act
      else Written ch_space
             (firstn 2 s3
              ++ map (fun c => if Ascii.eqb c ch_percent || Ascii.eqb c ch_lbrace || Ascii.eqb c marker
                               then ch_space else c) (firstn (len - 4) (skipn 2 s3))
              ++ skipn (len - 2) s3) nested act
    else remove_comment lint start false NoAction
  | _ => remove_comment lint start false NoAction
  end.
