(** Model of src/fileLib.c (path and extension handling) and of the parts of
    src/cstring.c it uses.  Built for a Unix-like system: CONNECTCHAR is '/'
    (src/Headers/osd.h, default branch), ALTCONNECTCHAR is not defined, neither OS2
    nor MSDOS is defined.

    Simplified: [undefined] (NULL) paths are not modelled except where a result may
    be undefined ([option]); the temporary store of NUL into the argument
    (fileLib.c 66–69, 145–148), undone before returning, is taken as reading the
    prefix. *)
From Verif Require Import Cbase Cmem.

Definition ch_dot : ascii := "."%char.
Definition ch_slash : ascii := "/"%char.

(** strrchr (s, c): the suffix of [s] starting at the last [c]; [None] is NULL. *)
Fixpoint strrchr (c : ascii) (s : cstr) : option cstr :=
  match s with
  | [] => None
  | x :: t => match strrchr c t with
              | Some r => Some r
              | None => if Ascii.eqb x c then Some s else None
              end
  end.

(** The characters of [s] before its suffix [t] (the string read once *t is NUL). *)
Definition before (s t : cstr) : cstr := firstn (List.length s - List.length t) s.

(** src/fileLib.c 51–74 [fileLib_withoutExtension]. *)
Definition withoutExtension (s suffix : cstr) : cstr :=
  match strrchr ch_dot s with
  | None => s
  | Some t => if cstr_eqb t suffix then before s t else s
  end.

(** src/fileLib.c 76–90 [fileLib_removePath]; 92–125 [fileLib_removePathFree] computes
    the same string when ALTCONNECTCHAR is not defined. *)
Definition removePath (s : cstr) : cstr :=
  match strrchr ch_slash s with
  | None => s
  | Some t => skipn 1 t
  end.

(** src/fileLib.c 127–154 [fileLib_removeAnyExtension]. *)
Definition removeAnyExtension (s : cstr) : cstr :=
  match strrchr ch_dot s with
  | None => s
  | Some t => before s t
  end.

(** src/fileLib.c 156–171 [fileLib_addExtension]. *)
Definition addExtension (s suffix : cstr) : cstr :=
  match strrchr ch_dot s with
  | None => s ++ suffix
  | Some _ => s
  end.

(** src/fileLib.c 178–185 [fileLib_getExtension]: NULL is [None]. *)
Definition getExtension (s : cstr) : option cstr := strrchr ch_dot s.

(** src/cstring.c 408–414 [cstring_equal]: the undefined string equals the empty one. *)
Definition cstring_equal (a b : option cstr) : bool :=
  match a, b with
  | None, None => true
  | None, Some t => cstr_eqb t []
  | Some s, None => cstr_eqb s []
  | Some s, Some t => cstr_eqb s t
  end.

(** src/fileLib.c 173–176 [fileLib_hasExtension]. *)
Definition hasExtension (s ext : cstr) : bool :=
  cstring_equal (getExtension s) (Some ext).

(** src/fileLib.c 210–217 [isHeaderFile]; LH_EXTENSION is ".lh" (src/Headers/basic.h). *)
Definition isHeaderFile (s : cstr) : bool :=
  let ext := getExtension s in
  cstring_equal ext (Some (lit ".h")) || cstring_equal ext (Some (lit ".H"))
  || cstring_equal ext (Some (lit ".lh")).

(** src/fileLib.c 32–43 [fileLib_isCExtension]. *)
Definition isCExtension (e : option cstr) : bool :=
  cstring_equal e (Some (lit ".c")) || cstring_equal e (Some (lit ".C"))
  || cstring_equal e (Some (lit ".h")) || cstring_equal e (Some (lit ".lh"))
  || cstring_equal e (Some (lit ".xh")) || cstring_equal e (Some (lit ".H"))
  || cstring_equal e (Some (lit ".y")) || cstring_equal e (Some (lit ".l")).

(** src/fileLib.c 187–208 [removePreDirs]: while the text starts with "./", skip it. *)
Fixpoint removePreDirs (s : cstr) : cstr :=
  match s with
  | a :: ((b :: t) as r) =>
      if Ascii.eqb a ch_dot && Ascii.eqb b ch_slash then removePreDirs t else s
  | _ => s
  end.

(** strncpy (res, src, n) into [m] from cell [i] on: copies characters up to and
    including the terminator, then pads with NUL, [n] cells in all.  No terminator is
    stored when [src] has [n] characters or more. *)
Fixpoint strncpy (m : list cell) (i : nat) (src : cstr) (n : nat) : option (list cell) :=
  match n with
  | O => Some m
  | S n' =>
      let c := match src with [] => ch_nul | x :: _ => x end in
      match store m i c with
      | Some m' => strncpy m' (S i) (skipn 1 src) n'
      | None => None
      end
  end.

(** src/cstring.c 820–829 [cstring_copySegment] (s, from, to), with [n = to - from + 1]
    the (unsigned) number of cells asked for. *)
Definition copySegment (s : cstr) (from n : nat) : option (list cell) :=
  strncpy (fresh n) 0 (skipn from s) n.

(** src/fileLib.c 219–229 [fileLib_cleanName]: the buffer it returns. *)
Definition cleanName (s : cstr) : option (list cell) :=
  match s with
  | a :: b :: _ =>
      if Ascii.eqb a ch_dot && Ascii.eqb b ch_slash
      then copySegment s 2 (List.length s - 2)
      else Some (map Some s ++ [Some ch_nul])
  | _ => Some (map Some s ++ [Some ch_nul])
  end.

(** What a user of the returned name reads; [None]: undefined behaviour. *)
Definition cleanName_text (s : cstr) : option cstr :=
  match cleanName s with
  | Some m => read_cstr m
  | None => None
  end.
