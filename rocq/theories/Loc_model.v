(** * Source locations and the log of reported messages

    Sources: src/fileloc.c, src/fileTable.c, src/messageLog.c.  Undefined (null) locations
    are [None].  Comparing two pointers for identity: copies share the object only for
    undefined, built-in and external locations (fileloc.c:128-150, 495-530).

    Simplifications: memory management is not represented; message texts are defined
    strings. *)
From Verif Require Import Cbase.
Local Open Scope Z_scope.

(** flkind, Headers/fileloc.h:15-19 *)
Inductive flkind := FL_NORMAL | FL_SPEC | FL_LIB | FL_STDLIB | FL_STDHDR | FL_IMPORT | FL_BUILTIN
| FL_PREPROC | FL_RC | FL_EXTERNAL.

(** struct s_fileloc, Headers/fileloc.h:21-27 *)
Record loc := Loc { l_kind : flkind; l_fid : Z; l_line : Z; l_col : Z }.
Definition fileloc := option loc.

(** What is used of the file table, Headers/fileTable.h: the file a file is derived from
    (-1 for none), and its system and special marks and base name. *)
Record ftable := FT { ft_der : Z -> Z; ft_sys : Z -> bool; ft_special : Z -> bool; ft_base : Z -> cstr }.

(** fileTable_sameBase, fileTable.c:757-797; fileId_equal and fileId_baseEqual are the
    same test (Headers/fileId.h:25, Headers/fileTable.h:139-140) *)
Definition sameBase (ft : ftable) (f1 f2 : Z) : bool :=
  if negb (-1 <? f1) then false
  else if negb (-1 <? f2) then false
  else if f1 =? f2 then true
  else let fd1 := ft_der ft f1 in let fd1 := if negb (-1 <? fd1) then f1 else fd1 in
       let fd2 := ft_der ft f2 in let fd2 := if negb (-1 <? fd2) then f2 else fd2 in
       fd1 =? fd2.

(** fileloc_isLib, fileloc.c:885-889 *)
Definition is_lib (l : loc) : bool :=
  match l_kind l with FL_LIB | FL_STDHDR | FL_STDLIB => true | _ => false end.

(** fileloc_sameFile, fileloc.c:337-349 *)
Definition sameFile (ft : ftable) (a b : fileloc) : bool :=
  match a, b with
  | Some a, Some b => if is_lib a || is_lib b then false else sameBase ft (l_fid a) (l_fid b)
  | _, _ => false
  end.

(** fileloc_sameFileAndLine, fileloc.c:329-335 *)
Definition sameFileAndLine (ft : ftable) (a b : fileloc) : bool :=
  sameFile ft a b && match a, b with Some a, Some b => l_line a =? l_line b | _, _ => false end.

(** fileTable_isSystemFile, fileTable.c:440-449; fileTable_isSpecialFile, fileTable.c:471-480 *)
Definition isSystemFile (ft : ftable) (f : Z) : bool := if f =? -1 then false else ft_sys ft f.
Definition isSpecialFile (ft : ftable) (f : Z) : bool := if f =? -1 then false else ft_special ft f.

(** fileloc_almostSameFile, fileloc.c:421-450 *)
Definition almostSameFile (ft : ftable) (a b : fileloc) : bool :=
  match a, b with
  | Some a, Some b =>
      if is_lib a || is_lib b then false
      else if sameBase ft (l_fid a) (l_fid b) then true
      else if isSystemFile ft (l_fid a) || isSystemFile ft (l_fid b) then true
      else if isSpecialFile ft (l_fid a) || isSpecialFile ft (l_fid b)
           then cstr_eqb (ft_base ft (l_fid a)) (ft_base ft (l_fid b))
      else false
  | _, _ => false
  end.

(** [f1 == f2] for two locations one of which is a copy *)
Definition same_object (a b : fileloc) : bool :=
  match a, b with
  | None, None => true
  | Some a, Some b => match l_kind a, l_kind b with
                      | FL_BUILTIN, FL_BUILTIN | FL_EXTERNAL, FL_EXTERNAL => true
                      | _, _ => false
                      end
  | _, _ => false
  end.

(** fileloc_equal, fileloc.c:239-246 *)
Definition fl_equal (ft : ftable) (a b : fileloc) : bool :=
  same_object a b ||
  match a, b with
  | Some x, Some y => (l_col x =? l_col y) && (l_line x =? l_line y) && sameFile ft a b
  | _, _ => false
  end.

(** fileloc_compare, fileloc.c:248-272; INTCOMPARERETURN, Headers/splintMacros.nf:131-133 *)
Definition intcmp (x y k : Z) : Z := if y <? x then 1 else if x <? y then -1 else k.
Definition fl_compare (a b : fileloc) : Z :=
  match a, b with
  | None, None => 0
  | None, Some _ => -1
  | Some _, None => 1
  | Some a, Some b =>
      intcmp (l_fid a) (l_fid b) (intcmp (l_line a) (l_line b) (intcmp (l_col a) (l_col b) 0))
  end.

(** fileloc_lessthan, fileloc.c:285-296 *)
Definition fl_lessthan (a b : fileloc) : bool :=
  match a, b with
  | Some a, Some b =>
      (l_fid a <? l_fid b)
      || ((l_fid a =? l_fid b) && ((l_line a <? l_line b)
          || ((l_line a =? l_line b) && (l_col a <? l_col b))))
  | _, _ => false
  end.

(** fileloc_notAfter, fileloc.c:303-313 *)
Definition fl_notAfter (a b : fileloc) : bool :=
  match a, b with
  | Some a, Some b =>
      negb (l_fid a =? l_fid b) || ((l_line a <? l_line b)
          || ((l_line a =? l_line b) && (l_col a <=? l_col b)))
  | _, _ => false
  end.

(** fileloc_withinLines, fileloc.c:274-283; the addition may overflow int *)
Definition fl_withinLines (ft : ftable) (a b : fileloc) (n : Z) : option bool :=
  match a, b with
  | Some x, Some y =>
      if negb (in_int (l_line x + n)) then None
      else Some ((l_line y <=? l_line x + n) && (l_line x <=? l_line y) && sameFile ft a b)
  | _, _ => Some false
  end.

(** ** The message log *)

(** strcmp: characters compare as unsigned; cstring_lessthan, Headers/cstring.h:102,
    cstring_compare, cstring.c:469-506 on defined strings *)
Fixpoint str_lt (a b : cstr) : bool :=
  match a, b with
  | _, [] => false
  | [], _ :: _ => true
  | x :: a, y :: b => if code x <? code y then true else if code y <? code x then false else str_lt a b
  end.

(** msgentry, Headers/messageLog.h:13-17 *)
Definition msgentry := (fileloc * cstr)%type.

(** msgentry_lessthan, messageLog.c:71-77; msgentry_equal, messageLog.c:79-84 *)
Definition me_lessthan (ft : ftable) (a b : msgentry) : bool :=
  fl_lessthan (fst a) (fst b) || (fl_equal ft (fst a) (fst b) && str_lt (snd a) (snd b)).
Definition me_equal (ft : ftable) (a b : msgentry) : bool :=
  fl_equal ft (fst a) (fst b) && cstr_eqb (snd a) (snd b).

(** messageLog_index, messageLog.c:91-112: the highest index of a smaller entry, plus one *)
Fixpoint log_index (ft : ftable) (l : list msgentry) (m : msgentry) : nat :=
  match l with
  | [] => O
  | e :: l => match log_index ft l m with
              | S n => S (S n)
              | O => if me_lessthan ft e m then 1%nat else O
              end
  end.

(** messageLog_add, messageLog.c:149-181 *)
Definition log_add (ft : ftable) (l : list msgentry) (m : msgentry) : list msgentry * bool :=
  let i := log_index ft l m in
  match nth_error l i with
  | Some e => if me_equal ft m e then (l, false) else (firstn i l ++ m :: skipn i l, true)
  | None => (firstn i l ++ m :: skipn i l, true)
  end.

(** llgenerrorreal, llerror.c:1098-1110: which messages of a sequence go on to be
    reported; the file table may grow in between but the answers about known files stay. *)
Fixpoint log_run (ft : ftable) (l : list msgentry) (ms : list msgentry) : list bool :=
  match ms with
  | [] => []
  | m :: ms => let (l, b) := log_add ft l m in b :: log_run ft l ms
  end.
Definition reported (ft : ftable) (ms : list msgentry) : list bool := log_run ft [] ms.
