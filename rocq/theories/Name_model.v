(** Model of the name comparison of src/cstring.c (used for the distinct-names checks,
    src/usymtab.c 6140–6400, and the case-insensitive comparisons).

    Simplified: both names are defined; [toupper] is that of the C locale; the shortcut
    for identical pointers (cstring.c 333) is not modelled (it returns [CGE_SAME], as the
    loop does for equal texts). *)
From Verif Require Import Cbase Cmem.

(** src/Headers/cstring.h [cmpcode], with [CGE_overrun] for reading past the end of the
    second name. *)
Inductive cmpcode := CGE_SAME | CGE_DISTINCT | CGE_CASE | CGE_LOOKALIKE | CGE_overrun.

(** src/cstring.c 303–325 [lookLike]. *)
Definition lookLike (c : ascii) : ascii :=
  if Ascii.eqb c "I" || Ascii.eqb c "l" then "1"%char
  else if Ascii.eqb c "O" || Ascii.eqb c "o" then "0"%char
  else if Ascii.eqb c "Z" then "2"%char
  else if Ascii.eqb c "S" then "5"%char
  else c.

(** C locale toupper. *)
Definition toupper (c : ascii) : ascii :=
  if (97 <=? code c) && (code c <=? 122) then chr (code c - 32) else c.

(** The character at a pointer into a string: its terminator at the end. *)
Definition cur (s : cstr) : ascii := match s with [] => ch_nul | c :: _ => c end.

(** src/cstring.c 379–398: after the loop. *)
Definition ge_finish (s t : cstr) (diffcase difflook : bool) : cmpcode :=
  match s, t with
  | [], _ :: _ => CGE_DISTINCT
  | _, _ => if diffcase then CGE_CASE else if difflook then CGE_LOOKALIKE else CGE_SAME
  end.

(** src/cstring.c 346–377: the loop, [i] the number of characters passed. *)
Fixpoint ge_loop (nchars : nat) (ci look : bool) (i : nat) (s t : cstr) (diffcase difflook : bool)
  : cmpcode :=
  match s with
  | [] => ge_finish s t diffcase difflook
  | c :: s' =>
      if (0 <? nchars)%nat && (nchars <=? i)%nat then ge_finish s t diffcase difflook
      else
        let continue dc dl :=
          match t with
          | [] => CGE_overrun
          | _ :: t' => ge_loop nchars ci look (S i) s' t' dc dl
          end in
        if Ascii.eqb (cur t) c then continue diffcase difflook
        else if ci && Ascii.eqb (toupper (cur t)) (toupper c) then continue true difflook
        else if look && Ascii.eqb (lookLike (cur t)) (lookLike c) then continue diffcase true
        else CGE_DISTINCT
  end.

(** src/cstring.c 327–400 [cstring_genericEqual]. *)
Definition genericEqual (s t : cstr) (nchars : nat) (ci look : bool) : cmpcode :=
  ge_loop nchars ci look 0 s t false false.

(** src/cstring.c 424–430 [cstring_equalCaseInsensitive]. *)
Definition equalCaseInsensitive (s t : cstr) : bool :=
  match genericEqual s t 0 true false with CGE_DISTINCT => false | _ => true end.
