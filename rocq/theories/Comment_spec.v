(** Comments as C has them: after joining spliced lines, from [/*] to the first [*/], or from
    [//] to the end of the line; and the layout of a text. *)
From Verif Require Import Cbase.

(** Translation phase 2: backslash-newline pairs removed. *)
Fixpoint unsplice (s : cstr) : cstr :=
  match s with
  | c :: ((d :: r) as t) =>
      if Ascii.eqb c "\"%char && Ascii.eqb d ch_nl then unsplice r else c :: unsplice t
  | _ => s
  end.

Definition occurs (p s : cstr) : Prop := exists a b, s = a ++ p ++ b.

(** What follows the '/' of a block comment, as written in the source. *)
Definition block_comment (p : cstr) : Prop :=
  last p " "%char = "/"%char /\
  exists body, unsplice p = lit "*" ++ body ++ lit "*/" /\ ~ occurs (lit "*/") (body ++ lit "*").

(** What follows the '/' of a line comment and what comes after it. *)
Definition line_comment (p r : cstr) : Prop :=
  (r = [] \/ exists r', r = ch_nl :: r') /\
  exists body, unsplice p = lit "/" ++ body /\ ~ In ch_nl body.

Definition newlines_in (s : cstr) : nat := count_occ Ascii.ascii_dec s ch_nl.

(** Where the newlines are. *)
Definition layout (s : cstr) : list bool := map (fun c => Ascii.eqb c ch_nl) s.
