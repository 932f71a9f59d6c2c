(** What a path, its last component and its extension are, without reference to the
    code. *)
From Verif Require Import Cbase.

(** [dir] is empty or ends in '/', [base] is the last component. *)
Definition path_split (s dir base : cstr) : Prop :=
  s = dir ++ base /\ ~ In "/"%char base /\ (dir = [] \/ exists d, dir = d ++ ["/"%char]).

(** [ext] is the extension of the component [base]: its last dot and what follows. *)
Definition extension_of (base stem ext : cstr) : Prop :=
  base = stem ++ ext /\ exists r, ext = "."%char :: r /\ ~ In "."%char r.

Definition no_extension (base : cstr) : Prop := ~ In "."%char base.

(** [s] starts with exactly [n] copies of "./". *)
Fixpoint dotslashes (n : nat) : cstr :=
  match n with O => [] | S m => "."%char :: "/"%char :: dotslashes m end.
