(** Freshly allocated character buffers: a cell is either a known character or
    memory nothing has been stored in.  Reading an unwritten cell is undefined
    behaviour, kept as the distinct result [None]. *)
From Verif Require Import Cbase.

Definition cell := option ascii.
Definition ch_nul : ascii := "000"%char.

(** src/cstring.c 811–818 [cstring_create], src/general.c / cstring.c 914 [mstring_create]:
    [n + 1] cells, the first set to NUL, the others unwritten. *)
Definition fresh (n : nat) : list cell := Some ch_nul :: repeat None n.

(** [*(p + i) = c]; a store outside the buffer is [None]. *)
Fixpoint store (m : list cell) (i : nat) (c : ascii) : option (list cell) :=
  match m, i with
  | [], _ => None
  | _ :: t, O => Some (Some c :: t)
  | h :: t, S i' => match store t i' c with
                    | Some t' => Some (h :: t')
                    | None => None
                    end
  end.

(** Reading a NUL terminated string; [None]: an unwritten cell, or the end of the
    buffer, was reached first. *)
Fixpoint read_cstr (m : list cell) : option cstr :=
  match m with
  | [] => None
  | None :: _ => None
  | Some c :: t => if Ascii.eqb c ch_nul then Some []
                   else match read_cstr t with
                        | Some s => Some (c :: s)
                        | None => None
                        end
  end.
