(** * Orders on locations; first occurrences *)
From Verif Require Import Cbase Loc_model.
Local Open Scope Z_scope.

(** Two unknown locations, or the same file number, line and column. *)
Definition same_place (a b : fileloc) : Prop :=
  match a, b with
  | None, None => True
  | Some a, Some b => l_fid a = l_fid b /\ l_line a = l_line b /\ l_col a = l_col b
  | _, _ => False
  end.

(** Position order: unknown first, then file, line, column. *)
Definition before (a b : fileloc) : Prop :=
  match a, b with
  | None, Some _ => True
  | Some a, Some b =>
      l_fid a < l_fid b \/
      (l_fid a = l_fid b /\ (l_line a < l_line b \/ (l_line a = l_line b /\ l_col a < l_col b)))
  | _, None => False
  end.

(** A location in a source file (not in a library, not built in). *)
Definition source_loc (l : loc) : Prop :=
  0 <= l_fid l /\
  match l_kind l with FL_NORMAL | FL_SPEC | FL_IMPORT | FL_PREPROC | FL_RC => True | _ => False end.

(** The files of the two locations are the same or unrelated: neither is derived from
    the other, nor both from a third one. *)
Definition unrelated (ft : ftable) (a b : loc) : Prop :=
  forall r, r = l_fid a \/ (ft_der ft (l_fid a) = r /\ 0 <= r) ->
            r = l_fid b \/ (ft_der ft (l_fid b) = r /\ 0 <= r) -> l_fid a = l_fid b.

(** A sequence of messages in source files. *)
Definition source_messages (ft : ftable) (ms : list (fileloc * cstr)) : Prop :=
  (forall f t, In (f, t) ms -> exists l, f = Some l /\ source_loc l) /\
  (forall a s b t, In (Some a, s) ms -> In (Some b, t) ms -> unrelated ft a b).

(** Same place and same text. *)
Definition same_message (a b : fileloc * cstr) : Prop := same_place (fst a) (fst b) /\ snd a = snd b.

(** [b] tells at each position whether no earlier message is the same. *)
Definition marks_first (ms : list (fileloc * cstr)) (bs : list bool) : Prop :=
  List.length bs = List.length ms /\
  forall n m b, nth_error ms n = Some m -> nth_error bs n = Some b ->
    (b = true <-> forall i m', (i < n)%nat -> nth_error ms i = Some m' -> ~ same_message m' m).
