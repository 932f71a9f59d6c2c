(** * Suppression regions, stated on the comments of the source text *)
From Verif Require Import Cbase Loc_model Loc_spec Mark_model.
Local Open Scope Z_scope.

(** Position in one file. *)
Definition pos_le (a b : loc) : Prop := l_line a < l_line b \/ (l_line a = l_line b /\ l_col a <= l_col b).

(** The marks a comment leaves; a counted line ends at the start of the next line. *)
Definition marks (e : event) : list marker :=
  match e with
  | Ignore l => [Mk IgnoreOn l]
  | End l => [Mk IgnoreOff l]
  | Flag c set l => [Mk (LocalSet c set) l]
  | Line n l => [Mk (IgnoreCount n) l; Mk IgnoreOff (Loc (l_kind l) (l_fid l) (l_line l + 1) 0)]
  | Message _ _ => []
  end.

(** All marks, each once: a file may be read several times. *)
Definition marker_eq_dec : forall a b : marker, {a = b} + {a <> b}.
Proof. repeat decide equality. Defined.
Fixpoint firsts (seen ms : list marker) : list marker :=
  match ms with
  | [] => seen
  | m :: ms => firsts (if in_dec marker_eq_dec m seen then seen else seen ++ [m]) ms
  end.
Definition trace (es : list event) : list marker := firsts [] (flat_map marks es).

(** In each file the marks come in the order of the text. *)
Definition in_text_order (ms : list marker) : Prop :=
  forall a x b y c, ms = a ++ x :: b ++ y :: c -> l_fid (m_loc x) = l_fid (m_loc y) ->
    pos_le (m_loc x) (m_loc y).

(** Locations in ordinary user files that are not derived from one another. *)
Definition user_loc (ft : ftable) (l : loc) : Prop :=
  l_kind l = FL_NORMAL /\ 0 <= l_fid l /\ ft_sys ft (l_fid l) = false /\ ft_special ft (l_fid l) = false.
Definition ev_loc (e : event) : loc :=
  match e with Ignore l | End l | Flag _ _ l | Line _ l | Message _ l => l end.
Definition user_files (ft : ftable) (ls : list loc) : Prop :=
  (forall l, In l ls -> user_loc ft l) /\ (forall a b, In a ls -> In b ls -> unrelated ft a b).

(** The marks of the file of [l] up to [l]. *)
Definition pos_leb (a b : loc) : bool := (l_line a <? l_line b) || ((l_line a =? l_line b) && (l_col a <=? l_col b)).
Definition upto (ms : list marker) (l : loc) : list marker :=
  filter (fun m => (l_fid (m_loc m) =? l_fid l) && pos_leb (m_loc m) l) ms.

(** Inside a region: a region was opened and not closed since. *)
Definition opens (m : marker) : Prop :=
  match m_kind m with IgnoreOn => True | IgnoreCount _ => True | _ => False end.
Definition in_region (ms : list marker) : Prop :=
  exists a m b, ms = a ++ m :: b /\ opens m /\ forall x, In x b -> m_kind x <> IgnoreOff.

(** The last local setting of a flag. *)
Definition last_set (code : Z) (ms : list marker) (set : ynm) : Prop :=
  exists a m b, ms = a ++ m :: b /\ m_kind m = LocalSet code set /\
    forall x s, In x b -> m_kind x <> LocalSet code s.
