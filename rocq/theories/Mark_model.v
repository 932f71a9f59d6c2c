(** * Suppression comments: the list of flag markers

    Sources: src/flagMarker.c, src/flagMarkerList.c, src/context.c:283-460.
    Elements carry defined locations (they are created at the current location).
    The array is represented by the list of its elements; growing is not represented
    (every write is preceded by a growth check, flagMarkerList.c:184-189, 293-296). *)
From Verif Require Import Cbase Loc_model.
Local Open Scope Z_scope.

(** ynm, Headers/ynm.h *)
Inductive ynm := NO | YES | MAYBE.

(** flagMarker, Headers/flagMarker.h:14-34; flag codes are numbers *)
Inductive mkind := LocalSet (code : Z) (set : ynm) | IgnoreOn | IgnoreCount (n : Z) | IgnoreOff
| Suppress (code : Z).
Record marker := Mk { m_kind : mkind; m_loc : loc }.

(** SKIP_FLAG, Headers/flag_codes.h:20 *)
Definition SKIP_FLAG : Z := -2.

Definition ynm_eqb (a b : ynm) : bool :=
  match a, b with NO, NO | YES, YES | MAYBE, MAYBE => true | _, _ => false end.

Section Markers.
Variable ft : ftable.
(** flagcode_isNameChecksFlag, flags.c; FLG_NAMECHECKS *)
Variable isNameChecks : Z -> bool.
Variable NAMECHECKS : Z.

(** flagMarker_equal, flagMarker.c:110-138; two markers are different objects *)
Definition m_equal (a b : marker) : bool :=
  match m_kind a, m_kind b with
  | LocalSet c s, LocalSet d t => fl_equal ft (Some (m_loc a)) (Some (m_loc b)) && ynm_eqb s t && (c =? d)
  | IgnoreCount n, IgnoreCount m => fl_equal ft (Some (m_loc a)) (Some (m_loc b)) && (n =? m)
  | IgnoreOn, IgnoreOn | IgnoreOff, IgnoreOff => fl_equal ft (Some (m_loc a)) (Some (m_loc b))
  | Suppress c, Suppress d => fl_equal ft (Some (m_loc a)) (Some (m_loc b)) && (c =? d)
  | _, _ => false
  end.

(** flagMarkerList_contains, flagMarkerList.c:362-378 *)
Definition contains (s : list marker) (m : marker) : bool := existsb (fun x => m_equal x m) s.

(** flagMarker_beforeMarker, flagMarker.c:180-183; flagMarker_sameFile, flagMarker.c:171-174 *)
Definition beforeMarker (m : marker) (l : loc) : bool := negb (fl_notAfter (Some (m_loc m)) (Some l)).
Definition m_sameFile (m : marker) (l : loc) : bool := almostSameFile ft (Some (m_loc m)) (Some l).

(** flagMarkerList_lastBeforeLoc, flagMarkerList.c:343-360: the elements up to the highest
    one of this file that is not after the location, and the rest; the first part is empty
    when there is none *)
Fixpoint split_before (s : list marker) (l : loc) : list marker * list marker :=
  match s with
  | [] => ([], [])
  | x :: s =>
      match split_before s l with
      | ([], r) => if sameFile ft (Some (m_loc x)) (Some l) && negb (beforeMarker x l)
                   then ([x], r) else ([], x :: r)
      | (p, r) => (x :: p, r)
      end
  end.

Definition is_count (m : marker) : bool := match m_kind m with IgnoreCount _ => true | _ => false end.
Definition is_off (m : marker) : bool := match m_kind m with IgnoreOff => true | _ => false end.
Definition is_on (m : marker) : bool := match m_kind m with IgnoreOn => true | _ => false end.
Definition is_localset (m : marker) : bool := match m_kind m with LocalSet _ _ => true | _ => false end.
Definition is_suppress (m : marker) : bool := match m_kind m with Suppress _ => true | _ => false end.

(** flagMarkerList_add, flagMarkerList.c:75-221; the boolean is the result, the warnings
    for refused markers are not represented *)
Definition refused (s : list marker) (m : marker) : bool :=
  match rev s with
  | last :: nlast :: _ =>
      if is_count last then negb (is_off m)
      else is_off last && is_count nlast
           && sameFileAndLine ft (Some (m_loc m)) (Some (m_loc nlast))
  | _ => false
  end.

Definition add (s : list marker) (m : marker) : list marker * bool :=
  if contains s m then (s, false)
  else if refused s m then (s, false)
  else match split_before s (m_loc m) with
       | ([], r) => (s ++ [m], true)
       | (p, r) => (p ++ m :: r, true)
       end.

(** The loop of flagMarkerList_suppressError, flagMarkerList.c:431-533, over the elements
    from the last to the first; on meeting a counted region the elements behind the
    current one are returned, so that a Suppress marker can be put after it
    (flagMarkerList_splice, flagMarkerList.c:278-308).  Result: the answer, and whether
    the walk stopped at a counted region, with the number of elements in front. *)
Fixpoint walk (code : Z) (islib : bool) (l : loc) (rs : list marker)
  (ignoreOff nameOff flagOff : bool) (flagSet : ynm) : ynm * option nat :=
  match rs with
  | [] => (flagSet, None)
  | c :: rs' =>
      if negb islib && negb (m_sameFile c l) then (flagSet, None) else
      match m_kind c with
      | IgnoreOff => walk code islib l rs' true nameOff flagOff flagSet
      | IgnoreOn => if negb ignoreOff then (YES, None)
                    else walk code islib l rs' ignoreOff nameOff flagOff flagSet
      | IgnoreCount _ => if negb ignoreOff then (YES, Some (List.length rs))
                         else walk code islib l rs' ignoreOff nameOff flagOff flagSet
      | Suppress _ => walk code islib l rs' ignoreOff nameOff flagOff flagSet
      | LocalSet k set =>
          let names fo fs :=
            if (k =? NAMECHECKS) && negb nameOff && isNameChecks code then
              match set with
              | NO => (YES, None)
              | _ => let fs := match set with YES => NO | _ => MAYBE end in
                     if ignoreOff && fo then (fs, None)
                     else walk code islib l rs' ignoreOff true fo fs
              end
            else walk code islib l rs' ignoreOff nameOff fo fs in
          if negb flagOff && (k =? code) then
            match set with
            | NO => (YES, None)
            | _ => let fs := match set with YES => NO | _ => MAYBE end in
                   if ignoreOff && negb (isNameChecks code && negb nameOff) then (fs, None)
                   else names true fs
            end
          else names flagOff flagSet
      end
  end.

(** flagMarkerList_suppressError, flagMarkerList.c:397-534 *)
Definition suppressError (s : list marker) (code : Z) (l : loc) : ynm * list marker :=
  let (p, r) := if is_lib l then (s, []) else split_before s l in
  match p with
  | [] => (MAYBE, s)
  | _ => match walk code (is_lib l) l (rev p) false false false MAYBE with
         | (y, None) => (y, s)
         | (y, Some n) => (y, firstn n s ++ Mk (Suppress code) l :: skipn n s)
         end
  end.

(** flagMarkerList_inIgnore, flagMarkerList.c:536-584 *)
Fixpoint walk_ignore (l : loc) (rs : list marker) : bool * option nat :=
  match rs with
  | [] => (false, None)
  | c :: rs' =>
      if negb (m_sameFile c l) then (false, None) else
      match m_kind c with
      | IgnoreOff => (false, None)
      | IgnoreOn => (true, None)
      | IgnoreCount _ => (true, Some (List.length rs))
      | _ => walk_ignore l rs'
      end
  end.

Definition inIgnore (s : list marker) (l : loc) : bool * list marker :=
  if is_lib l then (false, s) else
  let (p, _) := split_before s l in
  match walk_ignore l (rev p) with
  | (b, None) => (b, s)
  | (b, Some n) => (b, firstn n s ++ Mk (Suppress SKIP_FLAG) l :: skipn n s)
  end.

(** ** What the user does (context.c) *)

(** Comments and messages, in the order they are met.  [Ignore]: context_enterSuppressRegion,
    context.c:387-402; [End]: context_exitSuppressRegion, context.c:448-461; [Flag]:
    DOSET and context_restoreFlag, context.c:3843-3880; [Line]: context_enterSuppressLine,
    context.c:412-433; [Message]: a message elsewhere than at the current location,
    context_inSuppressFlagZone, context.c:283-309. *)
Inductive event :=
| Ignore (l : loc) | End (l : loc) | Flag (code : Z) (set : ynm) (l : loc) | Line (n : Z) (l : loc)
| Message (code : Z) (l : loc).

Definition step (s : list marker) (e : event) : list marker :=
  match e with
  | Ignore l => fst (add s (Mk IgnoreOn l))
  | End l => fst (add s (Mk IgnoreOff l))
  | Flag c set l => fst (add s (Mk (LocalSet c set) l))
  | Line n l =>
      let (s, b) := add s (Mk (IgnoreCount n) l) in
      if b then fst (add s (Mk IgnoreOff (Loc (l_kind l) (l_fid l) (l_line l + 1) 0))) else s
  | Message c l => snd (suppressError s c l)
  end.

Definition markers (es : list event) : list marker := fold_left step es [].

(** context_inSuppressFlagZone, context.c:283-309: hidden; [flag] is the saved setting of
    the flag (saved before the first local change), or the current one. *)
Definition hidden (s : list marker) (flag : bool) (code : Z) (l : loc) : bool :=
  match fst (suppressError s code l) with
  | MAYBE => negb flag
  | YES => true
  | NO => false
  end.
End Markers.
