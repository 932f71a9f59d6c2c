(** What is expected of flag settings, apart from how they are made. *)
From Verif Require Import Cbase Flagtab_model.

(** The flags which by their description (flags.def) stand for several others, or set others or a
    value as well, or cannot be turned off. *)
Definition compound_flags : list Z := [
  FLG_ALLEMPTY; FLG_PREDBOOL; FLG_GLOBALIAS; FLG_ALLBLOCK; FLG_CODEIMPONLY; FLG_SPECALLIMPONLY; FLG_ALLIMPONLY;
  FLG_ANSI89LIMITS; FLG_ISO99LIMITS; FLG_EXTERNALNAMELEN; FLG_INTERNALNAMELEN; FLG_EXTERNALNAMECASEINSENSITIVE;
  FLG_INTERNALNAMECASEINSENSITIVE; FLG_INTERNALNAMELOOKALIKE; FLG_MODUNSPEC; FLG_EXPORTANY; FLG_REPEXPOSE; FLG_RETVAL;
  FLG_PARTIAL; FLG_DEEPBREAK; FLG_LOOPEXEC; FLG_ACCESSALL; FLG_ALLMACROS; FLG_BOUNDS; FLG_BOUNDSREAD; FLG_BOUNDSWRITE;
  FLG_LIKELYBOUNDS; FLG_CZECH; FLG_SLOVAK; FLG_CZECHOSLOVAK; FLG_NULL; FLG_MUSTFREE; FLG_MEMCHECKS; FLG_MEMTRANS;
  FLG_ITS4MOSTRISKY; FLG_ITS4VERYRISKY; FLG_ITS4RISKY; FLG_ITS4MODERATERISK; FLG_ITS4LOWRISK].
Definition simple (e : fflag) : Prop := isIdem e = false /\ ~ In (fcode e) compound_flags.

(** The risk levels, most severe first. *)
Definition levels : list Z := [FLG_ITS4MOSTRISKY; FLG_ITS4VERYRISKY; FLG_ITS4RISKY; FLG_ITS4MODERATERISK; FLG_ITS4LOWRISK].
Definition ordered_levels (on : Z -> bool) : Prop :=
  forall i j, (i < j < 5)%nat -> on (nth i levels 0) = true -> on (nth j levels 0) = true.

(** The number a text of decimal digits stands for. *)
Definition number_of (s : cstr) : Z := fold_left (fun n c => 10 * n + (code c - 48)) s 0.
Definition digits (s : cstr) : Prop := Forall (fun c => 48 <= code c <= 57) s.

(** What an option with a number sets its value to; [None]: the number is refused. *)
Definition accepted (f n : Z) : option Z :=
  if f =? FLG_LINELEN then (if n <=? 0 then None else Some (Z.max n 20)) else Some n.

Definition number_flags : list Z := [
  FLG_EXTERNALNAMELEN; FLG_INTERNALNAMELEN; FLG_LINELEN; FLG_INDENTSPACES; FLG_LOCINDENTSPACES; FLG_EXPECT; FLG_LCLEXPECT;
  FLG_CONTROLNESTDEPTH; FLG_STRINGLITERALLEN; FLG_NUMSTRUCTFIELDS; FLG_NUMENUMMEMBERS; FLG_INCLUDENEST; FLG_LIMIT; FLG_BUGSLIMIT].

(** The limits of the two language standards (constants.h, from ISO C90 5.2.4.1 and C99 5.2.4.1). *)
Definition c90_limit (f : Z) : option Z :=
  if f =? FLG_CONTROLNESTDEPTH then Some 15 else if f =? FLG_STRINGLITERALLEN then Some 509
  else if f =? FLG_INCLUDENEST then Some 8 else if f =? FLG_NUMSTRUCTFIELDS then Some 127
  else if f =? FLG_NUMENUMMEMBERS then Some 127 else if f =? FLG_EXTERNALNAMELEN then Some 6
  else if f =? FLG_INTERNALNAMELEN then Some 31 else None.
Definition c99_limit (f : Z) : option Z :=
  if f =? FLG_CONTROLNESTDEPTH then Some 63 else if f =? FLG_STRINGLITERALLEN then Some 4095
  else if f =? FLG_INCLUDENEST then Some 63 else if f =? FLG_NUMSTRUCTFIELDS then Some 1023
  else if f =? FLG_NUMENUMMEMBERS then Some 1023 else if f =? FLG_EXTERNALNAMELEN then Some 31
  else if f =? FLG_INTERNALNAMELEN then Some 63 else None.

Definition digitsb (s : cstr) : bool := forallb (fun c => (48 <=? code c) && (code c <=? 57)) s.
(** What option [g], turned on or off with the argument [arg], sets the value of [f] to. *)
Definition setting (g : Z) (on : bool) (arg : option cstr) (f : Z) : option Z :=
  if g =? f then match arg with
                 | Some s => if digitsb s then accepted f (number_of s) else None
                 | None => None
                 end
  else if on && (g =? FLG_ANSI89LIMITS) then c90_limit f
  else if on && (g =? FLG_ISO99LIMITS) then c99_limit f
  else None.
(** The value of [f] after the options, left to right, [v] before them. *)
Definition value_after (opts : list (Z * bool * option cstr)) (f v : Z) : Z :=
  fold_left (fun v o => match setting (fst (fst o)) (snd (fst o)) (snd o) f with Some w => w | None => v end) opts v.

(** The options with a number other than the lengths of names. *)
Definition exact_flags : list Z := [
  FLG_LINELEN; FLG_INDENTSPACES; FLG_LOCINDENTSPACES; FLG_EXPECT; FLG_LCLEXPECT; FLG_CONTROLNESTDEPTH; FLG_STRINGLITERALLEN;
  FLG_NUMSTRUCTFIELDS; FLG_NUMENUMMEMBERS; FLG_INCLUDENEST; FLG_LIMIT; FLG_BUGSLIMIT].
(** Whatever happens, values stay in range. *)
Definition low (f : Z) : Z := if f =? FLG_LINELEN then 20 else if f =? FLG_LIMIT then -1 else 0.
Definition in_range (v : Z -> Z) : Prop := forall f, In f number_flags -> low f <= v f.
(** Where the lengths of names come from. *)
Definition name_value (f : Z) (v : Z) : Prop := v = 0 \/ c90_limit f = Some v \/ c99_limit f = Some v.

(** The mode flags which by their description (flags.def) allow something rather than ask for a
    check: turning them on gives fewer messages. *)
Definition permissive : list Z := [
  FLG_PTRNEGATE; FLG_NUMABSTRACTLIT; FLG_NUMABSTRACTINDEX; FLG_FORWARDDECL; FLG_ABSTVOIDP; FLG_CHARINDEX; FLG_ENUMINDEX;
  FLG_BOOLINT; FLG_CHARINT; FLG_ENUMINT; FLG_LONGINT; FLG_SHORTINT; FLG_FLOATDOUBLE; FLG_IGNOREQUALS; FLG_IGNORESIGNS;
  FLG_NUMLITERAL; FLG_CHARINTLITERAL; FLG_RELAXQUALS; FLG_RELAXTYPES; FLG_CHARUNSIGNEDCHAR; FLG_MATCHANYINTEGRAL;
  FLG_LONGUNSIGNEDINTEGRAL; FLG_LONGINTEGRAL; FLG_LONGUNSIGNEDUNSIGNEDINTEGRAL; FLG_LONGSIGNEDINTEGRAL; FLG_ZEROBOOL].
(** Settings [b] are at least as demanding as [a]: on the flags of [fs], every check of [a] is made
    and nothing is allowed which [a] does not allow. *)
Definition at_least (fs : Z -> Prop) (a b : Z -> bool) : Prop :=
  forall f, fs f -> if existsb (Z.eqb f) permissive then (b f = true -> a f = true) else (a f = true -> b f = true).
