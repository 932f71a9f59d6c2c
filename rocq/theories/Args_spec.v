(** A command line as a sequence of items, what is written for each and what each is to do. *)
From Verif Require Import Cbase Flagtab_model Flagname_model Flagname_spec Flagset_model Args_model.

Inductive item :=
| IFile (name : cstr)                                       (* file.c *)
| IFlag (on long : bool) (name : cstr) (e : fflag)          (* +flag, -flag, --flag *)
| IArg (on long : bool) (name : cstr) (e : fflag) (arg : cstr) (* +flag argument *)
| IMode (on long : bool) (m : mode)                         (* -strict *)
| IJoined (spec : bool) (dir : cstr)                        (* -Idir, -Sdir *)
| IApart (spec : bool) (dir : cstr)                         (* -I dir *)
| IDefine (undef : bool) (text : cstr).                     (* -Dname=value, -Uname *)

Definition mode_text (m : mode) : cstr :=
  match m with Weak => lit "weak" | Standard => lit "standard" | Checks => lit "checks" | Strict => lit "strict" end.
Definition word (on long : bool) (name : cstr) : cstr := (if on then lit "+" else lit "-") ++ (if long then lit "-" else []) ++ name.
Definition words (i : item) : list cstr :=
  match i with
  | IFile name => [name]
  | IFlag on long name _ => [word on long name]
  | IArg on long name _ arg => [word on long name; arg]
  | IMode on long m => [word on long (mode_text m)]
  | IJoined spec dir => [(if spec then lit "-S" else lit "-I") ++ dir]
  | IApart spec dir => [if spec then lit "-S" else lit "-I"; dir]
  | IDefine undef text => [(if undef then lit "-U" else lit "-D") ++ text]
  end.

Definition optionlike (s : cstr) : Prop := exists c r, s = c :: r /\ (c = "-"%char \/ c = "+"%char).
Definition no_dash (s : cstr) : Prop := forall r, s <> ("-"%char :: r).
Definition named (name : cstr) (e : fflag) : Prop :=
  In e flag_table /\ spelled forms name (flag e) /\ no_dash name /\
  ~ In (fcode e) [FLG_INCLUDEPATH; FLG_SPECPATH; FLG_DEFINE; FLG_UNDEFINE; FLG_HELP].
(** What can be written. *)
Definition wf (i : item) : Prop :=
  match i with
  | IFile name => ~ optionlike name
  | IFlag _ _ name e => named name e /\ argtype e = ARG_NONE
  | IArg _ _ name e _ => named name e /\ argtype e <> ARG_NONE /\ argtype e <> ARG_SPECIAL /\ fcode e <> FLG_INIT
  | IMode _ _ _ => True
  | IJoined spec dir => dir <> [] /\ (spec = false -> dir <> lit "-")
  | IApart _ _ => True
  | IDefine _ _ => True
  end.

Definition control (e : fflag) : bool := existsb (Z.eqb (fcode e)) control_flags.
Definition value_event (e : fflag) (arg : cstr) : event :=
  match argtype e with
  | ARG_NUMBER | ARG_CHAR => EValue (fcode e) arg
  | _ => if fcode e =? FLG_MTSFILE then EMts arg else EString (fcode e) arg
  end.
(** What an item does in its turn: all but the flags which control messages and the name of an
    options file, which have been seen to beforehand. *)
Definition meaning (i : item) : list event :=
  match i with
  | IFile name => [EFile name]
  | IFlag on _ _ e => if control e then [] else [ESet (fcode e) on]
  | IArg on _ _ e arg => if control e then []
                         else if fcode e =? FLG_OPTF then [ESet FLG_OPTF on]
                         else [ESet (fcode e) on; value_event e arg]
  | IMode _ _ m => [EMode (Some m)]
  | IJoined spec dir => [EDir (if spec then FLG_SPECPATH else FLG_INCLUDEPATH) dir]
  | IApart spec dir => [EDir (if spec then FLG_SPECPATH else FLG_INCLUDEPATH) dir]
  | IDefine undef text => [EPass ((if undef then lit "U" else lit "D") ++ text)]
  end.
(** In an options file everything is done in its turn. *)
Definition meaning_rc (i : item) : list event :=
  match i with
  | IFlag on _ _ e => [ESet (fcode e) on]
  | IArg on _ _ e arg => if fcode e =? FLG_OPTF then [ESet FLG_OPTF on; ERcFile arg]
                         else [ESet (fcode e) on; value_event e arg]
  | _ => meaning i
  end.
(** Beforehand. *)
Definition beforehand (i : item) : list event :=
  match i with
  | IFlag on _ _ e => if fcode e =? FLG_NOF then [ENoRc] else if control e then [ESet (fcode e) on] else []
  | IArg on _ _ e arg => if control e then [ESet (fcode e) on; EString (fcode e) arg]
                         else if fcode e =? FLG_OPTF then [ERcFile arg] else []
  | _ => []
  end.
(** For the first pass an argument must not look like an option, unless it is not looked at. *)
Definition clear (i : item) : Prop :=
  match i with
  | IArg _ _ _ e arg => control e = true \/ fcode e = FLG_OPTF \/ ~ optionlike arg
  | IApart _ dir => ~ optionlike dir
  | _ => True
  end.

(** What the options do to the settings. *)
Definition setting (r : outcome) (ev : event) : outcome :=
  match r with
  | Ok c => match ev with
            | ESet f b => Ok (user_set_flag c f b)
            | EValue f arg => set_value_flag c f arg
            | EMode m => Ok (set_mode c m)
            | EUndefined => Undefined
            | _ => Ok c
            end
  | r => r
  end.
Definition settings (c : ctx) (l : list event) : outcome := fold_left setting l (Ok c).
