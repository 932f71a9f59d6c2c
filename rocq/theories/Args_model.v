(** Model of the reading of options: src/flags.c [flags_processFlags] 1676–1915 (the argument
    loop) and the first pass over the arguments of src/llmain.c 510–590.

    Simplified: the result is the list of what is done, in order; what each of these does to the
    settings is in Flagset_model.v.  Warnings are left out.  [EUndefined] stands for an access
    outside the table of flags. *)
From Verif Require Import Cbase Flagtab_model Flagname_model Flagset_model.

Inductive event :=
| EBadFlag (arg : cstr)          (* flags.c 1711–1718 *)
| EHelp (arg : cstr)             (* 1719–1735 *)
| EPass (arg : cstr)             (* 1742: to the preprocessor *)
| EDir (opt : Z) (dir : cstr)    (* 1772, 1776 *)
| EMissing (opt : Z)             (* 1763, 1825, 1840, 1907 *)
| EMode (m : option mode)        (* 1794 *)
| ESet (opt : Z) (on : bool)     (* 1813 *)
| EValue (opt : Z) (arg : cstr)  (* 1821, 1836 *)
| EString (opt : Z) (arg : cstr) (* 1900 *)
| ERcFile (arg : cstr)           (* 1868 *)
| EInit (arg : cstr)             (* 1873 *)
| EMts (arg : cstr)              (* 1886–1895 *)
| EFile (name : cstr)            (* 1926 *)
| ENoRc                          (* llmain.c 535 *)
| EUndefined.

(** flags.c 237–257. *)
Definition control_flags : list Z := [
  FLG_SHOWSCAN; FLG_WARNRC; FLG_PARENFILEFORMAT; FLG_MESSAGESTREAMSTDERR; FLG_MESSAGESTREAMSTDOUT; FLG_WARNINGSTREAMSTDERR;
  FLG_WARNINGSTREAMSTDOUT; FLG_ERRORSTREAMSTDERR; FLG_ERRORSTREAMSTDOUT; FLG_MESSAGESTREAM; FLG_WARNINGSTREAM;
  FLG_ERRORSTREAM; FLG_STREAMOVERWRITE].
Definition is_control (f : Z) : bool := existsb (Z.eqb f) control_flags.

(** flags.c 1463–1485. *)
Definition has_argument (f : Z) : bool := has (fun e => match argtype e with ARG_NONE => false | _ => true end) f.
Definition has_number (f : Z) : bool := has is_number f.
Definition has_char (f : Z) : bool := has is_char f.
Definition is_string (e : fflag) : bool :=
  match argtype e with ARG_STRING | ARG_FILE | ARG_DIRECTORY | ARG_PATH => true | _ => false end.
Definition has_string (f : Z) : bool := has is_string f.

(** The comparisons with the names of the modes, context.c 1026, 1087, 1105, 1191. *)
Definition mode_of (s : cstr) : option mode :=
  if cstr_eqb s (lit "standard") then Some Standard
  else if cstr_eqb s (lit "weak") then Some Weak
  else if cstr_eqb s (lit "checks") then Some Checks
  else if cstr_eqb s (lit "strict") then Some Strict
  else None.

(** flags.c 1687–1927. *)
Fixpoint process (inCommandLine : bool) (argv : list cstr) : list event :=
  match argv with
  | [] => []
  | thisarg :: rest =>
      match thisarg with
      | [] => EFile [] :: process inCommandLine rest
      | ch :: body =>
          if Ascii.eqb ch "-" || Ascii.eqb ch "+" then
            let set := Ascii.eqb ch "+" in
            let flagname := match body with
                            | c :: b => if Ascii.eqb c "-" then b else body
                            | [] => body
                            end in
            let opt := identify flagname in
            if opt =? INVALID_FLAG then EBadFlag thisarg :: process inCommandLine rest
            else if opt =? FLG_HELP then EHelp thisarg :: process inCommandLine rest
            else if (opt =? FLG_DEFINE) || (opt =? FLG_UNDEFINE) then EPass body :: process inCommandLine rest
            else if (opt =? FLG_INCLUDEPATH) || (opt =? FLG_SPECPATH) then
              if cstr_eqb thisarg (lit "-I-") then EDir FLG_INCLUDEPATH thisarg :: process inCommandLine rest
              else
                match skipn 2 thisarg with
                | [] => match rest with
                        | d :: rest' => EDir opt d :: process inCommandLine rest'
                        | [] => [EMissing opt; EDir opt []]
                        end
                | dir => EDir opt dir :: process inCommandLine rest
                end
            else if opt =? MODENAME_FLAG then EMode (mode_of flagname) :: process inCommandLine rest
            else if inCommandLine && is_control opt then
              if has_argument opt then
                match rest with _ :: rest' => process inCommandLine rest' | [] => [] end
              else process inCommandLine rest
            else if opt <? 0 then [EUndefined]               (* SKIP_FLAG: gc.setGlobally[-2] *)
            else
              ESet opt set ::
              (if has_number opt || has_char opt then
                 match rest with
                 | arg :: rest' => EValue opt arg :: process inCommandLine rest'
                 | [] => [EMissing opt]
                 end
               else if has_string opt then
                 match rest with
                 | arg :: rest' =>
                     if opt =? FLG_OPTF then
                       if inCommandLine then process inCommandLine rest'
                       else ERcFile arg :: process inCommandLine rest'
                     else if opt =? FLG_INIT then [EInit arg]  (* [break] leaves the loop *)
                     else if opt =? FLG_MTSFILE then EMts arg :: process inCommandLine rest'
                     else EString opt arg :: process inCommandLine rest'
                 | [] => [EMissing opt]
                 end
               else process inCommandLine rest)
          else EFile thisarg :: process inCommandLine rest
      end
  end.

(** llmain.c 510–590; the program stops when -f has no argument. *)
Fixpoint first_pass (argv : list cstr) : list event :=
  match argv with
  | [] => []
  | thisarg :: rest =>
      match thisarg with
      | [] => first_pass rest
      | ch :: body =>
          if Ascii.eqb ch "-" || Ascii.eqb ch "+" then
            let set := Ascii.eqb ch "+" in
            let opt := identify body in
            if opt =? FLG_NOF then ENoRc :: first_pass rest
            else if is_control opt then
              ESet opt set ::
              (if has_argument opt then
                 match rest with
                 | arg :: rest' => EString opt arg :: first_pass rest'
                 | [] => [EMissing opt]
                 end
               else first_pass rest)
            else if opt =? FLG_OPTF then
              match rest with
              | arg :: rest' => ERcFile arg :: first_pass rest'
              | [] => [EMissing opt]
              end
            else first_pass rest
          else first_pass rest
      end
  end.
