(** Formats of printf and scanf as C describes them (ISO C90 7.9.6.1 and 7.9.6.2, with the
    modifiers hh and ll and the [%lf] of C99), and the arguments which they need. *)
From Verif Require Import Cbase Prim_model Tspec_model Format_model.

Inductive modifier := Mnone | Mhh | Mh | Ml | Mll | ML.
Definition modifier_text (m : modifier) : cstr :=
  lit match m with Mnone => "" | Mhh => "hh" | Mh => "h" | Ml => "l" | Mll => "ll" | ML => "L" end.

(** Width or precision. *)
Inductive amount := Num (digits : cstr) | Star.
Definition amount_text (a : amount) : cstr := match a with Num ds => ds | Star => lit "*" end.
Definition amount_wf (a : amount) : Prop :=
  match a with Num ds => forallb is_digit ds = true | Star => True end.

(** The conversions of numbers to which modifiers apply. *)
Definition integer_conv (k : ascii) : bool := one_of k (lit "diouxX").
Definition unsigned_conv (k : ascii) : bool := one_of k (lit "ouxX").
Definition real_conv (k : ascii) : bool := one_of k (lit "feEgG").

(** 7.9.6.1: which modifiers stand before which conversion. *)
Definition modifier_ok (m : modifier) (k : ascii) : bool :=
  match m with
  | Mnone => true
  | Mhh | Mh | Mll => integer_conv k || Ascii.eqb k "n"
  | Ml => integer_conv k || Ascii.eqb k "n" || real_conv k
  | ML => real_conv k
  end.

(** The signed and the unsigned integer type of a modifier. *)
Definition int_type (m : modifier) : cprim :=
  match m with
  | Mnone | ML => P_INT | Mhh => P_CHAR | Mh => P_SINT | Ml => P_LINT | Mll => P_LLINT
  end.
Definition uint_type (m : modifier) : cprim :=
  match m with
  | Mnone | ML => P_UINT | Mhh => P_UCHAR | Mh => P_USINT | Ml => P_ULINT | Mll => P_ULLINT
  end.

(** Directives of printf. *)
Record pdirective := PD {
  p_flags : cstr; p_width : option amount; p_precision : option amount;
  p_modifier : modifier; p_conv : ascii }.
Inductive ppiece := PText (t : cstr) | PPercent | PDir (d : pdirective).

Definition opt_text (pre : cstr) (a : option amount) : cstr :=
  match a with None => [] | Some a => pre ++ amount_text a end.
Definition pdir_text (d : pdirective) : cstr :=
  "%"%char :: p_flags d ++ opt_text [] (p_width d) ++ opt_text (lit ".") (p_precision d)
  ++ modifier_text (p_modifier d) ++ [p_conv d].
Definition ppiece_text (p : ppiece) : cstr :=
  match p with PText t => t | PPercent => lit "%%" | PDir d => pdir_text d end.
Definition pformat_text (f : list ppiece) : cstr := List.concat (map ppiece_text f).

Definition pflag (c : ascii) : bool := one_of c (lit "-+ #0").
Definition opt_wf (a : option amount) : Prop := match a with None => True | Some a => amount_wf a end.
Definition no_percent (t : cstr) : Prop := ~ In "%"%char t.
Definition pdir_wf (d : pdirective) : Prop :=
  forallb pflag (p_flags d) = true /\ opt_wf (p_width d) /\ opt_wf (p_precision d)
  /\ one_of (p_conv d) (lit "diouxXfeEgGcspn") = true
  /\ modifier_ok (p_modifier d) (p_conv d) = true.
Definition ppiece_wf (p : ppiece) : Prop :=
  match p with PText t => no_percent t | PPercent => True | PDir d => pdir_wf d end.
Definition pformat_wf (f : list ppiece) : Prop := Forall ppiece_wf f.

(** The arguments: an int for each star, and the value.  The small integer types stand for the
    types to which the promoted argument is converted back; [%c] takes an int, as which characters
    are passed. *)
Definition star_arg (a : option amount) : list fty :=
  match a with Some Star => [FNum (Prim P_INT)] | _ => [] end.
Definition pvalue (m : modifier) (k : ascii) : fty :=
  if unsigned_conv k then FNum (Prim (match m with Mhh => P_UINT | _ => uint_type m end))
  else if integer_conv k then FNum (Prim (match m with Mhh => P_INT | _ => int_type m end))
  else if real_conv k then FNum (Prim (match m with ML => P_LDOUBLE | _ => P_DOUBLE end))
  else if Ascii.eqb k "c" then FCharInt
  else if Ascii.eqb k "s" then FString
  else if Ascii.eqb k "p" then FVoidPtr
  else FPtr (Prim (int_type m)).
Definition pdir_args (d : pdirective) : list fty :=
  star_arg (p_width d) ++ star_arg (p_precision d) ++ [pvalue (p_modifier d) (p_conv d)].
Definition ppiece_args (p : ppiece) : list fty :=
  match p with PDir d => pdir_args d | _ => [] end.
Definition pformat_args (f : list ppiece) : list fty := List.concat (map ppiece_args f).

(** No flag other than 0 stands behind a flag 0. *)
Fixpoint zeros_last (fs : cstr) : bool :=
  match fs with
  | [] => true
  | c :: r => if Ascii.eqb c "0" then forallb (Ascii.eqb "0") r else zeros_last r
  end.
Definition pflags_in_order (p : ppiece) : Prop :=
  match p with PDir d => zeros_last (p_flags d) = true | _ => True end.
(** No modifier before [n], no l before a conversion of a double. *)
Definition plain_print (p : ppiece) : Prop :=
  match p with
  | PDir d => (p_conv d = "n"%char -> p_modifier d = Mnone)
              /\ (real_conv (p_conv d) = true -> p_modifier d <> Ml)
  | _ => True
  end.

(** Directives of scanf. *)
Inductive sconv := SConv (k : ascii) | SSet (negated : bool) (chars : cstr).
Record sdirective := SD {
  s_suppress : bool; s_width : cstr; s_modifier : modifier; s_conv : sconv }.
Inductive spiece := SText (t : cstr) | SPercent | SDir (d : sdirective).

Definition sconv_text (c : sconv) : cstr :=
  match c with
  | SConv k => [k]
  | SSet neg cs => lit "[" ++ (if neg then lit "^" else []) ++ cs ++ lit "]"
  end.
Definition sdir_text (d : sdirective) : cstr :=
  "%"%char :: (if s_suppress d then lit "*" else []) ++ s_width d
  ++ modifier_text (s_modifier d) ++ sconv_text (s_conv d).
Definition spiece_text (p : spiece) : cstr :=
  match p with SText t => t | SPercent => lit "%%" | SDir d => sdir_text d end.
Definition sformat_text (f : list spiece) : cstr := List.concat (map spiece_text f).

(** A set has at least one character, and a closing bracket only as the first; a set which is not
    negated does not begin with a circumflex. *)
Definition sconv_wf (m : modifier) (c : sconv) : Prop :=
  match c with
  | SConv k => one_of k (lit "diouxXfeEgGcspn") = true /\ modifier_ok m k = true
  | SSet neg cs => m = Mnone /\ cs <> [] /\ ~ In "]"%char (tl cs)
                   /\ (neg = false -> key cs <> "^"%char)
  end.
Definition sdir_wf (d : sdirective) : Prop :=
  forallb is_digit (s_width d) = true /\ sconv_wf (s_modifier d) (s_conv d).
Definition spiece_wf (p : spiece) : Prop :=
  match p with SText t => no_percent t | SPercent => True | SDir d => sdir_wf d end.
Definition sformat_wf (f : list spiece) : Prop := Forall spiece_wf f.

Definition svalue (m : modifier) (c : sconv) : fty :=
  match c with
  | SSet _ _ => FString
  | SConv k =>
      if unsigned_conv k then FPtr (Prim (uint_type m))
      else if integer_conv k then FPtr (Prim (int_type m))
      else if real_conv k then
        FPtr (Prim (match m with Ml => P_DOUBLE | ML => P_LDOUBLE | _ => P_FLOAT end))
      else if Ascii.eqb k "c" then FCharPtr
      else if Ascii.eqb k "s" then FString
      else if Ascii.eqb k "p" then FVoidPtr      (* a pointer to a pointer to void *)
      else FPtr (Prim (int_type m))
  end.
Definition sdir_args (d : sdirective) : list fty :=
  if s_suppress d then [] else [svalue (s_modifier d) (s_conv d)].
Definition spiece_args (p : spiece) : list fty :=
  match p with SDir d => sdir_args d | _ => [] end.
Definition sformat_args (f : list spiece) : list fty := List.concat (map spiece_args f).

(** A set without percent sign, if it is suppressed, or negated with a closing bracket in it. *)
Definition simple_set (p : spiece) : Prop :=
  match p with
  | SDir d => match s_conv d with
              | SSet neg cs => s_suppress d = true \/ (neg = true /\ key cs = "]"%char) ->
                               no_percent cs
              | SConv _ => True
              end
  | _ => True
  end.
(** Neither [%p], nor [%n] with a modifier, nor the modifier hh. *)
Definition plain_scan (p : spiece) : Prop :=
  match p with
  | SDir d => s_suppress d = false ->
      match s_conv d with
      | SConv k => k <> "p"%char /\ (k = "n"%char -> s_modifier d = Mnone) /\ s_modifier d <> Mhh
      | SSet _ _ => True
      end
  | _ => True
  end.

Section Complaints.
Variable A : Type.
Variable matches : fty -> A -> bool.

(** One complaint for each argument of a type other than the one needed. *)
Fixpoint complaints (n : nat) (ts : list fty) (args : list A) : list msg :=
  match ts, args with
  | t :: ts, a :: args => (if matches t a then [] else [Mismatch (S n) t]) ++ complaints (S n) ts args
  | _, _ => []
  end.

(** What is said of a call whose format needs arguments of the types [ts]. *)
Definition verdict (ts : list fty) (args : list A) (ms : list msg) : Prop :=
  match Nat.compare (List.length args) (List.length ts) with
  | Eq => ms = complaints 0 ts args
  | Gt => ms = complaints 0 ts args ++ [Arity (List.length ts) (List.length args)]
  | Lt => exists ms', ms = complaints 0 ts args ++ NoArg (List.length args) :: ms'
  end.
End Complaints.

(** The message is about the number of arguments. *)
Definition about_number (m : msg) : Prop :=
  match m with NoArg _ | Arity _ _ => True | _ => False end.

(** A format the last character of which may stand inside of a directive. *)
Definition inside (c : ascii) : bool := is_digit c || one_of c (lit "%-+ #.*hlL").
Definition ends_inside (s : cstr) : bool := inside (last s "x"%char).
