(** Model of the library-file reader primitives, /repo/src/reader.c, and of the
    dump/undump of constant values, /repo/src/multiVal.c.

    Simplifications:
    - the [char **s] cursor is the remaining string; writing a temporary NUL
      into the buffer (reader.c:131-133) is not visible outside;
    - [llbug] (llerror.c:1485) reports an internal bug and possibly continues;
      the model stops with [RBug];
    - reading at or beyond the terminating NUL, and signed overflow, is [RUB]. *)
From Verif Require Import Cbase.

Inductive res (A : Type) : Type :=
| ROk (a : A) (rest : cstr)   (* value and new cursor *)
| RBug                        (* llbug / llassert / llfatalbug reached *)
| RUB.                        (* undefined behaviour in C *)
Arguments ROk {A}. Arguments RBug {A}. Arguments RUB {A}.

(** Result monad. *)
Definition rbind {A B} (r : res A) (f : A -> cstr -> res B) : res B :=
  match r with ROk a s => f a s | RBug => RBug | RUB => RUB end.

Definition is_space (c : ascii) : bool := Ascii.eqb c ch_space.
(** reader.c:70  trailing separators. *)
Definition is_trail (c : ascii) : bool :=
  Ascii.eqb c ch_nl || Ascii.eqb c ch_space || Ascii.eqb c ch_tab.

(** reader.c:57-63  the digit loop (i = i*10, then i = i + d); signed overflow
    of either operation is undefined. *)
Fixpoint getInt_digits (i : Z) (got : bool) (s : cstr) : res (Z * bool) :=
  match s with
  | c :: r => if is_digit c then
                if in_int (i * 10) then
                  if in_int (i * 10 + digit_val c)
                  then getInt_digits (i * 10 + digit_val c) true r
                  else RUB
                else RUB
              else ROk (i, got) s
  | [] => ROk (i, got) []
  end.

(** reader.c:65-75 *)
Definition getInt_finish (p : Z * bool) (s : cstr) : res Z :=
  let (i, got) := p in
  if got then ROk i (skip_while is_trail s) else RBug.

(** reader.c:31-76  reader_getInt. *)
Definition reader_getInt (s0 : cstr) : res Z :=
  match skip_while is_space s0 with
  | c :: r =>
      if Ascii.eqb c "-"%char then
        match r with
        | d :: r' => if is_digit d
                     then rbind (getInt_digits (- (digit_val d)) true r') getInt_finish
                     else RBug                               (* reader.c:46 *)
        | [] => RBug
        end
      else rbind (getInt_digits 0 false (c :: r)) getInt_finish
  | [] => RBug                                               (* reader.c:67 *)
  end.

(** reader.c:78-91  reader_loadChar; moving past the terminator is UB for the
    next access. *)
Definition reader_loadChar (s0 : cstr) : res ascii :=
  match skip_while is_space s0 with
  | c :: r => ROk c r
  | [] => RUB
  end.

(** reader.c:120-121  word separators. *)
Definition is_wordsep (c : ascii) : bool :=
  Ascii.eqb c ch_space || Ascii.eqb c ","%char || Ascii.eqb c ch_nl
  || Ascii.eqb c ch_tab || Ascii.eqb c "#"%char.

(** Longest prefix of characters satisfying [p], and the rest. *)
Fixpoint span (p : ascii -> bool) (s : cstr) : cstr * cstr :=
  match s with
  | c :: r => if p c then let (a, b) := span p r in (c :: a, b) else ([], s)
  | [] => ([], [])
  end.

(** reader.c:113-135  reader_getWord; NULL is [None]. *)
Definition reader_getWord (s : cstr) : res (option cstr) :=
  let (w, r) := span (fun c => negb (is_wordsep c)) s in
  match w with [] => ROk None r | _ => ROk (Some w) r end.

(** reader.c:141-160  reader_readUntil (and its two assertions). *)
Definition reader_readUntil (s : cstr) (x : ascii) : res cstr :=
  let (w, r) := span (fun c => negb (Ascii.eqb c x)) s in
  match r, w with
  | [], _ => RBug
  | _, [] => RBug
  | _, _ => ROk w r
  end.

(** reader.c:183-195 *)
Definition reader_optCheckChar (s : cstr) (c : ascii) : bool * cstr :=
  match s with
  | x :: r => if Ascii.eqb x c then (true, r) else (false, s)
  | [] => (false, [])
  end.

(** reader.c:197-223 *)
Definition reader_checkChar (s : cstr) (c : ascii) : res unit :=
  match s with
  | x :: r => if Ascii.eqb x c then ROk tt r else RBug
  | [] => RBug
  end.

(** multiVal.h:10-20.  A double is represented by a whole number of eighths
    (every such number is an exact double); this covers enough values to see
    the effect of the two-decimal format of message.c:246. *)
Inductive multiVal :=
| MVLong (z : Z)          (* long *)
| MVChar (z : Z)          (* char, -128..127 *)
| MVDouble (eighths : Z)
| MVString (s : cstr).

(** message.c:245-246  "%f" is printed with "%.2lf": [k/8] rounded to
    hundredths; the exact tie .125 goes to the even digit.
    k/8 = 12.5*k hundredths. *)
Definition hundredths (k : Z) : Z :=
  let t := 25 * k in           (* twice the number of hundredths *)
  if Z.even t then t / 2
  else let lo := t / 2 in if Z.even lo then lo else lo + 1.
Definition dec2 (n : Z) : cstr := [digit_char (n / 10 mod 10); digit_char (n mod 10)].
Definition print_hundredths (h : Z) : cstr :=
  (if h <? 0 then ["-"%char] else []) ++
  dec_nat (Z.abs h / 100) ++ ["."%char] ++ dec2 (Z.abs h mod 100).

(** multiVal.c:205-226  multiVal_dump; "%d" of an int-truncated long.
    [None] is multiVal_undefined, printed as the empty string. *)
Definition multiVal_dump (m : option multiVal) : cstr :=
  match m with
  | Some (MVLong z) => "i"%char :: dec (wrap32 z)
  | Some (MVChar z) => "c"%char :: dec z
  | Some (MVDouble k) => "d"%char :: print_hundredths (hundredths k)
  | Some (MVString s) => "s"%char :: s
  | None => []
  end.

(** strtod on what [print_hundredths] prints: result in hundredths. Only this
    shape is needed: optional '-', digits, '.', two digits. *)
Definition strtod_hundredths (s : cstr) : option (Z * cstr) :=
  let '(neg, s1) := match s with
                    | c :: r => if Ascii.eqb c "-"%char then (true, r) else (false, s)
                    | [] => (false, s) end in
  let (ds, r) := span is_digit s1 in
  match ds, r with
  | _ :: _, dot :: a :: b :: r' =>
      if Ascii.eqb dot "."%char && is_digit a && is_digit b then
        let v := 100 * fold_left (fun x c => 10 * x + digit_val c) ds 0
                 + 10 * digit_val a + digit_val b in
        Some (if neg then - v else v, r')
      else None
  | _, _ => None
  end.

(** What multiVal_undump can yield: a double is given in hundredths (exact value
    of the decimal read). *)
Inductive multiValR :=
| RLong (z : Z) | RChar (z : Z) | RDouble (hund : Z) | RString (s : cstr).

(** multiVal.c:247-254: read up to '#'; running over the terminator is UB. *)
Fixpoint undump_string (s : cstr) : res cstr :=
  match s with
  | [] => RUB
  | c :: r => if Ascii.eqb c "#"%char then ROk [] s
              else rbind (undump_string r) (fun w r' => ROk (c :: w) r')
  end.

(** multiVal.c:228-263  multiVal_undump. *)
Definition multiVal_undump (s : cstr) : res (option multiValR) :=
  match s with
  | [] => RBug
  | c :: r =>
      if Ascii.eqb c "i"%char then
        rbind (reader_getInt r) (fun z s' => ROk (Some (RLong z)) s')
      else if Ascii.eqb c "c"%char then
        rbind (reader_getInt r) (fun z s' => ROk (Some (RChar (wrap8 z))) s')
      else if Ascii.eqb c "d"%char then
        match strtod_hundredths r with
        | Some (h, s') => ROk (Some (RDouble h)) s'
        | None => RBug
        end
      else if Ascii.eqb c "s"%char then
        rbind (undump_string r) (fun w s' => ROk (Some (RString w)) s')
      else if Ascii.eqb c "@"%char || Ascii.eqb c "#"%char then ROk None s
      else RBug
  end.
