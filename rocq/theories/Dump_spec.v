(** Specification side for dumped storage references and constraints (C31, C43). *)
From Verif Require Import Cbase Reader_model Reader_spec Dump_model.

(** The value a dumped constant should have when read. *)
Definition value_of (m : multiVal) : multiValR :=
  match m with
  | MVLong z => RLong z
  | MVChar z => RChar z
  | MVDouble k => RDouble (100 * k / 8)
  | MVString s => RString s
  end.

(** The same reference, with values seen on the reading side. *)
Fixpoint same_sref (s : sref multiVal) : sref multiValR :=
  match s with
  | SInvalid => SInvalid | SParam n => SParam n
  | SArrayK i a => SArrayK i (same_sref a) | SArray a => SArray (same_sref a)
  | SField f r => SField f (same_sref r)
  | SPtr r => SPtr (same_sref r) | SAdr r => SAdr (same_sref r)
  | SObject ct => SObject ct | SSpecial k => SSpecial k
  | SConj a b => SConj (same_sref a) (same_sref b)
  | SGlobal i => SGlobal i | SUnknown => SUnknown | SResult ct => SResult ct
  | SVal r v => SVal (same_sref r) (value_of v)
  end.

(** Ints that survive (C29). *)
Definition good_int (z : Z) : Prop :=
  INT_MIN <= z <= INT_MAX /\ (0 <= z \/ one_digit_then_zeros (- z)).

Definition is_leaf {V} (s : sref V) : Prop :=
  match s with
  | SInvalid | SParam _ | SObject _ | SSpecial _ | SGlobal _ | SUnknown | SResult _ => True
  | _ => False
  end.

Definition good_value (v : multiVal) : Prop :=
  match v with
  | MVLong z => good_int z
  | MVChar z => -128 <= z <= 127 /\ good_int z
  | _ => False
  end.

Definition not_invalid {V} (s : sref V) : Prop :=
  match s with SInvalid => False | SVal SInvalid _ => False | _ => True end.

(** References that can be written and read back: indices and numbers that
    survive, field names that are not broken by the '.' separator, values only on
    references without components. *)
Fixpoint dumpable (s : sref multiVal) : Prop :=
  match s with
  | SInvalid | SUnknown => True
  | SParam n | SGlobal n => good_int n
  | SArrayK i a => good_int i /\ dumpable a
  | SArray a => not_invalid a /\ dumpable a
  | SField f r => ~ In "."%char f /\ ~ In ch_nl f /\ dumpable r
  | SPtr r | SAdr r => dumpable r
  | SObject ct | SResult ct => 0 <= ct <= INT_MAX
  | SSpecial k => 0 <= k <= 3
  | SConj a b => dumpable a /\ dumpable b
  | SVal r v => is_leaf r /\ dumpable r /\ good_value v
  end.

(** What may follow a reference in a line: nothing, the end of the line, or a
    separator which is not a digit, a blank or '='. *)
Definition sep_char (c : ascii) : Prop :=
  (code c < 48 \/ 57 < code c) /\ code c <> 32 /\ code c <> 10 /\ code c <> 9 /\ code c <> 61.
Definition tail_ok (rest : cstr) : Prop :=
  rest = [] \/ rest = nl \/ exists c r, rest = c :: r /\ sep_char c.

(** Names written as a word. *)
Definition word_char (c : ascii) : Prop :=
  code c <> 32 /\ code c <> 44 /\ code c <> 10 /\ code c <> 9 /\ code c <> 35.
Definition is_word (w : cstr) : Prop := w <> [] /\ Forall word_char w.

Definition short (l : cstr) : Prop := Z.of_nat (List.length l) <= 16382.

Definition term_ok (t : dterm multiVal) : Prop :=
  match t with
  | TName isexpr n => is_word n /\ short n /\
      (isexpr = false -> n <> lit "Result" /\ n <> lit "Param" /\ n <> lit "sRef_dump")
  | TResult _ => True
  | TParam ct n => 0 <= ct <= INT_MAX /\ good_int n
  | TField s => dumpable s /\ short (lit "sRef_dump " ++ sRef_dump s)
  | TInt z => good_int z
  end.

(** The term read back: a name is looked up in the symbol table, so an
    expression term becomes a storage term for the same symbol; the type of
    'result' is not stored. *)
Definition term_back (t : dterm multiVal) : dterm multiValR :=
  match t with
  | TName _ n => TName false n
  | TResult _ => TResult (-1)
  | TParam ct n => TParam ct n
  | TField s => TField (same_sref s)
  | TInt z => TInt z
  end.

Fixpoint expr_ok (e : dexpr multiVal) : Prop :=
  match e with
  | DTerm t => term_ok t
  | DUn op e => 1 <= op <= 4 /\ expr_ok e
  | DBin op a b => 1 <= op <= 2 /\ expr_ok a /\ expr_ok b
  end.
Fixpoint expr_back (e : dexpr multiVal) : dexpr multiValR :=
  match e with
  | DTerm t => DTerm (term_back t)
  | DUn op e => DUn op (expr_back e)
  | DBin op a b => DBin op (expr_back a) (expr_back b)
  end.

Definition constraint_ok (c : dconstraint multiVal) : Prop :=
  0 <= dc_ar c <= 6 /\ expr_ok (dc_l c) /\ expr_ok (dc_r c).
Definition constraint_back (c : dconstraint multiVal) : dconstraint multiValR :=
  mkDC (dc_fcnPre c) (dc_post c) (dc_ar c) (expr_back (dc_l c)) (expr_back (dc_r c)).
