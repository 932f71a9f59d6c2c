(** What C says of type specifiers (ISO C99 6.7.2; the implicit int is that of C89 3.5.2). *)
From Coq Require Import List Permutation.
From Verif Require Import Prim_model Tspec_model.
Import ListNotations.

(** The types of C which specifiers can denote. *)
Inductive ctyp :=
  | TVoid | TChar | TSChar | TUChar | TShort | TUShort | TInt | TUInt | TLong | TULong
  | TLLong | TULLong | TFloat | TDouble | TLDouble | TEnum (n : nat) | TName (n : nat).

(** The table of 6.7.2: one multiset of words per line. *)
Definition table : list (list word * ctyp) := [
  ([Void], TVoid);
  ([Char], TChar); ([Signed; Char], TSChar); ([Unsigned; Char], TUChar);
  ([Short], TShort); ([Signed; Short], TShort); ([Short; Int], TShort); ([Signed; Short; Int], TShort);
  ([Unsigned; Short], TUShort); ([Unsigned; Short; Int], TUShort);
  ([], TInt); ([Int], TInt); ([Signed], TInt); ([Signed; Int], TInt);
  ([Unsigned], TUInt); ([Unsigned; Int], TUInt);
  ([Long], TLong); ([Signed; Long], TLong); ([Long; Int], TLong); ([Signed; Long; Int], TLong);
  ([Unsigned; Long], TULong); ([Unsigned; Long; Int], TULong);
  ([Long; Long], TLLong); ([Signed; Long; Long], TLLong); ([Long; Long; Int], TLLong);
  ([Signed; Long; Long; Int], TLLong);
  ([Unsigned; Long; Long], TULLong); ([Unsigned; Long; Long; Int], TULLong);
  ([Float], TFloat); ([Double], TDouble); ([Long; Double], TLDouble) ].

Definition row (r : list word) (t : ctyp) : Prop :=
  In (r, t) table \/ (exists n, r = [EnumSpec n] /\ t = TEnum n)
  \/ (exists n, r = [NameSpec n] /\ t = TName n).

(** The words without storage classes and qualifiers. *)
Definition is_spec (w : word) : bool := match w with Qual _ => false | _ => true end.
Definition strip (ws : list word) : list word := filter is_spec ws.

(** "the type specifiers may occur in any order, possibly intermixed with the other declaration
    specifiers". *)
Definition denotes (ws : list word) (t : ctyp) : Prop :=
  exists r, row r t /\ Permutation (strip ws) r.

(** The name splint has for a type of C; it has one for both char and signed char. *)
Definition as_ct (t : ctyp) : ct :=
  match t with
  | TVoid => Prim P_VOID | TChar | TSChar => Prim P_CHAR | TUChar => Prim P_UCHAR
  | TShort => Prim P_SINT | TUShort => Prim P_USINT | TInt => Prim P_INT | TUInt => Prim P_UINT
  | TLong => Prim P_LINT | TULong => Prim P_ULINT
  | TLLong => Prim P_LLINT | TULLong => Prim P_ULLINT
  | TFloat => Prim P_FLOAT | TDouble => Prim P_DOUBLE | TLDouble => Prim P_LDOUBLE
  | TEnum n => Enum n | TName n => Other n
  end.

(** [char] or [double] stands before another specifier. *)
Definition misplaced (ws : list word) : Prop :=
  exists l1 w l2, strip ws = l1 ++ w :: l2 /\ (w = Char \/ w = Double) /\ l2 <> [].

(** The word occurs [n] times. *)
Fixpoint times (p : word -> bool) (ws : list word) : nat :=
  match ws with [] => 0 | w :: ws => (if p w then 1 else 0) + times p ws end.
Definition is_int (w : word) : bool := match w with Int => true | _ => false end.
Definition is_long (w : word) : bool := match w with Long => true | _ => false end.

(** Made up of int, long, short and unsigned, with storage classes and qualifiers. *)
Definition integer_words (ws : list word) : Prop :=
  Forall (fun w => w = Int \/ w = Long \/ w = Short \/ w = Unsigned) (strip ws).
