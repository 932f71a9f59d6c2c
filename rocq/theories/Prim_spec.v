(** What is claimed about the comparison of primitive types, in terms of C types and flags. *)
From Coq Require Import ZArith Bool.
From Verif Require Import Prim_model.
Local Open Scope Z_scope.

(** Turning a flag on leaves all other flags as they are. *)
Inductive tflag :=
  | RelaxTypes | IgnoreQuals | IgnoreSigns | RelaxQuals | FloatDouble | MatchAnyIntegral
  | CharInt | ShortInt | LongInt
  | LongIntegral | LongUnsignedIntegral | LongUnsignedUnsignedIntegral | LongSignedIntegral.

Definition turn_on (n : tflag) (f : tflags) : tflags :=
  TF (match n with RelaxTypes => true | _ => relaxtypes f end)
     (match n with IgnoreQuals => true | _ => ignorequals f end)
     (match n with IgnoreSigns => true | _ => ignoresigns f end)
     (match n with RelaxQuals => true | _ => relaxquals f end)
     (match n with FloatDouble => true | _ => floatdouble f end)
     (match n with MatchAnyIntegral => true | _ => matchanyintegral f end)
     (match n with CharInt => true | _ => charint f end)
     (match n with ShortInt => true | _ => shortint f end)
     (match n with LongInt => true | _ => longint f end)
     (match n with LongIntegral => true | _ => longintegral f end)
     (match n with LongUnsignedIntegral => true | _ => longunsignedintegral f end)
     (match n with LongUnsignedUnsignedIntegral => true | _ => longunsignedunsignedintegral f end)
     (match n with LongSignedIntegral => true | _ => longsignedintegral f end).

Definition no_flags : tflags :=
  TF false false false false false false false false false false false false false.

(** The three arbitrary integral types (dev_t, size_t, ssize_t in the libraries) and the others. *)
Definition arbitrary (c : cprim) : Prop :=
  c = P_ANYINTEGRAL \/ c = P_UNSIGNEDINTEGRAL \/ c = P_SIGNEDINTEGRAL.
Definition ordinary (c : cprim) : Prop := ~ arbitrary c.

(** The integer types of C, and the character types. *)
Definition integer_type (c : cprim) : Prop :=
  match c with
  | P_SINT | P_USINT | P_INT | P_UINT | P_LINT | P_ULINT | P_LLINT | P_ULLINT => True
  | _ => arbitrary c
  end.
Definition character_type (c : cprim) : Prop := c = P_CHAR \/ c = P_UCHAR.

Definition floating (c : cprim) : Prop := c = P_FLOAT \/ c = P_DOUBLE \/ c = P_LDOUBLE.
(** An integer type, or with charint a character type. *)
Definition fits (f : tflags) (c : cprim) : Prop :=
  integer_type c \/ (charint f = true /\ character_type c).

(** Turning on [n] never adds a type error for the types c1 (expected) and c2 (given). *)
Definition never_adds_errors (n : tflag) (c1 c2 : cprim) : Prop :=
  forall f deep, closeEnoughAux f c1 c2 deep = true -> closeEnoughAux (turn_on n f) c1 c2 deep = true.

(** An implementation of C: the widths of the integer types, and the values of the floating
    types as mantissas and exponents (C99 6.2.5: each type's values include the previous one's). *)
Inductive value := IntV (z : Z) | RealV (mantissa exponent : Z).
Record impl := Impl {
  w_short : Z; w_int : Z; w_long : Z; w_llong : Z;
  v_float : Z -> Z -> Prop; v_double : Z -> Z -> Prop; v_ldouble : Z -> Z -> Prop }.
Definition conforming (i : impl) : Prop :=
  1 <= w_short i /\ w_short i <= w_int i /\ w_int i <= w_long i /\ w_long i <= w_llong i /\
  (forall m e, v_float i m e -> v_double i m e) /\ (forall m e, v_double i m e -> v_ldouble i m e).
Definition signed_range (w z : Z) : Prop := - 2 ^ (w - 1) <= z < 2 ^ (w - 1).
Definition unsigned_range (w z : Z) : Prop := 0 <= z < 2 ^ w.
Definition has_value (i : impl) (c : cprim) (v : value) : Prop :=
  match v, c with
  | IntV z, P_SINT => signed_range (w_short i) z
  | IntV z, P_INT => signed_range (w_int i) z
  | IntV z, P_LINT => signed_range (w_long i) z
  | IntV z, P_LLINT => signed_range (w_llong i) z
  | IntV z, P_USINT => unsigned_range (w_short i) z
  | IntV z, P_UINT => unsigned_range (w_int i) z
  | IntV z, P_ULINT => unsigned_range (w_long i) z
  | IntV z, P_ULLINT => unsigned_range (w_llong i) z
  | IntV z, P_CHAR => signed_range 8 z
  | IntV z, P_UCHAR => unsigned_range 8 z
  | RealV m e, P_FLOAT => v_float i m e
  | RealV m e, P_DOUBLE => v_double i m e
  | RealV m e, P_LDOUBLE => v_ldouble i m e
  | _, _ => False
  end.

(** Conversion rank: within a kind (signed integers, unsigned integers, reals) a bigger one holds
    every value of a smaller one in every implementation. *)
Inductive kind := Signed | Unsigned | Real.
Definition rank (c : cprim) : option (kind * nat) :=
  match c with
  | P_SINT => Some (Signed, 0) | P_INT => Some (Signed, 1) | P_LINT => Some (Signed, 2)
  | P_LLINT => Some (Signed, 3)
  | P_USINT => Some (Unsigned, 0) | P_UINT => Some (Unsigned, 1) | P_ULINT => Some (Unsigned, 2)
  | P_ULLINT => Some (Unsigned, 3)
  | P_FLOAT => Some (Real, 0) | P_DOUBLE => Some (Real, 1) | P_LDOUBLE => Some (Real, 2)
  | _ => None
  end%nat.
Definition widening (c1 c2 : cprim) : Prop :=
  c1 = c2 \/ exists k n1 n2, rank c1 = Some (k, n1) /\ rank c2 = Some (k, n2) /\ (n2 <= n1)%nat.

(** None of the flags which make two ordinary types equivalent is on; relaxquals may be. *)
Definition no_equivalences (f : tflags) : Prop :=
  relaxtypes f = false /\ ignorequals f = false /\ ignoresigns f = false /\ floatdouble f = false /\
  charint f = false /\ shortint f = false /\ longint f = false.
