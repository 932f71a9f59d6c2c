(** Specification side for the library reader (C29, C30). *)
From Verif Require Import Cbase.

(** [s] is the ordinary decimal numeral of [z]: optional minus sign, then at least
    one digit, no superfluous leading zero. *)
Definition numval (ds : cstr) : Z := fold_left (fun a c => 10 * a + (code c - 48)) ds 0.
Definition numeral (s : cstr) (z : Z) : Prop :=
  exists ds,
    (s = ds /\ z = numval ds \/ s = "-"%char :: ds /\ z = - numval ds /\ z < 0)
    /\ ds <> [] /\ Forall (fun c => 48 <= code c <= 57) ds
    /\ (forall r, ds = "0"%char :: r -> r = []).

(** The text after a number in a library line: either the line ends or the next
    character is not a digit. *)
Definition number_ends (rest : cstr) : Prop :=
  forall c r, rest = c :: r -> code c < 48 \/ 57 < code c.

(** Blanks, newlines and tabs after a number are consumed with it. *)
Fixpoint after_blanks (s : cstr) : cstr :=
  match s with
  | c :: r => if (code c =? 32) || (code c =? 10) || (code c =? 9)
              then after_blanks r else s
  | [] => []
  end.

(** One significant digit followed by zeros: 7, 40, 300, ... *)
Definition one_digit_then_zeros (n : Z) : Prop :=
  exists d k, 0 <= d <= 9 /\ 0 <= k /\ n = d * 10 ^ k.
