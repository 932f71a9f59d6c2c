(** Sorted lists and lucky lengths, without reference to the code. *)
From Verif Require Import Cbase.

(** Strict lexicographic order by character code. *)
Inductive before : cstr -> cstr -> Prop :=
| before_nil : forall y b, before [] (y :: b)
| before_lt : forall x a y b, code x < code y -> before (x :: a) (y :: b)
| before_eq : forall x a b, before a b -> before (x :: a) (x :: b).

(** Order of table entries: a missing entry comes after every (non-empty) name. *)
Definition entry_before (a b : option cstr) : Prop :=
  match a, b with
  | Some s, Some t => before s t
  | Some s, None => s <> []
  | None, _ => False
  end.

Definition sorted (table : list (option cstr)) : Prop :=
  forall i j a b, (i < j)%nat -> nth_error table i = Some a -> nth_error table j = Some b ->
                  entry_before a b.

(** List lengths for which the last entry is never looked at:
    1, 4–5, 10–13, 22–29, 46–61, 94–125, 190–253, ... *)
Definition blind_length (n : Z) : Prop :=
  exists k, 0 <= k /\ 3 * 2 ^ k - 2 <= n <= 4 * 2 ^ k - 3.
