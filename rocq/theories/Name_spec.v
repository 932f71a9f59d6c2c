(** How two names may be told apart, without reference to the code. *)
From Verif Require Import Cbase.

Section Compare.
(** Upper case and look-alike class of a character, and which differences are ignored. *)
Variables (upper look : ascii -> ascii) (ci lk : bool).

Definition differ_case (p : ascii * ascii) : Prop :=
  fst p <> snd p /\ ci = true /\ upper (fst p) = upper (snd p).
Definition differ_look (p : ascii * ascii) : Prop :=
  fst p <> snd p /\ lk = true /\ look (fst p) = look (snd p).
Definition confusable (p : ascii * ascii) : Prop :=
  fst p = snd p \/ differ_case p \/ differ_look p.

(** The two texts cannot be told apart: same length, confusable place by place. *)
Definition indistinct (a b : cstr) : Prop :=
  List.length a = List.length b /\ Forall confusable (combine a b).

(** Indistinct through a difference of case; only through look-alikes. *)
Definition by_case (a b : cstr) : Prop := indistinct a b /\ Exists differ_case (combine a b).
Definition by_look (a b : cstr) : Prop :=
  indistinct a b /\ ~ Exists differ_case (combine a b) /\ a <> b.
End Compare.

(** The significant part of a name: all of it when the limit is 0. *)
Definition significant (n : nat) (s : cstr) : cstr :=
  match n with O => s | _ => firstn n s end.

(** Characters that look alike: one, capital i and small L; zero and o; two and capital z; five and
    capital s. *)
Definition alike (a b : ascii) : Prop :=
  exists g, In g [["1"; "I"; "l"]; ["0"; "O"; "o"]; ["2"; "Z"]; ["5"; "S"]]%char /\ In a g /\ In b g.

(** The same letter in upper and lower case (ASCII). *)
Definition other_case (a b : ascii) : Prop :=
  (97 <= code a <= 122 /\ code b = code a - 32) \/ (97 <= code b <= 122 /\ code a = code b - 32).
