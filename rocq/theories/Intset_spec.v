(** * What an integer set should answer *)
From Verif Require Import Cbase Intset_model.
Local Open Scope Z_scope.

(** The numbers inserted by a history. *)
Definition inserted (ops : list (Z * Z)) : list Z := map fst ops.

(** The number of distinct numbers of a list. *)
Definition distinct (l : list Z) : Z := Z.of_nat (List.length (nodup Z.eq_dec l)).

(** No uninitialised slot happens to hold the number being inserted. *)
Definition clean (ops : list (Z * Z)) : Prop := Forall (fun o => fst o <> snd o) ops.

(** Each number is at least as large as the ones before. *)
Fixpoint ascending (l : list Z) : Prop :=
  match l with
  | [] => True
  | x :: l => (forall y, In y l -> x <= y) /\ ascending l
  end.
