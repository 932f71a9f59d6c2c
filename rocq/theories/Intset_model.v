(** * intSet: a set of integers in an array

    Source: src/intSet.c, Headers/intSet.h.  Reading an array slot that was never written
    gives an unspecified value, passed in with each operation; reading outside the array
    is undefined behaviour ([None]).

    Simplification: allocation never fails; the counters do not overflow (the arrays
    would need more than 2^31 elements). *)
From Verif Require Import Cbase.
Local Open Scope Z_scope.

(** intSetBASESIZE, Headers/intSet.h:44-45 = SMALLBASESIZE, Headers/system_constants.h:83 *)
Definition BASESIZE : Z := 4.

(** the struct, Headers/intSet.h:15-20; [is_els] holds the [entries] first elements,
    [is_cap] the allocated length *)
Record intSet := IS { is_els : list Z; is_nspace : Z; is_cap : Z }.

Definition is_entries (s : intSet) : Z := Z.of_nat (List.length (is_els s)).

(** intSet_new, intSet.c:36-46 *)
Definition is_new : intSet := IS [] BASESIZE BASESIZE.

(** intSet_grow, intSet.c:48-64 *)
Definition is_grow (s : intSet) : intSet := IS (is_els s) BASESIZE (is_entries s + BASESIZE).

(** the search loop, intSet.c:78-82: the first index whose element is not smaller *)
Fixpoint first_ge (l : list Z) (el : Z) : nat :=
  match l with
  | [] => O
  | x :: l => if el <=? x then O else S (first_ge l el)
  end.

(** [s->elements[i]] *)
Definition is_read (s : intSet) (i : nat) (junk : Z) : option Z :=
  match nth_error (is_els s) i with
  | Some x => Some x
  | None => if Z.of_nat i <? is_cap s then Some junk else None
  end.

(** intSet_insert, intSet.c:73-113 *)
Definition is_insert (s : intSet) (el junk : Z) : option (intSet * bool) :=
  let i := first_ge (is_els s) el in
  match (if 0 <? is_entries s then
           match is_read s i junk with
           | Some x => Some (x =? el)
           | None => None
           end
         else Some false) with
  | None => None
  | Some true => Some (s, false)
  | Some false =>
      let s := if is_nspace s <=? 0 then is_grow s else s in
      if is_cap s <=? is_entries s then None else
      let els := if Z.of_nat i =? is_entries s - 1
                 then is_els s ++ [el]
                 else firstn i (is_els s) ++ el :: skipn i (is_els s) in
      Some (IS els (is_nspace s - 1) (is_cap s), true)
  end.

(** intSet_member, intSet.c:115-132 *)
Fixpoint member_loop (l : list Z) (el : Z) : bool :=
  match l with
  | [] => false
  | x :: l => if el =? x then true else if x <? el then false else member_loop l el
  end.
Definition is_member (s : intSet) (el : Z) : bool := member_loop (is_els s) el.

(** A history of insertions, each with the value an uninitialised slot happens to hold. *)
Definition is_run (ops : list (Z * Z)) : option intSet :=
  fold_left (fun s o => match s with
                        | None => None
                        | Some s => match is_insert s (fst o) (snd o) with
                                    | Some (s, _) => Some s | None => None end
                        end) ops (Some is_new).
