(** What straight-line code on variables holding storage really does: variables hold storage or
    nothing, creating gives new storage, and using released storage, or a variable which holds nothing,
    is an error. *)
From Verif Require Import Cbase Own_model.
From Coq Require Import List Arith Bool.
Import ListNotations.
Open Scope nat_scope.

Inductive err := EUndef (x : var) | EReleased (x : var).
Record cstate := mkC { env : var -> option nat; freed : nat -> bool; next : nat; errs : list err }.
Definition cstart : cstate := mkC (fun _ => None) (fun _ => false) 0 [].
Definition cuse (s : cstate) (x : var) : cstate :=
  match env s x with
  | None => mkC (env s) (freed s) (next s) (errs s ++ [EUndef x])
  | Some b => if freed s b then mkC (env s) (freed s) (next s) (errs s ++ [EReleased x]) else s
  end.
Definition cstep (s : cstate) (o : op) : cstate :=
  match o with
  | New x => mkC (fun v => if Nat.eqb v x then Some (next s) else env s v) (freed s) (S (next s)) (errs s)
  | Copy x y =>
      let s := cuse s y in
      mkC (fun v => if Nat.eqb v x then env s y else env s v) (freed s) (next s) (errs s)
  | Release x =>
      let s := cuse s x in
      mkC (env s) (fun b => match env s x with Some c => Nat.eqb b c || freed s b | None => freed s b end)
          (next s) (errs s)
  | Use x => cuse s x
  end.
Definition crun (p : list op) : cstate := fold_left cstep p cstart.

(** Nothing is used which is not defined or already released. *)
Definition correct (p : list op) : Prop := errs (crun p) = [].
(** Everything that was created has been released. *)
Definition all_released (p : list op) : Prop := forall b, b < next (crun p) -> freed (crun p) b = true.

(** Two variables holding the same storage. *)
Definition same (s : cstate) (x y : var) : Prop := exists b, env s x = Some b /\ env s y = Some b.
(** The analysis knows that they may. *)
Definition known (s : state) (x y : var) : Prop := In y (canAlias (al s) x) \/ In x (canAlias (al s) y).

(** A variable is up to date when the storage it holds has not been copied between other variables
    since it was assigned.  Copies are only made from variables which are up to date, to other
    variables. *)
Definition same_b (s : cstate) (v y : var) : bool :=
  match env s v, env s y with Some a, Some b => Nat.eqb a b | _, _ => false end.
Definition note (s : cstate) (u : var -> bool) (o : op) : var -> bool :=
  match o with
  | New x => fun v => Nat.eqb v x || u v
  | Copy x y => fun v => Nat.eqb v x || Nat.eqb v y || (negb (same_b s v y) && u v)
  | _ => u
  end.
Definition may_copy (u : var -> bool) (o : op) : bool :=
  match o with Copy x y => negb (Nat.eqb x y) && u y | _ => true end.
Fixpoint disciplined_from (s : cstate) (u : var -> bool) (p : list op) : bool :=
  match p with
  | [] => true
  | o :: p' => may_copy u o && disciplined_from (cstep s o) (note s u o) p'
  end.
Definition disciplined (p : list op) : Prop := disciplined_from cstart (fun _ => true) p = true.

(** The variables of a program. *)
Definition ovars (o : op) : list var :=
  match o with New x => [x] | Copy x y => [x; y] | Release x => [x] | Use x => [x] end.
Definition vars (p : list op) : list var := flat_map ovars p.
(** The variables which are assigned. *)
Definition targets (p : list op) : list var :=
  flat_map (fun o => match o with New x => [x] | Copy x _ => [x] | _ => [] end) p.
Definition no_self_copy (p : list op) : Prop := forall x, ~ In (Copy x x) p.
Definition no_copy (p : list op) : Prop := forall x y, ~ In (Copy x y) p.
(** No storage is ever held by three variables at a time. *)
Definition pairs (p : list op) : Prop :=
  forall q r, p = q ++ r -> forall x y z,
  same (crun q) x y -> same (crun q) x z -> x = y \/ x = z \/ y = z.

(** Messages about the use of a variable. *)
Definition about_use (m : msg) : bool := match m with MUndef _ | MReleased _ | MUnuse _ => true | _ => false end.
