(** * What a function body does, and when its accesses are within bounds (independent of the code) *)
From Coq Require Import ZArith List Bool.
From Verif Require Import Bounds_model.
Import ListNotations.
Local Open Scope Z_scope.

(** The values of the variables. *)
Definition state := nat -> Z.
Definition update (s : state) (x : nat) (v : Z) : state := fun y => if Nat.eqb y x then v else s y.

Fixpoint value (s : state) (e : iexp) : Z :=
  match e with
  | INum z => z
  | IVar x => s x
  | IAdd a b => value s a + value s b
  | ISub a b => value s a - value s b
  end.

Definition holds (s : state) (t : test) : bool :=
  match t with
  | TCmp RLt a b => value s a <? value s b
  | TCmp RLe a b => value s a <=? value s b
  | TCmp RGt a b => value s b <? value s a
  | TCmp RGe a b => value s b <=? value s a
  | TCmp REq a b => value s a =? value s b
  | TVar x => negb (s x =? 0)
  end.

(** An access: the array and the index. *)
Definition access := (nat * Z)%type.

(** [run s st tr st' fin]: executing [s] from [st] makes the accesses [tr] and ends in [st'];
    [fin] tells whether it reaches its end rather than a return. *)
Inductive run : stmt -> state -> list access -> state -> bool -> Prop :=
| RAssign : forall x e st, run (SAssign x e) st nil (update st x (value st e)) true
| RStore : forall a e st, run (SStore a e) st [(a, value st e)] st true
| RRead : forall a e st, run (SRead a e) st [(a, value st e)] st true
| RReturn : forall st, run SReturn st nil st false
| RBlock : forall l st tr st' fin, runs l st tr st' fin -> run (SBlock l) st tr st' fin
| RIfT : forall t b st tr st' fin, holds st t = true -> run b st tr st' fin ->
    run (SIf t b) st tr st' fin
| RIfF : forall t b st, holds st t = false -> run (SIf t b) st nil st true
| RElseT : forall t b c st tr st' fin, holds st t = true -> run b st tr st' fin ->
    run (SIfElse t b c) st tr st' fin
| RElseF : forall t b c st tr st' fin, holds st t = false -> run c st tr st' fin ->
    run (SIfElse t b c) st tr st' fin
| RWhileF : forall t b st, holds st t = false -> run (SWhile t b) st nil st true
| RWhileR : forall t b st tr st', holds st t = true -> run b st tr st' false ->
    run (SWhile t b) st tr st' false
| RWhileT : forall t b st tr st1 tr' st' fin, holds st t = true -> run b st tr st1 true ->
    run (SWhile t b) st1 tr' st' fin -> run (SWhile t b) st (tr ++ tr') st' fin
with runs : list stmt -> state -> list access -> state -> bool -> Prop :=
| RNil : forall st, runs nil st nil st true
| RStop : forall s l st tr st', run s st tr st' false -> runs (s :: l) st tr st' false
| RCons : forall s l st tr st1 tr' st' fin, run s st tr st1 true -> runs l st1 tr' st' fin ->
    runs (s :: l) st (tr ++ tr') st' fin.

(** The access is not beyond the end of the array. *)
Definition not_beyond (size : nat -> Z) (x : access) : Prop := snd x < size (fst x).
(** The access is within the array. *)
Definition within (size : nat -> Z) (x : access) : Prop := 0 <= snd x < size (fst x).

(** ** Straight-line code in which every variable has one value *)

(** A variable or a number, to which numbers are added and from which numbers are subtracted. *)
Fixpoint simple (e : iexp) : Prop :=
  match e with
  | INum _ | IVar _ => True
  | IAdd a (INum _) | ISub a (INum _) => simple a
  | _ => False
  end.

Fixpoint varsOf (e : iexp) : list nat :=
  match e with
  | INum _ => nil
  | IVar x => [x]
  | IAdd a b | ISub a b => varsOf a ++ varsOf b
  end.

Definition mentions (s : stmt) : list nat :=
  match s with
  | SAssign x e => x :: varsOf e
  | SStore _ e | SRead _ e => varsOf e
  | _ => nil
  end.

(** Only assignments, stores and reads, with such expressions; a variable is not assigned once it has been mentioned
    ([seen] are the variables mentioned so far). *)
Fixpoint straight (seen : list nat) (l : list stmt) : Prop :=
  match l with
  | nil => True
  | s :: r =>
      match s with
      | SAssign x e => simple e /\ ~ In x seen /\ ~ In x (varsOf e)
      | SStore _ e | SRead _ e => simple e
      | _ => False
      end /\ straight (mentions s ++ seen) r
  end.

(** The sum of the absolute values of all numbers in the code, and of the last indices of the
    arrays it accesses. *)
Fixpoint numbers (e : iexp) : Z :=
  match e with
  | INum z => Z.abs z
  | IVar _ => 0
  | IAdd a b | ISub a b => numbers a + numbers b
  end.
Definition budget1 (size : nat -> Z) (s : stmt) : Z :=
  match s with
  | SAssign _ e => numbers e
  | SStore a e | SRead a e => Z.abs (size a - 1) + numbers e
  | _ => 0
  end.
Fixpoint budget (size : nat -> Z) (l : list stmt) : Z :=
  match l with nil => 0 | s :: r => budget1 size s + budget size r end.

(** Stores at indices which are numbers. *)
Definition constStore (s : stmt) : Prop :=
  match s with SStore _ (INum _) => True | _ => False end.

(** [if (x < n) a[x + k] = ...;] *)
Definition guardedStore (x a : nat) (n k : Z) : list stmt :=
  [SIf (TCmp RLt (IVar x) (INum n)) (SStore a (IAdd (IVar x) (INum k)))].
