(** * What bounds expressions and constraints mean (independent of the code) *)
From Coq Require Import ZArith List Bool Lia.
From Verif Require Import Cbase Constr_model.
Import ListNotations.
Local Open Scope Z_scope.

(** Values are integers, or pointers: a block and an offset into it. *)
Inductive block :=
| BObj (n : nat)               (* some object of the program *)
| BStr (n : nat) (len : Z)     (* a string literal of that length *)
| BInit (n : nat) (len : Z).   (* an initialiser block with that many elements *)

Inductive value := VI (z : Z) | VP (b : block) (off : Z).

(** An assignment: values of names, sizes, and the bounds of objects. *)
Record env := Env {
  name_val : nat -> value;
  size_val : nat -> Z;
  max_set : nat -> Z;
  max_read : nat -> Z;
  min_set : block -> Z -> Z;
  min_read : block -> Z -> Z }.

(** The usual laws: maxSet(p + i) = maxSet(p) - i, and the same for maxRead. *)
Definition bound (rho : env) (u : unop) (b : block) (off : Z) : Z :=
  match u with
  | MAXSET => match b with
              | BObj n => max_set rho n - off
              | BStr _ len => len - off
              | BInit _ len => len - 1 - off end
  | MAXREAD => match b with
               | BObj n => max_read rho n - off
               | BStr _ len => len - off
               | BInit _ len => len - 1 - off end
  | MINSET => min_set rho b off
  | MINREAD => min_read rho b off
  end.

Definition block_eq_dec (a b : block) : {a = b} + {a <> b}.
Proof. decide equality; solve [apply Z.eq_dec | apply Nat.eq_dec]. Defined.

Definition vadd (a b : value) : option value :=
  match a, b with
  | VI x, VI y => Some (VI (x + y))
  | VP k o, VI y => Some (VP k (o + y))
  | VI x, VP k o => Some (VP k (x + o))
  | VP _ _, VP _ _ => None
  end.

Definition vsub (a b : value) : option value :=
  match a, b with
  | VI x, VI y => Some (VI (x - y))
  | VP k o, VI y => Some (VP k (o - y))
  | VI _, VP _ _ => None
  | VP k o, VP k' o' => if block_eq_dec k k' then Some (VI (o - o')) else None
  end.

Definition term_den (rho : env) (t : cterm) : value :=
  match t with
  | TLit z | TVal _ z | TKnown _ z => VI z
  | TName n => name_val rho n
  | TSizeof n => VI (size_val rho n)
  | TStr n len => VP (BStr n len) 0
  | TInit n len => VP (BInit n len) 0
  end.

(** The value of an expression, when it has one. *)
Fixpoint den (rho : env) (e : cexpr) : option value :=
  match e with
  | Term t => Some (term_den rho t)
  | Unary u a =>
      match den rho a with
      | Some (VP b o) => Some (VI (bound rho u b o))
      | _ => None
      end
  | Binary op l r =>
      match den rho l, den rho r with
      | Some x, Some y => match op with PLUS => vadd x y | MINUS => vsub x y end
      | _, _ => None
      end
  end.

(** Truth of a comparison; pointers compare only within a block. *)
Definition cmp_holds (a : arith) (x y : Z) : Prop :=
  match a with
  | LT => x < y | LTE => x <= y | GT => x > y | GTE => x >= y | EQ => x = y
  end.

Definition vcmp (a : arith) (x y : value) : option Prop :=
  match x, y with
  | VI p, VI q => Some (cmp_holds a p q)
  | VP b o, VP b' o' => if block_eq_dec b b' then Some (cmp_holds a o o') else None
  | _, _ => None
  end.

(** What a constraint says under an assignment: [Some P], or [None] when one side
    has no value. *)
Definition atom_says (rho : env) (c : atom) : option Prop :=
  match den rho (lexpr c), den rho (expr c) with
  | Some x, Some y => vcmp (ar c) x y
  | _, _ => None
  end.

Definition atom_true (rho : env) (c : atom) : Prop :=
  match atom_says rho c with Some P => P | None => False end.

Definition atom_meaningful (rho : env) (c : atom) : Prop := atom_says rho c <> None.

(** A constraint holds when one of its alternatives does. *)
Definition constr_true (rho : env) (c : constr) : Prop :=
  exists a, In a (first c :: ors c) /\ atom_true rho a.

Definition all_true (rho : env) (l : list constr) : Prop :=
  forall c, In c l -> constr_true rho c.

(** ** The class of expressions for which simplification is claimed *)

(** Number of occurrences of a name. *)
Fixpoint occurs (u : nat) (e : cexpr) : nat :=
  match e with
  | Term (TName n) => if Nat.eqb u n then 1%nat else 0%nat
  | Term _ => 0%nat
  | Unary _ a => occurs u a
  | Binary _ l r => (occurs u l + occurs u r)%nat
  end.

(** Some name occurs exactly once. *)
Definition has_single (e : cexpr) : Prop := exists u, occurs u e = 1%nat.

(** The leftmost leaf, when it is a name. *)
Fixpoint leftmost (e : cexpr) : option nat :=
  match e with
  | Term (TName n) => Some n
  | Term _ => None
  | Unary _ a => leftmost a
  | Binary _ l _ => leftmost l
  end.

(** The expression starts with a name that occurs nowhere else in it. *)
Definition starts_single (e : cexpr) : Prop :=
  exists u, leftmost e = Some u /\ occurs u e = 1%nat.

(** Built from integer constants only. *)
Fixpoint constant_only (e : cexpr) : bool :=
  match e with
  | Term (TLit _) | Term (TKnown _ _) => true
  | Binary _ l r => constant_only l && constant_only r
  | _ => false
  end.

(** Well-typed: in a sum the right operand is an integer, bounds are taken of
    pointers.  [true] is the type of pointers. *)
Fixpoint typ (G : nat -> bool) (e : cexpr) : option bool :=
  match e with
  | Term (TName n) => Some (G n)
  | Term (TStr _ _) | Term (TInit _ _) => Some true
  | Term _ => Some false
  | Unary _ a => match typ G a with Some true => Some false | _ => None end
  | Binary op l r =>
      match op, typ G l, typ G r with
      | _, Some t, Some false => Some t
      | MINUS, Some true, Some true => Some false
      | _, _, _ => None
      end
  end.

Definition is_ptr (v : value) : bool := match v with VP _ _ => true | VI _ => false end.

Definition respects (rho : env) (G : nat -> bool) : Prop :=
  forall n, is_ptr (name_val rho n) = G n.

(** Sum of the absolute values of all integer constants written in the expression. *)
Fixpoint weight (e : cexpr) : Z :=
  match e with
  | Term (TLit z) | Term (TVal _ z) | Term (TKnown _ z) => Z.abs z
  | Term (TStr _ len) => Z.abs len
  | Term (TInit _ len) => Z.abs len + 1
  | Term _ => 0
  | Unary _ a => weight a
  | Binary _ l r => weight l + weight r
  end.

(** The claimed class: no declared-constant terms; string literals and initialiser
    blocks only directly under maxSet/maxRead; and at every + or - node at least one
    of: the left operand contains a name that occurs once in it; the right operand
    starts with a name that occurs once in it; the right operand is constant. *)
Fixpoint regular (e : cexpr) : Prop :=
  match e with
  | Term (TLit _) | Term (TKnown _ _) | Term (TName _) | Term (TSizeof _) => True
  | Term _ => False
  | Unary u a =>
      match a with
      | Term (TStr _ _) | Term (TInit _ _) => u = MAXSET \/ u = MAXREAD
      | _ => regular a
      end
  | Binary _ l r =>
      regular l /\ regular r /\
      (has_single l \/ starts_single r \/ constant_only r = true)
  end.

(** Every right operand is an integer and either constant or starting with a name
    that occurs once in it. *)
Fixpoint flat (G : nat -> bool) (e : cexpr) : Prop :=
  match e with
  | Term _ => True
  | Unary _ a => flat G a
  | Binary _ l r =>
      flat G l /\ flat G r /\ typ G r = Some false /\
      (starts_single r \/ constant_only r = true)
  end.

(** No subexpression of the form a + (0 + b), a - (0 - b), ... outside bounds
    operators. *)
Fixpoint no_zero_right (e : cexpr) : bool :=
  match e with
  | Binary _ l r =>
      no_zero_right l && no_zero_right r &&
      match r with Binary _ (Term (TLit z)) _ => negb (z =? 0) | _ => true end
  | _ => true
  end.

(** No sizeof terms. *)
Fixpoint no_sizeof (e : cexpr) : bool :=
  match e with
  | Term (TSizeof _) => false
  | Term _ => true
  | Unary _ a => no_sizeof a
  | Binary _ l r => no_sizeof l && no_sizeof r
  end.

(** Two constraints say the same thing under an assignment. *)
Definition atom_equiv (rho : env) (c c' : atom) : Prop :=
  match atom_says rho c with
  | Some P => exists P', atom_says rho c' = Some P' /\ (P <-> P')
  | None => True
  end.

(** The class for which simplification of constraints is claimed: both sides in the
    class above with the same type and bounded constants, and
    - the left side starts with a name that occurs once in it and is [flat], or
    - the left side is constant and the right side starts so and is [flat], or
    - both sides are constant. *)
Definition solvable (G : nat -> bool) (c : atom) : Prop :=
  regular (lexpr c) /\ regular (expr c) /\
  (exists t, typ G (lexpr c) = Some t /\ typ G (expr c) = Some t) /\
  weight (lexpr c) + weight (expr c) < 2147483648 /\
  ((starts_single (lexpr c) /\ flat G (lexpr c)) \/
   (constant_only (lexpr c) = true /\ starts_single (expr c) /\ flat G (expr c)) \/
   (constant_only (lexpr c) = true /\ constant_only (expr c) = true)).

(** ** The class for which resolution is claimed *)

(** The required comparison does not have to be strict unless the known one is
    the same. *)
Definition strict_ok (pre post : arith) : bool :=
  match pre with GTE | LTE | EQ => true | _ => arith_eqb pre post end.

(** The class for which resolution is claimed. *)
Definition plain (c : atom) : Prop :=
  no_zero_right (expr c) = true /\ no_sizeof (expr c) = true /\
  weight (expr c) < 2147483648.

(** single alternative, non-strict or matching comparison *)
Definition nonstrict (c : constr) : Prop :=
  ors c = nil /\ plain (first c) /\ (ar (first c) = GTE \/ ar (first c) = LTE \/ ar (first c) = EQ).

