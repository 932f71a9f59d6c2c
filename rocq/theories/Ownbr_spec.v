(** What programs with branches and loops really do: each way through a program is a sequence of
    statements (Own_spec). *)
From Verif Require Import Cbase Own_model Own_spec Ownbr_model.
From Coq Require Import List Arith Bool.
Import ListNotations.
Open Scope nat_scope.

(** [path p q r]: the statements [q] may be executed by [p], which then has returned ([r]) or not. *)
Inductive path : prog -> list op -> bool -> Prop :=
| p_skip : path Skip [] false
| p_do o : path (Do o) [o] false
| p_ret : path Ret [] true
| p_seq p q l m r : path p l false -> path q m r -> path (Seq p q) (l ++ m) r
| p_seq_ret p q l : path p l true -> path (Seq p q) l true
| p_then p q l r : path p l r -> path (If p q) l r
| p_else p q l r : path q l r -> path (If p q) l r
| p_loop_end p : path (Loop p) [] false
| p_loop p l m r : path p l false -> path (Loop p) m r -> path (Loop p) (l ++ m) r
| p_loop_ret p l : path p l true -> path (Loop p) l true
| p_until_end p l r : path p l r -> path (Until p) l r
| p_until p l m r : path p l false -> path (Until p) m r -> path (Until p) (l ++ m) r.

Fixpoint pvars (p : prog) : list var :=
  match p with
  | Skip | Ret => []
  | Do o => ovars o
  | Seq p q | If p q => pvars p ++ pvars q
  | Loop p | Until p => pvars p
  end.
Fixpoint ops (p : prog) : list op :=
  match p with
  | Skip | Ret => []
  | Do o => [o]
  | Seq p q | If p q => ops p ++ ops q
  | Loop p | Until p => ops p
  end.
(** No statement follows a statement after which the function has returned. *)
Fixpoint tidy (p : prog) : bool :=
  match p with
  | Skip | Do _ | Ret => true
  | Seq p q => tidy p && tidy q && negb (escapes p)
  | If p q => tidy p && tidy q
  | Loop p => tidy p
  | Until p => tidy p && negb (escapes p)
  end.
Fixpoint loop_free (p : prog) : bool :=
  match p with
  | Skip | Do _ | Ret => true
  | Seq p q | If p q => loop_free p && loop_free q
  | Loop _ | Until _ => false
  end.
Fixpoint no_until (p : prog) : bool :=
  match p with
  | Skip | Do _ | Ret => true
  | Seq p q | If p q => no_until p && no_until q
  | Loop p => no_until p
  | Until _ => false
  end.
Fixpoint no_ret (p : prog) : bool :=
  match p with
  | Skip | Do _ => true
  | Seq p q | If p q => no_ret p && no_ret q
  | Loop p | Until p => no_ret p
  | Ret => false
  end.
Definition copy_free (p : prog) : Prop := forall x y, ~ In (Copy x y) (ops p).

(** The variables declared with [T x = create ();]. *)
Definition inits (decls : list var) (p : prog) : prog := fold_right (fun x q => Seq (Do (New x)) q) p decls.

(** Messages about the use of a variable, or about the states in which it is where branches meet. *)
Definition about_state (m : msg) : bool := about_use m || match m with MBranch _ => true | _ => false end.

(** The variables named in a branch. *)
Definition mentioned (p : prog) (s : state) (v : var) : bool := existsb (Nat.eqb v) (pvars p).
