(** * What the tables should be: finite maps (independent of hashing) *)
From Verif Require Import Cbase Table_model.
Local Open Scope Z_scope.

Definition fmap (V : Type) := cstr -> option V.
Definition fempty {V} : fmap V := fun _ => None.
Definition fset {V} (m : fmap V) (k : cstr) (x : option V) : fmap V :=
  fun j => if cstr_eqb k j then x else m j.

(** Names over the 7-bit character set. *)
Definition ascii7 (k : cstr) : Prop := Forall (fun c => code c < 128) k.

(** The number that means "does not exist". *)
Definition absent : Z := -23.

(** Operations on the string index, with their preconditions. *)
Definition c_names (o : cop) : Prop :=
  match o with
  | CInsert k _ | CUpdate k _ | CRemove k => ascii7 k
  | CReplace a b => ascii7 a /\ ascii7 b
  end.

Definition c_legal (m : fmap Z) (o : cop) : Prop :=
  match o with
  | CInsert k v => m k = None /\ v <> absent
  | CUpdate k v => m k <> None
  | CReplace a b => m a <> None /\ a = b
  | CRemove k => m k <> None
  end.

Definition c_effect (m : fmap Z) (o : cop) : fmap Z :=
  match o with
  | CInsert k v | CUpdate k v => fset m k (Some v)
  | CReplace _ _ => m
  | CRemove k => fset m k None
  end.

(** Updates do not store the reserved number. *)
Definition c_sane (o : cop) : Prop := match o with CUpdate _ v => v <> absent | _ => True end.

Fixpoint c_history (m : fmap Z) (ops : list cop) : Prop :=
  match ops with
  | [] => True
  | o :: ops => c_legal m o /\ c_history (c_effect m o) ops
  end.

Definition c_final (ops : list cop) : fmap Z := fold_left c_effect ops fempty.

Section G.
Context {V : Type}.

Definition g_name (o : gop V) : cstr :=
  match o with GInsert _ k _ | GUpdate _ k _ | GRemove _ k => k end.

Definition g_legal (m : fmap V) (o : gop V) : Prop :=
  match o with
  | GInsert _ k v => m k = None
  | GUpdate _ k v => m k <> None
  | GRemove _ k => m k <> None
  end.

Definition g_effect (m : fmap V) (o : gop V) : fmap V :=
  match o with
  | GInsert _ k v | GUpdate _ k v => fset m k (Some v)
  | GRemove _ k => fset m k None
  end.

Fixpoint g_history (m : fmap V) (ops : list (gop V)) : Prop :=
  match ops with
  | [] => True
  | o :: ops => g_legal m o /\ g_history (g_effect m o) ops
  end.

Definition g_final (ops : list (gop V)) : fmap V := fold_left g_effect ops fempty.

Fixpoint inserts (ops : list (gop V)) : Z :=
  match ops with
  | [] => 0
  | GInsert _ _ _ :: ops => 1 + inserts ops
  | _ :: ops => inserts ops
  end.
End G.
