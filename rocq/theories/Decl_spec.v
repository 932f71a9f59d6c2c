(** The type C gives to a declarator (C99 6.7.5): read from the outside in, each part adds one
    level around the type that remains to be given to the rest. *)
From Verif Require Import Cbase Decl_model.

Fixpoint c_base (b : dbase) (t : cty) : cty :=
  match b with
  | DId => t
  | DPar d => c_decl d t
  | DArr b => c_base b (Arr t)
  | DFix b n => c_base b (Fix t n)
  | DFun b ps => c_base b (Fcn t ps)
  end
with c_decl (d : decl) (t : cty) : cty :=
  match d with
  | DBase b => c_base b t
  | DStars n b => c_base b (ptrs n t)
  end.

(** C99 6.7.5.2-3: no arrays of functions, no functions returning functions or arrays, only the
    outermost array may have no size. *)
Fixpoint legal (t : cty) : Prop :=
  match t with
  | Unk | Base => True
  | Ptr u => legal u
  | Arr u | Fix u _ => match u with Fcn _ _ | Arr _ => False | _ => legal u end
  | Fcn u _ => match u with Fcn _ _ | Arr _ | Fix _ _ => False | _ => legal u end
  | Exp _ => False
  end.

(** No parentheses around a declarator (those of parameter lists do not count). *)
Fixpoint unparenthesised_base (b : dbase) : Prop :=
  match b with
  | DId => True
  | DPar _ => False
  | DArr b | DFix b _ | DFun b _ => unparenthesised_base b
  end.
Definition unparenthesised (d : decl) : Prop :=
  match d with DBase b | DStars _ b => unparenthesised_base b end.

(** Array suffixes ([Some n] for "[n]", [None] for "[]") after a declarator. *)
Definition suffix (b : dbase) (d : option Z) : dbase :=
  match d with Some n => DFix b n | None => DArr b end.
Definition suffixes (b : dbase) (ds : list (option Z)) : dbase := fold_left suffix ds b.
(** Arrays with these sizes, the first one outermost. *)
Definition arrays (ds : list (option Z)) (t : cty) : cty :=
  fold_right (fun d u => match d with Some n => Fix u n | None => Arr u end) t ds.

(** "*...* x": at least one star is one more constructor. *)
Definition stars (n : nat) (b : dbase) : decl :=
  match n with O => DBase b | S _ => DStars n b end.

(** What an expression of a type can be called with: a function or a pointer to one gives its
    parameters and its result. *)
Inductive calls : cty -> list Z -> cty -> Prop :=
| calls_done t : calls t [] t
| calls_fcn r ps l t : calls r l t -> calls (Fcn r ps) (ps :: l) t
| calls_ptr r ps l t : calls r l t -> calls (Ptr (Fcn r ps)) (ps :: l) t.
