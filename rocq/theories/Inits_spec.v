(** What initializers of C are (C99 6.7.8), independent of the checker. Constraints on the
    length of string literals are those of C39. *)
From Verif Require Import Cbase Inits_model.
Open Scope nat_scope.

Section Spec.
Variable leaf : Type.
Variable matches : ty -> leaf -> bool.
Variable is_string : leaf -> bool.

(** The subobjects a block initializes, in order; an array without a size has as many as needed;
    of a union the first member. *)
Inductive parts : ty -> list ty -> Prop :=
| p_arr : forall e n, parts (TArr e (Some n)) (repeat e n)
| p_open : forall e n, parts (TArr e None) (repeat e n)
| p_struct : forall fs, parts (TStruct fs) fs
| p_union : forall f o, parts (TUnion f o) [f].

Definition scalar (t : ty) : Prop := match t with TChar | TScalar _ | TPtr _ => True | _ => False end.

(** Valid initializers without designations; inner braces may be left out (paragraph 20). *)
Inductive valid : ty -> init leaf -> Prop :=
| v_leaf : forall t l, matches t l = true -> valid t (Leaf l)
| v_brace : forall t l, scalar t -> matches t l = true -> valid t (Block [Leaf l])
| v_string : forall n l, is_string l = true -> valid (TArr TChar n) (Block [Leaf l])
| v_block : forall t ps vs, parts t ps -> consume ps vs [] -> valid t (Block vs)
with consume : list ty -> list (init leaf) -> list (init leaf) -> Prop :=
| c_out : forall ps, consume ps [] []
| c_done : forall vs, consume [] vs vs
| c_elem : forall p ps v vs rest, valid p v -> consume ps vs rest -> consume (p :: ps) (v :: vs) rest
| c_elide : forall p qs ps l vs mid rest, parts p qs -> consume qs (Leaf l :: vs) mid ->
    consume ps mid rest -> consume (p :: ps) (Leaf l :: vs) rest.

(** Initializers with all braces and a value for every subobject. *)
Inductive full : ty -> init leaf -> Prop :=
| f_leaf : forall t l, matches t l = true -> full t (Leaf l)
| f_block : forall t ps vs, parts t ps -> Forall2 full ps vs -> full t (Block vs).

(** A string in braces for an array of characters. *)
Inductive braced_string : ty -> init leaf -> Prop :=
| bs : forall n l, is_string l = true -> braced_string (TArr TChar n) (Block [Leaf l]).

(** [sub t v p t' v']: following positions [p] from an object of type [t] initialized by [v] leads
    to a part of type [t'] initialized by [v'], by position. A string in braces is not a part. *)
Inductive sub : ty -> init leaf -> list nat -> ty -> init leaf -> Prop :=
| s_here : forall t v, sub t v [] t v
| s_arr : forall e n vs k v p t' v', ~ braced_string (TArr e n) (Block vs) ->
    nth_error vs k = Some v -> sub e v p t' v' -> sub (TArr e n) (Block vs) (k :: p) t' v'
| s_ptr : forall e vs k v p t' v', ~ braced_string (TArr e None) (Block vs) ->
    nth_error vs k = Some v -> sub e v p t' v' -> sub (TPtr e) (Block vs) (k :: p) t' v'
| s_struct : forall fs vs k f v p t' v', List.length fs = List.length vs ->
    nth_error fs k = Some f -> nth_error vs k = Some v -> sub f v p t' v' ->
    sub (TStruct fs) (Block vs) (k :: p) t' v'
| s_union : forall f o v p t' v', sub f v p t' v' -> sub (TUnion f o) (Block [v]) (0 :: p) t' v'.

(** What is wrong with one object and its initializer, and the message that says so. *)
Inductive wrong : ty -> init leaf -> imsg -> Prop :=
| w_many : forall e n vs, n < List.length vs -> wrong (TArr e (Some n)) (Block vs) TooMany
| w_few : forall e n vs, List.length vs < n -> wrong (TArr e (Some n)) (Block vs) TooFew
| w_ffew : forall fs vs, List.length vs < List.length fs -> wrong (TStruct fs) (Block vs) FieldsFew
| w_fmany : forall fs vs, List.length fs < List.length vs -> wrong (TStruct fs) (Block vs) FieldsMany
| w_union : forall f o vs, List.length vs <> 1 -> wrong (TUnion f o) (Block vs) UnionCount
| w_char : forall vs, wrong TChar (Block vs) NotAggregate
| w_scalar : forall k vs, wrong (TScalar k) (Block vs) NotAggregate
| w_value : forall t l, matches t l = false -> wrong t (Leaf l) BadValue.

(** The flag a message belongs to. *)
Definition flag_of (fl : iflags) (m : imsg) : bool :=
  match m with
  | TooMany => initsize fl | TooFew => initallelements fl | FieldsFew => fullinitblock fl
  | FieldsMany | UnionCount | NotAggregate | BadValue => type_ fl
  | Additional => true
  end.

(** No designations and no block for a pointer anywhere. *)
Definition undesignated (t : ty) (v : init leaf) : Prop := forall p t' d w, ~ sub t v p t' (Desig d w).
Definition no_pointer_block (t : ty) (v : init leaf) : Prop := forall p t' vs, ~ sub t v p (TPtr t') (Block vs).
Definition no_braced_string (t : ty) (v : init leaf) : Prop :=
  forall p t' w, sub t v p t' w -> ~ braced_string t' w.
End Spec.
