(** What access to abstract types should mean: statements about the sequence of things read, and about
    types, made without the sets the model keeps. *)
From Verif Require Import Cbase Access_model.
From Coq Require Import List Arith Bool Ascii.
Import ListNotations.

Section Traces.
Variables accessmodule accessfile comments : bool.
Variable base : nat -> nat.

(** The file that is being read after [tr], if reading began with [f]. *)
Fixpoint fileAfter (f : nat) (tr : list event) : nat :=
  match tr with
  | [] => f
  | EFile g :: r | ELine g :: r => fileAfter g r
  | _ :: r => fileAfter f r
  end.

(** Reading does not leave the file [f]. *)
Definition staysEvent (f : nat) (e : event) : Prop :=
  match e with EFile _ => False | ELine g => g = f | _ => True end.
Definition stays (f : nat) (tr : list event) : Prop := forall e, In e tr -> staysEvent f e.

(** The type has been defined. *)
Definition defined (t : nat) (tr : list event) : Prop := In (EAbstract t) tr \/ In (EConcrete t) tr.

(** After [tr], the event [e] gives access to [t]: it defines the abstract type (with [accessmodule]), or is
    an [access] comment for an abstract type. *)
Definition grants (tr : list event) (e : event) (t : nat) : Prop :=
  (e = EAbstract t /\ accessmodule = true) \/
  (e = EAccess t /\ comments = true /\ In (EAbstract t) tr).

(** Access to [t] was given while a file with the name [b] was read; without [accessmodule] the file has
    not been left since. *)
Definition granted (f0 : nat) (tr : list event) (b t : nat) : Prop :=
  exists tr1 e tr2, tr = tr1 ++ e :: tr2 /\ grants tr1 e t /\ base (fileAfter f0 tr1) = b /\
    (accessmodule = true \/ stays (fileAfter f0 tr1) tr2).

(** The file [f] has the name of the type, which was defined before a file was entered last. *)
Definition ownName (f0 : nat) (tr : list event) (f t : nat) : Prop :=
  accessfile = true /\ t = base f /\
  exists tr1 e tr2, tr = tr1 ++ e :: tr2 /\ ~ staysEvent (fileAfter f0 tr1) e /\ defined t tr1.

(** A function or macro that has access to [t] because of its name is being read, and no other file has
    been entered since it was begun. *)
Definition byFunction (f0 : nat) (tr : list event) (t : nat) : Prop :=
  exists tr1 k a tr2, tr = tr1 ++ EEnter k a :: tr2 /\ inRealFunction k = true /\ In t a /\
    stays (fileAfter f0 tr1) tr2 /\
    (forall e, In e tr2 -> match e with EExit => False | EEnter KGlobal _ | EEnter KFcnDecl _ => True
                                      | EEnter _ _ => False | _ => True end).

(** No [noaccess] comment for [t] is in force for functions that are begun: each was followed by a change of
    files or by the end of a source file. *)
Definition refusalOver (f0 : nat) (tr : list event) (t : nat) : Prop :=
  forall tr1 tr2, tr = tr1 ++ ENoAccess t :: tr2 -> ~ stays (fileAfter f0 tr1) tr2 \/ In EEnd tr2.
End Traces.

(** ** The names in a comment *)
Definition isGapOrComma (c : ascii) : bool := isGap c || Ascii.eqb c ",".
(** A name: at least one character, no gaps, no commas. *)
Definition isName (n : list ascii) : Prop := n <> [] /\ forallb (fun c => negb (isGapOrComma c)) n = true.
(** Names, each followed by a comma or a blank and then any gaps, except perhaps the last. *)
Inductive listText : list (list ascii) -> list ascii -> Prop :=
| LT_nil : forall g, forallb isGap g = true -> listText [] g
| LT_last : forall g n, forallb isGap g = true -> isName n -> listText [n] (g ++ n)
| LT_cons : forall g n c ns s, forallb isGap g = true -> isName n -> c = ","%char \/ c = " "%char ->
    listText ns s -> listText (n :: ns) (g ++ n ++ c :: s).

(** ** Types *)
Section Types.
Variable kindOf : nat -> tkind.
Variable body : nat -> ty.
Variable access : nat -> bool.

(** The representation of [n] may be used: it is no abstract type, or there is access to it. *)
Definition opened (n : nat) : Prop := kindOf n = Concrete \/ access n = true.

(** The abstract type [a], to which there is no access, is what [t] is, or what pointers of type [t] lead
    to, or elements of arrays, if the types that may be used are replaced by their definitions. *)
Inductive under : ty -> nat -> Prop :=
| Un_here : forall a, ~ opened a -> under (TName a) a
| Un_open : forall n a, opened n -> under (body n) a -> under (TName n) a
| Un_ptr : forall t a, under t a -> under (TPtr t) a
| Un_arr : forall t a, under t a -> under (TArr t) a.

(** A type that is no pointer and no array if names are replaced as far as they may be used. *)
Inductive value : ty -> Prop :=
| V_void : value TVoid
| V_unknown : value TUnknown
| V_other : forall n, value (TOther n)
| V_closed : forall n, ~ opened n -> value (TName n)
| V_open : forall n, opened n -> value (body n) -> value (TName n).

(** All pointers and arrays of the type are written in it, none is hidden behind a name. *)
Inductive explicit : ty -> Prop :=
| E_value : forall t, value t -> explicit t
| E_ptr : forall t, explicit t -> explicit (TPtr t)
| E_arr : forall t, explicit t -> explicit (TArr t).

(** Every name is defined by names with smaller numbers. *)
Fixpoint names (t : ty) : list nat :=
  match t with TPtr u => names u | TArr u => names u | TName n => [n] | _ => [] end.
(** There is no access to a type that is named in the type itself. *)
Definition closedNames (t : ty) : Prop := forall n, In n (names t) -> access n = false.
Definition grounded : Prop := forall n m, In m (names (body n)) -> (m < n)%nat.
End Types.

(** The messages about the type that is cast to; the others are about the type of the expression. *)
Definition aboutTarget (m : cmsg) : bool :=
  match m with CToPtr | CToVoid | CTo | CNumLit | CNum => true | _ => false end.
