(** What a type index stands for, read off the contents of the type table
    without looking at the links the constructors use to find types again. *)
From Verif Require Import Cbase Ctab_model.

Inductive ty :=
| TyLeaf (c : Z)             (* anything that is not a pointer or an array *)
| TyPtr (e : ty)
| TyArr (e : ty)             (* array of unspecified size *)
| TyFix (e : ty) (n : Z).    (* array of n elements *)

Definition isDerived (cb : ctbase) : bool :=
  match cb with CBptr _ | CBarray _ | CBfixed _ _ => true | _ => false end.

Inductive means (t : table) : Z -> ty -> Prop :=
| means_ptr c b e : getCtbase t c = Some (CBptr b) -> means t b e -> means t c (TyPtr e)
| means_arr c b e : getCtbase t c = Some (CBarray b) -> means t b e -> means t c (TyArr e)
| means_fix c b n e : getCtbase t c = Some (CBfixed b n) -> means t b e -> means t c (TyFix e n)
| means_leaf c cb : getCtbase t c = Some cb -> isDerived cb = false -> means t c (TyLeaf c).

(** One array suffix of a declarator: [n] or []. *)
Definition dim_ty (d : option Z) (e : ty) : ty :=
  match d with Some n => TyFix e n | None => TyArr e end.
(** The type of "a[d1][d2]...[dk]" for elements of type [e] in C. *)
Definition nest (ds : list (option Z)) (e : ty) : ty := fold_right dim_ty e ds.

(** The array suffixes applied from left to right, as the parser does. *)
Fixpoint declare (t : table) (c : Z) (ds : list (option Z)) : option (table * Z) :=
  match ds with
  | [] => Some (t, c)
  | d :: r => match makeInner (S (List.length t)) d t c with
              | Some (t', c') => declare t' c' r
              | None => None
              end
  end.

(** The element type and size of successive dimensions, as checks ask for them. *)
Fixpoint readDims (k : nat) (t : table) (c : Z) : option (list (option Z) * Z) :=
  match k with
  | O => Some ([], c)
  | S k' =>
      if isArray t c then
        let d := if isFixedArray t c then getArraySize t c else None in
        match baseArrayPtr t c with
        | Some b => match readDims k' t b with
                    | Some (ds, e) => Some (d :: ds, e)
                    | None => None
                    end
        | None => None
        end
      else None
  end.

(** The slot reserved for a user-defined boolean is not a type yet. *)
Definition reserved : Z := 57.
Definition existing (t : table) (c : Z) : Prop := 0 <= c < size t /\ c <> reserved.
