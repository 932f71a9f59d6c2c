(** What C says a table of macros is: a map from names to definitions. *)
From Verif Require Import Cbase Hash_model.

(** The value a name has after a history without saving and restoring: the last operation on that
    very name decides. *)
Fixpoint latest (n : cstr) (os : list op) (v : option value) : option value :=
  match os with
  | [] => v
  | Define m d :: os => latest n os (if cstr_eqb m n then Some (Macro d) else v)
  | Install m w :: os => latest n os (if cstr_eqb m n then Some w else v)
  | Undef m :: os => latest n os (if cstr_eqb m n then None else v)
  | _ :: os => latest n os v
  end.

Definition plain (o : op) : Prop := match o with Save | Restore => False | _ => True end.

(** What a macro does where it is used: its parameters, where they occur, the text in between.
    [None]: undetermined. *)
Definition same_macro (a b : defn) : Prop :=
  nargs a = nargs b /\ expansion a = expansion b /\ pattern a = pattern b /\ argnames a = argnames b /\
  noExpand a = noExpand b /\ rest_args a = rest_args b.
