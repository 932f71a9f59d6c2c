(** Uses of global names: what the messages should mean, in terms of what happens to a name. *)
From Verif Require Import Cbase Uses_model.
Open Scope nat_scope.

Section Spec.
Variable base : file -> cstr.

(** A place is in the module with base name [b]. *)
Definition in_module (b : cstr) (l : floc) : Prop := exists f, l = FUser f /\ base f = b.

(** The name is declared or defined at [l] first. *)
Inductive first_at (l : floc) : list event -> Prop :=
| fa_decl x h : first_at l (Decl l x :: h)
| fa_def h : first_at l (Define l :: h)
| fa_skip u m h : first_at l h -> first_at l (Use u m :: h).

(** The definition (the first one). *)
Inductive defined_at (l : floc) : list event -> Prop :=
| da_here h : defined_at l (Define l :: h)
| da_later ev h : (forall l', ev <> Define l') -> defined_at l h -> defined_at l (ev :: h).

(** [used_at l m h]: used at [l] (in the text of a macro if [m]) when it is known. *)
Definition used_at (l : floc) (m : bool) (h : list event) : Prop :=
  exists h1 h2, h = h1 ++ Use l m :: h2 /\ exists ev, In ev h1 /\ forall u b, ev <> Use u b.

(** Declared again with the keyword extern at [l]. *)
Definition redeclared_at (l : floc) (h : list event) : Prop :=
  exists h1 h2, h = h1 ++ Decl l true :: h2 /\ exists ev, In ev h1 /\ forall u b, ev <> Use u b.

Definition no_redeclaration (h : list event) : Prop := forall l, ~ redeclared_at l h.

(** A name that could be static: defined in a file of module [b] and used only outside the texts
    of macros in files of this module. *)
Definition only_used_in (b : cstr) (h : list event) : Prop :=
  (exists l m, used_at l m h) /\ forall l m, used_at l m h -> m = false /\ in_module b l.

(** The message for an unused name of a kind, and the flag it needs: functions and iterators (also
    variables with the type of a function), members of enumerations, constants, types, variables. *)
Inductive message_of (fl : uflags) : gkind -> umsg -> Prop :=
| mo_function : funcunused fl = true -> message_of fl GFunction UFunc
| mo_iterator : funcunused fl = true -> message_of fl GIter UFunc
| mo_function_variable : funcunused fl = true -> message_of fl (GVariable true) UFunc
| mo_member : enummemunused fl = true -> message_of fl GEnumMember UEnumMem
| mo_constant : constunused fl = true -> message_of fl GConstant UConst
| mo_type : typeunused fl = true -> message_of fl GType UType
| mo_variable : varunused fl = true -> message_of fl (GVariable false) UVar.
End Spec.
