(** What it means for a type table to survive being written to a library (C32).
    Nothing here mentions the writing or reading functions except the line length. *)
From Coq Require Import ZArith Bool List Ascii.
Import ListNotations.
From Verif Require Import Cbase Ctab_model.
Local Open Scope Z_scope.

(** The number stored for a type or a primitive: an int which is not negative. *)
Definition type_number (z : Z) : Prop := 0 <= z <= INT_MAX.

(** A link of an entry: a type number, "undefined" (-1) or "does not exist" (-2). *)
Definition link (z : Z) : Prop := z = ctype_undefined \/ z = ctype_dne \/ type_number z.

(** Text without the given characters and without line breaks. *)
Definition free_of (bad : list ascii) (s : cstr) : Prop :=
  forall c, In c s -> c <> ch_nl /\ ~ In c bad.

(** A line which the reader's buffer holds (see C32_long_line_refuted). *)
Definition short_line (l : cstr) : Prop := Z.of_nat (List.length l) < 16382.

Section Spec.
Variable conv : Z -> Z.
Variable named_bool : Z -> bool.

(** The number under which a constituent type is stored: a user's type called like the
    boolean type counts as the boolean type, a missing type as the unknown type. *)
Definition stored (z : Z) : Z :=
  if z <? 0 then CTX_UNKNOWN else if named_bool z then CTX_BOOL else z.

(** Numbers fit in an int and texts do not contain the characters which end them. *)
Definition plain_base (cb : ctbase) : Prop :=
  match cb with
  | CBundef | CBunknown | CBbool | CBexpfcn _ | CBenumlist => True
  | CBprim p => type_number p
  | CBuser t | CBabst t | CBnumabst t => type_number (conv t)
  | CBptr b | CBarray b => b <= INT_MAX
  | CBfixed b n => b <= INT_MAX /\ type_number n
  | CBfcn r ps => r <= INT_MAX /\ free_of [")"%char] ps
  | CBstruct n fs | CBunion n fs => free_of ["{"%char] n /\ free_of ["}"%char] fs
  | CBenum n ms => free_of ["{"%char] n /\
                   Forall (fun m => m <> [] /\ free_of [","%char; "}"%char] m) ms
  | CBconj _ a b => a <= INT_MAX /\ b <= INT_MAX
  end.

Definition plain_entry (e : entry) : Prop :=
  -3 <= e_kind e <= 3 /\ plain_base (e_cb e) /\ link (e_base e) /\ link (e_ptr e) /\ link (e_arr e).

(** The type as it is stored: named types have their number in the library, and the
    internal markers of the parser (no C type) are not stored. *)
Definition stored_base (cb : ctbase) : ctbase :=
  match cb with
  | CBuser t => CBuser (conv t)
  | CBabst t => CBabst (conv t)
  | CBnumabst t => CBnumabst (conv t)
  | CBptr b => CBptr (stored b)
  | CBarray b => CBarray (stored b)
  | CBfixed b n => CBfixed (stored b) n
  | CBfcn r ps => CBfcn (stored r) ps
  | CBconj ex a b => CBconj ex (stored a) (stored b)
  | CBexpfcn _ => CBundef
  | CBenumlist => CBunknown
  | x => x
  end.
Definition stored_entry (e : entry) : entry :=
  mkEntry (e_kind e) (stored_base (e_cb e)) (e_base e) (e_ptr e) (e_arr e).

(** A type without internal markers whose constituents are types not called like the
    boolean type. *)
Definition proper_base (cb : ctbase) : Prop :=
  let part z := 0 <= z /\ named_bool z = false in
  match cb with
  | CBptr b | CBarray b | CBfixed b _ | CBfcn b _ => part b
  | CBconj _ a b => part a /\ part b
  | CBexpfcn _ | CBenumlist => False
  | _ => True
  end.
End Spec.
