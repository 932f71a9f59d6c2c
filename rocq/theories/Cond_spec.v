(** Conditional inclusion as C (6.10.1) has it. *)
From Verif Require Import Cbase Cond_model.

Section Spec.
Variables (env line cond name : Type).
Variable exec : line -> env -> env.
Variable eval : cond -> env -> env * bool.
Variable defined : name -> env -> bool.

Inductive opener := OIf (c : cond) | OIfdef (n : name) | OIfndef (n : name).

(** A group: other lines and whole conditionals; a tail: the rest of a conditional. *)
Inductive group :=
| GNil
| GLine (l : src line cond name) (g : group)   (** not a conditional directive: see [plain] *)
| GCond (o : opener) (body : group) (t : tail) (g : group)
with tail :=
| TEndif
| TElse' (body : group)
| TElif' (c : cond) (body : group) (t : tail).

Definition plain (l : src line cond name) : bool :=
  match l with Blank | Text _ | Quiet _ | IncludeQuiet _ => true | _ => false end.

Fixpoint plain_group (g : group) : bool :=
  match g with
  | GNil => true
  | GLine l g => plain l && plain_group g
  | GCond _ b t g => plain_group b && plain_tail t && plain_group g
  end
with plain_tail (t : tail) : bool :=
  match t with
  | TEndif => true
  | TElse' b => plain_group b
  | TElif' _ b t => plain_group b && plain_tail t
  end.

Definition open_line (o : opener) : src line cond name :=
  match o with OIf c => If c | OIfdef n => Ifdef n | OIfndef n => Ifndef n end.

(** The lines of the file. *)
Fixpoint lines (g : group) : list (src line cond name) :=
  match g with
  | GNil => []
  | GLine l g => l :: lines g
  | GCond o b t g => open_line o :: lines b ++ tail_lines t ++ lines g
  end
with tail_lines (t : tail) : list (src line cond name) :=
  match t with
  | TEndif => [Endif]
  | TElse' b => Else :: lines b ++ [Endif]
  | TElif' c b t => Elif c :: lines b ++ tail_lines t
  end.

Definition holds (o : opener) (e : env) : env * bool :=
  match o with
  | OIf c => eval c e
  | OIfdef n => (e, defined n e)
  | OIfndef n => (e, negb (defined n e))
  end.

Definition effect (l : src line cond name) (e : env) : env :=
  match l with Text x | Quiet x | IncludeQuiet x => exec x e | _ => e end.

(** What C says is done: of a conditional, the first group whose condition holds; conditions
    after that one are not evaluated, nor anything in the other groups. *)
Fixpoint meaning (g : group) (e : env) : env :=
  match g with
  | GNil => e
  | GLine l g => meaning g (effect l e)
  | GCond o b t g => let '(e1, v) := holds o e in
                     meaning g (if v then meaning b e1 else tail_meaning t e1)
  end
with tail_meaning (t : tail) (e : env) : env :=
  match t with
  | TEndif => e
  | TElse' b => meaning b e
  | TElif' c b t => let '(e1, v) := eval c e in if v then meaning b e1 else tail_meaning t e1
  end.

End Spec.

Arguments OIf {cond name}. Arguments OIfdef {cond name}. Arguments OIfndef {cond name}.
Arguments GNil {line cond name}. Arguments GLine {line cond name}. Arguments GCond {line cond name}.
Arguments TEndif {line cond name}. Arguments TElse' {line cond name}. Arguments TElif' {line cond name}.
Arguments plain {line cond name}. Arguments plain_group {line cond name}. Arguments plain_tail {line cond name}.
Arguments open_line {line cond name}. Arguments lines {line cond name}. Arguments tail_lines {line cond name}.
Arguments holds {env cond name}. Arguments effect {env line cond name}. Arguments meaning {env line cond name}.
Arguments tail_meaning {env line cond name}.

(** Nesting errors by one pass over the directives: the stack says of each open conditional
    whether its #else has been seen; [None] for a directive outside any conditional. *)
Section Nesting.
Variables (line cond name : Type).
Fixpoint nesting_errors (open : list bool) (ls : list (src line cond name)) : nat :=
  match ls with
  | [] => O
  | l :: r =>
      match l with
      | If _ | Ifdef _ | Ifndef _ => nesting_errors (false :: open) r
      | Elif _ => match open with
                  | e :: o => ((if e then 1 else 0) + nesting_errors (false :: o) r)%nat
                  | [] => S (nesting_errors [] r)
                  end
      | Else => match open with
                | e :: o => ((if e then 1 else 0) + nesting_errors (true :: o) r)%nat
                | [] => S (nesting_errors [] r)
                end
      | Endif => match open with
                 | _ :: o => nesting_errors o r
                 | [] => S (nesting_errors [] r)
                 end
      | _ => nesting_errors open r
      end
  end.

(** The #elif and #else lines belonging to a conditional already opened, and what follows its
    #endif; [k]: conditionals open inside it. *)
Fixpoint chain (k : nat) (ls : list (src line cond name)) : option (list (src line cond name) * list (src line cond name)) :=
  match ls with
  | [] => None
  | l :: r =>
      match l with
      | If _ | Ifdef _ | Ifndef _ => chain (S k) r
      | Endif => match k with O => Some ([], r) | S j => chain j r end
      | Elif _ | Else => match chain k r with
                         | Some (c, after) => Some (match k with O => l :: c | _ => c end, after)
                         | None => None
                         end
      | _ => chain k r
      end
  end.

(** The shape of a header with an include guard [n]. *)
Definition guarded (n : name) (ls : list (src line cond name)) : Prop :=
  exists before rest after, ls = before ++ Ifndef n :: rest /\
    forallb is_blank before = true /\ chain 0 rest = Some ([], after) /\ forallb is_blank after = true.
End Nesting.
Arguments nesting_errors {line cond name}. Arguments chain {line cond name}. Arguments guarded {line cond name}.
