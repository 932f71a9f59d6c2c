(** Model of conditional inclusion in the preprocessor, src/cpplib.c: [do_if] 5454–5463,
    [do_elif] 5470–5514, [do_xifdef] 5551–5635, [conditional_skip] 5642–5668, [skip_if_group]
    5676–5860, [do_else] 5869–5913, [do_endif] 5920–5989, and of the recognition of include
    guards ([only_seen_white] and [control_macro]; [redundant_include_p] 5025–5041).

    Simplified: the file is a list of logical lines, already told apart; conditions and other
    lines are opaque, with their effects on an environment given by functions; [output_line_command]
    is left out (see Pos_model); errors are counted.  A directive without its argument is not
    modelled. *)
From Verif Require Import Cbase.

Section Conditionals.

(** Environment (macros, output, messages), lines, conditions, names. *)
Variables (env line cond name : Type).
Variable exec : line -> env -> env.              (** processing a line *)
Variable eval : cond -> env -> env * bool.       (** evaluating a condition *)
Variable defined : name -> env -> bool.          (** [cpphash_lookup] finds the name *)

Inductive src :=
| Blank                    (** white space and comments only *)
| Text (l : line)          (** a line with tokens *)
| Quiet (l : line)         (** a directive read by [copy_rest_of_line] (1195–1266), such as [#undef]
                               or a [#define] that is not checked: [only_seen_white] unchanged *)
| IncludeQuiet (l : line)  (** an [#include] of a file without tokens: 5007 sets
                               [only_seen_white] to 2 and nothing resets it *)
| If (c : cond)
| Ifdef (n : name)
| Ifndef (n : name)
| Elif (c : cond)
| Else
| Endif.

Inductive ftype := TIf | TElif | TElse.

(** src/Headers/cpplib.h 553–566 [cppIfStackFrame]. *)
Record frame := { type : ftype; succeeded : bool; control : option name }.

(** [base] is the depth of the stack when the file was entered (3025). *)
Record state := {
  st_env : env; stack : list frame; base : nat;
  white : nat;                  (** [only_seen_white] after the newline: 1 or 2 *)
  guard : option name;          (** [control_macro] recorded for the file, 5977 *)
  errors : nat }.

Definition at_base (s : state) : bool := (List.length (stack s) =? base s)%nat.

Definition set_env (e : env) (s : state) : state :=
  {| st_env := e; stack := stack s; base := base s; white := white s; guard := guard s; errors := errors s |}.
Definition set_white (w : nat) (s : state) : state :=
  {| st_env := st_env s; stack := stack s; base := base s; white := w; guard := guard s; errors := errors s |}.
Definition set_stack (fs : list frame) (s : state) : state :=
  {| st_env := st_env s; stack := fs; base := base s; white := white s; guard := guard s; errors := errors s |}.
Definition set_guard (g : option name) (s : state) : state :=
  {| st_env := st_env s; stack := stack s; base := base s; white := white s; guard := g; errors := errors s |}.
Definition add_error (s : state) : state :=
  {| st_env := st_env s; stack := stack s; base := base s; white := white s; guard := guard s; errors := S (errors s) |}.

Definition is_blank (l : src) : bool := match l with Blank => true | _ => false end.

(** What the reader does next: process lines, or skip with the stack not to be popped below
    the given depth ([save_if_stack]). *)
Inductive mode := Proc | Skip (saved : nat).

(** Entering [skip_if_group] with the present stack. *)
Definition skipping (s : state) : mode := Skip (List.length (stack s)).

(** src/cpplib.c 5642–5668 [conditional_skip]; the tokens of the directive have been read. *)
Definition conditional_skip (skip : bool) (cm : option name) (s : state) : mode * state :=
  let s1 := set_white 1 (set_stack ({| type := TIf; succeeded := negb skip; control := cm |} :: stack s) s) in
  if skip then (skipping s1, s1) else (Proc, s1).

Definition not_else (t : ftype) : bool := match t with TElse => false | _ => true end.

(** The handlers of directives met while processing. [rest]: the lines after this one. *)
Definition proc_line (l : src) (rest : list src) (s : state) : mode * state :=
  match l with
  | Blank => (Proc, s)
  | Text x => (Proc, set_white 1 (set_env (exec x (st_env s)) s))
  | Quiet x => (Proc, set_env (exec x (st_env s)) s)
  | IncludeQuiet x => (Proc, set_white 2 (set_env (exec x (st_env s)) s))
  | If c => let '(e, v) := eval c (st_env s) in conditional_skip (negb v) None (set_env e s)
  | Ifdef n => conditional_skip (negb (defined n (st_env s))) None s
  | Ifndef n =>
      let skip := defined n (st_env s) in
      conditional_skip skip (if (white s =? 2)%nat && negb skip then Some n else None) s
  | Elif c =>
      match stack s with
      | f :: fs =>
          if at_base s then (Proc, add_error s) else
          let s1 := if not_else (type f) then s else add_error s in
          if succeeded f
          then let s2 := set_white 1 (set_stack ({| type := TElif; succeeded := true; control := control f |} :: fs) s1) in
               (skipping s2, s2)
          else let '(e, v) := eval c (st_env s1) in
               let s2 := set_white 1 (set_env e (set_stack ({| type := TElif; succeeded := v; control := control f |} :: fs) s1)) in
               if v then (Proc, s2) else (skipping s2, s2)
      | [] => (Proc, add_error s)
      end
  | Else =>
      match stack s with
      | f :: fs =>
          if at_base s then (Proc, add_error s) else
          let s1 := if not_else (type f) then s else add_error s in
          let s2 := set_stack ({| type := TElse; succeeded := true; control := None |} :: fs) s1 in
          if succeeded f then (skipping s2, set_white 1 s2) else (Proc, s2)
      | [] => (Proc, add_error s)
      end
  | Endif =>
      match stack s with
      | f :: fs =>
          if at_base s then (Proc, add_error s) else
          let s1 := set_stack fs s in
          (Proc, match control f with
                 | Some n => if forallb is_blank rest then set_guard (Some n) s1 else s1
                 | None => s1
                 end)
      | [] => (Proc, add_error s)
      end
  end.

(** One line inside [skip_if_group] (5714–5806): [None] when it is the line looked for. *)
Definition skip_line (saved : nat) (l : src) (s : state) : option state :=
  let push := set_stack ({| type := TIf; succeeded := false; control := None |} :: stack s) s in
  let inner (closing : bool) (t : ftype) :=
    if at_base s then Some (add_error s)
    else if (List.length (stack s) =? saved)%nat then None
    else match stack s with
         | f :: fs => if closing then Some (set_stack fs s)
                      else Some (set_stack ({| type := t; succeeded := succeeded f; control := control f |} :: fs)
                                   (if not_else (type f) then s else add_error s))
         | [] => Some s
         end in
  match l with
  | If _ | Ifdef _ | Ifndef _ => Some push
  | Elif _ => inner false TElif
  | Else => inner false TElse
  | Endif => inner true TIf
  | _ => Some s
  end.

(** The whole file.  At its end nothing is checked. *)
Fixpoint run (m : mode) (ls : list src) (s : state) : state :=
  match ls with
  | [] => s
  | l :: rest =>
      let proc := let '(m', s') := proc_line l rest s in run m' rest s' in
      match m with
      | Proc => proc
      | Skip d => match skip_line d l s with
                  | Some s' => run m rest s'
                  | None => proc
                  end
      end
  end.

(** Entering a file (3025, 5007). *)
Definition enter (e : env) (fs : list frame) : state :=
  {| st_env := e; stack := fs; base := List.length fs; white := 2; guard := None; errors := 0 |}.
Definition read_file (e : env) (fs : list frame) (ls : list src) : state := run Proc ls (enter e fs).

(** src/cpplib.c 4839–4844, 4910–4914: a file already read whose recorded macro is defined is
    not read again; [g] is what was recorded. *)
Definition include_again (g : option name) (e : env) (fs : list frame) (ls : list src) : env :=
  match g with
  | Some n => if defined n e then e else st_env (read_file e fs ls)
  | None => st_env (read_file e fs ls)
  end.

End Conditionals.

Arguments Blank {line cond name}. Arguments Text {line cond name}. Arguments Quiet {line cond name}.
Arguments IncludeQuiet {line cond name}. Arguments If {line cond name}. Arguments Ifdef {line cond name}.
Arguments Ifndef {line cond name}. Arguments Elif {line cond name}. Arguments Else {line cond name}.
Arguments Endif {line cond name}. Arguments is_blank {line cond name}.
Arguments type {name}. Arguments succeeded {name}. Arguments control {name}.
Arguments st_env {env name}. Arguments stack {env name}. Arguments base {env name}. Arguments white {env name}.
Arguments guard {env name}. Arguments errors {env name}. Arguments at_base {env name}.
Arguments set_env {env name}. Arguments set_white {env name}. Arguments set_stack {env name}.
Arguments set_guard {env name}. Arguments add_error {env name}. Arguments skipping {env name}.
Arguments conditional_skip {env name}. Arguments skip_line {env line cond name}.
Arguments proc_line {env line cond name}. Arguments run {env line cond name}.
Arguments enter {env name}. Arguments read_file {env line cond name}. Arguments include_again {env line cond name}.
