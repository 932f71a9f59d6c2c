(** * Limiting repeated messages, and the CSV rows (llerror.c)

    Simplifications: only messages that passed the suppression tests and the duplicate test
    are operations; the location printed in front of a message, the herald, annotations and
    line wrapping are left out (an accepted message is its text); the counter is unbounded
    (it would take 2^31 messages to overflow); the limit is fixed during the run. *)
From Verif Require Import Cbase.
Local Open Scope Z_scope.

(** What is printed: a message, or "(%d more similar errors unprinted)". *)
Inductive line := Shown (t : cstr) | More (n : Z).

(** s_lastmsg (llerror.c:49; undefined is equal to the empty string for cstring_equal,
    cstring.c:408-414), s_mcount (llerror.c:50), saveOneMessage (llerror.c:51), and the
    lines printed so far. *)
Record lstate := LS { ls_last : cstr; ls_count : Z; ls_saved : option cstr; ls_out : list line }.
Definition ls_init : lstate := LS [] 0 None [].

Section Limit.
(** context_getLimit, context.c:4508-4511; context_unlimitedMessages, context.c:4513-4516 *)
Variable limit : Z.

(** cleanupMessages, llerror.c:551-588 *)
Definition cleanup (s : lstate) : lstate :=
  if limit <? 0 then LS (ls_last s) 0 (ls_saved s) (ls_out s)
  else
    let unprinted := ls_count s - limit in
    if 0 <? unprinted then
      match ls_saved s with
      | Some m => if unprinted =? 1 then LS (ls_last s) 0 None (ls_out s ++ [Shown m])
                  else LS (ls_last s) 0 None (ls_out s ++ [More unprinted])
      | None => LS (ls_last s) 0 None (ls_out s ++ [More unprinted])
      end
    else LS (ls_last s) 0 (ls_saved s) (ls_out s).

(** limitmessage, llerror.c:532-547 *)
Definition limitmessage (s : lstate) (t : cstr) : lstate :=
  if limit + 1 <? ls_count s then s
  else LS (ls_last s) (ls_count s) (Some t) (ls_out s).

(** llgenerrorreal, llerror.c:1121-1169 and the final print; the colon is overwritten with
    NUL and restored (llerror.c:1141-1146) before the text is compared, so the whole text
    is compared *)
Definition accept (s : lstate) (t : cstr) : lstate :=
  if limit <? 0 then LS (ls_last s) (ls_count s) (ls_saved s) (ls_out s ++ [Shown t])
  else if cstr_eqb (ls_last s) t then
    let s := LS (ls_last s) (ls_count s + 1) (ls_saved s) (ls_out s) in
    if ls_count s =? limit + 1 then limitmessage s t
    else if limit <? ls_count s then s
    else LS (ls_last s) (ls_count s) (ls_saved s) (ls_out s ++ [Shown t])
  else
    let s := cleanup s in
    LS t 0 (ls_saved s) (ls_out s ++ [Shown t]).

(** A message, or a call of cleanupMessages at the end of a file (context.c:3543, 3576, 3626,
    llmain.c:779, 905, macrocache.c:363, usymtab.c:3511). *)
Inductive lop := Msg (t : cstr) | Flush.
Definition lstep (s : lstate) (o : lop) : lstate :=
  match o with Msg t => accept s t | Flush => cleanup s end.
Definition lrun (ops : list lop) : lstate := fold_left lstep ops ls_init.
Definition output (ops : list lop) : list line := ls_out (lrun ops).
End Limit.

(** ** CSV rows *)

(** A reported message; [c_add] is the additional text, if any. *)
Record csvmsg := CM { c_num : Z; c_code : Z; c_flag : cstr; c_prio : Z; c_file : cstr; c_line : Z; c_col : Z;
  c_text : cstr; c_add : option cstr }.

Definition comma : ascii := ","%char.
(** generateCSV, llerror.c:1061-1084 *)
Definition csv_row (m : csvmsg) : cstr :=
  dec (c_num m) ++ comma :: dec (c_code m) ++ comma :: c_flag m ++ comma :: dec (c_prio m) ++ comma ::
  c_file m ++ comma :: dec (c_line m) ++ comma :: dec (c_col m) ++ comma ::
  ch_dquote :: c_text m ++ ch_dquote ::
  match c_add m with
  | Some a => comma :: ch_dquote :: a ++ [ch_dquote; ch_nl]
  | None => [ch_nl]
  end.

Definition csv_file (ms : list csvmsg) : cstr := flat_map csv_row ms.
