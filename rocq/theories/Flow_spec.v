(** What statements of C do, without reference to splint: executions as a relation between the
    place where a statement is entered and the way it is left.  Conditions are arbitrary unless
    their value is known; any expression may fail to return ([exit], [longjmp]). *)
From Verif Require Import Cbase Flow_model.

Inductive out := ONormal | OBreak | OCont | OReturn | OExit | OGoto (l : nat).
Inductive entry := Top | At (m : mark).

(** A call of a function declared to exit always does not return. *)
Inductive eexec : expr -> out -> Prop :=
| X_exit e : eexec e OExit
| X_other : eexec EOther ONormal
| X_call k : k <> XK_MUSTEXIT -> eexec (ECall k) ONormal
| X_paren e o : eexec e o -> eexec (EParen e) o
| X_comma a b : eexec a ONormal -> eexec b ONormal -> eexec (EComma a b) ONormal
| X_cond_a a b : eexec a ONormal -> eexec (ECond a b) ONormal
| X_cond_b a b : eexec b ONormal -> eexec (ECond a b) ONormal.

(** The markers of a switch which stand in its body, not in an inner switch. *)
Fixpoint marks (s : stmt) : list mark :=
  match s with
  | Marker m _ => [m]
  | Seq a b | IfElse a b => marks a ++ marks b
  | Block a | NotReached a | If a | While _ a | DoWhile a | For _ a => marks a
  | Switch _ _ a => filter (fun m => match m with ML _ => true | _ => false end) (marks a)
  | _ => []
  end.

Definition loops (o : out) : Prop := o = ONormal \/ o = OCont.
Definition leaves (o o' : out) : Prop :=
  match o with OBreak => o' = ONormal | OReturn | OExit | OGoto _ => o' = o | _ => False end.

Inductive ends : out -> out -> Prop := (* leaving a switch *)
| E_break : ends OBreak ONormal
| E_other o : o <> OBreak -> ends o o.

Inductive exec : stmt -> entry -> out -> Prop :=
| X_semi : exec Semi Top ONormal
| X_brace : exec Brace Top ONormal
| X_expr e o : eexec e o -> exec (Expr e) Top o
| X_ret : exec Ret Top OReturn
| X_retx : exec Ret Top OExit
| X_brk : exec Brk Top OBreak
| X_cont : exec Cont Top OCont
| X_gto l : exec (Gto l) Top (OGoto l)
| X_marker m f : exec (Marker m f) Top ONormal
| X_at m f : exec (Marker m f) (At m) ONormal
| X_seq a b en o : exec a en ONormal -> exec b Top o -> exec (Seq a b) en o
| X_seq_out a b en o : exec a en o -> o <> ONormal -> exec (Seq a b) en o
| X_seq_at a b m o : exec b (At m) o -> exec (Seq a b) (At m) o
| X_block a en o : exec a en o -> exec (Block a) en o
| X_notreached a en o : exec a en o -> o <> ONormal -> exec (NotReached a) en o (* the user's promise *)
| X_if_exit a : exec (If a) Top OExit
| X_if_skip a : exec (If a) Top ONormal
| X_if a en o : exec a en o -> exec (If a) en o
| X_else_exit a b : exec (IfElse a b) Top OExit
| X_else_a a b en o : exec a en o -> exec (IfElse a b) en o
| X_else_b a b en o : exec b en o -> exec (IfElse a b) en o
| X_while_exit v a : exec (While v a) Top OExit
| X_while_end v a : (forall z, v = Some z -> z = 0) -> exec (While v a) Top ONormal
| X_while v a o o' : v <> Some 0 -> exec a Top o -> leaves o o' -> exec (While v a) Top o'
| X_while_round v a o o' : v <> Some 0 -> exec a Top o -> loops o -> exec (While v a) Top o' -> exec (While v a) Top o'
| X_while_at v a m o o' : exec a (At m) o -> leaves o o' -> exec (While v a) (At m) o'
| X_while_at_round v a m o o' : exec a (At m) o -> loops o -> exec (While v a) Top o' -> exec (While v a) (At m) o'
| X_do a en o o' : exec a en o -> leaves o o' -> exec (DoWhile a) en o'
| X_do_round a en o o' : exec a en o -> loops o -> exec (DoWhile a) Top o' -> exec (DoWhile a) en o'
| X_do_end a en o : exec a en o -> loops o -> exec (DoWhile a) en ONormal
| X_do_exit a en o : exec a en o -> loops o -> exec (DoWhile a) en OExit
| X_for_exit t a : exec (For t a) Top OExit
| X_for_end a : exec (For true a) Top ONormal
| X_for t a o o' : exec a Top o -> leaves o o' -> exec (For t a) Top o'
| X_for_round t a o o' : exec a Top o -> loops o -> exec (For t a) Top o' -> exec (For t a) Top o'
| X_for_at t a m o o' : exec a (At m) o -> leaves o o' -> exec (For t a) (At m) o'
| X_for_at_round t a m o o' : exec a (At m) o -> loops o -> exec (For t a) Top o' -> exec (For t a) (At m) o'
| X_switch_exit e en a : exec (Switch e en a) Top OExit
(* the value [c] is that of some case; or it is not, and there is a default; or there is none *)
| X_switch_case e en a c o o' : eexec e ONormal -> (forall l, en = Some l -> In c l) -> In (MC c) (marks a) ->
    exec a (At (MC c)) o -> ends o o' -> exec (Switch e en a) Top o'
| X_switch_default e en a c o o' : eexec e ONormal -> (forall l, en = Some l -> In c l) -> ~ In (MC c) (marks a) ->
    exec a (At MD) o -> ends o o' -> exec (Switch e en a) Top o'
| X_switch_none e en a c : eexec e ONormal -> (forall l, en = Some l -> In c l) -> ~ In (MC c) (marks a) ->
    ~ In MD (marks a) -> exec (Switch e en a) Top ONormal
| X_switch_label e en a l o o' : exec a (At (ML l)) o -> ends o o' -> exec (Switch e en a) (At (ML l)) o'.

(** A run of the body of a function: jumps to labels resume it there. *)
Inductive run (body : stmt) : entry -> out -> Prop :=
| R_end en o : exec body en o -> (forall l, o <> OGoto l) -> run body en o
| R_goto en l o : exec body en (OGoto l) -> run body (At (ML l)) o -> run body en o.
(** Control reaches the end of the function. *)
Definition falls_off (body : stmt) : Prop := run body Top ONormal.

(** Statements in which the markers of a switch stand directly in its body or in blocks of it, no
    label stands inside a switch, and members of an enumeration are distinct. *)
Definition case_mark (m : mark) : bool := match m with ML _ => false | _ => true end.
Fixpoint top_marks (s : stmt) : list mark := (* those standing directly in the body *)
  match s with
  | Marker m _ => [m]
  | Seq a b => top_marks a ++ top_marks b
  | Block a | NotReached a => top_marks a
  | _ => []
  end.
Fixpoint tidy (s : stmt) : Prop :=
  match s with
  | Seq a b | IfElse a b => tidy a /\ tidy b
  | Block a | NotReached a | If a | While _ a | DoWhile a | For _ a => tidy a
  | Switch _ en a => tidy a /\ marks a = top_marks a /\ (forall m, In m (marks a) -> case_mark m = true)
                     /\ (forall l, en = Some l -> NoDup l)
  | _ => True
  end.

(** No label or case is hidden inside a statement which control cannot reach from the statement
    before it: [leads]: the statement begins with a marker. *)
Fixpoint leads (s : stmt) : bool :=
  match s with Marker _ _ | NotReached _ => true | Seq a _ => leads a | _ => false end.
Fixpoint marks_ok (s : stmt) : Prop :=
  match s with
  | Seq a b => marks_ok a /\ marks_ok b /\ (leads b = true \/ marks b = [] \/ exists en, exec a en ONormal)
  | IfElse a b => marks_ok a /\ marks_ok b
  | Block a | NotReached a | If a | While _ a | DoWhile a | For _ a | Switch _ _ a => marks_ok a
  | _ => True
  end.

(** Programs without jumps other than break, continue and return, in which every loop has a test
    of unknown value before its body, and there are no commas: here messages are exact. *)
Fixpoint plain_expr (e : expr) : Prop :=
  match e with EComma _ _ => False | EParen e => plain_expr e | ECond a b => plain_expr a /\ plain_expr b | _ => True end.
Fixpoint structured (s : stmt) : Prop :=
  match s with
  | Semi | Brace | Ret | Brk | Cont => True
  | Expr e => plain_expr e
  | Seq a b | IfElse a b => structured a /\ structured b
  | Block a | If a => structured a
  | While None a | For true a => structured a
  | _ => False
  end.

(** [s'] is [s] with statements complained of as unreachable ([bad a b]: [b] after [a] is) replaced
    by anything without labels and cases. *)
Inductive pruned (bad : stmt -> stmt -> bool) : stmt -> stmt -> Prop :=
| P_same s : pruned bad s s
| P_cut a a' b b' : pruned bad a a' -> bad a b = true -> marks b' = [] -> pruned bad (Seq a b) (Seq a' b')
| P_seq a a' b b' : pruned bad a a' -> pruned bad b b' -> pruned bad (Seq a b) (Seq a' b')
| P_block a a' : pruned bad a a' -> pruned bad (Block a) (Block a')
| P_notreached a a' : pruned bad a a' -> pruned bad (NotReached a) (NotReached a')
| P_if a a' : pruned bad a a' -> pruned bad (If a) (If a')
| P_ifelse a a' b b' : pruned bad a a' -> pruned bad b b' -> pruned bad (IfElse a b) (IfElse a' b')
| P_while v a a' : pruned bad a a' -> pruned bad (While v a) (While v a')
| P_do a a' : pruned bad a a' -> pruned bad (DoWhile a) (DoWhile a')
| P_for t a a' : pruned bad a a' -> pruned bad (For t a) (For t a')
| P_switch e en a a' : pruned bad a a' -> pruned bad (Switch e en a) (Switch e en a').

(** The last statement of a list, blocks opened, is a case, default or label. *)
Fixpoint ends_in_marker (s : stmt) : Prop :=
  match s with
  | Marker _ _ => True
  | Seq _ b => ends_in_marker b
  | Block a | NotReached a => ends_in_marker a
  | _ => False
  end.

(** Functions without labels in which every case of a switch stands directly in its statement list. *)
Fixpoint direct (s : stmt) : Prop :=
  match s with
  | Marker (ML _) _ => False
  | Seq a b => direct a /\ direct b /\ (leads b = true \/ marks b = [])
  | IfElse a b => direct a /\ direct b
  | Block a | NotReached a | If a | While _ a | DoWhile a | For _ a => direct a
  | Switch _ en a => direct a /\ marks a = top_marks a /\ (forall l, en = Some l -> NoDup l)
  | _ => True
  end.
