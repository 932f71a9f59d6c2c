(** What statements do: executions of statements over the evaluation of expressions of Order_spec.v.
    Nothing here mentions sets of references or messages. *)
From Verif Require Import Cbase Order_model Order_spec Eff_model.
From Coq Require Import List ZArith Bool.
Import ListNotations.
Open Scope Z_scope.

(** ** Executions *)
(** How a statement ends. *)
Inductive ending := Normal | Broke | Continued | Returned.

(** The statements that follow the marker of a value: those of the first clause with this value and of all
    clauses behind it; those from [default] if there is no such clause. *)
Fixpoint from_label (k : option Z) (c : clauses) : option clauses :=
  match c with
  | CNil => None
  | CCons l _ r =>
      if match k, l with Some z, Some w => z =? w | None, None => true | _, _ => false end then Some c
      else from_label k r
  end.
Definition selected (v : Z) (c : clauses) : clauses :=
  match from_label (Some v) c with
  | Some d => d
  | None => match from_label None c with Some d => d | None => CNil end
  end.

Section Exec.
Variable unother : Z -> Z.
Variable binother : Z -> Z -> Z.
Variable addr : arr -> Z.
Variable body : fname -> exprs -> list Z -> state -> Z * (obj -> option Z).
Local Notation outcome := (outcome unother binother addr body).

(** An expression that may be missing; a missing condition is true. *)
Definition optional (e : option expr) (s : state) (v : Z) (t : state) : Prop :=
  match e with Some e => outcome s e v t | None => v = 1 /\ t = s end.

(** [exec a s r t]: started in [s], the statement [a] ends in [t] in the way [r]. *)
Inductive exec : stmt -> state -> ending -> state -> Prop :=
| XEmpty : forall s, exec SEmpty s Normal s
| XExpr : forall e s v t, outcome s e v t -> exec (SExpr e) s Normal t
| XSeq : forall a b s t r u, exec a s Normal t -> exec b t r u -> exec (SSeq a b) s r u
| XSeqJump : forall a b s r t, exec a s r t -> r <> Normal -> exec (SSeq a b) s r t
| XIfYes : forall e a s v t r u, outcome s e v t -> v <> 0 -> exec a t r u -> exec (SIf e a) s r u
| XIfNo : forall e a s t, outcome s e 0 t -> exec (SIf e a) s Normal t
| XIfElseYes : forall e a b s v t r u, outcome s e v t -> v <> 0 -> exec a t r u -> exec (SIfElse e a b) s r u
| XIfElseNo : forall e a b s t r u, outcome s e 0 t -> exec b t r u -> exec (SIfElse e a b) s r u
| XWhileEnd : forall e b s t, outcome s e 0 t -> exec (SWhile e b) s Normal t
| XWhileGo : forall e b s v t q u r w, outcome s e v t -> v <> 0 -> exec b t q u -> q = Normal \/ q = Continued ->
    exec (SWhile e b) u r w -> exec (SWhile e b) s r w
| XWhileBreak : forall e b s v t u, outcome s e v t -> v <> 0 -> exec b t Broke u -> exec (SWhile e b) s Normal u
| XWhileReturn : forall e b s v t u, outcome s e v t -> v <> 0 -> exec b t Returned u -> exec (SWhile e b) s Returned u
| XDoEnd : forall e b s q t u, exec b s q t -> q = Normal \/ q = Continued -> outcome t e 0 u -> exec (SDo b e) s Normal u
| XDoGo : forall e b s q t v u r w, exec b s q t -> q = Normal \/ q = Continued -> outcome t e v u -> v <> 0 ->
    exec (SDo b e) u r w -> exec (SDo b e) s r w
| XDoBreak : forall e b s t, exec b s Broke t -> exec (SDo b e) s Normal t
| XDoReturn : forall e b s t, exec b s Returned t -> exec (SDo b e) s Returned t
| XFor : forall i c n b s v t r u, optional i s v t -> exec_for c n b t r u -> exec (SFor i c n b) s r u
| XSwitch : forall e c s v t r u, outcome s e v t -> exec_clauses (selected v c) t r u ->
    exec (SSwitch e c) s (match r with Broke => Normal | r => r end) u
| XBreak : forall s, exec SBreak s Broke s
| XContinue : forall s, exec SContinue s Continued s
| XReturn : forall e s v t, optional e s v t -> exec (SReturn e) s Returned t
(** The loop of a [for] after its first part. *)
with exec_for : option expr -> option expr -> stmt -> state -> ending -> state -> Prop :=
| XForEnd : forall c n b s t, optional c s 0 t -> exec_for c n b s Normal t
| XForGo : forall c n b s v t q u x w r y, optional c s v t -> v <> 0 -> exec b t q u -> q = Normal \/ q = Continued ->
    optional n u x w -> exec_for c n b w r y -> exec_for c n b s r y
| XForBreak : forall c n b s v t u, optional c s v t -> v <> 0 -> exec b t Broke u -> exec_for c n b s Normal u
| XForReturn : forall c n b s v t u, optional c s v t -> v <> 0 -> exec b t Returned u -> exec_for c n b s Returned u
with exec_clauses : clauses -> state -> ending -> state -> Prop :=
| XNil : forall s, exec_clauses CNil s Normal s
| XCons : forall k a c s t r u, exec a s Normal t -> exec_clauses c t r u -> exec_clauses (CCons k a c) s r u
| XConsJump : forall k a c s r t, exec a s r t -> r <> Normal -> exec_clauses (CCons k a c) s r t.

(** The state in which the condition of [while (e) b] is evaluated after some rounds. *)
Inductive rounds (e : expr) (b : stmt) : state -> state -> Prop :=
| RStart : forall s, rounds e b s s
| RRound : forall s v t q u w, outcome s e v t -> v <> 0 -> exec b t q u -> q = Normal \/ q = Continued ->
    rounds e b u w -> rounds e b s w.
End Exec.

Scheme exec_mind := Minimality for exec Sort Prop
  with exec_for_mind := Minimality for exec_for Sort Prop
  with exec_clauses_mind := Minimality for exec_clauses Sort Prop.
Combined Scheme exec_all_ind from exec_mind, exec_for_mind, exec_clauses_mind.

(** ** Classes of statements *)
(** May be left by [return]; by [break] (of this loop) or [return]. *)
Fixpoint may_return (s : stmt) : bool :=
  match s with
  | SEmpty | SExpr _ | SContinue | SBreak => false
  | SReturn _ => true
  | SSeq a b | SIfElse _ a b => may_return a || may_return b
  | SIf _ a => may_return a
  | SWhile _ b | SDo b _ | SFor _ _ _ b => may_return b
  | SSwitch _ c => may_return_in c
  end
with may_return_in (c : clauses) : bool :=
  match c with CNil => false | CCons _ s r => may_return s || may_return_in r end.
Fixpoint may_leave (s : stmt) : bool :=
  match s with
  | SEmpty | SExpr _ | SContinue => false
  | SBreak | SReturn _ => true
  | SSeq a b | SIfElse _ a b => may_leave a || may_leave b
  | SIf _ a => may_leave a
  | SWhile _ b | SDo b _ | SFor _ _ _ b => may_return b
  | SSwitch _ c => may_return_in c
  end.

(** A property of all the expressions in an expression; [a[i]] on the left side of an assignment counts
    as the expression [a[i]]. *)
Section Every.
Variable P : expr -> bool.
Fixpoint every (e : expr) : bool :=
  P e && match e with
  | Const _ | Var _ | Arr _ => true
  | Fetch _ e | Paren e | Un _ e => every e
  | Bin _ e1 e2 | And e1 e2 | Or e1 e2 | Comma e1 e2 => every e1 && every e2
  | Cond p t f => every p && every t && every f
  | Asg l e | AsgOp _ l e => everyL l && every e
  | Pre l | Post l => everyL l
  | Call _ args => everys args
  end
with everyL (l : lval) : bool :=
  match l with LV _ => true | LF a i => P (Fetch a i) && every i end
with everys (es : exprs) : bool := match es with ENil => true | ECons e r => every e && everys r end.

Definition everyO (e : option expr) : bool := match e with Some e => every e | None => true end.
(** ... of all expressions in a statement. *)
Fixpoint everyS (s : stmt) : bool :=
  match s with
  | SEmpty | SBreak | SContinue => true
  | SReturn e => everyO e
  | SExpr e => every e
  | SSeq a b => everyS a && everyS b
  | SIf e a | SWhile e a | SDo a e => every e && everyS a
  | SIfElse e a b => every e && everyS a && everyS b
  | SFor i t n b => everyO i && everyO t && everyO n && everyS b
  | SSwitch e c => every e && everyC c
  end
with everyC (c : clauses) : bool := match c with CNil => true | CCons _ s r => everyS s && everyC r end.
End Every.

(** An expression that stands for arrays is the name of one (in parentheses perhaps). *)
Fixpoint by_name (e : expr) : bool :=
  match e with
  | Arr _ => true
  | Paren e => by_name e
  | _ => match denotes e with [] => true | _ => false end
  end.
Fixpoint all_by_name (es : exprs) : bool := match es with ENil => true | ECons e r => by_name e && all_by_name r end.
(** Arrays are given to functions by their names. *)
Definition named (e : expr) : bool := match e with Call _ args => all_by_name args | _ => true end.
(** Subscripts are no commas and no conditionals. *)
Definition subscripted (e : expr) : bool := match e with Fetch _ i => simple_value i | _ => true end.

Section Classes.
Variable decl : fname -> fdecl.
(** Functions have no arrays in their globals lists. *)
Definition listed (e : expr) : bool :=
  match e with Call f _ => negb (existsb is_garr (globs (decl f))) | _ => true end.
(** What functions modify through their arguments is an array. *)
Definition pointed (e : expr) : bool :=
  match e with
  | Call f args => forallb (fun m => match m with
      | MDeref n => match nth_error (arrays args) n with Some (_ :: _) => true | _ => false end
      | _ => true end) (mods_list decl f)
  | _ => true
  end.
End Classes.

(** The switches of a statement. *)
Fixpoint no_switch (s : stmt) : bool :=
  match s with
  | SEmpty | SExpr _ | SBreak | SContinue | SReturn _ => true
  | SSeq a b | SIfElse _ a b => no_switch a && no_switch b
  | SIf _ a | SWhile _ a | SDo a _ | SFor _ _ _ a => no_switch a
  | SSwitch _ _ => false
  end.

(** The expressions of a statement (a missing one is none). *)
Definition optional_in (e : expr) (o : option expr) : Prop := o = Some e.
Fixpoint expr_in (e : expr) (s : stmt) : Prop :=
  match s with
  | SEmpty | SBreak | SContinue => False
  | SReturn o => optional_in e o
  | SExpr f => e = f
  | SSeq a b => expr_in e a \/ expr_in e b
  | SIf f a | SWhile f a | SDo a f => e = f \/ expr_in e a
  | SIfElse f a b => e = f \/ expr_in e a \/ expr_in e b
  | SFor i t n b => optional_in e i \/ optional_in e t \/ optional_in e n \/ expr_in e b
  | SSwitch f c => e = f \/ expr_in_clauses e c
  end
with expr_in_clauses (e : expr) (c : clauses) : Prop :=
  match c with CNil => False | CCons _ s r => expr_in e s \/ expr_in_clauses e r end.

(** The while loops of a statement, one within another first. *)
Fixpoint whiles (s : stmt) : list (expr * stmt) :=
  match s with
  | SEmpty | SExpr _ | SBreak | SContinue | SReturn _ => []
  | SSeq a b | SIfElse _ a b => whiles a ++ whiles b
  | SIf _ a | SDo a _ | SFor _ _ _ a => whiles a
  | SWhile e b => whiles b ++ [(e, b)]
  | SSwitch _ c => whiles_in c
  end
with whiles_in (c : clauses) : list (expr * stmt) :=
  match c with CNil => [] | CCons _ s r => whiles s ++ whiles_in r end.
