(** Statements without effect ([noeffect], [noeffectuncon], [retvalbool], [retvalint], [retvalother]) and
    loops whose condition nothing changes ([infloops], [infloopsuncon]).

    Sources: exprChecks.c 70-185 ([exprChecks_checkStatementEffect]); exprNode.c 6728-6843
    ([exprNode_concat]), 6845-6883 (expression statements), 6898-6910 ([exprNode_produceGuards]),
    6942-6959 (blocks), 7010-7202 ([exprNode_if], [exprNode_ifelse]), 7367-7407 ([exprNode_switch]),
    7424-7525 ([checkInfiniteLoop]), 7527-7650 ([exprNode_while]), 7658-7726 ([exprNode_doWhile]),
    7799-7893 ([exprNode_for]), 7925-7992 ([exprNode_whilePred], [exprNode_forPred]), 7994-8220 (jumps),
    10129-10163 ([exprNode_mergeUSs], [exprNode_mergeCondUSs]); sRefSet.c 571-583, 603-619.

    Expressions, their nodes and the declarations of functions are those of Order_model.v, with the same
    simplifications; so no reference is an internal state (7446, 7467), there is no break or exit inside
    of an expression, and every element that is not unconstrained is meaningful.  All flags named above
    are on, no messages are suppressed, and the statement is not inside of a statement expression.
    Blocks declare nothing; labels, [goto] and iterators are left out; a switch is a list of clauses, each
    with its marker. *)
From Verif Require Import Cbase Order_model.
From Coq Require Import List ZArith Bool.
Import ListNotations.
Open Scope Z_scope.

(** ** Statements *)
(** cgrammar.y 1702-1985, 2168-2200.  A clause of a switch: [Some z] is [case z:], [None] is [default:]. *)
Inductive stmt :=
| SEmpty
| SExpr (e : expr)
| SSeq (a b : stmt)
| SIf (e : expr) (a : stmt)
| SIfElse (e : expr) (a b : stmt)
| SWhile (e : expr) (b : stmt)
| SDo (b : stmt) (e : expr)
| SFor (i t n : option expr) (b : stmt)
| SSwitch (e : expr) (c : clauses)
| SBreak
| SContinue
| SReturn (e : option expr)
with clauses := CNil | CCons (k : option Z) (s : stmt) (r : clauses).

Scheme stmt_mind := Induction for stmt Sort Prop with clauses_mind := Induction for clauses Sort Prop.
Combined Scheme stmt_clauses_ind from stmt_mind, clauses_mind.

(** What a function returns, as far as [exprChecks_checkStatementEffect] asks. *)
Inductive rkind := RVoid | RUnknown | RBool | RInt | ROther.

Inductive emsg := ERetBool | ERetInt | ERetOther | ENoEffect | ENoEffectUncon.
Inductive lmsg := LInfinite | LUnconBody | LUnconTest.

(** sRefSet.c 571-583. *)
Definition hasReal (l : list sref) : bool := existsb (fun s => negb (isUncon s)) l.
Definition isNil {A} (l : list A) : bool := match l with [] => true | _ => false end.

Section Check.
Variable glob_var : var -> bool.
Variable glob_arr : arr -> bool.
Variable decl : fname -> fdecl.
Variable uncon : bool.
Variable rk : fname -> rkind.

Definition nd (e : expr) : node := nodeOf glob_var glob_arr decl uncon e.

(** exprChecks.c 87-121: the result of a call that is a statement. *)
Definition retMsg (e : expr) : list emsg :=
  match e with
  | Call f _ => match rk f with RVoid | RUnknown => [] | RBool => [ERetBool] | RInt => [ERetInt] | ROther => [ERetOther] end
  | _ => []
  end.
(** exprChecks.c 70-185: an expression statement. *)
Definition effect (e : expr) : list emsg :=
  match retMsg e with
  | [] =>
      if hasReal (sets (nd e)) then []
      else if isNil (sets (nd e)) then [ENoEffect]
      else if hasUncon (sets (nd e)) then [ENoEffectUncon]
      else []
  | m => m
  end.

(** exprNode.c 6898-6910, 7925-7942: what a condition uses, the storage its value is in included. *)
Definition predUses (e : expr) : list sref := use (uses (nd e)) (ref (nd e)).
Definition optSets (e : option expr) : list sref := match e with Some e => sets (nd e) | None => [] end.

(** What a statement modifies (the field [sets] of its node).  6728-6843: a list; 7010-7202: if;
    7527-7650: while (7605); 7658-7726: do; 7799-7893 and 7943-7992: for; 7367-7407: of a switch only
    what its value modifies; 7994-8220: jumps, and what the value returned modifies is left out. *)
Fixpoint setsOf (s : stmt) : list sref :=
  match s with
  | SEmpty | SBreak | SContinue | SReturn _ => []
  | SExpr e => sets (nd e)
  | SSeq a b => union (setsOf a) (setsOf b)
  | SIf e a => union (union (sets (nd e)) (setsOf a)) (setsOf a)
  | SIfElse e a b => union (union (sets (nd e)) (setsOf a)) (setsOf b)
  | SWhile e b => union (sets (nd e)) (setsOf b)
  | SDo b e => union (setsOf b) (sets (nd e))
  | SFor i t n b => union (union (union (optSets n) (optSets i)) (optSets t)) (setsOf b)
  | SSwitch e _ => sets (nd e)
  end.

(** exprNode.c 7424-7525: [while (e) b]. *)
Definition loopCheck (e : expr) (b : stmt) : list lmsg :=
  let tuses := predUses e in
  if isNil tuses then []
  else
    let all := union (setsOf b) (sets (nd e)) in
    if existsb (fun el => negb (isUncon el) && member all el) tuses then []
    else if negb (hasUncon tuses) && negb (hasUncon all) then [LInfinite]
    else if negb (hasUncon tuses) then [LUnconBody]
    else [LUnconTest].

(** exprNode.c 7577-7598: in all loops of a statement.  A loop inside of another comes first. *)
Fixpoint loopChecks (s : stmt) : list lmsg :=
  match s with
  | SEmpty | SExpr _ | SBreak | SContinue | SReturn _ => []
  | SSeq a b => loopChecks a ++ loopChecks b
  | SIf _ a => loopChecks a
  | SIfElse _ a b => loopChecks a ++ loopChecks b
  | SWhile e b => loopChecks b ++ loopCheck e b
  | SDo b _ => loopChecks b
  | SFor _ _ _ b => loopChecks b
  | SSwitch _ c => clauseChecks c
  end
with clauseChecks (c : clauses) : list lmsg :=
  match c with CNil => [] | CCons _ s r => loopChecks s ++ clauseChecks r end.
End Check.
