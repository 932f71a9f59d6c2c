(** Model of the checking of the labels of a switch: src/exprNode.c [exprNode_isDefaultMarker],
    [exprNode_isCaseMarker], [exprNode_isLabelMarker] 6582–6610, [exprNode_caseMarker] 6612–6636,
    [exprNode_defaultMarker] 6672–6681, [checkSwitchExpr] 7208–7363, [exprNode_switch] 7367–7420,
    [exprNode_getUentry] 3938–3951, [exprNode_rootVarName] 9426–9504, [exprNode_flatten] 10043–10066,
    [exprNode_firstStatement] 10097–10127; src/enumNameList.c [enumNameList_addh], [enumNameList_member],
    [enumNameList_subtract], [enumNameList_unparse] 93–170; grammar src/cgrammar.y 1106–1144, 1551–1571,
    1824–1853, 1889–1920, 1983–1984.

    Simplified: the exit codes computed by [checkSwitchExpr] are in Flow_model; of a case expression
    names, parentheses, integer constants, casts and sums are kept; statements are splint's parse trees
    without syntax errors, in which a marker is a statement of its own; statements with statements
    inside (if, loops) are kept as one statement with a body; messages are kept without places. *)
From Verif Require Import Cbase.

(** Constant expressions of case labels: exprNode kinds XPR_CONST/XPR_VAR (a name), XPR_PARENS,
    XPR_NUMLIT, XPR_CAST, XPR_OP. *)
Inductive cexpr :=
  | CName (n : cstr) | CParen (e : cexpr) | CNum (z : Z) | CCast (e : cexpr) | CAdd (a b : cexpr).

(** Statements: a case or default marker ([ft]: after [/*@fallthrough@*/], XPR_FTCASE and
    XPR_FTDEFAULT), a label for goto (XPR_LABEL), a declaration of variables with or without initial
    value (XPR_INIT, cgrammar.y 1127–1143), any other declaration (no expression at all, cgrammar.y
    1109, 1113–1114), an expression, jump or empty statement, the token which stands for what is
    between braces when nothing is (cgrammar.y 1895), a statement with a statement inside, an inner
    switch, a pair of statements (XPR_STMTLIST), a block (XPR_BLOCK). *)
Inductive st :=
  | SCase (ft : bool) (e : cexpr) | SDefault (ft : bool) | SLabel | SInit (initialized : bool) | SNothing
  | SSimple | SBrace | SNest (s : st) | SSwitch (e : cexpr) (s : st) | SSeq (a b : st) | SBlock (s : st).

(** exprNode.c 10043–10066. *)
Fixpoint flatten (s : st) : list st :=
  match s with
  | SNothing => []
  | SSeq a b => flatten a ++ flatten b
  | SBlock a => flatten a
  | _ => [s]
  end.
(** exprNode_isDefined. *)
Definition isDefined (s : st) : bool := match s with SNothing => false | _ => true end.
(** exprNode.c 10097–10127. *)
Fixpoint firstStatement (s : st) : st :=
  match s with
  | SSeq a b => if isDefined a then firstStatement a else firstStatement b
  | SBlock a => firstStatement a
  | _ => s
  end.
(** exprNode.c 6582–6610. *)
Definition isMarker (s : st) : bool :=
  match s with SCase _ _ | SDefault _ | SLabel => true | _ => false end.

(** exprNode.c 9426–9504. *)
Fixpoint rootVarName (e : cexpr) : option cstr :=
  match e with
  | CParen a => rootVarName a
  | CName n => Some n
  | CNum _ | CCast _ | CAdd _ _ => None
  end.

(** enumNameList.c 123–131. *)
Definition mem (n : cstr) (l : list cstr) : bool := existsb (cstr_eqb n) l.
(** enumNameList.c 133–147. *)
Definition subtract (source del : list cstr) : list cstr := filter (fun n => negb (mem n del)) source.
(** enumNameList.c 149–170. *)
Fixpoint unparseFrom (st : cstr) (l : list cstr) : cstr :=
  match l with
  | [] => st
  | n :: r => unparseFrom (st ++ lit ", " ++ n) r
  end.
(** enumNameList.c 149–170. *)
Definition unparse (l : list cstr) : cstr := match l with [] => [] | n :: r => unparseFrom n r end.

(** The messages: exprNode.c 7251–7254, 7280–7283, 7296–7299, 7340–7345, 7388–7391; the last two with
    their text where it depends on the members of the type. *)
Inductive msg :=
  | DuplicateDefault | DuplicateCase (n : cstr) | NotMember (n : cstr) | MissingCase (text : cstr)
  | NotACase.

(** What [checkSwitchExpr] keeps: hasDefault, usedEnums, the messages. *)
Record acc := mkAcc { hasDefault : bool; used : list cstr; said : list msg }.

Section Switch.
(** usymtab_lookupSafe (usymtab.c 5038–5043) finds an entry for the name. *)
Variable known : cstr -> bool.

(** exprNode.c 3938–3951 with 7269–7273: the name under which a case label is looked at. *)
Definition labelName (e : cexpr) : option cstr :=
  match rootVarName e with
  | Some n => if known n then Some n else None
  | None => None
  end.

(** exprNode.c 7265–7302: a case label; [enums]: the members of the type of the test, if that is an
    enumerated type. *)
Definition checkCase (enums : option (list cstr)) (e : cexpr) (a : acc) : acc :=
  match enums with
  | None => a
  | Some ms =>
      match labelName e with
      | None => a
      | Some n =>
          if mem n ms then
            if mem n (used a) then mkAcc (hasDefault a) (used a) (said a ++ [DuplicateCase n])
            else mkAcc (hasDefault a) (used a ++ [n]) (said a)
          else mkAcc (hasDefault a) (used a) (said a ++ [NotMember n])
      end
  end.
(** exprNode.c 7240–7325. *)
Definition checkElement (enums : option (list cstr)) (a : acc) (s : st) : acc :=
  match s with
  | SDefault _ => mkAcc true (used a) (if hasDefault a then said a ++ [DuplicateDefault] else said a)
  | SCase _ e => checkCase enums e a
  | _ => a
  end.
(** exprNode.c 7209–7334, without the exit codes. *)
Definition checkElements (enums : option (list cstr)) (s : st) : acc :=
  fold_left (checkElement enums) (flatten s) (mkAcc false [] []).

(** exprNode.c 7340–7345. *)
Definition missingText (unused : list cstr) : cstr :=
  lit "Missing case" ++ (if (1 <? List.length unused)%nat then lit "s" else []) ++ lit " in switch: " ++ unparse unused.
(** exprNode.c 7333–7336. *)
Definition incomplete (ms : list cstr) (a : acc) : bool :=
  negb (hasDefault a) && negb (List.length (used a) =? List.length ms)%nat.
(** exprNode.c 7331–7363: the messages of [checkSwitchExpr] and [*allpaths]. *)
Definition checkSwitchExpr (enums : option (list cstr)) (s : st) : list msg * bool :=
  let a := checkElements enums s in
  match enums with
  | Some ms =>
      if incomplete ms a then (said a ++ [MissingCase (missingText (subtract ms (used a)))], false)
      else (said a, true)
  | None => (said a, hasDefault a)
  end.
(** exprNode.c 7377–7393. *)
Definition checkFirst (s : st) : list msg :=
  let fs := firstStatement s in
  if isDefined s then if negb (isDefined fs) || isMarker fs then [] else [NotACase] else [].
(** exprNode.c 7367–7420: the messages and whether all paths are taken to go through a case. *)
Definition checkSwitch (enums : option (list cstr)) (s : st) : list msg * bool :=
  let '(m, all) := checkSwitchExpr enums s in (checkFirst s ++ m, all).
End Switch.
