(** Model of how splint follows the flow of control through statements: src/varKinds.c
    [exitkind_makeConditional] 480–492, [exitkind_combine] 494–578, [exitkind_couldExit] 580–594,
    src/Headers/varKinds.h 248–253; src/exprNode.c [exprNode_combineControl] 253–266,
    [exprNode_functionCall] 3871–3895 (exit codes), [exprNode_addParens] 4168–4187, [exprNode_cond]
    6481–6486, [exprNode_labelMarker], [exprNode_notReached] 6559–6581, markers 6612–6636, 6672–6681,
    [exprNode_mustEscape] 6706–6715, [exprNode_concat] 6728–6843, [exprNode_statement] 6853–6883,
    [exprNode_makeBlock] 6942–6959, [exprNode_if] 7010–7087, [exprNode_ifelse] 7089–7202,
    [checkSwitchExpr] 7208–7363, [exprNode_switch] 7367–7407, [exprNode_while] 7527–7650,
    [exprNode_doWhile] 7658–7728, [exprNode_for] 7799–7893, jumps 7994–8220, [exprNode_comma]
    8222–8300, [exprNode_flatten], [exprNode_lastStatement] 10043–10094; src/exprChecks.c
    [exprNode_checkFunctionBody] 897–938; grammar src/cgrammar.y 1702–1985, 2168–2176.

    Simplified: expressions are kept only as far as their exit codes go; statements are splint's
    parse trees without syntax errors, in which a label or case marker is a statement of its own
    (cgrammar.y 1824–1853), so a labelled statement is taken to stand in a statement list; iterator
    statements and [/*@drevealstate@*/] are left out; of the conditions only a known value of the
    test of a [while] and the presence of a test in a [for] are kept. *)
From Verif Require Import Cbase.

(** Headers/varKinds.h 202–216. *)
Inductive exitkind := XK_ERROR | XK_UNKNOWN | XK_NEVERESCAPE | XK_GOTO | XK_MAYGOTO | XK_MAYEXIT | XK_MUSTEXIT
  | XK_TRUEEXIT | XK_FALSEEXIT | XK_MUSTRETURN | XK_MAYRETURN | XK_MAYRETURNEXIT | XK_MUSTRETURNEXIT.
Definition exitkind_eq_dec (a b : exitkind) : {a = b} + {a <> b}.
Proof. decide equality. Defined.

(** varKinds.c 480–492. *)
Definition makeConditional (k : exitkind) : exitkind :=
  match k with
  | XK_TRUEEXIT | XK_FALSEEXIT | XK_MUSTEXIT => XK_MAYEXIT
  | XK_MUSTRETURN => XK_MAYRETURN
  | XK_MUSTRETURNEXIT => XK_MAYRETURNEXIT
  | XK_GOTO => XK_MAYGOTO
  | _ => k
  end.
(** varKinds.c 580–594. *)
Definition couldExit (k : exitkind) : bool :=
  match k with
  | XK_MAYEXIT | XK_MUSTEXIT | XK_TRUEEXIT | XK_FALSEEXIT | XK_MAYRETURNEXIT | XK_MUSTRETURNEXIT | XK_GOTO | XK_MAYGOTO => true
  | _ => false
  end.
(** varKinds.c 494–578. *)
Definition combine (k1 k2 : exitkind) : exitkind :=
  if exitkind_eq_dec k1 k2 then k1
  else if exitkind_eq_dec k2 XK_ERROR then XK_ERROR
  else match k1 with
  | XK_ERROR => XK_ERROR
  | XK_UNKNOWN | XK_NEVERESCAPE => makeConditional k2
  | XK_MUSTEXIT =>
      match k2 with
      | XK_MUSTRETURNEXIT | XK_MUSTRETURN => XK_MUSTRETURNEXIT
      | XK_MAYRETURNEXIT | XK_MAYRETURN => XK_MAYRETURNEXIT
      | _ => XK_MAYEXIT
      end
  | XK_MAYEXIT | XK_TRUEEXIT | XK_FALSEEXIT =>
      match k2 with
      | XK_MUSTRETURNEXIT | XK_MAYRETURNEXIT | XK_MAYRETURN | XK_MUSTRETURN => XK_MAYRETURNEXIT
      | _ => XK_MAYEXIT
      end
  | XK_MUSTRETURN =>
      match k2 with
      | XK_MUSTRETURNEXIT | XK_MUSTEXIT => XK_MUSTRETURNEXIT
      | XK_MAYRETURNEXIT | XK_TRUEEXIT | XK_FALSEEXIT | XK_MAYEXIT => XK_MAYRETURNEXIT
      | _ => XK_MAYRETURN
      end
  | XK_MAYRETURN => if couldExit k2 then XK_MAYRETURNEXIT else XK_MAYRETURN
  | XK_MUSTRETURNEXIT =>
      match k2 with
      | XK_MUSTRETURN | XK_MUSTEXIT => XK_MUSTRETURNEXIT
      | _ => XK_MAYRETURNEXIT
      end
  | XK_MAYRETURNEXIT => XK_MAYRETURNEXIT
  | XK_GOTO | XK_MAYGOTO => if couldExit k2 then XK_MAYRETURNEXIT else XK_MAYGOTO
  end.
(** Headers/varKinds.h 251–253. *)
Definition kmust (k : exitkind) : bool :=
  match k with XK_MUSTEXIT | XK_MUSTRETURN | XK_MUSTRETURNEXIT | XK_GOTO => true | _ => false end.

(** Expressions: a call of a function declared with the exit code [k], parentheses, comma,
    conditional, anything else. *)
Inductive expr := EOther | ECall (k : exitkind) | EParen (e : expr) | EComma (a b : expr) | ECond (a b : expr).

(** Statements; a test with a known value is [Some]; [For true]: there is a test; the values of
    cases are numbers; [Switch e (Some l)]: [e] is of an enumeration with the members [l]. *)
Inductive mark := ML (l : nat) | MC (c : nat) | MD.
Inductive stmt :=
| Semi | Brace | Expr (e : expr) | Ret | Brk | Cont | Gto (l : nat)
| Marker (m : mark) (fallthrough : bool)
| Seq (a b : stmt) | Block (a : stmt) | NotReached (a : stmt)
| If (a : stmt) | IfElse (a b : stmt)
| While (v : option Z) (a : stmt) | DoWhile (a : stmt) | For (test : bool) (a : stmt)
| Switch (e : expr) (enum : option (list nat)) (a : stmt).

(** The fields of an expression node which concern control (exprNode.h). *)
Record node := Node { xk : exitkind; mustB : bool; canB : bool; jump : bool }.
Definition plain : node := Node XK_NEVERESCAPE false false false. (* createPlain 430–460, createPartialCopy 528–575 *)
(** exprNode.c 6706–6715. *)
Definition mustEscape (n : node) : bool := kmust (xk n) || mustB n.
(** exprNode.c 253–266. *)
Definition combineControl (t e : node) : node :=
  Node (combine (xk t) (xk e)) ((mustB t || mustEscape t) && (mustB e || mustEscape e)) (canB t || canB e) false.

Fixpoint enode (e : expr) : node :=
  match e with
  | EOther => plain
  | ECall k => (* 3871–3895 *)
      Node (match k with XK_TRUEEXIT | XK_FALSEEXIT => XK_MAYEXIT
            | _ => if exitkind_eq_dec k XK_MUSTEXIT then XK_MUSTEXIT else if couldExit k then XK_MAYEXIT else XK_NEVERESCAPE end)
           false false false
  | EParen e => enode e (* 4168–4187 *)
  | EComma a b => (* 8257–8274 *)
      let a := enode a in let b := enode b in Node (combine (xk a) (xk b)) (mustB a || mustB b) (canB a || canB b) false
  | ECond a b => combineControl (enode a) (enode b) (* 6481–6486 *)
  end.

(** A statement under [/*@notreached@*/] is the same node, with other fields. *)
Fixpoint core (s : stmt) : stmt := match s with NotReached s => core s | _ => s end.
Definition is_marker (s : stmt) : option mark := match core s with Marker m _ => Some m | _ => None end.
(** 10043–10065. *)
Fixpoint flatten (s : stmt) : list stmt :=
  match s with
  | Seq a b => flatten a ++ flatten b
  | Block a => flatten a
  | NotReached a => match core a with Seq _ _ | Block _ => flatten a | _ => [s] end
  | _ => [s]
  end.
(** 10067–10094. *)
Fixpoint lastStatement (s : stmt) : stmt :=
  match s with
  | Seq a b => lastStatement b
  | Block a => lastStatement a
  | NotReached a => match core a with Seq _ _ | Block _ => lastStatement a | _ => s end
  | _ => s
  end.

(** 7208–7336: the state of the loop over the statements of a switch. *)
Record sw := Sw { mustReturn : bool; thisReturn : bool; hasDefault : bool; inSwitch : bool; breaks : bool; fallThrough : bool; used : list nat }.
Definition sw0 : sw := Sw true false false false false false [].
Definition sw_step (enum : option (list nat)) (w : sw) (s : stmt) (n : node) : sw :=
  match is_marker s with
  | Some (ML _) | None =>
      let brk := breaks w || canB n in
      Sw (mustReturn w) (thisReturn w || mustEscape n) (hasDefault w) (inSwitch w) brk (if brk then false else fallThrough w) (used w)
  | Some m =>
      let hd := match m with MD => true | _ => hasDefault w end in
      let us := match m, enum with
                | MC c, Some l => if existsb (Nat.eqb c) l && negb (existsb (Nat.eqb c) (used w)) then c :: used w else used w
                | _, _ => used w
                end in
      let mr := if inSwitch w && negb (fallThrough w) && (negb (thisReturn w) || breaks w) then false else mustReturn w in
      Sw mr false hd true false true us
  end.
Definition sw_end (w : sw) : bool := if inSwitch w && (negb (thisReturn w) || breaks w) then false else mustReturn w.
(** 7338–7363. *)
Definition sw_all (enum : option (list nat)) (w : sw) : bool :=
  match enum with
  | Some l => hasDefault w || (List.length (used w) =? List.length l)%nat
  | None => hasDefault w
  end.

Section Analysis.
(** Whether the flag [unreachable] is on, and whether the message about the second statement is
    really given (not suppressed at its place). *)
Variable unreach : bool.
Variable shown : stmt -> bool.

(** 6728–6843; [is_semi]: [nr] 6771–6776. *)
Definition is_semi (s : stmt) : bool := match s with Semi => true | _ => false end.
Definition concat (n1 n2 : node) (s2 : stmt) : node :=
  let r := Node (xk n2) (mustB n2) (canB n1 || canB n2) (jump n1) in
  if mustEscape n1 && negb (jump n2) && unreach then
    if is_semi s2 then Node XK_MUSTEXIT (mustB r) true (jump r)
    else if shown s2 then Node XK_ERROR false (canB r) true
    else Node XK_MUSTEXIT (mustB r) true (jump r)
  else r.

Fixpoint analyse (s : stmt) : node :=
  match s with
  | Semi | Brace => plain (* createTok 6845–6851 *)
  | Expr e => let n := enode e in Node (xk n) (mustB n) (canB n) false (* 6863–6883 *)
  | Ret => Node XK_MUSTRETURN false false false (* 8184–8220 *)
  | Brk | Cont => Node XK_NEVERESCAPE true true false (* 8015–8066 *)
  | Gto _ => Node XK_GOTO true true false (* 7994–8013 *)
  | Marker _ _ => Node XK_NEVERESCAPE false false true (* 6559–6567, 6612–6636, 6672–6681 *)
  | Seq a b => concat (analyse a) (analyse b) b
  | Block a => let n := analyse a in Node (xk n) (mustB n) (canB n) false (* 6942–6959 *)
  | NotReached a => let n := analyse a in Node XK_MUSTEXIT (mustB n) (canB n) true (* 6569–6581 *)
  | If a => let n := analyse a in Node (makeConditional (xk n)) false (canB n) false (* 7073–7086 *)
  | IfElse a b => combineControl (analyse a) (analyse b) (* 7195–7199 *)
  | While v a => (* 7620–7647 *)
      let n := analyse a in
      Node (match v with Some z => if negb (z =? 0) && negb (canB n) then XK_MUSTEXIT else XK_NEVERESCAPE | None => XK_NEVERESCAPE end)
           false false false
  | DoWhile a => let n := analyse a in Node (makeConditional (xk n)) false (canB n) false (* 7708–7718 *)
  | For test a => (* 7848–7890 *)
      let n := analyse a in
      Node (if negb test && negb (canB n) then XK_MUSTEXIT else makeConditional (xk n)) false false false
  | Switch e enum a => (* 7367–7407 *)
      let w := (fix loop (s : stmt) (w : sw) : sw :=
                  match s with
                  | Seq a b => loop b (loop a w)
                  | Block a => loop a w
                  | NotReached a => match core a with Seq _ _ | Block _ => loop a w
                                    | _ => sw_step enum w s (let n := analyse a in Node XK_MUSTEXIT (mustB n) (canB n) true) end
                  | s => sw_step enum w s (analyse s)
                  end) a sw0 in
      let n := enode e in
      Node (if sw_all enum w && sw_end w then XK_MUSTRETURN else xk n) (mustB n) (canB n) false
  end.

(** exprChecks.c 897–938: the message "Path with no return", in a function with a result. *)
Definition noret (body : stmt) : bool :=
  let n := analyse body in
  negb (mustEscape n) && negb (match xk n with XK_ERROR => true | _ => false end).

(** 6763–6800: the statements complained of as unreachable, each with the statement before it. *)
Definition unreached (a b : stmt) : bool := mustEscape (analyse a) && negb (jump (analyse b)) && unreach && negb (is_semi b).
(** The statements named in messages about unreachable code, in the order of the messages. *)
Fixpoint messages (s : stmt) : list stmt :=
  match s with
  | Seq a b => messages a ++ messages b ++ (if unreached a b && shown b then [b] else [])
  | IfElse a b => messages a ++ messages b
  | Block a | NotReached a | If a | While _ a | DoWhile a | For _ a | Switch _ _ a => messages a
  | _ => []
  end.
(** 6807–6830: a complaint of falling through, at a case marker [b] after [a]. *)
Definition falls (a b : stmt) : bool :=
  match core b with
  | Marker (MC _) false | Marker MD false =>
      let l := lastStatement a in
      negb (mustEscape (analyse l)) && match is_marker l with Some _ => false | None => true end
  | _ => false
  end.
End Analysis.
