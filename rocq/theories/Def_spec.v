(** What programs do with uninitialised variables, without reference to splint.  A store says which
    variables have a value. *)
From Verif Require Import Cbase Def_model.

Definition store := nat -> option Z.
Definition set (r : store) (x : nat) (v : Z) : store := fun y => if Nat.eqb x y then Some v else r y.
Definition bz (b : bool) : Z := if b then 1 else 0.
Definition opval (o : op) (v w : Z) : Z :=
  match o with
  | OAdd => v + w | OLt => bz (v <? w) | OGt => bz (v >? w) | OLe => bz (v <=? w) | OGe => bz (v >=? w)
  | OEq => bz (v =? w) | ONe => bz (negb (v =? w))
  end.

(** Evaluating an expression: a value, the end of the program, or the use of a variable without
    value. *)
Inductive res := RVal (v : Z) | RStop | RFault (x : nat).
Definition stops (v : res) : Prop := match v with RVal _ => False | _ => True end.
Definition rmap (f : Z -> Z) (v : res) : res := match v with RVal z => RVal (f z) | _ => v end.
Definition truth (z : Z) : Z := bz (negb (z =? 0)).
(** The operands of an operator are evaluated in either order. *)
Inductive eval : store -> expr -> res -> store -> Prop :=
| V_num r v : eval r (ENum v) (RVal v) r
| V_var r x v : r x = Some v -> eval r (EVar x) (RVal v) r
| V_fault r x : r x = None -> eval r (EVar x) (RFault x) r
| V_call r v : eval r ECall (RVal v) r
| V_call_stop r : eval r ECall RStop r
| V_exit r : eval r EExit RStop r
| V_op r o a b z r1 v r2 : eval r a (RVal z) r1 -> eval r1 b v r2 -> eval r (EOp o a b) (rmap (opval o z) v) r2
| V_op_out r o a b v r1 : eval r a v r1 -> stops v -> eval r (EOp o a b) v r1
| V_rop r o a b z r1 v r2 : eval r b (RVal z) r1 -> eval r1 a v r2 -> eval r (EOp o a b) (rmap (fun y => opval o y z) v) r2
| V_rop_out r o a b v r1 : eval r b v r1 -> stops v -> eval r (EOp o a b) v r1
| V_not r a v r1 : eval r a v r1 -> eval r (ENot a) (rmap (fun z => bz (z =? 0)) v) r1
| V_and_out r a b v r1 : eval r a v r1 -> stops v -> eval r (EAnd a b) v r1
| V_and_false r a b r1 : eval r a (RVal 0) r1 -> eval r (EAnd a b) (RVal 0) r1
| V_and r a b z r1 v r2 : eval r a (RVal z) r1 -> z <> 0 -> eval r1 b v r2 -> eval r (EAnd a b) (rmap truth v) r2
| V_or_out r a b v r1 : eval r a v r1 -> stops v -> eval r (EOr a b) v r1
| V_or_true r a b z r1 : eval r a (RVal z) r1 -> z <> 0 -> eval r (EOr a b) (RVal 1) r1
| V_or r a b r1 v r2 : eval r a (RVal 0) r1 -> eval r1 b v r2 -> eval r (EOr a b) (rmap truth v) r2
| V_cond_out r c a b v r1 : eval r c v r1 -> stops v -> eval r (ECond c a b) v r1
| V_cond_true r c a b z r1 v r2 : eval r c (RVal z) r1 -> z <> 0 -> eval r1 a v r2 -> eval r (ECond c a b) v r2
| V_cond_false r c a b r1 v r2 : eval r c (RVal 0) r1 -> eval r1 b v r2 -> eval r (ECond c a b) v r2
| V_comma_out r a b v r1 : eval r a v r1 -> stops v -> eval r (EComma a b) v r1
| V_comma r a b z r1 v r2 : eval r a (RVal z) r1 -> eval r1 b v r2 -> eval r (EComma a b) v r2
| V_set_out r x e v r1 : eval r e v r1 -> stops v -> eval r (ESet x e) v r1
| V_set r x e z r1 : eval r e (RVal z) r1 -> eval r (ESet x e) (RVal z) (set r1 x z).

Inductive out := ONormal | OBreak | OCont | OStop | OFault (x : nat).
Definition eout (v : res) : out := match v with RVal _ => ONormal | RStop => OStop | RFault x => OFault x end.
Definition leaves (o o' : out) : Prop :=
  match o with OBreak => o' = ONormal | OStop | OFault _ => o' = o | _ => False end.
Definition rounds (o : out) : Prop := o = ONormal \/ o = OCont.
Definition ends (o o' : out) : Prop := match o with OBreak => o' = ONormal | _ => o' = o end.
(** The test of a loop is true, or there is none. *)
Definition goes (r : store) (test : option expr) (r1 : store) : Prop :=
  match test with Some e => exists z, z <> 0 /\ eval r e (RVal z) r1 | None => r1 = r end.
Definition steps (r : store) (inc : option expr) (r1 : store) : Prop :=
  match inc with Some e => exists z, eval r e (RVal z) r1 | None => r1 = r end.
(** The cases which are run for a value: from its label on, or from the default. *)
Fixpoint at_label (z : Z) (cs : cases) : cases :=
  match cs with
  | CCase (Some n) s cs' => if z =? Z.of_nat n then cs else at_label z cs'
  | CCase None _ cs' => at_label z cs'
  | CNil => CNil
  end.
Fixpoint at_default (cs : cases) : cases :=
  match cs with CCase (Some n) _ cs' => at_default cs' | _ => cs end.
Definition select (z : Z) (cs : cases) : cases :=
  match at_label z cs with CNil => at_default cs | cs' => cs' end.
Fixpoint seq_of (cs : cases) : stmt := match cs with CNil => SSkip | CCase _ s cs => SSeq s (seq_of cs) end.

Inductive exec : store -> stmt -> out -> store -> Prop :=
| X_skip r : exec r SSkip ONormal r
| X_expr r e v r1 : eval r e v r1 -> exec r (SExpr e) (eout v) r1
| X_seq r a b r1 o r2 : exec r a ONormal r1 -> exec r1 b o r2 -> exec r (SSeq a b) o r2
| X_seq_out r a b o r1 : exec r a o r1 -> o <> ONormal -> exec r (SSeq a b) o r1
| X_block r a o r1 : exec r a o r1 -> exec r (SBlock a) o r1
| X_if_out r e a v r1 : eval r e v r1 -> stops v -> exec r (SIf e a) (eout v) r1
| X_if_false r e a r1 : eval r e (RVal 0) r1 -> exec r (SIf e a) ONormal r1
| X_if r e a z r1 o r2 : eval r e (RVal z) r1 -> z <> 0 -> exec r1 a o r2 -> exec r (SIf e a) o r2
| X_else_out r e a b v r1 : eval r e v r1 -> stops v -> exec r (SIfElse e a b) (eout v) r1
| X_else_true r e a b z r1 o r2 : eval r e (RVal z) r1 -> z <> 0 -> exec r1 a o r2 -> exec r (SIfElse e a b) o r2
| X_else_false r e a b r1 o r2 : eval r e (RVal 0) r1 -> exec r1 b o r2 -> exec r (SIfElse e a b) o r2
| X_while_out r e a v r1 : eval r e v r1 -> stops v -> exec r (SWhile e a) (eout v) r1
| X_while_end r e a r1 : eval r e (RVal 0) r1 -> exec r (SWhile e a) ONormal r1
| X_while r e a z r1 o o' r2 : eval r e (RVal z) r1 -> z <> 0 -> exec r1 a o r2 -> leaves o o' -> exec r (SWhile e a) o' r2
| X_while_round r e a z r1 o r2 o' r3 : eval r e (RVal z) r1 -> z <> 0 -> exec r1 a o r2 -> rounds o ->
    exec r2 (SWhile e a) o' r3 -> exec r (SWhile e a) o' r3
| X_do r e a o o' r1 : exec r a o r1 -> leaves o o' -> exec r (SDo a e) o' r1
| X_do_out r e a o r1 v r2 : exec r a o r1 -> rounds o -> eval r1 e v r2 -> stops v -> exec r (SDo a e) (eout v) r2
| X_do_end r e a o r1 r2 : exec r a o r1 -> rounds o -> eval r1 e (RVal 0) r2 -> exec r (SDo a e) ONormal r2
| X_do_round r e a o r1 z r2 o' r3 : exec r a o r1 -> rounds o -> eval r1 e (RVal z) r2 -> z <> 0 ->
    exec r2 (SDo a e) o' r3 -> exec r (SDo a e) o' r3
| X_for_init_out r e test inc a v r1 : eval r e v r1 -> stops v -> exec r (SFor (Some e) test inc a) (eout v) r1
| X_for_init r e test inc a z r1 o r2 : eval r e (RVal z) r1 -> exec r1 (SFor None test inc a) o r2 ->
    exec r (SFor (Some e) test inc a) o r2
| X_for_out r e inc a v r1 : eval r e v r1 -> stops v -> exec r (SFor None (Some e) inc a) (eout v) r1
| X_for_end r e inc a r1 : eval r e (RVal 0) r1 -> exec r (SFor None (Some e) inc a) ONormal r1
| X_for r test inc a r1 o o' r2 : goes r test r1 -> exec r1 a o r2 -> leaves o o' -> exec r (SFor None test inc a) o' r2
| X_for_inc_out r test e a r1 o r2 v r3 : goes r test r1 -> exec r1 a o r2 -> rounds o -> eval r2 e v r3 -> stops v ->
    exec r (SFor None test (Some e) a) (eout v) r3
| X_for_round r test inc a r1 o r2 r3 o' r4 : goes r test r1 -> exec r1 a o r2 -> rounds o -> steps r2 inc r3 ->
    exec r3 (SFor None test inc a) o' r4 -> exec r (SFor None test inc a) o' r4
| X_switch_out r e cs v r1 : eval r e v r1 -> stops v -> exec r (SSwitch e cs) (eout v) r1
| X_switch r e cs z r1 o o' r2 : eval r e (RVal z) r1 -> exec r1 (seq_of (select z cs)) o r2 -> ends o o' ->
    exec r (SSwitch e cs) o' r2
| X_ret r : exec r (SRet None) OStop r
| X_ret_out r e v r1 : eval r e v r1 -> stops v -> exec r (SRet (Some e)) (eout v) r1
| X_ret_val r e z r1 : eval r e (RVal z) r1 -> exec r (SRet (Some e)) OStop r1
| X_brk r : exec r SBrk OBreak r
| X_cont r : exec r SCont OCont r.

(** The store agrees with what is known to be initialised at first. *)
Definition agrees (init : nat -> bool) (r : store) : Prop := forall x, init x = true -> r x <> None.

(** ** Variables of programs *)
Fixpoint reads (e : expr) : list nat :=
  match e with
  | EVar x => [x]
  | EOp _ a b | EAnd a b | EOr a b | EComma a b => reads a ++ reads b
  | ENot a | ESet _ a => reads a
  | ECond c a b => reads c ++ reads a ++ reads b
  | _ => []
  end.
Fixpoint sets (e : expr) : list nat :=
  match e with
  | EOp _ a b | EAnd a b | EOr a b | EComma a b => sets a ++ sets b
  | ENot a => sets a
  | ECond c a b => sets c ++ sets a ++ sets b
  | ESet x a => x :: sets a
  | _ => []
  end.
Definition oreads (e : option expr) : list nat := match e with Some e => reads e | None => [] end.
Definition osets (e : option expr) : list nat := match e with Some e => sets e | None => [] end.
Fixpoint ssets (s : stmt) : list nat :=
  match s with
  | SExpr e => sets e
  | SSeq a b => ssets a ++ ssets b
  | SBlock a => ssets a
  | SIf e a | SWhile e a | SDo a e => sets e ++ ssets a
  | SIfElse e a b => sets e ++ ssets a ++ ssets b
  | SFor i t c a => osets i ++ osets t ++ osets c ++ ssets a
  | SSwitch e cs => sets e ++ csets cs
  | SRet e => osets e
  | _ => []
  end
with csets (cs : cases) : list nat := match cs with CNil => [] | CCase _ s cs => ssets s ++ csets cs end.
Fixpoint sreads (s : stmt) : list nat :=
  match s with
  | SExpr e => reads e
  | SSeq a b => sreads a ++ sreads b
  | SBlock a => sreads a
  | SIf e a | SWhile e a | SDo a e => reads e ++ sreads a
  | SIfElse e a b => reads e ++ sreads a ++ sreads b
  | SFor i t c a => oreads i ++ oreads t ++ oreads c ++ sreads a
  | SSwitch e cs => reads e ++ creads cs
  | SRet e => oreads e
  | _ => []
  end
with creads (cs : cases) : list nat := match cs with CNil => [] | CCase _ s cs => sreads s ++ creads cs end.
Definition mentions (s : stmt) (x : nat) : Prop := In x (sreads s) \/ In x (ssets s).
(** The expression is just the name of a variable, perhaps after commas. *)
Fixpoint bare (e : expr) : option nat :=
  match e with EVar x => Some x | EComma _ b => bare b | _ => None end.
Definition obare (e : option expr) : option nat := match e with Some e => bare e | None => None end.
(** The variable is surely read or assigned when the expression is evaluated. *)
Fixpoint visits (e : expr) (x : nat) : Prop :=
  match e with
  | EVar y => x = y
  | EOp _ a b | EComma a b => visits a x \/ visits b x
  | ENot a | EAnd a _ | EOr a _ | ECond a _ _ => visits a x
  | ESet y a => x = y \/ visits a x
  | _ => False
  end.
Definition ovisits (e : option expr) (x : nat) : Prop := match e with Some e => visits e x | None => False end.

(** Breaks and continues which leave the statement itself. *)
Fixpoint breaks (s : stmt) : Prop :=
  match s with
  | SBrk => True
  | SSeq a b | SIfElse _ a b => breaks a \/ breaks b
  | SBlock a | SIf _ a => breaks a
  | _ => False
  end.
Fixpoint continues (s : stmt) : Prop :=
  match s with
  | SCont => True
  | SSeq a b | SIfElse _ a b => continues a \/ continues b
  | SBlock a | SIf _ a => continues a
  | SSwitch _ cs => ccontinues cs
  | _ => False
  end
with ccontinues (cs : cases) : Prop := match cs with CNil => False | CCase _ s cs => continues s \/ ccontinues cs end.
(** The statement is never left at its end. *)
Definition ending (s : stmt) : Prop := forall r r', ~ exec r s ONormal r'.

(** ** Where splint's reasoning is sound *)
Section Sober.
(** The variables initialised at first. *)
Variable init : nat -> bool.

(** The operands of operators do not assign variables used in the other operand (which C forbids), a
    comma does not follow the mere name of a variable assigned after it, and the right operand of &&
    assigns no variable which may be uninitialised. *)
Fixpoint ordered (e : expr) : Prop :=
  match e with
  | EOp _ a b => ordered a /\ ordered b /\
      (forall x, In x (sets a) -> ~ In x (reads b) /\ ~ In x (sets b)) /\ (forall x, In x (sets b) -> ~ In x (reads a))
  | EComma a b => ordered a /\ ordered b /\ (forall x, bare a = Some x -> ~ In x (sets b))
  | EAnd a b => ordered a /\ ordered b /\ (forall x, In x (sets b) -> init x = true \/ visits a x)
  | EOr a b => ordered a /\ ordered b
  | ECond c a b => ordered c /\ ordered a /\ ordered b
  | ENot a | ESet _ a => ordered a
  | _ => True
  end.
Definition oordered (e : option expr) : Prop := match e with Some e => ordered e | None => True end.

(** The first test of a loop is true, if the loop has the form in which splint looks at it. *)
Definition begins (i t : option expr) : Prop :=
  forall x v o w, i = Some (ESet x (ENum v)) -> t = Some (EOp o (EVar x) (ENum w)) -> opval o v w <> 0.

(** Breaks stand only at the end of the case. *)
Fixpoint tail_break (s : stmt) : Prop :=
  match s with
  | SBrk => True
  | SSeq a b => ~ breaks a /\ tail_break b
  | SBlock a => tail_break a
  | s => ~ breaks s
  end.
(** Every case after which control may be after the switch mentions the variable. *)
Fixpoint covers (x : nat) (cs : cases) : Prop :=
  match cs with
  | CNil => True
  | CCase _ s CNil => tail_break s /\ (mentions s x \/ (~ breaks s /\ ending s))
  | CCase _ s cs => tail_break s /\ (mentions s x \/ ~ breaks s) /\ covers x cs
  end.

Fixpoint sober (s : stmt) : Prop :=
  match s with
  | SExpr e => ordered e
  | SSeq a b => sober a /\ sober b
  | SBlock a => sober a
  | SIf e a | SWhile e a => ordered e /\ sober a
  | SIfElse e a b => ordered e /\ sober a /\ sober b
  | SDo a e => ordered e /\ sober a /\ ~ breaks a /\ ~ continues a
  | SFor i t c a =>
      oordered i /\ oordered t /\ oordered c /\ sober a /\
      (* the test assigns nothing, and the increment only variables in use by then *)
      osets t = [] /\
      (forall x, In x (osets c) -> init x = true \/ ovisits i x \/ ovisits t x) /\
      (forall x, obare i = Some x \/ obare t = Some x -> ~ In x (osets c)) /\ obare c = None /\
      (continues a -> forall x, In x (oreads c) -> init x = true \/ ovisits i x \/ ovisits t x) /\
      (* a loop taken to be executed is, to the end of its body *)
      (loop_must_exec i t = true -> begins i t /\ ~ breaks a /\ ~ continues a)
  | SSwitch e cs =>
      ordered e /\ bare e = None /\ csober cs /\
      (forall x, In x (csets cs) -> init x = true \/ covers x cs)
  | SRet e => oordered e
  | _ => True
  end
with csober (cs : cases) : Prop := match cs with CNil => True | CCase _ s cs => sober s /\ csober cs end.
End Sober.

(** ** Bodies whose tests are arbitrary *)

(** Expressions without conditional evaluation. *)
Fixpoint linear (e : expr) : Prop :=
  match e with
  | EOp _ a b | EComma a b => linear a /\ linear b
  | ENot a | ESet _ a => linear a
  | EAnd _ _ | EOr _ _ | ECond _ _ _ | EExit => False
  | _ => True
  end.
(** The statement may be left at its end. *)
Fixpoint calm (s : stmt) : Prop :=
  match s with
  | SSeq a b => calm a /\ calm b
  | SBlock a | SDo a _ => calm a
  | SIfElse _ a b => calm a \/ calm b
  | SRet _ | SBrk | SCont => False
  | _ => True
  end.
(** The tests are calls, which may return anything; no statement follows one which is never left at its
    end; and if a branch with an else is never left at its end, it mentions what the else assigns. *)
Fixpoint open (s : stmt) : Prop :=
  match s with
  | SExpr e => linear e
  | SSeq a b => open a /\ open b /\ calm a
  | SBlock a => open a
  | SIf e a | SWhile e a => e = ECall /\ open a
  | SIfElse e a b => e = ECall /\ open a /\ open b /\ (calm a \/ forall x, In x (ssets b) -> mentions a x)
  | SDo a e => e = ECall /\ open a /\ calm a
  | SFor _ _ _ _ | SSwitch _ _ => False
  | SRet (Some e) => linear e
  | _ => True
  end.

(** Only one variable has no value. *)
Definition only (x : nat) (r : store) : Prop := r x = None /\ forall y, y <> x -> r y <> None.

(** ** Straight-line code: what is done with variables, in order *)
Inductive event := Rd (x : nat) | Wr (x : nat).
Fixpoint events (e : expr) : list event :=
  match e with
  | EVar x => [Rd x]
  | EOp _ a b | EComma a b => events a ++ events b
  | ENot a => events a
  | ESet x a => events a ++ [Wr x]
  | _ => []
  end.
Fixpoint straight (s : stmt) : Prop :=
  match s with
  | SSkip => True
  | SExpr e => linear e /\ ordered (fun _ => false) e
  | SSeq a b => straight a /\ straight b
  | SBlock a => straight a
  | _ => False
  end.
Fixpoint sevents (s : stmt) : list event :=
  match s with
  | SExpr e => events e
  | SSeq a b => sevents a ++ sevents b
  | SBlock a => sevents a
  | _ => []
  end.
(** What is first done with a variable. *)
Fixpoint first (x : nat) (l : list event) : option event :=
  match l with
  | [] => None
  | Rd y :: l => if Nat.eqb x y then Some (Rd y) else first x l
  | Wr y :: l => if Nat.eqb x y then Some (Wr y) else first x l
  end.
