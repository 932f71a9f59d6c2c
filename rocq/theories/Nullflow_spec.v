(** What programs do with null pointers, without reference to splint.  A store says which pointers
    are not null. *)
From Verif Require Import Cbase Guard_model Nullflow_model.

Definition store := nat -> bool.
Definition set (r : store) (x : nat) (b : bool) : store := fun y => if Nat.eqb x y then b else r y.

(** Evaluating a condition: a value, the end of the program, or a dereference of a null pointer. *)
Inductive cres := RVal (b : bool) | RStop | RFault (x : nat).
Inductive ceval (r : store) : cond -> cres -> Prop :=
| V_null x : ceval r (CNull x) (RVal (negb (r x)))
| V_non x : ceval r (CNon x) (RVal (r x))
| V_ptr x : ceval r (CPtr x) (RVal (r x))
| V_deref x b : r x = true -> ceval r (CDeref x) (RVal b)
| V_fault x : r x = false -> ceval r (CDeref x) (RFault x)
| V_other b : ceval r COther (RVal b)
| V_other_stop : ceval r COther RStop
| V_true : ceval r CTrue (RVal true)
| V_exit : ceval r CExit RStop
| V_not c b : ceval r c (RVal b) -> ceval r (CNot c) (RVal (negb b))
| V_not_out c v : ceval r c v -> (forall b, v <> RVal b) -> ceval r (CNot c) v
| V_and_out a b v : ceval r a v -> (forall b, v <> RVal b) -> ceval r (CAnd a b) v
| V_and_false a b : ceval r a (RVal false) -> ceval r (CAnd a b) (RVal false)
| V_and a b v : ceval r a (RVal true) -> ceval r b v -> ceval r (CAnd a b) v
| V_or_out a b v : ceval r a v -> (forall b, v <> RVal b) -> ceval r (COr a b) v
| V_or_true a b : ceval r a (RVal true) -> ceval r (COr a b) (RVal true)
| V_or a b v : ceval r a (RVal false) -> ceval r b v -> ceval r (COr a b) v.

Inductive out := ONormal | OBreak | OCont | OStop | OFault (x : nat).
Definition cout (v : cres) : out := match v with RVal _ => ONormal | RStop => OStop | RFault x => OFault x end.
(** The values which may be assigned. *)
Definition vals (v : val) (b : bool) : Prop := match v with VNull | VConst => b = false | VFresh => b = true | VMaybe => True end.

Definition leaves (o o' : out) : Prop :=
  match o with OBreak => o' = ONormal | OStop | OFault _ => o' = o | _ => False end.
Definition rounds (o : out) : Prop := o = ONormal \/ o = OCont.

Inductive exec : store -> stmt -> out -> store -> Prop :=
| X_skip r : exec r SSkip ONormal r
| X_expr r c v : ceval r c v -> exec r (SExpr c) (cout v) r
| X_set r x v b : vals v b -> exec r (SSet x v) ONormal (set r x b)
| X_seq r a b r1 o r2 : exec r a ONormal r1 -> exec r1 b o r2 -> exec r (SSeq a b) o r2
| X_seq_out r a b o r1 : exec r a o r1 -> o <> ONormal -> exec r (SSeq a b) o r1
| X_block r a o r1 : exec r a o r1 -> exec r (SBlock a) o r1
| X_if_out r c a v : ceval r c v -> (forall b, v <> RVal b) -> exec r (SIf c a) (cout v) r
| X_if_false r c a : ceval r c (RVal false) -> exec r (SIf c a) ONormal r
| X_if r c a o r1 : ceval r c (RVal true) -> exec r a o r1 -> exec r (SIf c a) o r1
| X_else_out r c a b v : ceval r c v -> (forall b, v <> RVal b) -> exec r (SIfElse c a b) (cout v) r
| X_else_true r c a b o r1 : ceval r c (RVal true) -> exec r a o r1 -> exec r (SIfElse c a b) o r1
| X_else_false r c a b o r1 : ceval r c (RVal false) -> exec r b o r1 -> exec r (SIfElse c a b) o r1
| X_while_out r c a v : ceval r c v -> (forall b, v <> RVal b) -> exec r (SWhile c a) (cout v) r
| X_while_end r c a : ceval r c (RVal false) -> exec r (SWhile c a) ONormal r
| X_while r c a o o' r1 : ceval r c (RVal true) -> exec r a o r1 -> leaves o o' -> exec r (SWhile c a) o' r1
| X_while_round r c a o r1 o' r2 : ceval r c (RVal true) -> exec r a o r1 -> rounds o ->
    exec r1 (SWhile c a) o' r2 -> exec r (SWhile c a) o' r2
| X_do r c a o o' r1 : exec r a o r1 -> leaves o o' -> exec r (SDo a c) o' r1
| X_do_out r c a o r1 v : exec r a o r1 -> rounds o -> ceval r1 c v -> (forall b, v <> RVal b) -> exec r (SDo a c) (cout v) r1
| X_do_end r c a o r1 : exec r a o r1 -> rounds o -> ceval r1 c (RVal false) -> exec r (SDo a c) ONormal r1
| X_do_round r c a o r1 o' r2 : exec r a o r1 -> rounds o -> ceval r1 c (RVal true) ->
    exec r1 (SDo a c) o' r2 -> exec r (SDo a c) o' r2
| X_ret r : exec r SRet OStop r
| X_brk r : exec r SBrk OBreak r
| X_cont r : exec r SCont OCont r.

(** The states of variables at the start of the body are right: those of the kinds splint deals with
    exactly, and a variable not taken to be possibly null is not. *)
Definition plain_state (n : nstate) : Prop :=
  match n with NS_UNKNOWN | NS_NOTNULL | NS_MNOTNULL | NS_POSNULL | NS_DEFNULL => True | _ => False end.
Definition agrees (init : nat -> nstate) (r : store) : Prop :=
  forall x, plain_state (init x) /\ (init x <> NS_POSNULL -> init x <> NS_DEFNULL -> r x = true).

(** Variables compared with null in a condition, and variables assigned in a statement. *)
Fixpoint compared (c : cond) : list nat :=
  match c with
  | CNull x | CNon x | CPtr x => [x]
  | CNot c => compared c
  | CAnd a b | COr a b => compared a ++ compared b
  | _ => []
  end.
Fixpoint assigned (s : stmt) : list nat :=
  match s with
  | SSet x _ => [x]
  | SSeq a b | SIfElse _ a b => assigned a ++ assigned b
  | SBlock a | SIf _ a | SWhile _ a | SDo a _ => assigned a
  | _ => []
  end.
Fixpoint plain_values (s : stmt) : Prop :=
  match s with
  | SSet _ v => v <> VConst
  | SSeq a b | SIfElse _ a b => plain_values a /\ plain_values b
  | SBlock a | SIf _ a | SWhile _ a | SDo a _ => plain_values a
  | _ => True
  end.
(** No branches or loops. *)
Fixpoint straight (s : stmt) : Prop :=
  match s with
  | SSeq a b => straight a /\ straight b
  | SBlock a => straight a
  | SIf _ _ | SIfElse _ _ _ | SWhile _ _ | SDo _ _ => False
  | _ => True
  end.
(** Breaks and continues which leave the statement itself. *)
Fixpoint breaks (s : stmt) : Prop :=
  match s with
  | SBrk => True
  | SSeq a b | SIfElse _ a b => breaks a \/ breaks b
  | SBlock a | SIf _ a => breaks a
  | _ => False
  end.
Fixpoint continues (s : stmt) : Prop :=
  match s with
  | SCont => True
  | SSeq a b | SIfElse _ a b => continues a \/ continues b
  | SBlock a | SIf _ a => continues a
  | _ => False
  end.
(** The statement is never left at its end. *)
Definition ending (s : stmt) : Prop := forall r r', ~ exec r s ONormal r'.

(** ** Where splint's reasoning is sound *)

(** No program is ended on the right of a || whose left side compares pointers. *)
Fixpoint plain_or (c : cond) : Prop :=
  match c with
  | CNot c => plain_or c
  | CAnd a b => plain_or a /\ plain_or b
  | COr a b => plain_or a /\ plain_or b /\ (b = CExit -> compared a = [])
  | _ => True
  end.
(** A branch may assign a variable which the condition compares with null only if it is not left at
    its end, or has no branches inside and the other branch is. *)
Definition fair (c : cond) (a other : stmt) : Prop :=
  (forall x, In x (compared c) -> ~ In x (assigned a)) \/ ending a \/ (straight a /\ ~ ending other).
Fixpoint sober (s : stmt) : Prop :=
  match s with
  | SExpr c => plain_or c
  | SSeq a b => sober a /\ sober b
  | SBlock a => sober a
  | SIf c a => plain_or c /\ sober a /\ fair c a SSkip
  | SIfElse c a b => plain_or c /\ sober a /\ sober b /\ fair c a b /\ fair c b a
  | SWhile c a => plain_or c /\ sober a /\ assigned a = [] /\ (breaks a -> compared c = [])
  | SDo a c => plain_or c /\ sober a /\ assigned a = [] /\ ~ breaks a /\ ~ continues a
  | _ => True
  end.

(** ** Tests which settle that a variable is not null *)
Fixpoint settles (b : bool) (c : cond) (x : nat) : Prop :=
  match c with
  | CNull y => b = false /\ x = y
  | CNon y | CPtr y => b = true /\ x = y
  | CNot c => settles (negb b) c x
  | CAnd p q => if b then settles b p x \/ settles b q x else settles b p x /\ settles b q x
  | COr p q => if b then settles b p x /\ settles b q x else settles b p x \/ settles b q x
  | _ => False
  end.

(** ** Dereferences covered by tests *)

(** By their form alone: statements which may be left at their end, and statements which certainly
    are not. *)
Fixpoint calm (s : stmt) : Prop :=
  match s with
  | SSkip | SSet _ _ | SIf _ _ | SDo _ _ => True
  | SExpr c => c <> CExit
  | SSeq a b => calm a /\ calm b
  | SBlock a => calm a
  | SIfElse _ a b => calm a \/ calm b
  | SWhile c _ => c <> CTrue
  | _ => False
  end.
Fixpoint quits (s : stmt) : Prop :=
  match s with
  | SRet | SBrk | SCont => True
  | SExpr c => c = CExit
  | SSeq a b => calm a /\ quits b
  | SBlock a => quits a
  | SIfElse _ a b => quits a /\ quits b
  | _ => False
  end.
(** Tests known to have settled that [x] is not null when the statement has been left, if [K] says so
    before it. *)
Fixpoint knows (K : Prop) (s : stmt) (x : nat) : Prop :=
  match s with
  | SSeq a b => knows (knows K a x) b x
  | SBlock a => knows K a x
  | SSet y v => K /\ (x <> y \/ v = VFresh)
  | SIf c t => (K /\ ~ In x (assigned t)) \/ (quits t /\ settles false c x)
  | SIfElse c t e => (K /\ ~ In x (assigned t) /\ ~ In x (assigned e)) \/ (quits t /\ settles false c x) \/ (quits e /\ settles true c x)
  | SWhile c t => (K /\ ~ In x (assigned t)) \/ settles false c x
  | SDo t c => knows K t x \/ settles false c x
  | _ => K
  end.
(** Every dereference of [x] comes after such a test. *)
Fixpoint ccovered (K : Prop) (c : cond) (x : nat) : Prop :=
  match c with
  | CDeref y => x = y -> K
  | CNot c => ccovered K c x
  | CAnd a b => ccovered K a x /\ ccovered (K \/ settles true a x) b x
  | COr a b => ccovered K a x /\ ccovered (K \/ settles false a x) b x
  | _ => True
  end.
Fixpoint covered (K : Prop) (s : stmt) (x : nat) : Prop :=
  match s with
  | SExpr c => ccovered K c x
  | SSeq a b => covered K a x /\ covered (knows K a x) b x
  | SBlock a => covered K a x
  | SIf c t => ccovered K c x /\ covered (K \/ settles true c x) t x
  | SIfElse c t e => ccovered K c x /\ covered (K \/ settles true c x) t x /\
      covered ((K /\ ~ In x (assigned t)) \/ settles false c x) e x
  | SWhile c t => ccovered K c x /\ covered (K \/ settles true c x) t x
  | SDo t c => covered K t x /\ ccovered (knows K t x) c x
  | _ => True
  end.

(** Bodies without tests or jumps. *)
Fixpoint linear (s : stmt) : Prop :=
  match s with
  | SSkip | SSet _ _ => True
  | SExpr c => match c with CNull _ | CNon _ | CPtr _ | CDeref _ | COther => True | _ => False end
  | SSeq a b => linear a /\ linear b
  | SBlock a => linear a
  | _ => False
  end.
