(** What C says about the labels of a switch. *)
From Verif Require Import Cbase Cbase_facts Switch_model.

(** The members of an enumerated type with their values (C99 6.7.2.2p3): the first has value 0 unless
    a value is given, each later one the value after that of the one before it. *)
Fixpoint enumerate (next : Z) (l : list (cstr * option Z)) : list (cstr * Z) :=
  match l with
  | [] => []
  | (n, v) :: r => let z := match v with Some z => z | None => next end in (n, z) :: enumerate (z + 1) r
  end.

Section Values.
(** The value of each constant that can be named. *)
Variable value : cstr -> Z.

(** The value of a constant expression, for constants which fit the types they are cast to. *)
Fixpoint eval (e : cexpr) : Z :=
  match e with
  | CName n => value n
  | CParen a => eval a
  | CNum z => z
  | CCast a => eval a
  | CAdd a b => eval a + eval b
  end.

(** A label of a switch: a case with its value, or the default. *)
Inductive label := LCase (z : Z) | LDefault.

(** The labels which belong to a switch with this body, in the order of the text: all which are inside
    of it, but not inside of an inner switch (C99 6.8.4.2p2–4). *)
Fixpoint labels (s : st) : list label :=
  match s with
  | SCase _ e => [LCase (eval e)]
  | SDefault _ => [LDefault]
  | SNest a | SBlock a => labels a
  | SSeq a b => labels a ++ labels b
  | SLabel | SInit _ | SNothing | SSimple | SBrace | SSwitch _ _ => []
  end.

(** Where control goes when the test has the value [z] (C99 6.8.4.2p5): to the place of a label, or
    behind the switch. *)
Fixpoint caseFor (z : Z) (l : list label) : bool :=
  match l with
  | [] => false
  | LCase y :: r => (y =? z)%Z || caseFor z r
  | LDefault :: r => caseFor z r
  end.
Definition hasDefaultLabel (l : list label) : bool :=
  existsb (fun x => match x with LDefault => true | LCase _ => false end) l.
Definition enters (z : Z) (s : st) : bool := caseFor z (labels s) || hasDefaultLabel (labels s).

(** C99 6.8.4.2p3: no two case labels have the same value, and there is at most one default. *)
Definition labelsDiffer (l : list label) : Prop := NoDup l.
End Values.

(** The case expressions which stand directly in the switch: not inside of statements other than
    blocks. *)
Fixpoint direct (s : st) : list cexpr :=
  match s with
  | SCase _ e => [e]
  | SBlock a => direct a
  | SSeq a b => direct a ++ direct b
  | _ => []
  end.
(** All markers which belong to the switch stand directly in it. *)
Fixpoint structured (s : st) : bool :=
  match s with
  | SNest a => match labels (fun _ => 0) a with [] => true | _ => false end
  | SBlock a => structured a
  | SSeq a b => structured a && structured b
  | _ => true
  end.
(** An expression which is a name, perhaps in parentheses. *)
Inductive names (n : cstr) : cexpr -> Prop :=
  | names_name : names n (CName n)
  | names_paren e : names n e -> names n (CParen e).

(** What is written in a switch, in order, as far as the first label is concerned. *)
Inductive item := ILabel | IStatement | IDeclaration.
Fixpoint items (s : st) : list item :=
  match s with
  | SCase _ _ | SDefault _ | SLabel => [ILabel]
  | SInit true => [IStatement]
  | SInit false | SNothing => [IDeclaration]
  | SBrace => []
  | SSimple | SSwitch _ _ => [IStatement]
  | SNest a => IStatement :: items a
  | SSeq a b => items a ++ items b
  | SBlock a => items a
  end.
(** Something executable is written before the first label. *)
Fixpoint lost (l : list item) : bool :=
  match l with
  | [] | ILabel :: _ => false
  | IStatement :: _ => true
  | IDeclaration :: r => lost r
  end.
(** No declaration other than of variables; no declaration of a variable without initial value, and
    no empty block. *)
Fixpoint free (bad : st -> bool) (s : st) : bool :=
  negb (bad s) && match s with
                  | SNest a | SBlock a => free bad a
                  | SSeq a b => free bad a && free bad b
                  | _ => true
                  end.
Definition otherDeclaration (s : st) : bool := match s with SNothing => true | _ => false end.
Definition uninitialized (s : st) : bool := match s with SInit false | SBrace => true | _ => false end.

(** Names separated by commas. *)
Fixpoint commas (l : list cstr) : cstr :=
  match l with
  | [] => []
  | [n] => n
  | n :: r => n ++ lit ", " ++ commas r
  end.
(** The message about members without a case. *)
Definition missingMessage (l : list cstr) : cstr :=
  lit (match l with [_] => "Missing case in switch: " | _ => "Missing cases in switch: " end) ++ commas l.
(** The value of a name according to a table. *)
Fixpoint valueIn (t : list (cstr * Z)) (n : cstr) : Z :=
  match t with
  | [] => 0
  | (m, z) :: r => if cstr_eqb m n then z else valueIn r n
  end.

(** Labels and messages can be counted. *)
Definition cstr_eq_dec : forall a b : cstr, {a = b} + {a <> b}.
Proof. intros a b. destruct (cstr_eqb a b) eqn:E; [left; apply cstr_eqb_eq; exact E|right; intros ->; rewrite cstr_eqb_refl in E; discriminate]. Defined.
Definition label_eq_dec : forall a b : label, {a = b} + {a <> b}.
Proof. decide equality. apply Z.eq_dec. Defined.
Definition msg_eq_dec : forall a b : msg, {a = b} + {a <> b}.
Proof. decide equality; apply cstr_eq_dec. Defined.
Definition timesSaid (m : msg) (l : list msg) : nat := count_occ msg_eq_dec l m.
Definition timesLabelled (x : label) (l : list label) : nat := count_occ label_eq_dec l x.

(** A switch as it is usually written: all labels stand directly in it and are names of constants, and a
    label with the value of a member of the type is the name of that member. *)
Definition plain (known : cstr -> bool) (ms : list cstr) (value : cstr -> Z) (s : st) : Prop :=
  structured s = true
  /\ (forall e, In e (direct s) -> exists n, names n e /\ known n = true
        /\ forall m, In m ms -> value n = value m -> n = m).

(** The members of the type for whose values the switch does nothing. *)
Definition unhandled (value : cstr -> Z) (s : st) (ms : list cstr) : list cstr :=
  filter (fun n => negb (enters value (value n) s)) ms.

