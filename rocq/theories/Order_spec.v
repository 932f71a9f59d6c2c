(** What it means that the order of evaluation of an expression is left open and that it matters:
    the accesses of one execution with the sequence points of C (C99 5.1.2.3, 6.5), and evaluation in
    any order with side effects at once or at the next sequence point.  Nothing here mentions sets of
    references or messages. *)
From Verif Require Import Cbase Order_model.
From Coq Require Import List ZArith Bool.
Import ListNotations.
Open Scope Z_scope.

(** Objects. *)
Inductive obj := OVar (x : var) | OElem (a : arr) (k : Z).
Definition obj_eqb (o p : obj) : bool :=
  match o, p with
  | OVar x, OVar y => Nat.eqb x y
  | OElem a j, OElem b k => Nat.eqb a b && (j =? k)
  | _, _ => false
  end.
Definition meets (l m : list obj) : bool := existsb (fun o => existsb (obj_eqb o) m) l.

(** The arrays that an argument may stand for. *)
Fixpoint denotes (e : expr) : list arr :=
  match e with
  | Arr a => [a]
  | Paren e => denotes e
  | Cond _ t f => denotes t ++ denotes f
  | Comma _ e => denotes e
  | _ => []
  end.
Fixpoint arrays (es : exprs) : list (list arr) :=
  match es with ENil => [] | ECons e r => denotes e :: arrays r end.

Section Spec.
Variable glob_var : var -> bool.
Variable glob_arr : arr -> bool.
Variable decl : fname -> fdecl.

(** What a call may read: the globals declared, and the elements of the arrays it is given. *)
Definition may_read (f : fname) (args : exprs) (o : obj) : Prop :=
  match o with
  | OVar x => In (GVar x) (globs (decl f))
  | OElem a _ => In (GArr a) (globs (decl f)) \/ In a (concat (arrays args))
  end.
(** What it may modify: what its modifies clause says; all globals if it has none. *)
Definition may_write (f : fname) (args : exprs) (o : obj) : Prop :=
  match mods (decl f), o with
  | Some ms, OVar x => In (MVar x) ms
  | Some ms, OElem a _ => In (MArr a) ms \/ exists n l, In (MDeref n) ms /\ nth_error (arrays args) n = Some l /\ In a l
  | None, OVar x => glob_var x = true
  | None, OElem a _ => glob_arr a = true
  end.

(** ** Accesses of an execution *)
(** The objects read and modified, those whose modification need not be over when the value of the
    expression is known, and whether two accesses have clashed: one modified an object that the other
    read or modified, with no order between them. *)
Record acc := A { rd : list obj; wr : list obj; pend : list obj; clash : bool }.
Definition none : acc := A [] [] [] false.
(** No order between the two. *)
Definition unseq (a b : acc) : acc :=
  A (rd a ++ rd b) (wr a ++ wr b) (pend a ++ pend b)
    (clash a || clash b || meets (wr a) (rd b ++ wr b) || meets (wr b) (rd a)).
(** A sequence point between the two; one at the end. *)
Definition seqpt (a b : acc) : acc := A (rd a ++ rd b) (wr a ++ wr b) (pend b) (clash a || clash b).
Definition ended (a : acc) : acc := A (rd a) (wr a) [] (clash a).
(** An object is read (modified) after the values needed to find it (and the new value) are known,
    but the modifications made for them need not be over. *)
Definition reads (o : obj) (a : acc) : acc := A (o :: rd a) (wr a) (pend a) (clash a || meets [o] (pend a)).
Definition writes (o : obj) (a : acc) : acc := A (rd a) (o :: wr a) (o :: pend a) (clash a || meets [o] (pend a)).

Definition unres (o : unop) (v r : Z) : Prop :=
  match o with UMinus => r = - v | UPlus => r = v | UOther => True end.
Definition binres (o : binop) (v w r : Z) : Prop :=
  match o with
  | BAdd => r = v + w | BSub => r = v - w | BMul => r = v * w
  | BDiv => w = 0 \/ r = Z.quot v w
  | BOther => True
  end.

(** An execution: a value and the accesses.  What is read may be anything, and each condition may come
    out either way. *)
Fixpoint run (e : expr) : Z -> acc -> Prop :=
  match e with
  | Const z => fun v a => v = z /\ a = none
  | Var x => fun v a => a = reads (OVar x) none
  | Arr _ => fun v a => a = none
  | Fetch b i => fun v a => exists k c, run i k c /\ a = reads (OElem b k) c
  | Paren e => run e
  | Un o e => fun v a => exists w, run e w a /\ unres o w v
  | Bin o e1 e2 => fun v a => exists v1 v2 a1 a2, run e1 v1 a1 /\ run e2 v2 a2 /\ binres o v1 v2 v /\ a = unseq a1 a2
  | And e1 e2 | Or e1 e2 => fun v a => exists v1 a1, run e1 v1 a1 /\ (a = ended a1 \/ exists v2 a2, run e2 v2 a2 /\ a = seqpt a1 a2)
  | Cond p t f => fun v a => exists w c b, run p w c /\ (run t v b \/ run f v b) /\ a = seqpt c b
  | Comma e1 e2 => fun v a => exists w c b, run e1 w c /\ run e2 v b /\ a = seqpt c b
  | Asg l e => fun v a => exists o c b, runL l o c /\ run e v b /\ a = writes o (unseq c b)
  | AsgOp op l e => fun v a => exists o c w b, runL l o c /\ run e w b /\ a = writes o (unseq (reads o c) b)
  | Pre l | Post l => fun v a => exists o c, runL l o c /\ a = writes o (reads o c)
  | Call f args => fun v a => exists c rs ws, runs args c
      /\ (forall o, In o rs -> may_read f args o) /\ (forall o, In o ws -> may_write f args o)
      /\ a = A (rd c ++ rs) (wr c ++ ws) [] (clash c)
  end
with runL (l : lval) : obj -> acc -> Prop :=
  match l with
  | LV x => fun o a => o = OVar x /\ a = none
  | LF b i => fun o a => exists k, run i k a /\ o = OElem b k
  end
with runs (es : exprs) : acc -> Prop :=
  match es with
  | ENil => fun a => a = none
  | ECons e r => fun a => exists v c d, run e v c /\ runs r d /\ a = unseq c d
  end.

(** ** Evaluation in any order *)
Definition state := obj -> Z.
Definition upd (s : state) (o : obj) (v : Z) : state := fun p => if obj_eqb o p then v else s p.
Definition flush (s : state) (d : list (obj * Z)) : state := fold_left (fun s p => upd s (fst p) (snd p)) d s.

(** The state before, a result, the state after, and the modifications still to be made. *)
Definition rel (X : Type) := state -> X -> state -> list (obj * Z) -> Prop.
(** One after the other, in either order. *)
Definition either {X Y} (m : rel X) (n : rel Y) : rel (X * Y) := fun s r s' d =>
  (exists s1 d1 d2, m s (fst r) s1 d1 /\ n s1 (snd r) s' d2 /\ d = d1 ++ d2)
  \/ (exists s1 d1 d2, n s (snd r) s1 d1 /\ m s1 (fst r) s' d2 /\ d = d1 ++ d2).
(** A sequence point between the two. *)
Definition after {X Y} (m : rel X) (n : X -> rel Y) : rel Y := fun s r s' d =>
  exists x s1 d1, m s x s1 d1 /\ n x (flush s1 d1) r s' d.
(** A result that needs nothing more. *)
Definition give {X} (x : X) : rel X := fun s r s' d => r = x /\ s' = s /\ d = [].
Definition mapr {X Y} (g : X -> Y) (m : rel X) : rel Y := fun s r s' d => exists x, m s x s' d /\ r = g x.
(** The object found is read at once. *)
Definition reading (m : rel obj) : rel (obj * Z) := fun s r s' d => m s (fst r) s' d /\ snd r = s' (fst r).
(** The object is modified at once, or the modification is put off. *)
Definition storing {X} (m : rel X) (tgt : X -> obj) (val : X -> Z) : rel X := fun s r s' d =>
  exists s1 d1, m s r s1 d1
    /\ ((s' = upd s1 (tgt r) (val r) /\ d = d1) \/ (s' = s1 /\ d = d1 ++ [(tgt r, val r)])).

(** The other operators, the addresses of arrays, and what functions do: their value and what they
    store. *)
Variable unother : Z -> Z.
Variable binother : Z -> Z -> Z.
Variable addr : arr -> Z.
Variable body : fname -> exprs -> list Z -> state -> Z * (obj -> option Z).

Definition unv (o : unop) (v : Z) : Z := match o with UMinus => - v | UPlus => v | UOther => unother v end.
Definition binv (o : binop) (v w : Z) : Z :=
  match o with BAdd => v + w | BSub => v - w | BMul => v * w | BDiv => Z.quot v w | BOther => binother v w end.
Definition truth (v : Z) : Z := if v =? 0 then 0 else 1.
Definition stored (w : obj -> option Z) (s : state) : state := fun o => match w o with Some v => v | None => s o end.
(** A call, when the arguments and everything put off before are done. *)
Definition calls (f : fname) (args : exprs) (vs : list Z) : rel Z := fun s r s' d =>
  r = fst (body f args vs s) /\ s' = stored (snd (body f args vs s)) s /\ d = [].

Fixpoint ev (e : expr) : rel Z :=
  match e with
  | Const z => give z
  | Var x => fun s r s' d => r = s (OVar x) /\ s' = s /\ d = []
  | Arr a => give (addr a)
  | Fetch b i => mapr snd (reading (mapr (OElem b) (ev i)))
  | Paren e => ev e
  | Un o e => mapr (unv o) (ev e)
  | Bin o e1 e2 => mapr (fun p => binv o (fst p) (snd p)) (either (ev e1) (ev e2))
  | And e1 e2 => after (ev e1) (fun v => if v =? 0 then give 0 else mapr truth (ev e2))
  | Or e1 e2 => after (ev e1) (fun v => if v =? 0 then mapr truth (ev e2) else give 1)
  | Cond p t f => after (ev p) (fun v => if v =? 0 then ev f else ev t)
  | Comma e1 e2 => after (ev e1) (fun _ => ev e2)
  | Asg l e => mapr snd (storing (either (evL l) (ev e)) fst snd)
  | AsgOp o l e => mapr (fun p => binv o (snd (fst p)) (snd p))
      (storing (either (reading (evL l)) (ev e)) (fun p => fst (fst p)) (fun p => binv o (snd (fst p)) (snd p)))
  | Pre l => mapr (fun p => snd p + 1) (storing (reading (evL l)) fst (fun p => snd p + 1))
  | Post l => mapr snd (storing (reading (evL l)) fst (fun p => snd p + 1))
  | Call f args => after (evs args) (calls f args)
  end
with evL (l : lval) : rel obj :=
  match l with
  | LV x => give (OVar x)
  | LF b i => mapr (OElem b) (ev i)
  end
with evs (es : exprs) : rel (list Z) :=
  match es with
  | ENil => give []
  | ECons e r => mapr (fun p => fst p :: snd p) (either (ev e) (evs r))
  end.

(** The value of a whole expression and the state after the sequence point at its end. *)
Definition outcome (s : state) (e : expr) (v : Z) (t : state) : Prop :=
  exists s' d, ev e s v s' d /\ t = flush s' d.

(** Functions keep to what is declared. *)
Definition honest : Prop := forall f args vs s,
  (forall o v, snd (body f args vs s) o = Some v -> may_write f args o)
  /\ forall s', (forall o, may_read f args o -> s o = s' o) ->
       fst (body f args vs s) = fst (body f args vs s')
       /\ forall o, snd (body f args vs s) o = snd (body f args vs s') o.

(** ** Classes of expressions *)
Definition is_call (e : expr) : bool := match e with Call _ _ => true | _ => false end.
Definition is_deref (m : modi) : bool := match m with MDeref _ => true | _ => false end.
Definition mods_list (f : fname) : list modi := match mods (decl f) with Some l => l | None => [] end.

(** Contains a call that may modify what an argument points to. *)
Fixpoint derefs (e : expr) : bool :=
  match e with
  | Const _ | Var _ | Arr _ => false
  | Fetch _ e | Paren e | Un _ e => derefs e
  | Bin _ e1 e2 | And e1 e2 | Or e1 e2 | Comma e1 e2 => derefs e1 || derefs e2
  | Cond p t f => derefs p || derefs t || derefs f
  | Asg l e | AsgOp _ l e => derefsL l || derefs e
  | Pre l | Post l => derefsL l
  | Call f args => existsb is_deref (mods_list f) || derefss args
  end
with derefsL (l : lval) : bool := match l with LV _ => false | LF _ i => derefs i end
with derefss (es : exprs) : bool := match es with ENil => false | ECons e r => derefs e || derefss r end.

(** May modify elements of the array [b]. *)
Definition call_modifies (b : arr) (f : fname) (args : exprs) : bool :=
  existsb (fun m => match m with
    | MVar _ => false
    | MArr a => Nat.eqb a b
    | MDeref n => match nth_error (arrays args) n with Some l => existsb (Nat.eqb b) l | None => false end
    end) (mods_list f).
Fixpoint modifies (b : arr) (e : expr) : bool :=
  match e with
  | Const _ | Var _ | Arr _ => false
  | Fetch _ e | Paren e | Un _ e => modifies b e
  | Bin _ e1 e2 | And e1 e2 | Or e1 e2 | Comma e1 e2 => modifies b e1 || modifies b e2
  | Cond p t f => modifies b p || modifies b t || modifies b f
  | Asg l e | AsgOp _ l e => modifiesL b l || modifies b e
  | Pre l | Post l => modifiesL b l
  | Call f args => call_modifies b f args || modifiess b args
  end
with modifiesL (b : arr) (l : lval) : bool := match l with LV _ => false | LF a i => Nat.eqb a b || modifies b i end
with modifiess (b : arr) (es : exprs) : bool := match es with ENil => false | ECons e r => modifies b e || modifiess b r end.

(** No comma and no conditional (outside of the subscripts and arguments of its parts). *)
Fixpoint simple_value (e : expr) : bool :=
  match e with
  | Comma _ _ | Cond _ _ _ => false
  | Paren e | Un _ e => simple_value e
  | Bin _ e1 e2 => simple_value e1 && simple_value e2
  | _ => true
  end.

Definition is_garr (g : glob) : bool := match g with GArr _ => true | GVar _ => false end.
Definition no_arrays (e : expr) : bool := match denotes e with [] => true | _ => false end.

(** Expressions free of what is known to be overlooked: the right operand of an operator (other than
    [=]) is not itself a call; left operands call no function that modifies what its arguments point
    to; a subscript does not modify elements of the array, and is no comma or conditional expression;
    arrays given to functions are given by name; functions have modifies clauses, and no arrays in their
    globals lists. *)
Fixpoint careful (e : expr) : bool :=
  match e with
  | Const _ | Var _ | Arr _ => true
  | Fetch b i => careful i && negb (modifies b i) && simple_value i
  | Paren e | Un _ e => careful e
  | Bin _ e1 e2 => careful e1 && careful e2 && negb (is_call e2) && negb (derefs e1)
  | And e1 e2 | Or e1 e2 => careful e1 && careful e2
  | Cond p t f => careful p && careful t && careful f && no_arrays t && no_arrays f
  | Comma e1 e2 => careful e1 && careful e2 && no_arrays e2
  | Asg l e => carefulL l && careful e && negb (derefsL l)
  | AsgOp _ l e => carefulL l && careful e && negb (derefsL l) && negb (is_call e)
  | Pre l | Post l => carefulL l
  | Call f args => carefuls args && match mods (decl f) with Some _ => true | None => false end
      && negb (existsb is_garr (globs (decl f)))
  end
with carefulL (l : lval) : bool :=
  match l with LV _ => true | LF b i => careful i && negb (modifies b i) && simple_value i end
with carefuls (es : exprs) : bool := match es with ENil => true | ECons e r => careful e && carefuls r end.

(** No sequence point inside. *)
Fixpoint no_points (e : expr) : bool :=
  match e with
  | Const _ | Var _ | Arr _ => true
  | Fetch _ e | Paren e | Un _ e => no_points e
  | Bin _ e1 e2 => no_points e1 && no_points e2
  | And _ _ | Or _ _ | Cond _ _ _ | Comma _ _ | Call _ _ => false
  | Asg l e | AsgOp _ l e => no_pointsL l && no_points e
  | Pre l | Post l => no_pointsL l
  end
with no_pointsL (l : lval) : bool := match l with LV _ => true | LF _ i => no_points i end.

Definition plain_subscript (i : expr) : bool := match i with Const _ | Var _ => true | _ => false end.
Fixpoint nth_arg (n : nat) (es : exprs) : option expr :=
  match es, n with
  | ENil, _ => None
  | ECons e _, O => Some e
  | ECons _ r, S n => nth_arg n r
  end.
(** Expressions of which no false alarm is given: subscripts are constants or variables, what is
    assigned with [=] has no sequence points inside or is itself a call, and what functions modify
    through a pointer is an array. *)
Fixpoint regular (e : expr) : bool :=
  match e with
  | Const _ | Var _ | Arr _ => true
  | Fetch _ i => plain_subscript i
  | Paren e | Un _ e => regular e
  | Bin _ e1 e2 | And e1 e2 | Or e1 e2 | Comma e1 e2 => regular e1 && regular e2
  | Cond p t f => regular p && regular t && regular f
  | Asg l e => regularL l && regular e && (no_points e || is_call e)
  | AsgOp _ l e => regularL l && regular e
  | Pre l | Post l => regularL l
  | Call f args => regulars args
      && forallb (fun m => match m with MDeref n => match nth_arg n args with Some (Arr _) => true | _ => false end | _ => true end) (mods_list f)
  end
with regularL (l : lval) : bool := match l with LV _ => true | LF _ i => plain_subscript i end
with regulars (es : exprs) : bool := match es with ENil => true | ECons e r => regular e && regulars r end.
End Spec.
