(** How splint follows the definition of variables through a function body: which reads it reports
    as "used before definition".

    Sources: exprNode.c 10175-10334 ([exprNode_checkUse]), 10354-10453 ([exprNode_checkSet]), 5340-5374
    and 6031-6036 (operators), 4518-4524 (!), 6090-6350 (assignment), 6347-6487 (conditional
    expressions), 6863-6910 (expression statements, [exprNode_produceGuards]), 6834-6842 (the mark that
    a list of statements is left), 7367-7420 (switch), 7658-7726 (do), 7728-7793
    ([exprNode_loopMustExec]), 7846-7873 and 7935-7992 (for), 8201-8214 (return), 8222-8256 (comma),
    9119-9290 ([exprNode_effect]); sRef.c 4719-4769 ([sRef_isValidLvalue]), 5150-5160, 9086-9150
    ([sRef_combineDefState]); uentry.c 10284-10300, 10391-10415, 10666-10684 ([uentry_mergeState]);
    usymtab.c 212-241, 2482-2568 (branches), 2570-2617 (||), 2638-2706 ([usymtab_newCase]), 2721-2760
    (&&), 2772-2935 ([usymtab_exitSwitch]), 3003-3165 ([usymtab_popBranches]), 3218-3248, 4349-4385
    (leaving a block), 4650-4680, 4893-4995 (looking up a variable); context.c 837, 1748-1808,
    2380-2475, 4467-4535; cgrammar.y 1036-1092, 1744-1754, 1824-1985, 2164-2176.

    Simplified: variables are integers declared without initialisers in the outermost block of the
    function, whose addresses are not taken, so that they are either undefined or defined; functions
    are called without arguments; blocks declare nothing; the markers of a switch stand directly in its
    body, which begins with one, and its value is not of an enumeration; lists of statements are
    written as pairs, of which no part is unreachable; the operands of operators are gone through
    from left to right when the parts of a for loop are gone through again (there it depends on the
    compiler of splint); every message is really given.  The chain of tables is that of the calls
    below: a table is kept as what is found when looking from it, and which variables have entries in
    the innermost branch. *)
From Verif Require Import Cbase.
From Verif Require Flow_model.

(** ** Programs *)
Inductive op := OAdd | OLt | OGt | OLe | OGe | OEq | ONe.
(** Numbers, variables, operators, [!], [&&], [||], [?:], comma, assignment, a call, and a call of a
    function which does not return. *)
Inductive expr :=
| ENum (v : Z) | EVar (x : nat) | EOp (o : op) (a b : expr) | ENot (a : expr)
| EAnd (a b : expr) | EOr (a b : expr) | ECond (c a b : expr) | EComma (a b : expr)
| ESet (x : nat) (e : expr) | ECall | EExit.
Inductive stmt :=
| SSkip | SExpr (e : expr) | SSeq (a b : stmt) | SBlock (a : stmt)
| SIf (e : expr) (a : stmt) | SIfElse (e : expr) (a b : stmt)
| SWhile (e : expr) (a : stmt) | SDo (a : stmt) (e : expr)
| SFor (init test inc : option expr) (a : stmt)
| SSwitch (e : expr) (cs : cases)
| SRet (e : option expr) | SBrk | SCont
(** The cases of a switch: a label, or the default, with the statements up to the next. *)
with cases := CNil | CCase (l : option nat) (s : stmt) (cs : cases).

(** Expressions and statements in the model of control flow. *)
Fixpoint eflow (e : expr) : Flow_model.expr :=
  match e with
  | EExit => Flow_model.ECall Flow_model.XK_MUSTEXIT
  | EComma a b => Flow_model.EComma (eflow a) (eflow b)
  | ECond _ a b => Flow_model.ECond (eflow a) (eflow b)
  | _ => Flow_model.EOther
  end.
Definition eescapes (e : expr) : bool := Flow_model.mustEscape (Flow_model.enode (eflow e)).
Definition mark (l : option nat) : Flow_model.stmt :=
  Flow_model.Marker (match l with Some c => Flow_model.MC c | None => Flow_model.MD end) false.
(** The statements of a switch so far, with a further marker, and a further case. *)
Definition marked (acc : option Flow_model.stmt) (l : option nat) : Flow_model.stmt :=
  match acc with Some a => Flow_model.Seq a (mark l) | None => mark l end.
Definition extend (acc : option Flow_model.stmt) (l : option nat) (s : stmt) (f : Flow_model.stmt) : Flow_model.stmt :=
  match s with SSkip => marked acc l | _ => Flow_model.Seq (marked acc l) f end.
Fixpoint flow (s : stmt) : Flow_model.stmt :=
  match s with
  | SSkip => Flow_model.Semi
  | SExpr e => Flow_model.Expr (eflow e)
  | SSeq a b => Flow_model.Seq (flow a) (flow b)
  | SBlock a => Flow_model.Block (flow a)
  | SIf _ a => Flow_model.If (flow a)
  | SIfElse _ a b => Flow_model.IfElse (flow a) (flow b)
  | SWhile e a => Flow_model.While (match e with ENum v => Some v | _ => None end) (flow a)
  | SDo a _ => Flow_model.DoWhile (flow a)
  | SFor _ test _ a => Flow_model.For (match test with Some _ => true | None => false end) (flow a)
  | SSwitch e cs => Flow_model.Switch (eflow e) None (Flow_model.Block (cflow None cs))
  | SRet _ => Flow_model.Ret
  | SBrk => Flow_model.Brk
  | SCont => Flow_model.Cont
  end
with cflow (acc : option Flow_model.stmt) (cs : cases) : Flow_model.stmt :=
  match cs with
  | CNil => match acc with Some a => a | None => Flow_model.Brace end
  | CCase l s cs => cflow (Some (extend acc l s (flow s))) cs
  end.

(** ** Tables *)

(** Whether each variable is defined, which have entries in the innermost branch, and the mark that
    the innermost table is left at its end. *)
Record tab := Tab { view : nat -> bool; dom : nat -> bool; brk : bool }.
Definition upd (f : nat -> bool) (x : nat) (b : bool) : nat -> bool := fun y => if Nat.eqb x y then b else f y.
(** usymtab.c 4952-4995: looking up a variable copies its entry into the innermost branch. *)
Definition touch (t : tab) (x : nat) : tab := Tab (view t) (upd (dom t) x true) (brk t).
(** sRef.c 5150-5160. *)
Definition define (t : tab) (x : nat) : tab := Tab (upd (view t) x true) (upd (dom t) x true) (brk t).
(** A new branch: usymtab.c 2482-2520, 3218-3248. *)
Definition enter (t : tab) : tab := Tab (view t) (fun _ => false) false.
Definition with_brk (t : tab) (b : bool) : tab := Tab (view t) (dom t) b.
(** sRef.c 9086-9150 [sRef_combineDefState], of the states undefined and defined. *)
Definition combine (s1 s2 : bool) : bool := if s1 then s2 else false.

(** exprNode.c 10175-10334 [exprNode_checkUse]; [prot]: variables are protected (context.c
    4467-4535); after the message the variable is taken to be defined. *)
Definition check (prot : bool) (t : tab) (p : option nat) : tab * list nat :=
  match p with
  | None => (t, [])
  | Some x => if prot then (t, []) else if view t x then (t, []) else (define t x, [x])
  end.

(** usymtab.c 3062-3160: the new entry outside, from those of the branches; uentry.c 10391-10415. *)
Definition joined (mrT mrF : bool) (old : bool) (f t : option bool) : bool :=
  match f, t with
  | Some f, Some t => if negb mrF then (if negb mrT then combine f t else f) else t
  | Some f, None => if mrF then old else combine old f
  | None, Some t => if mrF then t else if mrT then old else combine old t
  | None, None => old
  end.
Definition ent (t : tab) (x : nat) : option bool := if dom t x then Some (view t x) else None.
(** usymtab.c 3003-3165 [usymtab_popBranches]: [o] outside, [t] and [f] the branches. *)
Definition pop_branches (mrT mrF : bool) (o t f : tab) : tab :=
  Tab (fun x => joined mrT mrF (view o x) (ent f x) (ent t x)) (fun x => dom o x || dom t x || dom f x) (brk o).
(** usymtab.c 2721-2752: a variable which the right operand of && defines is taken to be defined. *)
Definition pop_and (o t : tab) : tab :=
  Tab (fun x => match ent t x with Some c => let m := combine (view o x) c in if c && negb m then true else m | None => view o x end)
      (fun x => dom o x || dom t x) (brk o).
(** usymtab.c 2570-2602: ||. *)
Definition pop_or (must : bool) (o t : tab) : tab :=
  Tab (fun x => match ent t x with Some c => if must then view o x else combine (view o x) c | None => view o x end)
      (fun x => dom o x || dom t x) (brk o).

(** Expressions: the table afterwards, the variables complained of, and the variable which the
    expression names, which is checked only when the expression is used.  [again]: it is gone through
    once more, without branches for conditional expressions (exprNode.c 9285-9290). *)
Fixpoint aexpr (prot again : bool) (e : expr) (t : tab) : tab * list nat * option nat :=
  match e with
  | ENum _ | ECall | EExit => (t, [], None)
  | EVar x => (touch t x, [], Some x)
  | EOp _ a b =>
      let '(t, m1, p) := aexpr prot again a t in
      let '(t, m2, q) := aexpr prot again b t in
      let '(t, m3) := check prot t p in
      let '(t, m4) := check prot t q in
      (t, m1 ++ m2 ++ m3 ++ m4, None)
  | ENot a =>
      let '(t, m1, p) := aexpr prot again a t in
      let '(t, m2) := check prot t p in
      (t, m1 ++ m2, None)
  | EAnd a b =>
      let '(t, m1, p) := aexpr prot again a t in
      let '(t, m2) := check prot t p in
      let '(u, m3, q) := aexpr prot again b (enter t) in
      let '(u, m4) := check prot u q in
      (pop_and t u, m1 ++ m2 ++ m3 ++ m4, None)
  | EOr a b =>
      let '(t, m1, p) := aexpr prot again a t in
      let '(t, m2) := check prot t p in
      let '(u, m3, q) := aexpr prot again b (enter t) in
      let '(u, m4) := check prot u q in
      (pop_or (eescapes b) t u, m1 ++ m2 ++ m3 ++ m4, None)
  | ECond c a b =>
      if again then
        let '(t, m1, p) := aexpr prot again c t in
        let '(t, m2, q) := aexpr prot again a t in
        let '(t, m3, s) := aexpr prot again b t in
        let '(t, m4) := check prot t p in
        let '(t, m5) := check prot t q in
        let '(t, m6) := check prot t s in
        (t, m1 ++ m2 ++ m3 ++ m4 ++ m5 ++ m6, None)
      else
        let '(t, m1, p) := aexpr prot again c t in
        let '(t, m2) := check prot t p in
        let '(u, m3, q) := aexpr prot again a (enter t) in
        let '(v, m4, s) := aexpr prot again b (enter t) in
        let '(u, m5) := check prot u q in
        let '(v, m6) := check prot v s in
        (pop_branches (eescapes a) (eescapes b) t u v, m1 ++ m2 ++ m3 ++ m4 ++ m5 ++ m6, None)
  | EComma a b =>
      let '(t, m1, p) := aexpr prot again a t in
      let '(t, m2, q) := aexpr prot again b t in
      let '(t, m3) := check prot t p in
      let '(t, m4) := check prot t q in
      (t, m1 ++ m2 ++ m3 ++ m4, q)
  | ESet x a =>
      let '(t, m1, p) := aexpr prot again a (touch t x) in
      let '(t, m2) := check prot t p in
      (define t x, m1 ++ m2, Some x)
  end.
(** An expression whose value is used. *)
Definition aused (e : expr) (t : tab) : tab * list nat :=
  let '(t, m1, p) := aexpr false false e t in let '(t, m2) := check false t p in (t, m1 ++ m2).
Definition aopt (prot again : bool) (e : option expr) (t : tab) : tab * list nat * option nat :=
  match e with Some e => aexpr prot again e t | None => (t, [], None) end.

(** exprNode.c 7728-7793 [exprNode_loopMustExec]. *)
Definition starts (o : op) (v1 v2 : Z) : bool :=
  match o with
  | OEq => v1 <? v2
  | ONe => negb (v1 =? v2)
  | OLt => v1 <=? v2
  | OGt => v1 >=? v2
  | OLe => v1 <? v2
  | OGe => v1 >? v2
  | OAdd => false
  end.
Definition loop_must_exec (init test : option expr) : bool :=
  match init, test with
  | Some (ESet x (ENum v1)), Some (EOp o (EVar y) (ENum v2)) => Nat.eqb x y && starts o v1 v2
  | _, _ => false
  end.

(** usymtab.c 2669-2690: at the label of a case into which control falls. *)
Definition fall_into (pre c : tab) : tab :=
  Tab (fun x => if dom c x then combine (view c x) (view pre x) else view c x) (dom c) (brk c).
(** usymtab.c 2808-2880: the entries of the case [t] go into those of the last one, [l]; [must]: [t] is
    never left at its end or by break; [last]: so was the last case, and [t] is the one before it.  The
    code of 2851-2866 is for cases left neither way, of which there are none before the last. *)
Definition add_case (pre : tab) (last must : bool) (l t : tab) : tab :=
  Tab (fun x => match ent t x with
                | Some c => let old := match ent l x with Some o => o | None => view pre x end in
                            if last then c else if must then old else combine old c
                | None => view l x end)
      (fun x => dom l x || dom t x) (brk l).
Fixpoint add_cases (pre : tab) (last : bool) (l : tab) (ts : list (bool * tab)) : tab :=
  match ts with [] => l | (must, t) :: ts => add_cases pre false (add_case pre last must l t) ts end.
(** usymtab.c 2772-2935 [usymtab_exitSwitch]; the last case comes first; [all]: there is a default. *)
Definition exit_switch (pre : tab) (all : bool) (ts : list (bool * tab)) : tab :=
  match ts with
  | [] => pre
  | (must, l) :: ts =>
      let l := add_cases pre must l ts in
      Tab (fun x => match ent l x with Some c => if all then c else combine (view pre x) c | None => view pre x end)
          (fun x => dom pre x || dom l x) (brk pre)
  end.
Fixpoint has_default (cs : cases) : bool :=
  match cs with CNil => false | CCase None _ _ => true | CCase (Some _) _ cs => has_default cs end.

(** ** Statements *)
Section Analysis.
(** The flags [whileloopexec], [forloopexec], [obviousloopexec] and [unreachable], and which
    messages about unreachable code are really given. *)
Variables whileexec forexec obvious unreach : bool.
Variable shown : Flow_model.stmt -> bool.

Definition node (f : Flow_model.stmt) : Flow_model.node := Flow_model.analyse unreach shown f.
Definition escapes (s : stmt) : bool := Flow_model.mustEscape (node (flow s)).
(** usymtab.c 212-241, exprNode.c 6834-6841. *)
Definition must_return (f : Flow_model.stmt) : bool := Flow_model.kmust (Flow_model.xk (node f)).
Definition note (f : Flow_model.stmt) (t : tab) : tab := with_brk t (brk t || Flow_model.mustEscape (node f)).

Fixpoint astmt (s : stmt) (t : tab) : tab * list nat :=
  match s with
  | SSkip | SBrk | SCont | SRet None => (t, [])
  | SExpr e | SRet (Some e) => aused e t
  | SSeq a b => let '(t, m) := astmt a t in let '(t, m') := astmt b t in (note (flow (SSeq a b)) t, m ++ m')
  | SBlock a => astmt a (with_brk t false)
  | SIf e a =>
      let '(t, m) := aused e t in
      let '(u, m') := astmt a (enter t) in
      (pop_branches (escapes a) false t u (enter t), m ++ m')
  | SIfElse e a b =>
      let '(t, m) := aused e t in
      let '(u, m') := astmt a (enter t) in
      let '(v, m'') := astmt b (enter t) in
      (pop_branches (escapes a) (escapes b) t u v, m ++ m' ++ m'')
  | SWhile e a =>
      let '(t, m) := aused e t in
      let '(u, m') := astmt a (enter t) in
      (pop_branches (escapes a) whileexec t u (enter t), m ++ m')
  | SDo a e => let '(t, m) := astmt a t in let '(t, m') := aused e t in (t, m ++ m')
  | SFor init test inc a =>
      let '(t, m1, p) := aopt false false init t in
      let '(t, m2, q) := aopt false false test t in
      let '(t, _, _) := aopt true false inc t in
      let '(t, m3) := check false t p in
      let '(t, m4) := check false t q in
      let '(u, m5) := astmt a (enter t) in
      let '(u, m6, _) := aopt false true inc u in
      let '(u, m7, _) := aopt false true test u in
      (with_brk (pop_branches (escapes a) (forexec || (obvious && loop_must_exec init test)) t u (enter t)) false,
       m1 ++ m2 ++ m3 ++ m4 ++ m5 ++ m6 ++ m7)
  | SSwitch e cs =>
      let '(t, m, _) := aexpr false false e t in
      let '(ts, m') := acases t None None [] cs in
      (exit_switch t (has_default cs) ts, m ++ m')
  end
(** The cases from here on: [acc]: the statements of the switch so far, [cur]: the table of the case
    being gone through, [done]: those of earlier ones, the latest first. *)
with acases (pre : tab) (acc : option Flow_model.stmt) (cur : option tab) (done : list (bool * tab)) (cs : cases)
  : list (bool * tab) * list nat :=
  let must := match acc with Some f => must_return f | None => false end in
  match cs with
  | CNil => (match cur with Some c => (must, c) :: done | None => done end, [])
  | CCase l s cs =>
      let '(c, done) :=
        match cur with
        | None => (enter pre, done)
        | Some c => if negb (brk c) && negb must then (fall_into pre c, done) else (enter pre, (must, c) :: done)
        end in
      let '(c, m) := astmt s c in
      let f := extend acc l s (flow s) in
      let '(ts, m') := acases pre (Some f) (Some (note f c)) done cs in
      (ts, m ++ m')
  end.

(** The variables complained of in the body of a function; [init]: those defined at first
    (parameters, and variables with initialisers). *)
Definition complaints (init : nat -> bool) (s : stmt) : list nat :=
  snd (astmt s (Tab init (fun _ => true) false)).
End Analysis.
