(** What a condition of C tells about pointers, without reference to splint: evaluation of
    expressions as a relation between the store before and after, for any store. *)
From Verif Require Import Cbase Guard_model.

(** ** Stores.  A location is a path from a variable; any two paths may or may not be the same
    place in memory, so a store is any function from paths to numbers (0 is the null pointer). *)
Inductive loc := LoVar (x : nat) | LoField (l : loc) (f : nat) | LoCell (l : loc) (i : Z).
Definition store := loc -> Z.

(** Where an lvalue is: [*p] is [p[0]]. *)
Fixpoint ploc (s : store) (l : lval) : loc :=
  match l with
  | LVar x => LoVar x
  | LField l f => LoField (ploc s l) f
  | LDeref l => LoCell (ploc s l) 0
  | LIdx l i => LoCell (ploc s l) i
  | LIdxV l x => LoCell (ploc s l) (s (LoVar x))
  end.
Definition value (s : store) (l : lval) : Z := s (ploc s l).

(** Part of a variable itself, not reached through a pointer. *)
Fixpoint direct (l : loc) : Prop :=
  match l with LoVar _ => True | LoField l _ => direct l | LoCell _ _ => False end.
Fixpoint root (l : loc) : nat :=
  match l with LoVar x => x | LoField l _ => root l | LoCell l _ => root l end.

(** After [x = v] nothing is known of what pointers reach (it may overlap x); the other variables
    are as before. *)
Definition assigned (x : nat) (v : Z) (s s' : store) : Prop :=
  s' (LoVar x) = v /\ forall l, direct l -> root l <> x -> s' l = s l.

(** A function annotated nullwhentrue returns true for the null pointer; one annotated falsewhennull
    returns false for it. *)
Definition honest (n : npred) (a v : Z) : Prop :=
  match n with NPtrue => a = 0 -> v <> 0 | NPfalse => a = 0 -> v = 0 | NPnone => True end.

Definition bz (b : bool) : Z := if b then 1 else 0.

Section Eval.
  Variable const : nat -> Z.               (* the values of named constants *)
  Variable bits : nat -> Z -> Z -> Z.      (* & | ^ << >> *)
  Variable rel : nat -> Z -> Z -> bool.    (* < <= > >= *)

  Inductive arith : bop -> Z -> Z -> Z -> Prop :=
  | A_add a b : arith Badd a b (a + b)
  | A_sub a b : arith Bsub a b (a - b)
  | A_mul a b : arith Bmul a b (a * b)
  | A_div a b : b <> 0 -> arith Bdiv a b (Z.quot a b)
  | A_bits k a b : arith (Bbits k) a b (bits k a b)
  | A_rel k a b : arith (Brel k) a b (bz (rel k a b)).

  Inductive ev : store -> expr -> Z -> store -> Prop :=
  | V_ref s t l : ev s (ERef t l) (value s l) s
  | V_lit s z : ev s (ELit z) z s
  | V_const s t c v : (forall z, v = Some z -> const c = z) -> ev s (EConst t c v) (const c) s
  | V_paren s e v s' : ev s e v s' -> ev s (EParen e) v s'
  | V_not s e v s' : ev s e v s' -> ev s (ENot e) (bz (Z.eqb v 0)) s'
  | V_neg s e v s' : ev s e v s' -> ev s (EUn Uneg e) (- v) s'
  | V_compl s e v s' : ev s e v s' -> ev s (EUn Ucompl e) (Z.lnot v) s'
  | V_and_f s a b s' : ev s a 0 s' -> ev s (EAnd a b) 0 s'
  | V_and_t s a b v s1 w s2 : ev s a v s1 -> v <> 0 -> ev s1 b w s2 ->
      ev s (EAnd a b) (bz (negb (Z.eqb w 0))) s2
  | V_or_t s a b v s' : ev s a v s' -> v <> 0 -> ev s (EOr a b) 1 s'
  | V_or_f s a b s1 w s2 : ev s a 0 s1 -> ev s1 b w s2 ->
      ev s (EOr a b) (bz (negb (Z.eqb w 0))) s2
  | V_eq s a b v s1 w s2 : ev s a v s1 -> ev s1 b w s2 -> ev s (EEq a b) (bz (Z.eqb v w)) s2
  | V_ne s a b v s1 w s2 : ev s a v s1 -> ev s1 b w s2 -> ev s (ENe a b) (bz (negb (Z.eqb v w))) s2
  | V_bin s o a b v s1 w s2 u : ev s a v s1 -> ev s1 b w s2 -> arith o v w u -> ev s (EBin o a b) u s2
  | V_comma s a b v s1 w s2 : ev s a v s1 -> ev s1 b w s2 -> ev s (EComma a b) w s2
  | V_cond_t s p a b v s1 w s2 : ev s p v s1 -> v <> 0 -> ev s1 a w s2 -> ev s (ECond p a b) w s2
  | V_cond_f s p a b s1 w s2 : ev s p 0 s1 -> ev s1 b w s2 -> ev s (ECond p a b) w s2
  | V_assign s t x e v s1 s2 : ev s e v s1 -> assigned x v s1 s2 -> ev s (EAssign t x e) v s2
  | V_cast s t e v s' w : ev s e v s' -> (v = 0 -> w = 0) -> (t = Tptr -> w = v) ->
      ev s (ECast t e) w s'
  | V_call s f n a v s' w : ev s a v s' -> honest n v w -> ev s (ECall f n a) w s'.

  (** ** The conditions covered *)

  (** Which lvalues are told apart: chains of fields and dereferences ([dom = true]), or chains of
      fields and elements with constant index ([dom = false]). *)
  Fixpoint exact (dom : bool) (l : lval) : Prop :=
    match l with
    | LVar _ => True
    | LField l _ => exact dom l
    | LDeref l => dom = true /\ exact dom l
    | LIdx l _ => dom = false /\ exact dom l
    | LIdxV _ _ => False
    end.

  (** Values: no assignment and no logical operator inside. *)
  Fixpoint val_expr (e : expr) : Prop :=
    match e with
    | ERef _ _ | ELit _ | EConst _ _ _ => True
    | EParen e | EUn _ e | ECast _ e => val_expr e
    | EBin _ a b => val_expr a /\ val_expr b
    | _ => False
    end.
  (** Not a constant expression: mentions a variable. *)
  Fixpoint variable (e : expr) : Prop :=
    match e with
    | ERef _ _ => True
    | EParen e | EUn _ e | ECast _ e => variable e
    | EBin _ a b => variable a \/ variable b
    | _ => False
    end.
  (** A number other than 0, in parentheses or cast. *)
  Fixpoint number (e : expr) : Prop :=
    match e with
    | ELit z => z <> 0
    | EParen e | ECast _ e => number e
    | _ => False
    end.
  (** A null pointer constant: 0, a constant which is 0, in parentheses or cast. *)
  Fixpoint null_const (e : expr) : Prop :=
    match e with
    | ELit z => z = 0
    | EConst _ c v => const c = 0
    | EParen e | ECast _ e => null_const e
    | _ => False
    end.
  (** Something tested: an lvalue or the assignment of a variable, in parentheses or cast. *)
  Fixpoint tested (dom : bool) (e : expr) : Prop :=
    match e with
    | ERef _ l => exact dom l
    | EAssign _ _ e => val_expr e
    | EParen e | ECast _ e => tested dom e
    | _ => False
    end.

  (** Variables assigned, lvalues tested. *)
  Fixpoint assigns (e : expr) : list nat :=
    match e with
    | ERef _ _ | ELit _ | EConst _ _ _ => []
    | EParen e | ENot e | EUn _ e | ECast _ e | ECall _ _ e => assigns e
    | EAnd a b | EOr a b | EEq a b | ENe a b | EBin _ a b | EComma a b => assigns a ++ assigns b
    | ECond p a b => assigns p ++ assigns a ++ assigns b
    | EAssign _ x e => x :: assigns e
    end.
  Fixpoint mentions (e : expr) : list lval :=
    match e with
    | ERef _ l => [l]
    | ELit _ | EConst _ _ _ => []
    | EParen e | ENot e | EUn _ e | ECast _ e | ECall _ _ e => mentions e
    | EAnd a b | EOr a b | EEq a b | ENe a b | EBin _ a b | EComma a b => mentions a ++ mentions b
    | ECond p a b => mentions p ++ mentions a ++ mentions b
    | EAssign _ x e => LVar x :: mentions e
    end.
  Fixpoint ldirect (l : lval) : Prop :=
    match l with LVar _ => True | LField l _ => ldirect l | _ => False end.
  Fixpoint lroot (l : lval) : nat :=
    match l with LVar x => x | LField l _ | LDeref l | LIdx l _ | LIdxV l _ => lroot l end.
  (** The second operand does not change what the first has tested. *)
  Definition keeps (a b : expr) : Prop :=
    assigns b = [] \/
    forall l, In l (mentions a) -> ldirect l /\ ~ In (lroot l) (assigns b).

  (** The conditions: null tests and other comparisons combined with !, && and ||. *)
  Inductive condition (dom : bool) : expr -> Prop :=
  | C_tested e : tested dom e -> condition dom e
  | C_lit z : condition dom (ELit z)
  | C_const t c v : condition dom (EConst t c v)
  | C_eq_null a b : tested dom a -> null_const b -> condition dom (EEq a b)
  | C_null_eq a b : tested dom b -> null_const a -> condition dom (EEq a b)
  | C_ne_null a b : tested dom a -> null_const b -> condition dom (ENe a b)
  | C_null_ne a b : tested dom b -> null_const a -> condition dom (ENe a b)
  | C_eq a b : val_expr a -> val_expr b -> variable a \/ number a -> variable b \/ number b -> condition dom (EEq a b)
  | C_ne a b : val_expr a -> val_expr b -> variable a \/ number a -> variable b \/ number b -> condition dom (ENe a b)
  | C_rel k a b : val_expr a -> val_expr b -> condition dom (EBin (Brel k) a b)
  | C_call f a : val_expr a -> condition dom (ECall f NPnone a)
  | C_pred f n a : tested dom a -> condition dom (ECall f n a)
  | C_paren e : condition dom e -> condition dom (EParen e)
  | C_not e : condition dom e -> condition dom (ENot e)
  | C_and a b : condition dom a -> condition dom b -> keeps a b -> condition dom (EAnd a b)
  | C_or a b : condition dom a -> condition dom b -> keeps a b -> condition dom (EOr a b).
End Eval.

(** ** Same conclusions from two conditions. *)
Definition same_guards (a b : expr) : Prop :=
  forall r, is_guarded (test_guards a) r = is_guarded (test_guards b) r /\
            must_be_null (test_guards a) r = must_be_null (test_guards b) r.
