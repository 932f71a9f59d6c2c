(** What it means for the body of a function to modify only what its modifies clause lists: storage,
    the execution of programs, and the objects a clause stands for. *)
From Verif Require Import Cbase Mods_model.
From Coq Require Import List ZArith Arith Bool.
Import ListNotations.
Open Scope nat_scope.

(** ** Storage *)
(** Storage starts at a local variable, a global, an object which exists when the function is entered,
    an object created by the function, or a parameter of a called function.  An object is an array with
    all its elements (a variable is an array of one element); a member of an element is an object again. *)
Inductive root := RLoc (x : var) | RGlob (g : glob) | RHeap (n : nat) | RNew (n : nat) | RArg (i : nat).
Inductive obj := Root (r : root) | Sub (o : obj) (k : Z) (f : fld).
Definition loc := (obj * Z)%type.
Inductive val := VNum (z : Z) | VPtr (l : loc).
Definition mem := loc -> val.
Fixpoint rootObj (o : obj) : root := match o with Root r => r | Sub o _ _ => rootObj o end.
(** What the caller of the function can see. *)
Definition visible (o : obj) : Prop :=
  match rootObj o with RGlob _ | RHeap _ => True | _ => False end.
Definition isNum (v : val) : Prop := match v with VNum _ => True | VPtr _ => False end.

Definition obj_eq_dec (a b : obj) : {a = b} + {a <> b}.
Proof. repeat decide equality. Defined.
Definition loc_eq_dec (a b : loc) : {a = b} + {a <> b}.
Proof. decide equality; [apply Z.eq_dec | apply obj_eq_dec]. Defined.
Definition upd (m : mem) (l : loc) (v : val) : mem := fun l' => if loc_eq_dec l' l then v else m l'.
Definition updAll (m : mem) (ws : list (loc * val)) : mem :=
  fold_left (fun m w => upd m (fst w) (snd w)) ws m.

Definition cell (x : var) : loc := (Root (RLoc x), 0%Z).
(** Where a place is; an index which is not a constant may have any value. *)
Inductive at_ (m : mem) : place -> loc -> Prop :=
| at_var x : at_ m (PVar x) (cell x)
| at_glob g : at_ m (PGlob g) (Root (RGlob g), 0%Z)
| at_deref p l l1 : at_ m p l -> m l = VPtr l1 -> at_ m (PDeref p) l1
| at_idx p l o k i j : at_ m p l -> m l = VPtr (o, k) ->
    match i with Some z => j = z | None => True end -> at_ m (PIdx p i) (o, (k + j)%Z)
| at_fld p o k f : at_ m p (o, k) -> at_ m (PFld p f) (Sub o k f, 0%Z).
Inductive ev (m : mem) : pexp -> val -> Prop :=
| ev_at p l : at_ m p l -> ev m (EAt p) (m l)
| ev_addr p l : at_ m p l -> ev m (EAddr p) (VPtr l)
| ev_new n : ev m ENew (VPtr (Root (RNew n), 0%Z))
| ev_null : ev m ENull (VNum 0).

(** ** What a clause stands for *)
(** The objects an item of a clause names, where parameter [i] is kept in object [fr i]. *)
Fixpoint denotes (m : mem) (fr : var -> obj) (c : cplace) (o : obj) : Prop :=
  match c with
  | CParam i => o = fr i
  | CGlob g => o = Root (RGlob g)
  | CDeref c | CIdx c _ => exists o' k k', denotes m fr c o' /\ m (o', k) = VPtr (o, k')
  | CFld c f => exists o' k, denotes m fr c o' /\ o = Sub o' k f
  end.
(** Those, and everything reached from them. *)
Inductive below (m : mem) (fr : var -> obj) (c : cplace) : obj -> Prop :=
| below_here o : denotes m fr c o -> below m fr c o
| below_deref o' k o k' : below m fr c o' -> m (o', k) = VPtr (o, k') -> below m fr c o
| below_fld o k f : below m fr c o -> below m fr c (Sub o k f).
Definition may (m : mem) (fr : var -> obj) (cl : list cplace) (o : obj) : Prop :=
  exists c, In c cl /\ below m fr c o.
Definition ownFrame (i : var) : obj := Root (RLoc i).
(** What a function may modify: what its clause lists, and what is reached from the parameters which
    are annotated only, in the storage as it is when the function is entered. *)
Definition allowed (m0 : mem) (onlyParam : var -> bool) (clause : list cplace) (o : obj) : Prop :=
  may m0 ownFrame clause o \/ exists i, onlyParam i = true /\ below m0 ownFrame (CParam i) o.

(** ** Execution *)
(** Storage as a called function finds it. *)
Definition callMem (m : mem) (vs : list val) : mem :=
  fun l => match l with
           | (Root (RArg i), 0%Z) => nth i vs (VNum 0)
           | _ => m l
           end.
Definition callFrame (i : var) : obj := Root (RArg i).
(** [run stores m l w m']: the statements [l] lead from [m] to [m'] and write the objects [w].  Called
    functions write what their clause lists, and those without a clause write anything; the values
    which they store are restricted by [stores]. *)
Inductive run (stores : val -> Prop) : mem -> list stmt -> list obj -> mem -> Prop :=
| run_nil m : run stores m [] [] m
| run_num m p l z r w m' : at_ m p l -> run stores (upd m l (VNum z)) r w m' ->
    run stores m (Num p :: r) (fst l :: w) m'
| run_set m p e l v r w m' : at_ m p l -> ev m e v -> run stores (upd m l v) r w m' ->
    run stores m (Set_ p e :: r) (fst l :: w) m'
| run_call m cl args vs ws r w m' : Forall2 (ev m) args vs ->
    Forall (fun a => may (callMem m vs) callFrame cl (fst (fst a)) /\ stores (snd a)) ws ->
    run stores (updAll m ws) r w m' ->
    run stores m (Call (Some cl) args :: r) (map (fun a => fst (fst a)) ws ++ w) m'
| run_call_any m args vs ws r w m' : Forall2 (ev m) args vs -> Forall (fun a => stores (snd a)) ws ->
    run stores (updAll m ws) r w m' ->
    run stores m (Call None args :: r) (map (fun a => fst (fst a)) ws ++ w) m'
| run_if_t m a b r w1 m1 w2 m' : run stores m a w1 m1 -> run stores m1 r w2 m' ->
    run stores m (If a b :: r) (w1 ++ w2) m'
| run_if_f m a b r w1 m1 w2 m' : run stores m b w1 m1 -> run stores m1 r w2 m' ->
    run stores m (If a b :: r) (w1 ++ w2) m'
| run_while_0 m a r w m' : run stores m r w m' -> run stores m (While a :: r) w m'
| run_while_s m a r w1 m1 w2 m' : run stores m a w1 m1 -> run stores m1 (While a :: r) w2 m' ->
    run stores m (While a :: r) (w1 ++ w2) m'.

(** ** Programs and storage covered *)
Inductive vkind := KInt | KPtr | KStruct.
Definition isSub (o : obj) : bool := match o with Sub _ _ _ => true | Root _ => false end.
(** When the function is entered, pointers are held only by what the caller can see and by parameters
    declared as pointers or structures, and they point to what the caller can see. *)
Definition entryMem (np : nat) (kind : var -> vkind) (m0 : mem) : Prop :=
  forall o k o' k', m0 (o, k) = VPtr (o', k') ->
    visible o' /\
    (visible o \/ exists i, i < np /\ rootObj o = RLoc i /\
       ((kind i = KPtr /\ o = Root (RLoc i) /\ k = 0%Z) \/ (kind i = KStruct /\ isSub o = true))).
(** No two different ways lead to the same object when the function is entered. *)
Fixpoint shape (c : cplace) : cplace :=
  match c with
  | CParam _ | CGlob _ => c
  | CDeref c | CIdx c _ => CDeref (shape c)
  | CFld c f => CFld (shape c) f
  end.
Definition unaliased (m0 : mem) : Prop :=
  forall c c' o, denotes m0 ownFrame c o -> denotes m0 ownFrame c' o -> shape c = shape c'.

Fixpoint rootPlace (p : place) : place :=
  match p with
  | PVar _ | PGlob _ => p
  | PDeref p | PIdx p _ | PFld p _ => rootPlace p
  end.
Fixpoint steps (p : place) : nat :=
  match p with
  | PVar _ | PGlob _ => 0
  | PDeref p | PIdx p _ | PFld p _ => S (steps p)
  end.
Definition stepsExp (e : pexp) : nat :=
  match e with EAt p => steps p | EAddr p => S (steps p) | _ => 0 end.
Fixpoint csteps (c : cplace) : nat :=
  match c with CParam _ | CGlob _ => 0 | CDeref c | CIdx c _ | CFld c _ => S (csteps c) end.
(** The address of a variable is taken only if it holds numbers. *)
Definition plainExp (kind : var -> vkind) (e : pexp) : Prop :=
  match e with
  | EAddr (PVar y) => kind y = KInt
  | _ => True
  end.
Definition notFrom (x : var) (e : pexp) : Prop :=
  match e with
  | EAt p | EAddr p => rootPlace p <> PVar x
  | _ => True
  end.
Fixpoint noSet (c : stmt) : Prop :=
  match c with
  | Num _ | Call _ _ => True
  | Set_ _ _ => False
  | If a b => (fix go l := match l with [] => True | c :: l => noSet c /\ go l end) a /\
              (fix go l := match l with [] => True | c :: l => noSet c /\ go l end) b
  | While a => (fix go l := match l with [] => True | c :: l => noSet c /\ go l end) a
  end.
(** Programs in which pointers are stored only in variables declared as pointers, never from a place
    which starts at the same variable, in which places have at most seven steps, and in which pointers
    are not stored within loops.  Calls of functions without a clause are reported (flag moduncon). *)
Fixpoint tame (kind : var -> vkind) (uncon : bool) (c : stmt) : Prop :=
  match c with
  | Num p => steps p < searchLimit
  | Set_ (PVar x) e => kind x = KPtr /\ plainExp kind e /\ notFrom x e /\ stepsExp e < searchLimit
  | Set_ _ _ => False
  | Call (Some cl) args =>
      Forall (plainExp kind) args /\
      Forall (fun c => Forall (fun e => csteps c + stepsExp e < searchLimit) args) cl
  | Call None _ => uncon = true
  | If a b => (fix go l := match l with [] => True | c :: l => tame kind uncon c /\ go l end) a /\
              (fix go l := match l with [] => True | c :: l => tame kind uncon c /\ go l end) b
  | While a => (fix go l := match l with [] => True | c :: l => tame kind uncon c /\ go l end) a /\
               (fix go l := match l with [] => True | c :: l => noSet c /\ go l end) a
  end.
Definition tameBody (kind : var -> vkind) (uncon : bool) (l : list stmt) : Prop := Forall (tame kind uncon) l.

(** *** Where messages are exact *)
(** Places in which only variables declared as pointers are followed, and members are not taken of them;
    without indices if [ad]. *)
Fixpoint typedPlace (kind : var -> vkind) (ad : bool) (p : place) : Prop :=
  match p with
  | PVar _ | PGlob _ => True
  | PDeref p => typedPlace kind ad p /\ match p with PVar x => kind x = KPtr | _ => True end
  | PIdx p _ => ad = false /\ typedPlace kind ad p /\ match p with PVar x => kind x = KPtr | _ => True end
  | PFld p _ => typedPlace kind ad p /\ match p with PVar x => kind x <> KPtr | _ => True end
  end.
(** A place outside the variables of the function. *)
Fixpoint outside (p : place) : Prop :=
  match p with PVar _ => False | PGlob _ | PDeref _ | PIdx _ _ => True | PFld p _ => outside p end.
(** Addresses are taken (only if [ad]) of what is not a parameter or a member of a variable. *)
Definition typedExp (np : nat) (kind : var -> vkind) (ad : bool) (e : pexp) : Prop :=
  match e with
  | EAt p => typedPlace kind ad p /\ match p with PVar y => kind y = KPtr | _ => True end
  | EAddr p => ad = true /\ typedPlace kind ad p /\ match p with PVar y => np <= y | _ => outside p end
  | ENew | ENull => True
  end.
(** What a clause lists of a parameter is what is found by following it. *)
Fixpoint outsideItem (c : cplace) : Prop :=
  match c with CParam _ => False | CGlob _ | CDeref _ | CIdx _ _ => True | CFld c _ => outsideItem c end.
Fixpoint typedItem (ad : bool) (c : cplace) : Prop :=
  match c with
  | CParam _ | CGlob _ => True
  | CDeref c => typedItem ad c
  | CFld c _ => typedItem ad c /\ outsideItem c
  | CIdx c _ => ad = false /\ typedItem ad c
  end.
Fixpoint typed (np : nat) (kind : var -> vkind) (ad : bool) (c : stmt) : Prop :=
  match c with
  | Num p => typedPlace kind ad p
  | Set_ p e => typedPlace kind ad p /\ typedExp np kind ad e
  | Call (Some cl) args => Forall (typedExp np kind ad) args /\ Forall (fun c => typedItem ad c /\ outsideItem c) cl
  | Call None _ => True
  | If a b => (fix go l := match l with [] => True | c :: l => typed np kind ad c /\ go l end) a /\
              (fix go l := match l with [] => True | c :: l => typed np kind ad c /\ go l end) b
  | While a => (fix go l := match l with [] => True | c :: l => typed np kind ad c /\ go l end) a
  end.
Definition straight (c : stmt) : Prop :=
  match c with Num _ | Set_ _ _ | Call (Some _) _ => True | _ => False end.
Fixpoint noCall (c : stmt) : Prop :=
  match c with
  | Num _ | Set_ _ _ => True
  | Call _ _ => False
  | If a b => (fix go l := match l with [] => True | c :: l => noCall c /\ go l end) a /\
              (fix go l := match l with [] => True | c :: l => noCall c /\ go l end) b
  | While a => (fix go l := match l with [] => True | c :: l => noCall c /\ go l end) a
  end.
(** Wherever the statement stores, and whatever an item of the clause of the function it calls stands for,
    is seen by the caller and must not be modified. *)
Definition forbidden (m0 : mem) (onlyParam : var -> bool) (clause : list cplace) (m : mem) (c : stmt) : Prop :=
  match c with
  | Num p => forall l, at_ m p l -> visible (fst l) /\ ~ allowed m0 onlyParam clause (fst l)
  | Call (Some cl) args =>
      exists c, In c cl /\ forall vs o, Forall2 (ev m) args vs -> denotes (callMem m vs) callFrame c o ->
        visible o /\ ~ allowed m0 onlyParam clause o
  | _ => False
  end.
