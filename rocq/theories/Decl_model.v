(** Model of how the parser builds the type of a declared name from its declarator:
    /repo/src/cgrammar.y:376-463, 1586-1590, 1605-1612, 1665-1695 (grammar actions),
    /repo/src/ctype.c:372-429, 548-590, 725-765, 776-795, 2011-2096, 2296-2309,
    /repo/src/ctbase.i:1801-1841, 1900-1935, 2054-2375, /repo/src/idDecl.c:174-244.

    Types are terms instead of numbers in the type table (C33 shows that a number has
    one such meaning and keeps it).
    Simplifications:
    - [Base] is any type that is not a pointer, array, function or alternate type, and not a
      name defined as one of these (ctype_realType is the identity on it);
    - a parameter list is a number;
    - array sizes are constants whose value is known;
    - qualifiers after '*' and annotations are left out;
    - [None] is an internal error (llbug, llfatalbug, llcontbug or a failed llassert). *)
From Verif Require Import Cbase.

Inductive cty :=
| Unk                               (* ctype_unknown: where the base type will go *)
| Base
| Ptr (t : cty)
| Arr (t : cty)                     (* array of unspecified size *)
| Fix (t : cty) (n : Z)             (* array of n elements *)
| Fcn (t : cty) (ps : Z)            (* function returning t *)
| Exp (t : cty).                    (* CT_EXPFCN: the marker for a parenthesised declarator *)

(** ctype.c:1878-1882  ctype_isAP *)
Definition isAP (t : cty) : bool :=
  match t with Ptr _ | Arr _ | Fix _ _ => true | _ => false end.

(** ctype.c:372-429  ctype_makeInnerFixedArray, ctype_makeInnerArray *)
Fixpoint mkInnerFixed (t : cty) (n : Z) : cty :=
  match t with
  | Fix u k => Fix (mkInnerFixed u n) k
  | Arr u => Arr (mkInnerFixed u n)
  | _ => Fix t n
  end.
Fixpoint mkInner (t : cty) : cty :=
  match t with
  | Fix u k => Fix (mkInner u) k
  | Arr u => Arr (mkInner u)
  | _ => Arr t
  end.

(** ctbase.i:1801-1841  ctbase_makeFunction; for a function or a pointer to one (ctype_isFunction,
    ctbase.i:1920-1938) the new parameters go to the innermost return type. *)
Fixpoint mkF (b : cty) (ps : Z) : cty :=
  match b with
  | Fcn r q => Fcn (mkF r ps) q
  | Ptr (Fcn r q) => Fcn (mkF r ps) q
  | _ => Fcn b ps
  end.

(** ctype.c:730-740  ctype_expectFunction *)
Definition expect (t : cty) : cty := Exp (if isAP t then t else Ptr t).

(** idDecl.c:232-244  idDecl_notExpectingFunction *)
Definition notExpecting (t : cty) : cty := match t with Exp u => u | _ => t end.

(** ctype.c:2011-2068  ctype_getBaseType *)
Fixpoint getBase (t : cty) : cty :=
  match t with Ptr u | Arr u | Fix u _ => getBase u | _ => t end.

(** ctype.c:2295-2309  ctype_removePointers *)
Fixpoint remP (t : cty) : cty :=
  match t with Ptr u | Arr u | Fix u _ => remP u | _ => t end.

(** ctbase.i:2083-2103  ctbase_baseisExpFcn *)
Definition baseisExp (t : cty) : bool :=
  match remP t with
  | Fcn r _ => match remP r with Exp _ => true | _ => false end
  | _ => false
  end.

(** ctbase.i:1900-1938, 2055-2082: the function behind a function or a pointer to one
    (ctbase_realFunction, ctbase_baseFunction, ctbase_argsFunction). *)
Definition asFcn (t : cty) : option (cty * Z) :=
  match t with
  | Fcn r q | Ptr (Fcn r q) => Some (r, q)
  | _ => None
  end.

(** ctbase.i:2230-2287  first loop of ctbase_newBaseExpFcn: the structure inside the
    parentheses, turned inside out. *)
Fixpoint expLoop1 (t : cty) (args : Z) (fp : cty) : option (cty * Z) :=
  match t with
  | Unk => Some (fp, args)
  | Base => None
  | Ptr u => expLoop1 u args (Ptr fp)
  | Arr u | Fix u _ => expLoop1 u args (Arr fp)
  | Fcn r q => Some (mkF fp args, q)
  | Exp w => match w with
             | Unk | Base | Exp _ => None
             | Ptr u => expLoop1 u args (Ptr fp)
             | Arr u | Fix u _ => expLoop1 u args (Arr fp)
             | Fcn r q => Some (mkF fp args, q)
             end
  end.

(** ctbase.i:2293-2331  second loop: pointers outside the parentheses belong to the
    return type. *)
Fixpoint expLoop2 (t p : cty) : option cty :=
  match t with
  | Exp _ => Some p
  | Ptr u => expLoop2 u (Ptr p)
  | Arr u | Fix u _ => expLoop2 u (Arr p)
  | Fcn r q => Some (mkF p q)
  | Unk | Base => None
  end.

(** ctbase.i:2339-2371  third loop *)
Fixpoint expLoop3 (fp ret : cty) : option cty :=
  match fp with
  | Unk | Base => Some ret
  | Ptr u => expLoop3 u (Ptr ret)
  | Arr u | Fix u _ => expLoop3 u (Arr ret)
  | Fcn r q => Some (mkF ret q)
  | Exp _ => None
  end.

Definition obind {A B} (o : option A) (f : A -> option B) : option B :=
  match o with Some a => f a | None => None end.

(** ctbase.i:2190-2375  ctbase_newBaseExpFcn *)
Definition newBaseExp (c p : cty) : option cty :=
  obind (asFcn c) (fun '(r, args) =>
  match getBase r with
  | Exp inner =>
      obind (expLoop1 inner args Unk) (fun '(fp, args') =>
      obind (expLoop2 r p) (fun p' =>
      expLoop3 fp (Fcn p' args')))
  | _ => None
  end).

(** ctbase.i:2111-2188  ctbase_newBase: [p] in place of the innermost type of [c]. *)
Fixpoint newBase (c p : cty) : option cty :=
  match c with
  | Unk => Some p
  | _ =>
      if baseisExp c then newBaseExp c p
      else match c with
           | Unk | Base | Exp _ => Some p
           | Ptr b => option_map Ptr (newBase b p)
           | Fix b n => option_map (fun t => Fix t n) (newBase b p)
           | Arr b => option_map Arr (newBase b p)
           | Fcn r q => option_map (fun t => Fcn t q) (newBase r p)
           end
  end.

Definition ptrs (n : nat) (t : cty) : cty := Nat.iter n Ptr t.

(** ctype.c:2070-2096  ctype_adjustPointers; the pointers are made one by one. *)
Fixpoint adj (n : nat) (c : cty) : option cty :=
  match c with
  | Fcn r q => option_map (fun t => mkF t q) (adj n r)
  | Ptr (Fcn r q) => option_map (fun t => mkF t q) (adj n r)
  | _ => newBase c (ptrs n (getBase c))
  end.

(** Declarators as the grammar has them (cgrammar.y:382-463, 1586-1612): [n] stars only at the
    outermost level or directly inside parentheses, and at least one. *)
Inductive dbase :=
| DId                               (* the name; nothing in an abstract declarator *)
| DPar (d : decl)
| DArr (b : dbase)
| DFix (b : dbase) (n : Z)
| DFun (b : dbase) (ps : Z)
with decl :=
| DBase (b : dbase)
| DStars (n : nat) (b : dbase).

Section Build.
(** Only in declarations of names does a size drop the marker (cgrammar.y:389-403); not in
    abstract declarators (1679-1695) nor in old-style function headers (plainNamedDeclBase, 460-479). *)
Variable named : bool.

(** The grammar actions. *)
Fixpoint build_base (b : dbase) : option cty :=
  match b with
  | DId => Some Unk
  | DPar d => option_map expect (build d)
  | DArr b => option_map mkInner (build_base b)
  | DFix b n => option_map (fun t => mkInnerFixed (if named then notExpecting t else t) n) (build_base b)
  | DFun b ps => option_map (fun t => mkF t ps) (build_base b)
  end
with build (d : decl) : option cty :=
  match d with
  | DBase b => build_base b
  | DStars n b => obind (build_base b) (adj n)
  end.

(** idDecl.c:183-190, qtype.c:197-207  idDecl_fixBase; the declared type. *)
Definition declared (d : decl) : option cty := obind (build d) (fun c => newBase c Base).
End Build.
