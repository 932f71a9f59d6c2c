(** Model of the comparison of types: ctbase_genMatch, src/ctbase.i 1287-1600, with ctype_genMatch,
    ctype_match, ctype_matchDef and ctype_matchArg, src/ctype.c 1649-1784, and the functions they
    call.

    Simplifications:
    - a type is a tree, not an index into the table of types (that table is the subject of
      Ctab_model.v); [c1 == c2] on indices (quickMatch) is the function [same], of which the theorems
      only assume that it holds of equal types only;
    - a typedef name, tag or abstract type is a number, [E] gives its entry in the symbol table;
    - tags are numbers, told apart from the tags made up for structures without one;
    - the parameters [force] and [arg] are left out: ctbase_genMatch only passes them on;
    - the calls of llcontbug and llassert are left out, the value returned after them is kept;
    - the recursion has fuel, [None] being the outcome when it is used up. *)
From Coq Require Import List Bool Arith.
From Verif Require Import Prim_model.
Import ListNotations.

(** src/structNames.c: isFakeTag. *)
Inductive sname := NoName | Tag (n : nat) | Fake (n : nat).

(** src/Headers/ctbase.h, src/ctbase.i 61-97: the kinds of types.  [TFcn r None] is a function with
    missing parameters (uentryList_isMissingParams); [TElips] is the type of [...]. *)
Inductive ty :=
  | TUndef | TUnknown | TPrim (p : cprim) | TBool | TEnum (n : nat)
  | TUser (i : nat) | TAbst (i : nat) | TNumAbst (i : nat)
  | TPtr (t : ty) | TArr (t : ty) | TFix (n : nat) (t : ty)
  | TFcn (r : ty) (ps : option (list ty))
  | TSU (union : bool) (name : sname) (fields : list (nat * ty))
  | TConj (a b : ty) | TElips.

(** The entry of a type name: an abstract type (numeric or not) with its representation, a typedef,
    a tag (uentry_isAnyTag), or none. *)
Inductive entry := Abstract (num : bool) (rep : ty) | Typedef (t : ty) | TagOf (t : ty) | NoType.

(** The flags: those of cprim_closeEnough, and abstvoidp, castfcnptr, forwarddecl, boolint and
    enumint. *)
Record mflags := MF {
  prims : tflags; abstvoidp : bool; castfcnptr : bool; forwarddecl : bool;
  boolint : bool; enumint : bool }.

Definition obind {X Y} (o : option X) (k : X -> option Y) : option Y :=
  match o with None => None | Some x => k x end.
(** [||] and [&&]. *)
Definition oor (a b : option bool) : option bool := obind a (fun v => if v then Some true else b).
Definition oand (a b : option bool) : option bool := obind a (fun v => if v then b else Some false).

Section Match.
Variable E : nat -> entry.
(** context_hasAccess, src/context.c 2159-2172; usymtab_isBoolType, src/usymtab.c 1582-1589. *)
Variable access : nat -> bool.
Variable isbool : nat -> bool.
(** context_canAccessBool, src/context.c 2684-2704. *)
Variable boolaccess : bool.
(** What ctype_isBool says of the type whose index is the number of the name (src/ctbase.i
    1377-1386, where [contents.base] is read though [contents.tid] was written). *)
Variable bool_at : nat -> bool.
(** quickMatch, src/ctype.c 1649-1656. *)
Variable same : ty -> ty -> bool.

(** src/ctbase.i 2574-2578: ctbase_isUA, and ctbase_typeId. *)
Definition ua (t : ty) : option nat :=
  match t with TUser i | TAbst i | TNumAbst i => Some i | _ => None end.

(** src/ctype.c 880-899: ctype_isManifestBool. *)
Definition manifest_bool (t : ty) : bool :=
  match t with TBool => true | _ => match ua t with Some i => isbool i | None => false end end.

(** The type of the name itself: uentry_getAbstractType, src/uentry.c 6416-6445. *)
Definition self (num : bool) (i : nat) : ty := if num then TNumAbst i else TAbst i.

(** src/uentry.c 6447-6522: uentry_getRealType. *)
Fixpoint real_id (f : nat) (i : nat) : option ty :=
  match f with
  | O => None
  | S f =>
      let follow (abstract : bool) (t : ty) : option ty :=
        if manifest_bool t then Some TBool
        else match ua t with
             | Some j => if Nat.eqb j i then Some (if abstract then t else TUnknown) else real_id f j
             | None => Some t
             end in
      match E i with
      | NoType => Some TUnknown
      | TagOf t => Some t
      | Abstract num rep =>
          if isbool i then Some TBool
          else if access i then follow true rep else Some (self num i)
      | Typedef t => follow false t
      end
  end.

(** src/ctbase.i 318-341: ctbase_realType. *)
Definition base_real (f : nat) (t : ty) : option ty :=
  match ua t with
  | Some i => if isbool i then Some TBool else real_id f i
  | None => Some t
  end.

(** src/ctype.c 180-203: ctype_realType. *)
Definition type_real (f : nat) (t : ty) : option ty :=
  obind (match ua t with Some i => real_id f i | None => Some t end)
        (fun r => Some (if manifest_bool r && boolaccess then TPrim P_INT else r)).

(** src/ctype.c 794-798: ctype_isVoid. *)
Definition isVoid (t : ty) : bool := match t with TPrim P_VOID => true | _ => false end.

(** src/ctype.c 260-268: ctype_isAbstract; 286-293: ctype_isRealAbstract. *)
Fixpoint isAbstract (t : ty) : bool :=
  match t with
  | TAbst _ | TNumAbst _ => true
  | TConj a b => isAbstract a || isAbstract b
  | _ => false
  end.
Fixpoint isRealAbstract (f : nat) (t : ty) : option bool :=
  oor (obind (type_real f t) (fun r => Some (isAbstract r)))
      (match t with
       | TConj a b => oor (isRealAbstract f a) (isRealAbstract f b)
       | _ => Some false
       end).

(** src/ctype.c 1823-1841: ctype_isPointer, with ctbase_isKind, src/ctbase.i 2528-2541; 1053-1060:
    ctype_isRealPointer. *)
Fixpoint isPointer (t : ty) : bool :=
  match t with TPtr _ => true | TConj a b => isPointer a || isPointer b | _ => false end.
Fixpoint isRealPointer (f : nat) (t : ty) : option bool :=
  match t with
  | TConj a b => oor (isRealPointer f a) (isRealPointer f b)
  | _ => obind (type_real f t) (fun r => Some (isPointer r))
  end.

(** src/ctype.c 775-786: ctype_isFunction, with ctbase_isFunction, src/ctbase.i 1920-1940: a pointer
    to a function counts; 1093-1100: ctype_isRealFunction. *)
Definition isFunction (t : ty) : bool :=
  match t with TFcn _ _ | TPtr (TFcn _ _) => true | _ => false end.
Definition isFunctionReal (f : nat) (t : ty) : option bool :=
  obind (type_real f t) (fun r => Some (isFunction r)).
Fixpoint isRealFunction (f : nat) (t : ty) : option bool :=
  match t with
  | TConj a b => oor (isRealFunction f a) (isRealFunction f b)
  | _ => isFunctionReal f t
  end.

(** src/usymtab.c 5472-5503: usymtab_matchForwardStruct. *)
Definition isAnyTag (i : nat) : bool := match E i with TagOf _ => true | _ => false end.
Definition entry_type (i : nat) : ty :=
  match E i with Abstract _ t | Typedef t | TagOf t => t | NoType => TUnknown end.
Definition matchForwardStruct (u1 u2 : nat) : bool :=
  isAnyTag u2 &&
  match entry_type u1 with
  | TPtr b =>
      match ua b with
      | Some r => Nat.eqb u2 r
                  || match ua (entry_type r) with Some k => Nat.eqb u2 k | None => false end
      | None => false
      end
  | _ => false
  end.
(** src/ctbase.i 1445-1484: one of the two directions. *)
Definition forward (t1 t2 : ty) : bool :=
  match ua t1, t2 with
  | Some i, (TPtr b | TArr b) => match ua b with Some j => matchForwardStruct i j | None => false end
  | _, _ => false
  end.

(** Elementwise, from the left. *)
Fixpoint all2 {X} (f : X -> X -> option bool) (l1 l2 : list X) : option bool :=
  match l1, l2 with
  | [], [] => Some true
  | x :: l1, y :: l2 => oand (f x y) (all2 f l1 l2)
  | _, _ => Some false
  end.

Section Step.
Variable fl : mflags.
(** The recursive calls: ctbase_genMatch and ctype_almostEqual. *)
Variable rec : bool -> bool -> ty -> ty -> option bool.
Variable almost_rec : ty -> ty -> option bool.
Variable f : nat.

(** src/ctype.c 1658-1679: ctype_genMatch. *)
Definition typeMatch (def deep : bool) (t1 t2 : ty) : option bool :=
  match t1, t2 with
  | TElips, TElips => Some true
  | TElips, _ | _, TElips => Some false
  | _, _ => if same t1 t2 then Some true else rec def deep t1 t2
  end.

(** src/uentryList.c 190-217: uentryList_matchParams. *)
Definition matchParams (p1 p2 : option (list ty)) : option bool :=
  match p1, p2 with
  | Some l1, Some l2 => all2 (typeMatch false false) l1 l2
  | _, _ => Some true
  end.

(** src/uentryList.c 861-899: uentryList_matchFields. *)
Definition matchFields (l1 l2 : list (nat * ty)) : option bool :=
  match l1, l2 with
  | [], _ | _, [] => Some true
  | _, _ =>
      if Nat.eqb (List.length l1) (List.length l2) then
        all2 (fun x y => if Nat.eqb (fst x) (fst y) then almost_rec (snd x) (snd y) else Some false)
             l1 l2
      else Some false
  end.

(** src/ctbase.i 1343-1347, 1357-1362, 1515-1520: pointers to void. *)
Definition void_ptr (b1 b2 : ty) : option bool :=
  if abstvoidp fl then Some true
  else oand (obind (isRealAbstract f b1) (fun v => Some (negb v)))
            (obind (isRealAbstract f b2) (fun v => Some (negb v))).

(** src/ctbase.i 1505-1537. *)
Definition ptrs (def : bool) (b1 b2 : ty) : option bool :=
  if isVoid b1 || isVoid b2 then
    obind (oor (isFunctionReal f b1) (isFunctionReal f b2))
      (fun fcn => if fcn then Some (negb (castfcnptr fl)) else void_ptr b1 b2)
  else
    obind (isRealPointer f b1) (fun p1 =>
    obind (isRealPointer f b2) (fun p2 =>
    obind (if Bool.eqb p1 p2 then Some false else oor (isRealFunction f b1) (isRealFunction f b2))
      (fun bad => if bad then Some false else typeMatch def true b1 b2))).

(** src/ctbase.i 1545-1548. *)
Definition arrays (def : bool) (b1 b2 : ty) : option bool :=
  if isVoid b1 || isVoid b2 then Some true else typeMatch def true b1 b2.

(** src/ctbase.i 1549-1555. *)
Definition functions (def : bool) (r1 : ty) (p1 : option (list ty)) (r2 : ty) (p2 : option (list ty))
  : option bool := oand (typeMatch def true r1 r2) (matchParams p1 p2).

(** src/ctbase.i 1491-1599: two types of one kind; [None] as a result of the match on the types
    stands for kinds that differ. *)
Definition one_kind (def deep : bool) (c1 c2 : ty) : option (option bool) :=
  match c1, c2 with
  | TUnknown, TUnknown => Some (Some true)
  | TPrim p, TPrim q =>
      Some (Some (if deep then closeEnoughDeep (prims fl) p q else closeEnough (prims fl) p q))
  | TBool, TBool => Some (Some true)
  | TAbst i, TAbst j | TNumAbst i, TNumAbst j | TUser i, TUser j => Some (Some (Nat.eqb i j))
  | TEnum i, TEnum j => Some (Some (Nat.eqb i j))
  | TPtr b1, TPtr b2 => Some (ptrs def b1 b2)
  | TFix _ b1, TFix _ b2 =>
      Some (if isVoid b1 || isVoid b2 then Some true else typeMatch def deep b1 b2)
  | TArr b1, TArr b2 => Some (arrays def b1 b2)
  | TFcn r1 p1, TFcn r2 p2 => Some (functions def r1 p1 r2 p2)
  | TSU u1 n1 f1, TSU u2 n2 f2 =>
      if Bool.eqb u1 u2 then
        Some (match n1, n2 with
              | Fake i, Fake j => if Nat.eqb i j then Some true else matchFields f1 f2
              | Tag i, Tag j => Some (Nat.eqb i j)
              | _, _ => Some false
              end)
      else None
  | TElips, TElips => Some (Some false)
  | _, _ => None
  end.

(** src/ctbase.i 1335-1364: a fixed array, and an array or pointer. *)
Definition fixed (def deep : bool) (voided : ty) (b1 b2 : ty) : option bool :=
  if isVoid voided then void_ptr b1 b2 else rec def deep b1 b2.

(** src/ctbase.i 1366-1490: two types of different kinds, none of them unknown, and not a fixed
    array with an array or pointer. *)
Definition other_kinds (def : bool) (c1 c2 : ty) : option bool :=
  match c1, c2 with
  | TBool, TPrim p | TPrim p, TBool => Some (isInt (prims fl) p && boolint fl)
  | TBool, (TUser i | TAbst i | TNumAbst i) | (TUser i | TAbst i | TNumAbst i), TBool =>
      Some (bool_at i)
  | TEnum _, TPrim p | TPrim p, TEnum _ => Some (isInt (prims fl) p && enumint fl)
  | TPtr b1, TArr b2 => if def then Some false else ptrs def b1 b2
  | TArr b1, TPtr b2 => if def then Some false else arrays def b1 b2
  | TPtr b1, TFcn r2 p2 =>
      obind (isFunctionReal f b1) (fun fcn =>
        if fcn then
          obind (base_real f b1) (fun c1 =>
            match c1 with TFcn r1 p1 => functions def r1 p1 r2 p2 | _ => Some false end)
        else Some false)
  | TFcn r1 p1, TPtr b2 =>
      obind (isFunctionReal f b2) (fun fcn =>
        if fcn then
          obind (base_real f b2) (fun c2 =>
            match c2 with TFcn r2 p2 => functions def r1 p1 r2 p2 | _ => Some false end)
        else Some false)
  | _, _ => Some (forwarddecl fl && (forward c1 c2 || forward c2 c1))
  end.

(** src/ctbase.i 1324-1600: two types which are neither undefined, nor names with another real type,
    nor alternatives. *)
Definition kinds (def deep : bool) (c1 c2 : ty) : option bool :=
  match one_kind def deep c1 c2 with
  | Some r => r
  | None =>
      match c1, c2 with
      | TUnknown, _ | _, TUnknown => Some true
      | TFix _ b1, TArr b2 => fixed def deep b2 b1 b2
      | TArr b1, TFix _ b2 => fixed def deep b1 b1 b2
      | TFix _ b1, TPtr b2 => if def then other_kinds def c1 c2 else fixed def deep b2 b1 b2
      | TPtr b1, TFix _ b2 => if def then other_kinds def c1 c2 else fixed def deep b1 b1 b2
      | _, _ => other_kinds def c1 c2
      end
  end.

(** src/ctbase.i 1287-1322. *)
Definition undef (t : ty) : bool := match t with TUndef => true | _ => false end.
Definition conj_parts (t : ty) : option (ty * ty) :=
  match t with TConj a b => Some (a, b) | _ => None end.
Definition gen_step (def deep : bool) (c1 c2 : ty) : option bool :=
  if undef c1 || undef c2 then Some false
  else
    obind (base_real f c1) (fun c1 =>
    obind (base_real f c2) (fun c2 =>
      match conj_parts c1 with
      | Some (a, b) => oor (rec def deep a c2) (rec def deep b c2)
      | None =>
          match conj_parts c2 with
          | Some (a, b) => oor (rec def deep c1 a) (rec def deep c1 b)
          | None => kinds def deep c1 c2
          end
      end)).

(** src/ctype.c 1690-1712 and src/ctbase.i 2580-2652: ctype_almostEqual and ctbase_almostEqual. *)
Definition almost_step (t1 t2 : ty) : option bool :=
  if same t1 t2 then Some true
  else match t1, t2 with
  | TUnknown, TUnknown => Some true
  | TFix _ b1, TArr b2 | TArr b1, TFix _ b2 | TPtr b1, TPtr b2 | TArr b1, TArr b2
  | TFix _ b1, TFix _ b2 => almost_rec b1 b2
  | TPrim p, TPrim q => Some (peq p q)
  | TBool, TBool => Some true
  | TAbst i, TAbst j | TNumAbst i, TNumAbst j | TUser i, TUser j | TEnum i, TEnum j =>
      Some (Nat.eqb i j)
  | TFcn r1 p1, TFcn r2 p2 => oand (almost_rec r1 r2) (matchParams p1 p2)
  | TSU u1 n1 _, TSU u2 n2 _ =>
      Some (Bool.eqb u1 u2
            && match n1, n2 with
               | Tag i, Tag j | Fake i, Fake j => Nat.eqb i j
               | _, _ => false
               end)
  | _, _ => Some false
  end.
End Step.

Fixpoint gen (fl : mflags) (f : nat) (def deep : bool) (c1 c2 : ty) : option bool :=
  match f with
  | O => None
  | S f => gen_step fl (gen fl f) (almost fl f) f def deep c1 c2
  end
with almost (fl : mflags) (f : nat) (t1 t2 : ty) : option bool :=
  match f with
  | O => None
  | S f => almost_step (gen fl f) (almost fl f) t1 t2
  end.

(** src/ctype.c 1741-1753: ctype_match, with ctbase_match, src/ctbase.i 1612-1615. *)
Definition match_ (fl : mflags) (f : nat) (t1 t2 : ty) : option bool :=
  match t1, t2 with
  | TElips, TElips | TElips, TUnknown => Some true
  | TElips, _ | _, TElips => Some false
  | _, _ => if same t1 t2 then Some true else gen fl f false false t1 t2
  end.

(** src/ctype.c 1714-1739: ctype_matchDef, which turns relaxquals off. *)
Definition without_relaxquals (fl : mflags) : mflags :=
  let t := prims fl in
  MF (TF (relaxtypes t) (ignorequals t) (ignoresigns t) false (floatdouble t) (matchanyintegral t)
         (charint t) (shortint t) (longint t) (longintegral t) (longunsignedintegral t)
         (longunsignedunsignedintegral t) (longsignedintegral t))
     (abstvoidp fl) (castfcnptr fl) (forwarddecl fl) (boolint fl) (enumint fl).
Definition matchDef (fl : mflags) (f : nat) (t1 t2 : ty) : option bool :=
  match t1, t2 with
  | TElips, TElips | TElips, TUnknown => Some true
  | TElips, _ | _, TElips => Some false
  | _, _ => if same t1 t2 then Some true else gen (without_relaxquals fl) f true false t1 t2
  end.
End Match.
