(** Model of the combination of type specifiers: src/cgrammar.y 1393-1468 and ctype_combine,
    src/ctype.c 2401-2664.

    Simplifications:
    - alternate types (annotation [alt], 2407-2425) are left out;
    - structures, unions, typedef names and the types of the annotations are [Other n]: for
      ctype_combine they are only different from all the types it mentions;
    - storage classes, const, volatile and annotations are [Qual]: they are kept in a list beside
      the type (qtype_addQual, src/qtype.c 58-69) and do not touch the type;
    - a message is recorded as one of the two flags which guard it. *)
From Coq Require Import List Bool Arith.
From Verif Require Import Prim_model.
Import ListNotations.

(** src/Headers/lctype.h: the types ctype_combine distinguishes. *)
Inductive ct := Unknown | Prim (p : cprim) | Enum (n : nat) | Other (n : nat).

(** src/ctype.c 2401-2664: whether the message is given under the flag duplicatequals
    (voptgenerror) or under syntax (llerror, only when ignorequals is off). *)
Inductive gripe := Duplicate | Contradictory.

(** src/ctype.c, [==] on types. *)
Definition ct_eqb (a b : ct) : bool :=
  match a, b with
  | Unknown, Unknown => true
  | Prim p, Prim q => peq p q
  | Enum n, Enum m | Other n, Other m => Nat.eqb n m
  | _, _ => false
  end.

Section Combine.
(** context_getFlag (FLG_IGNOREQUALS). *)
Variable ignore : bool.

(** src/ctype.c 2523-2529 and the like: llerror unless ignorequals is on. *)
Definition contradict : list gripe := if ignore then [] else [Contradictory].

(** src/ctype.c 2434-2435: an enumeration is taken for an int. *)
Definition enum_int (c : ct) : ct := match c with Enum _ => Prim P_INT | _ => c end.

(** src/ctype.c 2437-2464: the modifier is unsigned. *)
Definition with_uint (d : ct) : ct * list gripe :=
  match d with
  | Prim P_INT => (Prim P_UINT, [])
  | Prim P_LINT => (Prim P_ULINT, [])
  | Prim P_SINT => (Prim P_USINT, [])
  | Prim P_CHAR => (Prim P_UCHAR, [])
  | Prim P_LLINT => (Prim P_ULLINT, [])
  | Prim P_UINT | Prim P_UCHAR => (Prim P_UINT, [Duplicate])
  | _ => (d, [Duplicate])
  end.

(** src/ctype.c 2465-2479: the modifier is long long. *)
Definition with_llint (d : ct) : ct * list gripe :=
  match d with
  | Prim P_INT => (Prim P_LLINT, [])
  | Prim P_UINT => (Prim P_ULLINT, [])
  | _ => (d, [Duplicate])
  end.

(** src/ctype.c 2480-2522: the modifier is long. *)
Definition with_lint (d : ct) : ct * list gripe :=
  match d with
  | Prim P_INT => (Prim P_LINT, [])
  | Prim P_UINT => (Prim P_ULINT, [])
  | Prim P_DOUBLE => (Prim P_LDOUBLE, [])
  | Prim P_LINT => (Prim P_LLINT, [])
  | Prim P_ULINT => (Prim P_ULLINT, [])
  | Prim P_SINT | Prim P_USINT => (Prim P_LINT, contradict)
  | Prim P_LDOUBLE => (Prim P_LINT, [Duplicate])
  | _ => (d, [])
  end.

(** src/ctype.c 2523-2567: the modifier is short. *)
Definition with_sint (d : ct) : ct * list gripe :=
  match d with
  | Prim P_INT => (Prim P_SINT, [])
  | Prim P_UINT => (Prim P_USINT, [])
  | Prim P_SINT | Prim P_USINT => (Prim P_UINT, [Duplicate])
  | _ => (d, contradict)
  end.

(** src/ctype.c 2568-2609: the modifier is unsigned long. *)
Definition with_ulint (d : ct) : ct * list gripe :=
  match d with
  | Prim P_INT => (Prim P_ULINT, [])
  | Prim P_LINT | Prim P_ULINT => (Prim P_ULINT, [Duplicate])
  | Prim P_UINT | Prim P_USINT => (Prim P_ULINT, [Duplicate])
  | _ => (d, contradict)
  end.

(** src/ctype.c 2610-2655: the modifier is unsigned short. *)
Definition with_usint (d : ct) : ct * list gripe :=
  match d with
  | Prim P_INT => (Prim P_USINT, [])
  | Prim P_SINT | Prim P_USINT => (Prim P_USINT, [Duplicate])
  | Prim P_UINT => (Prim P_USINT, [Duplicate])
  | _ => (d, contradict)
  end.

(** src/ctype.c 2401-2664: ctype_combine, the dominant type first.  Modifiers of any other type
    are dropped (2656-2661). *)
Definition combine (d m : ct) : ct * list gripe :=
  if ct_eqb m Unknown then (d, [])
  else if ct_eqb d Unknown then (m, [])
  else match enum_int m with
       | Prim P_UINT => with_uint (enum_int d)
       | Prim P_LLINT => with_llint (enum_int d)
       | Prim P_LINT => with_lint (enum_int d)
       | Prim P_SINT => with_sint (enum_int d)
       | Prim P_ULINT => with_ulint (enum_int d)
       | Prim P_USINT => with_usint (enum_int d)
       | _ => (enum_int d, [])
       end.

(** src/cgrammar.y 1393-1441: the words of which a type is made up. *)
Inductive word :=
  | Short | Long | Signed | Unsigned                       (* typeModifier 1393-1398 *)
  | Char | Int | Float | Double | Void                     (* typeSpecifier 1427-1432 *)
  | EnumSpec (n : nat) | NameSpec (n : nat)                (* enumSpc; typeName and suSpc 1437-1439 *)
  | Qual (n : nat).                                        (* storageSpecifier, typeQualifier *)

(** src/cgrammar.y 1426-1441 and ctype_fromQual, src/ctype.c 2676-2685; the types of the keywords
    are set by the scanner, src/cscanner.l 153-157 (which has no word for CBOOL). *)
Definition word_type (w : word) : ct :=
  match w with
  | Short => Prim P_SINT | Long => Prim P_LINT | Signed => Prim P_INT | Unsigned => Prim P_UINT
  | Char => Prim P_CHAR | Int => Prim P_INT
  | Float => Prim P_FLOAT | Double => Prim P_DOUBLE | Void => Prim P_VOID
  | EnumSpec n => Enum n | NameSpec n => Other n
  | Qual _ => Unknown
  end.

(** src/cgrammar.y 1460-1468: completeTypeSpecifierAux.  The rule recurs on the right, so the words
    are combined from the last to the first. *)
Fixpoint specifiers (ws : list word) : ct * list gripe :=
  match ws with
  | [] => (Unknown, [])
  | w :: ws =>
      let '(t, gs) := specifiers ws in
      match w with
      | Qual _ => (t, gs)
      | _ => let '(t, gs') := combine t (word_type w) in (t, gs ++ gs')
      end
  end.

(** src/ctype.c 2666-2675 ctype_resolve, through qtype_resolve in the rule completeType
    (src/cgrammar.y 1443-1446). *)
Definition resolve (t : ct) : ct := match t with Unknown => Prim P_INT | _ => t end.
Definition complete_type (ws : list word) : ct * list gripe :=
  let '(t, gs) := specifiers ws in (resolve t, gs).
End Combine.
