(** Checking of initializers with braces (exprNode_checkOneInit, src/exprNode.c 8300-8550;
    grammar of initializers src/cgrammar.y 1199-1232).

    Modelled: the recursion over type and initializer, the counts of elements and fields, the
    flags, the limit on the number of errors of an array, designated initializers.

    Simplified: types are finite trees with typedefs resolved (all tests of the code look at
    the real type); whether a value may initialize an object of a type without braces
    (exprNode_matchType) and whether it is a string are parameters; gentypeerror is one flag;
    what doAssign reports about null, definition and ownership is left out, as are variables
    of unknown type. *)
From Verif Require Import Cbase.
Open Scope nat_scope.

(** Types: [TChar] and other scalars, pointers, arrays with or without a size, structures with
    the types of their fields, unions (at least one field). *)
Inductive ty :=
| TChar | TScalar (k : nat)
| TPtr (t : ty)
| TArr (t : ty) (n : option nat)
| TStruct (fs : list ty)
| TUnion (f : ty) (others : list ty).

(** Initializers (cgrammar.y 1199-1232): an expression, a block, or one with a designation
    (index or position [d]), which the grammar turns into an undefined expression. *)
Inductive init {leaf : Type} :=
| Leaf (l : leaf)
| Block (vs : list init)
| Desig (d : nat) (v : init).
Arguments init : clear implicits.

(** Messages (exprNode.c 8343-8356, 8398-8404, 8424-8450, 8493-8500, 8522-8528, 8540-8547). *)
Inductive imsg :=
| TooMany | TooFew          (* elements of an array *)
| FieldsFew | FieldsMany    (* fields of a structure *)
| UnionCount | NotAggregate | BadValue | Additional.

(** The flags read. *)
Record iflags := { initsize : bool; initallelements : bool; fullinitblock : bool; type_ : bool }.

(** Where the message is (element or field numbers from the variable on) and what it says. *)
Definition imsgs := list (list nat * imsg).
Definition under (k : nat) (ms : imsgs) : imsgs := map (fun pm => (k :: fst pm, snd pm)) ms.

(** optgenerror: reports and returns TRUE if the flag is on. *)
Definition rep (b : bool) (m : imsg) : imsgs := if b then [([], m)] else [].

Section Check.
Variable leaf : Type.
(** exprNode_matchType (exprNode.c 9972-9991). *)
Variable matches : ty -> leaf -> bool.
(** ctype_isString of the type of the expression. *)
Variable is_string : leaf -> bool.
Variable fl : iflags.

(** ctype_isChar of the type of the elements. *)
Definition is_char (t : ty) : bool := match t with TChar => true | _ => false end.
(** A block has unknown type, which is no string (exprNode_makeInitBlock, exprNode.c 3967-3976). *)
Definition str_value (v : init leaf) : bool := match v with Leaf l => is_string l | _ => false end.

(** The size of a fixed array against the number of values (exprNode.c 8333-8356; a block is
    never a string literal, so the test of 8337 fails). *)
Definition size_msgs (n : option nat) (have : nat) : imsgs :=
  match n with
  | Some k => if k =? have then [] else if k <? have then rep (initsize fl) TooMany
              else rep (initallelements fl) TooFew
  | None => []
  end.

(** The loop over the values of an array (exprNode.c 8360-8412): [i] and [nerrors]. *)
Definition elements (chk : init leaf -> imsgs) (total : nat) (char_elt : bool) :=
  fix go (vs : list (init leaf)) (i nerrors : nat) {struct vs} : imsgs :=
    match vs with
    | [] => []
    | v :: r =>
        if (total =? 1) && str_value v && char_elt then go r (S i) nerrors
        else match chk v with
             | [] => go r (S i) nerrors
             | ms => if (3 <? S nerrors) && (6 <? total)
                     then under i ms ++ [([], Additional)]
                     else under i ms ++ go r (S i) (S nerrors)
             end
    end.

(** The loop over the fields of a structure (exprNode.c 8453-8472). *)
Definition fields (chk : ty -> init leaf -> imsgs) :=
  fix go (vs : list (init leaf)) (fs : list ty) (i : nat) {struct vs} : imsgs :=
    match vs, fs with
    | v :: r, f :: fr => under i (chk f v) ++ go r fr (S i)
    | _, _ => []
    end.

(** exprNode_checkOneInit (exprNode.c 8300-8550). *)
Fixpoint check (t : ty) (v : init leaf) {struct v} : imsgs :=
  match v with
  | Desig _ _ => []
  | Leaf l => if matches t l then [] else rep (type_ fl) BadValue
  | Block vs =>
      match t with
      | TArr e n => size_msgs n (List.length vs) ++ elements (check e) (List.length vs) (is_char e) vs 0 0
      | TPtr e => elements (check e) (List.length vs) (is_char e) vs 0 0
      | TStruct fs =>
          if List.length vs <? List.length fs then rep (fullinitblock fl) FieldsFew
          else if List.length fs <? List.length vs then rep (type_ fl) FieldsMany
          else fields check vs fs 0
      | TUnion f _ =>
          match vs with
          | [w] => under 0 (check f w)
          | _ => rep (type_ fl) UnionCount
          end
      | TChar | TScalar _ => rep (type_ fl) NotAggregate
      end
  end.
End Check.
