(** Types of C and when a value of one may be used where another is expected, apart from qualifiers
    (ISO C90 6.1.2.6, 6.2.2.1, 6.3.16.1), with abstract types as types of their own. *)
From Coq Require Import List Bool Arith.
From Verif Require Import Prim_model Prim_spec Match_model.
Import ListNotations.

(** Types without names for them.  [CArr None]: an array of unknown size; [CDots] stands for [...]
    at the end of the parameters; [CFun r None]: a function declared without parameters. *)
Inductive cty :=
  | CArith (p : cprim) | CVoid | CBool | CEnum (n : nat) | CRec (union : bool) (n : nat)
  | CAbs (i : nat)
  | CPtr (x : cty) | CArr (size : option nat) (x : cty) | CFun (r : cty) (ps : option (list cty))
  | CDots.

Definition opt_nat_eqb (a b : option nat) : bool :=
  match a, b with Some n, Some m => Nat.eqb n m | None, None => true | _, _ => false end.

(** The two types are one type. *)
Fixpoint cty_eqb (x y : cty) {struct x} : bool :=
  match x, y with
  | CArith p, CArith q => peq p q
  | CVoid, CVoid | CBool, CBool | CDots, CDots => true
  | CEnum n, CEnum m | CAbs n, CAbs m => Nat.eqb n m
  | CRec u n, CRec v m => Bool.eqb u v && Nat.eqb n m
  | CPtr x, CPtr y => cty_eqb x y
  | CArr n x, CArr m y => opt_nat_eqb n m && cty_eqb x y
  | CFun r None, CFun s None => cty_eqb r s
  | CFun r (Some ps), CFun s (Some qs) =>
      cty_eqb r s &&
      (fix all (ps qs : list cty) : bool :=
         match ps, qs with
         | [], [] => true
         | p :: ps, q :: qs => cty_eqb p q && all ps qs
         | _, _ => false
         end) ps qs
  | _, _ => false
  end.

(** Compatible types (6.1.2.6): a function declared without parameters is compatible with one that
    has parameters. *)
Fixpoint compatible (x y : cty) {struct x} : bool :=
  match x, y with
  | CPtr x, CPtr y => compatible x y
  | CArr n x, CArr m y =>
      match n, m with Some n, Some m => Nat.eqb n m | _, _ => true end && compatible x y
  | CFun r ps, CFun s qs =>
      compatible r s &&
      match ps, qs with
      | Some ps, Some qs =>
          (fix all (ps qs : list cty) : bool :=
             match ps, qs with
             | [], [] => true
             | p :: ps, q :: qs => compatible p q && all ps qs
             | _, _ => false
             end) ps qs
      | _, _ => true
      end
  | _, _ => cty_eqb x y
  end.

(** Arrays and functions are converted to pointers when they are used (6.2.2.1). *)
Definition decay (x : cty) : cty :=
  match x with CArr _ x => CPtr x | CFun _ _ => CPtr x | _ => x end.

Definition is_fun (x : cty) : bool := match x with CFun _ _ => true | _ => false end.
Definition is_abs (x : cty) : bool := match x with CAbs _ => true | _ => false end.

(** A value of type [y] where [x] is expected: the same type, or a wider arithmetic type ([widens]),
    or pointers to compatible types, or pointers of which one is a pointer to void and the other
    points neither to a function nor to a value of an abstract type (6.3.16.1). *)
Definition passes (widens : cprim -> cprim -> bool) (x y : cty) : bool :=
  match decay x, decay y with
  | CArith p, CArith q => widens p q
  | CPtr CVoid, CPtr b => negb (is_fun b) && negb (is_abs b)
  | CPtr a, CPtr CVoid => negb (is_fun a) && negb (is_abs a)
  | x, y => compatible x y
  end.

(** The first type is the second or a bigger one of the same kind. *)
Definition wider (p q : cprim) : bool :=
  peq p q
  || match rank p, rank q with
     | Some (k, n), Some (l, m) =>
         match k, l with Signed, Signed | Unsigned, Unsigned | Real, Real => Nat.leb m n | _, _ => false end
     | _, _ => false
     end.

Section Names.
Variable E : nat -> entry.
Variable access : nat -> bool.
Variable isbool : nat -> bool.

(** The type which a written type denotes at a place with this access: typedefs stand for the type
    they are defined to be, abstract types to which there is access for their representation. *)
Inductive denotes : ty -> cty -> Prop :=
  | den_arith p : p <> P_VOID -> denotes (TPrim p) (CArith p)
  | den_void : denotes (TPrim P_VOID) CVoid
  | den_bool : denotes TBool CBool
  | den_user_bool t i p : ua t = Some i -> isbool i = true ->
      E i = Typedef (TPrim p) \/ E i = Abstract false (TPrim p) -> denotes t CBool
  | den_enum n : denotes (TEnum n) (CEnum n)
  | den_rec u n fs : denotes (TSU u (Tag n) fs) (CRec u n)
  | den_tag_rec i u n fs : isbool i = false -> E i = TagOf (TSU u (Tag n) fs) ->
      denotes (TUser i) (CRec u n)
  | den_tag_enum i n : isbool i = false -> E i = TagOf (TEnum n) -> denotes (TUser i) (CEnum n)
  | den_typedef i t x : isbool i = false -> E i = Typedef t -> denotes t x -> x <> CDots ->
      denotes (TUser i) x
  | den_rep num i rep x : isbool i = false -> E i = Abstract num rep -> access i = true ->
      denotes rep x -> x <> CDots -> denotes (self num i) x
  | den_abs num i rep : isbool i = false -> E i = Abstract num rep -> access i = false ->
      denotes (self num i) (CAbs i)
  | den_ptr t x : denotes t x -> denotes (TPtr t) (CPtr x)
  | den_arr t x : denotes t x -> denotes (TArr t) (CArr None x)
  | den_fix n t x : denotes t x -> denotes (TFix n t) (CArr (Some n) x)
  | den_fcn r x : denotes r x -> denotes (TFcn r None) (CFun x None)
  | den_fcn_params r x ps xs : denotes r x -> denote_all ps xs ->
      denotes (TFcn r (Some ps)) (CFun x (Some xs))
  | den_dots : denotes TElips CDots
with denote_all : list ty -> list cty -> Prop :=
  | den_nil : denote_all [] []
  | den_cons t x ts xs : denotes t x -> denote_all ts xs -> denote_all (t :: ts) (x :: xs).
End Names.

(** No arrays, no pointers to void and no arbitrary integral types, anywhere in the type; functions
    neither return functions nor have them as parameters. *)
Definition ordinary_prim (p : cprim) : bool :=
  match p with P_ANYINTEGRAL | P_UNSIGNEDINTEGRAL | P_SIGNEDINTEGRAL => false | _ => true end.
Fixpoint bare (x : cty) : bool :=
  match x with
  | CArith p => ordinary_prim p
  | CPtr CVoid | CArr _ _ | CDots => false
  | CPtr x => bare x
  | CFun r ps =>
      bare r && negb (is_fun r)
      && match ps with
         | Some ps =>
             (fix all (ps : list cty) : bool :=
                match ps with
                | [] => true
                | CDots :: ps => all ps
                | p :: ps => bare p && negb (is_fun p) && all ps
                end) ps
         | None => true
         end
  | _ => true
  end.
(** The same, inside of the outermost pointer or array; no arrays of void, of functions or of
    abstract types. *)
Definition bare_inside (x : cty) : bool :=
  match x with
  | CPtr CVoid => true
  | CPtr x => bare x
  | CArr _ (CVoid | CFun _ _ | CAbs _) => false
  | CArr _ x => bare x
  | _ => bare x
  end.
(** No function in the type, and no array with a size. *)
Fixpoint plain (x : cty) : bool :=
  match x with
  | CFun _ _ | CArr (Some _) _ => false
  | CPtr x | CArr None x => plain x
  | _ => true
  end.
(** A pointer to void with a pointer to a pointer to a function, or with an array of these; an array
    of pointers to functions with a pointer to a function. *)
Definition void_and_double (x y : cty) : bool :=
  match x, y with CPtr CVoid, (CPtr (CPtr (CFun _ _)) | CArr _ (CPtr (CFun _ _))) => true | _, _ => false end.
Definition array_and_function (x y : cty) : bool :=
  match x, y with CArr _ (CPtr _), CPtr (CFun _ _) => true | _, _ => false end.
Definition odd_pair (x y : cty) : bool :=
  void_and_double x y || void_and_double y x || array_and_function x y || array_and_function y x.

(** Names for void. *)
Definition void_has_no_name E access isbool : Prop :=
  forall t, denotes E access isbool t CVoid -> t = TPrim P_VOID.

(** Two symbol tables which differ at most in how abstract types are represented to which there is no
    access. *)
Definition differ_in_hidden (access : nat -> bool) (E E' : nat -> entry) : Prop :=
  forall i, E i = E' i
    \/ (access i = false /\ exists num r r', E i = Abstract num r /\ E' i = Abstract num r').

(** Both types say the same about abstract types: where one has an abstract type the other has the
    same one, except behind pointers to void.  With [av] a pointer to void may be matched with a
    pointer to an abstract type. *)
Definition is_void (x : cty) : bool := match x with CVoid => true | _ => false end.
Fixpoint respects (av : bool) (x y : cty) {struct x} : bool :=
  let all := fix all (ps qs : list cty) : bool :=
    match ps, qs with
    | [], [] => true
    | p :: ps, q :: qs => respects av p q && all ps qs
    | _, _ => false
    end in
  let params (ps qs : option (list cty)) : bool :=
    match ps, qs with Some ps, Some qs => all ps qs | _, _ => true end in
  match x with
  | CAbs i => match y with CAbs j => Nat.eqb i j | _ => false end
  | CPtr a =>
      match y with
      | CAbs _ => false
      | CPtr b | CArr _ b =>
          if is_void a || is_void b then av || (negb (is_abs a) && negb (is_abs b)) else respects av a b
      | CFun s qs => match a with CFun r ps => respects av r s && params ps qs | _ => true end
      | _ => true
      end
  | CArr _ a =>
      match y with
      | CAbs _ => false
      | CPtr b | CArr _ b =>
          if is_void a || is_void b then av || (negb (is_abs a) && negb (is_abs b)) else respects av a b
      | _ => true
      end
  | CFun r ps =>
      match y with
      | CAbs _ => false
      | CFun s qs | CPtr (CFun s qs) => respects av r s && params ps qs
      | _ => true
      end
  | _ => match y with CAbs _ => false | _ => true end
  end.
(** No array of void or of an abstract type, anywhere. *)
Fixpoint no_abs_array (x : cty) : bool :=
  match x with
  | CArr _ (CVoid | CAbs _) => false
  | CPtr x | CArr _ x => no_abs_array x
  | CFun r ps =>
      no_abs_array r
      && match ps with
         | Some ps =>
             (fix all (ps : list cty) : bool :=
                match ps with [] => true | p :: ps => no_abs_array p && all ps end) ps
         | None => true
         end
  | _ => true
  end.

(** A function with a pointer. *)
Definition mix (x y : cty) : bool :=
  match x, y with CFun _ _, CPtr _ | CPtr _, CFun _ _ => true | _, _ => false end.

(** The flags which make splint accept more are off, or on if they are about accepting less. *)
Definition strict (fl : mflags) : Prop :=
  no_equivalences (prims fl) /\ abstvoidp fl = false /\ castfcnptr fl = true
  /\ forwarddecl fl = false /\ boolint fl = false /\ enumint fl = false.
