(** * Evaluation of #if expressions

    Source: src/cppexp.c.  Tokens are given after macro expansion and lexing
    (cppexp_lex, cppexp.c:413-617, except character constants); a name is the
    integer 0 (cppexp.c:573-575).

    Values are C longs, i.e. integers in [-2^63, 2^63).  The stack of operators is a
    list; its growth (cppexp.c:1266-1298) is not represented.  A slot that has never
    been given a value holds [None]; reading it is the outcome [RUB], as is reading
    below the stack.  Signed overflow and arithmetic traps while evaluating are
    recorded in the flag [d_ub]; the value computed then is the wrapped one. *)
From Coq Require Import ZArith List Bool Lia.
From Verif Require Import Cbase.
Import ListNotations.
Local Open Scope Z_scope.

(** Operator tokens, cppexp.c:163-195 and the characters in the switch at 937-985. *)
Inductive opn :=
| OPlus | OMinus | ONot | OCompl | OMul | ODiv | OMod
| OLt | OGt | OLe | OGe | OEq | ONe | OShl | OShr
| OAnd | OXor | OOr | OAndAnd | OOrOr | OComma
| OLpar | ORpar | OColon | OQuest.

(** What cppexp_lex returns: an integer or character constant with its signedness,
    an operator, anything else, or the end of the line (op 0). *)
Inductive tok := KNum (v : Z) (u : bool) | KOp (o : opn) | KBad | KEnd.

(** Priorities, cppexp.c:845-888. *)
Definition lprio (o : opn) : Z :=
  match o with
  | OPlus | OMinus => 24
  | ONot | OCompl => 29
  | OMul | ODiv | OMod => 26
  | OLt | OGt | OLe | OGe => 20
  | OEq | ONe => 18
  | OShl | OShr => 22
  | OAnd => 16 | OXor => 14 | OOr => 12
  | OAndAnd => 10 | OOrOr => 8 | OComma => 4
  | OLpar => 30 | ORpar => 0 | OColon => 6 | OQuest => 7
  end.

Definition rprio_of (o : opn) : Z :=
  match o with
  | ONot | OCompl => 28
  | OLpar => 0 | ORpar => 30 | OColon => 6 | OQuest => 6
  | _ => lprio o + 1
  end.

(** LEFT_OPERAND_REQUIRED / RIGHT_OPERAND_REQUIRED, cppexp.c:950-985. *)
Definition needs_left (o : opn) : bool :=
  match o with
  | OPlus | OMinus | ONot | OCompl | OLpar | ORpar | OColon | OQuest => false
  | _ => true
  end.

Definition needs_right (o : opn) : bool :=
  match o with OLpar | ORpar | OColon | OQuest => false | _ => true end.

(** Diagnostics: division by zero reported, integer_overflow called, undefined
    behaviour while computing a value. *)
Record diag := Diag { d_div : bool; d_ovf : bool; d_ub : bool }.

Definition add_div (b : bool) (d : diag) := Diag (d_div d || b) (d_ovf d) (d_ub d).
Definition add_ovf (b : bool) (d : diag) := Diag (d_div d) (d_ovf d || b) (d_ub d).
Definition add_ub (b : bool) (d : diag) := Diag (d_div d) (d_ovf d) (d_ub d || b).

(** possibleSumSign, cppexp.c:66-72: [((a ^ b) | ~(a ^ sum)) < 0]; an exclusive or of
    two longs is negative when their signs differ. *)
Definition possibleSumSign (a b s : Z) : bool :=
  xorb (a <? 0) (b <? 0) || negb (xorb (a <? 0) (s <? 0)).

(** [(x & y & z) < 0] *)
Definition all_neg (x y z : Z) : bool := (x <? 0) && (y <? 0) && (z <? 0).

Definition b2z (b : bool) : Z := if b then 1 else 0.
Definition nz (z : Z) : bool := negb (z =? 0).

(** left_shift, cppexp.c:787-823 *)
Definition left_shift (a : Z) (u : bool) (b : Z) (d : diag) : Z * diag :=
  if 32 <=? b then (0, add_ovf (negb u && nz a) d)
  else if u then (wrap64 (uwrap64 a * 2 ^ b), d)
  else
    let l := wrap64 (a * 2 ^ b) in
    (l, add_ub (negb (in_long (a * 2 ^ b))) (add_ovf (nz (l / 2 ^ b - a)) d)).

(** right_shift, cppexp.c:825-836.  int_toNonNegative takes an int and stops the
    program when it is negative (recorded as [d_ub]). *)
Definition right_shift (a : Z) (u : bool) (b : Z) (d : diag) : Z * diag :=
  if 32 <=? b then
    if u then (0, d) else (wrap32 a / 2 ^ 31, add_ub (wrap32 a <? 0) d)
  else if u then (wrap64 (uwrap64 a / 2 ^ b), d)
  else (a / 2 ^ b, d).

(** COMPARE, cppexp.c:890-895 *)
Definition compare_op (f : Z -> Z -> bool) (u : bool) (a b : Z) : Z :=
  b2z (if u then f (uwrap64 a) (uwrap64 b) else f a b).

(** The switch on the reduced operator for binary operators, cppexp.c:1028-1196:
    new value and signedness of the left slot, which holds [a] with signedness [u1]. *)
Definition apply2 (skip : bool) (o : opn) (a : Z) (u1 : bool) (b : Z) (u2 : bool) (d : diag)
  : Z * bool * diag :=
  let u := u1 || u2 in
  match o with
  | OPlus =>
      let v := wrap64 (a + b) in
      (v, u, add_ub (negb u && negb (in_long (a + b)))
               (add_ovf (negb u && negb skip && negb (possibleSumSign a b v)) d))
  | OMinus =>
      let v := wrap64 (a - b) in
      (v, u, add_ub (negb u && negb (in_long (a - b)))
               (add_ovf (negb u && negb skip && negb (possibleSumSign v b a)) d))
  | OMul =>
      if u then (wrap64 (uwrap64 a * uwrap64 b), u, d)
      else if skip then (a, u, d)
      else
        let v := wrap64 (a * b) in
        (v, u, add_ub (negb (in_long (a * b)))
                 (add_ovf (nz a && (negb (Z.quot v a =? b) || all_neg v a b)) d))
  | ODiv =>
      if skip then (a, u1, d)
      else
        let d := add_div (b =? 0) d in
        let b := if b =? 0 then 1 else b in
        if u then (wrap64 (uwrap64 a / uwrap64 b), u, d)
        else
          let v := wrap64 (Z.quot a b) in
          (v, u, add_ub (negb (in_long (Z.quot a b))) (add_ovf (all_neg v a b) d))
  | OMod =>
      if skip then (a, u1, d)
      else
        let d := add_div (b =? 0) d in
        let b := if b =? 0 then 1 else b in
        if u then (wrap64 (uwrap64 a mod uwrap64 b), u, d)
        else (Z.rem a b, u, add_ub (negb (in_long (Z.quot a b))) d)
  | OLt => (compare_op Z.ltb u a b, false, d)
  | OGt => (compare_op Z.gtb u a b, false, d)
  | OLe => (compare_op Z.leb u a b, false, d)
  | OGe => (compare_op Z.geb u a b, false, d)
  | OEq => (b2z (a =? b), false, d)
  | ONe => (b2z (negb (a =? b)), false, d)
  | OShl =>
      if skip then (a, u1, d)
      else if (b <? 0) && negb u2 then let (v, d) := right_shift a u1 (- b) d in (v, u1, d)
      else let (v, d) := left_shift a u1 (uwrap64 b) d in (v, u1, d)
  | OShr =>
      if skip then (a, u1, d)
      else if (b <? 0) && negb u2 then let (v, d) := left_shift a u1 (- b) d in (v, u1, d)
      else let (v, d) := right_shift a u1 (uwrap64 b) d in (v, u1, d)
  | OAnd => (Z.land a b, u, d)
  | OXor => (Z.lxor a b, u, d)
  | OOr => (Z.lor a b, u, d)
  | OAndAnd => (b2z (nz a && nz b), false, d)
  | OOrOr => (b2z (nz a || nz b), false, d)
  | _ => (b, u2, d)                                    (* OComma *)
  end.

(** The unary cases, cppexp.c:1030-1035, 1047-1055, 1119-1143. *)
Definition apply1 (skip : bool) (o : opn) (b : Z) (u2 : bool) (d : diag) : Z * bool * diag :=
  match o with
  | OMinus =>
      let v := wrap64 (- b) in
      (v, u2, add_ub (negb u2 && negb (in_long (- b)))
                (add_ovf (negb skip && ((v <? 0) && (b <? 0)) && negb u2) d))
  | ONot => (b2z (b =? 0), false, d)
  | OCompl => (Z.lnot b, u2, d)
  | _ => (b, u2, d)                                    (* OPlus *)
  end.

(** struct operation on the stack, cppexp.c:214-229; [e_op] is [None] for the bottom
    slot, whose op is never set; [e_val] is [Some] exactly when HAVE_VALUE is set. *)
Record el := El { e_op : option opn; e_rprio : Z; e_val : option (Z * bool) }.

Definition have (e : el) : bool := match e_val e with Some _ => true | None => false end.
Definition set_val (e : el) (v : Z) (u : bool) : el := El (e_op e) (e_rprio e) (Some (v, u)).

Inductive red :=
| Done (top : el) (rest : list el) (skip : Z) (d : diag)
| RedSyntax
| RedUB.

Definition op_left (e : el) : bool := match e_op e with Some o => needs_left o | None => false end.
Definition op_right (e : el) : bool := match e_op e with Some o => needs_right o | None => false end.

(** The reduction loop, cppexp.c:1007-1247. *)
Fixpoint reduce (L : Z) (t : el) (r : list el) (skip : Z) (d : diag) : red :=
  if e_rprio t <=? L then Done t r skip d else
  match r with
  | [] => RedUB
  | x :: r' =>
      if op_left t && negb (have x) then RedSyntax
      else if op_right t && negb (have t) then RedSyntax
      else
        let sk := nz skip in
        match e_op t with
        | None => RedUB
        | Some o =>
            match o with
            | OPlus | OMinus =>
                match e_val x, e_val t with
                | None, Some (b, u2) =>
                    let '(v, u, d) := apply1 sk o b u2 d in
                    reduce L (set_val x v u) r' skip d
                | Some (a, u1), Some (b, u2) =>
                    let '(v, u, d) := apply2 sk o a u1 b u2 d in
                    reduce L (set_val x v u) r' skip d
                | _, None => RedUB
                end
            | ONot | OCompl =>
                match e_val x, e_val t with
                | Some _, _ => RedSyntax
                | None, Some (b, u2) =>
                    let '(v, u, d) := apply1 sk o b u2 d in
                    reduce L (set_val x v u) r' skip d
                | None, None => RedUB
                end
            | OLpar | OQuest => RedSyntax
            | OColon =>
                match e_op x with
                | Some OQuest =>
                    match r' with
                    | y :: r'' =>
                        match e_val y, e_val x, e_val t with
                        | Some (c, _), Some (a, u1), Some (b, u2) =>
                            reduce L (set_val y (if nz c then a else b) (u1 || u2)) r''
                                   (if nz c then skip - 1 else skip) d
                        | _, _, _ => RedSyntax
                        end
                    | [] => RedUB
                    end
                | Some _ => RedSyntax
                | None => RedUB
                end
            | ORpar =>
                if have t then RedSyntax else
                match e_val x with
                | None => RedSyntax
                | Some (v, u) =>
                    match e_op x with
                    | Some OLpar =>
                        match r' with
                        | y :: r'' => if have y then RedSyntax else reduce L (set_val y v u) r'' skip d
                        | [] => RedUB
                        end
                    | Some _ => RedSyntax
                    | None => RedUB
                    end
                end
            | _ =>
                match e_val x, e_val t with
                | Some (a, u1), Some (b, u2) =>
                    let '(v, u, d) := apply2 sk o a u1 b u2 d in
                    let skip' :=
                      match o with
                      | OAndAnd => if nz a then skip else skip - 1
                      | OOrOr => if nz a then skip - 1 else skip
                      | _ => skip
                      end in
                    reduce L (set_val x v u) r' skip' d
                | _, _ => RedUB
                end
            end
        end
  end.

(** Pushing an operator and adjusting skip_evaluation, cppexp.c:1264, 1300-1330. *)
Definition push (o : opn) (t : el) (r : list el) (skip : Z) (d : diag) : red :=
  let n := El (Some o) (rprio_of o) None in
  match o with
  | OOrOr => match e_val t with
             | Some (v, _) => Done n (t :: r) (if nz v then skip + 1 else skip) d
             | None => RedUB end
  | OAndAnd | OQuest =>
             match e_val t with
             | Some (v, _) => Done n (t :: r) (if nz v then skip else skip + 1) d
             | None => RedUB end
  | OColon => match r with
              | y :: _ => match e_val y with
                          | Some (v, _) => Done n (t :: r) (if nz v then skip + 1 else skip - 1) d
                          | None => RedUB end
              | [] => RedUB end
  | _ => Done n (t :: r) skip d
  end.

(** One iteration of the token loop, cppexp.c:921-1331 (not for the end token). *)
Definition step (k : tok) (t : el) (r : list el) (skip : Z) (d : diag) : red :=
  match k with
  | KNum v u => if have t then RedSyntax else Done (set_val t v u) r skip d
  | KOp o =>
      match reduce (lprio o) t r skip d with
      | Done t r skip d => push o t r skip d
      | x => x
      end
  | KBad => RedSyntax
  | KEnd => Done t r skip d
  end.

Fixpoint run (ks : list tok) (t : el) (r : list el) (skip : Z) (d : diag) : red :=
  match ks with
  | [] => Done t r skip d
  | k :: ks => match step k t r skip d with
               | Done t r skip d => run ks t r skip d
               | x => x
               end
  end.

Inductive result := RVal (v : Z) (d : diag) | RInternal (v : Z) | RSyntax | RUB.

(** cppReader_parseExpression, cppexp.c:898-1345, on the tokens of one line. *)
Definition parseExpression (ks : list tok) : result :=
  match run ks (El None 0 None) [] 0 (Diag false false false) with
  | Done t r skip d =>
      match reduce 0 t r skip d with
      | Done t r _ d =>
          match e_val t with
          | Some (v, _) => match r with [] => RVal v d | _ => RInternal v end
          | None => RUB
          end
      | RedSyntax => RSyntax
      | RedUB => RUB
      end
  | RedSyntax => RSyntax
  | RedUB => RUB
  end.

(** ** Integer constants *)

(** Digits and suffixes, character by character: cppexp.c:277-333 (the loop).
    State: value so far, overflow, largest digit, signed overflow (undefined behaviour)
    in [n * base + digit], where [n] is a long. *)
Definition digit_of (base : Z) (c : ascii) : option Z :=
  if is_digit c then Some (digit_val c)
  else if (base =? 16) && (97 <=? code c) && (code c <=? 102) then Some (code c - 97 + 10)
  else if (base =? 16) && (65 <=? code c) && (code c <=? 70) then Some (code c - 65 + 10)
  else None.

(** The suffix loop, cppexp.c:293-320: [Some (unsigned, errs)] when it runs to the end
    of the token, [errs] the number of "two l's" / "two u's" errors. *)
Fixpoint suffix (s : cstr) (u l : bool) (errs : nat) : option (bool * nat) :=
  match s with
  | [] => Some (u, errs)
  | c :: s' =>
      if Ascii.eqb c "l" || Ascii.eqb c "L" then suffix s' u true (if l then S errs else errs)
      else if Ascii.eqb c "u" || Ascii.eqb c "U" then suffix s' true l (if u then S errs else errs)
      else None
  end.

Inductive numres :=
| NInvalid                                   (* "Invalid number" or floating point *)
| NOk (v : Z) (u : bool) (errs : nat) (beyond_radix out_of_range ub : bool).

Fixpoint digits (base : Z) (s : cstr) (n : Z) (ovf : bool) (largest : Z) (ub : bool) : numres :=
  match s with
  | [] =>
      NOk n (n <? 0) 0 (base <=? largest) ovf ub
  | c :: s' =>
      match digit_of base c with
      | Some dg =>
          let nd := uwrap64 (n * base + dg) in
          let o := (18446744073709551615 / base <? uwrap64 n) || (nd <? uwrap64 n) in
          digits base s' (wrap64 nd) (ovf || o) (Z.max largest dg)
                 (ub || negb (in_long (n * base + dg)))
      | None =>
          match suffix s false false 0 with
          | Some (u, errs) => NOk n (u || (n <? 0)) errs (base <=? largest) ovf ub
          | None => NInvalid
          end
      end
  end.

(** cppReader_parseNumber, cppexp.c:237-378. *)
Definition parseNumber (s : cstr) : numres :=
  if existsb (fun c => Ascii.eqb c ".") s then NInvalid else
  match s with
  | c0 :: c1 :: _ :: _ =>
      if Ascii.eqb c0 "0" && (Ascii.eqb c1 "x" || Ascii.eqb c1 "X")
      then digits 16 (tl (tl s)) 0 false 0 false
      else digits (if Ascii.eqb c0 "0" then 8 else 10) s 0 false 0 false
  | c0 :: _ => digits (if Ascii.eqb c0 "0" then 8 else 10) s 0 false 0 false
  | [] => NOk 0 false 0 false false false
  end.
