(** * What C prescribes for #if expressions (independent of the evaluator) *)
From Coq Require Import ZArith List Bool Lia.
From Verif Require Import Cbase Cppexp_model.
Import ListNotations.
Local Open Scope Z_scope.

(** Expression trees, with the parentheses the user wrote. *)
Inductive unary := UPos | UNeg | UNot | UCompl.
Inductive binary :=
| BMul | BDiv | BMod | BAdd | BSub | BShl | BShr
| BLt | BGt | BLe | BGe | BEq | BNe
| BAnd | BXor | BOr | BLAnd | BLOr | BComma.

Inductive ex :=
| ENum (v : Z) (u : bool)         (* an integer constant and whether it is unsigned *)
| EPar (e : ex)
| EUn (o : unary) (e : ex)
| EBin (o : binary) (a b : ex)
| ECond (c a b : ex).

(** Spelling. *)
Definition un_tok (o : unary) : opn :=
  match o with UPos => OPlus | UNeg => OMinus | UNot => ONot | UCompl => OCompl end.
Definition bin_tok (o : binary) : opn :=
  match o with
  | BMul => OMul | BDiv => ODiv | BMod => OMod | BAdd => OPlus | BSub => OMinus
  | BShl => OShl | BShr => OShr | BLt => OLt | BGt => OGt | BLe => OLe | BGe => OGe
  | BEq => OEq | BNe => ONe | BAnd => OAnd | BXor => OXor | BOr => OOr
  | BLAnd => OAndAnd | BLOr => OOrOr | BComma => OComma
  end.

Fixpoint print (e : ex) : list tok :=
  match e with
  | ENum v u => [KNum (wrap64 v) u]
  | EPar e => KOp OLpar :: print e ++ [KOp ORpar]
  | EUn o e => KOp (un_tok o) :: print e
  | EBin o a b => print a ++ KOp (bin_tok o) :: print b
  | ECond c a b => print c ++ KOp OQuest :: print a ++ KOp OColon :: print b
  end.

(** The C grammar: binding strength of each construct, from comma (1) to primary
    expressions (14). *)
Definition strength (o : binary) : Z :=
  match o with
  | BMul | BDiv | BMod => 12 | BAdd | BSub => 11 | BShl | BShr => 10
  | BLt | BGt | BLe | BGe => 9 | BEq | BNe => 8
  | BAnd => 7 | BXor => 6 | BOr => 5 | BLAnd => 4 | BLOr => 3 | BComma => 1
  end.

Definition level (e : ex) : Z :=
  match e with
  | ENum _ _ | EPar _ => 14 | EUn _ _ => 13 | EBin o _ _ => strength o | ECond _ _ _ => 2
  end.

(** Trees the C grammar gives to their spelling: operators are left associative, the
    conditional is right associative, its middle operand is any expression. *)
Fixpoint c_tree (e : ex) : Prop :=
  match e with
  | ENum _ _ => True
  | EPar e => c_tree e
  | EUn _ e => c_tree e /\ 13 <= level e
  | EBin o a b => c_tree a /\ c_tree b /\ strength o <= level a /\ strength o < level b
  | ECond c a b => c_tree c /\ c_tree a /\ c_tree b /\ 3 <= level c /\ 2 <= level b
  end.

(** Types: [true] is uintmax_t. *)
Fixpoint utype (e : ex) : bool :=
  match e with
  | ENum _ u => u
  | EPar e => utype e
  | EUn UNot _ => false
  | EUn _ e => utype e
  | EBin o a b =>
      match o with
      | BMul | BDiv | BMod | BAdd | BSub | BAnd | BXor | BOr => utype a || utype b
      | BShl | BShr => utype a
      | BComma => utype b
      | _ => false
      end
  | ECond _ a b => utype a || utype b
  end.

(** Values of type intmax_t / uintmax_t. *)
Definition in_type (u : bool) (v : Z) : Prop :=
  if u then 0 <= v < 18446744073709551616
  else -9223372036854775808 <= v < 9223372036854775808.

(** Conversion to the common type. *)
Definition conv (u : bool) (v : Z) : Z := if u then v mod 18446744073709551616 else v.

(** The result of an expression: a value, division by zero in an evaluated operand,
    or otherwise undefined (overflow, shift count out of range). *)
Inductive cres := CVal (v : Z) | CDiv0 | CUndef.

Definition cbind (x : cres) (f : Z -> cres) : cres :=
  match x with CVal v => f v | CDiv0 => CDiv0 | CUndef => CUndef end.

(** Wrap unsigned results; signed results must fit. *)
Definition fit (u : bool) (v : Z) : cres :=
  if u then CVal (v mod 18446744073709551616)
  else if (-9223372036854775808 <=? v) && (v <? 9223372036854775808) then CVal v else CUndef.

Definition truth (b : bool) : cres := CVal (if b then 1 else 0).

(** Binary operators other than && and || on operands of types [u1], [u2]; shift
    counts are defined below [W] (64 in C). *)
Definition cbin (W : Z) (o : binary) (u1 u2 : bool) (x y : Z) : cres :=
  let u := u1 || u2 in
  let x' := conv u x in
  let y' := conv u y in
  match o with
  | BMul => fit u (x' * y')
  | BDiv => if y' =? 0 then CDiv0 else fit u (Z.quot x' y')
  | BMod => if y' =? 0 then CDiv0 else
            cbind (fit u (Z.quot x' y')) (fun _ => CVal (Z.rem x' y'))
  | BAdd => fit u (x' + y')
  | BSub => fit u (x' - y')
  | BShl => if (0 <=? y) && (y <? W) then fit u1 (x * 2 ^ y) else CUndef
  | BShr => if (0 <=? y) && (y <? W) then CVal (x / 2 ^ y) else CUndef
  | BLt => truth (x' <? y')
  | BGt => truth (y' <? x')
  | BLe => truth (x' <=? y')
  | BGe => truth (y' <=? x')
  | BEq => truth (x' =? y')
  | BNe => truth (negb (x' =? y'))
  | BAnd => fit u (Z.land x' y')
  | BXor => fit u (Z.lxor x' y')
  | BOr => fit u (Z.lor x' y')
  | BComma | BLAnd | BLOr => CVal y
  end.

(** Evaluation. *)
Fixpoint ceval (W : Z) (e : ex) : cres :=
  match e with
  | ENum v _ => CVal v
  | EPar e => ceval W e
  | EUn o e =>
      cbind (ceval W e) (fun v =>
      match o with
      | UPos => CVal v
      | UNeg => fit (utype e) (- v)
      | UNot => truth (v =? 0)
      | UCompl => fit (utype e) (- v - 1)
      end)
  | ECond c a b =>
      let u := utype a || utype b in
      cbind (ceval W c) (fun x =>
      if x =? 0 then cbind (ceval W b) (fun y => CVal (conv u y))
      else cbind (ceval W a) (fun y => CVal (conv u y)))
  | EBin o a b =>
      cbind (ceval W a) (fun x =>
      match o with
      | BLAnd => if x =? 0 then CVal 0 else cbind (ceval W b) (fun y => truth (negb (y =? 0)))
      | BLOr => if x =? 0 then cbind (ceval W b) (fun y => truth (negb (y =? 0))) else CVal 1
      | _ => cbind (ceval W b) (fun y => cbin W o (utype a) (utype b) x y)
      end)
  end.

(** Constants are in the range of their type. *)
Fixpoint consts_fit (e : ex) : Prop :=
  match e with
  | ENum v u => in_type u v
  | EPar e => consts_fit e
  | EUn _ e => consts_fit e
  | EBin _ a b => consts_fit a /\ consts_fit b
  | ECond c a b => consts_fit c /\ consts_fit a /\ consts_fit b
  end.

(** ** The supported class *)

(** Does the spelling start with unary plus or minus? *)
Definition is_sign (e : ex) : bool :=
  match e with EUn UPos _ | EUn UNeg _ => true | _ => false end.

Definition arithmetic (o : binary) : bool :=
  match o with BMul | BDiv | BMod | BAdd | BSub => true | _ => false end.

(** Unary plus and minus are not (without parentheses) operands of a unary operator
    or of [*], [/], [%], nor right operands of [+], [-]; the middle operand of a
    conditional is not (without parentheses) a conditional or a comma. *)
Fixpoint supported (e : ex) : Prop :=
  match e with
  | ENum _ _ => True
  | EPar e => supported e
  | EUn _ e => supported e /\ is_sign e = false
  | EBin o a b =>
      supported a /\ supported b /\
      (arithmetic o = true -> is_sign b = false) /\
      (strength o = 12 -> is_sign a = false)
  | ECond c a b => supported c /\ supported a /\ supported b /\ 3 <= level a
  end.

(** No division or remainder of a signed by an unsigned operand. *)
Fixpoint same_sign_div (e : ex) : Prop :=
  match e with
  | ENum _ _ => True
  | EPar e => same_sign_div e
  | EUn _ e => same_sign_div e
  | EBin o a b =>
      same_sign_div a /\ same_sign_div b /\
      match o with BDiv | BMod => utype b = true -> utype a = true | _ => True end
  | ECond c a b => same_sign_div c /\ same_sign_div a /\ same_sign_div b
  end.

(** ... in the second and third operands of conditionals. *)
Fixpoint branches_ok (e : ex) : Prop :=
  match e with
  | ENum _ _ => True
  | EPar e => branches_ok e
  | EUn _ e => branches_ok e
  | EBin _ a b => branches_ok a /\ branches_ok b
  | ECond c a b => branches_ok c /\ branches_ok a /\ branches_ok b /\
                   same_sign_div a /\ same_sign_div b
  end.

(** No operator that leaves an operand unevaluated. *)
Fixpoint eager (e : ex) : Prop :=
  match e with
  | ENum _ _ => True
  | EPar e => eager e
  | EUn _ e => eager e
  | EBin o a b => eager a /\ eager b /\ o <> BLAnd /\ o <> BLOr
  | ECond _ _ _ => False
  end.

(** ** Integer constants *)

(** The value of a digit of the given base (letters only in base 16). *)
Definition digit_value (c : ascii) : option Z :=
  let n := code c in
  if (48 <=? n) && (n <=? 57) then Some (n - 48)
  else if (97 <=? n) && (n <=? 102) then Some (n - 87)
  else if (65 <=? n) && (n <=? 70) then Some (n - 55)
  else None.

(** [s] consists of digits below [base] and denotes [v]. *)
Inductive digits_denote (base : Z) : cstr -> Z -> Prop :=
| dd_nil : digits_denote base [] 0
| dd_snoc : forall s c v d, digits_denote base s v -> digit_value c = Some d ->
    0 <= d < base -> digits_denote base (s ++ [c]) (v * base + d).

(** The suffixes of C90: at most one u and at most one l, in any order and case;
    the boolean says whether there is a u. *)
Inductive c90_suffix : cstr -> bool -> Prop :=
| cs_none : c90_suffix [] false
| cs_u : forall u, In u ["u"; "U"]%char -> c90_suffix [u] true
| cs_l : forall l, In l ["l"; "L"]%char -> c90_suffix [l] false
| cs_ul : forall u l, In u ["u"; "U"]%char -> In l ["l"; "L"]%char -> c90_suffix [u; l] true
| cs_lu : forall u l, In u ["u"; "U"]%char -> In l ["l"; "L"]%char -> c90_suffix [l; u] true.

(** Integer constants of C: decimal not starting with 0, octal starting with 0,
    hexadecimal after 0x or 0X; with their value and whether suffixed by u. *)
Inductive int_const : cstr -> Z -> bool -> Prop :=
| ic_dec : forall c ds suf v u, digits_denote 10 (c :: ds) v -> c <> "0"%char ->
    c90_suffix suf u -> int_const ((c :: ds) ++ suf) v u
| ic_oct : forall ds suf v u, digits_denote 8 ("0"%char :: ds) v ->
    c90_suffix suf u -> int_const (("0"%char :: ds) ++ suf) v u
| ic_hex : forall x ds suf v u, In x ["x"; "X"]%char -> ds <> [] -> digits_denote 16 ds v ->
    c90_suffix suf u -> int_const ("0"%char :: x :: ds ++ suf) v u.
