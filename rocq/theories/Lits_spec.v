(** What the constants of C99 (6.4.4.1, 6.4.4.4) denote, independent of the scanner. *)
From Verif Require Import Cbase.
Open Scope Z_scope.

(** The values of digits (C99 6.4.4.1). *)
Inductive digit : ascii -> Z -> Prop :=
| d_dec : forall c, 48 <= code c <= 57 -> digit c (code c - 48)
| d_low : forall c, 97 <= code c <= 102 -> digit c (code c - 87)
| d_up : forall c, 65 <= code c <= 70 -> digit c (code c - 55).

(** The value of a sequence of digits: each digit times the power of the base for its place. *)
Inductive numeral (base : Z) : cstr -> Z -> Prop :=
| n_one : forall c d, digit c d -> d < base -> numeral base [c] d
| n_more : forall c d s v, digit c d -> d < base -> numeral base s v ->
    numeral base (c :: s) (d * base ^ Z.of_nat (List.length s) + v).

(** Notation of an integer constant: octal (including a lone 0), decimal, hexadecimal. *)
Inductive notation := Decimal | Octal | Hexadecimal.
Inductive unsuffixed : notation -> cstr -> Z -> Prop :=
| u_dec : forall c s v, 49 <= code c <= 57 -> numeral 10 (c :: s) v -> unsuffixed Decimal (c :: s) v
| u_zero : unsuffixed Octal (lit "0") 0
| u_oct : forall s v, numeral 8 s v -> unsuffixed Octal ("0"%char :: s) v
| u_hex : forall x s v, x = "x"%char \/ x = "X"%char -> numeral 16 s v ->
    unsuffixed Hexadecimal ("0"%char :: x :: s) v.

(** The suffixes of C: unsigned or not, and no, one or two l. *)
Inductive longs := NoL | OneL | TwoL.
Definition suffixes : list (cstr * (bool * longs)) :=
  [(lit "", (false, NoL)); (lit "u", (true, NoL)); (lit "U", (true, NoL));
   (lit "l", (false, OneL)); (lit "L", (false, OneL));
   (lit "ll", (false, TwoL)); (lit "LL", (false, TwoL));
   (lit "ul", (true, OneL)); (lit "uL", (true, OneL)); (lit "Ul", (true, OneL)); (lit "UL", (true, OneL));
   (lit "lu", (true, OneL)); (lit "lU", (true, OneL)); (lit "Lu", (true, OneL)); (lit "LU", (true, OneL));
   (lit "ull", (true, TwoL)); (lit "uLL", (true, TwoL)); (lit "Ull", (true, TwoL)); (lit "ULL", (true, TwoL));
   (lit "llu", (true, TwoL)); (lit "llU", (true, TwoL)); (lit "LLu", (true, TwoL)); (lit "LLU", (true, TwoL))].

(** [c_const nt uns ls t v]: [t] is an integer constant of C with value [v]. *)
Inductive c_const : notation -> bool -> longs -> cstr -> Z -> Prop :=
| cc : forall nt d v sf uns ls, unsuffixed nt d v -> In (sf, (uns, ls)) suffixes ->
    c_const nt uns ls (d ++ sf) v.

(** The text after a constant: it does not go on like a number or a name. *)
Definition word_char (c : ascii) : Prop :=
  48 <= code c <= 57 \/ 65 <= code c <= 90 \/ 97 <= code c <= 122 \/ code c = 95 \/ code c = 46.
Definition ends (rest : cstr) : Prop :=
  match rest with [] => True | c :: _ => ~ word_char c end.

(** The types of C and the greatest values of the LP64 machine. *)
Inductive cty := Int | UInt | Long | ULong | LLong | ULLong.
Definition cty_max (t : cty) : Z :=
  match t with
  | Int => 2 ^ 31 - 1 | UInt => 2 ^ 32 - 1
  | Long | LLong => 2 ^ 63 - 1 | ULong | ULLong => 2 ^ 64 - 1
  end.
(** The lists of 6.4.4.1, paragraph 5. *)
Definition candidates (nt : notation) (uns : bool) (ls : longs) : list cty :=
  match uns, ls, nt with
  | false, NoL, Decimal => [Int; Long; LLong]
  | false, NoL, _ => [Int; UInt; Long; ULong; LLong; ULLong]
  | true, NoL, _ => [UInt; ULong; ULLong]
  | false, OneL, Decimal => [Long; LLong]
  | false, OneL, _ => [Long; ULong; LLong; ULLong]
  | true, OneL, _ => [ULong; ULLong]
  | false, TwoL, Decimal => [LLong]
  | false, TwoL, _ => [LLong; ULLong]
  | true, TwoL, _ => [ULLong]
  end.
(** The first type of the list that can represent the value. *)
Inductive first_fit (v : Z) : list cty -> cty -> Prop :=
| ff_here : forall t l, v <= cty_max t -> first_fit v (t :: l) t
| ff_next : forall t l u, cty_max t < v -> first_fit v l u -> first_fit v (t :: l) u.
Definition c_type (nt : notation) (uns : bool) (ls : longs) (v : Z) (t : cty) : Prop :=
  first_fit v (candidates nt uns ls) t.

(** * Character constants with one character *)

(** Simple escape sequences (C99 6.4.4.4; values of ASCII). *)
Definition simple_escapes : list (ascii * Z) :=
  [("'"%char, 39); ("034"%char, 34); ("?"%char, 63); ("\"%char, 92); ("a"%char, 7); ("b"%char, 8);
   ("f"%char, 12); ("n"%char, 10); ("r"%char, 13); ("t"%char, 9); ("v"%char, 11)].

(** What may stand between the quotes, and the byte it denotes. *)
Inductive c_char : cstr -> Z -> Prop :=
| ch_plain : forall c, c <> "'"%char -> c <> "\"%char -> c <> "010"%char -> c_char [c] (code c)
| ch_simple : forall c v, In (c, v) simple_escapes -> c_char ["\"%char; c] v
| ch_oct : forall s v, numeral 8 s v -> (List.length s <= 3)%nat -> v < 256 -> c_char ("\"%char :: s) v
| ch_hex : forall s v, numeral 16 s v -> v < 256 -> c_char ("\"%char :: "x"%char :: s) v.

(** Character constants, plain and wide. *)
Definition c_charconst (wide : bool) (b : cstr) : cstr :=
  (if wide then ["L"%char] else []) ++ "'"%char :: b ++ ["'"%char].
