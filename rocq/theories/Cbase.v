(** Common definitions: C strings, machine integers, decimal printing.

    A C string is a [list ascii] without its terminating NUL; running past the
    end of the list is reading past the terminator.

    Trusted base: LP64 two's complement machine (int 32 bit, long 64 bit, plain
    char signed 8 bit). *)
From Coq Require Export ZArith NArith List Bool Lia Ascii String.
Export ListNotations.
Open Scope Z_scope.

Definition cstr := list ascii.

(** Coq string literal to list of characters (for examples). *)
Definition lit (s : string) : cstr := list_ascii_of_string s.
Coercion lit : string >-> cstr.

Definition code (c : ascii) : Z := Z.of_N (N_of_ascii c).
Definition chr (z : Z) : ascii := ascii_of_N (Z.to_N z).

Definition ch_space : ascii := " "%char.
Definition ch_nl : ascii := "010"%char.
Definition ch_tab : ascii := "009"%char.
Definition ch_dquote : ascii := "034"%char.

(** C [c >= '0' && c <= '9']. *)
Definition is_digit (c : ascii) : bool := (48 <=? code c) && (code c <=? 57).
Definition digit_val (c : ascii) : Z := code c - 48.

(** [int] and [long]: results outside the range are signed overflow (undefined
    behaviour), or are reduced by [wrap] where the code casts. *)
Definition INT_MAX : Z := 2147483647.
Definition INT_MIN : Z := -2147483648.
Definition LONG_MAX : Z := 9223372036854775807.
Definition LONG_MIN : Z := -9223372036854775808.
Definition in_int (z : Z) : bool := (INT_MIN <=? z) && (z <=? INT_MAX).
Definition in_long (z : Z) : bool := (LONG_MIN <=? z) && (z <=? LONG_MAX).

(** (int) cast of a long: implementation defined, wraps on the platforms used. *)
Definition wrap32 (z : Z) : Z := (z + 2147483648) mod 4294967296 - 2147483648.
Definition wrap64 (z : Z) : Z :=
  (z + 9223372036854775808) mod 18446744073709551616 - 9223372036854775808.
Definition uwrap64 (z : Z) : Z := z mod 18446744073709551616.
(** (char) cast, plain char signed. *)
Definition wrap8 (z : Z) : Z := (z + 128) mod 256 - 128.

(** What printf's %d / %ld writes. [dec_aux fuel n acc] prepends the digits of [n]. *)
Definition digit_char (d : Z) : ascii := chr (48 + d).
Fixpoint dec_aux (fuel : nat) (n : Z) (acc : cstr) : cstr :=
  match fuel with
  | O => acc
  | S f => let acc' := digit_char (n mod 10) :: acc in
           if n / 10 =? 0 then acc' else dec_aux f (n / 10) acc'
  end.
Definition dec_nat (n : Z) : cstr := dec_aux (S (Z.to_nat (Z.log2 n))) n [].
Definition dec (z : Z) : cstr :=
  if z <? 0 then "-"%char :: dec_nat (- z) else dec_nat z.

Definition ascii_eqb := Ascii.eqb.
Fixpoint cstr_eqb (a b : cstr) : bool :=
  match a, b with
  | [], [] => true
  | x :: a', y :: b' => Ascii.eqb x y && cstr_eqb a' b'
  | _, _ => false
  end.

(** Skip the longest prefix of characters satisfying [p]. *)
Fixpoint skip_while (p : ascii -> bool) (s : cstr) : cstr :=
  match s with
  | c :: r => if p c then skip_while p r else s
  | [] => []
  end.
