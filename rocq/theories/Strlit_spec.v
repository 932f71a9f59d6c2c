(** The characters a C string literal stands for (C99 6.4.4.4, 6.4.5), without reference
    to the code.  Plain char strings; universal character names are not covered. *)
From Verif Require Import Cbase.

Definition oct_digit (c : ascii) : Prop := 48 <= code c <= 55.
Definition dec_digit (c : ascii) : Prop := 48 <= code c <= 57.
Definition hex_digit (c : ascii) : Prop :=
  48 <= code c <= 57 \/ 65 <= code c <= 70 \/ 97 <= code c <= 102.

Definition hex_digit_value (c : ascii) : Z :=
  if code c <=? 57 then code c - 48 else if code c <=? 70 then code c - 55 else code c - 87.

Fixpoint number (base : Z) (val : ascii -> Z) (ds : cstr) (acc : Z) : Z :=
  match ds with
  | [] => acc
  | d :: r => number base val r (acc * base + val d)
  end.

Definition starts (P : ascii -> Prop) (s : cstr) : Prop :=
  match s with [] => False | c :: _ => P c end.

(** The one-letter escapes of C. *)
Inductive c_escape : ascii -> Z -> Prop :=
| esc_a : c_escape "a" 7 | esc_b : c_escape "b" 8 | esc_f : c_escape "f" 12
| esc_n : c_escape "n" 10 | esc_r : c_escape "r" 13 | esc_t : c_escape "t" 9
| esc_quote : c_escape "034" 34 | esc_apos : c_escape "'" 39
| esc_question : c_escape "?" 63 | esc_back : c_escape "092" 92.

Section Denotes.
(** What is allowed of an octal escape: its digits and the text after it. *)
Variable octal_ok : cstr -> cstr -> Prop.

(** [body], the text between the quotes of one literal, stands for the characters with the
    codes in the list. *)
Inductive denotes : cstr -> list Z -> Prop :=
| D_nil : denotes [] []
| D_char : forall c s vs, c <> "092"%char -> c <> "034"%char -> c <> "000"%char ->
    denotes s vs -> denotes (c :: s) (code c :: vs)
| D_escape : forall c v s vs, c_escape c v ->
    denotes s vs -> denotes ("092"%char :: c :: s) (v :: vs)
| D_octal : forall ds s vs, (1 <= List.length ds <= 3)%nat -> Forall oct_digit ds ->
    (List.length ds = 3%nat \/ ~ starts oct_digit s) ->
    number 8 (fun c => code c - 48) ds 0 <= 255 -> octal_ok ds s ->
    denotes s vs -> denotes ("092"%char :: ds ++ s) (number 8 (fun c => code c - 48) ds 0 :: vs)
| D_hex : forall ds s vs, ds <> [] -> Forall hex_digit ds -> ~ starts hex_digit s ->
    number 16 hex_digit_value ds 0 <= 255 ->
    denotes s vs -> denotes ("092"%char :: "x"%char :: ds ++ s) (number 16 hex_digit_value ds 0 :: vs).
End Denotes.

(** C: nothing further is asked of an octal escape. *)
Definition c_octal (ds s : cstr) : Prop := True.
(** A short octal escape is not followed by one of the digits 8 and 9. *)
Definition no_89 (ds s : cstr) : Prop := List.length ds = 3%nat \/ ~ starts dec_digit s.
(** In addition the second digit, if any, is 0. *)
Definition second_zero (ds s : cstr) : Prop :=
  no_89 ds s /\ match ds with _ :: d :: _ => d = "0"%char | _ => True end.
