(** Model of the length computation for string literals: src/cstring.c 903–1138
    ([doMergeString], [doExpandEscapes], [cstring_expandEscapes],
    [cstring_lengthExpandEscapes]) and its use for initialised arrays, src/exprNode.c
    1057–1127 ([exprNode_checkStringLiteralLength]).

    The text is the value kept for a literal: the token without its first and last double
    quote (src/exprNode.c 862–874); for adjacent literals, which the scanner takes as one
    token (src/cscanner.l 176), the inner quotes and the white space are still in it.

    Undefined behaviour (reading an unwritten cell, signed overflow, an index out of the
    buffer) is the distinct outcome [UB]; reporting an internal error and stopping
    (BADEXIT) is [Bad].

    Simplified: [toupper] is that of the C locale. *)
From Verif Require Import Cbase Cmem.

Inductive outcome (A : Type) := Done (a : A) | UB | Bad.
Arguments Done {A}. Arguments UB {A}. Arguments Bad {A}.

Definition ch_back : ascii := "092"%char.
Definition ch_quote : ascii := "034"%char.

(** src/cstring.c 928–967: the loop of [doMergeString]; [s] the text at [ptr], [i] the index
    of [retPtr] in the buffer [m]. *)
Fixpoint merge_loop (fuel : nat) (s : cstr) (i : nat) (m : list cell) (escape : bool)
  : outcome (list cell) :=
  match fuel with
  | O => Bad
  | S f =>
      match s with
      | [] => match store m i ch_nul with Some m' => Done m' | None => UB end
      | c :: s' =>
          if Ascii.eqb c ch_back then
            match store m i c with
            | Some m' => merge_loop f s' (S i) m' (negb escape)
            | None => UB
            end
          else if Ascii.eqb c ch_quote && negb escape then
            (* 939–942: up to the character before the next quote *)
            match skip_while (fun x => negb (Ascii.eqb x ch_quote)) s' with
            | [] => Bad
            | _ :: r => merge_loop f r (S i) m escape   (* retPtr advances, nothing is stored *)
            end
          else
            match store m i c with
            | Some m' => merge_loop f s' (S i) m' false
            | None => UB
            end
      end
  end.

(** src/cstring.c 905–970 [doMergeString]. *)
Definition doMergeString (s : cstr) : outcome (list cell) :=
  merge_loop (S (List.length s)) s 0 (fresh (List.length s)) false.

(** C locale toupper, on character codes. *)
Definition upper (z : Z) : Z := if (97 <=? z) && (z <=? 122) then z - 32 else z.
(** src/cstring.c 1033–1035, 1042–1045. *)
Definition is_xdigit (c : ascii) : bool :=
  is_digit c || ((65 <=? upper (code c)) && (upper (code c) <=? 70)).
Definition xdigit_val (c : ascii) : Z :=
  if is_digit c then digit_val c else upper (code c) - 65 + 10.

(** src/cstring.c 1042–1053: the loop over hexadecimal digits; [None]: int overflow. *)
Fixpoint hex_loop (s : cstr) (total : Z) : option (Z * cstr) :=
  match s with
  | [] => Some (total, s)
  | c :: s' =>
      if is_xdigit c then
        let t := total * 16 + xdigit_val c in
        if in_int t then hex_loop s' t else None
      else Some (total, s)
  end.

(** src/cstring.c 1006–1026: after a backslash, a digit [c] and the text [s]. *)
Definition octal (c : ascii) (s : cstr) : Z * cstr :=
  let total := digit_val c in
  match s with
  | d :: s1 =>
      if is_digit d then
        let total := total * 8 in            (* the second digit is not added *)
        match s1 with
        | e :: s2 => if is_digit e then (total * 8 + digit_val e, s2) else (total, s1)
        | [] => (total, s1)
        end
      else (total, s)
  | [] => (total, s)
  end.

(** src/cstring.c 1058–1101: the other escapes. *)
Definition simple (c : ascii) : Z :=
  if Ascii.eqb c "a" then 7 else if Ascii.eqb c "b" then 8 else if Ascii.eqb c "f" then 12
  else if Ascii.eqb c "n" then 10 else if Ascii.eqb c "r" then 13 else if Ascii.eqb c "t" then 9
  else code c.

(** One turn of the loop, src/cstring.c 987–1104: the value stored and the text left. *)
Definition expand_step (c : ascii) (s : cstr) : option (Z * cstr) :=
  if negb (Ascii.eqb c ch_back) then Some (code c, s)
  else match s with
       | [] => Some (92, [])
       | d :: s' =>
           if is_digit d then Some (octal d s')
           else if Ascii.eqb d "x" then
             match s' with
             | e :: _ => if is_xdigit e then hex_loop s' 0 else Some (120, s')
             | [] => Some (120, s')
             end
           else Some (simple d, s')
       end.

(** src/cstring.c 985–1106, with (char) conversion of the value stored. *)
Fixpoint expand (fuel : nat) (s : cstr) : outcome cstr :=
  match fuel with
  | O => Bad
  | S f =>
      match s with
      | [] => Done []
      | c :: s' =>
          match expand_step c s' with
          | None => UB
          | Some (v, r) =>
              match expand f r with
              | Done out => Done (chr (v mod 256) :: out)
              | UB => UB
              | Bad => Bad
              end
          end
      end
  end.

(** src/cstring.c 972–1114 [doExpandEscapes]: the characters before the final NUL.  The
    result buffer has [length s + 1] cells. *)
Definition doExpandEscapes (s : cstr) : outcome cstr := expand (S (List.length s)) s.

(** src/cstring.c 1126–1138 [cstring_lengthExpandEscapes]. *)
Definition lengthExpandEscapes (s : cstr) : outcome nat :=
  match doMergeString s with
  | Done m =>
      match read_cstr m with
      | None => UB
      | Some t => match doExpandEscapes t with
                  | Done out => Done (List.length out)
                  | UB => UB
                  | Bad => Bad
                  end
      end
  | UB => UB
  | Bad => Bad
  end.

(** The warnings of src/exprNode.c 1076–1127. *)
Inductive warning := NoWarning | NoRoomFinalNull | NoRoom | TooLong | Wasted.

(** src/exprNode.c 1057–1127 [exprNode_checkStringLiteralLength] for an array of
    [nelements]. *)
Definition checkStringLiteralLength (nelements : nat) (slit : cstr) : outcome warning :=
  match lengthExpandEscapes slit with
  | Done len =>
      if (len =? nelements)%nat then
        match doExpandEscapes slit with
        | Done temp =>
            match len with
            | O => UB                                    (* temp[-1] *)
            | S k => match nth_error (temp ++ [ch_nul]) k with
                     | Some c => Done (if Ascii.eqb c ch_nul then NoRoomFinalNull else NoRoom)
                     | None => UB
                     end
            end
        | UB => UB
        | Bad => Bad
        end
      else if (nelements <? len)%nat then Done TooLong
      else if (len <? nelements - 1)%nat then Done Wasted
      else Done NoWarning
  | UB => UB
  | Bad => Bad
  end.
