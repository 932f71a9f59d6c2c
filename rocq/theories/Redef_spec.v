(** When C (6.10.3) says that two replacement lists are the same. *)
From Verif Require Import Cbase Redef_model.

(** The text cut at white space. *)
Fixpoint words (w : cstr) (s : cstr) : list cstr :=
  match s with
  | [] => match w with [] => [] | _ => [rev w] end
  | c :: s => if is_space c then match w with [] => words [] s | _ => rev w :: words [] s end
              else words (c :: w) s
  end.

(** The same characters with white space in the same places, in any amount, none at the ends. *)
Definition same_text (a b : cstr) : Prop := words [] a = words [] b.

(** The white space of string and character literals is part of them. *)
Fixpoint white_in_literal (delim : option ascii) (s : cstr) : bool :=
  match s with
  | [] => false
  | c :: s =>
      match delim with
      | None => white_in_literal (if is_quote c then Some c else None) s
      | Some d =>
          is_space c ||
          if Ascii.eqb c ch_bslash then match s with x :: s' => is_space x || white_in_literal delim s' | [] => false end
          else white_in_literal (if Ascii.eqb c d then None else delim) s
      end
  end.

(** The same, the white space inside literals being significant.  [mark] makes it visible. *)
Fixpoint mark (delim : option ascii) (s : cstr) : cstr :=
  match s with
  | [] => []
  | c :: s =>
      match delim with
      | None => c :: mark (if is_quote c then Some c else None) s
      | Some d =>
          (if is_space c then chr (code c + 128) else c) ::
          (if Ascii.eqb c ch_bslash
           then match s with x :: s' => (if is_space x then chr (code x + 128) else x) :: mark delim s' | [] => [] end
           else mark (if Ascii.eqb c d then None else delim) s)
      end
  end.
Definition same_replacement (a b : cstr) : Prop := words [] (mark None a) = words [] (mark None b).

(** Texts the theorems are about. *)
Definition seven_bit (s : cstr) : Prop := Forall (fun c => 0 < code c < 128) s.
Definition no_hash (s : cstr) : Prop := ~ In ch_hash s.
Definition identifier (s : cstr) : Prop :=
  match s with [] => False | c :: r => is_idstart c = true /\ forallb is_idchar r = true end.
Definition params_ok (ps : option (list param)) : Prop :=
  match ps with
  | None => True
  | Some ps => Forall (fun p => identifier (pname p) /\ prest p = false) ps /\ NoDup (map pname ps)
  end.
