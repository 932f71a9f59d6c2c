(** * Counting messages; reading CSV *)
From Verif Require Import Cbase Limit_model.
Local Open Scope Z_scope.

(** How many messages a printed line stands for. *)
Definition weight (l : line) : Z := match l with Shown _ => 1 | More n => n end.
Definition total (ls : list line) : Z := fold_right (fun l n => weight l + n) 0 ls.
Definition messages (ops : list lop) : list cstr :=
  flat_map (fun o => match o with Msg t => [t] | Flush => [] end) ops.
Definition last_text (ops : list lop) : cstr := last (messages ops) [].

(** The lines for [k] equal messages in a row: all of them when one more than the first and
    [n] repetitions at most, else the first, [n] repetitions and a count of the rest. *)
Definition run_lines (n : Z) (t : cstr) (k : nat) : list line :=
  if Z.of_nat k <=? n + 2 then repeat (Shown t) k
  else repeat (Shown t) (Z.to_nat (n + 1)) ++ [More (Z.of_nat k - (n + 1))].

(** CSV (RFC 4180): records end with a newline, fields are separated by commas; a field that
    begins with a double quote extends to the next double quote that is not doubled. The
    result is the list of records, or nothing when the text is not well formed. *)
Inductive cstate := FieldStart | Plain | Quoted | QuoteInQuoted.
Fixpoint csv_parse (st : cstate) (s : cstr) (field : cstr) (row : list cstr) (rows : list (list cstr))
  : option (list (list cstr)) :=
  match s with
  | [] => match st, field, row with
          | FieldStart, [], [] => Some rows
          | _, _, _ => None
          end
  | c :: s =>
      let endf := csv_parse FieldStart s [] (row ++ [field]) rows in
      let endr := csv_parse FieldStart s [] [] (rows ++ [row ++ [field]]) in
      match st with
      | Quoted => if Ascii.eqb c ch_dquote then csv_parse QuoteInQuoted s field row rows
                  else csv_parse Quoted s (field ++ [c]) row rows
      | QuoteInQuoted =>
          if Ascii.eqb c ch_dquote then csv_parse Quoted s (field ++ [c]) row rows
          else if Ascii.eqb c comma then endf
          else if Ascii.eqb c ch_nl then endr
          else None
      | FieldStart =>
          if Ascii.eqb c ch_dquote then csv_parse Quoted s field row rows
          else if Ascii.eqb c comma then endf
          else if Ascii.eqb c ch_nl then endr
          else csv_parse Plain s (field ++ [c]) row rows
      | Plain =>
          if Ascii.eqb c comma then endf
          else if Ascii.eqb c ch_nl then endr
          else if Ascii.eqb c ch_dquote then None
          else csv_parse Plain s (field ++ [c]) row rows
      end
  end.
Definition read_csv (s : cstr) : option (list (list cstr)) := csv_parse FieldStart s [] [] [].

(** The fields of a message. *)
Definition fields (m : csvmsg) : list cstr :=
  [dec (c_num m); dec (c_code m); c_flag m; dec (c_prio m); c_file m; dec (c_line m); dec (c_col m); c_text m]
  ++ match c_add m with Some a => [a] | None => [] end.

(** Text without a double quote; a name without anything that has a meaning in CSV. *)
Definition no_quote (s : cstr) : Prop := ~ In ch_dquote s.
Definition csv_plain (s : cstr) : Prop := ~ In ch_dquote s /\ ~ In comma s /\ ~ In ch_nl s.
