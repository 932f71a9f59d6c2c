(** * Splitting messages into lines (llerror.c)

    Simplifications: lengths are unbounded (a message is shorter than INT_MAX); the comparison
    of pointers with NULL in maxcp is taken as "NULL is smaller"; storage is not modelled;
    the assertions on pointers, which only report, are left out. *)
From Verif Require Import Cbase.
Local Open Scope nat_scope.

(** MAXSEARCH, llerror.c:342-343; MINLINE, llerror.c:345-346; MINLINELEN, Headers/constants.h:82 *)
Definition MAXSEARCH : nat := 20.
Definition MINLINE : nat := 35.
Definition MINLINELEN : nat := 20.

(** strchr and strrchr: positions *)
Fixpoint find_first (c : ascii) (s : cstr) : option nat :=
  match s with
  | [] => None
  | x :: s => if Ascii.eqb x c then Some 0 else option_map S (find_first c s)
  end.
Fixpoint find_last (c : ascii) (s : cstr) : option nat :=
  match s with
  | [] => None
  | x :: s => match find_last c s with
              | Some n => Some (S n)
              | None => if Ascii.eqb x c then Some 0 else None
              end
  end.

(** maxcp, llerror.c:86-91 *)
Definition maxcp (a b : option nat) : option nat :=
  match a, b with
  | Some a, Some b => Some (Nat.max a b)
  | Some a, None => Some a
  | None, b => b
  end.

Definition is_blank (c : ascii) : bool := Ascii.eqb c ch_space || Ascii.eqb c ch_tab.
Definition blank_at (s : cstr) (n : nat) : bool :=
  match nth_error s n with Some c => is_blank c | None => false end.
(** characters \1 to \7 after a newline: indentation codes *)
Definition is_code (c : ascii) : bool := ((1 <=? code c) && (code c <=? 7))%Z.

(** the tests on what follows a colon, semicolon or comma at [n], llerror.c:450-455 and 468-472;
    [stops] are the characters that may not come after the space *)
Definition breakable (s : cstr) (n : nat) (stops : list ascii) : bool :=
  (MINLINE <? n) &&
  match nth_error s (n + 1), nth_error s (n + 2) with
  | Some a, Some b => Ascii.eqb a ch_space && negb (existsb (Ascii.eqb b) stops)
  | _, _ => false
  end.

(** the search for a breaking point, llerror.c:483-487; [i] counts down from MAXSEARCH *)
Fixpoint search (s : cstr) (t i : nat) : nat :=
  match i with
  | O => t
  | S i => if negb (blank_at s t) && (4 <? t) then search s (t - 1) i else t
  end.

(** mstring_split, llerror.c:361-527: the line, what is left, the new indentation *)
Definition split (maxline ind : nat) (text : cstr) : cstr * option cstr * nat :=
  let maxline := if maxline <? MINLINELEN then MINLINELEN else maxline in
  let s := repeat ch_space ind ++ text in
  let otherwise :=
    if List.length s <? maxline then (s, None, ind)
    else
      let head := firstn (maxline - 1) s in
      let colon := maxcp (find_last ":"%char head) (find_last ";"%char head) in
      let at_comma := find_last ","%char head in
      let blanks :=
        let t := search s (maxline - 1) MAXSEARCH in
        if blank_at s t then
          (firstn t s, match skipn (S t) s with [] => None | r => Some r end, ind)
        else (firstn maxline s, match skipn maxline s with [] => None | r => Some r end, ind) in
      let commas :=
        match at_comma with
        | Some n => if (maxline - 5 <? n) && breakable s n ["}"%char]
                    then (firstn (n + 1) s, Some (skipn (n + 2) s), ind) else blanks
        | None => blanks
        end in
      match colon with
      | Some n => if breakable s n ["}"%char; ","%char]
                  then (firstn (n + 1) s, Some (skipn (n + 2) s), ind) else commas
      | None => commas
      end in
  match find_first ch_nl s with
  | Some n =>
      if n <? maxline then
        (firstn n s,
         match skipn (S n) s with
         | [] => None
         | c :: r => if is_code c then Some r else Some (c :: r)
         end,
         match skipn (S n) s with
         | [] => ind
         | c :: r => if is_code c then ind + Z.to_nat (code c) else ind
         end)
      else otherwise
  | None => otherwise
  end.

(** The loop of printIndentMessage, llerror.c:1299-1312: the lines printed; nothing when the
    loop did not come to an end within [fuel] lines. *)
Fixpoint print_loop (fuel : nat) (maxline ind : nat) (s : cstr) : option (list cstr) :=
  match fuel with
  | O => None
  | S fuel =>
      match split maxline ind s with
      | (line, None, _) => Some [line]
      | (line, Some rest, ind) => option_map (cons line) (print_loop fuel maxline ind rest)
      end
  end.

(** The continuation loops of printError, llerror.c:1359-1364, 1395-1401, 1430-1438 *)
Definition print_rest (fuel maxline ind spaces : nat) (s : cstr) : option (list cstr) :=
  option_map (map (app (repeat ch_space spaces))) (print_loop fuel maxline ind s).

(** printError, llerror.c:1320-1447; [loclen] is s_lastfileloclen *)
Definition print_error (fuel : nat) (maxlen loclen : nat) (s : cstr) : option (list cstr) :=
  let nspaces := loclen + 5 in
  let nextlen := (Z.of_nat maxlen - Z.of_nat nspaces)%Z in
  let len := Z.of_nat (List.length s) in
  let has_nl t := match find_first ch_nl t with Some _ => true | None => false end in
  let first k := match split maxlen 0 s with
                 | (line, None, _) => Some [line]
                 | (line, Some t, ind) => option_map (cons line) (k t ind)
                 end in
  if ((len <? Z.of_nat maxlen + nextlen)%Z && negb (has_nl s)) then
    first (fun t ind =>
      let tl := Z.of_nat (List.length t) in
      if ((tl <? Z.of_nat maxlen - 3) && negb (has_nl t) && (nextlen - 1 <? tl))%Z
      then Some [repeat ch_space 4 ++ t]
      else print_rest fuel (Z.to_nat nextlen) ind nspaces t)
  else if ((len <? 2 * Z.of_nat maxlen - 1)%Z && has_nl s) then
    let nspaces := Nat.max 1 ((2 * maxlen - 1 - List.length s) / 2) in
    first (fun t ind => print_rest fuel (maxlen - nspaces) ind nspaces t)
  else first (fun t ind => print_rest fuel (maxlen - 4) ind 4 t).
