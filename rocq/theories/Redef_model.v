(** Model of how the body of a #define is stored and compared with an earlier one, src/cpplib.c:
    [initialize_char_syntax] 550–591, [collect_expansion] 1511–1843 (not in -traditional mode,
    which is off: 974), [create_definition] 2214–2450, [compare_defs] 2762–2803,
    [comp_def_part] 2816–2843.

    Simplified: the text between [buf] and [limit] is a list; [expansion] and the [nchars] of the
    pattern are kept as one text per item (the [nchars] characters before that use of a parameter)
    and the text after the last one; what is reported is left out; [$] is not an identifier
    character ([dollars_in_ident]).  Reading past [limit] finds nothing of interest there.
    The tables are indexed by plain [char]: a character from 128 on indexes before them, which is
    undefined; [create] then gives [None]. *)
From Verif Require Import Cbase.

(** 568–578, 580–590. *)
Definition is_alpha (c : ascii) : bool := ((97 <=? code c) && (code c <=? 122)) || ((65 <=? code c) && (code c <=? 90)).
Definition is_idstart (c : ascii) : bool := is_alpha c || (code c =? 95).
Definition is_idchar (c : ascii) : bool := is_idstart c || is_digit c.
Definition is_hor_space (c : ascii) : bool :=
  (code c =? 32) || (code c =? 9) || (code c =? 11) || (code c =? 12) || (code c =? 13).
Definition is_space (c : ascii) : bool := is_hor_space c || (code c =? 10).

Definition ch_at : ascii := "@"%char.
Definition ch_hash : ascii := "#"%char.
Definition ch_bslash : ascii := "\"%char.
Definition ch_squote : ascii := "'"%char.
Definition is_quote (c : ascii) : bool := Ascii.eqb c ch_squote || Ascii.eqb c ch_dquote.
(** The two characters that keep tokens apart, 1578–1579. *)
Definition marker : cstr := [ch_at; ch_space].

(** src/Headers/cpplib.h 494–504. *)
Record item := { argno : nat; stringify : bool; raw_before : bool; raw_after : bool; item_rest : bool }.
Record defn := { nargs : Z; argnames : cstr; items : list (cstr * item); tail : cstr }.

(** A parameter, and whether [...] follows it (2312–2322). *)
Record param := { pname : cstr; prest : bool }.

(** [arglist], last parameter first (2263–2269). *)
Fixpoint number (k : nat) (ps : list param) : list (nat * param) :=
  match ps with [] => [] | p :: ps => (k, p) :: number (S k) ps end.
Definition arglist (ps : list param) : list (nat * param) := rev (number 0 ps).
Definition find_arg (ps : list param) (id : cstr) : option (nat * param) :=
  List.find (fun a => cstr_eqb (pname (snd a)) id) (arglist ps).

Fixpoint take_while (p : ascii -> bool) (s : cstr) : cstr :=
  match s with c :: r => if p c then c :: take_while p r else [] | [] => [] end.

Definition begins (s p : cstr) : bool := cstr_eqb (firstn (List.length p) s) p.
Definition quote_next (s : cstr) : bool := match s with c :: _ => is_quote c | [] => false end.

(** 1590–1819.  [delim] is [expected_delimiter]; [paste] and [str]: [concat], [stringify] is the
    place now reached; [cur] is the text since the last parameter, reversed. *)
Fixpoint scan (fuel : nat) (na : Z) (ps : list param) (delim : option ascii) (paste str : bool)
    (p cur : cstr) (acc : list (cstr * item)) : list (cstr * item) * cstr * option ascii :=
  match fuel with
  | O => (rev acc, cur, delim)
  | S fuel =>
      match p with
      | [] => (rev acc, cur, delim)
      | c :: p1 =>
          if is_quote c then                                            (* 1597–1608 *)
            let delim' := match delim with
                          | Some d => if Ascii.eqb c d then None else delim
                          | None => Some c
                          end in
            scan fuel na ps delim' false false p1 (c :: cur) acc
          else if Ascii.eqb c ch_bslash then                            (* 1610–1617 *)
            match p1, delim with
            | x :: p2, Some _ => scan fuel na ps delim false false p2 (x :: c :: cur) acc
            | _, _ => scan fuel na ps delim false false p1 (c :: cur) acc
            end
          else if Ascii.eqb c ch_at then                                (* 1619–1627 *)
            scan fuel na ps delim false false p1 (match delim with None => c :: c :: cur | Some _ => c :: cur end) acc
          else if Ascii.eqb c ch_hash && match delim with None => true | Some _ => false end then
            if begins p1 [ch_hash]                                      (* 1636–1657 *)
            then scan fuel na ps delim true false (skip_while is_hor_space (tl p1)) (skip_while is_hor_space cur) acc
            else if 0 <=? na                                            (* 1658–1669 *)
            then let p2 := skip_while is_hor_space p1 in
                 let ok := match p2 with
                           | x :: p3 => is_idstart x && negb (Ascii.eqb x "L"%char && quote_next p3)
                           | [] => false
                           end in
                 scan fuel na ps delim false ok p2 cur acc
            else scan fuel na ps delim false false p1 (c :: cur) acc
          else if is_idchar c && (0 <? na) then                         (* 1719–1818 *)
            let id := c :: take_while is_idchar p1 in
            let p2 := skip_while is_idchar p1 in
            let here := is_idstart c && negb (cstr_eqb id (lit "L") && quote_next p2)
                        && match delim with None => true | Some _ => false end in
            match (if here then find_arg ps id else None) with
            | Some (k, a) =>
                let it := {| argno := k; stringify := str; raw_before := paste;
                             raw_after := begins (skip_while is_hor_space p2) (lit "##"); item_rest := prest a |} in
                scan fuel na ps delim false false p2 [] ((rev cur, it) :: acc)
            | None => scan fuel na ps delim false false p2 (rev id ++ cur) acc
            end
          else scan fuel na ps delim false false p1 (c :: cur) acc
      end
  end.

(** 1535–1540. *)
Definition rtrim (s : cstr) : cstr := rev (skip_while is_space (rev s)).

(** 1511–1843; [args] as given to [create_definition]: [None] for an object-like macro. *)
Definition collect (na : Z) (ps : list param) (body : cstr) : defn :=
  let p := rtrim body in
  let p := if begins p (lit "##") then skipn 2 p else p in              (* 1581–1585 *)
  let '(its, cur, delim) := scan (S (List.length p)) na ps None false false p (rev marker) [] in
  {| nargs := na; argnames := [];
     items := its; tail := rev cur ++ match delim with None => marker | Some _ => [] end |}.

(** 2357–2382: the names in reverse order. *)
Fixpoint join (names : list cstr) : cstr :=
  match names with
  | [] => []
  | [n] => n
  | n :: ns => n ++ lit ", " ++ join ns
  end.

(** 2214–2450, from the parameters on. [None]: undefined behaviour. *)
Definition create (params : option (list param)) (body : cstr) : option defn :=
  if forallb (fun c => code c <? 128) body then
    let b := skip_while is_hor_space body in
    Some (match params with
          | Some ps => let d := collect (Z.of_nat (List.length ps)) ps b in
                       {| nargs := nargs d; argnames := join (map (fun a => pname (snd a)) (arglist ps)); items := items d; tail := tail d |}
          | None => collect (-1) [] b
          end)
  else None.

(** 2834–2842. *)
Fixpoint part_loop (fuel : nat) (a b : cstr) : bool :=
  match fuel with
  | O => true
  | S fuel =>
      match a, b with
      | x :: a', y :: b' =>
          if is_space x && is_space y then part_loop fuel (skip_while is_space a) (skip_while is_space b)
          else if Ascii.eqb x y then part_loop fuel a' b'
          else true
      | [], [] => false
      | _, _ => true
      end
  end.

(** 2816–2843: true if the parts differ. *)
Definition comp_def_part (first : bool) (a b : cstr) (last : bool) : bool :=
  let a := if first then skip_while is_space a else a in
  let b := if first then skip_while is_space b else b in
  let a := if last then rtrim a else a in
  let b := if last then rtrim b else b in
  part_loop (S (List.length a + List.length b)) a b.

(** [strncmp] of texts of the same length. *)
Fixpoint strncmp_eq (a b : cstr) : bool :=
  match a, b with
  | x :: a, y :: b => Ascii.eqb x y && ((code x =? 0) || strncmp_eq a b)
  | _, _ => true
  end.

(** 2762–2803: true if the definitions differ. *)
Fixpoint compare_items (first : bool) (l1 l2 : list (cstr * item)) : bool * bool :=
  match l1, l2 with
  | (t1, a1) :: l1, (t2, a2) :: l2 =>
      if negb (((List.length t1 =? List.length t2)%nat && strncmp_eq t1 t2) || negb (comp_def_part first t1 t2 false))
         || negb (argno a1 =? argno a2)%nat
         || negb (Bool.eqb (stringify a1) (stringify a2))
         || negb (Bool.eqb (raw_before a1) (raw_before a2))
         || negb (Bool.eqb (raw_after a1) (raw_after a2))
      then (true, first)
      else compare_items false l1 l2
  | [], [] => (false, first)
  | _, _ => (true, first)
  end.
Definition compare_defs (d1 d2 : defn) : bool :=
  if negb (nargs d1 =? nargs d2) then true
  else if negb (cstr_eqb (argnames d1) (argnames d2)) then true
  else let '(differ, first) := compare_items true (items d1) (items d2) in
       if differ then true else comp_def_part first (tail d1) (tail d2) true.

(** 2873–2930: whether redefining a macro is silent; [None]: undefined behaviour. *)
Definition silent (p1 : option (list param)) (b1 : cstr) (p2 : option (list param)) (b2 : cstr) : option bool :=
  match create p1 b1, create p2 b2 with
  | Some d1, Some d2 => Some (negb (compare_defs d2 d1))
  | _, _ => None
  end.
