(** Model of the table of macros, src/cpphash.c: [cpphash_hashCode] 246–257, [cpphash_lookup]
    269–302, [cppReader_deleteMacro] 344–391, [cpphash_install] 405–463, [hashNode_copy] 132–241,
    [cppReader_saveHashtab] 81–89, [cppReader_restoreHashtab] 91–99; and of the parts of
    src/cpplib.c which use it, [do_defineAux] 2866–2951 and [do_undef] 5305–5323.

    Nodes live in a heap indexed by address; a freed node is gone from it, and using it or a null
    pointer is undefined behaviour ([None]).  [DEFINITION]s are values (their sharing with an
    expansion in progress is not modelled, nor that [cppReader_deleteMacro] frees their parts).
    A field that [dmalloc] leaves unset is [None].  Allocation does not fail.  Names are given
    with their length, so [isIdentifierChar] does not matter. *)
From Verif Require Import Cbase.

(** src/Headers/cpplib.h 494–504, [struct reflist]. *)
Record reflist := { stringify : bool; raw_before : bool; raw_after : bool; item_rest : bool;
                    nchars : option Z; argno : Z }.

(** src/Headers/cpplib.h 482–513, [struct definition]. *)
Record defn := { nargs : Z; expansion : cstr; predefined : bool; def_line : Z; def_file : cstr;
                 noExpand : option bool; rest_args : option bool; pattern : list reflist; argnames : cstr }.

(** The [type] and [value] fields of a node: a macro, or a built-in symbol. *)
Inductive value := Macro (d : defn) | Builtin (kind : Z) (text : cstr).

(** The two tables, 63–64: [hashtab] is [false], [ohashtab] is [true]; a slot of one of them. *)
Definition slot := (bool * Z)%type.
Definition slot_eqb (a b : slot) : bool := Bool.eqb (fst a) (fst b) && (snd a =? snd b).

(** src/Headers/cpphash.h 16–32, [struct s_hashNode]; [length] is that of [name]. *)
Record node := { next : option nat; prev : option nat; bucket_hdr : slot; name : cstr; val : value }.

(** Address [a] is at position [a]; [None] when freed. *)
Definition heap := list (option node).
Definition get (h : heap) (a : nat) : option node := match nth_error h a with Some o => o | None => None end.
Fixpoint put (h : heap) (a : nat) (o : option node) : heap :=
  match h, a with
  | [], _ => []
  | _ :: h, O => o :: h
  | x :: h, S a => x :: put h a o
  end.

Record state := { mem : heap; tab : slot -> option nat }.
Definition set_tab (t : slot -> option nat) (s : slot) (v : option nat) : slot -> option nat :=
  fun s' => if slot_eqb s s' then v else t s'.

Definition init : state := {| mem := []; tab := fun _ => None |}.

Definition HASHSIZE : Z := 1403.  (** src/Headers/cpphash.h 5 *)

(** 246–257; [unsigned int] arithmetic, and plain [char] is signed. *)
Definition hashStep (r : Z) (c : ascii) : Z := (r * 4 + wrap8 (code c)) mod 4294967296.
Definition hashCode (n : cstr) : Z := (Z.land (fold_left hashStep n 0) 2147483647) mod HASHSIZE.

Definition bind {A B} (o : option A) (f : A -> option B) : option B := match o with Some a => f a | None => None end.
Notation "'do' x <- o ; e" := (bind o (fun x => e)) (at level 200, x name, o at level 100, e at level 200).

(** 289–302: the first node of the chain with this name.  [fuel] bounds the walk: running out of
    it would mean a cyclic chain and is undefined behaviour. *)
Fixpoint walk (fuel : nat) (h : heap) (p : option nat) (n : cstr) : option (option nat) :=
  match p with
  | None => Some None
  | Some a =>
      match fuel with
      | O => None
      | S fuel => do x <- get h a; if cstr_eqb (name x) n then Some (Some a) else walk fuel h (next x) n
      end
  end.
Definition lookup (s : state) (n : cstr) : option (option nat) :=
  walk (List.length (mem s)) (mem s) (tab s (false, hashCode n)) n.

Definition with_next (v : option nat) (x : node) : node :=
  {| next := v; prev := prev x; bucket_hdr := bucket_hdr x; name := name x; val := val x |}.
Definition with_prev (v : option nat) (x : node) : node :=
  {| next := next x; prev := v; bucket_hdr := bucket_hdr x; name := name x; val := val x |}.
Definition with_val (v : value) (x : node) : node :=
  {| next := next x; prev := prev x; bucket_hdr := bucket_hdr x; name := name x; val := v |}.

(** Changing a field through a pointer. *)
Definition update (h : heap) (p : option nat) (f : node -> node) : option heap :=
  match p with
  | None => Some h                       (** guarded by a test for NULL *)
  | Some a => do x <- get h a; Some (put h a (Some (f x)))
  end.

(** 344–391. *)
Definition delete (s : state) (a : nat) : option state :=
  do x <- get (mem s) a;
  do h1 <- update (mem s) (prev x) (with_next (next x));
  do h2 <- update h1 (next x) (with_prev (prev x));
  let t := match tab s (bucket_hdr x) with
           | Some b => if (a =? b)%nat then set_tab (tab s) (bucket_hdr x) (next x) else tab s
           | None => tab s
           end in
  Some {| mem := put h2 a None; tab := t |}.

(** 405–463. *)
Definition install (s : state) (n : cstr) (v : value) : option state :=
  let b := (false, hashCode n) in
  let a := List.length (mem s) in
  do h <- update (mem s) (tab s b) (with_prev (Some a));
  Some {| mem := h ++ [Some {| next := tab s b; prev := None; bucket_hdr := b; name := n; val := v |}];
          tab := set_tab (tab s) b (Some a) |}.

(** src/cpplib.c 2866–2951: an existing definition is replaced in its node (2929–2930). *)
Definition define (s : state) (n : cstr) (d : defn) : option state :=
  do r <- lookup s n;
  match r with
  | Some a => do h <- update (mem s) (Some a) (with_val (Macro d)); Some {| mem := h; tab := tab s |}
  | None => install s n (Macro d)
  end.

(** src/cpplib.c 5305–5323, src/cppmain.c 229–234: deletes as long as the name is found. *)
Fixpoint undef_loop (fuel : nat) (s : state) (n : cstr) : option state :=
  do r <- lookup s n;
  match r with
  | None => Some s
  | Some a => match fuel with O => None | S fuel => do s' <- delete s a; undef_loop fuel s' n end
  end.
Definition undef (s : state) (n : cstr) : option state := undef_loop (List.length (mem s)) s n.

(** 165–199: the loop over the pattern.  Each new item takes its fields from the first item of the
    original (186–190), [nchars] is not set, and only the first new item is linked (178–181). *)
Definition copy_item (r : reflist) : reflist :=
  {| stringify := stringify r; raw_before := raw_before r; raw_after := raw_after r; item_rest := item_rest r;
     nchars := None; argno := argno r |}.
Fixpoint copy_pattern_loop (head : reflist) (first : bool) (ps acc : list reflist) : list reflist :=
  match ps with
  | [] => acc
  | _ :: ps => copy_pattern_loop head false ps (if first then [copy_item head] else acc)
  end.
Definition copy_pattern (ps : list reflist) : list reflist :=
  match ps with [] => [] | r :: _ => copy_pattern_loop r true ps [] end.

(** 151–219: [noExpand] and [rest_args] are not set. *)
Definition copy_defn (d : defn) : defn :=
  {| nargs := nargs d; expansion := expansion d; predefined := predefined d; def_line := def_line d; def_file := def_file d;
     noExpand := None; rest_args := None; pattern := copy_pattern (pattern d);
     argnames := if 0 <=? nargs d then argnames d else [] |}.
Definition copy_value (v : value) : value := match v with Macro d => Macro (copy_defn d) | Builtin k t => Builtin k t end.

(** 132–241: the new node is allocated before its successors are copied, and is passed to them as
    their [prev]; its fields are then set. *)
Fixpoint copy (fuel : nat) (h : heap) (p : option nat) (hdr : slot) (pv : option nat) : option (heap * option nat) :=
  match p with
  | None => Some (h, None)
  | Some a =>
      match fuel with
      | O => None
      | S fuel =>
          let res := List.length h in
          do x <- get h a;
          do r <- copy fuel (h ++ [None]) (next x) hdr (Some res);
          Some (put (fst r) res (Some {| next := snd r; prev := pv; bucket_hdr := hdr; name := name x; val := copy_value (val x) |}),
                Some res)
      end
  end.

(** 81–99: all slots of one table are set to copies of the slots of the other. *)
Fixpoint copy_table (from to : bool) (buckets : list Z) (s : state) : option state :=
  match buckets with
  | [] => Some s
  | b :: bs =>
      do r <- copy (List.length (mem s)) (mem s) (tab s (from, b)) (to, b) None;
      copy_table from to bs {| mem := fst r; tab := set_tab (tab s) (to, b) (snd r) |}
  end.
Definition buckets : list Z := map Z.of_nat (seq 0 (Z.to_nat HASHSIZE)).
Definition save (s : state) : option state := copy_table false true buckets s.
Definition restore (s : state) : option state := copy_table true false buckets s.

(** A history. *)
Inductive op :=
| Define (n : cstr) (d : defn)
| Undef (n : cstr)
| Install (n : cstr) (v : value)   (** a built-in symbol, src/cpplib.c 3724, 3748 *)
| Save
| Restore.

Definition step (s : state) (o : op) : option state :=
  match o with
  | Define n d => define s n d
  | Undef n => undef s n
  | Install n v => install s n v
  | Save => save s
  | Restore => restore s
  end.
Fixpoint run (s : state) (os : list op) : option state :=
  match os with [] => Some s | o :: os => do s' <- step s o; run s' os end.

(** What a use of the name finds. *)
Definition find (s : state) (n : cstr) : option (option value) :=
  do r <- lookup s n;
  match r with
  | None => Some None
  | Some a => do x <- get (mem s) a; Some (Some (val x))
  end.
