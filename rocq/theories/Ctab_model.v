(** Model of the table of C types: /repo/src/cttable.i, /repo/src/ctbase.i and
    the type constructors of /repo/src/ctype.c.

    Simplifications:
    - the printed name cached in an entry ([unparse]) is left out;
    - parameter lists and structure fields are represented
      by the text the dump functions write for them;
    - [llcontbug]/[llbug]/[llassert] failures are the outcome [None];
    - user-defined types are leaves: [ctbase_realType] (ctbase.i:318-341) is the
      identity, and alternate types ([CBconj]) are treated as leaves by the
      array tests (ctbase.i:2534-2546 looks into the alternatives);
    - the growth of the C array (cttable.i:488-512) is not visible: entries are
      separate heap objects and keep their index. *)
From Verif Require Import Cbase Pos_model.

(** lctype.h:22-43  the representation of one type. *)
Inductive ctbase :=
| CBundef                              (* ctbase_undefined, the null pointer *)
| CBunknown
| CBbool
| CBprim (p : Z)
| CBuser (tid : Z)
| CBabst (tid : Z)
| CBnumabst (tid : Z)
| CBenum (tag : cstr) (members : list cstr)
| CBptr (b : Z)
| CBarray (b : Z)
| CBfixed (b : Z) (dim : Z)
| CBfcn (rval : Z) (params : cstr)
| CBstruct (name fields : cstr)
| CBunion (name fields : cstr)
| CBenumlist
| CBconj (explicit : bool) (a b : Z)
| CBexpfcn (b : Z).

(** lctype.h:74-83 *)
Definition CTK_INVALID : Z := -2.
Definition CTK_DNE : Z := -1.
Definition CTK_PLAIN : Z := 0.
Definition CTK_PTR : Z := 1.
Definition CTK_ARRAY : Z := 2.
Definition CTK_COMPLEX : Z := 3.
(** lctype.h:95-99 *)
Definition ctype_undefined : Z := -2.
Definition ctype_dne : Z := -1.
(** cprim.h:20-93 *)
Definition CTX_UNKNOWN : Z := 0.
Definition CTX_VOID : Z := 1.
Definition CTX_BOOL : Z := 2.
Definition CTX_CHAR : Z := 4.
Definition CTX_LAST : Z := 18.
(** lctype.h:56-69 *)
Definition CTK_PREDEFINED : Z := 19.
Definition CTK_PREDEFINED2 : Z := 38.
Definition LAST_PREDEFINED : Z := 57.
Definition CTP_VOID : Z := CTX_VOID + CTK_PREDEFINED.
Definition CTP_CHAR : Z := CTX_CHAR + CTK_PREDEFINED.
Definition DEFAULT_OPTLEVEL : Z := 15.       (* system_constants.h:71 *)

(** ctbase.i:43-50  one table entry. *)
Record entry := mkEntry {
  e_kind : Z; e_cb : ctbase; e_base : Z; e_ptr : Z; e_arr : Z }.

Definition table := list entry.
Definition size (t : table) : Z := Z.of_nat (List.length t).

(** ctype.c:2816-2850  ctype_getCtentry; an index out of range is reported as an
    internal error (the C code then goes on with the entry of the unknown type). *)
Definition getCtentry (t : table) (c : Z) : option entry :=
  if c <? 0 then None else nth_error t (Z.to_nat c).

(** ctype.c:2776-2801  ctype_getCtbase. *)
Definition getCtbase (t : table) (c : Z) : option ctbase :=
  option_map e_cb (getCtentry t c).

(** cttable.i:551-563  cttable_addFull *)
Definition addFull (t : table) (e : entry) : table * Z := (t ++ [e], size t).

(** cttable.i:514-527  cttable_addDerived *)
Definition addDerived (t : table) (k : Z) (cb : ctbase) (base : Z) : table * Z :=
  addFull t (mkEntry k cb base ctype_dne ctype_dne).

(** ctbase.i:97-98  ctentry_setPtr, ctentry_setArray *)
Definition setPtr (t : table) (c v : Z) : table :=
  match getCtentry t c with
  | Some e => set_nth (Z.to_nat c) (mkEntry (e_kind e) (e_cb e) (e_base e) v (e_arr e)) t
  | None => t
  end.
Definition setArray (t : table) (c v : Z) : table :=
  match getCtentry t c with
  | Some e => set_nth (Z.to_nat c) (mkEntry (e_kind e) (e_cb e) (e_base e) (e_ptr e) v) t
  | None => t
  end.

(** cttable.i:418-478  cttable_init: the nineteen built-in types, pointers to
    them, arrays of them, and the slot reserved for the user's boolean. *)
Definition init_plain (j : nat) : entry :=
  let z := Z.of_nat j in
  mkEntry CTK_PLAIN
          (if z =? CTX_BOOL then CBbool else if z =? CTX_UNKNOWN then CBunknown else CBprim z)
          ctype_undefined (z + CTK_PREDEFINED) (z + CTK_PREDEFINED2).
Definition init_ptr (j : nat) : entry :=
  mkEntry CTK_PTR (CBptr (Z.of_nat j)) (Z.of_nat j) ctype_dne ctype_dne.
Definition init_array (j : nat) : entry :=
  mkEntry CTK_ARRAY (CBarray (Z.of_nat j)) (Z.of_nat j) ctype_dne ctype_dne.
Definition cttable_init : table :=
  map init_plain (seq 0 19) ++ map init_ptr (seq 0 19) ++ map init_array (seq 0 19)
  ++ [mkEntry CTK_INVALID CBundef ctype_undefined ctype_dne ctype_dne].

(** ctype.c:321-348  ctype_makePointer *)
Definition makePointer (t : table) (c : Z) : option (table * Z) :=
  if c =? CTX_CHAR then Some (t, CTP_CHAR)
  else if c =? CTX_VOID then Some (t, CTP_VOID)
  else match getCtentry t c with
       | None => None
       | Some e =>
           if e_ptr e =? ctype_dne then
             let (t', cnew) := addDerived t CTK_PTR (CBptr c) c in
             Some (setPtr t' c cnew, cnew)
           else Some (t, e_ptr e)
       end.

(** ctype.c:431-449  ctype_makeArray *)
Definition makeArray (t : table) (c : Z) : option (table * Z) :=
  match getCtentry t c with
  | None => None
  | Some e =>
      if e_arr e =? ctype_dne then
        let (t', cnew) := addDerived t CTK_ARRAY (CBarray c) c in
        Some (setArray t' c cnew, cnew)
      else Some (t, e_arr e)
  end.

(** ctype.c:350-355  ctype_makeFixedArray: always a new entry. *)
Definition makeFixedArray (t : table) (c n : Z) : option (table * Z) :=
  Some (addDerived t CTK_ARRAY (CBfixed c n) c).

(** ctype.c:63-78, ctbase.i:61-63  ctype_isBroken, ctentry_isBogus *)
Definition isBroken (t : table) (c : Z) : bool :=
  (c =? -1) || (c =? -2) || (c =? -3) ||
  match getCtentry t c with
  | Some e => (e_kind e =? CTK_INVALID) || (e_kind e =? CTK_DNE)
  | None => true
  end.

(** cprim.h:96  cprim_isAnyInt, as far as ctype_isInt (ctype.c:825-834)
    depends on the index alone. *)
Definition isIntIndex (c : Z) : bool := (c =? CTX_UNKNOWN) || ((5 <=? c) && (c <=? 15)).

(** ctype.c:455-495  ctype_baseArrayPtr for a type that is not an alternate;
    the unknown type stands for "no element type known". *)
Definition baseArrayPtr (t : table) (c : Z) : option Z :=
  match getCtentry t c with
  | None => None
  | Some e =>
      if isIntIndex c then Some CTX_UNKNOWN
      else if isBroken t (e_base e) then Some CTX_UNKNOWN   (* and llcontbug *)
      else Some (e_base e)
  end.

(** ctype.c:2853-2858, ctbase.i:369-375  ctype_isFixedArray *)
Definition isFixedArray (t : table) (c : Z) : bool :=
  match getCtbase t c with Some (CBfixed _ _) => true | _ => false end.

(** ctype.c:1849-1858, ctbase.i:360-367  ctype_isArray *)
Definition isArray (t : table) (c : Z) : bool :=
  match getCtentry t c with
  | Some e => if e_kind e =? CTK_COMPLEX
              then match e_cb e with CBarray _ | CBfixed _ _ => true | _ => false end
              else e_kind e =? CTK_ARRAY
  | None => false
  end.

(** ctype.c:2865-2880, ctbase.i:2659-2670  ctype_getArraySize *)
Definition getArraySize (t : table) (c : Z) : option Z :=
  match getCtbase t c with Some (CBfixed _ n) => Some n | _ => None end.

(** ctype.c:372-429  ctype_makeInnerFixedArray ([dim = Some n]) and
    ctype_makeInnerArray ([dim = None]): the two functions differ only in what
    they build at the innermost position.  [fuel] bounds the nesting depth. *)
Fixpoint makeInner (fuel : nat) (dim : option Z) (t : table) (c : Z) : option (table * Z) :=
  match fuel with
  | O => None
  | S f =>
      if isFixedArray t c then
        match baseArrayPtr t c, getArraySize t c with
        | Some cb, Some osize =>
            match makeInner f dim t cb with
            | Some (t', r) => makeFixedArray t' r osize
            | None => None
            end
        | _, _ => None
        end
      else if isArray t c then
        match baseArrayPtr t c with
        | Some cb =>
            match makeInner f dim t cb with
            | Some (t', r) => makeArray t' r
            | None => None
            end
        | None => None
        end
      else match dim with
           | Some n => makeFixedArray t c n
           | None => makeArray t c
           end
  end.

Section Equiv.
(** ctbase.i:2421-2532  ctbase_equiv and ctbase_equivStrict decide which new
    types are shared with an existing entry; the theorems hold for every choice. *)
Variable equiv equivStrict : table -> ctbase -> ctbase -> bool.

(** The entries from index [i] down to [stop], the first one accepted by [p]. *)
Fixpoint searchBack (fuel : nat) (t : table) (p : ctbase -> bool) (i stop : Z) : option Z :=
  match fuel with
  | O => None
  | S f =>
      if i <? stop then None
      else match getCtbase t i with
           | Some CBundef => searchBack f t p (i - 1) stop
           | Some cb => if p cb then Some i else searchBack f t p (i - 1) stop
           | None => None
           end
  end.

(** cttable.i:529-549  cttable_addComplex *)
Definition addComplex (t : table) (cb : ctbase) : table * Z :=
  let found :=
    match cb with
    | CBfcn _ _ | CBexpfcn _ => None
    | _ => searchBack (List.length t) t (equivStrict t cb)
                      (size t - 1) (Z.max (size t - 1 - DEFAULT_OPTLEVEL) LAST_PREDEFINED)
    end in
  match found with
  | Some i => (t, i)
  | None => addFull t (mkEntry CTK_COMPLEX cb ctype_undefined ctype_dne ctype_dne)
  end.

(** cttable.i:565-592  cttable_addFullSafe of ctentry_makeNew (CTK_PLAIN, cb)
    (ctype.c:140-174: user-defined and abstract types). *)
Definition addUser (t : table) (cb : ctbase) : table * Z :=
  match searchBack (List.length t) t (equiv t cb) (size t - 1) 0 with
  | Some i => (t, i)
  | None => addFull t (mkEntry CTK_PLAIN cb ctype_dne ctype_dne ctype_dne)
  end.

(** One call of a type constructor. *)
Inductive op :=
| OpPtr (c : Z)
| OpArr (c : Z)
| OpFix (c n : Z)
| OpInner (c : Z) (dim : option Z)
| OpComplex (cb : ctbase)
| OpUser (cb : ctbase).

(** Constituents of a composite type; the constructors are only called with
    types that already exist. *)
Definition parts (cb : ctbase) : list Z :=
  match cb with
  | CBfcn r _ => [r]
  | CBconj _ a b => [a; b]
  | CBexpfcn b => [b]
  | _ => []
  end.
Definition isComposite (cb : ctbase) : bool :=
  match cb with
  | CBfcn _ _ | CBconj _ _ _ | CBexpfcn _ | CBstruct _ _ | CBunion _ _ | CBenum _ _ => true
  | _ => false
  end.
Definition isUser (cb : ctbase) : bool :=
  match cb with CBuser _ | CBabst _ | CBnumabst _ => true | _ => false end.
Definition validIndex (t : table) (c : Z) : bool := (0 <=? c) && (c <? size t).

Definition orelse {A} (o : option A) (d : A) : A := match o with Some a => a | None => d end.

(** A constructor call; calls with non-existing arguments are not made. *)
Definition step (t : table) (o : op) : table :=
  match o with
  | OpPtr c => if validIndex t c then fst (orelse (makePointer t c) (t, 0)) else t
  | OpArr c => if validIndex t c then fst (orelse (makeArray t c) (t, 0)) else t
  | OpFix c n => if validIndex t c then fst (orelse (makeFixedArray t c n) (t, 0)) else t
  | OpInner c d => if validIndex t c
                   then fst (orelse (makeInner (S (List.length t)) d t c) (t, 0)) else t
  | OpComplex cb => if isComposite cb && forallb (validIndex t) (parts cb)
                    then fst (addComplex t cb) else t
  | OpUser cb => if isUser cb then fst (addUser t cb) else t
  end.

Definition run (ops : list op) (t : table) : table := fold_left step ops t.
End Equiv.
