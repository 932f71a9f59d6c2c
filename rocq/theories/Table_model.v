(** * Hash tables from names to values

    Sources: src/cstringTable.c (names to numbers) and src/genericTable.c (names to
    objects).  [None] is undefined behaviour: an access outside an array, a division by
    zero, signed overflow.  A failing llassert / llbug / llcontbug reports an internal
    bug and execution goes on (Headers/llerror.h:17-23, llerror.c:1485-1557); this is
    the boolean returned by each operation.

    Simplifications: allocation never fails; sharing of key strings is not represented. *)
From Verif Require Import Cbase.
Local Open Scope Z_scope.

Definition M32 : Z := 4294967296.

(** plain char is signed *)
Definition schar (c : ascii) : Z := if code c <? 128 then code c else code c - 256.

Section Tables.
(** g_randomNumbers, randomNumbers.c:31-35: any 256 numbers. *)
Variable rnd : Z -> Z.

(** One step of the hash loop, cstringTable.c:263-266, genericTable.c:272-275; [*p % 256]
    is negative for characters outside the 7-bit range. *)
Definition hash_step (h : option Z) (c : ascii) : option Z :=
  match h with
  | None => None
  | Some h => let i := Z.rem (schar c) 256 in
              if i <? 0 then None else Some (Z.lxor ((h * 2) mod M32) (rnd i) mod M32)
  end.

(** cstringTable_hashValue, cstringTable.c:257-269; genericTable_hashValue,
    genericTable.c:264-278 *)
Definition hashValue (size : Z) (key : cstr) : option Z :=
  match fold_left hash_step key (Some 0) with
  | None => None
  | Some h => if size <=? 0 then None else Some (h mod size)
  end.

Section Values.
Variable V : Type.

(** hbucket, Headers/cstringTable.h:30-35; [b_cap] is the length of the allocated
    array of entries. *)
Record bucket := Bk { b_ents : list (cstr * V); b_nspace : Z; b_cap : Z }.

Definition b_size (b : bucket) : Z := Z.of_nat (List.length (b_ents b)).

(** hbucket_single, cstringTable.c:92-103; ghbucket_single, genericTable.c:100-110 *)
Definition b_single (e : cstr * V) : bucket := Bk [e] 1 2.

(** hbucket_grow, cstringTable.c:105-125; ghbucket_grow, genericTable.c:112-132 *)
Definition b_grow (b : bucket) : bucket := Bk (b_ents b) (b_nspace b + 2) (b_size b + 2).

(** hbucket_lookup, cstringTable.c:164-181; ghbucket_lookup, genericTable.c:170-187 *)
Fixpoint find (l : list (cstr * V)) (key : cstr) : option V :=
  match l with
  | [] => None
  | (k, v) :: l => if cstr_eqb k key then Some v else find l key
  end.

(** the end of hbucket_add, cstringTable.c:144-152; of ghbucket_add, genericTable.c:152-158 *)
Definition b_push (b : bucket) (e : cstr * V) : option bucket :=
  let b := if b_nspace b =? 0 then b_grow b else b in
  if b_size b <? b_cap b then Some (Bk (b_ents b ++ [e]) (b_nspace b - 1) (b_cap b)) else None.

(** struct s_cstringTable, Headers/cstringTable.h:39-44; a null bucket is [None] *)
Record table := T { t_size : Z; t_nent : Z; t_bks : list (option bucket) }.

Definition bk_ents (b : option bucket) : list (cstr * V) :=
  match b with Some b => b_ents b | None => [] end.

Fixpoint upd {A} (n : nat) (x : A) (l : list A) : list A :=
  match l, n with
  | [], _ => []
  | _ :: l, O => x :: l
  | y :: l, S n => y :: upd n x l
  end.

(** [h->buckets[i]], outside the array undefined *)
Definition get_bk (t : table) (i : Z) : option (option bucket) := nth_error (t_bks t) (Z.to_nat i).
Definition set_bk (t : table) (i : Z) (b : bucket) : table :=
  T (t_size t) (t_nent t) (upd (Z.to_nat i) (Some b) (t_bks t)).

Definition empty_bks (size : Z) : list (option bucket) := repeat None (Z.to_nat size).

(** the loops of update, replaceKey and remove over one bucket *)
Fixpoint replace_val (l : list (cstr * V)) (key : cstr) (v : V) : option (list (cstr * V)) :=
  match l with
  | [] => None
  | (k, x) :: l => if cstr_eqb k key then Some ((k, v) :: l)
                   else match replace_val l key v with
                        | Some l => Some ((k, x) :: l) | None => None end
  end.

Fixpoint replace_key (l : list (cstr * V)) (old new : cstr) : option (list (cstr * V)) :=
  match l with
  | [] => None
  | (k, x) :: l => if cstr_eqb k old then Some ((new, x) :: l)
                   else match replace_key l old new with
                        | Some l => Some ((k, x) :: l) | None => None end
  end.

(** index of the first entry with the key *)
Fixpoint index_of (l : list (cstr * V)) (key : cstr) : option nat :=
  match l with
  | [] => None
  | (k, _) :: l => if cstr_eqb k key then Some O
                   else match index_of l key with Some n => Some (S n) | None => None end
  end.

(** [entries[i] = entries[size-1]] unless it is the last; [size--] *)
Definition swap_out (l : list (cstr * V)) (i : nat) : list (cstr * V) :=
  match rev l with
  | [] => l
  | last :: _ => removelast (if Nat.ltb i (List.length l - 1) then upd i last l else l)
  end.

(** an operation on the bucket of a key: [f] gives the new entries, [None] "not found" *)
Definition on_bucket (t : table) (key : cstr) (f : list (cstr * V) -> option (list (cstr * V)))
  : option (table * bool) :=
  match hashValue (t_size t) key with
  | None => None
  | Some i =>
      match get_bk t i with
      | None => None
      | Some None => Some (t, true)
      | Some (Some b) =>
          match f (b_ents b) with
          | Some l => Some (set_bk t i (Bk l (b_nspace b) (b_cap b)), false)
          | None => Some (t, true)
          end
      end
  end.

(** lookup, cstringTable.c:456-464, genericTable.c:438-450 *)
Definition t_lookup (t : table) (key : cstr) : option (option V) :=
  match hashValue (t_size t) key with
  | None => None
  | Some i => match get_bk t i with
              | None => None
              | Some b => Some (find (bk_ents b) key)
              end
  end.

(** update, cstringTable.c:466-489, genericTable.c:452-477 *)
Definition t_update (t : table) (key : cstr) (v : V) : option (table * bool) :=
  on_bucket t key (fun l => replace_val l key v).

(** remove, cstringTable.c:522-551, genericTable.c:479-508 *)
Definition t_remove (t : table) (key : cstr) : option (table * bool) :=
  on_bucket t key (fun l => match index_of l key with
                            | Some i => Some (swap_out l i) | None => None end).

(** All entries, in the order the rehash loops visit them. *)
Definition all_ents (t : table) : list (cstr * V) := flat_map bk_ents (t_bks t).

(** Adding all entries during a rehash. *)
Fixpoint add_all (add : table -> cstr * V -> option (table * bool))
  (t : table) (l : list (cstr * V)) (bug : bool) : option (table * bool) :=
  match l with
  | [] => Some (t, bug)
  | e :: l => match add t e with
              | Some (t, b) => add_all add t l (bug || b)
              | None => None
              end
  end.

End Values.

Arguments Bk {V}. Arguments T {V}. Arguments t_size {V}. Arguments t_nent {V}. Arguments t_bks {V}.
Arguments b_ents {V}. Arguments b_nspace {V}. Arguments b_cap {V}.

(** ** cstringTable: values are ints, HBUCKET_DNE = NOT_FOUND = -23 means absent *)

Definition DNE : Z := -23.
Definition ctable := table Z.

(** what hbucket_lookup returns *)
Definition dne (x : option Z) : Z := match x with Some v => v | None => DNE end.

(** cstringTable_create, cstringTable.c:278-296 *)
Definition c_create (size : Z) : ctable := T size 0 (empty_bks Z size).

(** cstringTable_addEntry, cstringTable.c:391-422; hbucket_add's assertions *)
Definition c_addEntry (t : ctable) (e : cstr * Z) : option (ctable * bool) :=
  match hashValue (t_size t) (fst e) with
  | None => None
  | Some i =>
      match get_bk _ t i with
      | None => None
      | Some None =>
          Some (T (t_size t) (uwrap64 (t_nent t + 1)) (t_bks (set_bk _ t i (b_single _ e))), false)
      | Some (Some b) =>
          if negb (dne (find _ (b_ents b) (fst e)) =? DNE) then Some (t, true)
          else match b_push _ b e with
               | None => None
               | Some b' =>
                   Some (T (t_size t) (uwrap64 (t_nent t + 1)) (t_bks (set_bk _ t i b')),
                         snd e =? DNE)
               end
      end
  end.

(** cstringTable_rehash, cstringTable.c:339-389 *)
Definition c_rehash (t : ctable) : option (ctable * bool) :=
  let newsize := uwrap64 (1 + uwrap64 (t_size t * 26244) / 10000) in
  add_all _ c_addEntry (T newsize 0 (empty_bks Z newsize)) (all_ents _ t) false.

(** cstringTable_insert, cstringTable.c:424-454 *)
Definition c_insert (t : ctable) (key : cstr) (v : Z) : option (ctable * bool) :=
  let n := uwrap64 (t_nent t + 1) in
  let t := T (t_size t) n (t_bks t) in
  match (if uwrap64 (t_size t * 100) <? uwrap64 (n * 162) then c_rehash t else Some (t, false)) with
  | None => None
  | Some (t, bug) =>
      match hashValue (t_size t) key with
      | None => None
      | Some i =>
          match get_bk _ t i with
          | None => None
          | Some None => Some (set_bk _ t i (b_single _ (key, v)), bug || (v =? DNE))
          | Some (Some b) =>
              match b_push _ b (key, v) with
              | None => None
              | Some b' =>
                  Some (set_bk _ t i b',
                        bug || (v =? DNE) || negb (dne (find _ (b_ents b) key) =? DNE))
              end
          end
      end
  end.

Definition c_lookup (t : ctable) (key : cstr) : option Z :=
  match t_lookup _ t key with Some x => Some (dne x) | None => None end.

(** cstringTable_replaceKey, cstringTable.c:496-520 *)
Definition c_replaceKey (t : ctable) (old new : cstr) : option (ctable * bool) :=
  match on_bucket _ t old (fun l => replace_key _ l old new) with
  | Some (t, b) => Some (t, b || negb (cstr_eqb old new))
  | None => None
  end.

Inductive cop :=
| CInsert (k : cstr) (v : Z) | CUpdate (k : cstr) (v : Z)
| CReplace (old new : cstr) | CRemove (k : cstr).

Definition c_op (t : ctable) (o : cop) : option (ctable * bool) :=
  match o with
  | CInsert k v => c_insert t k v
  | CUpdate k v => t_update _ t k v
  | CReplace a b => c_replaceKey t a b
  | CRemove k => t_remove _ t k
  end.

(** A history of operations; the boolean says whether an internal bug was reported. *)
Definition c_run (ops : list cop) (size : Z) : option (ctable * bool) :=
  fold_left (fun s o => match s with
                        | None => None
                        | Some (t, bug) => match c_op t o with
                                           | Some (t, b) => Some (t, bug || b)
                                           | None => None end
                        end) ops (Some (c_create size, false)).

(** ** genericTable: sizes and counts are ints; objects are never null *)

Section Generic.
Variable V : Type.

(** genericTable_create, genericTable.c:287-304 *)
Definition g_create (size : Z) : table V := T size 0 (empty_bks V size).

(** ghbucket_add, genericTable.c:140-159: a duplicate is reported and dropped *)
Definition g_add (b : bucket V) (e : cstr * V) : option (bucket V * bool) :=
  match find _ (b_ents b) (fst e) with
  | Some _ => Some (b, true)
  | None => match b_push _ b e with Some b => Some (b, false) | None => None end
  end.

(** the common end of genericTable_addEntry and genericTable_insert *)
Definition g_put (t : table V) (e : cstr * V) : option (table V * bool) :=
  match hashValue (t_size t) (fst e) with
  | None => None
  | Some i =>
      match get_bk _ t i with
      | None => None
      | Some None => Some (set_bk _ t i (b_single _ e), false)
      | Some (Some b) => match g_add b e with
                         | Some (b, bug) => Some (set_bk _ t i b, bug)
                         | None => None
                         end
      end
  end.

Definition incr (t : table V) : option (table V) :=
  if in_int (t_nent t + 1) then Some (T (t_size t) (t_nent t + 1) (t_bks t)) else None.

(** genericTable_addEntry, genericTable.c:345-365 *)
Definition g_addEntry (t : table V) (e : cstr * V) : option (table V * bool) :=
  match incr t with Some t => g_put t e | None => None end.

(** genericTable_insert, genericTable.c:367-436 *)
Definition g_insert (t : table V) (key : cstr) (v : V) : option (table V * bool) :=
  if negb (in_int (t_nent t * 162) && in_int (t_size t * 100)) then None else
  match (if t_size t * 100 <? t_nent t * 162 then
           if negb (in_int (t_size t * 26244)) then None else
           let newsize := 1 + t_size t * 26244 / 10000 in
           add_all _ g_addEntry (T newsize 0 (empty_bks V newsize)) (all_ents _ t) false
         else Some (t, false)) with
  | None => None
  | Some (t, bug) =>
      match incr t with
      | None => None
      | Some t => match g_put t (key, v) with
                  | Some (t, b) => Some (t, bug || b)
                  | None => None
                  end
      end
  end.

Inductive gop := GInsert (k : cstr) (v : V) | GUpdate (k : cstr) (v : V) | GRemove (k : cstr).

Definition g_op (t : table V) (o : gop) : option (table V * bool) :=
  match o with
  | GInsert k v => g_insert t k v
  | GUpdate k v => t_update _ t k v
  | GRemove k => t_remove _ t k
  end.

Definition g_run (ops : list gop) (size : Z) : option (table V * bool) :=
  fold_left (fun s o => match s with
                        | None => None
                        | Some (t, bug) => match g_op t o with
                                           | Some (t, b) => Some (t, bug || b)
                                           | None => None end
                        end) ops (Some (g_create size, false)).

End Generic.
End Tables.

Arguments Bk {V}. Arguments T {V}. Arguments t_size {V}. Arguments t_nent {V}. Arguments t_bks {V}.
Arguments b_ents {V}. Arguments b_nspace {V}. Arguments b_cap {V}.
