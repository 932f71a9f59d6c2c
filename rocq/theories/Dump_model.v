(** Model of how storage references and bounds constraints are written to and
    read from a library file.

    Sources: /repo/src/sRef.c:2452-2647, constraintTerm.c:547-737,
    constraintExpr.c:2140-2331, constraint.c:1062-1143, constraintList.c:588-636,
    ctype.c:1978-2009.

    Simplifications:
    - a storage reference is its syntax tree; the normalisations done by the
      constructors used when reading (sRef_makeAddress of a pointer, sRef_makeConj
      of equivalent arguments) and the state fields are not modelled;
    - symbol-table lookup by name (usymtab_lookup) is the name itself, and
      usymtab_convertId is the identity;
    - the special case of the boolean abstract type in ctype_dump
      (ctype.c:1994-2005) is left out;
    - llbug/llassert/llfatalbug/llfatalerror stop with [RBug]. *)
From Verif Require Import Cbase Reader_model.

(** sRef.h:29-50, the kinds that can be dumped.  [SVal] marks a reference that
    carries a known value (sRef_hasValue). *)
Inductive sref (V : Type) : Type :=
| SInvalid
| SParam (n : Z)
| SArrayK (i : Z) (a : sref V)      (* array fetch, known index *)
| SArray (a : sref V)
| SField (f : cstr) (r : sref V)
| SPtr (s : sref V)
| SAdr (s : sref V)
| SObject (ct : Z)
| SSpecial (k : Z)
| SConj (a b : sref V)
| SGlobal (i : Z)
| SUnknown
| SResult (ct : Z)
| SVal (s : sref V) (v : V).
Arguments SInvalid {V}. Arguments SParam {V}. Arguments SArrayK {V}. Arguments SArray {V}.
Arguments SField {V}. Arguments SPtr {V}. Arguments SAdr {V}. Arguments SObject {V}.
Arguments SSpecial {V}. Arguments SConj {V}. Arguments SGlobal {V}. Arguments SUnknown {V}.
Arguments SResult {V}. Arguments SVal {V}.

(** ctype.c:1984-2009 *)
Definition ctype_dump (c : Z) : cstr := if c <? 0 then lit "0" else dec c.
(** ctype.c:1978-1981 *)
Definition ctype_undump : cstr -> res Z := reader_getInt.

(** sRef.c:2569-2647  sRef_dumpBody and sRef_dump. *)
Fixpoint sRef_dump (s : sref multiVal) : cstr :=
  match s with
  | SInvalid => lit "-"
  | SParam n => "p"%char :: dec n
  | SArrayK i a => "a"%char :: dec i ++ sRef_dump a
  | SArray a => "a"%char :: sRef_dump a
  | SField f r => "f"%char :: f ++ "."%char :: sRef_dump r
  | SPtr r => "t"%char :: sRef_dump r
  | SAdr r => "d"%char :: sRef_dump r
  | SObject ct => "o"%char :: ctype_dump ct
  | SSpecial k => "s"%char :: dec k
  | SConj a b => "c"%char :: sRef_dump a ++ "."%char :: sRef_dump b
  | SGlobal i => "g"%char :: dec i
  | SUnknown => lit "u"
  | SResult ct => "r"%char :: ctype_dump ct
  | SVal r v => sRef_dump r ++ "="%char :: multiVal_dump (Some v) ++ lit "="
  end.

(** sRef.c:2491-2496: field name up to '.'; running over the terminator is UB. *)
Fixpoint until_dot (s : cstr) : res cstr :=
  match s with
  | [] => RUB
  | c :: r => if Ascii.eqb c "."%char then ROk [] r
              else rbind (until_dot r) (fun w r' => ROk (c :: w) r')
  end.

(** sRef.c:2452-2567  sRef_undumpBody and sRef_undump.  [fuel] bounds the
    recursion depth; the number of characters is always enough. *)
Fixpoint sRef_undump (fuel : nat) (s : cstr) : res (sref multiValR) :=
  match fuel with
  | O => RBug
  | S n =>
    rbind
      (match s with
       | [] => RBug
       | p :: r =>
         if Ascii.eqb p "g"%char then rbind (reader_getInt r) (fun i s' => ROk (SGlobal i) s')
         else if Ascii.eqb p "p"%char then rbind (reader_getInt r) (fun i s' => ROk (SParam i) s')
         else if Ascii.eqb p "r"%char then rbind (ctype_undump r) (fun i s' => ROk (SResult i) s')
         else if Ascii.eqb p "a"%char then
           if match r with c :: _ => is_digit c || Ascii.eqb c "-"%char | [] => false end
           then rbind (reader_getInt r) (fun i s' =>
                rbind (sRef_undump n s') (fun a s'' => ROk (SArrayK i a) s''))
           else rbind (sRef_undump n r) (fun a s' => ROk (SArray a) s')
         else if Ascii.eqb p "f"%char then
           rbind (until_dot r) (fun f s' =>
           rbind (sRef_undump n s') (fun a s'' => ROk (SField f a) s''))
         else if Ascii.eqb p "s"%char then
           rbind (reader_getInt r) (fun i s' =>
             if (0 <=? i) && (i <=? 3) then ROk (SSpecial i) s' else RBug)
         else if Ascii.eqb p "t"%char then rbind (sRef_undump n r) (fun a s' => ROk (SPtr a) s')
         else if Ascii.eqb p "d"%char then rbind (sRef_undump n r) (fun a s' => ROk (SAdr a) s')
         else if Ascii.eqb p "o"%char then rbind (ctype_undump r) (fun i s' => ROk (SObject i) s')
         else if Ascii.eqb p "c"%char then
           rbind (sRef_undump n r) (fun a s' =>
             match s' with
             | [] => RUB
             | _ :: s'' => rbind (sRef_undump n s'') (fun b s3 => ROk (SConj a b) s3)
             end)
         else if Ascii.eqb p "-"%char then ROk SInvalid r
         else if Ascii.eqb p "u"%char || Ascii.eqb p "x"%char then ROk SUnknown r
         else RBug
       end)
      (fun a s1 =>
         let (eq, s2) := reader_optCheckChar s1 "="%char in
         if eq then
           rbind (multiVal_undump s2) (fun mv s3 =>
           rbind (reader_checkChar s3 "="%char) (fun _ s4 =>
             match mv with
             | Some v => ROk (SVal a v) s4
             | None => ROk a s4            (* sRef_setValue of an undefined value *)
             end))
         else ROk a s1)
  end.

(** fgets: at most [max - 1] characters, up to and including a newline. *)
Fixpoint fgets_aux (n : Z) (f : cstr) : cstr * cstr :=
  match f with
  | [] => ([], [])
  | c :: r => if n <=? 0 then ([], f)
              else if Ascii.eqb c ch_nl then ([c], r)
              else let (a, b) := fgets_aux (n - 1) r in (c :: a, b)
  end.
Definition MAX_DUMP_LINE_LENGTH : Z := 16384.   (* constants.h:79 *)
Definition fgets (f : cstr) : option (cstr * cstr) :=
  match f with [] => None | _ => Some (fgets_aux (MAX_DUMP_LINE_LENGTH - 1) f) end.

(** Read one line and parse it with a line parser; the rest of the line is dropped. *)
Definition on_line {A} (p : cstr -> res A) (f : cstr) : res A :=
  match fgets f with
  | None => RBug
  | Some (l, f') => match p l with ROk a _ => ROk a f' | RBug => RBug | RUB => RUB end
  end.

(** constraintTerm.h / constraintTerm.c:562-614: the shapes a term is dumped in.
    [TName b n]: a term written by its symbol's name; [b] tells a CTT_EXPR term
    from a CTT_SREF one. *)
Inductive dterm (V : Type) : Type :=
| TName (isexpr : bool) (n : cstr)
| TResult (ct : Z)
| TParam (ct : Z) (n : Z)
| TField (s : sref V)
| TInt (z : Z).
Arguments TName {V}. Arguments TResult {V}. Arguments TParam {V}.
Arguments TField {V}. Arguments TInt {V}.

(** constraintTerm.h:12-18 *)
Definition CTT_EXPR := 1. Definition CTT_SREF := 2. Definition CTT_INTLITERAL := 3.

Definition nl : cstr := [ch_nl].

(** constraintTerm.c:547-616 *)
Definition constraintTerm_dump (t : dterm multiVal) : cstr :=
  match t with
  | TName true n => dec CTT_EXPR ++ nl ++ n ++ nl
  | TName false n => dec CTT_SREF ++ nl ++ n ++ nl
  | TResult _ => dec CTT_SREF ++ nl ++ lit "Result" ++ nl
  | TParam ct n => dec CTT_SREF ++ nl ++ lit "Param " ++ ctype_dump ct ++ lit " " ++ dec n ++ nl
  | TField s => dec CTT_SREF ++ nl ++ lit "sRef_dump " ++ sRef_dump s ++ nl
  | TInt z => dec CTT_INTLITERAL ++ nl ++ dec z ++ nl
  end.

(** constraintTerm.c:643-695 *)
Definition undump_sref_line (l : cstr) : res (dterm multiValR) :=
  rbind (reader_getWord l) (fun w s =>
    match w with
    | None => RBug
    | Some w =>
        if cstr_eqb w (lit "Result") then ROk (TResult (-1)) s     (* ctype_unknown *)
        else if cstr_eqb w (lit "Param") then
          rbind (reader_checkChar s " "%char) (fun _ s1 =>
          rbind (reader_getWord s1) (fun w2 s2 =>
          rbind (reader_getInt s2) (fun n s3 =>
            match w2 with
            | None => RBug
            | Some w2 => rbind (ctype_undump w2) (fun ct _ => ROk (TParam ct n) s3)
            end)))
        else if cstr_eqb w (lit "sRef_dump") then
          rbind (reader_checkChar s " "%char) (fun _ s1 =>
          rbind (sRef_undump (List.length s1) s1) (fun r s2 => ROk (TField r) s2))
        else ROk (TName false w) s
    end).

(** constraintTerm.c:697-719 *)
Definition undump_expr_line (l : cstr) : res (dterm multiValR) :=
  rbind (reader_getWord l) (fun w s =>
    match w with None => RBug | Some w => ROk (TName false w) s end).

(** constraintTerm.c:619-737 *)
Definition constraintTerm_undump (f : cstr) : res (dterm multiValR) :=
  rbind (on_line reader_getInt f) (fun kind f1 =>
    if kind =? CTT_SREF then on_line undump_sref_line f1
    else if kind =? CTT_EXPR then on_line undump_expr_line f1
    else if kind =? CTT_INTLITERAL then
      rbind (on_line reader_getInt f1) (fun z f2 => ROk (TInt z) f2)
    else RBug).

(** constraintExpr.h:5-10, constraintExprData.h:4-17; operators by enum value. *)
Inductive dexpr (V : Type) : Type :=
| DTerm (t : dterm V)
| DUn (op : Z) (e : dexpr V)
| DBin (op : Z) (a b : dexpr V).
Arguments DTerm {V}. Arguments DUn {V}. Arguments DBin {V}.
Definition K_binary := 0. Definition K_unary := 1. Definition K_term := 2.

(** constraintExpr.c:2140-2160, 2215-2228, 2260-2289 *)
Fixpoint constraintExpr_dump (e : dexpr multiVal) : cstr :=
  match e with
  | DTerm t => dec K_term ++ nl ++ constraintTerm_dump t
  | DUn op e => dec K_unary ++ nl ++ dec op ++ nl ++ constraintExpr_dump e
  | DBin op a b => dec K_binary ++ nl ++ dec op ++ nl ++ lit "e1" ++ nl ++ constraintExpr_dump a
                   ++ lit "e2" ++ nl ++ constraintExpr_dump b
  end.

Definition check2 (c d : ascii) (l : cstr) : res unit :=
  rbind (reader_checkChar l c) (fun _ s => reader_checkChar s d).

(** constraintExpr.c:2163-2211, 2230-2258, 2291-2331 *)
Fixpoint constraintExpr_undump (fuel : nat) (f : cstr) : res (dexpr multiValR) :=
  match fuel with
  | O => RBug
  | S n =>
    rbind (on_line reader_getInt f) (fun kind f1 =>
      if kind =? K_term then
        rbind (constraintTerm_undump f1) (fun t f2 => ROk (DTerm t) f2)
      else if kind =? K_unary then
        rbind (on_line reader_getInt f1) (fun op f2 =>
        rbind (constraintExpr_undump n f2) (fun e f3 => ROk (DUn op e) f3))
      else if kind =? K_binary then
        rbind (on_line reader_getInt f1) (fun op f2 =>
        rbind (on_line (check2 "e"%char "1"%char) f2) (fun _ f3 =>
        rbind (constraintExpr_undump n f3) (fun a f4 =>
        rbind (on_line (check2 "e"%char "2"%char) f4) (fun _ f5 =>
        rbind (constraintExpr_undump n f5) (fun b f6 => ROk (DBin op a b) f6)))))
      else RBug)
  end.

(** constraint.h:11-24, the dumped part. [dc_ar] is the enum value of arithType. *)
Record dconstraint (V : Type) := mkDC
  { dc_fcnPre : bool; dc_post : bool; dc_ar : Z; dc_l : dexpr V; dc_r : dexpr V }.
Arguments mkDC {V}. Arguments dc_fcnPre {V}. Arguments dc_post {V}. Arguments dc_ar {V}.
Arguments dc_l {V}. Arguments dc_r {V}.

Definition b2z (b : bool) : Z := if b then 1 else 0.

(** constraint.c:1121-1143 *)
Definition constraint_dump (c : dconstraint multiVal) : cstr :=
  dec (b2z (dc_fcnPre c)) ++ lit "@" ++ dec (b2z (dc_post c)) ++ lit "@" ++ dec (dc_ar c) ++ nl
  ++ lit "l" ++ nl ++ constraintExpr_dump (dc_l c)
  ++ lit "r" ++ nl ++ constraintExpr_dump (dc_r c).

(** constraint.c:1078-1082 *)
Definition constraint_header (l : cstr) : res (bool * bool * Z) :=
  rbind (reader_getInt l) (fun p s =>
  rbind (reader_checkChar s "@"%char) (fun _ s =>
  rbind (reader_getInt s) (fun q s =>
  rbind (reader_checkChar s "@"%char) (fun _ s =>
  rbind (reader_getInt s) (fun a s =>
    ROk (negb (p =? 0), negb (q =? 0), a) s))))).

(** constraint.c:1062-1118 *)
Definition constraint_undump (fuel : nat) (f : cstr) : res (dconstraint multiValR) :=
  rbind (on_line constraint_header f) (fun h f1 =>
  rbind (on_line (fun l => reader_checkChar l "l"%char) f1) (fun _ f2 =>
  rbind (constraintExpr_undump fuel f2) (fun l f3 =>
  rbind (on_line (fun l => reader_checkChar l "r"%char) f3) (fun _ f4 =>
  rbind (constraintExpr_undump fuel f4) (fun r f5 =>
    let '(p, q, a) := h in ROk (mkDC p q a l r) f5))))).

(** constraintList.c:628-636; the list is closed by a line ";" written by the
    caller (uentry.c). *)
Definition constraintList_dump (cs : list (dconstraint multiVal)) : cstr :=
  flat_map (fun c => lit "C" ++ nl ++ constraint_dump c) cs.

(** constraintList.c:588-625.  constraintList_add appends (it may also drop a
    constraint implied by the others; here every constraint read is returned in
    the order in which it is added). *)
Fixpoint constraintList_undump (fuel : nat) (f : cstr) : res (list (dconstraint multiValR)) :=
  match fuel with
  | O => RBug
  | S n =>
    match fgets f with
    | None => ROk [] f
    | Some (l, f1) =>
        match l with
        | ";"%char :: _ => ROk [] f1
        | _ =>
          match reader_getWord l with
          | ROk (Some w) _ =>
              if cstr_eqb w (lit "C") then
                rbind (constraint_undump n f1) (fun c f2 =>
                rbind (constraintList_undump n f2) (fun cs f3 => ROk (c :: cs) f3))
              else RBug
          | _ => RBug
          end
        end
    end
  end.
