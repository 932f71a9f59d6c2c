(** C125-C129: access to abstract types. *)
From Verif Require Import Cbase Access_model Access_spec Access_proofs Access_proofs2.
From Coq Require Import List Arith Bool Ascii.
Import ListNotations.
Open Scope nat_scope.

(** Files used in the examples: 10 and 20 are called [f1] ([d/f1.c] and [e/f1.c]), 30 is called [f2], 40 is
    called [f5], as the type 5 is. *)
Definition exBase (f : nat) : nat :=
  match f with 10 => 1 | 20 => 1 | 40 => 5 | _ => 2 end.
Definition exRun := run true false true exBase (init 10).
Definition sees (t : nat) (tr : list event) : option bool :=
  match exRun tr with Some (s, _) => Some (hasAccess t s) | None => None end.

(** ** C125: who has access *)
Theorem C125_access_has_a_reason_partial : forall accessmodule accessfile comments base f0 tr s m t,
  run accessmodule accessfile comments base (init f0) tr = Some (s, m) -> kind s <> KFcnDecl ->
  hasAccess t s = true ->
  granted accessmodule comments base f0 tr (base (fileAfter f0 tr)) t \/
  ownName accessfile base f0 tr (fileAfter f0 tr) t \/
  (inRealFunction (kind s) = true /\ byFunction f0 tr t).
Proof.
  intros am af co b f0 tr s m t R K H.
  destruct (access_sound am af co b f0 tr s m t R K H) as [[G|G]|G]; auto.
Qed.
Print Assumptions C125_access_has_a_reason_partial.
(** A function of the file that defines the type, after another file has been included. *)
Definition inModule : list event :=
  [EFile 10; EAbstract 7; ELine 30; EConcrete 8; ELine 10; EEnter KFunction []].
Example C125_reason_example :
  exists s m, exRun inModule = Some (s, m) /\ kind s <> KFcnDecl /\ hasAccess 7 s = true.
Proof. eexists; eexists; split; [reflexivity|]; split; [discriminate|reflexivity]. Qed.

Theorem C125_a_reason_gives_access_partial : forall accessmodule accessfile comments base f0 tr s m t,
  run accessmodule accessfile comments base (init f0) tr = Some (s, m) -> kind s <> KFcnDecl ->
  ~ In (ENoAccess t) tr ->
  granted accessmodule comments base f0 tr (base (fileAfter f0 tr)) t \/
  ownName accessfile base f0 tr (fileAfter f0 tr) t \/
  (inRealFunction (kind s) = true /\ byFunction f0 tr t) ->
  hasAccess t s = true.
Proof.
  intros am af co b f0 tr s m t R K N G.
  apply (access_complete am af co b f0 tr s m t R K N); destruct G as [G|[G|G]]; [left; left|left; right|right]; exact G.
Qed.
Print Assumptions C125_a_reason_gives_access_partial.
(** A function of another module that is called like the type. *)
Definition namedFunction : list event := [EFile 10; EAbstract 7; ELine 30; EEnter KFunction [7]; EConcrete 8].
Example C125_function_example :
  byFunction 10 namedFunction 7 /\ ~ In (ENoAccess 7) namedFunction /\ sees 7 namedFunction = Some true /\
  sees 7 [EFile 10; EAbstract 7; ELine 30; EEnter KFunction []; EConcrete 8] = Some false.
Proof.
  split; [|split; [|split; reflexivity]].
  - exists [EFile 10; EAbstract 7; ELine 30], KFunction, [7], [EConcrete 8].
    split; [reflexivity|]; split; [reflexivity|]; split; [left; reflexivity|]; split; intros e [<-|[]]; exact Logic.I.
  - intros H; cbn in H; intuition discriminate.
Qed.

(** Another file of the same name, in another directory, has access too. *)
Theorem C125_same_name_refuted : exists tr f g s m t,
  exRun (EFile f :: EAbstract t :: EEnd :: EFile g :: tr) = Some (s, m) /\ f <> g /\ file s = g /\
  ~ In (EAbstract t) tr /\ ~ In (EAccess t) tr /\ hasAccess t s = true.
Proof.
  exists [EEnter KFunction []], 10, 20; eexists; eexists; exists 7.
  split; [reflexivity|]; repeat split; try discriminate; intros H; cbn in H; intuition discriminate.
Qed.
Print Assumptions C125_same_name_refuted.
(** A constant or an iterator that is called like the type has no access, unlike functions and macros. *)
Theorem C125_constants_refuted : exists tr k k' a t,
  In t a /\ sees t (tr ++ [EEnter k a]) = Some false /\ sees t (tr ++ [EEnter k' a]) = Some false /\
  k = KMacroConst /\ k' = KIterDef.
Proof.
  exists [EFile 10; EAbstract 7; ELine 30], KMacroConst, KIterDef, [7], 7; repeat split; left; reflexivity.
Qed.
Print Assumptions C125_constants_refuted.
(** A file included within a function takes away what the function has because of its name. *)
Theorem C125_include_in_function_refuted : exists tr a t f g s m,
  exRun (tr ++ [EEnter KFunction a; ELine f; ELine g]) = Some (s, m) /\ In t a /\
  fileAfter 10 tr = g /\ kind s = KFunction /\ hasAccess t s = false.
Proof.
  exists [EFile 10; EAbstract 7; ELine 30], [7], 7, 40, 30; eexists; eexists; split; [reflexivity|].
  repeat split; left; reflexivity.
Qed.
Print Assumptions C125_include_in_function_refuted.
(** The declaration of a function right after the definition of a type is not read with access to it,
    and after a [noaccess] comment it still is. *)
Theorem C125_declarations_refuted : exists tr tr' t,
  sees t tr = Some true /\ sees t (tr ++ [EDecl]) = Some false /\
  sees t tr' = Some false /\ sees t (tr' ++ [EDecl]) = Some true.
Proof.
  exists [EFile 10; EAbstract 7], [EFile 10; EAbstract 7; EEnter KFunction []; EExit; ENoAccess 7], 7.
  repeat split.
Qed.
Print Assumptions C125_declarations_refuted.
(** With [accessfile] only, the file called like the type has no access as long as no file is
    entered after the type has been defined. *)
Theorem C125_file_name_refuted : exists tr t s m,
  run false true true exBase (init 40) tr = Some (s, m) /\ In (EAbstract t) tr /\ t = exBase (file s) /\
  hasAccess t s = false.
Proof. exists [EFile 40; EAbstract 5], 5; eexists; eexists; split; [reflexivity|]; repeat split; right; left; reflexivity. Qed.
Print Assumptions C125_file_name_refuted.

(** ** C126: the last comment decides *)
Theorem C126_access_comment_partial : forall accessmodule accessfile comments base f0 tr1 t tr2 s m,
  comments = true -> In (EAbstract t) tr1 -> refusalOver f0 tr1 t ->
  stays (fileAfter f0 tr1) tr2 -> ~ In (ENoAccess t) tr2 ->
  run accessmodule accessfile comments base (init f0) (tr1 ++ EAccess t :: tr2) = Some (s, m) ->
  kind s <> KFcnDecl -> hasAccess t s = true.
Proof. exact access_comment_decides. Qed.
Print Assumptions C126_access_comment_partial.
(** In another module: the comment, then a macro with its own access. *)
Example C126_access_example :
  refusalOver 10 [EFile 10; EAbstract 7; ELine 30] 7 /\
  stays 30 [EEnter KFunction []; EExit; EEnter KMacroFcn [9]] /\
  sees 7 ([EFile 10; EAbstract 7; ELine 30] ++ EAccess 7 :: [EEnter KFunction []; EExit; EEnter KMacroFcn [9]]) = Some true /\
  sees 7 ([EFile 10; EAbstract 7; ELine 30] ++ [EEnter KFunction []; EExit; EEnter KMacroFcn [9]]) = Some false.
Proof.
  split; [|split; [|split; reflexivity]].
  - intros tr1 tr2 E; exfalso.
    assert (I : In (ENoAccess 7) [EFile 10; EAbstract 7; ELine 30]) by (rewrite E; apply in_or_app; right; left; reflexivity).
    cbn in I; intuition discriminate.
  - intros e [<-|[<-|[<-|[]]]]; exact Logic.I.
Qed.

Theorem C126_noaccess_comment_partial : forall accessmodule accessfile comments base f0 tr1 s1 m1 t tr2 s m,
  comments = true -> run accessmodule accessfile comments base (init f0) tr1 = Some (s1, m1) ->
  defined t tr1 -> hasAccess t s1 = true -> kind s1 <> KFcnDecl -> kind s1 <> KIterDef ->
  stays (fileAfter f0 tr1) tr2 -> ~ In EEnd tr2 -> ~ In (EAccess t) tr2 -> ~ In (EAbstract t) tr2 ->
  run accessmodule accessfile comments base (init f0) (tr1 ++ ENoAccess t :: tr2) = Some (s, m) ->
  kind s <> KFcnDecl -> hasAccess t s = false.
Proof. exact noaccess_comment_decides. Qed.
Print Assumptions C126_noaccess_comment_partial.
(** Even functions that are called like the type lose their access. *)
Example C126_noaccess_example :
  sees 7 [EFile 10; EAbstract 7] = Some true /\
  stays 10 [EEnter KFunction [7]; EConcrete 8] /\
  sees 7 ([EFile 10; EAbstract 7] ++ ENoAccess 7 :: [EEnter KFunction [7]; EConcrete 8]) = Some false.
Proof. split; [reflexivity|]; split; [|reflexivity]; intros e [<-|[<-|[]]]; exact Logic.I. Qed.

(** After [noaccess] and then [access], functions that have access to any type because of their names
    do not get the access back; other functions do. *)
Theorem C126_noaccess_access_refuted : exists tr t a,
  ~ In t a /\ sees t (tr ++ [ENoAccess t; EAccess t]) = Some true /\
  sees t (tr ++ [ENoAccess t; EAccess t; EEnter KFunction []]) = Some true /\
  sees t (tr ++ [ENoAccess t; EAccess t; EEnter KFunction a]) = Some false.
Proof.
  exists [EFile 10; EAbstract 7; EAbstract 9], 7, [9]; split; [intros [H|[]]; discriminate|repeat split].
Qed.
Print Assumptions C126_noaccess_access_refuted.
(** A [noaccess] comment for a type to which there is no access at that point is not remembered: a function
    called like the type has access after it. *)
Theorem C126_early_noaccess_refuted : exists tr t a,
  sees t tr = Some false /\ In t a /\ sees t (tr ++ [ENoAccess t; EEnter KFunction a]) = Some true.
Proof. exists [EFile 10; EAbstract 7; ELine 30], 7, [7]; repeat split; left; reflexivity. Qed.
Print Assumptions C126_early_noaccess_refuted.
(** Within the definition of an iterator a [noaccess] comment changes nothing there. *)
Theorem C126_iterator_refuted : exists tr t,
  sees t (tr ++ [EEnter KIterDef []]) = Some true /\ sees t (tr ++ [EEnter KIterDef []; ENoAccess t]) = Some true.
Proof. exists [EFile 10; EAbstract 7], 7; repeat split. Qed.
Print Assumptions C126_iterator_refuted.
(** ** C127: included files *)
Theorem C127_include_keeps_access_partial : forall accessmodule accessfile comments base f0 tr1 s1 m1 tr2 s2 m2 t,
  accessmodule = true ->
  run accessmodule accessfile comments base (init f0) tr1 = Some (s1, m1) -> kind s1 = KGlobal -> hasAccess t s1 = true ->
  run accessmodule accessfile comments base s1 tr2 = Some (s2, m2) ->
  base (fileAfter f0 (tr1 ++ tr2)) = base (fileAfter f0 tr1) -> ~ In (ENoAccess t) tr2 ->
  inFunctionLike (kind s2) = false -> hasAccess t s2 = true.
Proof. exact include_keeps. Qed.
Print Assumptions C127_include_keeps_access_partial.
Example C127_keeps_example :
  sees 7 [EFile 10; EAbstract 7] = Some true /\
  sees 7 ([EFile 10; EAbstract 7] ++ [ELine 30; EAbstract 9; ELine 40]) = Some false /\
  sees 7 ([EFile 10; EAbstract 7] ++ [ELine 30; EAbstract 9; ELine 40; ELine 10]) = Some true.
Proof. repeat split. Qed.

Theorem C127_include_gives_no_access_partial : forall accessmodule accessfile comments base f0 tr1 s1 m1 tr2 s2 m2 m t,
  run accessmodule accessfile comments base (init f0) tr1 = Some (s1, m1) -> inFunctionLike (kind s1) = false ->
  hasAccess t s1 = false -> ~ In (ENoAccess t) tr1 ->
  run accessmodule accessfile comments base s1 tr2 = Some (s2, m2) ->
  run accessmodule accessfile comments base (init f0) (tr1 ++ tr2) = Some (s2, m) ->
  base (fileAfter f0 (tr1 ++ tr2)) = base (fileAfter f0 tr1) ->
  ~ In (EAccess t) tr2 -> ~ In (EAbstract t) tr2 ->
  accessfile = false \/ t <> base (fileAfter f0 tr1) ->
  inFunctionLike (kind s2) = false -> hasAccess t s2 = false.
Proof. exact include_gains_nothing. Qed.
Print Assumptions C127_include_gives_no_access_partial.
Example C127_gives_example :
  sees 7 [EFile 10; EAbstract 7; EEnd; EFile 30] = Some false /\
  sees 7 ([EFile 10; EAbstract 7; EEnd; EFile 30] ++ [ELine 10; EAbstract 9]) = Some true /\
  sees 7 ([EFile 10; EAbstract 7; EEnd; EFile 30] ++ [ELine 10; EAbstract 9; ELine 30]) = Some false.
Proof. repeat split. Qed.

(** An included file makes splint forget the [noaccess] comments before it. *)
Theorem C127_noaccess_forgotten_refuted : exists tr t f g,
  fileAfter 10 tr = f /\ f <> g /\ sees t tr = Some false /\ sees t (tr ++ [ELine g; ELine f]) = Some true.
Proof. exists [EFile 10; EAbstract 7; ENoAccess 7], 7, 10, 30; repeat split; discriminate. Qed.
Print Assumptions C127_noaccess_forgotten_refuted.
(** Without [accessmodule] an included file makes splint forget the [access] comments before it. *)
Theorem C127_access_forgotten_refuted : exists tr t f g s1 m1 s2 m2,
  run false false true exBase (init 30) tr = Some (s1, m1) /\ file s1 = f /\ f <> g /\ hasAccess t s1 = true /\
  run false false true exBase s1 [ELine g; ELine f] = Some (s2, m2) /\ hasAccess t s2 = false.
Proof.
  exists [EFile 30; EAbstract 7; EAccess 7], 7, 30, 10; eexists; eexists; eexists; eexists.
  split; [reflexivity|]; split; [reflexivity|]; split; [discriminate|]; split; [reflexivity|]; split; reflexivity.
Qed.
Print Assumptions C127_access_forgotten_refuted.
(** An [access] comment lasts for all files with the name of its file: also for later source files. *)
Theorem C127_comment_in_header_refuted : exists tr t f g h,
  sees t (tr ++ [EFile f]) = Some false /\
  sees t (tr ++ [EFile g; EAccess t; EEnd; EFile f]) = Some true /\ f <> g /\ h = exBase f /\ h = exBase g.
Proof.
  exists [EFile 30; EAbstract 7; EEnd], 7, 10, 20, 1; repeat split; discriminate.
Qed.
Print Assumptions C127_comment_in_header_refuted.

(** ** C128: casts *)
Theorem C128_silent_cast_partial : forall kindOf body access matches equal zeroptr voidabstract fuel c t numlit,
  voidabstract = false ->
  castMsgs kindOf body access matches equal zeroptr voidabstract fuel c t false numlit = Some [] -> c <> TVoid ->
  explicit kindOf body access c -> explicit kindOf body access t -> closedNames access c -> closedNames access t ->
  forall a, under kindOf body access c a \/ under kindOf body access t a ->
  value kindOf body access c /\ matches c t = true.
Proof. exact silent_cast. Qed.
Print Assumptions C128_silent_cast_partial.
(** Types: 0 is abstract and an [int], 1 a name for 0, 2 a name for pointers to 0, 3 is abstract and a
    pointer to [char], 4 a name for [int], 5 is abstract and defined as 0. *)
Definition exKind (n : nat) : tkind := match n with 0 | 3 | 5 => Access_model.Abstract | _ => Concrete end.
Definition exBody (n : nat) : ty :=
  match n with 0 => TOther 0 | 1 => TName 0 | 2 => TPtr (TName 0) | 3 => TPtr (TOther 1) | 4 => TOther 0
             | 5 => TName 0 | _ => TUnknown end.
Definition noAccess (n : nat) : bool := false.
Fixpoint sameTy (a b : ty) : bool :=
  match a, b with
  | TVoid, TVoid => true | TUnknown, _ => true | _, TUnknown => true
  | TOther n, TOther m => Nat.eqb n m | TName n, TName m => Nat.eqb n m
  | TPtr a, TPtr b => sameTy a b | TArr a, TArr b => sameTy a b
  | _, _ => false
  end.
Definition exCast (access : nat -> bool) (c t : ty) := castMsgs exKind exBody access sameTy sameTy true false 9 c t false false.
(** A cast of an unknown value to the abstract type is silent, since the types match; of an [int] it is not,
    nor from a pointer to another name for it. *)
Example C128_silent_example :
  exCast noAccess (TName 1) TUnknown = Some [] /\ explicit exKind exBody noAccess (TName 1) /\
  closedNames noAccess (TName 1) /\ under exKind exBody noAccess (TName 1) 0 /\
  exCast noAccess (TName 1) (TOther 0) = Some [CTo] /\
  exCast noAccess (TPtr (TOther 0)) (TPtr (TName 1)) = Some [CFromPtr].
Proof.
  assert (N : ~ opened exKind noAccess 0) by (intros [H|H]; discriminate).
  assert (O : opened exKind noAccess 1) by (left; reflexivity).
  split; [reflexivity|]; split; [|split; [|split; [|split; reflexivity]]].
  - apply E_value, V_open; [exact O|]; apply V_closed; exact N.
  - intros n _; reflexivity.
  - apply Un_open; [exact O|]; apply Un_here; exact N.
Qed.

Theorem C128_message_is_true : forall kindOf body access matches equal zeroptr voidabstract fuel c t zero numlit l m,
  castMsgs kindOf body access matches equal zeroptr voidabstract fuel c t zero numlit = Some l -> In m l ->
  if aboutTarget m then exists a, under kindOf body access c a else exists a, under kindOf body access t a.
Proof. exact cast_message. Qed.
Print Assumptions C128_message_is_true.
Example C128_message_example : exCast noAccess (TName 3) (TPtr (TPtr (TName 1))) = Some [CFrom; CTo].
Proof. reflexivity. Qed.

Theorem C128_casts_are_checked : forall kindOf body access matches equal zeroptr voidabstract k c t zero numlit,
  grounded body -> (forall n, In n (names c) -> n < k) -> (forall n, In n (names t) -> n < k) ->
  exists l, castMsgs kindOf body access matches equal zeroptr voidabstract k c t zero numlit = Some l.
Proof.
  intros kindOf body access matches equal z v k c t zero nl G C T.
  exact (cast_total kindOf body access matches equal z v G k c t zero nl C T).
Qed.
Print Assumptions C128_casts_are_checked.
Example C128_grounded_example : grounded exBody.
Proof.
  intros n m; destruct n as [|[|[|[|[|[|n]]]]]]; cbn; intros H; try contradiction; destruct H as [<-|[]]; repeat constructor.
Qed.

(** A name for pointers to an abstract type hides it: the pointer may be cast to any other. *)
Theorem C128_hidden_pointer_refuted : exists c t a,
  under exKind exBody noAccess t a /\ sameTy c t = false /\ exCast noAccess c t = Some [] /\
  closedNames noAccess c /\ closedNames noAccess t.
Proof.
  exists (TPtr (TOther 7)), (TName 2), 0.
  assert (N : ~ opened exKind noAccess 0) by (intros [H|H]; discriminate).
  assert (O : opened exKind noAccess 2) by (left; reflexivity).
  split; [apply Un_open; [exact O|]; apply Un_ptr, Un_here; exact N|].
  repeat split; intros n H; reflexivity.
Qed.
Print Assumptions C128_hidden_pointer_refuted.
(** Access to a type that is defined as an abstract type without access is enough for casts of pointers. *)
Theorem C128_access_to_another_refuted : exists access c t a,
  under exKind exBody access t a /\ explicit exKind exBody access c /\ explicit exKind exBody access t /\
  sameTy c t = false /\ exCast access c t = Some [].
Proof.
  exists (Nat.eqb 5), (TPtr (TOther 7)), (TPtr (TName 5)), 0.
  assert (N : ~ opened exKind (Nat.eqb 5) 0) by (intros [H|H]; discriminate).
  assert (O : opened exKind (Nat.eqb 5) 5) by (right; reflexivity).
  split; [apply Un_ptr, Un_open; [exact O|]; apply Un_here; exact N|].
  split; [apply E_ptr, E_value, V_other|]; split; [|split; reflexivity].
  apply E_ptr, E_value, V_open; [exact O|]; apply V_closed; exact N.
Qed.
Print Assumptions C128_access_to_another_refuted.
(** A cast of a pointer to an abstract type to its own type is reported. *)
Theorem C128_same_type_refuted : exists c, exCast noAccess c c = Some [CToPtr; CFromPtr].
Proof. exists (TPtr (TName 0)); reflexivity. Qed.
Print Assumptions C128_same_type_refuted.

(** ** C129: the names in a comment *)
Theorem C129_all_names_read_partial : forall ns s, listText ns s ->
  forall fuel, length s < fuel -> namesOf fuel s = Some ns.
Proof. exact names_read. Qed.
Print Assumptions C129_all_names_read_partial.
Example C129_names_example :
  listText [lit "set"; lit "list"; lit "bag"] (lit " set, list bag ") /\
  namesOf 99 (lit " set, list bag ") = Some [lit "set"; lit "list"; lit "bag"].
Proof.
  split; [|reflexivity].
  assert (Nm : forall n, n <> [] -> forallb (fun c => negb (isGapOrComma c)) n = true -> isName n) by (intros; split; assumption).
  apply (LT_cons (lit " ") (lit "set") "," _ (lit " list bag ")); [reflexivity|apply Nm; [discriminate|reflexivity]|auto|].
  apply (LT_cons (lit " ") (lit "list") " " _ (lit "bag ")); [reflexivity|apply Nm; [discriminate|reflexivity]|auto|].
  apply (LT_cons [] (lit "bag") " " _ []); [reflexivity|apply Nm; [discriminate|reflexivity]|auto|].
  apply LT_nil; reflexivity.
Qed.
(** Names after a newline or a tab that follows a name are not read. *)
Theorem C129_newline_refuted : exists a b c,
  isName a /\ isName b /\ isGap c = true /\ namesOf 99 (a ++ c :: b) = Some [a].
Proof.
  exists (lit "set"), (lit "list"), (ascii_of_nat 10); repeat split; discriminate.
Qed.
Print Assumptions C129_newline_refuted.
(** A blank before a comma makes an empty name, which is then reported as an unrecognized type. *)
Theorem C129_blank_before_comma_refuted : exists a b,
  isName a /\ isName b /\ namesOf 99 (a ++ lit " , " ++ b) = Some [a; []; b].
Proof. exists (lit "set"), (lit "list"); repeat split; discriminate. Qed.
Print Assumptions C129_blank_before_comma_refuted.
