(** C104-C106: modifies clauses. *)
From Verif Require Import Cbase Mods_model Mods_spec Mods_proofs.
From Coq Require Import List ZArith Bool Lia Arith.
Import ListNotations.
Open Scope nat_scope.

(** Used in the examples: the flags (of which moduncon and mustmod may be set or not); every global is
    checked, no parameter is only; [p] and [q] are the first variables, [v->val] and [v->next] members. *)
Definition flagsUM (uncon must : bool) : flags := mkFlags false true false uncon must.
Definition allChecked (_ : glob) := ChChecked.
Definition noOnly (_ : var) := false.
Definition p := PVar 0. Definition q := PVar 1. Definition r := PVar 2. Definition n := PVar 3.
Definition val_ (x : place) := PFld (PDeref x) 0. Definition next (x : place) := PFld (PDeref x) 1.
Definition cval (c : cplace) := CFld (CDeref c) 0. Definition cnext (c : cplace) := CFld (CDeref c) 1.
Definition cp := CParam 0. Definition cq := CParam 1.
(** [p], [q] and [r] are pointers, the others are numbers. *)
Definition exKind (x : var) : vkind := if Nat.leb x 2 then KPtr else KInt.
Definition said (np : nat) (clause : list cplace) (l : list stmt) : list msg :=
  checkFunction np (flagsUM true true) allChecked noOnly clause l.
Definition H0 := Root (RHeap 0). Definition H1 := Root (RHeap 1). Definition H2 := Root (RHeap 2).
(** [p] and [q] point to two objects, and [p->next] to a third. *)
Definition exMem : mem :=
  memOf [(cell 0, VPtr (H0, 0%Z)); (cell 1, VPtr (H1, 0%Z)); ((Sub H0 0 1, 0%Z), VPtr (H2, 0%Z))].
(** [p] and [q] point to the same object. *)
Definition twoMem : mem := memOf [(cell 0, VPtr (H0, 0%Z)); (cell 1, VPtr (H0, 0%Z))].
(** [p] points to a pointer to itself. *)
Definition ringMem : mem := memOf [(cell 0, VPtr (H0, 0%Z)); ((H0, 0%Z), VPtr (H0, 0%Z))].
(** [p] and [q] point to two objects without pointers. *)
Definition flatMem : mem := memOf [(cell 0, VPtr (H0, 0%Z)); (cell 1, VPtr (H1, 0%Z))].
Ltac inPtr H := apply memOf_ptr in H; simpl in H;
  unfold cell in H;
  repeat (destruct H as [H|H]; [inversion H; subst; clear H|]); try contradiction H.
Ltac entry := intros o k o' k' E; inPtr E; (split; [exact I|]); first
  [left; exact I | right; exists 0; split; [lia|split; [reflexivity|left; repeat split; reflexivity]]
  |right; exists 1; split; [lia|split; [reflexivity|left; repeat split; reflexivity]]].
Lemma exMem_entry : entryMem 2 exKind exMem. Proof. entry. Qed.
Lemma twoMem_entry : entryMem 2 exKind twoMem. Proof. entry. Qed.
Lemma ringMem_entry : entryMem 1 exKind ringMem. Proof. entry. Qed.
Lemma flatMem_entry : entryMem 2 exKind flatMem. Proof. entry. Qed.
Lemma exMem_unaliased : unaliased exMem.
Proof.
  apply (unaliased_by (fun n => match n with 0 => CDeref cp | 1 => CDeref cq | _ => CDeref (cnext cp) end)).
  intros o k o' k' E. inPtr E; reflexivity.
Qed.
Ltac place_ := first [apply at_var | apply at_glob | eapply at_deref; [place_|reflexivity]
  | eapply at_idx; [place_|reflexivity|simpl; reflexivity] | apply at_fld; place_].
Ltac exp_ := first [apply ev_null | eapply ev_at; place_ | eapply ev_addr; place_].
Ltac num_ := eapply run_num with (z := 1%Z); [place_|].
Ltac set_ := eapply run_set; [place_|exp_|].
Ltac nothing H := destruct H as [(c & [] & _)|(i & [=] & _)].
(** What a function may do although nothing is said about it. *)
Definition hole (stores : val -> Prop) (np : nat) (fl : flags) (ann : glob -> checked) (clause : list cplace) (l : list stmt) : Prop :=
  checkFunction np fl ann noOnly clause l = [] /\
  exists m0 w m' o, entryMem np exKind m0 /\ run stores m0 l w m' /\ In o w /\ visible o /\ ~ allowed m0 noOnly clause o.

(** ** C104 *)
Theorem C104_silent_keeps_clause_partial : forall np kind m0 fl ann onlyParam clause l w m',
  entryMem np kind m0 -> (forall g, ann g = ChChecked) -> f_modglobs fl = true ->
  tameBody kind (f_moduncon fl) l -> run isNum m0 l w m' ->
  (forall x, In x (checkFunction np fl ann onlyParam clause l) -> exists s, x = MMust s) ->
  forall o, In o w -> visible o -> allowed m0 onlyParam clause o.
Proof. intros np kind m0 fl ann oP cl l w m' He Ha Hm; exact (silent_function m0 np kind He fl ann oP cl Ha Hm l w m'). Qed.
Print Assumptions C104_silent_keeps_clause_partial.
(** [r = p->next; if (...) p->val = 1; else r->val = 1; while (...) r->val = 1; f (r);] where [f] modifies
    the member [val] of its argument: nothing is said if the clause lists [p->val] and [p->next]. *)
Definition okBody : list stmt :=
  [Set_ r (EAt (next p)); If [Num (val_ p)] [Num (val_ r)]; While [Num (val_ r)]; Call (Some [cval cp]) [EAt r]].
Example C104_example : tameBody exKind true okBody /\ said 2 [cval cp; cnext cp] okBody = [] /\
  exists w m', run isNum exMem okBody w m' /\ In (Sub H0 0 0) w /\ In (Sub H2 0 0) w.
Proof.
  split; [|split; [reflexivity|]].
  - unfold tameBody, okBody. repeat constructor; simpl; unfold searchLimit; try discriminate; try lia.
  - eexists _, _. split.
    + unfold okBody. set_. eapply run_if_t; [num_; apply run_nil|]. eapply run_while_s; [num_; apply run_nil|]. apply run_while_0.
      eapply run_call with (ws := []); [repeat constructor; place_|constructor|apply run_nil].
    + simpl. auto.
Qed.
(** If the clause lists only one of them, or [f] has no clause, something is said. *)
Example C104_reported : said 2 [cnext cp] okBody = [MMod (Field (Ptr (Param 0)) 0)] /\
  said 2 [cnext cp; cval cp] [Call None []] = [MUncon; MMust (Field (Ptr (Param 0)) 1); MMust (Field (Ptr (Param 0)) 0)].
Proof. split; reflexivity. Qed.
(** [p = p->next; p->val = 1;]: that [p] was a parameter is forgotten before the place it is set from is
    looked at, and nothing is said though nothing may be modified. *)
Theorem C104_own_successor_refuted : exists l, l = [Set_ p (EAt (next p)); Num (val_ p)] /\
  hole isNum 1 (flagsUM true true) allChecked [] l.
Proof.
  eexists. split; [reflexivity|]. split; [reflexivity|].
  exists (memOf [(cell 0, VPtr (H0, 0%Z)); ((Sub H0 0 1, 0%Z), VPtr (H2, 0%Z))]). eexists _, _, (Sub H2 0 0).
  split; [entry|]. split; [set_; num_; apply run_nil|]. split; [simpl; auto|]. split; [exact I|].
  intros X. nothing X.
Qed.
Print Assumptions C104_own_successor_refuted.
(** [r = p; p->next = q; r->next->val = 1;]: the pointer stored through [p] is not known as one stored
    through [r]. *)
Theorem C104_stored_pointer_refuted : exists l, l = [Set_ r (EAt p); Set_ (next p) (EAt q); Num (val_ (next r))] /\
  hole isNum 2 (flagsUM true true) allChecked [cnext cp] l.
Proof.
  eexists. split; [reflexivity|]. split; [reflexivity|].
  exists flatMem. eexists _, _, (Sub H1 0 0).
  split; [apply flatMem_entry|]. split; [set_; set_; num_; apply run_nil|]. split; [simpl; auto|]. split; [exact I|].
  assert (forall o, below flatMem ownFrame (cnext cp) o -> rootObj o = RHeap 0) as G.
  { induction 1 as [o (o1 & k & (o2 & k2 & k3 & D & E) & D1)|o1 k o k1 B IH E|o k f B IH].
    - simpl in D. subst. inPtr E; reflexivity.
    - inPtr E; discriminate IH.
    - exact IH. }
  intros [(c & [<-|[]] & B)|(i & [=] & _)]. apply G in B. discriminate.
Qed.
Print Assumptions C104_stored_pointer_refuted.
(** [q = &p; ( *( *q)) = 1;] for a parameter [p]: no alias is recorded for the address of a parameter. *)
Theorem C104_address_of_parameter_refuted : exists l, l = [Set_ q (EAddr p); Num (PDeref (PDeref q))] /\
  hole isNum 1 (flagsUM true true) allChecked [] l.
Proof.
  eexists. split; [reflexivity|]. split; [reflexivity|].
  exists (memOf [(cell 0, VPtr (H0, 0%Z))]). eexists _, _, H0.
  split; [entry|]. split; [set_; num_; apply run_nil|]. split; [simpl; auto|]. split; [exact I|]. intros X. nothing X.
Qed.
Print Assumptions C104_address_of_parameter_refuted.
(** [q = &r; r = p; ( *( *q)) = 1;]: that [q] points to [r] is not used when [r] is set afterwards. *)
Theorem C104_address_of_pointer_refuted : exists l, l = [Set_ q (EAddr r); Set_ r (EAt p); Num (PDeref (PDeref q))] /\
  hole isNum 1 (flagsUM true true) allChecked [] l.
Proof.
  eexists. split; [reflexivity|]. split; [reflexivity|].
  exists (memOf [(cell 0, VPtr (H0, 0%Z))]). eexists _, _, H0.
  split; [entry|]. split; [set_; set_; num_; apply run_nil|]. split; [simpl; auto|]. split; [exact I|]. intros X. nothing X.
Qed.
Print Assumptions C104_address_of_pointer_refuted.
(** [r = &g; f (&r);] where [f] modifies what is reached from its parameter: the alias of [r] is dropped
    because it is an address. *)
Theorem C104_address_given_to_function_refuted : exists l, l = [Set_ r (EAddr (PGlob 0)); Call (Some [CParam 0]) [EAddr r]] /\
  hole isNum 0 (flagsUM true true) allChecked [] l.
Proof.
  eexists. split; [reflexivity|]. split; [reflexivity|].
  exists (memOf []). eexists _, _, (Root (RGlob 0)). split; [intros o k o' k' E; inPtr E|]. split.
  - set_. eapply run_call with (ws := [((Root (RGlob 0), 0%Z), VNum 1)]); [repeat constructor; exp_| |apply run_nil].
    constructor; [|constructor]. split; [|exact I]. exists (CParam 0). split; [now left|].
    eapply below_deref with (o' := Root (RLoc 2)) (k := 0%Z); [|reflexivity].
    eapply below_deref with (o' := Root (RArg 0)) (k := 0%Z); [|reflexivity]. now apply below_here.
  - split; [simpl; auto|]. split; [exact I|]. intros X. nothing X.
Qed.
Print Assumptions C104_address_given_to_function_refuted.
(** [while (...) { p->val = 1; p = q; }]: the body is looked at once, with [p] as before the loop. *)
Theorem C104_second_time_refuted : exists l, l = [While [Num (val_ p); Set_ p (EAt q)]] /\
  hole isNum 2 (flagsUM true true) allChecked [cval cp] l.
Proof.
  eexists. split; [reflexivity|]. split; [reflexivity|].
  exists flatMem. eexists _, _, (Sub H1 0 0).
  split; [apply flatMem_entry|]. split.
  - eapply run_while_s; [num_; set_; apply run_nil|]. eapply run_while_s; [num_; set_; apply run_nil|]. apply run_while_0. apply run_nil.
  - split; [simpl; auto|]. split; [exact I|].
    assert (forall o, below flatMem ownFrame (cval cp) o -> rootObj o = RHeap 0) as G.
    { induction 1 as [o (o1 & k & (o2 & k2 & k3 & D & E) & D1)|o1 k o k1 B IH E|o k f B IH].
      - simpl in D. subst. inPtr E; reflexivity.
      - inPtr E; discriminate IH.
      - exact IH. }
    intros [(c & [<-|[]] & B)|(i & [=] & _)]. apply G in B. discriminate.
Qed.
Print Assumptions C104_second_time_refuted.
(** Without the flag moduncon nothing is said about a call of a function without a modifies clause,
    which may modify anything. *)
Theorem C104_unconstrained_refuted : exists l, l = [Call None []] /\ hole isNum 0 (flagsUM false true) allChecked [] l.
Proof.
  eexists. split; [reflexivity|]. split; [reflexivity|].
  exists (memOf []). eexists _, _, (Root (RGlob 0)). split; [intros o k o' k' E; inPtr E|]. split.
  - eapply run_call_any with (ws := [((Root (RGlob 0), 0%Z), VNum 1)]) (vs := []); [constructor| |apply run_nil].
    repeat constructor.
  - split; [simpl; auto|]. split; [exact I|]. intros X. nothing X.
Qed.
Print Assumptions C104_unconstrained_refuted.
(** A function which modifies [p->next] may store the pointer [q] there; nothing is said about
    [f (p); p->next->val = 1;] if the clause lists [p->next]. *)
Theorem C104_callee_stores_pointer_refuted : exists l, l = [Call (Some [cnext cp]) [EAt p]; Num (val_ (next p))] /\
  hole (fun _ => True) 2 (flagsUM true true) allChecked [cnext cp] l.
Proof.
  eexists. split; [reflexivity|]. split; [reflexivity|].
  exists flatMem. eexists _, _, (Sub H1 0 0).
  split; [apply flatMem_entry|]. split.
  - eapply run_call with (ws := [((Sub H0 0 1, 0%Z), VPtr (H1, 0%Z))]); [repeat constructor; place_| |num_; apply run_nil].
    constructor; [|constructor]. split; [|exact I]. exists (cnext cp). split; [now left|]. apply below_here.
    exists H0, 0%Z. split; [|reflexivity]. exists (Root (RArg 0)), 0%Z, 0%Z. split; reflexivity.
  - split; [simpl; auto|]. split; [exact I|].
    assert (forall o, below flatMem ownFrame (cnext cp) o -> rootObj o = RHeap 0) as G.
    { induction 1 as [o (o1 & k & (o2 & k2 & k3 & D & E) & D1)|o1 k o k1 B IH E|o k f B IH].
      - simpl in D. subst. inPtr E; reflexivity.
      - inPtr E; discriminate IH.
      - exact IH. }
    intros [(c & [<-|[]] & B)|(i & [=] & _)]. apply G in B. discriminate.
Qed.
Print Assumptions C104_callee_stores_pointer_refuted.
(** [*] written [k] times. *)
Definition stars (k : nat) (x : place) : place := Nat.iter k PDeref x.
(** Searches for aliases end after eight steps: nothing is said about [( *( *( *( *( *( *( *( *p)))))))) = 1],
    though it is with one [*] less. *)
Theorem C104_search_limit_refuted : exists k, said 1 [] [Num (stars k p)] <> [] /\
  hole isNum 1 (flagsUM true true) allChecked [] [Num (stars (S k) p)].
Proof.
  exists 7. split; [discriminate|]. split; [reflexivity|].
  exists ringMem. eexists _, _, H0. split; [apply ringMem_entry|].
  split; [num_; apply run_nil|]. split; [simpl; auto|]. split; [exact I|]. intros X. nothing X.
Qed.
Print Assumptions C104_search_limit_refuted.
(** Globals which are not annotated as checked may be modified; with the flag allglobals they may not be
    set, but may be modified by a call. *)
Theorem C104_unknown_global_refuted : exists ann, (forall g, ann g = ChUnknown) /\
  hole isNum 0 (flagsUM true true) ann [] [Num (PGlob 0)] /\
  checkFunction 0 (mkFlags true true false true true) ann noOnly [] [Num (PGlob 0)] <> [] /\
  hole isNum 0 (mkFlags true true false true true) ann [] [Call (Some [CGlob 0]) []].
Proof.
  exists (fun _ => ChUnknown). split; [reflexivity|]. split; [|split; [discriminate|]].
  - split; [reflexivity|]. exists (memOf []). eexists _, _, (Root (RGlob 0)). split; [intros o k o' k' E; inPtr E|].
    split; [num_; apply run_nil|]. split; [simpl; auto|]. split; [exact I|]. intros X. nothing X.
  - split; [reflexivity|]. exists (memOf []). eexists _, _, (Root (RGlob 0)). split; [intros o k o' k' E; inPtr E|]. split.
    + eapply run_call with (ws := [((Root (RGlob 0), 0%Z), VNum 1)]) (vs := []); [constructor| |apply run_nil].
      constructor; [|constructor]. split; [|exact I]. exists (CGlob 0). split; [now left|]. now apply below_here.
    + split; [simpl; auto|]. split; [exact I|]. intros X. nothing X.
Qed.
Print Assumptions C104_unknown_global_refuted.
(** The index of an element in a clause is dropped: a function which lists [p[3]] may set [p[4]]. *)
Theorem C104_index_ignored_refuted : exists i j, i <> j /\ said 1 [CIdx cp (Some i)] [Num (PIdx p (Some j))] = [] /\
  exists m0 w m' li lj, entryMem 1 exKind m0 /\ run isNum m0 [Num (PIdx p (Some j))] w m' /\
    at_ m0 (PIdx p (Some i)) li /\ at_ m0 (PIdx p (Some j)) lj /\ lj <> li /\ m' lj <> m0 lj.
Proof.
  exists 3%Z, 4%Z. split; [discriminate|]. split; [reflexivity|].
  exists (memOf [(cell 0, VPtr (H0, 0%Z))]). eexists _, _, (H0, 3%Z), (H0, 4%Z).
  split; [entry|]. split; [eapply run_num with (z := 1%Z) (l := (H0, 4%Z)); [|apply run_nil]|].
  - apply (at_idx _ _ (cell 0) H0 0%Z (Some 4%Z) 4%Z); [place_|reflexivity|reflexivity].
  - split; [apply (at_idx _ _ (cell 0) H0 0%Z (Some 3%Z) 3%Z); [place_|reflexivity|reflexivity]|].
    split; [apply (at_idx _ _ (cell 0) H0 0%Z (Some 4%Z) 4%Z); [place_|reflexivity|reflexivity]|].
    split; discriminate.
Qed.
Print Assumptions C104_index_ignored_refuted.

(** ** C105 *)
Theorem C105_message_is_true_partial : forall np kind m0 fl ann onlyParam clause ad l x,
  entryMem np kind m0 -> unaliased m0 -> (forall g, ann g = ChChecked) -> f_modglobs fl = true ->
  tameBody kind (f_moduncon fl) l -> Forall (typed np kind ad) l -> Forall straight l ->
  In x (checkFunction np fl ann onlyParam clause l) -> (forall s, x <> MMust s) ->
  exists l1 c l2, l = l1 ++ c :: l2 /\ forall w m, run isNum m0 l1 w m -> forbidden m0 onlyParam clause m c.
Proof. intros np kind m0 fl ann oP cl ad l x He Hu Ha Hm; exact (exact_function m0 np kind He fl ann oP cl Ha Hm ad Hu l x). Qed.
Print Assumptions C105_message_is_true_partial.
(** [r = q; p->val = 1; r->val = 1; f (q);] where [f] modifies the member [val] of its argument, if the clause
    lists [p->val]: the last two are reported, and the run shown reaches them. *)
Definition badBody : list stmt :=
  [Set_ r (EAt q); Num (val_ p); Num (val_ r); Call (Some [cval cp]) [EAt q]].
Example C105_example : tameBody exKind true badBody /\ Forall (typed 2 exKind false) badBody /\ Forall straight badBody /\
  said 2 [cval cp] badBody = [MModAlias (Field (Ptr (Param 1)) 0) (Field (Ptr (Cvar 2)) 0); MCall (Field (Ptr (Param 1)) 0)] /\
  (exists w m, run isNum flatMem [Set_ r (EAt q); Num (val_ p)] w m /\
    at_ m (val_ r) (Sub H1 0 0, 0%Z) /\ visible (Sub H1 0 0) /\ ~ allowed flatMem noOnly [cval cp] (Sub H1 0 0)).
Proof.
  split; [|split; [|split; [|split; [reflexivity|]]]].
  - unfold tameBody, badBody. repeat constructor; simpl; unfold searchLimit; try discriminate; try lia.
  - unfold badBody. repeat constructor; simpl; try discriminate.
  - unfold badBody. repeat constructor.
  - eexists _, _. split; [set_; num_; apply run_nil|]. split; [place_|]. split; [exact I|].
    assert (forall o, below flatMem ownFrame (cval cp) o -> rootObj o = RHeap 0) as G.
    { induction 1 as [o (o1 & k & (o2 & k2 & k3 & D & E) & D1)|o1 k o k1 B IH E|o k f B IH].
      - simpl in D. subst. inPtr E; reflexivity.
      - inPtr E; discriminate IH.
      - exact IH. }
    intros [(c & [<-|[]] & B)|(i & [=] & _)]. apply G in B. discriminate.
Qed.
Lemma flatMem_unaliased : unaliased flatMem.
Proof.
  apply (unaliased_by (fun n => match n with 0 => CDeref cp | _ => CDeref cq end)).
  intros o k o' k' E. inPtr E; reflexivity.
Qed.
(** What is reported although no execution, from any storage, modifies anything that must not be. *)
Definition falseAlarm (np : nat) (kind : var -> vkind) (clause : list cplace) (l : list stmt) (x : msg) : Prop :=
  In x (said np clause l) /\ (forall s, x <> MMust s) /\
  forall m0 w m' o, entryMem np kind m0 -> run isNum m0 l w m' -> In o w -> visible o -> allowed m0 noOnly clause o.
(** [g = h; g = NULL;] where the clause lists [g]: a modification of [h] is reported, because [g] has the
    value of [h] when it is set again. *)
Theorem C105_global_alias_refuted : exists l, l = [Set_ (PGlob 0) (EAt (PGlob 1)); Set_ (PGlob 0) ENull] /\
  falseAlarm 0 exKind [CGlob 0] l (MModAlias (Glob 1) (Glob 0)).
Proof.
  eexists. split; [reflexivity|]. split; [left; reflexivity|]. split; [discriminate|].
  intros m0 w m' o He R Ho Vo. left. exists (CGlob 0). split; [now left|]. apply below_here. simpl.
  inversion R as [| |? ? ? ? ? ? ? ? A _ R'| | | | | |]; subst. inversion A; subst.
  inversion R' as [| |? ? ? ? ? ? ? ? A' _ R''| | | | | |]; subst. inversion A'; subst. inversion R''; subst.
  destruct Ho as [<-|[<-|[]]]; reflexivity.
Qed.
Print Assumptions C105_global_alias_refuted.
(** [f (&n)] for a number which is a parameter, where [f] modifies what its argument points to: reported,
    though the caller cannot see [n]. *)
Theorem C105_address_of_parameter_refuted : exists l, l = [Call (Some [CDeref cp]) [EAddr (PVar 0)]] /\
  falseAlarm 1 (fun _ => KInt) [] l (MCall (Param 0)).
Proof.
  eexists. split; [reflexivity|]. split; [left; reflexivity|]. split; [discriminate|].
  intros m0 w m' o He R Ho Vo. exfalso.
  inversion R as [| | |? ? ? vs ws ? ? ? Fa Fw R'| | | | |]; subst. inversion R'; subst. rewrite app_nil_r in Ho.
  apply in_map_iff in Ho as ([[o1 k] v] & <- & Ho). rewrite Forall_forall in Fw. destruct (Fw _ Ho) as [(c & [<-|[]] & B) _]. simpl in *.
  inversion Fa as [|? a ? ? E Fa']; subst. inversion Fa'; subst. inversion E; subst. match goal with H : at_ _ _ _ |- _ => inversion H; subst end.
  assert (forall o, below (callMem m0 [VPtr (cell 0)]) callFrame (CDeref cp) o -> rootObj o = RLoc 0) as G.
  { assert (forall o k l, rootObj o = RLoc 0 -> callMem m0 [VPtr (cell 0)] (o, k) <> VPtr l) as N.
    { intros o' k' [o2 k2] R0 E'. assert (m0 (o', k') = VPtr (o2, k2)) as E2.
      { destruct o' as [[]|]; simpl in *; try discriminate; exact E'. }
      apply He in E2 as [_ [V|(i & _ & _ & [[K _]|[K _]])]]; try discriminate K. unfold visible in V. now rewrite R0 in V. }
    induction 1 as [o' (o2 & k2 & k3 & D & E')|o2 k2 o' k3 B' IH E'|o' k' f B' IH].
    - simpl in D. subst. destruct k2; simpl in E'; [injection E' as <- _; reflexivity| |].
      all: change (m0 (Root (RArg 0), Z.pos p0) = VPtr (o', k3)) in E' || change (m0 (Root (RArg 0), Z.neg p0) = VPtr (o', k3)) in E'.
      all: apply He in E' as [_ [[]|(i & _ & [=] & _)]].
    - exfalso. exact (N _ _ _ IH E').
    - exact IH. }
  apply G in B. unfold visible in Vo. now rewrite B in Vo.
Qed.
Print Assumptions C105_address_of_parameter_refuted.
(** [q = &s.val; q[0] = 1;] for a structure [s] which is a parameter: reported, though the caller
    cannot see [s]. *)
Theorem C105_member_of_parameter_refuted : exists l, l = [Set_ q (EAddr (PFld p 0)); Num (PIdx q (Some 0%Z))] /\
  falseAlarm 1 (fun x => if Nat.eqb x 0 then KStruct else KPtr) [] l
    (MModAlias (Fetch (Adr (Field (Param 0) 0)) (Some 0%Z)) (Fetch (Cvar 1) (Some 0%Z))).
Proof.
  eexists. split; [reflexivity|]. split; [left; reflexivity|]. split; [discriminate|].
  intros m0 w m' o He R Ho Vo. exfalso.
  inversion R as [| |? ? ? ? ? ? ? ? A E R'| | | | | |]; subst. inversion A; subst.
  inversion E as [|? l1 A1| |]; subst. inversion A1 as [| | | |? o1 k1 ? A2]; subst. inversion A2; subst.
  inversion R' as [|? ? l2 ? ? ? ? A3 R''| | | | | | |]; subst. inversion R''; subst.
  inversion A3 as [| | |? l3 o3 k3 ? j A4 E4| ]; subst. inversion A4; subst.
  unfold upd in E4. destruct (loc_eq_dec (cell 1) (cell 1)) as [_|N]; [|now destruct N]. injection E4 as <- <-.
  destruct Ho as [<-|[<-|[]]]; exact Vo.
Qed.
Print Assumptions C105_member_of_parameter_refuted.
(** [p = &g.val; p[0].next = 1;] where the clause lists [g.val.next]: reported. *)
Theorem C105_element_of_address_refuted : exists l, l = [Set_ p (EAddr (PFld (PGlob 0) 0)); Num (PFld (PIdx p (Some 0%Z)) 1)] /\
  falseAlarm 0 exKind [CFld (CFld (CGlob 0) 0) 1] l
    (MModAlias (Field (Fetch (Adr (Field (Glob 0) 0)) (Some 0%Z)) 1) (Field (Fetch (Cvar 0) (Some 0%Z)) 1)).
Proof.
  eexists. split; [reflexivity|]. split; [left; reflexivity|]. split; [discriminate|].
  intros m0 w m' o He R Ho Vo.
  inversion R as [| |? ? ? ? ? ? ? ? A E R'| | | | | |]; subst. inversion A; subst.
  inversion E as [|? l1 A1| |]; subst. inversion A1 as [| | | |? o1 k1 ? A2]; subst. inversion A2; subst.
  inversion R' as [|? ? l2 ? ? ? ? A3 R''| | | | | | |]; subst. inversion R''; subst.
  inversion A3 as [| | | |? o5 k5 ? A5]; subst. inversion A5 as [| | |? l3 o3 k3 ? j A4 E4| ]; subst. inversion A4; subst.
  unfold upd in E4. destruct (loc_eq_dec (cell 0) (cell 0)) as [_|N]; [|now destruct N]. injection E4 as <- <-.
  destruct Ho as [<-|[<-|[]]]; [destruct Vo|]. left. eexists. split; [now left|]. apply below_here.
  eexists _, _. split; [|reflexivity]. eexists _, _. split; reflexivity.
Qed.
Print Assumptions C105_element_of_address_refuted.
(** If [p] and [q] point to the same object, [q->val = 1] modifies nothing but what is listed as [p->val]. *)
Theorem C105_aliased_parameters_refuted : exists x m0, entryMem 2 exKind m0 /\
  In x (said 2 [cval cp] [Num (val_ q)]) /\ (forall s, x <> MMust s) /\
  (exists w m', run isNum m0 [Num (val_ q)] w m') /\
  forall w m' o, run isNum m0 [Num (val_ q)] w m' -> In o w -> allowed m0 noOnly [cval cp] o.
Proof.
  exists (MMod (Field (Ptr (Param 1)) 0)), twoMem. split; [apply twoMem_entry|]. split; [left; reflexivity|]. split; [discriminate|].
  split; [eexists _, _; num_; apply run_nil|].
  intros w m' o R Ho. inversion R as [|? ? l2 ? ? ? ? A3 R''| | | | | | |]; subst. inversion R''; subst.
  inversion A3 as [| | | |? o5 k5 ? A5]; subst. inversion A5 as [| |? l ? A E| |]; subst. inversion A; subst. inPtr E.
  destruct Ho as [<-|[]]. left. eexists. split; [now left|]. apply below_here. eexists _, _. split; [|reflexivity].
  exists (Root (RLoc 0)), 0%Z, 0%Z. split; reflexivity.
Qed.
Print Assumptions C105_aliased_parameters_refuted.

(** ** C106 *)
Theorem C106_reported_items_untouched_partial : forall np kind m0 fl ann onlyParam clause ad l c w m',
  entryMem np kind m0 -> unaliased m0 -> (forall g, ann g = ChChecked) -> f_modglobs fl = true -> f_mustmod fl = true ->
  tameBody kind (f_moduncon fl) l -> Forall (typed np kind ad) l -> Forall noCall l -> run isNum m0 l w m' ->
  In (MMust (readClause c)) (checkFunction np fl ann onlyParam clause l) ->
  forall o, In o w -> visible o -> ~ below m0 ownFrame c o.
Proof. intros np kind m0 fl ann oP cl ad l c w m' He Hu Ha Hm Hmm; exact (reported_untouched m0 np kind He fl ann oP cl Ha Hm ad Hu Hmm l c w m'). Qed.
Print Assumptions C106_reported_items_untouched_partial.
(** [r = q; if (...) r->val = 1; else n = 1;] where the clause lists [p->val], [q->val] and a global. *)
Definition someBody : list stmt := [Set_ r (EAt q); If [Num (val_ r)] [Num n]].
Example C106_reported_example : tameBody exKind true someBody /\ Forall (typed 2 exKind false) someBody /\ Forall noCall someBody /\
  said 2 [cval cp; cval cq; CGlob 3] someBody = [MMust (readClause (cval cp)); MMust (readClause (CGlob 3))] /\
  exists w m', run isNum exMem someBody w m' /\ In (Sub H1 0 0) w.
Proof.
  split; [|split; [|split; [|split; [reflexivity|]]]].
  - unfold tameBody, someBody. repeat constructor; simpl; unfold searchLimit; try discriminate; try lia.
  - unfold someBody. repeat constructor; simpl; try discriminate.
  - unfold someBody. repeat constructor.
  - eexists _, _. split; [set_; eapply run_if_t; [num_; apply run_nil|apply run_nil]|]. simpl. auto.
Qed.
Theorem C106_unreported_items_modified_partial : forall np kind m0 fl ann onlyParam clause ad l c w m',
  entryMem np kind m0 -> (forall g, ann g = ChChecked) -> f_modglobs fl = true -> f_mustmod fl = true ->
  tameBody kind (f_moduncon fl) l -> Forall (typed np kind ad) l -> Forall straight l -> Forall noCall l ->
  run isNum m0 l w m' -> In c clause -> ~ In (MMust (readClause c)) (checkFunction np fl ann onlyParam clause l) ->
  exists o, In o w /\ visible o /\ below m0 ownFrame c o.
Proof. intros np kind m0 fl ann oP cl ad l c w m' He Ha Hm Hmm; exact (unreported_modified m0 np kind He fl ann oP cl Ha Hm ad Hmm l c w m'). Qed.
Print Assumptions C106_unreported_items_modified_partial.
(** [r = q; r->val = 1; n = 1;] where the clause lists [p->val] and [q->val]. *)
Definition lineBody : list stmt := [Set_ r (EAt q); Num (val_ r); Num n].
Example C106_unreported_example : tameBody exKind true lineBody /\ Forall (typed 2 exKind false) lineBody /\
  Forall straight lineBody /\ Forall noCall lineBody /\ said 2 [cval cp; cval cq] lineBody = [MMust (readClause (cval cp))] /\
  exists w m', run isNum exMem lineBody w m'.
Proof.
  split; [|split; [|split; [|split; [|split; [reflexivity|]]]]].
  - unfold tameBody, lineBody. repeat constructor; simpl; unfold searchLimit; try discriminate; try lia.
  - unfold lineBody. repeat constructor; simpl; try discriminate.
  - unfold lineBody. repeat constructor.
  - unfold lineBody. repeat constructor.
  - eexists _, _. set_. num_. num_. apply run_nil.
Qed.
(** [f (p)] where [f] modifies what its argument points to and all that is reached from it: the clause
    lists [*p] and [p->next->val], and the second is reported, though it may be what [f] modifies. *)
Theorem C106_modified_below_refuted : exists l c, l = [Call (Some [CDeref cp]) [EAt p]] /\
  In (MMust (readClause c)) (said 1 [CDeref cp; c] l) /\
  exists m0 w m' o, entryMem 1 exKind m0 /\ run isNum m0 l w m' /\ In o w /\ visible o /\ below m0 ownFrame c o.
Proof.
  eexists _, (cval (cnext cp)). split; [reflexivity|]. split; [left; reflexivity|].
  exists (memOf [(cell 0, VPtr (H0, 0%Z)); ((Sub H0 0 1, 0%Z), VPtr (H2, 0%Z))]). eexists _, _, (Sub H2 0 0).
  split; [entry|]. split; [|split; [|split; [exact I|]]].
  - eapply run_call with (ws := [((Sub H2 0 0, 0%Z), VNum 1)]); [repeat constructor; place_| |apply run_nil].
    constructor; [|constructor]. split; [|exact I]. exists (CDeref cp). split; [now left|]. apply below_fld.
    eapply below_deref with (o' := Sub H0 0 1) (k := 0%Z); [|reflexivity]. apply below_fld. apply below_here.
    exists (Root (RArg 0)), 0%Z, 0%Z. split; reflexivity.
  - simpl. auto.
  - apply below_here. exists H2, 0%Z. split; [|reflexivity]. exists (Sub H0 0 1), 0%Z, 0%Z. split; [|reflexivity].
    exists H0, 0%Z. split; [|reflexivity]. exists (Root (RLoc 0)), 0%Z, 0%Z. split; reflexivity.
Qed.
Print Assumptions C106_modified_below_refuted.
(** If [p] and [q] point to the same object, [q->val = 1] modifies [p->val], which is reported as not
    modified. *)
Theorem C106_aliased_parameters_refuted : exists c m0 w m' o, entryMem 2 exKind m0 /\
  In (MMust (readClause c)) (said 2 [c; cval cq] [Num (val_ q)]) /\
  run isNum m0 [Num (val_ q)] w m' /\ In o w /\ visible o /\ below m0 ownFrame c o.
Proof.
  exists (cval cp), twoMem. eexists _, _, (Sub H0 0 0). split; [apply twoMem_entry|]. split; [left; reflexivity|].
  split; [num_; apply run_nil|]. split; [simpl; auto|]. split; [exact I|].
  apply below_here. exists H0, 0%Z. split; [|reflexivity]. exists (Root (RLoc 0)), 0%Z, 0%Z. split; reflexivity.
Qed.
Print Assumptions C106_aliased_parameters_refuted.
(** [if (...) p->val = 1;]: [p->val] is not reported, though it may be left alone. *)
Theorem C106_branch_refuted : exists l c, l = [If [Num (val_ p)] []] /\ said 1 [c] l = [] /\
  exists m0 w m', entryMem 1 exKind m0 /\ run isNum m0 l w m' /\ forall o, In o w -> ~ below m0 ownFrame c o.
Proof.
  eexists _, (cval cp). split; [reflexivity|]. split; [reflexivity|].
  exists (memOf [(cell 0, VPtr (H0, 0%Z))]). eexists _, _. split; [entry|]. split.
  - eapply run_if_f; apply run_nil.
  - intros o [].
Qed.
Print Assumptions C106_branch_refuted.
(** [f (p)] where [f] may modify what its argument points to: [*p] is not reported, though [f] may leave it
    alone. *)
Theorem C106_call_refuted : exists l c, l = [Call (Some [CDeref cp]) [EAt p]] /\ said 1 [c] l = [] /\
  exists m0 w m', entryMem 1 exKind m0 /\ run isNum m0 l w m' /\ forall o, In o w -> ~ below m0 ownFrame c o.
Proof.
  eexists _, (CDeref cp). split; [reflexivity|]. split; [reflexivity|].
  exists (memOf [(cell 0, VPtr (H0, 0%Z))]). eexists _, _. split; [entry|]. split.
  - eapply run_call with (ws := []); [repeat constructor; place_|constructor|apply run_nil].
  - intros o [].
Qed.
Print Assumptions C106_call_refuted.
