(** C114-C116: statements without effect, and loops whose condition nothing changes. *)
From Verif Require Import Cbase Order_model Order_spec Order_proofs Order_ev_proofs Order_prec_proofs
  Eff_model Eff_spec Eff_proofs Eff_loop.
From Coq Require Import List ZArith Bool Lia Arith.
Import ListNotations.
Open Scope Z_scope.
Local Arguments GVar _%nat_scope. Local Arguments GArr _%nat_scope.
Local Arguments MVar _%nat_scope. Local Arguments MArr _%nat_scope. Local Arguments MDeref _%nat_scope.
Local Arguments Var _%nat_scope. Local Arguments Arr _%nat_scope. Local Arguments Fetch _%nat_scope _.
Local Arguments LV _%nat_scope. Local Arguments LF _%nat_scope _. Local Arguments Call _%nat_scope _.
Local Arguments OVar _%nat_scope. Local Arguments OElem _%nat_scope _%Z_scope.

(** Declarations used in the examples: variables and arrays with numbers from 5 on are global; [f0]
    returns an integer and modifies [v6]; [f1] modifies what its first argument points to; [f2] uses the
    array [a5] and modifies nothing; [f3] uses [v5] and modifies nothing; [f4] has no modifies clause. *)
Definition exGlob (x : nat) : bool := Nat.leb 5 x.
Definition exDecl (f : fname) : fdecl :=
  match f with
  | 0%nat => {| globs := []; mods := Some [MVar 6] |}
  | 1%nat => {| globs := []; mods := Some [MDeref 0] |}
  | 2%nat => {| globs := [GArr 5]; mods := Some [] |}
  | 3%nat => {| globs := [GVar 5]; mods := Some [] |}
  | _ => {| globs := []; mods := None |}
  end.
Definition exKind (f : fname) : rkind := match f with 0%nat => RInt | _ => RVoid end.
(** [f1] stores 0 in all elements; [f2] returns [a5[0]], [f3] returns [v5]; [f4] increments [v6]. *)
Definition exBody (f : fname) (args : exprs) (_ : list Z) (s : state) : Z * (obj -> option Z) :=
  match f with
  | 1%nat => (0, fun o => match o with
      | OElem a _ => if existsb (Nat.eqb a) (hd [] (arrays args)) then Some 0 else None
      | OVar _ => None end)
  | 2%nat => (s (OElem 5 0), fun _ => None)
  | 3%nat => (s (OVar 5), fun _ => None)
  | 4%nat => (0, fun o => if obj_eqb o (OVar 6) then Some 1 else None)
  | _ => (0, fun _ => None)
  end.
Lemma exBody_honest : honest exGlob exGlob exDecl exBody.
Proof.
  intros f args vs s; destruct f as [|[|[|[|[|f]]]]]; cbn [exBody fst snd]; split; try discriminate; auto.
  - intros [x | a k] v H; [discriminate |].
    destruct (existsb (Nat.eqb a) (hd [] (arrays args))) eqn:E; [| discriminate].
    apply existsb_exists in E; destruct E as (b & Hb & E); apply Nat.eqb_eq in E; subst b.
    right; exists 0%nat; destruct (arrays args) as [|l m]; [destruct Hb | exists l; split; [left; reflexivity | split; [reflexivity | exact Hb]]].
  - intros s' H; rewrite (H (OElem 5 0)); [auto | left; left; reflexivity].
  - intros s' H; rewrite (H (OVar 5)); [auto | left; reflexivity].
  - intros o v H; destruct (obj_eqb o (OVar 6)) eqn:E; [| discriminate]; apply obj_eqb_eq in E; subst; reflexivity.
Qed.
Definition exEffect := effect exGlob exGlob exDecl true exKind.
Definition exLoop := loopCheck exGlob exGlob exDecl true.
Definition exChecks := loopChecks exGlob exGlob exDecl true.
Definition exOutcome := outcome (fun z => z) (fun a b => if a <? b then 1 else 0) (fun _ => 0) exBody.
Definition exExec := exec (fun z => z) (fun a b => if a <? b then 1 else 0) (fun _ => 0) exBody.
Definition exRun := run exGlob exGlob exDecl.
Definition args1 (e : expr) := ECons e ENil.
Definition ones (_ : obj) : Z := 1.
Definition elems (o : obj) : Z := match o with OVar _ => 0 | OElem _ _ => 1 end.

(** ** C114 *)
Theorem C114_noeffect_partial : forall glob_var glob_arr decl uncon rk unother binother addr body e s v t,
  honest glob_var glob_arr decl body -> every named e = true ->
  In ENoEffect (effect glob_var glob_arr decl uncon rk e) ->
  outcome unother binother addr body s e v t -> forall o, t o = s o.
Proof.
  intros gv ga d u rk un bi ad bo e s v t Hon N M; apply noeffect_inv in M.
  exact (no_effect gv ga d u un bi ad bo Hon e s v t N M).
Qed.
Print Assumptions C114_noeffect_partial.
(** [v0 + a0[v1] * 2;] and [f3 () ? v0 : a1[3];]. *)
Example C114_noeffect_example :
  let e := Bin BAdd (Var 0) (Bin BMul (Fetch 0 (Var 1)) (Const 2)) in
  let f := Cond (Call 3 ENil) (Var 0) (Fetch 1 (Const 3)) in
  every named e = true /\ exEffect e = [ENoEffect] /\ every named f = true /\ exEffect f = [ENoEffect]
  /\ exists v t, exOutcome ones e v t.
Proof.
  cbv zeta; repeat split.
  exists 3, (flush ones []), ones, []; split; [| reflexivity].
  exists (1, 2); split; [| reflexivity]; left; exists ones, [], []; split; [repeat split | split; [| reflexivity]].
  exists (1, 2); split; [| reflexivity]; left; exists ones, [], []; split; [| repeat split].
  exists (OElem 0 1, 1); split; [| reflexivity]; split; [exists 1; repeat split | reflexivity].
Qed.

Theorem C114_noeffectuncon_partial : forall glob_var glob_arr decl uncon rk unother binother addr body e s v t,
  honest glob_var glob_arr decl body -> every named e = true ->
  In ENoEffectUncon (effect glob_var glob_arr decl uncon rk e) ->
  outcome unother binother addr body s e v t ->
  (forall x, glob_var x = false -> t (OVar x) = s (OVar x))
  /\ (forall a k, glob_arr a = false -> t (OElem a k) = s (OElem a k)).
Proof.
  intros gv ga d u rk un bi ad bo e s v t Hon N M E; apply noeffectuncon_inv in M.
  split; intros; apply (global_effect gv ga d u un bi ad bo Hon e s v t N M E); assumption.
Qed.
Print Assumptions C114_noeffectuncon_partial.
(** [f4 (v0), v1;]. *)
Example C114_noeffectuncon_example :
  let e := Comma (Call 4 (args1 (Var 0))) (Var 1) in every named e = true /\ exEffect e = [ENoEffectUncon].
Proof. split; reflexivity. Qed.

Theorem C114_silent_effect_partial : forall glob_var glob_arr decl uncon rk e,
  every (pointed decl) e = true -> effect glob_var glob_arr decl uncon rk e = [] ->
  exists v a, run glob_var glob_arr decl e v a /\ wr a <> [].
Proof. intros gv ga d u rk e P H; exact (silent_effect gv ga d u rk e H P). Qed.
Print Assumptions C114_silent_effect_partial.
(** [v0 && (f1 (a0), v1);]. *)
Example C114_silent_effect_example :
  let e := And (Var 0) (Paren (Comma (Call 1 (args1 (Arr 0))) (Var 1))) in every (pointed exDecl) e = true /\ exEffect e = [].
Proof. split; reflexivity. Qed.

(** [f1 (v0 ? 0 : a0);] is reported to have no effect, though it sets the elements of the array to 0 if
    [v0] is 0: of a conditional argument only the first alternative is looked at. *)
Theorem C114_conditional_argument_refuted : exists e s v t,
  honest exGlob exGlob exDecl exBody /\ exEffect e = [ENoEffect] /\ exOutcome s e v t /\ s (OElem 0 0) = 1 /\ t (OElem 0 0) = 0.
Proof.
  set (c := Cond (Var 0) (Const 0) (Arr 0)); set (t := stored (snd (exBody 1%nat (args1 c) [0] elems)) elems).
  exists (Call 1 (args1 c)), elems, 0, (flush t []); split; [exact exBody_honest | split; [reflexivity | split; [| split; reflexivity]]].
  exists t, []; split; [| reflexivity].
  exists [0], elems, []; split; [| repeat split].
  exists (0, []); split; [| reflexivity]; left; exists elems, [], []; split; [| repeat split].
  exists 0, elems, []; repeat split.
Qed.
Print Assumptions C114_conditional_argument_refuted.

(** Results that are thrown away are only looked for if the whole statement is a call: [f0 (v0);] is reported,
    but [(f0 (v0));] and [f0 (v0), f0 (v1);] are not. *)
Theorem C114_result_in_parentheses_refuted : exists e f,
  exEffect (Call 0 (args1 (Var 0))) = [ERetInt]
  /\ e = Paren (Call 0 (args1 (Var 0))) /\ exEffect e = []
  /\ f = Comma (Call 0 (args1 (Var 0))) (Call 0 (args1 (Var 1))) /\ exEffect f = [].
Proof. do 2 eexists; repeat split; reflexivity. Qed.
Print Assumptions C114_result_in_parentheses_refuted.

(** ** C115 *)
Theorem C115_infinite_loop_partial : forall glob_var glob_arr decl uncon unother binother addr body e b,
  honest glob_var glob_arr decl body ->
  every named e = true -> every subscripted e = true -> every (listed decl) e = true ->
  everyS named b = true -> everyS subscripted b = true -> no_switch b = true -> may_leave b = false ->
  In LInfinite (loopCheck glob_var glob_arr decl uncon e b) ->
  forall s v t, outcome unother binother addr body s e v t ->
  (forall u v' t', rounds unother binother addr body e b s u -> outcome unother binother addr body u e v' t' -> v' = v)
  /\ (v <> 0 -> forall r u, ~ exec unother binother addr body (SWhile e b) s r u).
Proof. intros gv ga d u; exact (infinite_loop gv ga d u). Qed.
Print Assumptions C115_infinite_loop_partial.
(** [while (v0 < a0[v1]) { a1[v0] = 0; if (v2) v2 = f3 (); else continue; }]. *)
Example C115_example :
  let e := Bin BOther (Var 0) (Fetch 0 (Var 1)) in
  let b := SSeq (SExpr (Asg (LF 1 (Var 0)) (Const 0))) (SIfElse (Var 2) (SExpr (Asg (LV 2) (Call 3 ENil))) SContinue) in
  let s o := match o with OElem _ _ => 5 | OVar _ => 1 end in
  every named e = true /\ every subscripted e = true /\ every (listed exDecl) e = true
  /\ everyS named b = true /\ everyS subscripted b = true /\ no_switch b = true /\ may_leave b = false
  /\ exLoop e b = [LInfinite] /\ exists t, exOutcome s e 1 t.
Proof.
  cbv zeta; repeat split.
  set (s := fun o : obj => match o with OElem _ _ => 5 | OVar _ => 1 end).
  exists (flush s []), s, []; split; [| reflexivity].
  exists (1, 5); split; [| reflexivity]; left; exists s, [], []; split; [repeat split | split; [| reflexivity]].
  exists (OElem 0 1, 5); split; [| reflexivity]; split; [exists 1; repeat split | reflexivity].
Qed.

Theorem C115_all_loops_partial : forall glob_var glob_arr decl uncon a,
  loopChecks glob_var glob_arr decl uncon a
  = flat_map (fun p => loopCheck glob_var glob_arr decl uncon (fst p) (snd p)) (whiles a).
Proof. intros gv ga d u a; exact (proj1 (all_loops gv ga d u) a). Qed.
Print Assumptions C115_all_loops_partial.
(** [while (v0) while (v1) v0 = 0;]: the inner loop is reported. *)
Example C115_all_loops_example :
  let a := SWhile (Var 1) (SExpr (Asg (LV 0) (Const 0))) in
  whiles (SWhile (Var 0) a) = [(Var 1, SExpr (Asg (LV 0) (Const 0))); (Var 0, a)] /\ exChecks (SWhile (Var 0) a) = [LInfinite].
Proof. split; reflexivity. Qed.

Lemma var_outcome : forall s x, exOutcome s (Var x) (s (OVar x)) s.
Proof. intros s x; exists s, []; repeat split. Qed.
Lemma asg_outcome : forall s x z, exOutcome s (Asg (LV x) (Const z)) z (upd s (OVar x) z).
Proof.
  intros s x z; exists (upd s (OVar x) z), []; split; [| reflexivity].
  exists (OVar x, z); split; [| reflexivity]; exists s, []; split; [| left; split; reflexivity].
  left; exists s, [], []; repeat split.
Qed.
Lemma elem_outcome : forall s a k, exOutcome s (Fetch a (Const k)) (s (OElem a k)) s.
Proof.
  intros s a k; exists s, []; split; [| reflexivity]; exists (OElem a k, s (OElem a k)); split; [| reflexivity].
  split; [exists k; repeat split | reflexivity].
Qed.
Lemma asg_elem_outcome : forall s a k z, exOutcome s (Asg (LF a (Const k)) (Const z)) z (upd s (OElem a k) z).
Proof.
  intros s a k z; exists (upd s (OElem a k) z), []; split; [| reflexivity].
  exists (OElem a k, z); split; [| reflexivity]; exists s, []; split; [| left; split; reflexivity].
  left; exists s, [], []; split; [exists k; repeat split | repeat split].
Qed.
Lemma call_outcome : forall s, exOutcome s (Call 2 ENil) (s (OElem 5 0)) s.
Proof. intros s; exists s, []; split; [| reflexivity]; exists [], s, []; repeat split. Qed.
Lemma comma_outcome : forall s a, exOutcome s (Fetch a (Comma (Const 0) (Const 1))) (s (OElem a 1)) s.
Proof.
  intros s a; exists s, []; split; [| reflexivity]; exists (OElem a 1, s (OElem a 1)); split; [| reflexivity].
  split; [| reflexivity]; exists 1; split; [exists 0, s, []; repeat split | reflexivity].
Qed.
(** A loop that ends in its second round. *)
Lemma one_round : forall e b s v t u w, exOutcome s e v t -> v <> 0 -> exExec b t Normal u -> exOutcome u e 0 w ->
  exExec (SWhile e b) s Normal w.
Proof. intros e b s v t u w H N B E; eapply XWhileGo; eauto; apply XWhileEnd; exact E. Qed.

(** [while (v0) break;] and [while (v0) { if (v1) return; }] are reported as infinite loops: jumps are
    not looked for. *)
Theorem C115_jumps_refuted : exists e b b' s,
  exLoop e b = [LInfinite] /\ exExec (SWhile e b) s Normal s
  /\ exLoop e b' = [LInfinite] /\ exExec (SWhile e b') s Returned s.
Proof.
  exists (Var 0), SBreak, (SIf (Var 1) (SReturn None)), ones.
  refine (conj eq_refl (conj _ (conj eq_refl _))).
  - eapply XWhileBreak; [apply var_outcome | discriminate | constructor].
  - eapply XWhileReturn; [apply var_outcome | discriminate |].
    eapply XIfYes; [apply var_outcome | discriminate |]; apply XReturn with (v := 1); split; reflexivity.
Qed.
Print Assumptions C115_jumps_refuted.

(** [while (v0) switch (1) { case 1: v0 = 0; }] is reported as an infinite loop: what the clauses of a
    switch modify is not counted. *)
Theorem C115_switch_refuted : exists e b s t,
  may_leave b = false /\ exLoop e b = [LInfinite] /\ exExec (SWhile e b) s Normal t.
Proof.
  exists (Var 0), (SSwitch (Const 1) (CCons (Some 1) (SExpr (Asg (LV 0) (Const 0))) CNil)), ones, (upd ones (OVar 0) 0).
  refine (conj eq_refl (conj eq_refl _)).
  eapply one_round; [apply var_outcome | discriminate | | apply (var_outcome (upd ones (OVar 0) 0))].
  apply (XSwitch _ _ _ _ _ _ _ 1 ones Normal); [exists ones, []; repeat split |].
  eapply XCons; [apply XExpr with (v := 0); apply asg_outcome | constructor].
Qed.
Print Assumptions C115_switch_refuted.

(** [while (f2 ()) a5[0] = 0;], where [f2] has the array [a5] in its globals list, is reported as an
    infinite loop: the array as a whole is not compared with its elements. *)
Theorem C115_global_array_refuted : exists e b s t,
  honest exGlob exGlob exDecl exBody /\ no_switch b = true /\ may_leave b = false /\ exLoop e b = [LInfinite] /\ exExec (SWhile e b) s Normal t.
Proof.
  exists (Call 2 ENil), (SExpr (Asg (LF 5 (Const 0)) (Const 0))), ones, (upd ones (OElem 5 0) 0).
  refine (conj exBody_honest (conj eq_refl (conj eq_refl (conj eq_refl _)))).
  eapply one_round; [apply call_outcome | discriminate | | apply (call_outcome (upd ones (OElem 5 0) 0))].
  apply XExpr with (v := 0); apply asg_elem_outcome.
Qed.
Print Assumptions C115_global_array_refuted.

(** [while (a0[0]) f1 (v0 ? 0 : a0);] is reported as an infinite loop: see
    [C114_conditional_argument_refuted]. *)
Theorem C115_conditional_argument_refuted : exists e b s t,
  honest exGlob exGlob exDecl exBody /\ no_switch b = true /\ may_leave b = false /\ exLoop e b = [LInfinite] /\ exExec (SWhile e b) s Normal t.
Proof.
  set (c := Cond (Var 0) (Const 0) (Arr 0)); set (t := stored (snd (exBody 1%nat (args1 c) [0] elems)) elems).
  exists (Fetch 0 (Const 0)), (SExpr (Call 1 (args1 c))), elems, t.
  refine (conj exBody_honest (conj eq_refl (conj eq_refl (conj eq_refl _)))).
  eapply one_round; [apply elem_outcome | discriminate | | apply (elem_outcome t)].
  apply XExpr with (v := 0); exists t, []; split; [| reflexivity].
  exists [0], elems, []; split; [| repeat split].
  exists (0, []); split; [| reflexivity]; left; exists elems, [], []; split; [| repeat split].
  exists 0, elems, []; repeat split.
Qed.
Print Assumptions C115_conditional_argument_refuted.

(** [while (a0[(0, 1)]) a0[1] = 0;] is reported as an infinite loop: the value of a comma expression is
    taken to be that of its first operand. *)
Theorem C115_comma_subscript_refuted : exists e b s t,
  no_switch b = true /\ may_leave b = false /\ exLoop e b = [LInfinite] /\ exExec (SWhile e b) s Normal t.
Proof.
  exists (Fetch 0 (Comma (Const 0) (Const 1))), (SExpr (Asg (LF 0 (Const 1)) (Const 0))), ones, (upd ones (OElem 0 1) 0).
  refine (conj eq_refl (conj eq_refl (conj eq_refl _))).
  eapply one_round; [apply comma_outcome | discriminate | | apply (comma_outcome (upd ones (OElem 0 1) 0))].
  apply XExpr with (v := 0); apply asg_elem_outcome.
Qed.
Print Assumptions C115_comma_subscript_refuted.

(** ** C116 *)
Theorem C116_silent_loop_partial : forall glob_var glob_arr decl uncon e b,
  loopCheck glob_var glob_arr decl uncon e b = [] ->
  (exists v a, run glob_var glob_arr decl e v a /\ rd a <> []) ->
  regular decl e = true -> (forall f, expr_in f b -> regular decl f = true) ->
  exists f o v a v' a', (f = e \/ expr_in f b)
    /\ run glob_var glob_arr decl e v a /\ (In o (rd a) \/ In o (wr a))
    /\ run glob_var glob_arr decl f v' a' /\ In o (wr a').
Proof.
  intros gv ga d u e b H (v & a & R & N); apply (silent_loop gv ga d u e b H), (reads_used gv ga d u e v a R N).
Qed.
Print Assumptions C116_silent_loop_partial.
(** [while (v0 < a0[v1]) { if (v2) f1 (a0); else v3 = 1; }]. *)
Example C116_example :
  let e := Bin BOther (Var 0) (Fetch 0 (Var 1)) in
  let b := SIfElse (Var 2) (SExpr (Call 1 (args1 (Arr 0)))) (SExpr (Asg (LV 3) (Const 1))) in
  exLoop e b = [] /\ (exists v a, exRun e v a /\ rd a <> []) /\ regular exDecl e = true
  /\ (forall f, expr_in f b -> regular exDecl f = true).
Proof.
  cbv zeta; refine (conj eq_refl (conj _ (conj eq_refl _))).
  - exists 1, (unseq (reads (OVar 0) none) (reads (OElem 0 7) (reads (OVar 1) none))); split; [| discriminate].
    exists 0, 1, (reads (OVar 0) none), (reads (OElem 0 7) (reads (OVar 1) none)).
    split; [reflexivity | split; [| split; [exact I | reflexivity]]]; exists 7, (reads (OVar 1) none); split; reflexivity.
  - intros f [-> | [-> | ->]]; reflexivity.
Qed.

(** Nothing is said about [for (; v0; ) ;] and [do ; while (v0);], which never end if [v0] is not 0: only
    [while] loops are checked. *)
Theorem C116_other_loops_refuted : exists a b s,
  exChecks a = [] /\ (forall r t, ~ exExec a s r t) /\ exChecks b = [] /\ (forall r t, ~ exExec b s r t)
  /\ exChecks (SWhile (Var 0) SEmpty) = [LInfinite].
Proof.
  exists (SFor None (Some (Var 0)) None SEmpty), (SDo SEmpty (Var 0)), ones.
  assert (forall s v t, exOutcome s (Var 0) v t -> v = s (OVar 0) /\ t = s) as O.
  { intros s v t (s' & d & (-> & -> & ->) & ->); split; reflexivity. }
  assert (forall s q t, exExec SEmpty s q t -> t = s /\ q = Normal) as P by (intros s q t H; inversion H; auto).
  destruct (exec_all_ind (fun z => z) (fun a b => if a <? b then 1 else 0) (fun _ => 0) exBody
    (fun a s _ _ => a = SDo SEmpty (Var 0) -> s (OVar 0) = 1 -> False)
    (fun c n b s _ _ => c = Some (Var 0) -> n = None -> b = SEmpty -> s (OVar 0) = 1 -> False)
    (fun _ _ _ _ => True)) as (D & F & _); try discriminate; auto.
  - intros e b s q t u H1 _ _ H2 E H; injection E as -> ->; apply P in H1; destruct H1 as [-> _]; apply O in H2; destruct H2 as [H2 _].
    rewrite H in H2; discriminate.
  - intros e b s q t v u r w H1 _ _ H2 _ _ IH E H; injection E as -> ->; apply P in H1; destruct H1 as [-> _]; apply O in H2; destruct H2 as [_ ->]; auto.
  - intros e b s t H1 _ E H; injection E as -> ->; apply P in H1; destruct H1; discriminate.
  - intros e b s t H1 _ E H; injection E as -> ->; apply P in H1; destruct H1; discriminate.
  - intros c n b s t H1 -> _ _ H; apply O in H1; destruct H1 as [H1 _]; rewrite H in H1; discriminate.
  - intros c n b s v t q u x w r y H1 _ H2 _ _ H3 _ IH -> -> -> H; apply O in H1; destruct H1 as [_ ->]; apply P in H2; destruct H2 as [-> _].
    destruct H3 as [_ ->]; auto.
  - intros c n b s v t u H1 _ H2 _ -> -> -> H; apply P in H2; destruct H2; discriminate.
  - intros c n b s v t u H1 _ H2 _ -> -> -> H; apply P in H2; destruct H2; discriminate.
  - refine (conj eq_refl (conj _ (conj eq_refl (conj _ eq_refl)))); intros r t H.
    + inversion H; subst.
      match goal with X : optional _ _ _ _ None _ _ _ |- _ => destruct X as [_ ->] end.
      match goal with X : exec_for _ _ _ _ _ _ _ _ _ _ |- _ => eapply F in X; auto end.
    + eapply D in H; auto.
Qed.
Print Assumptions C116_other_loops_refuted.

(** Nothing is said about [while (a0[0]) a0[(v1, 1)] = 2;], though nothing the condition depends on is
    modified: the value of the comma expression is not known. *)
Theorem C116_comma_subscript_refuted : exists e f,
  exLoop e (SExpr f) = []
  /\ (forall v a, exRun e v a -> rd a = [OElem 0 0] /\ wr a = [])
  /\ (forall v a, exRun f v a -> ~ In (OElem 0 0) (wr a)).
Proof.
  exists (Fetch 0 (Const 0)), (Asg (LF 0 (Comma (Var 1) (Const 1))) (Const 2)); refine (conj eq_refl (conj _ _)).
  - intros v a (k & c & (-> & ->) & ->); split; reflexivity.
  - intros v a (o & c & b & (k & (w & c' & b' & -> & (-> & ->) & ->) & ->) & (-> & ->) & ->) [H | []]; discriminate.
Qed.
Print Assumptions C116_comma_subscript_refuted.
