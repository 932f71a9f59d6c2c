From Verif Require Import Cbase Cond_model Cond_spec.
From Coq Require Import ZifyBool.
Local Open Scope nat_scope.

Scheme group_mut := Induction for group Sort Prop
with tail_mut := Induction for tail Sort Prop.
Combined Scheme group_tail_ind from group_mut, tail_mut.

Section Proofs.
Variables (env line cond name : Type).
Variable exec : line -> env -> env.
Variable eval : cond -> env -> env * bool.
Variable defined : name -> env -> bool.
Notation run := (@run env line cond name exec eval defined).
Notation proc_line := (@proc_line env line cond name exec eval defined).
Notation state := (@state env name).
Notation frame := (@frame name).

Lemma set_stack_same : forall s : state, set_stack (stack s) s = s.
Proof. intros []. reflexivity. Qed.

Lemma run_proc : forall l r s, run Proc (l :: r) s = let '(m', s') := proc_line l r s in run m' r s'.
Proof. reflexivity. Qed.
Lemma run_skip : forall d l r s, run (Skip d) (l :: r) s
  = match skip_line d l s with
    | Some s' => run (Skip d) r s'
    | None => run Proc (l :: r) s
    end.
Proof. reflexivity. Qed.

Lemma plain_line_eq : forall l (g : group line cond name), plain_group (GLine l g) = plain l && plain_group g.
Proof. reflexivity. Qed.
Lemma plain_cond_eq : forall o b t (g : group line cond name),
  plain_group (GCond o b t g) = plain_group b && plain_tail t && plain_group g.
Proof. reflexivity. Qed.
Lemma plain_elif_eq : forall c b (t : tail line cond name), plain_tail (TElif' c b t) = plain_group b && plain_tail t.
Proof. reflexivity. Qed.
Lemma lines_line_eq : forall l (g : group line cond name), lines (GLine l g) = l :: lines g.
Proof. reflexivity. Qed.
Lemma lines_cond_eq : forall o b t (g : group line cond name),
  lines (GCond o b t g) = open_line o :: lines b ++ tail_lines t ++ lines g.
Proof. reflexivity. Qed.
Lemma lines_endif_eq : tail_lines (@TEndif line cond name) = [Endif].
Proof. reflexivity. Qed.
Lemma lines_else_eq : forall b : group line cond name, tail_lines (TElse' b) = Else :: lines b ++ [Endif].
Proof. reflexivity. Qed.
Lemma lines_elif_eq : forall c b (t : tail line cond name), tail_lines (TElif' c b t) = Elif c :: lines b ++ tail_lines t.
Proof. reflexivity. Qed.
Notation meaning := (@meaning env line cond name exec eval defined).
Notation tail_meaning := (@tail_meaning env line cond name exec eval defined).
Lemma meaning_line_eq : forall l g e, meaning (GLine l g) e = meaning g (effect exec l e).
Proof. reflexivity. Qed.
Lemma meaning_cond_eq : forall o b t g e, meaning (GCond o b t g) e
  = let '(e1, v) := holds eval defined o e in meaning g (if v then meaning b e1 else tail_meaning t e1).
Proof. reflexivity. Qed.
Lemma meaning_endif_eq : forall e, tail_meaning TEndif e = e.
Proof. reflexivity. Qed.
Lemma meaning_else_eq : forall b e, tail_meaning (TElse' b) e = meaning b e.
Proof. reflexivity. Qed.
Lemma meaning_elif_eq : forall c b t e, tail_meaning (TElif' c b t) e
  = let '(e1, v) := eval c e in if v then meaning b e1 else tail_meaning t e1.
Proof. reflexivity. Qed.

Definition deep (d : nat) (s : state) : Prop := base s < d <= List.length (stack s).

Lemma deep_base : forall d s, deep d s -> at_base s = false.
Proof. intros d s H. unfold deep, at_base in *. apply Nat.eqb_neq. lia. Qed.

Lemma skip_plain : forall d (l : src line cond name) (s : state), plain l = true -> skip_line d l s = Some s.
Proof. intros d [] s H; try discriminate; reflexivity. Qed.

(** The lines of a conditional's group or tail met below the depth looked for change nothing. *)
Lemma skip_groups :
  (forall g : group line cond name, plain_group g = true -> forall d s rest, deep d s ->
     run (Skip d) (lines g ++ rest) s = run (Skip d) rest s) /\
  (forall t : tail line cond name, plain_tail t = true -> forall d s f fs rest, stack s = f :: fs ->
     base s < d <= List.length fs -> not_else (type f) = true ->
     run (Skip d) (tail_lines t ++ rest) s = run (Skip d) rest (set_stack fs s)).
Proof.
  apply group_tail_ind.
  - reflexivity.
  - intros l g IH P d s rest D. rewrite plain_line_eq in P. apply andb_true_iff in P. destruct P as [P1 P2].
    rewrite lines_line_eq, <- app_comm_cons.
    rewrite run_skip, skip_plain by exact P1. apply IH; auto.
  - intros o b IHb t IHt g IHg P d s rest D. rewrite plain_cond_eq in P.
    apply andb_true_iff in P. destruct P as [P P3]. apply andb_true_iff in P. destruct P as [P1 P2].
    rewrite lines_cond_eq, <- app_comm_cons.
    rewrite run_skip.
    assert (skip_line d (@open_line line cond name o) s
            = Some (set_stack ({| type := TIf; succeeded := false; control := None |} :: stack s) s)) as E
      by (destruct o; reflexivity).
    rewrite E. rewrite <- !app_assoc. rewrite IHb; auto.
    2:{ unfold deep in *. cbn [stack base set_stack List.length]. lia. }
    rewrite (IHt P2 d _ {| type := TIf; succeeded := false; control := None |} (stack s)); auto.
    cbn [set_stack stack base]. change (set_stack (stack s) (set_stack (_ :: stack s) s)) with (set_stack (stack s) s).
    rewrite IHg; auto.
    + f_equal. apply set_stack_same.
  - intros _ d s f fs rest E D N. rewrite lines_endif_eq. change ([Endif] ++ rest) with (@Endif line cond name :: rest).
    rewrite run_skip. assert (deep d s) as D' by (unfold deep; rewrite E; cbn [List.length]; lia).
    cbn [skip_line]. rewrite (deep_base d s D'). rewrite E. cbn [List.length].
    replace (S (List.length fs) =? d) with false by (symmetry; apply Nat.eqb_neq; lia). reflexivity.
  - intros b IHb P d s f fs rest E D N. rewrite lines_else_eq. rewrite <- app_comm_cons.
    rewrite run_skip. assert (deep d s) as D' by (unfold deep; rewrite E; cbn [List.length]; lia).
    cbn [skip_line]. rewrite (deep_base d s D'). rewrite E. cbn [List.length].
    replace (S (List.length fs) =? d) with false by (symmetry; apply Nat.eqb_neq; lia). rewrite N.
    rewrite <- app_assoc. rewrite IHb; auto.
    2:{ unfold deep. cbn [set_stack stack base List.length]. lia. }
    change ([Endif] ++ rest) with (@Endif line cond name :: rest). rewrite run_skip.
    cbn [skip_line]. unfold at_base. cbn [set_stack stack base List.length].
    replace (S (List.length fs) =? base s) with false by (symmetry; apply Nat.eqb_neq; lia).
    replace (S (List.length fs) =? d) with false by (symmetry; apply Nat.eqb_neq; lia). reflexivity.
  - intros c b IHb t IHt P d s f fs rest E D N. rewrite plain_elif_eq in P. apply andb_true_iff in P. destruct P as [P1 P2].
    rewrite lines_elif_eq, <- app_comm_cons.
    rewrite run_skip. assert (deep d s) as D' by (unfold deep; rewrite E; cbn [List.length]; lia).
    cbn [skip_line]. rewrite (deep_base d s D'). rewrite E. cbn [List.length].
    replace (S (List.length fs) =? d) with false by (symmetry; apply Nat.eqb_neq; lia). rewrite N.
    rewrite <- app_assoc. rewrite IHb; auto.
    2:{ unfold deep. cbn [set_stack stack base List.length]. lia. }
    rewrite (IHt P2 d _ {| type := TElif; succeeded := succeeded f; control := control f |} fs); auto.
Qed.

(** Everything but [white] and [guard]. *)
Definition like (s' s : state) (e : env) (fs : list frame) : Prop :=
  st_env s' = e /\ stack s' = fs /\ base s' = base s /\ errors s' = errors s.

Lemma tail_found : forall (t : tail line cond name) s rest, deep (List.length (stack s)) s ->
  run (Skip (List.length (stack s))) (tail_lines t ++ rest) s = run Proc (tail_lines t ++ rest) s.
Proof.
  intros t s rest D. destruct t; rewrite ?lines_endif_eq, ?lines_else_eq, ?lines_elif_eq; rewrite <- app_comm_cons, run_skip; cbn [skip_line];
    rewrite (deep_base _ s D), Nat.eqb_refl; reflexivity.
Qed.

Lemma proc_groups :
  (forall g : group line cond name, plain_group g = true -> forall s rest, base s <= List.length (stack s) ->
     exists s', run Proc (lines g ++ rest) s = run Proc rest s' /\
       like s' s (meaning g (st_env s)) (stack s)) /\
  (forall t : tail line cond name, plain_tail t = true -> forall s f fs rest, stack s = f :: fs ->
     base s <= List.length fs -> not_else (type f) = true ->
     exists s', run Proc (tail_lines t ++ rest) s = run Proc rest s' /\
       like s' s (if succeeded f then st_env s else tail_meaning t (st_env s)) fs).
Proof.
  apply group_tail_ind.
  - intros _ s rest B. exists s. split; [reflexivity|]. repeat split; reflexivity.
  - intros l g IH P s rest B. rewrite plain_line_eq in P. apply andb_true_iff in P. destruct P as [P1 P2].
    rewrite lines_line_eq, <- app_comm_cons, run_proc.
    assert (exists s1, proc_line l (lines g ++ rest) s = (Proc, s1) /\ like s1 s (effect exec l (st_env s)) (stack s)) as (s1 & E & L1 & L2 & L3 & L4).
    { destruct l; try discriminate; eexists; (split; [reflexivity|]); repeat split; reflexivity. }
    rewrite E. destruct (IH P2 s1 rest) as (s' & R & M1 & M2 & M3 & M4); [rewrite L2, L3; exact B|].
    exists s'. split; [exact R|]. rewrite meaning_line_eq, <- L1. repeat split; congruence.
  - intros o b IHb t IHt g IHg P s rest B. rewrite plain_cond_eq in P.
    apply andb_true_iff in P. destruct P as [P P3]. apply andb_true_iff in P. destruct P as [P1 P2].
    rewrite lines_cond_eq, <- app_comm_cons, run_proc. rewrite <- !app_assoc.
    assert (exists s1 f, proc_line (open_line o) (lines b ++ tail_lines t ++ lines g ++ rest) s
              = (if snd (holds eval defined o (st_env s)) then Proc else skipping s1, s1) /\
            not_else (type f) = true /\ succeeded f = snd (holds eval defined o (st_env s)) /\
            like s1 s (fst (holds eval defined o (st_env s))) (f :: stack s)) as (s1 & f & E & N & S1 & L1 & L2 & L3 & L4).
    { destruct o as [c|n|n]; cbn [open_line proc_line holds].
      - destruct (eval c (st_env s)) as [e v]. cbn [fst snd]. unfold conditional_skip.
        destruct v; eexists; eexists; (split; [reflexivity|]); repeat split; reflexivity.
      - unfold conditional_skip. cbn [fst snd].
        destruct (defined n (st_env s)); eexists; eexists; (split; [reflexivity|]); repeat split; reflexivity.
      - unfold conditional_skip. cbn [fst snd].
        destruct (defined n (st_env s)); eexists; eexists; (split; [reflexivity|]); repeat split; reflexivity. }
    rewrite E, meaning_cond_eq. destruct (holds eval defined o (st_env s)) as [e1 v]. cbn [fst snd] in *.
    assert (exists s2, run (if v then Proc else skipping s1) (lines b ++ tail_lines t ++ lines g ++ rest) s1
                       = run Proc (lines g ++ rest) s2 /\
            like s2 s (if v then meaning b e1 else tail_meaning t e1) (stack s)) as (s2 & R2 & M1 & M2 & M3 & M4).
    { destruct v.
      - destruct (IHb P1 s1 (tail_lines t ++ lines g ++ rest)) as (s2 & R & A1 & A2 & A3 & A4).
        { rewrite L2, L3. cbn [List.length]. lia. }
        rewrite L2 in A2.
        destruct (IHt P2 s2 f (stack s) (lines g ++ rest) A2) as (s3 & R3 & B1 & B2 & B3 & B4); [rewrite A3, L3; exact B|exact N|].
        exists s3. split; [rewrite R; exact R3|]. rewrite S1 in B1. repeat split; try congruence.
      - unfold skipping. destruct skip_groups as [SG _].
        rewrite SG; [|exact P1|unfold deep; rewrite L2, L3; cbn [List.length]; lia].
        rewrite tail_found by (unfold deep; rewrite L2, L3; cbn [List.length]; lia).
        destruct (IHt P2 s1 f (stack s) (lines g ++ rest) L2) as (s3 & R3 & B1 & B2 & B3 & B4); [rewrite L3; exact B|exact N|].
        exists s3. split; [exact R3|]. rewrite S1 in B1. repeat split; try congruence. }
    rewrite R2. destruct (IHg P3 s2 rest) as (s3 & R3 & B1 & B2 & B3 & B4); [rewrite M2, M3; exact B|].
    exists s3. split; [exact R3|]. rewrite M1 in B1. repeat split; try congruence.
  - intros _ s f fs rest E B N. rewrite lines_endif_eq, meaning_endif_eq.
    change ([Endif] ++ rest) with (@Endif line cond name :: rest). rewrite run_proc. cbn [proc_line]. rewrite E.
    unfold at_base. rewrite E. cbn [List.length].
    replace (S (List.length fs) =? base s) with false by (symmetry; apply Nat.eqb_neq; lia).
    eexists. split; [reflexivity|].
    destruct (control f); [destruct (forallb is_blank rest)|]; repeat split; destruct (succeeded f); reflexivity.
  - intros b IHb P s f fs rest E B N. rewrite lines_else_eq, meaning_else_eq. rewrite <- app_comm_cons, run_proc, <- app_assoc.
    cbn [proc_line]. rewrite E. unfold at_base. rewrite E. cbn [List.length].
    replace (S (List.length fs) =? base s) with false by (symmetry; apply Nat.eqb_neq; lia). rewrite N.
    set (s2 := set_stack _ s). set (f2 := {| type := TElse; succeeded := true; control := None |}) in *.
    assert (forall s3, like s3 s (st_env s3) (f2 :: fs) -> exists s', run Proc ([Endif] ++ rest) s3 = run Proc rest s' /\
              like s' s (st_env s3) fs) as K.
    { intros s3 (A1 & A2 & A3 & A4). change ([Endif] ++ rest) with (@Endif line cond name :: rest). rewrite run_proc.
      cbn [proc_line]. rewrite A2. unfold at_base. rewrite A2. cbn [List.length].
      replace (S (List.length fs) =? base s3) with false by (symmetry; apply Nat.eqb_neq; lia).
      eexists. split; [reflexivity|]. cbn [f2 control]. repeat split; cbn [set_stack st_env stack base errors]; congruence. }
    destruct (succeeded f).
    + unfold skipping. destruct skip_groups as [SG _].
      change (List.length (stack s2)) with (List.length (stack (set_white 1 s2))).
      rewrite SG; [|exact P|unfold deep; cbn [s2 set_white set_stack stack base List.length]; lia].
      change [Endif] with (tail_lines (@TEndif line cond name)).
      rewrite tail_found by (unfold deep; cbn [s2 set_white set_stack stack base List.length]; lia).
      apply (K (set_white 1 s2)). repeat split; reflexivity.
    + destruct (IHb P s2 ([Endif] ++ rest)) as (s3 & R3 & A1 & A2 & A3 & A4); [cbn [s2 set_stack stack base List.length]; lia|].
      rewrite R3. destruct (K s3) as (s' & R & B1 & B2 & B3 & B4).
      { repeat split; [exact A2|exact A3|exact A4]. }
      exists s'. split; [exact R|]. repeat split; auto. rewrite B1, A1. reflexivity.
  - intros c b IHb t IHt P s f fs rest E B N. rewrite plain_elif_eq in P. apply andb_true_iff in P. destruct P as [P1 P2].
    rewrite lines_elif_eq, meaning_elif_eq. rewrite <- app_comm_cons, run_proc, <- app_assoc.
    cbn [proc_line]. rewrite E. unfold at_base. rewrite E. cbn [List.length].
    replace (S (List.length fs) =? base s) with false by (symmetry; apply Nat.eqb_neq; lia). rewrite N.
    destruct (succeeded f) eqn:SF.
    + set (s2 := set_white 1 _). unfold skipping. destruct skip_groups as [SG _].
      rewrite SG; [|exact P1|unfold deep; cbn [s2 set_white set_stack stack base List.length]; lia].
      rewrite tail_found by (unfold deep; cbn [s2 set_white set_stack stack base List.length]; lia).
      destruct (IHt P2 s2 {| type := TElif; succeeded := true; control := control f |} fs rest) as (s3 & R3 & A1 & A2 & A3 & A4);
        [reflexivity|exact B|reflexivity|].
      exists s3. split; [exact R3|]. repeat split; auto.
    + destruct (eval c (st_env s)) as [e1 v] eqn:EV. set (s2 := set_white 1 _). destruct v.
      * destruct (IHb P1 s2 (tail_lines t ++ rest)) as (s3 & R3 & A1 & A2 & A3 & A4);
          [cbn [s2 set_white set_env set_stack stack base List.length]; lia|].
        rewrite R3. destruct (IHt P2 s3 {| type := TElif; succeeded := true; control := control f |} fs rest) as (s4 & R4 & B1 & B2 & B3 & B4);
          [exact A2|rewrite A3; exact B|reflexivity|].
        exists s4. split; [exact R4|]. cbn [succeeded] in B1. unfold like. rewrite B1, B2, B3, B4, A1, A3, A4. auto.
      * unfold skipping. destruct skip_groups as [SG _].
        rewrite SG; [|exact P1|unfold deep; cbn [s2 set_white set_env set_stack stack base List.length]; lia].
        rewrite tail_found by (unfold deep; cbn [s2 set_white set_env set_stack stack base List.length]; lia).
        destruct (IHt P2 s2 {| type := TElif; succeeded := false; control := control f |} fs rest) as (s4 & R4 & B1 & B2 & B3 & B4);
          [reflexivity|exact B|reflexivity|].
        exists s4. split; [exact R4|]. cbn [succeeded] in B1. repeat split; auto.
Qed.

Lemma selected : forall g e fs, plain_group g = true ->
  let s := read_file exec eval defined e fs (lines g) in
  st_env s = meaning g e /\ stack s = fs /\ errors s = 0.
Proof.
  intros g e fs P s. destruct proc_groups as [PG _].
  destruct (PG g P (enter e fs) []) as (s' & R & A1 & A2 & A3 & A4); [reflexivity|].
  rewrite app_nil_r in R. unfold s, read_file. rewrite R. cbn [Cond_model.run].
  auto.
Qed.

(** * Nesting errors *)
Definition is_else (f : frame) : bool := negb (not_else (type f)).
Definition opened (s : state) (os : list frame) (fs : list frame) : Prop :=
  stack s = os ++ fs /\ base s = List.length fs.

Lemma opened_base : forall s os fs, opened s os fs -> at_base s = match os with [] => true | _ => false end.
Proof.
  intros s os fs [A B]. unfold at_base. rewrite A, B, app_length. destruct os; cbn [List.length].
  - apply Nat.eqb_refl.
  - apply Nat.eqb_neq. lia.
Qed.

Definition mode_ok (m : mode) (s : state) : Prop :=
  match m with Proc => True | Skip d => base s < d <= List.length (stack s) end.

Lemma outside : forall l r s, at_base s = true -> match l with Elif _ | Else | Endif => True | _ => False end ->
  proc_line l r s = (Proc, add_error s).
Proof. intros l r s A H. destruct l; try contradiction; cbn; rewrite A; destruct (stack s); reflexivity. Qed.

Lemma errors_counted : forall ls m s os fs, opened s os fs -> mode_ok m s ->
  errors (run m ls s) = errors s + nesting_errors (map is_else os) ls.
Proof.
  induction ls as [|l ls IH]; intros m s os fs O M; [cbn; lia|].
  assert (forall s' os' m', opened s' os' fs -> mode_ok m' s' -> forall n, errors s' = errors s + n ->
            n + nesting_errors (map is_else os') ls = nesting_errors (map is_else os) (l :: ls) ->
            errors (run m' ls s') = errors s + nesting_errors (map is_else os) (l :: ls)) as K.
  { intros s' os' m' O' M' n E1 E2. rewrite (IH m' s' os' fs O' M'). lia. }
  assert (forall f o', os = f :: o' -> base s < List.length (stack s)) as D.
  { intros f o' ->. destruct O as [A B]. rewrite A, B, app_length. cbn [List.length]. lia. }
  assert (forall m', (m = Proc -> m' = Proc) -> True) as _ by auto.
  (* one line processed *)
  assert (errors (run Proc (l :: ls) s) = errors s + nesting_errors (map is_else os) (l :: ls)) as PROC.
  { rewrite run_proc. pose proof (opened_base _ _ _ O) as AB. destruct O as [O1 O2].
    assert (forall e w, opened (set_white w (set_env e s)) os fs) as OW by (intros; split; auto).
    destruct l; [| | | | | | |destruct os as [|f os']|destruct os as [|f os']|destruct os as [|f os']];
      try (rewrite outside by (exact AB || exact I); apply (K (add_error s) [] Proc) with (n := 1); [split; auto|exact I|cbn; lia|reflexivity]);
      cbn [Cond_model.proc_line].
    - apply (K s os Proc) with (n := 0); [split; auto|exact I|lia|reflexivity].
    - apply (K _ os Proc) with (n := 0); [apply OW|exact I|cbn; lia|reflexivity].
    - apply (K _ os Proc) with (n := 0); [split; auto|exact I|cbn; lia|reflexivity].
    - apply (K _ os Proc) with (n := 0); [apply OW|exact I|cbn; lia|reflexivity].
    - destruct (eval c (st_env s)) as [e v]. unfold conditional_skip. set (s1 := set_white 1 _).
      assert (opened s1 ({| type := TIf; succeeded := negb (negb v); control := None |} :: os) fs) as O3.
      { split; cbn [s1 set_white set_stack set_env stack base]; [rewrite O1; reflexivity|exact O2]. }
      destruct (negb v); (eapply K with (n := 0); [exact O3| |cbn; lia|reflexivity]).
      + cbn. rewrite O1, O2, app_length. lia.
      + exact I.
    - unfold conditional_skip. set (s1 := set_white 1 _).
      assert (opened s1 ({| type := TIf; succeeded := negb (negb (defined n (st_env s))); control := None |} :: os) fs) as O3.
      { split; cbn [s1 set_white set_stack set_env stack base]; [rewrite O1; reflexivity|exact O2]. }
      destruct (negb (defined n (st_env s))); (eapply K with (n := 0); [exact O3| |cbn; lia|reflexivity]).
      + cbn. rewrite O1, O2, app_length. lia.
      + exact I.
    - unfold conditional_skip. set (cm := if _ && _ then Some n else None). set (s1 := set_white 1 _).
      assert (opened s1 ({| type := TIf; succeeded := negb (defined n (st_env s)); control := cm |} :: os) fs) as O3.
      { split; cbn [s1 set_white set_stack set_env stack base]; [rewrite O1; reflexivity|exact O2]. }
      destruct (defined n (st_env s)); (eapply K with (n := 0); [exact O3| |cbn; lia|reflexivity]).
      + cbn. rewrite O1, O2, app_length. lia.
      + exact I.
    - rewrite O1. cbn [app]. rewrite AB. cbv zeta.
        assert (errors (if not_else (type f) then s else add_error s) = errors s + (if is_else f then 1 else 0)) as EE.
        { unfold is_else. destruct (not_else (type f)); cbn; lia. }
        destruct (succeeded f).
        * apply (K _ ({| type := TElif; succeeded := true; control := control f |} :: os') _) with (n := if is_else f then 1 else 0).
          -- split; destruct (not_else (type f)); auto.
          -- cbn [mode_ok skipping]. destruct (not_else (type f)); cbn; rewrite O2, app_length; lia.
          -- destruct (not_else (type f)); cbn in *; lia.
          -- reflexivity.
        * destruct (eval c _) as [e v]. destruct v.
          -- apply (K _ ({| type := TElif; succeeded := true; control := control f |} :: os') _) with (n := if is_else f then 1 else 0).
             ++ split; destruct (not_else (type f)); auto.
             ++ exact I.
             ++ destruct (not_else (type f)); cbn in *; lia.
             ++ reflexivity.
          -- apply (K _ ({| type := TElif; succeeded := false; control := control f |} :: os') _) with (n := if is_else f then 1 else 0).
             ++ split; destruct (not_else (type f)); auto.
             ++ cbn [mode_ok skipping]. destruct (not_else (type f)); cbn; rewrite O2, app_length; lia.
             ++ destruct (not_else (type f)); cbn in *; lia.
             ++ reflexivity.
    - rewrite O1. cbn [app]. rewrite AB. cbv zeta.
        destruct (succeeded f).
        * apply (K _ ({| type := TElse; succeeded := true; control := None |} :: os') _) with (n := if is_else f then 1 else 0).
          -- split; destruct (not_else (type f)); auto.
          -- cbn [mode_ok skipping]. destruct (not_else (type f)); cbn; rewrite O2, app_length; lia.
          -- unfold is_else. destruct (not_else (type f)); cbn in *; lia.
          -- reflexivity.
        * apply (K _ ({| type := TElse; succeeded := true; control := None |} :: os') _) with (n := if is_else f then 1 else 0).
          -- split; destruct (not_else (type f)); auto.
          -- exact I.
          -- unfold is_else. destruct (not_else (type f)); cbn in *; lia.
          -- reflexivity.
    - rewrite O1. cbn [app]. rewrite AB. cbv zeta.
        apply (K _ os' Proc) with (n := 0).
        * destruct (control f); [destruct (forallb is_blank ls)|]; split; auto.
        * exact I.
        * destruct (control f); [destruct (forallb is_blank ls)|]; cbn; lia.
        * reflexivity. }
  destruct m as [|d]; [exact PROC|].
  rewrite run_skip. destruct (skip_line d l s) as [s'|] eqn:SK; [|exact PROC]. clear PROC.
  pose proof (opened_base _ _ _ O) as AB. destruct O as [O1 O2]. cbn [mode_ok] in M.
  destruct os as [|f os']; [exfalso; rewrite O1, O2 in M; cbn [app] in M; lia|].
  destruct l; cbn [skip_line] in SK; rewrite ?AB in SK; try (injection SK as <-).
  1,2,3,4: apply (K s (f :: os') (Skip d)) with (n := 0); [split; auto|exact M|lia|reflexivity].
  1,2,3: apply (K _ ({| type := TIf; succeeded := false; control := None |} :: f :: os') (Skip d)) with (n := 0);
    [split; cbn; [rewrite O1; reflexivity|exact O2]|cbn; rewrite O1 in *; cbn in *; lia|cbn; lia|reflexivity].
  - destruct (List.length (stack s) =? d) eqn:LD; [discriminate|]. rewrite O1 in SK. cbn [app] in SK. injection SK as <-.
    apply Nat.eqb_neq in LD. rewrite O1, app_length in *. cbn [List.length] in *.
    apply (K _ ({| type := TElif; succeeded := succeeded f; control := control f |} :: os') (Skip d)) with (n := if is_else f then 1 else 0).
    + split; destruct (not_else (type f)); auto.
    + destruct (not_else (type f)); cbn; rewrite app_length; lia.
    + unfold is_else. destruct (not_else (type f)); cbn in *; lia.
    + reflexivity.
  - destruct (List.length (stack s) =? d) eqn:LD; [discriminate|]. rewrite O1 in SK. cbn [app] in SK. injection SK as <-.
    apply Nat.eqb_neq in LD. rewrite O1, app_length in *. cbn [List.length] in *.
    apply (K _ ({| type := TElse; succeeded := succeeded f; control := control f |} :: os') (Skip d)) with (n := if is_else f then 1 else 0).
    + split; destruct (not_else (type f)); auto.
    + destruct (not_else (type f)); cbn; rewrite app_length; lia.
    + unfold is_else. destruct (not_else (type f)); cbn in *; lia.
    + reflexivity.
  - destruct (List.length (stack s) =? d) eqn:LD; [discriminate|]. rewrite O1 in SK. cbn [app] in SK. injection SK as <-.
    apply Nat.eqb_neq in LD. rewrite O1, app_length in *. cbn [List.length] in *.
    apply (K _ os' (Skip d)) with (n := 0).
    + split; auto.
    + cbn. rewrite app_length. lia.
    + cbn. lia.
    + reflexivity.
Qed.

Lemma file_errors : forall e fs ls, errors (read_file exec eval defined e fs ls) = nesting_errors [] ls.
Proof.
  intros e fs ls. unfold read_file. rewrite (errors_counted ls Proc (enter e fs) [] fs); [reflexivity|split; reflexivity|exact I].
Qed.

(** * Include guards *)
Definition onestep (m : mode) (l : src line cond name) (r : list (src line cond name)) (s : state) : mode * state :=
  match m with
  | Proc => proc_line l r s
  | Skip d => match skip_line d l s with Some s' => (m, s') | None => proc_line l r s end
  end.
Lemma run_onestep : forall m l r s, run m (l :: r) s = let '(m', s') := onestep m l r s in run m' r s'.
Proof. intros [|d] l r s; [reflexivity|]. rewrite run_skip. cbn [onestep]. destruct (skip_line d l s); reflexivity. Qed.

(** In a file, inside the conditional with frame [f]; [os]: conditionals open inside it. *)
Definition inside (m : mode) (s : state) (os : list frame) (f : frame) (fs : list frame) : Prop :=
  stack s = os ++ f :: fs /\ base s = List.length fs /\
  match m with Proc => True | Skip d => List.length fs < d <= List.length (stack s) end.

Lemma inside_base : forall m s os f fs, inside m s os f fs -> at_base s = false.
Proof.
  intros m s os f fs (A & B & _). unfold at_base. rewrite A, B, app_length. apply Nat.eqb_neq. cbn [List.length]. lia.
Qed.

Definition is_open (l : src line cond name) : bool := match l with If _ | Ifdef _ | Ifndef _ => true | _ => false end.
Definition is_mid (l : src line cond name) : bool := match l with Elif _ | Else => true | _ => false end.

Lemma step_open : forall m l r s os f fs m' s', inside m s os f fs -> is_open l = true -> onestep m l r s = (m', s') ->
  exists g, inside m' s' (g :: os) f fs /\ (white s <> 2 -> control g = None) /\ guard s' = guard s /\
    (white s <> 2 -> white s' <> 2) /\ (m <> Proc -> m' = m /\ st_env s' = st_env s).
Proof.
  intros m l r s os f fs m' s' (A & B & C) O H.
  assert (forall skip cm s0, conditional_skip skip cm s0 = (m', s') ->
    stack s0 = stack s -> base s0 = base s -> guard s0 = guard s -> (white s <> 2 -> cm = None) ->
    exists g, inside m' s' (g :: os) f fs /\ (white s <> 2 -> control g = None) /\ guard s' = guard s /\ (white s <> 2 -> white s' <> 2)) as K.
  { intros skip cm s0 E E1 E2 E3 N. unfold conditional_skip in E.
    exists {| type := TIf; succeeded := negb skip; control := cm |}.
    destruct skip; injection E as <- <-; (split; [|split; [exact N|split; [exact E3|cbn; auto]]]);
      (split; [cbn; rewrite E1, A; reflexivity|]); (split; [cbn; congruence|]); [|exact I].
    cbn. rewrite E1, A, app_length. cbn [List.length]. lia. }
  destruct m as [|d].
  - cbn [onestep] in H. destruct l; try discriminate; cbn [Cond_model.proc_line] in H.
    + destruct (eval c (st_env s)) as [e v]. destruct (K _ _ _ H eq_refl eq_refl eq_refl (fun _ => eq_refl)) as (g & G1 & G2 & G3 & G4).
      exists g. repeat split; auto; try apply G1; congruence.
    + destruct (K _ _ _ H eq_refl eq_refl eq_refl (fun _ => eq_refl)) as (g & G1 & G2 & G3 & G4).
      exists g. repeat split; auto; try apply G1; congruence.
    + assert (white s <> 2 -> (if (white s =? 2) && negb (defined n (st_env s)) then Some n else None) = None) as W.
      { intros W. apply Nat.eqb_neq in W. rewrite W. reflexivity. }
      destruct (K _ _ _ H eq_refl eq_refl eq_refl W) as (g & G1 & G2 & G3 & G4).
      exists g. repeat split; auto; try apply G1; congruence.
  - cbn [onestep] in H.
    assert (skip_line d l s = Some (set_stack ({| type := TIf; succeeded := false; control := None |} :: stack s) s)) as E
      by (destruct l; try discriminate; reflexivity).
    rewrite E in H. injection H as <- <-. exists {| type := TIf; succeeded := false; control := None |}.
    split; [|split; [reflexivity|split; [reflexivity|split; [cbn; auto|split; reflexivity]]]].
    split; [cbn; rewrite A; reflexivity|]. split; [exact B|]. cbn. lia.
Qed.

Lemma step_plain : forall m l r s os f fs m' s', inside m s os f fs -> plain l = true -> onestep m l r s = (m', s') ->
  inside m' s' os f fs /\ guard s' = guard s /\ m' = m /\ (m <> Proc -> st_env s' = st_env s) /\
  (match l with IncludeQuiet _ => False | _ => True end -> white s <> 2 -> white s' <> 2).
Proof.
  intros m l r s os f fs m' s' I O H. destruct m as [|d].
  - cbn [onestep] in H. destruct l; try discriminate; injection H as <- <-; repeat split; try apply I; cbn; auto; try congruence.
  - cbn [onestep] in H. rewrite skip_plain in H by exact O. injection H as <- <-. repeat split; try apply I; auto.
Qed.

(** #elif and #else of an inner conditional. *)
Lemma step_mid_inner : forall m l r s g os f fs m' s', inside m s (g :: os) f fs -> is_mid l = true -> onestep m l r s = (m', s') ->
  exists g', inside m' s' (g' :: os) f fs /\ (control g = None -> control g' = None) /\ guard s' = guard s /\
    (white s <> 2 -> white s' <> 2) /\ (m = Skip (S (List.length fs)) -> m' = m /\ st_env s' = st_env s).
Proof.
  intros m l r s g os f fs m' s' I O H. pose proof (inside_base _ _ _ _ _ I) as AB. destruct I as (A & B & C).
  cbn [app] in A.
  assert (proc_line l r s = (m', s') -> exists g', inside m' s' (g' :: os) f fs /\ (control g = None -> control g' = None) /\ guard s' = guard s /\
    (white s <> 2 -> white s' <> 2)) as P.
  { clear H. intros H.
    assert (forall s2 g', stack s2 = g' :: os ++ f :: fs -> base s2 = base s -> inside (skipping s2) s2 (g' :: os) f fs /\ inside Proc s2 (g' :: os) f fs) as X.
    { intros s2 g' E1 E2. split; (split; [exact E1|]); (split; [congruence|]); [|exact Logic.I].
      cbn [skipping]. rewrite E1. cbn [List.length]. rewrite app_length. cbn [List.length]. lia. }
    destruct l; try discriminate; cbn [Cond_model.proc_line] in H; rewrite A, AB in H.
    - destruct (succeeded g).
      + injection H as <- <-. exists {| type := TElif; succeeded := true; control := control g |}.
        destruct (not_else (type g)); (split; [apply X; reflexivity|split; [auto|split; [reflexivity|cbn; auto]]]).
      + destruct (eval c _) as [e v]. exists {| type := TElif; succeeded := v; control := control g |}.
        destruct v; injection H as <- <-; destruct (not_else (type g));
          (split; [apply X; reflexivity|split; [auto|split; [reflexivity|cbn; auto]]]).
    - exists {| type := TElse; succeeded := true; control := None |}.
      destruct (succeeded g); injection H as <- <-; destruct (not_else (type g));
        (split; [|split; [auto|split; [reflexivity|cbn; auto]]]); try (apply X; reflexivity).
      + apply (X (set_white 1 (set_stack ({| type := TElse; succeeded := true; control := None |} :: os ++ f :: fs) s))); reflexivity.
      + apply (X (set_white 1 (set_stack ({| type := TElse; succeeded := true; control := None |} :: os ++ f :: fs) (add_error s)))); reflexivity. }
  destruct m as [|d].
  - destruct (P H) as (g' & G1 & G2 & G3 & G4). exists g'. repeat split; auto; try apply G1; discriminate.
  - cbn [onestep] in H. destruct (skip_line d l s) as [s1|] eqn:E.
    + injection H as <- <-. destruct l; try discriminate; cbn [skip_line] in E; rewrite AB in E;
        (destruct (List.length (stack s) =? d) eqn:LD; [discriminate|]); apply Nat.eqb_neq in LD; rewrite A in E; injection E as <-.
      * exists {| type := TElif; succeeded := succeeded g; control := control g |}.
        destruct (not_else (type g)); repeat split; cbn; auto; try congruence; try lia; rewrite A in *; cbn [List.length] in *; lia.
      * exists {| type := TElse; succeeded := succeeded g; control := control g |}.
        destruct (not_else (type g)); repeat split; cbn; auto; try congruence; try lia; rewrite A in *; cbn [List.length] in *; lia.
    + destruct (P H) as (g' & G1 & G2 & G3 & G4). exists g'.
      split; [exact G1|]. split; [exact G2|]. split; [exact G3|]. split; [exact G4|].
      intros K. injection K as ->. exfalso.
      destruct l; try discriminate; cbn [skip_line] in E; rewrite AB in E;
        (destruct (List.length (stack s) =? S (List.length fs)) eqn:LD; [|rewrite A in E; discriminate]);
        apply Nat.eqb_eq in LD; rewrite A in LD; cbn [List.length] in LD; rewrite app_length in LD; cbn [List.length] in LD; lia.
Qed.

(** #endif of an inner conditional. *)
Lemma step_endif_inner : forall m r s g os f fs m' s', inside m s (g :: os) f fs -> onestep m Endif r s = (m', s') ->
  inside m' s' os f fs /\ (guard s' = guard s \/ exists n, control g = Some n /\ forallb is_blank r = true /\ guard s' = Some n) /\
  (white s <> 2 -> white s' <> 2) /\ (m = Skip (S (List.length fs)) -> m' = m /\ st_env s' = st_env s).
Proof.
  intros m r s g os f fs m' s' I H. pose proof (inside_base _ _ _ _ _ I) as AB. destruct I as (A & B & C).
  cbn [app] in A.
  assert (proc_line Endif r s = (m', s') -> inside m' s' os f fs /\
    (guard s' = guard s \/ exists n, control g = Some n /\ forallb is_blank r = true /\ guard s' = Some n) /\
    (white s <> 2 -> white s' <> 2)) as P.
  { clear H. intros H. cbn [Cond_model.proc_line] in H. rewrite A, AB in H. injection H as <- <-.
    destruct (control g) as [n|]; [destruct (forallb is_blank r)|]; (split; [split; [reflexivity|split; [exact B|exact Logic.I]]|]);
      (split; [|cbn; auto]); cbn; eauto. }
  destruct m as [|d].
  - destruct (P H) as (G1 & G2 & G3). repeat split; auto; try apply G1; discriminate.
  - cbn [onestep] in H. destruct (skip_line d Endif s) as [s1|] eqn:E.
    + injection H as <- <-. cbn [skip_line] in E. rewrite AB in E.
      destruct (List.length (stack s) =? d) eqn:LD; [discriminate|]. apply Nat.eqb_neq in LD. rewrite A in E; injection E as <-.
      repeat split; cbn; auto; rewrite A in *; cbn [List.length] in *; lia.
    + destruct (P H) as (G1 & G2 & G3). split; [exact G1|]. split; [exact G2|]. split; [exact G3|].
      intros K. injection K as ->. exfalso. cbn [skip_line] in E. rewrite AB in E.
      destruct (List.length (stack s) =? S (List.length fs)) eqn:LD; [|rewrite A in E; discriminate].
      apply Nat.eqb_eq in LD. rewrite A in LD. cbn [List.length] in LD. rewrite app_length in LD. cbn [List.length] in LD. lia.
Qed.

(** Directives of the conditional itself. *)
Lemma step_found : forall m l r s f fs, inside m s [] f fs -> is_mid l = true \/ l = Endif ->
  onestep m l r s = proc_line l r s.
Proof.
  intros [|d] l r s f fs I H; [reflexivity|]. pose proof (inside_base _ _ _ _ _ I) as AB. destruct I as (A & B & C).
  cbn [app] in A. cbn [onestep]. rewrite A in C. cbn [List.length] in C. assert (d = S (List.length fs)) as -> by lia.
  destruct H as [H| ->]; [destruct l; try discriminate|]; cbn [skip_line]; rewrite AB, A; cbn [List.length]; rewrite Nat.eqb_refl; reflexivity.
Qed.

Lemma step_mid_own : forall m l r s f fs m' s', inside m s [] f fs -> is_mid l = true -> onestep m l r s = (m', s') ->
  exists f', inside m' s' [] f' fs /\ control f' = match l with Elif _ => control f | _ => None end /\ guard s' = guard s /\
    (white s <> 2 -> white s' <> 2).
Proof.
  intros m l r s f fs m' s' I O H. rewrite (step_found _ _ _ _ _ _ I) in H by auto.
  pose proof (inside_base _ _ _ _ _ I) as AB. destruct I as (A & B & C). cbn [app] in A.
  assert (forall s2 g', stack s2 = g' :: fs -> base s2 = base s -> inside (skipping s2) s2 [] g' fs /\ inside Proc s2 [] g' fs) as X.
  { intros s2 g' E1 E2. split; (split; [exact E1|]); (split; [congruence|]); [|exact Logic.I].
    cbn [skipping]. rewrite E1. cbn [List.length]. lia. }
  destruct l; try discriminate; cbn [Cond_model.proc_line] in H; rewrite A, AB in H.
  - destruct (succeeded f).
    + injection H as <- <-. exists {| type := TElif; succeeded := true; control := control f |}.
      destruct (not_else (type f)); (split; [apply X; reflexivity|split; [auto|split; [reflexivity|cbn; auto]]]).
    + destruct (eval c _) as [e v]. exists {| type := TElif; succeeded := v; control := control f |}.
      destruct v; injection H as <- <-; destruct (not_else (type f));
        (split; [apply X; reflexivity|split; [auto|split; [reflexivity|cbn; auto]]]).
  - exists {| type := TElse; succeeded := true; control := None |}.
    destruct (succeeded f); injection H as <- <-; destruct (not_else (type f));
      (split; [|split; [auto|split; [reflexivity|cbn; auto]]]); try (apply X; reflexivity).
    + apply (X (set_white 1 (set_stack ({| type := TElse; succeeded := true; control := None |} :: fs) s))); reflexivity.
    + apply (X (set_white 1 (set_stack ({| type := TElse; succeeded := true; control := None |} :: fs) (add_error s)))); reflexivity.
Qed.

Lemma step_endif_own : forall m r s f fs, inside m s [] f fs ->
  onestep m Endif r s = (Proc, match control f with
                               | Some n => if forallb is_blank r then set_guard (Some n) (set_stack fs s) else set_stack fs s
                               | None => set_stack fs s
                               end).
Proof.
  intros m r s f fs I. rewrite (step_found _ _ _ _ _ _ I) by auto. pose proof (inside_base _ _ _ _ _ I) as AB.
  destruct I as (A & B & C). cbn [app] in A. cbn [Cond_model.proc_line]. rewrite A, AB. reflexivity.
Qed.

Lemma chain_not_blank : forall ls k x, chain k ls = Some x -> forallb (@is_blank line cond name) ls = false.
Proof.
  induction ls as [|l ls IH]; intros k x H; [discriminate|]. destruct l; try reflexivity.
  cbn [forallb is_blank]. apply (IH k x). exact H.
Qed.

Lemma chain_mid_inner : forall l r k c after, is_mid l = true -> chain (S k) (l :: r) = Some (c, after) -> chain (S k) r = Some (c, after).
Proof.
  intros l r k c after M H. destruct l; try discriminate; cbn [chain] in H;
    destruct (chain (S k) r) as [[c' a']|]; try discriminate; injection H as <- <-; reflexivity.
Qed.
Lemma chain_mid_own : forall l r c after, is_mid l = true -> chain 0 (l :: r) = Some (c, after) -> exists c', c = l :: c' /\ chain 0 r = Some (c', after).
Proof.
  intros l r c after M H. destruct l; try discriminate; cbn [chain] in H;
    destruct (chain 0 r) as [[c' a']|]; try discriminate; injection H as <- <-; eauto.
Qed.

(** Reading up to the #endif of a conditional without #elif and #else of its own. *)
Lemma to_endif : forall ls m s os f fs after, inside m s os f fs -> chain (List.length os) ls = Some ([], after) ->
  exists s', run m ls s = run Proc (Endif :: after) s' /\ inside Proc s' [] f fs /\ guard s' = guard s /\
    (m = Skip (S (List.length fs)) -> st_env s' = st_env s).
Proof.
  induction ls as [|l ls IH]; intros m s os f fs after I C; [discriminate|].
  rewrite run_onestep. destruct (onestep m l ls s) as [m' s1] eqn:E.
  destruct (plain l) eqn:PL.
  { destruct (step_plain _ _ _ _ _ _ _ _ _ I PL E) as (I' & G & -> & EN & _).
    destruct (IH m s1 os f fs after I') as (s' & R & I2 & G2 & EN2); [destruct l; try discriminate; exact C|].
    exists s'. split; [exact R|]. split; [exact I2|]. split; [congruence|]. intros K. rewrite EN2, EN; congruence. }
  destruct (is_open l) eqn:OP.
  { destruct (step_open _ _ _ _ _ _ _ _ _ I OP E) as (g & I' & _ & G & _ & EN).
    destruct (IH m' s1 (g :: os) f fs after I') as (s' & R & I2 & G2 & EN2); [destruct l; try discriminate; exact C|].
    exists s'. split; [exact R|]. split; [exact I2|]. split; [congruence|]. intros K. destruct EN as [-> EN]; [congruence|].
    rewrite EN2; congruence. }
  destruct (is_mid l) eqn:MD.
  { destruct os as [|g os].
    - exfalso. destruct (chain_mid_own _ _ _ _ MD C) as (c' & X & _). discriminate.
    - cbn [List.length] in C. apply chain_mid_inner in C; [|exact MD].
      destruct (step_mid_inner _ _ _ _ _ _ _ _ _ _ I MD E) as (g' & I' & _ & G & _ & EN).
      destruct (IH m' s1 (g' :: os) f fs after I' C) as (s' & R & I2 & G2 & EN2).
      exists s'. split; [exact R|]. split; [exact I2|]. split; [congruence|]. intros K. destruct (EN K) as [-> EN'].
      rewrite EN2; congruence. }
  assert (l = Endif) as -> by (destruct l; try discriminate; reflexivity).
  destruct os as [|g os].
  - cbn [chain List.length] in C. injection C as <-.
    exists s. split.
    + rewrite run_proc. rewrite <- (step_found m Endif ls s f fs I) by auto. rewrite E. reflexivity.
    + destruct I as (A & B & _). repeat split; auto.
  - cbn [chain List.length] in C.
    destruct (step_endif_inner _ _ _ _ _ _ _ _ _ I E) as (I' & G & _ & EN).
    assert (guard s1 = guard s) as G'.
    { destruct G as [G|(n & _ & BL & _)]; [exact G|]. rewrite (chain_not_blank _ _ _ C) in BL. discriminate. }
    destruct (IH m' s1 os f fs after I' C) as (s' & R & I2 & G2 & EN2).
    exists s'. split; [exact R|]. split; [exact I2|]. split; [congruence|]. intros K. destruct (EN K) as [-> EN'].
    rewrite EN2; congruence.
Qed.

Lemma run_blanks : forall ls s, forallb (@is_blank line cond name) ls = true -> run Proc ls s = s.
Proof.
  induction ls as [|l ls IH]; intros s H; [reflexivity|]. cbn [forallb] in H. apply andb_true_iff in H.
  destruct H as [H1 H2]. destruct l; try discriminate. rewrite run_proc. apply IH. exact H2.
Qed.
Lemma run_blanks_app : forall bl ls s, forallb (@is_blank line cond name) bl = true -> run Proc (bl ++ ls) s = run Proc ls s.
Proof.
  induction bl as [|l bl IH]; intros ls s H; [reflexivity|]. cbn [forallb] in H. apply andb_true_iff in H.
  destruct H as [H1 H2]. destruct l; try discriminate. rewrite <- app_comm_cons, run_proc. apply IH. exact H2.
Qed.

Lemma guarded_first : forall n ls e fs, guarded n ls -> defined n e = false ->
  guard (read_file exec eval defined e fs ls) = Some n.
Proof.
  intros n ls e fs (before & rest & after & -> & B1 & C & B2) D. unfold read_file.
  rewrite run_blanks_app by exact B1. rewrite run_proc. cbn [Cond_model.proc_line enter st_env white].
  rewrite D. cbn [Nat.eqb negb andb]. unfold conditional_skip.
  set (f := {| type := TIf; succeeded := negb false; control := Some n |}). set (s1 := set_white 1 _).
  assert (inside Proc s1 [] f fs) as I by (repeat split; reflexivity).
  destruct (to_endif rest Proc s1 [] f fs after I C) as (s' & R & I2 & G2 & _).
  rewrite R, run_onestep, (step_endif_own _ _ _ _ _ I2). cbn [f control]. rewrite B2, run_blanks by exact B2. reflexivity.
Qed.

Lemma guarded_again : forall n ls e fs, guarded n ls -> defined n e = true ->
  let s := read_file exec eval defined e fs ls in st_env s = e /\ stack s = fs.
Proof.
  intros n ls e fs (before & rest & after & -> & B1 & C & B2) D. unfold read_file.
  rewrite run_blanks_app by exact B1. rewrite run_proc. cbn [Cond_model.proc_line enter st_env white].
  rewrite D. cbn [Nat.eqb negb andb]. unfold conditional_skip.
  set (f := {| type := TIf; succeeded := negb true; control := None |}). set (s1 := set_white 1 _).
  assert (inside (skipping s1) s1 [] f fs) as I.
  { repeat split; cbn; lia. }
  destruct (to_endif rest (skipping s1) s1 [] f fs after I C) as (s' & R & I2 & G2 & EN).
  rewrite R, run_onestep, (step_endif_own _ _ _ _ _ I2). cbn [f control]. rewrite run_blanks by exact B2.
  split; [exact (EN eq_refl)|reflexivity].
Qed.

(** Soundness of the recognition. *)
Definition no_quiet_include (ls : list (src line cond name)) : bool :=
  forallb (fun l => match l with IncludeQuiet _ => false | _ => true end) ls.

Definition no_control (os : list frame) : Prop := Forall (fun g => control g = None) os.

Lemma no_control_guard : forall ls m s os fs, stack s = os ++ fs -> base s = List.length fs -> no_control os ->
  match m with Proc => True | Skip d => List.length fs < d <= List.length (stack s) end ->
  white s <> 2 -> no_quiet_include ls = true -> guard (run m ls s) = guard s.
Proof.
  induction ls as [|l ls IH]; intros m s os fs A B N M W Q; [reflexivity|].
  cbn [no_quiet_include forallb] in Q. apply andb_true_iff in Q. destruct Q as [Q1 Q2].
  rewrite run_onestep. destruct (onestep m l ls s) as [m' s1] eqn:E.
  (* outside any conditional of the file, or inside the outermost one *)
  destruct os as [|g os] using rev_ind; [|clear IHos].
  - destruct m as [|d]; [|exfalso; rewrite A in M; cbn [app] in M; lia]. cbn [onestep] in E.
    assert (at_base s = true) as AB by (unfold at_base; rewrite A, B; apply Nat.eqb_refl).
    assert (is_mid l = true \/ l = Endif -> proc_line l ls s = (Proc, add_error s)) as OUT.
    { intros H. apply outside; auto. destruct H as [H| ->]; auto. destruct l; try discriminate; exact I. }
    destruct (is_open l) eqn:OP.
    + assert (forall skip s0, conditional_skip skip None s0 = (m', s1) -> stack s0 = stack s -> base s0 = base s -> guard s0 = guard s ->
        guard (run m' ls s1) = guard s) as K.
      { intros skip s0 H E1 E2 E3. unfold conditional_skip in H.
        set (g := {| type := TIf; succeeded := negb skip; control := None |}) in *.
        destruct skip; injection H as <- <-;
          (rewrite (IH _ _ [g] fs);
           [exact E3|cbn; rewrite E1, A; reflexivity|cbn; congruence|constructor; [reflexivity|constructor]| |cbn; lia|exact Q2]);
          [cbn; rewrite E1, A; cbn; lia|exact I]. }
      destruct l; try discriminate; cbn [Cond_model.proc_line] in E.
      * destruct (eval c (st_env s)) as [e v]. exact (K _ _ E eq_refl eq_refl eq_refl).
      * exact (K _ _ E eq_refl eq_refl eq_refl).
      * apply Nat.eqb_neq in W. rewrite W in E. cbn [andb] in E. exact (K _ _ E eq_refl eq_refl eq_refl).
    + destruct (is_mid l) eqn:MD.
      * rewrite OUT in E by auto. injection E as <- <-. rewrite (IH Proc _ [] fs); auto.
      * destruct (plain l) eqn:PL.
        -- destruct l; try discriminate; injection E as <- <-; (rewrite (IH Proc _ [] fs); [reflexivity|exact A|exact B|constructor|exact I| |exact Q2]); cbn; auto.
        -- assert (l = Endif) as -> by (destruct l; try discriminate; reflexivity).
           rewrite OUT in E by auto. injection E as <- <-. rewrite (IH Proc _ [] fs); auto.
  - rewrite <- app_assoc in A. cbn [app] in A. apply Forall_app in N. destruct N as [N1 N2]. inversion N2; subst. clear N2.
    assert (inside m s os g fs) as IN by (split; [exact A|split; [exact B|exact M]]).
    assert (forall os' g', inside m' s1 os' g' fs -> no_control os' -> control g' = None -> white s1 <> 2 -> guard s1 = guard s ->
              guard (run m' ls s1) = guard s) as K.
    { intros os' g' (I1 & I2 & I3) C1 C2 W1 G. rewrite (IH m' s1 (os' ++ [g']) fs); auto.
      - rewrite <- app_assoc. exact I1.
      - apply Forall_app. split; [exact C1|constructor; [exact C2|constructor]]. }
    destruct (is_open l) eqn:OP.
    { destruct (step_open _ _ _ _ _ _ _ _ _ IN OP E) as (g1 & I' & C1 & G & W1 & _).
      apply (K (g1 :: os) g); auto. constructor; auto. }
    destruct (plain l) eqn:PL.
    { destruct (step_plain _ _ _ _ _ _ _ _ _ IN PL E) as (I' & G & _ & _ & W1).
      apply (K os g); auto. apply W1; auto. destruct l; auto; discriminate. }
    destruct (is_mid l) eqn:MD.
    { destruct os as [|g1 os].
      - destruct (step_mid_own _ _ _ _ _ _ _ _ IN MD E) as (f' & I' & C1 & G & W1).
        apply (K [] f'); auto. rewrite C1. destruct l; auto.
      - destruct (step_mid_inner _ _ _ _ _ _ _ _ _ _ IN MD E) as (g' & I' & C1 & G & W1 & _).
        inversion N1; subst. apply (K (g' :: os) g); auto. constructor; auto. }
    assert (l = Endif) as -> by (destruct l; try discriminate; reflexivity).
    destruct os as [|g1 os].
    + rewrite (step_endif_own _ _ _ _ _ IN) in E. rewrite H1 in E. injection E as <- <-.
      rewrite (IH Proc _ [] fs); auto; try reflexivity.
    + destruct (step_endif_inner _ _ _ _ _ _ _ _ _ IN E) as (I' & G & W1 & _). inversion N1; subst.
      apply (K os g); auto. destruct G as [G|(n & C1 & _)]; [exact G|congruence].
Qed.

Lemma track_guard : forall ls m s os f fs n k, inside m s os f fs -> no_control os -> control f = Some n ->
  white s <> 2 -> no_quiet_include ls = true -> guard s = None -> guard (run m ls s) = Some k ->
  k = n /\ exists c after, chain (List.length os) ls = Some (c, after) /\ ~ In Else c /\ forallb is_blank after = true.
Proof.
  induction ls as [|l ls IH]; intros m s os f fs n k IN N C W Q G R; [cbn in R; congruence|].
  cbn [no_quiet_include forallb] in Q. apply andb_true_iff in Q. destruct Q as [Q1 Q2].
  rewrite run_onestep in R. destruct (onestep m l ls s) as [m' s1] eqn:E.
  destruct (plain l) eqn:PL.
  { destruct (step_plain _ _ _ _ _ _ _ _ _ IN PL E) as (I' & G' & _ & _ & W1).
    destruct (IH m' s1 os f fs n k) as (K1 & c & after & K2 & K3 & K4); auto.
    { apply W1; auto. destruct l; auto; discriminate. }
    { congruence. }
    split; [exact K1|]. exists c, after. split; [destruct l; try discriminate; exact K2|auto]. }
  destruct (is_open l) eqn:OP.
  { destruct (step_open _ _ _ _ _ _ _ _ _ IN OP E) as (g1 & I' & C1 & G' & W1 & _).
    destruct (IH m' s1 (g1 :: os) f fs n k) as (K1 & c & after & K2 & K3 & K4); auto.
    { constructor; auto. }
    { congruence. }
    split; [exact K1|]. exists c, after. split; [destruct l; try discriminate; exact K2|auto]. }
  destruct (is_mid l) eqn:MD.
  { destruct os as [|g1 os].
    - destruct (step_mid_own _ _ _ _ _ _ _ _ IN MD E) as (f' & I' & C1 & G' & W1).
      destruct l; try discriminate.
      + destruct (IH m' s1 [] f' fs n k) as (K1 & c' & after & K2 & K3 & K4); auto.
        { congruence. }
        { congruence. }
        split; [exact K1|]. exists (Elif c :: c'), after. cbn [List.length] in *. split; [cbn [chain]; rewrite K2; reflexivity|].
        split; [|exact K4]. intros [X|X]; [discriminate|auto].
      + exfalso. destruct I' as (A1 & A2 & A3).
        rewrite (no_control_guard ls m' s1 [f'] fs) in R; auto; try congruence.
        constructor; [exact C1|constructor].
    - destruct (step_mid_inner _ _ _ _ _ _ _ _ _ _ IN MD E) as (g' & I' & C1 & G' & W1 & _).
      inversion N; subst. destruct (IH m' s1 (g' :: os) f fs n k) as (K1 & c & after & K2 & K3 & K4); auto.
      { constructor; auto. }
      { congruence. }
      split; [exact K1|]. exists c, after. split; [|auto]. cbn [List.length] in *.
      destruct l; try discriminate; cbn [chain]; rewrite K2; reflexivity. }
  assert (l = Endif) as -> by (destruct l; try discriminate; reflexivity).
  destruct os as [|g1 os].
  - rewrite (step_endif_own _ _ _ _ _ IN), C in E. injection E as <- <-. cbn [chain List.length].
    destruct (forallb is_blank ls) eqn:BL.
    + rewrite run_blanks in R by exact BL. cbn in R. injection R as ->. split; [reflexivity|].
      exists [], ls. split; [reflexivity|]. split; [intros []|exact BL].
    + exfalso. destruct IN as (A1 & A2 & A3). rewrite (no_control_guard ls Proc _ [] fs) in R; cbn; auto. cbn in R. congruence.
  - destruct (step_endif_inner _ _ _ _ _ _ _ _ _ IN E) as (I' & G' & W1 & _). inversion N; subst.
    destruct (IH m' s1 os f fs n k) as (K1 & c & after & K2 & K3 & K4); auto.
    { destruct G' as [G'|(n' & C1 & _)]; [congruence|congruence]. }
    split; [exact K1|]. exists c, after. split; [exact K2|auto].
Qed.

Lemma recorded_guarded : forall ls e fs n before m rest,
  guard (read_file exec eval defined e fs ls) = Some n ->
  ls = before ++ Ifndef m :: rest -> forallb is_blank before = true ->
  no_quiet_include rest = true ->
  (forall c after x, chain 0 rest = Some (c, after) -> ~ In (Elif x) c) ->
  guarded n ls /\ defined n e = false.
Proof.
  intros ls e fs n before m rest R -> B Q NE. unfold read_file in R. rewrite run_blanks_app in R by exact B.
  rewrite run_proc in R. cbn [Cond_model.proc_line enter st_env white] in R. unfold conditional_skip in R.
  destruct (defined m e) eqn:D; cbn [Nat.eqb negb andb] in R.
  - exfalso. rewrite (no_control_guard rest _ _ [{| type := TIf; succeeded := false; control := None |}] fs) in R; cbn; auto; try lia.
    + discriminate.
    + constructor; [reflexivity|constructor].
  - set (f := {| type := TIf; succeeded := true; control := Some m |}) in *.
    match type of R with guard (Cond_model.run _ _ _ _ _ ?s1) = _ => destruct (track_guard rest Proc s1 [] f fs m n) as (-> & c & after & C & N & BL) end; auto.
    { repeat split; reflexivity. }
    { constructor. }
    split; [|exact D]. exists before, rest, after. cbn [List.length] in C.
    assert (c = []) as ->.
    { destruct c as [|x c]; [reflexivity|]. exfalso.
      assert (forall ls k c after, chain k ls = Some (c, after) -> Forall (fun y => is_mid y = true) c) as X.
      { clear. induction ls as [|l ls IH]; intros k c after H; [discriminate|].
        destruct l; cbn [chain] in H; try (eapply IH; exact H).
        - destruct (chain k ls) as [[c' a']|] eqn:K; [|discriminate]. injection H as <- <-.
          pose proof (IH _ _ _ K). destruct k; auto.
        - destruct (chain k ls) as [[c' a']|] eqn:K; [|discriminate]. injection H as <- <-.
          pose proof (IH _ _ _ K). destruct k; auto.
        - destruct k; [injection H as <- <-; constructor|eapply IH; exact H]. }
      specialize (X _ _ _ _ C). inversion X; subst. destruct x; try discriminate.
      - apply (NE _ _ c0 C). left. reflexivity.
      - apply N. left. reflexivity. }
    auto.
Qed.

End Proofs.
