(** Proofs about flag settings. *)
From Verif Require Import Cbase Cbase_facts Flagtab_model Flagset_model Flagset_spec.

Lemma upd_same : forall A (m : Z -> A) k v, upd m k v k = v.
Proof. intros. unfold upd. rewrite Z.eqb_refl. reflexivity. Qed.
Lemma upd_other : forall A (m : Z -> A) k v x, x <> k -> upd m k v x = m x.
Proof. intros A m k v x H. unfold upd. destruct (x =? k) eqn:E; [apply Z.eqb_eq in E; contradiction|reflexivity]. Qed.

(** * What a setting assigns *)
Definition apply_assigns (m : Z -> bool) (l : list (Z * bool)) : Z -> bool := fold_left (fun m p => upd m (fst p) (snd p)) l m.

Lemma dosets_flags : forall i l c b, flags (dosets i c b l) = apply_assigns (flags c) (map (fun f => (f, b)) l).
Proof. intros i. induction l as [|f l IH]; intros c b; [reflexivity|]. cbn. fold (dosets i (doset i c f b) b l). rewrite IH. reflexivity. Qed.
Lemma dosets_rest : forall i l c b, saveflags (dosets i c b l) = saveflags c /\ savedFlags (dosets i c b l) = savedFlags c /\
  setGlobally (dosets i c b l) = setGlobally c /\ values (dosets i c b l) = values c.
Proof. intros i. induction l as [|f l IH]; intros c b; [auto|]. cbn. fold (dosets i (doset i c f b) b l). destruct (IH (doset i c f b) b) as (A & B & C & D). rewrite A, B, C, D. auto. Qed.
Lemma set_limits_rest : forall l c, flags (set_limits c l) = flags c /\ saveflags (set_limits c l) = saveflags c /\
  savedFlags (set_limits c l) = savedFlags c /\ setGlobally (set_limits c l) = setGlobally c.
Proof. induction l as [|p l IH]; intros c; [auto|]. cbn. fold (set_limits (setv c (fst p) (snd p)) l). destruct (IH (setv c (fst p) (snd p))) as (A & B & C & D). rewrite A, B, C, D. auto. Qed.

(** The flags set by the switch, given whether external and internal names are distinct. *)
Definition switch_assigns (ext int : bool) (f : Z) (b : bool) : list (Z * bool) :=
  if f =? FLG_ANSI89LIMITS then map (fun f => (f, b)) (group f)
  else if f =? FLG_ISO99LIMITS then map (fun f => (f, b)) (group f)
  else if f =? FLG_EXTERNALNAMELEN then [(FLG_DISTINCTEXTERNALNAMES, true); (FLG_EXTERNALNAMELEN, true)]
  else if f =? FLG_INTERNALNAMELEN then [(FLG_DISTINCTINTERNALNAMES, true); (FLG_INTERNALNAMELEN, true)]
  else if f =? FLG_EXTERNALNAMECASEINSENSITIVE then (f, b) :: if b && negb ext then [(FLG_DISTINCTEXTERNALNAMES, true)] else []
  else if f =? FLG_INTERNALNAMECASEINSENSITIVE then (f, b) :: if b && negb int then [(FLG_DISTINCTINTERNALNAMES, true)] else []
  else if f =? FLG_INTERNALNAMELOOKALIKE then (f, b) :: if b && negb int then [(FLG_DISTINCTINTERNALNAMES, true)] else []
  else if f =? FLG_PARTIAL then
    if b then map (fun f => (f, false)) [FLG_EXPORTLOCAL; FLG_DECLUNDEF; FLG_SPECUNDEF; FLG_TOPUNUSED] else []
  else if f =? FLG_CZECH then
    (if b then [(FLG_ACCESSCZECH, b)] else []) ++ map (fun f => (f, b)) [FLG_CZECHFUNCTIONS; FLG_CZECHVARS; FLG_CZECHCONSTANTS; FLG_CZECHTYPES]
  else if f =? FLG_SLOVAK then
    (if b then [(FLG_ACCESSSLOVAK, b)] else []) ++ map (fun f => (f, b)) [FLG_SLOVAKFUNCTIONS; FLG_SLOVAKVARS; FLG_SLOVAKCONSTANTS; FLG_SLOVAKTYPES]
  else if f =? FLG_CZECHOSLOVAK then
    (if b then [(FLG_ACCESSCZECHOSLOVAK, b)] else []) ++ map (fun f => (f, b)) [FLG_CZECHOSLOVAKFUNCTIONS; FLG_CZECHOSLOVAKVARS; FLG_CZECHOSLOVAKCONSTANTS; FLG_CZECHOSLOVAKTYPES]
  else map (fun f => (f, b)) (group f).
Definition assigns (ext int : bool) (f : Z) (b : bool) : list (Z * bool) :=
  (f, if has isIdem f then true else b) :: map (fun f => (f, b)) (if b then its4_on f else its4_off f) ++ switch_assigns ext int f b.

Lemma apply_app : forall l k m, apply_assigns m (l ++ k) = apply_assigns (apply_assigns m l) k.
Proof. intros. apply fold_left_app. Qed.
Lemma names_flags : forall i c f b d len, d <> f ->
  flags (names_case i c f b d len) = apply_assigns (flags c) ((f, b) :: if b && negb (flags c d) then [(d, true)] else []).
Proof.
  intros i c f b d len N. unfold names_case. cbn [flags doset]. rewrite upd_other by exact N.
  destruct (b && negb (flags c d)); reflexivity.
Qed.
Lemma names_rest : forall i c f b d len, saveflags (names_case i c f b d len) = saveflags c /\
  savedFlags (names_case i c f b d len) = savedFlags c /\ setGlobally (names_case i c f b d len) = setGlobally c.
Proof. intros. unfold names_case. destruct (b && negb _); auto. Qed.

Lemma switch_flags : forall i c f b, flags (switch_case i c f b) =
  apply_assigns (flags c) (switch_assigns (flags c FLG_DISTINCTEXTERNALNAMES) (flags c FLG_DISTINCTINTERNALNAMES) f b).
Proof.
  intros i c f b. unfold switch_case, switch_assigns.
  repeat match goal with
  | |- context [if f =? ?k then _ else _] => destruct (Z.eqb_spec f k) as [->|]
  end;
  try (rewrite dosets_flags; reflexivity);
  try (apply names_flags; discriminate).
  - destruct b; [rewrite (proj1 (set_limits_rest _ _))|]; apply dosets_flags.
  - destruct b; [rewrite (proj1 (set_limits_rest _ _))|]; apply dosets_flags.
  - destruct b; [apply dosets_flags|reflexivity].
  - rewrite dosets_flags, apply_app. destruct b; reflexivity.
  - rewrite dosets_flags, apply_app. destruct b; reflexivity.
  - rewrite dosets_flags, apply_app. destruct b; reflexivity.
Qed.
Definition rest_kept (c c' : ctx) : Prop := saveflags c' = saveflags c /\ savedFlags c' = savedFlags c /\ setGlobally c' = setGlobally c.
Lemma dosets_kept : forall i c b l, rest_kept c (dosets i c b l).
Proof. intros i c b l. destruct (dosets_rest i l c b) as (A & B & C & _). repeat split; assumption. Qed.
Lemma kept_trans : forall a b c, rest_kept a b -> rest_kept b c -> rest_kept a c.
Proof. intros a b c (A & B & C) (D & E & F). unfold rest_kept. rewrite D, E, F. auto. Qed.
Lemma switch_rest : forall i c f b, rest_kept c (switch_case i c f b).
Proof.
  intros i c f b. unfold switch_case.
  repeat match goal with |- context [if f =? ?k then _ else _] => destruct (Z.eqb_spec f k) as [->|] end;
  try apply dosets_kept; try apply names_rest.
  - destruct b; [|apply dosets_kept]. eapply kept_trans; [apply dosets_kept|]. apply set_limits_rest.
  - destruct b; [|apply dosets_kept]. eapply kept_trans; [apply dosets_kept|]. apply set_limits_rest.
  - destruct b; [apply dosets_kept|repeat split].
  - eapply kept_trans; [|apply dosets_kept]. destruct b; repeat split.
  - eapply kept_trans; [|apply dosets_kept]. destruct b; repeat split.
  - eapply kept_trans; [|apply dosets_kept]. destruct b; repeat split.
Qed.

(** Setting a flag is its list of assignments; the settings of names are not among the first. *)
Lemma its4_not_names : forall f (b : bool) g, In g (if b then its4_on f else its4_off f) -> g <> FLG_DISTINCTEXTERNALNAMES /\ g <> FLG_DISTINCTINTERNALNAMES.
Proof.
  intros f b g. unfold its4_on, its4_off.
  destruct b; repeat match goal with |- context [if f =? ?k then _ else _] => destruct (f =? k) end; cbn [In];
  intros H; repeat (destruct H as [<-|H]; [split; discriminate|]); destruct H.
Qed.
Lemma apply_notin : forall l m x, ~ In x (map fst l) -> apply_assigns m l x = m x.
Proof.
  induction l as [|p l IH]; intros m x H; [reflexivity|]. cbn [apply_assigns fold_left]. change (apply_assigns (upd m (fst p) (snd p)) l x = m x).
  rewrite IH by (intros I; apply H; right; exact I). apply upd_other. intros ->. apply H. left. reflexivity.
Qed.
Lemma switch_assigns_names : forall e i e' i' f b,
  f <> FLG_EXTERNALNAMECASEINSENSITIVE -> f <> FLG_INTERNALNAMECASEINSENSITIVE -> f <> FLG_INTERNALNAMELOOKALIKE ->
  switch_assigns e i f b = switch_assigns e' i' f b.
Proof.
  intros e i e' i' f b N1 N2 N3. unfold switch_assigns.
  repeat match goal with |- context [if f =? ?k then _ else _] => destruct (Z.eqb_spec f k) as [->|] end; try reflexivity; contradiction.
Qed.
Theorem set_flags_assigns : forall c f b i,
  flags (set_flag_aux c f b i) = apply_assigns (flags c) (assigns (flags c FLG_DISTINCTEXTERNALNAMES) (flags c FLG_DISTINCTINTERNALNAMES) f b).
Proof.
  intros c f b i. unfold set_flag_aux. rewrite switch_flags, dosets_flags. unfold assigns.
  cbn [apply_assigns fold_left fst snd]. rewrite fold_left_app. fold (apply_assigns (upd (flags c) f (if has isIdem f then true else b))
    (map (fun f0 : Z => (f0, b)) (if b then its4_on f else its4_off f))). unfold apply_assigns at 1 4. f_equal.
  destruct (Z.eq_dec f FLG_EXTERNALNAMECASEINSENSITIVE) as [->|N1]; [destruct b; reflexivity|].
  destruct (Z.eq_dec f FLG_INTERNALNAMECASEINSENSITIVE) as [->|N2]; [destruct b; reflexivity|].
  destruct (Z.eq_dec f FLG_INTERNALNAMELOOKALIKE) as [->|N3]; [destruct b; reflexivity|].
  apply switch_assigns_names; assumption.
Qed.
Theorem set_flag_rest : forall c f b i, rest_kept c (set_flag_aux c f b i).
Proof.
  intros c f b i. unfold set_flag_aux. eapply kept_trans; [|apply switch_rest]. eapply kept_trans; [|apply dosets_kept]. repeat split.
Qed.

(** * Assignments looked up *)
Fixpoint last_assign (l : list (Z * bool)) (x : Z) : option bool :=
  match l with
  | [] => None
  | p :: l => match last_assign l x with Some b => Some b | None => if x =? fst p then Some (snd p) else None end
  end.
Lemma apply_last : forall l m x, apply_assigns m l x = match last_assign l x with Some b => b | None => m x end.
Proof.
  induction l as [|p l IH]; intros m x; [reflexivity|]. change (apply_assigns m (p :: l) x) with (apply_assigns (upd m (fst p) (snd p)) l x).
  rewrite IH. cbn [last_assign]. destruct (last_assign l x); [reflexivity|]. unfold upd. destruct (x =? fst p); reflexivity.
Qed.

(** * Entries *)
Fixpoint distinct_codes (l : list fflag) : bool :=
  match l with [] => true | f :: r => negb (existsb (fun g => fcode g =? fcode f) r) && distinct_codes r end.
Lemma find_distinct : forall l e, distinct_codes l = true -> In e l -> List.find (fun x => fcode x =? fcode e) l = Some e.
Proof.
  induction l as [|h l IH]; intros e D I; [destruct I|]. cbn in D. apply andb_true_iff in D. destruct D as [D1 D2].
  apply negb_true_iff in D1. cbn. destruct (fcode h =? fcode e) eqn:E.
  - destruct I as [<-|I]; [reflexivity|]. exfalso. assert (existsb (fun g => fcode g =? fcode h) l = true); [|congruence].
    apply existsb_exists. exists e. split; [exact I|]. rewrite Z.eqb_sym. exact E.
  - destruct I as [<-|I]; [rewrite Z.eqb_refl in E; discriminate|]. apply IH; assumption.
Qed.
Lemma entry_in : forall e, In e flag_table -> entry (fcode e) = Some e.
Proof. intros e I. unfold entry. apply find_distinct; [vm_compute; reflexivity|exact I]. Qed.
Lemma has_in : forall p e, In e flag_table -> has p (fcode e) = p e.
Proof. intros p e I. unfold has. rewrite entry_in by exact I. reflexivity. Qed.

(** * Modes *)
Definition unconditional (f : Z) : bool :=
  negb (existsb (Z.eqb f) [FLG_EXTERNALNAMECASEINSENSITIVE; FLG_INTERNALNAMECASEINSENSITIVE; FLG_INTERNALNAMELOOKALIKE]).
Lemma unconditional_assigns : forall e i f b, unconditional f = true -> assigns e i f b = assigns true true f b.
Proof.
  intros e i f b U. unfold unconditional in U. cbn in U. apply negb_true_iff in U. rewrite !orb_false_iff, !Z.eqb_neq in U.
  unfold assigns. rewrite (switch_assigns_names e i true true) by apply U. reflexivity.
Qed.
Definition codes_of_modes : list Z := map fcode (filter isModeFlag flag_table).
Definition mode_assigns (m : mode) : list (Z * bool) :=
  List.concat (map (fun f => assigns true true f false) codes_of_modes) ++ List.concat (map (fun f => assigns true true f true) (mode_flags m)).

Lemma fold_assigns : forall l b c, forallb unconditional l = true ->
  flags (fold_left (fun c f => set_flag c f b) l c) = apply_assigns (flags c) (List.concat (map (fun f => assigns true true f b) l)).
Proof.
  induction l as [|f l IH]; intros b c U; [reflexivity|]. cbn [forallb] in U. apply andb_true_iff in U. destruct U as [U1 U2].
  cbn [fold_left map List.concat]. rewrite IH by exact U2. rewrite apply_app. unfold set_flag. rewrite set_flags_assigns.
  rewrite unconditional_assigns by exact U1. reflexivity.
Qed.
Lemma reset_fold : forall c, reset_mode_flags c = fold_left (fun c f => set_flag c f false) codes_of_modes c.
Proof.
  unfold reset_mode_flags, codes_of_modes. generalize flag_table. induction l as [|e l IH]; intros c; [reflexivity|].
  cbn [fold_left filter]. destruct (isModeFlag e); cbn [map fold_left]; apply IH.
Qed.
Lemma set_flags_fold : forall l c, forallb (has isModeFlag) l = true -> set_flags c l = fold_left (fun c f => set_flag c f true) l c.
Proof.
  unfold set_flags. induction l as [|f l IH]; intros c H; [reflexivity|]. cbn [forallb fold_left] in *. apply andb_true_iff in H. destruct H as [H1 H2].
  rewrite H1. apply IH. exact H2.
Qed.
Lemma mode_lists : forall m, forallb (has isModeFlag) (mode_flags m) = true /\ forallb unconditional (mode_flags m) = true.
Proof. intros []; split; vm_compute; reflexivity. Qed.
Lemma mode_codes_unconditional : forallb unconditional codes_of_modes = true.
Proof. vm_compute. reflexivity. Qed.
Lemma mode_flags_assigns : forall c m, flags (set_mode c (Some m)) = apply_assigns (flags c) (mode_assigns m).
Proof.
  intros c m. unfold set_mode, mode_assigns. destruct (mode_lists m) as [A B].
  rewrite set_flags_fold by exact A. rewrite fold_assigns by exact B. rewrite reset_fold, fold_assigns by exact mode_codes_unconditional.
  rewrite apply_app. reflexivity.
Qed.
Definition opt_beq (a b : option bool) : bool :=
  match a, b with Some a, Some b => Bool.eqb a b | None, None => true | _, _ => false end.
Definition mode_entry_ok (l : list (Z * bool)) (m : mode) (e : fflag) : bool :=
  opt_beq (last_assign l (fcode e)) (if isModeFlag e then Some (existsb (Z.eqb (fcode e)) (mode_flags m)) else None).
Lemma modes_entries : forall m, forallb (mode_entry_ok (mode_assigns m) m) flag_table = true.
Proof. intros []; vm_compute; reflexivity. Qed.
Theorem mode_decides : forall c m e, In e flag_table ->
  flags (set_mode c (Some m)) (fcode e) = if isModeFlag e then existsb (Z.eqb (fcode e)) (mode_flags m) else flags c (fcode e).
Proof.
  intros c m e I. rewrite mode_flags_assigns, apply_last. pose proof (modes_entries m) as H. rewrite forallb_forall in H. specialize (H e I).
  unfold mode_entry_ok, opt_beq in H. destruct (last_assign _ _) as [b|]; destruct (isModeFlag e); try discriminate; [|reflexivity].
  apply Bool.eqb_prop in H. exact H.
Qed.

(** * Values *)
Definition flag_values (ext int : bool) (f : Z) (b : bool) (v : Z -> Z) : Z -> Z :=
  if b && (f =? FLG_ANSI89LIMITS) then fold_left (fun v p => set_value v (fst p) (snd p)) ansi89_limits v
  else if b && (f =? FLG_ISO99LIMITS) then fold_left (fun v p => set_value v (fst p) (snd p)) iso99_limits v
  else if b && negb ext && (f =? FLG_EXTERNALNAMECASEINSENSITIVE) then upd v FLG_EXTERNALNAMELEN 0
  else if b && negb int && ((f =? FLG_INTERNALNAMECASEINSENSITIVE) || (f =? FLG_INTERNALNAMELOOKALIKE)) then upd v FLG_INTERNALNAMELEN 0
  else v.
Lemma limits_values : forall l c, values (set_limits c l) = fold_left (fun v p => set_value v (fst p) (snd p)) l (values c).
Proof. induction l as [|p l IH]; intros c; [reflexivity|]. cbn. fold (set_limits (setv c (fst p) (snd p)) l). rewrite IH. reflexivity. Qed.
Lemma names_values : forall i c f b d len, d <> f -> values (names_case i c f b d len) =
  if b && negb (flags c d) then set_value (values c) len 0 else values c.
Proof. intros i c f b d len N. unfold names_case. cbn [flags doset]. rewrite upd_other by exact N. destruct (b && negb (flags c d)); reflexivity. Qed.
Lemma dosets_values : forall i l c b, values (dosets i c b l) = values c.
Proof. intros i l c b. apply dosets_rest. Qed.
Lemma switch_values : forall i c f b, values (switch_case i c f b) =
  flag_values (flags c FLG_DISTINCTEXTERNALNAMES) (flags c FLG_DISTINCTINTERNALNAMES) f b (values c).
Proof.
  intros i c f b. unfold switch_case, flag_values.
  repeat match goal with |- context [if f =? ?k then _ else _] => destruct (Z.eqb_spec f k) as [->|] end.
  - destruct b; cbn [andb]; [rewrite limits_values|]; rewrite dosets_values; reflexivity.
  - destruct b; cbn [andb]; [rewrite limits_values|]; rewrite dosets_values; reflexivity.
  - rewrite dosets_values. destruct b, (flags c FLG_DISTINCTEXTERNALNAMES), (flags c FLG_DISTINCTINTERNALNAMES); reflexivity.
  - rewrite dosets_values. destruct b, (flags c FLG_DISTINCTEXTERNALNAMES), (flags c FLG_DISTINCTINTERNALNAMES); reflexivity.
  - rewrite names_values by discriminate. destruct b, (flags c FLG_DISTINCTEXTERNALNAMES), (flags c FLG_DISTINCTINTERNALNAMES); reflexivity.
  - rewrite names_values by discriminate. destruct b, (flags c FLG_DISTINCTEXTERNALNAMES), (flags c FLG_DISTINCTINTERNALNAMES); reflexivity.
  - rewrite names_values by discriminate. destruct b, (flags c FLG_DISTINCTEXTERNALNAMES), (flags c FLG_DISTINCTINTERNALNAMES); reflexivity.
  - destruct b; [rewrite dosets_values|]; destruct (flags c FLG_DISTINCTEXTERNALNAMES), (flags c FLG_DISTINCTINTERNALNAMES); reflexivity.
  - rewrite dosets_values; destruct b, (flags c FLG_DISTINCTEXTERNALNAMES), (flags c FLG_DISTINCTINTERNALNAMES); reflexivity.
  - rewrite dosets_values; destruct b, (flags c FLG_DISTINCTEXTERNALNAMES), (flags c FLG_DISTINCTINTERNALNAMES); reflexivity.
  - rewrite dosets_values; destruct b, (flags c FLG_DISTINCTEXTERNALNAMES), (flags c FLG_DISTINCTINTERNALNAMES); reflexivity.
  - rewrite dosets_values.
    repeat match goal with N : f <> ?k |- context [f =? ?k] => rewrite (proj2 (Z.eqb_neq f k) N) end.
    rewrite !andb_false_r. reflexivity.
Qed.
Lemma flag_values_names : forall e i e' i' f b v, unconditional f = true -> flag_values e i f b v = flag_values e' i' f b v.
Proof.
  intros e i e' i' f b v U. unfold unconditional in U. cbn in U. apply negb_true_iff in U. rewrite !orb_false_iff in U. destruct U as (U1 & U2 & U3 & _).
  unfold flag_values. rewrite U1, U2, U3. cbn [orb]. rewrite !andb_false_r. reflexivity.
Qed.
Theorem set_flag_values : forall c f b i, values (set_flag_aux c f b i) =
  flag_values (flags c FLG_DISTINCTEXTERNALNAMES) (flags c FLG_DISTINCTINTERNALNAMES) f b (values c).
Proof.
  intros c f b i. unfold set_flag_aux. rewrite switch_values, dosets_values.
  destruct (unconditional f) eqn:U; [apply flag_values_names; exact U|].
  unfold unconditional in U. cbn in U. apply negb_false_iff in U. rewrite !orb_true_iff, !Z.eqb_eq in U.
  destruct U as [->|[->|[->|U]]]; [destruct b; reflexivity|destruct b; reflexivity|destruct b; reflexivity|discriminate].
Qed.
Lemma mode_values : forall c m, values (set_mode c m) = values c.
Proof.
  assert (forall l c b, forallb (fun f => unconditional f && negb (f =? FLG_ANSI89LIMITS) && negb (f =? FLG_ISO99LIMITS)) l = true ->
    values (fold_left (fun c f => set_flag c f b) l c) = values c) as A.
  { induction l as [|f l IH]; intros c b H; [reflexivity|]. cbn [forallb fold_left] in *. rewrite !andb_true_iff, !negb_true_iff in H.
    destruct H as [[[H1 H2] H3] H4]. rewrite IH by exact H4. unfold set_flag. rewrite set_flag_values.
    rewrite (flag_values_names _ _ true true) by exact H1. unfold flag_values. rewrite H2, H3. cbn [negb]. rewrite !andb_false_r. reflexivity. }
  intros c m. unfold set_mode. rewrite reset_fold.
  destruct m as [m|]; [rewrite set_flags_fold by apply mode_lists; rewrite A by (destruct m; vm_compute; reflexivity)|];
  apply A; vm_compute; reflexivity.
Qed.

(** * Comments and files (C21) *)
Definition no_mode (a : annot) : Prop := match a with AMode _ _ => False | AFlag _ _ _ => True end.
Definition file_inv (c0 : Z -> bool) (c : ctx) : Prop := if savedFlags c then saveflags c = c0 else flags c = c0.

Lemma file_set_saved : forall c f s, savedFlags (file_set_flag c f s) = true /\
  saveflags (file_set_flag c f s) = if savedFlags c then saveflags c else flags c.
Proof.
  intros c f s. unfold file_set_flag.
  assert (exists c1, c1 = (if savedFlags c then c else save_settings c) /\ savedFlags c1 = true /\
     saveflags c1 = if savedFlags c then saveflags c else flags c) as (c1 & <- & A & B).
  { eexists. split; [reflexivity|]. destruct (savedFlags c) eqn:E; [rewrite E|]; auto. }
  rewrite <- B. destruct s.
  - destruct (set_flag_rest c1 f false true) as (X & Y & _). rewrite X, Y. auto.
  - cbn [savedFlags saveflags]. destruct (set_flag_rest c1 f true true) as (X & Y & _). rewrite X, Y. auto.
  - unfold restore_flag. rewrite A. destruct (set_flag_rest c1 f (saveflags c1 f) false) as (X & Y & _). rewrite X, Y. auto.
Qed.
Lemma set_value_saved : forall c f s c', set_value_flag c f s = Ok c' -> savedFlags c' = savedFlags c /\ saveflags c' = saveflags c.
Proof.
  intros c f s c' H. unfold set_value_flag in H. destruct (f =? FLG_COMMENTCHAR).
  - destruct s as [|x [|y s]]; try discriminate. injection H as <-. auto.
  - destruct (to_pos_int s) as [v|]; [|discriminate]. destruct (v <? 0); injection H as <-; auto.
Qed.
Lemma annot_inv : forall c0 c a c', no_mode a -> file_inv c0 c -> process_annot c a = Ok c' -> file_inv c0 c'.
Proof.
  intros c0 c a c' N I H. unfold process_annot in H. destruct (flags c FLG_NOCOMMENTS); [injection H as <-; exact I|].
  destruct a as [m s|f s arg]; [destruct N|]. destruct (has isGlobal f); [injection H as <-; exact I|].
  destruct (file_set_saved c f s) as [A B].
  assert (file_inv c0 (file_set_flag c f s)) as J.
  { unfold file_inv in *. rewrite A, B. destruct (savedFlags c); exact I. }
  destruct (has is_number f || has is_char f); [|injection H as <-; exact J].
  destruct s; [| |injection H as <-; exact J];
  (destruct arg as [x|]; [|injection H as <-; exact J]);
  apply set_value_saved in H; destruct H as [H1 H2]; unfold file_inv in *; rewrite H1, H2, A in *; exact J.
Qed.
Lemma end_inv : forall c0 c, file_inv c0 c -> flags (exit_file c) = c0 /\ savedFlags (exit_file c) = false.
Proof. intros c0 c I. unfold file_inv, exit_file in *. destruct (savedFlags c) eqn:E; [split; [exact I|reflexivity]|auto]. Qed.

Lemma run_app : forall l k c, run c (l ++ k) = match run c l with Ok c => run c k | r => r end.
Proof. induction l as [|o l IH]; intros k c; [reflexivity|]. cbn. destruct (apply c o); [apply IH|reflexivity|reflexivity]. Qed.
Definition in_files (o : op) : Prop := match o with OComment a => no_mode a | OEndFile => True | _ => False end.
Lemma run_inv : forall l c0 c c', Forall in_files l -> file_inv c0 c -> run c l = Ok c' -> file_inv c0 c'.
Proof.
  induction l as [|o l IH]; intros c0 c c' F I H; [injection H as <-; exact I|]. inversion F; subst. cbn in H.
  destruct (apply c o) as [c1| |] eqn:E; [|discriminate|discriminate]. apply (IH c0 c1); [assumption| |exact H].
  destruct o as [| |a|]; try contradiction.
  - apply (annot_inv c0 c a); assumption.
  - injection E as <-. unfold file_inv. destruct (end_inv c0 c I) as [A ->]. exact A.
Qed.
Theorem files_restore : forall c l c', savedFlags c = false -> Forall in_files l -> run c (l ++ [OEndFile]) = Ok c' -> flags c' = flags c.
Proof.
  intros c l c' S F H. rewrite run_app in H. destruct (run c l) as [c1| |] eqn:E; [|discriminate|discriminate].
  injection H as <-. apply (end_inv (flags c) c1). apply (run_inv l (flags c) c); try assumption. unfold file_inv. rewrite S. reflexivity.
Qed.

Definition assigns_only (f : Z) (b e i : bool) : bool :=
  match assigns e i f b with [(g, v)] => (g =? f) && Bool.eqb v b | _ => false end.
Definition simpleb (e : fflag) : bool := negb (isIdem e) && negb (existsb (Z.eqb (fcode e)) compound_flags).
Lemma simple_b : forall e, simple e -> simpleb e = true.
Proof.
  intros e [A B]. unfold simpleb. rewrite A. cbn [negb andb]. apply negb_true_iff.
  destruct (existsb (Z.eqb (fcode e)) compound_flags) eqn:E; [|reflexivity]. apply existsb_exists in E. destruct E as (x & I & E).
  apply Z.eqb_eq in E. subst x. contradiction.
Qed.
Lemma simple_table : forallb (fun e => negb (simpleb e) ||
  forallb (fun t => assigns_only (fcode e) (fst t) (fst (snd t)) (snd (snd t)))
    [(true, (true, true)); (true, (true, false)); (true, (false, true)); (true, (false, false));
     (false, (true, true)); (false, (true, false)); (false, (false, true)); (false, (false, false))]) flag_table = true.
Proof. vm_compute. reflexivity. Qed.
Lemma simple_assigns : forall e b x y, In e flag_table -> simple e -> assigns x y (fcode e) b = [(fcode e, b)].
Proof.
  intros e b x y I S. pose proof simple_table as T. rewrite forallb_forall in T. specialize (T e I). rewrite (simple_b e S) in T. cbn [negb orb] in T.
  rewrite forallb_forall in T. specialize (T (b, (x, y))). cbn [fst snd] in T.
  assert (assigns_only (fcode e) b x y = true) as H by (apply T; destruct b, x, y; cbn; tauto).
  unfold assigns_only in H. destruct (assigns x y (fcode e) b) as [|[g v] [|? ?]]; try discriminate.
  apply andb_true_iff in H. destruct H as [H1 H2]. apply Z.eqb_eq in H1. apply Bool.eqb_prop in H2. subst. reflexivity.
Qed.
Theorem restore_simple : forall c h c1 e c2, savedFlags c = false -> Forall in_files h -> run c h = Ok c1 ->
  In e flag_table -> simple e -> isGlobal e = false -> flags c1 FLG_NOCOMMENTS = false ->
  apply c1 (OComment (AFlag (fcode e) MAYBE None)) = Ok c2 ->
  flags c2 (fcode e) = flags c (fcode e) /\ forall g, g <> fcode e -> flags c2 g = flags c1 g.
Proof.
  intros c h c1 e c2 S F H I SI G NC A.
  assert (file_inv (flags c) c1) as INV by (apply (run_inv h (flags c) c); try assumption; unfold file_inv; rewrite S; reflexivity).
  cbn in A. unfold process_annot in A. rewrite NC in A. rewrite (has_in isGlobal e I), G in A.
  assert (Ok c2 = Ok (file_set_flag c1 (fcode e) MAYBE)) as EQ.
  { rewrite <- A. destruct (_ || _); reflexivity. }
  injection EQ as ->. clear A. unfold file_set_flag, restore_flag.
  destruct (savedFlags c1) eqn:E.
  - rewrite E. rewrite set_flags_assigns, simple_assigns by assumption. unfold file_inv in INV. rewrite E in INV. rewrite INV.
    split; [apply upd_same|]. intros g N. apply upd_other. exact N.
  - cbn [savedFlags save_settings]. rewrite set_flags_assigns, simple_assigns by assumption. unfold file_inv in INV. rewrite E in INV.
    cbn [saveflags flags save_settings]. rewrite INV. split; [apply upd_same|]. intros g N. apply upd_other. exact N.
Qed.

(** Any flag which can be turned off gets its own setting back, compound or not. *)
Definition own1 (e : fflag) (t : bool * (bool * bool)) : bool :=
  opt_beq (last_assign (assigns (fst (snd t)) (snd (snd t)) (fcode e) (fst t)) (fcode e)) (Some (fst t)).
Definition combos : list (bool * (bool * bool)) :=
  [(true, (true, true)); (true, (true, false)); (true, (false, true)); (true, (false, false));
   (false, (true, true)); (false, (true, false)); (false, (false, true)); (false, (false, false))].
Definition own_exempt (e : fflag) : bool := isIdem e || (fcode e =? FLG_EXTERNALNAMELEN) || (fcode e =? FLG_INTERNALNAMELEN).
Definition own_entry (e : fflag) : bool := own_exempt e || forallb (own1 e) combos.
Lemma own_table_ok : forallb own_entry flag_table = true.
Proof. vm_compute. reflexivity. Qed.
Lemma own1_spec : forall e b x y, own1 e (b, (x, y)) = true -> last_assign (assigns x y (fcode e) b) (fcode e) = Some b.
Proof.
  intros e b x y. unfold own1. cbn [fst snd]. generalize (last_assign (assigns x y (fcode e) b) (fcode e)). intros [v|] H; [|discriminate].
  apply Bool.eqb_prop in H. subst v. reflexivity.
Qed.
Lemma combos_in : forall b x y, In (b, (x, y)) combos.
Proof. intros [] [] []; cbn; tauto. Qed.
Lemma own_assigns : forall e, In e flag_table -> isIdem e = false -> fcode e <> FLG_EXTERNALNAMELEN -> fcode e <> FLG_INTERNALNAMELEN ->
  forall x y b m, apply_assigns m (assigns x y (fcode e) b) (fcode e) = b.
Proof.
  intros e I ID N1 N2 x y b m. rewrite apply_last. rewrite (own1_spec e b x y); [reflexivity|].
  pose proof (proj1 (forallb_forall own_entry flag_table) own_table_ok e I) as T. unfold own_entry in T.
  apply orb_true_iff in T. destruct T as [T|T].
  - unfold own_exempt in T. rewrite ID, (proj2 (Z.eqb_neq _ _) N1), (proj2 (Z.eqb_neq _ _) N2) in T. discriminate.
  - exact (proj1 (forallb_forall (own1 e) combos) T _ (combos_in b x y)).
Qed.
Theorem restore_own : forall c h c1 e c2, savedFlags c = false -> Forall in_files h -> run c h = Ok c1 ->
  In e flag_table -> isIdem e = false -> fcode e <> FLG_EXTERNALNAMELEN -> fcode e <> FLG_INTERNALNAMELEN ->
  isGlobal e = false -> flags c1 FLG_NOCOMMENTS = false ->
  apply c1 (OComment (AFlag (fcode e) MAYBE None)) = Ok c2 -> flags c2 (fcode e) = flags c (fcode e).
Proof.
  intros c h c1 e c2 S F H I ID N1 N2 G NC A.
  assert (file_inv (flags c) c1) as INV by (apply (run_inv h (flags c) c); try assumption; unfold file_inv; rewrite S; reflexivity).
  pose proof (own_assigns e I ID N1 N2) as OWN.
  cbn in A. unfold process_annot in A. rewrite NC in A. rewrite (has_in isGlobal e I), G in A.
  assert (Ok c2 = Ok (file_set_flag c1 (fcode e) MAYBE)) as EQ by (rewrite <- A; destruct (_ || _); reflexivity).
  injection EQ as ->. clear A. unfold file_set_flag, restore_flag.
  destruct (savedFlags c1) eqn:E.
  - rewrite E. rewrite set_flags_assigns, OWN. unfold file_inv in INV. rewrite E in INV. rewrite INV. reflexivity.
  - cbn [savedFlags save_settings]. rewrite set_flags_assigns, OWN. unfold file_inv in INV. rewrite E in INV.
    cbn [saveflags flags save_settings]. rewrite INV. reflexivity.
Qed.

(** * Risk levels (C24) *)
Definition is_level (x : Z) : bool := existsb (Z.eqb x) levels.
Lemma group_no_level : forall f x, In x (group f) -> is_level x = false.
Proof.
  intros f x H. unfold group in H. destruct (List.find (fun g => fst g =? f) groups) as [g|] eqn:E; [|destruct H].
  apply List.find_some in E. destruct E as [E _].
  assert (forallb (fun g => forallb (fun x => negb (is_level x)) (snd g)) groups = true) as A by (vm_compute; reflexivity).
  rewrite forallb_forall in A. specialize (A g E). rewrite forallb_forall in A. specialize (A x H). apply negb_true_iff in A. exact A.
Qed.
Lemma switch_no_level : forall e i f b x, In x (map fst (switch_assigns e i f b)) -> is_level x = false.
Proof.
  intros e i f b x H. unfold switch_assigns in H.
  repeat match type of H with context [if f =? ?k then _ else _] => destruct (Z.eqb_spec f k) as [->|] end.
  - rewrite map_map, map_id in H. apply (group_no_level _ _ H).
  - rewrite map_map, map_id in H. apply (group_no_level _ _ H).
  - repeat (destruct H as [<-|H]; [reflexivity|]). destruct H.
  - repeat (destruct H as [<-|H]; [reflexivity|]). destruct H.
  - destruct (b && negb e); repeat (destruct H as [<-|H]; [reflexivity|]); destruct H.
  - destruct (b && negb i); repeat (destruct H as [<-|H]; [reflexivity|]); destruct H.
  - destruct (b && negb i); repeat (destruct H as [<-|H]; [reflexivity|]); destruct H.
  - destruct b; repeat (destruct H as [<-|H]; [reflexivity|]); destruct H.
  - destruct b; repeat (destruct H as [<-|H]; [reflexivity|]); destruct H.
  - destruct b; repeat (destruct H as [<-|H]; [reflexivity|]); destruct H.
  - destruct b; repeat (destruct H as [<-|H]; [reflexivity|]); destruct H.
  - rewrite map_map, map_id in H. apply (group_no_level _ _ H).
Qed.
Definition chain (m : Z -> bool) : Prop :=
  (m FLG_ITS4MOSTRISKY = true -> m FLG_ITS4VERYRISKY = true) /\ (m FLG_ITS4VERYRISKY = true -> m FLG_ITS4RISKY = true) /\
  (m FLG_ITS4RISKY = true -> m FLG_ITS4MODERATERISK = true) /\ (m FLG_ITS4MODERATERISK = true -> m FLG_ITS4LOWRISK = true).
Lemma chain_ordered : forall m, chain m <-> ordered_levels m.
Proof.
  intros m. split.
  - intros (A & B & C & D) i j L. destruct i as [|[|[|[|[|i]]]]]; destruct j as [|[|[|[|[|j]]]]]; try lia; cbn [nth levels]; auto.
  - intros O. repeat split; [apply (O 0 1)%nat|apply (O 1 2)%nat|apply (O 2 3)%nat|apply (O 3 4)%nat]; lia.
Qed.
Lemma chain_ext : forall m m', (forall x, is_level x = true -> m' x = m x) -> chain m -> chain m'.
Proof. intros m m' E C. unfold chain. rewrite !E by reflexivity. exact C. Qed.
Lemma set_chain : forall c f b i, chain (flags c) -> chain (flags (set_flag_aux c f b i)).
Proof.
  intros c f b i C. rewrite set_flags_assigns. set (x := flags c FLG_DISTINCTEXTERNALNAMES). set (y := flags c FLG_DISTINCTINTERNALNAMES).
  unfold assigns. rewrite app_comm_cons, apply_app.
  apply (chain_ext (apply_assigns (flags c) ((f, if has isIdem f then true else b) :: map (fun f0 => (f0, b)) (if b then its4_on f else its4_off f)))).
  { intros z L. apply apply_notin. intros H. apply switch_no_level in H. congruence. }
  destruct (is_level f) eqn:L.
  - unfold is_level in L. cbn in L. rewrite !orb_true_iff, !Z.eqb_eq in L.
    destruct C as (A & B & D & E).
    assert (has isIdem f = false) as ->.
    { destruct L as [->|[->|[->|[->|[->|L]]]]]; [vm_compute; reflexivity..|discriminate]. }
    destruct L as [->|[->|[->|[->|[->|L]]]]]; [| | | | |discriminate]; destruct b; unfold chain; cbn; repeat split; auto; discriminate.
  - apply (chain_ext (flags c)); [|exact C]. intros z Z. apply apply_notin.
    assert (forall k, is_level k = true -> f <> k) as N by (intros k K ->; congruence).
    assert ((if b then its4_on f else its4_off f) = []) as ->.
    { unfold its4_on, its4_off. rewrite !(proj2 (Z.eqb_neq _ _)) by (apply N; reflexivity). destruct b; reflexivity. }
    intros [H|[]]. apply (N z Z). exact H.
Qed.
Definition level_inv (c : ctx) : Prop := chain (flags c) /\ (savedFlags c = true -> chain (saveflags c)).
Lemma set_inv : forall c f b i, level_inv c -> level_inv (set_flag_aux c f b i).
Proof.
  intros c f b i [A B]. split; [apply set_chain; exact A|]. destruct (set_flag_rest c f b i) as (X & Y & _). rewrite X, Y. exact B.
Qed.
Lemma fold_inv : forall A (l : list A) (g : ctx -> A -> ctx) c, (forall c x, level_inv c -> level_inv (g c x)) -> level_inv c -> level_inv (fold_left g l c).
Proof. induction l as [|x l IH]; intros g c H I; [exact I|]. cbn. apply IH; auto. Qed.
Lemma mode_inv : forall c m, level_inv c -> level_inv (set_mode c m).
Proof.
  intros c m I. unfold set_mode. assert (level_inv (reset_mode_flags c)) as J.
  { apply fold_inv; [|exact I]. intros c' e K. destruct (isModeFlag e); [apply set_inv; exact K|exact K]. }
  destruct m as [m|]; [|exact J]. apply fold_inv; [|exact J]. intros c' e K. destruct (has isModeFlag e); [apply set_inv; exact K|exact K].
Qed.
Lemma upd_flag_inv : forall c f b sg sl v, is_level f = false -> level_inv c ->
  level_inv (Ctx (upd (flags c) f b) (saveflags c) (savedFlags c) sg sl v).
Proof.
  intros c f b sg sl v L [A B]. split; [|exact B]. cbn [flags]. apply (chain_ext (flags c)); [|exact A].
  intros x X. apply upd_other. intros ->. congruence.
Qed.
Lemma value_inv : forall c f s c', is_level f = false -> level_inv c -> set_value_flag c f s = Ok c' -> level_inv c'.
Proof.
  intros c f s c' L I H. unfold set_value_flag in H. destruct (f =? FLG_COMMENTCHAR).
  - destruct s as [|x [|y s]]; try discriminate. injection H as <-. exact I.
  - destruct (to_pos_int s) as [v|]; [|discriminate]. destruct (v <? 0); injection H as <-; [exact I|].
    exact (upd_flag_inv c f true (setGlobally c) (setLocally c) (set_value (values c) f v) L I).
Qed.
Lemma valued_no_level : forall f, has is_number f || has is_char f = true -> is_level f = false.
Proof.
  intros f H. destruct (is_level f) eqn:L; [|reflexivity]. unfold is_level in L. cbn in L. rewrite !orb_true_iff, !Z.eqb_eq in L.
  assert (forallb (fun f => negb (has is_number f || has is_char f)) levels = true) as T by (vm_compute; reflexivity).
  rewrite forallb_forall in T. assert (negb (has is_number f || has is_char f) = true) as K; [|rewrite H in K; discriminate].
  apply T. cbn. intuition congruence.
Qed.
Lemma user_inv : forall c f b, level_inv c -> level_inv (user_set_flag c f b).
Proof.
  intros c f b I. unfold user_set_flag. destruct ((f =? FLG_NEVERINCLUDE) && b).
  - apply set_inv. destruct (flags c FLG_EXPORTHEADER); [|exact I]. exact (upd_flag_inv c FLG_EXPORTHEADER false (upd (setGlobally c) f true) (setLocally c) (values c) eq_refl I).
  - destruct ((f =? FLG_EXPORTHEADER) && b && flags c FLG_NEVERINCLUDE); [apply upd_flag_inv; [reflexivity|exact I]|]. apply set_inv. exact I.
Qed.
Lemma file_inv_levels : forall c f s, level_inv c -> level_inv (file_set_flag c f s).
Proof.
  intros c f s [A B]. unfold file_set_flag.
  assert (level_inv (if savedFlags c then c else save_settings c)) as J.
  { destruct (savedFlags c) eqn:E; [split; [exact A|rewrite E; exact B]|]. split; [exact A|intros _; exact A]. }
  destruct s.
  - apply set_inv. exact J.
  - destruct (set_inv _ f true true J) as [X Y]. split; [exact X|exact Y].
  - unfold restore_flag. destruct (savedFlags (if savedFlags c then c else save_settings c)); [apply set_inv|]; exact J.
Qed.
Lemma apply_inv : forall c o c', level_inv c -> apply c o = Ok c' -> level_inv c'.
Proof.
  intros c o c' I H. destruct o as [f b arg|m|a|]; cbn in H.
  - pose proof (user_inv c f b I) as J. destruct (has is_number f || has is_char f) eqn:V; [|injection H as <-; exact J].
    destruct arg; [|injection H as <-; exact J]. apply (value_inv _ _ _ _ (valued_no_level f V) J H).
  - injection H as <-. apply mode_inv. exact I.
  - unfold process_annot in H. destruct (flags c FLG_NOCOMMENTS); [injection H as <-; exact I|].
    destruct a as [m s|f s arg].
    + destruct s; injection H as <-; try apply mode_inv; exact I.
    + destruct (has isGlobal f); [injection H as <-; exact I|]. pose proof (file_inv_levels c f s I) as J.
      destruct (has is_number f || has is_char f) eqn:V; [|injection H as <-; exact J].
      destruct s; try (injection H as <-; exact J); (destruct arg as [x|]; [|injection H as <-; exact J]);
      apply (value_inv _ _ _ _ (valued_no_level f V) J H).
  - injection H as <-. unfold exit_file. destruct (savedFlags c) eqn:E; [|exact I]. destruct I as [A B]. specialize (B E).
    split; [exact B|]. intros _. exact B.
Qed.
Lemma run_levels : forall l c c', level_inv c -> run c l = Ok c' -> level_inv c'.
Proof.
  induction l as [|o l IH]; intros c c' I H; [injection H as <-; exact I|]. cbn in H.
  destruct (apply c o) as [c1| |] eqn:E; [|discriminate|discriminate]. apply (IH c1); [|exact H]. apply (apply_inv c o); assumption.
Qed.
Lemma init_levels : level_inv init.
Proof.
  unfold init. apply mode_inv. split; [|intros H; vm_compute in H; discriminate]. unfold chain. vm_compute. repeat split; discriminate.
Qed.
Theorem levels_ordered : forall l c, run init l = Ok c -> ordered_levels (flags c).
Proof. intros l c H. apply chain_ordered. exact (proj1 (run_levels l init c init_levels H)). Qed.

(** * Numeric options (C23) *)
Lemma digit_range : forall c, is_digit c = (48 <=? code c) && (code c <=? 57).
Proof. reflexivity. Qed.
Lemma fold_number_ge : forall s v, 0 <= v -> digitsb s = true -> v <= fold_left (fun n c => 10 * n + (code c - 48)) s v.
Proof.
  induction s as [|c s IH]; intros v V D; [cbn; lia|]. cbn [fold_left digitsb forallb] in *. apply andb_true_iff in D. destruct D as [D1 D2].
  apply andb_true_iff in D1. destruct D1 as [D0 D1]. apply Z.leb_le in D0. apply Z.leb_le in D1.
  transitivity (10 * v + (code c - 48)); [lia|]. apply IH; [lia|exact D2].
Qed.
Lemma pos_int_spec : forall s v n, 0 <= v -> pos_int v s = Some n ->
  (digitsb s = true /\ n = fold_left (fun n c => 10 * n + (code c - 48)) s v /\ 0 <= n) \/ (digitsb s = false /\ n = -1).
Proof.
  induction s as [|c s IH]; intros v n V H; cbn [pos_int] in H.
  - injection H as <-. left. auto.
  - rewrite digit_range in H. destruct ((48 <=? code c) && (code c <=? 57)) eqn:D.
    + apply andb_true_iff in D. destruct D as [D1 D2]. apply Z.leb_le in D1. apply Z.leb_le in D2.
      destruct (v * 10 + (code c - 48) <=? INT_MAX); [|discriminate]. apply IH in H; [|lia].
      cbn [digitsb forallb fold_left]. rewrite (proj2 (Z.leb_le _ _) D1), (proj2 (Z.leb_le _ _) D2). cbn [andb].
      replace (10 * v + (code c - 48)) with (v * 10 + (code c - 48)) by lia. exact H.
    + injection H as <-. right. split; [|reflexivity]. cbn [digitsb forallb]. rewrite D. reflexivity.
Qed.
Lemma to_pos_int_spec : forall s n, to_pos_int s = Some n ->
  (digitsb s = true /\ n = number_of s /\ 0 <= n) \/ (digitsb s = false /\ n = -1).
Proof. intros s n H. apply (pos_int_spec s 0 n); [lia|exact H]. Qed.

Lemma set_value_other : forall v f n x, x <> f -> set_value v f n x = v x.
Proof.
  intros v f n x N. unfold set_value. destruct (f =? FLG_LINELEN).
  - destruct (n <=? 0); [reflexivity|]. destruct (n <? MINLINELEN); apply upd_other; exact N.
  - destruct (existsb _ _); [destruct (n <? 0); [reflexivity|]|]; apply upd_other; exact N.
Qed.
Lemma set_value_same : forall v f n, 0 <= n -> set_value v f n f = match accepted f n with Some w => w | None => v f end.
Proof.
  intros v f n P. unfold set_value, accepted. destruct (f =? FLG_LINELEN) eqn:L.
  - destruct (n <=? 0) eqn:E; [reflexivity|]. unfold MINLINELEN. destruct (n <? 20) eqn:F; rewrite upd_same.
    + apply Z.ltb_lt in F. lia.
    + apply Z.ltb_ge in F. lia.
  - destruct (existsb _ _); [rewrite (proj2 (Z.ltb_ge n 0)) by exact P|]; apply upd_same.
Qed.
Lemma set_value_flag_values : forall c g s c' f, g <> FLG_COMMENTCHAR -> set_value_flag c g s = Ok c' ->
  values c' f = if g =? f then (if digitsb s then match accepted f (number_of s) with Some w => w | None => values c f end else values c f)
                else values c f.
Proof.
  intros c g s c' f N H. unfold set_value_flag in H. rewrite (proj2 (Z.eqb_neq _ _) N) in H.
  destruct (to_pos_int s) as [n|] eqn:E; [|discriminate]. apply to_pos_int_spec in E.
  destruct E as [(D & -> & P)|[D ->]].
  - rewrite (proj2 (Z.ltb_ge _ 0)) in H by exact P. injection H as <-. cbn [values setv]. rewrite D.
    destruct (Z.eqb_spec g f) as [->|M]; [apply set_value_same; exact P|]. apply set_value_other. auto.
  - injection H as <-. rewrite D. destruct (g =? f); reflexivity.
Qed.
Lemma set_value_flag_char : forall c s c' f, set_value_flag c FLG_COMMENTCHAR s = Ok c' -> f <> FLG_COMMENTCHAR -> values c' f = values c f.
Proof.
  intros c s c' f H N. unfold set_value_flag in H. rewrite Z.eqb_refl in H. destruct s as [|x [|y s]]; try discriminate. injection H as <-.
  apply set_value_other. exact N.
Qed.

Lemma flag_values_exact : forall e i g b v f, In f exact_flags ->
  flag_values e i g b v f = if b && (g =? FLG_ANSI89LIMITS) then match c90_limit f with Some w => w | None => v f end
                            else if b && (g =? FLG_ISO99LIMITS) then match c99_limit f with Some w => w | None => v f end
                            else v f.
Proof.
  intros e i g b v f I. unfold flag_values. destruct (b && (g =? FLG_ANSI89LIMITS)).
  { repeat (destruct I as [<-|I]; [reflexivity|]). destruct I. }
  destruct (b && (g =? FLG_ISO99LIMITS)).
  { repeat (destruct I as [<-|I]; [reflexivity|]). destruct I. }
  destruct (b && negb e && (g =? FLG_EXTERNALNAMECASEINSENSITIVE)).
  { apply upd_other. intros ->. repeat (destruct I as [I|I]; [discriminate|]). destruct I. }
  destruct (b && negb i && _).
  { apply upd_other. intros ->. repeat (destruct I as [I|I]; [discriminate|]). destruct I. }
  reflexivity.
Qed.
Lemma user_values : forall c g b f, In f exact_flags ->
  values (user_set_flag c g b) f = if b && (g =? FLG_ANSI89LIMITS) then match c90_limit f with Some w => w | None => values c f end
                            else if b && (g =? FLG_ISO99LIMITS) then match c99_limit f with Some w => w | None => values c f end
                            else values c f.
Proof.
  intros c g b f I. unfold user_set_flag. destruct ((g =? FLG_NEVERINCLUDE) && b) eqn:N.
  - apply andb_true_iff in N. destruct N as [N ->]. apply Z.eqb_eq in N. subst g.
    unfold set_flag. rewrite set_flag_values, flag_values_exact by exact I. destruct (flags c FLG_EXPORTHEADER); reflexivity.
  - destruct ((g =? FLG_EXPORTHEADER) && b && flags c FLG_NEVERINCLUDE) eqn:M.
    + apply andb_true_iff in M. destruct M as [M _]. apply andb_true_iff in M. destruct M as [M ->]. apply Z.eqb_eq in M. subst g. reflexivity.
    + unfold set_flag. rewrite set_flag_values, flag_values_exact by exact I. reflexivity.
Qed.

(** A command line of options: flags with their arguments. *)
Definition option_op (o : Z * bool * option cstr) : op := OFlag (fst (fst o)) (snd (fst o)) (snd o).
Definition needs_number (o : Z * bool * option cstr) : Prop := snd o <> None -> In (fst (fst o)) number_flags \/ fst (fst o) = FLG_COMMENTCHAR.
Lemma number_flags_has : forall f, has is_number f || has is_char f = true <-> In f number_flags \/ f = FLG_COMMENTCHAR.
Proof.
  intros f. split.
  - intros H. unfold has, entry in H. destruct (List.find (fun e => fcode e =? f) flag_table) as [e|] eqn:E; [|discriminate].
    apply List.find_some in E. destruct E as [I E]. apply Z.eqb_eq in E. subst f.
    assert (forallb (fun e => negb (is_number e || is_char e) || existsb (Z.eqb (fcode e)) (FLG_COMMENTCHAR :: number_flags)) flag_table = true) as T by (vm_compute; reflexivity).
    rewrite forallb_forall in T. specialize (T e I). rewrite H in T. cbn [negb orb] in T. apply existsb_exists in T. destruct T as (x & X & T).
    apply Z.eqb_eq in T. subst x. destruct X as [<-|X]; auto.
  - intros [I| ->]; [|vm_compute; reflexivity]. repeat (destruct I as [<-|I]; [vm_compute; reflexivity|]). destruct I.
Qed.
Lemma exact_number : forall f, In f exact_flags -> In f number_flags /\ f <> FLG_COMMENTCHAR.
Proof. intros f I. repeat (destruct I as [<-|I]; [split; [cbn; tauto|discriminate]|]). destruct I. Qed.
Lemma option_values : forall c o c' f, In f exact_flags -> apply c (option_op o) = Ok c' ->
  values c' f = match setting (fst (fst o)) (snd (fst o)) (snd o) f with Some w => w | None => values c f end.
Proof.
  intros c [[g b] arg] c' f I H. destruct (exact_number f I) as [NF NC]. unfold option_op in H. cbn [fst snd apply] in *.
  pose proof (user_values c g b f I) as U. unfold setting.
  assert (g = f -> b && (g =? FLG_ANSI89LIMITS) = false /\ b && (g =? FLG_ISO99LIMITS) = false) as NL.
  { intros ->. repeat (destruct I as [<-|I]; [destruct b; auto|]). destruct I. }
  destruct (has is_number g || has is_char g) eqn:V.
  - assert (In g number_flags \/ g = FLG_COMMENTCHAR) as VF by (apply number_flags_has; exact V).
    assert (b && (g =? FLG_ANSI89LIMITS) = false /\ b && (g =? FLG_ISO99LIMITS) = false) as [L1 L2].
    { destruct VF as [VF| ->]; [|destruct b; auto]. repeat (destruct VF as [<-|VF]; [destruct b; auto|]). destruct VF. }
    rewrite L1, L2 in U. rewrite L1, L2.
    destruct arg as [s|].
    + destruct (Z.eq_dec g FLG_COMMENTCHAR) as [->|NG].
      * rewrite (set_value_flag_char _ _ _ f H NC), U. rewrite (proj2 (Z.eqb_neq FLG_COMMENTCHAR f)) by auto. reflexivity.
      * rewrite (set_value_flag_values _ _ _ _ f NG H), U. destruct (g =? f); [|reflexivity]. destruct (digitsb s); reflexivity.
    + injection H as <-. rewrite U. destruct (g =? f); reflexivity.
  - injection H as <-. rewrite U.
    destruct (Z.eqb_spec g f) as [->|N].
    + assert (has is_number f || has is_char f = true) by (apply number_flags_has; left; exact NF). congruence.
    + destruct (b && (g =? FLG_ANSI89LIMITS)); [reflexivity|]. destruct (b && (g =? FLG_ISO99LIMITS)); reflexivity.
Qed.
Theorem options_values : forall l c c' f, In f exact_flags -> run c (map option_op l) = Ok c' -> values c' f = value_after l f (values c f).
Proof.
  induction l as [|o l IH]; intros c c' f I H; [injection H as <-; reflexivity|]. cbn [map run] in H.
  destruct (apply c (option_op o)) as [c1| |] eqn:E; [|discriminate|discriminate]. rewrite (IH c1 c' f I H).
  unfold value_after. cbn [fold_left]. rewrite (option_values c o c1 f I E). reflexivity.
Qed.

Lemma set_value_range : forall v f n, 0 <= n -> in_range v -> in_range (set_value v f n).
Proof.
  intros v f n P R g I. destruct (Z.eq_dec g f) as [->|N]; [|rewrite set_value_other by exact N; apply R; exact I].
  rewrite set_value_same by exact P. unfold accepted. destruct (f =? FLG_LINELEN) eqn:L.
  - destruct (n <=? 0); [apply R; exact I|]. unfold low. rewrite L. lia.
  - unfold low. rewrite L. destruct (f =? FLG_LIMIT); lia.
Qed.
Lemma char_range : forall v n, in_range v -> in_range (set_value v FLG_COMMENTCHAR n).
Proof.
  intros v n R g I. rewrite set_value_other; [apply R; exact I|]. intros ->. repeat (destruct I as [I|I]; [discriminate|]). destruct I.
Qed.
Lemma limits_range : forall l v, forallb (fun p => 0 <=? snd p) l = true -> in_range v ->
  in_range (fold_left (fun v p => set_value v (fst p) (snd p)) l v).
Proof.
  induction l as [|p l IH]; intros v H R; [exact R|]. cbn [fold_left forallb] in *. apply andb_true_iff in H. destruct H as [H1 H2].
  apply IH; [exact H2|]. apply set_value_range; [apply Z.leb_le; exact H1|exact R].
Qed.
Lemma flag_values_range : forall e i f b v, in_range v -> in_range (flag_values e i f b v).
Proof.
  intros e i f b v R. unfold flag_values.
  destruct (b && _); [apply limits_range; [reflexivity|exact R]|]. destruct (b && _); [apply limits_range; [reflexivity|exact R]|].
  destruct (b && negb e && _); [apply (set_value_range v FLG_EXTERNALNAMELEN 0); [lia|exact R]|].
  destruct (b && negb i && _); [apply (set_value_range v FLG_INTERNALNAMELEN 0); [lia|exact R]|]. exact R.
Qed.
Lemma set_flag_range : forall c f b i, in_range (values c) -> in_range (values (set_flag_aux c f b i)).
Proof. intros c f b i R. rewrite set_flag_values. apply flag_values_range. exact R. Qed.
Lemma set_value_flag_range : forall c f s c', in_range (values c) -> set_value_flag c f s = Ok c' -> in_range (values c').
Proof.
  intros c f s c' R H. unfold set_value_flag in H. destruct (Z.eqb_spec f FLG_COMMENTCHAR) as [->|].
  - destruct s as [|x [|y s]]; try discriminate. injection H as <-. apply char_range. exact R.
  - destruct (to_pos_int s) as [v|]; [|discriminate]. destruct (v <? 0) eqn:E; injection H as <-; [exact R|]. apply Z.ltb_ge in E.
    apply set_value_range; [exact E|exact R].
Qed.
Lemma user_range : forall c f b, in_range (values c) -> in_range (values (user_set_flag c f b)).
Proof.
  intros c f b R. unfold user_set_flag. destruct (_ && b).
  - apply set_flag_range. destruct (flags c FLG_EXPORTHEADER); exact R.
  - destruct (_ && _ && _); [exact R|]. apply set_flag_range. exact R.
Qed.
Lemma file_set_range : forall c f s, in_range (values c) -> in_range (values (file_set_flag c f s)).
Proof.
  intros c f s R. unfold file_set_flag. assert (in_range (values (if savedFlags c then c else save_settings c))) as J by (destruct (savedFlags c); exact R).
  destruct s; [apply set_flag_range; exact J|exact (set_flag_range _ f true true J)|].
  unfold restore_flag. destruct (savedFlags (if savedFlags c then c else save_settings c)); [apply set_flag_range; exact J|exact J].
Qed.
Lemma apply_range : forall c o c', in_range (values c) -> apply c o = Ok c' -> in_range (values c').
Proof.
  intros c o c' R H. destruct o as [f b arg|m|a|]; cbn in H.
  - pose proof (user_range c f b R) as J. destruct (_ || _); [|injection H as <-; exact J].
    destruct arg; [|injection H as <-; exact J]. apply (set_value_flag_range _ _ _ _ J H).
  - injection H as <-. rewrite mode_values. exact R.
  - unfold process_annot in H. destruct (flags c FLG_NOCOMMENTS); [injection H as <-; exact R|].
    destruct a as [m s|f s arg].
    + destruct s; injection H as <-; rewrite ?mode_values; exact R.
    + destruct (has isGlobal f); [injection H as <-; exact R|]. pose proof (file_set_range c f s R) as J.
      destruct (_ || _); [|injection H as <-; exact J].
      destruct s; try (injection H as <-; exact J); (destruct arg as [x|]; [|injection H as <-; exact J]);
      apply (set_value_flag_range _ _ _ _ J H).
  - injection H as <-. unfold exit_file. destruct (savedFlags c); exact R.
Qed.
Lemma init_range : in_range (values init).
Proof.
  unfold init. rewrite mode_values. intros f I. repeat (destruct I as [<-|I]; [vm_compute; discriminate|]). destruct I.
Qed.
Theorem run_range : forall l c, run init l = Ok c -> in_range (values c).
Proof.
  assert (forall l c0 c, in_range (values c0) -> run c0 l = Ok c -> in_range (values c)) as A.
  { induction l as [|o l IH]; intros c0 c I H; [injection H as <-; exact I|]. cbn in H.
    destruct (apply c0 o) as [c1| |] eqn:E; [|discriminate|discriminate]. apply (IH c1); [|exact H]. apply (apply_range c0 o); assumption. }
  intros l c H. apply (A l init c init_range H).
Qed.

Lemma flag_values_names_len : forall e i g b v f, f = FLG_EXTERNALNAMELEN \/ f = FLG_INTERNALNAMELEN ->
  flag_values e i g b v f = v f \/ name_value f (flag_values e i g b v f).
Proof.
  intros e i g b v f [->| ->]; unfold flag_values, name_value;
  (destruct (b && (g =? FLG_ANSI89LIMITS)); [right; right; left; reflexivity|]);
  (destruct (b && (g =? FLG_ISO99LIMITS)); [right; right; right; reflexivity|]);
  (destruct (b && negb e && _); [cbn; auto|]); (destruct (b && negb i && _); cbn; auto).
Qed.

Lemma user_values_names_len : forall c g b f, f = FLG_EXTERNALNAMELEN \/ f = FLG_INTERNALNAMELEN ->
  values (user_set_flag c g b) f = values c f \/ name_value f (values (user_set_flag c g b) f).
Proof.
  intros c g b f F. unfold user_set_flag. destruct (_ && b).
  - unfold set_flag. rewrite set_flag_values. destruct (flags c FLG_EXPORTHEADER); apply flag_values_names_len; exact F.
  - destruct (_ && _ && _); [left; reflexivity|]. unfold set_flag. rewrite set_flag_values. apply flag_values_names_len. exact F.
Qed.
Theorem names_len_origin : forall l c c' f, f = FLG_EXTERNALNAMELEN \/ f = FLG_INTERNALNAMELEN -> run c (map option_op l) = Ok c' ->
  values c' f = values c f \/ name_value f (values c' f) \/ exists b s, In (f, b, Some s) l /\ digitsb s = true /\ values c' f = number_of s.
Proof.
  induction l as [|[[g b] arg] l IH]; intros c c' f F H; [injection H as <-; auto|]. cbn [map run] in H.
  destruct (apply c (option_op (g, b, arg))) as [c1| |] eqn:E; [|discriminate|discriminate].
  destruct (IH c1 c' f F H) as [I|[I|(b' & s & I & D & V)]]; [|auto|right; right; exists b', s; split; [right; exact I|auto]].
  rewrite I. unfold option_op in E. cbn [apply fst snd] in E. pose proof (user_values_names_len c g b f F) as U.
  assert (f <> FLG_COMMENTCHAR) as NC by (destruct F as [->| ->]; discriminate).
  destruct (has is_number g || has is_char g).
  - destruct arg as [s|]; [|injection E as <-; destruct U; auto].
    destruct (Z.eq_dec g FLG_COMMENTCHAR) as [->|N]; [rewrite (set_value_flag_char _ _ _ f E NC); destruct U; auto|].
    rewrite (set_value_flag_values _ _ _ _ f N E). destruct (Z.eqb_spec g f) as [->|M]; [|destruct U; auto].
    destruct (digitsb s) eqn:D; [|destruct U; auto]. unfold accepted.
    replace (f =? FLG_LINELEN) with false by (destruct F as [->| ->]; reflexivity).
    right. right. exists b, s. split; [left; reflexivity|auto].
  - injection E as <-. destruct U; auto.
Qed.
Theorem refused_values : forall c f b s c', In f number_flags -> apply c (OFlag f b (Some s)) = Ok c' ->
  digitsb s = false \/ accepted f (number_of s) = None -> values c' = values c.
Proof.
  intros c f b s c' I H R. cbn [apply] in H. rewrite (proj2 (number_flags_has f)) in H by (left; exact I).
  assert (values (user_set_flag c f b) = values c) as U.
  { unfold user_set_flag. destruct ((f =? FLG_NEVERINCLUDE) && b) eqn:N.
    - apply andb_true_iff in N. destruct N as [N _]. apply Z.eqb_eq in N. subst f. repeat (destruct I as [I|I]; [discriminate|]). destruct I.
    - destruct (_ && _ && _); [reflexivity|]. unfold set_flag. rewrite set_flag_values. cbn [flags values].
      clear R H. repeat (destruct I as [<-|I]; [unfold flag_values; cbn [Z.eqb orb];
        repeat match goal with |- context [?a =? ?b] => change (a =? b) with false end; rewrite ?andb_false_r; reflexivity|]). destruct I. }
  assert (f <> FLG_COMMENTCHAR) as NC by (intros ->; repeat (destruct I as [I|I]; [discriminate|]); destruct I).
  unfold set_value_flag in H. rewrite (proj2 (Z.eqb_neq _ _) NC) in H.
  destruct (to_pos_int s) as [n|] eqn:E; [|discriminate]. apply to_pos_int_spec in E. destruct E as [(D & -> & P)|[D ->]].
  - destruct R as [R|R]; [congruence|]. rewrite (proj2 (Z.ltb_ge _ 0)) in H by exact P. injection H as <-. cbn [values setv].
    unfold set_value. unfold accepted in R. destruct (f =? FLG_LINELEN); [|discriminate]. destruct (number_of s <=? 0); [exact U|discriminate].
  - injection H as <-. exact U.
Qed.

(** * For the examples *)
Lemma ok_step : forall A (r : outcome) (p : ctx -> A) v, match r with Ok c => Some (p c) | _ => None end = Some v -> exists c, r = Ok c /\ p c = v.
Proof. intros A [c| |] p v H; [injection H as <-; exists c; auto|discriminate|discriminate]. Qed.
Lemma ok_step2 : forall A (r : outcome) (g : ctx -> outcome) (p : ctx -> ctx -> A) v,
  match r with Ok c => match g c with Ok d => Some (p c d) | _ => None end | _ => None end = Some v ->
  exists c d, r = Ok c /\ g c = Ok d /\ p c d = v.
Proof.
  intros A [c| |] g p v H; [|discriminate|discriminate]. destruct (g c) as [d| |] eqn:E; [|discriminate|discriminate].
  injection H as <-. exists c, d. auto.
Qed.
Lemma in_table : forall e k, nth_error flag_table k = Some e -> In e flag_table.
Proof. intros e k. apply nth_error_In. Qed.

(** * The order of the modes *)
Definition rank (m : mode) : nat := match m with Weak => 0 | Standard => 1 | Checks => 2 | Strict => 3 end.
Definition lessb (f : Z) (a b : mode) : bool :=
  let x := existsb (Z.eqb f) (mode_flags a) in let y := existsb (Z.eqb f) (mode_flags b) in
  if existsb (Z.eqb f) permissive then implb y x else implb x y.
Lemma modes_ordered : forall c c' a b e, (rank a <= rank b)%nat -> In e flag_table ->
  (isModeFlag e = true \/ flags c (fcode e) = flags c' (fcode e)) ->
  if existsb (Z.eqb (fcode e)) permissive
  then flags (set_mode c' (Some b)) (fcode e) = true -> flags (set_mode c (Some a)) (fcode e) = true
  else flags (set_mode c (Some a)) (fcode e) = true -> flags (set_mode c' (Some b)) (fcode e) = true.
Proof.
  intros c c' a b e R I K. rewrite !mode_decides by exact I.
  destruct (isModeFlag e) eqn:M.
  - assert (H : lessb (fcode e) a b = true).
    { assert (A : forallb (fun e => implb (isModeFlag e) (lessb (fcode e) Weak Standard && lessb (fcode e) Standard Checks && lessb (fcode e) Checks Strict)) flag_table = true)
        by (vm_compute; reflexivity).
      rewrite forallb_forall in A. specialize (A e I). rewrite M in A. cbn [implb] in A.
      unfold lessb in *. destruct (existsb (Z.eqb (fcode e)) permissive);
        destruct a, b; cbn [rank] in R; try lia; cbn [mode_flags] in *;
        destruct (existsb (Z.eqb (fcode e)) weak_flags), (existsb (Z.eqb (fcode e)) standard_flags),
          (existsb (Z.eqb (fcode e)) checks_flags), (existsb (Z.eqb (fcode e)) strict_flags); first [reflexivity | discriminate A]. }
    unfold lessb in H.
    destruct (existsb (Z.eqb (fcode e)) permissive), (existsb (Z.eqb (fcode e)) (mode_flags a)), (existsb (Z.eqb (fcode e)) (mode_flags b)); intros; first [reflexivity | discriminate].
  - destruct K as [K | K]; [discriminate|]. rewrite K. destruct (existsb _ _); auto.
Qed.

Definition find_mode (f : Z) : option fflag := find (fun e => (fcode e =? f) && isModeFlag e) flag_table.
Lemma find_mode_in : forall f, match find_mode f with Some _ => true | None => false end = true ->
  exists e, In e flag_table /\ fcode e = f /\ isModeFlag e = true.
Proof.
  intros f H. unfold find_mode in H. destruct (find _ flag_table) as [e|] eqn:E; [|discriminate].
  apply find_some in E. destruct E as [I E]. apply andb_prop in E. destruct E as [E M]. apply Z.eqb_eq in E. exists e. auto.
Qed.
Lemma mode_code : forall c m f, match find_mode f with Some _ => true | None => false end = true ->
  flags (set_mode c (Some m)) f = existsb (Z.eqb f) (mode_flags m).
Proof. intros c m f H. destruct (find_mode_in f H) as [e [I [<- M]]]. rewrite mode_decides by exact I. rewrite M. reflexivity. Qed.
Lemma table_code : forall f (P : Prop), match find_mode f with Some _ => true | None => false end = true -> P ->
  exists e, In e flag_table /\ fcode e = f /\ isModeFlag e = true /\ P.
Proof. intros f P H p. destruct (find_mode_in f H) as [e [I [E M]]]. exists e. auto. Qed.
