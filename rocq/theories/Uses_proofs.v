(** Uses of global names: proofs. *)
From Verif Require Import Cbase Cbase_facts Uses_model Uses_spec.
Open Scope nat_scope.

Section Proofs.
Variable base : file -> cstr.
Variable special : file -> bool.
Variable fl : uflags.
Notation step := (step base fl).
Notation run := (run base fl).
Notation sameModule := (sameModule base).
Notation in_module := (in_module base).

(** Histories: uses of the unknown name, the first declaration or definition, the rest. *)
Definition starts (ev : event) (l : floc) : Prop := (exists x, ev = Decl l x) \/ ev = Define l.
Definition all_uses (h : list event) : Prop := forall ev, In ev h -> exists u m, ev = Use u m.

Lemma first_split : forall l h, first_at l h ->
  exists us ev rest, h = us ++ ev :: rest /\ all_uses us /\ starts ev l.
Proof.
  intros l h F. induction F as [x h | h | u m h F IH].
  - exists [], (Decl l x), h. repeat split; [intros ? [] | left; eauto].
  - exists [], (Define l), h. repeat split; [intros ? [] | right; reflexivity].
  - destruct IH as (us & ev & rest & E & A & S1). exists (Use u m :: us), ev, rest.
    split; [cbn; now rewrite E |]. split; [| assumption].
    intros e [<- | I]; [eauto | now apply A].
Qed.

Lemma starts_not_use : forall ev l, starts ev l -> forall u b, ev <> Use u b.
Proof. intros ev l [[x ->] | ->] u b; discriminate. Qed.

Lemma known_split : forall us ev l rest h1 x h2,
  all_uses us -> starts ev l -> us ++ ev :: rest = h1 ++ x :: h2 ->
  (exists e, In e h1 /\ forall u b, e <> Use u b) -> In x rest.
Proof.
  induction us as [| u0 us IH]; intros ev l rest h1 x h2 A F E K.
  - destruct h1 as [| e h1]; [destruct K as (e & [] & _) |].
    cbn in E. injection E as _ E. rewrite E. apply in_or_app. right. now left.
  - destruct h1 as [| e h1]; [destruct K as (e & [] & _) |].
    cbn in E. injection E as E0 E. subst e.
    assert (A' : all_uses us) by (intros q Q; apply A; now right).
    apply (IH ev l rest h1 x h2 A' F E).
    destruct K as (e & [<- | I] & N); [| eauto].
    destruct (A u0 (or_introl eq_refl)) as (u & m & ->). exfalso. now apply (N u m).
Qed.

Lemma known_join : forall us ev l rest x, starts ev l -> In x rest ->
  exists h1 h2, us ++ ev :: rest = h1 ++ x :: h2 /\ exists e, In e h1 /\ forall u b, e <> Use u b.
Proof.
  intros us ev l rest x F I. apply in_split in I. destruct I as (r1 & r2 & ->).
  exists (us ++ ev :: r1), r2. split; [now rewrite <- app_assoc |].
  exists ev. split; [apply in_or_app; right; now left | now apply (starts_not_use ev l)].
Qed.

Lemma used_rest : forall us ev l0 rest l m, all_uses us -> starts ev l0 ->
  (used_at l m (us ++ ev :: rest) <-> In (Use l m) rest).
Proof.
  intros us ev l0 rest l m A F. split.
  - intros (h1 & h2 & E & K). eapply known_split; eauto.
  - intros I. now apply (known_join us ev l0).
Qed.

Lemma redeclared_rest : forall us ev l0 rest l, all_uses us -> starts ev l0 ->
  (redeclared_at l (us ++ ev :: rest) <-> In (Decl l true) rest).
Proof.
  intros us ev l0 rest l A F. split.
  - intros (h1 & h2 & E & K). eapply known_split; eauto.
  - intros I. now apply (known_join us ev l0).
Qed.

Lemma run_uses : forall us, all_uses us -> fold_left step us None = None.
Proof.
  induction us as [| u us IH]; intros A; [reflexivity |].
  destruct (A u (or_introl eq_refl)) as (l & m & ->). cbn. apply IH. intros e I. apply A. now right.
Qed.

(** Places counted as uses after the start. *)
Fixpoint eff (h : list event) : list (floc * bool) :=
  match h with
  | [] => []
  | Use l m :: h => (l, m) :: eff h
  | Decl l true :: h => (l, false) :: eff h
  | _ :: h => eff h
  end.

Lemma in_eff : forall l m h,
  In (l, m) (eff h) <-> In (Use l m) h \/ (m = false /\ In (Decl l true) h).
Proof.
  induction h as [| ev h IH]; [cbn; tauto |].
  destruct ev as [l' [|] | l' | l' m']; cbn; rewrite IH; clear IH;
    intuition (try congruence); try (match goal with H : (_, _) = (_, _) |- _ => injection H as -> -> end; auto).
  all: try (left; congruence).
  all: try match goal with H : Use _ _ = Use _ _ |- _ => injection H as -> -> end; auto.
  all: try match goal with H : Decl _ _ = Decl _ _ |- _ => injection H as -> end; subst; auto.
Qed.

Definition first_def (o : loc) (h : list event) : loc :=
  fold_left (fun o ev => match ev with Define l => keep o l | _ => o end) h o.

(** The uses seen so far, as a fold over the counted places. *)
Definition rec_use (d : loc) (s : list loc) (p : floc * bool) : list loc :=
  if showuses fl then add s (Some (fst p))
  else if track fl then
    if snd p then addUndefined s else addDifferentFile base s d (Some (fst p))
  else s.

Lemma run_from : forall h d o u s,
  fold_left step h (Some {| declared := Some d; defined := o; used := u; uses := s |}) =
  Some {| declared := Some d; defined := first_def o h;
          used := u || negb (match eff h with [] => true | _ => false end);
          uses := fold_left (rec_use (Some d)) (eff h) s |}.
Proof.
  induction h as [| ev h IH]; intros d o u s.
  - cbn. now rewrite orb_false_r.
  - destruct ev as [l [|] | l | l m]; cbn [fold_left Uses_model.step eff].
    + unfold setUsed. cbn [declared defined used uses keep]. rewrite IH.
      cbn [first_def fold_left]. unfold rec_use at 2. cbn [fst snd].
      rewrite orb_true_r. reflexivity.
    + cbn [declared defined used uses keep]. rewrite IH. reflexivity.
    + cbn [declared defined used uses keep]. rewrite IH. reflexivity.
    + unfold setUsed. cbn [declared defined used uses keep]. rewrite IH.
      cbn [first_def fold_left]. unfold rec_use at 2. cbn [fst snd].
      rewrite orb_true_r. reflexivity.
Qed.

Definition def_of (ev : event) : loc := match ev with Define l => Some l | _ => None end.

Lemma run_start : forall us ev d rest, all_uses us -> starts ev d ->
  run (us ++ ev :: rest) =
  Some {| declared := Some d; defined := first_def (def_of ev) rest;
          used := negb (match eff rest with [] => true | _ => false end);
          uses := fold_left (rec_use (Some d)) (eff rest) [] |}.
Proof.
  intros us ev d rest A F. unfold Uses_model.run. rewrite fold_left_app, run_uses by assumption.
  cbn [fold_left]. destruct F as [[x ->] | ->]; cbn [Uses_model.step def_of]; now rewrite run_from.
Qed.

Lemma first_def_some : forall h l, first_def (Some l) h = Some l.
Proof. induction h as [| [] h IH]; intros l'; cbn; auto; apply IH. Qed.

Lemma defined_spec : forall h l, defined_at l h <-> first_def None h = Some l.
Proof.
  induction h as [| ev h IH]; intros l.
  - split; [intros D; inversion D | discriminate].
  - split.
    + intros D. inversion D as [h' E | ev' h' N D' E]; subst.
      * cbn. apply first_def_some.
      * destruct ev as [l' x | l' | l' m]; cbn; [now apply IH | exfalso; now apply (N l') | now apply IH].
    + destruct ev as [l' x | l' | l' m]; cbn; intros E.
      * apply da_later; [discriminate | now apply IH].
      * fold (first_def (Some l') h) in E. rewrite first_def_some in E. injection E as ->. constructor.
      * apply da_later; [discriminate | now apply IH].
Qed.

Lemma first_def_split : forall us ev d rest, all_uses us -> starts ev d ->
  first_def None (us ++ ev :: rest) = first_def (def_of ev) rest.
Proof.
  intros us ev d rest A F. unfold first_def. rewrite fold_left_app.
  assert (U : fold_left (fun o ev => match ev with Define l => keep o l | _ => o end) us None = None).
  { clear F. induction us as [| u us IH]; [reflexivity |].
    destruct (A u (or_introl eq_refl)) as (l & m & ->). cbn. apply IH. intros e I. apply A. now right. }
  rewrite U. cbn. destruct F as [[x ->] | ->]; reflexivity.
Qed.

(** The list of uses without showuses: counted places outside the module of [d] leave an
    undefined place in front. *)
Definition out (d : floc) (p : floc * bool) : bool := snd p || negb (sameModule (Some d) (Some (fst p))).

Definition shape (d : floc) (ps : list (floc * bool)) (s : list loc) : Prop :=
  (existsb (out d) ps = true /\ exists r, s = None :: r /\ List.length r <= 1) \/
  (existsb (out d) ps = false /\
   ((ps = [] /\ s = []) \/ (exists p q, ps = p :: q /\ s = [Some (fst p)]))).

Lemma shape_step : forall d ps s p, showuses fl = false -> track fl = true ->
  shape d ps s -> shape d (ps ++ [p]) (rec_use (Some d) s p).
Proof.
  intros d ps s p SH TR I. unfold rec_use. rewrite SH, TR.
  unfold shape in *. rewrite existsb_app. cbn [existsb]. rewrite orb_false_r.
  destruct I as [[B (r & -> & L)] | [B [[-> ->] | (p0 & q & -> & ->)]]]; rewrite B; cbn [orb].
  - left. split; [reflexivity |]. exists r. split; [| assumption].
    destruct (snd p); reflexivity.
  - destruct (out d p) eqn:O; unfold out in O.
    + left. split; [reflexivity |]. destruct (snd p); cbn [addUndefined addDifferentFile].
      * exists []. split; [reflexivity | cbn; lia].
      * cbn [orb] in O. apply negb_true_iff in O. unfold addDifferentFile. rewrite O. cbn.
        exists []. split; [reflexivity | cbn; lia].
    + right. split; [reflexivity |]. right. apply orb_false_iff in O. destruct O as [O1 O2].
      apply negb_false_iff in O2. exists p, []. split; [reflexivity |].
      rewrite O1. unfold addDifferentFile. now rewrite O2.
  - destruct (out d p) eqn:O; unfold out in O.
    + left. split; [reflexivity |]. destruct (snd p).
      * exists [Some (fst p0)]. split; [reflexivity | cbn; lia].
      * cbn [orb] in O. apply negb_true_iff in O. unfold addDifferentFile. rewrite O. cbn.
        exists [Some (fst p0)]. split; [reflexivity | cbn; lia].
    + right. split; [reflexivity |]. right. apply orb_false_iff in O. destruct O as [O1 O2].
      apply negb_false_iff in O2. exists p0, (q ++ [p]). split; [reflexivity |].
      rewrite O1. unfold addDifferentFile. now rewrite O2.
Qed.

Lemma shape_all : forall d ps, showuses fl = false -> track fl = true ->
  shape d ps (fold_left (rec_use (Some d)) ps []).
Proof.
  intros d ps SH TR. induction ps as [| p ps IH] using rev_ind.
  - right. split; [reflexivity | left; split; reflexivity].
  - rewrite fold_left_app. cbn [fold_left]. now apply shape_step.
Qed.

Lemma sameModule_user : forall f g, sameModule (Some (FUser f)) (Some (FUser g)) = true <-> base f = base g.
Proof. intros. cbn. apply cstr_eqb_eq. Qed.

Lemma sameModule_in : forall f l, sameModule (Some (FUser f)) (Some l) = true <-> in_module (base f) l.
Proof.
  intros f l. destruct l as [g | |].
  - rewrite sameModule_user. unfold Uses_spec.in_module. split.
    + intros E. exists g. split; [reflexivity | congruence].
    + intros (h & E & B). injection E as ->. congruence.
  - cbn. split; [discriminate | intros (g & E & _); discriminate].
  - cbn. split; [discriminate | intros (g & E & _); discriminate].
Qed.

Lemma in_sameModule : forall f l, sameModule (Some l) (Some (FUser f)) = true <-> in_module (base f) l.
Proof.
  intros f l. destruct l as [g | |].
  - rewrite sameModule_user. unfold Uses_spec.in_module. split.
    + intros E. exists g. auto.
    + intros (h & E & B). injection E as ->. congruence.
  - cbn. split; [discriminate | intros (g & E & _); discriminate].
  - cbn. split; [discriminate | intros (g & E & _); discriminate].
Qed.

Lemma existsb_out : forall f ps, existsb (out (FUser f)) ps = false <->
  forall l m, In (l, m) ps -> m = false /\ in_module (base f) l.
Proof.
  intros f ps. split.
  - intros E l m I. assert (O : out (FUser f) (l, m) = false).
    { destruct (out (FUser f) (l, m)) eqn:O; [| reflexivity].
      rewrite <- E. symmetry. apply existsb_exists. eauto. }
    unfold out in O. apply orb_false_iff in O. cbn [fst snd] in O. destruct O as [-> O].
    split; [reflexivity |]. apply negb_false_iff in O. now apply sameModule_in.
  - intros H. destruct (existsb _ ps) eqn:E; [| reflexivity].
    apply existsb_exists in E. destruct E as ([l m] & I & O).
    destruct (H l m I) as [-> M]. unfold out in O. cbn [fst snd] in O. apply sameModule_in in M.
    rewrite M in O. discriminate.
Qed.

(** What counts as a use of a known name: uses, and declarations with extern. *)
Definition counts (l : floc) (m : bool) (h : list event) : Prop :=
  used_at l m h \/ (m = false /\ redeclared_at l h).

Lemma counts_eff : forall us ev d rest l m, all_uses us -> starts ev d ->
  (counts l m (us ++ ev :: rest) <-> In (l, m) (eff rest)).
Proof.
  intros. unfold counts. rewrite (used_rest us ev d), (redeclared_rest us ev d) by assumption.
  symmetry. apply in_eff.
Qed.

Lemma use_outside_spec : forall m us,
  use_outside base m us = true <-> exists u, In u us /\ (u = None \/ sameModule u m = false).
Proof.
  induction us as [| u us IH]; cbn [use_outside].
  - split; [discriminate | intros (u & [] & _)].
  - destruct (negb (is_def u) || negb (sameModule u m)) eqn:E.
    + split; [intros _ | reflexivity]. exists u. split; [now left |].
      apply orb_true_iff in E. destruct E as [E | E]; [left; destruct u; [discriminate | reflexivity] |].
      right. now apply negb_true_iff.
    + rewrite IH. split.
      * intros (x & I & O). exists x. split; [now right | assumption].
      * intros (x & [<- | I] & O); [| eauto]. exfalso. apply orb_false_iff in E. destruct E as [E1 E2].
        destruct O as [-> | O]; [discriminate |]. rewrite O in E2. discriminate.
Qed.

Definition plain (f : file) : Prop := special f = false \/ unusedspecial fl = true.

Lemma plain_test : forall f, plain f ->
  isSpecialFile special (Some (FUser f)) && negb (unusedspecial fl) = false.
Proof. intros f [E | E]; cbn; rewrite E; [reflexivity | apply andb_false_r]. Qed.

(** Exactly when the message about exported names is given. *)
Lemma export_exact : forall k h f,
  exportable k = true -> exportlocal fl = true -> showuses fl = false -> track fl = true ->
  plain f -> first_at (FUser f) h ->
  (export_msg base special fl k h = true <->
   (exists l m, counts l m h) /\
   (forall l m, counts l m h -> m = false /\ in_module (base f) l) /\
   (exists l, defined_at l h /\ in_module (base f) l)).
Proof.
  intros k h f K X SH TR PL FA. apply first_split in FA.
  destruct FA as (us & ev & rest & -> & A & ST).
  assert (DE : forall l, defined_at l (us ++ ev :: rest) <-> first_def (def_of ev) rest = Some l).
  { intros l. rewrite defined_spec, (first_def_split us ev (FUser f)) by assumption. tauto. }
  assert (CE : forall l m, counts l m (us ++ ev :: rest) <-> In (l, m) (eff rest))
    by (intros; now apply (counts_eff us ev (FUser f))).
  unfold export_msg. rewrite (run_start us ev (FUser f)) by assumption.
  unfold exportLocal. cbn [declared defined used uses]. rewrite K, plain_test, X, andb_true_r by assumption.
  pose proof (shape_all (FUser f) (eff rest) SH TR) as SP.
  destruct (fold_left (rec_use (Some (FUser f))) (eff rest) []) as [| u s] eqn:EU.
  - destruct SP as [[_ (r & E & _)] | [_ [[E _] | (p & q & _ & E)]]]; try discriminate E.
    rewrite E. cbn. split; [discriminate |]. intros ((l & m & C) & _). apply CE in C. rewrite E in C. destruct C.
  - destruct SP as [[B (r & E & _)] | [B [[_ E] | (p & q & E1 & E)]]].
    + injection E as -> ->. cbn [use_outside is_def negb orb].
      split; [destruct (eff rest); discriminate |].
      intros (_ & H & _). exfalso.
      assert (B' : existsb (out (FUser f)) (eff rest) = false).
      { apply existsb_out. intros l m I. apply H. now apply CE. }
      congruence.
    + discriminate E.
    + injection E as -> ->. rewrite E1. cbn [negb andb orb use_outside is_def].
      pose proof (proj1 (existsb_out f (eff rest)) B) as ALL.
      assert (PM : in_module (base f) (fst p)).
      { apply (ALL (fst p) (snd p)). rewrite E1. left. now destruct p. }
      destruct (first_def (def_of ev) rest) as [dl |] eqn:DF.
      * destruct PM as (g & EG & BG). rewrite EG.
        destruct dl as [df | |].
        -- cbn. destruct (cstr_eqb (base g) (base df)) eqn:Q; cbn.
           ++ apply cstr_eqb_eq in Q. split; [intros _ | reflexivity].
              split; [exists (fst p), (snd p); apply CE; rewrite E1; left; now destruct p |].
              split; [intros l m C; apply ALL; now apply CE |].
              exists (FUser df). split; [now apply DE | exists df; split; congruence].
           ++ split; [discriminate |]. intros (_ & _ & l & D & M). apply DE in D. injection D as <-.
              destruct M as (df' & Q' & M). injection Q' as <-.
              assert (cstr_eqb (base g) (base df) = true) by (apply cstr_eqb_eq; congruence). congruence.
        -- cbn. split; [discriminate |]. intros (_ & _ & l & D & M). apply DE in D. injection D as <-.
           destruct M as (? & ? & _). discriminate.
        -- cbn. split; [discriminate |]. intros (_ & _ & l & D & M). apply DE in D. injection D as <-.
           destruct M as (? & ? & _). discriminate.
      * cbn. rewrite ?andb_false_r. split; [discriminate |]. intros (_ & _ & l & D & _).
        apply DE in D. discriminate.
Qed.

Lemma export_flag : forall k h, export_msg base special fl k h = true -> exportlocal fl = true /\ exportable k = true.
Proof.
  intros k h. unfold export_msg, exportLocal. destruct (run h) as [e |]; [| discriminate].
  destruct (exportable k); [| discriminate]. destruct (used e); [| discriminate]. cbn [andb].
  intros E. apply andb_true_iff in E. tauto.
Qed.

Lemma export_special : forall k h f, first_at (FUser f) h ->
  export_msg base special fl k h = true -> plain f.
Proof.
  intros k h f FA. apply first_split in FA. destruct FA as (us & ev & rest & -> & A & ST).
  unfold export_msg. rewrite (run_start us ev (FUser f)) by assumption.
  unfold exportLocal, plain. cbn [declared isSpecialFile used].
  destruct (special f); [| auto]. destruct (unusedspecial fl); [auto |]. cbn [andb negb].
  match goal with |- (if ?b then _ else _) = _ -> _ => destruct b end; discriminate.
Qed.

(** With showuses all places are kept and compared with the definition. *)
Lemma fold_add : forall ps s d, showuses fl = true ->
  fold_left (rec_use d) ps s = s ++ map (fun p => Some (fst p)) ps.
Proof.
  induction ps as [| p ps IH]; intros s d SH; cbn [fold_left map].
  - now rewrite app_nil_r.
  - rewrite IH by assumption. unfold rec_use. rewrite SH. cbn [add]. now rewrite <- app_assoc.
Qed.

Lemma export_showuses : forall k h f g,
  exportable k = true -> exportlocal fl = true -> showuses fl = true ->
  plain f -> first_at (FUser f) h -> defined_at (FUser g) h ->
  (export_msg base special fl k h = true <->
   (exists l m, counts l m h) /\ (forall l m, counts l m h -> in_module (base g) l)).
Proof.
  intros k h f g K X SH PL FA DA. apply first_split in FA.
  destruct FA as (us & ev & rest & -> & A & ST).
  rewrite defined_spec, (first_def_split us ev (FUser f)) in DA by assumption.
  assert (CE : forall l m, counts l m (us ++ ev :: rest) <-> In (l, m) (eff rest))
    by (intros; now apply (counts_eff us ev (FUser f))).
  unfold export_msg. rewrite (run_start us ev (FUser f)) by assumption.
  unfold exportLocal. cbn [declared defined used uses]. rewrite K, plain_test, X, andb_true_r, DA by assumption.
  rewrite fold_add by assumption. cbn [app].
  destruct (eff rest) as [| p q] eqn:E.
  - cbn. split; [discriminate |]. intros ((l & m & C) & _). apply CE in C. destruct C.
  - cbn [negb andb map orb].
    change (Some (fst p) :: map (fun p => Some (fst p)) q) with (map (fun p : floc * bool => Some (fst p)) (p :: q)).
    rewrite negb_true_iff. split.
    + intros U. split; [exists (fst p), (snd p); apply CE; left; now destruct p |].
      intros l m C. apply CE in C. apply in_sameModule.
      destruct (sameModule (Some l) (Some (FUser g))) eqn:M; [reflexivity |]. exfalso.
      assert (U' : use_outside base (Some (FUser g)) (map (fun p : floc * bool => Some (fst p)) (p :: q)) = true).
      { apply use_outside_spec. exists (Some l). split; [| now right].
        apply in_map_iff. exists (l, m). split; [reflexivity | assumption]. }
      congruence.
    + intros (_ & H). destruct (use_outside _ _ _) eqn:U; [| reflexivity].
      apply use_outside_spec in U. destruct U as (u & I & O). apply in_map_iff in I.
      destruct I as ([l m] & <- & I). apply CE in I. apply H in I. cbn [fst] in O.
      destruct O as [O | O]; [discriminate |]. apply in_sameModule in I. congruence.
Qed.

Lemma export_showuses_def : forall k h f, showuses fl = true -> first_at (FUser f) h ->
  (forall l, ~ defined_at l h) -> export_msg base special fl k h = false.
Proof.
  intros k h f SH FA ND. apply first_split in FA. destruct FA as (us & ev & rest & -> & A & ST).
  unfold export_msg. rewrite (run_start us ev (FUser f)) by assumption.
  destruct (first_def (def_of ev) rest) as [l |] eqn:DF.
  - exfalso. apply (ND l). rewrite defined_spec, (first_def_split us ev (FUser f)); assumption.
  - unfold exportLocal. cbn [declared defined used uses]. rewrite fold_add by assumption. cbn [app].
    destruct (eff rest) as [| p q]; cbn.
    + rewrite andb_false_r. reflexivity.
    + rewrite andb_true_r. destruct (exportable k); [| reflexivity].
      destruct (special f), (unusedspecial fl); reflexivity.
Qed.

Lemma decided : forall h, (exists l, defined_at l h) \/ (forall l, ~ defined_at l h).
Proof.
  intros h. destruct (first_def None h) as [l |] eqn:E.
  - left. exists l. now apply defined_spec.
  - right. intros l D. apply defined_spec in D. congruence.
Qed.

(** A name used at a builtin place is never reported. *)
Lemma builtin_used : forall k h f, (exportlocal fl = true -> track fl = true) ->
  (forall l, defined_at l h -> exists g, l = FUser g) ->
  first_at (FUser f) h -> used_at FBuiltin false h ->
  export_msg base special fl k h = false /\ unused_msg base special fl k h = None.
Proof.
  intros k h f TR DU FA U.
  assert (NB : forall b, ~ in_module b FBuiltin) by (intros b (g & E & _); discriminate).
  split.
  - destruct (export_msg base special fl k h) eqn:M; [| reflexivity]. exfalso.
    pose proof (export_special k h f FA M) as PL. destruct (export_flag k h M) as [X K].
    destruct (showuses fl) eqn:SH.
    + destruct (decided h) as [(l & D) | ND].
      * destruct (DU l D) as (g & ->).
        apply (export_showuses k h f g K X SH PL FA D) in M. destruct M as (_ & H).
        apply (NB (base g)). apply (H FBuiltin false). now left.
      * rewrite (export_showuses_def k h f SH FA ND) in M. discriminate.
    + apply (export_exact k h f K X SH (TR X) PL FA) in M. destruct M as (_ & H & _).
      apply (NB (base f)). apply (H FBuiltin false). now left.
  - apply first_split in FA. destruct FA as (us & ev & rest & -> & A & ST).
    apply (used_rest us ev (FUser f)) in U; try assumption.
    unfold unused_msg. rewrite (run_start us ev (FUser f)) by assumption.
    unfold allUsed. cbn [declared defined used uses].
    assert (I : In (FBuiltin, false) (eff rest)) by (apply in_eff; now left).
    destruct (eff rest); [destruct I |]. cbn [negb].
    match goal with |- (if ?b then _ else _) = _ => destruct b end; reflexivity.
Qed.

(** Unused names. *)
Lemma unused_exact : forall k h f m,
  plain f -> (forall l, defined_at l h -> isSpecialFile special (Some l) = false \/ unusedspecial fl = true) ->
  first_at (FUser f) h ->
  (unused_msg base special fl k h = Some m <->
   (forall l b, ~ counts l b h) /\ unused_flag k = Some m /\ flag_on fl m = true).
Proof.
  intros k h f m PL PD FA. apply first_split in FA.
  destruct FA as (us & ev & rest & -> & A & ST).
  assert (CE : forall l m, counts l m (us ++ ev :: rest) <-> In (l, m) (eff rest))
    by (intros; now apply (counts_eff us ev (FUser f))).
  unfold unused_msg. rewrite (run_start us ev (FUser f)) by assumption.
  unfold allUsed. cbn [declared defined used uses].
  assert (Q : (isSpecialFile special (Some (FUser f)) || isSpecialFile special (first_def (def_of ev) rest))
              && negb (unusedspecial fl) = false).
  { destruct (unusedspecial fl) eqn:US; [apply andb_false_r |]. rewrite andb_true_r.
    apply orb_false_iff. split; [destruct PL; cbn; congruence |].
    destruct (first_def (def_of ev) rest) as [dl |] eqn:DF; [| reflexivity].
    destruct (PD dl) as [E | E]; [| assumption | congruence].
    rewrite defined_spec, (first_def_split us ev (FUser f)); assumption. }
  rewrite Q. destruct (eff rest) as [| p q] eqn:E; cbn [negb].
  - destruct (unused_flag k) as [m' |].
    + destruct (flag_on fl m') eqn:FO.
      * split.
        -- intros H. injection H as ->. repeat split; auto. intros l b C. apply CE in C. destruct C.
        -- intros (_ & H & _). now injection H as ->.
      * split; [discriminate |]. intros (_ & H & H'). injection H as ->. congruence.
    + split; [discriminate |]. intros (_ & H & _). discriminate.
  - split; [discriminate |]. intros (H & _). exfalso. apply (H (fst p) (snd p)). apply CE. left. now destruct p.
Qed.

Lemma exclusive : forall k h m, unused_msg base special fl k h = Some m -> export_msg base special fl k h = false.
Proof.
  intros k h m. unfold unused_msg, export_msg. destruct (run h) as [e |]; [| discriminate].
  unfold allUsed, exportLocal. destruct (used e) eqn:UE; [| now rewrite andb_false_r].
  intros U. exfalso. revert U.
  destruct (declared e) as [[f | |] |]; [| | | destruct (defined e) as [[f | |] |]]; cbv zeta;
    try discriminate; match goal with |- (if ?b then _ else _) = _ -> _ => destruct b end; discriminate.
Qed.

(** At most two places are kept for a name. *)
Lemma two_kept : forall h e, showuses fl = false -> run h = Some e -> List.length (uses e) <= 2.
Proof.
  intros h e SH R.
  assert (D : (exists d, first_at d h) \/ all_uses h).
  { clear R. induction h as [| ev h IH]; [right; intros ? [] |].
    destruct ev as [l x | l | l m]; [left; exists l; constructor | left; exists l; constructor |].
    destruct IH as [(d & F) | A]; [left; exists d; now constructor |].
    right. intros ev [<- | I]; eauto. }
  destruct D as [(d & F) | A].
  - apply first_split in F. destruct F as (us & ev & rest & -> & A & ST).
    rewrite (run_start us ev d) in R by assumption. injection R as <-. cbn [uses].
    destruct (track fl) eqn:TR.
    + destruct (shape_all d (eff rest) SH TR) as [[_ (r & -> & L)] | [_ [[_ ->] | (p & q & _ & ->)]]];
        [apply le_n_S; exact L | cbn; lia | cbn; lia].
    + assert (Z : forall ps s, fold_left (rec_use (Some d)) ps s = s).
      { induction ps as [| p ps IH]; intros s; [reflexivity |]. cbn. unfold rec_use at 2. rewrite SH, TR. apply IH. }
      rewrite Z. cbn. lia.
  - unfold Uses_model.run in R. rewrite run_uses in R by assumption. discriminate.
Qed.

Lemma message_of_spec : forall k m, message_of fl k m <-> unused_flag k = Some m /\ flag_on fl m = true.
Proof.
  intros k m. split.
  - intros M. destruct M; split; auto.
  - intros [E F]. destruct k as [| [|] | | | | | | |]; cbn in E; try discriminate E; injection E as <-; now constructor.
Qed.

Lemma unused_special : forall k h f m, first_at (FUser f) h -> unused_msg base special fl k h = Some m ->
  plain f /\ forall g, defined_at (FUser g) h -> plain g.
Proof.
  intros k h f m FA. apply first_split in FA. destruct FA as (us & ev & rest & -> & A & ST).
  unfold unused_msg. rewrite (run_start us ev (FUser f)) by assumption.
  unfold allUsed, plain. cbn [declared defined used uses].
  destruct (unusedspecial fl); [auto |]. cbn [negb]. rewrite andb_true_r.
  destruct (isSpecialFile special (Some (FUser f))) eqn:E; [discriminate |]. cbn [orb].
  destruct (isSpecialFile special (first_def (def_of ev) rest)) eqn:E2; [discriminate |].
  intros _. split; [now left |]. intros g D. left.
  rewrite defined_spec, (first_def_split us ev (FUser f)) in D by assumption. rewrite D in E2. exact E2.
Qed.

Lemma untracked : forall k h, showuses fl = false -> track fl = false -> export_msg base special fl k h = false.
Proof.
  intros k h SH TR. unfold export_msg. destruct (run h) as [e |] eqn:R; [| reflexivity].
  assert (U : forall h st e, (forall e0, st = Some e0 -> uses e0 = []) -> fold_left step h st = Some e -> uses e = []).
  { clear - SH TR. induction h as [| ev h IH]; intros st e I R; [now apply I |].
    cbn [fold_left] in R. apply (IH (step st ev) e); [| exact R]. clear IH R. intros e0 E.
    destruct st as [e1 |].
    - specialize (I e1 eq_refl).
      destruct ev as [l [|] | l | l m]; cbn in E; injection E as <-; cbn; rewrite ?SH, ?TR; exact I.
    - destruct ev as [l x | l | l m]; cbn in E; try discriminate E; injection E as <-; reflexivity. }
  unfold exportLocal. rewrite (U h None e); [| discriminate | exact R].
  destruct (_ && used e); [| reflexivity]. cbn [use_outside orb].
  match goal with |- context [if ?b then _ else _] => destruct b end; reflexivity.
Qed.
End Proofs.
