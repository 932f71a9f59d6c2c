(** Proofs about flag names. *)
From Verif Require Import Cbase Cbase_facts Pos_model Flagtab_model Flagname_model Flagname_spec.

(** * Stripping *)
Definition is_sep (c : ascii) : bool := existsb (Ascii.eqb c) (lit " -_").
Lemma is_sep_spec : forall c, is_sep c = true <-> separator c.
Proof.
  intros c. unfold is_sep, separator. cbn. rewrite !orb_true_iff, !Ascii.eqb_eq. intuition discriminate.
Qed.

Lemma strip_loop_at : forall fuel a b cl, (List.length b < fuel)%nat ->
  strip_loop fuel (List.length a) cl (a ++ b) = a ++ filter (fun c => negb (existsb (Ascii.eqb c) cl)) b.
Proof.
  induction fuel as [|fuel IH]; intros a b cl L; [lia|]. cbn [strip_loop]. destruct b as [|c b].
  - rewrite (proj2 (nth_error_None _ _)) by (rewrite app_length; cbn; lia). reflexivity.
  - rewrite nth_error_app2 by lia. rewrite Nat.sub_diag. cbn [nth_error filter List.length] in *.
    destruct (existsb (Ascii.eqb c) cl); cbn [negb].
    + assert (remove_nth (List.length a) (a ++ c :: b) = a ++ b) as ->.
      { clear. induction a as [|x a IH]; [reflexivity|]. cbn. rewrite IH. reflexivity. }
      apply IH. lia.
    + change (a ++ c :: b) with (a ++ [c] ++ b). rewrite app_assoc.
      replace (S (List.length a)) with (List.length (a ++ [c])) by (rewrite app_length; cbn; lia).
      rewrite IH by lia. rewrite <- app_assoc. reflexivity.
Qed.
Lemma strip_filter : forall s, strip_chars s (lit " -_") = filter (fun c => negb (is_sep c)) s.
Proof. intros s. unfold strip_chars. apply (strip_loop_at (S (List.length s)) [] s). lia. Qed.

(** * Replacing *)
Lemma prefix_spec : forall p s r, prefix p s = Some r <-> s = p ++ r.
Proof.
  induction p as [|x p IH]; intros s r; cbn [prefix app]; [split; [intros [= ->]; reflexivity|intros ->; reflexivity]|].
  destruct s as [|y s]; [split; discriminate|]. destruct (Ascii.eqb x y) eqn:E.
  - apply Ascii.eqb_eq in E. subst y. rewrite IH. split; [intros ->; reflexivity|intros H; injection H; auto].
  - apply Ascii.eqb_neq in E. split; [discriminate|]. intros H. injection H as -> _. contradiction.
Qed.
Lemma strstr_sound : forall s p a b, strstr s p = Some (a, b) -> s = a ++ p ++ b.
Proof.
  induction s as [|c s IH]; intros p a b H; cbn [strstr] in H.
  - destruct (prefix p []) as [r|] eqn:E; [|discriminate]. injection H as <- <-. apply prefix_spec in E. exact E.
  - destruct (prefix p (c :: s)) as [r|] eqn:E.
    + injection H as <- <-. apply prefix_spec in E. exact E.
    + destruct (strstr s p) as [(a' & b')|] eqn:F; [|discriminate]. injection H as <- <-. cbn. rewrite (IH _ _ _ F). reflexivity.
Qed.

(** Occurrences do not contain a separator. *)
Section Sep.
Variable p : cstr.
Hypothesis P : p <> [].
Hypothesis NS : forallb (fun c => negb (is_sep c)) p = true.

Lemma prefix_sep : forall q a c b, forallb (fun c => negb (is_sep c)) q = true -> is_sep c = true ->
  prefix q (a ++ c :: b) = match prefix q a with Some r => Some (r ++ c :: b) | None => None end.
Proof.
  induction q as [|x q IH]; intros a c b N S; [reflexivity|]. cbn [forallb] in N. apply andb_true_iff in N. destruct N as [N1 N2].
  destruct a as [|y a]; cbn [app prefix].
  - destruct (Ascii.eqb x c) eqn:E; [|reflexivity]. apply Ascii.eqb_eq in E. subst x. rewrite S in N1. discriminate.
  - destruct (Ascii.eqb x y); [apply IH; assumption|reflexivity].
Qed.
Lemma strstr_sep : forall a c b, is_sep c = true ->
  strstr (a ++ c :: b) p = match strstr a p with
                           | Some (x, y) => Some (x, y ++ c :: b)
                           | None => match strstr b p with Some (x, y) => Some (a ++ c :: x, y) | None => None end
                           end.
Proof.
  induction a as [|x a IH]; intros c b S.
  - cbn [app strstr]. destruct (prefix p (c :: b)) as [r|] eqn:E.
    + exfalso. pose proof (prefix_sep p [] c b NS S) as H. cbn [app] in H. rewrite E in H.
      destruct p; [congruence|discriminate].
    + destruct (prefix p []) eqn:F; [destruct p; [congruence|discriminate]|]. reflexivity.
  - cbn [app strstr]. rewrite (prefix_sep p (x :: a) c b NS S : prefix p (x :: a ++ c :: b) = _).
    destruct (prefix p (x :: a)) as [r|]; [reflexivity|]. rewrite IH by exact S.
    destruct (strstr a p) as [(u & v)|]; [reflexivity|]. destruct (strstr b p) as [(u & v)|]; reflexivity.
Qed.
End Sep.

Definition rep (t : cstr * cstr) (s : cstr) : cstr := replace_lit (List.length s) (fst t) (snd t) s.
Definition good_pair (t : cstr * cstr) : Prop :=
  (List.length (snd t) < List.length (fst t))%nat /\ forallb (fun c => negb (is_sep c)) (fst t) = true.

Lemma good_nonempty : forall t, good_pair t -> fst t <> [].
Proof. intros t [H _] E. rewrite E in H. cbn in H. lia. Qed.
Lemma step_shorter : forall t s a b, good_pair t -> strstr s (fst t) = Some (a, b) -> (List.length (a ++ snd t ++ b) < List.length s)%nat.
Proof. intros t s a b [G _] H. apply strstr_sound in H. subst s. rewrite !app_length. lia. Qed.
Lemma rep_fuel : forall t, good_pair t -> forall n m s, (List.length s <= n)%nat -> (List.length s <= m)%nat ->
  replace_lit n (fst t) (snd t) s = replace_lit m (fst t) (snd t) s.
Proof.
  intros t G. induction n as [|n IH]; intros m s Ln Lm.
  - destruct s; [|cbn in Ln; lia]. destruct m; [reflexivity|]. cbn.
    pose proof (good_nonempty t G) as NE. destruct (fst t); [congruence|]. reflexivity.
  - destruct m as [|m].
    + destruct s; [|cbn in Lm; lia]. cbn. pose proof (good_nonempty t G) as NE. destruct (fst t); [congruence|]. reflexivity.
    + cbn [replace_lit]. destruct (strstr s (fst t)) as [(a & b)|] eqn:E; [|reflexivity].
      pose proof (step_shorter t s a b G E). apply IH; lia.
Qed.
Lemma rep_step : forall t s, good_pair t ->
  rep t s = match strstr s (fst t) with Some (a, b) => rep t (a ++ snd t ++ b) | None => s end.
Proof.
  intros t s G. unfold rep. destruct (strstr s (fst t)) as [(a & b)|] eqn:E.
  - pose proof (step_shorter t s a b G E). destruct (List.length s) as [|n] eqn:L; [lia|].
    cbn [replace_lit]. rewrite E. apply rep_fuel; [exact G| |]; lia.
  - destruct (List.length s); [reflexivity|]. cbn [replace_lit]. rewrite E. reflexivity.
Qed.

Lemma rep_sep : forall t, good_pair t -> forall n a c b, is_sep c = true -> (List.length a + List.length b <= n)%nat ->
  rep t (a ++ c :: b) = rep t a ++ c :: rep t b.
Proof.
  intros t G. induction n as [n IH] using (well_founded_induction lt_wf). intros a c b S L.
  rewrite (rep_step t (a ++ c :: b) G), (strstr_sep _ (good_nonempty t G) (proj2 G)) by exact S.
  destruct (strstr a (fst t)) as [(x & y)|] eqn:E.
  - rewrite (rep_step t a G), E. pose proof (step_shorter t a x y G E) as SH.
    replace (x ++ snd t ++ y ++ c :: b) with ((x ++ snd t ++ y) ++ c :: b) by (rewrite <- !app_assoc; reflexivity).
    apply (IH (List.length (x ++ snd t ++ y) + List.length b)%nat); [lia|exact S|lia].
  - rewrite (rep_step t a G), E. destruct (strstr b (fst t)) as [(x & y)|] eqn:F.
    + rewrite (rep_step t b G), F. pose proof (step_shorter t b x y G F) as SH.
      replace ((a ++ c :: x) ++ snd t ++ y) with (a ++ c :: (x ++ snd t ++ y)) by (rewrite <- !app_assoc; reflexivity).
      rewrite (IH (List.length a + List.length (x ++ snd t ++ y))%nat) by (try exact S; lia).
      rewrite (rep_step t a G), E. reflexivity.
    + rewrite (rep_step t b G), F. reflexivity.
Qed.

Definition good_pairb (t : cstr * cstr) : bool :=
  (List.length (snd t) <? List.length (fst t))%nat && forallb (fun c => negb (is_sep c)) (fst t).
Lemma transform_good : Forall good_pair transform.
Proof.
  apply Forall_forall. intros t I. assert (good_pairb t = true) as H.
  { revert t I. apply forallb_forall. vm_compute. reflexivity. }
  apply andb_true_iff in H. destruct H as [H1 H2]. apply Nat.ltb_lt in H1. split; assumption.
Qed.
Lemma fold_sep : forall ts a c b, Forall good_pair ts -> is_sep c = true ->
  fold_left (fun s t => rep t s) ts (a ++ c :: b) = fold_left (fun s t => rep t s) ts a ++ c :: fold_left (fun s t => rep t s) ts b.
Proof.
  induction ts as [|t ts IH]; intros a c b G S; [reflexivity|]. inversion G; subst. cbn [fold_left].
  rewrite (rep_sep t) with (n := (List.length a + List.length b)%nat) by (try assumption; lia). apply IH; assumption.
Qed.
Lemma shorten_sep : forall a c b, is_sep c = true -> shorten (a ++ c :: b) = shorten a ++ c :: shorten b.
Proof. intros a c b S. apply (fold_sep transform a c b transform_good S). Qed.
Lemma filter_sep : forall a c b, is_sep c = true ->
  filter (fun c => negb (is_sep c)) (a ++ c :: b) = filter (fun c => negb (is_sep c)) a ++ filter (fun c => negb (is_sep c)) b.
Proof. intros a c b S. rewrite filter_app. f_equal. cbn [filter]. rewrite S. reflexivity. Qed.
Lemma canonicalize_filter : forall s, canonicalize s = filter (fun c => negb (is_sep c)) (shorten s).
Proof. intros s. exact (strip_filter (shorten s)). Qed.
Lemma canonicalize_sep : forall a c b, is_sep c = true -> canonicalize (a ++ c :: b) = canonicalize a ++ canonicalize b.
Proof.
  intros a c b S. rewrite !canonicalize_filter, (shorten_sep a c b S). apply filter_sep. exact S.
Qed.

(** * Spellings without separators *)
Definition plain (s : cstr) : bool := forallb (fun c => negb (is_sep c)) s.
Fixpoint spells (fuel : nat) (x : cstr) : list cstr :=
  match fuel with
  | O => []
  | S fuel =>
      match x with
      | [] => [[]]
      | c :: x' => map (cons c) (spells fuel x') ++
          List.concat (map (fun f => match prefix (snd f) x with
                                | Some r => map (app (fst f)) (spells fuel r)
                                | None => [] end) forms)
      end
  end.

Lemma spells_cons : forall fuel c x', spells (S fuel) (c :: x') =
  map (cons c) (spells fuel x') ++
  List.concat (map (fun f => match prefix (snd f) (c :: x') with
                        | Some r => map (app (fst f)) (spells fuel r)
                        | None => [] end) forms).
Proof. reflexivity. Qed.
Definition form_ok (f : cstr * cstr) : bool :=
  plain (fst f) && plain (snd f) && negb (cstr_eqb (fst f) []) && negb (cstr_eqb (snd f) []).
Lemma forms_ok : forall f, In f forms -> plain (fst f) = true /\ plain (snd f) = true /\ fst f <> [] /\ snd f <> [].
Proof.
  intros f I. assert (form_ok f = true) as H by (revert f I; apply forallb_forall; vm_compute; reflexivity).
  unfold form_ok in H. rewrite !andb_true_iff, !negb_true_iff in H. destruct H as [[[H1 H2] H3] H4].
  repeat split; try assumption; intros E; rewrite E in *; discriminate.
Qed.

(** A spelling is a spelling without separators of a first part, or of all of it. *)
Lemma spelled_cut : forall s n, spelled forms s n -> plain n = true ->
  exists y x, plain y = true /\ In y (spells (S (List.length x)) x) /\
    ((s = y /\ n = x) \/ exists c s' n', is_sep c = true /\ s = y ++ c :: s' /\ n = x ++ n' /\ spelled forms s' n').
Proof.
  assert (forall fuel fuel' x y, (fuel <= fuel')%nat -> In y (spells fuel x) -> In y (spells fuel' x)) as MONO.
  { induction fuel as [|fuel IH]; intros fuel' x y L H; [destruct H|]. destruct fuel' as [|fuel']; [lia|].
    destruct x as [|c x]; [exact H|]. rewrite spells_cons in *. apply in_app_or in H. apply in_or_app. destruct H as [H|H].
    - left. apply in_map_iff in H. destruct H as (z & <- & H). apply in_map. apply (IH fuel'); [lia|exact H].
    - right. apply in_concat in H. destruct H as (l & H & I). apply in_map_iff in H. destruct H as (f & <- & F).
      apply in_concat. eexists. split; [apply in_map_iff; exists f; split; [reflexivity|exact F]|].
      destruct (prefix (snd f) (c :: x)); [|destruct I]. apply in_map_iff in I. destruct I as (z & <- & I). apply in_map.
      apply (IH fuel'); [lia|exact I]. }
  intros s n H. induction H as [|c s n S H IH|c s n H IH|long short s n F H IH]; intros PN.
  - exists [], []. repeat split; [left; reflexivity|]. left. auto.
  - exists [], []. split; [reflexivity|]. split; [left; reflexivity|]. right. exists c, s, n. split; [apply is_sep_spec; exact S|]. auto.
  - unfold plain in PN; cbn [forallb] in PN; apply andb_true_iff in PN; destruct PN as [PC PN]. destruct (IH PN) as (y & x & PY & I & D).
    exists (c :: y), (c :: x). split; [unfold plain; cbn [forallb]; rewrite PC; exact PY|]. split.
    + cbn [List.length]. rewrite spells_cons.
      apply in_or_app. left. apply in_map. exact I.
    + destruct D as [[-> ->]|(c' & s' & n' & S & -> & -> & H')]; [left; auto|]. right. exists c', s', n'. auto.
  - unfold plain in PN. rewrite forallb_app in PN. apply andb_true_iff in PN. destruct PN as [PS PN].
    destruct (IH PN) as (y & x & PY & I & D). destruct (forms_ok _ F) as (P1 & P2 & N1 & N2). cbn [fst snd] in *.
    exists (long ++ y), (short ++ x). split; [unfold plain; rewrite forallb_app; fold (plain long) (plain y); rewrite P1, PY; reflexivity|]. split.
    + destruct (short ++ x) as [|c z] eqn:E; [destruct short; [congruence|discriminate]|].
      cbn [List.length]. rewrite spells_cons. apply in_or_app. right. apply in_concat. eexists. split.
      * apply in_map_iff. exists (long, short). split; [reflexivity|exact F].
      * cbn [fst snd]. rewrite (proj2 (prefix_spec short (c :: z) x)) by (symmetry; exact E). apply in_map.
        apply (MONO (S (List.length x))); [|exact I].
        assert (List.length (short ++ x) = S (List.length z)) as L by (rewrite E; reflexivity). rewrite app_length in L.
        destruct short; [congruence|]. cbn in L. lia.
    + destruct D as [[-> ->]|(c' & s' & n' & S & -> & -> & H')]; [left; auto|]. right. exists c', s', n'. rewrite !app_assoc. auto.
Qed.

(** * All parts of all names *)
Fixpoint suffixes (s : cstr) : list cstr := s :: match s with [] => [] | _ :: r => suffixes r end.
Fixpoint prefixes (s : cstr) : list cstr := [] :: match s with [] => [] | c :: r => map (cons c) (prefixes r) end.
Lemma suffixes_in : forall a b, In b (suffixes (a ++ b)).
Proof. induction a as [|c a IH]; intros b; [destruct b; left; reflexivity|]. right. apply IH. Qed.
Lemma prefixes_in : forall a b, In a (prefixes (a ++ b)).
Proof. induction a as [|c a IH]; intros b; [destruct b; left; reflexivity|]. right. apply in_map. apply IH. Qed.

Definition part_ok (x : cstr) : bool :=
  forallb (fun y => cstr_eqb (canonicalize y) x) (spells (S (List.length x)) x).
Definition name_ok (n : cstr) : bool := forallb (fun t => forallb part_ok (prefixes t)) (suffixes n).

Lemma name_ok_spelled : forall N, name_ok N = true -> plain N = true ->
  forall k s a n, (List.length s <= k)%nat -> N = a ++ n -> spelled forms s n -> canonicalize s = n.
Proof.
  intros N OK PN. assert (forall a x b, N = a ++ x ++ b -> part_ok x = true) as PART.
  { intros a x b ->. unfold name_ok in OK. rewrite forallb_forall in OK. specialize (OK (x ++ b) (suffixes_in a (x ++ b))).
    rewrite forallb_forall in OK. apply OK. apply prefixes_in. }
  assert (forall a x b y, N = a ++ x ++ b -> In y (spells (S (List.length x)) x) -> canonicalize y = x) as CAN.
  { intros a x b y E I. pose proof (PART a x b E) as H. unfold part_ok in H. rewrite forallb_forall in H.
    specialize (H y I). apply cstr_eqb_eq in H. exact H. }
  induction k as [|k IH]; intros s a n L E H.
  - destruct s; [|cbn in L; lia].
    assert (plain n = true) as Pn by (subst N; unfold plain in PN; rewrite forallb_app in PN; apply andb_true_iff in PN; apply PN).
    destruct (spelled_cut _ _ H Pn) as (y & x & PY & I & [[<- <-]|(c & s' & n' & S & E1 & _)]).
    + apply (CAN a n []); [rewrite app_nil_r; exact E|exact I].
    + destruct y; discriminate.
  - assert (plain n = true) as Pn by (subst N; unfold plain in PN; rewrite forallb_app in PN; apply andb_true_iff in PN; apply PN).
    destruct (spelled_cut _ _ H Pn) as (y & x & PY & I & [[<- <-]|(c & s' & n' & S & -> & -> & H')]).
    + apply (CAN a n []); [rewrite app_nil_r; exact E|exact I].
    + rewrite canonicalize_sep by exact S. rewrite (CAN a x n' y E I). f_equal.
      apply (IH s' (a ++ x)); [rewrite app_length in L; cbn in L; lia|rewrite <- app_assoc; exact E|exact H'].
Qed.

(** * The table *)
Definition directory_flag (f : fflag) : bool := existsb (Z.eqb (fcode f)) [FLG_INCLUDEPATH; FLG_SPECPATH; FLG_DEFINE; FLG_UNDEFINE].
Definition lower_start (n : cstr) : bool := match n with c :: _ => negb (existsb (Ascii.eqb c) (lit "ISDU")) | [] => false end.
Definition flag_ok (f : fflag) : bool :=
  directory_flag f || (name_ok (flag f) && plain (flag f) && lower_start (flag f) && (lookup (flag f) =? fcode f)).
Lemma table_ok : forallb flag_ok flag_table = true.
Proof. vm_compute. reflexivity. Qed.
Definition mode_ok (n : cstr) : bool := name_ok n && plain n && lower_start n && (lookup n =? MODENAME_FLAG).
Lemma modes_ok : forallb mode_ok mode_names = true.
Proof. vm_compute. reflexivity. Qed.

Lemma spelled_start : forall s n, spelled forms s n -> lower_start n = true -> lower_start s = true.
Proof.
  intros s n H L. inversion H; subst; try exact L.
  - apply is_sep_spec in H0. unfold is_sep in H0. cbn in H0. rewrite !orb_true_iff, !Ascii.eqb_eq in H0.
    destruct H0 as [->|[->|[->|H0]]]; [reflexivity|reflexivity|reflexivity|discriminate].
  - destruct long as [|c long]; [destruct (forms_ok _ H0) as (_ & _ & X & _); cbn in X; congruence|].
    cbn [app lower_start]. assert (forallb (fun f => lower_start (fst f)) forms = true) as A by (vm_compute; reflexivity).
    rewrite forallb_forall in A. exact (A _ H0).
Qed.
Lemma identify_lower : forall s, lower_start s = true -> identify s = lookup (canonicalize s).
Proof.
  intros [|c s] H; [discriminate|]. cbn [lower_start] in H. apply negb_true_iff in H. cbn in H.
  apply orb_false_iff in H. destruct H as [H1 H]. apply orb_false_iff in H. destruct H as [H2 H].
  apply orb_false_iff in H. destruct H as [H3 H]. apply orb_false_iff in H. destruct H as [H4 _].
  unfold identify. rewrite H1, H2, H3, H4. reflexivity.
Qed.

Theorem spelled_selects : forall f s, In f flag_table -> directory_flag f = false -> spelled forms s (flag f) -> identify s = fcode f.
Proof.
  intros f s I D H. pose proof table_ok as T. rewrite forallb_forall in T. specialize (T f I). unfold flag_ok in T. rewrite D in T. cbn [orb] in T.
  rewrite !andb_true_iff in T. destruct T as [[[T1 T2] T3] T4]. apply Z.eqb_eq in T4.
  rewrite identify_lower by (apply (spelled_start _ _ H T3)).
  rewrite (name_ok_spelled (flag f) T1 T2 (List.length s) s [] (flag f)); auto.
Qed.
Theorem spelled_mode : forall m s, In m mode_names -> spelled forms s m -> identify s = MODENAME_FLAG.
Proof.
  intros m s I H. pose proof modes_ok as T. rewrite forallb_forall in T. specialize (T m I). unfold mode_ok in T.
  rewrite !andb_true_iff in T. destruct T as [[[T1 T2] T3] T4]. apply Z.eqb_eq in T4.
  rewrite identify_lower by (apply (spelled_start _ _ H T3)).
  rewrite (name_ok_spelled m T1 T2 (List.length s) s [] m); auto.
Qed.

Fixpoint distinct_codes (l : list fflag) : bool :=
  match l with [] => true | f :: r => negb (existsb (fun g => fcode g =? fcode f) r) && distinct_codes r end.
Lemma distinct_codes_spec : forall l, distinct_codes l = true -> forall f g, In f l -> In g l -> fcode f = fcode g -> f = g.
Proof.
  induction l as [|h l IH]; intros D f g If Ig E; [destruct If|]. cbn in D. apply andb_true_iff in D. destruct D as [D1 D2].
  apply negb_true_iff in D1.
  assert (forall k, In k l -> fcode k <> fcode h) as N.
  { intros k K Ek. assert (existsb (fun g => fcode g =? fcode h) l = true); [|congruence].
    apply existsb_exists. exists k. split; [exact K|]. apply Z.eqb_eq. exact Ek. }
  destruct If as [<-|If]; destruct Ig as [<-|Ig]; [reflexivity| | |apply IH; assumption].
  - exfalso. apply (N g Ig). symmetry. exact E.
  - exfalso. apply (N f If). exact E.
Qed.
Lemma codes_distinct : forall f g, In f flag_table -> In g flag_table -> fcode f = fcode g -> f = g.
Proof. apply distinct_codes_spec. vm_compute. reflexivity. Qed.
