(** Proofs about macro redefinition. *)
From Verif Require Import Cbase Cbase_facts Redef_model Redef_spec.
From Coq Require Import ZifyBool.

(** * White space *)
Fixpoint sqf (w : bool) (s : cstr) : cstr :=
  match s with
  | [] => []
  | c :: r => if is_space c then (if w then sqf true r else ch_space :: sqf true r) else c :: sqf false r
  end.
Lemma space_space : is_space ch_space = true. Proof. reflexivity. Qed.

Fixpoint rt (s : cstr) : cstr :=
  match s with
  | [] => []
  | c :: r => match rt r with [] => if is_space c then [] else [c] | r' => c :: r' end
  end.
Lemma skip_while_app : forall p a b, skip_while p (a ++ b) = match skip_while p a with [] => skip_while p b | x => x ++ b end.
Proof. induction a as [|c a IH]; intros b; [reflexivity|]. cbn. destruct (p c); [apply IH|reflexivity]. Qed.
Lemma rtrim_rt : forall s, rtrim s = rt s.
Proof.
  unfold rtrim. induction s as [|c s IH]; [reflexivity|]. cbn [rev rt]. rewrite skip_while_app.
  destruct (skip_while is_space (rev s)) as [|x l] eqn:E.
  - cbn in IH. rewrite <- IH. cbn. destruct (is_space c); reflexivity.
  - rewrite rev_app_distr. cbn [rev app] in *. rewrite <- IH. destruct (rev l ++ [x]) eqn:E2; [|reflexivity].
    destruct (rev l); discriminate.
Qed.
Lemma rt_last : forall s c, is_space c = false -> rt (s ++ [c]) = s ++ [c].
Proof.
  induction s as [|x s IH]; intros c H; cbn; [rewrite H; reflexivity|]. rewrite IH by exact H. destruct (s ++ [c]) eqn:E; [destruct s; discriminate|reflexivity].
Qed.
Lemma rt_space : forall s c, is_space c = true -> rt (s ++ [c]) = rt s.
Proof. induction s as [|x s IH]; intros c H; cbn; [rewrite H; reflexivity|]. rewrite IH by exact H. reflexivity. Qed.
Lemma rt_form : forall s, rt s = [] \/ exists s' c, rt s = s' ++ [c] /\ is_space c = false.
Proof.
  induction s as [|x s IH]; [left; reflexivity|]. cbn. destruct IH as [->|(s' & c & -> & H)].
  - destruct (is_space x) eqn:E; [left; reflexivity|]. right. exists [], x. auto.
  - right. exists (x :: s'), c. split; [|exact H]. cbn [app]. destruct (s' ++ [c]) eqn:E; [destruct s'; discriminate|reflexivity].
Qed.

Fixpoint inter (ws : list cstr) : cstr :=
  match ws with [] => [] | [w] => w | w :: ws => w ++ ch_space :: inter ws end.
Lemma inter_cons : forall w ws, inter (w :: ws) = w ++ match ws with [] => [] | _ => ch_space :: inter ws end.
Proof. intros w [|x ws]; cbn [inter]; [rewrite app_nil_r; reflexivity|reflexivity]. Qed.

Lemma words_rt : forall s, (rt s = [] <-> words [] s = []) /\ forall w, words w s = words w (rt s).
Proof.
  induction s as [|c s [IH1 IH2]]; [split; [split; reflexivity|reflexivity]|]. cbn [rt words].
  destruct (rt s) as [|x r] eqn:R.
  - assert (words [] s = []) as W by (apply IH1; reflexivity). destruct (is_space c) eqn:E.
    + split; [split; auto|]. intros w. rewrite W. destruct w; reflexivity.
    + split.
      * split; [discriminate|]. intros H. exfalso. rewrite IH2 in H. cbn in H. discriminate.
      * intros w. cbn [words]. rewrite E. rewrite IH2. reflexivity.
  - split.
    + split; [discriminate|]. intros H. exfalso. destruct (is_space c).
      * apply IH1 in H. discriminate.
      * rewrite IH2 in H. assert (forall l w, w <> [] -> words w l <> []) as X.
        { induction l as [|y l IH]; intros w NW; cbn; [destruct w; congruence|]. destruct (is_space y); [destruct w; congruence|]. apply IH. discriminate. }
        exact (X _ [c] ltac:(discriminate) H).
    + intros w. cbn [words]. destruct (is_space c); [|apply IH2]. destruct w; rewrite IH2; reflexivity.
Qed.

Lemma words_sqf : forall s, (forall w, w <> [] -> words w (sqf false s) = words w s) /\ words [] (sqf true s) = words [] s /\ words [] (sqf false s) = words [] s.
Proof.
  induction s as [|c s (IH1 & IH2 & IH3)]; [repeat split; reflexivity|]. cbn [sqf words]. destruct (is_space c) eqn:E.
  - repeat split.
    + intros w NW. cbn [words]. rewrite space_space, IH2. destruct w; [congruence|reflexivity].
    + exact IH2.
    + cbn [words]. rewrite space_space. exact IH2.
  - repeat split; intros; cbn [words]; rewrite E; apply IH1; discriminate.
Qed.

Lemma inter_words : forall s, inter (words [] s) = sqf true (rt s) /\ forall w, w <> [] -> inter (words w s) = rev w ++ sqf false (rt s).
Proof.
  induction s as [|c s (IH1 & IH2)].
  - split; [reflexivity|]. intros w NW. cbn. destruct w; [congruence|]. rewrite app_nil_r. reflexivity.
  - cbn [words rt]. destruct (words_rt s) as [WR _]. destruct (is_space c) eqn:E.
    + split.
      * rewrite IH1. destruct (rt s) eqn:R; [reflexivity|]. cbn [sqf]. rewrite E. reflexivity.
      * intros w NW. destruct w as [|x w]; [congruence|]. rewrite inter_cons. f_equal. destruct (rt s) as [|y r] eqn:R.
        -- rewrite (proj1 WR eq_refl). reflexivity.
        -- cbn [sqf]. rewrite E. change (if is_space y then sqf true r else y :: sqf false r) with (sqf true (y :: r)).
           rewrite <- IH1. destruct (words [] s) eqn:W; [discriminate (proj2 WR eq_refl)|reflexivity].
    + split.
      * rewrite IH2 by discriminate. destruct (rt s) eqn:R; cbn [sqf rev app]; rewrite E; reflexivity.
      * intros w NW. rewrite IH2 by discriminate. cbn [rev]. rewrite <- app_assoc. f_equal.
        destruct (rt s) eqn:R; cbn [sqf app]; rewrite E; reflexivity.
Qed.

Lemma same_text_sqf : forall a b, same_text a b <-> sqf true (rt a) = sqf true (rt b).
Proof.
  intros a b. unfold same_text. split.
  - intros H. destruct (inter_words a) as [<- _]. destruct (inter_words b) as [<- _]. rewrite H. reflexivity.
  - intros H. rewrite (proj2 (words_rt a) []), (proj2 (words_rt b) []).
    rewrite <- (proj1 (proj2 (words_sqf (rt a)))), <- (proj1 (proj2 (words_sqf (rt b)))). rewrite H. reflexivity.
Qed.

(** * Comparing parts *)
Lemma sqf_skip : forall s, sqf true s = sqf false (skip_while is_space s).
Proof. induction s as [|c s IH]; [reflexivity|]. cbn. destruct (is_space c) eqn:E; [exact IH|]. cbn [sqf]. rewrite E. reflexivity. Qed.
Lemma skip_while_length : forall p s, (List.length (skip_while p s) <= List.length s)%nat.
Proof. induction s as [|c s IH]; cbn; [lia|]. destruct (p c); cbn; lia. Qed.

Lemma part_loop_spec : forall fuel a b, (List.length a + List.length b < fuel)%nat ->
  (part_loop fuel a b = false <-> sqf false a = sqf false b).
Proof.
  induction fuel as [|fuel IH]; intros a b L; [lia|]. destruct a as [|x a], b as [|y b]; cbn [part_loop].
  - split; reflexivity.
  - split; [discriminate|]. cbn. destruct (is_space y); discriminate.
  - split; [discriminate|]. cbn. destruct (is_space x); discriminate.
  - cbn [List.length] in L. destruct (is_space x) eqn:X, (is_space y) eqn:Y; cbn [andb].
    + cbn [skip_while]. rewrite X, Y. cbn [sqf]. rewrite X, Y, !sqf_skip.
      rewrite IH by (pose proof (skip_while_length is_space a); pose proof (skip_while_length is_space b); lia).
      split; [intros ->; reflexivity|intros H; injection H; auto].
    + destruct (Ascii.eqb x y) eqn:E; [apply Ascii.eqb_eq in E; congruence|]. split; [discriminate|].
      cbn [sqf]. rewrite X, Y. intros H. injection H as <- _. discriminate.
    + destruct (Ascii.eqb x y) eqn:E; [apply Ascii.eqb_eq in E; congruence|]. split; [discriminate|].
      cbn [sqf]. rewrite X, Y. intros H. injection H as -> _. discriminate.
    + cbn [sqf]. rewrite X, Y. destruct (Ascii.eqb x y) eqn:E.
      * apply Ascii.eqb_eq in E. subst y. rewrite IH by lia. split; [intros ->; reflexivity|intros H; injection H; auto].
      * apply Ascii.eqb_neq in E. split; [discriminate|]. intros H. injection H as H _. contradiction.
Qed.

Definition nonspace_head (s : cstr) : Prop := match s with [] => False | c :: _ => is_space c = false end.
Lemma skip_nonspace : forall s, nonspace_head s -> skip_while is_space s = s.
Proof. intros [|c s] H; [destruct H|]. cbn in *. rewrite H. reflexivity. Qed.

Lemma comp_part_mid : forall first a b, (first = true -> nonspace_head a /\ nonspace_head b) ->
  (comp_def_part first a b false = false <-> sqf false a = sqf false b).
Proof.
  intros first a b H. unfold comp_def_part. destruct first.
  - destruct (H eq_refl) as [Ha Hb]. rewrite !skip_nonspace by assumption. apply part_loop_spec. lia.
  - apply part_loop_spec. lia.
Qed.
Lemma comp_part_last : forall first a b, (first = true -> nonspace_head a /\ nonspace_head b) ->
  (comp_def_part first a b true = false <-> sqf false (rt a) = sqf false (rt b)).
Proof.
  intros first a b H. unfold comp_def_part. rewrite <- !rtrim_rt. destruct first.
  - destruct (H eq_refl) as [Ha Hb]. rewrite !skip_nonspace by assumption. apply part_loop_spec. lia.
  - apply part_loop_spec. lia.
Qed.

Lemma strncmp_eq_spec : forall a b, List.length a = List.length b -> Forall (fun c => code c <> 0) a -> (strncmp_eq a b = true <-> a = b).
Proof.
  induction a as [|x a IH]; intros [|y b] L N; try discriminate; [split; reflexivity|]. inversion N; subst. cbn [strncmp_eq].
  assert (code x =? 0 = false) as -> by (apply Z.eqb_neq; assumption). cbn [orb].
  rewrite andb_true_iff, Ascii.eqb_eq, IH by (auto; cbn in L; lia). split; [intros [-> ->]; reflexivity|intros E; injection E; auto].
Qed.

(** * Streams of characters and parameters *)
Inductive sym := C (c : ascii) | A (k : nat).
Fixpoint col (w : bool) (s : list sym) : list sym :=
  match s with
  | [] => []
  | C c :: r => if is_space c then (if w then col true r else C ch_space :: col true r) else C c :: col false r
  | A k :: r => A k :: col false r
  end.
Fixpoint flat (its : list (cstr * item)) (t : cstr) : list sym :=
  match its with
  | [] => map C t
  | (x, i) :: its => map C x ++ A (argno i) :: flat its t
  end.

Lemma col_chars : forall t w, col w (map C t) = map C (sqf w t).
Proof. induction t as [|c t IH]; intros w; [reflexivity|]. cbn. destruct (is_space c); [destruct w; cbn; rewrite IH; reflexivity|cbn; rewrite IH; reflexivity]. Qed.
Lemma col_arg : forall t w k r, col w (map C t ++ A k :: r) = map C (sqf w t) ++ A k :: col false r.
Proof. induction t as [|c t IH]; intros w k r; [reflexivity|]. cbn. destruct (is_space c); [destruct w; cbn; rewrite IH; reflexivity|cbn; rewrite IH; reflexivity]. Qed.
Lemma map_C_inj : forall a b, map C a = map C b -> a = b.
Proof. induction a as [|x a IH]; intros [|y b] H; try discriminate; [reflexivity|]. injection H as -> H. f_equal. auto. Qed.
Lemma cut_arg : forall a b k j r s, map C a ++ A k :: r = map C b ++ A j :: s -> a = b /\ k = j /\ r = s.
Proof.
  induction a as [|x a IH]; intros [|y b] k j r s H; cbn in H; try discriminate.
  - injection H as -> ->. auto.
  - injection H as -> H. destruct (IH _ _ _ _ _ H) as (-> & -> & ->). auto.
Qed.
Lemma cut_none : forall a b k r, map C a = map C b ++ A k :: r -> False.
Proof. induction a as [|x a IH]; intros [|y b] k r H; cbn in H; try discriminate. injection H as -> H. eauto. Qed.

Definition flags_off (i : item) : Prop := stringify i = false /\ raw_before i = false /\ raw_after i = false.
Definition no_nul (s : cstr) : Prop := Forall (fun c => code c <> 0) s.
Definition first_text (its : list (cstr * item)) (t : cstr) : cstr := match its with [] => t | (x, _) :: _ => x end.

Lemma compare_stream : forall l1 l2 t1 t2 first,
  Forall (fun x => flags_off (snd x) /\ no_nul (fst x)) l1 -> Forall (fun x => flags_off (snd x)) l2 ->
  (first = true -> nonspace_head (first_text l1 t1) /\ nonspace_head (first_text l2 t2)) ->
  ((let '(differ, f) := compare_items first l1 l2 in if differ then true else comp_def_part f t1 t2 true) = false
   <-> col false (flat l1 (rt t1)) = col false (flat l2 (rt t2))).
Proof.
  induction l1 as [|(x1 & i1) l1 IH]; intros [|(x2 & i2) l2] t1 t2 first F1 F2 H; cbn [compare_items flat].
  - rewrite !col_chars. rewrite comp_part_last by exact H. split; [intros ->; reflexivity|apply map_C_inj].
  - split; [discriminate|]. rewrite col_chars, col_arg. intros E. exfalso. eapply cut_none. exact E.
  - split; [discriminate|]. rewrite col_chars, col_arg. intros E. exfalso. symmetry in E. eapply cut_none. exact E.
  - inversion F1 as [|? ? ((S1 & B1 & A1) & N1) F1']. inversion F2 as [|? ? (S2 & B2 & A2) F2']. subst. cbn [snd fst] in *.
    cbn [first_text] in H. rewrite S1, S2, B1, B2, A1, A2. cbn [Bool.eqb negb orb]. rewrite !orb_false_r.
    assert (((List.length x1 =? List.length x2)%nat && strncmp_eq x1 x2) || negb (comp_def_part first x1 x2 false)
            = negb (comp_def_part first x1 x2 false)) as ->.
    { destruct ((List.length x1 =? List.length x2)%nat && strncmp_eq x1 x2) eqn:E; [|reflexivity].
      apply andb_true_iff in E. destruct E as [E1 E2]. apply Nat.eqb_eq in E1. apply strncmp_eq_spec in E2; [|exact E1|exact N1]. subst x2.
      assert (comp_def_part first x1 x1 false = false) as -> by (apply comp_part_mid; auto). reflexivity. }
    rewrite negb_involutive. rewrite !col_arg. specialize (IH l2 t1 t2 false F1' F2' ltac:(discriminate)).
    pose proof (comp_part_mid first x1 x2 H) as CP.
    destruct (comp_def_part first x1 x2 false) eqn:CD; cbn [orb].
    + split; [discriminate|]. intros E. apply cut_arg in E. destruct E as (E & _). 
      exfalso. apply CP in E. discriminate.
    + destruct (argno i1 =? argno i2)%nat eqn:AE; cbn [negb].
      * apply Nat.eqb_eq in AE. rewrite IH. split.
        -- intros ->. rewrite (proj1 CP eq_refl), AE. reflexivity.
        -- intros E. apply cut_arg in E. destruct E as (_ & _ & E). exact E.
      * apply Nat.eqb_neq in AE. split; [discriminate|]. intros E. apply cut_arg in E. destruct E as (_ & E & _). contradiction.
Qed.

(** * Storing a body *)
Definition toggle (c : ascii) (d : option ascii) : option ascii :=
  match d with Some q => if Ascii.eqb c q then None else d | None => Some c end.

Lemma idchar_plain : forall c, is_idchar c = true ->
  is_quote c = false /\ Ascii.eqb c ch_bslash = false /\ Ascii.eqb c ch_at = false /\ Ascii.eqb c ch_hash = false /\ is_space c = false.
Proof.
  intros c. destruct c as [[|] [|] [|] [|] [|] [|] [|] [|]]; intros H; try (vm_compute in H; discriminate H); vm_compute; auto.
Qed.
Lemma quote_plain : forall c, is_quote c = true -> is_space c = false /\ Ascii.eqb c ch_bslash = false /\ Ascii.eqb c ch_at = false /\ is_idchar c = false.
Proof.
  intros c. destruct c as [[|] [|] [|] [|] [|] [|] [|] [|]]; intros H; try (vm_compute in H; discriminate H); vm_compute; auto.
Qed.

Definition no_id_head (r : cstr) : Prop := match r with c :: _ => is_idchar c = false | [] => True end.

Section Enc.
Variable multi : bool.
Variable ps : list param.

Definition arg_at (d : option ascii) (id r : cstr) : option (nat * param) :=
  if match id with c :: _ => is_idstart c | [] => false end && negb (cstr_eqb id (lit "L") && quote_next r)
     && match d with None => true | Some _ => false end
  then find_arg ps id else None.

Inductive enc : option ascii -> cstr -> list sym -> option ascii -> Prop :=
| enc_nil d : enc d [] [] d
| enc_quote c d r s d' : is_quote c = true -> enc (toggle c d) r s d' -> enc d (c :: r) (C c :: s) d'
| enc_esc x q r s d' : enc (Some q) r s d' -> enc (Some q) (ch_bslash :: x :: r) (C ch_bslash :: C x :: s) d'
| enc_bs d r s d' : d = None \/ r = [] -> enc d r s d' -> enc d (ch_bslash :: r) (C ch_bslash :: s) d'
| enc_at_code r s d' : enc None r s d' -> enc None (ch_at :: r) (C ch_at :: C ch_at :: s) d'
| enc_at_lit q r s d' : enc (Some q) r s d' -> enc (Some q) (ch_at :: r) (C ch_at :: s) d'
| enc_char c d r s d' : is_quote c = false -> c <> ch_bslash -> c <> ch_at -> is_idchar c && multi = false ->
    enc d r s d' -> enc d (c :: r) (C c :: s) d'
| enc_id c id d r s d' : multi = true -> is_idchar c = true -> forallb is_idchar id = true -> no_id_head r ->
    arg_at d (c :: id) r = None -> enc d r s d' -> enc d (c :: id ++ r) (C c :: map C id ++ s) d'
| enc_arg c id r k a s d' : multi = true -> is_idchar c = true -> forallb is_idchar id = true -> no_id_head r ->
    arg_at None (c :: id) r = Some (k, a) -> enc None r s d' -> enc None (c :: id ++ r) (A k :: s) d'.

Lemma sqf_ids : forall id r, forallb is_idchar id = true -> sqf false (id ++ r) = id ++ sqf false r.
Proof.
  induction id as [|c id IH]; intros r H; [reflexivity|]. cbn in H. apply andb_true_iff in H. destruct H as [H1 H2].
  cbn. destruct (idchar_plain c H1) as (_ & _ & _ & _ & ->). rewrite IH by exact H2. reflexivity.
Qed.
Lemma col_ids : forall id r, forallb is_idchar id = true -> col false (map C id ++ r) = map C id ++ col false r.
Proof.
  induction id as [|c id IH]; intros r H; [reflexivity|]. cbn in H. apply andb_true_iff in H. destruct H as [H1 H2].
  cbn. destruct (idchar_plain c H1) as (_ & _ & _ & _ & ->). rewrite IH by exact H2. reflexivity.
Qed.
Lemma sqf_head : forall r, no_id_head r -> no_id_head (sqf false r).
Proof. intros [|c r] H; cbn in *; [exact I|]. destruct (is_space c); [reflexivity|exact H]. Qed.
Lemma sqf_quote : forall r, quote_next (sqf false r) = quote_next r.
Proof.
  intros [|c r]; cbn in *; [reflexivity|]. destruct (is_space c) eqn:E; [|reflexivity].
  cbn. destruct (is_quote c) eqn:Q; [|reflexivity]. destruct (quote_plain c Q) as [X _]. congruence.
Qed.

Lemma enc_sqf : forall d p s d', enc d p s d' -> forall w, enc d (sqf w p) (col w s) d'.
Proof.
  intros d p s d' E. induction E as [d|c d r s d' Q E IH|x q r s d' E IH|d r s d' B E IH|r s d' E IH|q r s d' E IH|c d r s d' Q NB NA NI E IH|c id d r s d' M IC ID NH AA E IH|c id r k a s d' M IC ID NH AA E IH]; intros w.
  - constructor.
  - cbn [sqf col]. destruct (quote_plain c Q) as [-> _]. constructor; auto.
  - cbn [sqf col]. change (is_space ch_bslash) with false. cbn [sqf col]. destruct (is_space x).
    + apply enc_esc. apply IH.
    + apply enc_esc. apply IH.
  - cbn [sqf col]. change (is_space ch_bslash) with false. cbv iota. apply enc_bs; [|apply IH].
    destruct B as [B|B]; [left; exact B|right; rewrite B; reflexivity].
  - cbn [sqf col]. change (is_space ch_at) with false. cbv iota. apply enc_at_code. apply IH.
  - cbn [sqf col]. change (is_space ch_at) with false. cbv iota. apply enc_at_lit. apply IH.
  - cbn [sqf col]. destruct (is_space c) eqn:S.
    + destruct w; [apply IH|]. apply enc_char; try reflexivity; try discriminate. apply IH.
    + apply enc_char; auto.
  - cbn [sqf col]. destruct (idchar_plain c IC) as (_ & _ & _ & _ & ->). rewrite sqf_ids, col_ids by exact ID.
    apply enc_id; auto; [apply sqf_head; exact NH|]. rewrite <- AA. unfold arg_at. rewrite sqf_quote. reflexivity.
  - cbn [sqf col]. destruct (idchar_plain c IC) as (_ & _ & _ & _ & ->). rewrite sqf_ids by exact ID.
    apply (enc_arg c id _ k a); auto; [apply sqf_head; exact NH|]. rewrite <- AA. unfold arg_at. rewrite sqf_quote. reflexivity.
Qed.

(** * Reading it back *)
Definition name_of (k : nat) : cstr := match nth_error ps k with Some p => pname p | None => [] end.
Fixpoint dec (d : option ascii) (s : list sym) : cstr :=
  match s with
  | [] => []
  | A k :: r => name_of k ++ dec d r
  | C c :: r =>
      if is_quote c then c :: dec (toggle c d) r
      else if Ascii.eqb c ch_bslash then
        match d, r with
        | Some _, C x :: r' => c :: x :: dec d r'
        | _, _ => c :: dec d r
        end
      else if Ascii.eqb c ch_at then
        match d, r with
        | None, C _ :: r' => c :: dec d r'
        | None, _ => []
        | Some _, _ => c :: dec d r
        end
      else c :: dec d r
  end.
Definition fin (d : option ascii) : list sym := match d with None => [C ch_at] | Some _ => [] end.

Lemma number_nth : forall ps j k a, In (k, a) (number j ps) -> (j <= k)%nat /\ nth_error ps (k - j) = Some a.
Proof.
  induction ps0 as [|p ps0 IH]; intros j k a H; [destruct H|]. cbn in H. destruct H as [H|H].
  - injection H as -> ->. rewrite Nat.sub_diag. split; [lia|reflexivity].
  - destruct (IH _ _ _ H) as [L N]. split; [lia|]. replace (k - j)%nat with (S (k - S j)) by lia. exact N.
Qed.
Lemma arg_at_name : forall d id r k a, arg_at d id r = Some (k, a) -> name_of k = id.
Proof.
  intros d id r k a H. unfold arg_at in H. destruct (_ && _); [|discriminate]. unfold find_arg in H.
  apply find_some in H. destruct H as [I E]. apply cstr_eqb_eq in E. cbn [snd] in E.
  unfold arglist in I. apply in_rev in I. destruct (number_nth _ _ _ _ I) as [_ N]. unfold name_of.
  rewrite Nat.sub_0_r in N. rewrite N. exact E.
Qed.
Lemma dec_ids : forall id d s, forallb is_idchar id = true -> dec d (map C id ++ s) = id ++ dec d s.
Proof.
  induction id as [|c id IH]; intros d s H; [reflexivity|]. cbn in H. apply andb_true_iff in H. destruct H as [H1 H2].
  cbn [map app dec]. destruct (idchar_plain c H1) as (-> & -> & -> & _). rewrite IH by exact H2. reflexivity.
Qed.
Lemma enc_dec : forall d p s d', enc d p s d' -> dec d (s ++ fin d') = p.
Proof.
  intros d p s d' E. induction E as [d|c d r s d' Q E IH|x q r s d' E IH|d r s d' B E IH|r s d' E IH|q r s d' E IH|c d r s d' Q NB NA NI E IH|c id d r s d' M IC ID NH AA E IH|c id r k a s d' M IC ID NH AA E IH]; cbn [app].
  - destruct d; reflexivity.
  - cbn [dec]. rewrite Q, IH. reflexivity.
  - cbn [dec]. change (is_quote ch_bslash) with false. change (Ascii.eqb ch_bslash ch_bslash) with true. cbv iota. rewrite IH. reflexivity.
  - cbn [dec]. change (is_quote ch_bslash) with false. change (Ascii.eqb ch_bslash ch_bslash) with true. cbv iota.
    destruct B as [->| ->]; [rewrite IH; reflexivity|]. inversion E; subst. cbn [app] in *. destruct d'; reflexivity.
  - cbn [dec]. change (is_quote ch_at) with false. change (Ascii.eqb ch_at ch_bslash) with false.
    change (Ascii.eqb ch_at ch_at) with true. cbv iota. rewrite IH. reflexivity.
  - cbn [dec]. change (is_quote ch_at) with false. change (Ascii.eqb ch_at ch_bslash) with false.
    change (Ascii.eqb ch_at ch_at) with true. cbv iota. rewrite IH. reflexivity.
  - cbn [dec]. rewrite Q. apply Ascii.eqb_neq in NB. apply Ascii.eqb_neq in NA. rewrite NB, NA, IH. reflexivity.
  - cbn [dec]. destruct (idchar_plain c IC) as (-> & -> & -> & _). rewrite <- app_assoc, dec_ids by exact ID. rewrite IH. reflexivity.
  - cbn [dec]. rewrite IH, (arg_at_name _ _ _ _ _ AA). reflexivity.
Qed.

Lemma chunk_unique : forall id id' r r', forallb is_idchar id = true -> forallb is_idchar id' = true -> no_id_head r -> no_id_head r' ->
  id ++ r = id' ++ r' -> id = id' /\ r = r'.
Proof.
  induction id as [|c id IH]; intros [|c' id'] r r' H H' N N' E; cbn in *.
  - auto.
  - subst r. cbn in N. apply andb_true_iff in H'. destruct H' as [X _]. congruence.
  - subst r'. cbn in N'. apply andb_true_iff in H. destruct H as [X _]. congruence.
  - injection E as -> E. apply andb_true_iff in H. apply andb_true_iff in H'. destruct (IH id' r r') as [-> ->]; try tauto.
Qed.

Ltac clash :=
  match goal with
  | H : is_quote ?c = true, H' : is_quote ?c = false |- _ => congruence
  | H : is_quote ch_bslash = true |- _ => discriminate H
  | H : is_quote ch_at = true |- _ => discriminate H
  | H : is_idchar ch_bslash = true |- _ => discriminate H
  | H : is_idchar ch_at = true |- _ => discriminate H
  | H : is_quote ?c = true, H' : is_idchar ?c = true |- _ => exfalso; destruct (idchar_plain c H') as (X & _); congruence
  | H : ch_at <> ch_at |- _ => contradiction
  | H : ch_bslash <> ch_bslash |- _ => contradiction
  | H : Some _ = None \/ _ :: _ = [] |- _ => exfalso; destruct H; discriminate
  | M : multi = true, H : is_idchar ?c && multi = false, H' : is_idchar ?c = true |- _ => rewrite H', M in H; discriminate
  end.

Lemma enc_det : forall d p s d', enc d p s d' -> forall s2 d2, enc d p s2 d2 -> s = s2 /\ d' = d2.
Proof.
  intros d p s d' E. induction E as [d|c d r s d' Q E IH|x q r s d' E IH|d r s d' B E IH|r s d' E IH|q r s d' E IH|c d r s d' Q NB NA NI E IH|c id d r s d' M IC ID NH AA E IH|c id r k a s d' M IC ID NH AA E IH]; intros s2 d2 E2.
  - inversion E2; auto.
  - inversion E2; subst; try clash. destruct (IH _ _ ltac:(eassumption)) as [-> ->]. auto.
  - inversion E2; subst; try clash. destruct (IH _ _ ltac:(eassumption)) as [-> ->]. auto.
  - inversion E2; subst; try clash. destruct (IH _ _ ltac:(eassumption)) as [-> ->]. auto.
  - inversion E2; subst; try clash. destruct (IH _ _ ltac:(eassumption)) as [-> ->]. auto.
  - inversion E2; subst; try clash. destruct (IH _ _ ltac:(eassumption)) as [-> ->]. auto.
  - inversion E2; subst; try clash. destruct (IH _ _ ltac:(eassumption)) as [-> ->]. auto.
  - inversion E2; subst; try clash.
    + match goal with H : ?i ++ ?r0 = id ++ r |- _ => destruct (chunk_unique i id r0 r) as [-> ->]; auto end.
      destruct (IH _ _ ltac:(eassumption)) as [-> ->]. auto.
    + match goal with H : ?i ++ ?r0 = id ++ r |- _ => destruct (chunk_unique i id r0 r) as [-> ->]; auto end. congruence.
  - inversion E2; subst; try clash.
    + match goal with H : ?i ++ ?r0 = id ++ r |- _ => destruct (chunk_unique i id r0 r) as [-> ->]; auto end. congruence.
    + match goal with H : ?i ++ ?r0 = id ++ r |- _ => destruct (chunk_unique i id r0 r) as [-> ->]; auto end.
      destruct (IH _ _ ltac:(eassumption)) as [-> ->]. split; [congruence|reflexivity].
Qed.

Lemma col_fin : forall s w d, col w (s ++ fin d) = col w s ++ fin d.
Proof.
  intros s w d. destruct d; cbn [fin]; [rewrite !app_nil_r; reflexivity|].
  revert w. induction s as [|[c|k] s IH]; intros w; cbn; [reflexivity| |rewrite IH; reflexivity].
  destruct (is_space c); [destruct w; cbn; rewrite IH; reflexivity|cbn; rewrite IH; reflexivity].
Qed.

(** The streams of two bodies are alike exactly when the bodies are. *)
Lemma enc_same : forall p1 s1 d1 p2 s2 d2, enc None p1 s1 d1 -> enc None p2 s2 d2 ->
  (col true (s1 ++ fin d1) = col true (s2 ++ fin d2) <-> sqf true p1 = sqf true p2).
Proof.
  intros p1 s1 d1 p2 s2 d2 E1 E2. apply enc_sqf with (w := true) in E1. apply enc_sqf with (w := true) in E2. rewrite !col_fin. split.
  - intros H. rewrite <- (enc_dec _ _ _ _ E1), <- (enc_dec _ _ _ _ E2), H. reflexivity.
  - intros H. rewrite H in E1. destruct (enc_det _ _ _ _ E1 _ _ E2) as [-> ->]. reflexivity.
Qed.

(** In an unclosed literal the last character is stored last. *)
Lemma enc_nonempty : forall d p s d', enc d p s d' -> p <> [] -> s <> [].
Proof. intros d p s d' E N. destruct E; congruence. Qed.
Lemma enc_open : forall d p s d', enc d p s d' -> d' <> None -> p <> [] -> last s (A 0) = C (last p ch_space).
Proof.
  assert (forall (x : sym) s, s <> [] -> last (x :: s) (A 0) = last s (A 0)) as L1 by (intros x [|y s] H; [congruence|reflexivity]).
  assert (forall (x : ascii) s, s <> [] -> last (x :: s) ch_space = last s ch_space) as L2 by (intros x [|y s] H; [congruence|reflexivity]).
  intros d p s d' E N. induction E as [d|c d r s d' Q E IH|x q r s d' E IH|d r s d' B E IH|r s d' E IH|q r s d' E IH|c d r s d' Q NB NA NI E IH|c id d r s d' M IC ID NH AA E IH|c id r k a s d' M IC ID NH AA E IH]; intros NP.
  - congruence.
  - destruct r as [|y r]; [inversion E; reflexivity|]. rewrite L1 by (apply (enc_nonempty _ _ _ _ E); discriminate). rewrite L2 by discriminate. apply IH; [exact N|discriminate].
  - destruct r as [|y r]; [inversion E; reflexivity|]. rewrite L1 by discriminate. rewrite L1 by (apply (enc_nonempty _ _ _ _ E); discriminate). rewrite !L2 by discriminate. apply IH; [exact N|discriminate].
  - destruct r as [|y r]; [inversion E; reflexivity|]. rewrite L1 by (apply (enc_nonempty _ _ _ _ E); discriminate). rewrite L2 by discriminate. apply IH; [exact N|discriminate].
  - destruct r as [|y r]; [inversion E; reflexivity|]. rewrite L1 by discriminate. rewrite L1 by (apply (enc_nonempty _ _ _ _ E); discriminate). rewrite !L2 by discriminate. apply IH; [exact N|discriminate].
  - destruct r as [|y r]; [inversion E; reflexivity|]. rewrite L1 by (apply (enc_nonempty _ _ _ _ E); discriminate). rewrite L2 by discriminate. apply IH; [exact N|discriminate].
  - destruct r as [|y r]; [inversion E; reflexivity|]. rewrite L1 by (apply (enc_nonempty _ _ _ _ E); discriminate). rewrite L2 by discriminate. apply IH; [exact N|discriminate].
  - destruct r as [|y r].
    + inversion E; subst. rewrite !app_nil_r. clear. generalize c. induction id as [|x id IH]; intros c0; [reflexivity|].
      change (last (C x :: map C id) (A 0) = C (last (x :: id) ch_space)). apply IH.
    + assert (forall i c0, last (C c0 :: map C i ++ s) (A 0) = last s (A 0)) as X1.
      { pose proof (enc_nonempty _ _ _ _ E ltac:(discriminate)) as NE. induction i as [|x i IHi]; intros c0.
        - cbn [map app]. apply L1. exact NE.
        - rewrite L1 by discriminate. apply IHi. }
      assert (forall i c0, last (c0 :: i ++ y :: r) ch_space = last (y :: r) ch_space) as X2.
      { induction i as [|x i IHi]; intros c0; [apply L2; discriminate|]. rewrite L2 by discriminate. apply IHi. }
      rewrite X1, X2. apply IH; [exact N|discriminate].
  - destruct r as [|y r]; [inversion E; subst; congruence|]. rewrite L1 by (apply (enc_nonempty _ _ _ _ E); discriminate).
    assert (forall i c0, last (c0 :: i ++ y :: r) ch_space = last (y :: r) ch_space) as X2.
    { induction i as [|x i IHi]; intros c0; [apply L2; discriminate|]. rewrite L2 by discriminate. apply IHi. }
    rewrite X2. apply IH; [exact N|discriminate].
Qed.
End Enc.

Lemma flat_tail : forall its t u, flat its (t ++ u) = flat its t ++ map C u.
Proof.
  induction its as [|(x & i) its IH]; intros t u; cbn [flat]; [apply map_app|]. rewrite IH, <- app_assoc. reflexivity.
Qed.
Lemma flat_snoc : forall its x i t, flat (its ++ [(x, i)]) t = flat its x ++ A (argno i) :: map C t.
Proof.
  induction its as [|(y & j) its IH]; intros x i t; cbn [flat app]; [reflexivity|]. rewrite IH, <- app_assoc. reflexivity.
Qed.

Lemma take_skip : forall f s, take_while f s ++ skip_while f s = s.
Proof. induction s as [|c s IH]; [reflexivity|]. cbn. destruct (f c); [cbn; rewrite IH; reflexivity|reflexivity]. Qed.
Lemma take_all : forall f s, forallb f (take_while f s) = true.
Proof. induction s as [|c s IH]; [reflexivity|]. cbn. destruct (f c) eqn:E; [cbn; rewrite E; exact IH|reflexivity]. Qed.
Lemma skip_head : forall s, no_id_head (skip_while is_idchar s).
Proof. induction s as [|c s IH]; [exact I|]. cbn. destruct (is_idchar c) eqn:E; [exact IH|exact E]. Qed.
Lemma skip_len : forall f (s : cstr), (List.length (skip_while f s) <= List.length s)%nat.
Proof. induction s as [|c s IH]; [cbn; lia|]. cbn. destruct (f c); cbn; lia. Qed.
Lemma skip_in : forall f (s : cstr) x, In x (skip_while f s) -> In x s.
Proof. induction s as [|c s IH]; intros x H; [exact H|]. cbn in H. destruct (f c); [right; auto|exact H]. Qed.
Lemma begins_no : forall s, ~ In ch_hash s -> begins s (lit "##") = false.
Proof.
  intros s H. unfold begins. destruct (cstr_eqb _ _) eqn:E; [|reflexivity]. apply cstr_eqb_eq in E. exfalso.
  destruct s as [|c s]; [discriminate E|]. destruct s as [|c' s]; [discriminate E|]. cbn in E. injection E as E _. apply H. left. exact E.
Qed.

Definition item_good (x : cstr * item) : Prop := flags_off (snd x) /\ no_nul (fst x).
Lemma no_nul_rev : forall s, no_nul s -> no_nul (rev s).
Proof. intros s H. apply Forall_rev. exact H. Qed.

Lemma scan_enc : forall fuel na ps p delim cur acc, (List.length p < fuel)%nat -> ~ In ch_hash p ->
  no_nul p -> no_nul cur -> Forall item_good acc ->
  exists its cur' d' s, scan fuel na ps delim false false p cur acc = (its, cur', d') /\
    enc (0 <? na) ps delim p s d' /\ flat its (rev cur') = flat (rev acc) (rev cur) ++ s /\ Forall item_good its.
Proof.
  induction fuel as [|fuel IH]; intros na ps p delim cur acc L NH NP NC GA; [lia|].
  destruct p as [|c p1].
  { exists (rev acc), cur, delim, []. rewrite app_nil_r. repeat split; try constructor. apply Forall_rev. exact GA. }
  assert (~ In ch_hash p1) as NH1 by (intros X; apply NH; right; exact X).
  assert (Ascii.eqb c ch_hash = false) as CH by (apply Ascii.eqb_neq; intros ->; apply NH; left; reflexivity).
  inversion NP as [|? ? NC0 NP1]; subst. cbn [List.length] in L. cbn [scan].
  assert (forall x, code x <> 0 -> no_nul (x :: cur)) as NC1 by (intros x Hx; constructor; assumption).
  assert (forall its x s, flat (rev acc) (rev (x :: cur)) ++ s = its -> flat (rev acc) (rev cur) ++ C x :: s = its) as FS.
  { intros its x s H. rewrite <- H. cbn [rev]. rewrite flat_tail, <- app_assoc. reflexivity. }
  destruct (is_quote c) eqn:Q.
  { destruct (IH na ps p1 (toggle c delim) (c :: cur) acc ltac:(lia) NH1 NP1 (NC1 _ NC0) GA) as (its & cur' & d' & s & E1 & E2 & E3 & E4).
    exists its, cur', d', (C c :: s). split; [exact E1|]. split; [apply enc_quote; assumption|]. split; [|exact E4].
    symmetry. apply FS. symmetry. exact E3. }
  destruct (Ascii.eqb c ch_bslash) eqn:B.
  { apply Ascii.eqb_eq in B. subst c. destruct p1 as [|x p2]; [|destruct delim as [q|]].
    - destruct (IH na ps [] delim (ch_bslash :: cur) acc ltac:(lia) NH1 NP1 (NC1 _ NC0) GA) as (its & cur' & d' & s & E1 & E2 & E3 & E4).
      exists its, cur', d', (C ch_bslash :: s). split; [exact E1|]. split; [apply enc_bs; auto|]. split; [|exact E4].
      symmetry. apply FS. symmetry. exact E3.
    - inversion NP1 as [|? ? NX NP2]; subst. cbn [List.length] in L.
      destruct (IH na ps p2 (Some q) (x :: ch_bslash :: cur) acc ltac:(lia) (fun X => NH1 (or_intror X)) NP2 ltac:(constructor; [exact NX|apply NC1; exact NC0]) GA) as (its & cur' & d' & s & E1 & E2 & E3 & E4).
      exists its, cur', d', (C ch_bslash :: C x :: s). split; [exact E1|]. split; [apply enc_esc; auto|]. split; [|exact E4].
      rewrite E3. cbn [rev]. rewrite !flat_tail, <- !app_assoc. reflexivity.
    - destruct (IH na ps (x :: p2) None (ch_bslash :: cur) acc ltac:(lia) NH1 NP1 (NC1 _ NC0) GA) as (its & cur' & d' & s & E1 & E2 & E3 & E4).
      exists its, cur', d', (C ch_bslash :: s). split; [exact E1|]. split; [apply enc_bs; auto|]. split; [|exact E4].
      symmetry. apply FS. symmetry. exact E3. }
  destruct (Ascii.eqb c ch_at) eqn:T.
  { apply Ascii.eqb_eq in T. subst c. destruct delim as [q|].
    - destruct (IH na ps p1 (Some q) (ch_at :: cur) acc ltac:(lia) NH1 NP1 (NC1 _ NC0) GA) as (its & cur' & d' & s & E1 & E2 & E3 & E4).
      exists its, cur', d', (C ch_at :: s). split; [exact E1|]. split; [apply enc_at_lit; auto|]. split; [|exact E4].
      symmetry. apply FS. symmetry. exact E3.
    - destruct (IH na ps p1 None (ch_at :: ch_at :: cur) acc ltac:(lia) NH1 NP1 ltac:(constructor; [exact NC0|apply NC1; exact NC0]) GA) as (its & cur' & d' & s & E1 & E2 & E3 & E4).
      exists its, cur', d', (C ch_at :: C ch_at :: s). split; [exact E1|]. split; [apply enc_at_code; auto|]. split; [|exact E4].
      rewrite E3. cbn [rev]. rewrite !flat_tail, <- !app_assoc. reflexivity. }
  rewrite CH. cbn [andb].
  destruct (is_idchar c && (0 <? na)) eqn:M.
  2:{ destruct (IH na ps p1 delim (c :: cur) acc ltac:(lia) NH1 NP1 (NC1 _ NC0) GA) as (its & cur' & d' & s & E1 & E2 & E3 & E4).
      exists its, cur', d', (C c :: s). split; [exact E1|]. split.
      - apply enc_char; auto; apply Ascii.eqb_neq; assumption.
      - split; [|exact E4]. symmetry. apply FS. symmetry. exact E3. }
  apply andb_true_iff in M. destruct M as [IC M].
  set (id := take_while is_idchar p1). set (p2 := skip_while is_idchar p1).
  assert (p1 = id ++ p2) as EP by (symmetry; apply take_skip).
  assert (forallb is_idchar id = true) as ID by apply take_all.
  assert (no_id_head p2) as NI by apply skip_head.
  assert (List.length p2 <= List.length p1)%nat as L2 by apply skip_len.
  assert (~ In ch_hash p2) as NH2 by (intros X; apply NH1; apply (skip_in _ _ _ X)).
  assert (no_nul p2) as NP2 by (rewrite EP in NP1; apply Forall_app in NP1; tauto).
  assert (no_nul id) as NID by (rewrite EP in NP1; apply Forall_app in NP1; tauto).
  change (if is_idstart c && negb (cstr_eqb (c :: id) (lit "L") && quote_next p2) && match delim with Some _ => false | None => true end
          then find_arg ps (c :: id) else None) with (arg_at ps delim (c :: id) p2).
  destruct (arg_at ps delim (c :: id) p2) as [[k a]|] eqn:AA.
  - assert (delim = None) as DN by (unfold arg_at in AA; destruct delim; [rewrite andb_false_r in AA; discriminate|reflexivity]). subst delim.
    rewrite begins_no by (intros X; apply NH2; apply (skip_in _ _ _ X)).
    match goal with |- context [scan fuel na ps None false false p2 [] ((rev cur, ?it) :: acc)] => set (i := it) end.
    destruct (IH na ps p2 None [] ((rev cur, i) :: acc) ltac:(lia) NH2 NP2 ltac:(constructor)) as (its & cur' & d' & s & E1 & E2 & E3 & E4).
    { constructor; [|exact GA]. split; [repeat split|]. cbn. apply no_nul_rev. exact NC. }
    exists its, cur', d', (A k :: s). split; [exact E1|]. split.
    + rewrite EP. apply (enc_arg _ _ c id p2 k a); auto.
    + split; [|exact E4]. rewrite E3. cbn [rev]. rewrite flat_snoc, <- app_assoc. reflexivity.
  - destruct (IH na ps p2 delim (rev (c :: id) ++ cur) acc ltac:(lia) NH2 NP2) as (its & cur' & d' & s & E1 & E2 & E3 & E4); auto.
    { apply Forall_app. split; [|exact NC]. apply no_nul_rev. constructor; assumption. }
    exists its, cur', d', (C c :: map C id ++ s). split; [exact E1|]. split.
    + rewrite EP. apply enc_id; auto.
    + split; [|exact E4]. rewrite E3, rev_app_distr, rev_involutive, flat_tail, <- app_assoc. reflexivity.
Qed.

(** * The whole definition *)
Lemma sqf_skip_hor : forall s, sqf true (rt (skip_while is_hor_space s)) = sqf true (rt s).
Proof.
  induction s as [|c s IH]; [reflexivity|]. cbn [skip_while]. destruct (is_hor_space c) eqn:H; [|reflexivity].
  rewrite IH. assert (is_space c = true) as S by (unfold is_space; rewrite H; reflexivity).
  cbn [rt]. destruct (rt s) as [|x r] eqn:E; [rewrite S; reflexivity|]. cbn [sqf]. rewrite S. reflexivity.
Qed.

Lemma last_app_ne : forall (l1 l2 : list sym) d, l2 <> [] -> last (l1 ++ l2) d = last l2 d.
Proof.
  induction l1 as [|x l1 IH]; intros l2 d H; [reflexivity|]. cbn [app]. rewrite <- (IH l2 d H).
  destruct (l1 ++ l2) eqn:E; [apply app_eq_nil in E; destruct E; contradiction|reflexivity].
Qed.
Lemma last_flat : forall its t x, last (flat its t) (A 0) = C x -> exists t', t = t' ++ [x].
Proof.
  intros its t x H. destruct t as [|y t _] using rev_ind.
  - exfalso. assert (exists k, last (flat its []) (A 0) = A k) as [k K].
    { clear H. induction its as [|(z & i) its [k IH]]; [exists O; reflexivity|]. cbn [flat].
      destruct its as [|(z2 & i2) its].
      - cbn [flat map]. exists (argno i). apply last_last.
      - exists k. rewrite <- IH. assert (flat ((z2, i2) :: its) [] <> []) as NE by (cbn [flat]; destruct z2; discriminate).
        change (map C z ++ A (argno i) :: flat ((z2, i2) :: its) []) with (map C z ++ ([A (argno i)] ++ flat ((z2, i2) :: its) [])).
        rewrite app_assoc. apply last_app_ne. exact NE. }
    congruence.
  - exists t. rewrite flat_tail in H. cbn [map] in H. rewrite last_last in H. injection H as ->. reflexivity.
Qed.

Lemma rt_idem_open : forall b, rt b <> [] -> is_space (last (rt b) ch_space) = false.
Proof.
  intros b H. destruct (rt_form b) as [E|(s' & c & E & S)]; [contradiction|]. rewrite E, last_last. exact S.
Qed.

Lemma collect_stream : forall na ps b, ~ In ch_hash b -> no_nul b ->
  exists s d', enc (0 <? na) ps None (rt b) s d' /\
    flat (items (collect na ps b)) (rt (tail (collect na ps b))) = C ch_at :: C ch_space :: s ++ fin d' /\
    Forall item_good (items (collect na ps b)) /\ nonspace_head (first_text (items (collect na ps b)) (tail (collect na ps b))).
Proof.
  intros na ps b NH NN.
  assert (exists x, b = rt b ++ x) as [x EB].
  { clear. induction b as [|c b [x IH]]; [exists []; reflexivity|]. cbn. destruct (rt b) as [|y r] eqn:E.
    - destruct (is_space c); [exists (c :: b); reflexivity|]. exists b. reflexivity.
    - exists x. cbn. rewrite IH at 1. reflexivity. }
  assert (~ In ch_hash (rt b)) as NH' by (intros X; apply NH; rewrite EB; apply in_or_app; left; exact X).
  assert (no_nul (rt b)) as NN' by (rewrite EB in NN; apply Forall_app in NN; tauto).
  unfold collect. rewrite rtrim_rt, begins_no by exact NH'.
  destruct (scan_enc (S (List.length (rt b))) na ps (rt b) None (rev marker) [] ltac:(lia) NH' NN') as (its & cur' & d' & s & E1 & E2 & E3 & E4).
  { repeat constructor; discriminate. }
  { constructor. }
  rewrite E1. cbn [items tail]. exists s, d'. split; [exact E2|]. change (flat (rev []) (rev (rev marker))) with [C ch_at; C ch_space] in E3. cbn [app] in E3.
  assert (nonspace_head (first_text its (rev cur'))) as HD.
  { destruct its as [|(z & i) its]; cbn [flat first_text] in *.
    - destruct (rev cur') as [|y t]; [discriminate E3|]. cbn in E3. injection E3 as -> _. reflexivity.
    - destruct z as [|y t]; [discriminate E3|]. cbn in E3. injection E3 as -> _. reflexivity. }
  split; [|split; [exact E4|]].
  - destruct d' as [q|].
    + rewrite !app_nil_r. assert (rt b <> []) as NE by (intros X; rewrite X in E2; inversion E2).
      pose proof (enc_open _ _ _ _ _ _ E2 ltac:(discriminate) NE) as LA.
      assert (s <> []) as NS by (apply (enc_nonempty _ _ _ _ _ _ E2 NE)).
      assert (last (flat its (rev cur')) (A 0) = C (last (rt b) ch_space)) as LF.
      { rewrite E3, <- LA. destruct s; [congruence|reflexivity]. }
      destruct (last_flat _ _ _ LF) as [t' ET]. rewrite ET, rt_last by (apply rt_idem_open; exact NE). rewrite <- ET. exact E3.
    + assert (rt (rev cur' ++ marker) = rev cur' ++ [ch_at]) as ->.
      { unfold marker. change [ch_at; ch_space] with ([ch_at] ++ [ch_space]). rewrite app_assoc, rt_space by reflexivity. apply rt_last. reflexivity. }
      rewrite flat_tail, E3. reflexivity.
  - destruct its as [|(z & i) its]; cbn [first_text] in *; [|exact HD]. destruct (rev cur'); [destruct HD|exact HD].
Qed.

Lemma collect_same : forall na ps b1 b2, ~ In ch_hash b1 -> ~ In ch_hash b2 -> no_nul b1 -> no_nul b2 ->
  ((let '(differ, f) := compare_items true (items (collect na ps b1)) (items (collect na ps b2)) in
    if differ then true else comp_def_part f (tail (collect na ps b1)) (tail (collect na ps b2)) true) = false
   <-> sqf true (rt b1) = sqf true (rt b2)).
Proof.
  intros na ps b1 b2 H1 H2 N1 N2.
  destruct (collect_stream na ps b1 H1 N1) as (s1 & d1 & E1 & F1 & G1 & D1).
  destruct (collect_stream na ps b2 H2 N2) as (s2 & d2 & E2 & F2 & G2 & D2).
  rewrite compare_stream.
  - rewrite F1, F2. cbn [col]. change (is_space ch_at) with false. change (is_space ch_space) with true. cbv iota.
    rewrite <- (enc_same _ _ _ _ _ _ _ _ E1 E2). split; [intros H; injection H; auto|intros ->; reflexivity].
  - exact G1.
  - eapply Forall_impl; [|exact G2]. intros a Ha. apply Ha.
  - auto.
Qed.

(** * The parameters *)
Lemma join_app : forall n ns m ms, Forall (fun c => c <> ","%char) n -> Forall (fun c => c <> ","%char) m ->
  n ++ ","%char :: ns = m ++ ","%char :: ms -> n = m /\ ns = ms.
Proof.
  induction n as [|x n IH]; intros ns [|y m] ms H1 H2 E; cbn in E.
  - injection E as ->. auto.
  - injection E as <- _. inversion H2; congruence.
  - injection E as -> _. inversion H1; congruence.
  - injection E as -> E. destruct (IH ns m ms (Forall_inv_tail H1) (Forall_inv_tail H2) E) as [-> ->]. auto.
Qed.
Lemma join_inj : forall l1 l2, Forall (Forall (fun c => c <> ","%char)) l1 -> Forall (Forall (fun c => c <> ","%char)) l2 ->
  List.length l1 = List.length l2 -> join l1 = join l2 -> l1 = l2.
Proof.
  induction l1 as [|n l1 IH]; intros [|m l2] H1 H2 L E; try discriminate; [reflexivity|].
  inversion H1; inversion H2; subst. destruct l1 as [|n' l1], l2 as [|m' l2]; try discriminate.
  - cbn in E. congruence.
  - change (n ++ ","%char :: ch_space :: join (n' :: l1) = m ++ ","%char :: ch_space :: join (m' :: l2)) in E.
    apply join_app in E; auto. destruct E as [-> E]. injection E as E. f_equal. apply IH; auto.
Qed.
Lemma ident_no_comma : forall s, identifier s -> Forall (fun c => c <> ","%char) s.
Proof.
  intros [|c s] H; [destruct H|]. destruct H as [H1 H2]. constructor; [intros ->; discriminate H1|].
  apply Forall_forall. intros x I. rewrite forallb_forall in H2. intros ->. specialize (H2 _ I). discriminate H2.
Qed.
Lemma arglist_names : forall ps, map (fun a => pname (snd a)) (arglist ps) = rev (map pname ps).
Proof.
  intros ps. unfold arglist. rewrite map_rev. f_equal. generalize O. induction ps as [|p ps IH]; intros k; [reflexivity|]. cbn. rewrite IH. reflexivity.
Qed.
Lemma param_ext : forall l1 l2, Forall (fun p => prest p = false) l1 -> Forall (fun p => prest p = false) l2 -> map pname l1 = map pname l2 -> l1 = l2.
Proof.
  induction l1 as [|[n r] l1 IH]; intros [|[m q] l2] H1 H2 E; try discriminate; [reflexivity|].
  inversion H1; inversion H2; cbn in *; subst. injection E as -> E. f_equal. auto.
Qed.

Definition good_body (b : cstr) : Prop := seven_bit b /\ no_hash b.
Lemma good_skip : forall b, good_body b -> ~ In ch_hash (skip_while is_hor_space b) /\ no_nul (skip_while is_hor_space b).
Proof.
  intros b [S H]. split; [intros X; apply H; apply (skip_in _ _ _ X)|].
  apply Forall_forall. intros x I. apply skip_in in I. unfold seven_bit in S. rewrite Forall_forall in S. specialize (S x I). lia.
Qed.
Lemma good_create : forall ps b, good_body b -> create ps b <> None.
Proof.
  intros ps b [S _]. unfold create. assert (forallb (fun c => code c <? 128) b = true) as ->; [|discriminate].
  apply forallb_forall. intros x I. unfold seven_bit in S. rewrite Forall_forall in S. specialize (S x I). apply Z.ltb_lt. lia.
Qed.
Lemma create_form : forall ps b d, create ps b = Some d ->
  let q := match ps with Some q => q | None => [] end in
  let na := match ps with Some q => Z.of_nat (List.length q) | None => -1 end in
  items d = items (collect na q (skip_while is_hor_space b)) /\ tail d = tail (collect na q (skip_while is_hor_space b)) /\
  nargs d = na /\ argnames d = match ps with Some q => join (rev (map pname q)) | None => [] end.
Proof.
  intros ps b d H. unfold create in H. destruct (forallb _ b); [|discriminate]. injection H as <-.
  destruct ps as [q|]; cbn [items tail nargs argnames].
  - rewrite arglist_names. repeat split. unfold collect. destruct (scan _ _ _ _ _ _ _ _ _) as [[? ?] ?]. reflexivity.
  - repeat split; unfold collect; destruct (scan _ _ _ _ _ _ _ _ _) as [[? ?] ?]; reflexivity.
Qed.

Lemma rev_inj : forall (l1 l2 : list cstr), rev l1 = rev l2 -> l1 = l2.
Proof. intros l1 l2 H. rewrite <- (rev_involutive l1), H. apply rev_involutive. Qed.

Lemma mark_id : forall n s d, (List.length s <= n)%nat -> white_in_literal d s = false -> mark d s = s.
Proof.
  induction n as [|n IH]; intros [|c s] d L H; try reflexivity; cbn [List.length] in L; [lia|].
  cbn [white_in_literal mark] in *. destruct d as [q|].
  - apply orb_false_iff in H. destruct H as [H1 H2]. rewrite H1. f_equal. destruct (Ascii.eqb c ch_bslash).
    + destruct s as [|x s]; [reflexivity|]. apply orb_false_iff in H2. destruct H2 as [H2 H3]. rewrite H2. f_equal. cbn in L. apply IH; [lia|exact H3].
    + apply IH; [lia|exact H2].
  - f_equal. apply IH; [lia|exact H].
Qed.

Theorem silent_iff : forall p1 b1 p2 b2, params_ok p1 -> params_ok p2 -> good_body b1 -> good_body b2 ->
  exists r, silent p1 b1 p2 b2 = Some r /\ (r = true <-> p1 = p2 /\ same_text b1 b2).
Proof.
  intros p1 b1 p2 b2 P1 P2 G1 G2. unfold silent.
  destruct (create p1 b1) as [d1|] eqn:C1; [|destruct (good_create p1 b1 G1 C1)].
  destruct (create p2 b2) as [d2|] eqn:C2; [|destruct (good_create p2 b2 G2 C2)].
  eexists. split; [reflexivity|].
  destruct (create_form _ _ _ C1) as (I1 & T1 & N1 & A1). destruct (create_form _ _ _ C2) as (I2 & T2 & N2 & A2).
  rewrite negb_true_iff. unfold compare_defs. rewrite N1, N2, A1, A2.
  rewrite same_text_sqf.
  assert (p1 = p2 <-> match p2 with Some q => Z.of_nat (List.length q) | None => -1 end = match p1 with Some q => Z.of_nat (List.length q) | None => -1 end
            /\ match p2 with Some q => join (rev (map pname q)) | None => [] end = match p1 with Some q => join (rev (map pname q)) | None => [] end) as PE.
  { split; [intros ->; auto|]. destruct p1 as [q1|], p2 as [q2|]; intros [E1 E2]; try lia; [|reflexivity].
    f_equal. destruct P1 as [P1 _]. destruct P2 as [P2 _]. apply param_ext.
    - eapply Forall_impl; [|exact P1]. intros a Ha. apply Ha.
    - eapply Forall_impl; [|exact P2]. intros a Ha. apply Ha.
    - apply rev_inj. symmetry. apply join_inj.
      + apply Forall_rev. apply Forall_map. eapply Forall_impl; [|exact P2]. intros a Ha. apply ident_no_comma. apply Ha.
      + apply Forall_rev. apply Forall_map. eapply Forall_impl; [|exact P1]. intros a Ha. apply ident_no_comma. apply Ha.
      + rewrite !rev_length, !map_length. lia.
      + exact E2. }
  rewrite PE.
  destruct (_ =? _) eqn:EN in |- *; cbn [negb].
  2:{ apply Z.eqb_neq in EN. split; [discriminate|]. intros [[X _] _]. contradiction. }
  destruct (cstr_eqb _ _) eqn:EA in |- *; cbn [negb].
  2:{ split; [discriminate|]. intros [[_ X] _]. rewrite X in EA. rewrite cstr_eqb_refl in EA. discriminate. }
  apply Z.eqb_eq in EN. apply cstr_eqb_eq in EA.
  assert (p1 = p2) as <- by (apply PE; auto).
  rewrite I1, I2, T1, T2. destruct (good_skip b1 G1) as [H1 Z1]. destruct (good_skip b2 G2) as [H2 Z2].
  rewrite (collect_same _ _ _ _ H2 H1 Z2 Z1), !sqf_skip_hor.
  split; [intros ->; auto|intros [_ ->]; reflexivity].
Qed.

Theorem silent_replacement : forall p1 b1 p2 b2, params_ok p1 -> params_ok p2 -> good_body b1 -> good_body b2 ->
  white_in_literal None b1 = false -> white_in_literal None b2 = false ->
  exists r, silent p1 b1 p2 b2 = Some r /\ (r = true <-> p1 = p2 /\ same_replacement b1 b2).
Proof.
  intros p1 b1 p2 b2 P1 P2 G1 G2 W1 W2. destruct (silent_iff p1 b1 p2 b2 P1 P2 G1 G2) as (r & E & H). exists r. split; [exact E|].
  unfold same_replacement. rewrite (mark_id _ b1 None (le_n _) W1), (mark_id _ b2 None (le_n _) W2). exact H.
Qed.
