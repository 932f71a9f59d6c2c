From Verif Require Import Cbase Cbase_facts Pos_model Comment_model Comment_spec.
From Coq Require Import ZifyBool.
Local Open Scope nat_scope.

Lemma two_step_ind : forall (P : cstr -> Prop),
  P [] -> (forall c, P [c]) -> (forall c d r, P r -> P (d :: r) -> P (c :: d :: r)) -> forall s, P s.
Proof.
  intros P H0 H1 H2 s. assert (P s /\ forall c, P (c :: s)) as [A _]; [|exact A].
  induction s as [|d s [IH1 IH2]]; split; auto.
Qed.

Lemma skip_block_nil : forall prev, skip_block [] prev = None.
Proof. reflexivity. Qed.
Definition after_block prev c r :=
    if opt_eqb prev ch_star && Ascii.eqb c ch_slash then Some ([c], r, O)
    else match skip_block r (Some c) with
         | Some (p, q, n) => Some (c :: p, q, (is_nl c + n)%nat)
         | None => None
         end.
Lemma skip_block_one : forall c prev, skip_block [c] prev = after_block prev c [].
Proof. reflexivity. Qed.
Lemma skip_block_two : forall c d r prev, skip_block (c :: d :: r) prev
  = if splice c d then match skip_block r prev with Some (p, q, n) => Some (c :: d :: p, q, S n) | None => None end
    else after_block prev c (d :: r).
Proof. reflexivity. Qed.
Lemma unsplice_one : forall c, unsplice [c] = [c].
Proof. reflexivity. Qed.
Lemma unsplice_two : forall c d r, unsplice (c :: d :: r) = if splice c d then unsplice r else c :: unsplice (d :: r).
Proof. reflexivity. Qed.

Lemma splice_spec : forall c d, splice c d = true -> c = ch_backslash /\ d = ch_nl.
Proof.
  intros c d H. unfold splice in H. apply andb_true_iff in H. destruct H as [A B].
  apply Ascii.eqb_eq in A. apply Ascii.eqb_eq in B. auto.
Qed.

(** The first place where [*] is followed by [/] is the end. *)
Fixpoint first_close (prev : option ascii) (u : cstr) : bool :=
  match u with
  | [] => false
  | c :: r => if opt_eqb prev ch_star && Ascii.eqb c ch_slash then match r with [] => true | _ => false end
              else first_close (Some c) r
  end.

Lemma newlines_cons : forall c s, newlines_in (c :: s) = is_nl c + newlines_in s.
Proof.
  intros c s. unfold newlines_in, is_nl. simpl. destruct (Ascii.ascii_dec c ch_nl) as [->|N].
  - rewrite Ascii.eqb_refl. reflexivity.
  - apply Ascii.eqb_neq in N. rewrite N. reflexivity.
Qed.

Lemma splice_newlines : forall c d s, splice c d = true -> newlines_in (c :: d :: s) = S (newlines_in s).
Proof. intros c d s H. apply splice_spec in H. destruct H as [-> ->]. rewrite !newlines_cons. reflexivity. Qed.

Lemma last_cons_ne : forall (c d e : ascii) s, last (c :: d :: s) e = last (d :: s) e.
Proof. reflexivity. Qed.

(** Every outcome of [skip_block] at once, by what is read. *)
Lemma skip_block_sound : forall text prev p q n,
  skip_block text prev = Some (p, q, n) ->
  text = p ++ q /\ n = newlines_in p /\ p <> [] /\ last p ch_space = ch_slash /\ first_close prev (unsplice p) = true.
Proof.
  assert (forall prev c r p q n, 
    (forall prev' p' q' n', skip_block r prev' = Some (p', q', n') ->
       r = p' ++ q' /\ n' = newlines_in p' /\ p' <> [] /\ last p' ch_space = ch_slash /\ first_close prev' (unsplice p') = true) ->
    match r with d :: _ => splice c d = false | [] => True end ->
    after_block prev c r = Some (p, q, n) ->
    c :: r = p ++ q /\ n = newlines_in p /\ p <> [] /\ last p ch_space = ch_slash /\ first_close prev (unsplice p) = true) as A.
  { intros prev c r p q n IH NS H. unfold after_block in H.
    destruct (opt_eqb prev ch_star && Ascii.eqb c ch_slash) eqn:E.
    - injection H as <- <- <-. apply andb_true_iff in E as E'. destruct E' as [_ E2]. apply Ascii.eqb_eq in E2. subst c.
      repeat split; auto; try discriminate. rewrite unsplice_one. cbn [first_close]. rewrite E. reflexivity.
    - destruct (skip_block r (Some c)) as [[[p' q'] n']|] eqn:K; [|discriminate].
      injection H as <- <- <-. destruct (IH _ _ _ _ K) as (B1 & B2 & B3 & B4 & B5).
      destruct p' as [|d p']; [congruence|].
      repeat split; try discriminate.
      + rewrite B1. reflexivity.
      + rewrite newlines_cons, <- B2. reflexivity.
      + exact B4.
      + rewrite unsplice_two. rewrite B1 in NS. simpl in NS. rewrite NS.
        cbn [first_close]. rewrite E. exact B5. }
  induction text as [| c |c d r IH1 IH2] using two_step_ind; intros prev p q n H.
  - discriminate.
  - apply A; auto. intros. discriminate.
  - rewrite skip_block_two in H. destruct (splice c d) eqn:E.
    + destruct (skip_block r prev) as [[[p' q'] n']|] eqn:K; [|discriminate].
      injection H as <- <- <-. destruct (IH1 _ _ _ _ K) as (B1 & B2 & B3 & B4 & B5).
      destruct p' as [|x p']; [congruence|].
      repeat split; try discriminate.
      * rewrite B1. reflexivity.
      * rewrite splice_newlines by exact E. rewrite <- B2. reflexivity.
      * exact B4.
      * rewrite unsplice_two, E. exact B5.
    + apply A; auto.
Qed.

Lemma skip_block_complete : forall (p : cstr) prev (q : cstr), p <> [] -> last p ch_space = ch_slash ->
  first_close prev (unsplice p) = true -> skip_block (p ++ q) prev = Some (p, q, newlines_in p).
Proof.
  induction p as [| c |c d r IH1 IH2] using two_step_ind; intros prev q NE L F.
  - congruence.
  - simpl in L. subst c. rewrite unsplice_one in F. cbn [first_close] in F.
    rewrite Ascii.eqb_refl, andb_true_r in F.
    destruct (opt_eqb prev ch_star) eqn:E; [|discriminate].
    change ([ch_slash] ++ q) with (ch_slash :: q).
    assert (after_block prev ch_slash q = Some ([ch_slash], q, 0)) as X.
    { unfold after_block. rewrite E, Ascii.eqb_refl. reflexivity. }
    destruct q as [|x q]; [exact X|]. rewrite skip_block_two.
    replace (splice ch_slash x) with false by reflexivity. exact X.
  - change ((c :: d :: r) ++ q) with (c :: d :: (r ++ q)).
    rewrite skip_block_two. rewrite unsplice_two in F.
    destruct (splice c d) eqn:E.
    + assert (r <> []) as NR.
      { intros ->. discriminate. }
      rewrite (IH1 prev q NR); [| |exact F].
      * rewrite splice_newlines by exact E. reflexivity.
      * destruct r; [congruence|exact L].
    + cbn [first_close] in F. unfold after_block.
      destruct (opt_eqb prev ch_star && Ascii.eqb c ch_slash) eqn:K.
      * exfalso. rewrite last_cons_ne in L. destruct (unsplice (d :: r)) eqn:U; [|discriminate].
        revert U L. clear. generalize (d :: r) as s. 
        assert (forall s : cstr, s <> [] -> last s ch_space = ch_slash -> unsplice s <> []) as X.
        { induction s as [|x|x y s IH1 IH2] using two_step_ind; intros N L; [congruence|discriminate|].
          rewrite unsplice_two. destruct (splice x y) eqn:E; [|discriminate].
          apply splice_spec in E. destruct E as [-> ->]. apply IH1.
          - intros ->. discriminate.
          - destruct s; [discriminate|exact L]. }
        intros s U L. destruct s; [discriminate|]. apply (X (a :: s)); auto. discriminate.
      * change (d :: r ++ q) with ((d :: r) ++ q). rewrite IH2; [|discriminate|exact L|exact F].
        rewrite newlines_cons with (c := c). reflexivity.
Qed.

(** [first_close] in words. *)
Lemma first_close_spec : forall u prev, first_close prev u = true <->
  exists body, (match prev with Some c => [c] | None => [] end) ++ u = body ++ lit "*/" /\
    ~ occurs (lit "*/") (body ++ lit "*").
Proof.
  assert (forall c d r, occurs (lit "*/") (c :: d :: r) <-> (c = ch_star /\ d = ch_slash) \/ occurs (lit "*/") (d :: r)) as OC.
  { intros c d r. split.
    - intros (a & b & H). destruct a as [|x a].
      + simpl in H. injection H as -> -> _. left. auto.
      + simpl in H. injection H as -> H. right. exists a, b. exact H.
    - intros [[-> ->]|(a & b & H)].
      + exists [], r. reflexivity.
      + exists (c :: a), b. simpl. rewrite H. reflexivity. }
  assert (forall c, ~ occurs (lit "*/") [c]) as O1.
  { intros c (a & b & H). apply (f_equal (@List.length ascii)) in H. rewrite !app_length in H. simpl in H. lia. }
  induction u as [|c u IH]; intros prev.
  - simpl. split; [discriminate|]. intros (body & H & _).
    apply (f_equal (@List.length ascii)) in H. rewrite !app_length in H. destruct prev; simpl in H; lia.
  - cbn [first_close]. destruct (opt_eqb prev ch_star && Ascii.eqb c ch_slash) eqn:E.
    + apply andb_true_iff in E. destruct E as [E1 E2]. destruct prev as [x|]; [|discriminate].
      simpl in E1. apply Ascii.eqb_eq in E1. apply Ascii.eqb_eq in E2. subst x c. destruct u as [|y u].
      * split; [|reflexivity]. intros _. exists []. split; [reflexivity|]. apply O1.
      * split; [discriminate|]. intros (body & H & N). exfalso. destruct body as [|b1 body].
        { discriminate. }
        destruct body as [|b2 body].
        { discriminate. }
        injection H as <- <- H. apply N. exists [], (body ++ lit "*"). reflexivity.
    + rewrite IH. clear IH. split; intros (body & H & N).
      * destruct prev as [x|]; [|exists body; auto].
        exists (x :: body). split; [simpl; f_equal; exact H|].
        change ((x :: body) ++ lit "*") with (x :: (body ++ lit "*")).
        assert (exists y t, body ++ lit "*" = y :: t /\ y = c) as (y & t & B & Y).
        { destruct body as [|b1 body]; simpl in *; [injection H as H _; eauto|injection H as H _; eauto]. }
        rewrite B in *. rewrite OC. subst y. intros [[-> ->]|K]; auto.
        rewrite !Ascii.eqb_refl in E. simpl in E. discriminate.
      * destruct prev as [x|]; [|exists body; auto].
        destruct body as [|b1 body].
        { exfalso. simpl in H. injection H as -> -> _. simpl in E. discriminate. }
        simpl in H. injection H as -> H. exists body. split; [exact H|].
        intros (a & b & K). apply N. exists (b1 :: a), b.
        change ((b1 :: body) ++ lit "*") with (b1 :: (body ++ lit "*")). rewrite K. reflexivity.
Qed.

(** Line comments. *)
Definition after_line c r := if Ascii.eqb c ch_nl then ([], c :: r, O)
                   else let '(p, q, n) := skip_line r in (c :: p, q, n).
Lemma skip_line_one : forall c, skip_line [c] = after_line c [].
Proof. reflexivity. Qed.
Lemma skip_line_two : forall c d r, skip_line (c :: d :: r)
  = if splice c d then let '(p, q, n) := skip_line r in (c :: d :: p, q, S n) else after_line c (d :: r).
Proof. reflexivity. Qed.

(** [p] does not end in the middle of a splice with [q]. *)
Definition whole (p q : cstr) : Prop := q = [] \/ last p ch_space <> ch_backslash.

Lemma skip_line_sound : forall text p q n, skip_line text = (p, q, n) ->
  text = p ++ q /\ n = newlines_in p /\ (q = [] \/ exists q', q = ch_nl :: q') /\ ~ In ch_nl (unsplice p).
Proof.
  assert (forall c r p q n,
    (forall p' q' n', skip_line r = (p', q', n') ->
       r = p' ++ q' /\ n' = newlines_in p' /\ (q' = [] \/ exists q'', q' = ch_nl :: q'') /\ ~ In ch_nl (unsplice p')) ->
    match r with d :: _ => splice c d = false | [] => True end ->
    after_line c r = (p, q, n) ->
    c :: r = p ++ q /\ n = newlines_in p /\ (q = [] \/ exists q', q = ch_nl :: q') /\ ~ In ch_nl (unsplice p)) as A.
  { intros c r p q n IH NS H. unfold after_line in H. destruct (Ascii.eqb_spec c ch_nl) as [->|NC].
    - injection H as <- <- <-. repeat split; eauto.
    - destruct (skip_line r) as [[p' q'] n'] eqn:K. injection H as <- <- <-.
      destruct (IH _ _ _ eq_refl) as (B1 & B2 & B3 & B4). subst r. repeat split; auto.
      + rewrite newlines_cons. unfold is_nl. apply Ascii.eqb_neq in NC. rewrite NC. exact B2.
      + destruct p' as [|d p'].
        * simpl. intuition congruence.
        * rewrite unsplice_two. simpl in NS. rewrite NS. simpl in *. intuition congruence. }
  induction text as [| c |c d r IH1 IH2] using two_step_ind; intros p q n H.
  - injection H as <- <- <-. repeat split; auto.
  - apply A; auto. intros p' q' n' K. injection K as <- <- <-. repeat split; auto.
  - rewrite skip_line_two in H. destruct (splice c d) eqn:E.
    + destruct (skip_line r) as [[p' q'] n'] eqn:K. injection H as <- <- <-.
      destruct (IH1 _ _ _ eq_refl) as (B1 & B2 & B3 & B4). repeat split; auto.
      * rewrite B1. reflexivity.
      * rewrite splice_newlines by exact E. rewrite <- B2. reflexivity.
      * rewrite unsplice_two, E. exact B4.
    + apply A; auto.
Qed.

Lemma skip_line_complete : forall (p q : cstr), whole p q -> (q = [] \/ exists q', q = ch_nl :: q') ->
  ~ In ch_nl (unsplice p) -> skip_line (p ++ q) = (p, q, newlines_in p).
Proof.
  induction p as [| c |c d r IH1 IH2] using two_step_ind; intros q W Q N.
  - simpl. destruct Q as [->|[q' ->]]; [reflexivity|].
    destruct q' as [|x q']; [reflexivity|]. change ([] ++ ch_nl :: x :: q') with (ch_nl :: x :: q').
    rewrite skip_line_two. reflexivity.
  - rewrite unsplice_one in N. assert (c <> ch_nl) as NC by (intros ->; apply N; left; reflexivity).
    apply Ascii.eqb_neq in NC.
    assert (after_line c q = ([c], q, newlines_in [c])) as X.
    { unfold after_line. rewrite NC.
      assert (skip_line q = ([], q, 0)) as Y.
      { destruct Q as [->|[q' ->]]; [reflexivity|]. destruct q' as [|x q']; [reflexivity|].
        rewrite skip_line_two. reflexivity. }
      rewrite Y. rewrite newlines_cons. unfold is_nl. rewrite NC. reflexivity. }
    change ([c] ++ q) with (c :: q). destruct q as [|x q]; [exact X|].
    rewrite skip_line_two. destruct (splice c x) eqn:E; [|exact X].
    exfalso. apply splice_spec in E. destruct E as [-> _]. destruct W as [W|W]; [discriminate|]. apply W. reflexivity.
  - change ((c :: d :: r) ++ q) with (c :: d :: (r ++ q)). rewrite skip_line_two. rewrite unsplice_two in N.
    destruct (splice c d) eqn:E.
    + rewrite IH1; auto.
      * rewrite splice_newlines by exact E. reflexivity.
      * destruct W as [W|W]; [left; exact W|]. destruct r as [|x r]; [right; discriminate|right; exact W].
    + assert (c <> ch_nl) as NC by (intros ->; apply N; left; reflexivity). apply Ascii.eqb_neq in NC.
      unfold after_line. rewrite NC. change (d :: r ++ q) with ((d :: r) ++ q). rewrite IH2; auto.
      * rewrite newlines_cons with (c := c). unfold is_nl. rewrite NC. reflexivity.
      * intros K. apply N. right. exact K.
Qed.

(** * [skip_comment] *)
Definition start_comment (cplusplus : bool) (text : cstr) : skipres :=
  match text with
    | c :: r => if Ascii.eqb c ch_star
                then match skip_block r None with
                     | Some (p, q, n) => Skipped (c :: p) q n
                     | None => AtEof
                     end
                else if Ascii.eqb c ch_slash && cplusplus
                then let '(p, q, n) := skip_line r in Skipped (c :: p) q n
                else NotComment
    | [] => NotComment
    end.
Lemma skip_comment_two : forall b c d r, skip_comment b (c :: d :: r)
  = if splice c d then match skip_comment b r with Skipped p q n => Skipped (c :: d :: p) q (S n) | x => x end
    else start_comment b (c :: d :: r).
Proof. reflexivity. Qed.

Lemma not_splice_slash : forall c d, c <> ch_backslash -> splice c d = false.
Proof. intros c d H. unfold splice. apply Ascii.eqb_neq in H. rewrite H. reflexivity. Qed.

Lemma unsplice_cons : forall c s, c <> ch_backslash -> unsplice (c :: s) = c :: unsplice s.
Proof. intros c [|d s] H; [reflexivity|]. rewrite unsplice_two, not_splice_slash by exact H. reflexivity. Qed.

Lemma start_sound : forall b text p q n, start_comment b text = Skipped p q n ->
  text = p ++ q /\ n = newlines_in p /\ (block_comment p \/ (b = true /\ line_comment p q)).
Proof.
  intros b [|c r] p q n H; [discriminate|]. unfold start_comment in H.
  destruct (Ascii.eqb_spec c ch_star) as [->|N1].
  - destruct (skip_block r None) as [[[p' q'] n']|] eqn:K; [|discriminate]. injection H as <- <- <-.
    destruct (skip_block_sound _ _ _ _ _ K) as (B1 & B2 & B3 & B4 & B5). subst r.
    split; [reflexivity|]. split; [rewrite newlines_cons; exact B2|]. left. split.
    + destruct p'; [congruence|]. exact B4.
    + apply first_close_spec in B5. destruct B5 as (body & U & O). exists body. split; [|exact O].
      rewrite unsplice_cons by discriminate. simpl in U. rewrite U. reflexivity.
  - destruct (Ascii.eqb c ch_slash && b) eqn:E; [|discriminate].
    apply andb_true_iff in E. destruct E as [E ->]. apply Ascii.eqb_eq in E. subst c.
    destruct (skip_line r) as [[p' q'] n'] eqn:K. injection H as <- <- <-.
    destruct (skip_line_sound _ _ _ _ K) as (B1 & B2 & B3 & B4). subst r.
    split; [reflexivity|]. split; [rewrite newlines_cons; exact B2|]. right. split; [reflexivity|].
    split; [exact B3|]. exists (unsplice p'). split; [|exact B4]. rewrite unsplice_cons by discriminate. reflexivity.
Qed.

Lemma block_comment_splice : forall c d p, splice c d = true -> p <> [] -> (block_comment (c :: d :: p) <-> block_comment p).
Proof.
  intros c d p H N. unfold block_comment. rewrite unsplice_two, H. destruct p; [congruence|]. reflexivity.
Qed.
Lemma block_comment_nonempty : ~ block_comment [].
Proof. intros [H _]. discriminate. Qed.
Lemma line_comment_splice : forall c d p q, splice c d = true -> (line_comment (c :: d :: p) q <-> line_comment p q).
Proof. intros c d p q H. unfold line_comment. rewrite unsplice_two, H. reflexivity. Qed.

Lemma skip_comment_sound : forall b text p q n, skip_comment b text = Skipped p q n ->
  text = p ++ q /\ n = newlines_in p /\ (block_comment p \/ (b = true /\ line_comment p q)).
Proof.
  intros b. induction text as [| c |c d r IH1 IH2] using two_step_ind; intros p q n H.
  - discriminate.
  - apply start_sound. exact H.
  - rewrite skip_comment_two in H. destruct (splice c d) eqn:E; [|apply start_sound; exact H].
    destruct (skip_comment b r) as [| |p' q' n'] eqn:K; try discriminate. injection H as <- <- <-.
    destruct (IH1 _ _ _ eq_refl) as (B1 & B2 & B3). subst r. split; [reflexivity|].
    split; [rewrite splice_newlines by exact E; rewrite <- B2; reflexivity|].
    destruct B3 as [B3|[B3 B4]].
    + left. apply block_comment_splice; auto. intros ->. apply block_comment_nonempty in B3. exact B3.
    + right. split; [exact B3|]. apply line_comment_splice; auto.
Qed.

Lemma skip_comment_block : forall p q b, block_comment p -> skip_comment b (p ++ q) = Skipped p q (newlines_in p).
Proof.
  induction p as [| c |c d r IH1 IH2] using two_step_ind; intros q b H.
  - exfalso. apply block_comment_nonempty in H. exact H.
  - exfalso. destruct H as [_ (body & U & _)]. rewrite unsplice_one in U.
    apply (f_equal (@List.length ascii)) in U. rewrite !app_length in U. simpl in U. lia.
  - change ((c :: d :: r) ++ q) with (c :: d :: (r ++ q)). rewrite skip_comment_two.
    destruct (splice c d) eqn:E.
    + assert (r <> []) as NR.
      { intros ->. destruct H as [_ (body & U & _)]. rewrite unsplice_two, E in U. discriminate. }
      rewrite IH1 by (eapply block_comment_splice; eauto). rewrite splice_newlines by exact E. reflexivity.
    + destruct H as [L (body & U & O)]. rewrite unsplice_two, E in U.
      simpl in U. injection U as -> U. unfold start_comment. rewrite Ascii.eqb_refl.
      change (d :: r ++ q) with ((d :: r) ++ q).
      rewrite skip_block_complete; [|discriminate|exact L|apply first_close_spec; exists body; split; [exact U|exact O]].
      rewrite (newlines_cons "*"%char). reflexivity.
Qed.

Lemma skip_comment_line : forall p q, line_comment p q -> whole p q ->
  skip_comment true (p ++ q) = Skipped p q (newlines_in p).
Proof.
  assert (forall c r q, c <> ch_backslash -> line_comment (c :: r) q -> whole (c :: r) q ->
    start_comment true (c :: r ++ q) = Skipped (c :: r) q (newlines_in (c :: r))) as A.
  { intros c r q NB [Q (body & U & N)] W. rewrite unsplice_cons in U by exact NB. simpl in U. injection U as -> U.
    unfold start_comment. simpl (Ascii.eqb _ _ ).
    change (Ascii.eqb "/"%char ch_star) with false. change (Ascii.eqb "/"%char ch_slash && true) with true. cbv iota.
    rewrite skip_line_complete; [| |exact Q|rewrite U; exact N].
    - rewrite (newlines_cons "/"%char). reflexivity.
    - destruct W as [W|W]; [left; exact W|]. right. destruct r; [discriminate|exact W]. }
  induction p as [| c |c d r IH1 IH2] using two_step_ind; intros q H W.
  - destruct H as [_ (body & U & _)]. discriminate.
  - assert (c = ch_slash) as ->.
    { destruct H as [_ (body & U & _)]. rewrite unsplice_one in U. simpl in U. injection U as -> _. reflexivity. }
    change ([ch_slash] ++ q) with (ch_slash :: [] ++ q). rewrite <- A; [|discriminate|exact H|exact W].
    destruct q; reflexivity.
  - change ((c :: d :: r) ++ q) with (c :: d :: (r ++ q)). rewrite skip_comment_two.
    destruct (splice c d) eqn:E.
    + rewrite IH1.
      * rewrite splice_newlines by exact E. reflexivity.
      * apply line_comment_splice in H; auto.
      * destruct W as [W|W]; [left; exact W|]. destruct r; [right; discriminate|right; exact W].
    + apply (A c (d :: r) q); auto. destruct H as [_ (body & U & _)].
      rewrite unsplice_two, E in U. simpl in U. injection U as -> _. discriminate.
Qed.

(** * [cpp_handleComment] *)
Lemma blank_layout : forall s, layout (fst (blank s)) = layout s.
Proof.
  induction s as [|c s IH]; simpl; auto. destruct (blank s) as [b w]. simpl in *.
  destruct (Ascii.eqb c ch_nl) eqn:E; simpl; rewrite ?E, IH; reflexivity.
Qed.
Lemma blank_chars : forall s, Forall (fun c => c = ch_space \/ c = ch_nl) (fst (blank s)).
Proof.
  induction s as [|c s IH]; simpl; auto. destruct (blank s) as [b w]. simpl in *.
  destruct (Ascii.eqb_spec c ch_nl); constructor; auto.
Qed.
Lemma blank_nested : forall s, snd (blank s) = true <-> occurs (lit "/*") s.
Proof.
  induction s as [|c s IH].
  - simpl. split; [discriminate|]. intros (a & b & H).
    apply (f_equal (@List.length ascii)) in H. rewrite !app_length in H. simpl in H. lia.
  - cbn [blank]. destruct (blank s) as [b w]. cbn [snd] in *. rewrite orb_true_iff, IH. split.
    + intros [H|(a & e & ->)].
      * apply andb_true_iff in H. destruct H as [H1 H2]. destruct s as [|d s]; [discriminate|].
        apply Ascii.eqb_eq in H1. apply Ascii.eqb_eq in H2. subst. exists [], s. reflexivity.
      * exists (c :: a), e. reflexivity.
    + intros (a & e & H). destruct a as [|x a].
      * simpl in H. injection H as -> ->. left. reflexivity.
      * simpl in H. injection H as -> ->. right. exists a, e. reflexivity.
Qed.

Lemma set_nth_app : forall {A} (a b : list A) i x, set_nth (List.length a + i) x (a ++ b) = a ++ set_nth i x b.
Proof. induction a as [|y a IH]; intros b i x; simpl; auto. rewrite IH. reflexivity. Qed.

Definition cover (marker c : ascii) : ascii :=
  if Ascii.eqb c ch_percent || Ascii.eqb c ch_lbrace || Ascii.eqb c marker then ch_space else c.

(** A syntactic comment written in the usual way. *)
Lemma handle_syntactic : forall marker lint mid,
  let start := [ch_star; marker] ++ mid ++ [ch_star; ch_slash] in
  let text := mid ++ [ch_percent; ch_rbrace] in
  handle_comment marker lint start =
    let nested := containsString text [ch_slash; ch_star] in
    let '(act, eliminate) := classify text in
    if eliminate
    then let '(b, w) := blank ([ch_percent; ch_lbrace] ++ text) in Written ch_space b (nested || w) act
    else Written ch_space ([ch_percent; ch_lbrace] ++ map (cover marker) mid ++ [ch_percent; ch_rbrace]) nested act.
Proof.
  intros marker lint mid start text. unfold handle_comment, start.
  change ([ch_star; marker] ++ mid ++ [ch_star; ch_slash]) with (ch_star :: marker :: (mid ++ [ch_star; ch_slash])).
  cbv iota. rewrite !Ascii.eqb_refl. cbn [andb].
  replace (List.length (ch_star :: marker :: mid ++ [ch_star; ch_slash])) with (4 + List.length mid)
    by (simpl; rewrite app_length; simpl; lia).
  replace (4 + List.length mid - 2) with (2 + List.length mid) by lia.
  replace (4 + List.length mid - 1) with (3 + List.length mid) by lia.
  replace (4 + List.length mid - 4) with (List.length mid) by lia.
  change (set_nth 1 ch_lbrace (set_nth 0 ch_percent (ch_star :: marker :: mid ++ [ch_star; ch_slash])))
    with ([ch_percent; ch_lbrace] ++ mid ++ [ch_star; ch_slash]).
  assert (nth (2 + List.length mid) ([ch_percent; ch_lbrace] ++ mid ++ [ch_star; ch_slash]) ch_space = ch_star) as ->.
  { simpl. rewrite app_nth2 by lia. rewrite Nat.sub_diag. reflexivity. }
  rewrite Ascii.eqb_refl. cbn [negb].
  assert (set_nth (2 + List.length mid) ch_percent ([ch_percent; ch_lbrace] ++ mid ++ [ch_star; ch_slash])
          = [ch_percent; ch_lbrace] ++ mid ++ [ch_percent; ch_slash]) as ->.
  { replace (2 + List.length mid) with (List.length ([ch_percent; ch_lbrace] ++ mid) + 0) by (simpl; lia).
    rewrite (app_assoc _ mid), set_nth_app, <- app_assoc. reflexivity. }
  assert (nth (3 + List.length mid) ([ch_percent; ch_lbrace] ++ mid ++ [ch_percent; ch_slash]) ch_space = ch_slash) as ->.
  { simpl. rewrite app_nth2 by lia. replace (S (List.length mid) - List.length mid) with 1 by lia. reflexivity. }
  rewrite Ascii.eqb_refl. cbn [negb].
  assert (set_nth (3 + List.length mid) ch_rbrace ([ch_percent; ch_lbrace] ++ mid ++ [ch_percent; ch_slash])
          = [ch_percent; ch_lbrace] ++ mid ++ [ch_percent; ch_rbrace]) as ->.
  { replace (3 + List.length mid) with (List.length ([ch_percent; ch_lbrace] ++ mid) + 1) by (simpl; lia).
    rewrite (app_assoc _ mid), set_nth_app, <- app_assoc. reflexivity. }
  change (skipn 2 ([ch_percent; ch_lbrace] ++ mid ++ [ch_percent; ch_rbrace])) with (mid ++ [ch_percent; ch_rbrace]).
  fold text. cbv zeta. destruct (classify text) as [act elim]. destruct elim.
  - unfold remove_comment.
    assert ((if lint then lintcomment ([ch_percent; ch_lbrace] ++ text) else None) = None) as ->.
    { destruct lint; reflexivity. }
    reflexivity.
  - f_equal. unfold text.
    change (firstn 2 ([ch_percent; ch_lbrace] ++ mid ++ [ch_percent; ch_rbrace])) with [ch_percent; ch_lbrace].
    rewrite firstn_app, Nat.sub_diag, firstn_all. cbn [firstn]. rewrite app_nil_r.
    f_equal. f_equal. simpl. rewrite skipn_app, Nat.sub_diag, skipn_all. reflexivity.
Qed.

Lemma cover_layout : forall marker s, marker <> ch_nl -> layout (map (cover marker) s) = layout s.
Proof.
  intros marker s N. induction s as [|c s IH]; simpl; auto. rewrite IH. f_equal.
  unfold cover. destruct (Ascii.eqb c ch_percent || Ascii.eqb c ch_lbrace || Ascii.eqb c marker) eqn:E; auto.
  apply orb_true_iff in E. destruct E as [E|E]; [apply orb_true_iff in E; destruct E as [E|E]|];
    apply Ascii.eqb_eq in E; subst c; try reflexivity.
  symmetry. apply Ascii.eqb_neq. exact N.
Qed.

Lemma layout_app : forall a b, layout (a ++ b) = layout a ++ layout b.
Proof. intros. unfold layout. apply map_app. Qed.

Lemma layout_frame : forall marker a b, marker <> ch_nl -> layout a = layout b ->
  layout (ch_space :: [ch_percent; ch_lbrace] ++ a ++ [ch_percent; ch_rbrace])
  = layout (ch_slash :: [ch_star; marker] ++ b ++ [ch_star; ch_slash]).
Proof.
  intros marker a b N H.
  change (ch_space :: [ch_percent; ch_lbrace] ++ a ++ [ch_percent; ch_rbrace])
    with ([ch_space; ch_percent; ch_lbrace] ++ a ++ [ch_percent; ch_rbrace]).
  change (ch_slash :: [ch_star; marker] ++ b ++ [ch_star; ch_slash])
    with ([ch_slash; ch_star; marker] ++ b ++ [ch_star; ch_slash]).
  rewrite !layout_app, H. apply Ascii.eqb_neq in N. cbn [layout map]. rewrite N. reflexivity.
Qed.

Lemma equalPrefix_spec : forall p s, equalPrefix s p = true <-> exists t, s = p ++ t.
Proof.
  induction p as [|c p IH]; intros s.
  - destruct s; simpl; split; eauto.
  - destruct s as [|d s]; simpl.
    + split; [discriminate|]. intros [t H]. discriminate.
    + rewrite andb_true_iff, IH. split.
      * intros [H [t ->]]. apply Ascii.eqb_eq in H. subst. eauto.
      * intros [t H]. injection H as -> ->. split; [apply Ascii.eqb_refl|eauto].
Qed.

Lemma no_splice_unsplice : forall s, ~ In ch_backslash s -> unsplice s = s.
Proof.
  induction s as [|c s IH]; intros H; auto. rewrite unsplice_cons by (intros ->; apply H; left; reflexivity).
  rewrite IH; auto. intros K. apply H. right. exact K.
Qed.

Lemma lint_blocks : Forall (fun e => block_comment (fst e)) lint_table.
Proof.
  assert (forall k body, k = lit "*" ++ body ++ lit "*/" -> ~ In ch_backslash k ->
            last k ch_space = ch_slash -> containsString (body ++ lit "*") (lit "*/") = false -> block_comment k) as A.
  { intros k body E N L C. split; [exact L|]. exists body. rewrite no_splice_unsplice by exact N. split; [exact E|].
    intros (a & b & H). rewrite H in C. revert C. clear. induction a as [|x a IH]; intros C.
    - assert (equalPrefix (lit "*/" ++ b) (lit "*/") = true) as X by (apply equalPrefix_spec; eauto).
      change ([] ++ lit "*/" ++ b) with (lit "*/" ++ b) in C. 
      change (equalPrefix (lit "*/" ++ b) (lit "*/") || containsString (lit "/" ++ b) (lit "*/") = false)%bool in C.
      rewrite X in C. discriminate.
    - apply IH. cbn [app containsString] in C. apply orb_false_iff in C. apply C. }
  repeat constructor; cbn [fst].
  - apply (A _ (lit "NOTREACHED")); try reflexivity. vm_compute. intuition congruence.
  - apply (A _ (lit "PRINTFLIKE")); try reflexivity. vm_compute. intuition congruence.
  - apply (A _ (lit "FALLTHROUGH")); try reflexivity. vm_compute. intuition congruence.
  - apply (A _ (lit "ARGSUSED")); try reflexivity. vm_compute. intuition congruence.
  - apply (A _ (lit "FALLTHRU")); try reflexivity. vm_compute. intuition congruence.
Qed.

(** A lint comment is read whole. *)
Lemma lint_exact : forall b text p q n k v, skip_comment b text = Skipped p q n -> In (k, v) lint_table ->
  equalPrefix p k = true -> p = k.
Proof.
  intros b text p q n k v H I E. apply equalPrefix_spec in E. destruct E as [t ->].
  pose proof (skip_comment_sound _ _ _ _ _ H) as (T & _ & _).
  pose proof lint_blocks as L. rewrite Forall_forall in L. specialize (L _ I). cbn [fst] in L.
  rewrite T, <- app_assoc, (skip_comment_block k (t ++ q) b L) in H. injection H as H _ _. auto.
Qed.

Lemma remove_layout : forall b text p q n lint nested act, skip_comment b text = Skipped p q n ->
  exists lead body w, remove_comment lint p nested act = Written lead body w act /\ layout body = layout p /\
    lead <> ch_nl.
Proof.
  intros b text p q n lint nested act H. unfold remove_comment.
  destruct (if lint then lintcomment p else None) as [name|] eqn:L.
  - destruct lint; [|discriminate]. unfold lintcomment in L.
    destruct (find (fun e => equalPrefix p (fst e)) lint_table) as [[k v]|] eqn:F; [|discriminate].
    injection L as <-. cbn [snd]. apply find_some in F. destruct F as [F1 F2]. cbn [fst] in F2.
    rewrite (lint_exact _ _ _ _ _ _ _ H F1 F2).
    destruct F1 as [F1|[F1|[F1|[F1|[F1|[]]]]]]; injection F1 as <- <-;
      (eexists; eexists; eexists; split; [vm_compute; reflexivity|]; split; [vm_compute; reflexivity|discriminate]).
  - pose proof (blank_layout p) as B. destruct (blank p) as [s w]. exists ch_space, s, (nested || w)%bool.
    split; [reflexivity|]. split; [exact B|discriminate].
Qed.

Definition syntactic (marker : ascii) (p : cstr) : Prop := exists r, p = ch_star :: marker :: r.

Lemma handle_layout : forall b text p q n marker lint, skip_comment b text = Skipped p q n ->
  marker <> ch_nl ->
  (syntactic marker p -> exists mid, p = [ch_star; marker] ++ mid ++ [ch_star; ch_slash]) ->
  exists lead body w act, handle_comment marker lint p = Written lead body w act /\
    layout (lead :: body) = layout (ch_slash :: p).
Proof.
  intros b text p q n marker lint H NM SY.
  assert ((exists lead body w, remove_comment lint p false NoAction = Written lead body w NoAction /\ layout body = layout p /\
    lead <> ch_nl) -> exists lead body w act, remove_comment lint p false NoAction = Written lead body w act /\
    layout (lead :: body) = layout (ch_slash :: p)) as R.
  { intros (lead & body & w & A & B & C). exists lead, body, w, NoAction. split; [exact A|].
    cbn [layout map]. fold (layout body) (layout p). rewrite B. apply Ascii.eqb_neq in C. rewrite C. reflexivity. }
  pose proof (R (remove_layout _ _ _ _ _ lint false NoAction H)) as R'. clear R.
  destruct p as [|x [|y p]]; [exact R'|exact R'|].
  destruct (Ascii.eqb x ch_star && Ascii.eqb y marker) eqn:E.
  - apply andb_true_iff in E. destruct E as [E1 E2]. apply Ascii.eqb_eq in E1. apply Ascii.eqb_eq in E2. subst x y.
    destruct SY as [mid E]; [exists p; reflexivity|]. rewrite E. rewrite handle_syntactic. cbv zeta.
    destruct (classify (mid ++ [ch_percent; ch_rbrace])) as [act elim]. destruct elim.
    + pose proof (blank_layout ([ch_percent; ch_lbrace] ++ mid ++ [ch_percent; ch_rbrace])) as B.
      destruct (blank _) as [s w]. eexists. eexists. eexists. eexists. split; [reflexivity|].
      cbn [fst] in B. transitivity (layout (ch_space :: [ch_percent; ch_lbrace] ++ mid ++ [ch_percent; ch_rbrace])).
      * unfold layout in *. cbn [map]. f_equal. exact B.
      * apply layout_frame; auto.
    + eexists. eexists. eexists. eexists. split; [reflexivity|]. apply layout_frame; auto. apply cover_layout. exact NM.
  - unfold handle_comment. rewrite E. exact R'.
Qed.

Lemma layout_newlines : forall a b, layout a = layout b -> newlines_in a = newlines_in b.
Proof.
  induction a as [|x a IH]; intros [|y b] H; try discriminate; auto.
  simpl in H. injection H as H1 H2. rewrite !newlines_cons. unfold is_nl. rewrite H1, (IH b H2). reflexivity.
Qed.
