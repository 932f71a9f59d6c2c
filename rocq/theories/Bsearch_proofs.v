From Verif Require Import Cbase Cbase_facts Bsearch_model Bsearch_spec.
From Coq Require Import ZifyBool.
Local Open Scope Z_scope.

(** * The order *)
Lemma strcmp_eq : forall a b, strcmp a b = 0 <-> a = b.
Proof.
  induction a as [|x a IH]; intros [|y b]; simpl; try (split; [discriminate|discriminate]); [tauto|].
  destruct (code x =? code y) eqn:E.
  - apply Z.eqb_eq in E. apply code_inj in E. subst. rewrite IH. split; congruence.
  - apply Z.eqb_neq in E. destruct (code x <? code y); (split; [discriminate|]); intros H;
    injection H as -> _; exfalso; apply E; reflexivity.
Qed.

Lemma strcmp_lt : forall a b, strcmp a b < 0 <-> before a b.
Proof.
  induction a as [|x a IH]; intros [|y b]; simpl.
  - split; [lia|intros H; inversion H].
  - split; [constructor|lia].
  - split; [lia|intros H; inversion H].
  - destruct (code x =? code y) eqn:E.
    + apply Z.eqb_eq in E. rewrite IH. split.
      * intros H. apply code_inj in E. subst. constructor 3. exact H.
      * intros H. inversion H; subst; [lia|auto].
    + apply Z.eqb_neq in E. destruct (code x <? code y) eqn:F.
      * apply Z.ltb_lt in F. split; [constructor 2; auto|lia].
      * apply Z.ltb_ge in F. split; [lia|]. intros H. inversion H; subst; lia.
Qed.

Lemma before_trans : forall a b c, before a b -> before b c -> before a c.
Proof.
  intros a b c H. revert c. induction H; intros c K; inversion K; subst.
  - constructor.
  - constructor.
  - constructor 2. lia.
  - constructor 2. lia.
  - constructor 2. lia.
  - constructor 3. auto.
Qed.

Lemma compare_step : forall key s e, key <> [] -> compare_entry key (Some s) <= 0 ->
  entry_before (Some s) e -> compare_entry key e < 0.
Proof.
  intros key s e K H B. simpl in H. destruct e as [t|]; simpl in *.
  - apply strcmp_lt. destruct (Z.eq_dec (strcmp key s) 0) as [E|E].
    + apply strcmp_eq in E. subst. exact B.
    + eapply before_trans; [apply strcmp_lt|exact B]. lia.
  - destruct key; [congruence|lia].
Qed.

Section Search.
Variables (key : cstr) (table : list (option cstr)).
Hypothesis Hkey : key <> [].
Hypothesis Hsorted : sorted table.

Local Notation n := (nentries table).
Local Notation E := (entry table).

Definition f (i : Z) : Z := match E i with Some e => compare_entry key e | None => 0 end.

Lemma entry_in : forall i, 0 <= i < n -> exists e, E i = Some e.
Proof.
  intros i H. unfold entry, nentries in *. destruct (i <? 0) eqn:L; [lia|].
  destruct (nth_error table (Z.to_nat i)) eqn:X; eauto.
  apply nth_error_None in X. lia.
Qed.

Lemma f_mono : forall i j, 0 <= i -> i < j -> j < n -> f i <= 0 -> f j < 0.
Proof.
  intros i j A B C D. unfold f in *.
  destruct (entry_in i) as [a Ha]; [lia|]. destruct (entry_in j) as [b Hb]; [lia|].
  rewrite Ha in D. rewrite Hb.
  unfold entry in Ha, Hb. destruct (i <? 0) eqn:L; [lia|]. destruct (j <? 0) eqn:L'; [lia|].
  pose proof (Hsorted (Z.to_nat i) (Z.to_nat j) a b ltac:(lia) Ha Hb) as X.
  destruct a as [s|]; [|destruct X].
  eapply compare_step; eauto.
Qed.

Lemma after_ok : forall mid r, 0 <= mid ->
  (0 < mid < n - 1 -> f (mid - 1) > 0 /\ f (mid + 1) < 0) -> after_loop key table mid r = r.
Proof.
  intros mid r H0 H. unfold after_loop.
  destruct (negb (mid =? 0) && (mid <? n - 1)) eqn:C; auto.
  destruct H as [A B]; [lia|]. unfold f in A, B.
  destruct (entry_in (mid - 1)) as [a Ha]; [lia|]. destruct (entry_in (mid + 1)) as [b Hb]; [lia|].
  rewrite Ha in *. rewrite Hb in *.
  destruct ((0 <? compare_entry key a) && (compare_entry key b <? 0)) eqn:D; auto. lia.
Qed.

Lemma quot2 : forall x, 0 <= x -> Z.quot x 2 = x / 2.
Proof. intros. apply Z.quot_div_nonneg; lia. Qed.

(** [blind g]: with [g] entries (counting the one past the end) left above, and only the last
    one able to match, the search gives up. *)
Definition result_ok (low high : Z) (r : bresult) : Prop :=
  match r with
  | Found e => exists i, low <= i <= high /\ i < n /\ E i = Some e /\ f i = 0
  | NotFound => (forall i, low <= i <= high -> i < n -> i < n - 1 -> f i <> 0)
                /\ (high < n -> forall i, low <= i <= high -> f i <> 0)
  | _ => False
  end.

Lemma loop_ok : forall fuel low high last, 0 <= low -> low <= high + 1 -> high <= n -> 0 <= n ->
  (forall i, 0 <= i < low -> f i > 0) -> (forall i, high < i < n -> f i < 0) ->
  last < low \/ high < last -> (Z.to_nat (high - low + 1) < fuel)%nat ->
  result_ok low high (bloop key table fuel low high (Z.quot (high + low + 1) 2) last).
Proof.
  induction fuel as [|fuel IH]; intros low high last L0 L1 L2 N0 A B LA F; [lia|].
  cbn [bloop]. rewrite quot2 by lia. set (mid := (high + low + 1) / 2).
  assert (high + low <= 2 * mid <= high + low + 1) as M.
  { unfold mid. pose proof (Z.div_mod (high + low + 1) 2). pose proof (Z.mod_pos_bound (high + low + 1) 2). lia. }
  destruct ((low <=? high) && (mid <? n)) eqn:C.
  - apply andb_true_iff in C. destruct C as [C1 C2]. apply Z.leb_le in C1. apply Z.ltb_lt in C2.
    destruct ((mid =? last) || negb ((0 <=? mid) && (mid <? n))) eqn:D; [lia|]. clear D.
    destruct (entry_in mid) as [e He]; [lia|]. rewrite He.
    assert (f mid = compare_entry key e) as Fm by (unfold f; rewrite He; reflexivity).
    destruct (compare_entry key e =? 0) eqn:C0.
    + apply Z.eqb_eq in C0. rewrite after_ok; [|lia|].
      * simpl. exists mid. split; [lia|]. split; [lia|]. split; auto. lia.
      * intros R. split.
        -- destruct (Z_le_gt_dec (f (mid - 1)) 0) as [X|X]; [|lia].
           exfalso. pose proof (f_mono (mid - 1) mid ltac:(lia) ltac:(lia) ltac:(lia) X). lia.
        -- apply (f_mono mid); lia.
    + apply Z.eqb_neq in C0. destruct (compare_entry key e <? 0) eqn:C3.
      * apply Z.ltb_lt in C3. cbv zeta.
        assert (result_ok low (mid - 1) (bloop key table fuel low (mid - 1) (Z.quot (mid - 1 + low + 1) 2) mid)) as R.
        { apply IH; try lia; [exact A|]. intros i Hi. destruct (Z.eq_dec i mid) as [->|Q]; [lia|]. apply (f_mono mid); lia. }
        destruct (bloop _ _ _ _ _ _ _); cbn [result_ok] in R |- *; try contradiction.
        -- destruct R as (i & R1 & R2 & R3 & R4). exists i. split; [lia|]. auto.
        -- destruct R as (R1 & R2). split.
           ++ intros i I1 I2 I3. destruct (Z_lt_ge_dec i mid) as [Q|Q]; [apply R2; lia|].
              destruct (Z.eq_dec i mid) as [->|Q']; [lia|]. pose proof (f_mono mid i). lia.
           ++ intros Hn i I1. destruct (Z_lt_ge_dec i mid) as [Q|Q]; [apply R2; lia|].
              destruct (Z.eq_dec i mid) as [->|Q']; [lia|]. pose proof (f_mono mid i). lia.
      * apply Z.ltb_ge in C3. cbv zeta.
        assert (forall i, 0 <= i < mid + 1 -> f i > 0) as A'.
        { intros i Hi. destruct (Z.eq_dec i mid) as [->|Q]; [lia|].
          destruct (Z_le_gt_dec (f i) 0) as [X|X]; [|lia]. pose proof (f_mono i mid). lia. }
        assert (result_ok (mid + 1) high (bloop key table fuel (mid + 1) high (Z.quot (high + (mid + 1) + 1) 2) mid)) as R.
        { apply IH; auto; lia. }
        destruct (bloop _ _ _ _ _ _ _); cbn [result_ok] in R |- *; try contradiction.
        -- destruct R as (i & R1 & R2 & R3 & R4). exists i. split; [lia|]. auto.
        -- destruct R as (R1 & R2). split.
           ++ intros i I1 I2 I3. destruct (Z_lt_ge_dec mid i) as [Q|Q]; [apply R1; lia|].
              pose proof (A' i). lia.
           ++ intros Hn i I1. destruct (Z_lt_ge_dec mid i) as [Q|Q]; [apply R2; lia|].
              pose proof (A' i). lia.
  - rewrite after_ok; [|lia|].
    + simpl. split.
      * intros i I1 I2 I3. lia.
      * intros Hn i I1. lia.
    + intros R. assert (mid = low) by lia. split.
      * assert (f (mid - 1) > 0) by (apply A; lia). lia.
      * apply B. lia.
Qed.

Lemma search_ok : result_ok 0 n (bsearch key table).
Proof.
  unfold bsearch.
  replace (n + 0 + 1) with (n + 0 + 1) by lia.
  assert (0 <= n) by (unfold nentries; lia).
  apply loop_ok; try lia.
  unfold nentries. lia.
Qed.

(** ** The last entry *)
Fixpoint blindb (fuel : nat) (g : Z) : bool :=
  match fuel with
  | O => false
  | S m => (g =? 1) || (if g <? 4 then false else blindb m (g / 2 - 1))
  end.

Lemma loop_last : forall fuel low last, 0 <= low < n -> f (n - 1) = 0 ->
  (forall i, 0 <= i < n - 1 -> f i > 0) -> last < low -> (Z.to_nat (n - low + 1) < fuel)%nat ->
  let r := bloop key table fuel low n (Z.quot (n + low + 1) 2) last in
  (blindb fuel (n - low) = true -> r = NotFound) /\
  (blindb fuel (n - low) = false -> exists e, r = Found e /\ E (n - 1) = Some e).
Proof.
  induction fuel as [|fuel IH]; intros low last L0 Z0 A LA F; [lia|].
  cbn [bloop blindb]. rewrite quot2 by lia. set (mid := (n + low + 1) / 2).
  assert (n + low <= 2 * mid <= n + low + 1) as M.
  { unfold mid. pose proof (Z.div_mod (n + low + 1) 2). pose proof (Z.mod_pos_bound (n + low + 1) 2). lia. }
  destruct (n - low =? 1) eqn:G1; cbn [orb].
  - assert (mid = n) by lia. replace ((low <=? n) && (mid <? n)) with false by lia.
    unfold after_loop. replace (negb (mid =? 0) && (mid <? n - 1)) with false by lia.
    split; [auto|discriminate].
  - assert (mid < n) by lia. replace ((low <=? n) && (mid <? n)) with true by lia.
    replace ((mid =? last) || negb ((0 <=? mid) && (mid <? n))) with false by lia.
    destruct (entry_in mid) as [e He]; [lia|]. rewrite He.
    assert (f mid = compare_entry key e) as Fm by (unfold f; rewrite He; reflexivity).
    destruct (n - low <? 4) eqn:G4.
    + assert (mid = n - 1) by lia.
      replace (compare_entry key e =? 0) with true by (replace mid with (n - 1) in Fm; lia).
      unfold after_loop. replace (negb (mid =? 0) && (mid <? n - 1)) with false by lia.
      split; [discriminate|]. intros _. exists e. split; auto. replace (n - 1) with mid by lia. exact He.
    + assert (0 <= mid < n - 1) as Mr by lia. pose proof (A mid Mr) as Pm.
      replace (compare_entry key e =? 0) with false by lia.
      replace (compare_entry key e <? 0) with false by lia. cbv zeta.
      replace ((n - low) / 2 - 1) with (n - (mid + 1)).
      2: { pose proof (Z.div_mod (n - low) 2). pose proof (Z.mod_pos_bound (n - low) 2). lia. }
      apply IH; auto; lia.
Qed.
End Search.

Lemma blindb_iff : forall fuel g, 0 <= g -> (Z.to_nat g < fuel)%nat ->
  (blindb fuel g = true <-> blind_length g).
Proof.
  induction fuel as [|fuel IH]; intros g G F; [lia|].
  cbn [blindb]. unfold blind_length.
  destruct (g =? 1) eqn:E1.
  - apply Z.eqb_eq in E1. subst. split; auto. intros _. exists 0. simpl. lia.
  - apply Z.eqb_neq in E1. cbn [orb]. destruct (g <? 4) eqn:E4.
    + apply Z.ltb_lt in E4. split; [discriminate|]. intros (k & K & B). exfalso.
      destruct (Z.eq_dec k 0) as [->|K0]; [simpl in B; lia|].
      assert (2 ^ 1 <= 2 ^ k) by (apply Z.pow_le_mono_r; lia). lia.
    + apply Z.ltb_ge in E4.
      assert (2 * (g / 2) <= g <= 2 * (g / 2) + 1) as D.
      { pose proof (Z.div_mod g 2). pose proof (Z.mod_pos_bound g 2). lia. }
      rewrite IH by lia. unfold blind_length. split.
      * intros (k & K & B). exists (k + 1). split; [lia|].
        rewrite Z.pow_add_r by lia. change (2 ^ 1) with 2. lia.
      * intros (k & K & B). destruct (Z.eq_dec k 0) as [->|K0]; [simpl in B; lia|].
        exists (k - 1). split; [lia|].
        replace (2 ^ k) with (2 * 2 ^ (k - 1)) in B by (rewrite <- Z.pow_succ_r by lia; f_equal; lia).
        lia.
Qed.

(** * The search as a whole *)
Lemma f_zero_entry : forall (key : cstr) (table : list (option cstr)) i, key <> [] -> 0 <= i < nentries table ->
  (f key table i = 0 <-> nth_error table (Z.to_nat i) = Some (Some key)).
Proof.
  intros key table i K H. unfold f. destruct (entry_in table i H) as [e He].
  rewrite He. unfold entry in He. destruct (i <? 0) eqn:L; [lia|]. rewrite He.
  destruct e as [t|]; simpl.
  - rewrite strcmp_eq. split; [intros ->; reflexivity|intros X; injection X as X; symmetry; exact X].
  - destruct key; [congruence|]. split; discriminate.
Qed.

Definition blind_member (key : cstr) (table : list (option cstr)) : Prop :=
  nth_error table (List.length table - 1) = Some (Some key) /\
  blind_length (Z.of_nat (List.length table)).

Lemma in_pos : forall (x : option cstr) (table : list (option cstr)), In x table -> 0 < nentries table.
Proof.
  intros x table H. unfold nentries. destruct table; [destruct H|]. cbn [List.length]. lia.
Qed.

Lemma member_z : forall (key : cstr) (table : list (option cstr)), key <> [] ->
  (In (Some key) table <-> exists i, 0 <= i < nentries table /\ f key table i = 0).
Proof.
  intros key table K. split.
  - intros H. apply In_nth_error in H. destruct H as [i H].
    assert (i < List.length table)%nat by (apply nth_error_Some; congruence).
    exists (Z.of_nat i). split; [unfold nentries; lia|].
    apply f_zero_entry; auto; [unfold nentries; lia|]. rewrite Nat2Z.id. exact H.
  - intros (i & R & H). apply f_zero_entry in H; auto. eapply nth_error_In; eauto.
Qed.

Lemma bsearch_iff : forall (key : cstr) (table : list (option cstr)), key <> [] -> sorted table ->
  (bsearch key table = Found (Some key) <-> In (Some key) table /\ ~ blind_member key table) /\
  (bsearch key table = NotFound <-> ~ (In (Some key) table /\ ~ blind_member key table)).
Proof.
  intros key table K HS.
  pose proof (search_ok key table K HS) as R.
  assert (0 <= nentries table) as N0 by (unfold nentries; lia).
  assert (In (Some key) table -> f key table (nentries table - 1) = 0 ->
          (blind_length (nentries table) -> bsearch key table = NotFound) /\
          (~ blind_length (nentries table) -> exists e, bsearch key table = Found e)) as LAST.
  { intros HI H.
    assert (0 < nentries table) as NP.
    { eapply in_pos; eauto. }
    destruct (loop_last key table (S (S (List.length table))) 0 (-1)) as [P Q]; auto; try lia.
    - intros i I. destruct (Z_le_gt_dec (f key table i) 0) as [X|X]; [|lia].
      pose proof (f_mono key table K HS i (nentries table - 1)). lia.
    - unfold nentries. lia.
    - rewrite Z.sub_0_r in P, Q. unfold bsearch.
      pose proof (blindb_iff (S (S (List.length table))) (nentries table) ltac:(lia) ltac:(unfold nentries; lia)) as BI.
      split.
      + intros B. apply P. apply BI. exact B.
      + intros B. destruct Q as (e & Q & _); eauto.
        destruct (blindb _ _) eqn:X; auto. exfalso. apply B. apply BI. reflexivity. }
  assert (forall i, 0 <= i < nentries table -> f key table i = 0 -> i <> nentries table - 1 ->
          bsearch key table <> NotFound) as MID.
  { intros i I H J X. rewrite X in R. destruct R as [R _]. apply (R i); lia. }
  assert (bsearch key table = Found (Some key) \/ bsearch key table = NotFound) as DEC.
  { destruct (bsearch key table) as [e| | | |]; simpl in R; auto; try contradiction.
    left. destruct R as (i & R1 & R2 & R3 & R4). f_equal.
    assert (0 <= i < nentries table) as RI by lia.
    apply f_zero_entry in R4; auto. unfold entry in R3. destruct (i <? 0); congruence. }
  assert (bsearch key table = Found (Some key) <-> In (Some key) table /\ ~ blind_member key table) as MAIN.
  { split.
    - intros X. assert (In (Some key) table) as HI.
      { rewrite X in R. simpl in R. destruct R as (i & R1 & R2 & R3 & R4).
        unfold entry in R3. destruct (i <? 0); [discriminate|]. eapply nth_error_In; eauto. }
      split; auto. intros [M B].
      assert (f key table (nentries table - 1) = 0) as Z0.
      { apply f_zero_entry; auto; [apply in_pos in HI; lia|].
        rewrite <- M. f_equal. unfold nentries. lia. }
      destruct (LAST HI Z0) as [P _]. rewrite P in X by exact B. discriminate.
    - intros [HI NB]. destruct DEC as [D|D]; auto. exfalso.
      pose proof HI as HI'. apply member_z in HI'; auto. destruct HI' as (i & I & Z0).
      destruct (Z.eq_dec i (nentries table - 1)) as [->|J].
      + destruct (LAST HI Z0) as [_ Q]. destruct Q as [e Q]; [|congruence].
        intros B. apply NB. split; auto. apply f_zero_entry in Z0; auto.
        rewrite <- Z0. f_equal. unfold nentries. lia.
      + apply (MID i I Z0 J D). }
  split; auto. split.
  - intros X Y. apply MAIN in Y. congruence.
  - intros Y. destruct DEC as [D|D]; auto. exfalso. apply Y. apply MAIN. exact D.
Qed.

(** * Deciding sortedness *)
Fixpoint adjacent (table : list (option cstr)) : bool :=
  match table with
  | [] => true
  | a :: r =>
      match r with
      | [] => true
      | b :: _ =>
          match a, b with
          | Some s, Some t => (strcmp s t <? 0) && adjacent r
          | Some s, None => match s, r with _ :: _, [_] => true | _, _ => false end
          | None, _ => false
          end
      end
  end.

Lemma before_nonempty : forall a b, before a b -> b <> [].
Proof. intros a b H. inversion H; discriminate. Qed.


Lemma adjacent_sorted : forall table, (match table with Some [] :: _ => False | _ => True end) ->
  adjacent table = true -> sorted table.
Proof.
  induction table as [|a r IH]; intros NE H i j x y L Hi Hj.
  - destruct i; discriminate.
  - destruct j as [|j]; [lia|]. simpl in Hj.
    assert (match r with Some [] :: _ => False | _ => True end /\ (r = [] \/ adjacent r = true)) as [NE' AR].
    { destruct r as [|b r']; [auto|]. simpl in H. destruct a as [s|]; [|discriminate].
      destruct b as [t|].
      - apply andb_true_iff in H. destruct H as [H1 H2]. apply Z.ltb_lt in H1. apply strcmp_lt in H1.
        apply before_nonempty in H1. destruct t; [congruence|]. split; [exact I|]. right. exact H2.
      - destruct s; [discriminate|]. destruct r'; [|discriminate]. split; [exact I|]. right. reflexivity. }
    assert (sorted r) as SR.
    { destruct AR as [->|AR]; [intros i' j' ? ? ? X; destruct i'; discriminate|]. apply IH; auto. }
    destruct i as [|i].
    + simpl in Hi. injection Hi as <-. clear IH.
      destruct r as [|b r']; [destruct j; discriminate|].
      assert (entry_before a b) as AB.
      { simpl in H. destruct a as [s|]; [|discriminate]. destruct b as [t|]; simpl.
        - apply andb_true_iff in H. destruct H as [H1 _]. apply Z.ltb_lt in H1. apply strcmp_lt. exact H1.
        - destruct s; [discriminate|discriminate]. }
      destruct j as [|j]; [simpl in Hj; injection Hj as <-; exact AB|].
      assert (entry_before b y) as BY.
      { apply (SR 0%nat (S j)); [lia|reflexivity|exact Hj]. }
      destruct a as [s|]; [|simpl in H; discriminate].
      destruct b as [t|]; [|simpl in BY; destruct BY].
      destruct y as [u|]; simpl in *.
      * eapply before_trans; eauto.
      * intros ->. exact NE.
    + apply (SR i j); [lia|exact Hi|exact Hj].
Qed.
