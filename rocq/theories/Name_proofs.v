From Verif Require Import Cbase Cbase_facts Cmem Name_model Name_spec.

Local Notation INDIS ci lk := (indistinct toupper lookLike ci lk).
Local Notation CONF ci lk := (confusable toupper lookLike ci lk).
Local Notation DC ci := (differ_case toupper ci).
Local Notation DL lk := (differ_look lookLike lk).

(** The verdict on two texts, as one relation. *)
Definition verdict (ci lk : bool) (a b : cstr) (dc dl : bool) (r : cmpcode) : Prop :=
  match r with
  | CGE_DISTINCT => ~ INDIS ci lk a b
  | CGE_CASE => INDIS ci lk a b /\ (dc = true \/ Exists (DC ci) (combine a b))
  | CGE_LOOKALIKE => INDIS ci lk a b /\ dc = false /\ ~ Exists (DC ci) (combine a b) /\ (dl = true \/ a <> b)
  | CGE_SAME => a = b /\ dc = false /\ dl = false
  | CGE_overrun => False
  end.

Lemma indis_refl : forall ci lk a, INDIS ci lk a a.
Proof.
  intros. split; auto. induction a; simpl; constructor; auto. left. reflexivity.
Qed.

Lemma indis_cons : forall ci lk x y a b,
  INDIS ci lk (x :: a) (y :: b) <-> CONF ci lk (x, y) /\ INDIS ci lk a b.
Proof.
  intros. unfold indistinct. simpl. split.
  - intros [L F]. inversion F; subst. auto.
  - intros [C [L F]]. split; [lia|]. constructor; auto.
Qed.

Lemma exists_same : forall ci a, ~ Exists (DC ci) (combine a a).
Proof.
  induction a; simpl; intros H; inversion H; subst; auto. destruct H1 as [N _]. apply N. reflexivity.
Qed.

Lemma toupper_nul : forall c, c <> ch_nul -> toupper c <> ch_nul.
Proof.
  intros c N. unfold toupper. destruct (_ && _) eqn:E; auto.
  apply andb_true_iff in E. destruct E as [A B]. apply Z.leb_le in A, B.
  intros H. apply (f_equal code) in H. rewrite code_chr in H by lia.
  change (code ch_nul) with 0 in H. lia.
Qed.

Lemma lookLike_nul : forall c, c <> ch_nul -> lookLike c <> ch_nul.
Proof.
  intros c N. unfold lookLike.
  repeat match goal with |- context [if ?b then _ else _] => destruct b; [discriminate|] end.
  exact N.
Qed.

(** What the part of the loop still to come looks at: [n - i] characters, or all. *)
Definition rest (n i : nat) (s : cstr) : cstr :=
  match n with O => s | _ => firstn (n - i) s end.

Lemma rest_cons : forall n i c s, ((0 <? n)%nat && (n <=? i)%nat) = false ->
  rest n i (c :: s) = c :: rest n (S i) s.
Proof.
  intros n i c s H. unfold rest. destruct n; auto.
  change (0 <? S n)%nat with true in H. cbn [andb] in H. apply Nat.leb_gt in H.
  replace (S n - i)%nat with (S (S n - S i)) by lia. reflexivity.
Qed.

(** The one situation in which the limit is overlooked. *)
Definition cut_short (n i : nat) (s t : cstr) : Prop :=
  (0 < n)%nat /\ (List.length s = n - i)%nat /\ (i <= n)%nat /\ (n - i < List.length t)%nat.

Lemma loop_verdict : forall n ci lk s i t dc dl, ~ In ch_nul s -> ~ In ch_nul t ->
  (n = 0 \/ i <= n)%nat -> ~ cut_short n i s t ->
  verdict ci lk (rest n i s) (rest n i t) dc dl (ge_loop n ci lk i s t dc dl).
Proof.
  induction s as [|c s IH]; intros i t dc dl Ns Nt Hi NC.
  - simpl. assert (rest n i [] = []) as -> by (unfold rest; destruct n; [|rewrite firstn_nil]; reflexivity).
    unfold ge_finish. destruct t as [|d t].
    + assert (rest n i [] = []) as -> by (unfold rest; destruct n; [|rewrite firstn_nil]; reflexivity).
      destruct dc; [|destruct dl]; simpl.
      * split; [apply indis_refl|auto].
      * split; [apply indis_refl|]. split; auto. split; auto. intros H; inversion H.
      * auto.
    + simpl. destruct (rest n i (d :: t)) eqn:E.
      * exfalso. destruct n; [discriminate|]. simpl in E. destruct i.
        -- discriminate.
        -- destruct (n - i)%nat eqn:F; [|discriminate]. apply NC. unfold cut_short. simpl. lia.
      * intros [L _]. discriminate.
  - simpl. destruct ((0 <? n)%nat && (n <=? i)%nat) eqn:B.
    + assert (forall x, rest n i x = []) as R.
      { intros x. apply andb_true_iff in B. destruct B as [B1 B2].
        apply Nat.ltb_lt in B1. apply Nat.leb_le in B2. unfold rest. destruct n; [lia|].
        replace (S n - i)%nat with 0%nat by lia. reflexivity. }
      rewrite !R. unfold ge_finish. destruct dc; [|destruct dl]; simpl.
      * split; [apply indis_refl|auto].
      * split; [apply indis_refl|]. split; auto. split; auto. intros H; inversion H.
      * auto.
    + rewrite rest_cons by auto.
      assert (c <> ch_nul) as Nc by (intros ->; apply Ns; left; reflexivity).
      destruct t as [|d t].
      * assert (rest n i [] = []) as -> by (unfold rest; destruct n; [|rewrite firstn_nil]; reflexivity).
        simpl cur.
        assert (Ascii.eqb ch_nul c = false) as -> by (apply Ascii.eqb_neq; auto).
        assert (Ascii.eqb (toupper ch_nul) (toupper c) = false) as ->.
        { apply Ascii.eqb_neq. apply toupper_nul in Nc. change (toupper ch_nul) with ch_nul. auto. }
        assert (Ascii.eqb (lookLike ch_nul) (lookLike c) = false) as ->.
        { apply Ascii.eqb_neq. apply lookLike_nul in Nc. change (lookLike ch_nul) with ch_nul. auto. }
        rewrite !andb_false_r. simpl. intros [L _]. discriminate.
      * rewrite rest_cons by auto. simpl cur.
        assert (~ In ch_nul s) as Ns' by (intros I; apply Ns; right; exact I).
        assert (~ In ch_nul t) as Nt' by (intros I; apply Nt; right; exact I).
        assert (n = 0 \/ S i <= n)%nat as Hi'.
        { apply andb_false_iff in B. destruct B as [B|B]; [apply Nat.ltb_ge in B|apply Nat.leb_gt in B]; lia. }
        assert (~ cut_short n (S i) s t) as NC'.
        { intros (C1 & C2 & C3 & C4). apply NC. unfold cut_short. simpl. lia. }
        destruct (Ascii.eqb_spec d c) as [->|D].
        -- specialize (IH (S i) t dc dl Ns' Nt' Hi' NC').
           destruct (ge_loop n ci lk (S i) s t dc dl); simpl in *.
           ++ intuition congruence.
           ++ rewrite indis_cons. tauto.
           ++ rewrite indis_cons. destruct IH as [I [->|X]].
              ** split; [split; [left; reflexivity|auto]|auto].
              ** split; [split; [left; reflexivity|auto]|right; right; auto].
           ++ rewrite indis_cons. destruct IH as (I & -> & X & Y).
              split; [split; [left; reflexivity|auto]|]. split; [reflexivity|]. split.
              ** intros H. inversion H; subst; auto. destruct H1 as [H1 _]. apply H1. reflexivity.
              ** destruct Y as [Y|Y]; auto. right. congruence.
           ++ exact IH.
        -- destruct (ci && Ascii.eqb (toupper d) (toupper c)) eqn:C.
           ++ apply andb_true_iff in C. destruct C as [Ci C]. apply Ascii.eqb_eq in C.
              assert (DC ci (c, d)) as X by (split; simpl; auto).
              specialize (IH (S i) t true dl Ns' Nt' Hi' NC').
              destruct (ge_loop n ci lk (S i) s t true dl); simpl in *.
              ** intuition congruence.
              ** rewrite indis_cons. tauto.
              ** rewrite indis_cons. split; [split; [right; left; exact X|tauto]|]. right. left. exact X.
              ** intuition congruence.
              ** exact IH.
           ++ destruct (lk && Ascii.eqb (lookLike d) (lookLike c)) eqn:K.
              ** apply andb_true_iff in K. destruct K as [Ki K]. apply Ascii.eqb_eq in K.
                 assert (DL lk (c, d)) as X by (split; simpl; auto).
                 assert (~ DC ci (c, d)) as NX.
                 { intros (_ & A1 & A2). simpl in A2. subst ci. rewrite A2, Ascii.eqb_refl in C. discriminate. }
                 specialize (IH (S i) t dc true Ns' Nt' Hi' NC').
                 destruct (ge_loop n ci lk (S i) s t dc true); simpl in *.
                 --- intuition congruence.
                 --- rewrite indis_cons. tauto.
                 --- rewrite indis_cons. split; [split; [right; right; exact X|tauto]|].
                     destruct IH as [_ [->|Y]]; auto.
                 --- rewrite indis_cons. destruct IH as (I & -> & Y & _).
                     split; [split; [right; right; exact X|auto]|]. split; auto. split.
                     +++ intros H. inversion H; subst; auto.
                     +++ right. congruence.
                 --- exact IH.
              ** simpl. rewrite indis_cons. intros [[X|[X|X]] _].
                 --- simpl in X. congruence.
                 --- destruct X as (_ & -> & X). simpl in X. rewrite X, Ascii.eqb_refl in C. discriminate.
                 --- destruct X as (_ & -> & X). simpl in X. rewrite X, Ascii.eqb_refl in K. discriminate.
Qed.

Lemma loop_cut : forall n ci lk s i t dc dl, ~ In ch_nul s -> cut_short n i s t ->
  ge_loop n ci lk i s t dc dl = CGE_DISTINCT.
Proof.
  induction s as [|c s IH]; intros i t dc dl Ns (C1 & C2 & C3 & C4); simpl in *.
  - destruct t; [simpl in C4; lia|reflexivity].
  - destruct ((0 <? n)%nat && (n <=? i)%nat) eqn:B.
    + apply andb_true_iff in B. destruct B as [_ B]. apply Nat.leb_le in B. lia.
    + destruct t as [|d t]; [simpl in C4; lia|]. simpl in C4.
      assert (cut_short n (S i) s t) as C by (unfold cut_short; lia).
      rewrite !(IH (S i) t) by auto.
      repeat match goal with |- context [if ?b then _ else _] => destruct b end; reflexivity.
Qed.

Lemma rest_sig : forall n s, rest n 0 s = significant n s.
Proof. intros. unfold rest, significant. destruct n; auto. Qed.

(** The exact meaning of the four answers. *)
Lemma ge_same : forall s t n ci lk, ~ In ch_nul s -> ~ In ch_nul t ->
  ~ (List.length s = n /\ n <> 0 /\ n < List.length t)%nat ->
  let r := genericEqual s t n ci lk in
  let a := significant n s in let b := significant n t in
  (r = CGE_DISTINCT <-> ~ INDIS ci lk a b) /\
  (r = CGE_CASE <-> by_case toupper lookLike ci lk a b) /\
  (r = CGE_LOOKALIKE <-> by_look toupper lookLike ci lk a b) /\
  (r = CGE_SAME <-> a = b).
Proof.
  intros s t n ci lk Ns Nt NC r a b.
  assert (verdict ci lk a b false false r) as V.
  { unfold a, b, r, genericEqual. rewrite <- !rest_sig. apply loop_verdict; auto; [lia|].
    intros (C1 & C2 & C3 & C4). apply NC. lia. }
  clearbody r. unfold by_case, by_look.
  pose proof (indis_refl ci lk a) as R. pose proof (exists_same ci a) as X.
  destruct r; simpl in V.
  - destruct V as (V & _ & _). rewrite <- V.
    split; [split; [discriminate|tauto]|]. split; [split; [discriminate|tauto]|].
    split; [split; [discriminate|tauto]|]. tauto.
  - split; [tauto|]. split; [split; [discriminate|tauto]|]. split; [split; [discriminate|tauto]|].
    split; [discriminate|]. intros E. rewrite <- E in V. tauto.
  - destruct V as (I & [V|V]); [discriminate|].
    split; [split; [discriminate|tauto]|]. split; [tauto|].
    split; [split; [discriminate|tauto]|].
    split; [discriminate|]. intros E. rewrite <- E in V. tauto.
  - destruct V as (I & _ & V & [W|W]); [discriminate|].
    split; [split; [discriminate|tauto]|]. split; [split; [discriminate|tauto]|].
    split; [tauto|]. split; [discriminate|tauto].
  - contradiction.
Qed.

Lemma ge_cut : forall s t n ci lk, ~ In ch_nul s ->
  (List.length s = n /\ n <> 0 /\ n < List.length t)%nat ->
  genericEqual s t n ci lk = CGE_DISTINCT.
Proof.
  intros s t n ci lk Ns (A & B & C). apply loop_cut; auto. unfold cut_short. lia.
Qed.

Lemma ge_no_overrun : forall s t n ci lk, ~ In ch_nul s -> ~ In ch_nul t ->
  genericEqual s t n ci lk <> CGE_overrun.
Proof.
  intros s t n ci lk Ns Nt H.
  destruct (Nat.eq_dec (List.length s) n) as [E|E];
  destruct (Nat.eq_dec n 0) as [F|F];
  destruct (Nat.lt_ge_cases n (List.length t)) as [G|G];
  try (rewrite ge_cut in H by auto; discriminate);
  (assert (~ (List.length s = n /\ n <> 0 /\ n < List.length t)%nat) as K by lia);
  (assert (verdict ci lk (rest n 0 s) (rest n 0 t) false false (genericEqual s t n ci lk)) as V
   by (apply loop_verdict; [exact Ns|exact Nt|lia|intros (C1 & C2 & C3 & C4); lia]));
  rewrite H in V; exact V.
Qed.

Lemma conf_sym : forall ci lk x y, CONF ci lk (x, y) -> CONF ci lk (y, x).
Proof.
  intros ci lk x y [A|[(A & B & C)|(A & B & C)]]; simpl in *.
  - left. simpl. auto.
  - right. left. split; simpl; auto.
  - right. right. split; simpl; auto.
Qed.

Lemma indis_sym : forall ci lk a b, INDIS ci lk a b -> INDIS ci lk b a.
Proof.
  induction a as [|x a IH]; intros b H.
  - destruct b; [exact H|]. destruct H as [L _]. discriminate.
  - destruct b as [|y b]; [destruct H as [L _]; discriminate|].
    apply indis_cons in H. apply indis_cons. destruct H. split; [apply conf_sym; auto|auto].
Qed.

Lemma excase_sym : forall ci a b, Exists (DC ci) (combine a b) -> Exists (DC ci) (combine b a).
Proof.
  induction a as [|x a IH]; intros b H; destruct b as [|y b]; simpl in *; try (inversion H; fail).
  inversion H as [p l (A & B & C) E|p l T E]; subst.
  - left. split; simpl in *; auto.
  - right. auto.
Qed.

Lemma ge_sym : forall s t n ci lk, ~ In ch_nul s -> ~ In ch_nul t ->
  ~ (List.length s = n /\ n <> 0 /\ n < List.length t)%nat ->
  ~ (List.length t = n /\ n <> 0 /\ n < List.length s)%nat ->
  genericEqual s t n ci lk = genericEqual t s n ci lk.
Proof.
  intros s t n ci lk Ns Nt N1 N2.
  destruct (ge_same s t n ci lk Ns Nt N1) as (A1 & A2 & A3 & A4).
  destruct (ge_same t s n ci lk Nt Ns N2) as (B1 & B2 & B3 & B4).
  destruct (genericEqual s t n ci lk) eqn:E; symmetry.
  - apply B4. symmetry. apply A4. reflexivity.
  - apply B1. intros H. apply indis_sym in H. apply A1; auto.
  - apply B2. destruct (proj1 A2 eq_refl) as [P Q]. split; [apply indis_sym; auto|apply excase_sym; auto].
  - apply B3. destruct (proj1 A3 eq_refl) as (P & Q & R). split; [apply indis_sym; auto|].
    split; [|auto]. intros H. apply Q. apply excase_sym; auto.
  - exfalso. exact (ge_no_overrun s t n ci lk Ns Nt E).
Qed.

Lemma ge_asym_iff : forall s t n ci lk, ~ In ch_nul s -> ~ In ch_nul t ->
  (genericEqual s t n ci lk <> genericEqual t s n ci lk <->
   n <> 0%nat /\ INDIS ci lk (significant n s) (significant n t) /\
   ((List.length s = n /\ n < List.length t)%nat \/ (List.length t = n /\ n < List.length s)%nat)).
Proof.
  intros s t n ci lk Ns Nt.
  assert (forall s t, ~ In ch_nul s -> ~ In ch_nul t ->
    (List.length s = n /\ n <> 0 /\ n < List.length t)%nat ->
    (genericEqual s t n ci lk <> genericEqual t s n ci lk <-> INDIS ci lk (significant n s) (significant n t))) as H.
  { clear s t Ns Nt. intros s t Ns Nt C.
    rewrite (ge_cut s t) by auto.
    destruct (ge_same t s n ci lk Nt Ns ltac:(lia)) as (B1 & _). split.
    - intros N. destruct (genericEqual t s n ci lk) eqn:E; try (exfalso; apply N; reflexivity);
      apply indis_sym.
      + destruct (ge_same t s n ci lk Nt Ns ltac:(lia)) as (_ & _ & _ & B4). rewrite E in B4.
        rewrite (proj1 B4 eq_refl). apply indis_refl.
      + destruct (ge_same t s n ci lk Nt Ns ltac:(lia)) as (_ & B2 & _). rewrite E in B2. apply B2. reflexivity.
      + destruct (ge_same t s n ci lk Nt Ns ltac:(lia)) as (_ & _ & B3 & _). rewrite E in B3. apply B3. reflexivity.
      + exfalso. eapply ge_no_overrun; [| |exact E]; auto.
    - intros I E. symmetry in E. apply B1 in E. apply E. apply indis_sym. exact I. }
  split.
  - intros N.
    destruct (Nat.eq_dec n 0) as [Z|Z].
    { exfalso. apply N. apply ge_sym; auto; lia. }
    split; auto.
    destruct (Nat.eq_dec (List.length s) n) as [E|E];
    destruct (Nat.eq_dec (List.length t) n) as [F|F];
    destruct (Nat.lt_ge_cases n (List.length t)) as [G|G];
    destruct (Nat.lt_ge_cases n (List.length s)) as [K|K]; try lia;
    try (exfalso; apply N; apply ge_sym; auto; lia).
    + split; [apply H; auto; lia|lia].
    + split; [apply indis_sym; apply H; auto; lia|lia].
  - intros (Z & I & [C|C]).
    + apply H; auto; lia.
    + intros E. symmetry in E. revert E. apply H; auto; [lia|]. apply indis_sym. exact I.
Qed.

(** Case-insensitive equality is equality of the upper-cased texts. *)
Lemma eci_iff : forall s t, ~ In ch_nul s -> ~ In ch_nul t ->
  (equalCaseInsensitive s t = true <-> map toupper s = map toupper t).
Proof.
  intros s t Ns Nt. unfold equalCaseInsensitive.
  destruct (ge_same s t 0 true false Ns Nt ltac:(lia)) as (A1 & _ & _ & _). cbn [significant] in A1.
  assert (INDIS true false s t <-> map toupper s = map toupper t) as H.
  { clear Ns Nt A1. revert t. induction s as [|x s IH]; intros [|y t].
    - split; auto. intros _. apply indis_refl.
    - split; [intros [L _]; discriminate|discriminate].
    - split; [intros [L _]; discriminate|discriminate].
    - rewrite indis_cons, IH. simpl. split.
      + intros [C E]. f_equal; auto. destruct C as [C|[(_ & _ & C)|(_ & C & _)]]; simpl in *; congruence.
      + intros E. injection E as E1 E2. split; auto.
        destruct (Ascii.ascii_dec x y) as [->|N]; [left; reflexivity|right; left; split; auto]. }
  rewrite <- H.
  destruct (genericEqual s t 0 true false) eqn:E.
  - split; auto. intros _.
    destruct (ge_same s t 0 true false Ns Nt ltac:(lia)) as (_ & _ & _ & A4). rewrite E in A4.
    cbn [significant] in A4. rewrite (proj1 A4 eq_refl). apply indis_refl.
  - split; [discriminate|]. intros I. exfalso. apply A1; auto.
  - split; auto. intros _.
    destruct (ge_same s t 0 true false Ns Nt ltac:(lia)) as (_ & A2 & _ & _). rewrite E in A2. apply A2. reflexivity.
  - split; auto. intros _.
    destruct (ge_same s t 0 true false Ns Nt ltac:(lia)) as (_ & _ & A3 & _). rewrite E in A3. apply A3. reflexivity.
  - exfalso. eapply ge_no_overrun; [| |exact E]; auto.
Qed.

(** The two classifications are the intended ones. *)
Lemma lookLike_iff : forall a b, lookLike a = lookLike b <-> a = b \/ alike a b.
Proof.
  intros a b. split.
  - intro H. unfold lookLike in H.
    destruct (Ascii.eqb_spec a "I"); [|destruct (Ascii.eqb_spec a "l"); [|destruct (Ascii.eqb_spec a "O");
      [|destruct (Ascii.eqb_spec a "o"); [|destruct (Ascii.eqb_spec a "Z"); [|destruct (Ascii.eqb_spec a "S")]]]]];
    (destruct (Ascii.eqb_spec b "I"); [|destruct (Ascii.eqb_spec b "l"); [|destruct (Ascii.eqb_spec b "O");
      [|destruct (Ascii.eqb_spec b "o"); [|destruct (Ascii.eqb_spec b "Z"); [|destruct (Ascii.eqb_spec b "S")]]]]]);
    cbn [orb] in H; try discriminate H; try (left; congruence); right; subst;
    first [ exists ["1"; "I"; "l"]%char; cbn [In]; tauto | exists ["0"; "O"; "o"]%char; cbn [In]; tauto
          | exists ["2"; "Z"]%char; cbn [In]; tauto | exists ["5"; "S"]%char; cbn [In]; tauto ].
  - intros [->|(g & G & A & B)]; [reflexivity|].
    cbn [In] in G. repeat (destruct G as [<-|G]; [cbn [In] in A, B;
      repeat (destruct A as [<-|A]; [repeat (destruct B as [<-|B]; [reflexivity|]); destruct B|]); destruct A|]).
    destruct G.
Qed.

Lemma toupper_iff : forall a b, toupper a = toupper b <-> a = b \/ other_case a b.
Proof.
  intros a b. pose proof (code_range a) as Ra. pose proof (code_range b) as Rb.
  unfold toupper, other_case.
  assert (C : forall x, code x - 32 >= 0 -> code (chr (code x - 32)) = code x - 32).
  { intros x Hx. pose proof (code_range x). apply code_chr. lia. }
  destruct ((97 <=? code a) && (code a <=? 122)) eqn:A; destruct ((97 <=? code b) && (code b <=? 122)) eqn:B.
  - split.
    + intro H. apply (f_equal code) in H. rewrite !C in H by lia. left. apply code_inj. lia.
    + intros [->|[H|H]]; [reflexivity|lia|lia].
  - split.
    + intro H. right. left. apply (f_equal code) in H. rewrite C in H by lia. lia.
    + intros [->|[H|H]]; [congruence| |lia]. apply code_inj. rewrite C by lia. lia.
  - split.
    + intro H. right. right. apply (f_equal code) in H. rewrite C in H by lia. lia.
    + intros [->|[H|H]]; [congruence|lia|]. apply code_inj. rewrite C by lia. lia.
  - split; [intro H; left; exact H|]. intros [->|[H|H]]; [reflexivity|lia|lia].
Qed.
