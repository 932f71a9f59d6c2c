(** * Proofs about integer sets *)
From Verif Require Import Cbase Intset_model Intset_spec.
From Coq Require Import ZifyBool.
Local Open Scope Z_scope.

Definition ok (s : intSet) : Prop := 0 <= is_nspace s /\ is_nspace s + is_entries s = is_cap s.

Definition from (ops : list (Z * Z)) (s : option intSet) : option intSet :=
  fold_left (fun s o => match s with
                        | None => None
                        | Some s => match is_insert s (fst o) (snd o) with
                                    | Some (s, _) => Some s | None => None end
                        end) ops s.

Lemma from_none : forall ops, from ops None = None.
Proof. induction ops; simpl; auto. Qed.

Lemma from_snoc : forall ops o s, from (ops ++ [o]) s =
  match from ops s with
  | None => None
  | Some s => match is_insert s (fst o) (snd o) with Some (s, _) => Some s | None => None end
  end.
Proof. intros. unfold from. rewrite fold_left_app. reflexivity. Qed.

Lemma first_ge_le : forall l el, (first_ge l el <= List.length l)%nat.
Proof. induction l; intros; simpl; [lia|]. destruct (_ <=? _); [lia|]. specialize (IHl el). lia. Qed.

Lemma first_ge_spec : forall l el x, nth_error l (first_ge l el) = Some x -> el <= x.
Proof.
  induction l as [|y l IH]; intros el x H; simpl in H; [discriminate|].
  destruct (Z.leb_spec el y); simpl in H; [injection H as <-; auto|eauto].
Qed.

Lemma first_ge_max : forall l el, (forall x, In x l -> x < el) -> first_ge l el = List.length l.
Proof.
  induction l as [|y l IH]; intros el H; simpl; auto.
  destruct (Z.leb_spec el y); [specialize (H y (or_introl eq_refl)); lia|].
  rewrite IH; auto. intros x K. apply H. simpl. auto.
Qed.

(** One insertion. *)
Lemma insert_cases : forall s el junk s' b, ok s -> is_insert s el junk = Some (s', b) ->
  ok s' /\
  ((b = false /\ s' = s /\ (In el (is_els s) \/ junk = el)) \/
   (b = true /\ is_entries s' = is_entries s + 1 /\ forall x, In x (is_els s') <-> x = el \/ In x (is_els s))).
Proof.
  intros s el junk s' b (H1 & H2) E. unfold is_insert in E.
  set (i := first_ge (is_els s) el) in *.
  set (q := if 0 <? is_entries s then _ else _) in E.
  destruct q as [[]|] eqn:Eq; [| |discriminate].
  - injection E as <- <-. split; [split; auto|]. left. split; [auto|]. split; [auto|].
    unfold q in Eq. destruct (0 <? is_entries s); [|discriminate]. unfold is_read in Eq.
    destruct (nth_error (is_els s) i) as [x|] eqn:En.
    + injection Eq as Eq. apply Z.eqb_eq in Eq. subst x. left. eapply nth_error_In; eauto.
    + destruct (_ <? _); [|discriminate]. injection Eq as Eq. right. lia.
  - set (s1 := if is_nspace s <=? 0 then is_grow s else s) in E.
    assert (Els : is_els s1 = is_els s) by (unfold s1; destruct (_ <=? _); reflexivity).
    assert (N1 : 0 < is_nspace s1 /\ is_nspace s1 + is_entries s1 = is_cap s1).
    { unfold s1. destruct (Z.leb_spec (is_nspace s) 0); [|lia].
      unfold is_grow, is_entries. cbn [is_els is_nspace is_cap]. unfold is_entries, BASESIZE. lia. }
    destruct (is_cap s1 <=? is_entries s1); [discriminate|]. injection E as <- <-.
    assert (En : is_entries s1 = is_entries s) by (unfold is_entries; rewrite Els; auto).
    set (els := if Z.of_nat i =? _ then _ else _).
    assert (L : List.length els = S (List.length (is_els s))).
    { unfold els. rewrite Els. destruct (_ =? _); rewrite app_length; simpl; [lia|].
      rewrite <- (firstn_skipn i (is_els s)) at 3. rewrite app_length. lia. }
    split; [split; simpl; [lia|]|].
    + unfold is_entries in *. simpl. rewrite L. lia.
    + right. split; [auto|]. split; [unfold is_entries; simpl; rewrite L; lia|].
      intros x. simpl. unfold els. rewrite Els.
      destruct (_ =? _).
      * rewrite in_app_iff. simpl. intuition.
      * rewrite in_app_iff. simpl. rewrite <- (firstn_skipn i (is_els s)) at 3.
        rewrite in_app_iff. intuition.
Qed.

Lemma new_ok : ok is_new.
Proof. split; [discriminate|reflexivity]. Qed.

Lemma no_invention : forall ops s, is_run ops = Some s ->
  ok s /\ forall x, In x (is_els s) -> In x (inserted ops).
Proof.
  intros ops. change (is_run ops) with (from ops (Some is_new)).
  induction ops as [|o ops IH] using rev_ind; intros s H.
  - injection H as <-. split; [apply new_ok|simpl; tauto].
  - rewrite from_snoc in H. destruct (from ops (Some is_new)) as [s0|]; [|discriminate].
    destruct (IH s0 eq_refl) as [O I]. unfold inserted in *. rewrite map_app.
    destruct (is_insert s0 (fst o) (snd o)) as [[s1 b]|] eqn:E; [|discriminate]. injection H as <-.
    destruct (insert_cases _ _ _ _ _ O E) as [O1 C]. split; [auto|].
    intros x K. apply in_or_app. destruct C as [(_ & -> & _)|(_ & _ & C)]; [left; auto|].
    apply C in K. destruct K as [->|K]; [right; simpl; auto|left; auto].
Qed.

Lemma no_loss : forall ops s, is_run ops = Some s -> clean ops ->
  forall x, In x (inserted ops) -> In x (is_els s).
Proof.
  intros ops. change (is_run ops) with (from ops (Some is_new)).
  induction ops as [|o ops IH] using rev_ind; intros s H Hc x Hx; [destruct Hx|].
  apply Forall_app in Hc as [Hc Ho]. inversion Ho as [|? ? Ho' _]; subst.
  rewrite from_snoc in H. destruct (from ops (Some is_new)) as [s0|] eqn:E0; [|discriminate].
  specialize (IH s0 eq_refl Hc). destruct (no_invention ops s0 E0) as [O _].
  destruct (is_insert s0 (fst o) (snd o)) as [[s1 b]|] eqn:E; [|discriminate]. injection H as <-.
  destruct (insert_cases _ _ _ _ _ O E) as [_ C].
  unfold inserted in Hx. rewrite map_app in Hx. apply in_app_or in Hx.
  destruct C as [(_ & -> & C)|(_ & _ & C)].
  - destruct Hx as [Hx|[<-|[]]]; [auto|]. destruct C; [auto|]. congruence.
  - apply C. destruct Hx as [Hx|[<-|[]]]; auto.
Qed.

Lemma member_sound : forall l q, member_loop l q = true -> In q l.
Proof.
  induction l as [|x l IH]; intros q H; simpl in *; [discriminate|].
  destruct (Z.eqb_spec q x); [auto|]. destruct (x <? q); [discriminate|auto].
Qed.

(** Membership is reported exactly for the numbers smaller than everything before them. *)
Lemma member_iff : forall l q, member_loop l q = true <->
  exists l1 l2, l = l1 ++ q :: l2 /\ forall x, In x l1 -> q < x.
Proof.
  induction l as [|x l IH]; intros q; simpl.
  - split; [discriminate|]. intros (l1 & l2 & E & _). destruct l1; discriminate.
  - destruct (Z.eqb_spec q x) as [->|N].
    + split; [|auto]. intros _. exists [], l. split; [auto|]. simpl. tauto.
    + destruct (Z.ltb_spec x q) as [L|L].
      * split; [discriminate|]. intros (l1 & l2 & E & K). destruct l1 as [|y l1]; simpl in E.
        { congruence. } injection E as <- E. specialize (K x (or_introl eq_refl)). lia.
      * rewrite IH. split; intros (l1 & l2 & E & K).
        -- exists (x :: l1), l2. subst l. split; [auto|]. simpl. intros y [<-|Hy]; [lia|auto].
        -- destruct l1 as [|y l1]; simpl in E; [congruence|]. injection E as <- E.
           exists l1, l2. split; [auto|]. intros y Hy. apply K. simpl. auto.
Qed.

(** ** Ascending histories *)

Fixpoint sorted_lt (l : list Z) : Prop :=
  match l with
  | [] => True
  | x :: l => (forall y, In y l -> x < y) /\ sorted_lt l
  end.

Lemma sorted_snoc : forall l x, sorted_lt l -> (forall y, In y l -> y < x) -> sorted_lt (l ++ [x]).
Proof.
  induction l as [|a l IH]; intros x H K; simpl in *.
  - split; [tauto|auto].
  - destruct H as [H1 H2]. split.
    + intros y Hy. apply in_app_or in Hy. destruct Hy as [Hy|[<-|[]]]; auto.
    + apply IH; auto.
Qed.

Lemma sorted_nodup : forall l, sorted_lt l -> NoDup l.
Proof.
  induction l as [|x l IH]; intros H; constructor; simpl in H.
  - intros K. apply H in K. lia.
  - apply IH. tauto.
Qed.

Lemma ascending_snoc : forall l x, ascending (l ++ [x]) -> ascending l /\ forall y, In y l -> y <= x.
Proof.
  induction l as [|a l IH]; intros x H; simpl in *; [tauto|].
  destruct H as [H1 H2]. destruct (IH x H2) as [H3 H4]. split; [split; auto|].
  - intros y Hy. apply H1. apply in_or_app. auto.
  - intros y [<-|Hy]; [apply H1, in_or_app; simpl; auto|auto].
Qed.

Lemma first_ge_in : forall l x, sorted_lt l -> In x l -> (forall y, In y l -> y <= x) ->
  nth_error l (first_ge l x) = Some x.
Proof.
  induction l as [|a l IH]; intros x H Hx Hm; simpl in *; [tauto|].
  destruct (Z.leb_spec x a) as [L|L].
  - simpl. f_equal. specialize (Hm a (or_introl eq_refl)). lia.
  - simpl. apply IH; [tauto| |auto]. destruct Hx; [lia|auto].
Qed.

Lemma distinct_snoc : forall l x, distinct l <= distinct (l ++ [x]).
Proof.
  intros l x. unfold distinct.
  assert (incl (nodup Z.eq_dec l) (nodup Z.eq_dec (l ++ [x]))).
  { intros y K. apply nodup_In in K. apply nodup_In, in_or_app. auto. }
  apply NoDup_incl_length in H; [lia|apply NoDup_nodup].
Qed.

Lemma same_elems_len : forall l1 l2, NoDup l1 -> (forall x : Z, In x l1 <-> In x l2) ->
  Z.of_nat (List.length l1) = distinct l2.
Proof.
  intros l1 l2 H K. unfold distinct. f_equal. apply Nat.le_antisymm.
  - apply NoDup_incl_length; auto. intros x Hx. apply nodup_In. apply K. auto.
  - apply NoDup_incl_length; [apply NoDup_nodup|]. intros x Hx. apply nodup_In in Hx. apply K. auto.
Qed.

Lemma ascending_run : forall ops, clean ops -> ascending (inserted ops) ->
  distinct (inserted ops) <= BASESIZE ->
  exists s, is_run ops = Some s /\ is_cap s = BASESIZE /\ sorted_lt (is_els s) /\
    forall x, In x (is_els s) <-> In x (inserted ops).
Proof.
  intros ops. change (is_run ops) with (from ops (Some is_new)).
  induction ops as [|[el junk] ops IH] using rev_ind; intros Hc Ha Hd.
  - exists is_new. simpl. intuition.
  - apply Forall_app in Hc as [Hc Ho]. inversion Ho as [|? ? Ho' _]; subst. simpl in Ho'.
    unfold inserted in *. rewrite map_app in *. simpl in Ha, Hd |- *.
    destruct (ascending_snoc _ _ Ha) as [Ha' Hm].
    pose proof (distinct_snoc (map fst ops) el) as D.
    destruct IH as (s & E & C & So & I); auto; [lia|].
    rewrite from_snoc, E. simpl fst. simpl snd.
    destruct (no_invention ops s E) as [O _].
    destruct (in_dec Z.eq_dec el (is_els s)) as [Hin|Hout].
    + (* already there *)
      exists s. assert (Ei : is_insert s el junk = Some (s, false)).
      { unfold is_insert, is_read. rewrite first_ge_in; auto.
        - rewrite Z.eqb_refl. destruct (0 <? is_entries s) eqn:L; auto.
          unfold is_entries in L. destruct (is_els s); [destruct Hin|simpl in L; lia].
        - intros y Hy. apply Hm. apply I. auto. }
      rewrite Ei. split; [auto|]. split; [auto|]. split; [auto|].
      intros x. rewrite I, in_app_iff. simpl. split; [auto|]. intros [K|[<-|[]]]; auto.
      apply I. auto.
    + (* a new maximum *)
      assert (Lt : forall y, In y (is_els s) -> y < el).
      { intros y Hy. assert (y <= el) by (apply Hm; apply I; auto).
        destruct (Z.eq_dec y el); [subst; contradiction|lia]. }
      assert (Room : is_entries s < BASESIZE).
      { assert (D2 : Z.of_nat (List.length (is_els s ++ [el])) = distinct (map fst ops ++ [el])).
        { apply same_elems_len.
          - apply sorted_nodup, sorted_snoc; auto.
          - intros x. rewrite !in_app_iff. rewrite I. tauto. }
        rewrite app_length in D2. simpl in D2. unfold is_entries. lia. }
      assert (Ei : is_insert s el junk = Some (IS (is_els s ++ [el]) (is_nspace s - 1) (is_cap s), true)).
      { unfold is_insert. rewrite (first_ge_max _ _ Lt).
        unfold is_read. rewrite (proj2 (nth_error_None _ _)) by lia.
        fold (is_entries s). destruct O as [O1 O2].
        replace (is_entries s <? is_cap s) with true by lia.
        replace (junk =? el) with false by lia.
        destruct (0 <? is_entries s); [|];
        (replace (is_nspace s <=? 0) with false by lia;
         replace (is_cap s <=? is_entries s) with false by lia;
         replace (is_entries s =? is_entries s - 1) with false by lia;
         rewrite firstn_all, skipn_all; reflexivity). }
      rewrite Ei. eexists. split; [reflexivity|]. simpl. split; [auto|].
      split; [apply sorted_snoc; auto|].
      intros x. rewrite !in_app_iff, I. tauto.
Qed.
