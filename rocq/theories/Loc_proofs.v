(** * Proofs about locations and the message log *)
From Verif Require Import Cbase Cbase_facts Loc_model Loc_spec.
From Coq Require Import ZifyBool.
Local Open Scope Z_scope.

(** ** Comparison *)

Lemma intcmp_range : forall x y k, -1 <= k <= 1 -> -1 <= intcmp x y k <= 1.
Proof. intros. unfold intcmp. destruct (y <? x); [lia|]. destruct (x <? y); lia. Qed.

Lemma intcmp_cases : forall x y k,
  (x > y /\ intcmp x y k = 1) \/ (x < y /\ intcmp x y k = -1) \/ (x = y /\ intcmp x y k = k).
Proof.
  intros. unfold intcmp. destruct (Z.ltb_spec y x); [left; lia|].
  destruct (Z.ltb_spec x y); [right; left; lia|right; right; lia].
Qed.

Lemma compare_cases : forall a b,
  (fl_compare a b = -1 /\ before a b) \/ (fl_compare a b = 0 /\ same_place a b) \/
  (fl_compare a b = 1 /\ before b a).
Proof.
  intros [a|] [b|]; simpl; auto.
  destruct (intcmp_cases (l_fid a) (l_fid b) (intcmp (l_line a) (l_line b) (intcmp (l_col a) (l_col b) 0)))
    as [(H & ->)|[(H & ->)|(H & ->)]]; [lia|lia|].
  destruct (intcmp_cases (l_line a) (l_line b) (intcmp (l_col a) (l_col b) 0))
    as [(H1 & ->)|[(H1 & ->)|(H1 & ->)]]; [lia|lia|].
  destruct (intcmp_cases (l_col a) (l_col b) 0)
    as [(H2 & ->)|[(H2 & ->)|(H2 & ->)]]; lia.
Qed.

Lemma before_irrefl : forall a b, before a b -> same_place a b -> False.
Proof. intros [a|] [b|]; simpl; try tauto; lia. Qed.

Lemma before_asym : forall a b, before a b -> before b a -> False.
Proof. intros [a|] [b|]; simpl; try tauto; lia. Qed.

Lemma same_sym : forall a b, same_place a b -> same_place b a.
Proof. intros [a|] [b|]; simpl; try tauto; lia. Qed.

Lemma before_trans : forall a b c, before a b -> before b c -> before a c.
Proof. intros [a|] [b|] [c|]; simpl; try tauto; lia. Qed.

Lemma same_trans : forall a b c, same_place a b -> same_place b c -> same_place a c.
Proof. intros [a|] [b|] [c|]; simpl; try tauto; lia. Qed.

Lemma before_same : forall a b c, before a b -> same_place b c -> before a c.
Proof. intros [a|] [b|] [c|]; simpl; try tauto; lia. Qed.

Lemma same_before : forall a b c, same_place a b -> before b c -> before a c.
Proof. intros [a|] [b|] [c|]; simpl; try tauto; lia. Qed.

Lemma compare_neg : forall a b, fl_compare a b = - fl_compare b a.
Proof.
  intros a b.
  destruct (compare_cases a b) as [(-> & H)|[(-> & H)|(-> & H)]];
  destruct (compare_cases b a) as [(-> & K)|[(-> & K)|(-> & K)]]; auto; exfalso;
  eauto using before_irrefl, before_asym, same_sym.
Qed.

Lemma compare_trans : forall a b c, fl_compare a b <= 0 -> fl_compare b c <= 0 -> fl_compare a c <= 0.
Proof.
  intros a b c H1 H2.
  destruct (compare_cases a b) as [(E1 & K1)|[(E1 & K1)|(E1 & K1)]];
  destruct (compare_cases b c) as [(E2 & K2)|[(E2 & K2)|(E2 & K2)]]; try lia;
  destruct (compare_cases a c) as [(E3 & K3)|[(E3 & K3)|(E3 & K3)]]; try lia; exfalso.
  - eauto using before_asym, before_trans.
  - eauto using before_asym, before_trans, before_same.
  - eauto using before_asym, before_trans, same_before.
  - eauto using before_irrefl, same_trans, same_sym.
Qed.

Lemma compare_zero : forall a b, fl_compare a b = 0 <-> same_place a b.
Proof.
  intros a b. destruct (compare_cases a b) as [(E & K)|[(E & K)|(E & K)]]; split; intros H; auto; try lia; exfalso.
  - eauto using before_irrefl.
  - eauto using before_irrefl, same_sym.
Qed.

Lemma compare_lt : forall a b, fl_compare a b < 0 <-> before a b.
Proof.
  intros a b. destruct (compare_cases a b) as [(E & K)|[(E & K)|(E & K)]]; split; intros H; auto; try lia; exfalso.
  - eauto using before_irrefl.
  - eauto using before_asym.
Qed.

Lemma lessthan_iff : forall a b,
  fl_lessthan a b = true <-> a <> None /\ b <> None /\ fl_compare a b < 0.
Proof.
  intros a b. rewrite compare_lt. destruct a as [a|], b as [b|]; simpl;
    try (split; [discriminate|intros (K & L & _); congruence]).
  split; [intros H; split; [discriminate|split; [discriminate|lia]]|intros (_ & _ & H); lia].
Qed.

Lemma notAfter_iff : forall a b, l_fid a = l_fid b ->
  (fl_notAfter (Some a) (Some b) = true <-> fl_compare (Some a) (Some b) <= 0).
Proof.
  intros a b H.
  destruct (compare_cases (Some a) (Some b)) as [(E & K)|[(E & K)|(E & K)]]; rewrite E;
  simpl in K |- *; lia.
Qed.

(** ** Equality in source files *)

Lemma sameBase_refl : forall ft f, 0 <= f -> sameBase ft f f = true.
Proof. intros. unfold sameBase. rewrite Z.eqb_refl. replace (-1 <? f) with true by lia. auto. Qed.

Lemma sameBase_unrelated : forall ft a b, 0 <= l_fid a -> 0 <= l_fid b -> unrelated ft a b ->
  sameBase ft (l_fid a) (l_fid b) = (l_fid a =? l_fid b).
Proof.
  intros ft a b Ha Hb U. unfold sameBase.
  replace (-1 <? l_fid a) with true by lia. replace (-1 <? l_fid b) with true by lia. simpl.
  destruct (Z.eqb_spec (l_fid a) (l_fid b)) as [|N]; [auto|].
  apply Z.eqb_neq. intros E. apply N. unfold unrelated in U.
  set (da := ft_der ft (l_fid a)) in *. set (db := ft_der ft (l_fid b)) in *.
  apply (U (if negb (-1 <? da) then l_fid a else da)).
  - destruct (Z.ltb_spec (-1) da); simpl; [right; lia|left; auto].
  - rewrite E. destruct (Z.ltb_spec (-1) db); simpl; [right; lia|left; auto].
Qed.

Lemma source_lib : forall l, source_loc l -> is_lib l = false.
Proof. intros [k f n c] [_ H]. unfold is_lib. simpl in *. destruct k; auto; tauto. Qed.

Lemma source_obj : forall a b, source_loc a -> same_object (Some a) (Some b) = false.
Proof. intros [k f n c] b [_ H]. simpl in *. destruct k; auto; tauto. Qed.

Lemma equal_source : forall ft a b, source_loc a -> source_loc b -> unrelated ft a b ->
  (fl_equal ft (Some a) (Some b) = true <-> same_place (Some a) (Some b)).
Proof.
  intros ft a b Ha Hb U. unfold fl_equal. rewrite source_obj by auto. simpl.
  rewrite (source_lib a), (source_lib b) by auto. simpl.
  rewrite sameBase_unrelated; auto; try apply Ha; try apply Hb. lia.
Qed.

(** ** Sorted insertion *)

Section Sorted.
Variable A : Type.
Variable lt : A -> A -> Prop.
Variable same : A -> A -> Prop.
Hypothesis lt_trans : forall a b c, lt a b -> lt b c -> lt a c.
Hypothesis lt_same : forall a b c, lt a b -> same b c -> lt a c.
Hypothesis irrefl : forall a b, lt a b -> same a b -> False.
Hypothesis asym : forall a b, lt a b -> lt b a -> False.
Hypothesis total : forall a b, lt a b \/ same a b \/ lt b a.
Hypothesis ssym : forall a b, same a b -> same b a.

Fixpoint sorted (l : list A) : Prop :=
  match l with
  | [] => True
  | x :: l => (forall y, In y l -> lt x y) /\ sorted l
  end.

Lemma sorted_split : forall l m, sorted l ->
  exists l1 l2, l = l1 ++ l2 /\ (forall x, In x l1 -> lt x m) /\ (forall x, In x l2 -> ~ lt x m).
Proof.
  induction l as [|x l IH]; intros m H.
  - exists [], []. simpl. tauto.
  - destruct H as [H1 H2]. destruct (total x m) as [L|L].
    + destruct (IH m H2) as (l1 & l2 & -> & K1 & K2). exists (x :: l1), l2.
      split; [auto|]. split; [|auto]. intros y [<-|Hy]; auto.
    + exists [], (x :: l). split; [auto|]. split; [simpl; tauto|].
      intros y [<-|Hy] Hlt.
      * destruct L as [L|L]; eauto.
      * specialize (H1 y Hy). destruct L as [L|L].
        -- eauto.
        -- eapply asym; [exact L|eapply lt_trans; eauto].
Qed.

Lemma sorted_app : forall l1 l2, sorted (l1 ++ l2) ->
  sorted l1 /\ sorted l2 /\ forall x y, In x l1 -> In y l2 -> lt x y.
Proof.
  induction l1 as [|a l1 IH]; intros l2 H; simpl in *.
  - split; [auto|]. split; [auto|]. tauto.
  - destruct H as [H1 H2]. destruct (IH l2 H2) as (S1 & S2 & S3).
    split; [split; [|auto]|split; [auto|]].
    + intros y Hy. apply H1, in_or_app. auto.
    + intros x y [<-|Hx] Hy; [apply H1, in_or_app; auto|auto].
Qed.

Lemma app_sorted : forall l1 l2, sorted l1 -> sorted l2 ->
  (forall x y, In x l1 -> In y l2 -> lt x y) -> sorted (l1 ++ l2).
Proof.
  induction l1 as [|a l1 IH]; intros l2 H1 H2 H; simpl in *; auto. destruct H1 as [H1 H3]. split.
  - intros y Hy. apply in_app_or in Hy. destruct Hy; auto.
  - apply IH; auto.
Qed.

Lemma sorted_insert : forall l1 l2 m, sorted (l1 ++ l2) -> (forall x, In x l1 -> lt x m) ->
  (forall x, In x l2 -> ~ lt x m) -> (forall x, In x l2 -> ~ same m x) -> sorted (l1 ++ m :: l2).
Proof.
  intros l1 l2 m H K1 K2 K3. destruct (sorted_app _ _ H) as (S1 & S2 & S3).
  apply app_sorted; auto.
  - simpl. split; [|auto]. intros y Hy. destruct (total m y) as [L|[L|L]]; auto.
    + exfalso. eapply K3; eauto. + exfalso. eapply K2; eauto.
  - intros x y Hx [<-|Hy]; auto.
Qed.

(** If an entry that is the same is present it is the first one that is not smaller. *)
Lemma present_head : forall l1 l2 m e, sorted (l1 ++ l2) -> (forall x, In x l1 -> lt x m) ->
  (forall x, In x l2 -> ~ lt x m) -> In e (l1 ++ l2) -> same m e ->
  exists l2', l2 = e :: l2'.
Proof.
  intros l1 l2 m e H K1 K2 Hin Hs. apply in_app_or in Hin. destruct Hin as [Hin|Hin].
  - exfalso. eapply irrefl; [apply K1; exact Hin|apply ssym; exact Hs].
  - destruct (sorted_app _ _ H) as (_ & S2 & _). destruct l2 as [|h l2]; [destruct Hin|].
    destruct Hin as [<-|Hin]; [eauto|]. exfalso. apply (K2 h); [simpl; auto|].
    eapply lt_same; [apply (proj1 S2); exact Hin|apply ssym; exact Hs].
Qed.
End Sorted.

(** ** Messages *)

Lemma code_inj : forall a b, code a = code b -> a = b.
Proof.
  intros a b H. unfold code in H. apply N2Z.inj in H.
  rewrite <- (ascii_N_embedding a), <- (ascii_N_embedding b), H. reflexivity.
Qed.

Lemma str_cases : forall a b, str_lt a b = true \/ a = b \/ str_lt b a = true.
Proof.
  induction a as [|x a IH]; intros [|y b]; simpl; auto.
  destruct (Z.ltb_spec (code x) (code y)); auto. destruct (Z.ltb_spec (code y) (code x)); auto.
  assert (x = y) by (apply code_inj; lia). subst y. destruct (IH b) as [|[->|]]; auto.
Qed.

Lemma str_irrefl : forall a, str_lt a a = false.
Proof. induction a as [|x a IH]; simpl; auto. rewrite Z.ltb_irrefl. auto. Qed.

Lemma str_trans : forall a b c, str_lt a b = true -> str_lt b c = true -> str_lt a c = true.
Proof.
  induction a as [|x a IH]; intros [|y b] [|z c] H1 H2; simpl in *; auto; try discriminate.
  destruct (Z.ltb_spec (code x) (code y)).
  - destruct (Z.ltb_spec (code x) (code z)); auto.
    destruct (Z.ltb_spec (code y) (code z)); [lia|].
    destruct (Z.ltb_spec (code z) (code y)); [discriminate|lia].
  - destruct (Z.ltb_spec (code y) (code x)); [discriminate|].
    destruct (Z.ltb_spec (code x) (code z)); auto.
    destruct (Z.ltb_spec (code y) (code z)); [lia|].
    destruct (Z.ltb_spec (code z) (code y)); [discriminate|].
    destruct (Z.ltb_spec (code z) (code x)); [lia|]. eauto.
Qed.

Definition mlt (a b : msgentry) : Prop :=
  before (fst a) (fst b) \/ (same_place (fst a) (fst b) /\ str_lt (snd a) (snd b) = true).

Lemma mlt_trans : forall a b c, mlt a b -> mlt b c -> mlt a c.
Proof.
  unfold mlt. intros a b c [H|[H H']] [K|[K K']].
  - left. eauto using before_trans.
  - left. eauto using before_same.
  - left. eauto using same_before.
  - right. eauto using same_trans, str_trans.
Qed.

Lemma mlt_same : forall a b c, mlt a b -> same_message b c -> mlt a c.
Proof.
  unfold mlt, same_message. intros a b c [H|[H H']] [K K'].
  - left. eauto using before_same.
  - right. rewrite <- K'. eauto using same_trans.
Qed.

Lemma msame_sym : forall a b, same_message a b -> same_message b a.
Proof. unfold same_message. intros a b [H K]. auto using same_sym. Qed.

Lemma mlt_irrefl : forall a b, mlt a b -> same_message a b -> False.
Proof.
  unfold mlt, same_message. intros a b [H|[H H']] [K K'].
  - eauto using before_irrefl.
  - rewrite K', str_irrefl in H'. discriminate.
Qed.

Lemma mlt_asym : forall a b, mlt a b -> mlt b a -> False.
Proof.
  intros a b H K. apply (mlt_irrefl a a); [eapply mlt_trans; eauto|].
  split; auto. apply compare_zero. destruct (compare_cases (fst a) (fst a)) as [(E & L)|[(E & L)|(E & L)]]; auto;
  exfalso; eauto using before_asym.
Qed.

Lemma mlt_total : forall a b, mlt a b \/ same_message a b \/ mlt b a.
Proof.
  intros a b. unfold mlt, same_message.
  destruct (compare_cases (fst a) (fst b)) as [(_ & K)|[(_ & K)|(_ & K)]]; auto.
  destruct (str_cases (snd a) (snd b)) as [|[|]]; auto. right. right. auto using same_sym.
Qed.

Section Log.
Variable ft : ftable.

(** The two tests of the code are the order and the equality of messages. *)
Definition clean (a b : msgentry) : Prop :=
  exists x y, fst a = Some x /\ fst b = Some y /\ source_loc x /\ source_loc y /\ unrelated ft x y.

Lemma me_lt : forall a b, clean a b -> (me_lessthan ft a b = true <-> mlt a b).
Proof.
  intros [fa ta] [fb tb] (x & y & Ea & Eb & Hx & Hy & U). simpl in *. subst fa fb.
  unfold me_lessthan, mlt. simpl fst. simpl snd. rewrite orb_true_iff, andb_true_iff.
  rewrite equal_source by auto. rewrite lessthan_iff, compare_lt. split.
  - intros [(_ & _ & H)|H]; auto.
  - intros [H|H]; auto. left. split; [discriminate|]. split; [discriminate|auto].
Qed.

Lemma me_eq : forall a b, clean a b -> (me_equal ft a b = true <-> same_message a b).
Proof.
  intros [fa ta] [fb tb] (x & y & Ea & Eb & Hx & Hy & U). simpl in *. subst fa fb.
  unfold me_equal, same_message. simpl fst. simpl snd. rewrite andb_true_iff.
  rewrite equal_source by auto. rewrite cstr_eqb_eq. reflexivity.
Qed.

Lemma index_split : forall l1 l2 m, (forall x, In x (l1 ++ l2) -> clean x m) ->
  (forall x, In x l1 -> mlt x m) -> (forall x, In x l2 -> ~ mlt x m) ->
  log_index ft (l1 ++ l2) m = List.length l1.
Proof.
  intros l1 l2 m Hc K1 K2.
  assert (Z2 : log_index ft l2 m = O).
  { assert (Hc2 : forall x, In x l2 -> clean x m) by (intros; apply Hc, in_or_app; auto).
    clear Hc K1. induction l2 as [|x l2 IH]; simpl; auto. rewrite IH; simpl in *; auto.
    - destruct (me_lessthan ft x m) eqn:E; auto. apply me_lt in E; auto. exfalso. eapply K2; eauto. }
  induction l1 as [|x l1 IH]; simpl; auto. rewrite IH; simpl in *; auto.
  destruct (List.length l1); auto.
  assert (me_lessthan ft x m = true) as -> by (apply me_lt; auto). reflexivity.
Qed.

Lemma add_spec : forall l m, sorted _ mlt l -> (forall x, In x l -> clean x m /\ clean m x) ->
  exists l' b, log_add ft l m = (l', b) /\ sorted _ mlt l' /\
    (b = false -> l' = l /\ exists e, In e l /\ same_message e m) /\
    (b = true -> (forall e, In e l -> ~ same_message e m) /\ forall x, In x l' <-> x = m \/ In x l).
Proof.
  intros l m Hs Hc.
  destruct (sorted_split _ mlt same_message mlt_trans mlt_irrefl mlt_asym mlt_total l m Hs)
    as (l1 & l2 & -> & K1 & K2).
  unfold log_add. rewrite index_split; auto; [|intros x Hx; apply Hc; auto].
  rewrite nth_error_app2, Nat.sub_diag by lia.
  rewrite firstn_app, firstn_all, Nat.sub_diag, skipn_app, skipn_all, Nat.sub_diag.
  rewrite firstn_O, skipn_O, app_nil_r. cbn [app].
  assert (Ins : (forall x, In x l2 -> ~ same_message m x) ->
    exists l' b, (l1 ++ m :: l2, true) = (l', b) /\ sorted _ mlt l' /\
    (b = false -> l' = l1 ++ l2 /\ exists e, In e (l1 ++ l2) /\ same_message e m) /\
    (b = true -> (forall e, In e (l1 ++ l2) -> ~ same_message e m) /\
                 forall x, In x l' <-> x = m \/ In x (l1 ++ l2))).
  { intros K3. exists (l1 ++ m :: l2), true. split; [auto|]. split.
    - apply sorted_insert with (same := same_message); auto using mlt_total.
    - split; [discriminate|]. intros _. split.
      + intros e He Hsame. apply in_app_or in He. destruct He as [He|He].
        * eapply mlt_irrefl; [apply K1; exact He|exact Hsame].
        * eapply K3; [exact He|apply msame_sym; exact Hsame].
      + intros x. rewrite !in_app_iff. simpl. intuition. }
  destruct l2 as [|h l2]; simpl nth_error; cbv iota.
  - apply Ins. simpl. tauto.
  - destruct (me_equal ft m h) eqn:E.
    + apply me_eq in E; [|apply Hc, in_or_app; simpl; auto].
      exists (l1 ++ h :: l2), false. split; [auto|]. split; [auto|]. split; [|discriminate].
      intros _. split; [auto|]. exists h. split; [apply in_or_app; simpl; auto|apply msame_sym; auto].
    + apply Ins. intros x Hx Hsame.
      destruct (present_head _ mlt same_message mlt_same mlt_irrefl msame_sym l1 (h :: l2) m x)
        as (l2' & E2); auto; [apply in_or_app; auto|].
      injection E2 as -> _. apply me_eq in Hsame; [congruence|]. apply Hc, in_or_app. simpl. auto.
Qed.

Lemma run_spec : forall ms l seen, sorted _ mlt l ->
  (forall x, In x l -> In x seen) ->
  (forall x, In x seen -> exists e, In e l /\ same_message e x) ->
  (forall x y, In x (seen ++ ms) -> In y (seen ++ ms) -> clean x y) ->
  List.length (log_run ft l ms) = List.length ms /\
  forall n m b, nth_error ms n = Some m -> nth_error (log_run ft l ms) n = Some b ->
    (b = true <-> (forall x, In x seen -> ~ same_message x m) /\
                  forall i m', (i < n)%nat -> nth_error ms i = Some m' -> ~ same_message m' m).
Proof.
  induction ms as [|m0 ms IH]; intros l seen Hs H1 H2 Hc; simpl.
  - split; [auto|]. intros [|n] m b H; discriminate.
  - destruct (add_spec l m0 Hs) as (l' & b0 & E & S' & F & Tr).
    { intros x Hx. split; apply Hc; apply in_or_app; simpl; auto. }
    rewrite E. simpl.
    destruct (IH l' (seen ++ [m0]) S') as [IL IN].
    + intros x Hx. apply in_or_app. destruct b0.
      * apply (proj2 (Tr eq_refl)) in Hx. destruct Hx as [->|Hx]; [right; simpl; auto|left; auto].
      * rewrite (proj1 (F eq_refl)) in Hx. left. auto.
    + intros x Hx. apply in_app_or in Hx. destruct b0.
      * destruct (Tr eq_refl) as [T1 T2]. destruct Hx as [Hx|[<-|[]]].
        -- destruct (H2 x Hx) as (e & He & Hsm). exists e. split; [apply T2; auto|auto].
        -- exists m0. split; [apply T2; auto|].
           destruct (mlt_total m0 m0) as [K|[K|K]]; auto; exfalso; eapply mlt_asym; eauto.
      * destruct (F eq_refl) as [-> (e & He & Hsm)]. destruct Hx as [Hx|[<-|[]]]; [auto|eauto].
    + intros x y Hx Hy. apply Hc; rewrite <- app_assoc in *; auto.
    + split; [lia|]. intros [|n] m b Hm Hb; simpl in Hm, Hb.
      * injection Hm as <-. injection Hb as <-. destruct b0.
        -- destruct (Tr eq_refl) as [T1 _]. split; [|auto]. intros _. split; [|intros; lia].
           intros x Hx Hsm. destruct (H2 x Hx) as (e & He & Hes). apply (T1 e He).
           destruct Hes as [A1 A2], Hsm as [B1 B2]. split; [eauto using same_trans|congruence].
        -- split; [discriminate|]. intros [K _]. exfalso.
           destruct (F eq_refl) as [_ (e & He & Hsm)]. eapply K; eauto.
      * rewrite (IN n m b Hm Hb). split; intros [K1 K2]; split.
        -- intros x Hx. apply K1, in_or_app. auto.
        -- intros [|i] m' Hi Hn; simpl in Hn.
           ++ injection Hn as <-. apply K1, in_or_app. simpl. auto.
           ++ apply (K2 i); auto. lia.
        -- intros x Hx. apply in_app_or in Hx. destruct Hx as [Hx|[<-|[]]]; [auto|].
           apply (K2 O); simpl; auto. lia.
        -- intros i m' Hi Hn. apply (K2 (S i)); simpl; auto. lia.
Qed.

Lemma reported_first : forall ms, source_messages ft ms -> marks_first ms (reported ft ms).
Proof.
  intros ms [H1 H2].
  destruct (run_spec ms [] [] I) as [L N]; try (simpl; tauto).
  - intros [fa ta] [fb tb] Ha Hb. simpl in *.
    destruct (H1 _ _ Ha) as (x & -> & Sx). destruct (H1 _ _ Hb) as (y & -> & Sy).
    exists x, y. simpl. eauto 10.
  - split; [exact L|]. intros n m b Hm Hb. rewrite (N n m b Hm Hb). simpl. tauto.
Qed.
End Log.
