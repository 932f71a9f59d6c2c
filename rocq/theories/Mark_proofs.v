(** * Proofs about suppression comments *)
From Verif Require Import Cbase Cbase_facts Loc_model Loc_spec Loc_proofs Mark_model Mark_spec.
From Coq Require Import ZifyBool.
Local Open Scope Z_scope.

Lemma pos_leb_iff : forall a b, pos_leb a b = true <-> pos_le a b.
Proof. intros. unfold pos_leb, pos_le. lia. Qed.

Lemma pos_le_trans : forall a b c, pos_le a b -> pos_le b c -> pos_le a c.
Proof. unfold pos_le. intros. lia. Qed.

Lemma pos_total : forall a b, pos_le a b \/ pos_le b a.
Proof. unfold pos_le. intros. lia. Qed.

Lemma filter_nil : forall {A} (p : A -> bool) l, (forall x, In x l -> p x = false) -> filter p l = [].
Proof.
  intros A p. induction l as [|x l IH]; intros H; [auto|]. simpl. rewrite H by (simpl; auto).
  apply IH. intros. apply H. simpl. auto.
Qed.

Section M.
Variable ft : ftable.
Variable isN : Z -> bool.
Variable NC : Z.

Notation walk := (walk ft isN NC).
Notation suppressError := (suppressError ft isN NC).

(** ** The walk *)

Lemma walk_app : forall code l rs rest io no fo fs,
  (forall x, In x rs -> m_sameFile ft x l = true) ->
  (match rest with [] => True | x :: _ => m_sameFile ft x l = false end) ->
  walk code false l (rs ++ rest) io no fo fs =
  (fst (walk code false l rs io no fo fs),
   match snd (walk code false l rs io no fo fs) with
   | Some n => Some (n + List.length rest)%nat | None => None end).
Proof.
  induction rs as [|x rs IH]; intros rest io no fo fs Hs Hr.
  - simpl. destruct rest as [|y rest]; simpl; [auto|]. rewrite Hr. reflexivity.
  - simpl. rewrite (Hs x) by (simpl; auto). cbn [negb andb].
    assert (Hs' : forall y, In y rs -> m_sameFile ft y l = true) by (intros; apply Hs; simpl; auto).
    destruct (m_kind x) as [k set| | | |k]; auto.
    + destruct (negb fo && (k =? code)).
      * destruct set; auto.
        -- destruct (io && negb (isN code && negb no)); auto.
           destruct ((k =? NC) && negb no && isN code); auto.
           destruct (io && true); auto.
        -- destruct (io && negb (isN code && negb no)); auto.
           destruct ((k =? NC) && negb no && isN code); auto.
           destruct (io && true); auto.
      * destruct ((k =? NC) && negb no && isN code); auto.
        destruct set; auto; destruct (io && fo); auto.
    + destruct io; cbn [negb]; auto.
    + destruct io; cbn [negb]; auto. simpl. rewrite app_length. reflexivity.
Qed.

Definition nonS (l : list marker) : list marker := filter (fun m => negb (is_suppress m)) l.

Lemma nonS_app : forall a b, nonS (a ++ b) = nonS a ++ nonS b.
Proof. intros. apply filter_app. Qed.

Lemma in_nonS : forall x l, In x (nonS l) <-> In x l /\ is_suppress x = false.
Proof. intros. unfold nonS. rewrite filter_In, negb_true_iff. tauto. Qed.

Lemma walk_nonS : forall code l rs io no fo fs, 
  (forall x, In x rs -> m_sameFile ft x l = true) ->
  fst (walk code false l rs io no fo fs) = fst (walk code false l (nonS rs) io no fo fs).
Proof.
  induction rs as [|x rs IH]; intros io no fo fs Hs; [reflexivity|].
  assert (Hs' : forall y, In y rs -> m_sameFile ft y l = true) by (intros; apply Hs; simpl; auto).
  assert (Hx := Hs x (or_introl eq_refl)).
  simpl. unfold is_suppress. destruct (m_kind x) as [k set| | | |k] eqn:Ek; simpl; rewrite Hx;
    cbn [negb andb]; try rewrite Ek; auto.
  - destruct (negb fo && (k =? code)).
    + destruct set; auto; destruct (io && negb (isN code && negb no)); auto;
      destruct ((k =? NC) && negb no && isN code); auto; destruct (io && true); auto.
    + destruct ((k =? NC) && negb no && isN code); auto; destruct set; auto; destruct (io && fo); auto.
  - destruct io; cbn [negb]; auto.
  - destruct io; cbn [negb]; auto.
Qed.

(** where the walk stops at a counted region *)
Lemma walk_stop : forall code l rs no fo fs n,
  snd (walk code false l rs false no fo fs) = Some n ->
  exists r1 c r2, rs = r1 ++ c :: r2 /\ is_count c = true /\ n = S (List.length r2) /\
    (forall x, In x r1 -> is_off x = false) /\ fst (walk code false l rs false no fo fs) = YES.
Proof.
  assert (G : forall code l rs io no fo fs n,
    snd (walk code false l rs io no fo fs) = Some n -> io = false /\
    exists r1 c r2, rs = r1 ++ c :: r2 /\ is_count c = true /\ n = S (List.length r2) /\
    (forall x, In x r1 -> is_off x = false) /\ fst (walk code false l rs io no fo fs) = YES).
  { induction rs as [|x rs IH]; intros io no fo fs n H; simpl in H; [discriminate|].
    simpl. destruct (negb (m_sameFile ft x l)); [discriminate|]. cbn [negb andb] in *.
    assert (Ext : is_off x = false -> forall io' no' fo' fs',
      snd (walk code false l rs io' no' fo' fs') = Some n -> io' = io ->
      io = false /\ exists r1 c r2, x :: rs = r1 ++ c :: r2 /\ is_count c = true /\
        n = S (List.length r2) /\ (forall y, In y r1 -> is_off y = false) /\
        fst (walk code false l rs io' no' fo' fs') = YES).
    { intros Hx io' no' fo' fs' K ->. apply IH in K. destruct K as (-> & r1 & c & r2 & -> & A & B & C & D).
      split; [auto|]. exists (x :: r1), c, r2. split; [auto|]. split; [auto|]. split; [auto|].
      split; [|auto]. intros y [<-|Hy]; auto. }
    unfold is_off in Ext. 
    destruct (m_kind x) as [k set| | | |k] eqn:Ek.
    - destruct (negb fo && (k =? code)).
      + destruct set; try discriminate;
        destruct (io && negb (isN code && negb no)); try discriminate;
        destruct ((k =? NC) && negb no && isN code); eauto;
        destruct (io && true); try discriminate; eauto.
      + destruct ((k =? NC) && negb no && isN code); eauto;
        destruct set; try discriminate; destruct (io && fo); try discriminate; eauto.
    - destruct io; cbn [negb] in *; [eauto|discriminate].
    - destruct io; cbn [negb] in *; [eauto|]. simpl in H. injection H as <-.
      split; [auto|]. exists [], x, rs. split; [auto|]. split; [unfold is_count; rewrite Ek; auto|].
      split; [auto|]. split; [simpl; tauto|auto].
    - apply IH in H. destruct H as (K & _). discriminate.
    - eauto. }
  intros code l rs no fo fs n H. apply G in H. tauto.
Qed.

(** *** The answer, for flags that are not name checks *)

Fixpoint reg (rs : list marker) : bool :=
  match rs with
  | [] => false
  | x :: rs => match m_kind x with
               | IgnoreOn | IgnoreCount _ => true
               | IgnoreOff => false
               | _ => reg rs
               end
  end.
Fixpoint sets (code : Z) (rs : list marker) : option ynm :=
  match rs with
  | [] => None
  | x :: rs => match m_kind x with
               | LocalSet k s => if k =? code then Some s else sets code rs
               | _ => sets code rs
               end
  end.

Lemma walk_answer : forall code l rs io no fo fs, isN code = false ->
  (forall x, In x rs -> m_sameFile ft x l = true) ->
  fst (walk code false l rs io no fo fs) =
  if negb io && reg rs then YES
  else if fo then fs
  else match sets code rs with
       | Some NO => YES | Some YES => NO | Some MAYBE => MAYBE | None => fs end.
Proof.
  induction rs as [|x rs IH]; intros io no fo fs Hn Hs.
  - simpl. destruct io, fo; auto.
  - assert (Hs' : forall y, In y rs -> m_sameFile ft y l = true) by (intros; apply Hs; simpl; auto).
    simpl. rewrite (Hs x) by (simpl; auto). cbn [negb andb]. rewrite Hn.
    destruct (m_kind x) as [k set| | | |k] eqn:Ek; cbn [andb negb].
    + rewrite andb_false_r.
      destruct fo; cbn [negb andb].
      * rewrite IH by auto. destruct (negb io && reg rs); auto.
      * destruct (k =? code).
        -- destruct set; cbn [negb andb].
           ++ destruct (negb io && reg rs); auto.
           ++ destruct io; cbn [andb negb]; auto. rewrite IH by auto. destruct (reg rs); auto.
           ++ destruct io; cbn [andb negb]; auto. rewrite IH by auto. destruct (reg rs); auto.
        -- rewrite IH by auto. reflexivity.
    + destruct io; cbn [negb andb]; auto. rewrite IH by auto. reflexivity.
    + destruct io; cbn [negb andb]; auto. rewrite IH by auto. reflexivity.
    + rewrite IH by auto. cbn [negb andb]. rewrite andb_false_r. reflexivity.
    + rewrite IH by auto. reflexivity.
Qed.

(** for name checks: hidden when inside a region or when one of the two flags is off *)
Lemma walk_yes : forall code l rs io no fo fs, 
  (forall x, In x rs -> m_sameFile ft x l = true) ->
  (negb io && reg rs = true \/ (fo = false /\ sets code rs = Some NO) \/
   (isN code = true /\ no = false /\ sets NC rs = Some NO )) ->
  fst (walk code false l rs io no fo fs) = YES.
Proof.
  induction rs as [|x rs IH]; intros io no fo fs Hs H.
  - simpl in H. destruct io; intuition discriminate.
  - assert (Hs' : forall y, In y rs -> m_sameFile ft y l = true) by (intros; apply Hs; simpl; auto).
    simpl in *. rewrite (Hs x) by (simpl; auto). cbn [negb andb].
    destruct (m_kind x) as [k set| | | |k] eqn:Ek.
    + destruct (Z.eqb_spec k code) as [->|Nk].
      * rewrite andb_true_r. destruct fo; cbn [negb].
        -- destruct ((code =? NC) && negb no && isN code) eqn:E1.
           ++ destruct set; auto.
              ** destruct io; cbn [andb].
                 { exfalso. destruct H as [H|[[H _]|(A & B & C)]]; try discriminate.
                   destruct (code =? NC); discriminate. }
                 apply IH; auto. destruct H as [H|[[H _]|(A & B & C)]]; auto; try discriminate.
                 exfalso. destruct (code =? NC); try discriminate.
              ** destruct io; cbn [andb].
                 { exfalso. destruct H as [H|[[H _]|(A & B & C)]]; try discriminate.
                   destruct (code =? NC); discriminate. }
                 apply IH; auto. destruct H as [H|[[H _]|(A & B & C)]]; auto; try discriminate.
                 exfalso. destruct (code =? NC); try discriminate.
           ++ apply IH; auto. destruct H as [H|[[H _]|(A & B & C)]]; auto; try discriminate.
              right. right. subst no. rewrite A in E1. destruct (code =? NC); [discriminate|auto].
        -- destruct set; auto.
           ++ destruct (io && negb (isN code && negb no)) eqn:E2.
              ** exfalso. destruct io; [|discriminate]. cbn [andb negb] in *.
                 destruct H as [H|[[_ H]|(A & B & C)]]; try discriminate.
                 subst no. rewrite A in E2. discriminate.
              ** destruct ((code =? NC) && negb no && isN code) eqn:E1.
                 --- destruct io; cbn [andb].
                     { exfalso. destruct H as [H|[[_ H]|(A & B & C)]]; try discriminate.
                       destruct (code =? NC); discriminate. }
                     apply IH; auto. destruct H as [H|[[_ H]|(A & B & C)]]; auto; try discriminate.
                     exfalso. destruct (code =? NC); try discriminate.
                 --- apply IH; auto. destruct H as [H|[[_ H]|(A & B & C)]]; auto; try discriminate.
                     right. right. subst no. rewrite A in E1. destruct (code =? NC); [discriminate|auto].
           ++ destruct (io && negb (isN code && negb no)) eqn:E2.
              ** exfalso. destruct io; [|discriminate]. cbn [andb negb] in *.
                 destruct H as [H|[[_ H]|(A & B & C)]]; try discriminate.
                 subst no. rewrite A in E2. discriminate.
              ** destruct ((code =? NC) && negb no && isN code) eqn:E1.
                 --- destruct io; cbn [andb].
                     { exfalso. destruct H as [H|[[_ H]|(A & B & C)]]; try discriminate.
                       destruct (code =? NC); discriminate. }
                     apply IH; auto. destruct H as [H|[[_ H]|(A & B & C)]]; auto; try discriminate.
                     exfalso. destruct (code =? NC); try discriminate.
                 --- apply IH; auto. destruct H as [H|[[_ H]|(A & B & C)]]; auto; try discriminate.
                     right. right. subst no. rewrite A in E1. destruct (code =? NC); [discriminate|auto].
      * rewrite andb_false_r.
        destruct ((k =? NC) && negb no && isN code) eqn:E1.
        -- destruct set; auto.
           ++ destruct (io && fo) eqn:E2.
              ** exfalso. destruct io, fo; try discriminate. cbn [andb negb] in *.
                 destruct H as [H|[[H _]|(A & B & C)]]; try discriminate.
                 destruct (k =? NC); discriminate.
              ** apply IH; auto. destruct H as [H|[[H H']|(A & B & C)]]; auto.
                 exfalso. destruct (k =? NC); discriminate.
           ++ destruct (io && fo) eqn:E2.
              ** exfalso. destruct io, fo; try discriminate. cbn [andb negb] in *.
                 destruct H as [H|[[H _]|(A & B & C)]]; try discriminate.
                 destruct (k =? NC); discriminate.
              ** apply IH; auto. destruct H as [H|[[H H']|(A & B & C)]]; auto.
                 exfalso. destruct (k =? NC); discriminate.
        -- apply IH; auto. destruct H as [H|[[H H']|(A & B & C)]]; auto.
           right. right. subst no. rewrite A in E1. destruct (k =? NC); [discriminate|auto].
    + destruct io; cbn [negb andb] in *; auto.
    + destruct io; cbn [negb andb] in *; auto.
    + apply IH; auto. destruct H as [H|H]; [rewrite andb_false_r in H; discriminate|]. auto.
    + apply IH; auto.
Qed.

Lemma reg_region : forall ms, reg (rev ms) = true <-> in_region ms.
Proof.
  induction ms as [|x ms IH] using rev_ind.
  - simpl. split; [discriminate|]. intros (a & m & b & E & _). destruct a; discriminate.
  - rewrite rev_app_distr. simpl. split.
    + intros H. destruct (m_kind x) eqn:Ek; try discriminate.
      * apply IH in H as (a & m & b & -> & O & K). exists a, m, (b ++ [x]).
        split; [rewrite <- app_assoc; auto|]. split; [auto|].
        intros y Hy. apply in_app_or in Hy. destruct Hy as [Hy|[<-|[]]]; auto. congruence.
      * exists ms, x, []. split; [auto|]. split; [unfold opens; rewrite Ek; auto|]. simpl. tauto.
      * exists ms, x, []. split; [auto|]. split; [unfold opens; rewrite Ek; auto|]. simpl. tauto.
      * apply IH in H as (a & m & b & -> & O & K). exists a, m, (b ++ [x]).
        split; [rewrite <- app_assoc; auto|]. split; [auto|].
        intros y Hy. apply in_app_or in Hy. destruct Hy as [Hy|[<-|[]]]; auto. congruence.
    + intros (a & m & b & E & O & K). destruct b as [|y b] using rev_ind.
      * apply app_inj_tail in E as [_ ->]. unfold opens in O. destruct (m_kind m); tauto.
      * clear IHb. change (a ++ m :: b ++ [y]) with (a ++ (m :: b) ++ [y]) in E.
        rewrite app_assoc in E. apply app_inj_tail in E as [-> ->].
        assert (R : reg (rev (a ++ m :: b)) = true).
        { apply IH. exists a, m, b. split; [auto|]. split; [auto|].
          intros z Hz. apply K, in_or_app. auto. }
        specialize (K y). destruct (m_kind y); auto. exfalso. apply K; [apply in_or_app; simpl; auto|auto].
Qed.

Lemma sets_last : forall code ms s, sets code (rev ms) = Some s <-> last_set code ms s.
Proof.
  induction ms as [|x ms IH] using rev_ind; intros s.
  - simpl. split; [discriminate|]. intros (a & m & b & E & _). destruct a; discriminate.
  - rewrite rev_app_distr. simpl. split.
    + intros H. destruct (m_kind x) as [k t| | | |] eqn:Ek.
      1: destruct (Z.eqb_spec k code) as [->|Nk].
      1: { injection H as ->. exists ms, x, []. split; [auto|]. split; [auto|]. simpl. tauto. }
      all: apply IH in H as (a & m & b & -> & O & K); exists a, m, (b ++ [x]);
        (split; [rewrite <- app_assoc; auto|]); (split; [auto|]);
        intros y u Hy; apply in_app_or in Hy; destruct Hy as [Hy|[<-|[]]]; auto; congruence.
    + intros (a & m & b & E & O & K). destruct b as [|y b] using rev_ind.
      * apply app_inj_tail in E as [_ ->]. rewrite O, Z.eqb_refl. auto.
      * clear IHb. change (a ++ m :: b ++ [y]) with (a ++ (m :: b) ++ [y]) in E.
        rewrite app_assoc in E. apply app_inj_tail in E as [-> ->].
        assert (R : sets code (rev (a ++ m :: b)) = Some s).
        { apply IH. exists a, m, b. split; [auto|]. split; [auto|].
          intros z u Hz. apply K, in_or_app. auto. }
        assert (Ky : forall u, m_kind y <> LocalSet code u) by (intros u; apply K, in_or_app; simpl; auto).
        destruct (m_kind y) as [k t| | | |]; auto. destruct (Z.eqb_spec k code) as [->|]; auto.
        exfalso. eapply Ky. reflexivity.
Qed.

(** ** The list of markers *)

Variable files : Z -> Prop.
Hypothesis Hf0 : forall f, files f -> 0 <= f.
Hypothesis HfB : forall f g, files f -> files g -> sameBase ft f g = (f =? g).
Hypothesis HfS : forall f, files f -> ft_sys ft f = false /\ ft_special ft f = false.

Definition ok (l : loc) : Prop := l_kind l = FL_NORMAL /\ files (l_fid l).
Definition fid (m : marker) : Z := l_fid (m_loc m).

Lemma ok_lib : forall l, ok l -> is_lib l = false.
Proof. intros [k f n c] [H _]. simpl in *. subst. reflexivity. Qed.

Lemma ok_sameFile : forall a b, ok a -> ok b -> sameFile ft (Some a) (Some b) = (l_fid a =? l_fid b).
Proof.
  intros a b Ha Hb. unfold sameFile. rewrite (ok_lib a), (ok_lib b) by auto.
  apply HfB; [apply Ha|apply Hb].
Qed.

Lemma ok_almost : forall a b, ok a -> ok b -> almostSameFile ft (Some a) (Some b) = (l_fid a =? l_fid b).
Proof.
  intros a b Ha Hb. unfold almostSameFile. rewrite (ok_lib a), (ok_lib b) by auto.
  cbn [orb]. rewrite (HfB (l_fid a) (l_fid b)) by (apply Ha || apply Hb).
  unfold isSystemFile, isSpecialFile.
  destruct (HfS (l_fid a)) as [-> ->]; [apply Ha|]. destruct (HfS (l_fid b)) as [-> ->]; [apply Hb|].
  destruct (l_fid a =? l_fid b); auto.
  destruct (l_fid a =? -1), (l_fid b =? -1); auto.
Qed.

Lemma ok_equal : forall a b, ok a -> ok b -> (fl_equal ft (Some a) (Some b) = true <-> a = b).
Proof.
  intros a b Ha Hb. unfold fl_equal. rewrite ok_sameFile by auto.
  destruct a as [k f n c], b as [k' f' n' c'], Ha as [E _], Hb as [E' _]. simpl in *. subst k k'.
  cbn [orb]. split; [|intros K; injection K as -> -> ->; rewrite !Z.eqb_refl; auto].
  intros H. f_equal; lia.
Qed.

Lemma ok_m_equal : forall a b, ok (m_loc a) -> ok (m_loc b) -> is_suppress b = false ->
  (m_equal ft a b = true <-> a = b).
Proof.
  intros [ka la] [kb lb] Ha Hb Hs. unfold m_equal. cbn [m_kind m_loc] in *.
  assert (K := ok_equal la lb Ha Hb).
  destruct ka, kb; cbn [m_kind] in *; try discriminate;
    try (split; [discriminate|congruence]).
  - rewrite !andb_true_iff, K, Z.eqb_eq. split.
    + intros ((-> & E) & ->). destruct set, set0; auto; discriminate.
    + intros E. injection E as -> -> ->. destruct set0; auto.
  - rewrite K. split; [intros ->; auto|intros E; injection E; auto].
  - rewrite !andb_true_iff, K, Z.eqb_eq. split; [intros [-> ->]; auto|intros E; injection E; auto].
  - rewrite K. split; [intros ->; auto|intros E; injection E; auto].
Qed.

Definition P (l : loc) (x : marker) : bool := sameFile ft (Some (m_loc x)) (Some l) && negb (beforeMarker x l).

Lemma ok_P : forall l x, ok l -> ok (m_loc x) -> P l x = (fid x =? l_fid l) && pos_leb (m_loc x) l.
Proof.
  intros l x Hl Hx. unfold P, beforeMarker, fid. rewrite ok_sameFile, negb_involutive by auto.
  unfold fl_notAfter, pos_leb. destruct (l_fid (m_loc x) =? l_fid l); auto.
Qed.

Definition split_ok (l : loc) (p r : list marker) : Prop :=
  (forall x, In x r -> P l x = false) /\ (p = [] \/ exists p' x, p = p' ++ [x] /\ P l x = true).

Lemma split_spec : forall s l p r, split_before ft s l = (p, r) -> s = p ++ r /\ split_ok l p r.
Proof.
  induction s as [|x s IH]; intros l p r H; simpl in H.
  - injection H as <- <-. split; [auto|]. split; [simpl; tauto|auto].
  - destruct (split_before ft s l) as [p0 r0] eqn:E. destruct (IH _ _ _ E) as (-> & A & B).
    destruct p0 as [|y p0].
    + change ((if P l x then ([x], r0) else ([], x :: r0)) = (p, r)) in H. destruct (P l x) eqn:Ex; injection H as <- <-.
      * split; [auto|]. split; [auto|]. right. exists [], x. auto.
      * split; [auto|]. split; [|auto]. intros z [<-|Hz]; auto.
    + injection H as <- <-. split; [auto|]. split; [auto|]. right.
      destruct B as [B|(p' & z & B & C)]; [discriminate|]. exists (x :: p'), z. rewrite B. auto.
Qed.

Lemma split_unique : forall l p r p' r', p ++ r = p' ++ r' -> split_ok l p r -> split_ok l p' r' -> p = p' /\ r = r'.
Proof.
  assert (G : forall l p r p' r', p ++ r = p' ++ r' -> split_ok l p r -> split_ok l p' r' ->
    (List.length p <= List.length p')%nat -> p = p').
  { intros l p r p' r' E [A B] [A' B'] L.
    assert (X : exists d, p' = p ++ d /\ r = d ++ r').
    { clear A B A' B'. revert p' r r' E L. induction p as [|x p IH]; intros p' r r' E L.
      - exists p'. simpl in E. auto.
      - destruct p' as [|y p']; [simpl in L; lia|]. simpl in E. injection E as -> E.
        destruct (IH p' r r' E) as (d & -> & ->); [simpl in L; lia|]. exists d. auto. }
    destruct X as (d & -> & ->). destruct d as [|y d] using rev_ind; [rewrite app_nil_r; auto|].
    exfalso. clear IHd. destruct B' as [B'|(q & z & B' & C)].
    - destruct p; [|discriminate]. destruct d; discriminate.
    - rewrite app_assoc in B'. apply app_inj_tail in B' as [_ ->].
      rewrite A in C; [discriminate|]. apply in_or_app. left. apply in_or_app. right. simpl. auto. }
  intros l p r p' r' E H H'.
  destruct (Nat.le_ge_cases (List.length p) (List.length p')) as [L|L].
  - assert (p = p') by eauto. subst p'. apply app_inv_head in E. auto.
  - assert (p' = p) by eauto. subst p'. apply app_inv_head in E. auto.
Qed.

Lemma split_is : forall l p r, split_ok l p r -> split_before ft (p ++ r) l = (p, r).
Proof.
  intros l p r H. destruct (split_before ft (p ++ r) l) as [p' r'] eqn:E.
  apply split_spec in E as [E K]. destruct (split_unique _ _ _ _ _ E H K) as [-> ->]. auto.
Qed.

(** suppress markers lie between the events they sit between *)
Fixpoint sc (acc b : list marker) : Prop :=
  match b with
  | [] => True
  | x :: b' =>
      if is_suppress x
      then (forall y, In y acc -> pos_le (m_loc y) (m_loc x)) /\
           (exists y, In y (nonS b') /\ pos_le (m_loc x) (m_loc y)) /\ sc acc b'
      else sc (x :: acc) b'
  end.

Lemma nonS_cons : forall x b, nonS (x :: b) = if is_suppress x then nonS b else x :: nonS b.
Proof. intros. unfold nonS. simpl. destruct (is_suppress x); auto. Qed.

Local Arguments nonS : simpl never.

Lemma sc_snoc : forall m b acc, is_suppress m = false -> sc acc b -> sc acc (b ++ [m]).
Proof.
  intros m b. induction b as [|x b IH]; intros acc Hm H.
  - simpl. rewrite Hm. simpl. auto.
  - simpl in *. destruct (is_suppress x); auto. destruct H as (A & (y & B & C) & D).
    split; [auto|]. split; [|auto]. exists y. split; [|auto]. rewrite nonS_app. apply in_or_app. auto.
Qed.

Lemma sc_insert : forall S0 b1 b2 acc, is_suppress S0 = true ->
  (forall y, In y acc \/ In y (nonS b1) -> pos_le (m_loc y) (m_loc S0)) ->
  (exists y, In y (nonS b2) /\ pos_le (m_loc S0) (m_loc y)) ->
  sc acc (b1 ++ b2) -> sc acc (b1 ++ S0 :: b2).
Proof.
  intros S0 b1 b2. induction b1 as [|x b1 IH]; intros acc HS A B H.
  - simpl in *. rewrite HS. split; [intros; apply A; auto|]. auto.
  - simpl in *. rewrite nonS_cons in A. destruct (is_suppress x) eqn:Ex.
    + destruct H as (C & (y & D & E) & F). split; [auto|]. split.
      * exists y. split; [|auto]. rewrite nonS_app in *. rewrite nonS_cons, HS. auto.
      * apply IH; auto.
    + apply IH; auto. intros y [[<-|Hy]|Hy]; apply A; simpl; auto.
Qed.

Lemma sc_before : forall b1 S0 b2 acc, is_suppress S0 = true -> sc acc (b1 ++ S0 :: b2) ->
  (forall y, In y acc \/ In y (nonS b1) -> pos_le (m_loc y) (m_loc S0)) /\
  (exists y, In y (nonS b2) /\ pos_le (m_loc S0) (m_loc y)).
Proof.
  induction b1 as [|x b1 IH]; intros S0 b2 acc HS H; simpl in H.
  - rewrite HS in H. destruct H as (A & B & _). split; [|auto]. intros y [Hy|[]]; auto.
  - rewrite nonS_cons. destruct (is_suppress x).
    + destruct H as (_ & _ & H). apply IH in H; auto.
    + apply IH in H as [A B]; auto. split; [|auto].
      intros y [Hy|[<-|Hy]]; apply A; simpl; auto.
Qed.

Definition ofile (f : Z) (ms : list marker) : list marker := filter (fun m => fid m =? f) ms.

Definition block_ok (T : list marker) (fb : Z * list marker) : Prop :=
  snd fb <> [] /\ (forall x, In x (snd fb) -> ok (m_loc x) /\ fid x = fst fb) /\
  nonS (snd fb) = ofile (fst fb) T /\ sc [] (snd fb).

Definition flat (bs : list (Z * list marker)) : list marker := flat_map snd bs.

Definition Inv (T s : list marker) : Prop :=
  exists bs, s = flat bs /\ NoDup (map fst bs) /\ (forall fb, In fb bs -> block_ok T fb) /\
    (forall x, In x T -> In (fid x) (map fst bs)) /\ (forall x, In x T -> is_suppress x = false).

Lemma flat_app : forall a b, flat (a ++ b) = flat a ++ flat b.
Proof. intros. apply flat_map_app. Qed.

Lemma flat_fid : forall T bs x, (forall fb, In fb bs -> block_ok T fb) -> In x (flat bs) ->
  ok (m_loc x) /\ In (fid x) (map fst bs).
Proof.
  intros T bs x H K. apply in_flat_map in K as ([f b] & A & B). destruct (H _ A) as (_ & C & _).
  destruct (C x B) as (D & E). split; [auto|]. rewrite E. apply in_map_iff. exists (f, b). auto.
Qed.

Lemma ofile_nil : forall f T, (forall x, In x T -> fid x <> f) -> ofile f T = [].
Proof.
  intros f T H. unfold ofile. apply filter_nil. intros x Hx. specialize (H x Hx). lia.
Qed.

(** the block of a file *)
Lemma inv_lookup : forall T s f, Inv T s ->
  (exists pre b post, s = flat pre ++ b ++ flat post /\ NoDup (f :: map fst (pre ++ post)) /\
     block_ok T (f, b) /\ (forall fb, In fb (pre ++ post) -> block_ok T fb) /\
     (forall x, In x T -> In (fid x) (f :: map fst (pre ++ post))))
  \/ ((forall x, In x s -> fid x <> f) /\ ofile f T = []).
Proof.
  intros T s f (bs & -> & ND & B & C & D).
  destruct (in_dec Z.eq_dec f (map fst bs)) as [K|K].
  - left. apply in_map_iff in K as ([f' b] & E & K). simpl in E. subst f'.
    apply in_split in K as (pre & post & ->). exists pre, b, post.
    rewrite map_app in ND. simpl in ND. apply NoDup_remove in ND.
    split; [rewrite flat_app; auto|]. split.
    { constructor; rewrite map_app; tauto. }
    split; [apply B, in_or_app; simpl; auto|]. split.
    { intros fb H. apply B. apply in_app_or in H. apply in_or_app. simpl. tauto. }
    intros x Hx. apply C in Hx. rewrite map_app in *. apply in_app_or in Hx. simpl in *.
    rewrite in_app_iff. tauto.
  - right. split.
    + intros x Hx E. apply (flat_fid T) in Hx; auto. rewrite E in Hx. tauto.
    + apply ofile_nil. intros x Hx E. apply C in Hx. rewrite E in Hx. auto.
Qed.

Lemma inv_build : forall T pre b post f,
  NoDup (f :: map fst (pre ++ post)) -> block_ok T (f, b) ->
  (forall fb, In fb (pre ++ post) -> block_ok T fb) ->
  (forall x, In x T -> In (fid x) (f :: map fst (pre ++ post))) ->
  (forall x, In x T -> is_suppress x = false) ->
  Inv T (flat pre ++ b ++ flat post).
Proof.
  intros T pre b post f ND B Bo C D. exists (pre ++ (f, b) :: post).
  split; [rewrite flat_app; auto|]. inversion ND as [|? ? N1 N2]; subst. rewrite map_app in *. split.
  { simpl. apply NoDup_Add with (a := f) (l := map fst pre ++ map fst post); auto.
    apply Add_app. }
  split.
  { intros fb H. apply in_app_or in H. destruct H as [H|[<-|H]]; auto; apply Bo, in_or_app; auto. }
  split; [|auto]. intros x Hx. apply C in Hx. simpl in *. rewrite in_app_iff in *. simpl in *. tauto.
Qed.

Lemma inv_members : forall T s x, Inv T s -> is_suppress x = false -> (In x s <-> In x T).
Proof.
  intros T s x (bs & -> & ND & B & C & D) Hx. split; intros H.
  - apply in_flat_map in H as ([f b] & A & K). destruct (B _ A) as (_ & _ & E & _). simpl in *.
    assert (In x (nonS b)) as Q by (apply in_nonS; auto).
    rewrite E in Q. apply filter_In in Q. tauto.
  - assert (K := C x H). apply in_map_iff in K as ([f b] & E & K). simpl in E.
    destruct (B _ K) as (_ & _ & Q & _). simpl in Q.
    assert (In x (ofile f T)) as R by (apply filter_In; split; [auto|lia]).
    rewrite <- Q in R. apply in_nonS in R. apply in_flat_map. exists (f, b). simpl. tauto.
Qed.

Lemma inv_ok : forall T s x, Inv T s -> In x s -> ok (m_loc x).
Proof. intros T s x (bs & -> & ND & B & _) H. apply (flat_fid T bs x B) in H. tauto. Qed.

Lemma contains_iff : forall T s m, Inv T s -> ok (m_loc m) -> is_suppress m = false ->
  (contains ft s m = true <-> In m T).
Proof.
  intros T s m I Hm Hs. rewrite <- (inv_members T s m I Hs). unfold contains. rewrite existsb_exists. split.
  - intros (x & A & B). apply ok_m_equal in B; eauto using inv_ok. subst. auto.
  - intros H. exists m. split; [auto|]. apply ok_m_equal; auto.
Qed.

Lemma others_P : forall T bs l x, ok l -> (forall fb, In fb bs -> block_ok T fb) ->
  ~ In (l_fid l) (map fst bs) -> In x (flat bs) -> P l x = false.
Proof.
  intros T bs l x Hl B N H. apply (flat_fid T) in H as [A C]; auto. rewrite ok_P by auto.
  destruct (Z.eqb_spec (fid x) (l_fid l)) as [E|]; auto. rewrite E in C. tauto.
Qed.

Lemma ofile_app : forall f a b, ofile f (a ++ b) = ofile f a ++ ofile f b.
Proof. intros. apply filter_app. Qed.

(** every element of a block is before a later event *)
Lemma block_last : forall T f b m, block_ok T (f, b) ->
  (forall x, In x (ofile f T) -> pos_le (m_loc x) (m_loc m)) ->
  forall x, In x b -> pos_le (m_loc x) (m_loc m).
Proof.
  intros T f b m (A & B & C & D) H x Hx. simpl in *. 
  destruct (is_suppress x) eqn:Ex.
  - apply in_split in Hx as (b1 & b2 & ->). 
    destruct (sc_before _ _ _ _ Ex D) as (_ & y & Hy & L).
    eapply pos_le_trans; [exact L|]. apply H. rewrite <- C, nonS_app, nonS_cons, Ex.
    apply in_or_app. auto.
  - apply H. rewrite <- C. apply in_nonS. auto.
Qed.

Lemma block_other : forall T m fb, block_ok T fb -> fid m <> fst fb -> block_ok (T ++ [m]) fb.
Proof.
  intros T m fb (A & B & C & D) N. split; [auto|]. split; [auto|]. split; [|auto].
  rewrite C, ofile_app. unfold ofile at 3. simpl. replace (fid m =? fst fb) with false by lia.
  rewrite app_nil_r. auto.
Qed.

Lemma add_fresh : forall T s m, Inv T s -> ok (m_loc m) -> is_suppress m = false -> ~ In m T ->
  refused ft s m = false ->
  (forall x, In x T -> fid x = fid m -> pos_le (m_loc x) (m_loc m)) ->
  snd (add ft s m) = true /\ Inv (T ++ [m]) (fst (add ft s m)).
Proof.
  intros T s m I Hm Hs N R O. assert (I' := I).
  unfold add. destruct (contains ft s m) eqn:Ec; [apply (contains_iff T) in Ec; tauto|]. clear Ec.
  rewrite R.
  assert (TS : forall x, In x (T ++ [m]) -> is_suppress x = false).
  { destruct I as (bs & _ & _ & _ & _ & D). intros x Hx. apply in_app_or in Hx.
    destruct Hx as [Hx|[<-|[]]]; auto. }
  destruct (inv_lookup T s (fid m) I) as [(pre & b & post & -> & ND & Bk & Bo & C)|[K L]].
  - assert (E : split_before ft ((flat pre ++ b) ++ flat post) (m_loc m) = (flat pre ++ b, flat post)).
    { apply split_is. split.
      - intros x Hx. apply (others_P T post); auto.
        + intros fb H. apply Bo, in_or_app. auto.
        + intros H. inversion ND as [|? ? N1 N2]; subst. apply N1. rewrite map_app. apply in_or_app. auto.
      - right. destruct Bk as (Bn & B2 & B3 & B4). simpl in *.
        destruct b as [|x b] using rev_ind; [congruence|]. clear IHb.
        exists (flat pre ++ b), x. split; [rewrite app_assoc; auto|].
        assert (Hx : In x (b ++ [x])) by (apply in_or_app; simpl; auto).
        rewrite ok_P; auto; [|apply B2; auto].
        apply andb_true_iff. split; [apply Z.eqb_eq; apply B2; auto|].
        apply pos_leb_iff. apply (block_last T (fid m) (b ++ [x])); [split; auto| |auto].
        intros y Hy. apply filter_In in Hy. apply O; [tauto|lia]. }
    rewrite app_assoc, E.
    destruct (flat pre ++ b) as [|z q] eqn:Eq.
    { exfalso. destruct Bk as (Bn & _). simpl in Bn. apply app_eq_nil in Eq. tauto. }
    rewrite <- Eq. cbn [fst snd]. split; [auto|].
    replace ((flat pre ++ b) ++ m :: flat post) with (flat pre ++ (b ++ [m]) ++ flat post)
      by (rewrite <- !app_assoc; auto).
    inversion ND as [|? ? N1 N2]; subst.
    apply inv_build with (f := fid m); auto.
    + destruct Bk as (Bn & B2 & B3 & B4). simpl in *. split; [|split; [|split]]; simpl.
      * destruct b; discriminate.
      * intros x Hx. apply in_app_or in Hx. destruct Hx as [Hx|[<-|[]]]; auto.
      * rewrite nonS_app, B3, ofile_app. simpl. unfold nonS, ofile. simpl. rewrite Hs, Z.eqb_refl. auto.
      * apply sc_snoc; auto.
    + intros fb H. apply block_other; auto. intros E2. apply N1. rewrite E2. apply in_map. auto.
    + intros x Hx. apply in_app_or in Hx. destruct Hx as [Hx|[<-|[]]]; auto. simpl. auto.
  - assert (E : split_before ft ([] ++ s) (m_loc m) = ([], s)).
    { apply split_is. split; [|auto]. intros x Hx. rewrite ok_P; eauto using inv_ok.
      specialize (K x Hx). fold (fid m). replace (fid x =? fid m) with false by lia. auto. }
    simpl in E. rewrite E. cbn [fst snd]. split; [auto|].
    destruct I' as (bs & -> & ND & B & C & D). 
    assert (Nf : ~ In (fid m) (map fst bs)).
    { intros Hin. apply in_map_iff in Hin as ([f b] & E1 & Hin). simpl in E1.
      destruct (B _ Hin) as (B1 & B2 & _). simpl in *. destruct b as [|x b]; [congruence|].
      destruct (B2 x (or_introl eq_refl)) as [_ B3]. apply (K x); [|congruence].
      apply in_flat_map. exists (f, x :: b). simpl. auto. }
    exists (bs ++ [(fid m, [m])]). split; [rewrite flat_app; auto|]. rewrite map_app. split.
    { apply NoDup_Add with (a := fid m) (l := map fst bs ++ []); rewrite ?app_nil_r; auto.
      simpl. rewrite <- (app_nil_r (map fst bs)) at 1. apply Add_app. }
    split.
    { intros fb H. apply in_app_or in H. destruct H as [H|[<-|[]]].
      - apply block_other; auto. intros E2. apply Nf. rewrite E2. apply in_map. auto.
      - split; [simpl; congruence|]. split.
        { simpl. intros x [<-|[]]. auto. }
        simpl. rewrite ofile_app, L. simpl. unfold ofile, nonS. simpl. rewrite Z.eqb_refl, Hs. auto. }
    split; [|auto]. intros x Hx. apply in_or_app. apply in_app_or in Hx.
    destruct Hx as [Hx|[<-|[]]]; simpl; auto.
Qed.

Lemma add_again : forall T s m, Inv T s -> ok (m_loc m) -> is_suppress m = false -> In m T ->
  add ft s m = (s, false).
Proof.
  intros. unfold add. replace (contains ft s m) with true; auto. symmetry. apply (contains_iff T); auto.
Qed.

(** ** Order *)

Lemma filter_split : forall {A} (p : A -> bool) l a x r, filter p l = a ++ x :: r ->
  exists a' r', l = a' ++ x :: r' /\ filter p a' = a /\ filter p r' = r.
Proof.
  intros A p. induction l as [|y l IH]; intros a x r H; simpl in H.
  - destruct a; discriminate.
  - destruct (p y) eqn:E.
    + destruct a as [|z a]; simpl in H; injection H as -> H.
      * exists [], l. auto.
      * apply IH in H as (a' & r' & -> & <- & <-). exists (z :: a'), r'. simpl. rewrite E. auto.
    + apply IH in H as (a' & r' & -> & <- & <-). exists (y :: a'), r'. simpl. rewrite E. auto.
Qed.

Lemma order_filter : forall p T, in_text_order T -> in_text_order (filter p T).
Proof.
  intros p T H a x b y c E F. apply filter_split in E as (a' & r & -> & _ & E).
  apply filter_split in E as (b' & c' & -> & _ & _). eapply H; eauto.
Qed.

Lemma order_prefix : forall T d, in_text_order (T ++ d) -> in_text_order T.
Proof.
  intros T d H a x b y c -> F. apply (H a x b y (c ++ d)); [|auto].
  repeat (rewrite <- ?app_assoc; simpl). reflexivity.
Qed.

Lemma order_snoc : forall T m, in_text_order (T ++ [m]) ->
  forall x, In x T -> fid x = fid m -> pos_le (m_loc x) (m_loc m).
Proof.
  intros T m H x Hx E. apply in_split in Hx as (a & b & ->).
  apply (H a x b m []); [|auto]. rewrite <- app_assoc. reflexivity.
Qed.

Lemma order_split : forall a x b y, in_text_order (a ++ x :: b) -> In y b -> fid x = fid y ->
  pos_le (m_loc x) (m_loc y).
Proof. intros a x b y H Hy E. apply in_split in Hy as (c & d & ->). eapply H; eauto. Qed.

(** every counted line has its end *)
Definition Tinv (T : list marker) : Prop :=
  forall a C b, T = a ++ C :: b -> is_count C = true ->
    exists o, In o b /\ is_off o = true /\ fid o = fid C /\ l_line (m_loc o) = l_line (m_loc C) + 1 /\
      l_col (m_loc o) = 0.

Lemma Tinv_snoc : forall T m, Tinv T -> is_count m = false -> Tinv (T ++ [m]).
Proof.
  intros T m H Hm a C b E HC. destruct b as [|y b] using rev_ind.
  - apply app_inj_tail in E as [_ ->]. congruence.
  - clear IHb. change (a ++ C :: b ++ [y]) with (a ++ (C :: b) ++ [y]) in E. rewrite app_assoc in E.
    apply app_inj_tail in E as [E ->]. destruct (H _ _ _ E HC) as (o & A & B).
    exists o. split; [apply in_or_app; auto|auto].
Qed.

Lemma count_suppress : forall x, is_count x = true -> is_suppress x = false.
Proof. intros x. unfold is_count, is_suppress. destruct (m_kind x); auto; discriminate. Qed.
Lemma off_suppress : forall x, is_off x = true -> is_suppress x = false.
Proof. intros x. unfold is_off, is_suppress. destruct (m_kind x); auto; discriminate. Qed.

Lemma last_not_count : forall T q x, Inv T (q ++ [x]) -> Tinv T -> is_count x = false.
Proof.
  intros T q x I HT. destruct (is_count x) eqn:Ex; [|auto]. exfalso. assert (I' := I).
  destruct (inv_lookup T _ (fid x) I) as [(pre & b & post & E & ND & (B1 & B2 & B3 & B4) & Bo & C)|[K _]].
  2: { apply (K x); auto. apply in_or_app. simpl. auto. }
  simpl in *. inversion ND as [|? ? N1 N2]; subst.
  assert (Eb : exists b', b = b' ++ [x]).
  { assert (Ep : flat post = [] \/ exists zs z, flat post = zs ++ [z]).
    { destruct (flat post) as [|z0 zs0]; [auto|]. right.
      destruct (@exists_last _ (z0 :: zs0)) as (zs & z & ->); [discriminate|]. eauto. }
    destruct Ep as [Ep|(zs & z & Ep)]; rewrite Ep in E.
    - rewrite app_nil_r in E. destruct b as [|y b] using rev_ind; [congruence|]. clear IHb.
      rewrite app_assoc in E. apply app_inj_tail in E as [_ <-]. eauto.
    - rewrite !app_assoc in E. apply app_inj_tail in E as [_ <-].
      exfalso. apply N1. rewrite map_app. apply in_or_app. right.
      apply (flat_fid T post x); [|rewrite Ep; apply in_or_app; simpl; auto].
      intros fb H. apply Bo, in_or_app. auto. }
  destruct Eb as [b' ->]. rewrite nonS_app, nonS_cons, (count_suppress x Ex) in B3. cbn in B3.
  symmetry in B3. apply filter_split in B3 as (a & r & -> & _ & Er).
  destruct (HT _ _ _ eq_refl Ex) as (o & Ho & _ & Fo & _).
  assert (In o (filter (fun m => fid m =? fid x) r)) as K by (apply filter_In; split; [auto|lia]).
  rewrite Er in K. destruct K.
Qed.

Lemma refused_false : forall T s m, Inv T s -> ok (m_loc m) ->
  (forall q x, s = q ++ [x] -> is_count x = true -> is_off m = true) ->
  (forall C, In C T -> is_count C = true -> fid C = fid m -> l_line (m_loc C) <> l_line (m_loc m)) ->
  refused ft s m = false.
Proof.
  intros T s m I Hm H1 H2. unfold refused.
  destruct s as [|x s] using rev_ind; [reflexivity|]. clear IHs. rewrite rev_app_distr. simpl.
  destruct s as [|y s] using rev_ind; [reflexivity|]. clear IHs. rewrite rev_app_distr. simpl.
  destruct (is_count x) eqn:Ex; [rewrite (H1 _ x eq_refl Ex); auto|].
  destruct (is_count y) eqn:Ey; [|rewrite andb_false_r; auto].
  unfold sameFileAndLine.
  assert (Hy : In y ((s ++ [y]) ++ [x])) by (apply in_or_app; left; apply in_or_app; simpl; auto).
  rewrite ok_sameFile; eauto using inv_ok.
  assert (In y T) as HT by (apply (inv_members T ((s ++ [y]) ++ [x])); auto using count_suppress).
  specialize (H2 y HT Ey). unfold fid in H2. destruct (is_off x); auto. cbn [andb].
  destruct (Z.eqb_spec (l_fid (m_loc m)) (l_fid (m_loc y))); auto. cbn [andb].
  apply Z.eqb_neq. intuition.
Qed.

(** ** A message *)

Lemma block_upto : forall T l b1 b2, in_text_order T -> ok l -> block_ok T (l_fid l, b1 ++ b2) ->
  split_ok l b1 b2 -> upto T l = nonS b1.
Proof.
  intros T l b1 b2 HT Hl (A & B & C & D) [E F]. simpl in *.
  assert (U : upto T l = filter (fun m => pos_leb (m_loc m) l) (ofile (l_fid l) T)).
  { unfold upto, ofile. clear. induction T as [|x T IH]; [auto|]. simpl. unfold fid at 1.
    destruct (l_fid (m_loc x) =? l_fid l); simpl; rewrite IH; auto. }
  rewrite U, <- C, nonS_app, filter_app.
  assert (E2 : filter (fun m => pos_leb (m_loc m) l) (nonS b2) = []).
  { apply filter_nil. intros x Hx. apply in_nonS in Hx as [Hx _].
    destruct (B x) as [Ox Fx]; [apply in_or_app; auto|].
    specialize (E x Hx). rewrite ok_P in E by auto. rewrite Fx, Z.eqb_refl in E. auto. }
  rewrite E2, app_nil_r.
  destruct F as [->|(b0 & x & -> & Hx)]; [reflexivity|].
  assert (Bx : In x ((b0 ++ [x]) ++ b2)) by (apply in_or_app; left; apply in_or_app; simpl; auto).
  destruct (B x Bx) as [Ox Fx]. rewrite ok_P in Hx by auto. apply andb_true_iff in Hx as [_ Hx].
  apply pos_leb_iff in Hx.
  assert (X : forall y, In y (nonS (b0 ++ [x])) -> pos_leb (m_loc y) l = true).
  { intros y Hy. apply pos_leb_iff. eapply pos_le_trans; [|exact Hx].
    destruct (is_suppress x) eqn:Ex.
    - rewrite <- app_assoc in D. simpl in D. destruct (sc_before _ _ _ _ Ex D) as (K & _).
      apply K. right. rewrite nonS_app, nonS_cons, Ex in Hy. cbn in Hy. rewrite app_nil_r in Hy. auto.
    - rewrite nonS_app, nonS_cons, Ex in Hy. cbn in Hy. apply in_app_or in Hy.
      destruct Hy as [Hy|[<-|[]]]; [|unfold pos_le; lia].
      apply (order_filter (fun m => fid m =? l_fid l)) in HT.
      change (filter (fun m => fid m =? l_fid l) T) with (ofile (l_fid l) T) in HT. rewrite <- C in HT.
      rewrite !nonS_app, nonS_cons, Ex in HT. cbn in HT.
      assert (Fy : fid y = l_fid l).
      { apply B. apply in_or_app; left. apply in_or_app; left. apply in_nonS in Hy. tauto. }
      apply in_split in Hy as (c & d & Hy). rewrite Hy in HT.
      apply (HT c y d x (nonS b2)); [|unfold fid in *; congruence].
      repeat (rewrite <- app_assoc; simpl). auto. }
  clear -X. induction (nonS (b0 ++ [x])) as [|y q IH]; [auto|]. simpl.
  rewrite X by (simpl; auto). f_equal. apply IH. intros. apply X. simpl. auto.
Qed.

Lemma supp_shape : forall T s code l, Inv T s -> in_text_order T -> ok l ->
  (suppressError s code l = (MAYBE, s) /\ upto T l = []) \/
  exists pre b1 b2 post, s = flat pre ++ (b1 ++ b2) ++ flat post /\
    NoDup (l_fid l :: map fst (pre ++ post)) /\
    block_ok T (l_fid l, b1 ++ b2) /\ (forall fb, In fb (pre ++ post) -> block_ok T fb) /\
    (forall x, In x T -> In (fid x) (l_fid l :: map fst (pre ++ post))) /\
    nonS b1 = upto T l /\ (forall x, In x b2 -> P l x = false) /\
    (forall x, In x b1 -> m_sameFile ft x l = true) /\
    fst (suppressError s code l) = fst (walk code false l (rev b1) false false false MAYBE) /\
    snd (suppressError s code l) =
      match snd (walk code false l (rev b1) false false false MAYBE) with
      | None => s
      | Some n => flat pre ++ (firstn n b1 ++ Mk (Suppress code) l :: skipn n b1 ++ b2) ++ flat post
      end.
Proof.
  intros T s code l I HT Hl.
  assert (Noth : (forall x, In x s -> P l x = false) -> split_before ft s l = ([], s)).
  { intros H. apply (split_is l [] s). split; auto. }
  destruct (inv_lookup T s (l_fid l) I) as [(pre & b & post & Es & ND & Bk & Bo & C)|[K L]].
  2: { left. split.
       - unfold Mark_model.suppressError. rewrite (ok_lib l Hl).
         rewrite Noth; auto. intros x Hx. rewrite ok_P; eauto using inv_ok.
         replace (fid x =? l_fid l) with false; auto. specialize (K x Hx). lia.
       - unfold upto. apply filter_nil. intros x Hx.
         destruct (Z.eqb_spec (l_fid (m_loc x)) (l_fid l)) as [E|]; auto. exfalso.
         assert (In x (ofile (l_fid l) T)) as Q by (apply filter_In; split; [auto|unfold fid; lia]).
         rewrite L in Q. destruct Q. }
  inversion ND as [|? ? N1 N2]; subst. rewrite map_app, in_app_iff in N1.
  assert (Ppre : forall x, In x (flat pre) -> P l x = false).
  { intros x Hx. apply (others_P T pre); auto. intros fb H. apply Bo, in_or_app. auto. }
  assert (Ppost : forall x, In x (flat post) -> P l x = false).
  { intros x Hx. apply (others_P T post); auto. intros fb H. apply Bo, in_or_app. auto. }
  destruct (split_before ft b l) as [b1 b2] eqn:Eb. apply split_spec in Eb as [-> Hb].
  assert (U := block_upto T l b1 b2 HT Hl Bk Hb).
  destruct b1 as [|z b1'] eqn:Eb1.
  { left. split; [|rewrite U; reflexivity]. unfold Mark_model.suppressError. rewrite (ok_lib l Hl).
    rewrite Noth; auto. intros x Hx. apply in_app_or in Hx.
    destruct Hx as [Hx|Hx]; auto. apply in_app_or in Hx. destruct Hx as [Hx|Hx]; auto.
    apply Hb. auto. }
  right. rewrite <- Eb1 in *. assert (Hne : b1 <> []) by (rewrite Eb1; discriminate). clear z b1' Eb1.
  exists pre, b1, b2, post.
  assert (Sf : forall x, In x b1 -> m_sameFile ft x l = true).
  { intros x Hx. destruct Bk as (_ & B & _). destruct (B x) as [Ox Fx]; [simpl; apply in_or_app; auto|].
    unfold m_sameFile. rewrite ok_almost by auto. simpl in Fx. unfold fid in Fx. lia. }
  split; [auto|]. split; [auto|]. split; [auto|]. split; [auto|]. split; [auto|].
  split; [symmetry; auto|]. split; [apply Hb|]. split; [auto|].
  assert (Esp : split_before ft (flat pre ++ (b1 ++ b2) ++ flat post) l = (flat pre ++ b1, b2 ++ flat post)).
  { replace (flat pre ++ (b1 ++ b2) ++ flat post) with ((flat pre ++ b1) ++ (b2 ++ flat post))
      by (rewrite <- !app_assoc; auto).
    apply split_is. split.
    - intros x Hx. apply in_app_or in Hx. destruct Hx as [Hx|Hx]; auto. apply Hb. auto.
    - right. destruct Hb as [_ [Hb|(p' & x & Hb & Hx)]]; [congruence|].
      exists (flat pre ++ p'), x. rewrite Hb, app_assoc. auto. }
  unfold Mark_model.suppressError. rewrite (ok_lib l Hl), Esp.
  destruct (flat pre ++ b1) as [|z q] eqn:Eq; [exfalso; apply app_eq_nil in Eq; tauto|]. rewrite <- Eq.
  rewrite rev_app_distr, walk_app.
  2: { intros x Hx. apply Sf. apply in_rev. auto. }
  2: { destruct (rev (flat pre)) as [|x xs] eqn:Er; [auto|].
       assert (Hx : In x (flat pre)) by (apply in_rev; rewrite Er; simpl; auto).
       apply (flat_fid T pre) in Hx as [Ox Fx]; [|intros fb H; apply Bo, in_or_app; auto].
       unfold m_sameFile. rewrite ok_almost by auto.
       destruct (Z.eqb_spec (l_fid (m_loc x)) (l_fid l)) as [E|]; auto. unfold fid in Fx. rewrite E in Fx. tauto. }
  destruct (walk code false l (rev b1) false false false MAYBE) as [y [n|]] eqn:Ew; cbn [fst snd];
    [|auto]. split; [auto|].
  assert (Hn : (n <= List.length b1)%nat).
  { destruct (walk_stop code l (rev b1) false false MAYBE n) as (r1 & c & r2 & E & _ & -> & _).
    - rewrite Ew. auto.
    - rewrite <- (rev_length b1), E, app_length. simpl. lia. }
  rewrite rev_length, Nat.add_comm, firstn_app_2, (skipn_app _ (flat pre)), skipn_all2 by lia.
  replace (List.length (flat pre) + n - List.length (flat pre))%nat with n by lia.
  rewrite <- (app_assoc b1 b2), firstn_app, skipn_app. replace (n - List.length b1)%nat with O by lia.
  simpl. rewrite app_nil_r. repeat (rewrite <- app_assoc; simpl). reflexivity.
Qed.

Lemma message_inv : forall T s code l, Inv T s -> in_text_order T -> Tinv T -> ok l ->
  Inv T (snd (suppressError s code l)).
Proof.
  intros T s code l I HT HC Hl.
  destruct (supp_shape T s code l I HT Hl) as
    [[-> _]|(pre & b1 & b2 & post & E & ND & Bk & Bo & C & U & R & Sf & _ & ->)]; [auto|].
  destruct (snd (walk code false l (rev b1) false false false MAYBE)) as [n|] eqn:Ew; [|auto].
  apply walk_stop in Ew as (r1 & c & r2 & Er & Hc & -> & Hoff & _).
  assert (Eb : b1 = (rev r2 ++ [c]) ++ rev r1).
  { rewrite <- (rev_involutive b1), Er, rev_app_distr. simpl. auto. }
  assert (Ln : S (List.length r2) = List.length (rev r2 ++ [c])) by (rewrite app_length, rev_length; simpl; lia).
  assert (Ef : firstn (S (List.length r2)) b1 = rev r2 ++ [c]).
  { rewrite Eb, Ln, firstn_app, firstn_all, Nat.sub_diag. simpl. apply app_nil_r. }
  assert (Es : skipn (S (List.length r2)) b1 = rev r1).
  { rewrite Eb, Ln, skipn_app, skipn_all, Nat.sub_diag. auto. }
  rewrite Ef, Es.
  apply inv_build with (f := l_fid l); auto; [|destruct I as (? & _ & _ & _ & _ & D); auto].
  destruct Bk as (B1 & B2 & B3 & B4). simpl in *.
  split; [|split; [|split]]; simpl.
  - destruct (rev r2); discriminate.
  - intros x Hx. rewrite Eb in B2. 
    destruct (in_app_or _ _ _ Hx) as [K|[<-|K]]; [|split; [exact Hl|reflexivity]|];
      apply B2; rewrite <- app_assoc; apply in_or_app; auto.
  - rewrite <- B3, Eb. rewrite !nonS_app.
    rewrite (nonS_cons (Mk (Suppress code) l)). change (is_suppress (Mk (Suppress code) l)) with true. cbv iota.
    rewrite !nonS_app. rewrite <- !app_assoc. auto.
  - apply sc_insert; auto.
    + cbn [m_loc]. intros y [[]|Hy].
      assert (In y (upto T l)) as Q.
      { rewrite <- U, Eb, nonS_app. apply in_or_app. auto. }
      apply filter_In in Q as [_ Q]. apply andb_true_iff in Q as [_ Q]. apply pos_leb_iff. auto.
    + cbn [m_loc].
      assert (E3 : ofile (l_fid l) T = nonS (rev r2) ++ c :: nonS (rev r1 ++ b2)).
      { rewrite <- B3, Eb, !nonS_app, nonS_cons, (count_suppress c Hc). cbn.
        repeat (rewrite <- app_assoc; simpl). auto. }
      apply filter_split in E3 as (ta & tr & ET & _ & E3).
      destruct (HC _ _ _ ET Hc) as (o & Ho & Oo & Fo & Lo & Co).
      assert (Fc : fid c = l_fid l).
      { apply B2. rewrite Eb. apply in_or_app; left. apply in_or_app; left. apply in_or_app. simpl. auto. }
      assert (Ho' : In o (nonS (rev r1 ++ b2))).
      { rewrite <- E3. apply filter_In. split; [auto|]. lia. }
      exists o. split; [auto|]. apply in_nonS in Ho' as [Ho' _]. apply in_app_or in Ho'.
      destruct Ho' as [Ho'|Ho'].
      { apply in_rev in Ho'. rewrite (Hoff o Ho') in Oo. discriminate. }
      assert (Ob : In o (b1 ++ b2)) by (apply in_or_app; auto). destruct (B2 o Ob) as [Oko Fo'].
      specialize (R o Ho'). rewrite ok_P in R by auto. rewrite Fo', Z.eqb_refl in R. simpl in R.
      destruct (pos_total (m_loc o) l) as [K|K]; [|auto]. apply pos_leb_iff in K. congruence.
    + rewrite app_assoc, <- Eb. auto.
Qed.

(** ** All events *)

Lemma firsts_ext : forall ms T, exists d, firsts T ms = T ++ d.
Proof.
  induction ms as [|m ms IH]; intros T; simpl; [exists []; rewrite app_nil_r; auto|].
  destruct (in_dec marker_eq_dec m T); [apply IH|].
  destruct (IH (T ++ [m])) as [d ->]. exists (m :: d). rewrite <- app_assoc. auto.
Qed.

Lemma add_step : forall T s m, Inv T s -> Tinv T -> ok (m_loc m) -> is_suppress m = false ->
  is_count m = false -> in_text_order (firsts T [m]) ->
  Inv (firsts T [m]) (fst (add ft s m)) /\ Tinv (firsts T [m]).
Proof.
  intros T s m I HC Hm Hs Hc HO. simpl in *. destruct (in_dec marker_eq_dec m T) as [K|K].
  - rewrite (add_again T) by auto. auto.
  - split; [|apply Tinv_snoc; auto].
    assert (O := order_snoc T m HO). apply add_fresh; auto. apply (refused_false T); auto.
    + intros q x -> Hx. rewrite (last_not_count T q x) in Hx; auto. discriminate.
    + intros C HCT Hcnt Fc L. apply in_split in HCT as (a & b & ET).
      destruct (HC _ _ _ ET Hcnt) as (o & Ho & _ & Fo & Lo & Co).
      assert (Q : pos_le (m_loc o) (m_loc m)).
      { apply O; [rewrite ET; apply in_or_app; simpl; auto|congruence]. }
      unfold pos_le in Q. lia.
Qed.

Lemma line_step : forall T s n l, Inv T s -> Tinv T -> ok l ->
  let ms := marks (Line n l) in
  in_text_order (firsts T ms) ->
  Inv (firsts T ms) (step ft isN NC s (Line n l)) /\ Tinv (firsts T ms).
Proof.
  intros T s n l I HC Hl ms HO. subst ms. cbn [marks] in *.
  set (c := Mk (IgnoreCount n) l) in *.
  set (o := Mk IgnoreOff (Loc (l_kind l) (l_fid l) (l_line l + 1) 0)) in *.
  assert (Ho : ok (m_loc o)) by (destruct Hl; split; auto).
  cbn [firsts] in *. cbn [step]. fold c o. destruct (in_dec marker_eq_dec c T) as [K|K].
  - rewrite (add_again T) by auto.
    destruct (in_dec marker_eq_dec o T) as [K2|K2]; [auto|]. exfalso. apply K2.
    assert (K' := K). apply in_split in K as (a & b & ET).
    destruct (HC a c b ET eq_refl) as (o' & A & B & F & L & Cc).
    assert (Hin : In o' T) by (rewrite ET; apply in_or_app; simpl; auto).
    assert (ok (m_loc o')) as Ok.
    { apply (inv_ok T s); auto. apply (inv_members T s); auto using off_suppress. }
    replace o with o'; auto. destruct o' as [k' [kk ff ll cc]]. unfold is_off in B. cbn in *.
    unfold fid in F. cbn in F. destruct k'; try discriminate. destruct Ok as [Ok _]. destruct Hl as [Hl _].
    cbn in Ok. unfold o. rewrite Hl. subst. auto.
  - assert (O1 : in_text_order (T ++ [c])).
    { destruct (in_dec marker_eq_dec o (T ++ [c])); auto. apply order_prefix in HO. auto. }
    assert (O := order_snoc T c O1).
    destruct (add_fresh T s c I Hl eq_refl K) as [A1 A2]; auto.
    { apply (refused_false T); auto.
      + intros q x -> Hx. rewrite (last_not_count T q x) in Hx by auto. discriminate.
      + intros C HCT Hcnt Fc L. apply in_split in HCT as (a & b & ET).
        destruct (HC _ _ _ ET Hcnt) as (o' & Ho' & _ & Fo & Lo & Co).
        assert (Q : pos_le (m_loc o') (m_loc c)).
        { apply O; [rewrite ET; apply in_or_app; simpl; auto|congruence]. }
        unfold pos_le in Q. lia. }
    destruct (add ft s c) as [s1 b1] eqn:E1. cbn [fst snd] in *. subst b1.
    assert (No : ~ In o (T ++ [c])).
    { intros H. apply in_app_or in H. destruct H as [H|[H|[]]]; [|discriminate].
      assert (Q := O o H eq_refl). unfold pos_le in Q. cbn in Q. lia. }
    destruct (in_dec marker_eq_dec o (T ++ [c])) as [K2|_]; [tauto|].
    split.
    + apply add_fresh; auto.
      * apply (refused_false (T ++ [c])); auto. intros C HCT Hcnt Fc L. cbn in L.
        apply in_app_or in HCT. destruct HCT as [HCT|[<-|[]]]; [|cbn in L; lia].
        assert (Q := O C HCT Fc). unfold pos_le in Q. cbn in Q. lia.
      * apply order_snoc. auto.
    + intros a C b E Hcnt. destruct b as [|y b] using rev_ind.
      { apply app_inj_tail in E as [_ <-]. discriminate. }
      clear IHb. change (a ++ C :: b ++ [y]) with (a ++ (C :: b) ++ [y]) in E. rewrite app_assoc in E.
      apply app_inj_tail in E as [E <-]. destruct b as [|z b] using rev_ind.
      * apply app_inj_tail in E as [_ <-]. exists o. split; [simpl; auto|]. cbn. auto.
      * clear IHb. change (a ++ C :: b ++ [z]) with (a ++ (C :: b) ++ [z]) in E. rewrite app_assoc in E.
        apply app_inj_tail in E as [E _]. destruct (HC _ _ _ E Hcnt) as (o' & X & Y).
        exists o'. split; [apply in_or_app; left; apply in_or_app; auto|auto].
Qed.

Lemma firsts_app : forall a b T, firsts T (a ++ b) = firsts (firsts T a) b.
Proof. induction a as [|x a IH]; intros b T; simpl; auto. Qed.

Lemma run_inv : forall es T s, Inv T s -> Tinv T -> (forall e, In e es -> ok (ev_loc e)) ->
  in_text_order (firsts T (flat_map marks es)) ->
  Inv (firsts T (flat_map marks es)) (fold_left (step ft isN NC) es s).
Proof.
  induction es as [|e es IH]; intros T s I HC Hok HO; [auto|].
  cbn [flat_map fold_left] in *. rewrite firsts_app in *.
  assert (O1 : in_text_order (firsts T (marks e))).
  { destruct (firsts_ext (flat_map marks es) (firsts T (marks e))) as [d E]. rewrite E in HO.
    eauto using order_prefix. }
  assert (Oe : ok (ev_loc e)) by (apply Hok; simpl; auto).
  assert (G : Inv (firsts T (marks e)) (step ft isN NC s e) /\ Tinv (firsts T (marks e))).
  { destruct e as [l|l|c set l|n l|c l]; cbn [ev_loc] in Oe.
    - apply add_step; auto.
    - apply add_step; auto.
    - apply add_step; auto.
    - apply line_step; auto.
    - split; [|auto]. apply message_inv; auto. }
  destruct G as [G1 G2]. apply IH; auto. intros e' He. apply Hok. simpl. auto.
Qed.

Lemma run_trace : forall es, (forall e, In e es -> ok (ev_loc e)) -> in_text_order (trace es) ->
  Inv (trace es) (markers ft isN NC es).
Proof.
  intros es H O. apply run_inv; auto.
  - exists []. split; [auto|]. split; [constructor|]. simpl. repeat split; tauto.
  - intros a C b E. destruct a; discriminate.
Qed.

Lemma nonS_rev : forall b, nonS (rev b) = rev (nonS b).
Proof.
  induction b as [|x b IH]; [auto|]. simpl. rewrite nonS_app, IH, !nonS_cons.
  destruct (is_suppress x); simpl; auto. apply app_nil_r.
Qed.

Lemma hidden_iff : forall es code l flag, (forall e, In e es -> ok (ev_loc e)) -> in_text_order (trace es) ->
  ok l -> isN code = false ->
  (hidden ft isN NC (markers ft isN NC es) flag code l = true <->
   in_region (upto (trace es) l) \/ last_set code (upto (trace es) l) NO \/
   (flag = false /\ ~ last_set code (upto (trace es) l) YES)).
Proof.
  intros es code l flag H O Hl Hn. assert (I := run_trace es H O). unfold hidden.
  set (U := upto (trace es) l).
  assert (A : fst (suppressError (markers ft isN NC es) code l) =
    if reg (rev U) then YES else
    match sets code (rev U) with Some NO => YES | Some YES => NO | _ => MAYBE end).
  { destruct (supp_shape _ _ code l I O Hl) as
      [[-> E]|(pre & b1 & b2 & post & _ & _ & _ & _ & _ & E & _ & Sf & -> & _)].
    - unfold U. rewrite E. reflexivity.
    - assert (Sf' : forall x, In x (rev b1) -> m_sameFile ft x l = true) by (intros; apply Sf, in_rev; auto).
      rewrite walk_nonS by auto. rewrite nonS_rev, E. fold U.
      assert (SfU : forall x, In x (rev U) -> m_sameFile ft x l = true).
      { intros x Hx. apply in_rev in Hx. unfold U in Hx. rewrite <- E in Hx. apply in_nonS in Hx.
        apply Sf. tauto. }
      rewrite walk_answer by auto.
      cbn [negb andb]. destruct (reg (rev U)); auto. }
  rewrite A, <- reg_region, <- !sets_last.
  destruct (reg (rev U)); [tauto|].
  destruct (sets code (rev U)) as [[]|]; destruct flag; cbn [negb]; split; intros K; auto;
    try discriminate; try (right; right; split; [auto|discriminate]);
    destruct K as [K|[K|[K K2]]]; try discriminate; tauto.
Qed.

Lemma hidden_names : forall es code l flag, (forall e, In e es -> ok (ev_loc e)) -> in_text_order (trace es) ->
  ok l ->
  in_region (upto (trace es) l) \/ last_set code (upto (trace es) l) NO \/
   (isN code = true /\ last_set NC (upto (trace es) l) NO) ->
  hidden ft isN NC (markers ft isN NC es) flag code l = true.
Proof.
  intros es code l flag H O Hl K. assert (I := run_trace es H O). unfold hidden.
  set (U := upto (trace es) l) in *. rewrite <- reg_region, <- !sets_last in K.
  replace (fst (suppressError (markers ft isN NC es) code l)) with YES; auto.
  destruct (supp_shape _ _ code l I O Hl) as
      [[-> E]|(pre & b1 & b2 & post & _ & _ & _ & _ & _ & E & _ & Sf & -> & _)].
  - unfold U in K. rewrite E in K. simpl in K. intuition discriminate.
  - assert (Sf' : forall x, In x (rev b1) -> m_sameFile ft x l = true) by (intros; apply Sf, in_rev; auto).
    rewrite walk_nonS by auto. rewrite nonS_rev, E. fold U. rewrite walk_yes; auto.
    + intros x Hx. apply in_rev in Hx. unfold U in Hx. rewrite <- E in Hx. apply in_nonS in Hx.
      apply Sf. tauto.
    + tauto.
Qed.
End M.

Lemma user_files_hyps : forall ft ls, user_files ft ls ->
  let files f := exists l, In l ls /\ l_fid l = f in
  (forall f, files f -> 0 <= f) /\
  (forall f g, files f -> files g -> sameBase ft f g = (f =? g)) /\
  (forall f, files f -> ft_sys ft f = false /\ ft_special ft f = false) /\
  (forall l, In l ls -> ok files l).
Proof.
  intros ft ls [A B] files. split; [|split; [|split]].
  - intros f (l & H & <-). apply A. auto.
  - intros f g (l & H & <-) (k & K & <-). apply sameBase_unrelated; auto; apply A; auto.
  - intros f (l & H & <-). destruct (A l H) as (_ & _ & X & Y). auto.
  - intros l H. split; [apply A; auto|]. exists l. auto.
Qed.

Lemma hidden_regions : forall ft isN NC es code l flag,
  user_files ft (l :: map ev_loc es) -> in_text_order (trace es) -> isN code = false ->
  (hidden ft isN NC (markers ft isN NC es) flag code l = true <->
   in_region (upto (trace es) l) \/ last_set code (upto (trace es) l) NO \/
   (flag = false /\ ~ last_set code (upto (trace es) l) YES)).
Proof.
  intros ft isN NC es code l flag H O Hn. apply user_files_hyps in H as (A & B & C & D).
  apply (hidden_iff ft isN NC (fun f => exists l0, In l0 (l :: map ev_loc es) /\ l_fid l0 = f)); auto.
  - intros e He. apply D. right. apply in_map. auto.
  - apply D. simpl. auto.
Qed.

Lemma hidden_name_checks : forall ft isN NC es code l flag,
  user_files ft (l :: map ev_loc es) -> in_text_order (trace es) ->
  in_region (upto (trace es) l) \/ last_set code (upto (trace es) l) NO \/
   (isN code = true /\ last_set NC (upto (trace es) l) NO) ->
  hidden ft isN NC (markers ft isN NC es) flag code l = true.
Proof.
  intros ft isN NC es code l flag H O Hn. apply user_files_hyps in H as (A & B & C & D).
  apply (hidden_names ft isN NC (fun f => exists l0, In l0 (l :: map ev_loc es) /\ l_fid l0 = f)); auto.
  - intros e He. apply D. right. apply in_map. auto.
  - apply D. simpl. auto.
Qed.

(** ** Deciding the order, for examples *)
Fixpoint order_b (ms : list marker) : bool :=
  match ms with
  | [] => true
  | x :: ms => forallb (fun y => negb (fid x =? fid y) || pos_leb (m_loc x) (m_loc y)) ms && order_b ms
  end.
Lemma order_b_ok : forall ms, order_b ms = true -> in_text_order ms.
Proof.
  induction ms as [|z ms IH]; intros H a x b y c E F.
  - destruct a; discriminate.
  - simpl in H. apply andb_true_iff in H as [H1 H2]. destruct a as [|z' a]; simpl in E; injection E as -> E.
    + rewrite E in H1. rewrite forallb_forall in H1. specialize (H1 y).
      unfold fid in H1. rewrite F, Z.eqb_refl in H1. apply pos_leb_iff. apply H1.
      apply in_or_app. simpl. auto.
    + eapply IH; eauto.
Qed.
