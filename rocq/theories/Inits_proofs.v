(** Proofs about the checking of initializers. *)
From Verif Require Import Cbase Inits_model Inits_spec.
Open Scope nat_scope.

Section Proofs.
Variable leaf : Type.
Variable matches : ty -> leaf -> bool.
Variable is_string : leaf -> bool.
Variable fl : iflags.
Notation check := (check leaf matches is_string fl).
Notation elements := (elements leaf is_string).
Notation fields := (fields leaf).
Notation str_value := (str_value leaf is_string).
Notation sub := (sub leaf is_string).
Notation wrong := (wrong leaf matches).
Notation valid := (valid leaf matches is_string).
Notation consume := (consume leaf matches is_string).
Notation full := (full leaf matches).
Notation braced_string := (braced_string leaf is_string).
Notation undesignated := (undesignated leaf is_string).
Notation no_pointer_block := (no_pointer_block leaf is_string).
Notation no_braced_string := (no_braced_string leaf is_string).

(** Induction over nested initializers. *)
Section Ind.
Variable P : init leaf -> Prop.
Hypothesis HL : forall l, P (Leaf l).
Hypothesis HB : forall vs, Forall P vs -> P (Block vs).
Hypothesis HD : forall d v, P v -> P (Desig d v).
Fixpoint init_ind2 (v : init leaf) : P v :=
  match v with
  | Leaf l => HL l
  | Block vs => HB vs ((fix go (l : list (init leaf)) : Forall P l :=
      match l with [] => Forall_nil P | x :: r => Forall_cons x (init_ind2 x) (go r) end) vs)
  | Desig d w => HD d w (init_ind2 w)
  end.
End Ind.

(** Equations. *)
Lemma check_arr : forall e n vs, check (TArr e n) (Block vs) =
  size_msgs fl n (List.length vs) ++ elements (check e) (List.length vs) (is_char e) vs 0 0.
Proof. reflexivity. Qed.
Lemma check_ptr : forall e vs, check (TPtr e) (Block vs) =
  elements (check e) (List.length vs) (is_char e) vs 0 0.
Proof. reflexivity. Qed.
Lemma check_struct : forall fs vs, check (TStruct fs) (Block vs) =
  if List.length vs <? List.length fs then rep (fullinitblock fl) FieldsFew
  else if List.length fs <? List.length vs then rep (type_ fl) FieldsMany
  else fields check vs fs 0.
Proof. reflexivity. Qed.
Lemma check_leaf : forall t l, check t (Leaf l) = if matches t l then [] else rep (type_ fl) BadValue.
Proof. reflexivity. Qed.
Lemma check_union1 : forall f o w, check (TUnion f o) (Block [w]) = under 0 (check f w).
Proof. reflexivity. Qed.
Lemma check_union_other : forall f o vs, List.length vs <> 1 ->
  check (TUnion f o) (Block vs) = rep (type_ fl) UnionCount.
Proof. intros f o [| a [| b r]] H; try reflexivity. now destruct H. Qed.
Lemma elements_nil : forall chk total ce i n, elements chk total ce [] i n = [].
Proof. reflexivity. Qed.
Lemma elements_cons : forall chk total ce v r i n, elements chk total ce (v :: r) i n =
  if (total =? 1) && str_value v && ce then elements chk total ce r (S i) n
  else match chk v with
       | [] => elements chk total ce r (S i) n
       | ms => if (3 <? S n) && (6 <? total) then under i ms ++ [([], Additional)]
               else under i ms ++ elements chk total ce r (S i) (S n)
       end.
Proof. reflexivity. Qed.

Lemma in_under : forall k ms p m, In (p, m) (under k ms) <-> exists q, p = k :: q /\ In (q, m) ms.
Proof.
  intros k ms p m. unfold under. rewrite in_map_iff. split.
  - intros ([q m'] & E & I). cbn in E. injection E as <- <-. eauto.
  - intros (q & -> & I). exists (q, m). auto.
Qed.
Lemma in_rep : forall b m' p m, In (p, m) (rep b m') <-> b = true /\ p = [] /\ m = m'.
Proof.
  intros b m' p m. unfold rep. destruct b; cbn [In].
  - split; [intros [E | []]; injection E as <- <-; auto | intros (_ & -> & ->); auto].
  - split; [tauto | intros (H & _); discriminate].
Qed.

Definition skip (total : nat) (ce : bool) (v : init leaf) : bool := (total =? 1) && str_value v && ce.

Lemma elements_in : forall chk total ce vs i n p m, In (p, m) (elements chk total ce vs i n) ->
  (p = [] /\ m = Additional /\ 6 < total) \/
  exists k w q, p = (i + k) :: q /\ nth_error vs k = Some w /\ In (q, m) (chk w) /\ skip total ce w = false.
Proof.
  intros chk total ce vs. induction vs as [| v r IH]; intros i n p m H; [destruct H |].
  rewrite elements_cons in H. fold (skip total ce v) in H.
  assert (Rest : forall n', In (p, m) (elements chk total ce r (S i) n') ->
    (p = [] /\ m = Additional /\ 6 < total) \/
    exists k w q, p = (i + k) :: q /\ nth_error (v :: r) k = Some w /\ In (q, m) (chk w) /\ skip total ce w = false).
  { intros n' H'. destruct (IH _ _ _ _ H') as [A | (k & w & q & -> & N & I & SK0)]; [now left | right].
    exists (S k), w, q. split; [f_equal; lia | auto]. }
  destruct (skip total ce v) eqn:SK; [now apply Rest in H |].
  destruct (chk v) as [| m0 ms] eqn:C; [now apply Rest in H |].
  destruct ((3 <? S n) && (6 <? total)) eqn:L.
  - apply in_app_or in H. destruct H as [H | [H | []]].
    + apply in_under in H as (q & -> & I). right. exists 0, v, q. rewrite Nat.add_0_r, C. auto.
    + injection H as <- <-. left. apply andb_true_iff in L as [_ L]. apply Nat.ltb_lt in L. auto.
  - apply in_app_or in H. destruct H as [H | H]; [| now apply Rest in H].
    apply in_under in H as (q & -> & I). right. exists 0, v, q. rewrite Nat.add_0_r, C. auto.
Qed.

Lemma elements_all : forall chk total ce vs i n, ~ In ([], Additional) (elements chk total ce vs i n) ->
  forall k w q m, nth_error vs k = Some w -> skip total ce w = false -> In (q, m) (chk w) ->
  In ((i + k) :: q, m) (elements chk total ce vs i n).
Proof.
  intros chk total ce vs. induction vs as [| v r IH]; intros i n NA k w q m N SK I; [now destruct k |].
  rewrite elements_cons in *. fold (skip total ce v) in *.
  destruct k as [| k]; cbn [nth_error] in N.
  - injection N as <-. rewrite SK in *. rewrite Nat.add_0_r.
    destruct (chk v) as [| m0 ms] eqn:C; [destruct I |].
    assert (U : In (i :: q, m) (under i (m0 :: ms))) by (apply in_under; eauto).
    destruct ((3 <? S n) && (6 <? total)); apply in_or_app; now left.
  - replace (i + S k) with (S i + k) by lia.
    destruct (skip total ce v); [now apply IH with w |].
    destruct (chk v) as [| m0 ms]; [now apply IH with w |].
    destruct ((3 <? S n) && (6 <? total)).
    + exfalso. apply NA. apply in_or_app. right. now left.
    + apply in_or_app. right. apply IH with w; auto. intro X. apply NA. apply in_or_app. now right.
Qed.

Lemma elements_silent : forall chk total ce vs i n, elements chk total ce vs i n = [] ->
  Forall (fun w => skip total ce w = true \/ chk w = []) vs.
Proof.
  intros chk total ce vs. induction vs as [| v r IH]; intros i n H; constructor;
    rewrite elements_cons in H; fold (skip total ce v) in H.
  - destruct (skip total ce v); [now left | right].
    destruct (chk v); [reflexivity |]. destruct ((3 <? S n) && (6 <? total)); discriminate H.
  - destruct (skip total ce v); [eauto |].
    destruct (chk v); [eauto |]. destruct ((3 <? S n) && (6 <? total)); discriminate H.
Qed.
Lemma elements_quiet : forall chk total ce vs i n, Forall (fun w => chk w = []) vs ->
  elements chk total ce vs i n = [].
Proof.
  intros chk total ce vs i n H. revert i n. induction H as [| v r E H IH]; intros i n; [reflexivity |].
  rewrite elements_cons, E. destruct ((total =? 1) && str_value v && ce); apply IH.
Qed.

Lemma fields_in : forall chk vs fs i p m, In (p, m) (fields chk vs fs i) <->
  exists k f w q, p = (i + k) :: q /\ nth_error fs k = Some f /\ nth_error vs k = Some w /\ In (q, m) (chk f w).
Proof.
  intros chk vs. induction vs as [| v r IH]; intros fs i p m.
  - cbn. split; [tauto |]. intros (k & f & w & q & _ & _ & N & _). now destruct k.
  - destruct fs as [| f fr].
    + cbn. split; [tauto |]. intros (k & f & w & q & _ & N & _). now destruct k.
    + change (fields chk (v :: r) (f :: fr) i) with (under i (chk f v) ++ fields chk r fr (S i)).
      rewrite in_app_iff, in_under, IH. split.
      * intros [(q & -> & I) | (k & g & w & q & -> & A & B & I)].
        -- exists 0, f, v, q. rewrite Nat.add_0_r. auto.
        -- exists (S k), g, w, q. split; [f_equal; lia | auto].
      * intros ([| k] & g & w & q & -> & A & B & I); cbn [nth_error] in A, B.
        -- injection A as <-. injection B as <-. left. exists q. rewrite Nat.add_0_r. auto.
        -- right. exists k, g, w, q. split; [f_equal; lia | auto].
Qed.

Lemma nothing : forall (l : imsgs), l = [] <-> forall p m, ~ In (p, m) l.
Proof.
  intros [| [p m] r]; split; intro H; [intros p m [] | reflexivity | discriminate |].
  exfalso. apply (H p m). now left.
Qed.

Lemma skip_iff : forall e vs w k, nth_error vs k = Some w ->
  (skip (List.length vs) (is_char e) w = true <-> braced_string (TArr e None) (Block vs)).
Proof.
  intros e vs w k N. unfold skip. split.
  - intro H. apply andb_true_iff in H as [H C]. apply andb_true_iff in H as [L S].
    apply Nat.eqb_eq in L. destruct e; try discriminate C.
    destruct vs as [| x [| y r]]; try discriminate L.
    destruct k as [| k]; [| now destruct k]. injection N as ->.
    destruct w; try discriminate S. now constructor.
  - intro H. inversion H as [n l IS]; subst. destruct k as [| k]; [| now destruct k]. injection N as <-.
    cbn. now rewrite IS.
Qed.
Lemma braced_size : forall e n n' vs, braced_string (TArr e n) (Block vs) -> braced_string (TArr e n') (Block vs).
Proof. intros e n n' vs H. inversion H; subst. now constructor. Qed.
Lemma skip_false : forall e n vs w k, nth_error vs k = Some w ->
  (skip (List.length vs) (is_char e) w = false <-> ~ braced_string (TArr e n) (Block vs)).
Proof.
  intros e n vs w k N. rewrite <- not_true_iff_false, (skip_iff _ _ _ _ N).
  split; intros H X; apply H; eapply braced_size; eauto.
Qed.

(** Messages are right. *)
Lemma check_right : forall v t p m, In (p, m) (check t v) ->
  exists t' v', sub t v p t' v' /\
    (m <> Additional /\ wrong t' v' m /\ flag_of fl m = true \/
     m = Additional /\ exists vs, v' = Block vs /\ 6 < List.length vs).
Proof.
  intro v. induction v as [l | vs IH | d v IH] using init_ind2; intros t p m H.
  - rewrite check_leaf in H. destruct (matches t l) eqn:M; [destruct H |].
    apply in_rep in H as (F & -> & ->). exists t, (Leaf l). split; [constructor |]. left.
    split; [discriminate |]. split; [now constructor | exact F].
  - rewrite Forall_forall in IH.
    assert (E : forall e n, In (p, m) (elements (check e) (List.length vs) (is_char e) vs 0 0) ->
      (p = [] /\ m = Additional /\ 6 < List.length vs) \/
      exists k w q, p = k :: q /\ nth_error vs k = Some w /\ ~ braced_string (TArr e n) (Block vs) /\
        exists t' v', sub e w q t' v' /\
        (m <> Additional /\ wrong t' v' m /\ flag_of fl m = true \/
         m = Additional /\ exists vs, v' = Block vs /\ 6 < List.length vs)).
    { intros e n H'. destruct (elements_in _ _ _ _ _ _ _ _ H') as [A | (k & w & q & -> & N & I & S)]; [now left | right].
      exists k, w, q. split; [reflexivity |]. split; [exact N |]. split; [now apply (skip_false e n vs w k N) |].
      apply IH; [| exact I]. eapply nth_error_In; eauto. }
    destruct t as [| k | e | e n | fs | f o].
    + apply in_rep in H as (F & -> & ->). exists TChar, (Block vs). split; [constructor |]. left.
      split; [discriminate |]. split; [constructor | exact F].
    + apply in_rep in H as (F & -> & ->). exists (TScalar k), (Block vs). split; [constructor |]. left.
      split; [discriminate |]. split; [constructor | exact F].
    + rewrite check_ptr in H. destruct (E e None H) as [(-> & -> & L) | (k & w & q & -> & N & B & t' & v' & S & R)].
      * exists (TPtr e), (Block vs). split; [constructor |]. right. eauto.
      * exists t', v'. split; [eapply s_ptr; eauto | exact R].
    + rewrite check_arr in H. apply in_app_or in H. destruct H as [H | H].
      * unfold size_msgs in H. destruct n as [n |]; [| destruct H].
        destruct (Nat.eqb_spec n (List.length vs)) as [| NE]; [destruct H |].
        destruct (Nat.ltb_spec n (List.length vs)) as [L | L]; apply in_rep in H as (F & -> & ->);
          exists (TArr e (Some n)), (Block vs); (split; [constructor |]); left; (split; [discriminate |]);
          (split; [constructor; lia | exact F]).
      * destruct (E e n H) as [(-> & -> & L) | (k & w & q & -> & N & B & t' & v' & S & R)].
        -- exists (TArr e n), (Block vs). split; [constructor |]. right. eauto.
        -- exists t', v'. split; [eapply s_arr; eauto | exact R].
    + rewrite check_struct in H.
      destruct (Nat.ltb_spec (List.length vs) (List.length fs)) as [L | L].
      { apply in_rep in H as (F & -> & ->). exists (TStruct fs), (Block vs). split; [constructor |]. left.
        split; [discriminate |]. split; [now constructor | exact F]. }
      destruct (Nat.ltb_spec (List.length fs) (List.length vs)) as [L' | L'].
      { apply in_rep in H as (F & -> & ->). exists (TStruct fs), (Block vs). split; [constructor |]. left.
        split; [discriminate |]. split; [now constructor | exact F]. }
      apply fields_in in H as (k & f & w & q & -> & A & B & I).
      destruct (IH w (nth_error_In _ _ B) _ _ _ I) as (t' & v' & S & R).
      exists t', v'. split; [| exact R]. cbn [Nat.add]. eapply s_struct; eauto. lia.
    + destruct (Nat.eq_dec (List.length vs) 1) as [L | L].
      * destruct vs as [| w [| x r]]; try discriminate L. rewrite check_union1 in H.
        apply in_under in H as (q & -> & I).
        destruct (IH w (or_introl eq_refl) _ _ _ I) as (t' & v' & S & R).
        exists t', v'. split; [now constructor | exact R].
      * rewrite check_union_other in H by exact L.
        apply in_rep in H as (F & -> & ->). exists (TUnion f o), (Block vs). split; [constructor |]. left.
        split; [discriminate |]. split; [now constructor | exact F].
  - destruct H.
Qed.

(** Whatever is wrong is reported, unless the limit is reached. *)
Lemma check_complete : forall t v p t' v' m, sub t v p t' v' -> wrong t' v' m -> flag_of fl m = true ->
  (forall q, ~ In (q, Additional) (check t v)) -> In (p, m) (check t v).
Proof.
  intros t v p t' v' m S W F. revert W.
  induction S as [t v | e n vs k v p t' v' B N S IH | e vs k v p t' v' B N S IH
                 | fs vs k f v p t' v' L A N S IH | f o v p t' v' S IH]; intros W NA.
  - destruct W; cbn [flag_of] in F.
    + rewrite check_arr. apply in_or_app. left. unfold size_msgs.
      destruct (Nat.eqb_spec n (List.length vs)); [lia |].
      destruct (Nat.ltb_spec n (List.length vs)); [| lia]. apply in_rep; auto.
    + rewrite check_arr. apply in_or_app. left. unfold size_msgs.
      destruct (Nat.eqb_spec n (List.length vs)); [lia |].
      destruct (Nat.ltb_spec n (List.length vs)); [lia |]. apply in_rep; auto.
    + rewrite check_struct. apply Nat.ltb_lt in H. rewrite H. apply in_rep; auto.
    + rewrite check_struct. destruct (Nat.ltb_spec (List.length vs) (List.length fs)); [lia |].
      apply Nat.ltb_lt in H. rewrite H. apply in_rep; auto.
    + rewrite check_union_other by exact H. apply in_rep; auto.
    + apply in_rep; auto.
    + apply in_rep; auto.
    + rewrite check_leaf, H. apply in_rep; auto.
  - rewrite check_arr in *. apply in_or_app. right.
    assert (NE : ~ In ([], Additional) (elements (check e) (List.length vs) (is_char e) vs 0 0)).
    { intro X. apply (NA []). apply in_or_app. now right. }
    assert (SK : skip (List.length vs) (is_char e) v = false) by (now apply (skip_false e n vs v k N)).
    apply (elements_all _ _ _ _ 0 0 NE k v p m N SK). apply IH; auto.
    intros q X. apply (NA (k :: q)). apply in_or_app. right.
    apply (elements_all _ _ _ _ 0 0 NE k v q Additional N SK X).
  - rewrite check_ptr in *.
    assert (NE : ~ In ([], Additional) (elements (check e) (List.length vs) (is_char e) vs 0 0)) by apply NA.
    assert (SK : skip (List.length vs) (is_char e) v = false) by (now apply (skip_false e None vs v k N)).
    apply (elements_all _ _ _ _ 0 0 NE k v p m N SK). apply IH; auto.
    intros q X. apply (NA (k :: q)). apply (elements_all _ _ _ _ 0 0 NE k v q Additional N SK X).
  - rewrite check_struct in *.
    destruct (Nat.ltb_spec (List.length vs) (List.length fs)); [lia |].
    destruct (Nat.ltb_spec (List.length fs) (List.length vs)); [lia |].
    apply fields_in. exists k, f, v, p. repeat split; auto. apply IH; auto.
    intros q X. apply (NA (k :: q)). apply fields_in. exists k, f, v, q. auto.
  - rewrite check_union1 in *. apply in_under. exists p. split; [reflexivity |]. apply IH; auto.
    intros q X. apply (NA (0 :: q)). apply in_under. eauto.
Qed.

(** Silence. *)
Lemma silent_parts : initsize fl = true -> fullinitblock fl = true -> type_ fl = true ->
  forall t vs, check t (Block vs) = [] -> no_pointer_block t (Block vs) ->
  braced_string t (Block vs) \/
  exists ps, parts t ps /\ List.length vs <= List.length ps /\
    (initallelements fl = true -> List.length vs = List.length ps) /\
    forall k p v, nth_error ps k = Some p -> nth_error vs k = Some v ->
      check p v = [] /\ forall q t' v', sub p v q t' v' -> sub t (Block vs) (k :: q) t' v'.
Proof.
  intros FS FF FT t vs S NP. destruct t as [| k | e | e n | fs | f o].
  - cbn in S. rewrite FT in S. discriminate S.
  - cbn in S. rewrite FT in S. discriminate S.
  - exfalso. apply (NP [] e vs). constructor.
  - rewrite check_arr in S. apply app_eq_nil in S as [S1 S2]. apply elements_silent in S2.
    rewrite Forall_forall in S2.
    assert (Part : forall N, braced_string (TArr e n) (Block vs) \/
      forall k p v, nth_error (repeat e N) k = Some p -> nth_error vs k = Some v ->
      check p v = [] /\ forall q t' v', sub p v q t' v' -> sub (TArr e n) (Block vs) (k :: q) t' v').
    { intro N.
      assert (D : braced_string (TArr e n) (Block vs) \/ ~ braced_string (TArr e n) (Block vs)).
      { destruct vs as [| w r]; [right; intro X; inversion X |].
        destruct (skip (List.length (w :: r)) (is_char e) w) eqn:K.
        - left. apply (skip_iff e (w :: r) w 0 eq_refl) in K. eapply braced_size; eauto.
        - right. now apply (skip_false e n (w :: r) w 0 eq_refl). }
      destruct D as [D | D]; [now left | right]. intros k p v NP' NV.
      apply nth_error_In in NP' as IP. apply repeat_spec in IP. subst p.
      destruct (S2 v (nth_error_In _ _ NV)) as [K | K].
      - exfalso. apply (skip_false e n vs v k NV) in D. congruence.
      - split; [exact K |]. intros q t' v' SB. eapply s_arr; eauto. }
    destruct n as [n |].
    + destruct (Part n) as [B | P]; [now left | right]. exists (repeat e n).
      split; [constructor |]. rewrite repeat_length.
      unfold size_msgs in S1. destruct (Nat.eqb_spec n (List.length vs)) as [-> | NE].
      * split; [lia |]. split; [reflexivity | exact P].
      * destruct (Nat.ltb_spec n (List.length vs)); [rewrite FS in S1; discriminate S1 |].
        split; [lia |]. split; [| exact P]. intro FA. rewrite FA in S1. discriminate S1.
    + destruct (Part (List.length vs)) as [B | P]; [now left | right]. exists (repeat e (List.length vs)).
      split; [constructor |]. rewrite repeat_length. split; [lia |]. split; [reflexivity | exact P].
  - right. exists fs. split; [constructor |]. rewrite check_struct in S.
    destruct (Nat.ltb_spec (List.length vs) (List.length fs)); [rewrite FF in S; discriminate S |].
    destruct (Nat.ltb_spec (List.length fs) (List.length vs)); [rewrite FT in S; discriminate S |].
    split; [lia |]. split; [lia |]. intros k p v A B. split.
    + apply nothing. intros q m I. apply (proj1 (nothing _) S (k :: q) m). apply fields_in.
      exists k, p, v, q. auto.
    + intros q t' v' SB. eapply s_struct; eauto. lia.
  - right. exists [f]. split; [constructor |].
    destruct (Nat.eq_dec (List.length vs) 1) as [L | L].
    + destruct vs as [| w [| x r]]; try discriminate L. cbn [List.length]. split; [lia |]. split; [reflexivity |].
      rewrite check_union1 in S. intros k p v A B. destruct k as [| k]; [| now destruct k].
      injection A as <-. injection B as <-. split.
      * apply nothing. intros q m I. apply (proj1 (nothing _) S (0 :: q) m). apply in_under. eauto.
      * intros q t' v' SB. now constructor.
    + rewrite check_union_other, FT in S by exact L. discriminate S.
Qed.

Lemma consume_all : forall vs ps, List.length vs <= List.length ps ->
  (forall k p v, nth_error ps k = Some p -> nth_error vs k = Some v -> valid p v) -> consume ps vs [].
Proof.
  induction vs as [| v r IH]; intros ps L H; [constructor |].
  destruct ps as [| p ps]; [cbn in L; lia |].
  apply c_elem; [now apply (H 0) |]. apply IH; [cbn in L; lia |].
  intros k q w A B. now apply (H (S k)).
Qed.

Lemma silent_valid : initsize fl = true -> fullinitblock fl = true -> type_ fl = true ->
  forall v t, check t v = [] -> undesignated t v -> no_pointer_block t v -> valid t v.
Proof.
  intros FS FF FT v. induction v as [l | vs IH | d v IH] using init_ind2; intros t S U NP.
  - rewrite check_leaf in S. destruct (matches t l) eqn:M; [now constructor |].
    rewrite FT in S. discriminate S.
  - destruct (silent_parts FS FF FT t vs S NP) as [B | (ps & P & L & _ & H)].
    + inversion B; subst. now constructor.
    + apply v_block with ps; [exact P |]. apply consume_all; [exact L |].
      intros k p v A B. destruct (H k p v A B) as [C SB]. rewrite Forall_forall in IH.
      apply IH; [eapply nth_error_In; eauto | exact C | |].
      * intros q t' d w X. apply (U (k :: q) t' d w). now apply SB.
      * intros q t' ws X. apply (NP (k :: q) t' ws). now apply SB.
  - exfalso. apply (U [] t d v). constructor.
Qed.

Lemma forall2_nth : forall (R : ty -> init leaf -> Prop) vs ps, List.length vs = List.length ps ->
  (forall k p v, nth_error ps k = Some p -> nth_error vs k = Some v -> R p v) -> Forall2 R ps vs.
Proof.
  intros R. induction vs as [| v r IH]; intros [| p ps] L H; try discriminate L; constructor.
  - now apply (H 0).
  - apply IH; [now injection L |]. intros k q w A B. now apply (H (S k)).
Qed.

Lemma silent_full : initsize fl = true -> fullinitblock fl = true -> type_ fl = true -> initallelements fl = true ->
  forall v t, check t v = [] -> undesignated t v -> no_pointer_block t v -> no_braced_string t v -> full t v.
Proof.
  intros FS FF FT FA v. induction v as [l | vs IH | d v IH] using init_ind2; intros t S U NP NB.
  - rewrite check_leaf in S. destruct (matches t l) eqn:M; [now constructor |].
    rewrite FT in S. discriminate S.
  - destruct (silent_parts FS FF FT t vs S NP) as [B | (ps & P & _ & L & H)].
    + exfalso. apply (NB [] t (Block vs)); [constructor | exact B].
    + apply f_block with ps; [exact P |]. apply forall2_nth; [now apply L |].
      intros k p v A B. destruct (H k p v A B) as [C SB]. rewrite Forall_forall in IH.
      apply IH; [eapply nth_error_In; eauto | exact C | | |].
      * intros q t' d w X. apply (U (k :: q) t' d w). now apply SB.
      * intros q t' ws X. apply (NP (k :: q) t' ws). now apply SB.
      * intros q t' w X. apply (NB (k :: q) t' w). now apply SB.
  - exfalso. apply (U [] t d v). constructor.
Qed.

Lemma full_silent : forall v t, full t v -> check t v = [].
Proof.
  intro v. induction v as [l | vs IH | d v IH] using init_ind2; intros t F.
  - inversion F as [t0 l0 M |]; subst. rewrite check_leaf. now rewrite M.
  - inversion F as [| t' ps vs' P A]; subst. rewrite Forall_forall in IH.
    assert (L : List.length ps = List.length vs).
    { clear -A. induction A; cbn; auto. }
    assert (Q : forall k p v, nth_error ps k = Some p -> nth_error vs k = Some v -> check p v = []).
    { intros k p v X Y. apply IH; [eapply nth_error_In; eauto |]. clear - A X Y.
      revert k X Y. induction A as [| p0 v0 ps vs R A IHA]; intros [| k] X Y; cbn in X, Y; try discriminate.
      - injection X as ->. injection Y as ->. exact R.
      - eauto. }
    assert (R : forall e n, ps = repeat e n -> Forall (fun w => check e w = []) vs).
    { intros e n E. apply Forall_forall. intros w I. destruct (In_nth_error _ _ I) as [k N].
      apply (Q k e w); [| exact N]. subst ps. rewrite repeat_length in L.
      assert (k < n) by (rewrite L; apply nth_error_Some; congruence).
      clear - H. revert k H. induction n; intros [| k] H; cbn; try lia; auto. apply IHn. lia. }
    destruct P as [e n | e n | fs | f o].
    + rewrite check_arr, (elements_quiet _ _ _ _ _ _ (R e n eq_refl)), app_nil_r.
      rewrite repeat_length in L. unfold size_msgs. subst n. now rewrite Nat.eqb_refl.
    + rewrite check_arr, (elements_quiet _ _ _ _ _ _ (R e n eq_refl)). reflexivity.
    + rewrite check_struct, L, Nat.ltb_irrefl. apply nothing. intros p m X.
      apply fields_in in X as (k & g & w & q & -> & X & Y & I). rewrite (Q _ _ _ X Y) in I. destruct I.
    + destruct vs as [| w [| x r]]; try discriminate L. rewrite check_union1, (Q 0 f w eq_refl eq_refl). reflexivity.
  - inversion F.
Qed.
(** The limit: four elements with messages, no more. *)
Lemma limit_at_least : forall chk total ce vs i n, n <= 3 ->
  In ([], Additional) (elements chk total ce vs i n) ->
  exists ks, NoDup ks /\ List.length ks = 4 - n /\
    forall k, In k ks -> i <= k /\ exists q m, In (k :: q, m) (elements chk total ce vs i n).
Proof.
  intros chk total ce vs. induction vs as [| v r IH]; intros i n N H; [destruct H |].
  rewrite elements_cons in *. fold (skip total ce v) in *.
  assert (Same : In ([], Additional) (elements chk total ce r (S i) n) ->
    exists ks, NoDup ks /\ List.length ks = 4 - n /\
    forall k, In k ks -> i <= k /\ exists q m, In (k :: q, m) (elements chk total ce r (S i) n)).
  { intro X. destruct (IH _ _ N X) as (ks & D & L & A). exists ks. split; [exact D |]. split; [exact L |].
    intros k I. destruct (A k I) as (G & E). split; [lia | exact E]. }
  destruct (skip total ce v); [auto |].
  destruct (chk v) as [| [q0 m0] ms] eqn:C; [auto |].
  assert (U : In (i :: q0, m0) (under i ((q0, m0) :: ms))) by (apply in_under; exists q0; split; [reflexivity | now left]).
  destruct ((3 <? S n) && (6 <? total)) eqn:L.
  - apply andb_true_iff in L as [L _]. apply Nat.ltb_lt in L.
    exists [i]. split; [repeat constructor; auto |]. split; [cbn [List.length]; lia |].
    intros k [<- | []]. split; [lia |]. exists q0, m0. apply in_or_app. now left.
  - apply in_app_or in H. destruct H as [H | H].
    { apply in_under in H as (q & E & _). discriminate E. }
    destruct (Nat.eq_dec n 3) as [-> | N3].
    + exists [i]. split; [repeat constructor; auto |]. split; [reflexivity |].
      intros k [<- | []]. split; [lia |]. exists q0, m0. apply in_or_app. now left.
    + destruct (IH (S i) (S n) ltac:(lia) H) as (ks & D & Lk & A).
      exists (i :: ks). split; [constructor; [| exact D] |].
      * intro X. destruct (A i X). lia.
      * split; [cbn [List.length]; lia |]. intros k [<- | X].
        -- split; [lia |]. exists q0, m0. apply in_or_app. now left.
        -- destruct (A k X) as (G & q & m & E). split; [lia |]. exists q, m. apply in_or_app. now right.
Qed.

Lemma limit_at_most : forall chk total ce, 6 < total -> forall vs i n, n <= 3 ->
  exists ks, List.length ks <= 4 - n /\
    forall k q m, In (k :: q, m) (elements chk total ce vs i n) -> In k ks.
Proof.
  intros chk total ce T vs. induction vs as [| v r IH]; intros i n N.
  - exists []. split; [cbn [List.length]; lia | intros k q m []].
  - rewrite elements_cons. fold (skip total ce v). destruct (skip total ce v); [apply IH; exact N |].
    destruct (chk v) as [| m0 ms]; [apply IH; exact N |].
    apply Nat.ltb_lt in T. rewrite T, andb_true_r. destruct (Nat.ltb_spec 3 (S n)) as [L | L].
    + exists [i]. split; [cbn [List.length]; lia |]. intros k q m H. apply in_app_or in H. destruct H as [H | [H | []]].
      * apply in_under in H as (q' & E & _). injection E as -> _. now left.
      * discriminate H.
    + destruct (IH (S i) (S n) ltac:(lia)) as (ks & Lk & A). exists (i :: ks).
      split; [cbn [List.length]; lia |]. intros k q m H. apply in_app_or in H. destruct H as [H | H].
      * apply in_under in H as (q' & E & _). injection E as -> _. now left.
      * right. eapply A; eauto.
Qed.

Lemma limit : forall e n vs, 6 < List.length vs ->
  (exists ks, List.length ks <= 4 /\ forall k q m, In (k :: q, m) (check (TArr e n) (Block vs)) -> In k ks) /\
  (In ([], Additional) (check (TArr e n) (Block vs)) ->
   exists ks, NoDup ks /\ List.length ks = 4 /\
     forall k, In k ks -> exists q m, In (k :: q, m) (check (TArr e n) (Block vs))).
Proof.
  intros e n vs L. rewrite check_arr.
  assert (SZ : forall p m, In (p, m) (size_msgs fl n (List.length vs)) -> p = [] /\ m <> Additional).
  { intros p m. unfold size_msgs. destruct n as [n |]; [| intros []].
    destruct (n =? List.length vs); [intros [] |].
    destruct (n <? List.length vs); intro H; apply in_rep in H as (_ & -> & ->); split; auto; discriminate. }
  split.
  - destruct (limit_at_most (check e) _ (is_char e) L vs 0 0 ltac:(lia)) as (ks & A & B).
    exists ks. split; [lia |]. intros k q m H. apply in_app_or in H. destruct H as [H | H].
    + apply SZ in H as [H _]. discriminate H.
    + eapply B; eauto.
  - intro H. apply in_app_or in H. destruct H as [H | H].
    + apply SZ in H as [_ H]. now destruct H.
    + destruct (limit_at_least _ _ _ _ 0 0 ltac:(lia) H) as (ks & D & Lk & A).
      exists ks. split; [exact D |]. split; [exact Lk |]. intros k I.
      destruct (A k I) as (_ & q & m & E). exists q, m. apply in_or_app. now right.
Qed.
End Proofs.

