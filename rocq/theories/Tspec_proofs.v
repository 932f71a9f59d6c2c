(** Proofs about the combination of type specifiers. *)
From Coq Require Import List Permutation Bool Arith Lia.
From Verif Require Import Prim_model Tspec_model Tspec_spec.
Import ListNotations.

Lemma specifiers_strip ig ws : specifiers ig ws = specifiers ig (strip ws).
Proof.
  induction ws as [|w ws IH]; [reflexivity|].
  destruct w; cbn [specifiers strip filter is_spec]; rewrite IH; fold (strip ws);
    try reflexivity.
  now destruct (specifiers ig (strip ws)).
Qed.

Lemma complete_strip ig ws : complete_type ig ws = complete_type ig (strip ws).
Proof. unfold complete_type. now rewrite specifiers_strip. Qed.

(** All arrangements of a list. *)
Fixpoint inserts (w : word) (l : list word) : list (list word) :=
  (w :: l) :: match l with [] => [] | x :: l' => map (cons x) (inserts w l') end.
Fixpoint perms (l : list word) : list (list word) :=
  match l with [] => [[]] | w :: l => flat_map (inserts w) (perms l) end.

Lemma in_inserts w l1 l2 : In (l1 ++ w :: l2) (inserts w (l1 ++ l2)).
Proof.
  induction l1 as [|x l1 IH]; cbn [app].
  - destruct l2; left; reflexivity.
  - cbn [inserts]. right. now apply in_map.
Qed.

Lemma perms_complete r : forall l, Permutation l r -> In l (perms r).
Proof.
  induction r as [|w r IH]; intros l P.
  - apply Permutation_sym, Permutation_nil in P. subst. now left.
  - assert (In w l) as I by (eapply Permutation_in; [apply Permutation_sym, P|now left]).
    destruct (in_split _ _ I) as (l1 & l2 & ->).
    apply Permutation_sym, Permutation_cons_app_inv, Permutation_sym, IH in P.
    cbn [perms]. apply in_flat_map. exists (l1 ++ l2). split; [exact P|apply in_inserts].
Qed.

Definition word_cd (w : word) : bool := match w with Char | Double => true | _ => false end.
(** Decides [misplaced] on stripped words. *)
Fixpoint misb (ws : list word) : bool :=
  match ws with
  | [] => false
  | w :: ws => (word_cd w && match ws with [] => false | _ => true end) || misb ws
  end.

Lemma misb_spec ws :
  misb ws = true <-> exists l1 w l2, ws = l1 ++ w :: l2 /\ (w = Char \/ w = Double) /\ l2 <> [].
Proof.
  induction ws as [|w ws IH]; cbn [misb].
  - split; [discriminate|]. intros (l1 & w & l2 & E & _). now destruct l1.
  - rewrite orb_true_iff, IH, andb_true_iff. split.
    + intros [[A B]|(l1 & w' & l2 & -> & W & N)].
      * exists [], w, ws. repeat split; [destruct w; try discriminate; auto|destruct ws; discriminate].
      * exists (w :: l1), w', l2. auto.
    + intros (l1 & w' & l2 & E & W & N). destruct l1 as [|x l1]; injection E as E1 E2; subst.
      * left. split; [destruct W as [->| ->]; reflexivity|now destruct l2].
      * right. exists l1, w', l2. auto.
Qed.

Lemma misplaced_spec ws : misplaced ws <-> misb (strip ws) = true.
Proof. unfold misplaced. now rewrite misb_spec. Qed.

Definition agree (ig : bool) (t : ctyp) (l : list word) : bool :=
  let '(c, gs) := complete_type ig l in
  match gs with [] => true | _ => false end && Bool.eqb (ct_eqb c (as_ct t)) (negb (misb l)).

Lemma table_checked ig :
  forallb (fun rt => forallb (agree ig (snd rt)) (perms (fst rt))) table = true.
Proof. destruct ig; vm_compute; reflexivity. Qed.

Lemma ct_eqb_eq a b : ct_eqb a b = true <-> a = b.
Proof.
  destruct a as [|p|n|n], b as [|q|m|m]; cbn [ct_eqb]; try (split; (discriminate || reflexivity)).
  - unfold peq. split; [|intros [= ->]; now destruct q].
    intros H. f_equal. destruct p, q; (reflexivity || discriminate).
  - rewrite Nat.eqb_eq. split; [intros ->; reflexivity|now intros [= ->]].
  - rewrite Nat.eqb_eq. split; [intros ->; reflexivity|now intros [= ->]].
Qed.

Lemma valid_specifiers ig ws t :
  denotes ws t ->
  snd (complete_type ig ws) = [] /\ (fst (complete_type ig ws) = as_ct t <-> ~ misplaced ws).
Proof.
  intros (r & R & P). rewrite complete_strip, misplaced_spec.
  destruct R as [R|[(n & -> & ->)|(n & -> & ->)]].
  - pose proof (table_checked ig) as T. rewrite forallb_forall in T.
    specialize (T _ R). cbn [fst snd] in T. rewrite forallb_forall in T.
    specialize (T _ (perms_complete _ _ P)). unfold agree in T.
    destruct (complete_type ig (strip ws)) as [c gs]. cbn [fst snd].
    destruct gs; [|discriminate]. split; [reflexivity|].
    cbn [andb] in T. rewrite <- ct_eqb_eq. destruct (ct_eqb c (as_ct t)), (misb (strip ws));
      cbn in T; try discriminate; split; congruence.
  - apply Permutation_sym, Permutation_length_1_inv in P. rewrite P. split; [reflexivity|].
    split; [cbn; congruence|reflexivity].
  - apply Permutation_sym, Permutation_length_1_inv in P. rewrite P. split; [reflexivity|].
    split; [cbn; congruence|reflexivity].
Qed.

Definition is_short (w : word) : bool := match w with Short => true | _ => false end.
Definition is_unsigned (w : word) : bool := match w with Unsigned => true | _ => false end.

(** What the words combined without complaint tell of the number of times each occurs. *)
Lemma integer_counts ws :
  Forall (fun w => w = Int \/ w = Long \/ w = Short \/ w = Unsigned) ws ->
  times is_int ws <= 1 -> times is_long ws <= 2 ->
  snd (specifiers false ws) = [] ->
  let i := times is_int ws in let l := times is_long ws in
  let s := times is_short ws in let u := times is_unsigned ws in
  match fst (specifiers false ws) with
  | Unknown => i = 0 /\ l = 0 /\ s = 0 /\ u = 0
  | Prim P_INT => i = 1 /\ l = 0 /\ s = 0 /\ u = 0
  | Prim P_UINT => l = 0 /\ s = 0 /\ u = 1
  | Prim P_SINT => l = 0 /\ s = 1 /\ u = 0
  | Prim P_USINT => l = 0 /\ s = 1 /\ u = 1
  | Prim P_LINT => l = 1 /\ s = 0 /\ u = 0
  | Prim P_ULINT => l = 1 /\ s = 0 /\ u = 1
  | Prim P_LLINT => l = 2 /\ s = 0 /\ u = 0
  | Prim P_ULLINT => l = 2 /\ s = 0 /\ u = 1
  | _ => False
  end.
Proof.
  induction ws as [|w ws IH]; intros F I L G; [cbn; auto|].
  inversion F as [|? ? W F']; subst.
  assert (times is_int ws <= 1 /\ times is_long ws <= 2) as [I' L'].
  { cbn [times] in I, L. lia. }
  cbn [specifiers] in G |- *.
  destruct (specifiers false ws) as [t gs]. cbn [fst snd] in IH.
  assert (gs = []) as ->.
  { destruct W as [->|[->|[->| ->]]]; cbn [word_type] in G;
      destruct (combine false t _) as [? g2]; cbn [snd] in G; now destruct gs. }
  specialize (IH F' I' L' eq_refl). cbn zeta in *.
  destruct W as [->|[->|[->| ->]]]; cbn [word_type times is_int is_long is_short is_unsigned] in *;
    destruct t as [|p|n|n]; try destruct p; cbn in G |- *; try discriminate;
    cbn [fst snd] in *; try lia; try contradiction.
Qed.

Lemma times_perm ws :
  Forall (fun w => w = Int \/ w = Long \/ w = Short \/ w = Unsigned) ws ->
  Permutation ws (repeat Unsigned (times is_unsigned ws) ++ repeat Long (times is_long ws)
                  ++ repeat Short (times is_short ws) ++ repeat Int (times is_int ws)).
Proof.
  induction 1 as [|w ws W F IH]; [constructor|].
  destruct W as [->|[->|[->| ->]]]; cbn [times is_int is_long is_short is_unsigned Nat.add repeat].
  - rewrite !app_assoc. apply Permutation_cons_app. now rewrite <- !app_assoc.
  - apply Permutation_cons_app. exact IH.
  - rewrite (app_assoc (repeat Unsigned _)). apply Permutation_cons_app. now rewrite <- app_assoc.
  - cbn [app]. constructor. exact IH.
Qed.

Lemma integer_words_reported ws :
  integer_words ws -> times is_int ws <= 1 -> times is_long ws <= 2 ->
  snd (complete_type false ws) = [] -> exists t, denotes ws t.
Proof.
  intros F I L G.
  assert (times is_int (strip ws) = times is_int ws /\ times is_long (strip ws) = times is_long ws)
    as [E1 E2].
  { clear. induction ws as [|w ws [A B]]; [split; reflexivity|].
    destruct w; cbn [strip filter is_spec times is_int is_long]; fold (strip ws); lia. }
  rewrite <- E1 in I. rewrite <- E2 in L. rewrite complete_strip in G.
  unfold complete_type in G.
  pose proof (integer_counts _ F I L) as C.
  pose proof (times_perm _ F) as P.
  destruct (specifiers false (strip ws)) as [t gs]. cbn [snd fst] in *.
  specialize (C G). cbn zeta in C.
  revert C P I. generalize (times is_int (strip ws)), (times is_long (strip ws)),
    (times is_short (strip ws)), (times is_unsigned (strip ws)).
  intros i l s u C P I.
  assert (forall r t', row r t' ->
            repeat Unsigned u ++ repeat Long l ++ repeat Short s ++ repeat Int i = r ->
            exists t, denotes ws t) as Q.
  { intros r t' R E. exists t', r. split; [exact R|]. now rewrite <- E. }
  assert (i = 0 \/ i = 1) as J by lia.
  destruct t as [|p|n|n]; [|destruct p| |]; try contradiction;
    repeat match goal with H : _ /\ _ |- _ => destruct H end;
    destruct J as [J|J]; subst; try discriminate;
    cbn [repeat app] in Q;
    (eapply Q; [|reflexivity]; left; cbn [table In];
     repeat (first [left; reflexivity | right])).
Qed.

Lemma integers_any_order ig ws t :
  denotes ws t -> ~ In Char ws -> ~ In Double ws -> complete_type ig ws = (as_ct t, []).
Proof.
  intros D C1 C2. destruct (valid_specifiers ig ws t D) as [G T].
  destruct (complete_type ig ws) as [c gs]. cbn [fst snd] in *. subst gs. f_equal.
  apply T. intros (l1 & w & l2 & E & W & _).
  assert (In w (strip ws)) as I by (rewrite E; apply in_or_app; right; now left).
  apply filter_In in I. destruct I as [I _].
  destruct W as [->| ->]; contradiction.
Qed.

(** Proof that a list denotes nothing: it is no arrangement of a line of the table. *)
Ltac denotes_nothing :=
  intros t (r & [R|[(n & -> & _)|(n & -> & _)]] & P);
  apply Permutation_sym in P;
  [|apply Permutation_length_1_inv in P; discriminate
   |apply Permutation_length_1_inv in P; discriminate];
  pose proof (Permutation_length P) as L; cbn in L;
  cbn [table In] in R;
  repeat (destruct R as [R|R]; [injection R as <- _; try discriminate L;
    apply perms_complete in P; vm_compute in P; intuition discriminate|]);
  contradiction.
