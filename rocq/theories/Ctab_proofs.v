From Verif Require Import Cbase Pos_model Ctab_model Ctab_spec.
From Coq Require Import ZifyBool.

(** * Reading and writing entries *)
Lemma size_nonneg t : 0 <= size t. Proof. unfold size. lia. Qed.
Lemma size_app t u : size (t ++ u) = size t + size u.
Proof. unfold size. rewrite app_length. lia. Qed.

Lemma get_valid t c : 0 <= c < size t <-> exists e, getCtentry t c = Some e.
Proof.
  unfold getCtentry, size. split.
  - intros [A B]. destruct (c <? 0) eqn:E; [lia|].
    destruct (nth_error t (Z.to_nat c)) eqn:N; [eauto|]. apply nth_error_None in N. lia.
  - intros [e H]. destruct (c <? 0) eqn:E; [discriminate|].
    assert (nth_error t (Z.to_nat c) <> None) as N by congruence.
    apply nth_error_Some in N. lia.
Qed.
Lemma get_range t c e : getCtentry t c = Some e -> 0 <= c < size t.
Proof. intros H. apply get_valid. eauto. Qed.

Lemma get_app_old t u c : 0 <= c < size t -> getCtentry (t ++ u) c = getCtentry t c.
Proof.
  unfold getCtentry, size. intros [A B]. destruct (c <? 0) eqn:E; [lia|].
  apply nth_error_app1. lia.
Qed.
Lemma get_app_new t e : getCtentry (t ++ [e]) (size t) = Some e.
Proof.
  unfold getCtentry, size. destruct (Z.of_nat _ <? 0) eqn:E; [lia|].
  rewrite nth_error_app2 by lia. rewrite Nat2Z.id, Nat.sub_diag. reflexivity.
Qed.

Lemma set_nth_length {A} i (x : A) l : List.length (set_nth i x l) = List.length l.
Proof. revert i. induction l; destruct i; simpl; auto. Qed.
Lemma nth_set_same {A} i (x : A) l : (i < List.length l)%nat -> nth_error (set_nth i x l) i = Some x.
Proof. revert i. induction l; destruct i; simpl; intros; auto; try lia. apply IHl. lia. Qed.
Lemma nth_set_other {A} i j (x : A) l : i <> j -> nth_error (set_nth i x l) j = nth_error l j.
Proof. revert i j. induction l; destruct i, j; simpl; intros; auto; try congruence. Qed.

Definition withPtr (e : entry) (v : Z) := mkEntry (e_kind e) (e_cb e) (e_base e) v (e_arr e).
Definition withArr (e : entry) (v : Z) := mkEntry (e_kind e) (e_cb e) (e_base e) (e_ptr e) v.

Lemma size_setPtr t c v : size (setPtr t c v) = size t.
Proof. unfold setPtr, size. destruct (getCtentry t c); rewrite ?set_nth_length; reflexivity. Qed.
Lemma size_setArray t c v : size (setArray t c v) = size t.
Proof. unfold setArray, size. destruct (getCtentry t c); rewrite ?set_nth_length; reflexivity. Qed.

Lemma get_setPtr t c v i :
  getCtentry (setPtr t c v) i =
  if i =? c then option_map (fun e => withPtr e v) (getCtentry t i) else getCtentry t i.
Proof.
  unfold setPtr. destruct (getCtentry t c) as [e|] eqn:G.
  - pose proof (get_range _ _ _ G) as R. unfold size in R.
    destruct (i =? c) eqn:E.
    + apply Z.eqb_eq in E. subst i. rewrite G. simpl. unfold getCtentry.
      destruct (c <? 0) eqn:L; [lia|]. apply nth_set_same. lia.
    + unfold getCtentry. destruct (i <? 0) eqn:L; [reflexivity|].
      apply nth_set_other. lia.
  - destruct (i =? c) eqn:E; [|reflexivity]. apply Z.eqb_eq in E. subst. rewrite G. reflexivity.
Qed.
Lemma get_setArray t c v i :
  getCtentry (setArray t c v) i =
  if i =? c then option_map (fun e => withArr e v) (getCtentry t i) else getCtentry t i.
Proof.
  unfold setArray. destruct (getCtentry t c) as [e|] eqn:G.
  - pose proof (get_range _ _ _ G) as R. unfold size in R.
    destruct (i =? c) eqn:E.
    + apply Z.eqb_eq in E. subst i. rewrite G. simpl. unfold getCtentry.
      destruct (c <? 0) eqn:L; [lia|]. apply nth_set_same. lia.
    + unfold getCtentry. destruct (i <? 0) eqn:L; [reflexivity|].
      apply nth_set_other. lia.
  - destruct (i =? c) eqn:E; [|reflexivity]. apply Z.eqb_eq in E. subst. rewrite G. reflexivity.
Qed.

(** * The invariant *)
Definition kindOk (t : table) (i : Z) (e : entry) : Prop :=
  (e_kind e = CTK_PTR /\ exists b eb, e_cb e = CBptr b /\ e_base e = b /\ 0 <= b < i /\ 19 <= i
       /\ getCtentry t b = Some eb /\ e_ptr eb = i)
  \/ (e_kind e = CTK_ARRAY /\ exists b eb, e_cb e = CBarray b /\ e_base e = b /\ 0 <= b < i /\ 19 <= i
       /\ getCtentry t b = Some eb /\ e_arr eb = i)
  \/ (e_kind e = CTK_ARRAY /\ exists b n, e_cb e = CBfixed b n /\ e_base e = b /\ 0 <= b < i /\ 19 <= i)
  \/ ((e_kind e = CTK_PLAIN \/ e_kind e = CTK_COMPLEX) /\ isDerived (e_cb e) = false)
  \/ (e_kind e = CTK_INVALID /\ i = reserved /\ isDerived (e_cb e) = false).

Definition ptrOk (t : table) (i : Z) (e : entry) : Prop :=
  e_ptr e = ctype_dne \/
  exists e', getCtentry t (e_ptr e) = Some e' /\ e_kind e' = CTK_PTR /\ e_cb e' = CBptr i.
Definition arrOk (t : table) (i : Z) (e : entry) : Prop :=
  e_arr e = ctype_dne \/
  exists e', getCtentry t (e_arr e) = Some e' /\ e_kind e' = CTK_ARRAY /\ e_cb e' = CBarray i.

Record wf (t : table) : Prop := {
  w_size : 58 <= size t;
  w_kind : forall i e, getCtentry t i = Some e -> kindOk t i e;
  w_ptr : forall i e, getCtentry t i = Some e -> ptrOk t i e;
  w_arr : forall i e, getCtentry t i = Some e -> arrOk t i e;
  w_char : exists e, getCtentry t CTX_CHAR = Some e /\ e_ptr e = CTP_CHAR;
  w_void : exists e, getCtentry t CTX_VOID = Some e /\ e_ptr e = CTP_VOID;
  w_res : exists e, getCtentry t reserved = Some e /\ e_kind e = CTK_INVALID }.

Lemma wf_init : wf cttable_init.
Proof.
  assert (forall (P : Z -> entry -> Prop),
    (forall n, (n < 58)%nat -> match nth_error cttable_init n with Some e => P (Z.of_nat n) e | None => True end) ->
    forall i e, getCtentry cttable_init i = Some e -> P i e) as H.
  { intros P A i e G. pose proof (get_range _ _ _ G) as R.
    change (size cttable_init) with 58 in R. unfold getCtentry in G.
    destruct (i <? 0) eqn:L; [lia|]. specialize (A (Z.to_nat i) ltac:(lia)). rewrite G in A.
    rewrite Z2Nat.id in A by lia. exact A. }
  constructor.
  - vm_compute. discriminate.
  - apply H. intros n L.
    do 58 (destruct n as [|n]; [unfold kindOk; vm_compute; 
      solve [ right; right; right; left; split; [left; reflexivity|reflexivity]
            | left; split; [reflexivity|]; do 2 eexists; repeat split; try discriminate; reflexivity
            | right; left; split; [reflexivity|]; do 2 eexists; repeat split; try discriminate; reflexivity
            | right; right; right; right; repeat split ] |]). lia.
  - apply H. intros n L.
    do 58 (destruct n as [|n]; [unfold ptrOk; vm_compute;
      solve [left; reflexivity | right; eexists; repeat split; reflexivity] |]). lia.
  - apply H. intros n L.
    do 58 (destruct n as [|n]; [unfold arrOk; vm_compute;
      solve [left; reflexivity | right; eexists; repeat split; reflexivity] |]). lia.
  - eexists; split; reflexivity.
  - eexists; split; reflexivity.
  - eexists; split; reflexivity.
Qed.

(** * Extension: nothing that exists changes its meaning, links stay *)
Definition core (e : entry) := (e_kind e, e_cb e, e_base e).
Record ext (t t' : table) : Prop := {
  x_get : forall i e, getCtentry t i = Some e -> exists e', getCtentry t' i = Some e' /\ core e' = core e
     /\ (e_ptr e <> ctype_dne -> e_ptr e' = e_ptr e) /\ (e_arr e <> ctype_dne -> e_arr e' = e_arr e) }.

Lemma ext_refl t : ext t t.
Proof. constructor. intros i e H. exists e. auto. Qed.
Lemma ext_trans a b c : ext a b -> ext b c -> ext a c.
Proof.
  intros [A] [B]. constructor. intros i e G.
  destruct (A _ _ G) as (e1 & G1 & C1 & P1 & R1). destruct (B _ _ G1) as (e2 & G2 & C2 & P2 & R2).
  exists e2. repeat split; auto; try congruence.
  - intros N. rewrite P2; auto. rewrite P1; auto.
  - intros N. rewrite R2; auto. rewrite R1; auto.
Qed.
Lemma ext_size t t' : ext t t' -> size t <= size t'.
Proof.
  intros [A]. pose proof (size_nonneg t). pose proof (size_nonneg t').
  destruct (Z.eq_dec (size t) 0); [lia|].
  destruct (proj1 (get_valid t (size t - 1)) ltac:(lia)) as [e G].
  destruct (A _ _ G) as (e' & G' & _). apply get_range in G'. lia.
Qed.
Lemma ext_cb t t' c cb : ext t t' -> getCtbase t c = Some cb -> getCtbase t' c = Some cb.
Proof.
  intros [A] H. unfold getCtbase in *. destruct (getCtentry t c) as [e|] eqn:G; [|discriminate].
  destruct (A _ _ G) as (e' & G' & C & _). rewrite G'. simpl in *. unfold core in C. congruence.
Qed.
Lemma ext_means t t' c e : ext t t' -> means t c e -> means t' c e.
Proof.
  intros X M. induction M.
  - eapply means_ptr; eauto using ext_cb.
  - eapply means_arr; eauto using ext_cb.
  - eapply means_fix; eauto using ext_cb.
  - eapply means_leaf; eauto using ext_cb.
Qed.

Lemma ext_app t u : ext t (t ++ u).
Proof.
  constructor. intros i e G. exists e. rewrite get_app_old by (eapply get_range; eauto). auto.
Qed.
Lemma ext_setPtr t c v e : getCtentry t c = Some e -> e_ptr e = ctype_dne -> ext t (setPtr t c v).
Proof.
  intros G D. constructor. intros i f F. rewrite get_setPtr, F.
  destruct (i =? c) eqn:E; simpl; [|exists f; auto].
  apply Z.eqb_eq in E. subst i. assert (f = e) by congruence. subst f.
  exists (withPtr e v). repeat split; auto. intros N. congruence.
Qed.
Lemma ext_setArray t c v e : getCtentry t c = Some e -> e_arr e = ctype_dne -> ext t (setArray t c v).
Proof.
  intros G D. constructor. intros i f F. rewrite get_setArray, F.
  destruct (i =? c) eqn:E; simpl; [|exists f; auto].
  apply Z.eqb_eq in E. subst i. assert (f = e) by congruence. subst f.
  exists (withArr e v). repeat split; auto. intros N. congruence.
Qed.

(** The clauses of the invariant move along an extension. *)
Lemma kindOk_core t i e f : kindOk t i e -> core f = core e -> kindOk t i f.
Proof.
  unfold kindOk, core. intros K C. inversion C as [[H1 H2 H3]]. rewrite H1, H2, H3. exact K.
Qed.
Lemma kindOk_ext t t' i e : ext t t' -> i <> ctype_dne -> kindOk t i e -> kindOk t' i e.
Proof.
  intros [X] N [K|[K|[K|[K|K]]]]; [left|right; left|right; right; left|right; right; right; left|right; right; right; right]; auto.
  - destruct K as (A & b & eb & B & C & D & I & G & L). split; auto.
    destruct (X _ _ G) as (e' & G' & _ & P & _). exists b, e'. repeat split; auto; try lia; try (rewrite P; congruence).
  - destruct K as (A & b & eb & B & C & D & I & G & L). split; auto.
    destruct (X _ _ G) as (e' & G' & _ & _ & P). exists b, e'. repeat split; auto; try lia; try (rewrite P; congruence).
Qed.
Lemma link_ext t t' j k (cb : ctbase) : ext t t' ->
  (exists e', getCtentry t j = Some e' /\ e_kind e' = k /\ e_cb e' = cb) ->
  exists e', getCtentry t' j = Some e' /\ e_kind e' = k /\ e_cb e' = cb.
Proof.
  intros [X] (e & G & A & B). destruct (X _ _ G) as (e' & G' & C & _).
  exists e'. unfold core in C. repeat split; congruence.
Qed.

(** Adding an entry without links. *)
Lemma wf_app t e : wf t -> e_ptr e = ctype_dne -> e_arr e = ctype_dne ->
  kindOk (t ++ [e]) (size t) e -> wf (t ++ [e]).
Proof.
  intros W P A K. pose proof (ext_app t [e]) as X.
  assert (forall i f, getCtentry (t ++ [e]) i = Some f -> (getCtentry t i = Some f) \/ (i = size t /\ f = e)) as C.
  { intros i f G. pose proof (get_range _ _ _ G) as R. rewrite size_app in R.
    change (size [e]) with 1 in R. destruct (Z.eq_dec i (size t)).
    - subst i. rewrite get_app_new in G. right. split; congruence.
    - left. rewrite get_app_old in G by lia. exact G. }
  destruct W. constructor.
  - rewrite size_app. change (size [e]) with 1. lia.
  - intros i f G. destruct (C _ _ G) as [G'|[-> ->]]; [|exact K].
    eapply kindOk_ext; eauto. apply get_range in G'. unfold ctype_dne. lia.
  - intros i f G. destruct (C _ _ G) as [G'|[-> ->]]; [|left; exact P].
    destruct (w_ptr0 _ _ G') as [D|D]; [left; exact D|right; eapply link_ext; eauto].
  - intros i f G. destruct (C _ _ G) as [G'|[-> ->]]; [|left; exact A].
    destruct (w_arr0 _ _ G') as [D|D]; [left; exact D|right; eapply link_ext; eauto].
  - destruct w_char0 as (f & G & L). exists f. rewrite get_app_old by (eapply get_range; eauto). auto.
  - destruct w_void0 as (f & G & L). exists f. rewrite get_app_old by (eapply get_range; eauto). auto.
  - destruct w_res0 as (f & G & L). exists f. rewrite get_app_old by (eapply get_range; eauto). auto.
Qed.

(** Adding a derived entry and recording it in its element type. *)
Lemma add_ptr t c e : wf t -> getCtentry t c = Some e -> e_ptr e = ctype_dne ->
  let t1 := t ++ [mkEntry CTK_PTR (CBptr c) c ctype_dne ctype_dne] in
  wf (setPtr t1 c (size t)) /\ ext t (setPtr t1 c (size t)).
Proof.
  intros W G D t1. pose proof (get_range _ _ _ G) as R.
  assert (getCtentry t1 c = Some e) as G1 by (unfold t1; rewrite get_app_old; auto).
  assert (ext t1 (setPtr t1 c (size t))) as X1 by (eapply ext_setPtr; eauto).
  assert (ext t (setPtr t1 c (size t))) as X by (eapply ext_trans; [apply ext_app|exact X1]).
  split; [|exact X].
  set (n := mkEntry CTK_PTR (CBptr c) c ctype_dne ctype_dne).
  assert (forall i f, getCtentry (setPtr t1 c (size t)) i = Some f ->
     (i = size t /\ f = n) \/ (i = c /\ f = withPtr e (size t)) \/ (i <> c /\ getCtentry t i = Some f)) as C.
  { intros i f F. rewrite get_setPtr in F. destruct (i =? c) eqn:E.
    - apply Z.eqb_eq in E. subst i. rewrite G1 in F. simpl in F. right. left. split; congruence.
    - destruct (Z.eq_dec i (size t)) as [->|N].
      + unfold t1 in F. rewrite get_app_new in F. left. split; [reflexivity|]. unfold n. congruence.
      + right. right. split; [lia|]. assert (0 <= i < size t).
        { pose proof (get_range _ _ _ F) as R1. unfold t1 in R1. rewrite size_app in R1.
          change (size [_]) with 1 in R1. lia. }
        unfold t1 in F. rewrite get_app_old in F by auto. exact F. }
  assert (getCtentry (setPtr t1 c (size t)) (size t) = Some n) as GN.
  { rewrite get_setPtr. destruct (size t =? c) eqn:E; [lia|]. unfold t1. apply get_app_new. }
  assert (getCtentry (setPtr t1 c (size t)) c = Some (withPtr e (size t))) as GC.
  { rewrite get_setPtr, Z.eqb_refl, G1. reflexivity. }
  destruct W. constructor.
  - rewrite size_setPtr. unfold t1. rewrite size_app. change (size [_]) with 1. lia.
  - intros i f F. destruct (C _ _ F) as [[-> ->]|[[-> ->]|[N F']]].
    + left. split; [reflexivity|]. exists c, (withPtr e (size t)). repeat split; auto; lia.
    + apply kindOk_core with e; [|reflexivity]. eapply kindOk_ext; eauto. unfold ctype_dne. lia.
    + eapply kindOk_ext; eauto. apply get_range in F'. unfold ctype_dne. lia.
  - intros i f F. destruct (C _ _ F) as [[-> ->]|[[-> ->]|[N F']]].
    + left. reflexivity.
    + right. exists n. repeat split; auto.
    + destruct (w_ptr0 _ _ F') as [Q|Q]; [left; exact Q|right; eapply link_ext; eauto].
  - intros i f F. destruct (C _ _ F) as [[-> ->]|[[-> ->]|[N F']]].
    + left. reflexivity.
    + destruct (w_arr0 _ _ G) as [Q|Q]; [left; exact Q|right; eapply link_ext; eauto].
    + destruct (w_arr0 _ _ F') as [Q|Q]; [left; exact Q|right; eapply link_ext; eauto].
  - destruct w_char0 as (f & F & L). destruct X as [X]. destruct (X _ _ F) as (f' & F' & _ & P & _).
    exists f'. split; auto. rewrite P; auto. rewrite L. vm_compute. discriminate.
  - destruct w_void0 as (f & F & L). destruct X as [X]. destruct (X _ _ F) as (f' & F' & _ & P & _).
    exists f'. split; auto. rewrite P; auto. rewrite L. vm_compute. discriminate.
  - destruct w_res0 as (f & F & L). destruct X as [X]. destruct (X _ _ F) as (f' & F' & Q & _).
    exists f'. split; auto. unfold core in Q. congruence.
Qed.

Lemma add_arr t c e : wf t -> getCtentry t c = Some e -> e_arr e = ctype_dne ->
  let t1 := t ++ [mkEntry CTK_ARRAY (CBarray c) c ctype_dne ctype_dne] in
  wf (setArray t1 c (size t)) /\ ext t (setArray t1 c (size t)).
Proof.
  intros W G D t1. pose proof (get_range _ _ _ G) as R.
  assert (getCtentry t1 c = Some e) as G1 by (unfold t1; rewrite get_app_old; auto).
  assert (ext t1 (setArray t1 c (size t))) as X1 by (eapply ext_setArray; eauto).
  assert (ext t (setArray t1 c (size t))) as X by (eapply ext_trans; [apply ext_app|exact X1]).
  split; [|exact X].
  set (n := mkEntry CTK_ARRAY (CBarray c) c ctype_dne ctype_dne).
  assert (forall i f, getCtentry (setArray t1 c (size t)) i = Some f ->
     (i = size t /\ f = n) \/ (i = c /\ f = withArr e (size t)) \/ (i <> c /\ getCtentry t i = Some f)) as C.
  { intros i f F. rewrite get_setArray in F. destruct (i =? c) eqn:E.
    - apply Z.eqb_eq in E. subst i. rewrite G1 in F. simpl in F. right. left. split; congruence.
    - destruct (Z.eq_dec i (size t)) as [->|N].
      + unfold t1 in F. rewrite get_app_new in F. left. split; [reflexivity|]. unfold n. congruence.
      + right. right. split; [lia|]. assert (0 <= i < size t).
        { pose proof (get_range _ _ _ F) as R1. unfold t1 in R1. rewrite size_app in R1.
          change (size [_]) with 1 in R1. lia. }
        unfold t1 in F. rewrite get_app_old in F by auto. exact F. }
  assert (getCtentry (setArray t1 c (size t)) (size t) = Some n) as GN.
  { rewrite get_setArray. destruct (size t =? c) eqn:E; [lia|]. unfold t1. apply get_app_new. }
  assert (getCtentry (setArray t1 c (size t)) c = Some (withArr e (size t))) as GC.
  { rewrite get_setArray, Z.eqb_refl, G1. reflexivity. }
  destruct W. constructor.
  - rewrite size_setArray. unfold t1. rewrite size_app. change (size [_]) with 1. lia.
  - intros i f F. destruct (C _ _ F) as [[-> ->]|[[-> ->]|[N F']]].
    + right. left. split; [reflexivity|]. exists c, (withArr e (size t)). repeat split; auto; lia.
    + apply kindOk_core with e; [|reflexivity]. eapply kindOk_ext; eauto. unfold ctype_dne. lia.
    + eapply kindOk_ext; eauto. apply get_range in F'. unfold ctype_dne. lia.
  - intros i f F. destruct (C _ _ F) as [[-> ->]|[[-> ->]|[N F']]].
    + left. reflexivity.
    + destruct (w_ptr0 _ _ G) as [Q|Q]; [left; exact Q|right; eapply link_ext; eauto].
    + destruct (w_ptr0 _ _ F') as [Q|Q]; [left; exact Q|right; eapply link_ext; eauto].
  - intros i f F. destruct (C _ _ F) as [[-> ->]|[[-> ->]|[N F']]].
    + left. reflexivity.
    + right. exists n. repeat split; auto.
    + destruct (w_arr0 _ _ F') as [Q|Q]; [left; exact Q|right; eapply link_ext; eauto].
  - destruct w_char0 as (f & F & L). destruct X as [X]. destruct (X _ _ F) as (f' & F' & _ & P & _).
    exists f'. split; auto. rewrite P; auto. rewrite L. vm_compute. discriminate.
  - destruct w_void0 as (f & F & L). destruct X as [X]. destruct (X _ _ F) as (f' & F' & _ & P & _).
    exists f'. split; auto. rewrite P; auto. rewrite L. vm_compute. discriminate.
  - destruct w_res0 as (f & F & L). destruct X as [X]. destruct (X _ _ F) as (f' & F' & Q & _).
    exists f'. split; auto. unfold core in Q. congruence.
Qed.

(** * The constructors *)
Lemma getCtbase_of t c e : getCtentry t c = Some e -> getCtbase t c = Some (e_cb e).
Proof. unfold getCtbase. intros ->. reflexivity. Qed.

(** What a successful constructor call guarantees: the invariant, extension, the
    representation of the result, and that a repeated call finds it again. *)
Lemma makePointer_ok t c : wf t -> 0 <= c < size t ->
  exists t' p, makePointer t c = Some (t', p) /\ wf t' /\ ext t t'
    /\ (exists e, getCtentry t' c = Some e /\ e_ptr e = p) /\ p <> ctype_dne
    /\ (exists e, getCtentry t' p = Some e /\ e_kind e = CTK_PTR /\ e_cb e = CBptr c).
Proof.
  intros W V. destruct (proj1 (get_valid t c) V) as [e G].
  assert (e_ptr e <> ctype_dne -> exists e', getCtentry t (e_ptr e) = Some e'
            /\ e_kind e' = CTK_PTR /\ e_cb e' = CBptr c) as L.
  { intros N. destruct (w_ptr _ W _ _ G) as [Q|Q]; [congruence|exact Q]. }
  unfold makePointer.
  destruct (c =? CTX_CHAR) eqn:E1.
  { apply Z.eqb_eq in E1. subst c. destruct (w_char _ W) as (e' & G' & P).
    assert (e' = e) by congruence. subst e'.
    exists t, CTP_CHAR. (split; [reflexivity|]; split; [exact W|]; split; [apply ext_refl|]; split; [|split]).
    - eauto.
    - vm_compute; discriminate.
    - rewrite <- P. apply L. rewrite P. vm_compute; discriminate. }
  destruct (c =? CTX_VOID) eqn:E2.
  { apply Z.eqb_eq in E2. subst c. destruct (w_void _ W) as (e' & G' & P).
    assert (e' = e) by congruence. subst e'.
    exists t, CTP_VOID. (split; [reflexivity|]; split; [exact W|]; split; [apply ext_refl|]; split; [|split]).
    - eauto.
    - vm_compute; discriminate.
    - rewrite <- P. apply L. rewrite P. vm_compute; discriminate. }
  rewrite G. destruct (e_ptr e =? ctype_dne) eqn:D.
  - apply Z.eqb_eq in D. unfold addDerived, addFull. destruct (add_ptr t c e W G D) as [W' X].
    eexists _, _. split; [reflexivity|]. split; [exact W'|]. split; [exact X|].
    assert (getCtentry (t ++ [mkEntry CTK_PTR (CBptr c) c ctype_dne ctype_dne]) c = Some e) as G1
      by (rewrite get_app_old; auto).
    split; [|split].
    + eexists. rewrite get_setPtr, Z.eqb_refl, G1. split; reflexivity.
    + pose proof (size_nonneg t). unfold ctype_dne. lia.
    + eexists. rewrite get_setPtr. destruct (size t =? c) eqn:Q; [lia|].
      rewrite get_app_new. split; [reflexivity|split; reflexivity].
  - apply Z.eqb_neq in D. exists t, (e_ptr e). split; [reflexivity|]; split; [exact W|]; split; [apply ext_refl|]; split; [eauto|split; auto].
Qed.

Lemma makeArray_ok t c : wf t -> 0 <= c < size t ->
  exists t' p, makeArray t c = Some (t', p) /\ wf t' /\ ext t t'
    /\ (exists e, getCtentry t' c = Some e /\ e_arr e = p) /\ p <> ctype_dne
    /\ (exists e, getCtentry t' p = Some e /\ e_kind e = CTK_ARRAY /\ e_cb e = CBarray c).
Proof.
  intros W V. destruct (proj1 (get_valid t c) V) as [e G]. unfold makeArray. rewrite G.
  destruct (e_arr e =? ctype_dne) eqn:D.
  - apply Z.eqb_eq in D. unfold addDerived, addFull. destruct (add_arr t c e W G D) as [W' X].
    eexists _, _. split; [reflexivity|]. split; [exact W'|]. split; [exact X|].
    assert (getCtentry (t ++ [mkEntry CTK_ARRAY (CBarray c) c ctype_dne ctype_dne]) c = Some e) as G1
      by (rewrite get_app_old; auto).
    split; [|split].
    + eexists. rewrite get_setArray, Z.eqb_refl, G1. split; reflexivity.
    + pose proof (size_nonneg t). unfold ctype_dne. lia.
    + eexists. rewrite get_setArray. destruct (size t =? c) eqn:Q; [lia|].
      rewrite get_app_new. split; [reflexivity|split; reflexivity].
  - apply Z.eqb_neq in D. exists t, (e_arr e). split; [reflexivity|]; split; [exact W|]; split; [apply ext_refl|]; split; [eauto|split; auto].
    destruct (w_arr _ W _ _ G) as [Q|Q]; [congruence|exact Q].
Qed.

Lemma makeFixed_ok t c n : wf t -> 0 <= c < size t ->
  exists t' p, makeFixedArray t c n = Some (t', p) /\ wf t' /\ ext t t' /\ p = size t
    /\ (exists e, getCtentry t' p = Some e /\ e_kind e = CTK_ARRAY /\ e_cb e = CBfixed c n).
Proof.
  intros W V. unfold makeFixedArray, addDerived, addFull. eexists _, _. split; [reflexivity|].
  split; [|split; [apply ext_app|split; [reflexivity|]]].
  - pose proof (w_size _ W). apply wf_app; auto. right. right. left. split; [reflexivity|]. exists c, n.
    repeat split; auto; lia.
  - eexists. rewrite get_app_new. split; [reflexivity|split; reflexivity].
Qed.

Lemma kind_facts t i e : wf t -> getCtentry t i = Some e ->
  match e_cb e with
  | CBptr b => e_kind e = CTK_PTR /\ e_base e = b /\ 0 <= b < i /\ 19 <= i
  | CBarray b | CBfixed b _ => e_kind e = CTK_ARRAY /\ e_base e = b /\ 0 <= b < i /\ 19 <= i
  | _ => e_kind e <> CTK_PTR /\ e_kind e <> CTK_ARRAY
  end.
Proof.
  intros W G. destruct (w_kind _ W _ _ G) as [K|[K|[K|[K|K]]]].
  - destruct K as (A & b & eb & B & C & D & I & _). rewrite B. auto.
  - destruct K as (A & b & eb & B & C & D & I & _). rewrite B. auto.
  - destruct K as (A & b & n & B & C & D & I). rewrite B. auto.
  - destruct K as (A & B). destruct (e_cb e); try discriminate B;
      destruct A as [-> | ->]; split; vm_compute; discriminate.
  - destruct K as (A & _ & B). destruct (e_cb e); try discriminate B; rewrite A; split; vm_compute; discriminate.
Qed.

Lemma not_broken t c : wf t -> existing t c -> isBroken t c = false.
Proof.
  intros W [V N]. unfold isBroken. destruct (proj1 (get_valid t c) V) as [e G]. rewrite G.
  assert (e_kind e <> CTK_INVALID /\ e_kind e <> CTK_DNE).
  { destruct (w_kind _ W _ _ G) as [(A & _)|[(A & _)|[(A & _)|[([A|A] & _)|(A & B & _)]]]];
      try rewrite A; try (split; vm_compute; discriminate). congruence. }
  lia.
Qed.

(** An index of the predefined part is a built-in type. *)
Lemma base_of t c e b : wf t -> getCtentry t c = Some e ->
  (e_cb e = CBptr b \/ e_cb e = CBarray b \/ exists n, e_cb e = CBfixed b n) ->
  existing t b -> baseArrayPtr t c = Some b.
Proof.
  intros W G H E. pose proof (kind_facts _ _ _ W G) as K. unfold baseArrayPtr. rewrite G.
  assert (e_base e = b /\ 19 <= c) as [-> L].
  { destruct H as [H|[H|[n H]]]; rewrite H in K; tauto. }
  assert (isIntIndex c = false) as -> by (unfold isIntIndex, CTX_UNKNOWN; lia).
  rewrite not_broken; auto.
Qed.

Lemma derived_existing t c e : wf t -> getCtentry t c = Some e -> isDerived (e_cb e) = true -> existing t c.
Proof.
  intros W G D. split; [eapply get_range; eauto|]. intros ->.
  destruct (w_res _ W) as (r & R & K). assert (r = e) by congruence. subst r.
  pose proof (kind_facts _ _ _ W G) as F. unfold isDerived in D.
  destruct (e_cb e); try discriminate D; destruct F as (F & _); rewrite K in F; discriminate F.
Qed.

(** * Meanings *)
Lemma means_fun t c a : means t c a -> forall b, means t c b -> a = b.
Proof.
  induction 1; intros f M; inversion M; subst; try congruence;
    repeat match goal with
    | H : getCtbase t ?c = Some _, H' : getCtbase t ?c = Some _ |- _ => rewrite H in H'; inversion H'; subst; clear H'
    end; try discriminate; f_equal; eauto.
Qed.

Lemma means_total t : wf t -> forall c, 0 <= c < size t -> exists a, means t c a.
Proof.
  intros W. intros c. 
  assert (forall n c, (Z.to_nat c < n)%nat -> 0 <= c < size t -> exists a, means t c a) as H.
  { clear c. induction n as [|n IH]; intros c L V; [lia|].
    destruct (proj1 (get_valid t c) V) as [e G]. pose proof (kind_facts _ _ _ W G) as K.
    apply getCtbase_of in G.
    destruct (e_cb e) eqn:E; try (eexists; eapply means_leaf; [exact G|reflexivity]).
    - destruct (IH b) as [a M]; try lia. eexists. eapply means_ptr; eauto.
    - destruct (IH b) as [a M]; try lia. eexists. eapply means_arr; eauto.
    - destruct (IH b) as [a M]; try lia. eexists. eapply means_fix; eauto. }
  apply (H (S (Z.to_nat c)) c). lia.
Qed.

Fixpoint elem (a : ty) : ty := match a with TyArr e | TyFix e _ => elem e | _ => a end.
Fixpoint innerTy (d : option Z) (a : ty) : ty :=
  match a with
  | TyArr e => TyArr (innerTy d e)
  | TyFix e n => TyFix (innerTy d e) n
  | _ => dim_ty d a
  end.

Lemma isFixed_iff t c e : getCtentry t c = Some e ->
  isFixedArray t c = match e_cb e with CBfixed _ _ => true | _ => false end.
Proof. intros G. unfold isFixedArray. rewrite (getCtbase_of _ _ _ G). reflexivity. Qed.
Lemma isArray_iff t c e : wf t -> getCtentry t c = Some e ->
  isArray t c = match e_cb e with CBfixed _ _ | CBarray _ => true | _ => false end.
Proof.
  intros W G. unfold isArray. rewrite G. pose proof (kind_facts _ _ _ W G) as K.
  destruct (e_cb e); try (destruct K as (-> & _); reflexivity);
    destruct (e_kind e =? CTK_COMPLEX) eqn:A; auto; destruct K as [K1 K2]; lia.
Qed.

Lemma baseArray_valid t c e : wf t -> getCtentry t c = Some e -> isDerived (e_cb e) = true ->
  exists b, baseArrayPtr t c = Some b /\ 0 <= b < c
    /\ (forall b', (e_cb e = CBptr b' \/ e_cb e = CBarray b' \/ exists n, e_cb e = CBfixed b' n) ->
        b' <> reserved -> b = b').
Proof.
  intros W G D. pose proof (kind_facts _ _ _ W G) as K. pose proof (get_range _ _ _ G) as R.
  assert (exists b, (e_cb e = CBptr b \/ e_cb e = CBarray b \/ exists n, e_cb e = CBfixed b n)
      /\ 0 <= b < c /\ 19 <= c /\ e_base e = b) as (b & Q & L & M & B).
  { unfold isDerived in D. destruct (e_cb e); try discriminate D; exists b;
      (split; [eauto|]); tauto. }
  destruct (Z.eq_dec b reserved) as [->|N].
  - unfold baseArrayPtr. rewrite G.
    assert (isIntIndex c = false) as -> by (unfold isIntIndex, CTX_UNKNOWN; lia).
    assert (isBroken t (e_base e) = true) as ->.
    { rewrite B. unfold isBroken. destruct (w_res _ W) as (r & -> & ->). reflexivity. }
    exists CTX_UNKNOWN. split; [reflexivity|]. split; [unfold CTX_UNKNOWN; lia|].
    intros b' H N. exfalso. apply N.
    destruct Q as [Q|[Q|[n Q]]], H as [H|[H|[m H]]]; congruence.
  - exists b. split; [eapply base_of; eauto; split; [|exact N]; lia|]. split; [lia|].
    intros b' H _. destruct Q as [Q|[Q|[n Q]]], H as [H|[H|[m H]]]; congruence.
Qed.

Lemma means_leaf_res t c : means t c (TyLeaf reserved) -> c = reserved.
Proof. intros M. inversion M. reflexivity. Qed.

Lemma makeInner_ok : forall fuel d t c, wf t -> 0 <= c < size t -> (Z.to_nat c < fuel)%nat ->
  exists t' r, makeInner fuel d t c = Some (t', r) /\ wf t' /\ ext t t' /\ existing t' r
   /\ (forall a, means t c a -> elem a <> TyLeaf reserved -> means t' r (innerTy d a)).
Proof.
  induction fuel as [|fuel IH]; intros d t c W V L; [lia|].
  destruct (proj1 (get_valid t c) V) as [e G].
  cbn [makeInner]. rewrite (isFixed_iff _ _ _ G), (isArray_iff _ _ _ W G).
  destruct (e_cb e) eqn:E;
  try (assert (exists t' r, (match d with Some n => makeFixedArray t c n | None => makeArray t c end) = Some (t', r)
          /\ wf t' /\ ext t t' /\ existing t' r /\ (forall a, means t c a -> means t' r (dim_ty d a))) as Q
       by (destruct d as [n|];
           [destruct (makeFixed_ok t c n W V) as (t' & r & -> & W' & X & _ & f & F & K & B)
           |destruct (makeArray_ok t c W V) as (t' & r & -> & W' & X & _ & _ & f & F & K & B)];
           exists t', r; (split; [reflexivity|]); (split; [exact W'|]); (split; [exact X|]);
           (split; [eapply derived_existing; eauto; rewrite B; reflexivity|]);
           intros aa M; [eapply means_fix|eapply means_arr];
           try (rewrite (getCtbase_of _ _ _ F), B; reflexivity); eapply ext_means; eauto);
       destruct Q as (t' & r & -> & W' & X & V' & M);
       exists t', r; (split; [reflexivity|]); (split; [exact W'|]); (split; [exact X|]); (split; [exact V'|]);
       intros aa Ma N; pose proof (M aa Ma) as Mr;
       inversion Ma; subst;
       match goal with
       | H : getCtbase t c = Some _ |- _ => rewrite (getCtbase_of _ _ _ G), E in H; try discriminate H
       end; exact Mr).
  - (* array of unspecified size *)
    destruct (baseArray_valid t c e W G) as (b' & -> & R & U); [rewrite E; reflexivity|].
    destruct (IH d t b' W) as (t1 & r1 & -> & W1 & X1 & V1 & M1); try lia.
    destruct (makeArray_ok t1 r1 W1 (proj1 V1)) as (t' & r & -> & W' & X & _ & _ & f & F & K & B).
    exists t', r. split; [reflexivity|]. split; [exact W'|]. split; [eapply ext_trans; eauto|].
    split; [eapply derived_existing; eauto; rewrite B; reflexivity|].
    intros a Ma N. inversion Ma; subst;
      match goal with
      | H : getCtbase t c = Some _ |- _ => rewrite (getCtbase_of _ _ _ G), E in H;
          first [discriminate H | injection H as -> | injection H as <-; discriminate]
      end.
    simpl in N |- *. assert (b' = b0) as ->.
    { apply U; [rewrite E; auto|]. intros ->. apply N. 
      destruct (w_res _ W) as (r0 & G0 & K0). pose proof (kind_facts _ _ _ W G0) as K1.
      match goal with H : means t reserved _ |- _ => inversion H; subst; try reflexivity;
        match goal with H' : getCtbase t reserved = Some _ |- _ => rewrite (getCtbase_of _ _ _ G0) in H';
          injection H' as H'; rewrite H' in K1; destruct K1 as (K1 & _); rewrite K0 in K1; discriminate K1 end end. }
    eapply means_arr; [rewrite (getCtbase_of _ _ _ F), B; reflexivity|].
    eapply ext_means; [exact X|]. apply M1; auto.
  - (* fixed size *)
    destruct (baseArray_valid t c e W G) as (b' & -> & R & U); [rewrite E; reflexivity|].
    unfold getArraySize. rewrite (getCtbase_of _ _ _ G), E.
    destruct (IH d t b' W) as (t1 & r1 & -> & W1 & X1 & V1 & M1); try lia.
    destruct (makeFixed_ok t1 r1 dim W1 (proj1 V1)) as (t' & r & -> & W' & X & _ & f & F & K & B).
    exists t', r. split; [reflexivity|]. split; [exact W'|]. split; [eapply ext_trans; eauto|].
    split; [eapply derived_existing; eauto; rewrite B; reflexivity|].
    intros a Ma N. inversion Ma; subst;
      match goal with
      | H : getCtbase t c = Some _ |- _ => rewrite (getCtbase_of _ _ _ G), E in H;
          first [discriminate H | injection H as -> -> | injection H as <-; discriminate]
      end.
    simpl in N |- *. assert (b' = b0) as ->.
    { apply U; [rewrite E; eauto|]. intros ->. apply N. 
      destruct (w_res _ W) as (r0 & G0 & K0). pose proof (kind_facts _ _ _ W G0) as K1.
      match goal with H : means t reserved _ |- _ => inversion H; subst; try reflexivity;
        match goal with H' : getCtbase t reserved = Some _ |- _ => rewrite (getCtbase_of _ _ _ G0) in H';
          injection H' as H'; rewrite H' in K1; destruct K1 as (K1 & _); rewrite K0 in K1; discriminate K1 end end. }
    eapply means_fix; [rewrite (getCtbase_of _ _ _ F), B; reflexivity|].
    eapply ext_means; [exact X|]. apply M1; auto.
Qed.

(** * Array dimensions *)
Definition dim_cb (d : option Z) (b : Z) : ctbase :=
  match d with Some n => CBfixed b n | None => CBarray b end.
Inductive chain (t : table) : list (option Z) -> Z -> Z -> Prop :=
| chain_nil c : chain t [] c c
| chain_cons d ds r b c : getCtbase t r = Some (dim_cb d b) -> existing t b ->
    chain t ds b c -> chain t (d :: ds) r c.

Lemma ext_existing t t' c : ext t t' -> existing t c -> existing t' c.
Proof. intros X [V N]. apply ext_size in X. split; [lia|exact N]. Qed.
Lemma ext_chain t t' ds r c : ext t t' -> chain t ds r c -> chain t' ds r c.
Proof. intros X. induction 1; econstructor; eauto using ext_cb, ext_existing. Qed.
Lemma ext_nonarray t t' c : wf t -> wf t' -> ext t t' -> 0 <= c < size t ->
  isArray t c = false -> isArray t' c = false.
Proof.
  intros W W' X V H. destruct (proj1 (get_valid t c) V) as [e G].
  destruct (x_get _ _ X _ _ G) as (e' & G' & C & _).
  rewrite (isArray_iff _ _ _ W' G'). rewrite (isArray_iff _ _ _ W G) in H.
  unfold core in C. inversion C as [[H1 H2 H3]]. rewrite H2. exact H.
Qed.

Lemma leaf_ok t c d : wf t -> existing t c ->
  exists t' r, match d with Some n => makeFixedArray t c n | None => makeArray t c end = Some (t', r)
    /\ wf t' /\ ext t t' /\ existing t' r /\ getCtbase t' r = Some (dim_cb d c).
Proof.
  intros W [V N]. destruct d as [n|];
    [destruct (makeFixed_ok t c n W V) as (t' & r & -> & W' & X & _ & f & F & K & B)
    |destruct (makeArray_ok t c W V) as (t' & r & -> & W' & X & _ & _ & f & F & K & B)];
    exists t', r; (split; [reflexivity|]); (split; [exact W'|]); (split; [exact X|]);
    (split; [eapply derived_existing; eauto; rewrite B; reflexivity|]);
    rewrite (getCtbase_of _ _ _ F), B; reflexivity.
Qed.

Lemma makeInner_chain : forall ds fuel d t c c0, wf t -> chain t ds c c0 -> existing t c ->
  existing t c0 -> isArray t c0 = false -> (Z.to_nat c < fuel)%nat ->
  exists t' r, makeInner fuel d t c = Some (t', r) /\ wf t' /\ ext t t' /\ existing t' r
   /\ chain t' (ds ++ [d]) r c0.
Proof.
  induction ds as [|d0 ds IH]; intros fuel d t c c0 W C V V0 A L;
    (destruct fuel as [|fuel]; [lia|]); inversion C; subst; cbn [makeInner].
  - assert (isFixedArray t c0 = false) as ->.
    { destruct (proj1 (get_valid t c0) (proj1 V0)) as [e G].
      rewrite (isFixed_iff _ _ _ G). rewrite (isArray_iff _ _ _ W G) in A. destruct (e_cb e); auto; discriminate. }
    rewrite A. destruct (leaf_ok t c0 d W V0) as (t' & r & -> & W' & X & V' & B).
    exists t', r. split; [reflexivity|]. split; [exact W'|]. split; [exact X|]. split; [exact V'|].
    eapply chain_cons; [exact B|exact (ext_existing t t' c0 X V0)|constructor].
  - destruct (proj1 (get_valid t c) (proj1 V)) as [e G].
    match goal with H : getCtbase t c = Some _ |- _ => rewrite (getCtbase_of _ _ _ G) in H; injection H as B end.
    assert (isDerived (e_cb e) = true) as D by (rewrite B; destruct d0; reflexivity).
    destruct (baseArray_valid t c e W G D) as (b' & Bb & R & U).
    assert (b' = b) as ->.
    { apply U; [rewrite B; destruct d0; simpl; eauto|]. match goal with H : existing t b |- _ => apply H end. }
    rewrite (isFixed_iff _ _ _ G), (isArray_iff _ _ _ W G), Bb.
    destruct (IH fuel d t b c0 W) as (t1 & r1 & E1 & W1 & X1 & V1 & C1); [assumption|assumption|exact V0|exact A|lia|].
    rewrite E1. unfold getArraySize. rewrite (getCtbase_of _ _ _ G), B.
    destruct (leaf_ok t1 r1 d0 W1 V1) as (t' & r & Q & W' & X & V' & Bd).
    exists t', r. assert (ext t t') as XX by (eapply ext_trans; eauto).
    destruct d0 as [n|]; cbn [dim_cb] in *; rewrite Q; (split; [reflexivity|]);
      (split; [exact W'|]); (split; [exact XX|]); (split; [exact V'|]); simpl;
      (eapply chain_cons; [exact Bd|exact (ext_existing t1 t' r1 X V1)|exact (ext_chain t1 t' _ _ _ X C1)]).
Qed.

Lemma declare_chain : forall ds pre t c c0, wf t -> chain t pre c c0 -> existing t c ->
  existing t c0 -> isArray t c0 = false ->
  exists t' r, declare t c ds = Some (t', r) /\ wf t' /\ ext t t' /\ existing t' r
    /\ chain t' (pre ++ ds) r c0.
Proof.
  induction ds as [|d ds IH]; intros pre t c c0 W C V V0 A; cbn [declare].
  - exists t, c. rewrite app_nil_r. auto using ext_refl.
  - destruct (makeInner_chain pre (S (List.length t)) d t c c0 W C V V0 A) as (t1 & r1 & -> & W1 & X1 & V1 & C1).
    { destruct V as [V _]. unfold size in V. lia. }
    destruct (IH (pre ++ [d]) t1 r1 c0 W1 C1 V1) as (t' & r & E & W' & X & V' & C').
    + eapply ext_existing; eauto.
    + eapply ext_nonarray; [exact W|exact W1|exact X1|exact (proj1 V0)|exact A].
    + exists t', r. rewrite <- app_assoc in C'. split; [exact E|]. split; [exact W'|].
      split; [eapply ext_trans; eauto|]. split; [exact V'|exact C'].
Qed.

Lemma chain_read t : wf t -> forall ds r c, chain t ds r c -> existing t r ->
  readDims (List.length ds) t r = Some (ds, c).
Proof.
  intros W. induction ds as [|d ds IH]; intros r c C V; inversion C; subst; [reflexivity|].
  cbn [readDims List.length].
  destruct (proj1 (get_valid t r) (proj1 V)) as [e G].
  match goal with H : getCtbase t r = Some _ |- _ => rewrite (getCtbase_of _ _ _ G) in H; injection H as B end.
  assert (isDerived (e_cb e) = true) as D by (rewrite B; destruct d; reflexivity).
  destruct (baseArray_valid t r e W G D) as (b' & Bb & R & U).
  assert (b' = b) as ->.
  { apply U; [rewrite B; destruct d; simpl; eauto|]. match goal with H : existing t b |- _ => apply H end. }
  rewrite (isFixed_iff _ _ _ G), (isArray_iff _ _ _ W G), Bb.
  unfold getArraySize. rewrite (getCtbase_of _ _ _ G), B, (IH b c); auto.
  destruct d; reflexivity.
Qed.

Lemma chain_means t : forall ds r c a, chain t ds r c -> means t c a -> means t r (nest ds a).
Proof.
  induction ds as [|d ds IH]; intros r c a C M; inversion C; subst; [exact M|].
  cbn [nest fold_right]. destruct d; cbn [dim_ty dim_cb] in *;
    [eapply means_fix|eapply means_arr]; eauto; apply (IH b c a); auto.
Qed.

(** * Histories *)
Lemma step_ok eq eqs t o : wf t -> wf (step eq eqs t o) /\ ext t (step eq eqs t o).
Proof.
  intros W. pose proof (conj W (ext_refl t)) as Same.
  destruct o as [c|c|c n|c d|cb|cb]; cbn [step].
  - destruct (validIndex t c) eqn:V; [|exact Same]. unfold validIndex in V.
    destruct (makePointer_ok t c W ltac:(lia)) as (t' & p & -> & W' & X & _). auto.
  - destruct (validIndex t c) eqn:V; [|exact Same]. unfold validIndex in V.
    destruct (makeArray_ok t c W ltac:(lia)) as (t' & p & -> & W' & X & _). auto.
  - destruct (validIndex t c) eqn:V; [|exact Same]. unfold validIndex in V.
    destruct (makeFixed_ok t c n W ltac:(lia)) as (t' & p & -> & W' & X & _). auto.
  - destruct (validIndex t c) eqn:V; [|exact Same]. unfold validIndex in V.
    destruct (makeInner_ok (S (List.length t)) d t c W ltac:(lia)) as (t' & p & -> & W' & X & _).
    { unfold size in V. lia. } auto.
  - destruct (isComposite cb && forallb (validIndex t) (parts cb)) eqn:V; [|exact Same].
    unfold addComplex. match goal with |- context [match ?x with Some i => (t, i) | None => _ end] => destruct x end;
      [exact Same|]. unfold addFull. cbn [fst]. split; [|apply ext_app].
    apply wf_app; auto. right. right. right. left. split; [right; reflexivity|].
    apply andb_prop in V. destruct V as [V _]. cbn [e_cb]. destruct cb; try discriminate V; reflexivity.
  - destruct (isUser cb) eqn:V; [|exact Same].
    unfold addUser. destruct (searchBack _ _ _ _ _); [exact Same|].
    unfold addFull. cbn [fst]. split; [|apply ext_app].
    apply wf_app; auto. right. right. right. left. split; [left; reflexivity|].
    cbn [e_cb]. destruct cb; try discriminate V; reflexivity.
Qed.

Lemma run_ok eq eqs ops : forall t, wf t -> wf (run eq eqs ops t) /\ ext t (run eq eqs ops t).
Proof.
  induction ops as [|o ops IH]; intros t W; cbn [run fold_left].
  - auto using ext_refl.
  - destruct (step_ok eq eqs t o W) as [W1 X1]. destruct (IH _ W1) as [W2 X2].
    split; [exact W2|eapply ext_trans; eauto].
Qed.
Lemma reach_wf eq eqs ops : wf (run eq eqs ops cttable_init).
Proof. apply run_ok. apply wf_init. Qed.

(** A link that is set answers the call. *)
Lemma linked_pointer t c e : wf t -> getCtentry t c = Some e -> e_ptr e <> ctype_dne ->
  makePointer t c = Some (t, e_ptr e).
Proof.
  intros W G N. unfold makePointer.
  destruct (c =? CTX_CHAR) eqn:E1.
  { apply Z.eqb_eq in E1. subst c. destruct (w_char _ W) as (e' & G' & P). congruence. }
  destruct (c =? CTX_VOID) eqn:E2.
  { apply Z.eqb_eq in E2. subst c. destruct (w_void _ W) as (e' & G' & P). congruence. }
  rewrite G. destruct (e_ptr e =? ctype_dne) eqn:D; [lia|reflexivity].
Qed.
Lemma linked_array t c e : getCtentry t c = Some e -> e_arr e <> ctype_dne ->
  makeArray t c = Some (t, e_arr e).
Proof. intros G N. unfold makeArray. rewrite G. destruct (e_arr e =? ctype_dne) eqn:D; [lia|reflexivity]. Qed.

Lemma entry_deref t t' c p e : wf t' -> ext t t' -> existing t' c -> getCtentry t p = Some e ->
  (e_cb e = CBptr c \/ e_cb e = CBarray c \/ exists n, e_cb e = CBfixed c n) ->
  baseArrayPtr t' p = Some c.
Proof.
  intros W X V G H. destruct (x_get _ _ X _ _ G) as (e' & G' & C & _).
  unfold core in C. inversion C as [[H1 H2 H3]].
  eapply base_of; eauto. rewrite H2. exact H.
Qed.

Lemma pointer_stable eq eqs ops c : let t := run eq eqs ops cttable_init in existing t c ->
  exists t' p, makePointer t c = Some (t', p) /\
    (forall later, let t2 := run eq eqs later t' in
       makePointer t2 c = Some (t2, p) /\ baseArrayPtr t2 p = Some c).
Proof.
  intros t V. pose proof (reach_wf eq eqs ops) as W. fold t in W.
  destruct (makePointer_ok t c W (proj1 V)) as (t' & p & E & W' & X & (e & G & P) & N & (f & F & K & B)).
  exists t', p. split; [exact E|]. intros later t2.
  destruct (run_ok eq eqs later t' W') as [W2 X2]. fold t2 in W2, X2.
  destruct (x_get _ _ X2 _ _ G) as (e2 & G2 & C2 & P2 & _). specialize (P2 ltac:(congruence)).
  split.
  - rewrite (linked_pointer t2 c e2 W2 G2) by congruence. congruence.
  - eapply (entry_deref t' t2); eauto.
    eapply ext_existing; [exact X2|]. eapply ext_existing; eauto.
Qed.

Lemma array_stable eq eqs ops c : let t := run eq eqs ops cttable_init in existing t c ->
  exists t' p, makeArray t c = Some (t', p) /\
    (forall later, let t2 := run eq eqs later t' in
       makeArray t2 c = Some (t2, p) /\ baseArrayPtr t2 p = Some c).
Proof.
  intros t V. pose proof (reach_wf eq eqs ops) as W. fold t in W.
  destruct (makeArray_ok t c W (proj1 V)) as (t' & p & E & W' & X & (e & G & P) & N & (f & F & K & B)).
  exists t', p. split; [exact E|]. intros later t2.
  destruct (run_ok eq eqs later t' W') as [W2 X2]. fold t2 in W2, X2.
  destruct (x_get _ _ X2 _ _ G) as (e2 & G2 & C2 & _ & P2). specialize (P2 ltac:(congruence)).
  split.
  - rewrite (linked_array t2 c e2 G2) by congruence. congruence.
  - eapply (entry_deref t' t2); eauto.
    eapply ext_existing; [exact X2|]. eapply ext_existing; eauto.
Qed.

Lemma fixed_stable eq eqs ops c n : let t := run eq eqs ops cttable_init in existing t c ->
  exists t' p, makeFixedArray t c n = Some (t', p) /\
    (forall later, let t2 := run eq eqs later t' in
       baseArrayPtr t2 p = Some c /\ getArraySize t2 p = Some n).
Proof.
  intros t V. pose proof (reach_wf eq eqs ops) as W. fold t in W.
  destruct (makeFixed_ok t c n W (proj1 V)) as (t' & p & E & W' & X & _ & (f & F & K & B)).
  exists t', p. split; [exact E|]. intros later t2.
  destruct (run_ok eq eqs later t' W') as [W2 X2]. fold t2 in W2, X2.
  split.
  - eapply (entry_deref t' t2); eauto.
    eapply ext_existing; [exact X2|]. eapply ext_existing; eauto.
  - unfold getArraySize. rewrite (ext_cb t' t2 p (CBfixed c n)); auto.
    rewrite (getCtbase_of _ _ _ F), B. reflexivity.
Qed.

Lemma pointer_distinct eq eqs ops later c1 c2 t1 t2 p : let t := run eq eqs ops cttable_init in
  existing t c1 -> makePointer t c1 = Some (t1, p) ->
  existing (run eq eqs later t1) c2 -> makePointer (run eq eqs later t1) c2 = Some (t2, p) -> c1 = c2.
Proof.
  intros t V1 E1 V2 E2. pose proof (reach_wf eq eqs ops) as W. fold t in W.
  destruct (makePointer_ok t c1 W (proj1 V1)) as (t' & p' & E & W' & X & _ & _ & (f & F & K & B)).
  assert (t' = t1 /\ p' = p) as [-> ->] by (split; congruence).
  destruct (run_ok eq eqs later t1 W') as [W2 X2].
  destruct (makePointer_ok _ c2 W2 (proj1 V2)) as (t3 & p3 & E3 & W3 & X3 & _ & _ & (f3 & F3 & K3 & B3)).
  assert (t3 = t2 /\ p3 = p) as [-> ->] by (split; congruence).
  destruct (x_get _ _ X2 _ _ F) as (g & G & C & _). destruct (x_get _ _ X3 _ _ G) as (h & H & D & _).
  unfold core in C, D. congruence.
Qed.

Lemma constructor_meaning eq eqs ops c a : let t := run eq eqs ops cttable_init in
  0 <= c < size t -> means t c a ->
  (exists t' p, makePointer t c = Some (t', p) /\ means t' p (TyPtr a)) /\
  (exists t' p, makeArray t c = Some (t', p) /\ means t' p (TyArr a)) /\
  (forall n, exists t' p, makeFixedArray t c n = Some (t', p) /\ means t' p (TyFix a n)).
Proof.
  intros t V M. pose proof (reach_wf eq eqs ops) as W. fold t in W. split; [|split].
  - destruct (makePointer_ok t c W V) as (t' & p & E & W' & X & _ & _ & (f & F & K & B)).
    exists t', p. split; [exact E|]. eapply means_ptr; [rewrite (getCtbase_of _ _ _ F), B; reflexivity|].
    eapply ext_means; eauto.
  - destruct (makeArray_ok t c W V) as (t' & p & E & W' & X & _ & _ & (f & F & K & B)).
    exists t', p. split; [exact E|]. eapply means_arr; [rewrite (getCtbase_of _ _ _ F), B; reflexivity|].
    eapply ext_means; eauto.
  - intros n. destruct (makeFixed_ok t c n W V) as (t' & p & E & W' & X & _ & (f & F & K & B)).
    exists t', p. split; [exact E|]. eapply means_fix; [rewrite (getCtbase_of _ _ _ F), B; reflexivity|].
    eapply ext_means; eauto.
Qed.

Lemma meaning_stable eq eqs ops later c a :
  means (run eq eqs ops cttable_init) c a -> means (run eq eqs later (run eq eqs ops cttable_init)) c a.
Proof. apply ext_means. apply run_ok. apply reach_wf. Qed.

Lemma dims_ok eq eqs ops c ds : let t := run eq eqs ops cttable_init in
  existing t c -> isArray t c = false ->
  exists t' r, declare t c ds = Some (t', r)
    /\ readDims (List.length ds) t' r = Some (ds, c)
    /\ (forall a, means t c a -> means t' r (nest ds a)).
Proof.
  intros t V A. pose proof (reach_wf eq eqs ops) as W. fold t in W.
  destruct (declare_chain ds [] t c c W (chain_nil t c) V V A) as (t' & r & E & W' & X & V' & C).
  exists t', r. split; [exact E|]. split.
  - apply chain_read; auto.
  - intros a M. eapply chain_means; eauto. eapply ext_means; eauto.
Qed.

Lemma meaning_exists eq eqs ops c : let t := run eq eqs ops cttable_init in
  0 <= c < size t -> exists a, means t c a /\ forall b, means t c b -> b = a.
Proof.
  intros t V. destruct (means_total t (reach_wf eq eqs ops) c V) as [a M].
  exists a. split; [exact M|]. intros b Mb. eapply means_fun; eauto.
Qed.
