(** * Proofs about the hash tables *)
From Verif Require Import Cbase Cbase_facts Table_model Table_spec.
From Coq Require Import ZifyBool Permutation.
Local Open Scope Z_scope.
Local Arguments Z.mul : simpl never.
Local Arguments Z.add : simpl never.

Section P.
Variable rnd : Z -> Z.

Lemma hash_fold : forall k h, ascii7 k -> 0 <= h ->
  exists h', fold_left (hash_step rnd) k (Some h) = Some h' /\ 0 <= h'.
Proof.
  induction k as [|c k IH]; intros h Hk Hh; simpl; [eauto|].
  inversion Hk as [|? ? Hc Hk']; subst. unfold schar. pose proof (code_range c).
  destruct (Z.ltb_spec (code c) 128); [|lia].
  rewrite Z.rem_small by lia. destruct (Z.ltb_spec (code c) 0); [lia|].
  apply IH; auto. apply Z.mod_pos_bound. unfold M32. lia.
Qed.

Lemma hash_total : forall size k, ascii7 k -> 0 < size ->
  exists i, hashValue rnd size k = Some i /\ 0 <= i < size.
Proof.
  intros size k Hk Hs. unfold hashValue.
  destruct (hash_fold k 0 Hk (Z.le_refl 0)) as (h & -> & Hh).
  destruct (Z.leb_spec size 0); [lia|]. eexists. split; [reflexivity|].
  apply Z.mod_pos_bound; lia.
Qed.

Section V.
Variable V : Type.
Notation table := (table V).
Notation bucket := (bucket V).

(** ** Association lists with distinct keys *)

Lemma eqb_spec : forall a b, reflect (a = b) (cstr_eqb a b).
Proof. intros. apply iff_reflect. symmetry. apply cstr_eqb_eq. Qed.

Lemma find_in : forall (l : list (cstr * V)) k v, NoDup (map fst l) ->
  (find V l k = Some v <-> In (k, v) l).
Proof.
  induction l as [|[a x] l IH]; intros k v H; simpl; [split; [discriminate|tauto]|].
  inversion H as [|? ? Hn Hd]; subst. destruct (eqb_spec a k) as [->|N].
  - split.
    + intros K. injection K as ->. auto.
    + intros [K|K]; [injection K as ->; auto|]. exfalso. apply Hn.
      apply (in_map fst) in K. exact K.
  - rewrite IH by auto. split; [auto|]. intros [K|K]; [congruence|auto].
Qed.

Lemma find_none : forall (l : list (cstr * V)) k, find V l k = None <-> ~ In k (map fst l).
Proof.
  induction l as [|[a x] l IH]; intros k; simpl; [tauto|].
  destruct (eqb_spec a k) as [->|N].
  - split; [discriminate|]. intros K. exfalso. auto.
  - rewrite IH. tauto.
Qed.

Lemma find_app_one : forall (l : list (cstr * V)) k v j, find V l k = None ->
  find V (l ++ [(k, v)]) j = if cstr_eqb k j then Some v else find V l j.
Proof.
  induction l as [|[a x] l IH]; intros k v j H; simpl in *.
  - reflexivity.
  - destruct (eqb_spec a k) as [->|N]; [discriminate|].
    destruct (eqb_spec a j) as [->|N2].
    + destruct (eqb_spec k j); [congruence|reflexivity].
    + apply IH; auto.
Qed.

(** ** The invariant *)

Definition bk_ok (size i : Z) (b : option bucket) : Prop :=
  NoDup (map fst (bk_ents V b)) /\
  (forall k v, In (k, v) (bk_ents V b) -> ascii7 k /\ hashValue rnd size k = Some i) /\
  (forall b', b = Some b' -> 0 <= b_nspace b' /\ b_nspace b' + b_size V b' <= b_cap b').

Definition good (t : table) : Prop :=
  0 < t_size t /\ Z.of_nat (List.length (t_bks t)) = t_size t /\
  forall i b, nth_error (t_bks t) i = Some b -> bk_ok (t_size t) (Z.of_nat i) b.

Lemma nth_upd_same : forall A (l : list A) n x, (n < List.length l)%nat -> nth_error (upd n x l) n = Some x.
Proof. induction l; intros [|n] x H; simpl in *; auto; try lia. apply IHl. lia. Qed.

Lemma nth_upd_other : forall A (l : list A) n m x, n <> m -> nth_error (upd n x l) m = nth_error l m.
Proof. induction l; intros [|n] [|m] x H; simpl; auto; try congruence. Qed.

Lemma len_upd : forall A (l : list A) n x, List.length (upd n x l) = List.length l.
Proof. induction l; intros [|n] x; simpl; auto. Qed.

Lemma get_total : forall t i, good t -> 0 <= i < t_size t ->
  exists b, get_bk V t i = Some b /\ bk_ok (t_size t) i b.
Proof.
  intros t i (Hs & Hl & Hb) Hi. unfold get_bk.
  destruct (nth_error (t_bks t) (Z.to_nat i)) as [b|] eqn:E.
  - exists b. split; auto. apply Hb in E. rewrite Z2Nat.id in E by lia. exact E.
  - apply nth_error_None in E. lia.
Qed.

Lemma set_good : forall t i b, good t -> 0 <= i < t_size t -> bk_ok (t_size t) i (Some b) ->
  good (set_bk V t i b).
Proof.
  intros t i b (Hs & Hl & Hb) Hi Hk. split; [auto|]. split.
  - simpl. rewrite len_upd. auto.
  - simpl. intros j b' H. destruct (Nat.eq_dec (Z.to_nat i) j) as [<-|N].
    + rewrite nth_upd_same in H by lia. injection H as <-. rewrite Z2Nat.id by lia. exact Hk.
    + rewrite nth_upd_other in H by auto. apply Hb; auto.
Qed.

(** changing the entry count changes nothing *)
Lemma good_nent : forall t n, good t -> good (T (t_size t) n (t_bks t)).
Proof. intros t n H. exact H. Qed.

Definition view (t : table) (k : cstr) : option V :=
  match t_lookup rnd V t k with Some x => x | None => None end.

Lemma lookup_total : forall t k, good t -> ascii7 k -> t_lookup rnd V t k = Some (view t k).
Proof.
  intros t k H Hk. unfold view, t_lookup. pose proof H as (Hs & _ & _).
  destruct (hash_total _ _ Hk Hs) as (i & -> & Hi).
  destruct (get_total _ _ H Hi) as (b & -> & _). reflexivity.
Qed.

Lemma view_get : forall t k i b, hashValue rnd (t_size t) k = Some i -> get_bk V t i = Some b ->
  view t k = find V (bk_ents V b) k.
Proof. intros t k i b H1 H2. unfold view, t_lookup. rewrite H1, H2. reflexivity. Qed.

Lemma view_set : forall t i b b0 k n, good t -> ascii7 k -> 0 <= i < t_size t ->
  get_bk V t i = Some b0 ->
  view (T (t_size t) n (t_bks (set_bk V t i b))) k
  = if match hashValue rnd (t_size t) k with Some j => j =? i | None => false end
    then find V (b_ents b) k else view t k.
Proof.
  intros t i b b0 k n H Hk Hi Hg. pose proof H as (Hs & Hl & _). unfold view, t_lookup. simpl.
  destruct (hash_total _ _ Hk Hs) as (j & -> & Hj). unfold get_bk. simpl.
  destruct (Z.eqb_spec j i) as [->|N].
  - rewrite nth_upd_same by lia. reflexivity.
  - rewrite nth_upd_other by lia. reflexivity.
Qed.

(** ** Adding an entry to the bucket of its key *)

Lemma push_ok : forall size i b e, bk_ok size i (Some b) ->
  ascii7 (fst e) -> hashValue rnd size (fst e) = Some i -> find V (b_ents b) (fst e) = None ->
  exists b', b_push V b e = Some b' /\ b_ents b' = b_ents b ++ [e] /\ bk_ok size i (Some b').
Proof.
  intros size i b e (Hd & Hh & Hc) Ha Hi Hf. unfold b_push.
  destruct (Hc b eq_refl) as [Hn Hcap].
  set (b1 := if b_nspace b =? 0 then b_grow V b else b).
  assert (E1 : b_ents b1 = b_ents b) by (unfold b1; destruct (_ =? _); reflexivity).
  assert (C1 : 0 < b_nspace b1 /\ b_nspace b1 + b_size V b1 <= b_cap b1).
  { unfold b1. destruct (Z.eqb_spec (b_nspace b) 0) as [Z0|]; [|lia].
    simpl. unfold b_size at 1. simpl. fold (b_size V b). lia. }
  destruct (Z.ltb_spec (b_size V b1) (b_cap b1)); [|lia].
  eexists. split; [reflexivity|]. simpl. rewrite E1. split; [auto|].
  split; [|split].
  - simpl. rewrite map_app. simpl. apply Permutation_NoDup with (l := fst e :: map fst (b_ents b)).
    + apply Permutation_cons_append.
    + constructor; [apply find_none; auto|exact Hd].
  - simpl. intros k v K. apply in_app_or in K. destruct K as [K|[K|[]]]; [apply Hh with v; auto|].
    subst e. simpl in *. auto.
  - intros b' K. injection K as <-. unfold b_size in *. simpl. rewrite app_length. simpl.
    rewrite E1 in C1. lia.
Qed.

Lemma single_ok : forall size i e, ascii7 (fst e) -> hashValue rnd size (fst e) = Some i ->
  bk_ok size i (Some (b_single V e)).
Proof.
  intros size i e Ha Hi. split; [|split].
  - simpl. constructor; auto. constructor.
  - simpl. intros k v [K|[]]. subst e. auto.
  - intros b' K. injection K as <-. unfold b_size. simpl. lia.
Qed.

(** Storing a new entry: [put] is the common part of all insertions. *)
Definition put (t : table) (n : Z) (e : cstr * V) : option table :=
  match hashValue rnd (t_size t) (fst e) with
  | None => None
  | Some i => match get_bk V t i with
              | None => None
              | Some None => Some (T (t_size t) n (t_bks (set_bk V t i (b_single V e))))
              | Some (Some b) => match b_push V b e with
                                 | None => None
                                 | Some b' => Some (T (t_size t) n (t_bks (set_bk V t i b')))
                                 end
              end
  end.

Lemma put_ok : forall t n e, good t -> ascii7 (fst e) -> view t (fst e) = None ->
  exists t', put t n e = Some t' /\ good t' /\ t_size t' = t_size t /\ t_nent t' = n /\
    forall k, ascii7 k -> view t' k = if cstr_eqb (fst e) k then Some (snd e) else view t k.
Proof.
  intros t n e H Ha Hv. unfold put. pose proof H as (Hs & Hl & _).
  destruct (hash_total _ _ Ha Hs) as (i & Ei & Hi). rewrite Ei.
  destruct (get_total _ _ H Hi) as (b & Eb & Hb). rewrite Eb.
  rewrite (view_get _ _ _ _ Ei Eb) in Hv.
  assert (Key : forall b', b_ents b' = bk_ents V b ++ [e] -> bk_ok (t_size t) i (Some b') ->
    let t' := T (t_size t) n (t_bks (set_bk V t i b')) in
    good t' /\ t_size t' = t_size t /\ t_nent t' = n /\
    forall k, ascii7 k -> view t' k = if cstr_eqb (fst e) k then Some (snd e) else view t k).
  { intros b' Ee Hok. cbv zeta.
    split; [apply (set_good t i b' H Hi Hok)|]. split; [auto|]. split; [auto|].
    intros k Hk. rewrite (view_set t i b' b k n H Hk Hi Eb), Ee.
    destruct (hash_total _ _ Hk Hs) as (j & Ej & Hj). rewrite Ej.
    assert (F : find V (bk_ents V b ++ [e]) k
                = if cstr_eqb (fst e) k then Some (snd e) else find V (bk_ents V b) k).
    { destruct e as [ke ve]. apply find_app_one. exact Hv. }
    destruct (Z.eqb_spec j i) as [->|N].
    - rewrite F. rewrite (view_get t k i b Ej Eb). reflexivity.
    - destruct (eqb_spec (fst e) k) as [<-|]; [congruence|]. reflexivity. }
  destruct b as [b|].
  - destruct (push_ok _ _ _ e Hb Ha Ei Hv) as (b' & -> & Ee & Hok).
    eexists. split; [reflexivity|]. apply Key; auto.
  - eexists. split; [reflexivity|]. apply Key; [reflexivity|]. apply single_ok; auto.
Qed.

(** ** Changing a bucket in place *)

Lemma on_bucket_miss : forall t k f, good t -> ascii7 k -> view t k = None ->
  (forall l, find V l k = None -> f l = None) -> on_bucket rnd V t k f = Some (t, true).
Proof.
  intros t k f H Hk Hv Hf. unfold on_bucket. pose proof H as (Hs & _ & _).
  destruct (hash_total _ _ Hk Hs) as (i & Ei & Hi). rewrite Ei.
  destruct (get_total _ _ H Hi) as (b & Eb & Hb). rewrite Eb.
  rewrite (view_get _ _ _ _ Ei Eb) in Hv. destruct b as [b|]; [|reflexivity].
  rewrite Hf by exact Hv. reflexivity.
Qed.

Lemma on_bucket_hit : forall t k f x, good t -> ascii7 k -> view t k <> None ->
  (forall l, NoDup (map fst l) -> find V l k = view t k -> exists l', f l = Some l' /\
     (List.length l' <= List.length l)%nat /\ NoDup (map fst l') /\
     (forall j v, In (j, v) l' -> In j (map fst l)) /\
     forall j, find V l' j = if cstr_eqb k j then x else find V l j) ->
  exists t', on_bucket rnd V t k f = Some (t', false) /\ good t' /\ t_size t' = t_size t /\
    t_nent t' = t_nent t /\
    forall j, ascii7 j -> view t' j = if cstr_eqb k j then x else view t j.
Proof.
  intros t k f x H Hk Hv Hf. unfold on_bucket. pose proof H as (Hs & _ & _).
  destruct (hash_total _ _ Hk Hs) as (i & Ei & Hi). rewrite Ei.
  destruct (get_total _ _ H Hi) as (b & Eb & Hb). rewrite Eb.
  pose proof (view_get _ _ _ _ Ei Eb) as Ev.
  destruct b as [b|]; [|exfalso; apply Hv; rewrite Ev; reflexivity].
  destruct Hb as (Hd & Hh & Hc).
  destruct (Hf (b_ents b) Hd (eq_sym Ev)) as (l' & -> & Hlen & Hd' & Hin & Hfind).
  eexists. split; [reflexivity|].
  assert (Hok : bk_ok (t_size t) i (Some (Bk l' (b_nspace b) (b_cap b)))).
  { split; [exact Hd'|]. split.
    - simpl. intros j v K. apply Hin in K. apply in_map_iff in K as ((j' & w) & <- & K).
      apply (Hh j' w K).
    - intros b' K. injection K as <-. unfold b_size in *. simpl. destruct (Hc b eq_refl). lia. }
  split; [apply set_good; auto|]. split; [auto|]. split; [auto|].
  intros j Hj. pose proof (view_set t i (Bk l' (b_nspace b) (b_cap b)) _ j (t_nent t) H Hj Hi Eb) as E.
  change (T (t_size t) (t_nent t) (t_bks (set_bk V t i (Bk l' (b_nspace b) (b_cap b)))))
    with (set_bk V t i (Bk l' (b_nspace b) (b_cap b))) in E.
  rewrite E. simpl.
  destruct (hash_total _ _ Hj Hs) as (n & En & Hn). rewrite En.
  destruct (Z.eqb_spec n i) as [->|N].
  - rewrite Hfind. rewrite (view_get t j i _ En Eb). reflexivity.
  - destruct (eqb_spec k j) as [<-|]; [congruence|reflexivity].
Qed.

Lemma replace_val_miss : forall (l : list (cstr * V)) k v, find V l k = None -> replace_val V l k v = None.
Proof.
  induction l as [|[a x] l IH]; intros k v H; simpl in *; auto.
  destruct (cstr_eqb a k); [discriminate|]. rewrite IH; auto.
Qed.

Lemma replace_val_hit : forall (l : list (cstr * V)) k v, NoDup (map fst l) -> find V l k <> None ->
  exists l', replace_val V l k v = Some l' /\ map fst l' = map fst l /\
    forall j, find V l' j = if cstr_eqb k j then Some v else find V l j.
Proof.
  induction l as [|[a x] l IH]; intros k v Hd H; simpl in *; [congruence|].
  inversion Hd as [|? ? Hn Hd']; subst.
  destruct (eqb_spec a k) as [->|N].
  - eexists. split; [reflexivity|]. split; [auto|]. intros j. simpl.
    destruct (cstr_eqb k j); auto.
  - destruct (IH k v Hd' H) as (l' & -> & Hm & Hf). eexists. split; [reflexivity|].
    split; [simpl; congruence|]. intros j. simpl. rewrite Hf.
    destruct (eqb_spec a j) as [<-|]; auto. destruct (eqb_spec k a); [congruence|reflexivity].
Qed.

Lemma replace_key_miss : forall (l : list (cstr * V)) k k', find V l k = None -> replace_key V l k k' = None.
Proof.
  induction l as [|[a x] l IH]; intros k k' H; simpl in *; auto.
  destruct (cstr_eqb a k); [discriminate|]. rewrite IH; auto.
Qed.

Lemma replace_key_same : forall (l : list (cstr * V)) k, find V l k <> None -> replace_key V l k k = Some l.
Proof.
  induction l as [|[a x] l IH]; intros k H; simpl in *; [congruence|].
  destruct (eqb_spec a k) as [->|N]; auto. rewrite IH; auto.
Qed.

Lemma index_miss : forall (l : list (cstr * V)) k, find V l k = None -> index_of V l k = None.
Proof.
  induction l as [|[a x] l IH]; intros k H; simpl in *; auto.
  destruct (cstr_eqb a k); [discriminate|]. rewrite IH; auto.
Qed.

Lemma upd_at : forall A (l1 l2 : list A) x y, upd (List.length l1) y (l1 ++ x :: l2) = l1 ++ y :: l2.
Proof. induction l1; intros; simpl; auto. rewrite IHl1. auto. Qed.

Lemma index_hit : forall (l : list (cstr * V)) k, find V l k <> None ->
  exists l1 v l2, l = l1 ++ (k, v) :: l2 /\ index_of V l k = Some (List.length l1).
Proof.
  induction l as [|[a x] l IH]; intros k H; simpl in *; [congruence|].
  destruct (eqb_spec a k) as [->|N].
  - exists [], x, l. auto.
  - destruct (IH k H) as (l1 & v & l2 & -> & ->). exists ((a, x) :: l1), v, l2. auto.
Qed.

Lemma swap_out_perm : forall (l1 l2 : list (cstr * V)) e,
  Permutation (swap_out V (l1 ++ e :: l2) (List.length l1)) (l1 ++ l2).
Proof.
  intros l1 l2 e. unfold swap_out. destruct l2 as [|x l2] using rev_ind.
  - rewrite rev_app_distr. simpl. rewrite app_length. simpl.
    destruct (Nat.ltb_spec (List.length l1) (List.length l1 + 1 - 1)); [lia|].
    rewrite removelast_last, app_nil_r. reflexivity.
  - replace (l1 ++ e :: l2 ++ [x]) with ((l1 ++ e :: l2) ++ [x]) by (rewrite <- app_assoc; reflexivity).
    rewrite rev_app_distr. simpl rev. simpl app.
    destruct (Nat.ltb_spec (List.length l1) (List.length ((l1 ++ e :: l2) ++ [x]) - 1)) as [L|L].
    + rewrite <- app_assoc. simpl. rewrite upd_at.
      replace (l1 ++ x :: l2 ++ [x]) with ((l1 ++ x :: l2) ++ [x]) by (rewrite <- app_assoc; reflexivity).
      rewrite removelast_last. apply Permutation_app_head.
      apply Permutation_cons_append.
    + rewrite !app_length in L. simpl in L. lia.
Qed.

Lemma find_perm : forall (l l' : list (cstr * V)) k, NoDup (map fst l) -> Permutation l l' ->
  find V l k = find V l' k.
Proof.
  intros l l' k Hd Hp.
  assert (Hd' : NoDup (map fst l')) by (eapply Permutation_NoDup; [apply Permutation_map; eauto|auto]).
  destruct (find V l k) as [v|] eqn:E.
  - symmetry. apply find_in; auto. apply find_in in E; auto. eapply Permutation_in; eauto.
  - symmetry. apply find_none. apply find_none in E. intros K. apply E.
    eapply Permutation_in; [apply Permutation_sym, Permutation_map; eauto|auto].
Qed.

Lemma remove_hit : forall (l : list (cstr * V)) k, NoDup (map fst l) -> find V l k <> None ->
  exists i, index_of V l k = Some i /\
     (List.length (swap_out V l i) <= List.length l)%nat /\ NoDup (map fst (swap_out V l i)) /\
     (forall j v, In (j, v) (swap_out V l i) -> In j (map fst l)) /\
     forall j, find V (swap_out V l i) j = if cstr_eqb k j then None else find V l j.
Proof.
  intros l k Hd H. destruct (index_hit l k H) as (l1 & v & l2 & -> & E).
  exists (List.length l1). split; [auto|].
  pose proof (swap_out_perm l1 l2 (k, v)) as P.
  assert (Hd2 : NoDup (map fst (l1 ++ l2))).
  { rewrite map_app in *. simpl in Hd. apply NoDup_remove in Hd. tauto. }
  assert (Hn : ~ In k (map fst (l1 ++ l2))).
  { rewrite map_app in *. simpl in Hd. apply NoDup_remove in Hd. tauto. }
  assert (Hd3 : NoDup (map fst (swap_out V (l1 ++ (k, v) :: l2) (List.length l1)))).
  { eapply Permutation_NoDup; [apply Permutation_sym, Permutation_map; exact P|auto]. }
  split; [|split; [|split]].
  - rewrite (Permutation_length P), !app_length. simpl. lia.
  - exact Hd3.
  - intros j w K. eapply Permutation_in in K; [|exact P].
    rewrite map_app. simpl. apply in_app_or in K. apply in_or_app.
    destruct K as [K|K]; apply (in_map fst) in K; simpl in K; auto. right. right. auto.
  - intros j. rewrite (find_perm _ _ j Hd3 P).
    destruct (eqb_spec k j) as [<-|N]; [apply find_none; auto|].
    rewrite (find_perm (l1 ++ (k, v) :: l2) ((k, v) :: l1 ++ l2)); auto.
    + simpl. destruct (eqb_spec k j); [congruence|reflexivity].
    + apply Permutation_sym, Permutation_middle.
Qed.

(** ** update and remove *)

Lemma update_ok : forall t k v, good t -> ascii7 k -> view t k <> None ->
  exists t', t_update rnd V t k v = Some (t', false) /\ good t' /\ t_size t' = t_size t /\
    t_nent t' = t_nent t /\
    forall j, ascii7 j -> view t' j = if cstr_eqb k j then Some v else view t j.
Proof.
  intros t k v H Hk Hv. apply on_bucket_hit; auto. intros l Hd Hl. rewrite <- Hl in Hv.
  destruct (replace_val_hit l k v Hd Hv) as (l' & E & Hm & Hf).
  exists l'. split; [auto|]. split; [|split; [|split]]; auto.
  - rewrite <- (map_length fst l'), Hm, map_length. auto.
  - rewrite Hm. auto.
  - intros j w K. apply (in_map fst) in K. rewrite Hm in K. exact K.
Qed.

Lemma update_miss : forall t k v, good t -> ascii7 k -> view t k = None ->
  t_update rnd V t k v = Some (t, true).
Proof. intros. apply on_bucket_miss; auto using replace_val_miss. Qed.

Lemma remove_ok : forall t k, good t -> ascii7 k -> view t k <> None ->
  exists t', t_remove rnd V t k = Some (t', false) /\ good t' /\ t_size t' = t_size t /\
    t_nent t' = t_nent t /\
    forall j, ascii7 j -> view t' j = if cstr_eqb k j then None else view t j.
Proof.
  intros t k H Hk Hv. apply on_bucket_hit; auto. intros l Hd Hl. rewrite <- Hl in Hv.
  destruct (remove_hit l k Hd Hv) as (i & -> & K). eexists. split; [reflexivity|]. exact K.
Qed.

Lemma remove_miss : forall t k, good t -> ascii7 k -> view t k = None ->
  t_remove rnd V t k = Some (t, true).
Proof. intros. apply on_bucket_miss; auto. intros l Hl. rewrite index_miss; auto. Qed.

(** ** All entries of a table *)

Lemma NoDup_app_intro : forall A (l1 l2 : list A), NoDup l1 -> NoDup l2 ->
  (forall x, In x l1 -> In x l2 -> False) -> NoDup (l1 ++ l2).
Proof.
  induction l1 as [|a l1 IH]; intros l2 H1 H2 H; simpl; auto.
  inversion H1; subst. constructor.
  - intros K. apply in_app_or in K. destruct K; [auto|]. apply (H a); simpl; auto.
  - apply IH; auto. intros x K1 K2. apply (H x); simpl; auto.
Qed.

Lemma all_bks : forall (bks : list (option bucket)) size off,
  (forall i b, nth_error bks i = Some b -> bk_ok size (Z.of_nat (off + i)) b) ->
  NoDup (map fst (flat_map (bk_ents V) bks)) /\
  forall k v, In (k, v) (flat_map (bk_ents V) bks) ->
    exists i b, nth_error bks i = Some b /\ In (k, v) (bk_ents V b).
Proof.
  induction bks as [|b bks IH]; intros size off H; simpl.
  - split; [constructor|tauto].
  - destruct (IH size (S off)) as [Hd Hi].
    { intros i b' K. specialize (H (S i) b' K). replace (S off + i)%nat with (off + S i)%nat by lia. exact H. }
    pose proof (H O b eq_refl) as (Hd0 & Hh0 & _).
    split.
    + rewrite map_app. apply NoDup_app_intro; auto.
      intros k K1 K2. apply in_map_iff in K1 as ((k1 & v1) & <- & K1).
      apply in_map_iff in K2 as ((k2 & v2) & E & K2). simpl in E. subst k2.
      apply Hi in K2 as (i & b' & En & K2). specialize (H (S i) b' En). destruct H as (_ & Hh & _).
      apply Hh in K2 as [_ E2]. apply Hh0 in K1 as [_ E1]. simpl in *. rewrite E1 in E2.
      injection E2 as E2. lia.
    + intros k v K. apply in_app_or in K. destruct K as [K|K].
      * exists O, b. auto.
      * apply Hi in K as (i & b' & En & K). exists (S i), b'. auto.
Qed.

Lemma all_view : forall t, good t ->
  NoDup (map fst (all_ents V t)) /\ (forall k v, In (k, v) (all_ents V t) -> ascii7 k) /\
  forall k, ascii7 k -> find V (all_ents V t) k = view t k.
Proof.
  intros t (Hs & Hl & Hb). unfold all_ents.
  destruct (all_bks (t_bks t) (t_size t) 0) as [Hd Hi]; [exact Hb|].
  split; [auto|]. split.
  - intros k v K. apply Hi in K as (i & b & En & K). apply Hb in En as (_ & Hh & _).
    apply Hh in K. tauto.
  - intros k Hk. destruct (hash_total _ _ Hk Hs) as (i & Ei & Hir).
    assert (G : good t) by (split; auto).
    destruct (get_total _ _ G Hir) as (b & Eb & Hok). rewrite (view_get _ _ _ _ Ei Eb).
    destruct Hok as (Hdb & Hhb & _). unfold get_bk in Eb.
    destruct (find V (bk_ents V b) k) as [v|] eqn:Ef.
    + apply find_in; auto. apply find_in in Ef; auto. apply in_flat_map.
      exists b. split; auto. eapply nth_error_In; eauto.
    + destruct (find V (flat_map (bk_ents V) (t_bks t)) k) as [v|] eqn:E; auto.
      apply find_in in E; auto. apply Hi in E as (j & b' & En & K).
      pose proof (Hb _ _ En) as (_ & Hh & _). apply Hh in K as Kh. destruct Kh as [_ Kh].
      rewrite Ei in Kh. injection Kh as ->. rewrite Nat2Z.id in Eb. rewrite Eb in En. injection En as <-.
      apply find_in in K; auto. congruence.
Qed.

Lemma nth_repeat' : forall A (x : A) n i y, nth_error (repeat x n) i = Some y -> y = x.
Proof. intros A x n i y H. apply nth_error_In, repeat_spec in H. auto. Qed.

Lemma empty_good : forall size n, 0 < size -> good (T size n (empty_bks V size)).
Proof.
  intros size n H. split; [auto|]. split.
  - simpl. unfold empty_bks. rewrite repeat_length. lia.
  - simpl. intros i b K. apply nth_repeat' in K. subst b. split; [|split].
    + constructor. + simpl. tauto. + discriminate.
Qed.

Lemma empty_view : forall size n k, view (T size n (empty_bks V size)) k = None.
Proof.
  intros size n k. unfold view, t_lookup. simpl. destruct (hashValue _ _ _) as [i|]; auto.
  unfold get_bk. simpl. destruct (nth_error _ _) as [b|] eqn:E; auto.
  apply nth_repeat' in E. subst b. reflexivity.
Qed.

End V.

(** ** cstringTable *)

Notation goodc := (good Z).
Notation viewc := (view Z).

Definition vals_ok (t : ctable) : Prop := forall k, ascii7 k -> viewc t k <> Some DNE.

Lemma dne_none : forall x, x <> Some DNE -> (dne x =? DNE) = match x with None => true | _ => false end.
Proof.
  intros [v|] H; simpl; [|reflexivity]. destruct (Z.eqb_spec v DNE); [congruence|reflexivity].
Qed.

Lemma c_addEntry_ok : forall t e, goodc t -> ascii7 (fst e) -> viewc t (fst e) = None -> snd e <> DNE ->
  exists t', c_addEntry rnd t e = Some (t', false) /\ goodc t' /\ t_size t' = t_size t /\
    forall k, ascii7 k -> viewc t' k = if cstr_eqb (fst e) k then Some (snd e) else viewc t k.
Proof.
  intros t e H Ha Hv Hd.
  destruct (put_ok Z t (uwrap64 (t_nent t + 1)) e H Ha Hv) as (t' & E & G & S1 & _ & Vw).
  exists t'. split; [|auto]. unfold put in E. unfold c_addEntry.
  pose proof H as (Hs & _ & _).
  destruct (hash_total _ _ Ha Hs) as (i & Ei & Hi). rewrite Ei in *.
  destruct (get_total _ _ _ H Hi) as (b & Eb & _). rewrite Eb in *.
  destruct b as [b|].
  - rewrite (view_get _ _ _ _ _ Ei Eb) in Hv. simpl in Hv. rewrite Hv. simpl.
    destruct (b_push Z b e); [|discriminate]. injection E as <-.
    destruct (Z.eqb_spec (snd e) DNE); [contradiction|reflexivity].
  - injection E as <-. reflexivity.
Qed.

Lemma c_add_all_ok : forall l t, goodc t -> NoDup (map fst l) ->
  (forall k v, In (k, v) l -> ascii7 k /\ v <> DNE /\ viewc t k = None) ->
  exists t', add_all Z (c_addEntry rnd) t l false = Some (t', false) /\ goodc t' /\
    t_size t' = t_size t /\
    forall k, ascii7 k -> viewc t' k = match find Z l k with Some v => Some v | None => viewc t k end.
Proof.
  induction l as [|[k0 v0] l IH]; intros t H Hd Hl; simpl.
  - exists t. auto.
  - inversion Hd as [|? ? Hn Hd']; subst.
    destruct (Hl k0 v0 (or_introl eq_refl)) as (Ha & Hv & Hw).
    destruct (c_addEntry_ok t (k0, v0) H Ha Hw Hv) as (t1 & -> & G1 & S1 & V1). simpl.
    destruct (IH t1 G1 Hd') as (t2 & -> & G2 & S2 & V2).
    + intros k v K. destruct (Hl k v (or_intror K)) as (A & B & C).
      split; [auto|]. split; [auto|]. rewrite V1 by auto. simpl.
      destruct (eqb_spec k0 k) as [->|]; auto. exfalso. apply Hn. apply (in_map fst) in K. exact K.
    + exists t2. split; [auto|]. split; [auto|]. split; [congruence|].
      intros k Hk. rewrite V2, V1 by auto. simpl.
      destruct (eqb_spec k0 k) as [->|]; auto.
      destruct (find Z l k) as [v|] eqn:E; auto. exfalso. apply Hn.
      apply find_in in E; auto. apply (in_map fst) in E. exact E.
Qed.

Lemma newsize_pos : forall s, 0 < uwrap64 (1 + uwrap64 (s * 26244) / 10000).
Proof.
  intros s. unfold uwrap64.
  pose proof (Z.mod_pos_bound (s * 26244) 18446744073709551616 ltac:(lia)) as B.
  set (q := (s * 26244) mod 18446744073709551616) in *.
  assert (0 <= q / 10000 < 18446744073709551615).
  { split; [apply Z.div_pos; lia|]. apply Z.div_lt_upper_bound; lia. }
  rewrite Z.mod_small; lia.
Qed.

Lemma c_rehash_ok : forall t, goodc t -> vals_ok t ->
  exists t', c_rehash rnd t = Some (t', false) /\ goodc t' /\
    forall k, ascii7 k -> viewc t' k = viewc t k.
Proof.
  intros t H Hv. unfold c_rehash.
  set (ns := uwrap64 (1 + uwrap64 (t_size t * 26244) / 10000)).
  assert (Hns : 0 < ns) by apply newsize_pos.
  destruct (all_view Z t H) as (Hd & Ha & Hf).
  destruct (c_add_all_ok (all_ents Z t) (T ns 0 (empty_bks Z ns)) (empty_good Z ns 0 Hns) Hd)
    as (t' & E & G & _ & Vw).
  - intros k v K. split; [eauto|]. split; [|apply empty_view].
    intros ->. apply (Hv k); [eauto|]. rewrite <- Hf by eauto. apply find_in; auto.
  - exists t'. split; [exact E|]. split; [auto|]. intros k Hk. rewrite Vw, empty_view, Hf by auto.
    destruct (viewc t k); auto.
Qed.

(** insert *)
Lemma c_insert_ok : forall t k v, goodc t -> vals_ok t -> ascii7 k ->
  viewc t k = None -> v <> DNE ->
  exists t', c_insert rnd t k v = Some (t', false) /\ goodc t' /\
    forall j, ascii7 j -> viewc t' j = if cstr_eqb k j then Some v else viewc t j.
Proof.
  intros t k v H Hv Hk Hm Hd. unfold c_insert.
  set (n := uwrap64 (t_nent t + 1)). set (t0 := T (t_size t) n (t_bks t)).
  assert (G0 : goodc t0) by exact H.
  assert (R : exists t1, (if uwrap64 (t_size t0 * 100) <? uwrap64 (n * 162) then c_rehash rnd t0
                          else Some (t0, false)) = Some (t1, false) /\ goodc t1 /\
                         forall j, ascii7 j -> viewc t1 j = viewc t j).
  { destruct (_ <? _).
    - destruct (c_rehash_ok t0 G0 Hv) as (t1 & E & G & W). exists t1. split; [auto|]. split; [auto|].
      intros j Hj. rewrite W by auto. reflexivity.
    - exists t0. split; [auto|]. split; [auto|]. reflexivity. }
  destruct R as (t1 & -> & G1 & W1). clear t0 G0.
  assert (Hm1 : viewc t1 k = None) by (rewrite W1; auto).
  destruct (put_ok Z t1 (t_nent t1) (k, v) G1 Hk Hm1) as (t' & E & G & S1 & _ & Vw).
  exists t'. unfold put in E. simpl fst in E. pose proof G1 as (Hs & _ & _).
  destruct (hash_total _ _ Hk Hs) as (i & Ei & Hi). rewrite Ei in *.
  destruct (get_total _ _ _ G1 Hi) as (b & Eb & _). rewrite Eb in *.
  assert (Ed : (v =? DNE) = false) by (apply Z.eqb_neq; auto).
  split.
  - destruct b as [b|].
    + rewrite (view_get _ _ _ _ _ Ei Eb) in Hm1. simpl in Hm1. rewrite Hm1. simpl.
      destruct (b_push Z b (k, v)); [|discriminate]. injection E as <-. rewrite Ed. reflexivity.
    + injection E as <-. rewrite Ed. reflexivity.
  - split; [auto|]. intros j Hj. rewrite Vw, W1 by auto. reflexivity.
Qed.

(** A duplicate insertion or the reserved number reports a bug. *)
Lemma c_insert_bug : forall t k v t' b, goodc t -> vals_ok t -> ascii7 k ->
  viewc t k <> None \/ v = DNE -> c_insert rnd t k v = Some (t', b) -> b = true.
Proof.
  intros t k v t' b H Hv Hk Hm E. unfold c_insert in E.
  set (n := uwrap64 (t_nent t + 1)) in *. set (t0 := T (t_size t) n (t_bks t)) in *.
  assert (G0 : goodc t0) by exact H.
  assert (R : exists t1, (if uwrap64 (t_size t0 * 100) <? uwrap64 (n * 162) then c_rehash rnd t0
                          else Some (t0, false)) = Some (t1, false) /\ goodc t1 /\
                         forall j, ascii7 j -> viewc t1 j = viewc t j).
  { destruct (_ <? _).
    - destruct (c_rehash_ok t0 G0 Hv) as (t1 & E' & G & W). exists t1. split; [auto|]. split; [auto|].
      intros j Hj. rewrite W by auto. reflexivity.
    - exists t0. split; [auto|]. split; [auto|]. reflexivity. }
  destruct R as (t1 & Er & G1 & W1). rewrite Er in E. clear t0 G0 Er. pose proof G1 as (Hs & _ & _).
  destruct (hash_total _ _ Hk Hs) as (i & Ei & Hi). rewrite Ei in *.
  destruct (get_total _ _ _ G1 Hi) as (bk & Eb & _). rewrite Eb in *.
  destruct Hm as [Hm|Hm].
  - rewrite <- W1 in Hm by auto. pose proof (Hv k Hk) as Hk2. rewrite <- W1 in Hk2 by auto.
    rewrite (view_get _ _ _ _ _ Ei Eb) in Hm, Hk2. destruct bk as [bk|]; [|simpl in Hm; congruence].
    simpl in Hm, Hk2. rewrite dne_none in E by auto.
    destruct (find Z (b_ents bk) k); [|congruence]. destruct (b_push Z bk (k, v)); [|discriminate].
    injection E as _ <-. simpl. apply orb_true_r.
  - subst v. rewrite Z.eqb_refl in E. destruct bk as [bk|].
    + destruct (b_push Z bk (k, DNE)); [|discriminate]. injection E as _ <-. reflexivity.
    + injection E as _ <-. reflexivity.
Qed.

Lemma c_replace_ok : forall t k, goodc t -> ascii7 k -> viewc t k <> None ->
  exists t', c_replaceKey rnd t k k = Some (t', false) /\ goodc t' /\
    forall j, ascii7 j -> viewc t' j = viewc t j.
Proof.
  intros t k H Hk Hv. unfold c_replaceKey.
  destruct (on_bucket_hit Z t k (fun l => replace_key Z l k k) (viewc t k) H Hk Hv) as (t' & E & G & _ & _ & W).
  - intros l Hd Hl. exists l. rewrite replace_key_same by congruence. split; [auto|]. split; [auto|].
    split; [auto|]. split.
    + intros j v K. apply (in_map fst) in K. exact K.
    + intros j. destruct (eqb_spec k j) as [<-|]; auto.
  - rewrite E, cstr_eqb_refl. exists t'. split; [reflexivity|]. split; [auto|].
    intros j Hj. rewrite W by auto. destruct (eqb_spec k j) as [->|]; auto.
Qed.

Lemma c_replace_bug : forall t a b t' bug, goodc t -> ascii7 a ->
  viewc t a = None \/ a <> b -> c_replaceKey rnd t a b = Some (t', bug) -> bug = true.
Proof.
  intros t a b t' bug H Ha Hm E. unfold c_replaceKey in E. destruct Hm as [Hm|Hm].
  - rewrite (on_bucket_miss Z t a) in E; auto using replace_key_miss. injection E as _ <-. reflexivity.
  - destruct (on_bucket _ _ _ _ _) as [[t1 b1]|]; [|discriminate]. injection E as _ <-.
    destruct (eqb_spec a b); [contradiction|]. apply orb_true_r.
Qed.

(** ** Histories of the string index *)

Definition agrees (t : ctable) (m : fmap Z) : Prop := forall k, ascii7 k -> viewc t k = m k.

Lemma c_op_ok : forall t m o, goodc t -> agrees t m -> (forall k, m k <> Some DNE) ->
  c_names o -> c_sane o -> c_legal m o ->
  exists t', c_op rnd t o = Some (t', false) /\ goodc t' /\ agrees t' (c_effect m o) /\
             forall k, c_effect m o k <> Some DNE.
Proof.
  intros t m o H Ag Hm Hn Hs Hl.
  assert (Vo : vals_ok t) by (intros k Hk; rewrite Ag by auto; apply Hm).
  destruct o as [k v|k v|a b|k]; simpl in *.
  - destruct Hl as [Hl Hd].
    destruct (c_insert_ok t k v H Vo Hn) as (t' & E & G & W); [rewrite Ag; auto|exact Hd|].
    exists t'. split; [auto|]. split; [auto|]. split.
    + intros j Hj. rewrite W by auto. unfold fset. destruct (cstr_eqb k j); auto.
    + intros j. unfold fset. destruct (cstr_eqb k j); auto. intros K. injection K as K. auto.
  - destruct (update_ok Z t k v H Hn) as (t' & E & G & _ & _ & W); [rewrite Ag; auto|].
    exists t'. split; [auto|]. split; [auto|]. split.
    + intros j Hj. rewrite W by auto. unfold fset. destruct (cstr_eqb k j); auto.
    + intros j. unfold fset. destruct (cstr_eqb k j); auto. intros K. injection K as K. auto.
  - destruct Hl as [Hl <-]. destruct Hn as [Hn _].
    destruct (c_replace_ok t a H Hn) as (t' & E & G & W); [rewrite Ag; auto|].
    exists t'. split; [auto|]. split; [auto|]. split; [|auto].
    intros j Hj. rewrite W by auto. auto.
  - destruct (remove_ok Z t k H Hn) as (t' & E & G & _ & _ & W); [rewrite Ag; auto|].
    exists t'. split; [auto|]. split; [auto|]. split.
    + intros j Hj. rewrite W by auto. unfold fset. destruct (cstr_eqb k j); auto.
    + intros j. unfold fset. destruct (cstr_eqb k j); [discriminate|auto].
Qed.

Lemma c_op_bug : forall t m o t' b, goodc t -> agrees t m -> (forall k, m k <> Some DNE) ->
  c_names o -> ~ c_legal m o -> c_op rnd t o = Some (t', b) -> b = true.
Proof.
  intros t m o t' b H Ag Hm Hn Hl E.
  assert (Vo : vals_ok t) by (intros k Hk; rewrite Ag by auto; apply Hm).
  destruct o as [k v|k v|x y|k]; simpl in *.
  - eapply c_insert_bug; [exact H|exact Vo|exact Hn| |exact E].
    destruct (viewc t k) eqn:Ev; [left; discriminate|]. right.
    destruct (Z.eq_dec v DNE) as [|N]; auto. exfalso. apply Hl. rewrite <- Ag by auto. auto.
  - assert (K : viewc t k = None).
    { rewrite Ag by auto. destruct (m k); auto. exfalso. apply Hl. discriminate. }
    rewrite (update_miss Z t k v H Hn K) in E. injection E as _ <-. auto.
  - destruct Hn as [Hx Hy]. eapply c_replace_bug; [exact H|exact Hx| |exact E].
    destruct (viewc t x) eqn:Ev; [|auto]. right. intros <-. apply Hl. split; [|auto].
    rewrite <- Ag by exact Hx. congruence.
  - assert (K : viewc t k = None).
    { rewrite Ag by auto. destruct (m k); auto. exfalso. apply Hl. discriminate. }
    rewrite (remove_miss Z t k H Hn K) in E. injection E as _ <-. auto.
Qed.

Definition c_from (ops : list cop) (s : option (ctable * bool)) : option (ctable * bool) :=
  fold_left (fun s o => match s with
                        | None => None
                        | Some (t, bug) => match c_op rnd t o with
                                           | Some (t, b) => Some (t, bug || b)
                                           | None => None end
                        end) ops s.

Lemma c_from_ok : forall ops t m, goodc t -> agrees t m -> (forall k, m k <> Some DNE) ->
  Forall c_names ops -> Forall c_sane ops -> c_history m ops ->
  exists t', c_from ops (Some (t, false)) = Some (t', false) /\ goodc t' /\
             agrees t' (fold_left c_effect ops m).
Proof.
  induction ops as [|o ops IH]; intros t m H Ag Hm Hn Hs Hl; simpl in *.
  - exists t. auto.
  - inversion Hn; subst. inversion Hs; subst. destruct Hl as [Hl Hl'].
    destruct (c_op_ok t m o H Ag Hm) as (t1 & E & G & A & D); auto. rewrite E. simpl.
    apply IH; auto.
Qed.

Lemma c_from_none : forall ops, c_from ops None = None.
Proof. induction ops; simpl; auto. Qed.

Lemma c_from_true : forall ops t t' b, c_from ops (Some (t, true)) = Some (t', b) -> b = true.
Proof.
  induction ops as [|o ops IH]; intros t t' b H; simpl in H.
  - injection H as _ <-. auto.
  - destruct (c_op rnd t o) as [[t1 b1]|]; [eapply IH; eauto|].
    fold (c_from ops None) in H. rewrite c_from_none in H. discriminate.
Qed.

Lemma c_legal_dec : forall m o, c_legal m o \/ ~ c_legal m o.
Proof.
  intros m [k v|k v|a b|k]; simpl.
  - destruct (m k); [right; intros [? _]; discriminate|].
    destruct (Z.eq_dec v absent); [right; tauto|left; auto].
  - destruct (m k); [left; discriminate|right; auto].
  - destruct (m a); [|right; tauto]. destruct (eqb_spec a b); [left; split; [discriminate|auto]|right; tauto].
  - destruct (m k); [left; discriminate|right; auto].
Qed.

Lemma c_from_bug : forall ops t m t' b, goodc t -> agrees t m -> (forall k, m k <> Some DNE) ->
  Forall c_names ops -> Forall c_sane ops -> ~ c_history m ops ->
  c_from ops (Some (t, false)) = Some (t', b) -> b = true.
Proof.
  induction ops as [|o ops IH]; intros t m t' b H Ag Hm Hn Hs Hl E; simpl in *; [tauto|].
  inversion Hn; subst. inversion Hs; subst.
  destruct (c_legal_dec m o) as [L|L].
  - destruct (c_op_ok t m o H Ag Hm) as (t1 & E1 & G & A & D); auto. rewrite E1 in E. simpl in E.
    eapply IH; [exact G|exact A|exact D|auto|auto| |exact E]. tauto.
  - destruct (c_op rnd t o) as [[t1 b1]|] eqn:E1.
    + pose proof (c_op_bug t m o t1 b1 H Ag Hm H2 L E1) as ->. simpl in E.
      eapply c_from_true; eauto.
    + fold (c_from ops None) in E. rewrite c_from_none in E. discriminate.
Qed.

Lemma c_create_good : forall size, 0 < size -> goodc (c_create size).
Proof. intros. apply empty_good. auto. Qed.

Lemma c_history_faithful : forall size ops, 0 < size -> Forall c_names ops -> Forall c_sane ops ->
  c_history fempty ops ->
  exists t, c_run rnd ops size = Some (t, false) /\
    forall k, ascii7 k ->
      c_lookup rnd t k = Some (match c_final ops k with Some v => v | None => absent end).
Proof.
  intros size ops Hs Hn Hsa Hl.
  destruct (c_from_ok ops (c_create size) fempty) as (t & E & G & A); auto.
  - apply c_create_good; auto.
  - intros k _. apply empty_view.
  - discriminate.
  - exists t. split; [exact E|]. intros k Hk. unfold c_lookup.
    rewrite (lookup_total Z t k G Hk), A by auto. reflexivity.
Qed.

Lemma c_history_bug : forall size ops t b, 0 < size -> Forall c_names ops -> Forall c_sane ops ->
  ~ c_history fempty ops -> c_run rnd ops size = Some (t, b) -> b = true.
Proof.
  intros size ops t b Hs Hn Hsa Hl E.
  eapply (c_from_bug ops (c_create size) fempty); eauto.
  - apply c_create_good; auto.
  - intros k _. apply empty_view.
  - discriminate.
Qed.

(** ** genericTable *)

Section GV.
Variable V : Type.
Notation goodg := (good V).
Notation viewg := (view V).

Lemma g_put_ok : forall t e, goodg t -> ascii7 (fst e) -> viewg t (fst e) = None ->
  exists t', g_put rnd V t e = Some (t', false) /\ goodg t' /\ t_size t' = t_size t /\
    t_nent t' = t_nent t /\
    forall k, ascii7 k -> viewg t' k = if cstr_eqb (fst e) k then Some (snd e) else viewg t k.
Proof.
  intros t e H Ha Hv.
  destruct (put_ok V t (t_nent t) e H Ha Hv) as (t' & E & G & S1 & N1 & Vw).
  exists t'. split; [|auto]. unfold put in E. unfold g_put, g_add.
  pose proof H as (Hs & _ & _).
  destruct (hash_total _ _ Ha Hs) as (i & Ei & Hi). rewrite Ei in *.
  destruct (get_total _ _ _ H Hi) as (b & Eb & _). rewrite Eb in *.
  destruct b as [b|].
  - rewrite (view_get _ _ _ _ _ Ei Eb) in Hv. simpl in Hv. rewrite Hv.
    destruct (b_push V b e); [|discriminate]. injection E as <-. reflexivity.
  - injection E as <-. reflexivity.
Qed.

Lemma set_same : forall t i b, get_bk V t i = Some (Some b) -> set_bk V t i b = t.
Proof.
  intros [s n l] i b H. unfold set_bk, get_bk in *. simpl in *. f_equal.
  revert l H. generalize (Z.to_nat i). clear. induction n as [|n IH]; intros [|x l] H; simpl in *; auto.
  - injection H as ->. auto.
  - rewrite IH; auto.
Qed.

Lemma g_put_dup : forall t e t' b, goodg t -> ascii7 (fst e) -> viewg t (fst e) <> None ->
  g_put rnd V t e = Some (t', b) -> b = true /\ t' = t.
Proof.
  intros t e t' b H Ha Hv E. unfold g_put, g_add in E. pose proof H as (Hs & _ & _).
  destruct (hash_total _ _ Ha Hs) as (i & Ei & Hi). rewrite Ei in *.
  destruct (get_total _ _ _ H Hi) as (bk & Eb & _). rewrite Eb in *.
  rewrite (view_get _ _ _ _ _ Ei Eb) in Hv. destruct bk as [bk|]; [|simpl in Hv; congruence].
  simpl in Hv. destruct (find V (b_ents bk) (fst e)); [|congruence].
  injection E as <- <-. split; auto. apply set_same; auto.
Qed.

Lemma incr_ok : forall t, 0 <= t_nent t < INT_MAX ->
  incr V t = Some (T (t_size t) (t_nent t + 1) (t_bks t)).
Proof.
  intros t H. unfold incr. replace (in_int (t_nent t + 1)) with true; auto.
  unfold in_int, INT_MIN, INT_MAX in *. lia.
Qed.

Lemma g_add_all_ok : forall l t, goodg t -> NoDup (map fst l) -> 0 <= t_nent t ->
  t_nent t + Z.of_nat (List.length l) <= INT_MAX ->
  (forall k v, In (k, v) l -> ascii7 k /\ viewg t k = None) ->
  exists t', add_all V (g_addEntry rnd V) t l false = Some (t', false) /\ goodg t' /\
    t_size t' = t_size t /\ t_nent t' = t_nent t + Z.of_nat (List.length l) /\
    forall k, ascii7 k -> viewg t' k = match find V l k with Some v => Some v | None => viewg t k end.
Proof.
  induction l as [|[k0 v0] l IH]; intros t H Hd H0 Hmax Hl; simpl add_all.
  - exists t. simpl. rewrite Z.add_0_r. auto.
  - inversion Hd as [|? ? Hn Hd']; subst.
    destruct (Hl k0 v0 (or_introl eq_refl)) as (Ha & Hw).
    unfold g_addEntry at 1. simpl List.length in *. rewrite incr_ok by lia.
    set (t0 := T (t_size t) (t_nent t + 1) (t_bks t)).
    destruct (g_put_ok t0 (k0, v0) H Ha Hw) as (t1 & -> & G1 & S1 & N1 & V1). simpl.
    destruct (IH t1 G1 Hd') as (t2 & -> & G2 & S2 & N2 & V2).
    + rewrite N1. simpl. lia.
    + rewrite N1. simpl. lia.
    + intros k v K. destruct (Hl k v (or_intror K)) as (A & C).
      split; [auto|]. rewrite V1 by auto. simpl.
      destruct (eqb_spec k0 k) as [->|]; [|exact C].
      exfalso. apply Hn. apply (in_map fst) in K. exact K.
    + exists t2. split; [auto|]. split; [auto|]. split; [rewrite S2, S1; auto|].
      split; [rewrite N2, N1; unfold t0; simpl t_nent; lia|].
      intros k Hk. rewrite V2, V1 by auto. simpl.
      destruct (eqb_spec k0 k) as [->|]; [|reflexivity].
      destruct (find V l k) as [v|] eqn:E; auto. exfalso. apply Hn.
      apply find_in in E; auto. apply (in_map fst) in E. exact E.
Qed.

(** All the entries are counted. *)
Definition counted (t : table V) : Prop := Z.of_nat (List.length (all_ents V t)) <= t_nent t.

Lemma upd_split : forall A (l : list A) n x, (n < List.length l)%nat ->
  exists l1 y l2, l = l1 ++ y :: l2 /\ List.length l1 = n /\ upd n x l = l1 ++ x :: l2.
Proof.
  induction l as [|a l IH]; intros [|n] x H; simpl in *; try lia.
  - exists [], a, l. auto.
  - destruct (IH n x) as (l1 & y & l2 & -> & E & E2); [lia|]. exists (a :: l1), y, l2.
    simpl. rewrite E, E2. auto.
Qed.

Lemma set_count : forall t i b b0 n, get_bk V t i = Some b0 ->
  (List.length (all_ents V (T (t_size t) n (t_bks (set_bk V t i b)))) + List.length (bk_ents V b0)
   = List.length (all_ents V t) + List.length (b_ents b))%nat.
Proof.
  intros t i b b0 n H. unfold all_ents, set_bk, get_bk in *. simpl.
  assert (L : (Z.to_nat i < List.length (t_bks t))%nat) by (apply nth_error_Some; congruence).
  destruct (upd_split _ (t_bks t) (Z.to_nat i) (Some b) L) as (l1 & y & l2 & E & E1 & ->).
  rewrite E in *. rewrite <- E1, nth_error_app2, Nat.sub_diag in H by lia. injection H as ->.
  rewrite !flat_map_app. simpl. rewrite !app_length. lia.
Qed.

(** The number of entries only grows with insertions. *)
Lemma g_put_count : forall t e t' b, goodg t -> g_put rnd V t e = Some (t', b) ->
  (List.length (all_ents V t') <= S (List.length (all_ents V t)))%nat /\ t_nent t' = t_nent t.
Proof.
  intros t e t' b H E. unfold g_put, g_add in E.
  destruct (hashValue _ _ _) as [i|]; [|discriminate].
  destruct (get_bk V t i) as [bk|] eqn:Eb; [|discriminate].
  destruct bk as [bk|].
  - destruct (find V (b_ents bk) (fst e)).
    + injection E as <- _. rewrite set_same by auto. auto.
    + destruct (b_push V bk e) as [b'|] eqn:Ep; [|discriminate]. injection E as <- _.
      pose proof (set_count t i b' (Some bk) (t_nent t) Eb) as K. change (bk_ents V (Some bk)) with (b_ents bk) in K.
      change (T (t_size t) (t_nent t) (t_bks (set_bk V t i b'))) with (set_bk V t i b') in K.
      assert (L : b_ents b' = b_ents bk ++ [e]).
      { unfold b_push in Ep. destruct (b_nspace bk =? 0); simpl in Ep;
        destruct (_ <? _) in Ep; try discriminate; injection Ep as <-; reflexivity. }
      rewrite L, app_length in K. cbn [List.length] in K. split; [lia|reflexivity].
  - injection E as <- _.
    pose proof (set_count t i (b_single V e) None (t_nent t) Eb) as K.
    change (T (t_size t) (t_nent t) (t_bks (set_bk V t i (b_single V e)))) with (set_bk V t i (b_single V e)) in K.
    cbn [List.length bk_ents b_single b_ents] in K.
    split; [lia|reflexivity].
Qed.

Lemma on_bucket_count : forall t k f t' b, on_bucket rnd V t k f = Some (t', b) ->
  (forall l l', f l = Some l' -> (List.length l' <= List.length l)%nat) ->
  (List.length (all_ents V t') <= List.length (all_ents V t))%nat /\ t_nent t' = t_nent t /\
  t_size t' = t_size t.
Proof.
  intros t k f t' b E Hf. unfold on_bucket in E.
  destruct (hashValue _ _ _) as [i|]; [|discriminate].
  destruct (get_bk V t i) as [bk|] eqn:Eb; [|discriminate].
  destruct bk as [bk|]; [|injection E as <- _; auto].
  destruct (f (b_ents bk)) as [l'|] eqn:Ef; [|injection E as <- _; auto].
  injection E as <- _. apply Hf in Ef.
  pose proof (set_count t i (Bk l' (b_nspace bk) (b_cap bk)) _ (t_nent t) Eb) as K. simpl in K.
  unfold set_bk in *. simpl in *. split; [lia|auto].
Qed.

Lemma replace_val_len : forall (l : list (cstr * V)) k v l', replace_val V l k v = Some l' ->
  List.length l' = List.length l.
Proof.
  induction l as [|[a x] l IH]; intros k v l' H; simpl in H; [discriminate|].
  destruct (cstr_eqb a k); [injection H as <-; auto|].
  destruct (replace_val V l k v) eqn:E; [|discriminate]. injection H as <-. simpl. erewrite IH; eauto.
Qed.

Lemma removelast_len : forall A (l : list A), (List.length (removelast l) <= List.length l)%nat.
Proof. induction l as [|a [|b l] IH]; simpl in *; lia. Qed.

Lemma swap_out_len : forall (l : list (cstr * V)) i, (List.length (swap_out V l i) <= List.length l)%nat.
Proof.
  intros l i. unfold swap_out. destruct (rev l); [lia|].
  etransitivity; [apply removelast_len|]. destruct (Nat.ltb _ _); [rewrite len_upd|]; lia.
Qed.

(** The part of the state that keeps int arithmetic in range. *)
Definition small (t : table V) (n : Z) : Prop :=
  0 <= t_nent t <= n /\ t_size t <= 214750 /\ counted t.

Lemma small_le : forall t n m, small t n -> n <= m -> small t m.
Proof. intros t n m ((A & B) & C & D) H. unfold small. auto with zarith. Qed.

Lemma g_insert_pre : forall t n, goodg t -> small t n -> n < 50512 ->
  exists t1, (if negb (in_int (t_nent t * 162) && in_int (t_size t * 100)) then None else
    if t_size t * 100 <? t_nent t * 162 then
           if negb (in_int (t_size t * 26244)) then None else
           let newsize := 1 + t_size t * 26244 / 10000 in
           add_all _ (g_addEntry rnd V) (T newsize 0 (empty_bks V newsize)) (all_ents _ t) false
         else Some (t, false)) = Some (t1, false) /\ goodg t1 /\ small t1 n /\
    forall k, ascii7 k -> viewg t1 k = viewg t k.
Proof.
  intros t n H ((N0 & Nn) & Sz & Ct) Hn. pose proof H as (Hs & _ & _).
  assert (I1 : in_int (t_nent t * 162) = true) by (unfold in_int, INT_MIN, INT_MAX; lia).
  assert (I2 : in_int (t_size t * 100) = true) by (unfold in_int, INT_MIN, INT_MAX; lia).
  rewrite I1, I2. simpl negb.
  destruct (Z.ltb_spec (t_size t * 100) (t_nent t * 162)) as [L|L].
  - assert (Small : t_size t <= 81827) by lia.
    assert (I3 : in_int (t_size t * 26244) = true) by (unfold in_int, INT_MIN, INT_MAX; lia).
    rewrite I3. simpl negb.
    set (ns := 1 + t_size t * 26244 / 10000).
    assert (Hns : 0 < ns <= 214750).
    { unfold ns. assert (0 <= t_size t * 26244 / 10000) by (apply Z.div_pos; lia).
      assert (t_size t * 26244 / 10000 <= 81827 * 26244 / 10000) by (apply Z.div_le_mono; lia).
      change (81827 * 26244 / 10000) with 214746 in *. lia. }
    destruct (all_view V t H) as (Hd & Ha & Hf).
    destruct (g_add_all_ok (all_ents V t) (T ns 0 (empty_bks V ns)) (empty_good V ns 0 ltac:(lia)) Hd)
      as (t' & E & G & S1 & N1 & Vw).
    + simpl. lia.
    + simpl. unfold counted in Ct. unfold INT_MAX. lia.
    + intros k v K. split; [eauto|apply empty_view].
    + exists t'. split; [exact E|]. split; [auto|]. split.
      * simpl in N1, S1. split; [unfold counted in Ct; lia|]. split; [rewrite S1; lia|].
        unfold counted. rewrite N1.
        assert (Len : forall l t t' b b', add_all V (g_addEntry rnd V) t l b = Some (t', b') -> goodg t ->
          (forall t e t' b, g_addEntry rnd V t e = Some (t', b) -> goodg t -> True) ->
          True) by auto. clear Len.
        (* both lists have the same keys, without repetition *)
        destruct (all_view V t' G) as (Hd' & Ha' & Hf').
        assert (incl (map fst (all_ents V t')) (map fst (all_ents V t))).
        { intros k K. apply in_map_iff in K as ((k1 & v1) & <- & K). simpl.
          pose proof (Ha' _ _ K) as A1. apply find_in in K; auto. rewrite Hf', Vw, empty_view in K by auto.
          destruct (find V (all_ents V t) k1) as [v|] eqn:Ef; [|discriminate].
          apply find_in in Ef; auto. apply (in_map fst) in Ef. exact Ef. }
        pose proof (NoDup_incl_length Hd' H0) as Le. rewrite !map_length in Le. lia.
      * intros k Hk. rewrite Vw, empty_view, Hf by auto. destruct (viewg t k); auto.
  - exists t. split; [auto|]. split; [auto|]. split; [|auto]. split; auto.
Qed.

Lemma g_insert_ok : forall t n k v, goodg t -> small t n -> n < 50512 -> ascii7 k ->
  viewg t k = None ->
  exists t', g_insert rnd V t k v = Some (t', false) /\ goodg t' /\ small t' (n + 1) /\
    forall j, ascii7 j -> viewg t' j = if cstr_eqb k j then Some v else viewg t j.
Proof.
  intros t n k v H Sm Hn Hk Hv. destruct (g_insert_pre t n H Sm Hn) as (t1 & E & G & S1 & W).
  unfold g_insert. destruct (negb _); [discriminate|]. cbv zeta in E |- *. rewrite E.
  pose proof S1 as ((N0 & Nn) & Sz & Ct). rewrite incr_ok by (unfold INT_MAX; lia).
  set (t0 := T (t_size t1) (t_nent t1 + 1) (t_bks t1)).
  assert (Hv0 : viewg t0 k = None) by (change (viewg t0 k) with (viewg t1 k); rewrite W; auto).
  destruct (g_put_ok t0 (k, v) G Hk Hv0) as (t2 & E2 & G2 & S2 & N2 & W2). rewrite E2.
  exists t2. split; [reflexivity|]. split; [auto|].
  destruct (g_put_count t0 (k, v) t2 false G E2) as [C2 _].
  split.
  - split; [rewrite N2; simpl; lia|]. split; [rewrite S2; simpl; lia|].
    unfold counted in *. rewrite N2. simpl.
    change (all_ents V t0) with (all_ents V t1) in C2. lia.
  - intros j Hj. rewrite W2 by auto. simpl. rewrite <- W by auto. reflexivity.
Qed.

Lemma g_insert_bug : forall t n k v, goodg t -> small t n -> n < 50512 -> ascii7 k ->
  viewg t k <> None -> exists t', g_insert rnd V t k v = Some (t', true).
Proof.
  intros t n k v H Sm Hn Hk Hv. destruct (g_insert_pre t n H Sm Hn) as (t1 & E & G & S1 & W).
  unfold g_insert. destruct (negb _); [discriminate|]. cbv zeta in E |- *. rewrite E.
  pose proof S1 as ((N0 & Nn) & Sz & Ct). rewrite incr_ok by (unfold INT_MAX; lia).
  set (t0 := T (t_size t1) (t_nent t1 + 1) (t_bks t1)).
  assert (Hv0 : viewg t0 k <> None) by (change (viewg t0 k) with (viewg t1 k); rewrite W; auto).
  assert (T0 : exists r, g_put rnd V t0 (k, v) = Some r).
  { unfold g_put, g_add. pose proof G as (Hs & _ & _). simpl.
    destruct (hash_total _ _ Hk Hs) as (i & Ei & Hi). rewrite Ei.
    destruct (get_total _ _ _ G Hi) as (bk & Eb & _).
    change (get_bk V t0 i) with (get_bk V t1 i). rewrite Eb.
    change (viewg t0 k) with (viewg t1 k) in Hv0.
    rewrite (view_get _ _ _ _ _ Ei Eb) in Hv0. destruct bk as [bk|]; [|simpl in Hv0; congruence].
    simpl in Hv0. destruct (find V (b_ents bk) k); [eauto|congruence]. }
  destruct T0 as ([t2 b] & E2). rewrite E2.
  destruct (g_put_dup t0 (k, v) t2 b G Hk Hv0 E2) as [-> _]. eauto.
Qed.

Definition g_agrees (t : table V) (m : fmap V) : Prop := forall k, ascii7 k -> viewg t k = m k.

Definition g_from (ops : list (gop V)) (s : option (table V * bool)) : option (table V * bool) :=
  fold_left (fun s o => match s with
                        | None => None
                        | Some (t, bug) => match g_op rnd V t o with
                                           | Some (t, b) => Some (t, bug || b)
                                           | None => None end
                        end) ops s.

Lemma inserts_nonneg : forall ops : list (gop V), 0 <= inserts ops.
Proof. induction ops as [|[] ops IH]; simpl; lia. Qed.

Lemma on_small : forall t k f t' b n, on_bucket rnd V t k f = Some (t', b) ->
  (forall l l', f l = Some l' -> (List.length l' <= List.length l)%nat) ->
  small t n -> small t' n.
Proof.
  intros t k f t' b n E Hf ((A & B) & C & D).
  destruct (on_bucket_count t k f t' b E Hf) as (L & E1 & E2).
  unfold small, counted in *. rewrite E1, E2. split; [lia|]. split; lia.
Qed.

Lemma g_op_ok : forall t m o n, goodg t -> small t n -> n < 50512 -> g_agrees t m ->
  ascii7 (g_name o) -> g_legal m o ->
  exists t', g_op rnd V t o = Some (t', false) /\ goodg t' /\ g_agrees t' (g_effect m o) /\
    small t' (n + inserts [o]).
Proof.
  intros t m o n H Sm Hn Ag Hk Hl. destruct o as [k v|k v|k]; simpl in *.
  - destruct (g_insert_ok t n k v H Sm Hn Hk) as (t' & E & G & S1 & W); [rewrite Ag; auto|].
    exists t'. split; [auto|]. split; [auto|]. split; [|eapply small_le; eauto; lia].
    intros j Hj. rewrite W by auto. unfold fset. destruct (cstr_eqb k j); auto.
  - destruct (update_ok V t k v H Hk) as (t' & E & G & S1 & N1 & W); [rewrite Ag; auto|].
    exists t'. split; [auto|]. split; [auto|]. split.
    + intros j Hj. rewrite W by auto. unfold fset. destruct (cstr_eqb k j); auto.
    + rewrite Z.add_0_r. unfold t_update in E.
      eapply on_small; [exact E| |exact Sm]. intros l l' K. apply replace_val_len in K. lia.
  - destruct (remove_ok V t k H Hk) as (t' & E & G & S1 & N1 & W); [rewrite Ag; auto|].
    exists t'. split; [auto|]. split; [auto|]. split.
    + intros j Hj. rewrite W by auto. unfold fset. destruct (cstr_eqb k j); auto.
    + rewrite Z.add_0_r. unfold t_remove in E.
      eapply on_small; [exact E| |exact Sm]. intros l l' K.
      cbv beta in K. destruct (index_of V l k); [|discriminate K]. simpl in K. injection K as <-. apply swap_out_len.
Qed.

Lemma g_from_ok : forall ops t m n, goodg t -> small t n -> n + inserts ops <= 50512 ->
  g_agrees t m -> Forall (fun o => ascii7 (g_name o)) ops -> g_history m ops ->
  exists t', g_from ops (Some (t, false)) = Some (t', false) /\ goodg t' /\
             g_agrees t' (fold_left g_effect ops m) /\ small t' (n + inserts ops).
Proof.
  induction ops as [|o ops IH]; intros t m n H Sm Hn Ag Hk Hl.
  - exists t. simpl. rewrite Z.add_0_r. auto.
  - inversion Hk as [|? ? Ho Hk']; subst. destruct Hl as [Hl Hl'].
    assert (Step : exists t1, g_op rnd V t o = Some (t1, false) /\ goodg t1 /\
              g_agrees t1 (g_effect m o) /\ small t1 (n + inserts [o])).
    { destruct (Z.eq_dec (inserts [o]) 0) as [Z0|Z1].
      - (* no insertion: the bound on n is not needed *)
        destruct o as [k v|k v|k]; simpl in Z0; [lia| |]; simpl inserts; rewrite Z.add_0_r.
        + destruct (update_ok V t k v H Ho) as (t' & E & G & S1 & N1 & W);
            [unfold g_agrees in Ag; rewrite Ag; auto|].
          exists t'. split; [auto|]. split; [auto|]. split.
          * intros j Hj. rewrite W by auto. simpl. unfold fset. destruct (cstr_eqb k j); auto.
          * eapply on_small; [exact E| |exact Sm]. intros l l' K. apply replace_val_len in K. lia.
        + destruct (remove_ok V t k H Ho) as (t' & E & G & S1 & N1 & W);
            [unfold g_agrees in Ag; rewrite Ag; auto|].
          exists t'. split; [auto|]. split; [auto|]. split.
          * intros j Hj. rewrite W by auto. simpl. unfold fset. destruct (cstr_eqb k j); auto.
          * eapply on_small; [exact E| |exact Sm]. intros l l' K.
            cbv beta in K. destruct (index_of V l k); [|discriminate K]. simpl in K. injection K as <-. apply swap_out_len.
      - apply g_op_ok; auto. pose proof (inserts_nonneg ops).
        destruct o; simpl in *; lia. }
    assert (I1 : inserts (o :: ops) = inserts [o] + inserts ops) by (destruct o; simpl; lia).
    rewrite I1. destruct Step as (t1 & E1 & G1 & A1 & S1).
    change (g_from (o :: ops) (Some (t, false))) with
      (g_from ops (match g_op rnd V t o with Some (t, b) => Some (t, false || b) | None => None end)).
    rewrite E1. cbn [orb fold_left]. destruct (IH t1 (g_effect m o) (n + inserts [o])) as (t2 & E2 & G2 & A2 & S2); auto.
    { rewrite I1 in Hn. lia. }
    exists t2. split; [exact E2|]. split; [auto|]. split; [auto|].
    replace (n + (inserts [o] + inserts ops)) with (n + inserts [o] + inserts ops) by lia. auto.
Qed.

Lemma g_from_none : forall ops, g_from ops None = None.
Proof. induction ops; simpl; auto. Qed.

Lemma g_from_true : forall ops t t' b, g_from ops (Some (t, true)) = Some (t', b) -> b = true.
Proof.
  induction ops as [|o ops IH]; intros t t' b H; simpl in H.
  - injection H as _ <-. auto.
  - destruct (g_op rnd V t o) as [[t1 b1]|]; [eapply IH; eauto|].
    fold (g_from ops None) in H. rewrite g_from_none in H. discriminate.
Qed.

Lemma create_small : forall size, size <= 214750 -> small (g_create V size) 0.
Proof.
  intros size H. unfold small, counted. simpl. split; [lia|]. split; [lia|].
  assert (E : all_ents V (g_create V size) = []).
  { unfold all_ents, g_create, empty_bks. simpl. induction (Z.to_nat size); simpl; auto. }
  rewrite E. simpl. lia.
Qed.

Lemma g_history_faithful : forall size ops, 0 < size <= 214750 -> inserts ops <= 50512 ->
  Forall (fun o => ascii7 (g_name o)) ops -> g_history fempty ops ->
  exists t, g_run rnd V ops size = Some (t, false) /\
    forall k, ascii7 k -> t_lookup rnd V t k = Some (g_final ops k).
Proof.
  intros size ops Hs Hi Hn Hl.
  destruct (g_from_ok ops (g_create V size) fempty 0) as (t & E & G & A & _); auto.
  - apply empty_good; lia.
  - apply create_small; lia.
  - intros k _. apply empty_view.
  - exists t. split; [exact E|]. intros k Hk. rewrite (lookup_total V t k G Hk), A by auto. reflexivity.
Qed.


(** An operation used outside its precondition is reported. *)
Lemma g_op_bug : forall t m o n, goodg t -> small t n -> n + inserts [o] <= 50512 -> g_agrees t m ->
  ascii7 (g_name o) -> ~ g_legal m o -> exists t', g_op rnd V t o = Some (t', true).
Proof.
  intros t m o n H Sm Hn Ag Hk Hl. destruct o as [k v|k v|k]; simpl in *.
  - apply g_insert_bug with (n := n); auto; [lia|]. rewrite Ag by auto. exact Hl.
  - exists t. apply update_miss; auto. rewrite Ag by auto. destruct (m k); auto.
    exfalso. apply Hl. discriminate.
  - exists t. apply remove_miss; auto. rewrite Ag by auto. destruct (m k); auto.
    exfalso. apply Hl. discriminate.
Qed.

Lemma g_legal_dec : forall (m : fmap V) o, g_legal m o \/ ~ g_legal m o.
Proof.
  intros m [k v|k v|k]; simpl; destruct (m k); auto; try (left; discriminate); right; intros K;
    try discriminate; auto.
Qed.

Lemma g_from_bug : forall ops t m n t' b, goodg t -> small t n -> n + inserts ops <= 50512 ->
  g_agrees t m -> Forall (fun o => ascii7 (g_name o)) ops -> ~ g_history m ops ->
  g_from ops (Some (t, false)) = Some (t', b) -> b = true.
Proof.
  induction ops as [|o ops IH]; intros t m n t' b H Sm Hn Ag Hk Hl E; [simpl in Hl; tauto|].
  inversion Hk as [|? ? Ho Hk']; subst.
  assert (I1 : inserts (o :: ops) = inserts [o] + inserts ops) by (destruct o; simpl; lia).
  rewrite I1 in Hn. pose proof (inserts_nonneg ops).
  change (g_from (o :: ops) (Some (t, false))) with
      (g_from ops (match g_op rnd V t o with Some (t, b) => Some (t, false || b) | None => None end)) in E.
  destruct (g_legal_dec m o) as [L|L].
  - destruct (g_from_ok [o] t m n) as (t1 & E1 & G1 & A1 & S1); auto; [lia|simpl; auto|].
    simpl in E1. destruct (g_op rnd V t o) as [[t2 b2]|]; [|discriminate]. injection E1 as -> ->.
    eapply IH; [exact G1|exact S1| |exact A1|exact Hk'| |exact E]; [lia|].
    intros K. apply Hl. split; [exact L|exact K].
  - destruct (g_op_bug t m o n H Sm) as (t1 & E1); auto; [lia|]. rewrite E1 in E.
    eapply g_from_true; exact E.
Qed.

Lemma g_history_bug : forall size ops t b, 0 < size <= 214750 -> inserts ops <= 50512 ->
  Forall (fun o => ascii7 (g_name o)) ops -> ~ g_history fempty ops ->
  g_run rnd V ops size = Some (t, b) -> b = true.
Proof.
  intros size ops t b Hs Hi Hn Hl E.
  eapply (g_from_bug ops (g_create V size) fempty 0); eauto.
  - apply empty_good; lia.
  - apply create_small; lia.
  - intros k _. apply empty_view.
Qed.

(** ** Overflow: a table of 82000 buckets cannot grow *)

Lemma fill : forall ks t v, goodg t -> t_size t = 82000 -> 0 <= t_nent t ->
  t_nent t + Z.of_nat (List.length ks) <= 50618 -> NoDup ks ->
  (forall k, In k ks -> ascii7 k /\ viewg t k = None) ->
  exists t', g_from (map (fun k => GInsert V k v) ks) (Some (t, false)) = Some (t', false) /\
    goodg t' /\ t_size t' = 82000 /\ t_nent t' = t_nent t + Z.of_nat (List.length ks).
Proof.
  induction ks as [|k ks IH]; intros t v H Hs H0 Hl Hd Hk.
  - exists t. simpl. split; [auto|]. split; [auto|]. split; auto. lia.
  - inversion Hd as [|? ? Hn Hd']; subst. destruct (Hk k (or_introl eq_refl)) as [Ha Hv].
    simpl List.length in *.
    set (t0 := T (t_size t) (t_nent t + 1) (t_bks t)).
    destruct (g_put_ok t0 (k, v) H Ha Hv) as (t1 & E1 & G1 & S1 & N1 & V1). simpl in S1, N1.
    assert (E : g_op rnd V t (GInsert V k v) = Some (t1, false)).
    { simpl. unfold g_insert.
      replace (in_int (t_nent t * 162)) with true by (unfold in_int, INT_MIN, INT_MAX; lia).
      replace (in_int (t_size t * 100)) with true by (unfold in_int, INT_MIN, INT_MAX; lia).
      simpl negb. cbv iota.
      replace (t_size t * 100 <? t_nent t * 162) with false by lia.
      rewrite incr_ok by (unfold INT_MAX; lia). fold t0. rewrite E1. reflexivity. }
    change (g_from (map (fun k => GInsert V k v) (k :: ks)) (Some (t, false))) with
      (g_from (map (fun k => GInsert V k v) ks)
        (match g_op rnd V t (GInsert V k v) with Some (t, b) => Some (t, false || b) | None => None end)).
    rewrite E. cbn [orb].
    destruct (IH t1 v) as (t2 & E2 & G2 & S2 & N2); auto; try lia.
    + intros j K. destruct (Hk j (or_intror K)) as [A B]. split; [auto|].
      rewrite V1 by auto. simpl. destruct (eqb_spec k j) as [->|]; [contradiction|exact B].
    + exists t2. split; [exact E2|]. split; [auto|]. split; [auto|]. lia.
Qed.

Definition nth_name (n : nat) : cstr := repeat "a"%char n.

Lemma nth_name_ascii : forall n, ascii7 (nth_name n).
Proof.
  intros n. unfold ascii7, nth_name. apply Forall_forall. intros c K. apply repeat_spec in K.
  subst c. vm_compute. reflexivity.
Qed.

Lemma names_nodup : forall n m, NoDup (map nth_name (seq n m)).
Proof.
  intros n m. revert n. induction m as [|m IH]; intros n; simpl; constructor; auto.
  intros K. apply in_map_iff in K as (x & E & K). apply in_seq in K.
  apply (f_equal (@List.length ascii)) in E. unfold nth_name in E. rewrite !repeat_length in E. lia.
Qed.

Definition ins_ops (n : nat) (v : V) : list (gop V) :=
  map (fun k => GInsert V k v) (map nth_name (seq 0 n)).

Lemma ins_history : forall ks m v, NoDup ks -> (forall k, In k ks -> m k = None) ->
  g_history m (map (fun k => GInsert V k v) ks).
Proof.
  induction ks as [|k ks IH]; intros m v Hd Hk; simpl; auto. inversion Hd; subst.
  split; [apply Hk; simpl; auto|]. apply IH; auto. intros j K. unfold fset.
  destruct (eqb_spec k j) as [->|]; [contradiction|]. apply Hk; simpl; auto.
Qed.

Lemma g_overflow : forall v n size, Z.of_nat n = 50618 -> size = 82000 ->
  Forall (fun o => ascii7 (g_name o)) (ins_ops (n + 1) v) /\
  g_history fempty (ins_ops (n + 1) v) /\ g_run rnd V (ins_ops (n + 1) v) size = None.
Proof.
  intros v n size Hn Hsz. split; [|split].
  - apply Forall_forall. intros o K. unfold ins_ops in K. apply in_map_iff in K as (k & <- & K).
    apply in_map_iff in K as (x & <- & _). apply nth_name_ascii.
  - apply ins_history; [apply names_nodup|reflexivity].
  - unfold ins_ops. rewrite seq_app, !map_app. unfold g_run. rewrite fold_left_app.
    destruct (fill (map nth_name (seq 0 n)) (g_create V size) v)
      as (t & E & G & S1 & N1).
    + apply empty_good. lia.
    + exact Hsz.
    + simpl. lia.
    + rewrite map_length, seq_length. simpl t_nent. lia.
    + apply names_nodup.
    + intros k K. apply in_map_iff in K as (x & <- & _). split; [apply nth_name_ascii|apply empty_view].
    + unfold g_from in E. rewrite E. rewrite map_length, seq_length in N1. simpl t_nent in N1.
      cbn [map seq fold_left]. simpl g_op. unfold g_insert.
      rewrite S1, N1, Hn. reflexivity.
Qed.

End GV.
End P.
