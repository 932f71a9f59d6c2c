(** Proofs about the table of macros. *)
From Verif Require Import Cbase Cbase_facts Hash_model Hash_spec.
From Coq Require Import ZifyBool FinFun.

Lemma slot_eqb_eq : forall a b, slot_eqb a b = true <-> a = b.
Proof.
  intros [t b] [t' b']. unfold slot_eqb. cbn [fst snd]. rewrite andb_true_iff, eqb_true_iff, Z.eqb_eq.
  split; [intros [-> ->]; reflexivity|intros E; injection E as -> ->; auto].
Qed.
Lemma slot_eqb_refl : forall a, slot_eqb a a = true.
Proof. intros a. apply slot_eqb_eq. reflexivity. Qed.
Lemma slot_eqb_neq : forall a b, a <> b -> slot_eqb a b = false.
Proof. intros a b H. destruct (slot_eqb a b) eqn:E; [apply slot_eqb_eq in E; contradiction|reflexivity]. Qed.
Lemma slot_dec : forall a b : slot, {a = b} + {a <> b}.
Proof. intros a b. destruct (slot_eqb a b) eqn:E; [left; apply slot_eqb_eq; exact E|right; intros H; apply slot_eqb_eq in H; congruence]. Qed.
Lemma set_tab_same : forall t s v, set_tab t s v s = v.
Proof. intros. unfold set_tab. rewrite slot_eqb_refl. reflexivity. Qed.
Lemma set_tab_other : forall t s v s', s <> s' -> set_tab t s v s' = t s'.
Proof. intros. unfold set_tab. rewrite slot_eqb_neq by assumption. reflexivity. Qed.

(** * Heap *)
Lemma get_lt : forall h a x, get h a = Some x -> (a < List.length h)%nat.
Proof.
  intros h a x H. unfold get in H. destruct (nth_error h a) eqn:E; [|discriminate].
  apply nth_error_Some. congruence.
Qed.
Lemma put_length : forall h a o, List.length (put h a o) = List.length h.
Proof. induction h as [|x h IH]; intros [|a] o; cbn; auto. Qed.
Lemma get_put_same : forall h a o, (a < List.length h)%nat -> get (put h a o) a = o.
Proof.
  induction h as [|x h IH]; intros [|a] o H; cbn in *; try lia; [reflexivity|]. unfold get in *. cbn. apply IH. lia.
Qed.
Lemma get_put_other : forall h a b o, a <> b -> get (put h a o) b = get h b.
Proof.
  induction h as [|x h IH]; intros [|a] [|b] o H; try reflexivity; try congruence.
  unfold get in *. cbn. apply IH. congruence.
Qed.
Lemma get_app_old : forall h x a, (a < List.length h)%nat -> get (h ++ x) a = get h a.
Proof. intros h x a H. unfold get. rewrite nth_error_app1 by exact H. reflexivity. Qed.
Lemma get_app_new : forall h o, get (h ++ [o]) (List.length h) = o.
Proof. intros h o. unfold get. rewrite nth_error_app2 by lia. rewrite Nat.sub_diag. reflexivity. Qed.

(** * Chains *)
Definition entry := (nat * (cstr * value))%type.
Fixpoint dll (h : heap) (sl : slot) (pv : option nat) (l : list entry) (first : option nat) : Prop :=
  match l with
  | [] => first = None
  | (a, (n, v)) :: l' => first = Some a /\ exists nx,
      get h a = Some {| next := nx; prev := pv; bucket_hdr := sl; name := n; val := v |} /\
      hashCode n = snd sl /\ dll h sl (Some a) l' nx
  end.
Definition addrs (l : list entry) : list nat := map fst l.

Lemma dll_addr : forall h sl l pv f a, dll h sl pv l f -> In a (addrs l) -> exists x, get h a = Some x /\ bucket_hdr x = sl.
Proof.
  intros h sl. induction l as [|(c & n & v) l IH]; intros pv f a D I; [destruct I|].
  destruct D as (E & nx & G & HC & D). destruct I as [<-|I]; [cbn; rewrite G; eauto|eauto].
Qed.

Lemma dll_frame : forall h h' sl l pv f, dll h sl pv l f -> (forall a, In a (addrs l) -> get h' a = get h a) -> dll h' sl pv l f.
Proof.
  intros h h' sl. induction l as [|(c & n & v) l IH]; intros pv f D H; [exact D|].
  destruct D as (E & nx & G & HC & D). split; [exact E|]. exists nx. split; [rewrite H; [exact G|left; reflexivity]|].
  split; [exact HC|]. apply IH; [exact D|]. intros a I. apply H. right. exact I.
Qed.

(** A chain is determined by where it begins. *)
Lemma dll_det : forall h sl l l' pv pv' f, dll h sl pv l f -> dll h sl pv' l' f -> addrs l = addrs l'.
Proof.
  intros h sl. induction l as [|(c & n & v) l IH]; intros [|(c' & n' & v') l'] pv pv' f D D'; cbn in *.
  - reflexivity.
  - destruct D' as (E & _). congruence.
  - destruct D as (E & _). congruence.
  - destruct D as (E & nx & G & HC & D). destruct D' as (E' & nx' & G' & HC' & D').
    assert (c = c') as -> by congruence. rewrite G in G'. injection G' as -> _ _ _.
    unfold addrs in *. cbn [map fst]. f_equal. apply (IH _ _ _ _ D D').
Qed.
Lemma dll_tail : forall h sl l pv f a, dll h sl pv l f -> In a (addrs l) ->
  exists l1 e l2 pv', l = l1 ++ (a, e) :: l2 /\ dll h sl pv' ((a, e) :: l2) (Some a).
Proof.
  intros h sl. induction l as [|(c & n & v) l IH]; intros pv f a D I; [destruct I|].
  destruct (Nat.eq_dec c a) as [->|NE].
  - exists [], (n, v), l, pv. split; [reflexivity|]. destruct D as (_ & D). split; [reflexivity|exact D].
  - destruct I as [I|I]; [cbn in I; contradiction|]. destruct D as (_ & nx & _ & _ & D).
    destruct (IH _ _ _ D I) as (l1 & e & l2 & pv' & -> & T).
    exists ((c, (n, v)) :: l1), e, l2, pv'. split; [reflexivity|exact T].
Qed.
Lemma dll_nodup : forall h sl l pv f, dll h sl pv l f -> NoDup (addrs l).
Proof.
  intros h sl. induction l as [|(c & n & v) l IH]; intros pv f D; [constructor|].
  cbn. pose proof D as D0. destruct D as (E & nx & G & HC & D). constructor; [|eauto]. intros I.
  destruct (dll_tail _ _ _ _ _ _ D I) as (l1 & e & l2 & pv' & -> & T).
  assert (dll h sl pv ((c, (n, v)) :: l1 ++ (c, e) :: l2) (Some c)) as D1 by (rewrite E in D0; exact D0).
  pose proof (dll_det _ _ _ _ _ _ _ D1 T) as K. apply (f_equal (@List.length nat)) in K. unfold addrs in K.
  rewrite !map_length in K. cbn [List.length] in K. rewrite app_length in K. cbn [List.length] in K. lia.
Qed.
Lemma dll_length : forall h sl l pv f, dll h sl pv l f -> (List.length l <= List.length h)%nat.
Proof.
  intros h sl l pv f D. replace (List.length l) with (List.length (addrs l)) by apply map_length.
  replace (List.length h) with (List.length (seq 0 (List.length h))) by apply seq_length.
  apply NoDup_incl_length; [exact (dll_nodup _ _ _ _ _ D)|]. intros a I.
  destruct (dll_addr _ _ _ _ _ _ D I) as (x & G & _). apply in_seq. apply get_lt in G. lia.
Qed.

Definition afind (n : cstr) (l : list entry) : option entry := List.find (fun e => cstr_eqb (fst (snd e)) n) l.

Lemma walk_spec : forall h sl n l pv f fuel, dll h sl pv l f -> (List.length l <= fuel)%nat ->
  walk fuel h f n = Some (option_map fst (afind n l)).
Proof.
  intros h sl n. induction l as [|(c & m & v) l IH]; intros pv f fuel D L.
  - cbn in D. subst f. destruct fuel; reflexivity.
  - destruct D as (-> & nx & G & HC & D). destruct fuel as [|fuel]; [cbn in L; lia|].
    cbn [walk]. rewrite G. cbn [bind name next]. unfold afind. cbn [List.find fst snd].
    destruct (cstr_eqb m n); [reflexivity|]. apply (IH _ _ _ D). cbn in L. lia.
Qed.

(** * The invariant *)
Definition chains := slot -> list entry.
Definition inv (s : state) (ch : chains) : Prop := forall sl, dll (mem s) sl None (ch sl) (tab s sl).
Definition set_ch (ch : chains) (sl : slot) (l : list entry) : chains := fun s' => if slot_eqb sl s' then l else ch s'.
Lemma set_ch_same : forall ch sl l, set_ch ch sl l sl = l.
Proof. intros. unfold set_ch. rewrite slot_eqb_refl. reflexivity. Qed.
Lemma set_ch_other : forall ch sl l sl', sl <> sl' -> set_ch ch sl l sl' = ch sl'.
Proof. intros. unfold set_ch. rewrite slot_eqb_neq by assumption. reflexivity. Qed.

Lemma lookup_spec : forall s ch n, inv s ch -> lookup s n = Some (option_map fst (afind n (ch (false, hashCode n)))).
Proof. intros s ch n I. apply (walk_spec _ _ _ _ _ _ _ (I _)). exact (dll_length _ _ _ _ _ (I _)). Qed.

Lemma afind_in : forall n l e, afind n l = Some e -> In e l /\ fst (snd e) = n.
Proof. intros n l e H. apply find_some in H. destruct H as [I E]. split; [exact I|]. apply cstr_eqb_eq. exact E. Qed.

Lemma in_addrs : forall e l, In e l -> In (fst e) (addrs l).
Proof. intros. apply in_map. assumption. Qed.

Lemma dll_get : forall h sl l pv f a n v, dll h sl pv l f -> In (a, (n, v)) l ->
  exists nx p, get h a = Some {| next := nx; prev := p; bucket_hdr := sl; name := n; val := v |}.
Proof.
  intros h sl. induction l as [|(c & m & w) l IH]; intros pv f a n v D I; [destruct I|].
  destruct D as (E & nx & G & HC & D). destruct I as [I|I]; [injection I as -> -> ->; eauto|eauto].
Qed.

Lemma other_chain : forall s ch sl sl' a b, inv s ch -> sl <> sl' -> In a (addrs (ch sl)) -> In b (addrs (ch sl')) -> a <> b.
Proof.
  intros s ch sl sl' a b I N A B ->. destruct (dll_addr _ _ _ _ _ _ (I sl) A) as (x & G & H).
  destruct (dll_addr _ _ _ _ _ _ (I sl') B) as (x' & G' & H'). congruence.
Qed.

Lemma find_spec : forall s ch n, inv s ch -> find s n = Some (option_map (fun e => snd (snd e)) (afind n (ch (false, hashCode n)))).
Proof.
  intros s ch n I. unfold find. rewrite (lookup_spec _ _ _ I). cbn [bind].
  destruct (afind n (ch (false, hashCode n))) as [(a & m & v)|] eqn:E; [|reflexivity].
  apply afind_in in E. destruct E as [E _]. destruct (dll_get _ _ _ _ _ _ _ _ (I _) E) as (nx & p & G).
  cbn [option_map fst snd]. rewrite G. reflexivity.
Qed.

(** * Installing *)
Lemma install_spec : forall s ch n v, inv s ch -> let sl := (false, hashCode n) in
  exists s', install s n v = Some s' /\ inv s' (set_ch ch sl ((List.length (mem s), (n, v)) :: ch sl)).
Proof.
  intros s ch n v I sl. unfold install. fold sl. set (a := List.length (mem s)). pose proof (I sl) as D.
  assert (forall h', (forall sl', sl <> sl' -> dll h' sl' None (ch sl') (tab s sl')) -> dll h' sl (Some a) (ch sl) (tab s sl) ->
    List.length h' = a ->
    inv {| mem := h' ++ [Some {| next := tab s sl; prev := None; bucket_hdr := sl; name := n; val := v |}];
           tab := set_tab (tab s) sl (Some a) |} (set_ch ch sl ((a, (n, v)) :: ch sl))) as K.
  { intros h' K1 K2 L sl'. cbn [mem tab].
    assert (forall sl0 l p f, dll h' sl0 p l f ->
      dll (h' ++ [Some {| next := tab s sl; prev := None; bucket_hdr := sl; name := n; val := v |}]) sl0 p l f) as X.
    { intros sl0 l p f D0. apply (dll_frame h'); [exact D0|]. intros b B. apply get_app_old.
      destruct (dll_addr _ _ _ _ _ _ D0 B) as (x & G & _). exact (get_lt _ _ _ G). }
    destruct (slot_dec sl sl') as [<-|N].
    - rewrite set_ch_same, set_tab_same. split; [reflexivity|]. exists (tab s sl). split; [|split; [reflexivity|]].
      + rewrite <- L. apply get_app_new.
      + apply X. exact K2.
    - rewrite set_ch_other, set_tab_other by exact N. apply X. auto. }
  destruct (ch sl) as [|(c & m & w) l] eqn:CH.
  - cbn in D. rewrite D in *. cbn [update bind]. eexists. split; [reflexivity|]. apply K; auto. reflexivity.
  - destruct D as (E & nx & G & HC & D). rewrite E in *. cbn [update]. rewrite G. cbn [bind].
    eexists. split; [reflexivity|]. apply K.
    + intros sl' N. apply (dll_frame (mem s)); [apply I|]. intros b B. apply get_put_other. intros <-.
      apply (other_chain s ch sl sl' c c I N); [rewrite CH; left; reflexivity|exact B|reflexivity].
    + split; [reflexivity|]. exists nx. split.
      * rewrite get_put_same by exact (get_lt _ _ _ G). reflexivity.
      * split; [exact HC|]. apply (dll_frame (mem s)); [exact D|]. intros b B. apply get_put_other. intros <-.
        assert (NoDup (addrs (ch sl))) as ND by exact (dll_nodup _ _ _ _ _ (I sl)). rewrite CH in ND. inversion ND. contradiction.
    + apply put_length.
Qed.

(** * Replacing a value *)
Definition replace (a : nat) (v : value) (l : list entry) : list entry :=
  map (fun e => if (fst e =? a)%nat then (a, (fst (snd e), v)) else e) l.
Lemma replace_addrs : forall a v l, addrs (replace a v l) = addrs l.
Proof.
  intros a v l. unfold addrs, replace. rewrite map_map. apply map_ext. intros (c & n & w). cbn.
  destruct (c =? a)%nat eqn:E; [apply Nat.eqb_eq in E; auto|reflexivity].
Qed.
Lemma dll_replace : forall h sl a v x l pv f, dll h sl pv l f -> get h a = Some x ->
  dll (put h a (Some (with_val v x))) sl pv (replace a v l) f.
Proof.
  intros h sl a v x. induction l as [|(c & n & w) l IH]; intros pv f D G; [exact D|].
  destruct D as (E & nx & G' & HC & D). cbn [replace map fst snd].
  destruct (c =? a)%nat eqn:CA.
  - apply Nat.eqb_eq in CA. subst c. split; [exact E|]. exists nx. split; [|split; [exact HC|apply IH; assumption]].
    rewrite get_put_same by exact (get_lt _ _ _ G). rewrite G in G'. injection G' as ->. reflexivity.
  - apply Nat.eqb_neq in CA. split; [exact E|]. exists nx. split; [|split; [exact HC|apply IH; assumption]].
    rewrite get_put_other by congruence. exact G'.
Qed.

(** * Deleting *)
Definition without (a : nat) (l : list entry) : list entry := filter (fun e => negb (fst e =? a)%nat) l.

Definition redir (a : nat) (v o : option nat) : option nat :=
  match o with Some b => if (b =? a)%nat then v else o | None => None end.

Lemma dll_redirect : forall h h' sl a x, get h a = Some x ->
  forall l pv f, dll h sl pv l f -> NoDup (addrs l) -> (In a (addrs l) -> next x <> Some a /\ prev x <> Some a) ->
  (forall c y, In c (addrs l) -> c <> a -> get h c = Some y ->
     get h' c = Some {| next := redir a (next x) (next y); prev := redir a (prev x) (prev y); bucket_hdr := bucket_hdr y; name := name y; val := val y |}) ->
  dll h' sl (redir a (prev x) pv) (without a l) (redir a (next x) f).
Proof.
  intros h h' sl a x GX. induction l as [|(c & n & v) l IH]; intros pv f D ND NA H.
  - cbn in D. subst f. reflexivity.
  - destruct D as (-> & nx & G & HC & D). cbn in ND. inversion ND as [|? ? NI ND']. subst.
    cbn [without filter fst redir]. destruct (c =? a)%nat eqn:CA; cbn [negb].
    + apply Nat.eqb_eq in CA. subst c. rewrite G in GX. injection GX as GX. subst x. cbn [next prev] in *.
      destruct NA as [N1 N2]; [left; reflexivity|].
      assert (redir a pv pv = pv) as ->.
      { destruct pv as [b|]; [|reflexivity]. cbn. destruct (b =? a)%nat; reflexivity. }
      assert (redir a nx nx = nx) as EN.
      { destruct nx as [b|]; [|reflexivity]. cbn. destruct (b =? a)%nat; reflexivity. }
      specialize (IH (Some a) nx D ND'). cbn [redir] in IH. rewrite Nat.eqb_refl, EN in IH. apply IH.
      * intros I. contradiction.
      * intros c y I. apply H. right. exact I.
    + apply Nat.eqb_neq in CA. split; [reflexivity|]. exists (redir a (next x) nx). split.
      * rewrite (H c _ (or_introl eq_refl) CA G). reflexivity.
      * split; [exact HC|]. specialize (IH (Some c) nx D ND'). cbn [redir] in IH.
        apply Nat.eqb_neq in CA. rewrite CA in IH. apply IH.
        -- intros I. apply NA. right. exact I.
        -- intros c' y I. apply H. right. exact I.
Qed.

Lemma dll_next_prev : forall h sl l pv f c x b, dll h sl pv l f -> In c (addrs l) -> get h c = Some x -> next x = Some b ->
  exists y, get h b = Some y /\ prev y = Some c /\ In b (addrs l).
Proof.
  intros h sl. induction l as [|(a & n & v) l IH]; intros pv f c x b D I G N; [destruct I|].
  destruct D as (E & nx & G' & HC & D). destruct I as [I|I].
  - cbn in I. subst a. rewrite G in G'. injection G' as ->. cbn in N. subst nx.
    destruct l as [|(b' & n' & v') l]; [discriminate|]. destruct D as (E' & nx' & G' & _). injection E' as <-.
    eexists. split; [exact G'|]. split; [reflexivity|]. right. left. reflexivity.
  - destruct (IH _ _ _ _ _ D I G N) as (y & G2 & P & I2). exists y. split; [exact G2|]. split; [exact P|]. right. exact I2.
Qed.
Lemma dll_prev_next : forall h sl l pv f c x b, dll h sl pv l f -> In c (addrs l) -> get h c = Some x -> prev x = Some b ->
  (pv = Some b /\ f = Some c) \/ exists y, get h b = Some y /\ next y = Some c /\ In b (addrs l).
Proof.
  intros h sl. induction l as [|(a & n & v) l IH]; intros pv f c x b D I G N; [destruct I|].
  destruct D as (E & nx & G' & HC & D). destruct I as [I|I].
  - cbn in I. subst a. rewrite G in G'. injection G' as ->. cbn in N. left. auto.
  - destruct (IH _ _ _ _ _ D I G N) as [[P1 P2]|(y & G2 & P & I2)].
    + injection P1 as <-. right. eexists. split; [exact G'|]. split; [exact P2|]. left. reflexivity.
    + right. exists y. split; [exact G2|]. split; [exact P|]. right. exact I2.
Qed.

Lemma delete_spec : forall s ch sl a, inv s ch -> In a (addrs (ch sl)) ->
  exists s', delete s a = Some s' /\ inv s' (set_ch ch sl (without a (ch sl))) /\ List.length (mem s') = List.length (mem s).
Proof.
  intros s ch sl a I IA. pose proof (I sl) as D. destruct (dll_addr _ _ _ _ _ _ D IA) as (x & G & B).
  pose proof (dll_nodup _ _ _ _ _ D) as ND.
  assert (forall b, next x = Some b -> exists y, get (mem s) b = Some y /\ prev y = Some a /\ In b (addrs (ch sl))) as NX
    by (intros b N; exact (dll_next_prev _ _ _ _ _ _ _ _ D IA G N)).
  assert (forall b, prev x = Some b -> exists y, get (mem s) b = Some y /\ next y = Some a /\ In b (addrs (ch sl))) as PX.
  { intros b N. destruct (dll_prev_next _ _ _ _ _ _ _ _ D IA G N) as [[P _]|P]; [discriminate|exact P]. }
  assert (next x <> Some a) as NA1.
  { intros N. destruct (dll_tail _ _ _ _ _ _ D IA) as (l1 & (n & v) & l2 & pv' & E & T). destruct T as (_ & nx & G' & _ & T).
    rewrite G in G'. injection G' as ->. cbn in N. subst nx. rewrite E in ND. unfold addrs in ND. rewrite map_app in ND. cbn in ND.
    apply NoDup_remove_2 in ND. apply ND. apply in_or_app. right.
    destruct l2 as [|(c & m & w) l2]; [discriminate|]. destruct T as (T & _). injection T as <-. left. reflexivity. }
  assert (prev x <> Some a) as NA2.
  { intros N. destruct (PX a N) as (y & Gy & Ny & _). rewrite G in Gy. injection Gy as <-. exact (NA1 Ny). }
  unfold delete. rewrite G. cbn [bind].
  (* first pointer *)
  assert (exists h1, update (mem s) (prev x) (with_next (next x)) = Some h1 /\ List.length h1 = List.length (mem s) /\
    forall c, get h1 c = match prev x with Some p => if (c =? p)%nat then option_map (with_next (next x)) (get (mem s) c) else get (mem s) c | None => get (mem s) c end) as (h1 & -> & L1 & H1).
  { destruct (prev x) as [p|] eqn:P.
    - destruct (PX p eq_refl) as (y & Gy & _). cbn [update]. rewrite Gy. cbn [bind]. eexists. split; [reflexivity|].
      split; [apply put_length|]. intros c. destruct (c =? p)%nat eqn:CP.
      + apply Nat.eqb_eq in CP. subst c. rewrite get_put_same by exact (get_lt _ _ _ Gy). rewrite Gy. reflexivity.
      + apply Nat.eqb_neq in CP. apply get_put_other. congruence.
    - exists (mem s). auto. }
  cbn [bind].
  assert (exists h2, update h1 (next x) (with_prev (prev x)) = Some h2 /\ List.length h2 = List.length (mem s) /\
    forall c, get h2 c = match next x with Some q => if (c =? q)%nat then option_map (with_prev (prev x)) (get h1 c) else get h1 c | None => get h1 c end) as (h2 & -> & L2 & H2).
  { destruct (next x) as [q|] eqn:N.
    - destruct (NX q eq_refl) as (y & Gy & _). 
      assert (exists z, get h1 q = Some z) as (z & Gz).
      { rewrite H1. destruct (prev x) as [p|]; [destruct (q =? p)%nat|]; rewrite Gy; cbn; eauto. }
      cbn [update]. rewrite Gz. cbn [bind]. eexists. split; [reflexivity|].
      split; [rewrite put_length; exact L1|]. intros c. destruct (c =? q)%nat eqn:CP.
      + apply Nat.eqb_eq in CP. subst c. rewrite get_put_same by exact (get_lt _ _ _ Gz). rewrite Gz. reflexivity.
      + apply Nat.eqb_neq in CP. apply get_put_other. congruence.
    - exists h1. auto. }
  cbn [bind]. eexists. split; [reflexivity|]. split; [|cbn [mem]; rewrite put_length; exact L2].
  intros sl'. cbn [mem tab]. destruct (slot_dec sl sl') as [<-|N].
  - rewrite set_ch_same.
    assert (dll (put h2 a None) sl (redir a (prev x) None) (without a (ch sl)) (redir a (next x) (tab s sl))) as DR.
    { apply (dll_redirect (mem s) (put h2 a None) sl a x G); auto.
      intros c y IC NC GY. rewrite get_put_other by congruence. rewrite H2, H1.
      assert ((exists p, prev x = Some p /\ c = p) <-> next y = Some a) as EP.
      { split.
        - intros (p & P & ->). destruct (PX p P) as (z & Gz & Nz & _). congruence.
        - intros NY. destruct (dll_next_prev _ _ _ _ _ _ _ _ D IC GY NY) as (z & Gz & Pz & _). rewrite G in Gz. injection Gz as <-.
          exists c. auto. }
      assert ((exists q, next x = Some q /\ c = q) <-> prev y = Some a) as EQ.
      { split.
        - intros (q & Q & ->). destruct (NX q Q) as (z & Gz & Nz & _). congruence.
        - intros PY. destruct (dll_prev_next _ _ _ _ _ _ _ _ D IC GY PY) as [[X _]|(z & Gz & Nz & _)]; [discriminate|].
          rewrite G in Gz. injection Gz as <-. exists c. auto. }
      assert (get h1 c = Some (if match prev x with Some p => (c =? p)%nat | None => false end then with_next (next x) y else y)) as G1.
      { rewrite H1. destruct (prev x) as [p|]; [destruct (c =? p)%nat|]; rewrite GY; reflexivity. }
      rewrite <- H1, G1.
      assert (forall (o : option nat) (A : Prop) w z, ((exists p, o = Some p /\ c = p) <-> z = Some a) ->
         (if match o with Some p => (c =? p)%nat | None => false end then w else z) = redir a w z) as R.
      { intros o A w z EE. destruct o as [p|].
        - destruct (c =? p)%nat eqn:CP.
          + apply Nat.eqb_eq in CP. assert (z = Some a) as -> by (apply EE; eauto). cbn. rewrite Nat.eqb_refl. reflexivity.
          + apply Nat.eqb_neq in CP. destruct z as [z|]; [|reflexivity]. cbn. destruct (z =? a)%nat eqn:ZA; [|reflexivity].
            apply Nat.eqb_eq in ZA. subst z. destruct (proj2 EE eq_refl) as (p' & E & ->). congruence.
        - destruct z as [z|]; [|reflexivity]. cbn. destruct (z =? a)%nat eqn:ZA; [|reflexivity].
          apply Nat.eqb_eq in ZA. subst z. destruct (proj2 EE eq_refl) as (p' & E & ->). congruence. }
      rewrite <- (R (prev x) True (next x) (next y) EP), <- (R (next x) True (prev x) (prev y) EQ).
      destruct (prev x) as [p|]; [destruct (c =? p)%nat|]; (destruct (next x) as [q|]; [destruct (c =? q)%nat|]); destruct y; reflexivity. }
    cbn [redir] in DR.
    assert (match tab s (bucket_hdr x) with
            | Some b => if (a =? b)%nat then set_tab (tab s) (bucket_hdr x) (next x) else tab s
            | None => tab s end sl = redir a (next x) (tab s sl)) as ->; [|exact DR].
    rewrite B. destruct (tab s sl) as [b|] eqn:T; [|rewrite T; reflexivity]. cbn [redir].
    rewrite (Nat.eqb_sym b a). destruct (a =? b)%nat; [apply set_tab_same|exact T].
  - rewrite set_ch_other by exact N.
    assert (match tab s (bucket_hdr x) with
            | Some b => if (a =? b)%nat then set_tab (tab s) (bucket_hdr x) (next x) else tab s
            | None => tab s end sl' = tab s sl') as ->.
    { rewrite B. destruct (tab s sl) as [b|]; [|reflexivity]. destruct (a =? b)%nat; [apply set_tab_other; exact N|reflexivity]. }
    apply (dll_frame (mem s)); [apply I|]. intros c IC.
    assert (forall d, In d (addrs (ch sl)) -> d <> c) as NEQ by (intros d Id; apply (other_chain s ch sl sl' d c I N Id IC)).
    rewrite get_put_other by (apply NEQ; exact IA). rewrite H2, H1.
    destruct (next x) as [q|].
    + destruct (NX q eq_refl) as (_ & _ & _ & Iq). specialize (NEQ q Iq) as NQ. destruct (c =? q)%nat eqn:CQ; [apply Nat.eqb_eq in CQ; congruence|].
      destruct (prev x) as [p|]; [|reflexivity]. destruct (PX p eq_refl) as (_ & _ & _ & Ip). specialize (NEQ p Ip) as NP.
      destruct (c =? p)%nat eqn:CP; [apply Nat.eqb_eq in CP; congruence|reflexivity].
    + destruct (prev x) as [p|]; [|reflexivity]. destruct (PX p eq_refl) as (_ & _ & _ & Ip). specialize (NEQ p Ip) as NP.
      destruct (c =? p)%nat eqn:CP; [apply Nat.eqb_eq in CP; congruence|reflexivity].
Qed.

(** * What names mean *)
Definition view (ch : chains) (t : bool) (n : cstr) : option value :=
  option_map (fun e => snd (snd e)) (afind n (ch (t, hashCode n))).

Lemma cstr_eqb_sym : forall a b, cstr_eqb a b = cstr_eqb b a.
Proof.
  intros a b. destruct (cstr_eqb a b) eqn:E.
  - apply cstr_eqb_eq in E. subst. symmetry. apply cstr_eqb_refl.
  - destruct (cstr_eqb b a) eqn:E'; [|reflexivity]. apply cstr_eqb_eq in E'. subst. rewrite cstr_eqb_refl in E. discriminate.
Qed.
Lemma cstr_eqb_false : forall a b, cstr_eqb a b = false <-> a <> b.
Proof.
  intros a b. split.
  - intros E ->. rewrite cstr_eqb_refl in E. discriminate.
  - intros N. destruct (cstr_eqb a b) eqn:E; [apply cstr_eqb_eq in E; contradiction|reflexivity].
Qed.

(** Changing one chain of [hashtab]. *)
Lemma view_set : forall ch n l v, 
  option_map (fun e => snd (snd e)) (afind n l) = v ->
  (forall m, m <> n -> option_map (fun e => snd (snd e)) (afind m l) = option_map (fun e => snd (snd e)) (afind m (ch (false, hashCode n)))) ->
  forall m, view (set_ch ch (false, hashCode n) l) false m = if cstr_eqb n m then v else view ch false m.
Proof.
  intros ch n l v H O m. unfold view. destruct (cstr_eqb n m) eqn:E.
  - apply cstr_eqb_eq in E. subst m. rewrite set_ch_same. exact H.
  - apply cstr_eqb_false in E. destruct (Z.eq_dec (hashCode n) (hashCode m)) as [HE|HE].
    + rewrite <- HE, set_ch_same. apply O. congruence.
    + rewrite set_ch_other by congruence. reflexivity.
Qed.
Lemma set_ch_saved : forall ch b l b', set_ch ch (false, b) l (true, b') = ch (true, b').
Proof. intros. apply set_ch_other. congruence. Qed.

Lemma install_view : forall s ch n v, inv s ch ->
  exists s' ch', install s n v = Some s' /\ inv s' ch' /\ (forall b, ch' (true, b) = ch (true, b)) /\
    forall m, view ch' false m = if cstr_eqb n m then Some v else view ch false m.
Proof.
  intros s ch n v I. destruct (install_spec s ch n v I) as (s' & E & I'). eexists. eexists. split; [exact E|]. split; [exact I'|].
  split; [intros b; apply set_ch_saved|]. apply view_set.
  - unfold afind. cbn [List.find fst snd]. rewrite cstr_eqb_refl. reflexivity.
  - intros m NM. unfold afind. cbn [List.find fst snd]. assert (n <> m) as NM' by congruence. apply cstr_eqb_false in NM'. rewrite NM'. reflexivity.
Qed.

Lemma afind_replace : forall a v n l m, NoDup (addrs l) -> afind n l = Some (a, (n, m)) ->
  afind n (replace a v l) = Some (a, (n, v)) /\
  forall k, k <> n -> option_map (fun e => snd (snd e)) (afind k (replace a v l)) = option_map (fun e => snd (snd e)) (afind k l).
Proof.
  intros a v n l m ND F. split.
  - induction l as [|(c & n' & w) l IH]; [discriminate|]. unfold afind in *. cbn [List.find fst snd replace map] in *.
    destruct (cstr_eqb n' n) eqn:E.
    + injection F as -> -> ->. rewrite Nat.eqb_refl. cbn [fst snd]. rewrite E. reflexivity.
    + destruct (c =? a)%nat eqn:CA.
      * exfalso. apply Nat.eqb_eq in CA. subst c. cbn in ND. inversion ND. apply H1.
        apply find_some in F. destruct F as [F _]. apply (in_map fst) in F. exact F.
      * cbn [fst snd]. rewrite E. apply IH; [inversion ND; assumption|exact F].
  - intros k NK. apply find_some in F. destruct F as [F _].
    induction l as [|(c & n' & w) l IH]; [reflexivity|]. unfold afind in *. cbn [List.find fst snd replace map] in *.
    cbn in ND. inversion ND as [|? ? NI ND']. subst.
    destruct (c =? a)%nat eqn:CA.
    + apply Nat.eqb_eq in CA. subst c. destruct F as [F|F].
      * injection F as -> ->. cbn [fst snd]. assert (n <> k) as NK' by congruence. apply cstr_eqb_false in NK'. rewrite NK'.
        clear IH. assert (replace a v l = l) as E.
        { clear -NI. induction l as [|(c & n' & w) l IH]; [reflexivity|]. cbn in *. destruct (c =? a)%nat eqn:CA.
          - apply Nat.eqb_eq in CA. subst. exfalso. apply NI. left. reflexivity.
          - f_equal. apply IH. auto. }
        unfold replace in E. rewrite E. reflexivity.
      * exfalso. apply NI. apply (in_map fst) in F. exact F.
    + destruct F as [F|F]; [exfalso; injection F as -> _ _; rewrite Nat.eqb_refl in CA; discriminate|].
      cbn [fst snd]. destruct (cstr_eqb n' k); [reflexivity|]. apply IH; assumption.
Qed.

Lemma define_view : forall s ch n d, inv s ch ->
  exists s' ch', define s n d = Some s' /\ inv s' ch' /\ (forall b, ch' (true, b) = ch (true, b)) /\
    forall m, view ch' false m = if cstr_eqb n m then Some (Macro d) else view ch false m.
Proof.
  intros s ch n d I. unfold define. rewrite (lookup_spec _ _ _ I). cbn [bind].
  set (sl := (false, hashCode n)). destruct (afind n (ch sl)) as [(a & n' & v)|] eqn:F; cbn [option_map fst].
  - pose proof (afind_in _ _ _ F) as [IN E]. cbn in E. subst n'.
    destruct (dll_get _ _ _ _ _ _ _ _ (I sl) IN) as (nx & p & G). cbn [update]. rewrite G. cbn [bind].
    eexists. exists (set_ch ch sl (replace a (Macro d) (ch sl))). split; [reflexivity|]. split; [|split; [intros b; apply set_ch_saved|]].
    + intros sl'. cbn [mem tab]. destruct (slot_dec sl sl') as [<-|N].
      * rewrite set_ch_same. apply (dll_replace _ _ _ _ _ _ _ _ (I sl) G).
      * rewrite set_ch_other by exact N. apply (dll_frame (mem s)); [apply I|]. intros b B. apply get_put_other. intros <-.
        apply (other_chain s ch sl sl' a a I N (in_addrs _ _ IN) B eq_refl).
    + destruct (afind_replace a (Macro d) n (ch sl) v (dll_nodup _ _ _ _ _ (I sl)) F) as [R1 R2].
      apply view_set; [fold sl; rewrite R1; reflexivity|exact R2].
  - apply install_view. exact I.
Qed.

(** * Undefining *)
Definition others (n : cstr) (l : list entry) : list entry := filter (fun e => negb (cstr_eqb (fst (snd e)) n)) l.

Lemma filter_shorter : forall A (p : A -> bool) l, (List.length (filter p l) <= List.length l)%nat.
Proof. induction l as [|x l IH]; cbn; [lia|]. destruct (p x); cbn; lia. Qed.
Lemma without_shorter : forall a l, In a (addrs l) -> (List.length (without a l) < List.length l)%nat.
Proof.
  unfold without, addrs. induction l as [|e l IH]; [intros []|]. intros [IN|IN]; cbn [filter].
  - rewrite IN, Nat.eqb_refl. cbn [negb List.length]. apply Nat.lt_succ_r. apply filter_shorter.
  - specialize (IH IN). destruct (negb (fst e =? a)%nat); cbn [List.length]; lia.
Qed.

Lemma undef_loop_spec : forall fuel s ch n, inv s ch -> let sl := (false, hashCode n) in (List.length (ch sl) <= fuel)%nat ->
  exists s', undef_loop fuel s n = Some s' /\ inv s' (set_ch ch sl (others n (ch sl))).
Proof.
  induction fuel as [|fuel IH]; intros s ch n I sl L.
  - assert (ch sl = []) as CH by (destruct (ch sl); [reflexivity|cbn in L; lia]).
    cbn [undef_loop]. rewrite (lookup_spec _ _ _ I). cbn [bind]. fold sl. rewrite CH. cbn [afind List.find option_map others filter].
    exists s. split; [reflexivity|]. intros sl'. destruct (slot_dec sl sl') as [<-|N].
    + rewrite set_ch_same. pose proof (I sl) as D. rewrite CH in D. exact D.
    + rewrite set_ch_other by exact N. apply I.
  - cbn [undef_loop]. rewrite (lookup_spec _ _ _ I). cbn [bind]. fold sl.
    destruct (afind n (ch sl)) as [(a & n' & v)|] eqn:F; cbn [option_map fst].
    + pose proof (afind_in _ _ _ F) as [IN E]. cbn in E. subst n'.
      destruct (delete_spec s ch sl a I (in_addrs _ _ IN)) as (s1 & E1 & I1 & _). rewrite E1. cbn [bind].
      destruct (IH s1 _ n I1) as (s2 & E2 & I2).
      { fold sl. rewrite set_ch_same. pose proof (without_shorter a (ch sl) (in_addrs _ _ IN)). lia. }
      exists s2. split; [exact E2|]. fold sl in I2. rewrite set_ch_same in I2.
      assert (others n (without a (ch sl)) = others n (ch sl)) as EO.
      { pose proof (dll_nodup _ _ _ _ _ (I sl)) as ND. revert ND IN. generalize (ch sl). clear.
        induction l as [|(c & m & w) l IH]; intros ND IN; [destruct IN|]. cbn in ND. inversion ND as [|? ? NI ND']. subst.
        cbn [without filter fst]. destruct (c =? a)%nat eqn:CA; cbn [negb].
        - apply Nat.eqb_eq in CA. subst c. destruct IN as [IN|IN].
          + injection IN as -> ->. cbn [others filter fst snd]. rewrite cstr_eqb_refl. cbn [negb].
            assert (without a l = l) as W.
            { clear -NI. induction l as [|(c & m & w) l IH]; [reflexivity|]. cbn in *. destruct (c =? a)%nat eqn:CA.
              - apply Nat.eqb_eq in CA. subst. exfalso. apply NI. left. reflexivity.
              - cbn. f_equal. apply IH. auto. }
            unfold without in W. rewrite W. reflexivity.
          + exfalso. apply NI. apply (in_map fst) in IN. exact IN.
        - destruct IN as [IN|IN]; [exfalso; injection IN as -> _ _; rewrite Nat.eqb_refl in CA; discriminate|].
          specialize (IH ND' IN). unfold others, without in *. cbn [filter fst snd]. rewrite IH. reflexivity. }
      intros sl'. specialize (I2 sl'). destruct (slot_dec sl sl') as [<-|N].
      * rewrite set_ch_same in *. rewrite EO in I2. exact I2.
      * rewrite !set_ch_other in * by exact N. exact I2.
    + exists s. split; [reflexivity|]. intros sl'. destruct (slot_dec sl sl') as [<-|N].
      * rewrite set_ch_same. assert (others n (ch sl) = ch sl) as ->; [|apply I].
        revert F. generalize (ch sl). clear. unfold afind, others. induction l as [|e l IH]; [reflexivity|]. cbn.
        destruct (cstr_eqb (fst (snd e)) n); [discriminate|]. intros F. cbn. f_equal. apply IH. exact F.
      * rewrite set_ch_other by exact N. apply I.
Qed.

Lemma undef_view : forall s ch n, inv s ch ->
  exists s' ch', undef s n = Some s' /\ inv s' ch' /\ (forall b, ch' (true, b) = ch (true, b)) /\
    forall m, view ch' false m = if cstr_eqb n m then None else view ch false m.
Proof.
  intros s ch n I. destruct (undef_loop_spec (List.length (mem s)) s ch n I (dll_length _ _ _ _ _ (I _))) as (s' & E & I').
  eexists. eexists. split; [exact E|]. split; [exact I'|]. split; [intros b; apply set_ch_saved|]. apply view_set.
  - generalize (ch (false, hashCode n)). clear. unfold afind, others. induction l as [|e l IH]; [reflexivity|]. cbn.
    destruct (cstr_eqb (fst (snd e)) n) eqn:EE; cbn; [exact IH|]. rewrite EE. exact IH.
  - intros m NM. generalize (ch (false, hashCode n)). clear -NM. unfold afind, others. induction l as [|e l IH]; [reflexivity|]. cbn.
    destruct (cstr_eqb (fst (snd e)) n) eqn:EE; cbn.
    + apply cstr_eqb_eq in EE. rewrite EE. assert (n <> m) as NM' by congruence. apply cstr_eqb_false in NM'. rewrite NM'. exact IH.
    + destruct (cstr_eqb (fst (snd e)) m); [reflexivity|exact IH].
Qed.

(** * Copying *)
Definition copied (l l' : list entry) : Prop :=
  map snd l' = map (fun e => (fst (snd e), copy_value (snd (snd e)))) l.

Lemma copy_spec : forall h0 sl hdr l pv0 f pv h fuel,
  dll h0 sl pv0 l f -> snd sl = snd hdr -> (List.length l <= fuel)%nat ->
  (List.length h0 <= List.length h)%nat -> (forall a, (a < List.length h0)%nat -> get h a = get h0 a) ->
  exists h' r l', copy fuel h f hdr pv = Some (h', r) /\ dll h' hdr pv l' r /\ copied l l' /\
    (List.length h <= List.length h')%nat /\ (forall a, (a < List.length h)%nat -> get h' a = get h a) /\
    (forall a, In a (addrs l') -> (List.length h <= a)%nat).
Proof.
  intros h0 sl hdr. induction l as [|(c & n & v) l IH]; intros pv0 f pv h fuel D S L LH AG.
  - cbn in D. subst f. exists h, None, []. destruct fuel; (repeat split; auto; intros a []).
  - destruct D as (-> & nx & G & HC & D). destruct fuel as [|fuel]; [cbn in L; lia|]. cbn [copy].
    rewrite AG by exact (get_lt _ _ _ G). rewrite G. cbn [bind next name val].
    destruct (IH (Some c) nx (Some (List.length h)) (h ++ [None]) fuel D S) as (h' & r & l' & E & D' & C & LL & AG' & NEW).
    { cbn in L. lia. }
    { rewrite app_length. lia. }
    { intros a A. rewrite get_app_old by lia. apply AG. exact A. }
    rewrite app_length in LL. cbn [List.length] in LL. rewrite app_length in AG', NEW. cbn [List.length] in AG', NEW.
    rewrite E. cbn [bind fst snd].
    eexists. exists (Some (List.length h)), ((List.length h, (n, copy_value v)) :: l').
    split; [reflexivity|]. split; [|split; [|split; [|split]]].
    + split; [reflexivity|]. exists r. split; [apply get_put_same; lia|]. split; [congruence|].
      apply (dll_frame h'); [exact D'|]. intros a A. apply get_put_other. specialize (NEW a A). lia.
    + unfold copied in *. cbn [map snd fst]. f_equal. exact C.
    + rewrite put_length. lia.
    + intros a A. rewrite get_put_other by lia. rewrite AG' by lia. apply get_app_old. exact A.
    + intros a [<-|A]; [cbn; lia|]. specialize (NEW a A). lia.
Qed.

Lemma copied_find : forall l l' n, copied l l' ->
  option_map (fun e => snd (snd e)) (afind n l') = option_map copy_value (option_map (fun e => snd (snd e)) (afind n l)).
Proof.
  unfold copied, afind. induction l as [|(a & m & v) l IH]; intros [|(a' & m' & v') l'] n C; try discriminate; [reflexivity|].
  cbn [map fst snd] in C. injection C as -> -> C. cbn [List.find fst snd]. destruct (cstr_eqb m n); [reflexivity|]. apply IH. exact C.
Qed.

Lemma copy_table_spec : forall from to bs s ch, from <> to -> NoDup bs -> inv s ch ->
  exists s' ch', copy_table from to bs s = Some s' /\ inv s' ch' /\
    (forall b, ch' (from, b) = ch (from, b)) /\
    (forall b, ~ In b bs -> ch' (to, b) = ch (to, b)) /\
    (forall b, In b bs -> copied (ch (from, b)) (ch' (to, b))).
Proof.
  intros from to. induction bs as [|b bs IH]; intros s ch FT ND I.
  - exists s, ch. split; [reflexivity|]. split; [exact I|]. split; [auto|]. split; [auto|]. intros b [].
  - inversion ND as [|? ? NI ND']. subst. cbn [copy_table].
    destruct (copy_spec (mem s) (from, b) (to, b) (ch (from, b)) None (tab s (from, b)) None (mem s) (List.length (mem s)) (I _) eq_refl (dll_length _ _ _ _ _ (I _)) (le_n _) (fun a _ => eq_refl))
      as (h' & r & l' & E & D & C & LL & AG & NEW).
    rewrite E. cbn [bind fst snd].
    assert (inv {| mem := h'; tab := set_tab (tab s) (to, b) r |} (set_ch ch (to, b) l')) as I'.
    { intros sl'. cbn [mem tab]. destruct (slot_dec (to, b) sl') as [<-|N].
      - rewrite set_ch_same, set_tab_same. exact D.
      - rewrite set_ch_other, set_tab_other by exact N. apply (dll_frame (mem s)); [apply I|]. intros a A. apply AG.
        destruct (dll_addr _ _ _ _ _ _ (I sl') A) as (x & G & _). exact (get_lt _ _ _ G). }
    destruct (IH _ _ FT ND' I') as (s2 & ch2 & E2 & I2 & F2 & T2 & C2).
    exists s2, ch2. split; [exact E2|]. split; [exact I2|].
    assert (forall b', set_ch ch (to, b) l' (from, b') = ch (from, b')) as FR by (intros b'; apply set_ch_other; congruence).
    split; [intros b'; rewrite F2; apply FR|]. split.
    + intros b' NB. rewrite T2 by (intros X; apply NB; right; exact X). apply set_ch_other. intros X. apply NB. left. congruence.
    + intros b' [<-|IB].
      * rewrite T2 by exact NI. rewrite set_ch_same. exact C.
      * specialize (C2 b' IB). rewrite FR in C2. exact C2.
Qed.

Lemma buckets_nodup : NoDup buckets.
Proof. apply Injective_map_NoDup; [intros a b H; lia|apply seq_NoDup]. Qed.
Lemma hashCode_bucket : forall n, In (hashCode n) buckets.
Proof.
  intros n. unfold buckets. apply in_map_iff. exists (Z.to_nat (hashCode n)).
  assert (0 <= hashCode n < HASHSIZE) by (apply Z.mod_pos_bound; reflexivity).
  split; [lia|]. apply in_seq. lia.
Qed.

Lemma copy_view : forall from to s ch, from <> to -> inv s ch ->
  exists s' ch', copy_table from to buckets s = Some s' /\ inv s' ch' /\
    (forall n, view ch' from n = view ch from n) /\ (forall n, view ch' to n = option_map copy_value (view ch from n)).
Proof.
  intros from to s ch FT I. destruct (copy_table_spec from to buckets s ch FT buckets_nodup I) as (s' & ch' & E & I' & F & _ & C).
  exists s', ch'. split; [exact E|]. split; [exact I'|]. split.
  - intros n. unfold view. rewrite F. reflexivity.
  - intros n. unfold view. apply copied_find. apply C. apply hashCode_bucket.
Qed.

(** * Histories *)
Definition aop (o : op) (m : (cstr -> option value) * (cstr -> option value)) : (cstr -> option value) * (cstr -> option value) :=
  match o with
  | Define n d => (fun k => if cstr_eqb n k then Some (Macro d) else fst m k, snd m)
  | Install n v => (fun k => if cstr_eqb n k then Some v else fst m k, snd m)
  | Undef n => (fun k => if cstr_eqb n k then None else fst m k, snd m)
  | Save => (fst m, fun k => option_map copy_value (fst m k))
  | Restore => (fun k => option_map copy_value (snd m k), snd m)
  end.

Definition related (s : state) (m : (cstr -> option value) * (cstr -> option value)) : Prop :=
  exists ch, inv s ch /\ (forall n, view ch false n = fst m n) /\ (forall n, view ch true n = snd m n).

Lemma step_related : forall o s m, related s m -> exists s', step s o = Some s' /\ related s' (aop o m).
Proof.
  intros o s m (ch & I & V1 & V2).
  assert (forall (s' : state) ch', (forall b, ch' (true, b) = ch (true, b)) -> forall n, view ch' true n = snd m n) as SV.
  { intros _ ch' E n. rewrite <- V2. unfold view. rewrite E. reflexivity. }
  destruct o as [n d|n|n v| |]; cbn [step aop].
  - destruct (define_view s ch n d I) as (s' & ch' & E & I' & B & V). exists s'. split; [exact E|]. exists ch'. split; [exact I'|]. cbn [fst snd].
    split; [intros k; rewrite V, V1; reflexivity|]. exact (SV s' ch' B).
  - destruct (undef_view s ch n I) as (s' & ch' & E & I' & B & V). exists s'. split; [exact E|]. exists ch'. split; [exact I'|]. cbn [fst snd].
    split; [intros k; rewrite V, V1; reflexivity|]. exact (SV s' ch' B).
  - destruct (install_view s ch n v I) as (s' & ch' & E & I' & B & V). exists s'. split; [exact E|]. exists ch'. split; [exact I'|]. cbn [fst snd].
    split; [intros k; rewrite V, V1; reflexivity|]. exact (SV s' ch' B).
  - destruct (copy_view false true s ch ltac:(discriminate) I) as (s' & ch' & E & I' & F & T). exists s'. split; [exact E|]. exists ch'. split; [exact I'|]. cbn [fst snd].
    split; [intros k; rewrite F; apply V1|]. intros k. rewrite T, V1. reflexivity.
  - destruct (copy_view true false s ch ltac:(discriminate) I) as (s' & ch' & E & I' & F & T). exists s'. split; [exact E|]. exists ch'. split; [exact I'|]. cbn [fst snd].
    split; [intros k; rewrite T, V2; reflexivity|]. intros k. rewrite F. apply V2.
Qed.

Lemma run_related : forall os s m, related s m -> exists s', run s os = Some s' /\ related s' (fold_left (fun m o => aop o m) os m).
Proof.
  induction os as [|o os IH]; intros s m R; [exists s; auto|]. destruct (step_related o s m R) as (s1 & E & R1).
  destruct (IH _ _ R1) as (s2 & E2 & R2). exists s2. split; [cbn [run]; rewrite E; exact E2|exact R2].
Qed.

Lemma init_related : related init (fun _ => None, fun _ => None).
Proof. exists (fun _ => []). split; [intros sl; reflexivity|]. split; reflexivity. Qed.

Lemma related_find : forall s m n, related s m -> find s n = Some (fst m n).
Proof. intros s m n (ch & I & V1 & _). rewrite (find_spec _ _ _ I). f_equal. apply V1. Qed.

Lemma latest_aop : forall os n m, Forall plain os -> fst (fold_left (fun m o => aop o m) os m) n = latest n os (fst m n).
Proof.
  induction os as [|o os IH]; intros n m P; [reflexivity|]. inversion P; subst. cbn [fold_left]. rewrite IH by assumption.
  destruct o as [k d|k|k v| |]; cbn [latest aop fst]; try reflexivity; contradiction.
Qed.

Lemma finite_map : forall os, Forall plain os -> exists s, run init os = Some s /\ forall n, find s n = Some (latest n os None).
Proof.
  intros os P. destruct (run_related os _ _ init_related) as (s & E & R). exists s. split; [exact E|]. intros n.
  rewrite (related_find _ _ n R), latest_aop by exact P. reflexivity.
Qed.

Lemma saved_kept : forall os m, (forall o, In o os -> o <> Save) -> snd (fold_left (fun m o => aop o m) os m) = snd m.
Proof.
  induction os as [|o os IH]; intros m H; [reflexivity|]. cbn [fold_left]. rewrite IH by (intros x I; apply H; right; exact I).
  destruct o; try reflexivity. exfalso. apply (H Save); [left; reflexivity|reflexivity].
Qed.

(** After restoring, each name has a copy of a copy of what it had when the table was saved. *)
Lemma restored : forall os1 os2 n, (forall o, In o os2 -> o <> Save) ->
  exists s1 s2 v, run init os1 = Some s1 /\ run init (os1 ++ [Save] ++ os2 ++ [Restore]) = Some s2 /\
    find s1 n = Some v /\ find s2 n = Some (option_map (fun x => copy_value (copy_value x)) v).
Proof.
  intros os1 os2 n NS. destruct (run_related os1 _ _ init_related) as (s1 & E1 & R1).
  destruct (run_related (os1 ++ [Save] ++ os2 ++ [Restore]) _ _ init_related) as (s2 & E2 & R2).
  exists s1, s2, (fst (fold_left (fun m o => aop o m) os1 (fun _ => None, fun _ => None)) n).
  split; [exact E1|]. split; [exact E2|]. split; [exact (related_find _ _ n R1)|].
  rewrite (related_find _ _ n R2). f_equal. rewrite !fold_left_app. cbn [fold_left app].
  cbn [aop fst]. rewrite saved_kept by exact NS. cbn [snd].
  destruct (fst _ n); reflexivity.
Qed.
