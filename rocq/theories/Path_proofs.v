From Verif Require Import Cbase Cbase_facts Cmem Path_model Path_spec.

Lemma strrchr_none : forall c s, strrchr c s = None <-> ~ In c s.
Proof.
  induction s as [|x t IH]; simpl.
  - tauto.
  - destruct (strrchr c t) eqn:E.
    + split; [discriminate|]. intros H. exfalso. apply H. right.
      destruct (in_dec Ascii.ascii_dec c t) as [I|I]; auto.
      apply IH in I. discriminate.
    + destruct (Ascii.eqb_spec x c).
      * split; [discriminate|]. intros H; exfalso; apply H; auto.
      * split; auto. intros _ [H|H]; auto. apply IH in H; auto.
Qed.

Lemma strrchr_app : forall c a b,
  strrchr c (a ++ b) = match strrchr c b with
                       | Some r => Some r
                       | None => option_map (fun r => r ++ b) (strrchr c a)
                       end.
Proof.
  induction a as [|x t IH]; simpl; intros b.
  - destruct (strrchr c b); auto.
  - rewrite IH. destruct (strrchr c b); auto.
    destruct (strrchr c t); simpl; auto.
    destruct (Ascii.eqb x c); auto.
Qed.

Lemma strrchr_here : forall c r, ~ In c r -> strrchr c (c :: r) = Some (c :: r).
Proof.
  intros c r H. simpl. apply strrchr_none in H. rewrite H, Ascii.eqb_refl. reflexivity.
Qed.

Lemma strrchr_some : forall c s t, strrchr c s = Some t ->
  exists p r, s = p ++ t /\ t = c :: r /\ ~ In c r.
Proof.
  induction s as [|x s IH]; simpl; intros t H; [discriminate|].
  destruct (strrchr c s) eqn:E.
  - injection H as H; subst. destruct (IH _ eq_refl) as (p & r & A & B & C).
    exists (x :: p), r. rewrite A. auto.
  - destruct (Ascii.eqb_spec x c); [|discriminate]. injection H as H; subst.
    exists [], s. split; [reflexivity|]. split; [reflexivity|]. apply strrchr_none; auto.
Qed.

Lemma before_app : forall p t, before (p ++ t) t = p.
Proof.
  intros p t. unfold before. rewrite app_length.
  replace (_ + _ - _)%nat with (List.length p + 0)%nat by lia.
  rewrite firstn_app_2. simpl. apply app_nil_r.
Qed.

Lemma path_split_exists : forall s, exists dir base, path_split s dir base.
Proof.
  intros s. destruct (strrchr ch_slash s) as [t|] eqn:E.
  - destruct (strrchr_some _ _ _ E) as (p & r & A & B & C). subst t.
    exists (p ++ ["/"%char]), r. split; [rewrite <- app_assoc; exact A|].
    split; [exact C|]. right. exists p. reflexivity.
  - exists [], s. split; [reflexivity|]. split; [apply strrchr_none; exact E|]. auto.
Qed.

Lemma removePath_base : forall s dir base, path_split s dir base -> removePath s = base.
Proof.
  intros s dir base (-> & N & D). unfold removePath.
  rewrite strrchr_app. pose proof N as N'. apply strrchr_none in N'.
  unfold ch_slash. rewrite N'.
  destruct D as [->|[d ->]]; simpl; auto.
  rewrite strrchr_app. rewrite strrchr_here by (intros []). reflexivity.
Qed.

Lemma ext_strrchr : forall dir base stem ext, extension_of base stem ext ->
  strrchr ch_dot (dir ++ base) = Some ext /\ before (dir ++ base) ext = dir ++ stem.
Proof.
  intros dir base stem ext (-> & r & -> & N).
  rewrite app_assoc. rewrite before_app. split; auto.
  rewrite strrchr_app. unfold ch_dot. rewrite strrchr_here by auto. reflexivity.
Qed.

Lemma no_ext_strrchr : forall dir base, no_extension base ->
  strrchr ch_dot (dir ++ base) = option_map (fun r => r ++ base) (strrchr ch_dot dir).
Proof.
  intros dir base N. rewrite strrchr_app. apply strrchr_none in N. unfold ch_dot. rewrite N.
  reflexivity.
Qed.

Lemma dotted_dir_slash : forall s dir base t, path_split s dir base -> no_extension base ->
  strrchr ch_dot s = Some t -> In "/"%char t.
Proof.
  intros s dir base t (-> & N & D) NE E. rewrite no_ext_strrchr in E by auto.
  destruct (strrchr ch_dot dir) as [u|] eqn:F; [|discriminate]. injection E as <-.
  apply in_or_app. left.
  destruct D as [->|[d ->]]; [discriminate|].
  destruct (strrchr_some _ _ _ F) as (p & r & A & B & C). subst u.
  destruct r as [|x r] using rev_ind.
  - apply app_inj_tail in A. destruct A as [_ A]. discriminate.
  - clear IHr. rewrite app_comm_cons, app_assoc in A. apply app_inj_tail in A. destruct A as [_ <-].
    right. apply in_or_app. right. left. reflexivity.
Qed.

Lemma base_ext_dec : forall base, no_extension base \/ exists stem ext, extension_of base stem ext.
Proof.
  intros base. destruct (strrchr ch_dot base) as [t|] eqn:E.
  - right. destruct (strrchr_some _ _ _ E) as (p & r & A & B & C).
    exists p, t. split; auto. exists r. auto.
  - left. apply strrchr_none. exact E.
Qed.

Lemma ext_unique : forall base s1 e1 s2 e2, extension_of base s1 e1 -> extension_of base s2 e2 -> e1 = e2.
Proof.
  intros base s1 e1 s2 e2 A B.
  destruct (ext_strrchr [] _ _ _ A) as [P _]. destruct (ext_strrchr [] _ _ _ B) as [Q _].
  congruence.
Qed.

Lemma ext_not_none : forall base stem ext, extension_of base stem ext -> ~ no_extension base.
Proof.
  intros base stem ext (-> & r & -> & _) N. apply N. apply in_or_app. right. left. reflexivity.
Qed.

(** [fileLib_withoutExtension] *)
Lemma without_same : forall s dir base stem ext, path_split s dir base -> extension_of base stem ext ->
  withoutExtension s ext = dir ++ stem.
Proof.
  intros s dir base stem ext (-> & _) E. unfold withoutExtension.
  destruct (ext_strrchr dir _ _ _ E) as [-> B]. rewrite cstr_eqb_refl. exact B.
Qed.

Lemma without_other : forall s dir base suffix, path_split s dir base -> ~ In "/"%char suffix ->
  (forall stem, ~ extension_of base stem suffix) -> withoutExtension s suffix = s.
Proof.
  intros s dir base suffix P NS H. unfold withoutExtension.
  destruct (strrchr ch_dot s) as [t|] eqn:E; auto.
  destruct (cstr_eqb t suffix) eqn:Q; auto. exfalso. apply cstr_eqb_eq in Q. subst t.
  destruct (base_ext_dec base) as [N|(stem & ext & X)].
  - apply NS. eapply dotted_dir_slash; eauto.
  - destruct P as (-> & _). destruct (ext_strrchr dir _ _ _ X) as [Y _].
    assert (ext = suffix) by congruence. subst. eapply H; eauto.
Qed.

(** [fileLib_hasExtension] *)
Lemma has_ext_iff : forall s dir base ext, path_split s dir base -> ~ In "/"%char ext -> ext <> [] ->
  (hasExtension s ext = true <-> exists stem, extension_of base stem ext).
Proof.
  intros s dir base ext P NS NE. unfold hasExtension, getExtension, cstring_equal.
  destruct (strrchr ch_dot s) as [t|] eqn:E.
  - rewrite cstr_eqb_eq. destruct (base_ext_dec base) as [N|(stem & e & X)].
    + split.
      * intros ->. exfalso. apply NS. eapply dotted_dir_slash; eauto.
      * intros (st & X). exfalso. eapply ext_not_none; eauto.
    + pose proof P as (-> & _). destruct (ext_strrchr dir _ _ _ X) as [Y _].
      assert (e = t) by congruence. subst e. split.
      * intros ->. eauto.
      * intros (st & Z). eapply ext_unique; eauto.
  - split.
    + rewrite cstr_eqb_eq. intros ->. congruence.
    + intros (st & X). destruct P as (-> & _). destruct (ext_strrchr dir _ _ _ X) as [Y _]. congruence.
Qed.

Lemma header_iff : forall s dir base, path_split s dir base ->
  (isHeaderFile s = true <->
   exists stem ext, extension_of base stem ext /\ (ext = lit ".h" \/ ext = lit ".H" \/ ext = lit ".lh")).
Proof.
  intros s dir base P.
  assert (forall e, In e [lit ".h"; lit ".H"; lit ".lh"] ->
           (hasExtension s e = true <-> exists stem, extension_of base stem e)) as H.
  { intros e I. eapply has_ext_iff; eauto.
    - simpl in I. destruct I as [<-|[<-|[<-|[]]]]; vm_compute; intuition discriminate.
    - simpl in I. destruct I as [<-|[<-|[<-|[]]]]; discriminate. }
  unfold isHeaderFile. rewrite !orb_true_iff.
  change (cstring_equal (getExtension s) (Some (lit ".h"))) with (hasExtension s (lit ".h")).
  change (cstring_equal (getExtension s) (Some (lit ".H"))) with (hasExtension s (lit ".H")).
  change (cstring_equal (getExtension s) (Some (lit ".lh"))) with (hasExtension s (lit ".lh")).
  rewrite (H (lit ".h")), (H (lit ".H")), (H (lit ".lh")) by (simpl; auto).
  split.
  - intros [[[st X]|[st X]]|[st X]]; eauto 8.
  - intros (st & e & X & [->|[->| ->]]); eauto.
Qed.

(** [fileLib_addExtension], [fileLib_removeAnyExtension] *)
Lemma add_with : forall s dir base stem ext suf, path_split s dir base -> extension_of base stem ext ->
  addExtension s suf = s.
Proof.
  intros s dir base stem ext suf (-> & _) E. unfold addExtension.
  destruct (ext_strrchr dir _ _ _ E) as [-> _]. reflexivity.
Qed.

Lemma add_without : forall s dir base suf, path_split s dir base -> no_extension base ->
  ~ In "."%char dir -> addExtension s suf = s ++ suf.
Proof.
  intros s dir base suf (-> & _) E D. unfold addExtension.
  rewrite no_ext_strrchr by auto. apply strrchr_none in D. unfold ch_dot. rewrite D. reflexivity.
Qed.

Lemma add_dotted_dir : forall s dir base suf, path_split s dir base -> In "."%char dir ->
  addExtension s suf = s.
Proof.
  intros s dir base suf (-> & _) D. unfold addExtension.
  destruct (strrchr ch_dot (dir ++ base)) eqn:E; auto.
  exfalso. apply strrchr_none in E. apply E. apply in_or_app. left. exact D.
Qed.

Lemma remove_with : forall s dir base stem ext, path_split s dir base -> extension_of base stem ext ->
  removeAnyExtension s = dir ++ stem.
Proof.
  intros s dir base stem ext (-> & _) E. unfold removeAnyExtension.
  destruct (ext_strrchr dir _ _ _ E) as [-> B]. exact B.
Qed.

Lemma remove_without : forall s dir base, path_split s dir base -> no_extension base ->
  ~ In "."%char dir -> removeAnyExtension s = s.
Proof.
  intros s dir base (-> & _) E D. unfold removeAnyExtension.
  rewrite no_ext_strrchr by auto. apply strrchr_none in D. unfold ch_dot. rewrite D. reflexivity.
Qed.

(** [removePreDirs] *)
Lemma removePreDirs_spec : forall n s, (List.length s <= n)%nat ->
  exists k, s = dotslashes k ++ removePreDirs s /\
            (forall t, removePreDirs s <> "."%char :: "/"%char :: t).
Proof.
  induction n as [|n IH]; intros s L.
  - destruct s; [|simpl in L; lia]. exists O. split; [reflexivity|discriminate].
  - destruct s as [|a [|b t]].
    + exists O. split; [reflexivity|discriminate].
    + exists O. split; [reflexivity|discriminate].
    + simpl. destruct (Ascii.eqb_spec a ch_dot) as [->|A]; simpl.
      * destruct (Ascii.eqb_spec b ch_slash) as [->|B].
        -- destruct (IH t) as (k & E & F); [simpl in L; lia|].
           exists (S k). split; [|exact F]. simpl. rewrite <- E. reflexivity.
        -- exists O. split; [reflexivity|]. intros t' H. injection H as H _. apply B. exact H.
      * exists O. split; [reflexivity|]. intros t' H. injection H as H _ _. apply A. exact H.
Qed.

(** [fileLib_cleanName] *)
Lemma store_app : forall l x m c, store (l ++ x :: m) (List.length l) c = Some (l ++ Some c :: m).
Proof.
  induction l as [|a l IH]; intros x m c; simpl; auto. rewrite IH. reflexivity.
Qed.

Lemma strncpy_spec : forall src done x rest,
  strncpy (map Some done ++ repeat None (List.length src) ++ x :: rest)
          (List.length done) src (List.length src)
  = Some (map Some (done ++ src) ++ x :: rest).
Proof.
  induction src as [|c src IH]; intros done x rest; simpl.
  - rewrite app_nil_r. reflexivity.
  - replace (List.length done) with (List.length (map Some done)) at 1 by apply map_length.
    rewrite store_app.
    replace (S (List.length done)) with (List.length (done ++ [c])) by (rewrite app_length; simpl; lia).
    pose proof (IH (done ++ [c]) x rest) as H. rewrite <- app_assoc in H. cbn [app] in H.
    rewrite <- H, map_app, <- app_assoc. reflexivity.
Qed.

Lemma read_unterminated : forall s m, ~ In ch_nul s -> read_cstr (map Some s ++ None :: m) = None.
Proof.
  induction s as [|c s IH]; intros m N; simpl; auto.
  destruct (Ascii.eqb_spec c ch_nul) as [->|X].
  - exfalso. apply N. left. reflexivity.
  - rewrite IH; auto. intros I. apply N. right. exact I.
Qed.

Lemma read_terminated : forall s m, ~ In ch_nul s -> read_cstr (map Some s ++ Some ch_nul :: m) = Some s.
Proof.
  induction s as [|c s IH]; intros m N; cbn [read_cstr map app].
  - rewrite Ascii.eqb_refl. reflexivity.
  - destruct (Ascii.eqb_spec c ch_nul) as [->|X].
    + exfalso. apply N. left. reflexivity.
    + rewrite IH; auto. intros I. apply N. right. exact I.
Qed.

Lemma repeat_snoc : forall (A : Type) (x : A) n, repeat x (S n) = repeat x n ++ [x].
Proof. intros. induction n; simpl in *; congruence. Qed.

Lemma clean_dotslash : forall c t, ~ In ch_nul (c :: t) ->
  cleanName ("."%char :: "/"%char :: c :: t) = Some (map Some (c :: t) ++ [None]).
Proof.
  intros c t N. unfold cleanName. cbn [Ascii.eqb Bool.eqb ch_dot ch_slash andb].
  unfold copySegment.
  replace (List.length ("."%char :: "/"%char :: c :: t) - 2)%nat
    with (S (List.length t)) by (simpl; lia).
  unfold fresh. rewrite repeat_snoc. cbn [skipn strncpy store].
  pose proof (strncpy_spec t [c] None []) as H. cbn [map app List.length] in H.
  rewrite H. reflexivity.
Qed.

Lemma clean_dotslash_ub : forall c t, ~ In ch_nul (c :: t) ->
  cleanName_text ("."%char :: "/"%char :: c :: t) = None.
Proof.
  intros c t N. unfold cleanName_text. rewrite clean_dotslash by auto.
  apply read_unterminated. exact N.
Qed.

Lemma clean_other : forall s, ~ In ch_nul s ->
  (forall t, s <> "."%char :: "/"%char :: t) -> cleanName_text s = Some s.
Proof.
  intros s N H. unfold cleanName_text.
  assert (cleanName s = Some (map Some s ++ [Some ch_nul])) as ->.
  { unfold cleanName. destruct s as [|a [|b t]]; auto.
    destruct (Ascii.eqb_spec a ch_dot) as [->|A]; simpl; auto.
    destruct (Ascii.eqb_spec b ch_slash) as [->|B]; simpl; auto.
    exfalso. eapply H. reflexivity. }
  apply read_terminated. exact N.
Qed.

(** [fileLib_isCExtension] of the extension of a path, as in flags.c 1950-1963. *)
Lemma c_ext_iff : forall s dir base, path_split s dir base ->
  (isCExtension (getExtension s) = true <->
   exists stem ext, extension_of base stem ext /\
     In ext [lit ".c"; lit ".C"; lit ".h"; lit ".lh"; lit ".xh"; lit ".H"; lit ".y"; lit ".l"]).
Proof.
  intros s dir base P. unfold isCExtension. rewrite !orb_true_iff.
  assert (E : forall ext, ~ In "/"%char ext -> ext <> [] ->
    (cstring_equal (getExtension s) (Some ext) = true <-> exists stem, extension_of base stem ext))
    by (intros ext A B; exact (has_ext_iff s dir base ext P A B)).
  assert (N : forall ext, In ext [lit ".c"; lit ".C"; lit ".h"; lit ".lh"; lit ".xh"; lit ".H"; lit ".y"; lit ".l"] ->
    ~ In "/"%char ext /\ ext <> []).
  { intros ext I. cbn [In] in I. repeat destruct I as [<-|I]; try destruct I; (split; [vm_compute; intuition discriminate|discriminate]). }
  split.
  - intro H.
    assert (Q : exists ext, In ext [lit ".c"; lit ".C"; lit ".h"; lit ".lh"; lit ".xh"; lit ".H"; lit ".y"; lit ".l"]
      /\ cstring_equal (getExtension s) (Some ext) = true)
      by (repeat destruct H as [H|H]; eexists; (split; [|exact H]); cbn [In]; auto 10).
    destruct Q as (ext & I & Q). destruct (N ext I) as [A B]. apply (E ext A B) in Q as [stem Q]. eauto.
  - intros (stem & ext & X & I). destruct (N ext I) as [A B].
    assert (Q : cstring_equal (getExtension s) (Some ext) = true) by (apply (E ext A B); eauto).
    cbn [In] in I. repeat (destruct I as [<-|I]; [tauto|]). destruct I.
Qed.
