From Verif Require Import Cbase Cbase_facts Reader_model Reader_spec Reader_proofs Dump_model Dump_spec.
From Coq Require Import ZifyBool.

Lemma good_getInt : forall z rest, good_int z -> number_ends rest ->
  reader_getInt (dec z ++ rest) = ROk z (after_blanks rest).
Proof.
  intros z rest [Hz Hc] Hr.
  exact (proj2 (getInt_read_back_iff 0 z rest Hz Hr) Hc).
Qed.

Lemma good_nonneg : forall z, 0 <= z <= INT_MAX -> good_int z.
Proof. intros z H. split; [unfold INT_MIN; lia|left; lia]. Qed.

Lemma ctype_getInt : forall z rest, 0 <= z <= INT_MAX -> number_ends rest ->
  ctype_undump (ctype_dump z ++ rest) = ROk z (after_blanks rest).
Proof.
  intros z rest H Hr. unfold ctype_undump, ctype_dump.
  replace (z <? 0) with false by lia. apply good_getInt; auto using good_nonneg.
Qed.

Lemma number_ends_cons : forall c r, (code c < 48 \/ 57 < code c) -> number_ends (c :: r).
Proof. intros c r H x y E. injection E as <- <-. exact H. Qed.
Lemma number_ends_nil : number_ends [].
Proof. intros x y E. discriminate. Qed.
Lemma number_ends_nl : forall r, number_ends (ch_nl :: r).
Proof. intros r. apply number_ends_cons. left. vm_compute. reflexivity. Qed.

Lemma after_blanks_sep : forall c r, code c <> 32 -> code c <> 10 -> code c <> 9 ->
  after_blanks (c :: r) = c :: r.
Proof.
  intros c r H1 H2 H3. cbn [after_blanks].
  replace ((code c =? 32) || (code c =? 10) || (code c =? 9)) with false by lia. reflexivity.
Qed.

Lemma tail_number_ends : forall r, tail_ok r -> number_ends r.
Proof.
  intros r [->|[->|(c & r' & -> & H)]].
  - apply number_ends_nil.
  - apply number_ends_nl.
  - apply number_ends_cons. apply H.
Qed.

(** First character of a dumped reference. *)
Definition head_chars : cstr := lit "-paftdoscgur".

Lemma dump_head : forall s, exists c r, sRef_dump s = c :: r /\ In c head_chars.
Proof.
  induction s; cbn [sRef_dump]; try (eexists _, _; split; [reflexivity|cbv; tauto]).
  destruct IHs as (c & r & E & I). rewrite E. cbn. eauto.
Qed.

Lemma head_not_digit : forall c, In c head_chars -> code c < 48 \/ 57 < code c.
Proof. intros c H. cbv [head_chars lit list_ascii_of_string In] in H.
  decompose [or] H; subst; vm_compute; (tauto || (left; reflexivity) || (right; reflexivity)). Qed.

Lemma head_not_blank : forall c, In c head_chars -> code c <> 32 /\ code c <> 10 /\ code c <> 9.
Proof. intros c H. cbv [head_chars lit list_ascii_of_string In] in H.
  decompose [or] H; subst; repeat split; vm_compute; congruence. Qed.

Lemma dump_number_ends : forall s rest, number_ends (sRef_dump s ++ rest).
Proof.
  intros s rest. destruct (dump_head s) as (c & r & -> & I).
  apply number_ends_cons, head_not_digit, I.
Qed.

Lemma dump_after_blanks : forall s rest, after_blanks (sRef_dump s ++ rest) = sRef_dump s ++ rest.
Proof.
  intros s rest. destruct (dump_head s) as (c & r & -> & I).
  destruct (head_not_blank c I) as (A & B & C). cbn [app]. apply after_blanks_sep; auto.
Qed.

Lemma dump_head_array : forall s, not_invalid s -> dumpable s ->
  exists c r, sRef_dump s = c :: r /\ is_digit c || Ascii.eqb c "-"%char = false.
Proof.
  intros s H D.
  destruct s; cbn [sRef_dump]; try contradiction H;
    try (eexists _, _; split; [reflexivity|vm_compute; reflexivity]).
  destruct D as (L & _). destruct s; cbn in L, H; try contradiction; cbn [sRef_dump app];
    eexists _, _; (split; [reflexivity|vm_compute; reflexivity]).
Qed.

Lemma dec_head_array : forall i rest, exists c r,
  dec i ++ rest = c :: r /\ is_digit c || Ascii.eqb c "-"%char = true.
Proof.
  intros i rest. unfold dec. destruct (i <? 0) eqn:E.
  - eexists _, _. split; [reflexivity|]. reflexivity.
  - destruct (dec_nat_cons i) as (d & r & -> & Hd & _); [lia|].
    eexists _, _. split; [reflexivity|]. rewrite Hd. reflexivity.
Qed.

Lemma until_dot_ok : forall f rest, ~ In "."%char f ->
  until_dot (f ++ "."%char :: rest) = ROk f rest.
Proof.
  induction f as [|c f IH]; intros rest H; [reflexivity|].
  cbn. destruct (Ascii.eqb_spec c "."%char) as [->|n]; [exfalso; apply H; left; reflexivity|].
  rewrite IH; [reflexivity|]. intro I. apply H. right. exact I.
Qed.

Definition tail_result (rest r' : cstr) : Prop := r' = rest \/ r' = after_blanks rest.

Lemma tail_noeq : forall rest r', tail_ok rest -> tail_result rest r' ->
  reader_optCheckChar r' "="%char = (false, r').
Proof.
  intros rest r' T R.
  destruct T as [->|[->|(c & r & -> & H)]].
  - destruct R as [->| ->]; reflexivity.
  - destruct R as [->| ->]; reflexivity.
  - assert (E : r' = c :: r).
    { destruct R as [->| ->]; [reflexivity|]. destruct H as (A & B & C & D & E).
      apply after_blanks_sep; auto. }
    rewrite E. cbn. rewrite ascii_eqb_code. destruct H as (A & B & C & D & F).
    replace (code c =? code "=") with false; [reflexivity|]. symmetry. apply Z.eqb_neq. exact F.
Qed.

Lemma sep_tail_result : forall c r r', sep_char c -> tail_result (c :: r) r' -> r' = c :: r.
Proof.
  intros c r r' H [->| ->]; [reflexivity|]. destruct H as (A & B & C & D & F).
  apply after_blanks_sep; auto.
Qed.

Lemma sep_dot : sep_char "."%char.
Proof. vm_compute. repeat split; try discriminate. left. reflexivity. Qed.

Lemma multiVal_good : forall v rest, good_value v ->
  multiVal_undump (multiVal_dump (Some v) ++ lit "=" ++ rest)
  = ROk (Some (value_of v)) (lit "=" ++ rest).
Proof.
  intros v rest H.
  assert (E : number_ends (lit "=" ++ rest)) by (apply number_ends_cons; right; vm_compute; reflexivity).
  assert (B : after_blanks (lit "=" ++ rest) = lit "=" ++ rest)
    by (apply after_blanks_sep; vm_compute; discriminate).
  destruct v; cbn [good_value] in H; try contradiction.
  - cbn [multiVal_dump value_of]. cbn [app multiVal_undump Ascii.eqb Bool.eqb].
    rewrite wrap32_id by apply H. rewrite good_getInt by auto. rewrite B. reflexivity.
  - cbn [multiVal_dump value_of]. cbn [app multiVal_undump Ascii.eqb Bool.eqb].
    destruct H as [H1 H2]. rewrite good_getInt by auto. rewrite B. cbn [rbind].
    rewrite wrap8_id by exact H1. reflexivity.
Qed.

(** The part of sRef_undump before the optional value. *)
Definition undump_body (n : nat) (s : cstr) : res (sref multiValR) :=
  match s with
       | [] => RBug
       | p :: r =>
         if Ascii.eqb p "g"%char then rbind (reader_getInt r) (fun i s' => ROk (SGlobal i) s')
         else if Ascii.eqb p "p"%char then rbind (reader_getInt r) (fun i s' => ROk (SParam i) s')
         else if Ascii.eqb p "r"%char then rbind (ctype_undump r) (fun i s' => ROk (SResult i) s')
         else if Ascii.eqb p "a"%char then
           if match r with c :: _ => is_digit c || Ascii.eqb c "-"%char | [] => false end
           then rbind (reader_getInt r) (fun i s' =>
                rbind (sRef_undump n s') (fun a s'' => ROk (SArrayK i a) s''))
           else rbind (sRef_undump n r) (fun a s' => ROk (SArray a) s')
         else if Ascii.eqb p "f"%char then
           rbind (until_dot r) (fun f s' =>
           rbind (sRef_undump n s') (fun a s'' => ROk (SField f a) s''))
         else if Ascii.eqb p "s"%char then
           rbind (reader_getInt r) (fun i s' =>
             if (0 <=? i) && (i <=? 3) then ROk (SSpecial i) s' else RBug)
         else if Ascii.eqb p "t"%char then rbind (sRef_undump n r) (fun a s' => ROk (SPtr a) s')
         else if Ascii.eqb p "d"%char then rbind (sRef_undump n r) (fun a s' => ROk (SAdr a) s')
         else if Ascii.eqb p "o"%char then rbind (ctype_undump r) (fun i s' => ROk (SObject i) s')
         else if Ascii.eqb p "c"%char then
           rbind (sRef_undump n r) (fun a s' =>
             match s' with
             | [] => RUB
             | _ :: s'' => rbind (sRef_undump n s'') (fun b s3 => ROk (SConj a b) s3)
             end)
         else if Ascii.eqb p "-"%char then ROk SInvalid r
         else if Ascii.eqb p "u"%char || Ascii.eqb p "x"%char then ROk SUnknown r
         else RBug
       end.
Definition undump_value (a : sref multiValR) (s1 : cstr) : res (sref multiValR) :=
         let (eq, s2) := reader_optCheckChar s1 "="%char in
         if eq then
           rbind (multiVal_undump s2) (fun mv s3 =>
           rbind (reader_checkChar s3 "="%char) (fun _ s4 =>
             match mv with
             | Some v => ROk (SVal a v) s4
             | None => ROk a s4
             end))
         else ROk a s1.

Lemma sRef_undump_S : forall n s, sRef_undump (S n) s = rbind (undump_body n s) undump_value.
Proof. reflexivity. Qed.

Lemma leaf_body : forall s n rest, is_leaf s -> dumpable s -> number_ends rest ->
  exists r', undump_body n (sRef_dump s ++ rest) = ROk (same_sref s) r' /\ tail_result rest r'.
Proof.
  intros s n rest L D E. unfold tail_result.
  destruct s; cbn [is_leaf] in L; try contradiction; cbn [dumpable] in D;
    cbn [sRef_dump same_sref]; cbn [lit list_ascii_of_string app undump_body Ascii.eqb Bool.eqb].
  - eauto.
  - rewrite good_getInt by auto. cbn [rbind]. eauto.
  - rewrite ctype_getInt by auto. cbn [rbind]. eauto.
  - rewrite good_getInt by (auto using good_nonneg; apply good_nonneg; unfold INT_MAX; lia).
    cbn [rbind]. replace ((0 <=? k) && (k <=? 3)) with true by lia. eauto.
  - rewrite good_getInt by auto. cbn [rbind]. eauto.
  - cbn [orb]. eauto.
  - rewrite ctype_getInt by auto. cbn [rbind]. eauto.
Qed.

Lemma dump_nonempty : forall s, (1 <= List.length (sRef_dump s))%nat.
Proof. intros s. destruct (dump_head s) as (c & r & -> & _). cbn. lia. Qed.

Lemma sRef_roundtrip : forall s fuel rest,
  dumpable s -> tail_ok rest -> (List.length (sRef_dump s) <= fuel)%nat ->
  exists r', sRef_undump fuel (sRef_dump s ++ rest) = ROk (same_sref s) r' /\ tail_result rest r'.
Proof.
  induction s; intros fuel rest D T F;
    (destruct fuel as [|fuel]; [|]).
  all: try (exfalso; match goal with
            | F : (List.length (sRef_dump ?s) <= 0)%nat |- _ =>
                pose proof (dump_nonempty s); lia end).
  all: rewrite sRef_undump_S.
  (* leaves *)
  all: try (match goal with
       | |- context [sRef_dump ?s] =>
           let b := eval cbn in (is_leaf s) in
           match b with True =>
             destruct (leaf_body s fuel rest I D (tail_number_ends _ T)) as (r' & E & R);
             rewrite E; cbn [rbind]; unfold undump_value; rewrite (tail_noeq rest r' T R);
             exists r'; split; [reflexivity|exact R]
           end end; fail).
  - (* SArrayK *)
    destruct D as [Di Da].
    cbn [sRef_dump]. cbn [app undump_body Ascii.eqb Bool.eqb]. rewrite <- app_assoc.
    destruct (dec_head_array i (sRef_dump s ++ rest)) as (c & r & E & Hc). rewrite E.
    rewrite Hc. rewrite <- E. clear c r E Hc.
    rewrite good_getInt by (auto using dump_number_ends). rewrite dump_after_blanks. cbn [rbind].
    cbn [sRef_dump List.length] in F. rewrite app_length in F.
    destruct (IHs fuel rest Da T) as (r' & E & R); [lia|]. rewrite E. cbn [rbind same_sref].
    unfold undump_value. rewrite (tail_noeq rest r' T R). exists r'. split; [reflexivity|exact R].
  - (* SArray *)
    destruct D as [Dn Da].
    cbn [sRef_dump]. cbn [app undump_body Ascii.eqb Bool.eqb].
    destruct (dump_head_array s Dn Da) as (c & r & E & Hc). rewrite E. cbn [app].
    rewrite Hc. change (c :: r ++ rest) with ((c :: r) ++ rest). rewrite <- E. clear c r E Hc.
    cbn [sRef_dump List.length] in F.
    destruct (IHs fuel rest Da T) as (r' & E & R); [lia|]. rewrite E. cbn [rbind same_sref].
    unfold undump_value. rewrite (tail_noeq rest r' T R). exists r'. split; [reflexivity|exact R].
  - (* SField *)
    destruct D as (Df & _ & Da).
    cbn [sRef_dump]. cbn [app undump_body Ascii.eqb Bool.eqb]. rewrite <- app_assoc. cbn [app].
    rewrite until_dot_ok by exact Df. cbn [rbind].
    cbn [sRef_dump List.length] in F. rewrite app_length in F. cbn [List.length] in F.
    destruct (IHs fuel rest Da T) as (r' & E & R); [lia|]. rewrite E. cbn [rbind same_sref].
    unfold undump_value. rewrite (tail_noeq rest r' T R). exists r'. split; [reflexivity|exact R].
  - (* SPtr *)
    cbn [sRef_dump]. cbn [app undump_body Ascii.eqb Bool.eqb].
    cbn [sRef_dump List.length] in F.
    destruct (IHs fuel rest D T) as (r' & E & R); [lia|]. rewrite E. cbn [rbind same_sref].
    unfold undump_value. rewrite (tail_noeq rest r' T R). exists r'. split; [reflexivity|exact R].
  - (* SAdr *)
    cbn [sRef_dump]. cbn [app undump_body Ascii.eqb Bool.eqb].
    cbn [sRef_dump List.length] in F.
    destruct (IHs fuel rest D T) as (r' & E & R); [lia|]. rewrite E. cbn [rbind same_sref].
    unfold undump_value. rewrite (tail_noeq rest r' T R). exists r'. split; [reflexivity|exact R].
  - (* SConj *)
    destruct D as [Da Db].
    cbn [sRef_dump]. cbn [app undump_body Ascii.eqb Bool.eqb]. rewrite <- app_assoc. cbn [app].
    cbn [sRef_dump List.length] in F. rewrite app_length in F. cbn [List.length] in F.
    destruct (IHs1 fuel ("."%char :: sRef_dump s2 ++ rest) Da) as (r1 & E1 & R1).
    { right. right. eexists _, _. split; [reflexivity|]. apply sep_dot. }
    { lia. }
    rewrite E1. cbn [rbind]. rewrite (sep_tail_result _ _ _ sep_dot R1).
    destruct (IHs2 fuel rest Db T) as (r' & E & R); [lia|]. rewrite E. cbn [rbind same_sref].
    unfold undump_value. rewrite (tail_noeq rest r' T R). exists r'. split; [reflexivity|exact R].
  - (* SVal *)
    destruct D as (L & Dr & Dv).
    cbn [sRef_dump]. rewrite <- app_assoc.
    cbn [app]. rewrite <- app_assoc.
    set (tl := multiVal_dump (Some v) ++ lit "=" ++ rest).
    destruct (leaf_body s fuel ("="%char :: tl) L Dr) as (r' & E & R).
    { apply number_ends_cons. right. vm_compute. reflexivity. }
    rewrite E. cbn [rbind]. unfold undump_value.
    assert (Er : r' = "="%char :: tl).
    { destruct R as [->| ->]; [reflexivity|].
      apply after_blanks_sep; vm_compute; discriminate. }
    rewrite Er. cbn [reader_optCheckChar Ascii.eqb Bool.eqb]. unfold tl.
    rewrite multiVal_good by exact Dv. cbn [rbind]. cbn [lit list_ascii_of_string app reader_checkChar Ascii.eqb Bool.eqb rbind].
    exists rest. split; [reflexivity|]. left. reflexivity.
Qed.

(** Lines. *)
Lemma fgets_aux_line : forall l f n, ~ In ch_nl l -> Z.of_nat (List.length l) < n ->
  fgets_aux n (l ++ ch_nl :: f) = (l ++ nl, f).
Proof.
  induction l as [|c l IH]; intros f n H Hn.
  - cbn [app fgets_aux List.length] in *. replace (n <=? 0) with false by lia. reflexivity.
  - cbn [app fgets_aux List.length] in *. replace (n <=? 0) with false by lia.
    destruct (Ascii.eqb_spec c ch_nl) as [->|ne]; [exfalso; apply H; left; reflexivity|].
    rewrite IH; [reflexivity| |lia]. intro I. apply H. right. exact I.
Qed.

Lemma fgets_line : forall l f, ~ In ch_nl l -> short l ->
  fgets (l ++ nl ++ f) = Some (l ++ nl, f).
Proof.
  intros l f H S. unfold fgets. cbn [nl app].
  destruct (l ++ ch_nl :: f) eqn:E; [destruct l; discriminate|]. rewrite <- E.
  rewrite fgets_aux_line; [reflexivity|exact H|].
  unfold short in S. unfold MAX_DUMP_LINE_LENGTH. lia.
Qed.

Lemma on_line_ok : forall A (p : cstr -> res A) l f a r, ~ In ch_nl l -> short l ->
  p (l ++ nl) = ROk a r -> on_line p (l ++ nl ++ f) = ROk a f.
Proof.
  intros A p l f a r H S E. unfold on_line. rewrite fgets_line by auto. rewrite E. reflexivity.
Qed.

Lemma digits_no_nl : forall ds, all_digits ds -> ~ In ch_nl ds.
Proof.
  intros ds H I. unfold all_digits in H. rewrite Forall_forall in H. specialize (H _ I).
  discriminate H.
Qed.

Lemma dec_no_nl : forall z, ~ In ch_nl (dec z).
Proof.
  intros z. unfold dec. destruct (z <? 0) eqn:E.
  - intros [H|H]; [discriminate H|]. revert H. apply digits_no_nl, dec_nat_digits. lia.
  - apply digits_no_nl, dec_nat_digits. lia.
Qed.

Lemma ctype_dump_no_nl : forall z, ~ In ch_nl (ctype_dump z).
Proof.
  intros z. unfold ctype_dump. destruct (z <? 0).
  - cbv. intuition discriminate.
  - apply dec_no_nl.
Qed.

(** Length of a printed number. *)
Lemma pow_len : forall ds, all_digits ds -> (exists d r, ds = d :: r /\ digit_val d <> 0) ->
  10 ^ (Z.of_nat (List.length ds) - 1) <= dval ds 0.
Proof.
  intros ds H (d & r & -> & Hd). inversion H; subst.
  apply is_digit_range in H2.
  cbn [dval fold_left]. fold (dval r (10*0+digit_val d)). rewrite dval_shift.
  pose proof (dval_nonneg r 0 H3 (Z.le_refl 0)).
  replace (Z.of_nat (List.length (d :: r)) - 1) with (Z.of_nat (List.length r))
    by (cbn [List.length]; lia).
  pose proof (pow10_pos (List.length r)). nia.
Qed.

Lemma dec_nat_short : forall z, 0 <= z <= 2147483648 -> Z.of_nat (List.length (dec_nat z)) <= 10.
Proof.
  intros z H. destruct (dec_nat_spec z) as (A & B & C & D); [lia|].
  destruct (Z.eq_dec z 0) as [->|N]; [cbv; discriminate|].
  pose proof (pow_len _ A (D N)) as P. rewrite C in P.
  destruct (Z_le_gt_dec (Z.of_nat (List.length (dec_nat z))) 10) as [|G]; [assumption|exfalso].
  assert (10 ^ 10 <= 10 ^ (Z.of_nat (List.length (dec_nat z)) - 1)) by (apply Z.pow_le_mono_r; lia).
  change (10 ^ 10) with 10000000000 in H0. lia.
Qed.

Lemma dec_len : forall z, INT_MIN <= z <= INT_MAX -> Z.of_nat (List.length (dec z)) <= 11.
Proof.
  intros z H. unfold INT_MIN, INT_MAX in H. unfold dec. destruct (z <? 0) eqn:E.
  - cbn [List.length]. pose proof (dec_nat_short (- z)). lia.
  - pose proof (dec_nat_short z). lia.
Qed.

Lemma dec_short : forall z, INT_MIN <= z <= INT_MAX -> short (dec z).
Proof. intros z H. unfold short. pose proof (dec_len z H). lia. Qed.

Lemma small_int : forall z, 0 <= z <= 10 -> INT_MIN <= z <= INT_MAX.
Proof. unfold INT_MIN, INT_MAX. lia. Qed.

Lemma int_line : forall z f, good_int z -> on_line reader_getInt (dec z ++ nl ++ f) = ROk z f.
Proof.
  intros z f H. eapply on_line_ok.
  - apply dec_no_nl.
  - apply dec_short, H.
  - apply good_getInt; [exact H|apply number_ends_nl].
Qed.

Lemma good_small : forall z, 0 <= z <= 10 -> good_int z.
Proof. intros z H. apply good_nonneg. unfold INT_MAX. lia. Qed.

Lemma head_chars_no_nl : forall s, dumpable s -> ~ In ch_nl (sRef_dump s).
Proof.
  induction s; cbn [dumpable sRef_dump]; intros D.
  - cbv; intuition discriminate.
  - intros [H|H]; [discriminate H|]. revert H. apply dec_no_nl.
  - intros [H|H]; [discriminate H|]. apply in_app_or in H. destruct H as [H|H].
    + revert H. apply dec_no_nl.
    + apply IHs; tauto.
  - intros [H|H]; [discriminate H|]. apply IHs; tauto.
  - intros [H|H]; [discriminate H|]. apply in_app_or in H. destruct H as [H|[H|H]].
    + tauto.
    + discriminate H.
    + apply IHs; tauto.
  - intros [H|H]; [discriminate H|]. apply IHs; tauto.
  - intros [H|H]; [discriminate H|]. apply IHs; tauto.
  - intros [H|H]; [discriminate H|]. revert H. apply ctype_dump_no_nl.
  - intros [H|H]; [discriminate H|]. revert H. apply dec_no_nl.
  - intros [H|H]; [discriminate H|]. apply in_app_or in H. destruct H as [H|[H|H]].
    + apply IHs1; tauto.
    + discriminate H.
    + apply IHs2; tauto.
  - intros [H|H]; [discriminate H|]. revert H. apply dec_no_nl.
  - cbv; intuition discriminate.
  - intros [H|H]; [discriminate H|]. revert H. apply ctype_dump_no_nl.
  - intros H. apply in_app_or in H. destruct H as [H|[H|H]].
    + apply IHs; tauto.
    + discriminate H.
    + apply in_app_or in H. destruct H as [H|H].
      * destruct D as (_ & _ & D). destruct v; cbn [good_value multiVal_dump] in *; try contradiction;
          (destruct H as [H|H]; [discriminate H|]; revert H; apply dec_no_nl).
      * cbv in H. intuition discriminate.
Qed.

Lemma word_no_nl : forall w, Forall word_char w -> ~ In ch_nl w.
Proof.
  intros w H I. rewrite Forall_forall in H. destruct (H _ I) as (_ & _ & N & _). apply N. reflexivity.
Qed.

Lemma word_char_sep : forall c, word_char c -> is_wordsep c = false.
Proof.
  intros c (A & B & C & D & E). unfold is_wordsep. rewrite !ascii_eqb_code.
  change (code ch_space) with 32. change (code ",") with 44. change (code ch_nl) with 10.
  change (code ch_tab) with 9. change (code "#") with 35. lia.
Qed.

Lemma getWord_is_word : forall w rest, is_word w ->
  (forall c r, rest = c :: r -> is_wordsep c = true) ->
  reader_getWord (w ++ rest) = ROk (Some w) rest.
Proof.
  intros w rest (N & F) R. apply getWord_word; auto.
  eapply Forall_impl; [|exact F]. intros a. apply word_char_sep.
Qed.

Lemma sep_nl : forall c r, nl = c :: r -> is_wordsep c = true.
Proof. intros c r E. injection E as <- <-. reflexivity. Qed.

Lemma dec_word : forall z, 0 <= z -> is_word (dec z).
Proof.
  intros z H. unfold dec. replace (z <? 0) with false by lia.
  destruct (dec_nat_spec z H) as (A & B & _). split; [exact B|].
  eapply Forall_impl; [|exact A]. intros c Hc. unfold is_digit in Hc. unfold word_char. lia.
Qed.

Lemma cstr_eqb_neq : forall a b, a <> b -> cstr_eqb a b = false.
Proof.
  intros a b H. destruct (cstr_eqb a b) eqn:E; [|reflexivity].
  apply cstr_eqb_eq in E. contradiction.
Qed.

Lemma term_roundtrip : forall t f, term_ok t ->
  constraintTerm_undump (constraintTerm_dump t ++ f) = ROk (term_back t) f.
Proof.
  intros t f H. unfold constraintTerm_undump.
  destruct t as [b n|ct|ct n|s|z]; cbn [term_ok constraintTerm_dump term_back] in *.
  - destruct H as (W & S & R). destruct b.
    + rewrite <- !app_assoc, int_line by (apply good_small; unfold CTT_EXPR; lia).
      cbn [rbind]. change (CTT_EXPR =? CTT_SREF) with false. change (CTT_EXPR =? CTT_EXPR) with true.
      cbn iota. eapply on_line_ok; [apply word_no_nl, W|exact S|].
      unfold undump_expr_line. rewrite getWord_is_word by (exact W || exact sep_nl). reflexivity.
    + rewrite <- !app_assoc, int_line by (apply good_small; unfold CTT_SREF; lia).
      cbn [rbind]. change (CTT_SREF =? CTT_SREF) with true.
      cbn iota. eapply on_line_ok; [apply word_no_nl, W|exact S|].
      unfold undump_sref_line. rewrite getWord_is_word by (exact W || exact sep_nl). cbn [rbind].
      destruct (R eq_refl) as (R1 & R2 & R3).
      rewrite !cstr_eqb_neq by assumption. reflexivity.
  - rewrite <- !app_assoc, int_line by (apply good_small; unfold CTT_SREF; lia).
    cbn [rbind]. change (CTT_SREF =? CTT_SREF) with true. cbn iota.
    eapply on_line_ok; [cbv; intuition discriminate|cbv; discriminate|]. reflexivity.
  - destruct H as (Hct & Hn).
    rewrite <- !app_assoc, int_line by (apply good_small; unfold CTT_SREF; lia).
    cbn [rbind]. change (CTT_SREF =? CTT_SREF) with true. cbn iota.
    replace (lit "Param " ++ ctype_dump ct ++ lit " " ++ dec n ++ nl ++ f)
      with ((lit "Param " ++ ctype_dump ct ++ lit " " ++ dec n) ++ nl ++ f)
      by (rewrite <- !app_assoc; reflexivity).
    eapply on_line_ok.
    + intros I. apply in_app_or in I. destruct I as [I|I]; [cbv in I; intuition discriminate|].
      apply in_app_or in I. destruct I as [I|I]; [revert I; apply ctype_dump_no_nl|].
      apply in_app_or in I. destruct I as [I|I]; [cbv in I; intuition discriminate|].
      revert I. apply dec_no_nl.
    + unfold short. rewrite !app_length. cbn [List.length lit list_ascii_of_string].
      unfold ctype_dump. replace (ct <? 0) with false by lia.
      pose proof (dec_len n (proj1 Hn)).
      assert (INT_MIN <= ct <= INT_MAX) by (unfold INT_MIN in *; lia).
      pose proof (dec_len ct H0). lia.
    + rewrite <- !app_assoc. unfold undump_sref_line.
      change (lit "Param " ++ ?x) with (lit "Param" ++ " "%char :: x).
      rewrite getWord_is_word.
      2: { split; [discriminate|]. repeat (constructor; [cbv; intuition discriminate|]). constructor. }
      2: { intros c r E. injection E as <- <-. reflexivity. }
      cbn [rbind]. change (cstr_eqb (lit "Param") (lit "Result")) with false.
      change (cstr_eqb (lit "Param") (lit "Param")) with true. cbn iota.
      cbn [reader_checkChar Ascii.eqb Bool.eqb rbind].
      unfold ctype_dump. replace (ct <? 0) with false by lia.
      rewrite getWord_is_word.
      2: { apply dec_word; lia. }
      2: { intros c r E. injection E as <- <-. reflexivity. }
      cbn [rbind].
      assert (G : reader_getInt (lit " " ++ dec n ++ nl) = ROk n []).
      { pose proof (proj2 (getInt_read_back_iff 1 n nl (proj1 Hn) (number_ends_nl [])) (proj2 Hn)) as G.
        exact G. }
      rewrite G. cbn [rbind].
      assert (G2 : ctype_undump (dec ct) = ROk ct []).
      { pose proof (good_getInt ct [] (good_nonneg ct Hct) number_ends_nil) as G2.
        rewrite app_nil_r in G2. exact G2. }
      rewrite G2. reflexivity.
  - destruct H as (D & S).
    rewrite <- !app_assoc, int_line by (apply good_small; unfold CTT_SREF; lia).
    cbn [rbind]. change (CTT_SREF =? CTT_SREF) with true. cbn iota.
    rewrite app_assoc.
    destruct (sRef_roundtrip s (List.length (sRef_dump s ++ nl)) nl D) as (r' & E & _).
    { right. left. reflexivity. }
    { rewrite app_length. lia. }
    eapply on_line_ok.
    + intros I. apply in_app_or in I. destruct I as [I|I]; [cbv in I; intuition discriminate|].
      revert I. apply head_chars_no_nl, D.
    + exact S.
    + rewrite <- !app_assoc. unfold undump_sref_line.
      change (lit "sRef_dump " ++ ?x) with (lit "sRef_dump" ++ " "%char :: x).
      rewrite getWord_is_word.
      2: { split; [discriminate|]. repeat (constructor; [cbv; intuition discriminate|]). constructor. }
      2: { intros c r E0. injection E0 as <- <-. reflexivity. }
      cbn [rbind]. change (cstr_eqb (lit "sRef_dump") (lit "Result")) with false.
      change (cstr_eqb (lit "sRef_dump") (lit "Param")) with false.
      change (cstr_eqb (lit "sRef_dump") (lit "sRef_dump")) with true. cbn iota.
      cbn [reader_checkChar Ascii.eqb Bool.eqb rbind].
      rewrite E. reflexivity.
  - rewrite <- !app_assoc, int_line by (apply good_small; unfold CTT_INTLITERAL; lia).
    cbn [rbind]. change (CTT_INTLITERAL =? CTT_SREF) with false.
    change (CTT_INTLITERAL =? CTT_EXPR) with false. change (CTT_INTLITERAL =? CTT_INTLITERAL) with true.
    cbn iota. rewrite int_line by exact H. reflexivity.
Qed.

Lemma check2_line : forall c d f, c <> ch_nl -> d <> ch_nl ->
  on_line (check2 c d) ([c; d] ++ nl ++ f) = ROk tt f.
Proof.
  intros c d f Hc Hd. eapply on_line_ok.
  - cbn. intuition congruence.
  - cbv. discriminate.
  - unfold check2. cbn [app reader_checkChar]. rewrite Ascii.eqb_refl. cbn [rbind reader_checkChar].
    rewrite Ascii.eqb_refl. reflexivity.
Qed.

Lemma check1_line : forall c f, c <> ch_nl ->
  on_line (fun l => reader_checkChar l c) ([c] ++ nl ++ f) = ROk tt f.
Proof.
  intros c f Hc. eapply on_line_ok.
  - cbn. intuition congruence.
  - cbv. discriminate.
  - cbn [app reader_checkChar]. rewrite Ascii.eqb_refl. reflexivity.
Qed.

Fixpoint esize (e : dexpr multiVal) : nat :=
  match e with DTerm _ => 1 | DUn _ e => S (esize e) | DBin _ a b => S (esize a + esize b) end.

Lemma expr_roundtrip : forall e fuel f, expr_ok e -> (esize e <= fuel)%nat ->
  constraintExpr_undump fuel (constraintExpr_dump e ++ f) = ROk (expr_back e) f.
Proof.
  induction e as [t|op e IH|op a IHa b IHb]; intros fuel f H F;
    (destruct fuel as [|n]; [cbn in F; lia|]); cbn [constraintExpr_undump constraintExpr_dump expr_back expr_ok esize] in *.
  - rewrite <- !app_assoc, int_line by (apply good_small; unfold K_term; lia).
    cbn [rbind]. change (K_term =? K_term) with true. cbn iota.
    rewrite term_roundtrip by exact H. reflexivity.
  - destruct H as [Ho He]. rewrite <- !app_assoc, int_line by (apply good_small; unfold K_unary; lia).
    cbn [rbind]. change (K_unary =? K_term) with false. change (K_unary =? K_unary) with true. cbn iota.
    rewrite int_line by (apply good_small; lia). cbn [rbind].
    rewrite IH by (auto; lia). reflexivity.
  - destruct H as (Ho & Ha & Hb). rewrite <- !app_assoc, int_line by (apply good_small; unfold K_binary; lia).
    cbn [rbind]. change (K_binary =? K_term) with false. change (K_binary =? K_unary) with false.
    change (K_binary =? K_binary) with true. cbn iota.
    rewrite int_line by (apply good_small; lia). cbn [rbind].
    rewrite check2_line by discriminate. cbn [rbind].
    rewrite IHa by (auto; lia). cbn [rbind].
    rewrite check2_line by discriminate. cbn [rbind].
    rewrite IHb by (auto; lia). reflexivity.
Qed.

Lemma b2z_back : forall b, negb (b2z b =? 0) = b.
Proof. destruct b; reflexivity. Qed.
Lemma b2z_small : forall b, 0 <= b2z b <= 10.
Proof. destruct b; cbn; lia. Qed.

Definition csize (c : dconstraint multiVal) : nat := (esize (dc_l c) + esize (dc_r c))%nat.

Lemma constraint_roundtrip : forall c fuel f, constraint_ok c -> (csize c <= fuel)%nat ->
  constraint_undump fuel (constraint_dump c ++ f) = ROk (constraint_back c) f.
Proof.
  intros c fuel f (Har & Hl & Hr) F. unfold csize in F. unfold constraint_undump, constraint_dump.
  set (h := dec (b2z (dc_fcnPre c)) ++ lit "@" ++ dec (b2z (dc_post c)) ++ lit "@" ++ dec (dc_ar c)).
  assert (E : on_line constraint_header
     ((dec (b2z (dc_fcnPre c)) ++ lit "@" ++ dec (b2z (dc_post c)) ++ lit "@" ++ dec (dc_ar c) ++ nl
       ++ lit "l" ++ nl ++ constraintExpr_dump (dc_l c)
       ++ lit "r" ++ nl ++ constraintExpr_dump (dc_r c)) ++ f)
     = ROk (dc_fcnPre c, dc_post c, dc_ar c)
           (lit "l" ++ nl ++ constraintExpr_dump (dc_l c) ++ lit "r" ++ nl ++ constraintExpr_dump (dc_r c) ++ f)).
  { replace ((dec (b2z (dc_fcnPre c)) ++ lit "@" ++ dec (b2z (dc_post c)) ++ lit "@" ++ dec (dc_ar c) ++ nl
       ++ lit "l" ++ nl ++ constraintExpr_dump (dc_l c)
       ++ lit "r" ++ nl ++ constraintExpr_dump (dc_r c)) ++ f)
      with (h ++ nl ++ (lit "l" ++ nl ++ constraintExpr_dump (dc_l c) ++ lit "r" ++ nl ++ constraintExpr_dump (dc_r c) ++ f)).
    2: { unfold h. rewrite <- !app_assoc. reflexivity. }
    eapply on_line_ok.
    - unfold h. intros I. repeat (apply in_app_or in I; destruct I as [I|I]; [|]);
        try (revert I; apply dec_no_nl); try (cbv in I; intuition discriminate).
    - unfold short, h. rewrite !app_length. cbn [lit list_ascii_of_string List.length].
      pose proof (dec_len _ (small_int _ (b2z_small (dc_fcnPre c)))).
      pose proof (dec_len _ (small_int _ (b2z_small (dc_post c)))).
      assert (0 <= dc_ar c <= 10) as A10 by lia.
      pose proof (dec_len _ (small_int _ A10)). lia.
    - unfold h, constraint_header. rewrite <- !app_assoc.
      assert (N : forall x, number_ends (lit "@" ++ x))
        by (intros x; apply number_ends_cons; right; vm_compute; reflexivity).
      assert (B : forall x, after_blanks (lit "@" ++ x) = lit "@" ++ x)
        by (intros x; apply after_blanks_sep; vm_compute; discriminate).
      rewrite good_getInt by (auto using good_small, b2z_small). rewrite B. cbn [rbind].
      cbn [lit list_ascii_of_string app reader_checkChar Ascii.eqb Bool.eqb rbind].
      change ("@"%char :: ?x) with (lit "@" ++ x).
      rewrite good_getInt by (auto using good_small, b2z_small). rewrite B. cbn [rbind].
      cbn [lit list_ascii_of_string app reader_checkChar Ascii.eqb Bool.eqb rbind].
      rewrite good_getInt by (try apply good_small; try apply number_ends_nl; lia). cbn [rbind].
      rewrite !b2z_back. reflexivity. }
  rewrite E. cbn [rbind].
  change (lit "l") with ["l"%char]. rewrite check1_line by discriminate. cbn [rbind].
  rewrite expr_roundtrip by (auto; lia). cbn [rbind].
  change (lit "r") with ["r"%char]. rewrite check1_line by discriminate. cbn [rbind].
  rewrite expr_roundtrip by (auto; lia). reflexivity.
Qed.

Fixpoint lsize (cs : list (dconstraint multiVal)) : nat :=
  match cs with [] => 1 | c :: r => S (csize c + lsize r) end.

Lemma list_roundtrip : forall cs fuel f, Forall constraint_ok cs -> (lsize cs <= fuel)%nat ->
  constraintList_undump fuel (constraintList_dump cs ++ lit ";" ++ nl ++ f)
  = ROk (map constraint_back cs) f.
Proof.
  induction cs as [|c cs IH]; intros fuel f H F;
    (destruct fuel as [|n]; [cbn in F; lia|]); cbn [constraintList_undump].
  - cbn [constraintList_dump flat_map app].
    rewrite fgets_line by (cbv; intuition discriminate). reflexivity.
  - inversion H; subst. cbn [lsize] in F.
    cbn [constraintList_dump flat_map]. rewrite <- !app_assoc.
    rewrite fgets_line by (cbv; intuition discriminate).
    cbn [lit list_ascii_of_string app].
    change ("C"%char :: nl) with (lit "C" ++ nl).
    rewrite getWord_is_word; [| |apply sep_nl].
    2: { split; [discriminate|]. repeat (constructor; [cbv; intuition discriminate|]). constructor. }
    change (cstr_eqb (lit "C") (lit "C")) with true. cbn iota.
    rewrite constraint_roundtrip by (auto; lia). cbn [rbind].
    change (";"%char :: nl ++ f) with (lit ";" ++ nl ++ f).
    unfold constraintList_dump in IH. rewrite IH by (auto; lia). reflexivity.
Qed.
