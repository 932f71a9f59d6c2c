(** * Proofs about splitting messages into lines *)
From Verif Require Import Cbase Cbase_facts Wrap_model Wrap_spec.
From Coq Require Import ZifyBool.
Local Open Scope nat_scope.

Lemma find_first_some : forall c s n, find_first c s = Some n ->
  nth_error s n = Some c /\ n < List.length s.
Proof.
  induction s as [|x s IH]; intros n H; simpl in H; [discriminate|].
  destruct (Ascii.eqb_spec x c) as [->|].
  - injection H as <-. simpl. split; [auto|lia].
  - destruct (find_first c s) as [m|]; [|discriminate]. injection H as <-.
    destruct (IH m eq_refl). simpl. split; [auto|lia].
Qed.

Lemma find_first_none : forall c s, find_first c s = None -> ~ In c s.
Proof.
  induction s as [|x s IH]; intros H; simpl in *; [tauto|].
  destruct (Ascii.eqb_spec x c) as [->|]; [discriminate|].
  destruct (find_first c s); [discriminate|]. intros [K|K]; [auto|]. apply IH; auto.
Qed.

Lemma find_last_some : forall c s n, find_last c s = Some n -> nth_error s n = Some c /\ n < List.length s.
Proof.
  induction s as [|x s IH]; intros n H; simpl in H; [discriminate|].
  destruct (find_last c s) as [m|].
  - injection H as <-. destruct (IH m eq_refl). simpl. split; [auto|lia].
  - destruct (Ascii.eqb_spec x c) as [->|]; [|discriminate]. injection H as <-. simpl. split; [auto|lia].
Qed.

Lemma find_last_none : forall c s, ~ In c s -> find_last c s = None.
Proof.
  induction s as [|x s IH]; intros H; simpl in *; [auto|]. rewrite IH by tauto.
  destruct (Ascii.eqb_spec x c) as [->|]; [tauto|auto].
Qed.

Lemma find_first_not : forall c s, ~ In c s -> find_first c s = None.
Proof.
  induction s as [|x s IH]; intros H; simpl in *; [auto|]. rewrite IH by tauto.
  destruct (Ascii.eqb_spec x c) as [->|]; [tauto|auto].
Qed.

Lemma nth_firstn : forall {A} (s : list A) k n x, nth_error (firstn k s) n = Some x -> nth_error s n = Some x.
Proof.
  induction s as [|y s IH]; intros [|k] [|n] x H; simpl in *; try discriminate; auto. eauto.
Qed.

Lemma nth_spaces : forall ind s n c, nth_error (repeat ch_space ind ++ s) n = Some c -> c <> ch_space -> ind <= n.
Proof.
  intros ind s n c H N. destruct (Nat.le_gt_cases ind n); [auto|]. exfalso.
  rewrite nth_error_app1 in H by (rewrite repeat_length; auto). apply nth_error_In in H.
  apply repeat_spec in H. auto.
Qed.

Lemma search_range : forall s i t, search s t i <= t /\ (t - i <= search s t i) /\ (4 <= t -> 4 <= search s t i).
Proof.
  induction i as [|i IH]; intros t; simpl; [lia|].
  destruct (negb (blank_at s t) && (4 <? t)) eqn:E; [|lia].
  apply andb_true_iff in E as [_ E]. specialize (IH (t - 1)). lia.
Qed.

Definition to_opt (r : cstr) : option cstr := match r with [] => None | a :: l => Some (a :: l) end.

(** The three ways to split *)
Inductive how (W ind : nat) (text : cstr) : cstr -> option cstr -> nat -> Prop :=
| how_newline : forall n, let s := repeat ch_space ind ++ text in
    nth_error s n = Some ch_nl -> n < W -> ind <= n ->
    how W ind text (firstn n s)
      (match skipn (S n) s with [] => None | c :: r => if is_code c then Some r else Some (c :: r) end)
      (match skipn (S n) s with [] => ind | c :: r => if is_code c then ind + Z.to_nat (code c) else ind end)
| how_whole : let s := repeat ch_space ind ++ text in List.length s < W -> how W ind text s None ind
| how_blank : forall k, let s := repeat ch_space ind ++ text in
    blank_at s k = true -> k <= W - 1 -> k < List.length s -> (ind <= k \/ Nat.max 4 (W - 21) <= k) ->
    (37 <= k \/ W - 21 <= k) ->
    how W ind text (firstn k s) (to_opt (skipn (S k) s)) ind
| how_forced : let s := repeat ch_space ind ++ text in W <= List.length s -> 
    ind < W ->
    how W ind text (firstn W s) (to_opt (skipn W s)) ind.

Lemma breakable_inv : forall s n stops, breakable s n stops = true ->
  blank_at s (n + 1) = true /\ skipn (n + 2) s <> [] /\ n + 1 < List.length s /\ 37 <= n + 1.
Proof.
  intros s n stops H. unfold breakable, MINLINE in H. apply andb_true_iff in H as [H0 H].
  destruct (nth_error s (n + 1)) as [a|] eqn:E1; [|discriminate].
  destruct (nth_error s (n + 2)) as [b|] eqn:E2; [|discriminate].
  apply andb_true_iff in H as [H _]. split.
  - unfold blank_at. rewrite E1. unfold is_blank. rewrite H. auto.
  - assert (n + 2 < List.length s) by (apply nth_error_Some; congruence). split; [|lia].
    intros K. assert (List.length (skipn (n + 2) s) = 0) by (rewrite K; auto). rewrite skipn_length in *. lia.
Qed.

Lemma maxcp_some : forall a b n, maxcp a b = Some n -> a = Some n \/ b = Some n.
Proof. intros [a|] [b|] n H; simpl in H; auto. injection H as <-. destruct (Nat.max_spec a b) as [[_ ->]|[_ ->]]; auto. Qed.

Lemma blank_search : forall s i t, blank_at s t = true -> search s t i = t.
Proof. intros s [|i] t H; simpl; auto. rewrite H. auto. Qed.

Lemma split_how : forall maxline ind text line rest ind',
  split maxline ind text = (line, rest, ind') -> how (width maxline) ind text line rest ind'.
Proof.
  intros maxline ind text line rest ind' H. unfold split in H.
  replace (if maxline <? MINLINELEN then MINLINELEN else maxline) with (width maxline) in H
    by (unfold width, MINLINELEN; destruct (Nat.ltb_spec maxline 20); lia).
  assert (HW : 20 <= width maxline) by (unfold width; lia).
  set (W := width maxline) in *. clearbody W. set (s := repeat ch_space ind ++ text) in *.
  match type of H with match _ with Some _ => _ | None => ?o end = _ =>
    set (oth := o) in H; assert (Ho : oth = (line, rest, ind') -> how W ind text line rest ind') end.
  2: { destruct (find_first ch_nl s) as [n|] eqn:En; [|auto].
       destruct (Nat.ltb_spec n W); [|auto]. injection H as <- <- <-.
       apply find_first_some in En as [En Ln]. apply how_newline; auto.
       eapply nth_spaces; [exact En|discriminate]. }
  clear H. unfold oth. clear oth. intros H.
  destruct (Nat.ltb_spec (List.length s) W) as [L|L].
  { injection H as <- <- <-. apply how_whole; auto. }
  match type of H with match _ with Some _ => _ | None => ?o end = _ =>
    set (commas := o) in H end.
  assert (HB : (if blank_at s (search s (W - 1) MAXSEARCH)
         then (firstn (search s (W - 1) MAXSEARCH) s, to_opt (skipn (S (search s (W - 1) MAXSEARCH)) s), ind)
         else (firstn W s, to_opt (skipn W s), ind)) = (line, rest, ind') -> how W ind text line rest ind').
  { clear H. set (t := search s (W - 1) MAXSEARCH). intros H.
    destruct (search_range s MAXSEARCH (W - 1)) as (R1 & R2 & R3). unfold MAXSEARCH in *. fold t in R1, R2, R3.
    destruct (blank_at s t) eqn:Eb; injection H as <- <- <-.
    - apply how_blank; auto; [fold s; lia|right; lia|right; lia].
    - apply how_forced; auto. destruct (Nat.lt_ge_cases ind W); [auto|]. exfalso.
      assert (X : blank_at s (W - 1) = true).
      { unfold blank_at, s. rewrite nth_error_app1 by (rewrite repeat_length; lia).
        rewrite nth_error_repeat by lia. reflexivity. }
      unfold t in Eb. rewrite blank_search in Eb by auto. congruence. }
  assert (HC : commas = (line, rest, ind') -> how W ind text line rest ind').
  { clear H. unfold commas. clear commas. intros H.
    destruct (find_last "," (firstn (W - 1) s)) as [n|] eqn:En; [|apply HB; exact H].
    destruct ((W - 5 <? n) && breakable s n ["}"%char]) eqn:Eb; [|apply HB; exact H].
    apply andb_true_iff in Eb as [_ Eb]. apply breakable_inv in Eb as (B1 & B2 & B3 & B4).
    apply find_last_some in En as [En Ln]. rewrite firstn_length in Ln. apply nth_firstn in En.
    injection H as <- <- <-.
    replace (Some (skipn (n + 2) s)) with (to_opt (skipn (S (n + 1)) s)).
    2: { replace (S (n + 1)) with (n + 2) by lia. destruct (skipn (n + 2) s); [congruence|auto]. }
    assert (ind <= n) by (eapply nth_spaces; [exact En|discriminate]). apply how_blank; auto; lia. }
  clearbody commas.
  destruct (maxcp (find_last ":" (firstn (W - 1) s)) (find_last ";" (firstn (W - 1) s))) as [n|] eqn:En; [|auto].
  destruct (breakable s n ["}"%char; ","%char]) eqn:Eb; [|auto].
  apply breakable_inv in Eb as (B1 & B2 & B3 & B4). 
  assert (K : n < W - 1 /\ ind <= n).
  { apply maxcp_some in En as [En|En]; apply find_last_some in En as [En Ln]; rewrite firstn_length in Ln;
      apply nth_firstn in En; (split; [lia|]); (eapply nth_spaces; [exact En|discriminate]). }
  injection H as <- <- <-.
  replace (Some (skipn (n + 2) s)) with (to_opt (skipn (S (n + 1)) s)).
  2: { replace (S (n + 1)) with (n + 2) by lia. destruct (skipn (n + 2) s); [congruence|auto]. }
  apply how_blank; auto; lia.
Qed.

(** ** Text is kept *)

Definition o2s (o : option cstr) : cstr := match o with Some r => r | None => [] end.
Lemma o2s_to_opt : forall r, o2s (to_opt r) = r.
Proof. destruct r; auto. Qed.

Lemma text_app : forall a b, text_of (a ++ b) = text_of a ++ text_of b.
Proof. intros. apply filter_app. Qed.
Lemma text_spaces : forall n, text_of (repeat ch_space n) = [].
Proof. induction n; simpl; auto. Qed.

Lemma cut : forall {A} (s : list A) k x, nth_error s k = Some x -> s = firstn k s ++ x :: skipn (S k) s.
Proof.
  intros A s k x H. rewrite <- (firstn_skipn k s) at 1. f_equal.
  revert k H. induction s as [|y s IH]; intros [|k] H; simpl in *; try discriminate.
  - injection H as ->. auto.
  - apply IH in H. auto.
Qed.

Lemma how_text : forall W ind text line rest ind', how W ind text line rest ind' ->
  text_of text = text_of line ++ text_of (o2s rest).
Proof.
  intros W ind text line rest ind' H.
  assert (E : text_of text = text_of (repeat ch_space ind ++ text)) by (rewrite text_app, text_spaces; auto).
  rewrite E. destruct H as [n s Hn L1 L2|s L|k s B L1 L2 L3 L4|s L1 L2]; unfold s in *; clear s;
    set (s := repeat ch_space ind ++ text) in *.
  - rewrite (cut s n _ Hn) at 1. rewrite text_app. f_equal.
    change (text_of (ch_nl :: skipn (S n) s)) with (text_of (skipn (S n) s)).
    destruct (skipn (S n) s) as [|c r]; [auto|]. destruct (is_code c) eqn:Ec; [|auto].
    cbn [o2s text_of filter]. unfold is_text at 1. rewrite Ec, orb_true_r. auto.
  - simpl. rewrite app_nil_r. auto.
  - rewrite o2s_to_opt. unfold blank_at in B. destruct (nth_error s k) as [c|] eqn:Ek; [|discriminate].
    rewrite (cut s k _ Ek) at 1. rewrite text_app. f_equal.
    cbn [text_of filter]. unfold is_text at 1. rewrite B. auto.
  - rewrite o2s_to_opt. rewrite <- text_app, firstn_skipn. auto.
Qed.

Lemma how_width : forall W ind text line rest ind', how W ind text line rest ind' -> List.length line <= W.
Proof.
  intros W ind text line rest ind' H.
  destruct H; unfold s in *; rewrite ?firstn_length; lia.
Qed.

Lemma codes_app : forall a b, codes (a ++ b) = codes a + codes b.
Proof. induction a as [|x a IH]; intros b; simpl; auto. rewrite IH. lia. Qed.
Lemma codes_spaces : forall n, codes (repeat ch_space n) = 0.
Proof. induction n; simpl; auto. Qed.

Lemma how_indent : forall W ind text line rest ind', how W ind text line rest ind' ->
  ind' + codes (o2s rest) <= ind + codes text.
Proof.
  intros W ind text line rest ind' H.
  assert (E : codes text = codes (repeat ch_space ind ++ text)) by (rewrite codes_app, codes_spaces; auto).
  rewrite E. destruct H as [n s Hn L1 L2|s L|k s B L1 L2 L3 L4|s L1 L2]; unfold s in *; clear s;
    set (s := repeat ch_space ind ++ text) in *.
  - rewrite (cut s n _ Hn) at 3. rewrite codes_app.
    change (codes (ch_nl :: skipn (S n) s)) with (codes (skipn (S n) s)).
    destruct (skipn (S n) s) as [|c r]; [simpl; lia|]. simpl codes at 3. destruct (is_code c) eqn:Ec; simpl; rewrite ?Ec; lia.
  - simpl. lia.
  - rewrite o2s_to_opt. rewrite <- (firstn_skipn (S k) s) at 2. rewrite codes_app. lia.
  - rewrite o2s_to_opt. rewrite <- (firstn_skipn W s) at 2. rewrite codes_app. lia.
Qed.

Lemma how_progress : forall maxline ind text line rest ind', how (width maxline) ind text line (Some rest) ind' ->
  ind <= max_indent maxline -> List.length rest < List.length text.
Proof.
  intros maxline ind text line rest ind' H Hi. unfold max_indent in Hi.
  remember (Some rest) as o eqn:Eo.
  assert (Ls : List.length (repeat ch_space ind ++ text) = ind + List.length text)
    by (rewrite app_length, repeat_length; auto).
  destruct H as [n s Hn L1 L2|s L|k s B L1 L2 L3 L4|s L1 L2]; unfold s in *; clear s;
    set (s := repeat ch_space ind ++ text) in *.
  - assert (K : n < List.length s) by (apply nth_error_Some; congruence).
    assert (Lk : List.length (skipn (S n) s) = List.length s - S n) by apply skipn_length.
    destruct (skipn (S n) s) as [|c r]; [discriminate|]. simpl in Lk.
    destruct (is_code c); injection Eo as <-; simpl; lia.
  - discriminate.
  - assert (E : skipn (S k) s = rest) by (rewrite <- (o2s_to_opt (skipn (S k) s)), Eo; auto).
    rewrite <- E, skipn_length. lia.
  - assert (E : skipn (width maxline) s = rest) by (rewrite <- (o2s_to_opt (skipn (width maxline) s)), Eo; auto).
    rewrite <- E, skipn_length. lia.
Qed.

(** ** The loop *)

Lemma loop_keeps : forall fuel maxline ind text ls, print_loop fuel maxline ind text = Some ls ->
  text_of (List.concat ls) = text_of text /\ forall l, In l ls -> List.length l <= width maxline.
Proof.
  induction fuel as [|f IH]; intros maxline ind text ls H; simpl in H; [discriminate|].
  destruct (split maxline ind text) as [[line [rest|]] ind'] eqn:E; apply split_how in E.
  - destruct (print_loop f maxline ind' rest) as [ls'|] eqn:E2; [|discriminate]. injection H as <-.
    apply IH in E2 as [A B]. apply how_text in E as C. apply how_width in E as D. split.
    + simpl. rewrite text_app, A, C. auto.
    + intros l [<-|Hl]; auto.
  - injection H as <-. apply how_text in E as C. apply how_width in E as D. split.
    + simpl in *. rewrite !app_nil_r in *. auto.
    + intros l [<-|[]]; auto.
Qed.

Lemma loop_ends : forall fuel maxline ind text, ind + codes text <= max_indent maxline ->
  List.length text < fuel -> exists ls, print_loop fuel maxline ind text = Some ls.
Proof.
  induction fuel as [|f IH]; intros maxline ind text Hi Hf; [lia|]. simpl.
  destruct (split maxline ind text) as [[line [rest|]] ind'] eqn:E; [|eauto]. apply split_how in E.
  assert (P := how_progress _ _ _ _ _ _ E ltac:(lia)). assert (Q := how_indent _ _ _ _ _ _ E). simpl in Q.
  destruct (IH maxline ind' rest) as [ls ->]; [lia|lia|]. simpl. eauto.
Qed.

Lemma print_keeps : forall maxline ind text, ind + codes text <= max_indent maxline ->
  exists ls, (forall fuel, List.length text < fuel -> print_loop fuel maxline ind text = Some ls) /\
    text_of (List.concat ls) = text_of text /\ (forall l, In l ls -> List.length l <= width maxline).
Proof.
  intros maxline ind text H.
  destruct (loop_ends (S (List.length text)) maxline ind text H ltac:(lia)) as [ls E].
  exists ls. split; [|eapply loop_keeps; eauto].
  assert (M : forall f g ind text ls, print_loop f maxline ind text = Some ls -> f <= g ->
            print_loop g maxline ind text = Some ls).
  { clear. induction f as [|f IH]; intros g ind text ls H L; simpl in H; [discriminate|].
    destruct g as [|g]; [lia|]. simpl. destruct (split maxline ind text) as [[line [rest|]] ind']; [|auto].
    destruct (print_loop f maxline ind' rest) as [ls'|] eqn:E; [|discriminate].
    rewrite (IH g _ _ _ E) by lia. auto. }
  intros fuel Hf. eapply M; [exact E|lia].
Qed.

(** ** Larger indentations never come to an end *)

Definition word (n : nat) : cstr := repeat "x"%char n.

Lemma search_finds : forall s i t k, blank_at s k = true -> k <= t -> t - k <= i -> 4 <= k ->
  (forall j, k < j -> j <= t -> blank_at s j = false) -> search s t i = k.
Proof.
  induction i as [|i IH]; intros t k Hk L1 L2 L3 Hn; simpl; [lia|].
  destruct (Nat.eq_dec t k) as [->|N].
  - rewrite Hk. auto.
  - rewrite Hn by lia. replace (4 <? t) with true by lia. simpl. apply IH; auto; try lia.
    intros j A B. apply Hn; lia.
Qed.

Lemma not_in_word : forall c a n, c <> ch_space -> c <> "x"%char -> ~ In c (repeat ch_space a ++ word n).
Proof.
  intros c a n H1 H2 K. apply in_app_or in K as [K|K]; apply repeat_spec in K; congruence.
Qed.

Lemma in_firstn : forall {A} k (s : list A) x, In x (firstn k s) -> In x s.
Proof. intros A k s x H. rewrite <- (firstn_skipn k s). apply in_or_app. auto. Qed.

Lemma blank_word : forall a n j, blank_at (repeat ch_space a ++ word n) j = (j <? a).
Proof.
  intros a n j. unfold blank_at. destruct (Nat.ltb_spec j a) as [L|L].
  - rewrite nth_error_app1 by (rewrite repeat_length; lia). rewrite nth_error_repeat by lia. reflexivity.
  - rewrite nth_error_app2 by (rewrite repeat_length; lia). rewrite repeat_length.
    destruct (nth_error (word n) (j - a)) as [c|] eqn:E; [|auto].
    apply nth_error_In, repeat_spec in E. subst c. reflexivity.
Qed.

Lemma split_stuck : forall maxline ind m n, max_indent maxline < ind -> 20 <= n ->
  exists line m', split maxline ind (repeat ch_space m ++ word n) = (line, Some (repeat ch_space m' ++ word n), ind).
Proof.
  intros maxline ind m n Hi Hn. unfold split.
  replace (if maxline <? MINLINELEN then MINLINELEN else maxline) with (width maxline)
    by (unfold width, MINLINELEN; destruct (Nat.ltb_spec maxline 20); lia).
  assert (HW : 20 <= width maxline) by (unfold width; lia). unfold max_indent in Hi.
  set (W := width maxline) in *. clearbody W.
  rewrite app_assoc, <- repeat_app. set (s := repeat ch_space (ind + m) ++ word n).
  assert (Ls : List.length s = ind + m + n) by (unfold s, word; rewrite app_length, !repeat_length; auto).
  assert (NI : forall c, c <> ch_space -> c <> "x"%char -> ~ In c s) by (intros; apply not_in_word; auto).
  rewrite find_first_not by (apply NI; discriminate).
  replace (List.length s <? W) with false by lia.
  rewrite !find_last_none by (intros K; apply in_firstn in K; revert K; apply NI; discriminate).
  cbn [maxcp].
  set (k := Nat.min (W - 1) (ind + m - 1)).
  assert (E : search s (W - 1) MAXSEARCH = k).
  { apply search_finds; unfold k, MAXSEARCH; try lia.
    - unfold s. rewrite blank_word. lia.
    - intros j A B. unfold s. rewrite blank_word. lia. }
  rewrite E. replace (blank_at s k) with true by (unfold s; rewrite blank_word; lia).
  exists (firstn k s), (ind + m - S k). 
  assert (X : skipn (S k) s = repeat ch_space (ind + m - S k) ++ word n).
  { unfold s. rewrite skipn_app, repeat_length. replace (S k - (ind + m)) with 0 by lia. simpl skipn at 2.
    f_equal. replace (ind + m) with (S k + (ind + m - S k)) at 1 by lia. rewrite repeat_app, skipn_app, repeat_length.
    rewrite skipn_all2 by (rewrite repeat_length; lia). replace (S k - S k) with 0 by lia. auto. }
  rewrite X. destruct (repeat ch_space (ind + m - S k) ++ word n) eqn:Er; [|auto].
  apply app_eq_nil in Er as [_ Er]. destruct n; [lia|discriminate].
Qed.

Lemma stuck : forall fuel maxline ind m n, max_indent maxline < ind -> 20 <= n ->
  print_loop fuel maxline ind (repeat ch_space m ++ word n) = None.
Proof.
  induction fuel as [|f IH]; intros maxline ind m n Hi Hn; [auto|]. simpl.
  destruct (split_stuck maxline ind m n Hi Hn) as (line & m' & ->). rewrite IH by auto. auto.
Qed.

Lemma never_ends : forall maxline ind, max_indent maxline < ind ->
  exists text, codes text = 0 /\ List.length text = 20 /\ forall fuel, print_loop fuel maxline ind text = None.
Proof.
  intros maxline ind H. exists (word 20). split; [reflexivity|]. split; [reflexivity|].
  intros fuel. apply (stuck fuel maxline ind 0 20); auto.
Qed.

(** ** printError *)

Lemma text_indent : forall n ls, text_of (List.concat (map (app (repeat ch_space n)) ls)) = text_of (List.concat ls).
Proof.
  intros n. induction ls as [|l ls IH]; [auto|]. simpl. rewrite !text_app, text_spaces, IH. auto.
Qed.

Lemma codes_len : forall c s, In c s -> is_code c = true -> 1 <= codes s.
Proof.
  intros c s H E. apply in_split in H as (a & b & ->). rewrite codes_app. simpl. rewrite E.
  unfold is_code in E. lia.
Qed.

Lemma max_indent_4 : forall maxline, 4 <= max_indent maxline.
Proof. intros. unfold max_indent. lia. Qed.

Lemma rest_keeps : forall maxline ind sp text fuel, ind + codes text <= 4 -> List.length text < fuel ->
  exists ls, print_rest fuel maxline ind sp text = Some ls /\ text_of (List.concat ls) = text_of text /\
    forall l, In l ls -> List.length l <= sp + width maxline.
Proof.
  intros maxline ind sp text fuel H Hf.
  destruct (print_keeps maxline ind text) as (ls & A & B & C); [pose proof (max_indent_4 maxline); lia|].
  unfold print_rest. rewrite A by auto. simpl. eexists. split; [reflexivity|].
  rewrite text_indent. split; [auto|]. intros l Hl. apply in_map_iff in Hl as (x & <- & Hx).
  rewrite app_length, repeat_length. specialize (C x Hx). lia.
Qed.

Definition error_width (maxlen loclen : nat) (s : cstr) : nat :=
  if ((Z.of_nat (List.length s) <? 2 * Z.of_nat maxlen - 1)%Z && match find_first ch_nl s with Some _ => true | None => false end)
  then 2 * maxlen + 20 else Nat.max (width maxlen) (Nat.max (loclen + 5 + width (maxlen - (loclen + 5))) (4 + width (maxlen - 4))).

Lemma error_keeps : forall maxlen loclen s fuel, codes s <= 4 -> List.length s < fuel ->
  exists ls, print_error fuel maxlen loclen s = Some ls /\ text_of (List.concat ls) = text_of s /\
    forall l, In l ls -> List.length l <= error_width maxlen loclen s.
Proof.
  intros maxlen loclen s fuel Hc Hf. unfold print_error.
  assert (First : forall k w, width maxlen <= w ->
    (forall t ind, ind + codes t <= 4 -> List.length t < fuel ->
       exists ls, k t ind = Some ls /\ text_of (List.concat ls) = text_of t /\ forall l, In l ls -> List.length l <= w) ->
    exists ls, match split maxlen 0 s with
                 | (line, None, _) => Some [line]
                 | (line, Some t, ind) => option_map (cons line) (k t ind)
                 end = Some ls /\ text_of (List.concat ls) = text_of s /\ forall l, In l ls -> List.length l <= w).
  { intros k w Hw K. destruct (split maxlen 0 s) as [[line [t|]] ind] eqn:E; apply split_how in E.
    - assert (P := how_progress _ _ _ _ _ _ E ltac:(lia)). assert (Q := how_indent _ _ _ _ _ _ E). simpl in Q.
      destruct (K t ind) as (ls & -> & A & B); [lia|lia|]. simpl. eexists. split; [reflexivity|].
      rewrite (how_text _ _ _ _ _ _ E). simpl. rewrite text_app, A. split; [auto|].
      apply how_width in E. intros l [<-|Hl]; [lia|auto].
    - eexists. split; [reflexivity|]. rewrite (how_text _ _ _ _ _ _ E). simpl. rewrite !app_nil_r.
      split; [auto|]. apply how_width in E. intros l [<-|[]]. lia. }
  unfold error_width. set (nl := match find_first ch_nl s with Some _ => true | None => false end).
  assert (W : forall x, width x <= x + 20 /\ 20 <= width x /\ x <= width x) by (intros; unfold width; lia).
  destruct ((_ <? _)%Z && negb nl) eqn:E1.
  - replace ((Z.of_nat (List.length s) <? 2 * Z.of_nat maxlen - 1)%Z && nl) with false
      by (destruct nl; [rewrite andb_false_r in E1; discriminate|rewrite andb_false_r; auto]).
    apply First; [lia|]. intros t ind Hi Hl.
    replace (Z.to_nat (Z.of_nat maxlen - Z.of_nat (loclen + 5))) with (maxlen - (loclen + 5)) by lia.
    destruct (_ && _ && _)%Z eqn:E2.
    + eexists. split; [reflexivity|]. split; [cbn [List.concat]; rewrite app_nil_r, text_app, text_spaces; auto|].
      intros l [<-|[]]. rewrite app_length, repeat_length. specialize (W maxlen). lia.
    + destruct (rest_keeps (maxlen - (loclen + 5)) ind (loclen + 5) t fuel Hi Hl) as (ls & -> & B & C).
      eexists. split; [reflexivity|]. split; [auto|]. intros l Hl'. specialize (C l Hl'). lia.
  - destruct ((Z.of_nat (List.length s) <? 2 * Z.of_nat maxlen - 1)%Z && nl) eqn:E2.
    + set (sp := Nat.max 1 ((2 * maxlen - 1 - List.length s) / 2)).
      assert (Hsp : sp <= 2 * maxlen).
      { unfold sp. pose proof (Nat.div_le_upper_bound (2 * maxlen - 1 - List.length s) 2 maxlen ltac:(lia) ltac:(lia)). lia. }
      assert (Hsp2 : sp <= Nat.max 1 maxlen).
      { unfold sp. pose proof (Nat.div_le_upper_bound (2 * maxlen - 1 - List.length s) 2 maxlen ltac:(lia) ltac:(lia)). lia. }
      apply First; [specialize (W maxlen); lia|]. intros t ind Hi Hl.
      destruct (rest_keeps (maxlen - sp) ind sp t fuel Hi Hl) as (ls & -> & B & C).
      eexists. split; [reflexivity|]. split; [auto|]. intros l Hl'. specialize (C l Hl').
      specialize (W (maxlen - sp)). lia.
    + apply First; [lia|]. intros t ind Hi Hl.
      destruct (rest_keeps (maxlen - 4) ind 4 t fuel Hi Hl) as (ls & -> & B & C).
      eexists. split; [reflexivity|]. split; [auto|]. intros l Hl'. specialize (C l Hl'). lia.
Qed.

Lemma error_prints : forall maxlen loclen s fuel, codes s <= 4 -> List.length s < fuel ->
  exists ls, print_error fuel maxlen loclen s = Some ls /\ text_of (List.concat ls) = text_of s.
Proof. intros. destruct (error_keeps maxlen loclen s fuel) as (ls & A & B & _); eauto. Qed.

Lemma how_no_nl : forall W text line rest ind', how W 0 text line (Some rest) ind' -> ~ In ch_nl text ->
  ind' = 0 /\ ~ In ch_nl rest /\ List.length line <= W /\
  (List.length rest + 38 <= List.length text \/ List.length rest + (W - 20) <= List.length text).
Proof.
  intros W text line rest ind' H Hn. assert (Hw := how_width _ _ _ _ _ _ H). remember (Some rest) as o eqn:Eo.
  destruct H as [n s Hk L1 L2|s L|k s B L1 L2 L3 L4|s L1 L2]; unfold s in *; clear s; cbn [repeat app] in *.
  - apply nth_error_In in Hk. tauto.
  - discriminate.
  - assert (E : skipn (S k) text = rest) by (rewrite <- (o2s_to_opt (skipn (S k) text)), Eo; auto).
    split; [auto|]. split.
    { intros K. apply Hn. rewrite <- (firstn_skipn (S k) text). apply in_or_app. rewrite E. auto. }
    split; [auto|]. rewrite <- E, skipn_length. lia.
  - assert (E : skipn W text = rest) by (rewrite <- (o2s_to_opt (skipn W text)), Eo; auto).
    split; [auto|]. split.
    { intros K. apply Hn. rewrite <- (firstn_skipn W text). apply in_or_app. rewrite E. auto. }
    split; [auto|]. rewrite <- E, skipn_length. lia.
Qed.

Lemma split_short : forall maxline t, ~ In ch_nl t -> List.length t < width maxline ->
  split maxline 0 t = (t, None, 0).
Proof.
  intros maxline t Hn Hl. unfold split.
  replace (if maxline <? MINLINELEN then MINLINELEN else maxline) with (width maxline)
    by (unfold width, MINLINELEN; destruct (Nat.ltb_spec maxline 20); lia).
  cbn [repeat app]. rewrite find_first_not by auto. replace (List.length t <? width maxline) with true by lia. auto.
Qed.

Lemma error_fits : forall maxlen loclen s fuel, codes s <= 4 -> List.length s < fuel -> ~ In ch_nl s ->
  42 <= maxlen ->
  exists ls, print_error fuel maxlen loclen s = Some ls /\ forall l, In l ls -> List.length l <= maxlen.
Proof.
  intros maxlen loclen s fuel Hc Hf Hn Hw. unfold print_error.
  rewrite (find_first_not ch_nl s Hn), andb_true_r, andb_false_r.
  assert (Ww : width maxlen = maxlen) by (unfold width; lia).
  destruct (split maxlen 0 s) as [[line [t|]] ind] eqn:E; apply split_how in E.
  2: { apply how_width in E.
       exists [line]. split; [destruct (_ <? _)%Z; auto|]. intros l [<-|[]]. lia. }
  assert (Q := how_indent _ _ _ _ _ _ E). simpl in Q.
  assert (P := how_progress _ _ _ _ _ _ E ltac:(lia)).
  apply how_no_nl in E as (-> & Nt & Ll & Lt); auto. rewrite Ww in *.
  destruct (Z.ltb_spec (Z.of_nat (List.length s)) (Z.of_nat maxlen + (Z.of_nat maxlen - Z.of_nat (loclen + 5)))) as [L1|L1].
  - rewrite (find_first_not ch_nl t Nt), andb_true_r.
    replace (Z.to_nat (Z.of_nat maxlen - Z.of_nat (loclen + 5))) with (maxlen - (loclen + 5)) by lia.
    destruct (_ && _)%Z eqn:E2.
    + eexists. split; [reflexivity|]. intros l [<-|[<-|[]]]; [lia|]. rewrite app_length, repeat_length. lia.
    + destruct (Z.ltb_spec (Z.of_nat maxlen - Z.of_nat (loclen + 5) - 1) (Z.of_nat (List.length t))) as [L2|L2].
      * destruct (rest_keeps (maxlen - (loclen + 5)) 0 (loclen + 5) t fuel ltac:(lia) ltac:(lia)) as (ls & -> & _ & C).
        eexists. split; [reflexivity|]. intros l [<-|Hl]; [lia|]. specialize (C l Hl). unfold width in C. lia.
      * unfold print_rest. destruct fuel as [|fuel]; [lia|]. cbn [print_loop].
        rewrite split_short by (unfold width; auto; lia). simpl option_map.
        eexists. split; [reflexivity|]. intros l [<-|[<-|[]]]; [lia|]. rewrite app_length, repeat_length. lia.
  - destruct (rest_keeps (maxlen - 4) 0 4 t fuel ltac:(lia) ltac:(lia)) as (ls & -> & _ & C).
    eexists. split; [reflexivity|]. intros l [<-|Hl]; [lia|]. specialize (C l Hl). unfold width in C. lia.
Qed.
