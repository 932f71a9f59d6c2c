(** * Proofs about the message limit and the CSV rows *)
From Verif Require Import Cbase Cbase_facts Limit_model Limit_spec.
From Coq Require Import ZifyBool.
Local Open Scope Z_scope.
Local Arguments Z.add : simpl never.
Local Arguments Z.mul : simpl never.

Lemma total_app : forall a b, total (a ++ b) = total a + total b.
Proof. induction a as [|x a IH]; intros b; simpl; [lia|]. rewrite IH. lia. Qed.

Lemma messages_app : forall a b, messages (a ++ b) = messages a ++ messages b.
Proof. intros. apply flat_map_app. Qed.

(** pending messages: beyond the limit; one of them is saved when it is the only one *)
Definition linv (n : Z) (s : lstate) (k : Z) : Prop :=
  0 <= ls_count s /\ total (ls_out s) + Z.max 0 (ls_count s - n) = k /\
  (ls_count s - n = 1 -> ls_saved s = Some (ls_last s)).

Lemma cleanup_inv : forall n s k, 0 <= n -> linv n s k -> linv n (cleanup n s) k /\ ls_count (cleanup n s) = 0 /\
  ls_last (cleanup n s) = ls_last s /\ total (ls_out (cleanup n s)) = k.
Proof.
  intros n s k Hn (A & B & C). unfold cleanup, linv. replace (n <? 0) with false by lia.
  destruct (Z.ltb_spec 0 (ls_count s - n)).
  - destruct (ls_saved s) as [m|] eqn:E.
    + destruct (Z.eqb_spec (ls_count s - n) 1); cbn [ls_last ls_count ls_saved ls_out];
        rewrite total_app; cbn [total fold_right weight]; repeat split; lia.
    + cbn [ls_last ls_count ls_saved ls_out]; rewrite total_app; cbn [total fold_right weight]; repeat split; lia.
  - cbn [ls_last ls_count ls_saved ls_out]. repeat split; lia.
Qed.

Lemma accept_inv : forall n s k t, 0 <= n -> linv n s k -> linv n (accept n s t) (k + 1) /\ ls_last (accept n s t) = t.
Proof.
  intros n s k t Hn I. unfold accept. replace (n <? 0) with false by lia.
  destruct (cstr_eqb (ls_last s) t) eqn:E.
  - apply cstr_eqb_eq in E. destruct I as (A & B & C). cbn [ls_last ls_count ls_saved ls_out].
    destruct (Z.eqb_spec (ls_count s + 1) (n + 1)) as [E2|E2].
    + unfold limitmessage, linv. cbn [ls_last ls_count ls_saved ls_out].
      replace (n + 1 <? ls_count s + 1) with false by lia. cbn [ls_last ls_count ls_saved ls_out].
      rewrite E. repeat split; lia.
    + destruct (Z.ltb_spec n (ls_count s + 1)); unfold linv; cbn [ls_last ls_count ls_saved ls_out].
      * repeat split; try lia; auto.
      * rewrite total_app. cbn [total fold_right weight]. repeat split; try lia; auto.
  - destruct (cleanup_inv n s k Hn I) as (A & B & C & D). unfold linv.
    cbn [ls_last ls_count ls_saved ls_out]. rewrite total_app. cbn [total fold_right weight].
    repeat split; lia.
Qed.

Lemma lrun_snoc : forall n ops o, lrun n (ops ++ [o]) = lstep n (lrun n ops) o.
Proof. intros. unfold lrun. rewrite fold_left_app. reflexivity. Qed.

Lemma lrun_app : forall n a b, lrun n (a ++ b) = fold_left (lstep n) b (lrun n a).
Proof. intros. unfold lrun. apply fold_left_app. Qed.

Lemma lrun_inv : forall n ops, 0 <= n -> linv n (lrun n ops) (Z.of_nat (List.length (messages ops))) /\
  ls_last (lrun n ops) = last_text ops.
Proof.
  intros n ops Hn. induction ops as [|o ops [IH IL]] using rev_ind.
  - cbn. unfold linv. cbn. repeat split; lia.
  - rewrite lrun_snoc. unfold last_text in *. rewrite messages_app, app_length. destruct o as [t|]; simpl.
    + destruct (accept_inv n _ _ t Hn IH) as [A B]. rewrite last_last. split; [|auto].
      replace (Z.of_nat (_ + 1)) with (Z.of_nat (List.length (messages ops)) + 1) by lia. auto.
    + destruct (cleanup_inv n _ _ Hn IH) as (A & B & C & D). rewrite app_nil_r, Nat.add_0_r, C. auto.
Qed.

Lemma conservation : forall n ops, 0 <= n ->
  total (output n (ops ++ [Flush])) = Z.of_nat (List.length (messages ops)).
Proof.
  intros n ops Hn. unfold output. rewrite lrun_snoc. simpl.
  destruct (lrun_inv n ops Hn) as [I _]. apply (cleanup_inv n _ _ Hn I).
Qed.

Lemma unlimited : forall n ops, n < 0 -> output n ops = map Shown (messages ops).
Proof.
  intros n ops Hn. unfold output. induction ops as [|o ops IH] using rev_ind; [reflexivity|].
  rewrite lrun_snoc, messages_app, map_app, <- IH. destruct o as [t|]; simpl.
  - unfold accept. replace (n <? 0) with true by lia. reflexivity.
  - unfold cleanup. replace (n <? 0) with true by lia. simpl. rewrite app_nil_r. reflexivity.
Qed.

(** ** Runs *)

Lemma repeat_snoc : forall {A} (x : A) k, repeat x k ++ [x] = x :: repeat x k.
Proof. induction k as [|k IH]; simpl; [auto|]. rewrite IH. auto. Qed.

(** the state after the first [k + 1] of equal messages *)
Lemma run_state : forall n s t k, 0 <= n -> ls_last s <> t ->
  let r := fold_left (lstep n) (repeat (Msg t) (S k)) s in
  ls_last r = t /\ ls_count r = Z.of_nat k /\
  ls_out r = ls_out (cleanup n s) ++ repeat (Shown t) (Z.to_nat (Z.min (Z.of_nat k) n + 1)) /\
  (Z.of_nat k > n -> ls_saved r = Some t).
Proof.
  intros n s t k Hn Hs. induction k as [|k IH]; cbv zeta in *.
  - simpl. unfold accept. replace (n <? 0) with false by lia.
    destruct (cstr_eqb (ls_last s) t) eqn:E; [apply cstr_eqb_eq in E; tauto|].
    cbn [ls_last ls_count ls_saved ls_out]. replace (Z.min 0 n + 1) with 1 by lia.
    repeat split; lia.
  - replace (repeat (Msg t) (S (S k))) with (repeat (Msg t) (S k) ++ [Msg t]) by apply repeat_snoc.
    rewrite fold_left_app. set (q := fold_left (lstep n) (repeat (Msg t) (S k)) s) in *.
    destruct IH as (A & B & C & D). cbn [fold_left lstep]. unfold accept.
    replace (n <? 0) with false by lia. rewrite A, cstr_eqb_refl. cbn [ls_last ls_count ls_saved ls_out].
    rewrite B. destruct (Z.eqb_spec (Z.of_nat k + 1) (n + 1)) as [E|E].
    + unfold limitmessage. cbn [ls_last ls_count ls_saved ls_out].
      replace (n + 1 <? Z.of_nat k + 1) with false by lia. cbn [ls_last ls_count ls_saved ls_out].
      split; [auto|]. split; [lia|]. split; [|auto]. rewrite C. do 3 f_equal. lia.
    + destruct (Z.ltb_spec n (Z.of_nat k + 1)); cbn [ls_last ls_count ls_saved ls_out].
      * split; [auto|]. split; [lia|]. split; [|intros; apply D; lia]. rewrite C. do 3 f_equal. lia.
      * split; [auto|]. split; [lia|]. split; [|lia]. rewrite C, <- app_assoc. f_equal.
        replace (Z.min (Z.of_nat k) n + 1) with (Z.of_nat (S k)) by lia.
        replace (Z.min (Z.of_nat (S k)) n + 1) with (Z.of_nat (S (S k))) by lia.
        rewrite !Nat2Z.id. apply repeat_snoc.
Qed.

Lemma run_flush : forall n s t k, 0 <= n -> ls_last s <> t ->
  ls_out (cleanup n (fold_left (lstep n) (repeat (Msg t) (S k)) s)) =
  ls_out (cleanup n s) ++ run_lines n t (S k).
Proof.
  intros n s t k Hn Hs. destruct (run_state n s t k Hn Hs) as (A & B & C & D). cbv zeta in *.
  set (q := fold_left (lstep n) (repeat (Msg t) (S k)) s) in *.
  unfold cleanup at 1. replace (n <? 0) with false by lia. rewrite B. unfold run_lines.
  destruct (Z.ltb_spec 0 (Z.of_nat k - n)).
  - rewrite D by lia. destruct (Z.eqb_spec (Z.of_nat k - n) 1); cbn [ls_out]; rewrite C, <- app_assoc; f_equal.
    + replace (Z.of_nat (S k) <=? n + 2) with true by lia. 
      replace (Z.to_nat (Z.min (Z.of_nat k) n + 1)) with k by lia. apply repeat_snoc.
    + replace (Z.of_nat (S k) <=? n + 2) with false by lia. do 3 f_equal; lia.
  - cbn [ls_out]. rewrite C. f_equal. replace (Z.of_nat (S k) <=? n + 2) with true by lia. f_equal. lia.
Qed.

Lemma run_output : forall n h t k, 0 <= n -> last_text h <> t ->
  output n (h ++ repeat (Msg t) (S k) ++ [Flush]) = output n (h ++ [Flush]) ++ run_lines n t (S k).
Proof.
  intros n h t k Hn Hl. unfold output. rewrite app_assoc, !lrun_snoc, lrun_app. cbn [lstep].
  apply run_flush; auto. destruct (lrun_inv n h Hn) as [_ ->]. auto.
Qed.

Lemma change_output : forall n h t, 0 <= n -> last_text h <> t ->
  output n (h ++ [Msg t]) = output n (h ++ [Flush]) ++ [Shown t].
Proof.
  intros n h t Hn Hl. unfold output. rewrite !lrun_snoc. cbn [lstep]. unfold accept.
  replace (n <? 0) with false by lia. destruct (lrun_inv n h Hn) as [_ E]. rewrite E.
  destruct (cstr_eqb (last_text h) t) eqn:E2; [apply cstr_eqb_eq in E2; tauto|]. reflexivity.
Qed.

(** ** CSV *)

Lemma dec_aux_plain : forall fuel n acc, 0 <= n ->
  (forall c, In c acc -> is_digit c = true) -> forall c, In c (dec_aux fuel n acc) -> is_digit c = true.
Proof.
  induction fuel as [|f IH]; intros n acc Hn H c Hc; simpl in Hc; [auto|].
  assert (D : is_digit (digit_char (n mod 10)) = true) by (apply digit_char_is_digit; pose proof (Z.mod_pos_bound n 10); lia).
  assert (H' : forall x, In x (digit_char (n mod 10) :: acc) -> is_digit x = true) by (intros x [<-|Hx]; auto).
  destruct (n / 10 =? 0); [auto|]. apply (IH (n / 10) _ (Z.div_pos n 10 Hn ltac:(lia)) H' c Hc).
Qed.

Lemma csv_plain_chars : forall s, (forall c, In c s -> is_digit c = true \/ c = "-"%char) -> csv_plain s.
Proof.
  intros s H. repeat split; intros K; destruct (H _ K) as [E|E]; discriminate.
Qed.

Lemma dec_plain : forall z, csv_plain (dec z).
Proof.
  intros z. apply csv_plain_chars. intros c Hc. unfold dec, dec_nat in Hc.
  destruct (Z.ltb_spec z 0) as [L|L].
  - destruct Hc as [<-|Hc]; [auto|]. left. eapply dec_aux_plain; [| |exact Hc]; [lia|simpl; tauto].
  - left. eapply dec_aux_plain; [| |exact Hc]; [lia|simpl; tauto].
Qed.

Lemma eqb_neq : forall a b, a <> b -> Ascii.eqb a b = false.
Proof. intros. apply Ascii.eqb_neq. auto. Qed.

Lemma parse_plain : forall f rest field row rows, csv_plain f ->
  csv_parse Plain (f ++ rest) field row rows = csv_parse Plain rest (field ++ f) row rows.
Proof.
  induction f as [|c f IH]; intros rest field row rows (A & B & C); simpl.
  - rewrite app_nil_r. auto.
  - rewrite (eqb_neq c comma), (eqb_neq c ch_nl), (eqb_neq c ch_dquote);
      try (intros ->; simpl in *; tauto).
    rewrite IH; [rewrite <- app_assoc; auto|]. repeat split; simpl in *; tauto.
Qed.

Lemma parse_plain_comma : forall f rest row rows, csv_plain f ->
  csv_parse FieldStart (f ++ comma :: rest) [] row rows = csv_parse FieldStart rest [] (row ++ [f]) rows.
Proof.
  intros f rest row rows H. destruct f as [|c f]; [reflexivity|].
  destruct H as (A & B & C). cbn [app csv_parse].
  rewrite (eqb_neq c comma), (eqb_neq c ch_nl), (eqb_neq c ch_dquote);
      try (intros ->; simpl in *; tauto).
  rewrite parse_plain by (repeat split; simpl in *; tauto). reflexivity.
Qed.

Lemma parse_quoted : forall t rest field row rows, no_quote t ->
  csv_parse Quoted (t ++ ch_dquote :: rest) field row rows = csv_parse QuoteInQuoted rest (field ++ t) row rows.
Proof.
  induction t as [|c t IH]; intros rest field row rows H.
  - cbn [app csv_parse]. rewrite Ascii.eqb_refl, app_nil_r. auto.
  - cbn [app csv_parse]. rewrite (eqb_neq c ch_dquote) by (intros ->; apply H; simpl; auto).
    rewrite IH; [rewrite <- app_assoc; auto|]. intros K. apply H. simpl. auto.
Qed.

Definition csv_ok (m : csvmsg) : Prop :=
  csv_plain (c_flag m) /\ csv_plain (c_file m) /\ no_quote (c_text m) /\
  match c_add m with Some a => no_quote a | None => True end.

Lemma parse_row : forall m rest rows, csv_ok m ->
  csv_parse FieldStart (csv_row m ++ rest) [] [] rows = csv_parse FieldStart rest [] [] (rows ++ [fields m]).
Proof.
  intros m rest rows (A & B & C & D). unfold csv_row, fields.
  repeat (rewrite <- ?app_assoc; cbn [app]).
  do 7 (rewrite parse_plain_comma by (auto using dec_plain); cbn [app]).
  cbn [csv_parse]. rewrite Ascii.eqb_refl. rewrite parse_quoted by auto.
  destruct (c_add m) as [a|]; cbn [app csv_parse].
  - change (Ascii.eqb comma ch_dquote) with false. change (Ascii.eqb comma comma) with true. cbv iota.
    rewrite Ascii.eqb_refl. rewrite <- app_assoc. cbn [app]. rewrite parse_quoted by auto. cbn [csv_parse].
    change (Ascii.eqb ch_nl ch_dquote) with false. change (Ascii.eqb ch_nl comma) with false.
    change (Ascii.eqb ch_nl ch_nl) with true. reflexivity.
  - change (Ascii.eqb ch_nl ch_dquote) with false. change (Ascii.eqb ch_nl comma) with false.
    change (Ascii.eqb ch_nl ch_nl) with true. reflexivity.
Qed.

Lemma parse_file : forall ms, (forall m, In m ms -> csv_ok m) -> read_csv (csv_file ms) = Some (map fields ms).
Proof.
  intros ms H. unfold read_csv.
  assert (G : forall rows, csv_parse FieldStart (csv_file ms) [] [] rows = Some (rows ++ map fields ms)).
  { induction ms as [|m ms IH]; intros rows; [simpl; rewrite app_nil_r; auto|].
    unfold csv_file. cbn [flat_map]. rewrite parse_row by (apply H; simpl; auto).
    fold (csv_file ms). rewrite IH by (intros; apply H; simpl; auto). rewrite <- app_assoc. auto. }
  apply G.
Qed.
