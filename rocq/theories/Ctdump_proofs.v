(** Proofs about the library format of the type table. *)
From Coq Require Import ZArith Bool List Ascii Lia ZifyBool.
Import ListNotations.
From Verif Require Import Cbase Cbase_facts Pos_model Reader_model Reader_spec Reader_proofs Ctab_model Ctab_spec Ctab_proofs Ctdump_model Ctdump_spec.
From Verif Require Dump_model Dump_spec Dump_proofs.
Local Open Scope Z_scope.

Lemma type_number_good : forall z, type_number z -> Dump_spec.good_int z.
Proof. intros z H. apply Dump_proofs.good_nonneg. exact H. Qed.

Lemma link_good : forall z, link z -> Dump_spec.good_int z.
Proof.
  intros z [->|[->|H]]; [| |apply type_number_good; exact H]; unfold Dump_spec.good_int, ctype_undefined, ctype_dne, INT_MIN, INT_MAX;
    (split; [lia|right]).
  - exists 2, 0. repeat split; try lia; reflexivity.
  - exists 1, 0. repeat split; try lia; reflexivity.
Qed.

Lemma kind_good : forall z, -3 <= z <= 3 -> Dump_spec.good_int z.
Proof.
  intros z H. unfold Dump_spec.good_int, INT_MIN, INT_MAX. split; [lia|].
  destruct (Z_le_gt_dec 0 z); [left; lia|right]. exists (-z), 0. rewrite Z.pow_0_r. lia.
Qed.

(** Digits and the minus sign: the characters of a number. *)
Definition numchar (c : ascii) : Prop := is_digit c = true \/ c = "-"%char.
Lemma dec_numchars : forall z c, In c (dec z) -> numchar c.
Proof.
  intros z c. unfold dec. destruct (z <? 0) eqn:E.
  - intros [<-|I]; [right; reflexivity|left].
    pose proof (dec_nat_digits (-z) ltac:(lia)) as D. unfold all_digits in D. rewrite Forall_forall in D. auto.
  - intro I. left.
    pose proof (dec_nat_digits z ltac:(lia)) as D. unfold all_digits in D. rewrite Forall_forall in D. auto.
Qed.

Lemma dec_cons : forall z, exists c r, dec z = c :: r /\ numchar c.
Proof.
  intro z. destruct (Dump_proofs.dec_head_array z []) as (c & r & E & H).
  rewrite app_nil_r in E. exists c, r. split; [exact E|].
  apply orb_prop in H as [H|H]; [left; exact H|right; apply Ascii.eqb_eq; exact H].
Qed.

Lemma numchar_neq : forall c x, numchar c -> is_digit x = false -> x <> "-"%char -> Ascii.eqb c x = false.
Proof.
  intros c x [H| ->] D N; apply Ascii.eqb_neq; [intros ->; congruence|congruence].
Qed.

Lemma checkChar_same : forall x r, reader_checkChar (x :: r) x = ROk tt r.
Proof. intros. unfold reader_checkChar. rewrite Ascii.eqb_refl. reflexivity. Qed.

Definition stop (x : ascii) : Prop := (code x < 48 \/ 57 < code x) /\ code x <> 32 /\ code x <> 10 /\ code x <> 9.

Lemma stop_after_blanks : forall x r, stop x -> after_blanks (x :: r) = x :: r.
Proof.
  intros x r (A & B & C & D). cbn [after_blanks].
  replace ((code x =? 32) || (code x =? 10) || (code x =? 9)) with false by lia. reflexivity.
Qed.

Lemma stop_ends : forall x r, stop x -> number_ends (x :: r).
Proof. intros x r (A & _) c s E. injection E as <- <-. exact A. Qed.

Lemma good_getInt_stop : forall z x r, Dump_spec.good_int z -> stop x ->
  reader_getInt (dec z ++ x :: r) = ROk z (x :: r).
Proof.
  intros z x r G S. rewrite Dump_proofs.good_getInt; [|exact G|apply stop_ends; exact S].
  rewrite stop_after_blanks by exact S. reflexivity.
Qed.

Lemma int_then_ok : forall z x r, Dump_spec.good_int z -> stop x ->
  int_then x (dec z ++ x :: r) = ROk z r.
Proof.
  intros z x r G S. unfold int_then. rewrite good_getInt_stop by auto. cbn [rbind].
  rewrite checkChar_same. reflexivity.
Qed.

Lemma strchr_ok : forall x s r, ~ In x s -> strchr x (s ++ x :: r) = Some (s, r).
Proof.
  induction s as [|c s IH]; intros r H.
  - cbn. rewrite Ascii.eqb_refl. reflexivity.
  - cbn [app strchr]. destruct (Ascii.eqb_spec c x) as [->|n]; [exfalso; apply H; left; reflexivity|].
    rewrite IH; [reflexivity|]. intro I. apply H. right. exact I.
Qed.

Lemma strchr_none : forall x s, ~ In x s -> strchr x s = None.
Proof.
  induction s as [|c s IH]; intros H; [reflexivity|].
  cbn [strchr]. destruct (Ascii.eqb_spec c x) as [->|n]; [exfalso; apply H; left; reflexivity|].
  rewrite IH; [reflexivity|]. intro I. apply H. right. exact I.
Qed.

Lemma free_not : forall bad s x, free_of bad s -> In x bad -> ~ In x s.
Proof. intros bad s x F I J. destruct (F _ J) as [_ N]. contradiction. Qed.

Lemma free_nl : forall bad s, free_of bad s -> ~ In ch_nl s.
Proof. intros bad s F J. destruct (F _ J) as [N _]. congruence. Qed.

(** The members of an enumeration. *)
Definition member (m : cstr) : Prop := m <> [] /\ free_of [","%char; "}"%char] m.

Lemma enum_loop_ok : forall ms a rest acc fuel, free_of [","%char; "}"%char] a -> Forall member ms ->
  ~ In ","%char rest -> (List.length ms < fuel)%nat ->
  enum_loop fuel (a ++ List.concat (map (fun x => ","%char :: x) ms) ++ "}"%char :: rest) acc = ROk (acc ++ a :: ms) rest.
Proof.
  induction ms as [|m ms IH]; intros a rest acc fuel Ha Hm Hr Hf; (destruct fuel as [|fuel]; [cbn in Hf; lia|]).
  - cbn [map List.concat app enum_loop].
    rewrite strchr_none.
    + rewrite strchr_ok; [reflexivity|]. eapply free_not; [exact Ha|right; left; reflexivity].
    + rewrite in_app_iff. cbn [In]. intros [I|[I|I]]; [|discriminate|contradiction].
      revert I. eapply free_not; [exact Ha|left; reflexivity].
  - cbn [map List.concat app enum_loop]. inversion Hm; subst.
    rewrite strchr_ok by (eapply free_not; [exact Ha|left; reflexivity]).
    rewrite <- app_assoc. rewrite IH; [|apply H1|exact H2|exact Hr|cbn in Hf; lia].
    rewrite <- app_assoc. reflexivity.
Qed.

Lemma enum_undump_ok : forall ms rest, Forall member ms -> ~ In ","%char rest ->
  enum_undump (enum_dump ms ++ "}"%char :: rest) = ROk ms rest.
Proof.
  intros [|a ms] rest H Hr; [reflexivity|]. inversion H as [|? ? [Hn Hf] Hms]; subst.
  cbn [enum_dump]. rewrite <- app_assoc.
  set (R := List.concat _ ++ _).
  assert (L : (List.length ms <= List.length R)%nat).
  { unfold R. rewrite app_length. clear. induction ms; cbn [map List.concat List.length app] in *; [lia|].
    rewrite app_length in *. lia. }
  destruct a as [|c a]; [congruence|]. unfold enum_undump. cbn [app].
  assert (Ascii.eqb c "}"%char = false) as ->.
  { apply Ascii.eqb_neq. intros ->. destruct (Hf "}"%char (or_introl eq_refl)) as [_ N]. apply N. right; left; reflexivity. }
  change (c :: a ++ R) with ((c :: a) ++ R). unfold R.
  rewrite enum_loop_ok; [reflexivity|exact Hf|exact Hms|exact Hr|].
  rewrite app_length. fold R. cbn [List.length]. lia.
Qed.

Section P.
Variable conv : Z -> Z.
Variable named_bool : Z -> bool.
Notation dumpb := (ctbase_dump conv named_bool).

Lemma ctype_dump_ok : forall z, ctype_dump named_bool z = dec (stored named_bool z).
Proof.
  intros z. unfold ctype_dump, stored. destruct (z <? 0); [reflexivity|]. destruct (named_bool z); reflexivity.
Qed.
Lemma stored_good : forall z, z <= INT_MAX -> Dump_spec.good_int (stored named_bool z).
Proof.
  intros z H. apply type_number_good. unfold stored, type_number, CTX_UNKNOWN, CTX_BOOL, INT_MAX in *.
  destruct (z <? 0) eqn:E; [lia|]. destruct (named_bool z); lia.
Qed.

Ltac stp := unfold stop; cbv; intuition (try discriminate; lia).

Lemma stop_bar : stop "|"%char. Proof. unfold stop. change (code "|"%char) with 124. lia. Qed.
Lemma stop_slash : stop "/"%char. Proof. unfold stop. change (code "/"%char) with 47. lia. Qed.
Lemma stop_dot : stop "."%char. Proof. unfold stop. change (code "."%char) with 46. lia. Qed.

Lemma ctbase_roundtrip : forall cb rest, plain_base conv cb -> ~ In ","%char rest ->
  ctbase_undump (dumpb cb ++ rest) = ROk (stored_base conv named_bool cb) rest.
Proof.
  pose proof stop_bar as SB. pose proof stop_slash as SS. pose proof stop_dot as SD.
  intros cb rest H Hr. destruct cb; cbn [plain_base] in H; try contradiction; cbn [ctbase_dump stored_base];
    try reflexivity.
  1-4: unfold lit; cbn [list_ascii_of_string app]; rewrite <- app_assoc; cbn [app];
    cbn [ctbase_undump Ascii.eqb Bool.eqb];
    rewrite int_then_ok by (auto using type_number_good); reflexivity.
  1: { destruct H as [Hn Hf]. unfold lit; cbn [list_ascii_of_string app]. repeat (rewrite <- app_assoc; cbn [app]).
    cbn [ctbase_undump Ascii.eqb Bool.eqb].
    rewrite strchr_ok by (eapply free_not; [exact Hn|left; reflexivity]).
    rewrite enum_undump_ok by auto. reflexivity. }
  1-2: rewrite ctype_dump_ok; unfold lit; cbn [list_ascii_of_string app]; rewrite <- app_assoc; cbn [app];
    cbn [ctbase_undump Ascii.eqb Bool.eqb];
    rewrite int_then_ok by (auto using stored_good); reflexivity.
  - destruct H as [Hb Hn]. rewrite ctype_dump_ok. unfold lit; cbn [list_ascii_of_string app].
    rewrite wrap32_id by (unfold type_number, INT_MIN, INT_MAX in *; lia).
    repeat (rewrite <- app_assoc; cbn [app]). cbn [ctbase_undump Ascii.eqb Bool.eqb].
    rewrite int_then_ok by (auto using stored_good). cbn [rbind].
    rewrite int_then_ok by (auto using type_number_good). reflexivity.
  - destruct H as [Hb Hn]. rewrite ctype_dump_ok. unfold lit; cbn [list_ascii_of_string app].
    repeat (rewrite <- app_assoc; cbn [app]). cbn [ctbase_undump Ascii.eqb Bool.eqb].
    match goal with |- context [strchr "("%char (dec ?r ++ " "%char :: "("%char :: ?q)] =>
      change (" "%char :: "("%char :: q) with ([" "%char] ++ "("%char :: q) end.
    rewrite app_assoc, strchr_ok.
    + rewrite Dump_proofs.good_getInt; [|apply stored_good; apply Hb|].
      * rewrite strchr_ok; [reflexivity|]. eapply free_not; [exact Hn|left; reflexivity].
      * intros c s E. injection E as <- <-. cbv. intuition discriminate.
    + rewrite in_app_iff. intros [I|[I|[]]]; [|discriminate].
      apply dec_numchars in I as [I|I]; discriminate.
  - destruct H as [Hn Hf]. unfold lit; cbn [list_ascii_of_string app]. repeat (rewrite <- app_assoc; cbn [app]).
    cbn [ctbase_undump Ascii.eqb Bool.eqb]. unfold tag_and_fields.
    rewrite strchr_ok by (eapply free_not; [exact Hn|left; reflexivity]).
    rewrite strchr_ok by (eapply free_not; [exact Hf|left; reflexivity]). reflexivity.
  - destruct H as [Hn Hf]. unfold lit; cbn [list_ascii_of_string app]. repeat (rewrite <- app_assoc; cbn [app]).
    cbn [ctbase_undump Ascii.eqb Bool.eqb]. unfold tag_and_fields.
    rewrite strchr_ok by (eapply free_not; [exact Hn|left; reflexivity]).
    rewrite strchr_ok by (eapply free_not; [exact Hf|left; reflexivity]). reflexivity.
  - destruct H as [Ha Hb]. rewrite !ctype_dump_ok. unfold lit; cbn [list_ascii_of_string app].
    repeat (rewrite <- app_assoc; cbn [app]). cbn [ctbase_undump Ascii.eqb Bool.eqb].
    rewrite int_then_ok by (auto; apply kind_good; destruct explicit; lia). cbn [rbind].
    rewrite int_then_ok by (auto using stored_good). cbn [rbind].
    rewrite int_then_ok by (auto using stored_good). cbn [rbind].
    destruct explicit; reflexivity.
Qed.

Lemma ctbase_dump_head : forall cb, exists c r, dumpb cb = c :: r /\ stop c.
Proof.
  intro cb. destruct cb; eexists _, _; (split; [reflexivity|]); unfold stop;
    match goal with |- context [code ?c] => let v := eval vm_compute in (code c) in change (code c) with v end; lia.
Qed.

Lemma opt_yes : forall x r, reader_optCheckChar (x :: r) x = (true, r).
Proof. intros. unfold reader_optCheckChar. rewrite Ascii.eqb_refl. reflexivity. Qed.
Lemma opt_no : forall c r x, Ascii.eqb c x = false -> fst (reader_optCheckChar (c :: r) x) = false.
Proof. intros c r x E. unfold reader_optCheckChar. rewrite E. reflexivity. Qed.

Lemma head_getInt : forall e r, plain_entry conv e ->
  reader_getInt (dec (e_kind e) ++ lit " " ++ dumpb (e_cb e) ++ r) = ROk (e_kind e) (dumpb (e_cb e) ++ r).
Proof.
  intros e r (Hk & _). rewrite Dump_proofs.good_getInt.
  - destruct (ctbase_dump_head (e_cb e)) as (c & s & E & S). rewrite E. unfold lit.
    cbn [list_ascii_of_string app]. change (after_blanks (" "%char :: c :: s ++ r)) with (after_blanks (c :: s ++ r)).
    rewrite stop_after_blanks by exact S. reflexivity.
  - apply kind_good. exact Hk.
  - intros c s E. injection E as <- <-. change (code " "%char) with 32. lia.
Qed.

Lemma kind_ok : forall k, -3 <= k <= 3 -> ctkind_fromInt k = ROk k [].
Proof. intros k H. unfold ctkind_fromInt. replace ((k <? -3) || (3 <? k)) with false by lia. reflexivity. Qed.

Lemma getInt_nl : forall z, Dump_spec.good_int z -> reader_getInt (dec z ++ [ch_nl]) = ROk z [].
Proof.
  intros z G. rewrite Dump_proofs.good_getInt; [reflexivity|exact G|].
  intros c s E. injection E as <- <-. change (code ch_nl) with 10. lia.
Qed.

Lemma getInt_sp : forall z y r, Dump_spec.good_int z ->
  reader_getInt (dec z ++ " "%char :: dec y ++ r) = ROk z (dec y ++ r).
Proof.
  intros z y r G. rewrite Dump_proofs.good_getInt; [|exact G|].
  - change (after_blanks (" "%char :: dec y ++ r)) with (after_blanks (dec y ++ r)).
    destruct (dec_cons y) as (c & s & E & N). rewrite E. cbn [app after_blanks].
    destruct N as [N| ->]; [|reflexivity]. unfold is_digit in N.
    replace ((code c =? 32) || (code c =? 10) || (code c =? 9)) with false by lia. reflexivity.
  - intros c s E. injection E as <- <-. change (code " "%char) with 32. lia.
Qed.

Lemma dec_no_comma : forall z, ~ In ","%char (dec z).
Proof. intros z I. apply dec_numchars in I as [I|I]; discriminate. Qed.

Ltac nocomma := cbn [app]; rewrite ?in_app_iff; cbn [In]; rewrite ?in_app_iff; cbn [In];
  rewrite ?in_app_iff; cbn [In];
  intuition (first [discriminate | match goal with H : In _ (dec _) |- _ => exact (dec_no_comma _ H) end]).

Lemma opt_dec : forall z r x, is_digit x = false -> x <> "-"%char ->
  reader_optCheckChar (dec z ++ r) x = (false, dec z ++ r).
Proof.
  intros z r x D N. destruct (dec_cons z) as (c & s & E & C). rewrite E. cbn [app].
  unfold reader_optCheckChar. rewrite (numchar_neq c x C D N). reflexivity.
Qed.

Lemma ctentry_roundtrip : forall e, plain_entry conv e -> exists r,
  ctentry_undump (ctentry_dump conv named_bool e ++ [ch_nl]) = ROk (stored_entry conv named_bool e) r.
Proof.
  intros e He. pose proof He as (Hk & Hcb & Hb & Hp & Ha).
  unfold ctentry_undump, ctentry_dump. cbv zeta.
  destruct ((e_ptr e =? ctype_dne) && (e_arr e =? ctype_dne) && (e_base e =? ctype_dne)) eqn:E1;
    [|destruct ((e_base e =? ctype_undefined) && (e_arr e =? ctype_dne)) eqn:E2;
      [destruct (e_ptr e =? ctype_dne) eqn:E3|destruct ((e_ptr e =? ctype_dne) && (e_arr e =? ctype_dne)) eqn:E4]];
    repeat rewrite <- app_assoc; rewrite head_getInt by exact He; cbn [rbind]; rewrite kind_ok by exact Hk;
    rewrite ctbase_roundtrip by (try exact Hcb; unfold lit; cbn [list_ascii_of_string]; nocomma); cbn [rbind].
  - unfold lit. cbn [list_ascii_of_string app]. rewrite opt_yes. eexists. unfold stored_entry. do 2 f_equal; lia.
  - unfold lit. cbn [list_ascii_of_string app].
    unfold reader_optCheckChar. cbn [Ascii.eqb Bool.eqb]. eexists. unfold stored_entry. do 2 f_equal; lia.
  - unfold lit. cbn [list_ascii_of_string app].
    unfold reader_optCheckChar. cbn [Ascii.eqb Bool.eqb].
    rewrite getInt_nl by (apply link_good; exact Hp). cbn [rbind]. eexists. unfold stored_entry. do 2 f_equal; lia.
  - rewrite !opt_dec by (reflexivity || discriminate).
    unfold lit. cbn [list_ascii_of_string app].
    rewrite good_getInt_stop; [|apply link_good; exact Hb|unfold stop; change (code "&"%char) with 38; lia].
    cbn [rbind]. rewrite opt_yes. eexists. unfold stored_entry. do 2 f_equal; lia.
  - rewrite !opt_dec by (reflexivity || discriminate).
    unfold lit. cbn [list_ascii_of_string app].
    rewrite getInt_sp by (apply link_good; exact Hb). cbn [rbind].
    rewrite !opt_dec by (reflexivity || discriminate).
    rewrite getInt_sp by (apply link_good; exact Hp). cbn [rbind].
    rewrite getInt_nl by (apply link_good; exact Ha). cbn [rbind]. eexists. reflexivity.
Qed.

(** Lines. *)
Lemma dec_no_nl : forall z, ~ In ch_nl (dec z).
Proof. intros z I. apply dec_numchars in I as [I|I]; discriminate. Qed.
Lemma ctype_dump_no_nl : forall z, ~ In ch_nl (ctype_dump named_bool z).
Proof.
  intros z. unfold ctype_dump. destruct (z <? 0); [cbv; intuition discriminate|].
  destruct (named_bool z); apply dec_no_nl.
Qed.
Lemma enum_no_nl : forall ms, Forall member ms -> ~ In ch_nl (enum_dump ms).
Proof.
  intros [|a ms] H; [intros []|]. inversion H as [|? ? [_ Ha] Hms]; subst. cbn [enum_dump].
  rewrite in_app_iff. intros [I|I]; [revert I; eapply free_nl; exact Ha|].
  apply in_concat in I as (x & I & J). apply in_map_iff in I as (m & <- & K).
  rewrite Forall_forall in Hms. specialize (Hms _ K) as [_ F].
  destruct J as [J|J]; [discriminate|]. revert J. eapply free_nl; exact F.
Qed.

Lemma base_no_nl : forall cb, plain_base conv cb -> ~ In ch_nl (dumpb cb).
Proof.
  intros cb H I. destruct cb; cbn [plain_base ctbase_dump] in *; try contradiction; unfold lit in I; cbn [list_ascii_of_string In] in I;
  rewrite ?in_app_iff in I; cbn [In app] in I; rewrite ?in_app_iff in I; cbn [In] in I;
  rewrite ?in_app_iff in I; cbn [In] in I; rewrite ?in_app_iff in I; cbn [In] in I;
  repeat match goal with
    | H : _ \/ _ |- _ => destruct H
    | H : _ /\ _ |- _ => destruct H
    | H : False |- _ => destruct H
    | H : In _ (dec _) |- _ => exact (dec_no_nl _ H)
    | H : In _ (ctype_dump _ _) |- _ => exact (ctype_dump_no_nl _ H)
    | H : In _ (enum_dump _), F : Forall _ _ |- _ => exact (enum_no_nl _ F H)
    | H : In _ ?s, F : free_of _ ?s |- _ => exact (free_nl _ _ F H)
    end; discriminate.
Qed.

Lemma entry_no_nl : forall e, plain_entry conv e -> ~ In ch_nl (ctentry_dump conv named_bool e).
Proof.
  intros e (Hk & Hcb & _) I. unfold ctentry_dump in I.
  apply base_no_nl in Hcb.
  destruct ((e_ptr e =? ctype_dne) && (e_arr e =? ctype_dne) && (e_base e =? ctype_dne));
    [|destruct ((e_base e =? ctype_undefined) && (e_arr e =? ctype_dne));
      [destruct (e_ptr e =? ctype_dne)|destruct ((e_ptr e =? ctype_dne) && (e_arr e =? ctype_dne))]];
  unfold lit in I; cbn [list_ascii_of_string] in I; rewrite !in_app_iff in I; cbn [In] in I;
  repeat match goal with
    | H : _ \/ _ |- _ => destruct H
    | H : False |- _ => destruct H
    | H : In _ (dec _) |- _ => exact (dec_no_nl _ H)
    end; try discriminate; contradiction.
Qed.

Lemma entry_head : forall e s, begins_semi (ctentry_dump conv named_bool e ++ s) = false.
Proof.
  intros e s. unfold ctentry_dump.
  destruct (dec_cons (e_kind e)) as (c & r & E & N). rewrite E.
  assert (Ascii.eqb c ";"%char = false) by (apply numchar_neq; [exact N|reflexivity|discriminate]).
  destruct ((e_ptr e =? ctype_dne) && (e_arr e =? ctype_dne) && (e_base e =? ctype_dne));
    [|destruct ((e_base e =? ctype_undefined) && (e_arr e =? ctype_dne));
      [destruct (e_ptr e =? ctype_dne)|destruct ((e_ptr e =? ctype_dne) && (e_arr e =? ctype_dne))]]; exact H.
Qed.

Lemma readLine_ok : forall l f, ~ In ch_nl l -> short_line l ->
  readLine (l ++ [ch_nl] ++ f) = LLine (l ++ [ch_nl]) f.
Proof.
  intros l f H S. unfold short_line in S. unfold readLine.
  change [ch_nl] with Dump_model.nl. rewrite Dump_proofs.fgets_line; [|exact H|unfold Dump_spec.short; lia].
  rewrite app_length. unfold Dump_model.MAX_DUMP_LINE_LENGTH.
  change (List.length Dump_model.nl) with 1%nat.
  replace (Z.of_nat (List.length l + 1) =? 16384 - 1) with false by lia. reflexivity.
Qed.

Definition whole_line (l : cstr) : Prop := ~ In ch_nl l /\ short_line l /\ begins_semi (l ++ [ch_nl]) = true.

Lemma load_entries_ok : forall t l f acc semi rest fuel, (List.length t < fuel)%nat ->
  Forall (plain_entry conv) t ->
  Forall (fun e => short_line (ctentry_dump conv named_bool e)) t -> whole_line semi ->
  (l ++ f = cttable_dump conv named_bool t ++ semi ++ [ch_nl] ++ rest) ->
  (match t with [] => l = semi ++ [ch_nl] | e :: _ => l = ctentry_dump conv named_bool e ++ [ch_nl] end) ->
  load_entries fuel l f acc = ROk (acc ++ map (stored_entry conv named_bool) t) rest.
Proof.
  induction t as [|e t IH]; intros l f acc semi rest fuel F Hp Hs (W1 & W2 & W3) E Hl;
    (destruct fuel as [|fuel]; [cbn in F; lia|]); cbn [load_entries]; subst l.
  - rewrite W3. cbn [cttable_dump map List.concat app] in *. 
    change (ch_nl :: rest) with ([ch_nl] ++ rest) in E. rewrite app_assoc in E. apply app_inv_head in E. subst.
    rewrite app_nil_r. reflexivity.
  - inversion Hp; inversion Hs; subst.
    rewrite entry_head. destruct (ctentry_roundtrip e H1) as (r & R). rewrite R.
    unfold cttable_dump in E. cbn [map List.concat] in E. fold (cttable_dump conv named_bool t) in E.
    rewrite <- (app_assoc _ (cttable_dump conv named_bool t)) in E. apply app_inv_head in E. subst f.
    destruct t as [|e2 t].
    + cbn [cttable_dump map List.concat app]. change (ch_nl :: rest) with ([ch_nl] ++ rest).
      rewrite readLine_ok by assumption.
      rewrite (IH _ _ _ semi rest); [|cbn in *; lia|assumption|assumption|split; auto|rewrite <- app_assoc; reflexivity|reflexivity].
      rewrite <- app_assoc. reflexivity.
    + unfold cttable_dump. cbn [map List.concat]. fold (cttable_dump conv named_bool t).
      rewrite <- !app_assoc. inversion H2; inversion H6; subst.
      rewrite readLine_ok by (assumption || (apply entry_no_nl; assumption)).
      rewrite (IH _ _ _ semi rest); [|cbn in *; lia|assumption|assumption|split; auto| |reflexivity].
      * rewrite <- app_assoc. reflexivity.
      * unfold cttable_dump. cbn [map List.concat]. rewrite <- !app_assoc. reflexivity.
Qed.

Lemma dump_length : forall t, (List.length t <= List.length (cttable_dump conv named_bool t))%nat.
Proof.
  induction t; [cbn; lia|]. unfold cttable_dump in *. cbn [map List.concat List.length].
  rewrite !app_length. cbn. lia.
Qed.

Lemma table_roundtrip : forall t rest, t <> [] ->
  Forall (plain_entry conv) t ->
  Forall (fun e => short_line (ctentry_dump conv named_bool e)) t ->
  cttable_load (lit ";;ctTable" ++ [ch_nl] ++ cttable_dump conv named_bool t ++ lit ";;tistable" ++ [ch_nl] ++ rest)
  = ROk (map (stored_entry conv named_bool) t) rest.
Proof.
  intros t rest Hne Hp Hs. unfold cttable_load. cbn [load_skip].
  rewrite readLine_ok by (cbv; intuition discriminate).
  change (begins_semi (lit ";;ctTable" ++ [ch_nl])) with true. cbn iota.
  destruct t as [|e t]; [congruence|].
  set (tail := cttable_dump conv named_bool (e :: t) ++ lit ";;tistable" ++ [ch_nl] ++ rest).
  assert (T : tail = ctentry_dump conv named_bool e ++ [ch_nl] ++ (cttable_dump conv named_bool t ++ lit ";;tistable" ++ [ch_nl] ++ rest)).
  { unfold tail, cttable_dump. cbn [map List.concat]. rewrite <- !app_assoc. reflexivity. }
  pose proof (dump_length (e :: t)) as L.
  assert (L2 : (List.length (e :: t) <= List.length tail)%nat) by (unfold tail; rewrite app_length; lia).
  assert (G : List.length (lit ";;ctTable" ++ [ch_nl] ++ tail) = S (9 + List.length tail)) by (rewrite !app_length; cbn; lia).
  rewrite G. cbn [load_skip]. rewrite T at 1. inversion Hp; inversion Hs; subst.
  rewrite readLine_ok by (assumption || (apply entry_no_nl; assumption)).
  rewrite entry_head. rewrite (load_entries_ok (e :: t) _ _ [] (lit ";;tistable") rest).
  - reflexivity.
  - lia.
  - assumption.
  - assumption.
  - split; [cbv; intuition discriminate|]. split; reflexivity.
  - rewrite <- app_assoc. symmetry. exact T.
  - reflexivity.
Qed.
End P.

(** * Tables built by the type constructors *)
Definition leafBase (e : entry) : Prop :=
  isDerived (e_cb e) = false -> e_base e = ctype_undefined \/ e_base e = ctype_dne.

Lemma Forall_set_nth : forall A (P : A -> Prop) l i x, Forall P l -> P x -> Forall P (set_nth i x l).
Proof.
  induction l as [|a l IH]; intros i x H Hx; [destruct i; exact H|]. inversion H; subst.
  destruct i; cbn [set_nth]; constructor; auto.
Qed.

Lemma lb_get : forall t c e, Forall leafBase t -> getCtentry t c = Some e -> leafBase e.
Proof.
  intros t c e H G. unfold getCtentry in G. destruct (c <? 0); [discriminate|].
  apply nth_error_In in G. rewrite Forall_forall in H. auto.
Qed.

Lemma lb_setPtr : forall t c v, Forall leafBase t -> Forall leafBase (setPtr t c v).
Proof.
  intros t c v H. unfold setPtr. destruct (getCtentry t c) as [e|] eqn:G; [|exact H].
  apply Forall_set_nth; [exact H|]. exact (lb_get _ _ _ H G).
Qed.
Lemma lb_setArray : forall t c v, Forall leafBase t -> Forall leafBase (setArray t c v).
Proof.
  intros t c v H. unfold setArray. destruct (getCtentry t c) as [e|] eqn:G; [|exact H].
  apply Forall_set_nth; [exact H|]. exact (lb_get _ _ _ H G).
Qed.
Lemma lb_app : forall t e, Forall leafBase t -> leafBase e -> Forall leafBase (t ++ [e]).
Proof. intros. apply Forall_app. split; auto. Qed.

Lemma lb_makePointer : forall t c t' p, Forall leafBase t -> makePointer t c = Some (t', p) -> Forall leafBase t'.
Proof.
  intros t c t' p H. unfold makePointer.
  destruct (c =? CTX_CHAR); [intro E; injection E as <- <-; exact H|].
  destruct (c =? CTX_VOID); [intro E; injection E as <- <-; exact H|].
  destruct (getCtentry t c); [|discriminate].
  destruct (_ =? _); [|intro E; injection E as <- <-; exact H].
  intro E. injection E as <- <-. apply lb_setPtr, lb_app; [exact H|]. intro D. discriminate D.
Qed.
Lemma lb_makeArray : forall t c t' p, Forall leafBase t -> makeArray t c = Some (t', p) -> Forall leafBase t'.
Proof.
  intros t c t' p H. unfold makeArray. destruct (getCtentry t c); [|discriminate].
  destruct (_ =? _); [|intro E; injection E as <- <-; exact H].
  intro E. injection E as <- <-. apply lb_setArray, lb_app; [exact H|]. intro D. discriminate D.
Qed.
Lemma lb_makeFixed : forall t c n t' p, Forall leafBase t -> makeFixedArray t c n = Some (t', p) -> Forall leafBase t'.
Proof.
  intros t c n t' p H E. injection E as <- <-. apply lb_app; [exact H|]. intro D. discriminate D.
Qed.
Lemma lb_makeInner : forall fuel d t c t' p, Forall leafBase t -> makeInner fuel d t c = Some (t', p) -> Forall leafBase t'.
Proof.
  induction fuel as [|fuel IH]; intros d t c t' p H E; [discriminate|]. cbn [makeInner] in E.
  destruct (isFixedArray t c).
  - destruct (baseArrayPtr t c) as [b|]; [|discriminate]. destruct (getArraySize t c); [|discriminate].
    destruct (makeInner fuel d t b) as [[t1 r]|] eqn:M; [|discriminate].
    eapply lb_makeFixed; [|exact E]. eapply IH; [exact H|exact M].
  - destruct (isArray t c).
    + destruct (baseArrayPtr t c) as [b|]; [|discriminate].
      destruct (makeInner fuel d t b) as [[t1 r]|] eqn:M; [|discriminate].
      eapply lb_makeArray; [|exact E]. eapply IH; [exact H|exact M].
    + destruct d; [eapply lb_makeFixed|eapply lb_makeArray]; eauto.
Qed.

Lemma lb_step : forall eq eqs t o, Forall leafBase t -> Forall leafBase (step eq eqs t o).
Proof.
  intros eq eqs t o H. destruct o; cbn [step].
  - destruct (validIndex t c); [|exact H]. destruct (makePointer t c) as [[t' p]|] eqn:E; cbn; [|exact H].
    eapply lb_makePointer; eauto.
  - destruct (validIndex t c); [|exact H]. destruct (makeArray t c) as [[t' p]|] eqn:E; cbn; [|exact H].
    eapply lb_makeArray; eauto.
  - destruct (validIndex t c); [|exact H]. apply lb_app; [exact H|]. intro D. discriminate D.
  - destruct (validIndex t c); [|exact H].
    destruct (makeInner (S (List.length t)) dim t c) as [[t' p]|] eqn:E; unfold orelse, fst; [|exact H].
    eapply lb_makeInner; eauto.
  - destruct (_ && _); [|exact H]. unfold addComplex.
    destruct (match cb with CBfcn _ _ | CBexpfcn _ => None | _ => _ end); [exact H|].
    apply lb_app; [exact H|]. intros _. left. reflexivity.
  - destruct (isUser cb); [|exact H]. unfold addUser. destruct (searchBack _ _ _ _ _); [exact H|].
    apply lb_app; [exact H|]. intros _. right. reflexivity.
Qed.

Lemma lb_init : Forall leafBase cttable_init.
Proof.
  unfold cttable_init. apply Forall_app. split; [|apply Forall_app; split; [|apply Forall_app; split]].
  - apply Forall_forall. intros e I. apply in_map_iff in I as (j & <- & _). intros _. left. reflexivity.
  - apply Forall_forall. intros e I. apply in_map_iff in I as (j & <- & _). intro D. discriminate D.
  - apply Forall_forall. intros e I. apply in_map_iff in I as (j & <- & _). intro D. discriminate D.
  - constructor; [|constructor]. intros _. left. reflexivity.
Qed.

Lemma lb_run : forall eq eqs ops t, Forall leafBase t -> Forall leafBase (run eq eqs ops t).
Proof.
  intros eq eqs ops. unfold run. induction ops as [|o ops IH]; intros t H; [exact H|].
  cbn [fold_left]. apply IH, lb_step, H.
Qed.

Lemma reachable_plain : forall conv eq eqs ops, let t := run eq eqs ops cttable_init in
  size t <= INT_MAX -> Forall (fun e => plain_base conv (e_cb e)) t ->
  Forall (plain_entry conv) t.
Proof.
  intros conv eq eqs ops t Hs Hb.
  pose proof (reach_wf eq eqs ops) as W. fold t in W.
  pose proof (lb_run eq eqs ops _ lb_init) as L. fold t in L.
  rewrite Forall_forall in *. intros e I.
  destruct (In_nth_error _ _ I) as [n Hn].
  assert (G : getCtentry t (Z.of_nat n) = Some e).
  { unfold getCtentry. replace (Z.of_nat n <? 0) with false by lia. rewrite Nat2Z.id. exact Hn. }
  pose proof (get_range _ _ _ G) as R.
  assert (LK : forall i e', getCtentry t i = Some e' -> link i).
  { intros i e' Gi. apply get_range in Gi. right. right. unfold type_number. lia. }
  unfold plain_entry. repeat split.
  - destruct (w_kind _ W _ _ G) as [[K _]|[[K _]|[[K _]|[[[K|K] _]|[K _]]]]]; rewrite K;
      unfold CTK_PTR, CTK_ARRAY, CTK_PLAIN, CTK_COMPLEX, CTK_INVALID; lia.
  - destruct (w_kind _ W _ _ G) as [[K _]|[[K _]|[[K _]|[[[K|K] _]|[K _]]]]]; rewrite K;
      unfold CTK_PTR, CTK_ARRAY, CTK_PLAIN, CTK_COMPLEX, CTK_INVALID; lia.
  - apply Hb, I.
  - assert (B : forall b, 0 <= b < Z.of_nat n -> link b) by (intros b Hbb; right; right; unfold type_number; lia).
    destruct (w_kind _ W _ _ G) as [(_ & b & eb & _ & -> & ? & _)|[(_ & b & eb & _ & -> & ? & _)|
      [(_ & b & k & _ & -> & ? & _)|[[_ D]|(_ & _ & D)]]]].
    1-3: apply B; assumption.
    1-2: destruct (L e I D) as [-> | ->]; unfold link; auto.
  - destruct (w_ptr _ W _ _ G) as [->|(e' & G' & _)]; [unfold link; auto|]. eapply LK; exact G'.
  - destruct (w_arr _ W _ _ G) as [->|(e' & G' & _)]; [unfold link; auto|]. eapply LK; exact G'.
Qed.

Lemma reachable_roundtrip : forall conv named_bool eq eqs ops rest, let t := run eq eqs ops cttable_init in
  size t <= INT_MAX -> Forall (fun e => plain_base conv (e_cb e)) t ->
  Forall (fun e => short_line (ctentry_dump conv named_bool e)) t ->
  cttable_load (lit ";;ctTable" ++ [ch_nl] ++ cttable_dump conv named_bool t ++ lit ";;tistable" ++ [ch_nl] ++ rest)
  = ROk (map (stored_entry conv named_bool) t) rest.
Proof.
  intros conv named_bool eq eqs ops rest t Hs Hb Hl.
  apply table_roundtrip; [|apply reachable_plain; assumption|exact Hl].
  pose proof (w_size _ (reach_wf eq eqs ops)) as S. fold t in S. intro E. rewrite E in S. cbv in S. apply S. reflexivity.
Qed.

Lemma stored_proper : forall conv named_bool e, (forall z, conv z = z) -> proper_base named_bool (e_cb e) ->
  stored_entry conv named_bool e = e.
Proof.
  intros conv named_bool [k cb b p a] I P. unfold stored_entry. cbn [e_kind e_cb e_base e_ptr e_arr] in *. f_equal.
  assert (S : forall z, 0 <= z /\ named_bool z = false -> stored named_bool z = z).
  { intros z [A B]. unfold stored. replace (z <? 0) with false by lia. rewrite B. reflexivity. }
  destruct cb; cbn [stored_base proper_base] in *; rewrite ?I, ?S by tauto; try reflexivity; try contradiction.
Qed.

Lemma table_identity : forall conv named_bool t rest, (forall z, conv z = z) -> t <> [] ->
  Forall (plain_entry conv) t -> Forall (fun e => proper_base named_bool (e_cb e)) t ->
  Forall (fun e => short_line (ctentry_dump conv named_bool e)) t ->
  cttable_load (lit ";;ctTable" ++ [ch_nl] ++ cttable_dump conv named_bool t ++ lit ";;tistable" ++ [ch_nl] ++ rest)
  = ROk t rest.
Proof.
  intros conv named_bool t rest I N P Q S. rewrite table_roundtrip by assumption. f_equal.
  clear N P S. induction Q; [reflexivity|]. cbn [map]. rewrite IHQ, stored_proper by assumption. reflexivity.
Qed.

(** Lines which fill the buffer. *)
Lemma fgets_aux_long : forall l f n, ~ In ch_nl l -> 0 <= n <= Z.of_nat (List.length l) ->
  List.length (fst (Dump_model.fgets_aux n (l ++ f))) = Z.to_nat n.
Proof.
  induction l as [|c l IH]; intros f n H Hn.
  - cbn [List.length app] in *. assert (n = 0) as -> by lia. destruct f; reflexivity.
  - cbn [app Dump_model.fgets_aux List.length] in *. destruct (n <=? 0) eqn:E; [cbn; lia|].
    destruct (Ascii.eqb_spec c ch_nl) as [->|ne]; [exfalso; apply H; left; reflexivity|].
    specialize (IH f (n - 1) ltac:(intro I; apply H; right; exact I) ltac:(lia)).
    destruct (Dump_model.fgets_aux (n - 1) (l ++ f)) as [x y]. cbn [fst List.length] in *. lia.
Qed.

Lemma readLine_long : forall l f, ~ In ch_nl l -> 16382 <= Z.of_nat (List.length l) ->
  readLine (l ++ [ch_nl] ++ f) = LTooLong.
Proof.
  intros l f H L. unfold readLine, Dump_model.fgets. cbn [app].
  destruct (l ++ ch_nl :: f) eqn:E; [destruct l; discriminate|]. rewrite <- E. clear E.
  change (Dump_model.MAX_DUMP_LINE_LENGTH - 1) with 16383.
  destruct (Z.eq_dec (Z.of_nat (List.length l)) 16382) as [Q|Q].
  - rewrite Dump_proofs.fgets_aux_line by (auto; lia).
    rewrite app_length. change (List.length Dump_model.nl) with 1%nat.
    replace (Z.of_nat (List.length l + 1) =? 16383) with true by lia. reflexivity.
  - pose proof (fgets_aux_long l (ch_nl :: f) 16383 H ltac:(lia)) as G.
    destruct (Dump_model.fgets_aux 16383 (l ++ ch_nl :: f)) as [x y]. cbn [fst] in G.
    replace (Z.of_nat (List.length x) =? 16383) with true by lia. reflexivity.
Qed.

Lemma long_entry : forall conv named_bool e t rest, plain_entry conv e ->
  16382 <= Z.of_nat (List.length (ctentry_dump conv named_bool e)) ->
  cttable_load (lit ";;ctTable" ++ [ch_nl] ++ cttable_dump conv named_bool (e :: t) ++ rest) = RBug.
Proof.
  intros conv named_bool e t rest P L. unfold cttable_load. cbn [load_skip].
  rewrite readLine_ok by (cbv; intuition discriminate).
  change (begins_semi (lit ";;ctTable" ++ [ch_nl])) with true. cbn iota.
  unfold cttable_dump. cbn [map List.concat]. rewrite <- !app_assoc.
  match goal with |- load_skip ?n _ = _ => assert (exists m, n = S m) as [m ->] end.
  { rewrite !app_length. cbn. eexists. reflexivity. }
  cbn [load_skip]. rewrite readLine_long; [reflexivity|eapply entry_no_nl; exact P|exact L].
Qed.
