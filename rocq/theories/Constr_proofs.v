(** * Proofs about simplification of bounds expressions *)
From Coq Require Import ZArith List Bool Lia ZifyBool Arith.
From Verif Require Import Cbase Constr_model Constr_spec.
Import ListNotations.
Local Open Scope Z_scope.

(** ** Small facts *)

Lemma as_int_ok : forall z, Z.abs z < 2147483648 -> as_int z = Ok z.
Proof.
  intros z H. unfold as_int.
  replace (in_int z) with true; [reflexivity|].
  unfold in_int, INT_MIN, INT_MAX. symmetry. apply andb_true_intro. lia.
Qed.

Lemma as_long_ok : forall z, Z.abs z < 2147483648 * 4 -> as_long z = Ok z.
Proof.
  intros z H. unfold as_long.
  replace (in_long z) with true; [reflexivity|].
  unfold in_long, LONG_MIN, LONG_MAX. symmetry. apply andb_true_intro. lia.
Qed.

Lemma wrap32_id : forall z, Z.abs z < 2147483648 -> wrap32 z = z.
Proof.
  intros z H. unfold wrap32.
  rewrite Z.mod_small; lia.
Qed.

Lemma is_lit_inv : forall e, is_lit e = true -> exists z, e = Lit z.
Proof.
  intros [t| |]; try discriminate. destruct t; try discriminate. eexists; reflexivity.
Qed.

Fixpoint size (e : cexpr) : nat :=
  match e with
  | Term _ => 1
  | Unary _ a => S (size a)
  | Binary _ l r => S (size l + size r)
  end.

Lemma size_pos : forall e, (1 <= size e)%nat.
Proof. destruct e; simpl; lia. Qed.

Lemma weight_nonneg : forall e, 0 <= weight e.
Proof. induction e as [t|u a IH|op l IHl r IHr]; simpl; try lia; destruct t; lia. Qed.

(** Terms that remain after one pass. *)
Definition simple_term (t : cterm) : Prop :=
  match t with TLit _ | TName _ | TSizeof _ => True | _ => False end.

(** The strict version of [regular], preserved by every step. *)
Fixpoint sreg (e : cexpr) : Prop :=
  match e with
  | Term t => simple_term t
  | Unary _ a => sreg a
  | Binary _ l r =>
      sreg l /\ sreg r /\ (has_single l \/ starts_single r \/ is_lit r = true)
  end.

(** All literals of the +/- skeleton are zero. *)
Fixpoint lz (e : cexpr) : Prop :=
  match e with
  | Term (TLit z) => z = 0
  | Term _ | Unary _ _ => True
  | Binary _ l r => lz l /\ lz r
  end.

Definition is_max (u : unop) : bool :=
  match u with MAXSET | MAXREAD => true | _ => false end.

(** Hereditarily without constants, except below minSet/minRead. *)
Fixpoint hcl (e : cexpr) : Prop :=
  match e with
  | Term (TLit z) => z = 0
  | Term t => simple_term t
  | Unary u a =>
      if is_max u then hcl a
      else match a with
           | Binary PLUS c (Term (TLit _)) => hcl c /\ is_lit c = false
           | _ => hcl a
           end
  | Binary _ l r => hcl l /\ hcl r
  end.

Lemma hcl_lz : forall e, hcl e -> lz e.
Proof.
  induction e as [t|u a IH|op l IHl r IHr]; simpl; intros H; auto.
  - destruct t; auto.
  - tauto.
Qed.

(** Results of simplification. *)
Definition hnf (e : cexpr) : Prop :=
  is_lit e = true \/ hcl e \/
  (exists c z, e = Binary PLUS c (Lit z) /\ hcl c /\ is_lit c = false) \/
  (exists u x z, e = Binary MINUS (Unary u x) (Lit z) /\ hcl (Unary u x)).

(** Skeleton atoms are hereditarily clean (literals arbitrary). *)
Fixpoint hsk (e : cexpr) : Prop :=
  match e with
  | Term t => simple_term t
  | Unary u a => hcl (Unary u a)
  | Binary _ l r => hsk l /\ hsk r
  end.

Lemma hcl_hsk : forall e, hcl e -> hsk e.
Proof.
  induction e as [t|u a IH|op l IHl r IHr]; intros H; simpl in *; auto.
  - destruct t; simpl; auto.
  - tauto.
Qed.

Lemma hnf_hsk : forall e, hnf e -> hsk e.
Proof.
  intros e [H|[H|[(c & z & -> & H & _)|(u & x & z & -> & H)]]].
  - apply is_lit_inv in H as (z & ->). simpl. exact I.
  - apply hcl_hsk; auto.
  - simpl. split; auto. apply hcl_hsk; auto.
  - simpl. split; auto.
Qed.

Lemma hsk_lz_hcl : forall e, hsk e -> lz e -> hcl e.
Proof.
  induction e as [t|u a IH|op l IHl r IHr]; intros H K; simpl in *; auto.
  - destruct t; simpl in *; auto.
  - tauto.
Qed.

(** A right operand of the form [0 op t] only occurs constant-free. *)
Fixpoint zr (e : cexpr) : Prop :=
  match e with
  | Binary _ l r =>
      zr l /\ zr r /\
      match r with Binary _ (Term (TLit z)) t => z = 0 -> lz t | _ => True end
  | _ => True
  end.

Lemma lz_zr : forall e, lz e -> zr e.
Proof.
  induction e as [t|u a IH|op l IHl r IHr]; simpl; intros H; auto.
  destruct H as [H1 H2]. repeat split; auto.
  destruct r as [|u a|op' [t|u a|op'' x y] r']; auto. destruct t; auto.
  simpl in H2. tauto.
Qed.

Lemma hnf_zr : forall e, hnf e -> zr e.
Proof.
  intros e [H|[H|[(c & z & -> & H & _)|(u & x & z & -> & H)]]].
  - apply is_lit_inv in H as (z & ->). simpl. exact I.
  - apply lz_zr, hcl_lz, H.
  - simpl. repeat split; auto. apply lz_zr, hcl_lz, H.
  - simpl. auto.
Qed.

(** A node of hnf children is fit for propagation. *)
Lemma hnf_node_zr : forall op l r, hnf l -> hnf r -> zr (Binary op l r).
Proof.
  intros op l r Hl Hr. simpl. repeat split; auto using hnf_zr.
  destruct r as [|u a|op' [t|u a|op'' x y] r']; auto. destruct t; auto.
  intros ->.
  destruct Hr as [H|[H|[(c & z' & E & H & K)|(u & x & z' & E & H)]]].
  - discriminate.
  - apply hcl_lz in H. simpl in H. tauto.
  - inversion E; subst. discriminate.
  - inversion E.
Qed.

(** ** removeZero *)

Definition shift (v : value) (z : Z) : value :=
  match v with VI x => VI (x + z) | VP b o => VP b (o + z) end.

Lemma shift_0 : forall v, shift v 0 = v.
Proof. destruct v; simpl; f_equal; lia. Qed.

(** Either nothing to do, or the interesting shape. *)
Lemma rz_cases : forall e,
  removeZero e = e \/
  exists op l op' t, e = Binary op l (Binary op' (Lit 0) t) /\
    removeZero e = Binary (match op with PLUS => op'
                           | MINUS => match op' with PLUS => MINUS | MINUS => PLUS end
                           end) l t.
Proof.
  intros [t|u a|op l r]; auto.
  destruct r as [|u a|op' [t|u a|op'' x y] r']; auto. destruct t; auto.
  simpl. destruct (Z.eqb_spec z 0) as [->|]; auto.
  right. exists op, l, op', r'. auto.
Qed.

Lemma rz_den : forall rho e v, den rho e = Some v -> den rho (removeZero e) = Some v.
Proof.
  intros rho e v H. destruct (rz_cases e) as [-> | (op & l & op' & t & -> & ->)]; auto.
  simpl in *. destruct (den rho l) as [x|]; [|discriminate].
  destruct (den rho t) as [y|]; [|discriminate].
  destruct op, op'; simpl in *; destruct y as [y|b o]; simpl in *; try discriminate;
    destruct x as [x|b' o']; simpl in *; try discriminate; inversion H; subst; simpl;
    try (f_equal; f_equal; lia); try (destruct (block_eq_dec b' b); congruence).
  all: try (f_equal; f_equal; lia).
Qed.

Lemma rz_typ : forall G e t, typ G e = Some t -> typ G (removeZero e) = Some t.
Proof.
  intros G e t0 H. destruct (rz_cases e) as [-> | (op & l & op' & t & -> & ->)]; auto.
  simpl in *.
  destruct op, op', (typ G l) as [[|]|], (typ G t) as [[|]|]; simpl in *; congruence.
Qed.

Lemma rz_occ : forall u e, occurs u (removeZero e) = occurs u e.
Proof.
  intros u e. destruct (rz_cases e) as [-> | (op & l & op' & t & -> & ->)]; auto.
Qed.

Lemma rz_left : forall e, leftmost (removeZero e) = leftmost e.
Proof.
  intros e. destruct (rz_cases e) as [-> | (op & l & op' & t & -> & ->)]; auto.
Qed.

Lemma rz_weight : forall e, weight (removeZero e) = weight e.
Proof.
  intros e. destruct (rz_cases e) as [-> | (op & l & op' & t & -> & ->)]; auto.
Qed.

Lemma rz_size : forall e, (size (removeZero e) <= size e)%nat.
Proof.
  intros e. destruct (rz_cases e) as [-> | (op & l & op' & t & -> & ->)]; auto.
  simpl. lia.
Qed.

Lemma rz_lit : forall e, is_lit (removeZero e) = is_lit e.
Proof.
  intros e. destruct (rz_cases e) as [-> | (op & l & op' & t & -> & ->)]; auto.
Qed.

Lemma rz_lz : forall e, lz e -> lz (removeZero e).
Proof.
  intros e H. destruct (rz_cases e) as [-> | (op & l & op' & t & -> & ->)]; auto.
  simpl in *. tauto.
Qed.

Lemma rz_hsk : forall e, hsk e -> hsk (removeZero e).
Proof.
  intros e H. destruct (rz_cases e) as [-> | (op & l & op' & t & -> & ->)]; auto.
  simpl in *. tauto.
Qed.

Lemma zero_right_single : forall op l op' t,
  sreg (Binary op l (Binary op' (Lit 0) t)) -> has_single l.
Proof.
  intros op l op' t (_ & _ & [H|[(u & H & _)|H]]); auto; discriminate.
Qed.

Lemma rz_sreg : forall e, sreg e -> sreg (removeZero e).
Proof.
  intros e H. destruct (rz_cases e) as [-> | (op & l & op' & t & -> & ->)]; auto.
  pose proof (zero_right_single _ _ _ _ H). simpl in *. tauto.
Qed.

Lemma rz_flat : forall G e t, typ G e = Some t -> flat G e -> flat G (removeZero e).
Proof.
  intros G e t0 Ht H. destruct (rz_cases e) as [-> | (op & l & op' & t & -> & ->)]; auto.
  simpl in *. destruct H as (H1 & (_ & H2 & H3 & _) & _ & [(u & K & _)|K]).
  - discriminate.
  - auto.
Qed.

Lemma typ_binary : forall G op l r, typ G (Binary op l r) <> None ->
  typ G l <> None /\ typ G r <> None.
Proof.
  intros G op l r H. simpl in H.
  destruct (typ G l) as [[]|], (typ G r) as [[]|], op; split; congruence.
Qed.

(** ** propagateConstants *)

Record prop_result (e : cexpr) (x : cexpr * bool * Z) : Prop := {
  pr_lit : is_lit (fst (fst x)) = true -> snd x = 0 /\ snd (fst x) = false;
  pr_lz : is_lit (fst (fst x)) = true \/ lz (fst (fst x));
  pr_p : snd (fst x) = false -> snd x = 0;
  pr_weight : weight (fst (fst x)) + Z.abs (snd x) <= weight e;
  pr_size : (size (fst (fst x)) <= size e)%nat;
  pr_hsk : hsk (fst (fst x));
  pr_sreg : sreg (fst (fst x));
  pr_occ : forall u, occurs u (fst (fst x)) = occurs u e;
  pr_left : forall u, leftmost e = Some u -> leftmost (fst (fst x)) = Some u;
  pr_typ : forall G t, typ G e = Some t -> typ G (fst (fst x)) = Some t;
  pr_den : forall rho v, den rho e = Some v ->
           exists w, den rho (fst (fst x)) = Some w /\ v = shift w (snd x);
  pr_lz0 : lz e -> snd x = 0 /\ lz (fst (fst x));
  pr_const : constant_only e = true -> is_lit (fst (fst x)) = true;
  pr_flat : forall G t, typ G e = Some t -> flat G e -> flat G (fst (fst x));
  pr_tail : forall op c k, e = Binary op c (Lit k) ->
            is_lit (fst (fst x)) = true \/ (size (fst (fst x)) <= size c)%nat }.

Lemma pr_rz : forall e a p z, prop_result e (a, p, z) -> prop_result e (removeZero a, p, z).
Proof.
  intros e a p z []; constructor; simpl in *.
  - rewrite rz_lit; auto.
  - rewrite rz_lit. destruct pr_lz1; auto using rz_lz.
  - auto.
  - rewrite rz_weight; auto.
  - pose proof (rz_size a). lia.
  - auto using rz_hsk.
  - auto using rz_sreg.
  - intros u. rewrite rz_occ; auto.
  - intros u H. rewrite rz_left; auto.
  - intros; apply rz_typ; auto.
  - intros rho v H. destruct (pr_den0 rho v H) as (w & Hw & ->).
    exists w. split; auto. apply rz_den; auto.
  - intros H. destruct (pr_lz2 H). split; auto using rz_lz.
  - rewrite rz_lit; auto.
  - intros G t H K. eapply rz_flat; eauto.
  - intros op c k H. rewrite rz_lit. pose proof (rz_size a).
    destruct (pr_tail0 op c k H); [left; auto | right; lia].
Qed.

Lemma pr_refl : forall e, (forall op l r, e <> Binary op l r) -> sreg e -> hsk e ->
  prop_result e (e, false, 0).
Proof.
  intros e Hb Hs Hh. constructor; simpl; auto; try tauto; try lia.
  - destruct e as [t| |]; simpl; auto.
    + destruct t; simpl in *; auto.
    + exfalso. eapply Hb; reflexivity.
  - intros rho v H. exists v. rewrite shift_0. auto.
  - destruct e as [t| |]; simpl; auto; try discriminate.
    + destruct t; simpl in *; auto; try discriminate; contradiction.
    + exfalso. eapply Hb; reflexivity.
  - intros op c k ->. exfalso. eapply Hb; reflexivity.
Qed.

Lemma lit_occ : forall e u, is_lit e = true -> occurs u e = 0%nat.
Proof. intros e u H. apply is_lit_inv in H as (z & ->). reflexivity. Qed.

Lemma single_nonlit : forall e, has_single e -> is_lit e = false.
Proof.
  intros e (u & H). destruct (is_lit e) eqn:E; auto.
  rewrite (lit_occ e u E) in H. discriminate.
Qed.

Lemma left_occ : forall e u, leftmost e = Some u -> (1 <= occurs u e)%nat.
Proof.
  induction e as [t|k a IH|op l IHl r IHr]; simpl; intros u H; auto.
  - destruct t; try discriminate. inversion H. rewrite Nat.eqb_refl. lia.
  - apply IHl in H. lia.
Qed.

Lemma starts_has : forall e, starts_single e -> has_single e.
Proof. intros e (u & _ & H). exists u. auto. Qed.

Lemma as_int_zop : forall op z1 z2 W, Z.abs z1 + Z.abs z2 <= W -> W < 2147483648 ->
  as_int (zop op z1 z2) = Ok (zop op z1 z2).
Proof. intros. apply as_int_ok. destruct op; simpl; lia. Qed.

Lemma ipl_ok : forall op z v W, Z.abs z + Z.abs v <= W -> W < 2147483648 ->
  int_plus_long z op v = Ok (zop op z v).
Proof.
  intros op z v W H1 H2. unfold int_plus_long. 
  rewrite as_long_ok by (destruct op; simpl; lia).
  simpl. rewrite wrap32_id by (destruct op; simpl; lia). reflexivity.
Qed.

Lemma has_single_occ : forall a b, (forall u, occurs u a = occurs u b) ->
  has_single b -> has_single a.
Proof. intros a b H (u & K). exists u. rewrite H; auto. Qed.

Lemma starts_single_occ : forall a b, (forall u, occurs u a = occurs u b) ->
  (forall u, leftmost b = Some u -> leftmost a = Some u) ->
  starts_single b -> starts_single a.
Proof. intros a b H L (u & K & M). exists u. rewrite H; auto. Qed.

Lemma vop_shift : forall op w1 w2 z1 z2 v,
  (match op with PLUS => vadd (shift w1 z1) (shift w2 z2)
   | MINUS => vsub (shift w1 z1) (shift w2 z2) end) = Some v ->
  exists w, (match op with PLUS => vadd w1 w2 | MINUS => vsub w1 w2 end) = Some w /\
            v = shift w (zop op z1 z2).
Proof.
  intros [] [a|b o] [a'|b' o'] z1 z2 v; simpl; intros H; try discriminate;
    try (inversion H; subst; eexists; split; [reflexivity|]; simpl; f_equal; lia).
  destruct (block_eq_dec b b'); try discriminate.
  inversion H; subst; eexists; split; [reflexivity|]; simpl; f_equal; lia.
Qed.

Lemma node_spec : forall op nop l r x1 x2,
  prop_result l x1 -> prop_result r x2 ->
  (op = nop \/ (has_single l /\ lz r)) ->
  sreg (Binary nop l r) -> weight l + weight r < 2147483648 ->
  exists x, prop_node op nop x1 x2 = Ok x /\ prop_result (Binary nop l r) x.
Proof.
  intros op nop l r [[a1 p1] z1] [[a2 p2] z2] P1 P2 Hop Hs Hw.
  apply pr_rz in P1. apply pr_rz in P2. unfold prop_node.
  set (e1 := removeZero a1) in *. set (e2 := removeZero a2) in *. clearbody e1 e2. clear a1 a2.
  destruct P1 as [L1 Z1 Q1 W1 S1 H1 R1 O1 F1 T1 D1 ZZ1 C1 FL1 _].
  destruct P2 as [L2 Z2 Q2 W2 S2 H2 R2 O2 F2 T2 D2 ZZ2 C2 FL2 _]. simpl in *.
  pose proof (weight_nonneg e1). pose proof (weight_nonneg e2).
  rewrite (as_int_zop op z1 z2 (weight l + weight r)) by lia. simpl.
  assert (Hr : is_lit r = true -> is_lit e2 = true).
  { intros E. apply C2. apply is_lit_inv in E as (k & ->). reflexivity. }
  assert (Hnode : is_lit e2 = false -> has_single e1 \/ starts_single e2).
  { intros E. destruct Hs as (_ & _ & [K|[K|K]]).
    - left. eapply has_single_occ; eauto.
    - right. eapply starts_single_occ; eauto.
    - rewrite (Hr K) in E. discriminate. }
  assert (Hfl : forall G t, typ G (Binary nop l r) = Some t -> flat G (Binary nop l r) ->
            flat G e1 /\ flat G e2 /\ typ G e2 = Some false /\
            (starts_single e2 \/ is_lit e2 = true)).
  { intros G t K (A & B & C & D).
    destruct (typ_binary G nop l r) as [Tl Tr]; [congruence|].
    destruct (typ G l) as [tl|] eqn:El; [|congruence].
    split; [eapply FL1; eauto|]. split; [eapply FL2; eauto|]. split; [auto|].
    destruct D as [D|D]; [left; eapply starts_single_occ; eauto | right; auto]. }
  destruct (is_lit e1) eqn:E1.
  - (* literal on the left: the operator cannot be stale *)
    destruct Hop as [<- | [K _]].
    2:{ exfalso. apply (has_single_occ e1) in K; auto. apply single_nonlit in K. congruence. }
    destruct (L1 eq_refl) as [-> ->]. 
    pose proof E1 as E1'. apply is_lit_inv in E1 as (v1 & ->).
    simpl in *. destruct (is_lit e2) eqn:E2; simpl.
    + destruct (L2 eq_refl) as [-> ->]. pose proof E2 as E2'.
      apply is_lit_inv in E2 as (v2 & ->). simpl in *.
      rewrite as_long_ok by (destruct op; simpl; lia). simpl.
      replace (zop op 0 0) with 0 by (destruct op; reflexivity).
      eexists; split; [reflexivity|]. constructor; simpl; auto.
      * destruct op; simpl; lia.
      * lia.
      * intros u. rewrite <- O1, <- O2. reflexivity.
      * intros G t K. destruct (typ G l) as [tl|] eqn:El; [|destruct op; discriminate].
        destruct (typ G r) as [tr|] eqn:Er; [|destruct op, tl; discriminate].
        apply T1 in El. apply T2 in Er. injection El as <-. injection Er as <-.
        destruct op; auto.
      * intros rho v K.
        destruct (den rho l) as [x|] eqn:El; [|discriminate].
        destruct (den rho r) as [y|] eqn:Er; [|discriminate].
        apply D1 in El as (w1 & [= <-] & ->). apply D2 in Er as (w2 & [= <-] & ->).
        destruct (vop_shift _ _ _ _ _ _ K) as (w & Hw' & ->).
        eexists; split; [reflexivity|].
        destruct op; simpl in *; inversion Hw'; subst; simpl; reflexivity.
      * intros [A B]. apply ZZ1 in A as [_ ->]. apply ZZ2 in B as [_ ->]. 
        split; auto. destruct op; reflexivity.
    + rewrite (ipl_ok PLUS _ _ (weight l + weight r)) by (destruct op; simpl; lia). simpl.
      assert (Hst : starts_single e2).
      { destruct (Hnode eq_refl) as [K|K]; auto.
        apply single_nonlit in K. discriminate. }
      assert (Hlz2 : lz e2) by (destruct Z2; congruence).
      destruct op; (eexists; split; [reflexivity|]); constructor; simpl; auto; try congruence.
      all: try solve [lia | intros u K; apply F1 in K; discriminate].
      * intros u. rewrite <- O1, <- O2. reflexivity.
      * intros G t K. destruct (typ G l) as [tl|] eqn:El; [|discriminate].
        destruct (typ G r) as [[|]|] eqn:Er; try discriminate.
        apply T1 in El. injection El as <-. injection K as <-. auto.
      * intros rho v K.
        destruct (den rho l) as [x|] eqn:El; [|discriminate].
        destruct (den rho r) as [y|] eqn:Er; [|discriminate].
        apply D1 in El as (w1 & [= <-] & ->). apply D2 in Er as (w2 & Hw2 & ->).
        exists w2. split; auto.
        destruct w2 as [a|b o]; simpl in *; inversion K; subst; f_equal; lia.
      * intros [A B]. apply ZZ1 in A as [_ ->]. apply ZZ2 in B as [-> B]. split; auto.
      * intros G t K M. destruct (Hfl G t K M) as (_ & A & _). exact A.
      * intros op' c k E. injection E as _ _ ->. discriminate (Hr eq_refl).
      * intros u. rewrite <- O1, <- O2. reflexivity.
      * intros G t K. destruct (typ G l) as [tl|] eqn:El; [|discriminate].
        apply T1 in El. injection El as <-.
        destruct (typ G r) as [[|]|] eqn:Er; try discriminate.
        apply T2 in Er. rewrite Er. auto.
      * intros rho v K.
        destruct (den rho l) as [x|] eqn:El; [|discriminate].
        destruct (den rho r) as [y|] eqn:Er; [|discriminate].
        apply D1 in El as (w1 & [= <-] & ->). apply D2 in Er as (w2 & Hw2 & ->).
        rewrite Hw2. destruct w2 as [a|b o]; simpl in *; [|discriminate].
        eexists; split; [reflexivity|]. inversion K; subst; simpl; f_equal; lia.
      * intros [A B]. apply ZZ1 in A as [_ ->]. apply ZZ2 in B as [-> B]. auto.
      * intros G t K M. destruct (Hfl G t K M) as (_ & A & B & _). auto.
      * intros op' c k E. injection E as _ _ ->. discriminate (Hr eq_refl).
  - simpl. assert (Hlz1 : lz e1) by (destruct Z1; congruence).
    destruct (is_lit e2) eqn:E2.
    + destruct (L2 eq_refl) as [-> ->]. pose proof E2 as E2'.
      apply is_lit_inv in E2 as (v2 & ->). simpl in *.
      rewrite (ipl_ok op _ _ (weight l + weight r)) by (destruct op; simpl; lia). simpl.
      assert (Hz : zop op (zop op z1 0) v2 = zop nop z1 v2).
      { destruct Hop as [-> | [_ K]]; [destruct nop; simpl; lia|].
        apply ZZ2 in K as [_ ->]. destruct op, nop; simpl; lia. }
      rewrite Hz. eexists; split; [reflexivity|]. constructor; simpl; auto; try congruence.
      * destruct nop; simpl; lia.
      * lia.
      * intros u. rewrite <- O1, <- O2. simpl. lia.
      * intros G t K. destruct (typ G l) as [tl|] eqn:El; [|destruct nop; discriminate].
        destruct (typ G r) as [tr|] eqn:Er; [|destruct nop, tl; discriminate].
        apply T2 in Er. injection Er as <-. apply T1 in El. destruct nop, tl; congruence.
      * intros rho v K.
        destruct (den rho l) as [x|] eqn:El; [|discriminate].
        destruct (den rho r) as [y|] eqn:Er; [|discriminate].
        apply D1 in El as (w1 & Hw1 & ->). apply D2 in Er as (w2 & [= <-] & ->).
        exists w1. split; auto.
        destruct w1 as [a|b o], nop; simpl in *; inversion K; subst; f_equal; lia.
      * intros [A B]. apply ZZ1 in A as [-> A]. apply ZZ2 in B as [_ ->].
        split; auto. destruct nop; reflexivity.
      * intros K. apply andb_prop in K as [K _]. rewrite <- (C1 K). auto.
      * intros G t K M. destruct (Hfl G t K M) as (A & _). exact A.
      * intros op' c k E. injection E as _ -> _. right. lia.
    + assert (Hlz2 : lz e2) by (destruct Z2; congruence).
      assert (Hz : zop op z1 z2 = zop nop z1 z2).
      { destruct Hop as [-> | [_ K]]; auto. apply ZZ2 in K as [-> _]. destruct op, nop; simpl; lia. }
      rewrite Hz. eexists; split; [reflexivity|]. refine (pr_rz _ (Binary nop e1 e2) _ _ _).
      constructor; simpl; auto; try congruence.
      * intros K. apply orb_false_elim in K as [K1 K2]. rewrite (Q1 K1), (Q2 K2).
        destruct nop; reflexivity.
      * destruct nop; simpl; lia.
      * lia.
      * repeat split; auto. destruct (Hnode eq_refl); auto.
      * intros G t K. destruct (typ G l) as [tl|] eqn:El; [|destruct nop; discriminate].
        destruct (typ G r) as [tr|] eqn:Er; [|destruct nop, tl; discriminate].
        rewrite (T1 _ _ El), (T2 _ _ Er). auto.
      * intros rho v K.
        destruct (den rho l) as [x|] eqn:El; [|discriminate].
        destruct (den rho r) as [y|] eqn:Er; [|discriminate].
        apply D1 in El as (w1 & -> & ->). apply D2 in Er as (w2 & -> & ->).
        destruct (vop_shift _ _ _ _ _ _ K) as (w & Hw' & ->). eauto.
      * intros [A B]. apply ZZ1 in A as [-> A]. apply ZZ2 in B as [-> B].
        repeat split; auto. destruct nop; reflexivity.
      * intros K. apply andb_prop in K as [K _]. rewrite <- (C1 K). auto.
      * intros G t K M. destruct (Hfl G t K M) as (A & B & C & [D|D]); [auto|discriminate].
      * intros op' c k E. injection E as _ _ ->. discriminate (Hr eq_refl).
Qed.

Lemma pr_transfer : forall e e0 x,
  (forall rho v, den rho e = Some v -> den rho e0 = Some v) ->
  (forall G t, typ G e = Some t -> typ G e0 = Some t) ->
  (forall u, occurs u e0 = occurs u e) -> leftmost e0 = leftmost e ->
  weight e0 <= weight e -> (size e0 <= size e)%nat -> (lz e -> lz e0) ->
  (constant_only e = true -> constant_only e0 = true) ->
  (forall G t, typ G e = Some t -> flat G e -> flat G e0) ->
  (forall op c k, e <> Binary op c (Lit k)) ->
  prop_result e0 x -> prop_result e x.
Proof.
  intros e e0 [[a p] z] Hd Ht Ho Hl Hw Hs Hz Hc Hf Hk []. constructor; simpl in *; auto; try lia.
  - intros. rewrite <- Ho. auto.
  - rewrite Hl in *. auto.
  - intros G t K M. eapply pr_flat0; eauto.
  - intros op c k E. exfalso. eapply Hk; eauto.
Qed.

Lemma propagate_spec : forall e,
  zr e -> sreg e -> hsk e -> weight e < 2147483648 ->
  exists x, propagate e = Ok x /\ prop_result e x.
Proof.
  intros e. remember (size e) as n eqn:En. revert e En.
  induction n as [n IH] using (well_founded_induction lt_wf). intros e -> Hz Hs Hh Hw.
  destruct e as [t|u a|op l r].
  - eexists; split; [reflexivity|]. apply pr_refl; auto; discriminate.
  - eexists; split; [reflexivity|]. apply pr_refl; auto; discriminate.
  - assert (Hcase : (exists op' t, r = Binary op' (Lit 0) t) \/
      (removeZero (Binary op l r) = Binary op l r /\
       (match r with
        | Binary _ (Term (TLit z)) t => if z =? 0 then propagate t else propagate r
        | _ => propagate r end) = propagate r)).
    { destruct r as [|u a|op' [t|u a|op'' x y] r']; auto. destruct t; auto.
      destruct (Z.eqb_spec z 0) as [->|N]; [left; eauto|].
      right. simpl. destruct (Z.eqb_spec z 0); [contradiction|]. auto. }
    pose proof (weight_nonneg l). pose proof (weight_nonneg r). simpl in Hw.
    destruct Hz as (Hzl & Hzr & Hz0). pose proof Hs as (Hsl & Hsr & Hsn).
    destruct Hh as [Hhl Hhr].
    destruct (IH (size l) ltac:(simpl; lia) l eq_refl Hzl Hsl Hhl ltac:(lia)) as (x1 & E1 & P1).
    destruct Hcase as [(op' & t & ->) | [Erz Er]].
    + assert (Hlt : lz t) by (apply Hz0; reflexivity).
      pose proof (zero_right_single _ _ _ _ Hs) as Hsg.
      assert (Hst : sreg t) by (simpl in Hsr; tauto).
      assert (Hht : hsk t) by (simpl in Hhr; tauto).
      assert (Hzt : zr t) by (apply lz_zr; auto).
      destruct (IH (size t) ltac:(simpl; lia) t eq_refl Hzt Hst Hht ltac:(simpl in *; lia))
        as (x2 & E2 & P2).
      assert (Hwt : weight l + weight t < 2147483648) by (cbn in Hw; lia).
      simpl. rewrite E1. simpl. rewrite E2. simpl.
      set (nop := match op with PLUS => op'
                  | MINUS => match op' with PLUS => MINUS | MINUS => PLUS end end).
      destruct (node_spec op nop l t x1 x2 P1 P2) as (x & Ex & P); auto.
      { simpl. auto. }
      exists x. split; auto. eapply pr_transfer; [..|exact P]; simpl; auto.
      * intros rho v K. apply (rz_den rho (Binary op l (Binary op' (Lit 0) t))) in K. exact K.
      * intros G t' K. apply (rz_typ G (Binary op l (Binary op' (Lit 0) t))) in K. exact K.
      * lia.
      * lia.
      * tauto.
      * intros G t' K M. apply (rz_flat G (Binary op l (Binary op' (Lit 0) t))) in K; auto.
      * unfold Lit; congruence.
    + destruct (IH (size r) ltac:(simpl; lia) r eq_refl Hzr Hsr Hhr ltac:(lia)) as (x2 & E2 & P2).
      destruct (node_spec op op l r x1 x2 P1 P2) as (x & Ex & P); auto; try lia.
      exists x. split; auto.
      cbn [propagate]. rewrite E1. cbn [obind]. rewrite Er, E2. cbn [obind].
      rewrite Erz. exact Ex.
Qed.

(** ** What one step of simplification preserves *)

Record sr (G : nat -> bool) (e e' : cexpr) : Prop := {
  sr_typ : forall t, typ G e = Some t -> typ G e' = Some t;
  sr_weight : weight e' <= weight e;
  sr_occ1 : forall u, occurs u e = 1%nat -> occurs u e' = 1%nat;
  sr_occ0 : forall u, occurs u e = 0%nat -> occurs u e' = 0%nat;
  sr_left : forall u, leftmost e = Some u -> occurs u e = 1%nat -> leftmost e' = Some u;
  sr_const : constant_only e = true -> constant_only e' = true;
  sr_flat : typ G e <> None -> flat G e -> flat G e';
  sr_den : forall rho v, respects rho G -> typ G e <> None ->
           den rho e = Some v -> den rho e' = Some v }.

Lemma sr_refl : forall G e, sr G e e.
Proof. constructor; auto; lia. Qed.

Lemma sr_trans : forall G a b c, sr G a b -> sr G b c -> sr G a c.
Proof.
  intros G a b c [] [].
  assert (Hty : typ G a <> None -> typ G b <> None).
  { intros Ht. destruct (typ G a) as [t|] eqn:E; [|congruence].
    rewrite (sr_typ0 t eq_refl). discriminate. }
  constructor; auto.
  lia.
Qed.

Lemma sr_typ_some : forall G a b, sr G a b -> typ G a <> None -> typ G b <> None.
Proof.
  intros G a b [] H. destruct (typ G a) as [t|] eqn:E; [|congruence].
  rewrite (sr_typ0 t eq_refl). discriminate.
Qed.

Lemma sr_single : forall G a b, sr G a b -> has_single a -> has_single b.
Proof. intros G a b [] (u & H). exists u. auto. Qed.

Lemma sr_starts : forall G a b, sr G a b -> starts_single a -> starts_single b.
Proof. intros G a b [] (u & H & K). exists u. auto. Qed.

Lemma typ_unary : forall G u a, typ G (Unary u a) <> None -> typ G a = Some true.
Proof. intros G u a H. simpl in H. destruct (typ G a) as [[]|]; congruence. Qed.

Lemma sr_binary : forall G op l r l' r', sr G l l' -> sr G r r' ->
  sr G (Binary op l r) (Binary op l' r').
Proof.
  intros G op l r l' r' [] []. constructor; simpl.
  - intros t H. destruct (typ G l) as [tl|] eqn:El; [|destruct op; discriminate].
    destruct (typ G r) as [tr|] eqn:Er; [|destruct op, tl; discriminate].
    rewrite (sr_typ0 _ eq_refl), (sr_typ1 _ eq_refl). auto.
  - lia.
  - intros u H. destruct (occurs u l) as [|[|n]] eqn:E; try lia.
    + rewrite (sr_occ3 u E). simpl in H. rewrite (sr_occ4 u H). reflexivity.
    + assert (K : occurs u r = 0%nat) by lia.
      rewrite (sr_occ2 u E), (sr_occ5 u K). reflexivity.
  - intros u H. rewrite sr_occ3, sr_occ5; lia.
  - intros u H K. pose proof (left_occ _ _ H). apply sr_left0; auto. lia.
  - intros H. apply andb_prop in H as [H1 H2]. rewrite sr_const0, sr_const1; auto.
  - intros Ht (A & B & C & D). apply (typ_binary G op l r) in Ht as [Ht1 Ht2].
    split; [auto|]. split; [auto|]. split; [auto|].
    destruct D as [(u & D1 & D2)|D]; [left; exists u; auto|auto].
  - intros rho v Hr Ht H.
    apply (typ_binary G op l r) in Ht as [Ht1 Ht2].
    destruct (den rho l) as [x|] eqn:El; [|discriminate].
    destruct (den rho r) as [y|] eqn:Er; [|discriminate].
    rewrite (sr_den0 _ _ Hr Ht1 El), (sr_den1 _ _ Hr Ht2 Er). auto.
Qed.

Lemma sr_unary : forall G u a a', sr G a a' -> sr G (Unary u a) (Unary u a').
Proof.
  intros G u a a' []. constructor; simpl; auto.
  - intros t H. destruct (typ G a) as [[]|] eqn:E; try discriminate.
    rewrite (sr_typ0 _ eq_refl). auto.
  - intros Ht K. apply (typ_unary G u a) in Ht. apply sr_flat0; auto. congruence.
  - intros rho v Hr Ht H. apply (typ_unary G u a) in Ht.
    destruct (den rho a) as [x|] eqn:E; [|discriminate].
    rewrite (sr_den0 rho x); auto. rewrite Ht. discriminate.
Qed.

Lemma den_shift : forall rho c z w, den rho c = Some w ->
  den rho (Binary PLUS c (Lit z)) = Some (shift w z).
Proof. intros rho c z w H. simpl. rewrite H. destruct w; reflexivity. Qed.

Lemma pr_sr : forall G e c p z, prop_result e (c, p, z) ->
  sr G e (if z =? 0 then c else Binary PLUS c (Lit z)).
Proof.
  intros G e c p z []; simpl in *.
  destruct (Z.eqb_spec z 0) as [->|N]; constructor; simpl; auto; try lia.
  - intros u. rewrite pr_occ0; auto.
  - intros u. rewrite pr_occ0; auto.
  - intros H. apply pr_const0 in H. apply is_lit_inv in H as (k & ->). reflexivity.
  - intros Ht K. destruct (typ G e) as [t|] eqn:Et; [|congruence]. eauto.
  - intros rho v _ _ H. apply pr_den0 in H as (w & H & ->). rewrite shift_0. auto.
  - intros t H. rewrite (pr_typ0 _ _ H). reflexivity.
  - intros u. rewrite pr_occ0; lia.
  - intros u. rewrite pr_occ0; lia.
  - intros Ht K. destruct (typ G e) as [t|] eqn:Et; [|congruence]. eauto 7.
  - intros rho v _ _ H. apply pr_den0 in H as (w & H & ->). apply den_shift, H.
Qed.

(** Simple terms: [similar] is equality. *)
Fixpoint simple (e : cexpr) : Prop :=
  match e with
  | Term t => simple_term t
  | Unary _ a => simple a
  | Binary _ l r => simple l /\ simple r
  end.

Lemma sreg_simple : forall e, sreg e -> simple e.
Proof. induction e; simpl; tauto. Qed.

Lemma similar_eq : forall a b, simple a -> simple b -> similar a b = true -> a = b.
Proof.
  induction a as [t|u a IH|op l IHl r IHr]; intros [t'|u' a'|op' l' r']; simpl;
    intros Ha Hb H; try discriminate.
  - destruct t, t'; simpl in *; try contradiction; try discriminate;
      unfold term_similar in H; simpl in H.
    + f_equal. f_equal. lia.
    + apply Nat.eqb_eq in H. congruence.
    + apply Nat.eqb_eq in H. congruence.
  - apply andb_prop in H as [H1 H2]. rewrite (IH a'); auto.
    destruct u, u'; try discriminate; reflexivity.
  - apply andb_prop in H as [H H2]. apply andb_prop in H as [H1 H3].
    rewrite (IHl l'), (IHr r'); try tauto.
    destruct op, op'; try discriminate; reflexivity.
Qed.

Lemma similar_refl : forall a, similar a a = true.
Proof.
  induction a as [t|u a IH|op l IHl r IHr]; simpl.
  - destruct t; unfold term_similar; simpl; rewrite ?Z.eqb_refl, ?Nat.eqb_refl; reflexivity.
  - rewrite IH. destruct u; reflexivity.
  - rewrite IHl, IHr. destruct op; reflexivity.
Qed.

Lemma vsub_self : forall v, vsub v v = Some (VI 0).
Proof.
  destruct v as [z|b o]; simpl; [f_equal; f_equal; lia|].
  destruct (block_eq_dec b b); [f_equal; f_equal; lia | congruence].
Qed.

Lemma sr_cancel : forall G l, sr G (Binary MINUS l l) (Lit 0).
Proof.
  intros G l. constructor; simpl; auto; try lia.
  - intros t H. destruct (typ G l) as [[]|]; auto; discriminate.
  - pose proof (weight_nonneg l). lia.
  - intros rho v _ _ H. destruct (den rho l) as [x|]; [|discriminate].
    rewrite vsub_self in H. auto.
Qed.

Lemma typ_den : forall G rho e t v, respects rho G -> typ G e = Some t ->
  den rho e = Some v -> is_ptr v = t.
Proof.
  intros G rho e. induction e as [k|u a IH|op l IHl r IHr]; intros t v Hr Ht Hd; simpl in *.
  - inversion Hd; subst. destruct k; simpl in *; inversion Ht; auto.
  - destruct (typ G a) as [[]|]; try discriminate.
    destruct (den rho a) as [[]|]; try discriminate. inversion Hd; inversion Ht; auto.
  - destruct (den rho l) as [x|] eqn:El; [|discriminate].
    destruct (den rho r) as [y|] eqn:Er; [|discriminate].
    destruct (typ G l) as [tl|] eqn:Tl; [|destruct op; discriminate].
    destruct (typ G r) as [tr|] eqn:Tr; [|destruct op, tl; discriminate].
    specialize (IHl _ _ Hr eq_refl eq_refl). specialize (IHr _ _ Hr eq_refl eq_refl).
    destruct op, x as [x|b o], y as [y|b' o']; simpl in *; subst; try discriminate;
      try destruct (block_eq_dec b b'); inversion Hd; inversion Ht; auto.
Qed.

(** maxSet(x + y) = maxSet(x) - y *)
Lemma sr_peel : forall G u x y, is_max u = true ->
  sr G (Unary u (Binary PLUS x y)) (Binary MINUS (Unary u x) y).
Proof.
  intros G u x y Hu. constructor; simpl; auto; try lia.
  - intros t H. destruct (typ G x) as [[]|], (typ G y) as [[]|]; auto; discriminate.
  - intros rho v Hr Ht H.
    destruct (typ G x) as [[]|] eqn:Ex; try congruence;
    destruct (typ G y) as [[]|] eqn:Ey; try congruence.
    destruct (den rho x) as [a|] eqn:Dx; [|discriminate].
    destruct (den rho y) as [b|] eqn:Dy; [|discriminate].
    pose proof (typ_den _ _ _ _ _ Hr Ex Dx). pose proof (typ_den _ _ _ _ _ Hr Ey Dy).
    destruct a as [a|k o]; [discriminate|]. destruct b as [b|]; [|discriminate].
    simpl in *. inversion H. f_equal. f_equal.
    destruct u; try discriminate; destruct k; simpl; lia.
Qed.

(** ** Fuel *)

Lemma children_mono : forall s s' e r,
  (forall a b, s a = Ok b -> s' a = Ok b) -> children s e = Ok r -> children s' e = Ok r.
Proof.
  intros s s' [t|u a|op l r0] r Hs H; simpl in *; auto.
  - destruct (s a) as [x| |] eqn:E; try discriminate. rewrite (Hs _ _ E). auto.
  - destruct (s l) as [x| |] eqn:E; try discriminate. rewrite (Hs _ _ E). simpl in *.
    destruct (s r0) as [y| |] eqn:E'; try discriminate. rewrite (Hs _ _ E'). auto.
Qed.

Definition step2 (s : cexpr -> out cexpr) (e1 : cexpr) : out cexpr :=
  obind (combineConstants e1) (fun e2 => obind (children s e2) simplify_top).

Lemma simplify_S : forall f e,
  simplify (S f) e = obind (children (simplify f) e) (step2 (simplify f)).
Proof. reflexivity. Qed.

Lemma step2_mono : forall s s' e r,
  (forall a b, s a = Ok b -> s' a = Ok b) -> step2 s e = Ok r -> step2 s' e = Ok r.
Proof.
  intros s s' e r Hs H. unfold step2 in *.
  destruct (combineConstants e) as [x| |]; simpl in *; try discriminate.
  destruct (children s x) as [y| |] eqn:E; simpl in *; try discriminate.
  rewrite (children_mono _ _ _ _ Hs E). auto.
Qed.

Lemma simplify_mono1 : forall f e r, simplify f e = Ok r -> simplify (S f) e = Ok r.
Proof.
  induction f as [|f IH]; intros e r H; [discriminate|].
  rewrite simplify_S in *.
  destruct (children (simplify f) e) as [x| |] eqn:E; try discriminate.
  rewrite (children_mono _ _ _ _ IH E). simpl in *.
  eapply step2_mono; eauto.
Qed.

Lemma simplify_mono : forall f f' e r, (f <= f')%nat ->
  simplify f e = Ok r -> simplify f' e = Ok r.
Proof.
  intros f f' e r H K. induction H; auto using simplify_mono1.
Qed.

(** ** Simplification of already simplified expressions *)

Definition WB : Z := 2147483648.

Definition good (G : nat -> bool) (c : cexpr) : Prop :=
  exists f c', simplify f c = Ok c' /\ sr G c c' /\ hnf c' /\ sreg c' /\
    (hcl c -> hcl c') /\ (size c' <= size c)%nat /\
    (constant_only c = true -> is_lit c' = true).

Lemma hcl_hnf : forall e, hcl e -> hnf e.
Proof. intros. right. left. auto. Qed.

Lemma hnf_unary : forall G u a, typ G a = Some true -> hnf a ->
  (is_max u = true -> hcl a) -> hcl (Unary u a).
Proof.
  intros G u a Ht Hn Hm. simpl. destruct (is_max u) eqn:E; auto.
  destruct Hn as [H|[H|[(c & z & -> & H & K)|(u' & x & z & -> & H)]]].
  - apply is_lit_inv in H as (z & ->). discriminate.
  - destruct a as [t|u' a|op l r]; auto. destruct op; auto.
    destruct r as [t|u' b|op' l' r']; auto. destruct t; auto.
    simpl in H. split; [tauto|]. destruct (is_lit l) eqn:El; auto.
    apply is_lit_inv in El as (z' & ->). discriminate.
  - simpl. auto.
  - simpl in Ht. destruct (typ G x) as [[]|]; discriminate.
Qed.

Lemma hcl_unary_arg : forall u a, hcl (Unary u a) ->
  hnf a /\ (is_max u = true -> hcl a).
Proof.
  intros u a H. simpl in H. destruct (is_max u) eqn:E; [auto using hcl_hnf|].
  split; [|discriminate].
  destruct a as [t|u' a|op l r]; try (apply hcl_hnf, H).
  destruct op; try (apply hcl_hnf, H).
  destruct r as [t|u' b|op' l' r']; try (apply hcl_hnf, H).
  destruct t; try (apply hcl_hnf, H).
  right. right. left. exists l, z. intuition.
Qed.

(** The unary step. *)
Lemma unary_top : forall G u a, typ G a = Some true -> hnf a -> sreg a ->
  (is_max u = true -> hcl a) ->
  sr G (Unary u a) (simplify_unary u a) /\ sreg (simplify_unary u a) /\
  hcl (simplify_unary u a) /\ size (simplify_unary u a) = size (Unary u a).
Proof.
  intros G u a Ht Hn Hs Hm.
  pose proof (hnf_unary G u a Ht Hn Hm) as Hu.
  assert (Hd : simplify_unary u a = Unary u a \/
    (is_max u = true /\ exists x y, a = Binary PLUS x y /\
       simplify_unary u a = Binary MINUS (Unary u x) y)).
  { destruct u; simpl; auto; destruct a as [t|u' a|op l r]; auto.
    all: try (destruct t; simpl in Hs; try contradiction; auto; fail).
    all: destruct op; auto; right; split; auto; eexists; eexists; split; reflexivity. }
  destruct Hd as [-> | (E & x & y & -> & ->)].
  - split; [apply sr_refl|]. auto.
  - specialize (Hm E). simpl in Hm, Hs. split; [apply sr_peel; auto|].
    simpl. rewrite E. split; [tauto|]. split; [tauto|]. lia.
Qed.

Lemma simple_value_none : forall e, simple e -> is_lit e = false -> expr_value e = None.
Proof. intros [t| |] H K; auto. destruct t; simpl in *; auto; try discriminate; contradiction. Qed.

Lemma hcl_lit : forall e, hcl e -> is_lit e = true -> e = Lit 0.
Proof. intros e H K. apply is_lit_inv in K as (z & ->). simpl in H. subst. reflexivity. Qed.

(** The binary step, no nonzero literals. *)
Lemma binary_top : forall G op l r, hcl l -> hcl r -> sreg (Binary op l r) ->
  exists e', simplify_binary op l r = Ok e' /\ sr G (Binary op l r) e' /\ sreg e' /\
    hcl e' /\ (size e' <= size (Binary op l r))%nat.
Proof.
  intros G op l r Hl Hr Hs. pose proof (sreg_simple _ Hs) as [Sl Sr].
  destruct (is_lit l && is_lit r) eqn:E.
  - apply andb_prop in E as [El Er]. apply hcl_lit in El; auto. apply hcl_lit in Er; auto. subst.
    exists (Lit 0). split; [reflexivity|]. split; [|simpl; auto].
    constructor; simpl; auto; try lia.
    + intros t. destruct op; auto.
    + intros rho v _ _. destruct op; auto.
  - assert (Hv : expr_value l = None \/ expr_value r = None).
    { destruct (is_lit l) eqn:El; [right|left]; apply simple_value_none; auto. }
    unfold simplify_binary.
    assert (Hx : forall A (f : Z -> Z -> A) d, match expr_value l, expr_value r with
       | Some a, Some b => f a b | _, _ => d end = d).
    { intros. destruct Hv as [-> | ->]; auto. destruct (expr_value l); auto. }
    rewrite Hx. clear Hx.
    destruct op.
    + eexists; split; [reflexivity|]. split; [apply sr_refl|]. split; [exact Hs|]. simpl; auto.
    + destruct (similar l r) eqn:Es.
      * apply similar_eq in Es; auto. subst r.
        exists (Lit 0). split; [reflexivity|]. split; [apply sr_cancel|]. simpl. repeat split; auto. lia.
      * eexists; split; [reflexivity|]. split; [apply sr_refl|]. split; [exact Hs|]. simpl; auto.
Qed.

(** Children and top step on a clean, non-literal expression. *)
Lemma hcl_top : forall G c, hcl c -> sreg c -> typ G c <> None -> weight c < WB ->
  is_lit c = false ->
  (forall d, (size d < size c)%nat -> hnf d -> sreg d -> typ G d <> None -> weight d < WB ->
     good G d) ->
  exists f e', obind (children (simplify f) c) simplify_top = Ok e' /\ sr G c e' /\
    sreg e' /\ hcl e' /\ (size e' <= size c)%nat.
Proof.
  intros G c Hc Hs Ht Hw Hnl Hrec. destruct c as [t|u a|op l r].
  - exists 0%nat, (Term t). 
    split; [|split; [apply sr_refl|auto]].
    simpl. destruct t; simpl in *; auto; try contradiction.
  - destruct (hcl_unary_arg _ _ Hc) as [Hn Hm].
    pose proof (typ_unary _ _ _ Ht) as Hta.
    destruct (Hrec a) as (f & a' & E & S & N & R & C & Z & _); auto.
    1-2: try (simpl; lia). 1: try (rewrite Hta; discriminate).
    assert (Hta' : typ G a' = Some true) by (apply (sr_typ _ _ _ S); auto).
    destruct (unary_top G u a' Hta' N R) as (U1 & U2 & U3 & U4); auto.
    exists f, (simplify_unary u a'). simpl. rewrite E. simpl.
    split; [reflexivity|]. split; [|split; [|split]]; auto.
    + eapply sr_trans; [apply sr_unary, S|exact U1].
    + rewrite U4. simpl. lia.
  - destruct Hc as [Hl Hr]. pose proof (typ_binary _ _ _ _ Ht) as [Tl Tr].
    pose proof Hs as (Sl & Sr & Sn). simpl in Hw.
    pose proof (weight_nonneg l). pose proof (weight_nonneg r).
    destruct (Hrec l) as (f1 & l' & E1 & S1 & N1 & R1 & C1 & Z1 & _); auto using hcl_hnf.
    1-2: try (simpl; lia).
    destruct (Hrec r) as (f2 & r' & E2 & S2 & N2 & R2 & C2 & Z2 & K2); auto using hcl_hnf.
    1-2: try (simpl; lia).
    assert (Hs' : sreg (Binary op l' r')).
    { simpl. repeat split; auto. destruct Sn as [K|[K|K]].
      - left. eapply sr_single; eauto.
      - right. left. eapply sr_starts; eauto.
      - right. right. apply K2. apply is_lit_inv in K as (z & ->). reflexivity. }
    destruct (binary_top G op l' r') as (e' & B1 & B2 & B3 & B4 & B5); auto.
    exists (max f1 f2), e'. simpl.
    rewrite (simplify_mono f1 (max f1 f2) _ _ (Nat.le_max_l _ _) E1). simpl.
    rewrite (simplify_mono f2 (max f1 f2) _ _ (Nat.le_max_r _ _) E2). simpl.
    split; [exact B1|]. split; [|split; [|split]]; auto.
    + eapply sr_trans; [apply sr_binary; eauto|exact B2].
    + simpl in B5. lia.
Qed.

Lemma simplify_lit : forall z, simplify 1 (Lit z) = Ok (Lit z).
Proof. reflexivity. Qed.

(** propagate, second pass over the children, and top step. *)
Lemma step2_ok : forall G e1 c p z,
  propagate e1 = Ok (c, p, z) -> prop_result e1 (c, p, z) ->
  sreg e1 -> typ G e1 <> None -> weight e1 < WB ->
  (forall d, (size d < size c)%nat -> hnf d -> sreg d -> typ G d <> None -> weight d < WB ->
     good G d) ->
  (z <> 0 -> hnf c -> sreg c -> typ G c <> None -> weight c < WB -> good G c) ->
  exists f e', step2 (simplify f) e1 = Ok e' /\ sr G e1 e' /\ hnf e' /\ sreg e' /\
    (lz e1 -> hcl e') /\
    (size e' <= size c + (if (z =? 0)%Z then 0 else 2))%nat /\
    (constant_only e1 = true -> is_lit e' = true).
Proof.
  intros G e1 c p z E P Hs Ht Hw Hrec Hself.
  pose proof (pr_sr G _ _ _ _ P) as Ssr.
  destruct P as [L Z Q W Sz Hk R O F T D ZZ C FL _]. simpl in *.
  unfold step2, combineConstants. rewrite E. simpl.
  assert (Htc : typ G c <> None).
  { destruct (typ G e1) as [t|] eqn:Et; [|congruence]. rewrite (T G t Et). discriminate. }
  destruct (is_lit c) eqn:Ec.
  - destruct (L eq_refl) as [-> ->]. apply is_lit_inv in Ec as (v & ->). simpl in *.
    exists 0%nat, (Lit v). split; [reflexivity|].
    split; [exact Ssr|]. split; [left; reflexivity|]. split; [exact I|].
    split; [intros K; apply ZZ in K; tauto|]. split; [simpl; lia|auto].
  - assert (Hlz : lz c) by (destruct Z; congruence).
    assert (Hcl : hcl c) by (apply hsk_lz_hcl; auto).
    assert (Hwc : weight c < WB) by lia.
    destruct (Z.eqb_spec z 0) as [->|Nz].
    + rewrite andb_false_r. simpl.
      destruct (hcl_top G c) as (f & e' & E' & S' & R' & H' & Z'); auto.
      exists f, e'. split; [exact E'|]. split; [eapply sr_trans; eauto|].
      split; [apply hcl_hnf; auto|]. split; auto. split; auto. split; [lia|].
      intros K. discriminate (C K).
    + assert (Hp : p = true) by (destruct p; auto; exfalso; apply Nz, Q; reflexivity).
      subst p. simpl.
      destruct (Hself Nz) as (f & c' & E' & S' & N' & R' & H' & Z' & _); auto using hcl_hnf.
      specialize (H' Hcl).
      assert (Es : simplify (S f) c = Ok c') by (apply simplify_mono1; auto).
      assert (Hfin : exists e', simplify_binary PLUS c' (Lit z) = Ok e' /\
                 sr G (Binary PLUS c' (Lit z)) e' /\ hnf e' /\ sreg e' /\
                 (size e' <= size c' + 2)%nat).
      { destruct (is_lit c') eqn:Ec'.
        - apply hcl_lit in Ec'; auto. subst c'. exists (Lit z).
          split.
          { unfold simplify_binary; simpl. pose proof (weight_nonneg c). unfold WB in *.
            rewrite as_long_ok by lia. reflexivity. }
          split; [|split; [left; reflexivity|split; [exact I|simpl; lia]]].
          constructor; simpl; auto; lia.
        - exists (Binary PLUS c' (Lit z)). split.
          { unfold simplify_binary. rewrite simple_value_none; auto. apply sreg_simple; auto. }
          split; [apply sr_refl|]. split.
          { right. right. left. exists c', z. auto. }
          split; [simpl; auto|]. simpl. lia. }
      destruct Hfin as (e' & F1 & F2 & F3 & F4 & F5).
      exists (S f), e'. split.
      { unfold children. rewrite Es. exact F1. }
      split.
      { eapply sr_trans; [exact Ssr|]. eapply sr_trans; [|exact F2].
        apply sr_binary; [exact S'|apply sr_refl]. }
      split; auto. split; auto. split.
      { intros K. apply ZZ in K as [K _]. contradiction. }
      split; [lia|].
      intros K. discriminate (C K).
Qed.

Lemma good_all : forall G n e, size e = n -> hnf e -> sreg e -> typ G e <> None ->
  weight e < WB -> good G e.
Proof.
  intros G n. induction n as [n IH] using (well_founded_induction lt_wf).
  intros e En Hn Hs Ht Hw.
  assert (Hrec : forall d, (size d < size e)%nat -> hnf d -> sreg d -> typ G d <> None ->
             weight d < WB -> good G d).
  { intros d Hd. apply (IH (size d)); auto. lia. }
  clear IH En. destruct e as [t|u a|op l r].
  - exists 1%nat, (Term t). simpl in Hs.
    assert (E : simplify 1 (Term t) = Ok (Term t)).
    { destruct t; simpl in *; try contradiction; reflexivity. }
    split; [exact E|]. split; [apply sr_refl|]. split; [auto|]. split; [auto|].
    split; [auto|]. split; [auto|].
    intros K. destruct t; simpl in *; auto; try discriminate; contradiction.
  - assert (Hc : hcl (Unary u a)).
    { destruct Hn as [H|[H|[(c & z & H & _)|(u' & x & z & H & _)]]]; auto; discriminate. }
    destruct (hcl_unary_arg _ _ Hc) as [Ha Hm].
    pose proof (typ_unary _ _ _ Ht) as Hta.
    destruct (Hrec a) as (f & a1 & E & Sa & N & R & C & Z & _); auto.
    1-2: try (simpl; lia). 1: try (rewrite Hta; discriminate).
    assert (Hta' : typ G a1 = Some true) by (apply (sr_typ _ _ _ Sa); auto).
    assert (Hc1 : hcl (Unary u a1)) by (eapply hnf_unary; eauto).
    destruct (hcl_top G (Unary u a1)) as (f2 & e' & E2 & S2 & R2 & H2 & Z2); auto.
    { simpl. rewrite Hta'. discriminate. }
    { simpl. pose proof (sr_weight _ _ _ Sa). simpl in Hw. lia. }
    { intros d Hd. apply Hrec. simpl in *. lia. }
    exists (S (max f f2)), e'. split.
    { rewrite simplify_S. unfold children at 1.
      rewrite (simplify_mono f (max f f2) _ _ (Nat.le_max_l _ _) E). simpl.
      unfold step2, combineConstants. simpl.
      destruct (children (simplify f2) (Unary u a1)) as [y| |] eqn:Ey; try discriminate.
      assert (K : children (simplify (max f f2)) (Unary u a1) = Ok y).
      { eapply children_mono; [|exact Ey]. intros x y0. apply simplify_mono, Nat.le_max_r. }
      simpl in K. rewrite K. exact E2. }
    split; [eapply sr_trans; [apply sr_unary; eauto|eauto]|].
    split; [apply hcl_hnf; auto|]. split; auto. split; auto. split; [simpl in *; lia|].
    discriminate.
  - assert (Hlr : hnf l /\ hnf r /\ (hcl (Binary op l r) \/ exists z, r = Lit z)).
    { destruct Hn as [H|[H|[(c & z & H & K & _)|(u' & x & z & H & K)]]]; try discriminate.
      - simpl in H. split; [|split]; auto; apply hcl_hnf; tauto.
      - injection H as -> -> ->. split; [apply hcl_hnf; auto|].
        split; [left; reflexivity|]. right. eauto.
      - injection H as -> -> ->. split; [apply hcl_hnf; auto|].
        split; [left; reflexivity|]. right. eauto. }
    destruct Hlr as (Hl & Hr & Hsh).
    pose proof (typ_binary _ _ _ _ Ht) as [Tl Tr].
    pose proof Hs as (Sl & Sr & Sn). simpl in Hw.
    pose proof (weight_nonneg l). pose proof (weight_nonneg r).
    destruct (Hrec l) as (f1 & l' & E1 & S1 & N1 & R1 & C1 & Z1 & _); auto.
    1-2: try (simpl; lia).
    destruct (Hrec r) as (f2 & r' & E2 & S2 & N2 & R2 & C2 & Z2 & K2); auto.
    1-2: try (simpl; lia).
    assert (Hs' : sreg (Binary op l' r')).
    { simpl. repeat split; auto. destruct Sn as [K|[K|K]].
      - left. eapply sr_single; eauto.
      - right. left. eapply sr_starts; eauto.
      - right. right. apply K2. apply is_lit_inv in K as (z & ->). reflexivity. }
    pose proof (sr_binary G op _ _ _ _ S1 S2) as Sb.
    assert (Hwb : weight (Binary op l' r') < WB).
    { pose proof (sr_weight _ _ _ Sb). simpl in *. lia. }
    assert (Htb : typ G (Binary op l' r') <> None) by (eapply sr_typ_some; eauto).
    destruct (propagate_spec (Binary op l' r')) as ([[c p] z] & Ep & P); auto.
    { apply hnf_node_zr; auto. }
    { simpl. auto using hnf_hsk. }
    pose proof (pr_size _ _ P) as Psz. simpl in Psz.
    assert (Hlz : hcl (Binary op l r) -> lz (Binary op l' r')).
    { intros [A B]. simpl. split; apply hcl_lz; auto. }
    assert (Htail : z <> 0 -> (size c <= size l')%nat /\ exists k, r = Lit k).
    { intros Nz. destruct Hsh as [K|(k & ->)].
      - apply Hlz in K. apply (pr_lz0 _ _ P) in K as [K _]. simpl in K. contradiction.
      - assert (Hl' : is_lit r' = true) by (apply K2; reflexivity).
        apply is_lit_inv in Hl' as (k' & ->).
        destruct (pr_tail _ _ P op l' k' eq_refl) as [K|K]; [|eauto].
        apply (pr_lit _ _ P) in K as [K _]. simpl in K. contradiction. }
    destruct (step2_ok G (Binary op l' r') c p z) as (f3 & e' & E3 & Q1 & Q2 & Q3 & Q4 & Q5 & Q6); auto.
    { intros d Hd. apply Hrec. simpl in *. lia. }
    { intros Nz. apply Hrec. destruct (Htail Nz). simpl. lia. }
    exists (S (max f1 (max f2 f3))), e'. split.
    { rewrite simplify_S. unfold children at 1.
      rewrite (simplify_mono f1 (max f1 (max f2 f3)) _ _ ltac:(lia) E1). simpl.
      rewrite (simplify_mono f2 (max f1 (max f2 f3)) _ _ ltac:(lia) E2). simpl.
      eapply step2_mono; [|exact E3]. intros x y. apply simplify_mono. lia. }
    split; [eapply sr_trans; eauto|]. split; auto. split; auto. split; auto.
    split.
    { destruct (Z.eqb_spec z 0) as [->|Nz].
      - simpl in *. lia.
      - destruct (Htail Nz) as [K (k & ->)]. simpl in *. lia. }
    intros K. apply Q6. apply (sr_const _ _ _ Sb). exact K.
Qed.

(** ** Simplification of regular expressions *)

Lemma simplify_regular : forall G e, regular e -> typ G e <> None -> weight e < WB ->
  exists f e', simplify f e = Ok e' /\ sr G e e' /\ hnf e' /\ sreg e' /\
    (constant_only e = true -> is_lit e' = true).
Proof.
  intros G e. induction e as [t|u a IH|op l IHl r IHr]; intros Hreg Ht Hw.
  - exists 1%nat. destruct t; simpl in Hreg; try contradiction.
    + exists (Lit z). split; [reflexivity|]. split; [apply sr_refl|].
      split; [left; reflexivity|]. simpl; auto.
    + exists (Lit z). split.
      { unfold WB in Hw. simpl in Hw. cbn -[wrap32]. rewrite wrap32_id by lia. reflexivity. }
      split; [constructor; simpl; auto; lia|].
      split; [left; reflexivity|]. simpl; auto.
    + exists (Term (TName n)). split; [reflexivity|]. split; [apply sr_refl|].
      split; [apply hcl_hnf; simpl; auto|]. simpl; auto; split; auto; discriminate.
    + exists (Term (TSizeof n)). split; [reflexivity|]. split; [apply sr_refl|].
      split; [apply hcl_hnf; simpl; auto|]. simpl; auto; split; auto; discriminate.
  - pose proof (typ_unary _ _ _ Ht) as Hta.
    assert (Hcase : (exists n len, a = Term (TStr n len) \/ a = Term (TInit n len)) \/ regular a).
    { destruct a as [t| |]; auto. destruct t; auto; left; eauto. }
    destruct Hcase as [(n & len & Hstr) | Hra].
    + assert (Hmax : u = MAXSET \/ u = MAXREAD) by (destruct Hstr; subst a; exact Hreg).
      simpl in Hw. unfold WB in Hw.
      destruct Hstr; subst a; simpl in Hw.
      * exists 2%nat, (Lit len). split.
        { destruct Hmax; subst u; cbn -[wrap32]; rewrite wrap32_id by lia; reflexivity. }
        split; [|split; [left; reflexivity|split; [exact I|discriminate]]].
        destruct Hmax; subst u; constructor; simpl; auto; try lia; try discriminate;
          intros rho v _ _ K; inversion K; do 2 f_equal; lia.
      * exists 2%nat, (Lit (len - 1)). split.
        { destruct Hmax; subst u; cbn -[wrap32 Z.sub]; rewrite wrap32_id by lia; reflexivity. }
        split; [|split; [left; reflexivity|split; [exact I|discriminate]]].
        destruct Hmax; subst u; constructor; simpl; auto; try lia; try discriminate;
          intros rho v _ _ K; inversion K; do 2 f_equal; lia.
    + destruct (IH Hra) as (f & a1 & E & Sa & N & R & _); auto.
      { rewrite Hta; discriminate. }
      assert (Hta1 : typ G a1 = Some true) by (apply (sr_typ _ _ _ Sa); auto).
      assert (Hw1 : weight a1 < WB) by (pose proof (sr_weight _ _ _ Sa); simpl in Hw; lia).
      destruct (good_all G (size a1) a1) as (f2 & a2 & E2 & S2 & N2 & R2 & _); auto.
      { rewrite Hta1; discriminate. }
      assert (Hta2 : typ G a2 = Some true) by (apply (sr_typ _ _ _ S2); auto).
      assert (Hfin : sr G (Unary u a2) (simplify_unary u a2) /\ hnf (simplify_unary u a2) /\
                     sreg (simplify_unary u a2)).
      { destruct (is_max u) eqn:Eu.
        - assert (Hd : hcl a2 \/ exists c z, a2 = Binary PLUS c (Lit z) /\ hcl c).
          { destruct N2 as [K|[K|[(c & z & K & K' & _)|(u' & x & z & K & _)]]]; auto.
            - apply is_lit_inv in K as (z & ->). discriminate.
            - eauto.
            - subst a2. simpl in Hta2. destruct (typ G x) as [[]|]; discriminate. }
          destruct Hd as [Hd|(c & z & -> & Hd)].
          + destruct (unary_top G u a2) as (A & B & C & _); auto using hcl_hnf.
          + assert (Heq : simplify_unary u (Binary PLUS c (Lit z)) = Binary MINUS (Unary u c) (Lit z))
              by (destruct u; try discriminate; reflexivity).
            rewrite Heq. split; [apply sr_peel; auto|]. split.
            * right. right. right. exists u, c, z. split; auto. simpl. rewrite Eu. auto.
            * simpl in *. tauto.
        - destruct (unary_top G u a2) as (A & B & C & _); auto.
          { congruence. } auto using hcl_hnf. }
      destruct Hfin as (F1 & F2 & F3).
      exists (S (max f f2)), (simplify_unary u a2). split.
      { rewrite simplify_S. unfold children at 1.
        rewrite (simplify_mono f (max f f2) _ _ (Nat.le_max_l _ _) E). simpl.
        unfold step2, combineConstants. simpl.
        rewrite (simplify_mono f2 (max f f2) _ _ (Nat.le_max_r _ _) E2). reflexivity. }
      split.
      { eapply sr_trans; [|exact F1]. apply sr_unary. eapply sr_trans; eauto. }
      split; auto. split; auto. discriminate.
  - destruct Hreg as (Hrl & Hrr & Hn).
    pose proof (typ_binary _ _ _ _ Ht) as [Tl Tr].
    simpl in Hw. pose proof (weight_nonneg l). pose proof (weight_nonneg r).
    destruct (IHl Hrl Tl ltac:(lia)) as (f1 & l' & E1 & S1 & N1 & R1 & _).
    destruct (IHr Hrr Tr ltac:(lia)) as (f2 & r' & E2 & S2 & N2 & R2 & K2).
    assert (Hs' : sreg (Binary op l' r')).
    { simpl. repeat split; auto. destruct Hn as [K|[K|K]].
      - left. eapply sr_single; eauto.
      - right. left. eapply sr_starts; eauto.
      - auto. }
    pose proof (sr_binary G op _ _ _ _ S1 S2) as Sb.
    assert (Hwb : weight (Binary op l' r') < WB).
    { pose proof (sr_weight _ _ _ Sb). simpl in *. lia. }
    assert (Htb : typ G (Binary op l' r') <> None) by (eapply sr_typ_some; eauto).
    destruct (propagate_spec (Binary op l' r')) as ([[c p] z] & Ep & P); auto.
    { apply hnf_node_zr; auto. }
    { simpl. auto using hnf_hsk. }
    destruct (step2_ok G (Binary op l' r') c p z) as (f3 & e' & E3 & Q1 & Q2 & Q3 & Q4 & Q5 & Q6); auto.
    { intros d _. apply (good_all G (size d)); auto. }
    { intros _. apply (good_all G (size c)); auto. }
    exists (S (max f1 (max f2 f3))), e'. split.
    { rewrite simplify_S. unfold children at 1.
      rewrite (simplify_mono f1 (max f1 (max f2 f3)) _ _ ltac:(lia) E1). simpl.
      rewrite (simplify_mono f2 (max f1 (max f2 f3)) _ _ ltac:(lia) E2). simpl.
      eapply step2_mono; [|exact E3]. intros x y. apply simplify_mono. lia. }
    split; [eapply sr_trans; eauto|]. split; auto. split; auto.
    intros K. apply Q6. apply (sr_const _ _ _ Sb). exact K.
Qed.
