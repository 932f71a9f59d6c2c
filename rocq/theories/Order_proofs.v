(** Proofs for C101: the sets of references cover the accesses, and silence excludes clashes. *)
From Verif Require Import Cbase Order_model Order_spec.
From Coq Require Import List ZArith Bool Lia Arith.
Import ListNotations.
Open Scope Z_scope.

(** ** Sets of references *)
Lemma realSame_refl : forall s, realSame s s = true.
Proof.
  induction s as [x | a | a [k|] | s IH | s IH | f]; cbn [realSame]; rewrite ?Nat.eqb_refl, ?Z.eqb_refl; auto.
Qed.
Lemma realSame_eq : forall s t, realSame s t = true <-> s = t.
Proof.
  intros s t; split; [| intros ->; apply realSame_refl].
  revert t; induction s as [x | a | a [k|] | s IH | s IH | f]; intros [y | b | b [j|] | t | t | g] H;
    cbn [realSame] in H; try discriminate H; rewrite ?andb_true_iff, ?Nat.eqb_eq, ?Z.eqb_eq in H;
    try (apply IH in H); intuition congruence.
Qed.
Lemma in_insert : forall s el t, In t (insert s el) <-> In t s \/ t = el.
Proof.
  intros s el t; unfold insert; destruct (existsb (realSame el) s) eqn:E.
  - split; [auto | intros [H | ->]; [exact H |]].
    apply existsb_exists in E; destruct E as (u & Hu & E); apply realSame_eq in E; subst; exact Hu.
  - rewrite in_app_iff; cbn [In]; intuition congruence.
Qed.
Lemma in_union : forall s2 s1 t, In t (union s1 s2) <-> In t s1 \/ In t s2.
Proof.
  induction s2 as [|el s2 IH]; intros s1 t; unfold union in *; cbn [fold_left In]; [tauto |].
  rewrite IH, in_insert; intuition congruence.
Qed.
Lemma in_use : forall us r t, In t (use us r) <-> In t us \/ r = Some t.
Proof. intros us [s|] t; cbn [use]; [rewrite in_insert; intuition congruence | intuition discriminate]. Qed.
Lemma in_set : forall us r t, In t (set us r) <-> In t us \/ r = Some t.
Proof. exact in_use. Qed.
Lemma in_unions : forall l s t, In t (fold_left union l s) <-> In t s \/ exists u, In u l /\ In t u.
Proof.
  induction l as [|u l IH]; intros s t; cbn [fold_left In].
  - split; [auto | intros [H | (u & [] & _)]; exact H].
  - rewrite IH, in_union; split.
    + intros [[H | H] | (w & H1 & H2)]; eauto 6.
    + intros [H | (w & [-> | H1] & H2)]; eauto 6.
Qed.

(** The objects a reference stands for. *)
Definition covers (s : sref) (o : obj) : bool :=
  match s, o with
  | SVar x, OVar y => Nat.eqb x y
  | SElem a None, OElem b _ => Nat.eqb a b
  | SElem a (Some j), OElem b k => Nat.eqb a b && (j =? k)
  | SPtr (SArr a), OElem b _ => Nat.eqb a b
  | SDer (SArr a), OElem b _ => Nat.eqb a b
  | _, _ => false
  end.
Lemma similar_covers : forall s t o, covers s o = true -> covers t o = true -> similar s t = true.
Proof.
  intros s t o H1 H2.
  destruct o as [x | b z].
  - destruct s as [y | a | a [j|] | [] | [] | f]; try discriminate H1;
    destruct t as [w | c | c [k|] | [] | [] | g]; try discriminate H2.
    cbn in *; rewrite Nat.eqb_eq in *; congruence.
  - destruct s as [y | a | a [j|] | [y | a | a m | s | s | f] | [y | a | a m | s | s | f] | f]; try discriminate H1;
    destruct t as [w | c | c [k|] | [w | c | c m' | t | t | g] | [w | c | c m' | t | t | g] | g]; try discriminate H2;
    cbn [covers similar includedBy same optZ_known_eq] in *;
    rewrite ?andb_true_iff, ?Nat.eqb_eq, ?Z.eqb_eq in *; subst;
    repeat match goal with H : _ /\ _ |- _ => destruct H end; subst; rewrite ?Nat.eqb_refl; auto.
Qed.
Definition is_ptr (s : sref) : bool := match s with SPtr _ => true | _ => false end.
Definition is_der (s : sref) : bool := match s with SDer _ => true | _ => false end.
Lemma same_covers : forall s t o,
  is_ptr s = false -> is_der s = false -> is_ptr t = false -> is_der t = false ->
  covers s o = true -> covers t o = true -> same s t = true.
Proof.
  intros s t o A B C D H1 H2.
  destruct s as [y | a | a j | s | s | f]; try discriminate A; try discriminate B;
    destruct t as [w | c | c k | t | t | g]; try discriminate C; try discriminate D;
    destruct o as [x | b z]; try discriminate H1; try discriminate H2;
    try (destruct j as [j|]); try (destruct k as [k|]); try discriminate H1; try discriminate H2;
    cbn [covers same optZ_known_eq] in *;
    rewrite ?andb_true_iff, ?Nat.eqb_eq, ?Z.eqb_eq in *;
    repeat match goal with H : _ /\ _ |- _ => destruct H end; subst; auto.
Qed.

Definition cov (l : list sref) (o : obj) : bool := existsb (fun s => covers s o) l.
Definition covr (r : option sref) (o : obj) : bool := match r with Some s => covers s o | None => false end.
Lemma cov_in : forall l o, cov l o = true <-> exists s, In s l /\ covers s o = true.
Proof. intros; unfold cov; apply existsb_exists. Qed.
Lemma cov_insert : forall l s o, cov (insert l s) o = cov l o || covers s o.
Proof.
  intros l s o; apply eq_true_iff_eq; rewrite orb_true_iff, !cov_in; split.
  - intros (t & H & C); apply in_insert in H; destruct H as [H | ->]; eauto.
  - intros [(t & H & C) | C]; [exists t | exists s]; rewrite in_insert; auto.
Qed.
Lemma cov_union : forall l m o, cov (union l m) o = cov l o || cov m o.
Proof.
  intros l m o; apply eq_true_iff_eq; rewrite orb_true_iff, !cov_in; split.
  - intros (t & H & C); apply in_union in H; destruct H as [H | H]; eauto.
  - intros [(t & H & C) | (t & H & C)]; exists t; rewrite in_union; auto.
Qed.
Lemma cov_use : forall l r o, cov (use l r) o = cov l o || covr r o.
Proof. intros l [s|] o; cbn [use covr]; [apply cov_insert | rewrite orb_false_r; reflexivity]. Qed.
Lemma cov_set : forall l r o, cov (set l r) o = cov l o || covr r o.
Proof. exact cov_use. Qed.
Lemma member_cov : forall l s o, covers s o = true -> cov l o = true -> member l s = true.
Proof.
  intros l s o H C; apply cov_in in C; destruct C as (t & Ht & C).
  apply existsb_exists; exists t; split; [exact Ht | eapply similar_covers; eauto].
Qed.

(** Read (with the storage the value is in) and written. *)
Definition Rd (n : node) (o : obj) : bool := cov (uses n) o || covr (ref n) o.
Definition Wr (n : node) (o : obj) : bool := cov (sets n) o.

(** ** What silence means *)
Lemma flat_map_nil : forall {X Y} (f : X -> list Y) l, flat_map f l = [] -> forall x, In x l -> f x = [].
Proof.
  intros X Y f l; induction l as [|y l IH]; cbn [flat_map]; intros H x []; apply app_eq_nil in H; destruct H.
  - subst; assumption.
  - auto.
Qed.

Definition basic (r : option sref) : Prop := match r with Some s => is_ptr s = false /\ is_der s = false | None => True end.
Definition set_ok (n : node) : Prop := forall s, In s (sets n) -> is_der s = false.

Section Facts.
Variable glob_var : var -> bool.
Variable glob_arr : arr -> bool.
Variable decl : fname -> fdecl.
Variable uncon : bool.
Local Notation checkDefined := (checkDefined glob_var glob_arr uncon).
Local Notation checkDefinedAux := (checkDefinedAux glob_var glob_arr uncon).
Local Notation checkSeq := (checkSeq glob_var glob_arr uncon).
Local Notation checkSeq2 := (checkSeq2 glob_var glob_arr uncon).
Local Notation check := (check glob_var glob_arr decl uncon).
Local Notation checkL := (checkL glob_var glob_arr decl uncon).
Local Notation checkArgs := (checkArgs glob_var glob_arr decl uncon).
Local Notation callNode := (callNode decl).

Lemma not_true : forall b, (b = true -> False) -> b = false.
Proof. intros []; [intros H; destruct H; reflexivity | reflexivity]. Qed.

Lemma aux_silent : forall n1 n2 o, checkDefinedAux n1 n2 = [] ->
  (cov (uses n1) o = true -> Wr n2 o = false)
  /\ (Wr n1 o = true -> cov (uses n2) o = false /\ Wr n2 o = false)
  /\ (Wr n1 o = true -> set_ok n1 -> (forall s, In s (sets n1) -> is_ptr s = false) -> basic (ref n2) -> covr (ref n2) o = false).
Proof.
  intros n1 n2 o H; unfold Order_model.checkDefinedAux in H.
  apply app_eq_nil in H; destruct H as [_ H]; apply app_eq_nil in H; destruct H as [_ H].
  apply app_eq_nil in H; destruct H as [H1 H2].
  split; [| split].
  - intros C; apply not_true; intros W.
    apply cov_in in C; destruct C as (s & Hs & C).
    pose proof (flat_map_nil _ _ H1 s Hs) as E; cbn beta in E.
    rewrite (member_cov (sets n2) s o C W) in E; discriminate.
  - intros C; unfold Wr in C; apply cov_in in C; destruct C as (s & Hs & C).
    pose proof (flat_map_nil _ _ H2 s Hs) as E; unfold checkLeftSet in E.
    destruct (match ref n2 with Some t => same s t | None => false end); [discriminate |].
    split; apply not_true; intros W.
    + rewrite (member_cov (uses n2) s o C W) in E; discriminate.
    + destruct (member (uses n2) s); [discriminate |].
      rewrite (member_cov (sets n2) s o C W) in E.
      destruct s; try discriminate E. discriminate C.
  - intros C ND NP B; unfold Wr in C; apply cov_in in C; destruct C as (s & Hs & C).
    pose proof (flat_map_nil _ _ H2 s Hs) as E; unfold checkLeftSet in E.
    destruct (ref n2) as [t|]; [cbn [covr] | reflexivity].
    apply not_true; intros W; destruct B.
    rewrite (same_covers s t o) in E; auto; discriminate.
Qed.
Lemma defined_silent : forall n1 n2, checkDefined n1 n2 = [] ->
  checkDefinedAux n1 n2 = [] /\ (isCall n2 = false -> forall o, covr (ref n1) o = true -> Wr n2 o = false).
Proof.
  intros n1 n2 H; unfold Order_model.checkDefined in H.
  destruct (match ref n1 with Some s => member (sets n2) s | None => false end && negb (isCall n2)) eqn:E; [discriminate |].
  split; [exact H |].
  intros C o Hc; rewrite C, andb_true_r in E; destruct (ref n1) as [s|]; [| discriminate Hc].
  apply not_true; intros W; rewrite (member_cov _ s o Hc W) in E; discriminate.
Qed.

(** Pairs of arguments. *)
Definition apart (a b : node) : Prop := forall o, Wr a o = true -> cov (uses b) o = false /\ Wr b o = false.
Lemma seq2_apart : forall i j a b, checkSeq2 i j a b = [] -> apart a b.
Proof.
  intros i j a b H o W; unfold Wr in W; apply cov_in in W; destruct W as (s & Hs & C).
  pose proof (flat_map_nil _ _ H s Hs) as E; cbn beta in E.
  apply app_eq_nil in E; destruct E as [_ E].
  assert (isUncon s = false) as U by (destruct s; [reflexivity .. | discriminate C]).
  rewrite U in E.
  split; apply not_true; intros W.
  - rewrite (member_cov (uses b) s o C W) in E; discriminate.
  - destruct (member (uses b) s); [discriminate |]; rewrite (member_cov (sets b) s o C W) in E; discriminate.
Qed.
Fixpoint pairwise (ns : list node) : Prop :=
  match ns with
  | [] => True
  | n :: r => (forall m, In m r -> apart n m /\ apart m n) /\ pairwise r
  end.
Lemma pairwise_indices : forall l k,
  (forall i j a b, In (i, a) (combine (seq k (length l)) l) -> In (j, b) (combine (seq k (length l)) l) -> i <> j -> apart a b) ->
  pairwise l.
Proof.
  induction l as [|n l IH]; intros k H; cbn [pairwise]; [exact I |].
  split.
  - intros m Hm; apply In_nth_error in Hm; destruct Hm as (q & Hq).
    assert (In (S k + q, m)%nat (combine (seq (S k) (length l)) l)) as X.
    { clear -Hq; revert k q Hq; induction l as [|x l IH]; intros k q Hq; [destruct q; discriminate |].
      cbn [length seq combine]; destruct q as [|q]; cbn [nth_error] in Hq.
      - injection Hq as ->; rewrite Nat.add_0_r; left; reflexivity.
      - right; replace (S k + S q)%nat with (S (S k) + q)%nat by lia; apply IH; exact Hq. }
    split; [apply (H k (S k + q)%nat) | apply (H (S k + q)%nat k)]; cbn [length seq combine In]; auto; lia.
  - apply (IH (S k)); intros i j a b Hi Hj; apply H; cbn [length seq combine In]; auto.
Qed.
Lemma seq_silent : forall ns, checkSeq ns = [] -> pairwise ns.
Proof.
  intros ns H; apply pairwise_indices with (k := 1%nat); intros i j a b Hi Hj Hn.
  pose proof (flat_map_nil _ _ H (i, a) Hi) as E; cbn beta in E.
  pose proof (flat_map_nil _ _ E (j, b) Hj) as F; cbn [fst snd] in F.
  destruct (Nat.eqb i j) eqn:Q; [apply Nat.eqb_eq in Q; contradiction |].
  eapply seq2_apart; exact F.
Qed.

(** ** Nodes of expressions *)
Definition nodeE (e : expr) : node := fst (check e).
Definition nodeL (l : lval) : node := fst (checkL l).
Definition nodesA (es : exprs) : list node := fst (checkArgs es).
Definition msgE (e : expr) : list msg := snd (check e).
Definition msgL (l : lval) : list msg := snd (checkL l).
Definition msgA (es : exprs) : list msg := snd (checkArgs es).

Lemma check_asg : forall l e, check (Asg l e) =
  let (n1, m1) := checkL l in let (n2, m2) := check e in (asgNode n1 n2, m1 ++ m2 ++ checkDefined n1 n2).
Proof. reflexivity. Qed.
Lemma check_asgop : forall o l e, check (AsgOp o l e) =
  let (n1, m1) := checkL l in let (n2, m2) := check e in
  (asgOpNode n1 n2 (valBin o (val n1) (val n2)), m1 ++ m2 ++ checkDefined n1 n2).
Proof. reflexivity. Qed.
Lemma check_pre : forall l, check (Pre l) = let (n, m) := checkL l in (incNode n None, m).
Proof. reflexivity. Qed.
Lemma check_post : forall l, check (Post l) = let (n, m) := checkL l in (incNode n (val n), m).
Proof. reflexivity. Qed.
Lemma check_call : forall f args, check (Call f args) =
  let (ns, m) := checkArgs args in (callNode f (map argNode ns), m ++ checkSeq (map argNode ns)).
Proof. reflexivity. Qed.
Lemma checkL_lf : forall a i, checkL (LF a i) = let (n, m) := check i in (fetchNode a n, m).
Proof. reflexivity. Qed.
Lemma checkArgs_cons : forall e r, checkArgs (ECons e r) =
  let (n, m) := check e in let (ns, ms) := checkArgs r in (n :: ns, m ++ ms).
Proof. reflexivity. Qed.

Lemma node_fetch : forall a i, nodeE (Fetch a i) = fetchNode a (nodeE i).
Proof. intros; unfold nodeE; cbn [Order_model.check]; destruct (check i); reflexivity. Qed.
Lemma node_paren : forall e, nodeE (Paren e) =
  {| uses := uses (nodeE e); sets := sets (nodeE e); ref := ref (nodeE e); val := val (nodeE e); isCall := false |}.
Proof. intros; unfold nodeE; cbn [Order_model.check]; destruct (check e); reflexivity. Qed.
Lemma node_un : forall o e, nodeE (Un o e) = unNode (nodeE e) (valUn o (val (nodeE e))).
Proof. intros; unfold nodeE; cbn [Order_model.check]; destruct (check e); reflexivity. Qed.
Lemma node_bin : forall o e1 e2, nodeE (Bin o e1 e2) = opNode (nodeE e1) (nodeE e2) (valBin o (val (nodeE e1)) (val (nodeE e2))).
Proof. intros; unfold nodeE; cbn [Order_model.check]; destruct (check e1), (check e2); reflexivity. Qed.
Lemma node_and : forall e1 e2, nodeE (And e1 e2) = opNode (nodeE e1) (nodeE e2) None.
Proof. intros; unfold nodeE; cbn [Order_model.check]; destruct (check e1), (check e2); reflexivity. Qed.
Lemma node_or : forall e1 e2, nodeE (Or e1 e2) = opNode (nodeE e1) (nodeE e2) None.
Proof. intros; unfold nodeE; cbn [Order_model.check]; destruct (check e1), (check e2); reflexivity. Qed.
Lemma node_cond : forall p t f, nodeE (Cond p t f) = condNode (nodeE p) (nodeE t) (nodeE f).
Proof. intros; unfold nodeE; cbn [Order_model.check]; destruct (check p), (check t), (check f); reflexivity. Qed.
Lemma node_comma : forall e1 e2, nodeE (Comma e1 e2) = commaNode (nodeE e1) (nodeE e2).
Proof. intros; unfold nodeE; cbn [Order_model.check]; destruct (check e1), (check e2); reflexivity. Qed.
Lemma node_asg : forall l e, nodeE (Asg l e) = asgNode (nodeL l) (nodeE e).
Proof. intros; unfold nodeE, nodeL; rewrite check_asg; destruct (checkL l), (check e); reflexivity. Qed.
Lemma node_asgop : forall o l e, nodeE (AsgOp o l e) = asgOpNode (nodeL l) (nodeE e) (valBin o (val (nodeL l)) (val (nodeE e))).
Proof. intros; unfold nodeE, nodeL; rewrite check_asgop; destruct (checkL l), (check e); reflexivity. Qed.
Lemma node_pre : forall l, nodeE (Pre l) = incNode (nodeL l) None.
Proof. intros; unfold nodeE, nodeL; rewrite check_pre; destruct (checkL l); reflexivity. Qed.
Lemma node_post : forall l, nodeE (Post l) = incNode (nodeL l) (val (nodeL l)).
Proof. intros; unfold nodeE, nodeL; rewrite check_post; destruct (checkL l); reflexivity. Qed.
Lemma node_call : forall f args, nodeE (Call f args) = callNode f (map argNode (nodesA args)).
Proof. intros; unfold nodeE, nodesA; rewrite check_call; destruct (checkArgs args); reflexivity. Qed.
Lemma node_lf : forall a i, nodeL (LF a i) = fetchNode a (nodeE i).
Proof. intros; unfold nodeE, nodeL; rewrite checkL_lf; destruct (check i); reflexivity. Qed.
Lemma nodes_cons : forall e r, nodesA (ECons e r) = nodeE e :: nodesA r.
Proof. intros; unfold nodeE, nodesA; rewrite checkArgs_cons; destruct (check e), (checkArgs r); reflexivity. Qed.

Lemma msg_fetch : forall a i, msgE (Fetch a i) = msgE i.
Proof. intros; unfold msgE; cbn [Order_model.check]; destruct (check i); reflexivity. Qed.
Lemma msg_paren : forall e, msgE (Paren e) = msgE e.
Proof. intros; unfold msgE; cbn [Order_model.check]; destruct (check e); reflexivity. Qed.
Lemma msg_un : forall o e, msgE (Un o e) = msgE e.
Proof. intros; unfold msgE; cbn [Order_model.check]; destruct (check e); reflexivity. Qed.
Lemma msg_bin : forall o e1 e2, msgE (Bin o e1 e2) = msgE e1 ++ msgE e2 ++ checkDefined (nodeE e1) (nodeE e2).
Proof. intros; unfold msgE, nodeE; cbn [Order_model.check]; destruct (check e1), (check e2); reflexivity. Qed.
Lemma msg_and : forall e1 e2, msgE (And e1 e2) = msgE e1 ++ msgE e2.
Proof. intros; unfold msgE; cbn [Order_model.check]; destruct (check e1), (check e2); reflexivity. Qed.
Lemma msg_or : forall e1 e2, msgE (Or e1 e2) = msgE e1 ++ msgE e2.
Proof. intros; unfold msgE; cbn [Order_model.check]; destruct (check e1), (check e2); reflexivity. Qed.
Lemma msg_cond : forall p t f, msgE (Cond p t f) = msgE p ++ msgE t ++ msgE f.
Proof. intros; unfold msgE; cbn [Order_model.check]; destruct (check p), (check t), (check f); reflexivity. Qed.
Lemma msg_comma : forall e1 e2, msgE (Comma e1 e2) = msgE e1 ++ msgE e2.
Proof. intros; unfold msgE; cbn [Order_model.check]; destruct (check e1), (check e2); reflexivity. Qed.
Lemma msg_asg : forall l e, msgE (Asg l e) = msgL l ++ msgE e ++ checkDefined (nodeL l) (nodeE e).
Proof. intros; unfold msgE, msgL, nodeE, nodeL; rewrite check_asg; destruct (checkL l), (check e); reflexivity. Qed.
Lemma msg_asgop : forall o l e, msgE (AsgOp o l e) = msgL l ++ msgE e ++ checkDefined (nodeL l) (nodeE e).
Proof. intros; unfold msgE, msgL, nodeE, nodeL; rewrite check_asgop; destruct (checkL l), (check e); reflexivity. Qed.
Lemma msg_pre : forall l, msgE (Pre l) = msgL l.
Proof. intros; unfold msgE, msgL; rewrite check_pre; destruct (checkL l); reflexivity. Qed.
Lemma msg_post : forall l, msgE (Post l) = msgL l.
Proof. intros; unfold msgE, msgL; rewrite check_post; destruct (checkL l); reflexivity. Qed.
Lemma msg_call : forall f args, msgE (Call f args) = msgA args ++ checkSeq (map argNode (nodesA args)).
Proof. intros; unfold msgE, msgA, nodesA; rewrite check_call; destruct (checkArgs args); reflexivity. Qed.
Lemma msg_lf : forall a i, msgL (LF a i) = msgE i.
Proof. intros; unfold msgE, msgL; rewrite checkL_lf; destruct (check i); reflexivity. Qed.
Lemma msgs_cons : forall e r, msgA (ECons e r) = msgE e ++ msgA r.
Proof. intros; unfold msgE, msgA; rewrite checkArgs_cons; destruct (check e), (checkArgs r); reflexivity. Qed.

Lemma is_call_node : forall e, isCall (nodeE e) = is_call e.
Proof.
  destruct e; [reflexivity .. | | | | | | | | | | | | |];
    rewrite ?node_fetch, ?node_paren, ?node_un, ?node_bin, ?node_and, ?node_or, ?node_cond, ?node_comma,
      ?node_asg, ?node_asgop, ?node_pre, ?node_post, ?node_call; reflexivity.
Qed.

(** *** The shape of references *)
Lemma shapes :
  (forall e, basic (ref (nodeE e)) /\ set_ok (nodeE e))
  /\ (forall l, basic (ref (nodeL l)) /\ set_ok (nodeL l))
  /\ (forall es, forall n, In n (nodesA es) -> basic (ref n) /\ set_ok n).
Proof.
  apply expr_lval_exprs_ind; intros; try (split; [cbn; auto | intros s []]; fail).
  - rewrite node_fetch; destruct H; split; [cbn; auto | exact H0].
  - rewrite node_paren; exact H.
  - rewrite node_un; destruct H; split; [exact I | exact H0].
  - rewrite node_bin; destruct H, H0; split; [exact I |]; intros s Hs; apply in_union in Hs; destruct Hs; auto.
  - rewrite node_and; destruct H, H0; split; [exact I |]; intros s Hs; apply in_union in Hs; destruct Hs; auto.
  - rewrite node_or; destruct H, H0; split; [exact I |]; intros s Hs; apply in_union in Hs; destruct Hs; auto.
  - rewrite node_cond; destruct H, H0, H1; split; [exact H0 |]; intros s Hs.
    apply in_union in Hs; destruct Hs as [Hs |]; [apply in_union in Hs; destruct Hs |]; auto.
  - rewrite node_comma; destruct H, H0; split; [exact H0 |]; intros s Hs; apply in_union in Hs; destruct Hs; auto.
  - rewrite node_asg; destruct H, H0; split; [exact H |]; intros s Hs; apply in_set in Hs.
    destruct Hs as [Hs | Hs]; [apply in_union in Hs; destruct Hs; auto |]; rewrite Hs in H; destruct H; assumption.
  - rewrite node_asgop; destruct H, H0; split; [exact H |]; intros s Hs; apply in_set in Hs.
    destruct Hs as [Hs | Hs]; [apply in_union in Hs; destruct Hs as [Hs |]; [apply in_union in Hs; destruct Hs |]; auto |].
    rewrite Hs in H; destruct H; assumption.
  - rewrite node_pre; destruct H; split; [exact I |]; intros s Hs; apply in_set in Hs.
    destruct Hs as [Hs | Hs]; [auto |]; rewrite Hs in H; destruct H; assumption.
  - rewrite node_post; destruct H; split; [exact I |]; intros s Hs; apply in_set in Hs.
    destruct Hs as [Hs | Hs]; [auto |]; rewrite Hs in H; destruct H; assumption.
  - rewrite node_call; split; [exact I |]; intros s Hs; unfold Order_model.callNode in Hs; cbn [sets] in Hs.
    assert (forall s, In s (fold_left union (map sets (map argNode (nodesA args))) []) -> is_der s = false) as F.
    { intros t Ht; apply in_unions in Ht; destruct Ht as [[] | (u & Hu & Ht)].
      apply in_map_iff in Hu; destruct Hu as (m & <- & Hm); apply in_map_iff in Hm; destruct Hm as (k & <- & Hk).
      destruct (H k Hk) as [_ K]; apply K; exact Ht. }
    destruct (mods (decl f)) as [ms|].
    + apply in_union in Hs; destruct Hs as [Hs | Hs]; [auto |].
      apply in_flat_map in Hs; destruct Hs as (m & _ & Hm).
      destruct m as [x | a | n]; cbn in Hm; [destruct Hm as [<- | []]; reflexivity .. |].
      destruct (nth_error (map argNode (nodesA args)) n) as [k|]; [| destruct Hm].
      destruct (ref k) as [r|]; [destruct Hm as [<- | []]; reflexivity | destruct Hm].
    + apply in_insert in Hs; destruct Hs as [Hs | ->]; [auto | reflexivity].
  - rewrite node_lf; destruct H; split; [cbn; auto | exact H0].
  - destruct H.
  - rewrite nodes_cons in H1; destruct H1 as [<- | H1]; [exact H | apply H0; exact H1].
Qed.

Lemma careful_call : forall f args, careful decl (Call f args) = true ->
  carefuls decl args = true /\ mods (decl f) <> None /\ existsb is_garr (globs (decl f)) = false.
Proof.
  intros f args H.
  change (carefuls decl args && match mods (decl f) with Some _ => true | None => false end
    && negb (existsb is_garr (globs (decl f))) = true) in H.
  rewrite !andb_true_iff, negb_true_iff in H; destruct H as [[A B] C]; split; [exact A | split; [| exact C]].
  destruct (mods (decl f)); [discriminate | discriminate B].
Qed.
(** *** Arrays as arguments *)
Lemma ref_denotes : (forall e a, ref (nodeE e) = Some (SArr a) -> In a (denotes e))
  /\ (forall l a, ref (nodeL l) <> Some (SArr a)) /\ (forall es : exprs, True).
Proof.
  apply expr_lval_exprs_ind; intros; try exact I; try discriminate;
    rewrite ?node_fetch, ?node_paren, ?node_un, ?node_bin, ?node_and, ?node_or, ?node_cond, ?node_comma,
      ?node_asg, ?node_asgop, ?node_pre, ?node_post, ?node_call, ?node_lf in *; cbn in *; try discriminate.
  - injection H as ->; auto.
  - auto.
  - apply in_app_iff; auto.
  - auto.
  - destruct (H _ H1).
  - destruct (H _ H1).
Qed.
Lemma denotes_ref : forall e a, careful decl e = true -> In a (denotes e) -> ref (nodeE e) = Some (SArr a).
Proof.
  induction e; intros b C D; cbn [denotes] in D; try (destruct D; fail).
  - destruct D as [-> | []]; reflexivity.
  - rewrite node_paren; auto.
  - cbn [careful] in C; rewrite !andb_true_iff in C; destruct C as [[_ C1] C2].
    unfold no_arrays in *; destruct (denotes e2); [| discriminate]; destruct (denotes e3); [destruct D | discriminate].
  - cbn [careful] in C; rewrite !andb_true_iff in C; destruct C as [_ C1].
    unfold no_arrays in *; destruct (denotes e2); [destruct D | discriminate].
Qed.

(** *** Functions that modify what their arguments point to *)
Lemma no_ptr :
  (forall e, derefs decl e = false -> forall s, In s (sets (nodeE e)) -> is_ptr s = false)
  /\ (forall l, derefsL decl l = false -> forall s, In s (sets (nodeL l)) -> is_ptr s = false)
  /\ (forall es, derefss decl es = false -> forall n s, In n (nodesA es) -> In s (sets n) -> is_ptr s = false).
Proof.
  assert (forall l s, In s (set (sets (nodeL l)) (ref (nodeL l))) -> (forall t, In t (sets (nodeL l)) -> is_ptr t = false) -> is_ptr s = false) as L.
  { intros l s Hs K; apply in_set in Hs; destruct Hs as [Hs | Hs]; [auto |].
    destruct (proj1 (proj2 shapes) l) as [B _]; rewrite Hs in B; destruct B; assumption. }
  assert (forall l m s, In s (set (union (sets (nodeL l)) m) (ref (nodeL l))) -> (forall t, In t (sets (nodeL l)) -> is_ptr t = false) ->
    (forall t, In t m -> is_ptr t = false) -> is_ptr s = false) as L2.
  { intros l m s Hs K1 K2; apply in_set in Hs; destruct Hs as [Hs | Hs]; [apply in_union in Hs; destruct Hs; auto |].
    destruct (proj1 (proj2 shapes) l) as [B _]; rewrite Hs in B; destruct B; assumption. }
  apply expr_lval_exprs_ind; intros;
    rewrite ?node_fetch, ?node_paren, ?node_un, ?node_bin, ?node_and, ?node_or, ?node_cond, ?node_comma,
      ?node_asg, ?node_asgop, ?node_pre, ?node_post, ?node_call, ?node_lf in *;
    cbn [derefs derefsL derefss] in *; rewrite ?orb_false_iff in *;
    repeat match goal with H : _ /\ _ |- _ => destruct H end; try (match goal with H : In _ _ |- _ => destruct H; fail end);
    cbn [sets fetchNode unNode opNode condNode commaNode asgNode asgOpNode incNode] in *; auto.
  - apply in_union in H2; destruct H2; auto.
  - apply in_union in H2; destruct H2; auto.
  - apply in_union in H2; destruct H2; auto.
  - apply in_union in H3; destruct H3 as [H3 |]; [apply in_union in H3; destruct H3 |]; auto.
  - apply in_union in H2; destruct H2; auto.
  - apply L2 with (l := l) (m := sets (nodeE e)); auto.
  - apply L2 with (l := l) (m := sets (nodeE e)); auto.
    apply in_set in H2; apply in_set; destruct H2 as [H2 | H2]; auto.
    apply in_union in H2; destruct H2 as [H2 | H2]; auto; left; apply in_union; auto.
  - apply L with (l := l); auto.
  - apply L with (l := l); auto.
  - unfold Order_model.callNode in H1; cbn [sets] in H1.
    assert (forall s, In s (fold_left union (map sets (map argNode (nodesA args))) []) -> is_ptr s = false) as F.
    { intros t Ht; apply in_unions in Ht; destruct Ht as [[] | (u & Hu & Ht)].
      apply in_map_iff in Hu; destruct Hu as (m & <- & Hm); apply in_map_iff in Hm; destruct Hm as (k & <- & Hk).
      apply (H H2 k t Hk Ht). }
    unfold mods_list in H0; destruct (mods (decl f)) as [ms|].
    + apply in_union in H1; destruct H1 as [H1 | H1]; [auto |].
      apply in_flat_map in H1; destruct H1 as (m & Hi & Hm).
      destruct m as [x | a | n]; cbn in Hm; [destruct Hm as [<- | []]; reflexivity .. |].
      assert (existsb is_deref ms = true) as E by (apply existsb_exists; exists (MDeref n); auto).
      rewrite E in H0; discriminate.
    + apply in_insert in H1; destruct H1 as [H1 | ->]; [auto | reflexivity].
  - rewrite nodes_cons in *; destruct H2 as [<- | H2]; [apply H; auto | apply (H0 H4 n); auto].
Qed.
(** *** Known values *)
Lemma lval_val : forall l, val (nodeL l) = None.
Proof. intros [x | a i]; [reflexivity | rewrite node_lf; reflexivity]. Qed.
Lemma known_bin : forall o v w k, valBin o v w = Some k -> exists x y, v = Some x /\ w = Some y /\
  forall r, binres o x y r -> r = k.
Proof.
  intros o [x|] [y|] k H; try discriminate H; exists x, y; split; [reflexivity | split; [reflexivity |]].
  intros r B; destruct o; cbn in *; try congruence.
  destruct (y =? 0) eqn:E; [discriminate |]; apply Z.eqb_neq in E; destruct B; [contradiction | congruence].
Qed.
Lemma known_value : forall e k, simple_value e = true -> val (nodeE e) = Some k ->
  forall v a, run glob_var glob_arr decl e v a -> v = k.
Proof.
  induction e; intros k S V v c R;
    rewrite ?node_fetch, ?node_paren, ?node_un, ?node_bin, ?node_and, ?node_or, ?node_cond, ?node_comma,
      ?node_asg, ?node_asgop, ?node_pre, ?node_post, ?node_call in V; try discriminate S; try discriminate V.
  - cbn in V, R; destruct R; congruence.
  - cbn in V; eapply IHe; eauto.
  - cbn [val unNode] in V; destruct R as (w & R & U); cbn [simple_value] in S.
    destruct (val (nodeE e)) as [z|]; [| destruct o; discriminate V].
    specialize (IHe z S eq_refl _ _ R); subst.
    destruct o; cbn [valUn] in V; cbn [unres] in U; [assert (k = -1 * z) by congruence; lia | congruence | discriminate].
  - cbn [val opNode] in V; destruct R as (v1 & v2 & a1 & a2 & R1 & R2 & B & ->).
    cbn [simple_value] in S; apply andb_true_iff in S; destruct S.
    apply known_bin in V; destruct V as (x & y & V1 & V2 & V); apply V.
    rewrite <- (IHe1 x) with (v := v1) (a := a1), <- (IHe2 y) with (v := v2) (a := a2); auto.
  - cbn [val asgNode] in V; rewrite lval_val in V; discriminate.
  - cbn [val asgOpNode opNode] in V; rewrite lval_val in V; discriminate.
  - cbn [val incNode] in V; rewrite lval_val in V; discriminate.
Qed.

(** *** Calls *)
Lemma in_nodes_nth : forall es n l, nth_error (arrays es) n = Some l ->
  exists e, nth_error (nodesA es) n = Some (nodeE e) /\ l = denotes e /\ (carefuls decl es = true -> careful decl e = true).
Proof.
  induction es using exprs_mind with (P := fun _ => True) (P0 := fun _ => True); auto; intros n l H;
    [destruct n; discriminate |].
  cbn [arrays] in H; rewrite nodes_cons; cbn [carefuls]; destruct n as [|n]; cbn [nth_error] in *.
  - injection H as <-; exists e; rewrite andb_true_iff; tauto.
  - destruct (IHes0 n l H) as (e' & A & B & C); exists e'; rewrite andb_true_iff; tauto.
Qed.
Lemma nth_nodes_in : forall es n k, nth_error (nodesA es) n = Some k ->
  exists e, k = nodeE e /\ nth_error (arrays es) n = Some (denotes e).
Proof.
  induction es using exprs_mind with (P := fun _ => True) (P0 := fun _ => True); auto; intros n k H;
    [destruct n; discriminate |].
  rewrite nodes_cons in H; cbn [arrays]; destruct n as [|n]; cbn [nth_error] in *.
  - injection H as <-; exists e; auto.
  - destruct (IHes0 n k H) as (e' & A & B); exists e'; auto.
Qed.
Lemma in_concat_arrays : forall es a, In a (concat (arrays es)) ->
  exists e, In (nodeE e) (nodesA es) /\ In a (denotes e) /\ (carefuls decl es = true -> careful decl e = true).
Proof.
  intros es a H; apply in_concat in H; destruct H as (l & Hl & Ha).
  apply In_nth_error in Hl; destruct Hl as (n & Hn); destruct (in_nodes_nth es n l Hn) as (e & A & B & C).
  exists e; split; [eapply nth_error_In; exact A | subst; auto].
Qed.

Lemma call_rd_args : forall f ns n o, In n ns -> cov (uses n) o = true -> cov (uses (callNode f ns)) o = true.
Proof.
  intros f ns n o Hn C; apply cov_in in C; destruct C as (s & Hs & C); apply cov_in; exists s; split; [| exact C].
  unfold Order_model.callNode; cbn [uses]; rewrite in_union, in_unions; right; right; exists (uses n); split; [apply in_map; exact Hn | exact Hs].
Qed.
Lemma call_wr_args : forall f ns n o, In n ns -> Wr n o = true -> Wr (callNode f ns) o = true.
Proof.
  intros f ns n o Hn C; unfold Wr in *; apply cov_in in C; destruct C as (s & Hs & C); apply cov_in; exists s; split; [| exact C].
  unfold Order_model.callNode; cbn [sets].
  assert (In s (fold_left union (map sets ns) [])) as X
    by (rewrite in_unions; right; exists (sets n); split; [apply in_map; exact Hn | exact Hs]).
  destruct (mods (decl f)); [rewrite in_union | rewrite in_insert]; auto.
Qed.
Lemma call_reads : forall f args o, careful decl (Call f args) = true ->
  may_read decl f args o -> Rd (nodeE (Call f args)) o = true.
Proof.
  intros f args o C H; apply careful_call in C; destruct C as (C & _ & G).
  unfold Rd; apply orb_true_iff; left; rewrite node_call; apply cov_in.
  destruct o as [x | a k]; cbn [may_read] in H.
  - exists (SVar x); split; [| cbn; apply Nat.eqb_refl].
    unfold Order_model.callNode; cbn [uses]; apply in_union; right; apply in_unions; left; apply in_union; right.
    change (SVar x) with (globRef (GVar x)); apply in_map; exact H.
  - destruct H as [H | H].
    + assert (existsb is_garr (globs (decl f)) = true) as X by (apply existsb_exists; exists (GArr a); auto).
      rewrite X in G; discriminate.
    + destruct (in_concat_arrays _ _ H) as (e & He & Ha & Ce).
      exists (SDer (SArr a)); split; [| cbn; apply Nat.eqb_refl].
      unfold Order_model.callNode; cbn [uses]; rewrite in_union, in_union; left; right.
      apply in_flat_map; exists (argNode (nodeE e)); split; [apply in_map; exact He |].
      cbn [argNode ref]; rewrite (denotes_ref e a); auto; left; reflexivity.
Qed.
Lemma call_writes : forall f args o, careful decl (Call f args) = true ->
  may_write glob_var glob_arr decl f args o -> Wr (nodeE (Call f args)) o = true.
Proof.
  intros f args o C H; apply careful_call in C; destruct C as (C & M & _).
  unfold Wr; rewrite node_call; apply cov_in.
  unfold Order_model.callNode; cbn [sets]; unfold may_write in H.
  destruct (mods (decl f)) as [ms|]; [| contradiction].
  destruct o as [x | a k].
  - exists (SVar x); split; [| cbn; apply Nat.eqb_refl].
    rewrite in_union; right; apply in_flat_map; exists (MVar x); split; [exact H | left; reflexivity].
  - destruct H as [H | (n & l & H & Hn & Ha)].
    + exists (SElem a None); split; [| cbn; apply Nat.eqb_refl].
      rewrite in_union; right; apply in_flat_map; exists (MArr a); split; [exact H | left; reflexivity].
    + destruct (in_nodes_nth _ _ _ Hn) as (e & He & -> & Ce).
      exists (SPtr (SArr a)); split; [| cbn; apply Nat.eqb_refl].
      rewrite in_union; right; apply in_flat_map; exists (MDeref n); split; [exact H |].
      cbn [fixMod]; rewrite nth_error_map, He; cbn [option_map argNode ref].
      rewrite (denotes_ref e a); auto; left; reflexivity.
Qed.

(** *** What does not modify the elements of an array *)
Lemma not_modified b k :
  (forall e, modifies decl b e = false -> Wr (nodeE e) (OElem b k) = false)
  /\ (forall l, modifiesL decl b l = false -> Wr (nodeL l) (OElem b k) = false /\ covr (ref (nodeL l)) (OElem b k) = false)
  /\ (forall es, modifiess decl b es = false -> forall n, In n (nodesA es) -> Wr n (OElem b k) = false).
Proof.
  apply expr_lval_exprs_ind; intros;
    rewrite ?node_fetch, ?node_paren, ?node_un, ?node_bin, ?node_and, ?node_or, ?node_cond, ?node_comma,
      ?node_asg, ?node_asgop, ?node_pre, ?node_post, ?node_call, ?node_lf in *;
    cbn [modifies modifiesL modifiess] in *; rewrite ?orb_false_iff in *;
    repeat match goal with H : _ /\ _ |- _ => destruct H end;
    unfold Wr in *; cbn [sets fetchNode unNode opNode condNode commaNode asgNode asgOpNode incNode] in *;
    rewrite ?cov_set, ?cov_union; auto.
  - rewrite H, H0; auto.
  - rewrite H, H0; auto.
  - rewrite H, H0; auto.
  - rewrite H, H0, H1; auto.
  - rewrite H, H0; auto.
  - destruct (H H1) as [-> ->]; rewrite H0; auto.
  - destruct (H H1) as [-> ->]; rewrite H0; auto.
  - destruct (H H0) as [-> ->]; auto.
  - destruct (H H0) as [-> ->]; auto.
  - apply not_true; intros X; apply cov_in in X; destruct X as (s & Hs & Cs).
    unfold Order_model.callNode in Hs; cbn [sets] in Hs.
    assert (forall s, In s (fold_left union (map sets (map argNode (nodesA args))) []) -> covers s (OElem b k) = false) as F.
    { intros t Ht; apply in_unions in Ht; destruct Ht as [[] | (u & Hu & Ht)].
      apply in_map_iff in Hu; destruct Hu as (m & <- & Hm); apply in_map_iff in Hm; destruct Hm as (q & <- & Hq).
      apply not_true; intros Y; specialize (H H1 q Hq).
      assert (cov (sets q) (OElem b k) = true) as Z by (apply cov_in; exists t; auto); congruence. }
    unfold call_modifies, mods_list in H0; destruct (mods (decl f)) as [ms|].
    + apply in_union in Hs; destruct Hs as [Hs | Hs]; [rewrite (F _ Hs) in Cs; discriminate |].
      apply in_flat_map in Hs; destruct Hs as (m & Hi & Hm).
      assert (forall g : modi -> bool, existsb g ms = false -> g m = false) as G
        by (intros g Hg; apply not_true; intros Y; rewrite (proj2 (existsb_exists g ms)) in Hg; [discriminate | eauto]).
      specialize (G _ H0).
      destruct m as [x | a | n]; cbn [fixMod] in Hm.
      * destruct Hm as [<- | []]; discriminate Cs.
      * destruct Hm as [<- | []]; cbn in Cs; congruence.
      * rewrite nth_error_map in Hm; destruct (nth_error (nodesA args) n) as [q|] eqn:Q; [| destruct Hm].
        destruct (nth_nodes_in _ _ _ Q) as (e & -> & An); rewrite An in G.
        cbn [option_map argNode ref] in Hm; destruct (ref (nodeE e)) as [r|] eqn:Er; [| destruct Hm].
        destruct Hm as [<- | []]; destruct r as [| a | | | |]; try discriminate Cs.
        cbn in Cs; apply Nat.eqb_eq in Cs; subst a.
        apply (proj1 ref_denotes) in Er.
        rewrite (proj2 (existsb_exists _ _)) in G; [discriminate | exists b; split; [exact Er | apply Nat.eqb_refl]].
    + apply in_insert in Hs; destruct Hs as [Hs | ->]; [rewrite (F _ Hs) in Cs; discriminate | discriminate].
  - split; [auto |]; cbn [covr covers fetchNode ref]; destruct (val (nodeE i)); rewrite H0; reflexivity.
  - destruct H0.
  - rewrite nodes_cons in *; destruct H2 as [<- | H2]; [apply H; auto | apply (H0 H3 n); auto].
Qed.

(** *** No clashes *)
Lemma meets_false : forall l m, (forall o, In o l -> In o m -> False) -> meets l m = false.
Proof.
  intros l m H; apply not_true; intros E; apply existsb_exists in E; destruct E as (o & Ho & E).
  apply existsb_exists in E; destruct E as (p & Hp & E).
  assert (o = p) as ->; [| eauto].
  destruct o, p; cbn in E; try discriminate; rewrite ?andb_true_iff, ?Nat.eqb_eq, ?Z.eqb_eq in E; intuition congruence.
Qed.
Definition within (a : acc) (R W : obj -> bool) : Prop :=
  (forall o, In o (rd a) -> R o = true) /\ (forall o, In o (wr a) -> W o = true) /\ incl (pend a) (wr a).
Lemma unseq_clash : forall a b Ra Wa Rb Wb, within a Ra Wa -> within b Rb Wb ->
  clash a = false -> clash b = false ->
  (forall o, Wa o = true -> Rb o = false /\ Wb o = false) -> (forall o, Wb o = true -> Ra o = false) ->
  clash (unseq a b) = false.
Proof.
  intros a b Ra Wa Rb Wb (A1 & A2 & _) (B1 & B2 & _) Ca Cb H1 H2; unfold unseq; cbn [clash]; rewrite Ca, Cb; cbn [orb].
  rewrite !meets_false; [reflexivity | |].
  - intros o Hw Hr; specialize (H2 o (B2 o Hw)); rewrite (A1 o Hr) in H2; discriminate.
  - intros o Hw Hr; destruct (H1 o (A2 o Hw)) as [E F]; apply in_app_iff in Hr; destruct Hr as [Hr | Hr].
    + rewrite (B1 o Hr) in E; discriminate.
    + rewrite (B2 o Hr) in F; discriminate.
Qed.
Lemma unseq_within : forall a b Ra Wa Rb Wb R W, within a Ra Wa -> within b Rb Wb ->
  (forall o, Ra o || Rb o = true -> R o = true) -> (forall o, Wa o || Wb o = true -> W o = true) -> within (unseq a b) R W.
Proof.
  intros a b Ra Wa Rb Wb R W (A1 & A2 & A3) (B1 & B2 & B3) HR HW; unfold unseq, within; cbn [rd wr pend].
  split; [| split].
  - intros o Ho; apply HR; apply in_app_iff in Ho; apply orb_true_iff; destruct Ho; auto.
  - intros o Ho; apply HW; apply in_app_iff in Ho; apply orb_true_iff; destruct Ho; auto.
  - intros o Ho; apply in_app_iff in Ho; apply in_app_iff; destruct Ho; auto.
Qed.
Lemma seqpt_within : forall a b Ra Wa Rb Wb R W, within a Ra Wa -> within b Rb Wb ->
  (forall o, Ra o || Rb o = true -> R o = true) -> (forall o, Wa o || Wb o = true -> W o = true) -> within (seqpt a b) R W.
Proof.
  intros a b Ra Wa Rb Wb R W (A1 & A2 & A3) (B1 & B2 & B3) HR HW; unfold seqpt, within; cbn [rd wr pend].
  split; [| split].
  - intros o Ho; apply HR; apply in_app_iff in Ho; apply orb_true_iff; destruct Ho; auto.
  - intros o Ho; apply HW; apply in_app_iff in Ho; apply orb_true_iff; destruct Ho; auto.
  - intros o Ho; apply in_app_iff; auto.
Qed.
Lemma reads_clash : forall o a R W, within a R W -> W o = false -> clash a = false -> clash (reads o a) = false.
Proof.
  intros o a R W (A1 & A2 & A3) H C; unfold reads; cbn [clash]; rewrite C, meets_false; [reflexivity |].
  intros p [<- | []] Hp; rewrite (A2 _ (A3 _ Hp)) in H; discriminate.
Qed.
Lemma reads_within : forall o a R W R' W', within a R W -> R' o = true ->
  (forall p, R p = true -> R' p = true) -> (forall p, W p = true -> W' p = true) -> within (reads o a) R' W'.
Proof.
  intros o a R W R' W' (A1 & A2 & A3) H HR HW; unfold within, reads; cbn [rd wr pend].
  split; [intros p [<- | Hp]; auto | split; auto].
Qed.
Lemma writes_clash : forall o a, clash a = false -> ~ In o (pend a) -> clash (writes o a) = false.
Proof.
  intros o a C H; unfold writes; cbn [clash]; rewrite C, meets_false; [reflexivity |].
  intros p [<- | []] Hp; contradiction.
Qed.
Lemma writes_within : forall o a R W R' W', within a R W -> W' o = true ->
  (forall p, R p = true -> R' p = true) -> (forall p, W p = true -> W' p = true) -> within (writes o a) R' W'.
Proof.
  intros o a R W R' W' (A1 & A2 & A3) H HR HW; unfold within, writes; cbn [rd wr pend].
  split; [auto | split; [intros p [<- | Hp]; auto |]].
  intros p [<- | Hp]; [left; reflexivity | right; auto].
Qed.
Lemma none_within : forall R W, within none R W.
Proof. intros R W; split; [intros o [] | split; [intros o [] | intros o []]]. Qed.
Lemma within_weaken : forall a R W R' W', within a R W ->
  (forall p, R p = true -> R' p = true) -> (forall p, W p = true -> W' p = true) -> within a R' W'.
Proof. intros a R W R' W' (A1 & A2 & A3) HR HW; split; [auto | split; auto]. Qed.
Lemma careful_asg : forall l e, careful decl (Asg l e) = carefulL decl l && careful decl e && negb (derefsL decl l).
Proof. reflexivity. Qed.
Lemma careful_asgop : forall o l e, careful decl (AsgOp o l e) = carefulL decl l && careful decl e && negb (derefsL decl l) && negb (is_call e).
Proof. reflexivity. Qed.
Lemma careful_lf : forall b i, carefulL decl (LF b i) = careful decl i && negb (modifies decl b i) && simple_value i.
Proof. reflexivity. Qed.
Local Notation run := (run glob_var glob_arr decl).
Local Notation runL := (runL glob_var glob_arr decl).
Local Notation runs := (runs glob_var glob_arr decl).

Lemma orb_l : forall a b : bool, a = true -> a || b = true.
Proof. intros [] []; auto. Qed.
Lemma orb_r : forall a b : bool, b = true -> a || b = true.
Proof. intros [] []; auto. Qed.

(** The element found with a subscript is covered, and not modified by the subscript. *)
Lemma subscript : forall b i k a, modifies decl b i = false -> simple_value i = true -> run i k a ->
  covr (Some (SElem b (val (nodeE i)))) (OElem b k) = true /\ Wr (nodeE i) (OElem b k) = false.
Proof.
  intros b i k a M S R; split; [| apply (proj1 (not_modified b k)); exact M].
  cbn [covr covers]; destruct (val (nodeE i)) as [z|] eqn:V; rewrite Nat.eqb_refl; [| reflexivity].
  rewrite (known_value i z S V k a R), Z.eqb_refl; reflexivity.
Qed.

(** Operands of which the check says nothing. *)
Lemma operands : forall n1 n2, checkDefined n1 n2 = [] ->
  set_ok n1 -> (forall s, In s (sets n1) -> is_ptr s = false) -> basic (ref n2) ->
  (forall o, Wr n1 o = true -> Rd n2 o = false /\ Wr n2 o = false)
  /\ (forall o, Wr n2 o = true -> cov (uses n1) o = false)
  /\ (isCall n2 = false -> forall o, Wr n2 o = true -> Rd n1 o = false).
Proof.
  intros n1 n2 H S P B; apply defined_silent in H; destruct H as [A C].
  split; [| split].
  - intros o W; destruct (aux_silent n1 n2 o A) as (_ & A2 & A3); destruct (A2 W) as [E F].
    unfold Rd; rewrite E, (A3 W S P B); auto.
  - intros o W; destruct (aux_silent n1 n2 o A) as (A1 & _); apply not_true; intros X; rewrite (A1 X) in W; discriminate.
  - intros N o W; destruct (aux_silent n1 n2 o A) as (A1 & _); unfold Rd; apply not_true; intros X; apply orb_true_iff in X.
    destruct X as [X | X]; [rewrite (A1 X) in W | rewrite (C N o X) in W]; discriminate.
Qed.

Definition Rds (ns : list node) (o : obj) : bool := existsb (fun n => cov (uses n) o) ns.
Definition Wrs (ns : list node) (o : obj) : bool := existsb (fun n => Wr n o) ns.

Lemma no_clash :
  (forall e, careful decl e = true -> msgE e = [] -> forall v a, run e v a ->
     clash a = false /\ within a (Rd (nodeE e)) (Wr (nodeE e)) /\ (is_call e = true -> pend a = []))
  /\ (forall l, carefulL decl l = true -> msgL l = [] -> forall o a, runL l o a ->
     clash a = false /\ within a (cov (uses (nodeL l))) (Wr (nodeL l)) /\ covr (ref (nodeL l)) o = true /\ Wr (nodeL l) o = false)
  /\ (forall es, carefuls decl es = true -> msgA es = [] -> pairwise (map argNode (nodesA es)) -> forall a, runs es a ->
     clash a = false /\ within a (Rds (map argNode (nodesA es))) (Wrs (map argNode (nodesA es)))).
Proof.
  assert (forall e1 e2 n v1 v2 a1 a2, n = opNode (nodeE e1) (nodeE e2) v1 -> v1 = v2 ->
    within a1 (Rd (nodeE e1)) (Wr (nodeE e1)) -> within a2 (Rd (nodeE e2)) (Wr (nodeE e2)) ->
    within (unseq a1 a2) (Rd n) (Wr n) /\ within (seqpt a1 a2) (Rd n) (Wr n) /\ within a1 (Rd n) (Wr n)) as OP.
  { intros e1 e2 n v1 v2 a1 a2 -> _ W1 W2.
    assert (forall o, Rd (nodeE e1) o || Rd (nodeE e2) o = true -> Rd (opNode (nodeE e1) (nodeE e2) v1) o = true) as HR.
    { intros o; unfold Rd, opNode; cbn [uses ref covr]; rewrite !cov_use, cov_union, cov_use, orb_false_r; intros H.
      rewrite !orb_true_iff in *; tauto. }
    assert (forall o, Wr (nodeE e1) o || Wr (nodeE e2) o = true -> Wr (opNode (nodeE e1) (nodeE e2) v1) o = true) as HW
      by (intros o; unfold Wr, opNode; cbn [sets]; rewrite cov_union; auto).
    split; [eapply unseq_within; eauto | split; [eapply seqpt_within; eauto |]].
    eapply within_weaken; [exact W1 | |]; intros o H; [apply HR | apply HW]; rewrite H; reflexivity. }
  apply expr_lval_exprs_ind.
  - intros z _ _ v a [_ ->]; split; [reflexivity | split; [apply none_within | discriminate]].
  - intros x _ _ v a ->; split; [reflexivity | split; [| discriminate]].
    eapply reads_within; [apply (none_within (fun _ => false) (fun _ => false)) | cbn; apply Nat.eqb_refl | discriminate | discriminate].
  - intros b _ _ v a ->; split; [reflexivity | split; [apply none_within | discriminate]].
  - (* Fetch *)
    intros b i IH C M v a (k & c & R & ->); cbn [careful] in C; rewrite !andb_true_iff, negb_true_iff in C; destruct C as [[C N] S].
    rewrite msg_fetch in M; destruct (IH C M k c R) as (Cl & Wi & _).
    destruct (subscript b i k c N S R) as [Cv Nw].
    rewrite node_fetch; split; [eapply reads_clash; eauto | split; [| discriminate]].
    eapply reads_within; [exact Wi | | |].
    + unfold Rd; apply orb_r; exact Cv.
    + intros o H; unfold Rd in *; cbn [fetchNode uses]; rewrite cov_insert, cov_use, H; reflexivity.
    + intros o H; exact H.
  - (* Paren *)
    intros e IH C M v a R; cbn [careful] in C; rewrite msg_paren in M; destruct (IH C M v a R) as (Cl & Wi & _).
    rewrite node_paren; split; [exact Cl | split; [exact Wi | discriminate]].
  - (* Un *)
    intros o e IH C M v a (w & R & _); cbn [careful] in C; rewrite msg_un in M; destruct (IH C M w a R) as (Cl & Wi & _).
    rewrite node_un; split; [exact Cl | split; [| discriminate]].
    eapply within_weaken; [exact Wi | | intros p H; exact H].
    intros p H; unfold Rd, unNode in *; cbn [uses ref covr]; rewrite cov_use, orb_false_r; exact H.
  - (* Bin *)
    intros o e1 IH1 e2 IH2 C M v a (v1 & v2 & a1 & a2 & R1 & R2 & _ & ->).
    cbn [careful] in C; rewrite !andb_true_iff, !negb_true_iff in C; destruct C as [[[C1 C2] Nc] Nd].
    rewrite msg_bin in M; apply app_eq_nil in M; destruct M as [M1 M]; apply app_eq_nil in M; destruct M as [M2 M].
    destruct (IH1 C1 M1 _ _ R1) as (Cl1 & W1 & _); destruct (IH2 C2 M2 _ _ R2) as (Cl2 & W2 & _).
    destruct (operands _ _ M (proj2 (proj1 shapes e1)) (proj1 no_ptr e1 Nd) (proj1 (proj1 shapes e2))) as (D1 & _ & D2).
    split; [| split; [| discriminate]].
    + eapply unseq_clash; eauto; apply D2; rewrite is_call_node; exact Nc.
    + destruct (OP e1 e2 _ _ _ a1 a2 (node_bin o e1 e2) eq_refl W1 W2) as (X & _ & _); exact X.
  - (* And *)
    intros e1 IH1 e2 IH2 C M v a (v1 & a1 & R1 & R2).
    cbn [careful] in C; rewrite !andb_true_iff in C; destruct C as [C1 C2].
    rewrite msg_and in M; apply app_eq_nil in M; destruct M as [M1 M2].
    destruct (IH1 C1 M1 _ _ R1) as (Cl1 & W1 & _); rewrite node_and.
    destruct R2 as [-> | (v2 & a2 & R2 & ->)].
    + split; [exact Cl1 | split; [| discriminate]].
      destruct (OP e1 e2 (opNode (nodeE e1) (nodeE e2) None) None None a1 none eq_refl eq_refl W1 (none_within _ _)) as (_ & _ & W).
      destruct W as (A1 & A2 & _); split; [exact A1 | split; [exact A2 | intros o []]].
    + destruct (IH2 C2 M2 _ _ R2) as (Cl2 & W2 & _).
      split; [unfold seqpt; cbn [clash]; rewrite Cl1, Cl2; reflexivity | split; [| discriminate]].
      destruct (OP e1 e2 _ None None a1 a2 eq_refl eq_refl W1 W2) as (_ & X & _); exact X.
  - (* Or *)
    intros e1 IH1 e2 IH2 C M v a (v1 & a1 & R1 & R2).
    cbn [careful] in C; rewrite !andb_true_iff in C; destruct C as [C1 C2].
    rewrite msg_or in M; apply app_eq_nil in M; destruct M as [M1 M2].
    destruct (IH1 C1 M1 _ _ R1) as (Cl1 & W1 & _); rewrite node_or.
    destruct R2 as [-> | (v2 & a2 & R2 & ->)].
    + split; [exact Cl1 | split; [| discriminate]].
      destruct (OP e1 e2 (opNode (nodeE e1) (nodeE e2) None) None None a1 none eq_refl eq_refl W1 (none_within _ _)) as (_ & _ & W).
      destruct W as (A1 & A2 & _); split; [exact A1 | split; [exact A2 | intros o []]].
    + destruct (IH2 C2 M2 _ _ R2) as (Cl2 & W2 & _).
      split; [unfold seqpt; cbn [clash]; rewrite Cl1, Cl2; reflexivity | split; [| discriminate]].
      destruct (OP e1 e2 _ None None a1 a2 eq_refl eq_refl W1 W2) as (_ & X & _); exact X.
  - (* Cond *)
    intros p IHp t IHt f IHf C M v a (w & c & b & R & Rb & ->).
    cbn [careful] in C; rewrite !andb_true_iff in C; destruct C as [[[[Cp Ct] Cf] _] _].
    rewrite msg_cond in M; apply app_eq_nil in M; destruct M as [Mp M]; apply app_eq_nil in M; destruct M as [Mt Mf].
    destruct (IHp Cp Mp _ _ R) as (Cl1 & W1 & _); rewrite node_cond.
    destruct Rb as [Rb | Rb]; [destruct (IHt Ct Mt _ _ Rb) as (Cl2 & W2 & _) | destruct (IHf Cf Mf _ _ Rb) as (Cl2 & W2 & _)].
    + split; [unfold seqpt; cbn [clash]; rewrite Cl1, Cl2; reflexivity | split; [| discriminate]].
      eapply seqpt_within; eauto; intros o; unfold Rd, Wr, condNode; cbn [uses sets ref]; rewrite ?cov_union, ?cov_use, !orb_true_iff; tauto.
    + split; [unfold seqpt; cbn [clash]; rewrite Cl1, Cl2; reflexivity | split; [| discriminate]].
      eapply seqpt_within; eauto; intros o; unfold Rd, Wr, condNode; cbn [uses sets ref]; rewrite ?cov_union, ?cov_use, !orb_true_iff; tauto.
  - (* Comma *)
    intros e1 IH1 e2 IH2 C M v a (w & c & b & R & Rb & ->).
    cbn [careful] in C; rewrite !andb_true_iff in C; destruct C as [[C1 C2] _].
    rewrite msg_comma in M; apply app_eq_nil in M; destruct M as [M1 M2].
    destruct (IH1 C1 M1 _ _ R) as (Cl1 & W1 & _); destruct (IH2 C2 M2 _ _ Rb) as (Cl2 & W2 & _); rewrite node_comma.
    split; [unfold seqpt; cbn [clash]; rewrite Cl1, Cl2; reflexivity | split; [| discriminate]].
    eapply seqpt_within; eauto; intros o; unfold Rd, Wr, commaNode; cbn [uses sets ref]; rewrite ?cov_use, ?cov_union, ?cov_use, !orb_true_iff; tauto.
  - (* Asg *)
    intros l IHl e IHe C M v a (o & c & b & Rl & Re & ->).
    rewrite careful_asg, !andb_true_iff, negb_true_iff in C; destruct C as [[Cl Ce] Nd].
    rewrite msg_asg in M; apply app_eq_nil in M; destruct M as [Ml M]; apply app_eq_nil in M; destruct M as [Me M].
    destruct (IHl Cl Ml _ _ Rl) as (Kl & Wl & Tl & Nl); destruct (IHe Ce Me _ _ Re) as (Ke & We & Pe).
    destruct (operands _ _ M (proj2 (proj1 (proj2 shapes) l)) (proj1 (proj2 no_ptr) l Nd) (proj1 (proj1 shapes e))) as (D1 & D2 & D3).
    rewrite node_asg; split; [| split; [| discriminate]].
    + apply writes_clash; [eapply unseq_clash; eauto |].
      unfold unseq; cbn [pend]; rewrite in_app_iff; intros [H | H].
      * destruct Wl as (_ & W & P); rewrite (W _ (P _ H)) in Nl; discriminate.
      * destruct (is_call e) eqn:Q; [rewrite (Pe eq_refl) in H; destruct H |].
        rewrite is_call_node in D3; destruct We as (_ & W & P); specialize (D3 Q o (W _ (P _ H))).
        unfold Rd in D3; rewrite Tl, orb_true_r in D3; discriminate.
    + eapply writes_within; [eapply unseq_within with (R := fun o => cov (uses (nodeL l)) o || Rd (nodeE e) o) (W := fun o => Wr (nodeL l) o || Wr (nodeE e) o); eauto | | |].
      * unfold Wr, asgNode; cbn [sets]; rewrite cov_set, Tl, orb_true_r; reflexivity.
      * intros p; unfold Rd, asgNode; cbn [uses ref]; rewrite cov_use, cov_union, !orb_true_iff; tauto.
      * intros p; unfold Wr, asgNode; cbn [sets]; rewrite cov_set, cov_union, !orb_true_iff; tauto.
  - (* AsgOp *)
    intros op l IHl e IHe C M v a (o & c & w & b & Rl & Re & ->).
    rewrite careful_asgop, !andb_true_iff, !negb_true_iff in C; destruct C as [[[Cl Ce] Nd] Nc].
    rewrite msg_asgop in M; apply app_eq_nil in M; destruct M as [Ml M]; apply app_eq_nil in M; destruct M as [Me M].
    destruct (IHl Cl Ml _ _ Rl) as (Kl & Wl & Tl & Nl); destruct (IHe Ce Me _ _ Re) as (Ke & We & Pe).
    destruct (operands _ _ M (proj2 (proj1 (proj2 shapes) l)) (proj1 (proj2 no_ptr) l Nd) (proj1 (proj1 shapes e))) as (D1 & D2 & D3).
    rewrite is_call_node in D3; specialize (D3 Nc).
    assert (within (reads o c) (Rd (nodeL l)) (Wr (nodeL l))) as Wl'
      by (eapply reads_within; [exact Wl | unfold Rd; rewrite Tl, orb_true_r; reflexivity | intros p H; unfold Rd; rewrite H; reflexivity | auto]).
    rewrite node_asgop; split; [| split; [| discriminate]].
    + apply writes_clash.
      * apply unseq_clash with (Ra := Rd (nodeL l)) (Wa := Wr (nodeL l)) (Rb := Rd (nodeE e)) (Wb := Wr (nodeE e)); auto.
        eapply reads_clash; eauto.
      * unfold unseq, reads; cbn [pend]; rewrite in_app_iff; intros [H | H].
        -- destruct Wl as (_ & W & P); rewrite (W _ (P _ H)) in Nl; discriminate.
        -- destruct We as (_ & W & P); specialize (D3 o (W _ (P _ H))).
           unfold Rd in D3; rewrite Tl, orb_true_r in D3; discriminate.
    + eapply writes_within; [eapply unseq_within with (R := fun o => Rd (nodeL l) o || Rd (nodeE e) o) (W := fun o => Wr (nodeL l) o || Wr (nodeE e) o); eauto | | |].
      * unfold Wr, asgOpNode; cbn [sets]; rewrite cov_set, Tl, orb_true_r; reflexivity.
      * intros p; unfold Rd, asgOpNode, opNode; cbn [uses ref]; repeat rewrite ?cov_use, ?cov_union; rewrite !orb_true_iff; tauto.
      * intros p; unfold Wr, asgOpNode, opNode; cbn [sets]; rewrite cov_set, !cov_union, !orb_true_iff; tauto.
  - (* Pre *)
    intros l IHl C M v a (o & c & Rl & ->).
    rewrite msg_pre in M; destruct (IHl C M _ _ Rl) as (Kl & Wl & Tl & Nl); rewrite node_pre.
    split; [| split; [| discriminate]].
    + apply writes_clash; [eapply reads_clash; eauto |]; cbn [reads pend]; intros H.
      destruct Wl as (_ & W & P); rewrite (W _ (P _ H)) in Nl; discriminate.
    + eapply writes_within; [eapply reads_within with (R' := fun p => cov (uses (nodeL l)) p || covr (ref (nodeL l)) p) (W' := Wr (nodeL l)); [exact Wl | rewrite Tl, orb_true_r; reflexivity | intros p H; rewrite H; reflexivity | auto] | | |].
      * unfold Wr, incNode; cbn [sets]; rewrite cov_set, Tl, orb_true_r; reflexivity.
      * intros p; unfold Rd, incNode; cbn [uses ref]; rewrite cov_use, !orb_true_iff; tauto.
      * intros p; unfold Wr, incNode; cbn [sets]; rewrite cov_set, !orb_true_iff; tauto.
  - (* Post *)
    intros l IHl C M v a (o & c & Rl & ->).
    rewrite msg_post in M; destruct (IHl C M _ _ Rl) as (Kl & Wl & Tl & Nl); rewrite node_post.
    split; [| split; [| discriminate]].
    + apply writes_clash; [eapply reads_clash; eauto |]; cbn [reads pend]; intros H.
      destruct Wl as (_ & W & P); rewrite (W _ (P _ H)) in Nl; discriminate.
    + eapply writes_within; [eapply reads_within with (R' := fun p => cov (uses (nodeL l)) p || covr (ref (nodeL l)) p) (W' := Wr (nodeL l)); [exact Wl | rewrite Tl, orb_true_r; reflexivity | intros p H; rewrite H; reflexivity | auto] | | |].
      * unfold Wr, incNode; cbn [sets]; rewrite cov_set, Tl, orb_true_r; reflexivity.
      * intros p; unfold Rd, incNode; cbn [uses ref]; rewrite cov_use, !orb_true_iff; tauto.
      * intros p; unfold Wr, incNode; cbn [sets]; rewrite cov_set, !orb_true_iff; tauto.
  - (* Call *)
    intros f args IH C M v a (c & rs & ws & R & Hr & Hw & ->).
    destruct (careful_call f args C) as (Ca & Cm & _).
    rewrite msg_call in M; apply app_eq_nil in M; destruct M as [Ma Ms].
    destruct (IH Ca Ma (seq_silent _ Ms) c R) as (Cl & W1 & W2 & W3).
    split; [exact Cl | split; [| reflexivity]].
    split; [| split; [| intros o []]]; cbn [rd wr]; intros o Ho; apply in_app_iff in Ho; destruct Ho as [Ho | Ho].
    + specialize (W1 o Ho); unfold Rds in W1; apply existsb_exists in W1; destruct W1 as (n & Hn & U).
      rewrite node_call; unfold Rd; apply orb_l; eapply call_rd_args; eauto.
    + apply call_reads; auto.
    + specialize (W2 o Ho); unfold Wrs in W2; apply existsb_exists in W2; destruct W2 as (n & Hn & U).
      rewrite node_call; eapply call_wr_args; eauto.
    + apply call_writes; auto.
  - intros x _ _ o a [-> ->]; split; [reflexivity | split; [apply none_within | split; [cbn; apply Nat.eqb_refl | reflexivity]]].
  - (* LF *)
    intros b i IH C M o a (k & R & ->); rewrite careful_lf, !andb_true_iff, negb_true_iff in C; destruct C as [[C N] S].
    rewrite msg_lf in M; destruct (IH C M k a R) as (Cl & Wi & _).
    destruct (subscript b i k a N S R) as [Cv Nw].
    rewrite node_lf; split; [exact Cl | split; [| split; [exact Cv | exact Nw]]].
    eapply within_weaken; [exact Wi | | auto].
    intros p H; unfold Rd in *; cbn [fetchNode uses]; rewrite cov_insert, cov_use, H; reflexivity.
  - intros _ _ _ a ->; split; [reflexivity | apply none_within].
  - (* ECons *)
    intros e IHe r IHr C M P a (v & c & d & Re & Rr & ->).
    change (careful decl e && carefuls decl r = true) in C; apply andb_true_iff in C; destruct C as [Ce Cr].
    rewrite msgs_cons in M; apply app_eq_nil in M; destruct M as [Me Mr].
    rewrite nodes_cons in P; rewrite nodes_cons; cbn [map pairwise] in *; destruct P as [P1 P2].
    destruct (IHe Ce Me _ _ Re) as (K1 & W1 & _); destruct (IHr Cr Mr P2 _ Rr) as (K2 & W2).
    assert (forall o, Rd (nodeE e) o = cov (uses (argNode (nodeE e))) o) as RE
      by (intros o; unfold Rd, argNode; cbn [uses]; rewrite cov_use; reflexivity).
    split.
    + eapply unseq_clash; eauto.
      * intros o W; split; apply not_true; intros X; apply existsb_exists in X; destruct X as (n & Hn & X);
          destruct (P1 n Hn) as [P3 _]; destruct (P3 o W) as [A B]; congruence.
      * intros o W; apply existsb_exists in W; destruct W as (n & Hn & W); destruct (P1 n Hn) as [_ P3].
        destruct (P3 o W) as [A _]; rewrite RE; exact A.
    + eapply unseq_within; eauto.
      intros o; cbn [Rds existsb]; rewrite RE; auto.
Qed.
End Facts.
