(** More proofs about the comparison of types: it does not depend on hidden representations, and it
    comes to an end. *)
From Coq Require Import ZArith List Bool Arith Lia.
From Verif Require Import Prim_model Match_model Match_spec Match_proofs.
Import ListNotations.

(** * Hidden representations *)

Lemma obind_ext {X Y} (o o' : option X) (k k' : X -> option Y) :
  o = o' -> (forall x, k x = k' x) -> obind o k = obind o' k'.
Proof. intros -> K. destruct o'; cbn; auto. Qed.
Lemma oor_ext a a' b b' : a = a' -> b = b' -> oor a b = oor a' b'.
Proof. now intros -> ->. Qed.
Lemma oand_ext a a' b b' : a = a' -> b = b' -> oand a b = oand a' b'.
Proof. now intros -> ->. Qed.
Lemma all2_ext {X} (g g' : X -> X -> option bool) : (forall x y, g x y = g' x y) ->
  forall l1 l2, all2 g l1 l2 = all2 g' l1 l2.
Proof.
  intros G l1. induction l1 as [|x l1 IH]; intros [|y l2]; cbn [all2]; try reflexivity.
  apply oand_ext; auto.
Qed.

Section Hidden.
Variable E E' : nat -> entry.
Variable access isbool : nat -> bool.
Variable boolaccess : bool.
Variable bool_at : nat -> bool.
Variable same : ty -> ty -> bool.
Variable fl : mflags.
Hypothesis DH : differ_in_hidden access E E'.
Hypothesis FD : forwarddecl fl = false.

Lemma real_id_hidden f : forall i, real_id E access isbool f i = real_id E' access isbool f i.
Proof.
  induction f as [|f IH]; intros i; cbn [real_id]; [reflexivity|].
  destruct (DH i) as [Q|(A & num & r & r' & Q1 & Q2)].
  - rewrite Q. destruct (E' i) as [num rep|t|t|]; try reflexivity.
    + destruct (isbool i); [reflexivity|]. destruct (access i); [|reflexivity].
      destruct (manifest_bool isbool rep); [reflexivity|]. destruct (ua rep); [|reflexivity].
      destruct (Nat.eqb n i); [reflexivity|apply IH].
    + destruct (manifest_bool isbool t); [reflexivity|]. destruct (ua t); [|reflexivity].
      destruct (Nat.eqb n i); [reflexivity|apply IH].
  - rewrite Q1, Q2, A. reflexivity.
Qed.
Lemma base_real_hidden f t : base_real E access isbool f t = base_real E' access isbool f t.
Proof. unfold base_real. destruct (ua t); [|reflexivity]. destruct (isbool n); [reflexivity|apply real_id_hidden]. Qed.
Lemma type_real_hidden f t :
  type_real E access isbool boolaccess f t = type_real E' access isbool boolaccess f t.
Proof.
  unfold type_real. apply obind_ext; [|reflexivity]. destruct (ua t); [apply real_id_hidden|reflexivity].
Qed.
Lemma abstract_hidden f t :
  isRealAbstract E access isbool boolaccess f t = isRealAbstract E' access isbool boolaccess f t.
Proof.
  induction t; cbn [isRealAbstract]; try (now rewrite type_real_hidden).
  rewrite type_real_hidden. apply oor_ext; [reflexivity|]. now apply oor_ext.
Qed.
Lemma pointer_hidden f t :
  isRealPointer E access isbool boolaccess f t = isRealPointer E' access isbool boolaccess f t.
Proof.
  induction t; cbn [isRealPointer]; try (now rewrite type_real_hidden). now apply oor_ext.
Qed.
Lemma function_real_hidden f t :
  isFunctionReal E access isbool boolaccess f t = isFunctionReal E' access isbool boolaccess f t.
Proof. unfold isFunctionReal. now rewrite type_real_hidden. Qed.
Lemma real_function_hidden f t :
  isRealFunction E access isbool boolaccess f t = isRealFunction E' access isbool boolaccess f t.
Proof.
  induction t; cbn [isRealFunction]; try (now rewrite function_real_hidden). now apply oor_ext.
Qed.

Section Step.
Variable rec rec' : bool -> bool -> ty -> ty -> option bool.
Variable al al' : ty -> ty -> option bool.
Variable f : nat.
Hypothesis REC : forall d p a b, rec d p a b = rec' d p a b.
Hypothesis AL : forall a b, al a b = al' a b.

Lemma typeMatch_hidden d p a b : typeMatch same rec d p a b = typeMatch same rec' d p a b.
Proof. unfold typeMatch. now rewrite REC. Qed.
Lemma params_hidden p q : matchParams same rec p q = matchParams same rec' p q.
Proof. destruct p, q; try reflexivity. cbn [matchParams]. apply all2_ext. intros. apply typeMatch_hidden. Qed.
Lemma fields_hidden p q : matchFields al p q = matchFields al' p q.
Proof.
  unfold matchFields. destruct p, q; try reflexivity. destruct (_ =? _); [|reflexivity].
  apply all2_ext. intros x y. destruct (_ =? _); auto.
Qed.
Lemma void_ptr_hidden a b :
  void_ptr E access isbool boolaccess fl f a b = void_ptr E' access isbool boolaccess fl f a b.
Proof. unfold void_ptr. now rewrite !abstract_hidden. Qed.
Lemma ptrs_hidden d a b : ptrs E access isbool boolaccess same fl rec f d a b
  = ptrs E' access isbool boolaccess same fl rec' f d a b.
Proof.
  unfold ptrs. destruct (_ || _).
  - apply obind_ext; [apply oor_ext; apply function_real_hidden|]. intros []; [reflexivity|apply void_ptr_hidden].
  - apply obind_ext; [apply pointer_hidden|]. intros p1.
    apply obind_ext; [apply pointer_hidden|]. intros p2.
    apply obind_ext; [destruct (Bool.eqb p1 p2); [reflexivity|apply oor_ext; apply real_function_hidden]|].
    intros []; [reflexivity|apply typeMatch_hidden].
Qed.
Lemma arrays_hidden d a b : arrays same rec d a b = arrays same rec' d a b.
Proof. unfold arrays. now rewrite typeMatch_hidden. Qed.
Lemma functions_hidden d r1 p1 r2 p2 : functions same rec d r1 p1 r2 p2 = functions same rec' d r1 p1 r2 p2.
Proof. unfold functions. apply oand_ext; [apply typeMatch_hidden|apply params_hidden]. Qed.
Lemma one_kind_hidden d p a b :
  one_kind E access isbool boolaccess same fl rec al f d p a b
  = one_kind E' access isbool boolaccess same fl rec' al' f d p a b.
Proof.
  destruct a, b; cbn [one_kind]; try reflexivity;
    rewrite ?ptrs_hidden, ?typeMatch_hidden, ?arrays_hidden, ?functions_hidden, ?fields_hidden; reflexivity.
Qed.
Lemma fixed_hidden d p v a b :
  fixed E access isbool boolaccess fl rec f d p v a b = fixed E' access isbool boolaccess fl rec' f d p v a b.
Proof. unfold fixed. now rewrite void_ptr_hidden, REC. Qed.
Lemma other_kinds_hidden d a b :
  other_kinds E access isbool boolaccess bool_at same fl rec f d a b
  = other_kinds E' access isbool boolaccess bool_at same fl rec' f d a b.
Proof.
  destruct a, b; cbn [other_kinds]; try reflexivity; rewrite ?FD; try reflexivity;
    rewrite ?ptrs_hidden, ?arrays_hidden; try reflexivity.
  - apply obind_ext; [apply function_real_hidden|]. intros []; [|reflexivity].
    apply obind_ext; [apply base_real_hidden|]. intros []; try reflexivity. apply functions_hidden.
  - apply obind_ext; [apply function_real_hidden|]. intros []; [|reflexivity].
    apply obind_ext; [apply base_real_hidden|]. intros []; try reflexivity. apply functions_hidden.
Qed.
Lemma kinds_hidden d p a b :
  kinds E access isbool boolaccess bool_at same fl rec al f d p a b
  = kinds E' access isbool boolaccess bool_at same fl rec' al' f d p a b.
Proof.
  unfold kinds. rewrite one_kind_hidden. destruct (one_kind _ _ _ _ _ _ _ _ _ _ _ _ _); [reflexivity|].
  rewrite other_kinds_hidden. destruct a; try reflexivity; destruct b; try reflexivity;
    rewrite ?fixed_hidden; reflexivity.
Qed.
Lemma gen_step_hidden d p a b :
  gen_step E access isbool boolaccess bool_at same fl rec al f d p a b
  = gen_step E' access isbool boolaccess bool_at same fl rec' al' f d p a b.
Proof.
  unfold gen_step. destruct (undef a || undef b); [reflexivity|].
  apply obind_ext; [apply base_real_hidden|]. intros c1.
  apply obind_ext; [apply base_real_hidden|]. intros c2.
  destruct (conj_parts c1) as [[x y]|]; [now rewrite !REC|].
  destruct (conj_parts c2) as [[x y]|]; [now rewrite !REC|]. apply kinds_hidden.
Qed.
Lemma almost_step_hidden a b : almost_step same rec al a b = almost_step same rec' al' a b.
Proof.
  unfold almost_step. destruct (same a b); [reflexivity|].
  destruct a, b; try reflexivity; rewrite ?AL, ?params_hidden; reflexivity.
Qed.
End Step.

Lemma gen_hidden f :
  (forall d p a b, gen E access isbool boolaccess bool_at same fl f d p a b
                   = gen E' access isbool boolaccess bool_at same fl f d p a b)
  /\ (forall a b, almost E access isbool boolaccess bool_at same fl f a b
                  = almost E' access isbool boolaccess bool_at same fl f a b).
Proof.
  induction f as [|f [IH1 IH2]]; cbn [gen almost]; [auto|]. split; intros.
  - now apply gen_step_hidden.
  - now apply almost_step_hidden.
Qed.
End Hidden.

(** * Termination *)

Definition ev {A} (g : nat -> option A) : Prop := exists n, forall f, n <= f -> g f <> None.
Definition evs {A} (g : nat -> option A) (v : A) : Prop := exists n, forall f, n <= f -> g f = Some v.

Lemma ev_const {A} (v : A) : ev (fun _ => Some v).
Proof. exists 0. discriminate. Qed.
Lemma ev_bind (g : nat -> option bool) {A} (k : nat -> bool -> option A) :
  ev g -> (forall v, ev (fun f => k f v)) -> ev (fun f => obind (g f) (k f)).
Proof.
  intros [n N] K. destruct (K true) as [n1 N1], (K false) as [n2 N2]. exists (n + n1 + n2). intros f L.
  specialize (N f ltac:(lia)). destruct (g f) as [[]|]; cbn; [apply N1; lia|apply N2; lia|congruence].
Qed.
Lemma ev_binds {A B} (g : nat -> option A) (v : A) (k : nat -> A -> option B) :
  evs g v -> ev (fun f => k f v) -> ev (fun f => obind (g f) (k f)).
Proof.
  intros [n N] [n1 N1]. exists (n + n1). intros f L. rewrite (N f ltac:(lia)). apply N1. lia.
Qed.
Lemma ev_or g h : ev g -> ev h -> ev (fun f => oor (g f) (h f)).
Proof. intros G H. unfold oor. apply ev_bind; [exact G|]. intros []; [apply ev_const|exact H]. Qed.
Lemma ev_and g h : ev g -> ev h -> ev (fun f => oand (g f) (h f)).
Proof. intros G H. unfold oand. apply ev_bind; [exact G|]. intros []; [exact H|apply ev_const]. Qed.
Lemma evs_ev {A} (g : nat -> option A) v : evs g v -> ev g.
Proof. intros [n N]. exists n. intros f L. rewrite (N f L). discriminate. Qed.

Fixpoint csize (x : cty) : nat :=
  match x with
  | CPtr x | CArr _ x => S (csize x)
  | CFun r ps =>
      S (csize r + match ps with
                   | Some ps => (fix all (ps : list cty) : nat :=
                                   match ps with [] => 0 | p :: ps => S (csize p) + all ps end) ps
                   | None => 0
                   end)
  | _ => 1
  end.
Definition csize_all : list cty -> nat :=
  fix all (ps : list cty) : nat := match ps with [] => 0 | p :: ps => S (csize p) + all ps end.
Lemma csize_fun r ps : csize (CFun r (Some ps)) = S (csize r + csize_all ps).
Proof. reflexivity. Qed.

Section Ends.
Variable E : nat -> entry.
Variable access isbool : nat -> bool.
Variable boolaccess : bool.
Variable bool_at : nat -> bool.
Variable same : ty -> ty -> bool.
Variable fl : mflags.
Local Notation denotes := (denotes E access isbool).
Local Notation hn := (hn E access isbool).
Local Notation gen := (gen E access isbool boolaccess bool_at same fl).

Lemma real_id_ends t x : denotes t x -> forall i, ua t = Some i ->
  exists r, evs (fun f => real_id E access isbool f i) r.
Proof.
  induction 1; intros k U; cbn [ua] in U; try discriminate.
  - assert (k = i) by congruence. subst k. destruct H1 as [Q|Q].
    + exists (TPrim p). exists 1. intros [|f] L; [lia|]. cbn [real_id]. now rewrite Q.
    + exists TBool. exists 1. intros [|f] L; [lia|]. cbn [real_id]. now rewrite Q, H0.
  - injection U as <-. eexists. exists 1. intros [|f] L; [lia|]. cbn [real_id]. rewrite H0. reflexivity.
  - injection U as <-. eexists. exists 1. intros [|f] L; [lia|]. cbn [real_id]. rewrite H0. reflexivity.
  - injection U as <-. destruct (manifest_bool isbool t) eqn:MB.
    { exists TBool. exists 1. intros [|f] L; [lia|]. cbn [real_id]. now rewrite H0, MB. }
    destruct (ua t) as [j|] eqn:UT.
    + destruct (IHdenotes j eq_refl) as [r [n N]]. destruct (Nat.eqb j i) eqn:J.
      * exists TUnknown. exists 1. intros [|f] L; [lia|]. cbn [real_id]. now rewrite H0, MB, UT, J.
      * exists r. exists (S n). intros [|f] L; [lia|]. cbn [real_id]. rewrite H0, MB, UT, J. apply N. lia.
    + exists t. exists 1. intros [|f] L; [lia|]. cbn [real_id]. now rewrite H0, MB, UT.
  - rewrite ua_self in U. injection U as <-. destruct (manifest_bool isbool rep) eqn:MB.
    { exists TBool. exists 1. intros [|f] L; [lia|]. cbn [real_id]. now rewrite H0, H, H1, MB. }
    destruct (ua rep) as [j|] eqn:UT.
    + destruct (IHdenotes j eq_refl) as [r [n N]]. destruct (Nat.eqb j i) eqn:J.
      * exists rep. exists 1. intros [|f] L; [lia|]. cbn [real_id]. now rewrite H0, H, H1, MB, UT, J.
      * exists r. exists (S n). intros [|f] L; [lia|]. cbn [real_id]. rewrite H0, H, H1, MB, UT, J. apply N. lia.
    + exists rep. exists 1. intros [|f] L; [lia|]. cbn [real_id]. now rewrite H0, H, H1, MB, UT.
  - rewrite ua_self in U. injection U as <-. eexists. exists 1. intros [|f] L; [lia|].
    cbn [real_id]. rewrite H0, H, H1. reflexivity.
Qed.

Lemma base_real_ends t x : denotes t x ->
  exists r, evs (fun f => base_real E access isbool f t) r /\ hn r x.
Proof.
  intros D. assert (exists r, evs (fun f => base_real E access isbool f t) r) as [r R].
  { unfold base_real. destruct (ua t) as [i|] eqn:U; [|exists t; now exists 0].
    destruct (isbool i); [exists TBool; now exists 0|]. now apply (real_id_ends t x). }
  exists r. split; [exact R|]. destruct R as [n N].
  exact (base_real_hn _ _ _ t x n r D (N n (le_n n))).
Qed.
Lemma type_real_ends t x : denotes t x ->
  exists r, evs (fun f => type_real E access isbool boolaccess f t) r.
Proof.
  intros D. unfold type_real. destruct (ua t) as [i|] eqn:U.
  - destruct (real_id_ends t x D i U) as [r [n N]]. eexists. exists n. intros f L. rewrite (N f L). reflexivity.
  - eexists. exists 0. intros. reflexivity.
Qed.

Lemma function_real_ends t x : denotes t x -> ev (fun f => isFunctionReal E access isbool boolaccess f t).
Proof.
  intros D. destruct (type_real_ends t x D) as [r R]. unfold isFunctionReal.
  exact (ev_binds _ _ _ R (ev_const _)).
Qed.
Lemma real_function_ends t x : denotes t x -> ev (fun f => isRealFunction E access isbool boolaccess f t).
Proof.
  intros D. pose proof (function_real_ends t x D) as [n N]. exists n. intros f L.
  pose proof (no_conj _ _ _ t x D) as C. specialize (N f L). destruct t; try contradiction; exact N.
Qed.
Lemma real_pointer_ends t x : denotes t x -> ev (fun f => isRealPointer E access isbool boolaccess f t).
Proof.
  intros D. destruct (type_real_ends t x D) as [r R].
  pose proof (ev_binds _ _ (fun _ r => Some (isPointer r)) R (ev_const _)) as [n N]. exists n. intros f L.
  pose proof (no_conj _ _ _ t x D) as C. specialize (N f L). destruct t; try contradiction; exact N.
Qed.
Lemma real_abstract_ends t x : denotes t x -> ev (fun f => isRealAbstract E access isbool boolaccess f t).
Proof.
  intros D. destruct (type_real_ends t x D) as [r R].
  pose proof (ev_or _ _ (ev_binds _ _ (fun _ r => Some (isAbstract r)) R (ev_const _)) (ev_const false)) as [n N].
  exists n. intros f L.
  pose proof (no_conj _ _ _ t x D) as C. specialize (N f L). destruct t; try contradiction; exact N.
Qed.

Definition ends (m : nat) : Prop := forall def deep t1 t2 x1 x2, denotes t1 x1 -> denotes t2 x2 ->
  csize x1 + csize x2 <= m -> ev (fun f => gen f def deep t1 t2).

Lemma match_ends m : ends m -> forall def deep t1 t2 x1 x2, denotes t1 x1 -> denotes t2 x2 ->
  csize x1 + csize x2 <= m -> ev (fun f => typeMatch same (gen f) def deep t1 t2).
Proof.
  intros IH def deep t1 t2 x1 x2 D1 D2 L.
  pose proof (IH def deep t1 t2 x1 x2 D1 D2 L) as [n N]. exists n. intros f Lf. specialize (N f Lf).
  unfold typeMatch. destruct (same t1 t2); destruct t1; try discriminate; destruct t2; try discriminate; exact N.
Qed.

Lemma void_ptr_ends t1 t2 x1 x2 : denotes t1 x1 -> denotes t2 x2 ->
  ev (fun f => void_ptr E access isbool boolaccess fl f t1 t2).
Proof.
  intros D1 D2. unfold void_ptr. destruct (abstvoidp fl); [apply ev_const|].
  apply ev_and; (apply ev_bind; [eapply real_abstract_ends; eassumption|intros; apply ev_const]).
Qed.

Lemma ptrs_ends m def b1 b2 y1 y2 : ends m -> denotes b1 y1 -> denotes b2 y2 -> csize y1 + csize y2 <= m ->
  ev (fun f => ptrs E access isbool boolaccess same fl (gen f) f def b1 b2).
Proof.
  intros IH D1 D2 L. unfold ptrs. destruct (_ || _).
  - apply ev_bind.
    + apply ev_or; eapply function_real_ends; eassumption.
    + intros []; [apply ev_const|eapply void_ptr_ends; eassumption].
  - apply ev_bind; [eapply real_pointer_ends; eassumption|]. intros p1.
    apply ev_bind; [eapply real_pointer_ends; eassumption|]. intros p2.
    apply ev_bind.
    + destruct (Bool.eqb p1 p2); [apply ev_const|]. apply ev_or; eapply real_function_ends; eassumption.
    + intros []; [apply ev_const|]. eapply match_ends; eassumption.
Qed.

Lemma params_ends m ps xs qs ys : ends m ->
  denote_all E access isbool ps xs -> denote_all E access isbool qs ys -> csize_all xs + csize_all ys <= m ->
  ev (fun f => all2 (typeMatch same (gen f) false false) ps qs).
Proof.
  intros IH D. revert qs ys. induction D as [|p x ps xs Dp Dps IHps]; intros qs ys Dq L;
    destruct Dq as [|q y qs ys Dq Dqs]; cbn [all2]; try apply ev_const.
  cbn [csize_all] in L. apply ev_and.
  - eapply (match_ends m IH); [exact Dp|exact Dq|lia].
  - eapply IHps; [exact Dqs|lia].
Qed.

Ltac no_self := try match goal with H : self ?n _ = _ |- _ => destruct n; discriminate H end.
Lemma functions_ends m def r1 p1 y1 r2 p2 y2 : ends m -> hn (TFcn r1 p1) y1 -> hn (TFcn r2 p2) y2 ->
  csize y1 + csize y2 <= S m ->
  ev (fun f => functions same (gen f) def r1 p1 r2 p2).
Proof.
  intros IH N1 N2 L. unfold functions. apply ev_and.
  - inversion N1; subst; no_self; inversion N2; subst; no_self; rewrite ?csize_fun in L; cbn [csize] in L;
      eapply (match_ends m IH); try eassumption; lia.
  - inversion N1; subst; no_self; inversion N2; subst; no_self; cbn [matchParams]; try apply ev_const.
    rewrite !csize_fun in L. eapply (params_ends m); try eassumption; lia.
Qed.

Lemma fixed_ends m def deep v b1 b2 y1 y2 : ends m -> denotes b1 y1 -> denotes b2 y2 ->
  csize y1 + csize y2 <= m ->
  ev (fun f => fixed E access isbool boolaccess fl (gen f) f def deep v b1 b2).
Proof.
  intros IH D1 D2 L. unfold fixed. destruct (isVoid v).
  - eapply void_ptr_ends; eassumption.
  - eapply IH; eassumption.
Qed.

Lemma array_ends m def deep b1 b2 y1 y2 : ends m -> denotes b1 y1 -> denotes b2 y2 ->
  csize y1 + csize y2 <= m ->
  ev (fun f => if isVoid b1 || isVoid b2 then Some true else typeMatch same (gen f) def deep b1 b2).
Proof.
  intros IH D1 D2 L. destruct (_ || _); [apply ev_const|]. eapply match_ends; eassumption.
Qed.

Lemma ptr_fun_ends m def b1 y1 r2 p2 y2 : ends m -> denotes b1 y1 -> hn (TFcn r2 p2) y2 ->
  csize y1 + csize y2 <= S m ->
  ev (fun f => obind (isFunctionReal E access isbool boolaccess f b1) (fun fcn =>
    if fcn then
      obind (base_real E access isbool f b1) (fun c1 =>
        match c1 with TFcn r1 p1 => functions same (gen f) def r1 p1 r2 p2 | _ => Some false end)
    else Some false)).
Proof.
  intros IH D N2 L. apply ev_bind; [eapply function_real_ends; eassumption|]. intros []; [|apply ev_const].
  destruct (base_real_ends b1 y1 D) as (c & C & N1). apply (ev_binds _ _ _ C).
  destruct c; try apply ev_const. eapply (functions_ends m); eassumption.
Qed.
Lemma fun_ptr_ends m def b2 y2 r1 p1 y1 : ends m -> denotes b2 y2 -> hn (TFcn r1 p1) y1 ->
  csize y1 + csize y2 <= S m ->
  ev (fun f => obind (isFunctionReal E access isbool boolaccess f b2) (fun fcn =>
    if fcn then
      obind (base_real E access isbool f b2) (fun c2 =>
        match c2 with TFcn r2 p2 => functions same (gen f) def r1 p1 r2 p2 | _ => Some false end)
    else Some false)).
Proof.
  intros IH D N2 L. apply ev_bind; [eapply function_real_ends; eassumption|]. intros []; [|apply ev_const].
  destruct (base_real_ends b2 y2 D) as (c & C & N1). apply (ev_binds _ _ _ C).
  destruct c; try apply ev_const. eapply (functions_ends m); eassumption.
Qed.

Ltac size := rewrite ?csize_fun; cbn [csize]; lia.
Lemma gen_ends m : ends m.
Proof.
  induction m as [|m IH]; intros def deep t1 t2 x1 x2 D1 D2 L.
  { destruct x1; cbn [csize] in L; lia. }
  destruct (base_real_ends t1 x1 D1) as (c1 & R1 & N1).
  destruct (base_real_ends t2 x2 D2) as (c2 & R2 & N2).
  assert (ev (fun f => kinds E access isbool boolaccess bool_at same fl (gen f)
    (almost E access isbool boolaccess bool_at same fl f) f def deep c1 c2)) as K.
  { clear R1 R2 D1 D2 t1 t2.
    destruct N1; destruct N2;
      repeat match goal with |- context [self ?k _] => is_var k; destruct k end;
      unfold kinds; cbn [one_kind other_kinds self]; try apply ev_const;
      rewrite ?csize_fun in L; cbn [csize] in L.
    - destruct (Bool.eqb u u0); apply ev_const.
    - eapply (ptrs_ends m); [exact IH|eassumption|eassumption|lia].
    - destruct def; [apply ev_const|]. eapply (ptrs_ends m); [exact IH|eassumption|eassumption|lia].
    - destruct def; [apply ev_const|]. eapply (fixed_ends m); [exact IH|eassumption|eassumption|lia].
    - eapply (ptr_fun_ends m); [exact IH|eassumption|apply hn_fcn; eassumption|size].
    - eapply (ptr_fun_ends m); [exact IH|eassumption|apply hn_fcn_params; eassumption|size].
    - destruct def; [apply ev_const|]. eapply (array_ends m); [exact IH|eassumption|eassumption|lia].
    - eapply (array_ends m); [exact IH|eassumption|eassumption|lia].
    - eapply (fixed_ends m); [exact IH|eassumption|eassumption|lia].
    - destruct def; [apply ev_const|]. eapply (fixed_ends m); [exact IH|eassumption|eassumption|lia].
    - eapply (fixed_ends m); [exact IH|eassumption|eassumption|lia].
    - eapply (array_ends m); [exact IH|eassumption|eassumption|lia].
    - eapply (fun_ptr_ends m); [exact IH|eassumption|apply hn_fcn; eassumption|size].
    - eapply (functions_ends m); [exact IH|apply hn_fcn; eassumption|apply hn_fcn; eassumption|size].
    - eapply (functions_ends m); [exact IH|apply hn_fcn; eassumption|apply hn_fcn_params; eassumption|size].
    - eapply (fun_ptr_ends m); [exact IH|eassumption|apply hn_fcn_params; eassumption|size].
    - eapply (functions_ends m); [exact IH|apply hn_fcn_params; eassumption|apply hn_fcn; eassumption|size].
    - eapply (functions_ends m); [exact IH|apply hn_fcn_params; eassumption|apply hn_fcn_params; eassumption|size]. }
  destruct K as [n K], R1 as [n1 R1], R2 as [n2 R2]. exists (S (n + n1 + n2)).
  intros [|f] Lf; [lia|]. cbn [Match_model.gen]. unfold gen_step.
  assert (undef t1 || undef t2 = false) as ->.
  { pose proof (no_conj _ _ _ _ _ D1). pose proof (no_conj _ _ _ _ _ D2).
    destruct t1; try contradiction; destruct t2; try contradiction; reflexivity. }
  rewrite (R1 f), (R2 f) by lia. cbn [obind].
  assert (forall c x, hn c x -> conj_parts c = None) as NC.
  { intros c x N. destruct N; try reflexivity. now destruct num. }
  rewrite (NC _ _ N1), (NC _ _ N2). apply K. lia.
Qed.
End Ends.

(** * ctype_match and ctype_matchDef *)

Section Top.
Variable E : nat -> entry.
Variable access isbool : nat -> bool.
Variable boolaccess : bool.
Variable bool_at : nat -> bool.
Variable same : ty -> ty -> bool.
Hypothesis same_eq : forall a b, same a b = true -> a = b.
Local Notation denotes := (denotes E access isbool).
Local Notation gen := (gen E access isbool boolaccess bool_at same).
Local Notation match_ := (match_ E access isbool boolaccess bool_at same).
Local Notation matchDef := (matchDef E access isbool boolaccess bool_at same).

Lemma match_cases fl f t1 t2 x1 x2 : denotes t1 x1 -> denotes t2 x2 -> x1 <> CDots -> x2 <> CDots ->
  match_ fl f t1 t2 = (if same t1 t2 then Some true else gen fl f false false t1 t2)
  /\ matchDef fl f t1 t2 = (if same t1 t2 then Some true else gen (without_relaxquals fl) f true false t1 t2).
Proof.
  intros D1 D2 N1 N2. unfold Match_model.match_, Match_model.matchDef.
  assert (t1 <> TElips) as O1. { intros ->. apply N1. now apply (den_dots_only _ _ _ _ _ D1). }
  assert (t2 <> TElips) as O2. { intros ->. apply N2. now apply (den_dots_only _ _ _ _ _ D2). }
  destruct t1; try (now destruct O1); destruct t2; try (now destruct O2); auto.
Qed.

Lemma match_equal fl f t1 t2 x b : denotes t1 x -> denotes t2 x -> x <> CDots ->
  match_ fl f t1 t2 = Some b \/ matchDef fl f t1 t2 = Some b -> b = true.
Proof.
  intros D1 D2 N H. destruct (match_cases fl f t1 t2 x x D1 D2 N N) as [Q1 Q2]. rewrite Q1, Q2 in H.
  destruct (same t1 t2); [destruct H; congruence|].
  destruct H as [H|H].
  - exact (gen_equal E access isbool boolaccess bool_at same fl f _ _ t1 t2 x b D1 D2 N H).
  - exact (gen_equal E access isbool boolaccess bool_at same _ f _ _ t1 t2 x b D1 D2 N H).
Qed.

Lemma passes_refl w x : (forall p, w p p = true) -> passes w x x = true.
Proof.
  intros W. unfold passes. destruct (decay x) as [p| | | | | |a| | |] eqn:D;
    try (apply W); try (apply compatible_refl).
  destruct a; try reflexivity; apply (compatible_refl (CPtr _)).
Qed.

Lemma match_exact fl f t1 t2 x1 x2 b : strict fl -> (forall i, bool_at i = false) ->
  void_has_no_name E access isbool -> denotes t1 x1 -> denotes t2 x2 ->
  bare_inside x1 = true -> bare_inside x2 = true -> odd_pair x1 x2 = false ->
  relaxquals (prims fl) = false \/ (plain x1 = true /\ plain x2 = true) ->
  match_ fl f t1 t2 = Some b ->
  b = passes (fun p q => if relaxquals (prims fl) then wider p q else peq p q) x1 x2.
Proof.
  intros ST NB VN D1 D2 B1 B2 O R H.
  assert (x1 <> CDots) as N1 by (intros ->; discriminate).
  assert (x2 <> CDots) as N2 by (intros ->; discriminate).
  destruct (match_cases fl f t1 t2 x1 x2 D1 D2 N1 N2) as [Q _]. rewrite Q in H.
  destruct (same t1 t2) eqn:S.
  - apply same_eq in S. subst t2. rewrite (den_det _ _ _ _ _ D2 _ D1).
    rewrite passes_refl; [congruence|]. intros p. destruct (relaxquals (prims fl)); unfold wider;
      rewrite (proj2 (peq_eq p p) eq_refl); reflexivity.
  - exact (gen_exact E access isbool boolaccess bool_at same same_eq fl ST NB VN f t1 t2 x1 x2 b D1 D2 B1 B2 O R H).
Qed.

Lemma redeclare_exact fl f t1 t2 x1 x2 b : strict fl -> (forall i, bool_at i = false) ->
  denotes t1 x1 -> denotes t2 x2 ->
  bare x1 = true -> bare x2 = true -> mix x1 x2 = false ->
  matchDef fl f t1 t2 = Some b -> b = compatible x1 x2.
Proof.
  intros ST NB D1 D2 B1 B2 O H.
  assert (x1 <> CDots) as N1 by (intros ->; discriminate).
  assert (x2 <> CDots) as N2 by (intros ->; discriminate).
  destruct (match_cases fl f t1 t2 x1 x2 D1 D2 N1 N2) as [_ Q]. rewrite Q in H.
  destruct (same t1 t2) eqn:S.
  - apply same_eq in S. subst t2. rewrite (den_det _ _ _ _ _ D2 _ D1). rewrite compatible_refl. congruence.
  - assert (strict (without_relaxquals fl)) as ST'.
    { destruct ST as ((A1 & A2 & A3 & A4 & A5 & A6 & A7) & B & C & D & F & G). repeat split; assumption. }
    eapply (gen_bare E access isbool boolaccess bool_at same same_eq _ ST' NB f true false t1 t2);
      try eassumption. left. reflexivity.
Qed.

Lemma match_respects_all fl f t1 t2 x1 x2 : forwarddecl fl = false -> (forall i, bool_at i = false) ->
  denotes t1 x1 -> denotes t2 x2 -> x1 <> CDots -> x2 <> CDots ->
  no_abs_array x1 = true -> no_abs_array x2 = true ->
  match_ fl f t1 t2 = Some true \/ matchDef fl f t1 t2 = Some true -> respects (abstvoidp fl) x1 x2 = true.
Proof.
  intros FD NB D1 D2 N1 N2 A1 A2 H. destruct (match_cases fl f t1 t2 x1 x2 D1 D2 N1 N2) as [Q1 Q2].
  rewrite Q1, Q2 in H. destruct (same t1 t2) eqn:S.
  - apply same_eq in S. subst t2. rewrite (den_det _ _ _ _ _ D2 _ D1). apply respects_refl.
  - destruct H as [H|H].
    + exact (gen_respects E access isbool boolaccess bool_at same same_eq fl FD NB f _ _ t1 t2 x1 x2 D1 D2 A1 A2 H).
    + exact (gen_respects E access isbool boolaccess bool_at same same_eq (without_relaxquals fl) FD NB f
               _ _ t1 t2 x1 x2 D1 D2 A1 A2 H).
Qed.

Lemma match_ends_top fl t1 t2 x1 x2 : denotes t1 x1 -> denotes t2 x2 ->
  exists n, forall f, n <= f -> match_ fl f t1 t2 <> None /\ matchDef fl f t1 t2 <> None.
Proof.
  intros D1 D2.
  destruct (gen_ends E access isbool boolaccess bool_at same fl _ false false t1 t2 x1 x2 D1 D2 (le_n _)) as [n N].
  destruct (gen_ends E access isbool boolaccess bool_at same (without_relaxquals fl) _ true false t1 t2 x1 x2 D1 D2 (le_n _)) as [m M].
  exists (n + m). intros f L. specialize (N f ltac:(lia)). specialize (M f ltac:(lia)).
  unfold Match_model.match_, Match_model.matchDef. destruct (same t1 t2);
    split; destruct t1; try discriminate; destruct t2; try discriminate; assumption.
Qed.
End Top.

Lemma match_hidden E E' access isbool boolaccess bool_at same fl f t1 t2 :
  differ_in_hidden access E E' -> forwarddecl fl = false ->
  match_ E access isbool boolaccess bool_at same fl f t1 t2
  = match_ E' access isbool boolaccess bool_at same fl f t1 t2
  /\ matchDef E access isbool boolaccess bool_at same fl f t1 t2
     = matchDef E' access isbool boolaccess bool_at same fl f t1 t2.
Proof.
  intros DH FD. unfold match_, matchDef.
  rewrite (proj1 (gen_hidden E E' access isbool boolaccess bool_at same fl DH FD f)).
  rewrite (proj1 (gen_hidden E E' access isbool boolaccess bool_at same (without_relaxquals fl) DH FD f)).
  auto.
Qed.

(** Finds what a type stands for. *)
Ltac den :=
  repeat first [ assumption | apply den_fcn_params | apply den_fcn | apply den_cons | apply den_nil | apply den_ptr
               | apply den_arr | apply den_fix | apply den_dots | apply den_void | apply den_arith; discriminate ].
