(** Proofs about the comparison of types. *)
From Coq Require Import ZArith List Bool Arith Lia.
From Verif Require Import Prim_model Prim_spec Prim_proofs Match_model Match_spec.
Import ListNotations.

Lemma obind_some {X Y} (o : option X) (k : X -> option Y) v :
  obind o k = Some v -> exists x, o = Some x /\ k x = Some v.
Proof. destruct o as [x|]; [|discriminate]. intros H. eauto. Qed.

Section CtyInd.
Variable P : cty -> Prop.
Hypothesis P1 : forall p, P (CArith p).
Hypothesis P2 : P CVoid.
Hypothesis P3 : P CBool.
Hypothesis P4 : forall n, P (CEnum n).
Hypothesis P5 : forall u n, P (CRec u n).
Hypothesis P6 : forall i, P (CAbs i).
Hypothesis P7 : forall x, P x -> P (CPtr x).
Hypothesis P8 : forall n x, P x -> P (CArr n x).
Hypothesis P9 : forall r, P r -> P (CFun r None).
Hypothesis P10 : forall r ps, P r -> Forall P ps -> P (CFun r (Some ps)).
Hypothesis P11 : P CDots.
Fixpoint cty_full_ind (x : cty) : P x :=
  match x with
  | CArith p => P1 p | CVoid => P2 | CBool => P3 | CEnum n => P4 n | CRec u n => P5 u n
  | CAbs i => P6 i
  | CPtr x => P7 x (cty_full_ind x)
  | CArr n x => P8 n x (cty_full_ind x)
  | CFun r None => P9 r (cty_full_ind r)
  | CFun r (Some ps) =>
      P10 r ps (cty_full_ind r)
        ((fix go (ps : list cty) : Forall P ps :=
            match ps with [] => Forall_nil P | p :: ps => Forall_cons p (cty_full_ind p) (go ps) end) ps)
  | CDots => P11
  end.
End CtyInd.

Definition compat_all : list cty -> list cty -> bool :=
  fix all (ps qs : list cty) : bool :=
    match ps, qs with
    | [], [] => true
    | p :: ps, q :: qs => compatible p q && all ps qs
    | _, _ => false
    end.
Lemma compatible_fun r ps s qs :
  compatible (CFun r ps) (CFun s qs) =
  compatible r s && match ps, qs with Some ps, Some qs => compat_all ps qs | _, _ => true end.
Proof. reflexivity. Qed.
Definition bare_all : list cty -> bool :=
  fix all (ps : list cty) : bool :=
    match ps with
    | [] => true
    | CDots :: ps => all ps
    | p :: ps => bare p && negb (is_fun p) && all ps
    end.
Lemma bare_fun r ps :
  bare (CFun r ps) = bare r && negb (is_fun r) && match ps with Some ps => bare_all ps | None => true end.
Proof. reflexivity. Qed.
Lemma bare_all_cons p ps : bare_all (p :: ps) = true ->
  (p = CDots \/ (bare p = true /\ is_fun p = false)) /\ bare_all ps = true.
Proof.
  intros H. destruct p;
    first [ split; [now left|exact H]
          | apply andb_prop in H; destruct H as [H H2]; apply andb_prop in H; destruct H as [H H1];
            apply negb_true_iff in H1; split; [right; split; assumption|assumption] ].
Qed.

Lemma peq_eq p q : peq p q = true <-> p = q.
Proof.
  split; [|intros ->; unfold peq; apply Z.eqb_refl].
  destruct p, q; intros H; try reflexivity; vm_compute in H; discriminate.
Qed.

Lemma compatible_refl x : compatible x x = true.
Proof.
  induction x using cty_full_ind; try reflexivity; cbn [compatible cty_eqb].
  - now apply peq_eq.
  - apply Nat.eqb_refl.
  - now rewrite eqb_reflx, Nat.eqb_refl.
  - apply Nat.eqb_refl.
  - assumption.
  - destruct n; [rewrite Nat.eqb_refl|]; cbn; assumption.
  - now rewrite IHx.
  - rewrite IHx. cbn [andb]. change (compat_all ps ps = true). induction H as [|p ps Hp Hps IH]; [reflexivity|].
    cbn [compat_all]. rewrite Hp. exact IH.
Qed.

Definition respects_all (av : bool) : list cty -> list cty -> bool :=
  fix all (ps qs : list cty) : bool :=
    match ps, qs with
    | [], [] => true
    | p :: ps, q :: qs => respects av p q && all ps qs
    | _, _ => false
    end.
Definition respects_params (av : bool) (ps qs : option (list cty)) : bool :=
  match ps, qs with Some ps, Some qs => respects_all av ps qs | _, _ => true end.
Definition respects_pts (av : bool) (a b : cty) : bool :=
  if is_void a || is_void b then av || (negb (is_abs a) && negb (is_abs b)) else respects av a b.
Lemma respects_fun av r ps s qs :
  respects av (CFun r ps) (CFun s qs) = respects av r s && respects_params av ps qs.
Proof. reflexivity. Qed.
Lemma respects_fun_ptr av r ps b :
  respects av (CFun r ps) (CPtr b) =
  match b with CFun s qs => respects av r s && respects_params av ps qs | _ => true end.
Proof. reflexivity. Qed.
Lemma respects_ptr_fun av a s qs :
  respects av (CPtr a) (CFun s qs) =
  match a with CFun r ps => respects av r s && respects_params av ps qs | _ => true end.
Proof. reflexivity. Qed.
Lemma respects_ptr av a b : respects av (CPtr a) (CPtr b) = respects_pts av a b.
Proof. reflexivity. Qed.
Lemma respects_ptr_arr av n a b : respects av (CPtr a) (CArr n b) = respects_pts av a b.
Proof. reflexivity. Qed.
Lemma respects_arr_ptr av n a b : respects av (CArr n a) (CPtr b) = respects_pts av a b.
Proof. reflexivity. Qed.
Lemma respects_arr av n m a b : respects av (CArr n a) (CArr m b) = respects_pts av a b.
Proof. reflexivity. Qed.

Lemma respects_all_refl av ps : Forall (fun x => respects av x x = true) ps -> respects_all av ps ps = true.
Proof. induction 1 as [|p ps P Ps IH]; [reflexivity|]. cbn [respects_all]. now rewrite P. Qed.
Lemma respects_refl av x : respects av x x = true.
Proof.
  induction x using cty_full_ind; try reflexivity.
  - apply Nat.eqb_refl.
  - rewrite respects_ptr. unfold respects_pts. destruct (is_void x) eqn:V; [|exact IHx].
    destruct x; try discriminate. cbn. apply orb_true_r.
  - rewrite respects_arr. unfold respects_pts. destruct (is_void x) eqn:V; [|exact IHx].
    destruct x; try discriminate. cbn. apply orb_true_r.
  - rewrite respects_fun, IHx. reflexivity.
  - rewrite respects_fun, IHx. cbn [andb respects_params]. now apply respects_all_refl.
Qed.
Lemma respects_points av a b : respects av a b = true -> respects_pts av a b = true.
Proof.
  intros H. unfold respects_pts. destruct (is_void a || is_void b) eqn:V; [|exact H].
  apply orb_prop in V. destruct V as [V|V].
  - destruct a; try discriminate. cbn. destruct b; try discriminate; cbn; apply orb_true_r.
  - destruct b; try discriminate. destruct a; try discriminate; cbn; apply orb_true_r.
Qed.

Definition no_abs_all : list cty -> bool :=
  fix all (ps : list cty) : bool :=
    match ps with [] => true | p :: ps => no_abs_array p && all ps end.
Lemma no_abs_fun r ps : no_abs_array (CFun r ps) =
  no_abs_array r && match ps with Some ps => no_abs_all ps | None => true end.
Proof. reflexivity. Qed.
Lemma no_abs_arr n y : no_abs_array (CArr n y) = true ->
  is_void y = false /\ is_abs y = false /\ no_abs_array y = true.
Proof. intros H. destruct y; try discriminate; auto. Qed.

Scheme denotes_mind := Minimality for denotes Sort Prop
  with denote_all_mind := Minimality for denote_all Sort Prop.

Section Names.
Variable E : nat -> entry.
Variable access isbool : nat -> bool.
Variable boolaccess : bool.
Variable bool_at : nat -> bool.
Variable same : ty -> ty -> bool.
Hypothesis same_eq : forall a b, same a b = true -> a = b.

Local Notation denotes := (denotes E access isbool).
Local Notation denote_all := (denote_all E access isbool).
Local Notation real_id := (real_id E access isbool).
Local Notation base_real := (base_real E access isbool).
Local Notation type_real := (type_real E access isbool boolaccess).

(** Types which are not names for others. *)
Inductive hn : ty -> cty -> Prop :=
  | hn_arith p : p <> P_VOID -> hn (TPrim p) (CArith p)
  | hn_void : hn (TPrim P_VOID) CVoid
  | hn_bool : hn TBool CBool
  | hn_enum n : hn (TEnum n) (CEnum n)
  | hn_rec u n fs : hn (TSU u (Tag n) fs) (CRec u n)
  | hn_abs num i rep : isbool i = false -> E i = Abstract num rep -> hn (self num i) (CAbs i)
  | hn_ptr t x : denotes t x -> hn (TPtr t) (CPtr x)
  | hn_arr t x : denotes t x -> hn (TArr t) (CArr None x)
  | hn_fix n t x : denotes t x -> hn (TFix n t) (CArr (Some n) x)
  | hn_fcn r x : denotes r x -> hn (TFcn r None) (CFun x None)
  | hn_fcn_params r x ps xs : denotes r x -> denote_all ps xs ->
      hn (TFcn r (Some ps)) (CFun x (Some xs))
  | hn_dots : hn TElips CDots.

Lemma ua_self num i : ua (self num i) = Some i.
Proof. now destruct num. Qed.

Lemma no_typedef_loop t x : denotes t x -> forall i, ua t = Some i -> isbool i = false ->
  E i <> Typedef t /\ (forall num, E i <> Abstract num t \/ access i = false).
Proof.
  induction 1; intros k U B; cbn [ua] in U; try discriminate.
  - rewrite H in U. injection U as ->. congruence.
  - injection U as <-. split; [|intros; left]; congruence.
  - injection U as <-. split; [|intros; left]; congruence.
  - injection U as <-. split; [|intros; left; congruence].
    intros Q. rewrite H0 in Q. injection Q as ->.
    now destruct (IHdenotes i eq_refl B) as [N _].
  - rewrite ua_self in U. injection U as <-. split; [congruence|].
    intros num'. left. intros Q. rewrite H0 in Q. injection Q as -> ->.
    destruct (IHdenotes i (ua_self _ _) B) as [_ N]. destruct (N num') as [N'|N']; congruence.
  - rewrite ua_self in U. injection U as <-. split; [congruence|]. intros; right; assumption.
Qed.

Lemma manifest_den t x : denotes t x -> manifest_bool isbool t = true -> x = CBool.
Proof.
  destruct 1; cbn [manifest_bool ua]; try discriminate; try reflexivity; try congruence;
    unfold manifest_bool; rewrite ?ua_self; destruct num; cbn; congruence.
Qed.

Lemma hn_of t x : denotes t x -> ua t = None -> hn t x.
Proof.
  destruct 1; cbn [ua]; try congruence; try discriminate; try (constructor; assumption);
    rewrite ua_self; discriminate.
Qed.

Lemma real_id_hn t x : denotes t x -> forall i f r, ua t = Some i -> isbool i = false ->
  real_id f i = Some r -> hn r x.
Proof.
  induction 1; intros k f rr U B R; cbn [ua] in U; try discriminate.
  - rewrite H in U. injection U as ->. congruence.
  - injection U as <-. destruct f as [|f]; [discriminate|]. cbn [Match_model.real_id] in R.
    rewrite H0 in R. injection R as <-. constructor.
  - injection U as <-. destruct f as [|f]; [discriminate|]. cbn [Match_model.real_id] in R.
    rewrite H0 in R. injection R as <-. constructor.
  - injection U as <-. destruct f as [|f]; [discriminate|]. cbn [Match_model.real_id] in R.
    rewrite H0 in R. destruct (manifest_bool isbool t) eqn:MB.
    { injection R as <-. rewrite (manifest_den _ _ H1 MB). constructor. }
    destruct (ua t) as [j|] eqn:UT; [|injection R as <-; now apply hn_of].
    assert (isbool j = false) as BJ.
    { unfold manifest_bool in MB. destruct t; cbn in *; congruence. }
    destruct (Nat.eqb_spec j i) as [->|NE]; [|eapply IHdenotes; eauto].
    destruct (no_typedef_loop _ _ H1 i UT B) as [N _]. congruence.
  - rewrite ua_self in U. injection U as <-. destruct f as [|f]; [discriminate|].
    cbn [Match_model.real_id] in R. rewrite H0, B, H1 in R.
    destruct (manifest_bool isbool rep) eqn:MB.
    { injection R as <-. rewrite (manifest_den _ _ H2 MB). constructor. }
    destruct (ua rep) as [j|] eqn:UT; [|injection R as <-; now apply hn_of].
    assert (isbool j = false) as BJ.
    { unfold manifest_bool in MB. destruct rep; cbn in *; congruence. }
    destruct (Nat.eqb_spec j i) as [->|NE]; [|eapply IHdenotes; eauto].
    destruct (no_typedef_loop _ _ H2 i UT B) as [_ N]. destruct (N num); congruence.
  - rewrite ua_self in U. injection U as <-. destruct f as [|f]; [discriminate|].
    cbn [Match_model.real_id] in R. rewrite H0, B, H1 in R. injection R as <-.
    now apply hn_abs with rep.
Qed.

Lemma base_real_hn t x f r : denotes t x -> base_real f t = Some r -> hn r x.
Proof.
  intros D R. unfold Match_model.base_real in R. destruct (ua t) as [i|] eqn:U.
  - destruct (isbool i) eqn:B.
    + injection R as <-. assert (manifest_bool isbool t = true) as MB.
      { unfold manifest_bool. destruct t; cbn in *; congruence. }
      rewrite (manifest_den _ _ D MB). constructor.
    + now apply (real_id_hn t x D i f).
  - injection R as <-. now apply hn_of.
Qed.

Lemma type_real_hn t x f r : denotes t x -> type_real f t = Some r ->
  hn r x \/ (x = CBool /\ exists p, r = TPrim p).
Proof.
  intros D R. unfold Match_model.type_real in R. apply obind_some in R.
  destruct R as (r0 & R0 & R). injection R as <-.
  assert (hn r0 x \/ (x = CBool /\ exists p, r0 = TPrim p)) as H.
  { destruct (ua t) as [i|] eqn:U; [|injection R0 as <-; left; now apply hn_of].
    destruct (isbool i) eqn:B; [|left; now apply (real_id_hn t x D i f)].
    destruct D; cbn [ua] in U; try discriminate; rewrite ?ua_self in U; try congruence.
    assert (i0 = i) by congruence. subst i0. destruct f as [|f]; [discriminate|].
    cbn [Match_model.real_id] in R0. destruct H1 as [Q|Q]; rewrite Q in R0.
    - cbn in R0. injection R0 as <-. right. eauto.
    - rewrite B in R0. injection R0 as <-. left. constructor. }
  destruct (manifest_bool isbool r0 && boolaccess) eqn:M; [|exact H].
  apply andb_prop in M. destruct M as [M _]. right. destruct H as [H|[-> _]]; [|eauto].
  split; [|eauto]. destruct H; cbn in M; try discriminate; try reflexivity.
  unfold manifest_bool in M. destruct num; cbn in M; congruence.
Qed.

Definition is_ptr (x : cty) : bool := match x with CPtr _ => true | _ => false end.

Lemma no_conj t x : denotes t x ->
  match t with TConj _ _ | TUndef | TUnknown => False | _ => True end.
Proof.
  destruct 1; try exact I; try (destruct num; exact I). destruct t; cbn in *; try discriminate; exact I.
Qed.

Lemma real_pointer_den f t x v : denotes t x ->
  isRealPointer E access isbool boolaccess f t = Some v -> v = is_ptr x.
Proof.
  intros D R. assert (obind (type_real f t) (fun r => Some (isPointer r)) = Some v) as Q.
  { pose proof (no_conj _ _ D). destruct t; try contradiction; exact R. }
  apply obind_some in Q. destruct Q as (r & Q & [= <-]).
  destruct (type_real_hn _ _ _ _ D Q) as [H|[-> [p ->]]]; [|reflexivity].
  destruct H; try reflexivity. now destruct num.
Qed.

Lemma function_real_den f t x v : denotes t x ->
  isFunctionReal E access isbool boolaccess f t = Some v ->
  (is_fun x = true -> v = true)
  /\ (v = true -> is_fun x = true \/ exists r ps, x = CPtr (CFun r ps)).
Proof.
  intros D R. unfold isFunctionReal in R. apply obind_some in R. destruct R as (r & Q & [= <-]).
  destruct (type_real_hn _ _ _ _ D Q) as [H|[-> [p ->]]]; [|split; discriminate].
  destruct H; cbn; try (split; discriminate); try (split; auto; fail).
  - destruct num; cbn; split; discriminate.
  - destruct t0; try (split; discriminate). split; [auto|]. intros _. right.
    inversion H; subst; eauto; cbn in *; try discriminate; destruct num; discriminate.
Qed.

Lemma real_function_den f t x v : denotes t x ->
  isRealFunction E access isbool boolaccess f t = Some v ->
  isFunctionReal E access isbool boolaccess f t = Some v.
Proof. intros D R. pose proof (no_conj _ _ D). destruct t; try contradiction; exact R. Qed.

Lemma real_abstract_den f t x v : denotes t x ->
  isRealAbstract E access isbool boolaccess f t = Some v -> v = is_abs x.
Proof.
  intros D R.
  assert (obind (type_real f t) (fun r => Some (isAbstract r)) = Some v) as Q.
  { pose proof (no_conj _ _ D). destruct t; try contradiction;
      cbn [isRealAbstract] in R; unfold oor in R; apply obind_some in R;
      destruct R as (w & -> & R); destruct w; exact R. }
  apply obind_some in Q. destruct Q as (r & Q & [= <-]).
  destruct (type_real_hn _ _ _ _ D Q) as [H|[-> [p ->]]]; [|reflexivity].
  destruct H; try reflexivity. now destruct num.
Qed.

Lemma void_den t x : denotes t x -> isVoid t = true -> x = CVoid.
Proof.
  intros D V. unfold isVoid in V. destruct t; try discriminate. destruct p; try discriminate.
  inversion D; subst; try reflexivity; cbn in *; try congruence; destruct num; discriminate.
Qed.

Lemma self_inj num i num' i' : self num i = self num' i' -> i = i' /\ num = num'.
Proof. destruct num, num'; cbn; intros [= ->]; auto. Qed.

Lemma den_det t x : denotes t x -> forall y, denotes t y -> x = y.
Proof.
  intros D. apply (denotes_mind E access isbool
    (fun t x => forall y, denotes t y -> x = y)
    (fun ts xs => forall ys, denote_all ts ys -> xs = ys)); try exact D; clear D t x.
  all: intros;
    repeat match goal with H : context [self ?n _] |- _ => destruct n; cbn [self] in H end;
    match goal with
    | H : denote_all _ ?y |- _ = ?y => inversion H; subst; f_equal; eauto
    | H : denotes _ ?y |- _ = ?y =>
        inversion H; subst; clear H; cbn [ua] in *;
        repeat match goal with H : self ?n _ = _ |- _ => destruct n; cbn [self] in H end;
        try reflexivity; try discriminate; try congruence; eauto
    end.
  all: try (f_equal; eauto; fail).
  - rewrite ua_self in *. congruence.
  - rewrite ua_self in *. congruence.
  - assert (t = t0) as -> by congruence. eauto.
  - assert (rep = rep0) as -> by congruence. eauto.
  - assert (rep = rep0) as -> by congruence. eauto.
  - f_equal; [|f_equal]; eauto.
Qed.

(** * One type under several names *)

Section Equal.
Variable fl : mflags.

Local Notation gen := (gen E access isbool boolaccess bool_at same fl).

Lemma all2_true {X} (g : X -> X -> option bool) (R : X -> X -> Prop) l1 l2 b :
  Forall2 R l1 l2 -> (forall x y b, R x y -> g x y = Some b -> b = true) ->
  all2 g l1 l2 = Some b -> b = true.
Proof.
  intros F H. revert b. induction F as [|x y l1 l2 HR F IH]; intros b A; cbn [all2] in A.
  - congruence.
  - unfold oand in A. apply obind_some in A. destruct A as (v & G & A).
    rewrite (H _ _ _ HR G) in A. now apply IH.
Qed.

Lemma denote_all_both ts us xs : denote_all ts xs -> denote_all us xs ->
  Forall2 (fun t u => exists x, denotes t x /\ denotes u x) ts us.
Proof.
  intros H. revert us. induction H; intros us K; inversion K; subst; constructor; eauto.
Qed.

Lemma den_dots_only t x : denotes t x -> (t = TElips <-> x = CDots).
Proof.
  destruct 1; split; intros Q; try discriminate; try congruence; try (destruct num; discriminate).
  subst. discriminate.
Qed.

Lemma type_match_equal f def deep t1 t2 x b :
  (forall def deep t1 t2 x b, denotes t1 x -> denotes t2 x -> x <> CDots ->
     gen f def deep t1 t2 = Some b -> b = true) ->
  denotes t1 x -> denotes t2 x ->
  typeMatch same (gen f) def deep t1 t2 = Some b -> b = true.
Proof.
  intros IH D1 D2 H. pose proof (den_dots_only _ _ D1) as Q1. pose proof (den_dots_only _ _ D2) as Q2.
  assert ((t1 = TElips /\ t2 = TElips) \/ (t1 <> TElips /\ t2 <> TElips)) as [[-> ->]|[N1 N2]].
  { destruct x; try (right; split; intros Q; [apply Q1 in Q|apply Q2 in Q]; discriminate).
    left. split; tauto. }
  - cbn in H. congruence.
  - assert ((if same t1 t2 then Some true else gen f def deep t1 t2) = Some b) as H'.
    { destruct t1; try (now destruct N1); destruct t2; try (now destruct N2); exact H. }
    destruct (same t1 t2); [congruence|]. apply (IH def deep t1 t2 x b); auto. intros Q. apply N1. tauto.
Qed.

Lemma gen_unfold f def deep t1 t2 x1 x2 b : denotes t1 x1 -> denotes t2 x2 ->
  gen (S f) def deep t1 t2 = Some b ->
  exists c1 c2, hn c1 x1 /\ hn c2 x2
    /\ kinds E access isbool boolaccess bool_at same fl (gen f)
         (almost E access isbool boolaccess bool_at same fl f) f def deep c1 c2 = Some b.
Proof.
  intros D1 D2 H. cbn [Match_model.gen] in H. unfold gen_step in H.
  assert (undef t1 || undef t2 = false) as U.
  { pose proof (no_conj _ _ D1). pose proof (no_conj _ _ D2).
    destruct t1; try contradiction; destruct t2; try contradiction; reflexivity. }
  rewrite U in H.
  apply obind_some in H. destruct H as (c1 & R1 & H).
  apply obind_some in H. destruct H as (c2 & R2 & H).
  pose proof (base_real_hn _ _ _ _ D1 R1) as N1. pose proof (base_real_hn _ _ _ _ D2 R2) as N2.
  exists c1, c2. split; [exact N1|]. split; [exact N2|].
  assert (forall c x, hn c x -> conj_parts c = None) as NC.
  { intros c x N. destruct N; try reflexivity. now destruct num. }
  now rewrite (NC _ _ N1), (NC _ _ N2) in H.
Qed.

Lemma close_same p deep :
  (if deep : bool then closeEnoughDeep (prims fl) p p else closeEnough (prims fl) p p) = true.
Proof. destruct deep; apply close_refl. Qed.

Lemma void_ptr_true f t1 t2 b : denotes t1 CVoid -> denotes t2 CVoid ->
  void_ptr E access isbool boolaccess fl f t1 t2 = Some b -> b = true.
Proof.
  intros D1 D2 H. unfold void_ptr in H. destruct (abstvoidp fl); [congruence|].
  unfold oand in H. apply obind_some in H. destruct H as (v & A & H).
  apply obind_some in A. destruct A as (w & A & [= <-]).
  rewrite (real_abstract_den _ _ _ _ D1 A) in H. cbn in H.
  apply obind_some in H. destruct H as (w' & A' & [= <-]).
  now rewrite (real_abstract_den _ _ _ _ D2 A').
Qed.

Lemma gen_equal f : forall def deep t1 t2 x b, denotes t1 x -> denotes t2 x -> x <> CDots ->
  gen f def deep t1 t2 = Some b -> b = true.
Proof.
  induction f as [|f IH]; intros def deep t1 t2 x b D1 D2 ND H; [discriminate|].
  destruct (gen_unfold _ _ _ _ _ _ _ _ D1 D2 H) as (c1 & c2 & N1 & N2 & K). clear H D1 D2 t1 t2.
  destruct N1; inversion N2; subst; clear N2; unfold kinds in K; cbn [one_kind] in K;
    try (now destruct ND).
  - rewrite close_same in K. congruence.
  - rewrite close_same in K. congruence.
  - congruence.
  - rewrite Nat.eqb_refl in K. congruence.
  - rewrite eqb_reflx, Nat.eqb_refl in K. congruence.
  - assert (num0 = num) by congruence. subst num0.
    destruct num; cbn in K; rewrite Nat.eqb_refl in K; congruence.
  - match goal with D1 : denotes ?a x, D2 : denotes ?b x |- _ => rename a into b1, b into b2, D1 into HD1, D2 into HD2 end.
    rename HD1 into D1, HD2 into D2. unfold ptrs in K.
    destruct (isVoid b1 || isVoid b2) eqn:V.
    + assert (x = CVoid) as ->.
      { apply orb_prop in V. destruct V as [V|V]; [apply (void_den _ _ D1 V)|apply (void_den _ _ D2 V)]. }
      apply obind_some in K. destruct K as (v & F & K).
      assert (v = false) as ->.
      { unfold oor in F. apply obind_some in F. destruct F as (v1 & F1 & F).
        destruct (function_real_den _ _ _ _ D1 F1) as [_ Q1]. destruct v1.
        { destruct (Q1 eq_refl) as [Q|(r & ps & Q)]; discriminate. }
        destruct (function_real_den _ _ _ _ D2 F) as [_ Q2]. destruct v; [|reflexivity].
        destruct (Q2 eq_refl) as [Q|(r & ps & Q)]; discriminate. }
      now apply (void_ptr_true f b1 b2).
    + apply obind_some in K. destruct K as (p1 & P1 & K). apply obind_some in K.
      destruct K as (p2 & P2 & K). rewrite (real_pointer_den _ _ _ _ D1 P1) in K.
      rewrite (real_pointer_den _ _ _ _ D2 P2) in K. rewrite eqb_reflx in K. cbn [obind] in K.
      eapply type_match_equal; [exact IH| | |exact K]; eassumption.
  - unfold arrays in K.
    destruct (isVoid t || isVoid t0); [congruence|].
    eapply type_match_equal; [exact IH| | |exact K]; eassumption.
  - destruct (isVoid t || isVoid t0); [congruence|].
    eapply type_match_equal; [exact IH| | |exact K]; eassumption.
  - unfold functions, oand in K. apply obind_some in K. destruct K as (v & T & K).
    rewrite (type_match_equal f def true r r0 x v IH) in K by assumption. cbn in K. congruence.
  - unfold functions, oand in K. apply obind_some in K. destruct K as (v & T & K).
    rewrite (type_match_equal f def true r r0 x v IH) in K by assumption. cbn [matchParams] in K.
    eapply all2_true; [| |exact K].
    { match goal with A : denote_all ps _, B : denote_all ps0 _ |- _ => exact (denote_all_both _ _ _ A B) end. }
    intros u w b' (z & Z1 & Z2) TM. eapply type_match_equal; [exact IH| | |exact TM]; eassumption.
Qed.
End Equal.

(** * Exactness *)


Section Exact.
Variable fl : mflags.
Hypothesis ST : strict fl.
Hypothesis NB : forall i, bool_at i = false.

Local Notation gen := (gen E access isbool boolaccess bool_at same fl).
Local Notation typeMatch := (typeMatch same).

Lemma type_match_cases f def deep t1 t2 x1 x2 b : denotes t1 x1 -> denotes t2 x2 ->
  typeMatch (gen f) def deep t1 t2 = Some b ->
  (x1 = CDots /\ x2 = CDots /\ b = true)
  \/ ((x1 = CDots \/ x2 = CDots) /\ x1 <> x2 /\ b = false)
  \/ (x1 <> CDots /\ x2 <> CDots /\ x1 = x2 /\ b = true)
  \/ (x1 <> CDots /\ x2 <> CDots /\ gen f def deep t1 t2 = Some b).
Proof.
  intros D1 D2 H. pose proof (den_dots_only _ _ D1) as N1. pose proof (den_dots_only _ _ D2) as N2.
  unfold Match_model.typeMatch in H.
  assert ({t1 = TElips} + {t1 <> TElips}) as [->|O1] by (destruct t1; ((left; reflexivity) || (right; discriminate))).
  - assert ({t2 = TElips} + {t2 <> TElips}) as [->|O2] by (destruct t2; ((left; reflexivity) || (right; discriminate))).
    + left. split; [tauto|]. split; [tauto|congruence].
    + right. left. assert (b = false) as -> by (destruct t2; congruence).
      split; [tauto|]. split; [|reflexivity]. intros ->. tauto.
  - assert ({t2 = TElips} + {t2 <> TElips}) as [->|O2] by (destruct t2; ((left; reflexivity) || (right; discriminate))).
    + right. left. assert (b = false) as -> by (destruct t1; congruence).
      split; [tauto|]. split; [|reflexivity]. intros ->. tauto.
    + assert ((if same t1 t2 then Some true else gen f def deep t1 t2) = Some b) as H'.
      { destruct t1; try (now destruct O1); destruct t2; try (now destruct O2); exact H. }
      right. right. destruct (same t1 t2) eqn:S.
      * left. split; [tauto|]. split; [tauto|]. apply same_eq in S. subst t2.
        split; [exact (den_det _ _ D1 _ D2)|congruence].
      * right. repeat split; try tauto; assumption.
Qed.

Lemma cty_eqb_eq x : forall y, cty_eqb x y = true -> x = y.
Proof.
  induction x using cty_full_ind; intros [] Q; cbn [cty_eqb] in Q; try discriminate; try reflexivity.
  - apply peq_eq in Q. congruence.
  - apply Nat.eqb_eq in Q. congruence.
  - apply andb_prop in Q. destruct Q as [Q1 Q2]. apply eqb_prop in Q1. apply Nat.eqb_eq in Q2. congruence.
  - apply Nat.eqb_eq in Q. congruence.
  - f_equal. auto.
  - apply andb_prop in Q. destruct Q as [Q1 Q2]. f_equal; [|auto].
    destruct n, size; cbn in Q1; try discriminate; [|reflexivity]. apply Nat.eqb_eq in Q1. congruence.
  - destruct ps; [discriminate|]. f_equal. auto.
  - destruct ps0 as [qs|]; [|discriminate]. apply andb_prop in Q. destruct Q as [Q1 Q2].
    f_equal; [auto|f_equal]. clear Q1 IHx. revert qs Q2.
    induction H as [|p ps Hp Hps IH]; intros [|q qs] Q; try discriminate; [reflexivity|].
    apply andb_prop in Q. destruct Q as [Q1 Q2]. f_equal; [auto|]. apply IH. exact Q2.
Qed.

Lemma ordinary_of p : ordinary_prim p = true -> ordinary p.
Proof. destruct p; intros H [A|[A|A]]; discriminate. Qed.

Lemma close_exact p q deep : ordinary_prim p = true -> ordinary_prim q = true ->
  relaxquals (prims fl) = false \/ deep = true ->
  (if deep : bool then closeEnoughDeep (prims fl) p q else closeEnough (prims fl) p q) = peq p q.
Proof.
  intros O1 O2 R. destruct ST as (NE & _).
  assert ((if deep then closeEnoughDeep (prims fl) p q else closeEnough (prims fl) p q)
          = closeEnoughAux (prims fl) p q deep) as -> by (now destruct deep).
  apply eq_true_iff_eq. rewrite peq_eq. split; [|intros ->; apply close_refl].
  apply no_flags_equal; auto using ordinary_of.
Qed.

Lemma bare_ptr x : bare (CPtr x) = true -> x <> CVoid /\ bare x = true.
Proof. destruct x; intros H; split; try discriminate; exact H. Qed.

Lemma not_void t x : denotes t x -> x <> CVoid -> isVoid t = false.
Proof. intros D N. destruct (isVoid t) eqn:V; [|reflexivity].
  exfalso. apply N. exact (void_den _ _ D V).
Qed.

Definition good (deep : bool) (x1 x2 : cty) : Prop :=
  relaxquals (prims fl) = false \/ (deep = true /\ plain x1 = true /\ plain x2 = true).

Lemma mix_dots x1 x2 : x1 <> x2 -> x1 = CDots \/ x2 = CDots -> compatible x1 x2 = false.
Proof. intros N [->| ->]; [destruct x2|destruct x1 as [| | | | | | | |? []|]]; try reflexivity; now destruct N. Qed.

Definition matches_bare (f : nat) : Prop :=
  forall def deep t1 t2 x1 x2 b, denotes t1 x1 -> denotes t2 x2 ->
    (x1 = CDots \/ bare x1 = true) -> (x2 = CDots \/ bare x2 = true) -> mix x1 x2 = false ->
    good deep x1 x2 -> typeMatch (gen f) def deep t1 t2 = Some b -> b = compatible x1 x2.

Lemma params_exact f : matches_bare f -> relaxquals (prims fl) = false ->
  forall ps xs qs ys b, denote_all ps xs -> denote_all qs ys ->
  bare_all xs = true -> bare_all ys = true ->
  all2 (typeMatch (gen f) false false) ps qs = Some b -> b = compat_all xs ys.
Proof.
  intros TM RQ ps xs qs ys b D. revert qs ys b.
  induction D as [|p x ps xs Dp Dps IHps]; intros qs ys b Dq B1 B2 A; inversion Dq; subst; cbn in A;
    cbn [compat_all]; try congruence.
  apply bare_all_cons in B1, B2. destruct B1 as [B1 B1'], B2 as [B2 B2'].
  unfold oand in A. apply obind_some in A. destruct A as (v & T & A). cbn [compat_all].
  rewrite <- (TM false false p t x x0 v); [|assumption|assumption|tauto|tauto| |now left|exact T].
  { destruct v; [|cbn; congruence]. cbn [andb]. eapply IHps; eassumption. }
  destruct B1 as [->|[_ F1]]; [reflexivity|]. destruct B2 as [->|[_ F2]]; [now destruct x|].
  destruct x, x0; try reflexivity; discriminate.
Qed.

Lemma functions_exact f def : matches_bare f -> relaxquals (prims fl) = false ->
  forall r1 r2 y1 y2 ps qs xs ys b, denotes r1 y1 -> denotes r2 y2 ->
  hn (TFcn r1 ps) (CFun y1 xs) -> hn (TFcn r2 qs) (CFun y2 ys) ->
  bare (CFun y1 xs) = true -> bare (CFun y2 ys) = true ->
  functions same (gen f) def r1 ps r2 qs = Some b -> b = compatible (CFun y1 xs) (CFun y2 ys).
Proof.
  intros TM RQ r1 r2 y1 y2 ps qs xs ys b Dr1 Dr2 N1 N2 B1 B2 F.
  rewrite compatible_fun. rewrite bare_fun in B1, B2.
  apply andb_prop in B1, B2. destruct B1 as [B1 P1], B2 as [B2 P2].
  apply andb_prop in B1, B2. destruct B1 as [B1 F1], B2 as [B2 F2].
  apply negb_true_iff in F1, F2.
  unfold functions, oand in F. apply obind_some in F. destruct F as (v & T & F).
  rewrite <- (TM def true r1 r2 y1 y2 v); [|assumption|assumption|tauto|tauto| |now left|exact T].
  { destruct v; cbn [andb]; [|congruence].
    inversion N1; subst; inversion N2; subst; cbn [matchParams] in F; try congruence.
    eapply (params_exact f TM RQ); eassumption. }
  destruct y1, y2; try reflexivity; discriminate.
Qed.

Lemma ptrs_bare f def y1 y2 b1 b2 b : matches_bare f -> denotes b1 y1 -> denotes b2 y2 ->
  y1 <> CVoid -> y2 <> CVoid -> bare y1 = true -> bare y2 = true -> good true y1 y2 ->
  ptrs E access isbool boolaccess same fl (gen f) f def b1 b2 = Some b -> b = compatible y1 y2.
Proof.
  intros TM D1 D2 V1 V2 C1 C2 G' K.
  unfold ptrs in K. rewrite (not_void _ _ D1 V1), (not_void _ _ D2 V2) in K. cbn [orb] in K.
  apply obind_some in K. destruct K as (p1 & P1 & K). apply obind_some in K.
  destruct K as (p2 & P2 & K). apply obind_some in K. destruct K as (bad & Q & K).
  pose proof (real_pointer_den _ _ _ _ D1 P1) as R1. pose proof (real_pointer_den _ _ _ _ D2 P2) as R2.
  destruct bad.
  + injection K as <-. destruct (Bool.eqb p1 p2) eqn:PQ; [discriminate|]. subst p1 p2.
    destruct y1 as [| | | | | | | |? []|], y2; try discriminate; reflexivity.
  + eapply TM; [exact D1|exact D2|now right|now right| |exact G'|exact K].
    destruct (Bool.eqb p1 p2) eqn:PQ.
    * apply eqb_prop in PQ. subst p1 p2. destruct y1, y2; try discriminate; reflexivity.
    * unfold oor in Q. apply obind_some in Q. destruct Q as (v1 & F1 & Q).
      pose proof (function_real_den _ _ _ _ D1 (real_function_den _ _ _ _ D1 F1)) as [A1 _].
      destruct v1; [discriminate|].
      pose proof (function_real_den _ _ _ _ D2 (real_function_den _ _ _ _ D2 Q)) as [A2 _].
      destruct y1, y2; try reflexivity; try (specialize (A1 eq_refl); discriminate);
        specialize (A2 eq_refl); discriminate.
Qed.

Lemma matches_of_gen f :
  (forall def deep t1 t2 x1 x2 b, denotes t1 x1 -> denotes t2 x2 ->
   bare x1 = true -> bare x2 = true -> mix x1 x2 = false -> good deep x1 x2 ->
   gen f def deep t1 t2 = Some b -> b = compatible x1 x2) -> matches_bare f.
Proof.
  intros IH def deep t1 t2 x1 x2 b D1 D2 B1 B2 M G T.
  destruct (type_match_cases _ _ _ _ _ _ _ _ D1 D2 T) as
    [(-> & -> & ->)|[(Q & N & ->)|[(_ & _ & -> & ->)|(N1 & N2 & T')]]].
  - reflexivity.
  - symmetry. now apply mix_dots.
  - now rewrite compatible_refl.
  - eapply IH; [exact D1|exact D2| | |exact M|exact G|exact T']; tauto.
Qed.

Lemma gen_bare f : forall def deep t1 t2 x1 x2 b, denotes t1 x1 -> denotes t2 x2 ->
  bare x1 = true -> bare x2 = true -> mix x1 x2 = false -> good deep x1 x2 ->
  gen f def deep t1 t2 = Some b -> b = compatible x1 x2.
Proof.
  induction f as [|f IH]; intros def deep t1 t2 x1 x2 b D1 D2 B1 B2 M G H; [discriminate|].
  apply matches_of_gen in IH. rename IH into TM.
  destruct (gen_unfold _ _ _ _ _ _ _ _ _ D1 D2 H) as (c1 & c2 & N1 & N2 & K). clear H D1 D2 t1 t2.
  destruct ST as (NE & AV & CF & FD & BI & EI).
  assert (forall y xs, good deep x1 x2 -> x1 = CFun y xs \/ x2 = CFun y xs -> relaxquals (prims fl) = false) as RF.
  { clear. intros y xs [G|(_ & A & B)] Q; [exact G|]. destruct Q as [->| ->]; discriminate. }
  destruct N1; try discriminate; destruct N2; try discriminate;
    repeat match goal with K : context [self ?n _] |- _ => is_var n; destruct n end;
    unfold kinds in K; cbn [one_kind other_kinds self forward ua] in K; rewrite ?FD, ?BI, ?EI, ?NB, ?andb_false_r in K;
    cbn [andb] in K; try (injection K as <-; reflexivity).
  - rewrite close_exact in K; [injection K as <-; reflexivity|exact B1|exact B2|].
    destruct G as [G|[G _]]; auto.
  - rewrite close_exact in K; [|exact B1|reflexivity|destruct G as [G|[G _]]; auto].
    injection K as <-. cbn [compatible cty_eqb]. apply not_true_is_false. rewrite peq_eq. assumption.
  - rewrite close_exact in K; [|reflexivity|exact B2|destruct G as [G|[G _]]; auto].
    injection K as <-. cbn [compatible cty_eqb]. apply not_true_is_false. rewrite peq_eq. intros Q. now subst p.
  - rewrite close_exact in K; [|reflexivity|reflexivity|destruct G as [G|[G _]]; auto].
    injection K as <-. reflexivity.
  - cbn [compatible cty_eqb]. destruct (Bool.eqb u u0); cbn [andb] in *; congruence.
  - injection K as <-. cbn [compatible cty_eqb]. symmetry. apply Nat.eqb_neq. congruence.
  - injection K as <-. cbn [compatible cty_eqb]. symmetry. apply Nat.eqb_neq. congruence.
  - rename x into y1, x0 into y2, t into b1, t0 into b2. cbn [compatible].
    match goal with A : denotes b1 y1, B : denotes b2 y2 |- _ => rename A into D1, B into D2 end.
    destruct (bare_ptr _ B1) as [V1 C1]. destruct (bare_ptr _ B2) as [V2 C2].
    eapply ptrs_bare; [exact TM|exact D1|exact D2|exact V1|exact V2|exact C1|exact C2| |exact K].
    destruct G as [G|[_ G]]; [left|right]; auto.
  - eapply (functions_exact f def TM); [eapply RF; [exact G|eauto]| | | | |exact B1|exact B2|exact K]; try assumption; constructor; assumption.
  - eapply (functions_exact f def TM); [eapply RF; [exact G|eauto]| | | | |exact B1|exact B2|exact K]; try assumption; constructor; assumption.
  - eapply (functions_exact f def TM); [eapply RF; [exact G|eauto]| | | | |exact B1|exact B2|exact K]; try assumption; constructor; assumption.
  - eapply (functions_exact f def TM); [eapply RF; [exact G|eauto]| | | | |exact B1|exact B2|exact K]; try assumption; constructor; assumption.
Qed.

Lemma matches_bare_all f : matches_bare f.
Proof. apply matches_of_gen. apply gen_bare. Qed.

Hypothesis VN : void_has_no_name E access isbool.

Lemma is_void_den t x : denotes t x -> isVoid t = is_void x.
Proof.
  intros D. destruct (isVoid t) eqn:V.
  - now rewrite (void_den _ _ D V).
  - destruct x; try reflexivity. rewrite (VN t D) in V. discriminate.
Qed.

Lemma void_ptr_den f t1 t2 y1 y2 b : denotes t1 y1 -> denotes t2 y2 ->
  void_ptr E access isbool boolaccess fl f t1 t2 = Some b -> b = negb (is_abs y1) && negb (is_abs y2).
Proof.
  intros D1 D2 H. unfold void_ptr in H. destruct ST as (_ & AV & _). rewrite AV in H.
  unfold oand in H. apply obind_some in H. destruct H as (v & A & H).
  apply obind_some in A. destruct A as (w & A & [= <-]).
  rewrite (real_abstract_den _ _ _ _ D1 A) in H. destruct (is_abs y1); cbn in *; [congruence|].
  apply obind_some in H. destruct H as (w' & A' & [= <-]).
  now rewrite (real_abstract_den _ _ _ _ D2 A').
Qed.

Definition widens (p q : cprim) : bool := if relaxquals (prims fl) then wider p q else peq p q.

Lemma close_widens p q : ordinary_prim p = true -> ordinary_prim q = true ->
  closeEnough (prims fl) p q = widens p q.
Proof.
  intros O1 O2. unfold widens. destruct (relaxquals (prims fl)) eqn:R.
  - destruct ST as (NE & _). apply eq_true_iff_eq.
    assert (prims fl = turn_on RelaxQuals (prims fl)) as Q.
    { destruct (prims fl). cbn in R. subst. reflexivity. }
    rewrite Q, relaxquals_widening by auto using ordinary_of. unfold widening, wider.
    rewrite orb_true_iff, peq_eq. split; (intros [A|A]; [now left|right]).
    + destruct A as (k & n1 & n2 & -> & -> & L). destruct k; now apply Nat.leb_le.
    + destruct (rank p) as [[k n]|]; [|discriminate]. destruct (rank q) as [[l m]|]; [|discriminate].
      assert (k = l) as <- by (destruct k, l; try discriminate; reflexivity).
      exists k, n, m. repeat split. apply Nat.leb_le. now destruct k.
  - apply (close_exact p q false); auto.
Qed.

Definition pointers (a b : cty) : bool :=
  if is_void a then negb (is_fun b) && negb (is_abs b)
  else if is_void b then negb (is_fun a) && negb (is_abs a)
  else compatible a b.
Lemma passes_pointers x y a b : decay x = CPtr a -> decay y = CPtr b ->
  passes widens x y = pointers a b.
Proof.
  intros Dx Dy. unfold passes, pointers. rewrite Dx, Dy. clear Dx Dy.
  destruct a; cbn [is_void]; try reflexivity; destruct b; reflexivity.
Qed.

(** What [bare_inside] says of what is pointed to. *)
Definition bare_or_void (y : cty) : Prop := y = CVoid \/ bare y = true.
Definition double (y : cty) : bool := match y with CPtr (CFun _ _) => true | _ => false end.

Lemma ptrs_top f def b1 b2 y1 y2 b : denotes b1 y1 -> denotes b2 y2 ->
  bare_or_void y1 -> bare_or_void y2 -> is_void y1 && double y2 = false -> is_void y2 && double y1 = false ->
  good true y1 y2 ->
  ptrs E access isbool boolaccess same fl (gen f) f def b1 b2 = Some b -> b = pointers y1 y2.
Proof.
  intros D1 D2 B1 B2 O1 O2 G K. unfold pointers.
  destruct (is_void y1 || is_void y2) eqn:V.
  - unfold ptrs in K. rewrite (is_void_den _ _ D1), (is_void_den _ _ D2), V in K.
    apply obind_some in K. destruct K as (fcn & F & K).
    assert (fcn = is_fun y1 || is_fun y2) as ->.
    { unfold oor in F. apply obind_some in F. destruct F as (v1 & F1 & F).
      destruct (function_real_den _ _ _ _ D1 F1) as [A1 Q1].
      assert (v1 = is_fun y1) as ->.
      { destruct v1; [|destruct (is_fun y1); auto].
        destruct (Q1 eq_refl) as [Q|(r & ps & ->)]; [auto|]. cbn in V, O2. rewrite V in O2. discriminate. }
      destruct (is_fun y1); [cbn; congruence|]. cbn [orb].
      destruct (function_real_den _ _ _ _ D2 F) as [A2 Q2].
      destruct fcn; [|destruct (is_fun y2); auto].
      destruct (Q2 eq_refl) as [Q|(r & ps & ->)]; [auto|]. cbn in V, O1.
      rewrite orb_false_r in V. rewrite V in O1. discriminate. }
    destruct ST as (_ & _ & CF & _).
    destruct (is_fun y1 || is_fun y2) eqn:F12.
    + rewrite CF in K. injection K as <-. destruct y1; try discriminate; cbn [is_void is_fun orb negb andb] in *;
        try (rewrite F12; reflexivity); try reflexivity; destruct y2; try discriminate; reflexivity.
    + rewrite (void_ptr_den _ _ _ _ _ _ D1 D2 K). apply orb_false_iff in F12. destruct F12 as [F1 F2].
      rewrite F1, F2. destruct y1; cbn [is_void is_abs negb andb orb] in *; try reflexivity;
        try (rewrite V; cbn; destruct y2; try discriminate; reflexivity).
  - apply orb_false_iff in V. destruct V as [V1 V2]. rewrite V1, V2.
    eapply ptrs_bare; [apply matches_bare_all|exact D1|exact D2| | | | |exact G|exact K].
    + intros ->. discriminate.
    + intros ->. discriminate.
    + destruct B1 as [->|B1]; [discriminate|exact B1].
    + destruct B2 as [->|B2]; [discriminate|exact B2].
Qed.

(** Elements of arrays. *)
Definition element (y : cty) : Prop :=
  bare y = true /\ is_void y = false /\ is_fun y = false /\ is_abs y = false.

Lemma pointers_element y1 y2 : (element y1 /\ y2 = CVoid) \/ (y1 = CVoid /\ element y2) -> pointers y1 y2 = true.
Proof.
  intros [[(B & V & F & A) ->]|[-> (B & V & F & A)]]; unfold pointers; cbn [is_void].
  - now rewrite V, F, A.
  - now rewrite F, A.
Qed.

Lemma elements_bare y1 y2 : (element y1 /\ bare_or_void y2) \/ (bare_or_void y1 /\ element y2) ->
  is_void y1 || is_void y2 = false -> bare y1 = true /\ bare y2 = true.
Proof.
  intros H V. apply orb_false_iff in V. destruct V as [V1 V2].
  destruct H as [[(A & _) [->|B]]|[[->|B] (A & _)]]; try discriminate; auto.
Qed.

Lemma pointers_void y1 y2 : (element y1 /\ bare_or_void y2) \/ (bare_or_void y1 /\ element y2) ->
  is_void y1 || is_void y2 = true -> pointers y1 y2 = true.
Proof.
  intros H V. apply orb_prop in V. destruct V as [V|V].
  - destruct y1; try discriminate. apply pointers_element. right. split; [reflexivity|].
    destruct H as [[(_ & H & _) _]|[_ H]]; [discriminate|exact H].
  - destruct y2; try discriminate. apply pointers_element. left. split; [|reflexivity].
    destruct H as [[H _]|[_ (_ & H & _)]]; [exact H|discriminate].
Qed.

Lemma array_top f def deep b1 b2 y1 y2 b : denotes b1 y1 -> denotes b2 y2 ->
  (element y1 /\ bare_or_void y2) \/ (bare_or_void y1 /\ element y2) -> mix y1 y2 = false ->
  good deep y1 y2 ->
  (if isVoid b1 || isVoid b2 then Some true else typeMatch (gen f) def deep b1 b2) = Some b ->
  b = pointers y1 y2.
Proof.
  intros D1 D2 BB M G K. rewrite (is_void_den _ _ D1), (is_void_den _ _ D2) in K.
  destruct (is_void y1 || is_void y2) eqn:V.
  - rewrite (pointers_void _ _ BB V). congruence.
  - destruct (elements_bare _ _ BB V) as [B1 B2].
    rewrite (matches_bare_all f def deep b1 b2 y1 y2 b); auto. unfold pointers.
    apply orb_false_iff in V. destruct V as [-> ->]. reflexivity.
Qed.

Lemma fixed_top f def deep b1 b2 y1 y2 b (side : bool) : denotes b1 y1 -> denotes b2 y2 ->
  (side = false -> element y1 /\ bare_or_void y2) -> (side = true -> bare_or_void y1 /\ element y2) ->
  mix y1 y2 = false -> good deep y1 y2 ->
  fixed E access isbool boolaccess fl (gen f) f def deep (if side then b1 else b2) b1 b2 = Some b ->
  b = pointers y1 y2.
Proof.
  intros D1 D2 S1 S2 M G K. unfold fixed in K.
  assert ((element y1 /\ bare_or_void y2) \/ (bare_or_void y1 /\ element y2)) as BB by (destruct side; auto).
  assert (isVoid (if side then b1 else b2) = is_void y1 || is_void y2) as Q.
  { destruct side.
    - rewrite (is_void_den _ _ D1). destruct (S2 eq_refl) as (_ & _ & V & _). now rewrite V, orb_false_r.
    - rewrite (is_void_den _ _ D2). destruct (S1 eq_refl) as ((_ & V & _) & _). now rewrite V. }
  rewrite Q in K. destruct (is_void y1 || is_void y2) eqn:V.
  - rewrite (void_ptr_den _ _ _ _ _ _ D1 D2 K), (pointers_void _ _ BB V).
    assert (is_abs y1 = false /\ is_abs y2 = false) as [-> ->]; [|reflexivity].
    apply orb_prop in V. destruct side.
    + destruct (S2 eq_refl) as (_ & _ & V2 & _ & ->). destruct V as [V|V]; [|congruence].
      destruct y1; try discriminate. auto.
    + destruct (S1 eq_refl) as ((_ & V2 & _ & ->) & _). destruct V as [V|V]; [congruence|].
      destruct y2; try discriminate. auto.
  - destruct (elements_bare _ _ BB V) as [B1 B2].
    rewrite (gen_bare f def deep b1 b2 y1 y2 b); auto. unfold pointers.
    apply orb_false_iff in V. destruct V as [-> ->]. reflexivity.
Qed.

Lemma inside_ptr y : bare_inside (CPtr y) = true -> bare_or_void y.
Proof. destruct y; intros H; (now left) || (right; exact H). Qed.
Lemma inside_arr n y : bare_inside (CArr n y) = true -> element y.
Proof. intros H. unfold element. destruct y; try discriminate; auto. Qed.
Lemma inside_fun r ps : bare_inside (CFun r ps) = true -> bare (CFun r ps) = true.
Proof. intros H. exact H. Qed.

Lemma compatible_not_fun y r ps : is_fun y = false -> compatible y (CFun r ps) = false.
Proof. destruct y; try discriminate; reflexivity. Qed.
Lemma compatible_fun_not y r ps : is_fun y = false -> compatible (CFun r ps) y = false.
Proof. destruct y; try discriminate; destruct ps; reflexivity. Qed.

Lemma ptr_fun f b1 y1 r2 p2 s qs b : denotes b1 y1 -> bare_or_void y1 ->
  hn (TFcn r2 p2) (CFun s qs) -> bare (CFun s qs) = true -> relaxquals (prims fl) = false ->
  obind (isFunctionReal E access isbool boolaccess f b1) (fun fcn =>
    if fcn then
      obind (base_real f b1) (fun c1 =>
        match c1 with TFcn r1 p1 => functions same (gen f) false r1 p1 r2 p2 | _ => Some false end)
    else Some false) = Some b ->
  b = pointers y1 (CFun s qs).
Proof.
  intros D B1 N2 B2 R K. apply obind_some in K. destruct K as (fcn & F & K).
  destruct (function_real_den _ _ _ _ D F) as [A _].
  assert (is_fun y1 = false -> b = false -> b = pointers y1 (CFun s qs)) as NF.
  { intros Y ->. unfold pointers. cbn [is_void is_fun is_abs negb andb].
    rewrite (compatible_not_fun _ _ _ Y). now destruct (is_void y1). }
  destruct fcn; [|apply NF; [destruct (is_fun y1); auto; specialize (A eq_refl); discriminate|congruence]].
  apply obind_some in K. destruct K as (c & C & K).
  pose proof (base_real_hn _ _ _ _ D C) as N1.
  destruct (is_fun y1) eqn:Y.
  - destruct y1 as [| | | | | | | |y1 xs|]; try discriminate. unfold pointers. cbn [is_void].
    destruct B1 as [B1|B1]; [discriminate|].
    assert (exists r1 p1, c = TFcn r1 p1 /\ denotes r1 y1) as (r1 & p1 & -> & Dr).
    { inversion N1; subst; eauto. }
    eapply (functions_exact f false (matches_bare_all f) R); [exact Dr| |exact N1|exact N2|exact B1|exact B2|exact K].
    inversion N2; subst; assumption.
  - apply NF; [reflexivity|]. destruct N1; try discriminate; try (destruct num; cbn in K; congruence); congruence.
Qed.

Lemma fun_ptr f b2 y2 r1 p1 s qs b : denotes b2 y2 -> bare_or_void y2 ->
  hn (TFcn r1 p1) (CFun s qs) -> bare (CFun s qs) = true -> relaxquals (prims fl) = false ->
  obind (isFunctionReal E access isbool boolaccess f b2) (fun fcn =>
    if fcn then
      obind (base_real f b2) (fun c2 =>
        match c2 with TFcn r2 p2 => functions same (gen f) false r1 p1 r2 p2 | _ => Some false end)
    else Some false) = Some b ->
  b = pointers (CFun s qs) y2.
Proof.
  intros D B2 N1 B1 R K. apply obind_some in K. destruct K as (fcn & F & K).
  destruct (function_real_den _ _ _ _ D F) as [A _].
  assert (is_fun y2 = false -> b = false -> b = pointers (CFun s qs) y2) as NF.
  { intros Y ->. unfold pointers. cbn [is_void is_fun is_abs negb andb].
    rewrite (compatible_fun_not _ _ _ Y). now destruct (is_void y2). }
  destruct fcn; [|apply NF; [destruct (is_fun y2); auto; specialize (A eq_refl); discriminate|congruence]].
  apply obind_some in K. destruct K as (c & C & K).
  pose proof (base_real_hn _ _ _ _ D C) as N2.
  destruct (is_fun y2) eqn:Y.
  - destruct y2 as [| | | | | | | |y2 xs|]; try discriminate. unfold pointers. cbn [is_void].
    destruct B2 as [B2|B2]; [discriminate|].
    assert (exists r2 p2, c = TFcn r2 p2 /\ denotes r2 y2) as (r2 & p2 & -> & Dr).
    { inversion N2; subst; eauto. }
    eapply (functions_exact f false (matches_bare_all f) R); [|exact Dr|exact N1|exact N2|exact B1|exact B2|exact K].
    inversion N1; subst; assumption.
  - apply NF; [reflexivity|]. destruct N2; try discriminate; try (destruct num; cbn in K; congruence); congruence.
Qed.

Lemma element_fun y r ps : element y -> pointers y (CFun r ps) = false /\ pointers (CFun r ps) y = false.
Proof.
  intros (_ & V & F & _). unfold pointers. cbn [is_void]. rewrite V.
  split; [now apply compatible_not_fun|now apply compatible_fun_not].
Qed.

Lemma gen_exact f t1 t2 x1 x2 b : denotes t1 x1 -> denotes t2 x2 ->
  bare_inside x1 = true -> bare_inside x2 = true -> odd_pair x1 x2 = false ->
  relaxquals (prims fl) = false \/ (plain x1 = true /\ plain x2 = true) ->
  gen f false false t1 t2 = Some b -> b = passes widens x1 x2.
Proof.
  intros D1 D2 B1 B2 O R H. destruct f as [|f]; [discriminate|].
  pose proof (matches_bare_all f) as TM.
  destruct (gen_unfold _ _ _ _ _ _ _ _ _ D1 D2 H) as (c1 & c2 & N1 & N2 & K). clear H D1 D2 t1 t2.
  pose proof ST as (NE & AV & CF & FD & BI & EI).
  apply orb_false_iff in O. destruct O as [O O4]. apply orb_false_iff in O. destruct O as [O O3].
  apply orb_false_iff in O. destruct O as [O1 O2].
  assert (forall y xs, relaxquals (prims fl) = false \/ (plain x1 = true /\ plain x2 = true) ->
    x1 = CFun y xs \/ x2 = CFun y xs -> relaxquals (prims fl) = false) as RF.
  { clear. intros y xs [G|(A & B)] Q; [exact G|]. destruct Q as [->| ->]; discriminate. }
  assert (forall n y, relaxquals (prims fl) = false \/ (plain x1 = true /\ plain x2 = true) ->
    x1 = CArr (Some n) y \/ x2 = CArr (Some n) y -> relaxquals (prims fl) = false) as RA.
  { clear. intros n y [G|(A & B)] Q; [exact G|]. destruct Q as [->| ->]; discriminate. }
  destruct N1; try discriminate; destruct N2; try discriminate;
    repeat match goal with K : context [self ?n _] |- _ => is_var n; destruct n end;
    unfold kinds in K; cbn [one_kind other_kinds self forward ua] in K; rewrite ?FD, ?BI, ?EI, ?NB, ?andb_false_r in K;
    cbn [andb] in K; try (injection K as <-; reflexivity);
    try (injection K as <-; destruct x; reflexivity);
    try (injection K as <-; destruct x0; reflexivity);
    try (apply inside_ptr in B1); try (apply inside_ptr in B2);
    try (apply inside_arr in B1); try (apply inside_arr in B2);
    rewrite ?(passes_pointers (CPtr x) (CPtr x0) x x0 eq_refl eq_refl).
  - rewrite close_widens in K by assumption. now injection K as <-.
  - rewrite close_widens in K by (assumption || reflexivity). injection K as <-. cbn.
    unfold widens. destruct (relaxquals (prims fl)); destruct p; try reflexivity; congruence.
  - rewrite close_widens in K by (assumption || reflexivity). injection K as <-. cbn.
    unfold widens. destruct (relaxquals (prims fl)); destruct p; try reflexivity; congruence.
  - cbn. destruct (Bool.eqb u u0); cbn [andb] in *; congruence.
  - injection K as <-. cbn. symmetry. apply Nat.eqb_neq. congruence.
  - injection K as <-. cbn. symmetry. apply Nat.eqb_neq. congruence.
  - (* two pointers *)
    eapply ptrs_top; [eassumption|eassumption|exact B1|exact B2| | | |exact K].
    + destruct x; try reflexivity. now destruct x0 as [| | | | | |[]| | |].
    + destruct x0; try reflexivity. now destruct x as [| | | | | |[]| | |].
    + destruct R as [R|R]; [now left|right]; auto.
  - rewrite (passes_pointers (CPtr x) (CArr None x0) x x0 eq_refl eq_refl).
    eapply ptrs_top; [eassumption|eassumption|exact B1|right; apply B2| | | |exact K].
    + destruct x; try reflexivity. now destruct x0 as [| | | | | |[]| | |].
    + destruct B2 as (_ & -> & _). reflexivity.
    + destruct R as [R|R]; [now left|right]; auto.
  - rewrite (passes_pointers (CPtr x) (CArr (Some n) x0) x x0 eq_refl eq_refl).
    eapply (fixed_top f false false t t0 x x0 b true); [assumption|assumption|discriminate|auto| | |exact K].
    + destruct B2 as (_ & _ & F & _). destruct x, x0; try reflexivity; discriminate.
    + left. eapply RA; [exact R|eauto].
  - rewrite (passes_pointers (CPtr x) (CFun x0 None) x _ eq_refl eq_refl).
    eapply ptr_fun; [eassumption|exact B1| |exact B2|eapply RF; [exact R|eauto]|exact K]. now constructor.
  - rewrite (passes_pointers (CPtr x) (CFun x0 (Some xs)) x _ eq_refl eq_refl).
    eapply ptr_fun; [eassumption|exact B1| |exact B2|eapply RF; [exact R|eauto]|exact K]. now constructor.
  - rewrite (passes_pointers (CArr None x) (CPtr x0) x x0 eq_refl eq_refl).
    eapply array_top; [eassumption|eassumption|left; split; [exact B1|exact B2]| | |exact K].
    + destruct B1 as (_ & _ & F & _). destruct x, x0; try reflexivity; discriminate.
    + destruct R as [R|R]; [now left|right]; auto.
  - rewrite (passes_pointers (CArr None x) (CArr None x0) x x0 eq_refl eq_refl).
    eapply array_top; [eassumption|eassumption|left; split; [exact B1|right; apply B2]| | |exact K].
    + destruct B1 as (_ & _ & F & _), B2 as (_ & _ & F2 & _). destruct x, x0; try reflexivity; discriminate.
    + destruct R as [R|R]; [now left|right]; auto.
  - rewrite (passes_pointers (CArr None x) (CArr (Some n) x0) x x0 eq_refl eq_refl).
    eapply (fixed_top f false false t t0 x x0 b true); [assumption|assumption|discriminate| | | |exact K].
    + intros _. split; [right; apply B1|exact B2].
    + destruct B1 as (_ & _ & F & _), B2 as (_ & _ & F2 & _). destruct x, x0; try reflexivity; discriminate.
    + left. eapply RA; [exact R|eauto].
  - injection K as <-. rewrite (passes_pointers (CArr None x) (CFun x0 None) x _ eq_refl eq_refl).
    symmetry. now apply element_fun.
  - injection K as <-. rewrite (passes_pointers (CArr None x) (CFun x0 (Some xs)) x _ eq_refl eq_refl).
    symmetry. now apply element_fun.
  - rewrite (passes_pointers (CArr (Some n) x) (CPtr x0) x x0 eq_refl eq_refl).
    eapply (fixed_top f false false t t0 x x0 b false); [assumption|assumption|auto|discriminate| | |exact K].
    + destruct B1 as (_ & _ & F & _). destruct x, x0; try reflexivity; discriminate.
    + left. eapply RA; [exact R|eauto].
  - rewrite (passes_pointers (CArr (Some n) x) (CArr None x0) x x0 eq_refl eq_refl).
    eapply (fixed_top f false false t t0 x x0 b false); [assumption|assumption| |discriminate| | |exact K].
    + intros _. split; [exact B1|right; apply B2].
    + destruct B1 as (_ & _ & F & _), B2 as (_ & _ & F2 & _). destruct x, x0; try reflexivity; discriminate.
    + left. eapply RA; [exact R|eauto].
  - rewrite (passes_pointers (CArr (Some n) x) (CArr (Some n0) x0) x x0 eq_refl eq_refl).
    eapply array_top; [eassumption|eassumption|left; split; [exact B1|right; apply B2]| | |exact K].
    + destruct B1 as (_ & _ & F & _), B2 as (_ & _ & F2 & _). destruct x, x0; try reflexivity; discriminate.
    + left. eapply RA; [exact R|eauto].
  - injection K as <-. rewrite (passes_pointers (CArr (Some n) x) (CFun x0 None) x _ eq_refl eq_refl).
    symmetry. now apply element_fun.
  - injection K as <-. rewrite (passes_pointers (CArr (Some n) x) (CFun x0 (Some xs)) x _ eq_refl eq_refl).
    symmetry. now apply element_fun.
  - rewrite (passes_pointers (CFun x None) (CPtr x0) _ x0 eq_refl eq_refl).
    eapply fun_ptr; [eassumption|exact B2| |exact B1|eapply RF; [exact R|eauto]|exact K]. now constructor.
  - injection K as <-. rewrite (passes_pointers (CFun x None) (CArr None x0) _ x0 eq_refl eq_refl).
    symmetry. now apply element_fun.
  - injection K as <-. rewrite (passes_pointers (CFun x None) (CArr (Some n) x0) _ x0 eq_refl eq_refl).
    symmetry. now apply element_fun.
  - change (b = compatible (CFun x None) (CFun x0 None)).
    eapply (functions_exact f false TM); [eapply RF; [exact R|eauto]| | | | |exact B1|exact B2|exact K]; try assumption; constructor; assumption.
  - change (b = compatible (CFun x None) (CFun x0 (Some xs))).
    eapply (functions_exact f false TM); [eapply RF; [exact R|eauto]| | | | |exact B1|exact B2|exact K]; try assumption; constructor; assumption.
  - rewrite (passes_pointers (CFun x (Some xs)) (CPtr x0) _ x0 eq_refl eq_refl).
    eapply fun_ptr; [eassumption|exact B2| |exact B1|eapply RF; [exact R|eauto]|exact K]. now constructor.
  - injection K as <-. rewrite (passes_pointers (CFun x (Some xs)) (CArr None x0) _ x0 eq_refl eq_refl).
    symmetry. now apply element_fun.
  - injection K as <-. rewrite (passes_pointers (CFun x (Some xs)) (CArr (Some n) x0) _ x0 eq_refl eq_refl).
    symmetry. now apply element_fun.
  - change (b = compatible (CFun x (Some xs)) (CFun x0 None)).
    eapply (functions_exact f false TM); [eapply RF; [exact R|eauto]| | | | |exact B1|exact B2|exact K]; try assumption; constructor; assumption.
  - change (b = compatible (CFun x (Some xs)) (CFun x0 (Some xs0))).
    eapply (functions_exact f false TM); [eapply RF; [exact R|eauto]| | | | |exact B1|exact B2|exact K]; try assumption; constructor; assumption.
Qed.
End Exact.

(** * Abstract types *)

Section Abs.
Variable fl : mflags.
Hypothesis FD : forwarddecl fl = false.
Hypothesis NB : forall i, bool_at i = false.

Local Notation gen := (gen E access isbool boolaccess bool_at same fl).
Local Notation typeMatch := (typeMatch same).
Local Notation av := (abstvoidp fl).

Definition match_respects (f : nat) : Prop :=
  forall def deep t1 t2 x1 x2, denotes t1 x1 -> denotes t2 x2 ->
    no_abs_array x1 = true -> no_abs_array x2 = true ->
    typeMatch (gen f) def deep t1 t2 = Some true -> respects av x1 x2 = true.

Lemma void_ptr_respects f b1 b2 y1 y2 : denotes b1 y1 -> denotes b2 y2 ->
  void_ptr E access isbool boolaccess fl f b1 b2 = Some true ->
  av || (negb (is_abs y1) && negb (is_abs y2)) = true.
Proof.
  intros D1 D2 H. unfold void_ptr in H. destruct av; [reflexivity|]. cbn [orb].
  unfold oand in H. apply obind_some in H. destruct H as (v & A & H).
  apply obind_some in A. destruct A as (w & A & [= <-]).
  rewrite (real_abstract_den _ _ _ _ D1 A) in H. destruct (is_abs y1); [discriminate|].
  cbn [negb andb] in *. apply obind_some in H. destruct H as (w' & A' & H).
  rewrite (real_abstract_den _ _ _ _ D2 A') in H. congruence.
Qed.

Lemma ptrs_respects f def b1 b2 y1 y2 : match_respects f -> denotes b1 y1 -> denotes b2 y2 ->
  no_abs_array y1 = true -> no_abs_array y2 = true ->
  ptrs E access isbool boolaccess same fl (gen f) f def b1 b2 = Some true -> respects_pts av y1 y2 = true.
Proof.
  intros TM D1 D2 A1 A2 K. unfold ptrs in K. destruct (isVoid b1 || isVoid b2) eqn:V.
  - apply obind_some in K. destruct K as (fcn & F & K).
    assert (is_void y1 || is_void y2 = true) as V'.
    { apply orb_prop in V. destruct V as [V|V]; [rewrite (void_den _ _ D1 V)|rewrite (void_den _ _ D2 V)];
        cbn; [reflexivity|apply orb_true_r]. }
    unfold respects_pts. rewrite V'. destruct fcn; [|now apply (void_ptr_respects f b1 b2)].
    (* a function: not abstract *)
    unfold oor in F. apply obind_some in F. destruct F as (v1 & F1 & F).
    destruct (function_real_den _ _ _ _ D1 F1) as [_ Q1].
    assert (is_abs y1 = false /\ is_abs y2 = false) as [-> ->]; [|apply orb_true_r].
    destruct v1.
    + assert (is_void y1 = false /\ is_abs y1 = false) as [V1 ->].
      { destruct (Q1 eq_refl) as [Q|(r & ps & ->)]; [|auto]. destruct y1; try discriminate; auto. }
      rewrite V1 in V'. destruct y2; try discriminate; auto.
    + destruct (function_real_den _ _ _ _ D2 F) as [_ Q2].
      assert (is_void y2 = false /\ is_abs y2 = false) as [V2 ->].
      { destruct (Q2 eq_refl) as [Q|(r & ps & ->)]; [|auto]. destruct y2; try discriminate; auto. }
      rewrite V2, orb_false_r in V'. destruct y1; try discriminate; auto.
  - apply obind_some in K. destruct K as (p1 & P1 & K). apply obind_some in K.
    destruct K as (p2 & P2 & K). apply obind_some in K. destruct K as (bad & Q & K).
    destruct bad; [discriminate|]. apply respects_points. eapply TM; eassumption.
Qed.

Lemma arrays_respects f def deep b1 b2 y1 y2 : match_respects f -> denotes b1 y1 -> denotes b2 y2 ->
  no_abs_array y1 = true -> no_abs_array y2 = true ->
  (is_void y1 = false /\ is_abs y1 = false) \/ (is_void y2 = false /\ is_abs y2 = false) ->
  (if isVoid b1 || isVoid b2 then Some true else typeMatch (gen f) def deep b1 b2) = Some true ->
  respects_pts av y1 y2 = true.
Proof.
  intros TM D1 D2 A1 A2 EL K. destruct (isVoid b1 || isVoid b2) eqn:V.
  - assert (is_abs y1 = false /\ is_abs y2 = false /\ is_void y1 || is_void y2 = true) as (Z1 & Z2 & Z3).
    { apply orb_prop in V. destruct V as [V|V].
      - rewrite (void_den _ _ D1 V) in *. cbn in *. destruct EL as [[EL _]|[_ EL]]; [discriminate|auto].
      - rewrite (void_den _ _ D2 V) in *. cbn in *. destruct EL as [[_ EL]|[EL _]]; [auto using orb_true_r|discriminate]. }
    unfold respects_pts. rewrite Z1, Z2, Z3. apply orb_true_r.
  - apply respects_points. eapply TM; eassumption.
Qed.

Lemma params_respects f : match_respects f -> forall ps xs qs ys, denote_all ps xs -> denote_all qs ys ->
  no_abs_all xs = true -> no_abs_all ys = true ->
  all2 (typeMatch (gen f) false false) ps qs = Some true -> respects_all av xs ys = true.
Proof.
  intros TM ps xs qs ys D. revert qs ys.
  induction D as [|p x ps xs Dp Dps IH]; intros qs ys Dq B1 B2 A; destruct Dq as [|q y qs ys Dq Dqs];
    cbn in A; try discriminate; [reflexivity|].
  cbn [no_abs_all] in B1, B2. apply andb_prop in B1, B2. destruct B1 as [B1 B1'], B2 as [B2 B2'].
  unfold oand in A. apply obind_some in A. destruct A as (v & T & A). destruct v; [|discriminate].
  cbn [respects_all]. rewrite (TM false false p q x y) by assumption. cbn [andb]. eapply IH; eassumption.
Qed.

Lemma functions_respects f def : match_respects f -> forall r1 r2 y1 y2 ps qs xs ys,
  hn (TFcn r1 ps) (CFun y1 xs) -> hn (TFcn r2 qs) (CFun y2 ys) ->
  no_abs_array (CFun y1 xs) = true -> no_abs_array (CFun y2 ys) = true ->
  functions same (gen f) def r1 ps r2 qs = Some true ->
  respects av y1 y2 && respects_params av xs ys = true.
Proof.
  intros TM r1 r2 y1 y2 ps qs xs ys N1 N2 B1 B2 F. rewrite no_abs_fun in B1, B2.
  apply andb_prop in B1, B2. destruct B1 as [B1 P1], B2 as [B2 P2].
  unfold functions, oand in F. apply obind_some in F. destruct F as (v & T & F).
  destruct v; [|discriminate].
  rewrite (TM def true r1 r2 y1 y2); [cbn [andb]| | |exact B1|exact B2|exact T].
  - inversion N1; subst; inversion N2; subst; try reflexivity. cbn [matchParams respects_params] in *.
    eapply params_respects; eassumption.
  - inversion N1; subst; assumption.
  - inversion N2; subst; assumption.
Qed.

Lemma fixed_respects f def deep voided b1 b2 y1 y2 :
  (forall def deep t1 t2 x1 x2, denotes t1 x1 -> denotes t2 x2 ->
   no_abs_array x1 = true -> no_abs_array x2 = true ->
   gen f def deep t1 t2 = Some true -> respects av x1 x2 = true) ->
  denotes b1 y1 -> denotes b2 y2 -> no_abs_array y1 = true -> no_abs_array y2 = true ->
  voided = b1 \/ voided = b2 ->
  fixed E access isbool boolaccess fl (gen f) f def deep voided b1 b2 = Some true ->
  respects_pts av y1 y2 = true.
Proof.
  intros IH D1 D2 A1 A2 VV K. unfold fixed in K. destruct (isVoid voided) eqn:V.
  - assert (is_void y1 || is_void y2 = true) as V'.
    { destruct VV as [->| ->]; [rewrite (void_den _ _ D1 V)|rewrite (void_den _ _ D2 V)];
        cbn; [reflexivity|apply orb_true_r]. }
    unfold respects_pts. rewrite V'. now apply (void_ptr_respects f b1 b2).
  - apply respects_points. eapply IH; eassumption.
Qed.

Lemma ptr_fun_respects f def b1 y1 r2 p2 s qs : match_respects f -> denotes b1 y1 ->
  hn (TFcn r2 p2) (CFun s qs) -> no_abs_array y1 = true -> no_abs_array (CFun s qs) = true ->
  obind (isFunctionReal E access isbool boolaccess f b1) (fun fcn =>
    if fcn then
      obind (base_real f b1) (fun c1 =>
        match c1 with TFcn r1 p1 => functions same (gen f) def r1 p1 r2 p2 | _ => Some false end)
    else Some false) = Some true ->
  match y1 with CFun r ps => respects av r s && respects_params av ps qs | _ => true end = true.
Proof.
  intros TM D N2 A1 A2 K. destruct y1 as [| | | | | | | |y1 xs|]; try reflexivity.
  apply obind_some in K. destruct K as (fcn & F & K). destruct fcn; [|discriminate].
  apply obind_some in K. destruct K as (c & C & K). pose proof (base_real_hn _ _ _ _ D C) as N1.
  assert (exists r1 p1, c = TFcn r1 p1) as (r1 & p1 & ->) by (inversion N1; subst; eauto).
  eapply functions_respects; eassumption.
Qed.
Lemma fun_ptr_respects f def b2 y2 r1 p1 s qs : match_respects f -> denotes b2 y2 ->
  hn (TFcn r1 p1) (CFun s qs) -> no_abs_array y2 = true -> no_abs_array (CFun s qs) = true ->
  obind (isFunctionReal E access isbool boolaccess f b2) (fun fcn =>
    if fcn then
      obind (base_real f b2) (fun c2 =>
        match c2 with TFcn r2 p2 => functions same (gen f) def r1 p1 r2 p2 | _ => Some false end)
    else Some false) = Some true ->
  match y2 with CFun r ps => respects av s r && respects_params av qs ps | _ => true end = true.
Proof.
  intros TM D N2 A1 A2 K. destruct y2 as [| | | | | | | |y2 xs|]; try reflexivity.
  apply obind_some in K. destruct K as (fcn & F & K). destruct fcn; [|discriminate].
  apply obind_some in K. destruct K as (c & C & K). pose proof (base_real_hn _ _ _ _ D C) as N1.
  assert (exists r2 p2, c = TFcn r2 p2) as (r2 & p2 & ->) by (inversion N1; subst; eauto).
  eapply functions_respects; eassumption.
Qed.

Lemma gen_respects f : forall def deep t1 t2 x1 x2, denotes t1 x1 -> denotes t2 x2 ->
  no_abs_array x1 = true -> no_abs_array x2 = true ->
  gen f def deep t1 t2 = Some true -> respects av x1 x2 = true.
Proof.
  induction f as [|f IH]; intros def deep t1 t2 x1 x2 D1 D2 A1 A2 H; [discriminate|].
  assert (match_respects f) as TM.
  { clear - IH same_eq. intros def deep t1 t2 x1 x2 D1 D2 A1 A2 T.
    destruct (type_match_cases fl _ _ _ _ _ _ _ _ D1 D2 T) as
      [(-> & -> & _)|[(_ & _ & Q)|[(_ & _ & -> & _)|(_ & _ & T')]]].
    - reflexivity.
    - discriminate.
    - apply respects_refl.
    - eapply IH; eassumption. }
  destruct (gen_unfold _ _ _ _ _ _ _ _ _ D1 D2 H) as (c1 & c2 & N1 & N2 & K). clear H D1 D2 t1 t2.
  destruct N1; destruct N2;
    repeat match goal with K : context [self ?n _] |- _ => is_var n; destruct n end;
    try reflexivity;
    unfold kinds in K; cbn [one_kind other_kinds self forward ua] in K; rewrite ?FD, ?NB in K;
    cbn [andb] in K; try discriminate;
    rewrite ?respects_ptr, ?respects_ptr_arr, ?respects_arr_ptr, ?respects_arr, ?respects_fun,
      ?respects_fun_ptr, ?respects_ptr_fun;
    try (now injection K as K);
    try (apply no_abs_arr in A1; destruct A1 as (A1v & A1a & A1));
    try (apply no_abs_arr in A2; destruct A2 as (A2v & A2a & A2)).
  - eapply ptrs_respects; eassumption.
  - destruct def; [discriminate|]. eapply ptrs_respects; eassumption.
  - destruct def; [discriminate|]. eapply fixed_respects; [exact IH| | | | | |exact K]; auto.
  - eapply ptr_fun_respects; [exact TM|eassumption| |exact A1|exact A2|exact K]. now constructor.
  - eapply ptr_fun_respects; [exact TM|eassumption| |exact A1|exact A2|exact K]. now constructor.
  - destruct def; [discriminate|]. eapply arrays_respects; [exact TM| | | | | |exact K]; auto.
  - eapply arrays_respects; [exact TM| | | | | |exact K]; auto.
  - eapply fixed_respects; [exact IH| | | | | |exact K]; auto.
  - destruct def; [discriminate|]. eapply fixed_respects; [exact IH| | | | | |exact K]; auto.
  - eapply fixed_respects; [exact IH| | | | | |exact K]; auto.
  - eapply arrays_respects; [exact TM| | | | | |exact K]; auto.
  - eapply fun_ptr_respects; [exact TM|eassumption| |exact A2|exact A1|exact K]. now constructor.
  - eapply functions_respects; [exact TM| | |exact A1|exact A2|exact K]; now constructor.
  - eapply functions_respects; [exact TM| | |exact A1|exact A2|exact K]; now constructor.
  - eapply fun_ptr_respects; [exact TM|eassumption| |exact A2|exact A1|exact K]. now constructor.
  - eapply functions_respects; [exact TM| | |exact A1|exact A2|exact K]; now constructor.
  - eapply functions_respects; [exact TM| | |exact A1|exact A2|exact K]; now constructor.
Qed.
End Abs.
End Names.
