(** Proofs about the check of formats. *)
From Verif Require Import Cbase Prim_model Tspec_model Format_model Format_spec.

Local Open Scope nat_scope.

(** * Lengths *)

Lemma skip_while_le p s : List.length (skip_while p s) <= List.length s.
Proof.
  induction s as [|c s IH]; cbn [skip_while]; [lia|].
  destruct (p c); cbn [List.length]; lia.
Qed.

Lemma tl_le (s : cstr) : List.length (tl s) <= List.length s.
Proof. destruct s; cbn [tl List.length]; lia. Qed.

Lemma find_percent_lt s r : find_percent s = Some r -> List.length r < List.length s.
Proof.
  induction s as [|c s IH]; cbn [find_percent]; [discriminate|].
  destruct (Ascii.eqb c "%"); [intros [= ->]; cbn; lia|].
  intros H. specialize (IH H). cbn [List.length]. lia.
Qed.

Lemma precision_le s : List.length (precision s) <= List.length s.
Proof.
  unfold precision. destruct (is "." s); [|lia]. pose proof (tl_le s).
  destruct (is "*" (tl s)); [lia|]. pose proof (skip_while_le is_digit (tl s)). lia.
Qed.

Lemma modify_le s : List.length (snd (modify s)) <= List.length s.
Proof.
  pose proof (tl_le s). pose proof (tl_le (tl s)).
  unfold modify. destruct (is "h" s); [destruct (is "h" (tl s)); cbn [snd]; lia|].
  destruct (is_l s); [destruct (is_l (tl s)); cbn [snd]; lia|]. cbn [snd]; lia.
Qed.

Lemma find_bracket_le s r : find_bracket s = Some r -> List.length r <= List.length s.
Proof.
  induction s as [|c s IH]; cbn [find_bracket]; [discriminate|].
  destruct (Ascii.eqb c "]"); [intros [= <-]; lia|].
  intros H. specialize (IH H). cbn [List.length]. lia.
Qed.

Lemma set_end_le s r : set_end s = inr r -> List.length r <= List.length s.
Proof.
  destruct s as [|c s]; cbn [set_end]; [discriminate|].
  destruct (find_bracket s) as [r'|] eqn:E; [|discriminate]. intros [= <-].
  apply find_bracket_le in E. cbn [List.length]. lia.
Qed.

Lemma skipn_add {X} b : forall a (l : list X), skipn a (skipn b l) = skipn (b + a) l.
Proof.
  induction b as [|b IH]; intros a l; [reflexivity|].
  destruct l as [|x l]; [cbn; now destruct a|]. cbn [skipn Nat.add]. apply IH.
Qed.

Section Check.
Variable A : Type.
Variable is_error : A -> bool.
Variable matches : fty -> A -> bool.
Variable ignore : bool.

Lemma printf_switch_le k m s t ms r :
  printf_switch ignore k m s = inr (t, ms, r) -> List.length r <= S (List.length s).
Proof.
  unfold printf_switch. destruct (combine ignore (Prim P_UINT) m), (combine ignore (Prim P_INT) m),
    (combine ignore (Prim P_DOUBLE) m).
  repeat match goal with |- context [if ?b then _ else _] => destruct b end;
    try (intros [= <- <- <-]; cbn [List.length]; lia); try discriminate.
  destruct (set_end s) as [|r'] eqn:E; [discriminate|]. intros [= <- <- <-].
  apply set_end_le in E. lia.
Qed.

Lemma scanf_switch_le k m q s t ms r :
  scanf_switch ignore k m q s = inr (t, ms, r) -> List.length r <= S (List.length s).
Proof.
  unfold scanf_switch. destruct (combine ignore (Prim P_UINT) m), (combine ignore (Prim P_INT) m).
  destruct (Ascii.eqb q "l"), (Ascii.eqb q "L");
  repeat match goal with |- context [if ?b then _ else _] => destruct b end;
    try (intros [= <- <- <-]; cbn [List.length]; lia); try discriminate;
  (destruct (set_end s) as [|r'] eqn:E; [discriminate|]; intros [= <- <- <-];
   apply set_end_le in E; lia).
Qed.

Local Notation ploop := (printf_loop A is_error matches ignore).
Local Notation sloop := (scanf_loop A is_error matches ignore).

Ltac use_ih IH :=
  match goal with
  | |- context [printf_loop _ _ _ _ ?n1 ?s ?a ?i] =>
      match goal with
      | |- context [printf_loop _ _ _ _ ?n2 s a i] =>
          tryif constr_eq n1 n2 then fail else rewrite (IH n2 s a i) by lia
      end
  end.

Lemma printf_fuel n : forall m s args i, List.length s < n -> List.length s < m ->
  ploop n s args i = ploop m s args i.
Proof.
  induction n as [|n IH]; intros m s args i Hn Hm; [lia|]. destruct m as [|m]; [lia|].
  cbn [printf_loop]. destruct (find_percent s) as [r|] eqn:E; [|reflexivity].
  apply find_percent_lt in E.
  pose proof (skip_while_le isFlagKey r) as L1. set (r1 := skip_while isFlagKey r) in *.
  destruct (is "m" r1); [apply IH; lia|].
  pose proof (skip_while_le is_digit r1) as L2. set (r2 := skip_while is_digit r1) in *.
  pose proof (precision_le r2) as L3. set (r3 := precision r2) in *.
  pose proof (modify_le r3) as L4. destruct (modify r3) as [[mt q] r4]. cbn [snd] in L4.
  destruct r4 as [|k r5]; [reflexivity|]. cbn [List.length] in L4.
  destruct (Ascii.eqb k "%"); [apply IH; lia|].
  destruct args as [|a args]; [rewrite (IH m) by lia; reflexivity|].
  destruct (is_error a); [apply IH; lia|].
  destruct (printf_switch ignore k mt r5) as [e|[[t ms] r6]] eqn:SW; [reflexivity|].
  apply printf_switch_le in SW. rewrite (IH m) by lia. reflexivity.
Qed.

Lemma scanf_fuel n : forall m s args i, List.length s < n -> List.length s < m ->
  sloop n s args i = sloop m s args i.
Proof.
  induction n as [|n IH]; intros m s args i Hn Hm; [lia|]. destruct m as [|m]; [lia|].
  cbn [scanf_loop]. destruct (find_percent s) as [r|] eqn:E; [|reflexivity].
  apply find_percent_lt in E.
  assert (List.length (if is "*" r then tl r else r) <= List.length r) as L1.
  { destruct (is "*" r); [apply tl_le|lia]. }
  set (r1 := if is "*" r then tl r else r) in *.
  pose proof (skip_while_le is_digit r1) as L2. set (r2 := skip_while is_digit r1) in *.
  pose proof (modify_le r2) as L4. destruct (modify r2) as [[mt q] r4]. cbn [snd] in L4.
  destruct r4 as [|k r5]; [reflexivity|]. cbn [List.length] in L4.
  destruct (Ascii.eqb k "%" || is "*" r); [apply IH; lia|].
  destruct args as [|a args]; [rewrite (IH m) by lia; reflexivity|].
  destruct (is_error a); [apply IH; lia|].
  destruct (scanf_switch ignore k mt q r5) as [e|[[t ms] r6]] eqn:SW; [reflexivity|].
  apply scanf_switch_le in SW. rewrite (IH m) by lia. reflexivity.
Qed.

(** The loops with just enough fuel. *)
Definition prun (s : cstr) (args : list A) (i : nat) := ploop (S (List.length s)) s args i.
Definition srun (s : cstr) (args : list A) (i : nat) := sloop (S (List.length s)) s args i.

Definition prepend (ms : list msg) (r : list msg * ending) : list msg * ending :=
  (ms ++ fst r, snd r).

Lemma prepend_nil r : prepend [] r = r.
Proof. now destruct r. Qed.
Lemma prepend_app a b r : prepend (a ++ b) r = prepend a (prepend b r).
Proof. unfold prepend. cbn [fst snd]. now rewrite app_assoc. Qed.

(** One turn of the loop of printf, at a percent sign. *)
Definition pturn (s : cstr) (args : list A) (i : nat) : list msg * ending :=
  let s := skip_while isFlagKey s in
  if is "m" s then prun s args i
  else
    let '(m, _, s) := modify (precision (skip_while is_digit s)) in
    match s with
    | [] => (match args with
             | [] => [NoArg i]
             | a :: _ => if is_error a then [] else [Unrecognised]
             end, Overrun)
    | k :: s =>
        if Ascii.eqb k "%" then prun s args i
        else match args with
             | [] => prepend [NoArg i] (prun s [] (S i))
             | a :: args =>
                 if is_error a then prun s args (S i)
                 else match printf_switch ignore k m s with
                      | inl e => ([], e)
                      | inr (t, ms, s) =>
                          prepend (ms ++ mismatch A matches (S i) t a) (prun s args (S i))
                      end
             end
    end.

Lemma prun_eq s args i :
  prun s args i = match find_percent s with
                  | None => (left_over A i args, Finished)
                  | Some r => pturn r args i
                  end.
Proof.
  unfold prun at 1. cbn [printf_loop]. destruct (find_percent s) as [r|] eqn:E; [|reflexivity].
  apply find_percent_lt in E. unfold pturn, prun, prepend.
  pose proof (skip_while_le isFlagKey r) as L1. set (r1 := skip_while isFlagKey r) in *.
  destruct (is "m" r1); [apply printf_fuel; lia|].
  pose proof (skip_while_le is_digit r1) as L2. set (r2 := skip_while is_digit r1) in *.
  pose proof (precision_le r2) as L3. set (r3 := precision r2) in *.
  pose proof (modify_le r3) as L4. destruct (modify r3) as [[mt q] r4]. cbn [snd] in L4.
  destruct r4 as [|k r5]; [reflexivity|]. cbn [List.length] in L4.
  destruct (Ascii.eqb k "%"); [apply printf_fuel; lia|].
  destruct args as [|a args].
  { rewrite (printf_fuel (List.length s) (S (List.length r5))) by lia.
    now destruct (ploop (S (List.length r5)) r5 [] (S i)). }
  destruct (is_error a); [apply printf_fuel; lia|].
  destruct (printf_switch ignore k mt r5) as [e|[[t ms] r6]] eqn:SW; [reflexivity|].
  apply printf_switch_le in SW.
  rewrite (printf_fuel (List.length s) (S (List.length r6))) by lia.
  destruct (ploop (S (List.length r6)) r6 args (S i)). cbn [fst snd]. now rewrite app_assoc.
Qed.

(** One turn of the loop of scanf. *)
Definition sturn (s : cstr) (args : list A) (i : nat) : list msg * ending :=
  let ign := is "*" s in
  let s := if ign then tl s else s in
  let '(m, q, s) := modify (skip_while is_digit s) in
  match s with
  | [] => (if ign then []
           else match args with
                | [] => [NoArg i]
                | a :: _ => if is_error a then [] else [Unrecognised]
                end, Overrun)
  | k :: s =>
      if Ascii.eqb k "%" || ign then srun s args i
      else match args with
           | [] => prepend [NoArg i] (srun s [] (S i))
           | a :: args =>
               if is_error a then srun s args (S i)
               else match scanf_switch ignore k m q s with
                    | inl e => ([], e)
                    | inr (t, ms, s) =>
                        prepend (ms ++ mismatch A matches (S i) t a) (srun s args (S i))
                    end
           end
  end.

Lemma srun_eq s args i :
  srun s args i = match find_percent s with
                  | None => (left_over A i args, Finished)
                  | Some r => sturn r args i
                  end.
Proof.
  unfold srun at 1. cbn [scanf_loop]. destruct (find_percent s) as [r|] eqn:E; [|reflexivity].
  apply find_percent_lt in E. unfold sturn, srun, prepend.
  assert (List.length (if is "*" r then tl r else r) <= List.length r) as L1.
  { destruct (is "*" r); [apply tl_le|lia]. }
  set (r1 := if is "*" r then tl r else r) in *.
  pose proof (skip_while_le is_digit r1) as L2. set (r2 := skip_while is_digit r1) in *.
  pose proof (modify_le r2) as L4. destruct (modify r2) as [[mt q] r4]. cbn [snd] in L4.
  destruct r4 as [|k r5]; [reflexivity|]. cbn [List.length] in L4.
  destruct (Ascii.eqb k "%" || is "*" r); [apply scanf_fuel; lia|].
  destruct args as [|a args].
  { rewrite (scanf_fuel (List.length s) (S (List.length r5))) by lia.
    now destruct (sloop (S (List.length r5)) r5 [] (S i)). }
  destruct (is_error a); [apply scanf_fuel; lia|].
  destruct (scanf_switch ignore k mt q r5) as [e|[[t ms] r6]] eqn:SW; [reflexivity|].
  apply scanf_switch_le in SW.
  rewrite (scanf_fuel (List.length s) (S (List.length r6))) by lia.
  destruct (sloop (S (List.length r6)) r6 args (S i)). cbn [fst snd]. now rewrite app_assoc.
Qed.

(** * Text without percent sign *)

Lemma find_percent_text t R : no_percent t -> find_percent (t ++ R) = find_percent R.
Proof.
  unfold no_percent. induction t as [|c t IH]; intros N; [reflexivity|].
  cbn [app find_percent]. destruct (Ascii.eqb_spec c "%"); [subst; exfalso; apply N; now left|].
  apply IH. intros H. apply N. now right.
Qed.

Lemma prun_text t R args i : no_percent t -> prun (t ++ R) args i = prun R args i.
Proof. intros N. rewrite !prun_eq, find_percent_text; auto. Qed.
Lemma srun_text t R args i : no_percent t -> srun (t ++ R) args i = srun R args i.
Proof. intros N. rewrite !srun_eq, find_percent_text; auto. Qed.

(** * Pieces which take arguments *)

(** What is said of the arguments for the items: the type compared with and further messages. *)
Fixpoint said (its : list (fty * list msg)) (args : list A) (i : nat) : list msg :=
  match its, args with
  | (t, ms) :: its, a :: args => (ms ++ mismatch A matches (S i) t a) ++ said its args (S i)
  | _, _ => []
  end.

Section Pieces.
Variable run : cstr -> list A -> nat -> list msg * ending.
Variable P : Type.
Variable text : P -> cstr.
Variable items : P -> list (fty * list msg).
Variable ok : P -> Prop.
Definition good (args : list A) : Prop := Forall (fun a => is_error a = false) args.
Hypothesis run_nil : forall args i, run [] args i = (left_over A i args, Finished).
Hypothesis run_enough : forall p R args i, ok p -> good args ->
  List.length (items p) <= List.length args ->
  run (text p ++ R) args i
  = prepend (said (items p) args i)
            (run R (skipn (List.length (items p)) args) (i + List.length (items p))).
Hypothesis run_few : forall p R args i, ok p -> good args ->
  List.length args < List.length (items p) ->
  exists ms j, run (text p ++ R) args i
            = prepend (said (items p) args i ++ NoArg (i + List.length args) :: ms) (run R [] j).

Lemma said_app l1 : forall l2 args i, List.length l1 <= List.length args ->
  said (l1 ++ l2) args i
  = said l1 args i ++ said l2 (skipn (List.length l1) args) (i + List.length l1).
Proof.
  induction l1 as [|[t ms] l1 IH]; intros l2 args i L; cbn [app List.length skipn].
  - destruct args; now rewrite Nat.add_0_r.
  - destruct args as [|a args]; [cbn in L; lia|]. cbn [said List.length skipn] in *.
    rewrite IH by lia. rewrite !app_assoc. do 2 f_equal. lia.
Qed.

Lemma said_few l1 : forall l2 args i, List.length args <= List.length l1 ->
  said (l1 ++ l2) args i = said l1 args i.
Proof.
  induction l1 as [|[t ms] l1 IH]; intros l2 args i L; cbn [app List.length] in *.
  - destruct args; [|cbn in L; lia]. destruct l2 as [|[? ?] ?]; reflexivity.
  - destruct args as [|a args]; [reflexivity|]. cbn [said List.length] in *. now rewrite IH by lia.
Qed.

Lemma said_none its i : said its [] i = [].
Proof. destruct its as [|[? ?] ?]; reflexivity. Qed.

Lemma good_skipn n args : good args -> good (skipn n args).
Proof.
  unfold good. rewrite !Forall_forall. intros G x I. apply G.
  rewrite <- (firstn_skipn n args). apply in_or_app. now right.
Qed.

Lemma pieces_nothing f : Forall ok f -> forall i,
  exists ms, run (List.concat (map text f)) [] i = (ms, Finished).
Proof.
  induction 1 as [|p f W F IH]; intros i; cbn [map List.concat].
  - rewrite run_nil. eauto.
  - destruct (items p) as [|it its] eqn:E.
    + rewrite run_enough; [|exact W|constructor|rewrite E; cbn; lia].
      rewrite E. cbn [List.length skipn]. destruct (IH (i + 0)) as [ms ->]. unfold prepend. eauto.
    + destruct (run_few p (List.concat (map text f)) [] i W) as (ms0 & j & ->);
        [constructor|rewrite E; cbn; lia|].
      destruct (IH j) as [ms ->]. unfold prepend. eauto.
Qed.

Lemma pieces_run f : Forall ok f -> forall args i, good args ->
  let its := List.concat (map items f) in
  if Nat.leb (List.length its) (List.length args) then
    run (List.concat (map text f)) args i
    = (said its args i ++ left_over A (i + List.length its) (skipn (List.length its) args), Finished)
  else exists ms,
    run (List.concat (map text f)) args i
    = (said its args i ++ NoArg (i + List.length args) :: ms, Finished).
Proof.
  induction 1 as [|p f W F IH]; intros args i G; cbn [map List.concat].
  - cbn [List.length Nat.leb skipn]. rewrite run_nil, Nat.add_0_r. now destruct args.
  - cbn zeta in *. rewrite app_length.
    destruct (Nat.leb (List.length (items p)) (List.length args)) eqn:E.
    + apply Nat.leb_le in E. rewrite (run_enough p _ args i W G E).
      set (n := List.length (items p)) in *.
      specialize (IH (skipn n args) (i + n) (good_skipn n args G)).
      rewrite skipn_length in IH.
      rewrite said_app by exact E. fold n.
      destruct (Nat.leb (n + List.length (List.concat (map items f))) (List.length args)) eqn:E2.
      * apply Nat.leb_le in E2.
        replace (Nat.leb _ (List.length args - n)) with true in IH
          by (symmetry; apply Nat.leb_le; lia).
        rewrite IH. unfold prepend. cbn [fst snd]. rewrite <- app_assoc, Nat.add_assoc.
        do 3 f_equal. now rewrite skipn_add.
      * apply Nat.leb_gt in E2.
        replace (Nat.leb _ (List.length args - n)) with false in IH
          by (symmetry; apply Nat.leb_gt; lia).
        destruct IH as [ms IH]. exists ms. rewrite IH. unfold prepend. cbn [fst snd].
        rewrite <- app_assoc. now replace (i + n + (List.length args - n)) with (i + List.length args) by lia.
    + apply Nat.leb_gt in E.
      replace (Nat.leb _ (List.length args)) with false by (symmetry; apply Nat.leb_gt; lia).
      destruct (run_few p (List.concat (map text f)) args i W G E) as (ms0 & j & ->).
      destruct (pieces_nothing f F j) as [ms ->].
      exists (ms0 ++ ms). unfold prepend. cbn [fst snd]. rewrite said_few by lia.
      now rewrite <- app_assoc.
Qed.
End Pieces.

(** * Directives of printf *)

Definition mod_ct (m : modifier) : ct :=
  Prim match m with
       | Mnone => P_INT | Mhh => P_CHAR | Mh => P_SINT | Ml | ML => P_LINT | Mll => P_LLINT
       end.
Definition conv_ok (k : ascii) : Prop := one_of k (lit "diouxXfeEgGcspn") = true.

Lemma conv_cases k : conv_ok k -> In k (lit "diouxXfeEgGcspn").
Proof.
  unfold conv_ok, one_of. rewrite existsb_exists. intros (x & I & E).
  apply Ascii.eqb_eq in E. now subst.
Qed.

Ltac conv_destruct C :=
  apply conv_cases in C; cbn in C;
  repeat (destruct C as [C|C]; [subst|]); [..|contradiction].

Definition pitem (m : modifier) (k : ascii) : fty * list msg :=
  match printf_switch ignore k (mod_ct m) [] with inr (t, ms, _) => (t, ms) | inl _ => (FUnknown, []) end.

Lemma printf_switch_conv m k R : conv_ok k ->
  printf_switch ignore k (mod_ct m) R = inr (fst (pitem m k), snd (pitem m k), R).
Proof.
  intros C. unfold pitem, printf_switch.
  destruct (combine ignore (Prim P_UINT) (mod_ct m)), (combine ignore (Prim P_INT) (mod_ct m)),
    (combine ignore (Prim P_DOUBLE) (mod_ct m)).
  conv_destruct C; reflexivity.
Qed.

Lemma modify_conv m k R : conv_ok k ->
  exists q, modify (modifier_text m ++ k :: R) = (mod_ct m, q, k :: R).
Proof. intros C. conv_destruct C; destruct m; eexists; reflexivity. Qed.

Definition plain_head (T : cstr) : Prop :=
  exists c r, T = c :: r /\ isFlagKey c = false /\ is_digit c = false /\ c <> "m"%char.

Lemma skip_while_app p xs c r :
  forallb p xs = true -> p c = false -> skip_while p (xs ++ c :: r) = c :: r.
Proof.
  induction xs as [|x xs IH]; cbn [forallb app skip_while]; intros F N; [now rewrite N|].
  apply andb_prop in F. destruct F as [F1 F2]. rewrite F1. auto.
Qed.

Lemma flag_cases c : isFlagKey c = true -> In c (lit "-+ #").
Proof.
  unfold isFlagKey. rewrite !orb_true_iff, !Ascii.eqb_eq. cbn. intuition.
Qed.

Lemma digit_not_flag c : is_digit c = true -> isFlagKey c = false.
Proof.
  intros D. destruct (isFlagKey c) eqn:F; [|reflexivity].
  apply flag_cases in F. cbn in F.
  repeat (destruct F as [F|F]; [subst; discriminate|]). contradiction.
Qed.

Lemma parse_front fl zs T :
  forallb isFlagKey fl = true -> forallb is_digit zs = true -> plain_head T ->
  let s := skip_while isFlagKey (fl ++ zs ++ T) in
  is "m" s = false /\ skip_while is_digit s = T.
Proof.
  intros F Z (c & r & -> & N1 & N2 & N3). cbn zeta.
  assert (skip_while isFlagKey (fl ++ zs ++ c :: r) = zs ++ c :: r) as ->.
  { destruct zs as [|z zs]; [now apply skip_while_app|].
    cbn [app]. apply skip_while_app; [exact F|]. cbn [forallb] in Z.
    apply andb_prop in Z. destruct Z as [Z _]. now apply digit_not_flag. }
  split; [|now apply skip_while_app].
  destruct zs as [|z zs]; unfold is; cbn [app key].
  - now apply Ascii.eqb_neq.
  - cbn [forallb] in Z. apply andb_prop in Z. destruct Z as [Z _].
    apply Ascii.eqb_neq. intros ->. discriminate.
Qed.

(** One argument for a conversion or a star. *)
Definition take (t : fty) (ms : list msg) (r0 r1 : cstr) (args : list A) (i : nat) :=
  match args with
  | [] => prepend [NoArg i] (prun r0 [] (S i))
  | a :: args => if is_error a then prun r0 args (S i)
                 else prepend (ms ++ mismatch A matches (S i) t a) (prun r1 args (S i))
  end.

Lemma conv_not_percent k : conv_ok k -> Ascii.eqb k "%" = false.
Proof. intros C. conv_destruct C; reflexivity. Qed.

Lemma pturn_conv fl zs T m q k R args i :
  forallb isFlagKey fl = true -> forallb is_digit zs = true -> plain_head T -> conv_ok k ->
  modify (precision T) = (mod_ct m, q, k :: R) ->
  pturn (fl ++ zs ++ T) args i = take (fst (pitem m k)) (snd (pitem m k)) R R args i.
Proof.
  intros F Z H C E. unfold pturn. destruct (parse_front fl zs T F Z H) as [E1 E2].
  cbn zeta in E1, E2. rewrite E1, E2, E, (conv_not_percent k C). unfold take.
  destruct args as [|a args]; [reflexivity|]. destruct (is_error a); [reflexivity|].
  now rewrite printf_switch_conv.
Qed.

Lemma pturn_star fl zs T q R args i :
  forallb isFlagKey fl = true -> forallb is_digit zs = true -> plain_head T ->
  modify (precision T) = (Prim P_INT, q, "*"%char :: R) ->
  pturn (fl ++ zs ++ T) args i = take (FNum (Prim P_INT)) [] R ("%"%char :: R) args i.
Proof.
  intros F Z H E. unfold pturn. destruct (parse_front fl zs T F Z H) as [E1 E2].
  cbn zeta in E1, E2. rewrite E1, E2, E. reflexivity.
Qed.

(** The text behind the precision, and the text from the precision on. *)
Definition mtext (m : modifier) (k : ascii) : cstr := modifier_text m ++ [k].

Lemma mtext_head m k R : conv_ok k -> plain_head (mtext m k ++ R).
Proof.
  intros C. unfold plain_head, mtext.
  conv_destruct C; destruct m; cbn; do 2 eexists; (split; [reflexivity|]);
    repeat split; discriminate.
Qed.

Lemma mtext_no_dot m k R : conv_ok k -> precision (mtext m k ++ R) = mtext m k ++ R.
Proof. intros C. unfold mtext. conv_destruct C; destruct m; reflexivity. Qed.

Lemma mtext_no_percent m k : conv_ok k -> no_percent (mtext m k).
Proof.
  intros C I. unfold mtext in I.
  conv_destruct C; destruct m; cbn in I; repeat (destruct I as [I|I]; [discriminate|]); contradiction.
Qed.

Lemma mtext_modify m k R : conv_ok k -> exists q, modify (mtext m k ++ R) = (mod_ct m, q, k :: R).
Proof. intros C. unfold mtext. rewrite <- app_assoc. now apply modify_conv. Qed.

Lemma digits_no_percent ds : forallb is_digit ds = true -> no_percent ds.
Proof.
  intros D I. rewrite forallb_forall in D. specialize (D _ I). discriminate.
Qed.

Lemma prun_percent R args i : prun ("%"%char :: R) args i = pturn R args i.
Proof. rewrite prun_eq. reflexivity. Qed.

(** From the precision on, behind flags and digits. *)
Definition pmitems (pr : option amount) (m : modifier) (k : ascii) : list (fty * list msg) :=
  map (fun t => (t, [])) (star_arg pr) ++ [pitem m k].

Lemma take_enough t ms r0 r1 a args i : is_error a = false ->
  take t ms r0 r1 (a :: args) i
  = prepend (ms ++ mismatch A matches (S i) t a) (prun r1 args (S i)).
Proof. intros E. unfold take. now rewrite E. Qed.

Lemma from_precision fl zs pr m k R args i :
  forallb isFlagKey fl = true -> forallb is_digit zs = true -> opt_wf pr -> conv_ok k -> good args ->
  let t := pturn (fl ++ zs ++ opt_text (lit ".") pr ++ mtext m k ++ R) args i in
  let its := pmitems pr m k in
  if Nat.leb (List.length its) (List.length args) then
    t = prepend (said its args i) (prun R (skipn (List.length its) args) (i + List.length its))
  else exists j, t = prepend (said its args i ++ [NoArg (i + List.length args)]) (prun R [] j).
Proof.
  intros F Z W C G. cbn zeta.
  (* the conversion itself *)
  assert (forall fl zs T args i q, forallb isFlagKey fl = true -> forallb is_digit zs = true ->
            plain_head T -> modify (precision T) = (mod_ct m, q, k :: R) -> good args ->
            let its := [pitem m k] in
            if Nat.leb 1 (List.length args) then
              pturn (fl ++ zs ++ T) args i
              = prepend (said its args i) (prun R (skipn 1 args) (i + 1))
            else exists j, pturn (fl ++ zs ++ T) args i
                           = prepend (said its args i ++ [NoArg (i + List.length args)])
                                     (prun R [] j)) as LAST.
  { clear - C. intros fl zs T args i q F Z H E G. cbn zeta.
    rewrite (pturn_conv fl zs T m q k R args i F Z H C E).
    destruct args as [|a args]; cbn [List.length Nat.leb].
    - exists (S i). rewrite said_none, Nat.add_0_r. reflexivity.
    - inversion G as [|? ? G1 G2]; subst. rewrite take_enough by exact G1.
      cbn [said skipn]. destruct (pitem m k) as [t ms]. cbn [fst snd].
      destruct args; cbn [said]; rewrite app_nil_r; do 2 f_equal; lia. }
  destruct (mtext_modify m k R C) as [q Q].
  destruct pr as [[ds|]|]; cbn [opt_text amount_text pmitems star_arg map app List.length].
  - (* digits *)
    apply (LAST _ _ _ _ _ q F Z); [|  |exact G].
    + do 2 eexists. split; [reflexivity|]. repeat split; discriminate.
    + unfold precision, is. cbn [app lit list_ascii_of_string key Ascii.eqb tl].
      cbn [opt_wf amount_wf] in W.
      destruct (mtext_head m k R C) as (c & r & E & N1 & N2 & N3).
      rewrite E in Q |- *. rewrite skip_while_app by assumption.
      replace (Ascii.eqb (key (ds ++ c :: r)) "*") with false; [exact Q|].
      symmetry. destruct ds as [|d ds].
      * cbn [app key]. destruct (Ascii.eqb_spec c "*"); [|reflexivity]. subst c.
        exfalso. revert E. unfold mtext. clear - C. conv_destruct C; destruct m; discriminate.
      * cbn [app key forallb] in *. apply andb_prop in W. destruct W as [W _].
        destruct (Ascii.eqb_spec d "*"); [subst; discriminate|reflexivity].
  - (* star *)
    change (lit "." ++ lit "*") with (lit ".*"). rewrite <- app_assoc || idtac.
    assert (plain_head (lit ".*" ++ mtext m k ++ R)) as H.
    { do 2 eexists. split; [reflexivity|]. repeat split; discriminate. }
    rewrite (pturn_star fl zs _ nul (mtext m k ++ R) args i F Z H eq_refl).
    destruct args as [|a args]; cbn [List.length Nat.leb].
    + exists (S i). rewrite said_none, Nat.add_0_r. cbn [take].
      rewrite prun_text by now apply mtext_no_percent. reflexivity.
    + inversion G as [|? ? G1 G2]; subst. rewrite take_enough by exact G1. rewrite prun_percent.
      specialize (LAST [] [] (mtext m k ++ R) args (S i) q eq_refl eq_refl (mtext_head m k R C)).
      rewrite (mtext_no_dot m k R C) in LAST. specialize (LAST Q G2). cbn zeta in LAST.
      cbn [app] in LAST. destruct args as [|b args]; cbn [List.length Nat.leb skipn] in *.
      * destruct LAST as [j ->]. exists j.
        rewrite <- prepend_app. destruct (pitem m k) as [tk mk]. cbn [said app].
        rewrite ?app_nil_r, <- ?app_assoc; cbn [app]; now replace (S i + 0) with (i + 1) by lia.
      * rewrite LAST, <- prepend_app. destruct (pitem m k) as [tk mk]. cbn [said app].
        now replace (S i + 1) with (i + 2) by lia.
  - apply (LAST _ _ _ _ _ q F Z); [now apply mtext_head| |exact G].
    now rewrite mtext_no_dot.
Qed.

Definition pditems (d : pdirective) : list (fty * list msg) :=
  map (fun t => (t, [])) (star_arg (p_width d)) ++ pmitems (p_precision d) (p_modifier d) (p_conv d).
Definition pitems (p : ppiece) : list (fty * list msg) :=
  match p with PDir d => pditems d | _ => [] end.
Definition pok (p : ppiece) : Prop := ppiece_wf p /\ pflags_in_order p.

Lemma flags_split fs : forallb pflag fs = true -> zeros_last fs = true ->
  exists fl zs, fs = fl ++ zs /\ forallb isFlagKey fl = true /\ forallb is_digit zs = true.
Proof.
  induction fs as [|c fs IH]; intros F Z; [exists [], []; auto|].
  cbn [forallb zeros_last] in *. apply andb_prop in F. destruct F as [F1 F2].
  destruct (Ascii.eqb_spec c "0").
  - exists [], (c :: fs). split; [reflexivity|]. split; [reflexivity|]. subst c.
    cbn [forallb]. apply andb_true_intro. split; [reflexivity|].
    rewrite forallb_forall in *. intros x I. specialize (Z x I). apply Ascii.eqb_eq in Z. now subst.
  - destruct (IH F2 Z) as (fl & zs & -> & A1 & A2). exists (c :: fl), zs.
    split; [reflexivity|]. split; [|exact A2]. cbn [forallb]. rewrite A1, andb_true_r.
    unfold pflag, one_of in F1. cbn in F1. unfold isFlagKey.
    rewrite !orb_true_iff, !Ascii.eqb_eq in *. intuition congruence.
Qed.

Lemma opt_no_percent pr : opt_wf pr -> no_percent (opt_text (lit ".") pr).
Proof.
  destruct pr as [[ds|]|]; cbn [opt_wf amount_wf opt_text amount_text]; intros W I.
  - cbn in I. destruct I as [I|I]; [discriminate|]. now apply digits_no_percent in I.
  - cbn in I. intuition discriminate.
  - contradiction.
Qed.

Lemma no_percent_app a b : no_percent a -> no_percent b -> no_percent (a ++ b).
Proof. unfold no_percent. intros N1 N2 I. apply in_app_or in I. tauto. Qed.

Lemma directive_run d R args i : pok (PDir d) -> good args ->
  let t := prun (pdir_text d ++ R) args i in
  let its := pditems d in
  if Nat.leb (List.length its) (List.length args) then
    t = prepend (said its args i) (prun R (skipn (List.length its) args) (i + List.length its))
  else exists j, t = prepend (said its args i ++ [NoArg (i + List.length args)]) (prun R [] j).
Proof.
  intros [(FW & WW & PW & CW & _) Z] G. cbn zeta. cbn [pflags_in_order] in Z.
  destruct d as [fs w pr m k].
  cbn [p_flags p_width p_precision p_modifier p_conv] in *.
  destruct (flags_split fs FW Z) as (fl & zs & -> & F & D).
  unfold pdir_text, pditems. cbn [p_flags p_width p_precision p_modifier p_conv].
  change (modifier_text m ++ [k]) with (mtext m k).
  cbn [app]. rewrite prun_percent, <- !app_assoc.
  destruct w as [[ds|]|]; cbn [opt_text amount_text star_arg map app].
  - cbn [opt_wf amount_wf] in WW.
    pose proof (from_precision fl (zs ++ ds) pr m k R args i F) as L. cbn zeta in L.
    rewrite <- app_assoc in L. apply L; auto. rewrite forallb_app. now rewrite D, WW.
  - set (T := opt_text (lit ".") pr ++ mtext m k ++ R).
    assert (plain_head (lit "*" ++ T)) as H.
    { do 2 eexists. split; [reflexivity|]. repeat split; discriminate. }
    rewrite (pturn_star fl zs _ nul T args i F D H eq_refl).
    cbn [List.length].
    destruct args as [|a args]; cbn [List.length Nat.leb].
    + exists (S i). cbn [said app take]. rewrite Nat.add_0_r.
      unfold T. rewrite app_assoc, prun_text; [reflexivity|].
      apply no_percent_app; [now apply opt_no_percent|now apply mtext_no_percent].
    + inversion G as [|? ? G1 G2]; subst. rewrite take_enough by exact G1. rewrite prun_percent.
      pose proof (from_precision [] [] pr m k R args (S i) eq_refl eq_refl PW CW G2) as L.
      cbn zeta in L. cbn [app] in L. fold T in L.
      destruct (Nat.leb (List.length (pmitems pr m k)) (List.length args)) eqn:E.
      * rewrite L, <- prepend_app. cbn [said app skipn]. do 2 f_equal. lia.
      * destruct L as [j ->]. exists j. rewrite <- prepend_app. cbn [said app].
        f_equal. rewrite <- app_assoc. do 4 f_equal. lia.
  - pose proof (from_precision fl zs pr m k R args i F D PW CW G) as L. exact L.
Qed.

Lemma prun_nil args i : prun [] args i = (left_over A i args, Finished).
Proof. rewrite prun_eq. reflexivity. Qed.

Lemma ppiece_run p R args i : pok p -> good args ->
  let t := prun (ppiece_text p ++ R) args i in
  let its := pitems p in
  if Nat.leb (List.length its) (List.length args) then
    t = prepend (said its args i) (prun R (skipn (List.length its) args) (i + List.length its))
  else exists j, t = prepend (said its args i ++ [NoArg (i + List.length args)]) (prun R [] j).
Proof.
  intros W G. destruct p as [t| |d]; cbn [pitems ppiece_text].
  - cbn [List.length Nat.leb said skipn]. destruct W as [W _]. rewrite prun_text by exact W. now rewrite prepend_nil, Nat.add_0_r.
  - cbn [List.length Nat.leb said skipn lit list_ascii_of_string app].
    rewrite prun_percent, prepend_nil, Nat.add_0_r. reflexivity.
  - now apply directive_run.
Qed.

Lemma printf_run f args : Forall pok f -> good args ->
  let its := List.concat (map pitems f) in
  if Nat.leb (List.length its) (List.length args) then
    printf_check A is_error matches ignore (pformat_text f) args
    = (said its args 0
       ++ left_over A (List.length its) (skipn (List.length its) args), Finished)
  else exists ms,
    printf_check A is_error matches ignore (pformat_text f) args
    = (said its args 0 ++ NoArg (List.length args) :: ms, Finished).
Proof.
  intros W G.
  apply (pieces_run prun ppiece ppiece_text pitems pok prun_nil) with (i := 0); auto.
  - intros p R args' i W' G' L. pose proof (ppiece_run p R args' i W' G') as H. cbn zeta in H.
    apply Nat.leb_le in L. now rewrite L in H.
  - intros p R args' i W' G' L. pose proof (ppiece_run p R args' i W' G') as H. cbn zeta in H.
    apply Nat.leb_gt in L. rewrite L in H. destruct H as [j H]. exists [], j. exact H.
Qed.

(** * What is said by printf *)

Lemma said_not_number its : Forall (fun it => Forall (fun m => ~ about_number m) (snd it)) its ->
  forall args i, Forall (fun m => ~ about_number m) (said its args i).
Proof.
  induction 1 as [|[t ms] its H F IH]; intros args i; [constructor|].
  destruct args as [|a args]; [constructor|]. cbn [said snd] in *.
  apply Forall_app. split; [|apply IH]. apply Forall_app. split; [exact H|].
  unfold mismatch. destruct t; try (destruct (matches _ _)); repeat constructor; cbn; auto.
Qed.

Lemma pieces_number (its : list (fty * list msg)) args r :
  Forall (fun it => Forall (fun m => ~ about_number m) (snd it)) its ->
  (if Nat.leb (List.length its) (List.length args) then
     r = (said its args 0 ++ left_over A (List.length its) (skipn (List.length its) args), Finished)
   else exists ms, r = (said its args 0 ++ NoArg (List.length args) :: ms, Finished)) ->
  snd r = Finished
  /\ ((exists m, In m (fst r) /\ about_number m) <-> List.length args <> List.length its).
Proof.
  intros F H. pose proof (said_not_number its F args 0) as N. rewrite Forall_forall in N.
  destruct (Nat.leb (List.length its) (List.length args)) eqn:E.
  - subst r. cbn [fst snd]. split; [reflexivity|]. apply Nat.leb_le in E.
    pose proof (skipn_length (List.length its) args) as L.
    split.
    + intros (m & I & Q). apply in_app_or in I. destruct I as [I|I]; [now apply N in I|].
      destruct (skipn (List.length its) args) eqn:S; [contradiction|]. cbn [List.length] in L. lia.
    + intros D. destruct (skipn (List.length its) args) as [|x l] eqn:S; [cbn in L; lia|].
      eexists. split; [apply in_or_app; right; left; reflexivity|exact I].
  - destruct H as [ms ->]. cbn [fst snd]. split; [reflexivity|]. apply Nat.leb_gt in E.
    split; [intros _; lia|]. intros _. eexists. split; [apply in_or_app; right; left; reflexivity|exact I].
Qed.

Lemma gripes_not_number gs : Forall (fun m => ~ about_number m) (map Gripe gs).
Proof. induction gs; constructor; auto. Qed.

Lemma pitem_not_number m k : conv_ok k -> Forall (fun x => ~ about_number x) (snd (pitem m k)).
Proof.
  intros C. unfold pitem, printf_switch.
  destruct (combine ignore (Prim P_UINT) (mod_ct m)) as [? g1],
    (combine ignore (Prim P_INT) (mod_ct m)) as [? g2],
    (combine ignore (Prim P_DOUBLE) (mod_ct m)) as [? g3].
  pose proof (gripes_not_number g1). pose proof (gripes_not_number g2).
  pose proof (gripes_not_number g3).
  pose proof (gripes_not_number (snd (combine ignore (Other 0) (mod_ct m)))).
  conv_destruct C; cbn; first [assumption | constructor].
Qed.

Lemma stars_not_number (ts : list fty) :
  Forall (fun it : fty * list msg => Forall (fun m => ~ about_number m) (snd it))
         (map (fun t => (t, [])) ts).
Proof. induction ts; constructor; auto. constructor. Qed.

Lemma pitems_not_number p : pok p ->
  Forall (fun it => Forall (fun m => ~ about_number m) (snd it)) (pitems p).
Proof.
  destruct p as [t| |d]; [constructor|constructor|].
  intros [(_ & _ & _ & C & _) _]. cbn [pitems]. unfold pditems, pmitems.
  apply Forall_app. split; [apply stars_not_number|]. apply Forall_app. split; [apply stars_not_number|].
  constructor; [now apply pitem_not_number|constructor].
Qed.

Lemma concat_forall {X Y} (Q : Y -> Prop) (g : X -> list Y) (l : list X) (ok : X -> Prop) :
  (forall x, ok x -> Forall Q (g x)) -> Forall ok l -> Forall Q (List.concat (map g l)).
Proof.
  intros H. induction 1; cbn [map List.concat]; [constructor|]. apply Forall_app. split; auto.
Qed.

Lemma pitems_length f : List.length (List.concat (map pitems f)) = List.length (pformat_args f).
Proof.
  unfold pformat_args. induction f as [|p f IH]; [reflexivity|].
  cbn [map List.concat]. rewrite !app_length, IH. f_equal.
  destruct p as [t| |d]; [reflexivity|reflexivity|]. cbn [pitems ppiece_args].
  unfold pditems, pmitems, pdir_args. rewrite !app_length, !map_length. reflexivity.
Qed.

Lemma printf_number f args :
  pformat_wf f -> Forall pflags_in_order f -> good args ->
  let r := printf_check A is_error matches ignore (pformat_text f) args in
  snd r = Finished
  /\ ((exists m, In m (fst r) /\ about_number m)
      <-> List.length args <> List.length (pformat_args f)).
Proof.
  intros W O G. cbn zeta.
  assert (Forall pok f) as K.
  { unfold pformat_wf in W. rewrite Forall_forall in *. intros p I. split; auto. }
  rewrite <- pitems_length. apply pieces_number; [|now apply printf_run].
  eapply concat_forall; [|exact K]. apply pitems_not_number.
Qed.

(** The types are those of the table. *)
Lemma pitem_table m k : conv_ok k -> modifier_ok m k = true ->
  (k = "n"%char -> m = Mnone) -> (real_conv k = true -> m <> Ml) ->
  pitem m k = (pvalue m k, []).
Proof.
  intros C M N R.
  conv_destruct C; destruct m; try discriminate M; try (specialize (N eq_refl); discriminate N);
    try (exfalso; apply R; reflexivity); reflexivity.
Qed.

Definition bare (ts : list fty) : list (fty * list msg) := map (fun t => (t, [])) ts.

Lemma pitems_table f : Forall pok f -> Forall plain_print f ->
  List.concat (map pitems f) = bare (pformat_args f).
Proof.
  unfold pformat_args. induction 1 as [|p f K F IH]; intros N; [reflexivity|].
  inversion N as [|? ? N1 N2]; subst. cbn [map List.concat]. unfold bare in *.
  rewrite map_app, (IH N2). f_equal.
  destruct p as [t| |d]; [reflexivity|reflexivity|]. cbn [pitems ppiece_args].
  destruct K as [(_ & _ & _ & C & M) _]. cbn [plain_print] in N1.
  unfold pditems, pmitems, pdir_args. rewrite !map_app. cbn [map].
  rewrite (pitem_table _ _ C M) by tauto. reflexivity.
Qed.

Definition known (t : fty) : Prop := t <> FUnknown.
Lemma said_complaints ts : Forall known ts -> forall args i,
  said (bare ts) args i = complaints A matches i ts args.
Proof.
  induction 1 as [|t ts K F IH]; intros args i; [reflexivity|].
  destruct args as [|a args]; [reflexivity|]. cbn [said bare map complaints app].
  f_equal; [|apply IH]. unfold mismatch. destruct t; try reflexivity. now destruct K.
Qed.

Lemma verdict_of ts args r : Forall known ts ->
  (let its := bare ts in
   if Nat.leb (List.length its) (List.length args) then
     r = (said its args 0 ++ left_over A (List.length its) (skipn (List.length its) args), Finished)
   else exists ms, r = (said its args 0 ++ NoArg (List.length args) :: ms, Finished)) ->
  snd r = Finished /\ verdict A matches ts args (fst r).
Proof.
  intros K H. cbn zeta in H. rewrite (said_complaints ts K args 0) in H.
  unfold bare in H. rewrite map_length in H. unfold verdict.
  destruct (Nat.leb (List.length ts) (List.length args)) eqn:E.
  - subst r. cbn [fst snd]. split; [reflexivity|]. apply Nat.leb_le in E.
    pose proof (skipn_length (List.length ts) args) as L.
    destruct (Nat.compare_spec (List.length args) (List.length ts)) as [Q|Q|Q]; [|lia|].
    + destruct (skipn (List.length ts) args); [apply app_nil_r|cbn in L; lia].
    + destruct (skipn (List.length ts) args) as [|x l]; [cbn in L; lia|].
      cbn [left_over]. do 3 f_equal. rewrite L. lia.
  - destruct H as [ms ->]. cbn [fst snd]. split; [reflexivity|]. apply Nat.leb_gt in E.
    destruct (Nat.compare_spec (List.length args) (List.length ts)) as [Q|Q|Q]; [lia| |lia].
    eauto.
Qed.

Lemma pvalue_known m k : known (pvalue m k).
Proof.
  unfold known, pvalue. destruct (unsigned_conv k); [discriminate|].
  destruct (integer_conv k); [discriminate|]. destruct (real_conv k); [discriminate|].
  repeat match goal with |- context [if ?b then _ else _] => destruct b end; discriminate.
Qed.

Lemma star_known a : Forall known (star_arg a).
Proof. destruct a as [[|]|]; repeat constructor; discriminate. Qed.

Lemma pformat_known f : Forall known (pformat_args f).
Proof.
  unfold pformat_args. induction f as [|p f IH]; [constructor|]. cbn [map List.concat].
  apply Forall_app. split; [|exact IH]. destruct p as [t| |d]; [constructor|constructor|].
  cbn [ppiece_args]. unfold pdir_args.
  apply Forall_app. split; [apply star_known|]. apply Forall_app. split; [apply star_known|].
  constructor; [apply pvalue_known|constructor].
Qed.

Lemma printf_verdict f args :
  pformat_wf f -> Forall pflags_in_order f -> Forall plain_print f -> good args ->
  let r := printf_check A is_error matches ignore (pformat_text f) args in
  snd r = Finished /\ verdict A matches (pformat_args f) args (fst r).
Proof.
  intros W O N G. cbn zeta.
  assert (Forall pok f) as K.
  { unfold pformat_wf in W. rewrite Forall_forall in *. intros p I. split; auto. }
  apply verdict_of; [apply pformat_known|]. pose proof (printf_run f args K G) as H.
  cbn zeta in *. now rewrite (pitems_table f K N) in H.
Qed.

(** * Directives of scanf *)

Definition mod_q (m : modifier) : ascii :=
  match m with Ml | Mll => "l"%char | ML => "L"%char | _ => nul end.
Definition sitem (m : modifier) (c : sconv) : fty * list msg :=
  match c with
  | SSet _ _ => (FString, [])
  | SConv k =>
      match scanf_switch ignore k (mod_ct m) (mod_q m) [] with
      | inr (t, ms, _) => (t, ms) | inl _ => (FUnknown, [])
      end
  end.
Definition sitems (p : spiece) : list (fty * list msg) :=
  match p with
  | SDir d => if s_suppress d then [] else [sitem (s_modifier d) (s_conv d)]
  | _ => []
  end.
Definition sok (p : spiece) : Prop := spiece_wf p /\ simple_set p.

Lemma scanf_switch_conv m k R : conv_ok k ->
  scanf_switch ignore k (mod_ct m) (mod_q m) R
  = inr (fst (sitem m (SConv k)), snd (sitem m (SConv k)), R).
Proof.
  intros C. unfold sitem, scanf_switch.
  destruct (combine ignore (Prim P_UINT) (mod_ct m)), (combine ignore (Prim P_INT) (mod_ct m)).
  conv_destruct C; reflexivity.
Qed.

Lemma modify_conv_q m k R : conv_ok k ->
  modify (modifier_text m ++ k :: R) = (mod_ct m, mod_q m, k :: R).
Proof. intros C. conv_destruct C; destruct m; reflexivity. Qed.

Lemma srun_percent R args i : srun ("%"%char :: R) args i = sturn R args i.
Proof. rewrite srun_eq. reflexivity. Qed.

Lemma find_bracket_app cs R : ~ In "]"%char cs ->
  find_bracket (cs ++ "]"%char :: R) = Some ("]"%char :: R).
Proof.
  induction cs as [|c cs IH]; intros N; [reflexivity|]. cbn [app find_bracket].
  destruct (Ascii.eqb_spec c "]"); [subst; exfalso; apply N; now left|].
  apply IH. intros I. apply N. now right.
Qed.

(** Without arguments, the text before a closing bracket is gone through without touching what
    follows. *)
Definition in_front (R b s : cstr) : Prop :=
  exists b', s = b' ++ "]"%char :: R /\ List.length b' <= List.length b.

Lemma in_front_skip R b p : p "]"%char = false -> in_front R b (skip_while p (b ++ "]"%char :: R)).
Proof.
  intros N. induction b as [|c b IH]; cbn [app skip_while].
  - rewrite N. exists []. auto.
  - destruct (p c).
    + destruct IH as (b' & E & L). exists b'. split; [exact E|]. cbn [List.length]. lia.
    + exists (c :: b). auto.
Qed.

Lemma in_front_tl R b c : Ascii.eqb "]" c = false -> is c (b ++ "]"%char :: R) = true ->
  in_front R b (tl (b ++ "]"%char :: R)).
Proof.
  destruct b as [|x b]; unfold is; cbn [app key tl]; intros N E; [congruence|].
  exists b. split; [reflexivity|]. cbn [List.length]. lia.
Qed.

Lemma in_front_modify R b : in_front R b (snd (modify (b ++ "]"%char :: R))).
Proof.
  assert (in_front R b (b ++ "]"%char :: R)) as SELF by (exists b; auto).
  assert (forall c, Ascii.eqb "]" c = false -> is c (b ++ "]"%char :: R) = true ->
            exists b', tl (b ++ "]"%char :: R) = b' ++ "]"%char :: R
                       /\ List.length b' <= List.length b) as STEP.
  { intros c N E. exact (in_front_tl R b c N E). }
  unfold modify, is_l.
  destruct (is "h" (b ++ "]"%char :: R)) eqn:E1.
  - destruct (STEP "h"%char eq_refl E1) as (b1 & Q & L). rewrite Q.
    destruct (is "h" (b1 ++ "]"%char :: R)) eqn:E2; cbn [snd].
    + destruct (in_front_tl R b1 "h" eq_refl E2) as (b2 & Q2 & L2). rewrite Q2. exists b2. split; [auto|lia].
    + exists b1. auto.
  - destruct (is "l" (b ++ "]"%char :: R) || is "L" (b ++ "]"%char :: R)) eqn:E3; [|exact SELF].
    assert (exists b', tl (b ++ "]"%char :: R) = b' ++ "]"%char :: R
                       /\ List.length b' <= List.length b) as (b1 & Q & L).
    { apply orb_prop in E3. destruct E3 as [E3|E3];
        [exact (STEP "l"%char eq_refl E3)|exact (STEP "L"%char eq_refl E3)]. }
    rewrite Q.
    destruct (is "l" (b1 ++ "]"%char :: R) || is "L" (b1 ++ "]"%char :: R)) eqn:E4; cbn [snd].
    + apply orb_prop in E4. destruct E4 as [E4|E4];
        [destruct (in_front_tl R b1 "l" eq_refl E4) as (b2 & Q2 & L2)
        |destruct (in_front_tl R b1 "L" eq_refl E4) as (b2 & Q2 & L2)];
        rewrite Q2; exists b2; (split; [auto|lia]).
    + exists b1. auto.
Qed.

Lemma find_percent_app b R :
  (find_percent (b ++ R) = find_percent R)
  \/ (exists b', find_percent (b ++ R) = Some (b' ++ R) /\ List.length b' < List.length b).
Proof.
  induction b as [|c b IH]; [now left|]. cbn [app find_percent].
  destruct (Ascii.eqb c "%").
  - right. exists b. split; [reflexivity|]. cbn [List.length]. lia.
  - destruct IH as [IH|(b' & E & L)]; [now left|]. right. exists b'. split; [exact E|].
    cbn [List.length]. lia.
Qed.

Lemma set_without_arguments R n : forall b i, List.length b < n ->
  exists ms j, srun (b ++ "]"%char :: R) [] i = prepend ms (srun R [] j).
Proof.
  induction n as [|n IH]; intros b i L; [lia|].
  assert (forall j, srun ("]"%char :: R) [] j = srun R [] j) as BR.
  { intros j. change ("]"%char :: R) with (lit "]" ++ R). apply srun_text.
    intros I. cbn in I. intuition discriminate. }
  rewrite srun_eq. destruct (find_percent_app b ("]"%char :: R)) as [E|(b1 & E & L1)]; rewrite E.
  - exists [], i. rewrite prepend_nil, <- BR, (srun_eq ("]"%char :: R)). reflexivity.
  - unfold sturn. cbn zeta.
    match goal with |- context [skip_while is_digit ?x] =>
      assert (in_front R b1 x) as (b2 & Q2 & L2) end.
    { destruct (is "*" (b1 ++ "]"%char :: R)) eqn:E1;
        [exact (in_front_tl R b1 "*" eq_refl E1)|exists b1; auto]. }
    rewrite Q2. destruct (in_front_skip R b2 is_digit eq_refl) as (b3 & -> & L3).
    destruct (in_front_modify R b3) as (b4 & E4 & L4).
    destruct (modify (b3 ++ "]"%char :: R)) as [[mt q] s4]. cbn [snd] in E4. subst s4.
    assert (exists k s5, b4 ++ "]"%char :: R = k :: s5
                         /\ forall i, exists ms j, srun s5 [] i = prepend ms (srun R [] j))
      as (k & s5 & -> & NEXT).
    { destruct b4 as [|k b5].
      - exists "]"%char, R. split; [reflexivity|]. intros i'. exists [], i'. now rewrite prepend_nil.
      - exists k, (b5 ++ "]"%char :: R). split; [reflexivity|]. intros i'. apply IH.
        cbn [List.length] in L4. lia. }
    destruct (Ascii.eqb k "%" || is "*" (b1 ++ "]"%char :: R)); [apply NEXT|].
    destruct (NEXT (S i)) as (ms & j & ->). exists ([NoArg i] ++ ms), j. now rewrite prepend_app.
Qed.

Lemma srun_bracket R args i : srun ("]"%char :: R) args i = srun R args i.
Proof.
  change ("]"%char :: R) with (lit "]" ++ R). apply srun_text. intros I. cbn in I.
  intuition discriminate.
Qed.

Lemma conv_plain_start sup w m c T :
  forallb is_digit w = true ->
  (exists h r, T = h :: r /\ is_digit h = false /\ h <> "*"%char /\ T = modifier_text m ++ c) ->
  let s := (if sup : bool then lit "*" else []) ++ w ++ T in
  is "*" s = sup /\ skip_while is_digit (if sup then tl s else s) = T.
Proof.
  intros W (h & r & -> & D & N & _). cbn zeta. split.
  - destruct sup; [reflexivity|]. cbn [app]. unfold is. destruct w as [|d w]; cbn [app key].
    + now apply Ascii.eqb_neq.
    + cbn [forallb] in W. apply andb_prop in W. destruct W as [W _].
      destruct (Ascii.eqb_spec d "*"); [subst; discriminate|reflexivity].
  - destruct sup; cbn [app lit list_ascii_of_string tl]; now apply skip_while_app.
Qed.

Lemma set_head neg cs R : exists h r,
  sconv_text (SSet neg cs) ++ R = h :: r /\ is_digit h = false /\ h <> "*"%char
  /\ sconv_text (SSet neg cs) ++ R = modifier_text Mnone ++ sconv_text (SSet neg cs) ++ R.
Proof. do 2 eexists. repeat split. discriminate. Qed.

Lemma conv_head m k R : conv_ok k -> exists h r,
  mtext m k ++ R = h :: r /\ is_digit h = false /\ h <> "*"%char
  /\ mtext m k ++ R = modifier_text m ++ k :: R.
Proof.
  intros C. unfold mtext. conv_destruct C; destruct m; cbn; do 2 eexists; repeat split; discriminate.
Qed.

Lemma sdirective_run d R args i : sok (SDir d) -> good args ->
  let t := srun (sdir_text d ++ R) args i in
  let its := sitems (SDir d) in
  if Nat.leb (List.length its) (List.length args) then
    t = prepend (said its args i) (srun R (skipn (List.length its) args) (i + List.length its))
  else exists ms j,
    t = prepend (said its args i ++ NoArg (i + List.length args) :: ms) (srun R [] j).
Proof.
  intros [[WW CW] SS] G. cbn zeta. destruct d as [sup w m c].
  cbn [s_suppress s_width s_modifier s_conv simple_set] in *.
  unfold sdir_text. cbn [s_suppress s_width s_modifier s_conv sitems].
  cbn [app]. rewrite srun_percent, <- !app_assoc.
  destruct c as [k|neg cs].
  - (* a conversion *)
    destruct CW as [C M]. cbn [sconv_text].
    replace (modifier_text m ++ [k] ++ R) with (mtext m k ++ R)
      by (unfold mtext; now rewrite <- app_assoc).
    destruct (conv_plain_start sup w m (k :: R) (mtext m k ++ R) WW (conv_head m k R C)) as [E1 E2].
    unfold sturn. cbn zeta in *. rewrite E1.
    match goal with |- context [skip_while is_digit ?x] =>
      replace (skip_while is_digit x) with (mtext m k ++ R) by (symmetry; exact E2) end.
    replace (mtext m k ++ R) with (modifier_text m ++ k :: R)
      by (unfold mtext; now rewrite <- app_assoc).
    rewrite modify_conv_q, (conv_not_percent k C) by exact C. cbn [orb].
    destruct sup; cbn [List.length Nat.leb].
    + cbn [said skipn]. now rewrite prepend_nil, Nat.add_0_r.
    + destruct args as [|a args]; cbn [List.length Nat.leb].
      * exists [], (S i). rewrite said_none, Nat.add_0_r. reflexivity.
      * inversion G as [|? ? G1 G2]; subst. rewrite G1, scanf_switch_conv by exact C.
        destruct (sitem m (SConv k)) as [t ms]. cbn [fst snd skipn].
        destruct args; cbn [said]; rewrite app_nil_r; do 2 f_equal; lia.
  - (* a set *)
    destruct CW as (-> & NE & NB & NC). change (modifier_text Mnone) with (@nil ascii). cbn [app].
    destruct (conv_plain_start sup w Mnone (sconv_text (SSet neg cs) ++ R)
                (sconv_text (SSet neg cs) ++ R) WW (set_head neg cs R)) as [E1 E2].
    unfold sturn. cbn zeta in *. rewrite E1.
    match goal with |- context [skip_while is_digit ?x] =>
      replace (skip_while is_digit x) with (sconv_text (SSet neg cs) ++ R) by (symmetry; exact E2) end.
    set (body := (if neg then lit "^" else []) ++ cs).
    assert (sconv_text (SSet neg cs) ++ R = "["%char :: body ++ "]"%char :: R) as B.
    { unfold body. cbn [sconv_text lit list_ascii_of_string]. cbn [app].
      rewrite <- !app_assoc. reflexivity. }
    rewrite B.
    assert (modify ("["%char :: body ++ "]"%char :: R)
            = (Prim P_INT, nul, "["%char :: body ++ "]"%char :: R)) as -> by reflexivity.
    change (Ascii.eqb "[" "%") with false. cbn [orb].
    assert (no_percent cs -> forall args i, srun (body ++ "]"%char :: R) args i = srun R args i) as FREE.
    { intros NP args' i'. rewrite srun_text; [apply srun_bracket|].
      unfold body. apply no_percent_app; [|exact NP]. destruct neg; intros I; cbn in I;
        intuition discriminate. }
    destruct sup; cbn [List.length Nat.leb].
    + cbn [said skipn]. rewrite prepend_nil, Nat.add_0_r. apply FREE. apply SS. now left.
    + destruct args as [|a args]; cbn [List.length Nat.leb].
      * destruct (set_without_arguments R (S (List.length body)) body (S i)) as (ms & j & ->); [lia|].
        exists ms, j. rewrite said_none, Nat.add_0_r, <- prepend_app. reflexivity.
      * inversion G as [|? ? G1 G2]; subst. rewrite G1.
        assert (exists s, set_end (body ++ "]"%char :: R) = inr s
                          /\ forall args i, srun s args i = srun R args i) as (s & SE & SR).
        { unfold body. destruct cs as [|c0 cs]; [now destruct NE|]. cbn [tl key] in *.
          destruct neg; cbn [app lit list_ascii_of_string set_end].
          - cbn [find_bracket]. destruct (Ascii.eqb_spec c0 "]").
            + subst c0. eexists. split; [reflexivity|]. intros args' i'.
              change ("]"%char :: cs ++ "]"%char :: R) with (("]"%char :: cs) ++ "]"%char :: R).
              rewrite srun_text; [apply srun_bracket|]. apply SS. right. auto.
            + rewrite find_bracket_app by exact NB. eexists. split; [reflexivity|]. apply srun_bracket.
          - rewrite find_bracket_app by exact NB. eexists. split; [reflexivity|]. apply srun_bracket. }
        assert (scanf_switch ignore "[" (Prim P_INT) nul (body ++ "]"%char :: R)
                = inr (FString, [], s)) as ->.
        { unfold scanf_switch. destruct (combine ignore (Prim P_UINT) (Prim P_INT)),
            (combine ignore (Prim P_INT) (Prim P_INT)). cbn - [set_end]. now rewrite SE. }
        rewrite SR. cbn [sitem skipn].
        destruct args; cbn [said]; rewrite app_nil_r; do 2 f_equal; lia.
Qed.

Lemma srun_nil args i : srun [] args i = (left_over A i args, Finished).
Proof. rewrite srun_eq. reflexivity. Qed.

Lemma spiece_run p R args i : sok p -> good args ->
  let t := srun (spiece_text p ++ R) args i in
  let its := sitems p in
  if Nat.leb (List.length its) (List.length args) then
    t = prepend (said its args i) (srun R (skipn (List.length its) args) (i + List.length its))
  else exists ms j,
    t = prepend (said its args i ++ NoArg (i + List.length args) :: ms) (srun R [] j).
Proof.
  intros W G. destruct p as [t| |d].
  - cbn [spiece_text sitems List.length Nat.leb said skipn]. destruct W as [W _].
    rewrite srun_text by exact W. now rewrite prepend_nil, Nat.add_0_r.
  - cbn [spiece_text sitems List.length Nat.leb said skipn lit list_ascii_of_string app].
    rewrite srun_percent, prepend_nil, Nat.add_0_r. reflexivity.
  - now apply sdirective_run.
Qed.

Lemma scanf_run f args : Forall sok f -> good args ->
  let its := List.concat (map sitems f) in
  if Nat.leb (List.length its) (List.length args) then
    scanf_check A is_error matches ignore (sformat_text f) args
    = (said its args 0
       ++ left_over A (List.length its) (skipn (List.length its) args), Finished)
  else exists ms,
    scanf_check A is_error matches ignore (sformat_text f) args
    = (said its args 0 ++ NoArg (List.length args) :: ms, Finished).
Proof.
  intros W G.
  apply (pieces_run srun spiece spiece_text sitems sok srun_nil) with (i := 0); auto.
  - intros p R args' i W' G' L. pose proof (spiece_run p R args' i W' G') as H. cbn zeta in H.
    apply Nat.leb_le in L. now rewrite L in H.
  - intros p R args' i W' G' L. pose proof (spiece_run p R args' i W' G') as H. cbn zeta in H.
    apply Nat.leb_gt in L. rewrite L in H. exact H.
Qed.

Lemma sitem_not_number m c : sconv_wf m c -> Forall (fun x => ~ about_number x) (snd (sitem m c)).
Proof.
  destruct c as [k|]; [|constructor]. intros [C _]. unfold sitem, scanf_switch.
  destruct (combine ignore (Prim P_UINT) (mod_ct m)) as [? g1],
    (combine ignore (Prim P_INT) (mod_ct m)) as [? g2].
  pose proof (gripes_not_number g1). pose proof (gripes_not_number g2).
  fold (conv_ok k) in C.
  conv_destruct C; cbn; try assumption; repeat constructor; cbn; auto.
Qed.

Lemma sitems_length f : List.length (List.concat (map sitems f)) = List.length (sformat_args f).
Proof.
  unfold sformat_args. induction f as [|p f IH]; [reflexivity|].
  cbn [map List.concat]. rewrite !app_length, IH. f_equal.
  destruct p as [t| |d]; [reflexivity|reflexivity|]. cbn [sitems spiece_args].
  unfold sdir_args. now destruct (s_suppress d).
Qed.

Lemma scanf_number f args :
  sformat_wf f -> Forall simple_set f -> good args ->
  let r := scanf_check A is_error matches ignore (sformat_text f) args in
  snd r = Finished
  /\ ((exists m, In m (fst r) /\ about_number m)
      <-> List.length args <> List.length (sformat_args f)).
Proof.
  intros W O G. cbn zeta.
  assert (Forall sok f) as K.
  { unfold sformat_wf in W. rewrite Forall_forall in *. intros p I. split; auto. }
  rewrite <- sitems_length. apply pieces_number; [|now apply scanf_run].
  eapply concat_forall; [|exact K]. intros p [W' _].
  destruct p as [t| |d]; [constructor|constructor|]. cbn [sitems].
  destruct (s_suppress d); [constructor|]. constructor; [|constructor].
  apply sitem_not_number. now destruct W'.
Qed.

Lemma sitem_table m c : sconv_wf m c ->
  match c with
  | SConv k => k <> "p"%char /\ (k = "n"%char -> m = Mnone) /\ m <> Mhh
  | SSet _ _ => True
  end -> sitem m c = (svalue m c, []).
Proof.
  destruct c as [k|neg cs]; [|reflexivity]. intros [C M] (N1 & N2 & N3). fold (conv_ok k) in C.
  conv_destruct C; destruct m; try discriminate M; try (now destruct N3); try (now destruct N1);
    try (specialize (N2 eq_refl); discriminate N2); reflexivity.
Qed.

Lemma svalue_known m c : known (svalue m c).
Proof.
  unfold known, svalue. destruct c as [k|]; [|discriminate]. destruct (unsigned_conv k); [discriminate|].
  destruct (integer_conv k); [discriminate|]. destruct (real_conv k); [discriminate|].
  repeat match goal with |- context [if ?b then _ else _] => destruct b end; discriminate.
Qed.

Lemma scanf_verdict f args :
  sformat_wf f -> Forall simple_set f -> Forall plain_scan f -> good args ->
  let r := scanf_check A is_error matches ignore (sformat_text f) args in
  snd r = Finished /\ verdict A matches (sformat_args f) args (fst r).
Proof.
  intros W O N G. cbn zeta.
  assert (Forall sok f) as K.
  { unfold sformat_wf in W. rewrite Forall_forall in *. intros p I. split; auto. }
  assert (List.concat (map sitems f) = bare (sformat_args f)) as T.
  { clear O G. unfold sformat_args. clear W. induction K as [|p f K F IH]; [reflexivity|].
    inversion N as [|? ? N1 N2]; subst. cbn [map List.concat]. unfold bare in *.
    rewrite map_app, (IH N2). f_equal.
    destruct p as [t| |d]; [reflexivity|reflexivity|]. cbn [sitems spiece_args]. unfold sdir_args.
    cbn [plain_scan] in N1. destruct (s_suppress d); [reflexivity|].
    destruct K as [[_ CW] _]. cbn [map]. now rewrite (sitem_table _ _ CW (N1 eq_refl)). }
  apply verdict_of.
  - unfold sformat_args. clear. induction f as [|p f IH]; [constructor|]. cbn [map List.concat].
    apply Forall_app. split; [|exact IH]. destruct p as [t| |d]; [constructor|constructor|].
    cbn [spiece_args]. unfold sdir_args. destruct (s_suppress d); [constructor|].
    constructor; [apply svalue_known|constructor].
  - pose proof (scanf_run f args K G) as H. cbn zeta in *. now rewrite T in H.
Qed.
(** * Any texts *)

Definition alive (s : cstr) : Prop := s <> [] /\ ends_inside s = false.
Definition tame (s : cstr) : Prop := ~ In "["%char s /\ ~ In "m"%char s.

Lemma ends_cons c s : s <> [] -> ends_inside (c :: s) = ends_inside s.
Proof. destruct s; [now destruct 1|reflexivity]. Qed.

Lemma alive_cons c s : alive (c :: s) -> inside c = true -> alive s.
Proof.
  intros [_ E] I. destruct s as [|d s].
  - unfold ends_inside in E. cbn [last] in E. congruence.
  - split; [discriminate|exact E].
Qed.

Lemma safe_cons c s : ends_inside (c :: s) = false -> ends_inside s = false.
Proof. destruct s; [reflexivity|]. intros E. exact E. Qed.

Lemma tame_cons c s : tame (c :: s) -> tame s.
Proof. intros [H1 H2]. split; intros I; [apply H1|apply H2]; now right. Qed.

Lemma alive_find s r : ends_inside s = false -> tame s -> find_percent s = Some r ->
  alive r /\ tame r.
Proof.
  induction s as [|c s IH]; cbn [find_percent]; [discriminate|]. intros E T.
  destruct (Ascii.eqb_spec c "%").
  - intros [= <-]. subst c. split; [|now apply tame_cons in T].
    apply (alive_cons "%"); [|reflexivity]. split; [discriminate|exact E].
  - apply IH; [now apply safe_cons in E|now apply tame_cons in T].
Qed.

Lemma alive_skip p s : (forall c, p c = true -> inside c = true) -> alive s /\ tame s ->
  alive (skip_while p s) /\ tame (skip_while p s).
Proof.
  intros P. induction s as [|c s IH]; intros [H T]; [now destruct H|]. cbn [skip_while].
  destruct (p c) eqn:E; [|auto]. apply IH. split; [|now apply tame_cons in T].
  apply (alive_cons c); auto.
Qed.

Lemma alive_tl c s : inside c = true -> is c s = true -> alive s /\ tame s ->
  alive (tl s) /\ tame (tl s).
Proof.
  intros I E [H T]. destruct s as [|d s]; [now destruct H|]. cbn [tl]. unfold is in E. cbn [key] in E.
  apply Ascii.eqb_eq in E. subst d. split; [now apply (alive_cons c)|now apply tame_cons in T].
Qed.

Lemma digit_inside c : is_digit c = true -> inside c = true.
Proof. intros H. unfold inside. now rewrite H. Qed.
Lemma flag_inside c : isFlagKey c = true -> inside c = true.
Proof.
  intros H. apply flag_cases in H. cbn in H.
  repeat (destruct H as [<-|H]; [reflexivity|]). destruct H.
Qed.

Lemma alive_precision s : alive s /\ tame s -> alive (precision s) /\ tame (precision s).
Proof.
  intros H. unfold precision. destruct (is "." s) eqn:E; [|exact H].
  apply (alive_tl "." s eq_refl E) in H. destruct (is "*" (tl s)); [exact H|].
  apply alive_skip; [exact digit_inside|exact H].
Qed.

Lemma alive_l s : is_l s = true -> alive s /\ tame s -> alive (tl s) /\ tame (tl s).
Proof.
  unfold is_l. intros E H. apply orb_prop in E.
  destruct E as [E|E]; [exact (alive_tl "l" s eq_refl E H)|exact (alive_tl "L" s eq_refl E H)].
Qed.

Lemma alive_modify s : alive s /\ tame s -> alive (snd (modify s)) /\ tame (snd (modify s)).
Proof.
  intros H. unfold modify. destruct (is "h" s) eqn:E1.
  - apply (alive_tl "h" s eq_refl E1) in H. destruct (is "h" (tl s)) eqn:E2; cbn [snd]; [|exact H].
    exact (alive_tl "h" _ eq_refl E2 H).
  - destruct (is_l s) eqn:E2; [|exact H]. apply (alive_l s E2) in H.
    destruct (is_l (tl s)) eqn:E3; cbn [snd]; [|exact H]. exact (alive_l _ E3 H).
Qed.

Lemma pushed s : alive ("*"%char :: s) -> tame s ->
  ends_inside ("%"%char :: s) = false /\ tame ("%"%char :: s).
Proof.
  intros H T. apply alive_cons in H; [|reflexivity]. destruct H as [N E]. split.
  - now rewrite ends_cons.
  - destruct T as [T1 T2]. split; (intros [I|I]; [discriminate|auto]).
Qed.

Lemma printf_switch_safe k m s : alive (k :: s) -> tame (k :: s) ->
  exists t ms r, printf_switch ignore k m s = inr (t, ms, r)
                 /\ List.length r <= S (List.length s) /\ ends_inside r = false /\ tame r.
Proof.
  intros H T. pose proof (tame_cons _ _ T) as T'. destruct H as [N E].
  pose proof (safe_cons _ _ E) as E'.
  unfold printf_switch. destruct (combine ignore (Prim P_UINT) m), (combine ignore (Prim P_INT) m),
    (combine ignore (Prim P_DOUBLE) m).
  destruct (Ascii.eqb_spec k "*").
  { subst k. do 3 eexists. split; [reflexivity|]. cbn [List.length]. split; [lia|].
    apply pushed; [split; assumption|exact T']. }
  destruct T as [T1 T2].
  destruct (one_of k (lit "uoxX")), (one_of k (lit "id")), (one_of k (lit "eEgGf")),
    (Ascii.eqb k "c"), (Ascii.eqb k "s");
    try (do 3 eexists; split; [reflexivity|]; split; [lia|]; split; assumption).
  destruct (Ascii.eqb_spec k "["); [subst; exfalso; apply T1; now left|].
  destruct (Ascii.eqb k "p"), (Ascii.eqb k "n");
    try (do 3 eexists; split; [reflexivity|]; split; [lia|]; split; assumption).
  destruct (Ascii.eqb_spec k "m"); [subst; exfalso; apply T2; now left|].
  do 3 eexists; split; [reflexivity|]; split; [lia|]; split; assumption.
Qed.

Lemma scanf_switch_safe k m q s : alive (k :: s) -> tame (k :: s) ->
  exists t ms r, scanf_switch ignore k m q s = inr (t, ms, r)
                 /\ List.length r <= S (List.length s) /\ ends_inside r = false /\ tame r.
Proof.
  intros H T. pose proof (tame_cons _ _ T) as T'. destruct H as [N E].
  pose proof (safe_cons _ _ E) as E'.
  unfold scanf_switch. destruct (combine ignore (Prim P_UINT) m), (combine ignore (Prim P_INT) m).
  destruct (Ascii.eqb_spec k "*").
  { subst k. do 3 eexists. split; [reflexivity|]. cbn [List.length]. split; [lia|].
    apply pushed; [split; assumption|exact T']. }
  destruct T as [T1 T2].
  destruct (one_of k (lit "uoxX")), (one_of k (lit "id")), (one_of k (lit "eEgGf")),
    (Ascii.eqb k "c"), (Ascii.eqb k "s");
    try (do 3 eexists; split; [reflexivity|]; split; [lia|]; split; assumption).
  destruct (Ascii.eqb_spec k "["); [subst; exfalso; apply T1; now left|].
  destruct (Ascii.eqb k "p"), (Ascii.eqb k "n");
    do 3 eexists; split; try reflexivity; split; try lia; split; assumption.
Qed.

Lemma printf_safe n : forall s args i, List.length s < n ->
  ends_inside s = false -> tame s -> snd (prun s args i) = Finished.
Proof.
  induction n as [|n IH]; intros s args i L E T; [lia|].
  rewrite prun_eq. destruct (find_percent s) as [r|] eqn:F; [|reflexivity].
  pose proof (find_percent_lt _ _ F) as L0. pose proof (alive_find _ _ E T F) as A0. unfold pturn.
  pose proof (skip_while_le isFlagKey r) as L1.
  pose proof (alive_skip isFlagKey r flag_inside A0) as A1.
  set (r1 := skip_while isFlagKey r) in *.
  destruct (is "m" r1) eqn:EM.
  { exfalso. destruct A1 as [[N _] [_ T2]]. destruct r1 as [|d r1']; [now destruct N|].
    unfold is in EM. cbn [key] in EM. apply Ascii.eqb_eq in EM. apply T2. now left. }
  pose proof (skip_while_le is_digit r1) as L2.
  pose proof (alive_skip is_digit r1 digit_inside A1) as A2. set (r2 := skip_while is_digit r1) in *.
  pose proof (precision_le r2) as L3. pose proof (alive_precision r2 A2) as A3.
  set (r3 := precision r2) in *.
  pose proof (modify_le r3) as L4. pose proof (alive_modify r3 A3) as A4.
  destruct (modify r3) as [[mt q] r4]. cbn [snd] in L4, A4. destruct A4 as [A4 T4].
  destruct r4 as [|k r5]; [now destruct A4|]. cbn [List.length] in L4.
  pose proof (safe_cons _ _ (proj2 A4)) as E5. pose proof (tame_cons _ _ T4) as T5.
  destruct (Ascii.eqb k "%"); [apply IH; auto; lia|].
  destruct args as [|a args]; [unfold prepend; cbn [snd]; apply IH; auto; lia|].
  destruct (is_error a); [apply IH; auto; lia|].
  destruct (printf_switch_safe k mt r5 A4 T4) as (t & ms & r6 & -> & L6 & E6 & T6).
  unfold prepend. cbn [snd]. apply IH; auto; lia.
Qed.

Lemma scanf_safe n : forall s args i, List.length s < n ->
  ends_inside s = false -> tame s -> snd (srun s args i) = Finished.
Proof.
  induction n as [|n IH]; intros s args i L E T; [lia|].
  rewrite srun_eq. destruct (find_percent s) as [r|] eqn:F; [|reflexivity].
  pose proof (find_percent_lt _ _ F) as L0. pose proof (alive_find _ _ E T F) as A0. unfold sturn.
  cbn zeta.
  assert (List.length (if is "*" r then tl r else r) <= List.length r) as L1.
  { destruct (is "*" r); [apply tl_le|lia]. }
  assert (alive (if is "*" r then tl r else r) /\ tame (if is "*" r then tl r else r)) as A1.
  { destruct (is "*" r) eqn:ES; [exact (alive_tl "*" r eq_refl ES A0)|exact A0]. }
  match goal with |- context [skip_while is_digit ?x] => set (r1 := x) in * end.
  pose proof (skip_while_le is_digit r1) as L2.
  pose proof (alive_skip is_digit r1 digit_inside A1) as A2. set (r2 := skip_while is_digit r1) in *.
  pose proof (modify_le r2) as L4. pose proof (alive_modify r2 A2) as A4.
  destruct (modify r2) as [[mt q] r4]. cbn [snd] in L4, A4. destruct A4 as [A4 T4].
  destruct r4 as [|k r5]; [now destruct A4|]. cbn [List.length] in L4.
  change (List.length (if is "*" r then tl r else r)) with (List.length r1) in L1.
  pose proof (safe_cons _ _ (proj2 A4)) as E5. pose proof (tame_cons _ _ T4) as T5.
  destruct (Ascii.eqb k "%" || is "*" r); [apply IH; auto; lia|].
  destruct args as [|a args]; [unfold prepend; cbn [snd]; apply IH; auto; lia|].
  destruct (is_error a); [apply IH; auto; lia|].
  destruct (scanf_switch_safe k mt q r5 A4 T4) as (t & ms & r6 & -> & L6 & E6 & T6).
  unfold prepend. cbn [snd]. apply IH; auto; lia.
Qed.

Lemma check_safe s args : ends_inside s = false -> ~ In "["%char s -> ~ In "m"%char s ->
  snd (printf_check A is_error matches ignore s args) = Finished
  /\ snd (scanf_check A is_error matches ignore s args) = Finished.
Proof.
  intros E N1 N2. split.
  - apply (printf_safe (S (List.length s))); auto. split; assumption.
  - apply (scanf_safe (S (List.length s))); auto. split; assumption.
Qed.
End Check.
