(** C142–C147: checks of names (src/nameChecks.c). *)
From Verif Require Import Cbase Cbase_facts Bsearch_model Bsearch_spec Bsearch_proofs.
From Verif Require Import Names_model Names_spec Names_proofs.
Open Scope nat_scope.

(** Settings with one prefix, for the examples. *)
Definition one (x : space) (p : string) (e : bool) : settings :=
  {| str := fun y => if space_eqb y x then Some (lit p) else None;
     excl := fun y => space_eqb y x && e |}.
Definition ent (k : ekind) (st : bool) (n : string) : uentry :=
  {| ekind_of := k; isStatic := st; realName := lit n |}.
Definition gvar : string -> uentry := ent (KVar VKNORMAL AtGlobal) false.

(** C142. A prefix without a star: exactly the names that begin as it says pass. *)
Theorem C142_plain : forall s m u x p, reasonable u -> ~ param_copy u ->
  (ekind_of u = KIter -> str s ITER <> None \/ str s EXTERNAL = None) ->
  governs s m u x p -> no_star p ->
  (In (NotConsistent x) (checkPrefix s m u) <-> ~ begins p (realName u)).
Proof.
  intros s m u x p R C HI G NS. rewrite (not_consistent_iff s m u R C HI x).
  pose proof (match_plain (realName u) p NS) as M. rewrite <- M. split.
  - intros (p' & G' & F). destruct G as (_ & E & _), G' as (_ & E' & _).
    assert (p' = p) as -> by congruence. rewrite F. discriminate.
  - intros H. exists p. split; [exact G|]. destruct (matchPrefix _ _); [exfalso; auto|reflexivity].
Qed.
Print Assumptions C142_plain.
Example C142_plain_ex :
  governs (one GLOB "G^" false) false (gvar "Gx") GLOB (lit "G^") /\
  In (NotConsistent GLOB) (checkPrefix (one GLOB "G^" false) false (gvar "Gx")) /\
  checkPrefix (one GLOB "G^" false) false (gvar "GXy") = [] /\
  begins (lit "G^") (lit "GXy").
Proof.
  split; [|split; [|split; [reflexivity|]]].
  - split; [split; [intros [s H]; discriminate|exists VKNORMAL; reflexivity]|].
    split; [reflexivity|]. intros y _ [[_ H]|[_ H]]; discriminate.
  - left. reflexivity.
  - exists (lit "GX"), (lit "y"). split; [reflexivity|].
    constructor; [constructor|]. constructor; [apply d_upper; cbn; tauto|constructor].
Qed.

(** C142, with a star at the end: what passes, exactly. Compared with the manual, the second
    character of the rest is not looked at, and nothing at all for the rest passes only after
    two characters or more. *)
Theorem C142_star_partial : forall s m u x p c, reasonable u -> ~ param_copy u ->
  (ekind_of u = KIter -> str s ITER <> None \/ str s EXTERNAL = None) ->
  governs s m u x (p ++ [c; "*"%char]) -> no_star (p ++ [c]) ->
  (In (NotConsistent x) (checkPrefix s m u) <-> ~ accepted p c (realName u)).
Proof.
  intros s m u x p c R C HI G NS. rewrite (not_consistent_iff s m u R C HI x).
  pose proof (match_star (realName u) p c NS) as M. split.
  - intros (p' & G' & F) A. destruct G as (_ & E & _), G' as (_ & E' & _).
    assert (p' = p ++ [c; "*"%char]) as -> by congruence. apply M in A.
    exact (Bool.eq_true_false_abs _ A F).
  - intros H. exists (p ++ [c; "*"%char]). split; [exact G|].
    apply Bool.not_true_iff_false. intros A. apply H, M, A.
Qed.
Print Assumptions C142_star_partial.

(** C142. No message for a name that fits, if the prefix has two characters before the last
    one and the star, or the name is longer than they are. *)
Theorem C142_no_false_message_partial : forall s m u x p c, reasonable u -> ~ param_copy u ->
  (ekind_of u = KIter -> str s ITER <> None \/ str s EXTERNAL = None) ->
  governs s m u x (p ++ [c; "*"%char]) -> no_star (p ++ [c]) ->
  2 <= List.length p \/ List.length p < List.length (realName u) ->
  begins_star p c (realName u) -> ~ In (NotConsistent x) (checkPrefix s m u).
Proof.
  intros s m u x p c R C HI G NS L (w & rest & E & F & A) H.
  apply (C142_star_partial s m u x p c R C HI G NS) in H. apply H.
  exists w, rest. split; [exact E|]. split; [exact F|].
  destruct rest as [|a rest].
  - destruct L as [L|L]; [exact L|]. rewrite E, app_nil_r in L.
    apply forall2_len in F. rewrite F in L. exfalso. exact (Nat.lt_irrefl _ L).
  - inversion A; subst. split; [assumption|]. destruct rest; [constructor|].
    cbn [skipn]. match goal with K : Forall _ (_ :: _) |- _ => inversion K; assumption end.
Qed.
Print Assumptions C142_no_false_message_partial.
Example C142_star_ex :
  governs (one TYPE "T^&*" false) false (ent KDatatype false "TWindow") TYPE (lit "T^&*") /\
  begins_star (lit "T^") "&"%char (lit "TWindow") /\
  checkPrefix (one TYPE "T^&*" false) false (ent KDatatype false "TWindow") = [] /\
  checkPrefix (one TYPE "T^&*" false) false (ent KDatatype false "TWinDow") = [NotConsistent TYPE].
Proof.
  split; [|split; [|split; reflexivity]].
  - split; [reflexivity|]. split; [reflexivity|]. intros y _ [[_ H]|[_ H]]; discriminate.
  - exists (lit "TW"), (lit "indow"). split; [reflexivity|]. split.
    + constructor; [constructor|]. constructor; [apply d_upper; cbn; tauto|constructor].
    + repeat (constructor; [apply d_lower; cbn; tauto|]). constructor.
Qed.

(** With the sample convention of the manual, -uncheckedmacroprefix "~*" (no lowercase
    letters), a macro named Ab gets no message: the character after the first one of the rest
    is skipped. *)
Theorem C142_skipped_character_refuted : exists s u p,
  reasonable u /\ ~ param_copy u /\ governs s false u UNCHECKEDMACRO p /\ p = lit "~*" /\
  ~ fits p (realName u) /\ checkPrefix s false u = [].
Proof.
  exists (one UNCHECKEDMACRO "~*" false), (ent (KVar VKEXPMACRO AtGlobal) false "Ab"), (lit "~*").
  split; [reflexivity|]. split; [intros []|].
  split; [split; [exists AtGlobal; reflexivity|split; [reflexivity|intros y _ [[_ H]|[_ H]]; discriminate]]|].
  split; [reflexivity|]. split; [|reflexivity].
  intros [[NS _]|(q & c & E & _ & w & rest & EN & F & A)].
  - apply NS. cbn. tauto.
  - destruct q as [|q1 q].
    2:{ apply (f_equal (@List.length ascii)) in E. cbn in E. rewrite app_length in E. cbn in E. lia. }
    injection E as <-. inversion F; subst. cbn in EN. subst rest.
    inversion A; subst. match goal with K : Forall _ _ |- _ => inversion K; subst end.
    match goal with D : denotes "~"%char "b"%char |- _ => apply match_char in D; discriminate D end.
Qed.
Print Assumptions C142_skipped_character_refuted.

(** The manual says that the prefix "T^*" matches T (12.2, printed there as "T&*"); a type
    named T gets a message. *)
Theorem C142_short_name_refuted : exists s u p,
  reasonable u /\ ~ param_copy u /\ governs s false u TYPE p /\ p = lit "T^*" /\
  fits p (realName u) /\ checkPrefix s false u = [NotConsistent TYPE].
Proof.
  exists (one TYPE "T^*" false), (ent KDatatype false "T"), (lit "T^*").
  split; [reflexivity|]. split; [intros []|].
  split; [split; [reflexivity|split; [reflexivity|intros y _ [[_ H]|[_ H]]; discriminate]]|].
  split; [reflexivity|]. split; [|reflexivity].
  right. exists (lit "T"), "^"%char. split; [reflexivity|].
  split; [intros [H|[H|[]]]; discriminate|].
  exists (lit "T"), []. split; [reflexivity|]. split; [constructor; constructor|constructor].
Qed.
Print Assumptions C142_short_name_refuted.

(** C143. A name is compared with the most specific prefix that is set, and with no other;
    one message at most. *)
Theorem C143_most_specific : forall s m u, reasonable u -> ~ param_copy u ->
  (ekind_of u = KIter -> str s ITER <> None \/ str s EXTERNAL = None) ->
  forall x, In (NotConsistent x) (checkPrefix s m u) <->
    exists p, governs s m u x p /\ matchPrefix (realName u) (Some p) = false.
Proof. exact not_consistent_iff. Qed.
Print Assumptions C143_most_specific.

(** C143. At most one prefix governs a name. *)
Theorem C143_unique : forall s m u x y p q, reasonable u -> ~ param_copy u ->
  governs s m u x p -> governs s m u y q ->
  (ekind_of u = KIter -> str s ITER <> None \/ str s EXTERNAL = None) -> x = y /\ p = q.
Proof.
  intros s m u x y p q R C G1 G2 HI. destruct (chosen_total m u R C) as [f0 CH].
  assert (f0 = ITER -> str s ITER <> None \/ str s EXTERNAL = None) as HI'
    by (intros ->; apply HI; eapply chosen_iter; eassumption).
  apply (governs_iff s m u f0 R C CH HI') in G1 as [-> E1].
  apply (governs_iff s m u f0 R C CH HI') in G2 as [-> E2].
  split; [reflexivity|congruence].
Qed.
Print Assumptions C143_unique.
(** C143. Nothing is said a second time about the copy of a parameter. *)
Theorem C143_copies : forall s m u, param_copy u -> checkPrefix s m u = [].
Proof. exact copy_silent. Qed.
Print Assumptions C143_copies.
Example C143_ex :
  let s := {| str := fun x => match x with
                              | EXTERNAL => Some (lit "x_") | CONST => Some (lit "c_") | _ => None end;
              excl := fun _ => false |} in
  checkPrefix s false (ent KEnumConst false "x_red") = [NotConsistent CONST] /\
  checkPrefix s false (ent KEnumConst false "c_red") = [] /\
  checkPrefix s false (gvar "c_count") = [NotConsistent EXTERNAL] /\
  checkPrefix s false (gvar "x_count") = [] /\
  checkPrefix s true (ent (KVar VKREFPARAM InBlock) false "i") = [] /\
  checkPrefix s true (ent (KVar VKPARAM InBlock) false "i") = [].
Proof. vm_compute. tauto. Qed.

(** An iterator is an exported identifier, but without an iterprefix it is not compared with
    the external prefix (as types, constants and global variables are). *)
Theorem C143_iterators_refuted : exists s u p,
  reasonable u /\ ~ param_copy u /\ governs s false u EXTERNAL p /\
  ~ begins p (realName u) /\ no_star p /\ checkPrefix s false u = [].
Proof.
  exists (one EXTERNAL "x_" false), (ent KIter false "each"), (lit "x_").
  split; [reflexivity|]. split; [intros []|].
  split; [split; [cbn; tauto|split; [reflexivity|]]|].
  - intros y _ [[_ H]|[NE _]]; [discriminate|]. destruct y; try reflexivity. congruence.
  - split; [|split; [intros [H|[H|[]]]; discriminate|reflexivity]].
    intros (w & r & E & F). inversion F; subst. injection E as <- _.
    match goal with D : denotes "x"%char "e"%char |- _ => inversion D end.
Qed.
Print Assumptions C143_iterators_refuted.

(** C144. With an exclude flag on, a name outside the name space that matches its prefix is
    reported, and only such a name; not for the constant and iterator prefixes, and for the
    external prefix not for unchecked macros, iterators and constants with their own prefix. *)
Theorem C144_excluded_partial : forall s m u, reasonable u -> ~ param_copy u ->
  forall x, x <> CONST -> x <> ITER ->
  (x = EXTERNAL -> ~ unchecked_macro u /\ ~ own_prefix s u) ->
  (In (MatchesOther x) (checkPrefix s m u) <->
   excl s x = true /\ ~ is_a m u x /\
   exists p, str s x = Some p /\ matchPrefix (realName u) (Some p) = true).
Proof. exact excluded_iff. Qed.
Print Assumptions C144_excluded_partial.

(** C144, for prefixes without a star. *)
Theorem C144_excluded_plain_partial : forall s m u x p, reasonable u -> ~ param_copy u ->
  x <> CONST -> x <> ITER -> (x = EXTERNAL -> ~ unchecked_macro u /\ ~ own_prefix s u) ->
  excl s x = true -> str s x = Some p -> no_star p ->
  (In (MatchesOther x) (checkPrefix s m u) <-> ~ is_a m u x /\ begins p (realName u)).
Proof.
  intros s m u x p R C NC NI HE EX E NS. rewrite (excluded_iff s m u R C x NC NI HE).
  rewrite <- (match_plain (realName u) p NS). split.
  - intros (_ & NA & p' & E' & M). assert (p' = p) as -> by congruence. auto.
  - intros (NA & M). split; [exact EX|]. split; [exact NA|]. exists p. auto.
Qed.
Print Assumptions C144_excluded_plain_partial.
Example C144_ex :
  checkPrefix (one MACROVAR "m_" true) false (gvar "m_x") = [MatchesOther MACROVAR] /\
  checkPrefix (one MACROVAR "m_" true) false (gvar "n_x") = [] /\
  checkPrefix (one MACROVAR "m_" true) true (ent (KVar VKNORMAL InBlock) false "m_x") = [] /\
  ~ is_a false (gvar "m_x") MACROVAR /\ begins (lit "m_") (lit "m_x").
Proof.
  split; [reflexivity|]. split; [reflexivity|]. split; [reflexivity|]. split.
  - intros [H _]. discriminate.
  - exists (lit "m_"), (lit "x"). split; [reflexivity|]. repeat constructor.
Qed.

(** +constprefixexclude does nothing. *)
Theorem C144_constants_refuted : exists s u p,
  reasonable u /\ ~ param_copy u /\ excl s CONST = true /\ str s CONST = Some p /\ no_star p /\
  ~ is_a false u CONST /\ begins p (realName u) /\ checkPrefix s false u = [].
Proof.
  exists (one CONST "c_" true), (gvar "c_x"), (lit "c_").
  split; [reflexivity|]. split; [intros []|]. split; [reflexivity|]. split; [reflexivity|].
  split; [intros [H|[H|[]]]; discriminate|].
  split; [intros [H|H]; discriminate|].
  split; [exists (lit "c_"), (lit "x"); split; [reflexivity|repeat constructor]|reflexivity].
Qed.
Print Assumptions C144_constants_refuted.
(** +iterprefixexclude does nothing. *)
Theorem C144_iterators_refuted : exists s u p,
  reasonable u /\ ~ param_copy u /\ excl s ITER = true /\ str s ITER = Some p /\ no_star p /\
  ~ is_a false u ITER /\ begins p (realName u) /\ checkPrefix s false u = [].
Proof.
  exists (one ITER "i_" true), (gvar "i_x"), (lit "i_").
  split; [reflexivity|]. split; [intros []|]. split; [reflexivity|]. split; [reflexivity|].
  split; [intros [H|[H|[]]]; discriminate|].
  split; [intros H; discriminate|].
  split; [exists (lit "i_"), (lit "x"); split; [reflexivity|repeat constructor]|reflexivity].
Qed.
Print Assumptions C144_iterators_refuted.
(** With both a constprefix and an externalprefix, and +externalprefixexclude, a constant, which
    is exported, is reported not to be external. *)
Theorem C144_exported_constant_refuted : exists s u,
  reasonable u /\ ~ param_copy u /\ is_a false u EXTERNAL /\
  In (MatchesOther EXTERNAL) (checkPrefix s false u).
Proof.
  exists {| str := fun x => match x with CONST => Some (lit "MAX") | EXTERNAL => Some (lit "M") | _ => None end;
            excl := fun x => space_eqb x EXTERNAL |}, (ent KConst false "MAXLEN").
  split; [reflexivity|]. split; [intros []|]. split; [cbn; tauto|]. vm_compute. tauto.
Qed.
Print Assumptions C144_exported_constant_refuted.
(** An unchecked macro may use the external prefix even with +externalprefixexclude. *)
Theorem C144_unchecked_macro_refuted : exists s u p,
  reasonable u /\ ~ param_copy u /\ excl s EXTERNAL = true /\ str s EXTERNAL = Some p /\
  no_star p /\ ~ is_a false u EXTERNAL /\ begins p (realName u) /\ checkPrefix s false u = [].
Proof.
  exists (one EXTERNAL "x_" true), (ent (KVar VKEXPMACRO AtGlobal) false "x_m"), (lit "x_").
  split; [reflexivity|]. split; [intros []|]. split; [reflexivity|]. split; [reflexivity|].
  split; [intros [H|[H|[]]]; discriminate|].
  split.
  { cbn. intros [H|[H|[H|[H|[[H _]|[H _]]]]]]; try discriminate. apply H. exists AtGlobal. reflexivity. }
  split; [exists (lit "x_"), (lit "m"); split; [reflexivity|repeat constructor]|reflexivity].
Qed.
Print Assumptions C144_unchecked_macro_refuted.

(** C145. The messages about reserved names are given exactly when they are due. *)
Theorem C145_due : forall local u f r, realName u <> [] ->
  (In (f, r) (checkAnsiName local u) <-> due local u f r).
Proof. exact due_iff. Qed.
Print Assumptions C145_due.
Example C145_due_ex :
  checkAnsiName false (gvar "strange") = [(ISORESERVED, RStr)] /\
  checkAnsiName false (ent (KVar VKNORMAL InBlock) false "strange") = [] /\
  checkAnsiName true (ent (KVar VKNORMAL InBlock) false "strange") = [(ISORESERVEDLOCAL, RStr)] /\
  checkAnsiName false (ent (KVar VKNORMAL InBlock) false "_x") = [] /\
  checkAnsiName false (ent (KVar VKNORMAL InBlock) false "_X") = [(ISORESERVED, RUnderscoreAny)] /\
  checkAnsiName false (ent KFun true "_x") = [(ISORESERVED, RUnderscore)] /\
  checkAnsiName false (gvar "SIGX") = [(ISORESERVED, RSignal)] /\
  checkAnsiName false (ent KFun false "coshl") = [(ISORESERVED, RMath)] /\
  checkAnsiName false (gvar "stir_it") = [].
Proof. vm_compute. repeat split. Qed.

(** C145. Defining any function of the library other than those of <math.h> gives a message. *)
Theorem C145_library_functions_partial : forall local u,
  linkage u -> In (realName u) other_functions ->
  exists r, In (ISORESERVED, r) (checkAnsiName local u).
Proof.
  intros local u L I.
  destruct (other_known _ I) as [NE [A|[A|[A|A]]]];
    [exists RLibrary|exists RCtype|exists RStr|exists RMem];
    apply (due_iff local u _ _ NE); cbn; tauto.
Qed.
Print Assumptions C145_library_functions_partial.
Example C145_library_functions_ex :
  linkage (ent KFun false "printf") /\ In (lit "printf") other_functions /\
  checkAnsiName false (ent KFun false "printf") = [(ISORESERVED, RLibrary)] /\
  checkAnsiName false (ent KFun false "strlen") = [(ISORESERVED, RStr)].
Proof. split; [reflexivity|]. split; [cbn; tauto|]. vm_compute. tauto. Qed.

(** A function of the program named like one of <math.h> gets no message: the list of names
    leaves these functions out and the rule only looks at them with f or l appended. *)
Theorem C145_math_refuted : exists u, linkage u /\ In (realName u) math_functions /\
  checkAnsiName true u = [].
Proof. exists (ent KFun false "sqrt"). split; [reflexivity|]. split; [cbn; tauto|reflexivity]. Qed.
Print Assumptions C145_math_refuted.

(** The macro EOF of <stdio.h> is reported, but as a name reserved for <errno.h>. *)
Theorem C145_eof_refuted : exists u, realName u = lit "EOF" /\
  checkAnsiName false u = [(ISORESERVED, RErrno)].
Proof. exists (ent KConst false "EOF"). split; reflexivity. Qed.
Print Assumptions C145_eof_refuted.

(** A member of an enumeration that begins with an underscore, which is reserved at file
    scope, gets no message. *)
Theorem C145_enum_refuted : exists u, ekind_of u = KEnumConst /\ reasonable u /\
  starts (lit "_") (realName u) /\ checkAnsiName false u = [].
Proof.
  exists (ent KEnumConst false "_max"). split; [reflexivity|]. split; [reflexivity|].
  split; [exists (lit "max"); reflexivity|reflexivity].
Qed.
Print Assumptions C145_enum_refuted.

(** C146. +cppnames reports exactly the names of the list, which are the words of C++ that are
    not words of C except five, and two more. *)
Theorem C146_cpp_partial : forall name, name <> [] ->
  (checkCppName name = true <->
   (In name cpp_words /\
    ~ In name (map lit ["const_cast"; "explicit"; "export"; "typename"; "wchar_t"]%string)) \/
   name = lit "const_class" \/ name = lit "overload").
Proof.
  exact cpp_iff.
Qed.
Print Assumptions C146_cpp_partial.
Example C146_ex : checkCppName (lit "class") = true /\ checkCppName (lit "klass") = false /\
  In (lit "class") cpp_words.
Proof. vm_compute. tauto. Qed.
(** typename is a word of C++ and is not reported. *)
Theorem C146_missing_refuted : exists name, In name cpp_words /\ checkCppName name = false.
Proof. exists (lit "typename"). split; [cbn; tauto|reflexivity]. Qed.
Print Assumptions C146_missing_refuted.
(** const_class (meant to be const_cast) is not a word of C++ and is reported. *)
Theorem C146_extra_refuted : exists name, ~ In name cpp_words /\ checkCppName name = true.
Proof. exists (lit "const_class"). split; [vm_compute; intuition discriminate|reflexivity]. Qed.
Print Assumptions C146_extra_refuted.

(** C147. With a prefix for the parameters of declarations, exactly the parameters with a name
    that does not begin with it are reported, each in its place. *)
Theorem C147_prefix : forall pfx noformal params name,
  In (ParamPrefix name) (checkParamNames (Some pfx) noformal params) <->
  In (Some name) params /\ ~ starts pfx name.
Proof.
  intros pfx noformal params name.
  assert (checkParamNames (Some pfx) noformal params =
          flat_map (fun p => match p with None => []
            | Some n => if equalPrefix n pfx then [] else [ParamPrefix n] end) params) as ->
    by (destruct noformal; reflexivity).
  rewrite in_flat_map. rewrite <- equalPrefix_iff. split.
  - intros ([n|] & I & H); [|destruct H]. destruct (equalPrefix n pfx) eqn:E; [destruct H|].
    destruct H as [H|[]]. injection H as <-. split; [exact I|congruence].
  - intros [I N]. exists (Some name). split; [exact I|]. destruct (equalPrefix name pfx); [exfalso; auto|left; reflexivity].
Qed.
Print Assumptions C147_prefix.
(** C147. Without a prefix, +declparamname reports exactly the parameters with a name, in
    order; without either flag nothing is reported. *)
Theorem C147_names : forall params,
  checkParamNames None true params =
    map ParamHasName (flat_map (fun p => match p with Some n => [n] | None => [] end) params) /\
  checkParamNames None false params = [].
Proof.
  intros params. split; [|reflexivity]. cbn [checkParamNames].
  induction params as [|[n|] params IH]; cbn [flat_map map app]; [reflexivity| |exact IH].
  rewrite IH. reflexivity.
Qed.
Print Assumptions C147_names.
(** C147. +declparammatch: silent exactly when the names are the same without the prefix,
    taken away where there is one. *)
Theorem C147_match : forall fpfx o n,
  paramMatchMessage fpfx (Some o) (Some n) = false <->
  exists b, bare fpfx o b /\ bare fpfx n b.
Proof.
  intros fpfx o n. unfold paramMatchMessage. rewrite Bool.negb_false_iff, cstr_eqb_eq. split.
  - intros E. exists (stripPrefix fpfx o). split; [apply strip_iff; reflexivity|apply strip_iff; exact E].
  - intros (b & A & B). apply strip_iff in A. apply strip_iff in B. congruence.
Qed.
Print Assumptions C147_match.
(** C147. Nothing is compared for a parameter without a name. *)
Theorem C147_unnamed : forall fpfx o,
  paramMatchMessage fpfx None o = false /\ paramMatchMessage fpfx o None = false.
Proof. intros fpfx [o|]; split; reflexivity. Qed.
Print Assumptions C147_unnamed.
Example C147_ex :
  checkParamNames (Some (lit "p_")) false [Some (lit "p_x"); None; Some (lit "y")] = [ParamPrefix (lit "y")] /\
  checkParamNames None true [Some (lit "p_x"); None] = [ParamHasName (lit "p_x")] /\
  paramMatchMessage (Some (lit "p_")) (Some (lit "p_x")) (Some (lit "x")) = false /\
  bare (Some (lit "p_")) (lit "p_x") (lit "x") /\
  paramMatchMessage None (Some (lit "p_x")) (Some (lit "x")) = true.
Proof. split; [reflexivity|]. split; [reflexivity|]. split; [reflexivity|]. split; [left; exists (lit "p_"); auto|reflexivity]. Qed.

(** The codes of Figure 23 mean nothing in -declparamprefix: with "p^", a parameter named pX
    is reported. *)
Theorem C147_codes_refuted : exists pfx name, begins pfx name /\
  In (ParamPrefix name) (checkParamNames (Some pfx) false [Some name]).
Proof.
  exists (lit "p^"), (lit "pX"). split; [|left; reflexivity].
  exists (lit "pX"), []. split; [reflexivity|]. constructor; [constructor|].
  constructor; [apply d_upper; cbn; tauto|constructor].
Qed.
Print Assumptions C147_codes_refuted.
(** +declparamname is said to report every named parameter; with a -declparamprefix it reports
    none. *)
Theorem C147_both_refuted : exists pfx params name, In (Some name) params /\
  checkParamNames (Some pfx) true params = [].
Proof. exists (lit "p_"), [Some (lit "p_x")], (lit "p_x"). split; [left; reflexivity|reflexivity]. Qed.
Print Assumptions C147_both_refuted.
