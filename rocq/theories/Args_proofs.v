(** Reading of options: proofs. *)
From Verif Require Import Cbase Cbase_facts Flagtab_model Flagname_model Flagname_spec Flagname_proofs Flagset_model Flagset_proofs Args_model Args_spec.

Lemma codes_nonneg : forall e, In e flag_table -> 0 <= fcode e.
Proof.
  assert (K : forallb (fun e => 0 <=? fcode e) flag_table = true) by (vm_compute; reflexivity).
  intros e I. rewrite forallb_forall in K. specialize (K e I). lia.
Qed.
Lemma special_dirs : forall e, In e flag_table -> argtype e = ARG_SPECIAL \/ directory_flag e = false.
Proof.
  assert (K : forallb (fun e => match argtype e with ARG_SPECIAL => true | _ => negb (directory_flag e) end) flag_table = true) by (vm_compute; reflexivity).
  intros e I. rewrite forallb_forall in K. specialize (K e I). destruct (argtype e); auto; right; destruct (directory_flag e); auto; discriminate.
Qed.
Lemma named_id : forall name e, named name e -> argtype e <> ARG_SPECIAL -> identify name = fcode e.
Proof.
  intros name e (I & S & _ & _) A. destruct (special_dirs e I) as [D|D]; [contradiction|]. exact (spelled_selects e name I D S).
Qed.

(** One word of the second pass, once its name is known. *)
Definition flag_step (cl : bool) (opt : Z) (set : bool) (rest : list cstr) : list event :=
  if cl && is_control opt then
    if has_argument opt then match rest with _ :: rest' => process cl rest' | [] => [] end
    else process cl rest
  else
    ESet opt set ::
    (if has_number opt || has_char opt then
       match rest with
       | arg :: rest' => EValue opt arg :: process cl rest'
       | [] => [EMissing opt]
       end
     else if has_string opt then
       match rest with
       | arg :: rest' =>
           if opt =? FLG_OPTF then
             if cl then process cl rest'
             else ERcFile arg :: process cl rest'
           else if opt =? FLG_INIT then [EInit arg]
           else if opt =? FLG_MTSFILE then EMts arg :: process cl rest'
           else EString opt arg :: process cl rest'
       | [] => [EMissing opt]
       end
     else process cl rest).

Definition name_step (cl : bool) (thisarg body flagname : cstr) (set : bool) (rest : list cstr) : list event :=
  let opt := identify flagname in
  if opt =? INVALID_FLAG then EBadFlag thisarg :: process cl rest
  else if opt =? FLG_HELP then EHelp thisarg :: process cl rest
  else if (opt =? FLG_DEFINE) || (opt =? FLG_UNDEFINE) then EPass body :: process cl rest
  else if (opt =? FLG_INCLUDEPATH) || (opt =? FLG_SPECPATH) then
    if cstr_eqb thisarg (lit "-I-") then EDir FLG_INCLUDEPATH thisarg :: process cl rest
    else
      match skipn 2 thisarg with
      | [] => match rest with
              | d :: rest' => EDir opt d :: process cl rest'
              | [] => [EMissing opt; EDir opt []]
              end
      | dir => EDir opt dir :: process cl rest
      end
  else if opt =? MODENAME_FLAG then EMode (mode_of flagname) :: process cl rest
  else if cl && is_control opt then flag_step cl opt set rest
  else if opt <? 0 then [EUndefined]
  else flag_step cl opt set rest.

Lemma process_cons : forall cl ch body rest, process cl ((ch :: body) :: rest) =
  if Ascii.eqb ch "-" || Ascii.eqb ch "+" then
    name_step cl (ch :: body) body (match body with c :: b => if Ascii.eqb c "-" then b else body | [] => body end) (Ascii.eqb ch "+") rest
  else EFile (ch :: body) :: process cl rest.
Proof.
  intros. cbn [process]. destruct (Ascii.eqb ch "-" || Ascii.eqb ch "+"); [|reflexivity].
  unfold name_step, flag_step. set (opt := identify _).
  repeat match goal with |- context [if ?b then _ else _] => destruct b eqn:?; try reflexivity end.
Qed.

Lemma process_word : forall cl on long name rest, no_dash name ->
  exists body, process cl (word on long name :: rest) = name_step cl (word on long name) body name on rest.
Proof.
  intros cl on long name rest N. unfold word. destruct on, long; cbn [lit String.list_ascii_of_string app]; rewrite process_cons; cbn [Ascii.eqb Bool.eqb orb];
    eexists; try reflexivity;
    (destruct name as [|c b]; [reflexivity|]; destruct (Ascii.eqb c "-") eqn:E; [apply Ascii.eqb_eq in E; subst c; destruct (N b); reflexivity|reflexivity]).
Qed.

Lemma process_named : forall cl on long name e rest, named name e -> argtype e <> ARG_SPECIAL ->
  process cl (word on long name :: rest) = flag_step cl (fcode e) on rest.
Proof.
  intros cl on long name e rest Nm A. pose proof (named_id name e Nm A) as Id. destruct Nm as (I & _ & N & O).
  destruct (process_word cl on long name rest N) as [body ->]. unfold name_step. rewrite Id.
  pose proof (codes_nonneg e I) as P.
  assert (O' : forall x, In x [FLG_INCLUDEPATH; FLG_SPECPATH; FLG_DEFINE; FLG_UNDEFINE; FLG_HELP] -> (fcode e =? x) = false)
    by (intros x Hx; apply Z.eqb_neq; intros E; rewrite <- E in Hx; contradiction).
  rewrite (O' FLG_HELP), (O' FLG_DEFINE), (O' FLG_UNDEFINE), (O' FLG_INCLUDEPATH), (O' FLG_SPECPATH) by (cbn; tauto).
  destruct (fcode e =? INVALID_FLAG) eqn:E1; [apply Z.eqb_eq in E1; rewrite E1 in P; vm_compute in P; contradiction P; reflexivity|].
  destruct (fcode e =? MODENAME_FLAG) eqn:E2; [apply Z.eqb_eq in E2; rewrite E2 in P; vm_compute in P; contradiction P; reflexivity|].
  cbn [orb]. destruct (cl && is_control (fcode e)); [reflexivity|].
  destruct (fcode e <? 0) eqn:E3; [apply Z.ltb_lt in E3; lia|]. reflexivity.
Qed.

Lemma control_args : forall e, In e flag_table -> control e = true -> is_number e = false /\ is_char e = false.
Proof.
  assert (K : forallb (fun e => negb (control e) || negb (is_number e || is_char e)) flag_table = true) by (vm_compute; reflexivity).
  intros e I C. rewrite forallb_forall in K. specialize (K e I). rewrite C in K. cbn in K. destruct (is_number e), (is_char e); auto; discriminate.
Qed.

Definition the_meaning (cl : bool) (i : item) : list event := if cl then meaning i else meaning_rc i.

Lemma step_flag : forall cl on e rest, In e flag_table -> argtype e = ARG_NONE ->
  flag_step cl (fcode e) on rest = (if cl && control e then [] else [ESet (fcode e) on]) ++ process cl rest.
Proof.
  intros cl on e rest I A. unfold flag_step, has_argument, has_number, has_char, has_string. change (is_control (fcode e)) with (control e).
  rewrite !has_in by exact I. unfold is_number, is_char, is_string. rewrite A. destruct (cl && control e); reflexivity.
Qed.
Lemma step_arg : forall cl on long name e arg rest, In e flag_table -> argtype e <> ARG_NONE -> argtype e <> ARG_SPECIAL -> fcode e <> FLG_INIT ->
  flag_step cl (fcode e) on (arg :: rest) = the_meaning cl (IArg on long name e arg) ++ process cl rest.
Proof.
  intros cl on long name e arg rest I A1 A2 NI. unfold flag_step, has_argument, has_number, has_char, has_string. change (is_control (fcode e)) with (control e).
  rewrite !has_in by exact I. unfold the_meaning, meaning, meaning_rc, value_event, is_number, is_char, is_string.
  assert (OF : argtype e = ARG_NUMBER \/ argtype e = ARG_CHAR -> fcode e <> FLG_OPTF).
  { assert (K : forallb (fun e => match argtype e with ARG_NUMBER | ARG_CHAR => negb (fcode e =? FLG_OPTF) | _ => true end) flag_table = true) by (vm_compute; reflexivity).
    rewrite forallb_forall in K. specialize (K e I). intros [E|E]; rewrite E in K; destruct (fcode e =? FLG_OPTF) eqn:Q; try discriminate; apply Z.eqb_neq; exact Q. }
  apply Z.eqb_neq in NI. rewrite NI.
  destruct (argtype e) eqn:A; try contradiction; destruct cl; cbn [andb orb]; destruct (control e); cbn [app];
    try reflexivity; destruct (fcode e =? FLG_OPTF) eqn:Q; try (apply Z.eqb_eq in Q; try rewrite Q; try (destruct OF; auto; fail)); try reflexivity;
    destruct (fcode e =? FLG_MTSFILE); reflexivity.
Qed.

Lemma mode_word : forall m, no_dash (mode_text m) /\ identify (mode_text m) = MODENAME_FLAG /\ mode_of (mode_text m) = Some m.
Proof.
  intros m. split; [intros r E; destruct m; vm_compute in E; discriminate|]. destruct m; split; vm_compute; reflexivity.
Qed.

Lemma process_item : forall cl i rest, wf i -> process cl (words i ++ rest) = the_meaning cl i ++ process cl rest.
Proof.
  intros cl i rest W. destruct i as [name|on long name e|on long name e arg|on long m|sp dir|sp dir|un text]; cbn [words app] in *.
  - assert (E : process cl (name :: rest) = EFile name :: process cl rest).
    { destruct name as [|c r]; [reflexivity|]. rewrite process_cons.
      destruct (Ascii.eqb c "-") eqn:E1; [apply Ascii.eqb_eq in E1; subst c; destruct W; exists "-"%char, r; auto|].
      destruct (Ascii.eqb c "+") eqn:E2; [apply Ascii.eqb_eq in E2; subst c; destruct W; exists "+"%char, r; auto|]. reflexivity. }
    rewrite E. destruct cl; reflexivity.
  - destruct W as [N A]. rewrite (process_named cl on long name e rest N) by (rewrite A; discriminate).
    rewrite step_flag; [|apply N|exact A]. destruct cl; cbn [andb the_meaning meaning meaning_rc]; reflexivity.
  - destruct W as (N & A1 & A2 & NI). rewrite (process_named cl on long name e (arg :: rest) N A2).
    apply step_arg; try assumption. apply N.
  - destruct (mode_word m) as (N & Id & M). destruct (process_word cl on long (mode_text m) rest N) as [body ->].
    unfold name_step. rewrite Id, M. destruct cl; reflexivity.
  - destruct W as [D S]. destruct dir as [|d dir]; [contradiction|].
    destruct sp; cbn [lit String.list_ascii_of_string app]; rewrite process_cons; cbn [Ascii.eqb Bool.eqb orb]; unfold name_step.
    + change (identify ("S"%char :: d :: dir)) with FLG_SPECPATH.
      change (cstr_eqb ("-"%char :: "S"%char :: d :: dir) (lit "-I-")) with false. destruct cl; reflexivity.
    + change (identify ("I"%char :: d :: dir)) with FLG_INCLUDEPATH.
      destruct (cstr_eqb ("-"%char :: "I"%char :: d :: dir) (lit "-I-")) eqn:E.
      * apply cstr_eqb_eq in E. cbn [lit String.list_ascii_of_string] in E. injection E as E1 E2. destruct (S eq_refl). rewrite E1, E2. reflexivity.
      * destruct cl; reflexivity.
  - destruct sp; cbn [lit String.list_ascii_of_string app]; rewrite process_cons; destruct cl; reflexivity.
  - destruct un; cbn [lit String.list_ascii_of_string app]; rewrite process_cons; cbn [Ascii.eqb Bool.eqb orb]; unfold name_step; destruct cl; reflexivity.
Qed.

Theorem process_items : forall cl l, Forall wf l -> process cl (List.concat (map words l)) = List.concat (map (the_meaning cl) l).
Proof.
  induction l as [|i l IH]; intros W; [reflexivity|]. cbn [map List.concat].
  rewrite process_item by (inversion W; assumption). rewrite IH by (inversion W; assumption). reflexivity.
Qed.

Definition pass_step (opt : Z) (set : bool) (rest : list cstr) : list event :=
  if opt =? FLG_NOF then ENoRc :: first_pass rest
  else if is_control opt then
    ESet opt set ::
    (if has_argument opt then
       match rest with
       | arg :: rest' => EString opt arg :: first_pass rest'
       | [] => [EMissing opt]
       end
     else first_pass rest)
  else if opt =? FLG_OPTF then
    match rest with
    | arg :: rest' => ERcFile arg :: first_pass rest'
    | [] => [EMissing opt]
    end
  else first_pass rest.
Lemma first_cons : forall ch body rest, first_pass ((ch :: body) :: rest) =
  if Ascii.eqb ch "-" || Ascii.eqb ch "+" then pass_step (identify body) (Ascii.eqb ch "+") rest else first_pass rest.
Proof. reflexivity. Qed.
Lemma first_plain : forall a rest, ~ optionlike a -> first_pass (a :: rest) = first_pass rest.
Proof.
  intros [|c r] rest W; [reflexivity|]. rewrite first_cons.
  destruct (Ascii.eqb c "-") eqn:E1; [apply Ascii.eqb_eq in E1; subst c; destruct W; exists "-"%char, r; auto|].
  destruct (Ascii.eqb c "+") eqn:E2; [apply Ascii.eqb_eq in E2; subst c; destruct W; exists "+"%char, r; auto|]. reflexivity.
Qed.
Lemma first_word : forall on long name rest, first_pass (word on long name :: rest) =
  pass_step (identify ((if long then lit "-" else []) ++ name)) on rest.
Proof. intros on long name rest. unfold word. destruct on; cbn [lit String.list_ascii_of_string app]; rewrite first_cons; reflexivity. Qed.
Lemma first_named : forall on long name e rest, named name e -> argtype e <> ARG_SPECIAL ->
  first_pass (word on long name :: rest) = pass_step (fcode e) on rest.
Proof.
  intros on long name e rest (I & S & _ & _) A. rewrite first_word. f_equal.
  destruct (special_dirs e I) as [D|D]; [contradiction|]. apply (spelled_selects e _ I D).
  destruct long; cbn [lit String.list_ascii_of_string app]; [apply sp_sep; [right; left; reflexivity|exact S]|exact S].
Qed.
Lemma first_mode : forall on long m rest, first_pass (word on long (mode_text m) :: rest) = first_pass rest.
Proof.
  intros. rewrite first_word.
  assert (E : identify ((if long then lit "-" else []) ++ mode_text m) = MODENAME_FLAG) by (destruct long, m; vm_compute; reflexivity).
  rewrite E. reflexivity.
Qed.
Lemma nof_plain : forall e, In e flag_table -> fcode e = FLG_NOF -> argtype e = ARG_NONE.
Proof.
  assert (K : forallb (fun e => negb (fcode e =? FLG_NOF) || match argtype e with ARG_NONE => true | _ => false end) flag_table = true) by (vm_compute; reflexivity).
  intros e I E. rewrite forallb_forall in K. specialize (K e I). rewrite E in K. destruct (argtype e); auto; discriminate.
Qed.
Lemma optf_arg : forall e, In e flag_table -> fcode e = FLG_OPTF -> argtype e <> ARG_NONE.
Proof.
  assert (K : forallb (fun e => negb (fcode e =? FLG_OPTF) || match argtype e with ARG_NONE => false | _ => true end) flag_table = true) by (vm_compute; reflexivity).
  intros e I E. rewrite forallb_forall in K. specialize (K e I). rewrite E in K. destruct (argtype e); auto; discriminate.
Qed.
Lemma first_item : forall i rest, wf i -> clear i -> first_pass (words i ++ rest) = beforehand i ++ first_pass rest.
Proof.
  intros i rest W C. destruct i as [name|on long name e|on long name e arg|on long m|sp dir|sp dir|un text]; cbn [words app beforehand] in *.
  - apply first_plain, W.
  - destruct W as [N A]. rewrite (first_named on long name e rest N) by (rewrite A; discriminate).
    unfold pass_step, has_argument. change (is_control (fcode e)) with (control e). rewrite has_in by apply N. rewrite A.
    destruct (fcode e =? FLG_NOF); [reflexivity|]. destruct (control e); [reflexivity|].
    destruct (fcode e =? FLG_OPTF) eqn:Q; [|reflexivity]. apply Z.eqb_eq in Q. destruct (optf_arg e (proj1 N) Q A).
  - destruct W as (N & A1 & A2 & NI). rewrite (first_named on long name e (arg :: rest) N A2).
    unfold pass_step, has_argument. change (is_control (fcode e)) with (control e). rewrite has_in by apply N.
    destruct (fcode e =? FLG_NOF) eqn:Q; [apply Z.eqb_eq in Q; destruct (A1 (nof_plain e (proj1 N) Q))|].
    destruct (control e) eqn:Ct; [destruct (argtype e); try contradiction; reflexivity|].
    destruct (fcode e =? FLG_OPTF) eqn:Qf; [reflexivity|]. apply Z.eqb_neq in Qf.
    cbn [clear] in C. rewrite Ct in C. cbn [app]. apply first_plain. destruct C as [C|[C|C]]; [discriminate|contradiction|exact C].
  - apply first_mode.
  - destruct sp; cbn [lit String.list_ascii_of_string app]; rewrite first_cons; reflexivity.
  - destruct sp; cbn [lit String.list_ascii_of_string app]; rewrite first_cons; cbn [Ascii.eqb Bool.eqb orb]; apply first_plain; exact C.
  - destruct un; cbn [lit String.list_ascii_of_string app]; rewrite first_cons; reflexivity.
Qed.
Theorem first_items : forall l, Forall wf l -> Forall clear l -> first_pass (List.concat (map words l)) = List.concat (map beforehand l).
Proof.
  induction l as [|i l IH]; intros W C; [reflexivity|]. cbn [map List.concat].
  inversion W; inversion C; subst. rewrite first_item, IH by assumption. reflexivity.
Qed.

Theorem last_wins : forall l on long name e c c', Forall wf l -> named name e -> argtype e = ARG_NONE -> control e = false ->
  isIdem e = false -> fcode e <> FLG_EXPORTHEADER ->
  settings c (process true (List.concat (map words (l ++ [IFlag on long name e])))) = Ok c' -> flags c' (fcode e) = on.
Proof.
  intros l on long name e c c' W N A Ct ID X H.
  rewrite (process_items true) in H by (apply Forall_app; split; [exact W|constructor; [split; assumption|constructor]]).
  rewrite map_app, concat_app in H. unfold settings in H. rewrite fold_left_app in H.
  cbn [map List.concat app the_meaning meaning] in H. rewrite Ct in H. cbn [fold_left app] in H.
  destruct (fold_left setting _ (Ok c)) as [c1| |] eqn:F; try discriminate. cbn [setting] in H. injection H as <-.
  assert (NL : fcode e <> FLG_EXTERNALNAMELEN /\ fcode e <> FLG_INTERNALNAMELEN).
  { assert (K : forallb (fun e => match argtype e with ARG_NONE => negb (fcode e =? FLG_EXTERNALNAMELEN) && negb (fcode e =? FLG_INTERNALNAMELEN) | _ => true end) flag_table = true) by (vm_compute; reflexivity).
    rewrite forallb_forall in K. specialize (K e (proj1 N)). rewrite A in K. apply andb_true_iff in K as [K1 K2].
    apply negb_true_iff, Z.eqb_neq in K1. apply negb_true_iff, Z.eqb_neq in K2. auto. }
  destruct NL as [N1 N2]. pose proof (own_assigns e (proj1 N) ID N1 N2) as OWN.
  unfold user_set_flag, set_flag. apply Z.eqb_neq in X. rewrite X. cbn [andb].
  destruct ((fcode e =? FLG_NEVERINCLUDE) && on); rewrite set_flags_assigns; apply OWN.
Qed.
