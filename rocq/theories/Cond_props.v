(** C10 and C11: conditional inclusion and include guards (src/cpplib.c). *)
From Verif Require Import Cbase Cond_model Cond_spec Cond_proofs.

(** C10. Whatever lines and conditions do to the environment (output, macros, messages), a
    properly nested file does to it what C says, without an error. *)
Theorem C10_selected_groups : forall env line cond name (exec : line -> env -> env) (eval : cond -> env -> env * bool)
    (defined : name -> env -> bool) (g : group line cond name) e fs, plain_group g = true ->
  let s := read_file exec eval defined e fs (lines g) in
  st_env s = meaning exec eval defined g e /\ stack s = fs /\ errors s = 0%nat.
Proof. intros. apply selected. assumption. Qed.
Print Assumptions C10_selected_groups.

(** C10. For any file, nested or not, the errors reported are the misplaced directives. *)
Theorem C10_nesting_errors : forall env line cond name (exec : line -> env -> env) (eval : cond -> env -> env * bool)
    (defined : name -> env -> bool) e fs (ls : list (src line cond name)),
  errors (read_file exec eval defined e fs ls) = nesting_errors [] ls.
Proof. intros. apply file_errors. Qed.
Print Assumptions C10_nesting_errors.

(** C11. A file of the guarded shape is recognised when it is first read. *)
Theorem C11_recognised : forall env line cond name (exec : line -> env -> env) (eval : cond -> env -> env * bool)
    (defined : name -> env -> bool) n (ls : list (src line cond name)) e fs,
  guarded n ls -> defined n e = false -> guard (read_file exec eval defined e fs ls) = Some n.
Proof. intros. apply guarded_first; assumption. Qed.
Print Assumptions C11_recognised.

(** C11. Not reading again a file which begins with #ifndef changes nothing, as long as that
    #ifndef has no #elif and no file without tokens is included by it. *)
Theorem C11_skip_changes_nothing : forall env line cond name (exec : line -> env -> env) (eval : cond -> env -> env * bool)
    (defined : name -> env -> bool) (before : list (src line cond name)) m rest e fs e' fs',
  let ls := before ++ Ifndef m :: rest in
  forallb is_blank before = true ->
  (forall x, ~ In (IncludeQuiet x) rest) ->
  (forall c after x, chain 0 rest = Some (c, after) -> ~ In (Elif x) c) ->
  include_again exec eval defined (guard (read_file exec eval defined e fs ls)) e' fs' ls
  = st_env (read_file exec eval defined e' fs' ls).
Proof.
  intros env line cond name exec eval defined before m rest e fs e' fs' ls B Q NE. unfold include_again.
  destruct (guard _) as [n|] eqn:G; [|reflexivity]. destruct (defined n e') eqn:D; [|reflexivity].
  destruct (recorded_guarded _ _ _ _ exec eval defined ls e fs n before m rest G eq_refl B) as [H _].
  - apply forallb_forall. intros l I. destruct l; auto. exfalso. exact (Q _ I).
  - exact NE.
  - symmetry. apply (guarded_again _ _ _ _ exec eval defined n ls e' fs' H D).
Qed.
Print Assumptions C11_skip_changes_nothing.

(** C11. In that case the second reading would neither reach a line nor leave a conditional open. *)
Theorem C11_second_reading_silent : forall env line cond name (exec : line -> env -> env) (eval : cond -> env -> env * bool)
    (defined : name -> env -> bool) n (ls : list (src line cond name)) e fs,
  guarded n ls -> defined n e = true ->
  let s := read_file exec eval defined e fs ls in st_env s = e /\ stack s = fs.
Proof. intros. apply (guarded_again _ _ _ _ exec eval defined n); assumption. Qed.
Print Assumptions C11_second_reading_silent.

(** * Examples and refutations, with macros numbered and output a list. *)
Definition tenv := (list nat * list nat)%type.
Inductive tline := TDefine (n : nat) | TUndef (n : nat) | TOut (n : nat).
Definition texec (l : tline) (e : tenv) : tenv :=
  match l with
  | TDefine n => (n :: fst e, snd e)
  | TUndef n => (List.filter (fun m => negb (n =? m)%nat) (fst e), snd e)
  | TOut n => (fst e, snd e ++ [n])
  end.
(** A condition [defined n], which also writes a trace (as a warning would). *)
Definition teval (c : nat) (e : tenv) : tenv * bool := ((fst e, snd e ++ [100 + c]%nat), existsb (Nat.eqb c) (fst e)).
Definition tdefined (n : nat) (e : tenv) : bool := existsb (Nat.eqb n) (fst e).
Definition tread := read_file texec teval tdefined.
Definition tagain := include_again texec teval tdefined.

Definition nested : group tline nat nat :=
  GCond (OIf 1%nat) (GLine (Text (TOut 1)) GNil)
    (TElif' 2%nat (GCond (OIfndef 3%nat) (GLine (Text (TDefine 3)) (GLine (Text (TOut 2)) GNil)) (TElse' (GLine (Text (TOut 3)) GNil)) GNil)
      (TElif' 4%nat (GLine (Text (TOut 4)) GNil) (TElse' (GLine (Text (TOut 5)) GNil))))
    (GCond (OIfdef 3%nat) (GLine (Text (TOut 6)) GNil) TEndif GNil).
Example C10_selected_ex :
  plain_group nested = true /\
  meaning texec teval tdefined nested ([2%nat], []) = ([3; 2]%nat, [101; 102; 2; 6]%nat) /\
  st_env (tread ([2%nat], []) [] (lines nested)) = ([3; 2]%nat, [101; 102; 2; 6]%nat).
Proof. vm_compute. auto. Qed.
Example C10_errors_ex :
  errors (tread ([], []) [] [If 1%nat; Else; Else; Elif 1%nat; Endif; Endif; Text (TOut 1)]) = 3%nat.
Proof. reflexivity. Qed.

(** C10. Nothing is said of a conditional that is not closed; in C it is an error. *)
Theorem C10_unterminated_refuted : exists (ls : list (src tline nat nat)) e,
  ~ (exists g, plain_group g = true /\ ls = lines g) /\ errors (tread e [] ls) = 0%nat.
Proof.
  exists [If 1%nat], ([], []). split; [|reflexivity]. intros (g & P & E). destruct g as [|l g|o b t g].
  - discriminate.
  - cbn [lines] in E. injection E as <- _. discriminate.
  - cbn [lines] in E. injection E as _ E. symmetry in E. apply app_eq_nil in E. destruct E as [_ E].
    apply app_eq_nil in E. destruct E as [E _]. destruct t; discriminate.
Qed.
Print Assumptions C10_unterminated_refuted.

Definition header : list (src tline nat nat) :=
  [Blank; Ifndef 1%nat; Text (TDefine 1); If 2%nat; Text (TOut 7); Else; Text (TOut 8); Endif; Endif; Blank].
Example C11_header_ex :
  guarded 1%nat header /\
  guard (tread ([], []) [] header) = Some 1%nat /\ st_env (tread ([], []) [] header) = ([1%nat], [102; 8]%nat) /\
  tagain (Some 1%nat) ([1%nat], []) [] header = ([1%nat], []).
Proof.
  split; [|vm_compute; auto]. exists [Blank], (skipn 2 header), [Blank]. vm_compute. auto.
Qed.
Example C11_skip_hyps_ex :
  header = [Blank] ++ Ifndef 1%nat :: skipn 2 header /\ forallb is_blank [@Blank tline nat nat] = true /\
  (forall x, ~ In (IncludeQuiet x) (skipn 2 header)) /\
  (forall c after x, chain 0 (skipn 2 header) = Some (c, after) -> ~ In (Elif x) c).
Proof.
  split; [reflexivity|]. split; [reflexivity|]. split.
  - cbn. intuition discriminate.
  - cbn. intros c after x H. injection H as <- _. intros [].
Qed.

(** C11. The three conditions are needed. With an #elif: the part after it is lost. *)
Theorem C11_elif_refuted : exists (rest : list (src tline nat nat)) e e',
  let ls := Ifndef 1%nat :: rest in
  (forall x, ~ In (IncludeQuiet x) rest) /\
  tagain (guard (tread e [] ls)) e' [] ls <> st_env (tread e' [] ls).
Proof.
  exists [Text (TDefine 1); Elif 2%nat; Text (TOut 5); Endif], ([], []), ([1; 2]%nat, []).
  split; [cbn; intuition discriminate|]. vm_compute. discriminate.
Qed.
Print Assumptions C11_elif_refuted.

(** With #undef before the guard, the file is read every time by C. *)
Theorem C11_undef_before_refuted : exists (ls : list (src tline nat nat)) e e',
  (forall x, ~ In (IncludeQuiet x) ls) /\ (forall c, ~ In (Elif c) ls) /\
  tagain (guard (tread e [] ls)) e' [] ls <> st_env (tread e' [] ls).
Proof.
  exists [Quiet (TUndef 1); Ifndef 1%nat; Text (TDefine 1); Text (TOut 5); Endif], ([], []), ([1]%nat, []).
  split; [cbn; intuition discriminate|]. split; [cbn; intuition discriminate|]. vm_compute. discriminate.
Qed.
Print Assumptions C11_undef_before_refuted.

(** After an #include of a file without tokens, an #ifndef counts as the first thing of the file. *)
Theorem C11_quiet_include_refuted : exists (rest : list (src tline nat nat)) e e',
  let ls := Ifndef 2%nat :: rest in
  (forall c, ~ In (Elif c) rest) /\
  tagain (guard (tread e [] ls)) e' [] ls <> st_env (tread e' [] ls).
Proof.
  exists [Endif; Text (TOut 4); IncludeQuiet (TUndef 9); Ifndef 1%nat; Text (TDefine 1); Endif], ([], []), ([1]%nat, []).
  split; [cbn; intuition discriminate|]. vm_compute. discriminate.
Qed.
Print Assumptions C11_quiet_include_refuted.
