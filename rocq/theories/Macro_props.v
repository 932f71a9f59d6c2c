(* Properties of macro definitions and macro calls. *)
From Verif Require Import Cbase Cbase_facts Macro_model Macro_spec Macro_lex Macro_str Macro_build Macro_scan Macro_args Macro_hash Macro_call Macro_paste.
Import ListNotations.
Open Scope nat_scope.
Open Scope list_scope.
Local Open Scope string_scope.
Local Open Scope list_scope.
Local Arguments lit : simpl never.

(* goes through the pieces of a given text *)
Ltac eachPiece := let p := fresh "p" in let I := fresh "I" in intros p I; vm_compute in I; repeat (destruct I as [<-|I]); try contradiction.
Ltac noChar := let I := fresh "I" in intros I; vm_compute in I; repeat (destruct I as [I|I]; [discriminate|]); contradiction.
Ltac body_ok := constructor;
  [eachPiece; reflexivity|eachPiece; discriminate|noChar|noChar|eachPiece; discriminate|reflexivity
  |let p := fresh "p" in let w := fresh "w" in let I := fresh "I" in let N := fresh "N" in let J := fresh "J" in let K := fresh "K" in
   intros p w I N J K; vm_compute in I; repeat (destruct I as [<-|I]); try contradiction; try discriminate N;
   vm_compute in J, K; repeat (destruct J as [<-|J]); try contradiction; repeat (destruct K as [K|K]; [discriminate|]); contradiction].
Ltac closed_ok := let a := fresh "a" in let I := fresh "I" in
  intros a I; repeat (destruct I as [<-|I]; [split; [reflexivity|eachPiece; reflexivity]|]); contradiction.
Ltac raw_ok := constructor; [eachPiece; reflexivity|eachPiece; discriminate|noChar|eachPiece; discriminate
  |let p := fresh "p" in let c := fresh "c" in let I := fresh "I" in let J := fresh "J" in
   intros p c I J; vm_compute in I; repeat (destruct I as [<-|I]); try contradiction; vm_compute in J;
   repeat (destruct J as [<-|J]); try contradiction; first [left; reflexivity|right; unfold code; cbn; lia]].

Definition same (s : string) : arg := mkArg (lit s) (lit s).

(* ---------------- C107 ---------------- *)

(** A call of a macro with parameters gives the tokens of the definition with the tokens of the arguments
    in the place of the parameters and strings in the place of [#], and does not change the tokens of the
    text around the call, unless two neighbours are [/] and [*], [-] and [>], a word that ends with [$]
    and what would continue it, [L] and a string made by [#], or [.] and a digit. *)
Theorem C107_call_replaced_partial : forall ps args body trail pre n post,
  let raw := fun x => option_map a_raw (argOf ps args x) in
  let exp := fun x => option_map (fun a => unmark (a_exp a)) (argOf ps args x) in
  let items := substItems raw exp (pieces body) in
  ps <> [] -> NoDup ps -> List.length args = List.length ps -> bodyOk ps body ->
  (forall w a, In w (hashed (pieces body)) -> argOf ps args w = Some a -> rawOk (a_raw a)) ->
  (forall a, In a args -> marksOk (a_exp a) = true /\ allClosed (pieces (unmark (a_exp a)))) ->
  apart (items ++ nextOf post) -> fresh pre n ->
  (forall t r, itemTokens items = t :: r -> begins digitC t = true -> lastState pre <> LOp (lit ".")) ->
  exists d x, collect (Some ps) body trail = Some d /\ d_msgs d = [] /\ expandCall (Some ps) d args = Some x /\
    tokens (view x) = itemTokens items /\
    tokens (pre ++ view (tailTrim (headTrim x) (hdc post)) ++ post) = tokens pre ++ itemTokens items ++ tokens post.
Proof. exact call_ok. Qed.
Print Assumptions C107_call_replaced_partial.

(** The same for macros without parameters. *)
Theorem C107_plain_replaced_partial : forall ps body trail args pre n post,
  match ps with None => True | Some l => l = [] /\ ~ In "#"%char body end -> ~ In "@"%char body -> noHH body = true ->
  (forall p, In p (pieces body) -> isOpen (fst p) = false /\ fst p <> LBlkEnd) ->
  apart (map Own (pieces body) ++ nextOf post) -> fresh pre n ->
  (forall t r, tokens body = t :: r -> begins digitC t = true -> lastState pre <> LOp (lit ".")) ->
  exists d x, collect ps body trail = Some d /\ d_msgs d = [] /\ expandCall ps d args = Some x /\
    tokens (view x) = tokens body /\
    tokens (pre ++ view (tailTrim (headTrim x) (hdc post)) ++ post) = tokens pre ++ tokens body ++ tokens post.
Proof. exact plain_ok. Qed.
Print Assumptions C107_plain_replaced_partial.

(* #define CHECK(e, n) ((e) +n-- ? # e : "n")  and  -CHECK(-a <b, +c) *)
Definition exPs : list cstr := [lit "e"; lit "n"].
Definition exBody : cstr := lit "((e) +n-- ? # e : ""n"")".
Definition exArgs : list arg := [same "-a  <b"; same "+c"].
Definition exRaw := fun x => option_map a_raw (argOf exPs exArgs x).
Definition exExp := fun x => option_map (fun a => unmark (a_exp a)) (argOf exPs exArgs x).
Example C107_case :
  exPs <> [] /\ NoDup exPs /\ List.length exArgs = List.length exPs /\ bodyOk exPs exBody /\
  (forall w a, In w (hashed (pieces exBody)) -> argOf exPs exArgs w = Some a -> rawOk (a_raw a)) /\
  (forall a, In a exArgs -> marksOk (a_exp a) = true /\ allClosed (pieces (unmark (a_exp a)))) /\
  apart (substItems exRaw exExp (pieces exBody) ++ nextOf (lit ";")) /\ fresh (lit "-") "C"%char /\
  lastState (lit "-") <> LOp (lit ".") /\
  itemTokens (substItems exRaw exExp (pieces exBody))
  = map lit ["("; "("; "-"; "a"; "<"; "b"; ")"; "+"; "+"; "c"; "--"; "?"; """-a <b"""; ":"; """n"""; ")"].
Proof.
  split; [discriminate|]. split; [repeat constructor; simpl; intuition discriminate|]. split; [reflexivity|].
  split; [body_ok|]. split.
  { intros w a I E. vm_compute in I. destruct I as [<-|[]]. vm_compute in E. injection E as <-. raw_ok. }
  split; [closed_ok|]. split; [vm_compute; repeat split; reflexivity|]. split; [split; [reflexivity|right; reflexivity]|].
  split; [discriminate|]. vm_compute. reflexivity.
Qed.
(* #define PLUS +   and  x+PLUS+y : the + are kept apart *)
Example C107_plain_case :
  noHH (lit "+") = true /\ (forall p, In p (pieces (lit "+")) -> isOpen (fst p) = false /\ fst p <> LBlkEnd) /\
  apart (map Own (pieces (lit "+")) ++ nextOf (lit "+y")) /\ fresh (lit "x+") "P"%char /\
  lit "x+" ++ view (tailTrim (headTrim (objText (lit "+"))) (Some "+"%char)) ++ lit "+y" = lit "x+ + +y".
Proof.
  split; [reflexivity|]. split; [eachPiece; split; [reflexivity|discriminate]|]. split; [vm_compute; repeat split; reflexivity|].
  split; [split; [reflexivity|right; reflexivity]|]. vm_compute. reflexivity.
Qed.

(* what a call gives, and what it should give *)
Definition callGives (ps : list cstr) (body : cstr) (args : list arg) (got want : list cstr) : Prop :=
  exists d x, collect (Some ps) body [] = Some d /\ expandCall (Some ps) d args = Some x /\ tokens (view x) = got /\
    itemTokens (substItems (fun n => option_map a_raw (argOf ps args n)) (fun n => option_map (fun a => unmark (a_exp a)) (argOf ps args n)) (pieces body)) = want.
Ltac gives := eexists _, _; split; [vm_compute; reflexivity|]; split; [vm_compute; reflexivity|]; split; vm_compute; reflexivity.

(** [#define DIV(a,b) a/b]: [DIV(x,*p)] begins a comment, which swallows the rest of the line. *)
Theorem C107_divide_refuted : exists args got want, bodyOk [lit "a"; lit "b"] (lit "a/b") /\
  callGives [lit "a"; lit "b"] (lit "a/b") args got want /\ got <> want.
Proof.
  exists [same "x"; same "*p"], [lit "x"; lit "/*p "], (map lit ["x"; "/"; "*"; "p"]).
  split; [body_ok|]. split; [gives|discriminate].
Qed.
Print Assumptions C107_divide_refuted.
(** [#define NEG(x) -x]: [NEG(>b)] gives the token [->]. *)
Theorem C107_arrow_refuted : exists args got want, bodyOk [lit "x"] (lit "-x") /\
  callGives [lit "x"] (lit "-x") args got want /\ got <> want.
Proof.
  exists [same ">b"], (map lit ["->"; "b"]), (map lit ["-"; ">"; "b"]). split; [body_ok|]. split; [gives|discriminate].
Qed.
Print Assumptions C107_arrow_refuted.
(** [#define M(f) 1.f]: the parameter is replaced within the number [1.f]. *)
Theorem C107_number_refuted : exists args got want,
  callGives [lit "f"] (lit "1.f") args got want /\ got <> want.
Proof. exists [same "2"], (map lit ["1."; "2"]), [lit "1.f"]. split; [gives|discriminate]. Qed.
Print Assumptions C107_number_refuted.
(** [#define W(x) L#x]: [W(a)] gives one wide string, though [L] and the string are two tokens. *)
Theorem C107_wide_refuted : exists args got want, bodyOk [lit "x"] (lit "L#x") /\
  callGives [lit "x"] (lit "L#x") args got want /\ got <> want.
Proof. exists [same "a"], [lit "L""a"""], (map lit ["L"; """a"""]). split; [body_ok|]. split; [gives|discriminate]. Qed.
Print Assumptions C107_wide_refuted.
(** [#define N 1$]: [N.5] gives one number, though [1$] and [.5] are two. *)
Theorem C107_dollar_refuted : exists pre body post, fresh pre "N"%char /\
  (forall p, In p (pieces body) -> isOpen (fst p) = false /\ fst p <> LBlkEnd) /\
  tokens (pre ++ view (tailTrim (headTrim (objText body)) (hdc post)) ++ post) <> tokens pre ++ tokens body ++ tokens post.
Proof.
  exists [], (lit "1$"), (lit ".5"). split; [split; [reflexivity|left; reflexivity]|].
  split; [eachPiece; split; [reflexivity|discriminate]|]. vm_compute. discriminate.
Qed.
Print Assumptions C107_dollar_refuted.
(** [#define X 5]: [.X] gives the number [.5], though it is two tokens. *)
Theorem C107_dot_refuted : exists pre body post, fresh pre "X"%char /\
  (forall p, In p (pieces body) -> isOpen (fst p) = false /\ fst p <> LBlkEnd) /\ apart (map Own (pieces body) ++ nextOf post) /\
  tokens (pre ++ view (tailTrim (headTrim (objText body)) (hdc post)) ++ post) <> tokens pre ++ tokens body ++ tokens post.
Proof.
  exists (lit "."), (lit "5"), (lit ";"). split; [split; [reflexivity|right; reflexivity]|].
  split; [eachPiece; split; [reflexivity|discriminate]|]. split; [vm_compute; repeat split; reflexivity|]. vm_compute. discriminate.
Qed.
Print Assumptions C107_dot_refuted.

(* ---------------- C108 ---------------- *)

(** The string made by [#] is spelled as the standard says: the spelling of the tokens, one space where
    there was white space between them, and a backslash before the quotes and backslashes of literals;
    and it is one token. *)
Theorem C108_string_spelled_partial : forall raw, rawOk raw ->
  stringify raw = Some (stringOf raw) /\ pieces (stringOf raw) = [(LEnd, stringOf raw)].
Proof. intros raw H. split; [exact (stringify_ok raw H)|exact (proj1 (whole_pieces (LEnd, stringOf raw) (stringOf_whole raw H)))]. Qed.
Print Assumptions C108_string_spelled_partial.
Example C108_case : rawOk (lit " a  +""b\""  c"" 'd'  ") /\ stringOf (lit " a  +""b\""  c"" 'd'  ") = lit """a +\""b\\\""  c\"" 'd'""".
Proof. split; [raw_ok|]. vm_compute. reflexivity. Qed.

(** A character outside of ASCII in the argument: [sprintf] stores thirteen bytes where four are reserved. *)
Theorem C108_not_ascii_refuted : exists raw c, In c raw /\ stringify raw = None /\ (octalRoom < octalBytes c)%Z /\
  allClosed (pieces raw) /\ ~ In "@"%char raw.
Proof.
  exists [""""%char; "233"%char; """"%char], "233"%char. split; [right; now left|]. split; [reflexivity|]. split; [reflexivity|].
  split; [eachPiece; reflexivity|noChar].
Qed.
Print Assumptions C108_not_ascii_refuted.
(** A control character in a literal in the argument: it is written as [\001], which is not the spelling of the
    argument, and one byte more is stored than reserved. *)
Theorem C108_control_refuted : exists raw c, In c raw /\ stringify raw <> Some (stringOf raw) /\ (octalRoom < octalBytes c)%Z /\
  allClosed (pieces raw) /\ ~ In "@"%char raw.
Proof.
  exists [""""%char; "001"%char; """"%char], "001"%char. split; [right; now left|]. split; [vm_compute; discriminate|]. split; [reflexivity|].
  split; [eachPiece; reflexivity|noChar].
Qed.
Print Assumptions C108_control_refuted.
(** [@] in an argument is doubled when the argument is read, and [#] does not undo it; before a space one of
    them is taken for a marker and the space is lost: [STR(@ y)] gives ["@y"] and [STR(@y)] gives ["@@y"]. *)
Theorem C108_at_sign_refuted : exists written kept, kept = flat_map (fun c => if Ascii.eqb c "@"%char then [c; c] else [c]) written /\
  stringify kept <> Some (stringOf written).
Proof. exists (lit "@y"). eexists. split; [reflexivity|]. vm_compute. discriminate. Qed.
Print Assumptions C108_at_sign_refuted.

(* ---------------- C109 ---------------- *)

(** Replacing macros without parameters ends, whatever the definitions refer to, and what is written, leaving
    out white space, are the tokens of the text in which every name of a macro is replaced by the replaced
    tokens of its definition, except the names within the replacement of the macro itself. *)
Theorem C109_rescan_partial : forall tb : table,
  (forall n b, bodyOf tb n = Some b -> forall p, In p (pieces b) -> sp p) ->
  forall txt, (forall p, In p (pieces txt) -> sp p) ->
  exists k outs, (forall f, k <= f -> scanRun f tb (scanText txt) = Some outs) /\
    visible outs = nest (fun n => option_map spTok (bodyOf tb n)) (S (List.length tb)) [] (spTok txt).
Proof. exact scan_ok. Qed.
Print Assumptions C109_rescan_partial.
(* #define f (g + f)   #define g f * h   and   x = f; *)
Definition exTable : table := [(lit "f", lit "(g + f)"); (lit "g", lit "f * h")].
Example C109_case : (forall n b, bodyOf exTable n = Some b -> forall p, In p (pieces b) -> sp p) /\
  (forall p, In p (pieces (lit "x = f;")) -> sp p) /\
  nest (fun n => option_map spTok (bodyOf exTable n)) 3 [] (spTok (lit "x = f;"))
  = map lit ["x"; "="; "("; "f"; "*"; "h"; "+"; "f"; ")"; ";"].
Proof.
  assert (S : forall s, forallb (fun p => negb (isOpen (fst p)) && match fst p with LBlkEnd => false | _ => true end
     && negb (existsb (Ascii.eqb "@"%char) (snd p)) && negb (existsb (Ascii.eqb "#"%char) (snd p))) (pieces s) = true -> forall p, In p (pieces s) -> sp p).
  { intros s F p I. rewrite forallb_forall in F. specialize (F p I). rewrite !andb_true_iff, !negb_true_iff in F. destruct F as [[[A B] C] D].
    split; [exact A|]. split; [intros E; rewrite E in B; discriminate|].
    split; intros J; [rewrite (proj2 (existsb_exists _ _)) in C; [discriminate C|]|rewrite (proj2 (existsb_exists _ _)) in D; [discriminate D|]];
    eexists; (split; [exact J|apply Ascii.eqb_refl]). }
  split; [|split].
  - intros n b H. apply S. unfold exTable in H. cbn [bodyOf] in H. destruct (cstr_eqb (lit "f") n); [injection H as <-; reflexivity|].
    destruct (cstr_eqb (lit "g") n); [injection H as <-; reflexivity|discriminate].
  - apply S. reflexivity.
  - vm_compute. reflexivity.
Qed.
(** [#define A +], [#define B A]: the text [B+] is written as [ ++], which is one token when it is read again. *)
Theorem C109_joined_refuted : exists tb txt k outs,
  (forall n b, bodyOf tb n = Some b -> forall p, In p (pieces b) -> sp p) /\ (forall p, In p (pieces txt) -> sp p) /\
  scanRun k tb (scanText txt) = Some outs /\
  tokens (List.concat outs) <> nest (fun n => option_map spTok (bodyOf tb n)) (S (List.length tb)) [] (spTok txt).
Proof.
  exists [(lit "A", lit "+"); (lit "B", lit "A")], (lit "B+"), 20. eexists. split; [|split; [|split; [vm_compute; reflexivity|vm_compute; discriminate]]].
  - intros n b H. cbn [bodyOf] in H. destruct (cstr_eqb (lit "A") n); [injection H as <-|destruct (cstr_eqb (lit "B") n); [injection H as <-|discriminate]];
    eachPiece; (split; [reflexivity|split; [discriminate|split; noChar]]).
  - eachPiece; (split; [reflexivity|split; [discriminate|split; noChar]]).
Qed.
Print Assumptions C109_joined_refuted.

(* ---------------- C110 ---------------- *)

(** The arguments of a call are what was written between the commas outside of parentheses, unchanged, and
    reading goes on behind the closing parenthesis. *)
Theorem C110_arguments_as_written : forall l rest, l <> [] -> (forall a, In a l -> argText a) ->
  collectArgs (joined l ++ rest) = Some (l, rest).
Proof. exact collectArgs_ok. Qed.
Print Assumptions C110_arguments_as_written.
(** Whatever the text is: nothing is lost and nothing is added. *)
Theorem C110_nothing_lost : forall txt l rest, collectArgs txt = Some (l, rest) -> l <> [] /\ txt = joined l ++ rest.
Proof. intros txt l rest H. exact (macargs_split _ _ _ _ H). Qed.
Print Assumptions C110_nothing_lost.
Example C110_case : (forall a, In a [lit "f(x, y)"; lit " "; lit "')'"] -> argText a) /\
  joined [lit "f(x, y)"; lit " "; lit "')'"] = lit "f(x, y), ,')')".
Proof.
  split; [|reflexivity]. intros a I. destruct I as [<-|[<-|[<-|[]]]]; (split; [eachPiece; (split; [reflexivity|split; [discriminate|split; noChar]])|vm_compute]).
  - apply BOther. change [TOpenP; TOther; TComma; TOther; TOther; TCloseP] with (TOpenP :: [TOther; TComma; TOther; TOther] ++ TCloseP :: []).
    repeat constructor.
  - repeat constructor.
  - repeat constructor.
Qed.

(* ---------------- C111 ---------------- *)

(** The number of arguments is reported exactly if it does not fit, apart from calls with nothing between the
    parentheses of macros with one parameter. *)
Theorem C111_count_reported_partial : forall n l, l <> [] -> (n = 1 -> l <> [[]]) ->
  (argComplaint n l = None <-> (n = 0 /\ exists a, l = [a] /\ forallb white a = true) \/ (1 <= n /\ List.length l = n)).
Proof. exact complaint_ok. Qed.
Print Assumptions C111_count_reported_partial.
Example C111_case : argComplaint 2 [lit "a"; []] = None /\ argComplaint 2 [lit "a"] = Some AJustOne /\ argComplaint 0 [lit " "] = None.
Proof. repeat split. Qed.
(** [#define f(x)]: [f()] is reported as a call without arguments, [f( )] is not. *)
Theorem C111_empty_argument_refuted : exists l l', argComplaint 1 l <> None /\ argComplaint 1 l' = None /\
  List.length l = 1 /\ List.length l' = 1 /\ map tokens l = map tokens l'.
Proof. exists [[]], [lit " "]. repeat split. discriminate. Qed.
Print Assumptions C111_empty_argument_refuted.

(* ---------------- C112 ---------------- *)

(** A definition is reported exactly if a [#] in it is not followed by a parameter. *)
Theorem C112_hash_reported_partial : forall ps body trail, ps <> [] ->
  allClosed (pieces body) -> (forall p, In p (pieces body) -> fst p <> LBlkEnd) -> ~ In "@"%char body -> ~ In "010"%char body ->
  (forall p, In p (pieces body) -> snd p <> lit "##") ->
  (forall p w, In p (pieces body) -> isNumber p = true -> In w (partsFrom [] (snd p)) -> ~ In w ps) ->
  exists d, collect (Some ps) body trail = Some d /\ (d_msgs d = [] <-> hashesOk (memS ps) (pieces body) = true).
Proof. exact hash_reports. Qed.
Print Assumptions C112_hash_reported_partial.
(** A definition that begins with [##] is reported. *)
Theorem C112_paste_first_reported_partial : forall ps r trail, exists d,
  collect ps (lit "##" ++ r) trail = Some d /\ In MStart (d_msgs d).
Proof. exact start_reports. Qed.
Print Assumptions C112_paste_first_reported_partial.
Example C112_case : hashesOk (memS [lit "x"]) (pieces (lit "'#' + # x")) = true /\ hashesOk (memS [lit "x"]) (pieces (lit "x # + y")) = false /\
  hashesOk (memS [lit "x"]) (pieces (lit "x #y")) = false.
Proof. repeat split. Qed.
(** [#define P(x) x##] followed by white space at the end of the line is not reported. *)
Theorem C112_paste_last_refuted : exists ps body trail d, collect (Some ps) body trail = Some d /\
  (exists b, body = b ++ lit "##") /\ forallb white trail = true /\ d_msgs d = [].
Proof.
  exists [lit "x"], (lit "x##"), (lit " "). eexists. split; [vm_compute; reflexivity|]. split; [exists (lit "x"); reflexivity|]. split; reflexivity.
Qed.
Print Assumptions C112_paste_last_refuted.

(* ---------------- C113 ---------------- *)

(** [x ## y] gives the arguments as written, without the white space between them. *)
Theorem C113_paste_joins_partial : forall x y w1 w2 trail a b,
  paramOk x -> paramOk y -> x <> y -> forallb hblank w1 = true -> forallb hblank w2 = true ->
  noMark (a_raw b) = true -> begins (Ascii.eqb "-"%char) (rev (rtrim (a_raw a))) = false ->
  exists d, collect (Some [x; y]) (x ++ w1 ++ lit "##" ++ w2 ++ y) trail = Some d /\ d_msgs d = [] /\
    expandCall (Some [x; y]) d [a; b] = Some (lit "@ " ++ rtrim (a_raw a) ++ ltrim (a_raw b) ++ lit "@ ").
Proof. exact paste_ok. Qed.
Print Assumptions C113_paste_joins_partial.
Example C113_case : paramOk (lit "x") /\ noMark (lit "  _2 + 1") = true /\ rtrim (lit "a  ") ++ ltrim (lit "  _2 + 1") = lit "a_2 + 1".
Proof. repeat split. Qed.
(** [#define EQ =], [#define JOIN(a,b) a##b], [#define APPLY(a,b) JOIN(a,b)]: in [APPLY(+,EQ)] the second
    argument of [JOIN] is [=] behind a marker for a space, so that two tokens are written instead of [+=]. *)
Theorem C113_marker_refuted : exists a b d x, marksOk b = true /\ collect (Some [lit "a"; lit "b"]) (lit "a##b") [] = Some d /\
  expandCall (Some [lit "a"; lit "b"]) d [mkArg a a; mkArg b b] = Some x /\ tokens (unmark b) = [lit "="] /\
  tokens (view x) <> tokens (rtrim a ++ ltrim (unmark b)).
Proof.
  exists (lit "+"), (lit "@ ="). eexists _, _. split; [reflexivity|]. split; [vm_compute; reflexivity|]. split; [vm_compute; reflexivity|].
  split; [reflexivity|]. vm_compute. discriminate.
Qed.
Print Assumptions C113_marker_refuted.
(** [#define f(x,y) a##x y], [#define h(z) f(foo,z)], [#define g h(g)]: for [g] the arguments of [f] are [foo] and
    [@-g]. The test for the mark [@-] behind [foo] reads the text of the next argument, and the length of the
    rest of the first becomes negative: undefined behaviour. *)
Theorem C113_next_argument_refuted : exists ps body args d, collect (Some ps) body [] = Some d /\ d_msgs d = [] /\
  map a_raw args = [lit "foo"; lit "@-g"] /\ expandCall (Some ps) d args = None.
Proof.
  exists [lit "x"; lit "y"], (lit "a##x y"), [same "foo"; same "@-g"]. eexists. split; [vm_compute; reflexivity|]. split; [reflexivity|]. split; reflexivity.
Qed.
Print Assumptions C113_next_argument_refuted.
(** A minus sign behind a newline at the end of the left operand is lost with the newline. *)
Theorem C113_minus_refuted : exists a b d x, collect (Some [lit "a"; lit "b"]) (lit "a##b") [] = Some d /\
  expandCall (Some [lit "a"; lit "b"]) d [mkArg a a; mkArg b b] = Some x /\ ~ In "@"%char a /\
  tokens (view x) <> tokens (rtrim a ++ ltrim b).
Proof.
  exists (["x"; "010"; "-"]%char), (lit "="). eexists _, _. split; [vm_compute; reflexivity|]. split; [vm_compute; reflexivity|].
  split; [noChar|]. vm_compute. discriminate.
Qed.
Print Assumptions C113_minus_refuted.
