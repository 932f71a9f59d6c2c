(** Property theorems C15 (suppression regions). *)
From Coq Require Import ZArith List Bool Lia Ascii String.
From Verif Require Import Cbase Loc_model Loc_spec Mark_model Mark_spec Mark_proofs.
Import ListNotations.
Local Open Scope Z_scope.

(** A file table for the examples: file 8 is a system header. *)
Local Definition ft0 : ftable := FT (fun _ => -1) (fun f => f =? 8) (fun _ => false) (fun _ => []).
Local Definition at_ (f l c : Z) : loc := Loc FL_NORMAL f l c.
(** Flags 70-79 are name checks, 69 is the flag for all of them. *)
Local Definition names (c : Z) : bool := (70 <=? c) && (c <? 80).
Local Definition hidden0 (es : list event) (flag : bool) (code : Z) (l : loc) : bool :=
  hidden ft0 names 69 (markers ft0 names 69 es) flag code l.

(** A message for a flag that is not a name check is hidden exactly inside the regions,
    where its flag was last locally turned off, and where its flag is off and was not last
    locally turned on.  [es] is any sequence of comments and other messages. *)
Theorem C15_hidden_iff : forall ft isName nameFlag es flag code l,
  user_files ft (l :: map ev_loc es) -> in_text_order (trace es) -> isName code = false ->
  (hidden ft isName nameFlag (markers ft isName nameFlag es) flag code l = true <->
   in_region (upto (trace es) l) \/ last_set code (upto (trace es) l) NO \/
   (flag = false /\ ~ last_set code (upto (trace es) l) YES)).
Proof. intros. apply hidden_regions; assumption. Qed.
Print Assumptions C15_hidden_iff.

(** For every flag, name checks included: hidden inside the regions and where the flag, or
    for a name check the flag for all name checks, was last locally turned off. *)
Theorem C15_hidden_names : forall ft isName nameFlag es flag code l,
  user_files ft (l :: map ev_loc es) -> in_text_order (trace es) ->
  in_region (upto (trace es) l) \/ last_set code (upto (trace es) l) NO \/
   (isName code = true /\ last_set nameFlag (upto (trace es) l) NO) ->
  hidden ft isName nameFlag (markers ft isName nameFlag es) flag code l = true.
Proof. intros. apply hidden_name_checks; assumption. Qed.
Print Assumptions C15_hidden_names.

(** A history over two files, the second one read in the middle of the first (an include):
    a region, a counted line, messages, a local flag, the second file read again. *)
Local Definition es0 : list event :=
  [Ignore (at_ 1 3 1); Message 5 (at_ 1 4 2); End (at_ 1 6 1); Line 1 (at_ 2 4 9); Message 5 (at_ 2 4 30);
   Flag 5 NO (at_ 2 7 1); Line 2 (at_ 1 9 4); Message 6 (at_ 1 9 8); Message 7 (at_ 1 9 8);
   Line 1 (at_ 2 4 9); Flag 5 NO (at_ 2 7 1); Flag 5 YES (at_ 2 9 1)].

Example C15_meets : user_files ft0 (at_ 2 8 1 :: map ev_loc es0) /\ in_text_order (trace es0).
Proof.
  split.
  - split.
    + intros l H. simpl in H. repeat (destruct H as [<-|H]; [repeat split; discriminate|]). destruct H.
    + intros a b _ _ r [->|[A B]] [C|[D E]]; simpl in *; congruence || lia.
  - apply order_b_ok. vm_compute. reflexivity.
Qed.

Example C15_ex :
  map (fun p => hidden0 es0 true (fst p) (snd p))
    [(5, at_ 1 2 9); (5, at_ 1 3 1); (5, at_ 1 5 80); (5, at_ 1 6 1); (5, at_ 1 9 3); (5, at_ 1 9 4);
     (5, at_ 1 9 90); (5, at_ 1 10 0); (5, at_ 2 4 8); (6, at_ 2 4 80); (5, at_ 2 6 1); (5, at_ 2 8 1);
     (6, at_ 2 8 1); (5, at_ 2 9 1)]
  = [false; true; true; false; false; true; true; false; false; true; false; true; false; false].
Proof. vm_compute. reflexivity. Qed.

(** Name checks: turning off the flag for all of them hides them, and a later local setting of
    the single flag does not show the message again. *)
Example C15_names_ex :
  hidden0 [Flag 69 NO (at_ 1 3 1)] true 72 (at_ 1 5 1) = true /\
  hidden0 [Flag 69 NO (at_ 1 3 1); Flag 72 YES (at_ 1 4 1)] true 72 (at_ 1 5 1) = true /\
  hidden0 [Flag 69 NO (at_ 1 3 1)] true 60 (at_ 1 5 1) = false.
Proof. repeat split; vm_compute; reflexivity. Qed.

(** A counted line inside a region ends the region: the message on line 7 lies between
    the ignore of line 3 and the end of line 9, and is shown. *)
Theorem C15_nested_line_refuted : exists es l,
  es = [Ignore (at_ 1 3 1); Line 1 (at_ 1 5 1); End (at_ 1 9 1)] /\
  pos_le (at_ 1 3 1) l /\ pos_le l (at_ 1 9 1) /\ hidden0 es true 5 l = false.
Proof.
  exists [Ignore (at_ 1 3 1); Line 1 (at_ 1 5 1); End (at_ 1 9 1)], (at_ 1 7 1).
  split; [reflexivity|]. split; [left; reflexivity|]. split; [left; reflexivity|]. vm_compute. reflexivity.
Qed.
Print Assumptions C15_nested_line_refuted.

(** Without the order of the text: a comment met after one that stands behind it in the file,
    and before every other one, is filed at the end; a message between the two is then hidden
    by a region that begins behind it. *)
Theorem C15_order_refuted : exists es l,
  es = [Ignore (at_ 1 9 1); Flag 5 NO (at_ 1 2 1)] /\ pos_le l (at_ 1 3 1) /\
  upto (trace es) l = [Mk (LocalSet 5 NO) (at_ 1 2 1)] /\ hidden0 es true 6 l = true.
Proof.
  exists [Ignore (at_ 1 9 1); Flag 5 NO (at_ 1 2 1)], (at_ 1 3 1).
  split; [reflexivity|]. split; [right; split; [reflexivity|discriminate]|].
  split; vm_compute; reflexivity.
Qed.
Print Assumptions C15_order_refuted.

(** In a system header: a region of a user file whose comments were met before hides messages
    in the header, and the other way round. *)
Theorem C15_system_refuted : exists es l,
  es = [Ignore (at_ 1 3 1); Flag 7 YES (at_ 8 1 1)] /\ l_fid l = 8 /\
  upto (trace es) l = [Mk (LocalSet 7 YES) (at_ 8 1 1)] /\ hidden0 es true 6 l = true.
Proof.
  exists [Ignore (at_ 1 3 1); Flag 7 YES (at_ 8 1 1)], (at_ 8 5 1).
  split; [reflexivity|]. split; [reflexivity|]. split; vm_compute; reflexivity.
Qed.
Print Assumptions C15_system_refuted.
