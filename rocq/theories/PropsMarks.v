(** Property C74: what a line diff marks and shows as changed.  [space] stands for the
    builtin isspace on characters; nothing depends on what it is. *)
From Coq Require Import String.
From Verif Require Import Base Changesets SpecDiff Merge SpecMerge Tokenizers SpecTokenizers Lines SpecLines Markup SpecMarkup
  SpecMarks LinesMarks MarksCli.
Local Open Scope Z_scope.
Local Open Scope list_scope.

(** ** C74  A line diff marks exactly what the diff marks, and shows no unchanged line as
    changed *)
Theorem C74_line_diff : forall space l, alternating (visible l) -> real_changes l ->
  exists d R, to_line_diff space l = Ok d /\ shown d R /\
  expand R = expand l ++ marked Same (last_newline (diff_after l) (diff_before l)) /\
  Forall (busy_item space) d.
Proof. exact line_diff_marks. Qed.
Print Assumptions C74_line_diff.

Theorem C74_consolidated : forall space l, alternating (visible l) -> real_changes l ->
  exists d R, consolidated_line_diff space l = Ok d /\ shown d R /\
  expand R = expand l ++ marked Same (last_newline (diff_after l) (diff_before l)) /\
  Forall (busy_item space) d.
Proof. exact consolidated_marks. Qed.
Print Assumptions C74_consolidated.

(** The diff of any two texts with any tokenizer meets the conditions. *)
Theorem C74_diff : forall re_w space k original modified, real_text original -> real_text modified ->
  exists d l R, snd (diff re_w k new_tokenizer (CStr original) (CStr modified)) = Ok d /\
    consolidated_line_diff space (map as_ditem d) = Ok l /\ shown l R /\
    expand R = expand (map as_ditem d) ++ marked Same (last_newline modified original) /\
    new_text (expand (map as_ditem d)) = modified /\ old_text (expand (map as_ditem d)) = original /\
    Forall (busy_item space) l.
Proof. exact diff_marks. Qed.
Print Assumptions C74_diff.

(** So does every merge of texts. *)
Theorem C74_merge : forall space k (p b0 b1 : list Z) r, merge_token_sequence k p b0 b1 = Ok r ->
  exists l R, consolidated_line_diff space r = Ok l /\ shown l R /\
    expand R = expand r ++ marked Same (last_newline (diff_after r) (diff_before r)) /\
    Forall (busy_item space) l.
Proof. exact merge_marks. Qed.
Print Assumptions C74_merge.

(** "x\nab", Change("c","d"), "e\ny": the lines around the change are outside of it *)
Definition c74_stream : list (ditem Z) := [DText [120; 10; 97; 98]; DChange [99] [100]; DText [101; 10; 121]].
Example C74_example :
  consolidated_line_diff (fun c => (c =? 32) || (c =? 10)) c74_stream =
  Ok [OStr [120; 10];
      OChange [LStr [97; 98]; LChange [99] []; LStr [101; 10]] [LStr [97; 98]; LChange [] [100]; LStr [101; 10]];
      OStr [121; 10]].
Proof. vm_compute. reflexivity. Qed.
Example C74_example_conditions : alternating (visible c74_stream) /\ real_changes c74_stream.
Proof.
  split.
  - intros [|[|[|k]]] x y H1 H2; cbn in H1, H2; try discriminate; try (destruct k; discriminate);
      injection H1 as <-; injection H2 as <-; [left|right]; (split; [eexists|eexists]; try eexists; reflexivity).
  - intros [H|[H|[H|[]]]]; discriminate.
Qed.
(** A line diff with the unchanged line "x" inside the Change is rejected. *)
Example C74_idle_line_rejected :
  ~ busy_item (fun c => (c =? 32) || (c =? 10))
      (OChange [LStr [120; 10]; LStr [97; 98]; LChange [99] []; LStr [101; 10]]
               [LStr [120; 10]; LStr [97; 98]; LChange [] [100]; LStr [101; 10]]).
Proof.
  intros (q & P & _ & N). inversion P as [|s a b r P1|]; subst. 
  specialize (N [] [120; 10] (expand r) eq_refl (or_introl eq_refl) (or_introl eq_refl)).
  assert (B : blank_text (fun c => (c =? 32) || (c =? 10)) [120; 10]) by (apply N; right; now exists [120]).
  inversion B as [|? ? [H|H] _]; discriminate.
Qed.
(** So is a Change without any change. *)
Example C74_no_change_rejected : forall space, ~ busy_item space (OChange [LStr [120; 10]] [LStr [120; 10]]).
Proof.
  intros space (q & P & (p & I & C) & _). inversion P as [|s a b r P1|]; subst. inversion P1; subst.
  cbn in I. destruct I as [<-|[<-|[]]]; now apply C.
Qed.
