(** Properties C77 and C78: what diff and merge make of edits somebody has made.  The
    script of the edits is given; nothing in it comes from the program. *)
From Coq Require Import ZArith Lia.
From Verif Require Import Base Changesets SpecDiff Merge SpecMerge Tokenizers SpecTokenizers Markup SpecMarkup
  SpecTokens SpecEdits EditsProofs EditsConflicts EditsTexts.

(** ** C77  A diff shows the edits that were made *)
(** The full statement, for every script in normal form, is [C77_statement]; it is false.
    What holds: a diff finds the very edits, if the tokens kept are all different, the
    tokens inserted are new and the tokens removed are gone. *)
Definition C77_statement : Prop := forall s : list (ditem nat), normal_diff s ->
  diff_token_sequences (diff_before s) (diff_after s) = Ok s.
Theorem C77_edits_partial : forall {T} {E : Teq T} {O : TeqOk T} (s : list (ditem T)), distinct_edits s ->
  diff_token_sequences (diff_before s) (diff_after s) = Ok s.
Proof. exact @diff_finds_edits. Qed.
(** The same for texts, by the tokens of the tokenizer: lines, words, characters. *)
Theorem C77_texts_partial : forall re_w k before o m s,
  Forall real_contents before -> Forall (fun x => kind_of x = kind_of o) before ->
  kind_of m = kind_of o -> encodable k o -> encodable k m ->
  units re_w k o (diff_before s) -> units re_w k m (diff_after s) -> distinct_edits s ->
  exists st', diff re_w k (after re_w k new_tokenizer before) o m = (st', Ok (map (pieces (kind_of o)) s)).
Proof. exact diff_of_edited_text. Qed.

(** ** C78  Edits in different places merge, edits in the same place conflict *)
(** The full statement is that of all scripts in normal form. *)
Definition C78_statement : Prop := forall (s0 s1 : list (ditem nat)) r, normal_diff s0 -> normal_diff s1 ->
  diff_before s0 = diff_before s1 ->
  merge_token_sequence KTuple (diff_before s0) (diff_after s0) (diff_after s1) = Ok r ->
  (no_conflict r <-> compatible (edits 0 s0) (edits 0 s1)).
Theorem C78_merge_partial : forall {T} {E : Teq T} {O : TeqOk T} k (s0 s1 : list (ditem T)),
  distinct_edits s0 -> distinct_edits s1 -> diff_before s0 = diff_before s1 ->
  compatible (edits 0 s0) (edits 0 s1) ->
  merge_token_sequence k (diff_before s0) (diff_after s0) (diff_after s1) =
    Ok [DText (union_text (diff_before s0) (edits 0 s0) (edits 0 s1))].
Proof. exact @merge_of_edits. Qed.
Theorem C78_conflict_partial : forall {T} {E : Teq T} {O : TeqOk T} k (s0 s1 : list (ditem T)) r,
  distinct_edits s0 -> distinct_edits s1 -> diff_before s0 = diff_before s1 ->
  merge_token_sequence k (diff_before s0) (diff_after s0) (diff_after s1) = Ok r ->
  (no_conflict r <-> compatible (edits 0 s0) (edits 0 s1)).
Proof. exact @merge_conflict_iff. Qed.
(** The same for the texts gaspra-merge merges. *)
Theorem C78_texts_partial : forall re_w o p c t s0 s1, real_text p -> real_text c -> real_text t ->
  units re_w (tokenizer_of o) (CStr p) (diff_before s0) -> units re_w (tokenizer_of o) (CStr p) (diff_before s1) ->
  units re_w (tokenizer_of o) (CStr c) (diff_after s0) -> units re_w (tokenizer_of o) (CStr t) (diff_after s1) ->
  distinct_edits s0 -> distinct_edits s1 -> compatible (edits 0 s0) (edits 0 s1) ->
  merge_result re_w o p c t =
    Ok [TText (CStr (concat (union_text (diff_before s0) (edits 0 s0) (edits 0 s1))))].
Proof. exact merge_of_edited_texts. Qed.
Theorem C78_texts_conflict_partial : forall re_w o p c t s0 s1 r, real_text p -> real_text c -> real_text t ->
  units re_w (tokenizer_of o) (CStr p) (diff_before s0) -> units re_w (tokenizer_of o) (CStr p) (diff_before s1) ->
  units re_w (tokenizer_of o) (CStr c) (diff_after s0) -> units re_w (tokenizer_of o) (CStr t) (diff_after s1) ->
  distinct_edits s0 -> distinct_edits s1 -> merge_result re_w o p c t = Ok r ->
  ((forall a b, ~ In (TChange a b) r) <-> compatible (edits 0 s0) (edits 0 s1)).
Proof. exact edited_texts_conflict. Qed.

(** ** Why the conditions are there *)
(** [distinct_edits] asks four things; without any one of the last three, the diff need not
    be the edits that were made.  Here a copy of a kept token is inserted: *)
Ltac normal := split;
  [intros [|[|[|[|i]]]] ? ? A B; cbn in A, B; try discriminate;
   try (injection A as <-; injection B as <-; (left; split; repeat eexists; reflexivity) || (right; split; repeat eexists; reflexivity));
   now destruct i
  |repeat apply Forall_cons; try apply Forall_nil; cbn;
   first [discriminate|split; [intros []; discriminate|intros ? A B; cbn in A, B; intuition (subst; discriminate)]]].
Ltac apart := intros x A B; cbn in A, B; intuition (subst; discriminate).
Ltac different := repeat constructor; cbn; intuition discriminate.
Theorem C77_inserts_refuted : exists s : list (ditem nat),
  normal_diff s /\ NoDup (kept s) /\ disjoint (taken s) (diff_after s) /\
  diff_token_sequences (diff_before s) (diff_after s) <> Ok s.
Proof.
  exists [DText [1]; DChange [1] []; DText [2]]. split; [normal|]. split; [different|]. split; [apart|].
  vm_compute. discriminate.
Qed.
(** a copy of a kept token is removed: *)
Theorem C77_removals_refuted : exists s : list (ditem nat),
  normal_diff s /\ NoDup (kept s) /\ disjoint (inserted s) (diff_before s) /\
  diff_token_sequences (diff_before s) (diff_after s) <> Ok s.
Proof.
  exists [DText [1]; DChange [] [2]; DText [2]]. split; [normal|]. split; [different|]. split; [apart|].
  vm_compute. discriminate.
Qed.
(** a token is kept twice: one new token is inserted, and the diff shows two insertions
    and a removal. *)
Theorem C77_repeats_refuted : exists s : list (ditem nat),
  normal_diff s /\ disjoint (inserted s) (diff_before s) /\ disjoint (taken s) (diff_after s) /\
  diff_token_sequences (diff_before s) (diff_after s) <> Ok s.
Proof.
  exists [DText [1]; DChange [9] []; DText [1; 1]]. split; [normal|]. split; [apart|]. split; [apart|].
  vm_compute. discriminate.
Qed.
Theorem C77_statement_refuted : ~ C77_statement.
Proof. intros H. destruct C77_inserts_refuted as (s & N & _ & _ & F). apply F. now apply H. Qed.
(** Edits in different places conflict: one branch inserts 1 2 between 1 and 2, the other
    inserts 9 before 1. *)
Theorem C78_merge_refuted : exists (s0 s1 : list (ditem nat)) r, normal_diff s0 /\ normal_diff s1 /\
  diff_before s0 = diff_before s1 /\ compatible (edits 0 s0) (edits 0 s1) /\
  merge_token_sequence KTuple (diff_before s0) (diff_after s0) (diff_after s1) = Ok r /\ ~ no_conflict r.
Proof.
  exists [DText [1]; DChange [1; 2] []; DText [2]], [DChange [9] []; DText [1; 2]], [DChange [1] [9]; DText [1; 2; 2]].
  split; [normal|]. split; [normal|]. split; [reflexivity|].
  split; [|split; [vm_compute; reflexivity|intros H; apply (H [1] [9]); now left]].
  intros e0 e1 [<-|[]] [<-|[]]. right; right; left. cbn. repeat constructor.
Qed.
(** Edits in the same place do not conflict: one branch removes 2 of 1 2 1, the other all. *)
Theorem C78_conflict_refuted : exists (s0 s1 : list (ditem nat)) r, normal_diff s0 /\ normal_diff s1 /\
  diff_before s0 = diff_before s1 /\
  merge_token_sequence KTuple (diff_before s0) (diff_after s0) (diff_after s1) = Ok r /\ no_conflict r /\
  ~ compatible (edits 0 s0) (edits 0 s1).
Proof.
  exists [DText [1]; DChange [] [2]; DText [1]], [DChange [] [1; 2; 1]], [DText [1]].
  split; [normal|]. split; [normal|]. split; [reflexivity|]. split; [vm_compute; reflexivity|].
  split; [intros a b [H|[]]; discriminate|]. intros H.
  destruct (H (1, [], 1) (0, [], 3) (or_introl eq_refl) (or_introl eq_refl)) as [X|[[X _]|[[_ X]|[X _]]]]; try discriminate;
    vm_compute in X; lia.
Qed.
Theorem C78_statement_refuted : ~ C78_statement.
Proof.
  intros H. destruct C78_merge_refuted as (s0 & s1 & r & N0 & N1 & B & C & M & F). apply F. now apply (H s0 s1 r).
Qed.

Print Assumptions C77_statement_refuted.
Print Assumptions C78_statement_refuted.
Print Assumptions C77_edits_partial.
Print Assumptions C77_texts_partial.
Print Assumptions C77_inserts_refuted.
Print Assumptions C77_removals_refuted.
Print Assumptions C77_repeats_refuted.
Print Assumptions C78_merge_partial.
Print Assumptions C78_conflict_partial.
Print Assumptions C78_texts_partial.
Print Assumptions C78_texts_conflict_partial.
Print Assumptions C78_merge_refuted.
Print Assumptions C78_conflict_refuted.

(** ** Scripts the theorems speak of *)
(** 1 2 3 4 5: the first branch replaces 2 by 7 8 and drops 5, the second inserts 9 before 4 *)
Definition script0 : list (ditem nat) := [DText [1]; DChange [7; 8] [2]; DText [3; 4]; DChange [] [5]].
Definition script1 : list (ditem nat) := [DText [1; 2; 3]; DChange [9] []; DText [4; 5]].
Example C77_example : distinct_edits script0 /\ distinct_edits script1.
Proof.
  split; (split; [normal|split; [different|split; apart]]).
Qed.
Example C77_example_diff : diff_token_sequences [1; 2; 3; 4; 5] [1; 7; 8; 3; 4] = Ok script0.
Proof. vm_compute. reflexivity. Qed.
Example C78_example : diff_before script0 = diff_before script1 /\ compatible (edits 0 script0) (edits 0 script1).
Proof.
  split; [reflexivity|]. intros e0 e1 [<-|[<-|[]]] [<-|[]].
  - right; left. cbn. repeat constructor.
  - right; right; left. cbn. repeat constructor.
Qed.
Example C78_example_merge :
  merge_token_sequence KTuple [1; 2; 3; 4; 5] [1; 7; 8; 3; 4] [1; 2; 3; 9; 4; 5] = Ok [DText [1; 7; 8; 3; 9; 4]].
Proof. vm_compute. reflexivity. Qed.
(** both replace 2, by 7 8 and by 9: a conflict *)
Definition script2 : list (ditem nat) := [DText [1]; DChange [9] [2]; DText [3; 4; 5]].
Example C78_example_collide : distinct_edits script2 /\ ~ compatible (edits 0 script0) (edits 0 script2) /\
  merge_token_sequence KTuple [1; 2; 3; 4; 5] [1; 7; 8; 3; 4] [1; 9; 3; 4; 5] =
    Ok [DText [1]; DChange [7; 8] [9]; DText [3; 4]].
Proof.
  split; [split; [normal|split; [different|split; apart]]|]. split; [|vm_compute; reflexivity].
  intros H. destruct (H (1, [7; 8], 1) (1, [9], 1) (or_introl eq_refl) (or_introl eq_refl)) as [X|[[X _]|[[X _]|[_ [[X _]|[X _]]]]]];
    try discriminate; vm_compute in X; lia.
Qed.
(** The lines of "a\nb\n" and of "a\nx\nb\n"; the last token is the empty text after the
    last newline. *)
Definition script_lines : list (ditem (list Z)) :=
  [DText [[97; 10]%Z]; DChange [[120; 10]%Z] []; DText [[98; 10]%Z; []]].
Example C77_example_lines : distinct_edits script_lines /\
  units (fun _ => false) KLine (CStr [97; 10; 98; 10]%Z) (diff_before script_lines) /\
  units (fun _ => false) KLine (CStr [97; 10; 120; 10; 98; 10]%Z) (diff_after script_lines) /\
  snd (diff (fun _ => false) KLine new_tokenizer (CStr [97; 10; 98; 10]%Z) (CStr [97; 10; 120; 10; 98; 10]%Z)) =
    Ok (map (pieces SStr) script_lines).
Proof.
  assert (L : forall c, c <> 10%Z -> exists l, ~ In 10%Z l /\ [c; 10%Z] = l ++ [10%Z]).
  { intros c Hc. exists [c]. split; [|reflexivity]. intros [H|[]]. now apply Hc. }
  split; [split; [normal|split; [different|split; apart]]|].
  split; [split; [reflexivity|]; exists [[97; 10]; [98; 10]]%Z, []; split; [reflexivity|]; split; [easy|];
          repeat constructor; apply L; discriminate|].
  split; [split; [reflexivity|]; exists [[97; 10]; [120; 10]; [98; 10]]%Z, []; split; [reflexivity|]; split; [easy|];
          repeat constructor; apply L; discriminate|].
  vm_compute. reflexivity.
Qed.
