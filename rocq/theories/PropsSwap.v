(** C24, continued: what swapping the branches of a merge does when their edits collide. *)
From Verif Require Import Base Strings Changesets SpecDiff Merge SpecMerge SpecEdits MergeSwap.

(** Provided no edit of a branch reaches over the beginning of an edit of the other, both
    orders succeed or fail alike, the text on the first side of one is the text on the
    second side of the other, and there is a conflict in one when there is in the other. *)
Theorem C24_merge_readings_partial : forall {T} {E : Teq T} {O : TeqOk T} k (p b0 b1 : list T) d0 d1 r,
  diff_token_sequences p b0 = Ok d0 -> diff_token_sequences p b1 = Ok d1 ->
  reach_free (edits 0 d0) (edits 0 d1) -> reach_free (edits 0 d1) (edits 0 d0) ->
  merge_token_sequence k p b0 b1 = Ok r ->
  exists r', merge_token_sequence k p b1 b0 = Ok r' /\
    diff_after r' = diff_before r /\ diff_before r' = diff_after r /\ (no_conflict r <-> no_conflict r').
Proof. exact @merge_swap. Qed.

(** The result is the same with the sides swapped when, besides, what the branches insert is
    new and not the same, and the first does not remove a token and keep an equal one. *)
Theorem C24_merge_swap_partial : forall {T} {E : Teq T} {O : TeqOk T} k (p b0 b1 : list T) d0 d1 r,
  diff_token_sequences p b0 = Ok d0 -> diff_token_sequences p b1 = Ok d1 ->
  reach_free (edits 0 d0) (edits 0 d1) -> reach_free (edits 0 d1) (edits 0 d0) ->
  disjoint (inserted d0) p -> disjoint (inserted d1) p -> disjoint (inserted d0) (inserted d1) ->
  disjoint (kept d0) (taken d0) ->
  merge_token_sequence k p b0 b1 = Ok r -> merge_token_sequence k p b1 b0 = Ok (swap_sides r).
Proof. exact @merge_swap_exact. Qed.

(** Without the condition on reaching over, not even the texts are exchanged: the second
    branch replaces both tokens, the first only the second of them. *)
Theorem C24_merge_readings_refuted : exists (p b0 b1 : list nat) r r',
  merge_token_sequence KStr p b0 b1 = Ok r /\ merge_token_sequence KStr p b1 b0 = Ok r' /\
  diff_after r' <> diff_before r.
Proof.
  exists [1; 2], [1; 8], [9], [DChange [9; 8] [1]], [DChange [9] [1; 8]].
  split; [vm_compute; reflexivity|split; [vm_compute; reflexivity|vm_compute; discriminate]].
Qed.
(** Without the condition on the tokens, the texts are exchanged and the items are not. *)
Theorem C24_merge_swap_refuted : exists (p b0 b1 : list nat) d0 d1 r r',
  diff_token_sequences p b0 = Ok d0 /\ diff_token_sequences p b1 = Ok d1 /\
  reach_free (edits 0 d0) (edits 0 d1) /\ reach_free (edits 0 d1) (edits 0 d0) /\
  merge_token_sequence KStr p b0 b1 = Ok r /\ merge_token_sequence KStr p b1 b0 = Ok r' /\
  r' <> swap_sides r.
Proof.
  exists [5; 9; 6], [5; 1; 2; 6], [5; 2; 1; 6],
    [DText [5]; DChange [1; 2] [9]; DText [6]], [DText [5]; DChange [2; 1] [9]; DText [6]],
    [DText [5]; DChange [] [2]; DText [1]; DChange [2] []; DText [6]],
    [DText [5]; DChange [] [1]; DText [2]; DChange [1] []; DText [6]].
  split; [vm_compute; reflexivity|]. split; [vm_compute; reflexivity|].
  split; [intros e0 e1 [<-|[]] [<-|[]]; cbv; lia|]. split; [intros e0 e1 [<-|[]] [<-|[]]; cbv; lia|].
  split; [vm_compute; reflexivity|]. split; [vm_compute; reflexivity|vm_compute; discriminate].
Qed.

(** A case of both theorems with a conflict: the first branch replaces two tokens, the
    second replaces the first of them and adds a token at the end. *)
Example merge_swap_example :
  let p := [1; 2; 3; 4] in let b0 := [1; 8; 4] in let b1 := [1; 7; 3; 4; 6] in
  exists d0 d1, diff_token_sequences p b0 = Ok d0 /\ diff_token_sequences p b1 = Ok d1 /\
  reach_free (edits 0 d0) (edits 0 d1) /\ reach_free (edits 0 d1) (edits 0 d0) /\
  disjoint (inserted d0) p /\ disjoint (inserted d1) p /\ disjoint (inserted d0) (inserted d1) /\
  disjoint (kept d0) (taken d0) /\
  merge_token_sequence KBytes p b0 b1 = Ok [DText [1]; DChange [8] [7; 3]; DText [4; 6]] /\
  merge_token_sequence KBytes p b1 b0 = Ok [DText [1]; DChange [7; 3] [8]; DText [4; 6]].
Proof.
  exists [DText [1]; DChange [8] [2; 3]; DText [4]], [DText [1]; DChange [7] [2]; DText [3; 4]; DChange [6] []].
  split; [vm_compute; reflexivity|]. split; [vm_compute; reflexivity|].
  split; [intros e0 e1 [<-|[]] [<-|[<-|[]]]; cbv; lia|]. split; [intros e0 e1 [<-|[<-|[]]] [<-|[]]; cbv; lia|].
  split; [intros x H1 H2; cbn in *; intuition congruence|]. split; [intros x H1 H2; cbn in *; intuition congruence|].
  split; [intros x H1 H2; cbn in *; intuition congruence|]. split; [intros x H1 H2; cbn in *; intuition congruence|].
  split; vm_compute; reflexivity.
Qed.
(** and one of the first theorem only *)
Example merge_readings_example :
  merge_token_sequence KStr [5; 9; 6] [5; 1; 2; 6] [5; 2; 1; 6] =
    Ok [DText [5]; DChange [] [2]; DText [1]; DChange [2] []; DText [6]] /\
  merge_token_sequence KStr [5; 9; 6] [5; 2; 1; 6] [5; 1; 2; 6] =
    Ok [DText [5]; DChange [] [1]; DText [2]; DChange [1] []; DText [6]].
Proof. split; vm_compute; reflexivity. Qed.

Print Assumptions C24_merge_readings_partial.
Print Assumptions C24_merge_swap_partial.
Print Assumptions C24_merge_readings_refuted.
Print Assumptions C24_merge_swap_refuted.
