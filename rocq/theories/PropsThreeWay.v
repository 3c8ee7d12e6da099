(** Property C73: the merge of the code is a three-way merge under the conditions of C21,
    and in general is not. *)
From Verif Require Import Base Strings SpecSeq Changesets SpecDiff Merge SpecMerge SpecThreeWay MergeThreeWay.

(** ** C73  Every part of a merge is what a three-way merge has there *)
Theorem C73_three_way_refuted : exists (p b0 b1 : list nat) r d0 d1,
  merge_token_sequence KStr p b0 b1 = Ok r /\
  diff_token_sequences p b0 = Ok d0 /\ diff_token_sequences p b1 = Ok d1 /\
  ~ exists q, three_way d0 d1 q /\ glue q r.
Proof. exact merge_not_three_way. Qed.
Print Assumptions C73_three_way_refuted.

(** One branch only removes tokens, the other removes all of them; the merge reports no
    conflict and has text in it. *)
Theorem C73_all_removed_refuted : exists (p b0 r : list nat) d0,
  diff_token_sequences p b0 = Ok d0 /\ inserted d0 = [] /\
  merge_token_sequence KStr p b0 [] = Ok [DText r] /\ r <> [].
Proof. exact merge_all_removed. Qed.
Print Assumptions C73_all_removed_refuted.

(** Missing: edits of the second branch that reach over the start of one of the first, and
    removals of the first branch covering an insertion and a further edit of the second. *)
Theorem C73_three_way_partial {T} {E : Teq T} {O : TeqOk T} k (p b0 b1 : list T) r d0 d1 :
  merge_token_sequence k p b0 b1 = Ok r ->
  diff_token_sequences p b0 = Ok d0 -> diff_token_sequences p b1 = Ok d1 ->
  reach_free (edits 0 d0) (edits 0 d1) -> cover_free (edits 0 d0) (edits 0 d1) ->
  exists q, three_way d0 d1 q /\ glue q r.
Proof. exact (merge_three_way k p b0 b1 r d0 d1). Qed.
Print Assumptions C73_three_way_partial.

(** In the same cases nothing comes back that one branch removed while the other only
    removed. *)
Theorem C73_all_removed_partial {T} {E : Teq T} {O : TeqOk T} k (p b0 : list T) r d0 :
  merge_token_sequence k p b0 [] = Ok r ->
  diff_token_sequences p b0 = Ok d0 -> inserted d0 = [] ->
  reach_free (edits 0 d0) (edits 0 [DChange [] p]) -> plain r = [].
Proof. exact (merge_all_removed_ok k p b0 r d0). Qed.
Print Assumptions C73_all_removed_partial.

(** a change of each branch alone, and a conflict *)
Example C73_example :
  diff_token_sequences [1;2;3;4;5;6] [1;8;3;4;5;6;9] = Ok [DText [1]; DChange [8] [2]; DText [3;4;5;6]; DChange [9] []] /\
  diff_token_sequences [1;2;3;4;5;6] [1;7;3;4;6] = Ok [DText [1]; DChange [7] [2]; DText [3;4]; DChange [] [5]; DText [6]] /\
  reach_free (edits 0 [DText [1]; DChange [8] [2]; DText [3;4;5;6]; DChange [9] []])
    (edits 0 [DText [1]; DChange [7] [2]; DText [3;4]; DChange [] [5]; DText [6]]) /\
  cover_free (edits 0 [DText [1]; DChange [8] [2]; DText [3;4;5;6]; DChange [9] []])
    (edits 0 [DText [1]; DChange [7] [2]; DText [3;4]; DChange [] [5]; DText [6]]) /\
  merge_token_sequence KStr [1;2;3;4;5;6] [1;8;3;4;5;6;9] [1;7;3;4;6] = Ok [DText [1]; DChange [8] [7]; DText [3;4;6;9]].
Proof.
  split; [vm_compute; reflexivity|split; [vm_compute; reflexivity|split; [|split; [|vm_compute; reflexivity]]]].
  - intros e0 e1 [<-|[<-|[]]] [<-|[<-|[]]]; unfold e_end, e_pos, e_len; cbn; lia.
  - intros e0 e1 e2 [<-|[<-|[]]] [<-|[<-|[]]] [<-|[<-|[]]]; unfold e_end, e_pos, e_len; cbn; try lia; discriminate || lia.
Qed.
Example C73_removed_example :
  diff_token_sequences [1;2] [2] = Ok [DChange [] [1]; DText [2]] /\
  reach_free (edits 0 [DChange [] [1]; DText [2]]) (edits 0 [DChange [] [1;2]]) /\
  merge_token_sequence KStr [1;2] [2] [] = Ok [DChange [2] []].
Proof.
  split; [vm_compute; reflexivity|split; [|vm_compute; reflexivity]].
  intros e0 e1 [<-|[]] [<-|[]]; unfold e_end, e_pos, e_len; cbn; lia.
Qed.
(** The relation tells the merge above apart from the one with the change of one branch
    dropped. *)
Example C73_lost_change : ~ exists q, three_way [DText [1]; DChange [8] []] [DText [1]] q /\ glue q [DText [1]].
Proof. exact no_lost_change. Qed.
