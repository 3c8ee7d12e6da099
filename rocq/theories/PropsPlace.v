(** Theorems C113 and C114: merging with a branch that has a single edit, and merging two
    branches that rewrite the same piece. *)
From Verif Require Import Base SpecDiff SpecEdits SpecInsert SpecMerge SpecPlace Changesets Merge MergeSame MergeOne.
Import SpecInsert.

Section Theorems.
Context {T : Type} {E : Teq T} {O : TeqOk T}.

(** C113: one branch differs from the parent in one place only, and the other branch
    leaves that place alone.  Then the merge is the other branch with the one edit made
    in it, at the place that stands for the same tokens of the parent. *)
Theorem C113_one_edit : forall k (p b0 b1 a x y b : list T) d1,
  diff_token_sequences p b0 = Ok (kept a ++ DChange x y :: kept b) -> diff_token_sequences p b1 = Ok d1 ->
  (forall e, In e (edits 0 d1) -> compatible_edits (length a, x, length y) e /\ e <> (length a, x, length y)) ->
  exists u v, upto d1 (length (a ++ y)) = u ++ y /\ b1 = u ++ y ++ v /\
    merge_token_sequence k p b0 b1 = Ok [DText (u ++ x ++ v)] /\
    merge_token_sequence k p b1 b0 = Ok [DText (u ++ x ++ v)].
Proof. exact merge_one_edit. Qed.
(** If the other branch has made the same edit, among others, the merge is the other
    branch. *)
Theorem C113_shared_edit : forall k (p b0 b1 a x y b : list T) d1,
  diff_token_sequences p b0 = Ok (kept a ++ DChange x y :: kept b) -> diff_token_sequences p b1 = Ok d1 ->
  In (length a, x, length y) (edits 0 d1) ->
  merge_token_sequence k p b0 b1 = Ok [DText b1] /\ merge_token_sequence k p b1 b0 = Ok [DText b1].
Proof. exact merge_shared_edit. Qed.
(** In particular, what one branch appends is appended to the other, whatever this one
    has changed, unless its own diff ends with something appended. *)
Theorem C113_append : forall k (p q b1 : list T) d1, diff_token_sequences p b1 = Ok d1 ->
  (forall q1 d, d1 = d ++ [DChange q1 []] -> False) ->
  merge_token_sequence k p (p ++ q) b1 = Ok [DText (b1 ++ q)] /\
  merge_token_sequence k p b1 (p ++ q) = Ok [DText (b1 ++ q)].
Proof. exact merge_append. Qed.

(** C114: two branches that replace the same piece of the parent by different texts.  The
    merge is the diff of the two replacements, from the one of branch1 to the one of
    branch0, between the parts of the parent before and after.  So it has a conflict. *)
Theorem C114_rewrites : forall k (p b0 b1 a b x0 x1 y : list T) d,
  diff_token_sequences p b0 = Ok (kept a ++ DChange x0 y :: kept b) ->
  diff_token_sequences p b1 = Ok (kept a ++ DChange x1 y :: kept b) -> x0 <> x1 ->
  diff_token_sequences x1 x0 = Ok d ->
  merge_token_sequence k p b0 b1 = Ok (join_texts (kept a ++ d ++ kept b)).
Proof. exact merge_rewrites. Qed.
Theorem C114_conflict : forall k (p b0 b1 a b x0 x1 y : list T),
  diff_token_sequences p b0 = Ok (kept a ++ DChange x0 y :: kept b) ->
  diff_token_sequences p b1 = Ok (kept a ++ DChange x1 y :: kept b) -> x0 <> x1 ->
  exists r, merge_token_sequence k p b0 b1 = Ok r /\ ~ no_conflict r.
Proof. exact rewrites_conflict. Qed.
(** Two branches that append different texts: the diff of what they append. *)
Theorem C114_appends : forall k (p q0 q1 : list T) d, q0 <> q1 -> q0 <> [] -> q1 <> [] ->
  diff_token_sequences q1 q0 = Ok d ->
  merge_token_sequence k p (p ++ q0) (p ++ q1) = Ok (join_texts (kept p ++ d)).
Proof. exact merge_appends. Qed.
End Theorems.
Print Assumptions C113_one_edit.
Print Assumptions C113_shared_edit.
Print Assumptions C113_append.
Print Assumptions C114_rewrites.
Print Assumptions C114_conflict.
Print Assumptions C114_appends.

(** A token is replaced in a text; the other branch has put something in before it, taken
    out the token just before and the one just after. *)
Example C113_example :
  diff_token_sequences [1; 2; 3; 4; 5; 6] [1; 2; 3; 9; 8; 5; 6] = Ok (kept [1; 2; 3] ++ DChange [9; 8] [4] :: kept [5; 6]) /\
  exists d1, diff_token_sequences [1; 2; 3; 4; 5; 6] [7; 1; 2; 4; 6] = Ok d1 /\
    (forall e, In e (edits 0 d1) -> compatible_edits (3, [9; 8], 1) e /\ e <> (3, [9; 8], 1)) /\
    upto d1 4 = [7; 1; 2; 4] /\
    merge_token_sequence KStr [1; 2; 3; 4; 5; 6] [1; 2; 3; 9; 8; 5; 6] [7; 1; 2; 4; 6] = Ok [DText [7; 1; 2; 9; 8; 6]].
Proof.
  split; [vm_compute; reflexivity|]. eexists. split; [vm_compute; reflexivity|]. split; [|split; vm_compute; reflexivity].
  cbn. intros e [<-|[<-|[<-|[]]]]; (split; [|discriminate]); unfold compatible_edits, e_end, e_pos, e_len, e_ins; cbn; lia.
Qed.
(** What is appended is kept although the other branch has taken the end away. *)
Example C113_append_example :
  diff_token_sequences [1; 2; 3] [1] = Ok [DText [1]; DChange [] [2; 3]] /\
  (forall q1 d, [DText [1]; DChange [] [2; 3]] = d ++ [DChange q1 []] -> False) /\
  merge_token_sequence KStr [1; 2; 3] [1; 2; 3; 4] [1] = Ok [DText [1; 4]].
Proof.
  split; [vm_compute; reflexivity|]. split; [|vm_compute; reflexivity].
  intros q1 [|a [|b [|c d]]] H; discriminate.
Qed.
Example C114_example :
  diff_token_sequences [1; 2; 3] [1; 7; 8; 9; 3] = Ok (kept [1] ++ DChange [7; 8; 9] [2] :: kept [3]) /\
  diff_token_sequences [1; 2; 3] [1; 7; 6; 9; 3] = Ok (kept [1] ++ DChange [7; 6; 9] [2] :: kept [3]) /\
  diff_token_sequences [7; 6; 9] [7; 8; 9] = Ok [DText [7]; DChange [8] [6]; DText [9]] /\
  join_texts (kept [1] ++ [DText [7]; DChange [8] [6]; DText [9]] ++ kept [3]) = [DText [1; 7]; DChange [8] [6]; DText [9; 3]] /\
  merge_token_sequence KStr [1; 2; 3] [1; 7; 8; 9; 3] [1; 7; 6; 9; 3] = Ok [DText [1; 7]; DChange [8] [6]; DText [9; 3]] /\
  merge_token_sequence KStr [1] [1; 5; 6] [1; 5; 7] = Ok [DText [1; 5]; DChange [6] [7]].
Proof. repeat split; vm_compute; reflexivity. Qed.
