(** C14 (merge part), C16-C24, C61: three-way merge. *)
From Verif Require Import Base Changesets SpecDiff Merge SpecMerge DiffProofs MergeLaws.

(** C14: merging renamed sequences gives the renamed result. *)
Theorem C14_merge_renaming : forall {A B} {EA : Teq A} {EB : Teq B} {OA : TeqOk A} {OB : TeqOk B} (f : A -> B),
  (forall x y, f x = f y -> x = y) -> forall k (p b0 b1 : list A),
  merge_token_sequence k (map f p) (map f b0) (map f b1) =
  match merge_token_sequence k p b0 b1 with
  | Ok r => Ok (map (ditem_map f) r)
  | Err e => Err e
  end.
Proof. exact @merge_map. Qed.

(** C16, full statement: for every kind of sequence the merge returns a result.
    It fails for bytes. *)
Theorem C16_merge_total_refuted :
  exists p b0 b1 : list nat, merge_token_sequence KBytes p b0 b1 = Err TypeError.
Proof. exact merge_bytes_raises. Qed.
(** C16 for str and tuple. Missing: bytes. *)
Theorem C16_merge_total_partial : forall {T} {E : Teq T} {O : TeqOk T} k (p b0 b1 : list T),
  k <> KBytes -> exists r, merge_token_sequence k p b0 b1 = Ok r.
Proof. exact @merge_total. Qed.
(** For bytes the merge returns the same result as for the other kinds or raises
    TypeError. *)
Theorem C16_merge_bytes_partial : forall {T} {E : Teq T} {O : TeqOk T} k (p b0 b1 : list T),
  merge_token_sequence k p b0 b1 = merge_token_sequence KStr p b0 b1 \/
  (k = KBytes /\ merge_token_sequence k p b0 b1 = Err TypeError).
Proof. exact @merge_kind. Qed.

(** C17: an unchanged branch. *)
Theorem C17_merge_left : forall {T} {E : Teq T} {O : TeqOk T} k (p b : list T),
  merge_token_sequence k p p b = Ok [DText b].
Proof. exact @merge_left. Qed.
Theorem C17_merge_right : forall {T} {E : Teq T} {O : TeqOk T} k (p b : list T),
  merge_token_sequence k p b p = Ok [DText b].
Proof. exact @merge_right. Qed.

(** C18: identical branches. *)
Theorem C18_merge_same : forall {T} {E : Teq T} {O : TeqOk T} k (p b : list T),
  merge_token_sequence k p b b = Ok [DText b].
Proof. exact @merge_same. Qed.

(** C19: if no edit of one branch collides with an edit of the other the merge is
    the positional union of the edits. *)
Theorem C19_merge_union : forall {T} {E : Teq T} {O : TeqOk T} k (p b0 b1 : list T) d0 d1,
  diff_token_sequences p b0 = Ok d0 -> diff_token_sequences p b1 = Ok d1 ->
  compatible (edits 0 d0) (edits 0 d1) ->
  merge_token_sequence k p b0 b1 = Ok [DText (union_text p (edits 0 d0) (edits 0 d1))].
Proof. exact @merge_union. Qed.

(** C20: normal form of the result. *)
Theorem C20_merge_normal : forall {T} {E : Teq T} {O : TeqOk T} k (p b0 b1 : list T) r,
  merge_token_sequence k p b0 b1 = Ok r -> normal_merge r.
Proof. exact @merge_normal. Qed.

(** C21, full statement: the first sides of the conflicts come from branch0 and
    the second sides from branch1.  It is false: *)
Theorem C21_merge_sides_refuted : exists (p b0 b1 : list nat) r,
  merge_token_sequence KStr p b0 b1 = Ok r /\ ~ subseq (first_sides r) b0.
Proof. exact merge_sides_swapped. Qed.
(** It holds when no edit of branch1 reaches over the start of an edit of branch0
    and no removal by branch0 covers a pure insertion of branch1 followed by
    another edit of branch1.  Missing: those two situations. *)
Theorem C21_merge_sides_partial : forall {T} {E : Teq T} {O : TeqOk T} k (p b0 b1 : list T) r d0 d1,
  merge_token_sequence k p b0 b1 = Ok r ->
  diff_token_sequences p b0 = Ok d0 -> diff_token_sequences p b1 = Ok d1 ->
  reach_free (edits 0 d0) (edits 0 d1) -> cover_free (edits 0 d0) (edits 0 d1) ->
  subseq (first_sides r) b0 /\ subseq (second_sides r) b1.
Proof. exact @merge_sides. Qed.

(** C22: every token of the result is a token of a branch. *)
Theorem C22_merge_tokens : forall {T} {E : Teq T} {O : TeqOk T} k (p b0 b1 : list T) r,
  merge_token_sequence k p b0 b1 = Ok r -> forall x, In x (tokens r) -> In x b0 \/ In x b1.
Proof. exact @merge_tokens. Qed.

(** C23: every inserted token occurs in the result. *)
Theorem C23_merge_inserted : forall {T} {E : Teq T} {O : TeqOk T} k (p b0 b1 : list T) r d0 d1,
  merge_token_sequence k p b0 b1 = Ok r ->
  diff_token_sequences p b0 = Ok d0 -> diff_token_sequences p b1 = Ok d1 ->
  forall x, In x (inserted d0) \/ In x (inserted d1) -> In x (tokens r).
Proof. exact @merge_inserted. Qed.

(** C24, full statement: swapping the branches swaps the sides.  It is false: *)
Theorem C24_merge_symmetric_refuted : exists (p b0 b1 : list nat) r r',
  merge_token_sequence KStr p b0 b1 = Ok r /\ merge_token_sequence KStr p b1 b0 = Ok r' /\ r' <> swap_sides r.
Proof. exact merge_asymmetric. Qed.
(** It holds when no edits collide.  Missing: colliding edits. *)
Theorem C24_merge_symmetric_partial : forall {T} {E : Teq T} {O : TeqOk T} k (p b0 b1 : list T) d0 d1,
  diff_token_sequences p b0 = Ok d0 -> diff_token_sequences p b1 = Ok d1 ->
  compatible (edits 0 d0) (edits 0 d1) ->
  exists r, merge_token_sequence k p b0 b1 = Ok r /\ merge_token_sequence k p b1 b0 = Ok (swap_sides r).
Proof. exact @merge_symmetric. Qed.

(** C61: the longest common prefix. *)
Theorem C61_common_prefix : forall {T} {E : Teq T} {O : TeqOk T} (a b : list T),
  let n := common_prefix_length a b in
  n <= length a /\ n <= length b /\ firstn n a = firstn n b /\
  forall m, m <= length a -> m <= length b -> firstn m a = firstn m b -> m <= n.
Proof. exact @common_prefix_spec. Qed.

Print Assumptions C14_merge_renaming.
Print Assumptions C16_merge_total_refuted.
Print Assumptions C16_merge_total_partial.
Print Assumptions C16_merge_bytes_partial.
Print Assumptions C17_merge_left.
Print Assumptions C17_merge_right.
Print Assumptions C18_merge_same.
Print Assumptions C19_merge_union.
Print Assumptions C20_merge_normal.
Print Assumptions C21_merge_sides_refuted.
Print Assumptions C21_merge_sides_partial.
Print Assumptions C22_merge_tokens.
Print Assumptions C23_merge_inserted.
Print Assumptions C24_merge_symmetric_refuted.
Print Assumptions C24_merge_symmetric_partial.
Print Assumptions C61_common_prefix.

(** Concrete cases. *)
Example C14_merge_example : merge_token_sequence KStr (map (Nat.add 10) [1;2;3]) (map (Nat.add 10) [1;4;3]) (map (Nat.add 10) [1;5;3])
  = Ok [DText [11]; DChange [14] [15]; DText [13]].
Proof. vm_compute; reflexivity. Qed.
Example C16_example : merge_token_sequence KTuple [3;4] [9;4;8] [7] = Ok [DChange [9;4;8] [7]].
Proof. vm_compute; reflexivity. Qed.
(** An insertion right after the end of a conflict: the other branch has a copy there, of
    which nothing is used, and the literal stands for it. *)
Example C16_copy_example : merge_token_sequence KBytes [1;2;3;4] [9;4] [8;2;3;7;4] = Err TypeError /\
  merge_token_sequence KStr [1;2;3;4] [9;4] [8;2;3;7;4] = Ok [DChange [9] [8;2;3;7]; DText [4]].
Proof. vm_compute; auto. Qed.
(** bytes with a conflict *)
Example C16_bytes_example : merge_token_sequence KBytes [1;2;3] [1;7;3] [1;8;3] = Ok [DText [1]; DChange [7] [8]; DText [3]].
Proof. vm_compute; reflexivity. Qed.
Example C17_example : merge_token_sequence KBytes [1;2;3] [1;2;3] [1;7;3] = Ok [DText [1;7;3]].
Proof. vm_compute; reflexivity. Qed.
Example C18_example : merge_token_sequence KBytes [1;2;3] [1;7;3;8] [1;7;3;8] = Ok [DText [1;7;3;8]].
Proof. vm_compute; reflexivity. Qed.
(** branch0 replaces the first token, branch1 inserts before the third, which
    branch0 removes *)
Example C19_example :
  diff_token_sequences [1;2;3;4] [9;2;4] = Ok [DChange [9] [1]; DText [2]; DChange [] [3]; DText [4]] /\
  diff_token_sequences [1;2;3;4] [1;2;7;3;4] = Ok [DText [1;2]; DChange [7] []; DText [3;4]] /\
  compatible (edits 0 [DChange [9] [1]; DText [2]; DChange [] [3]; DText [4]])
             (edits 0 [DText [1;2]; DChange [7] []; DText [3;4]]) /\
  merge_token_sequence KStr [1;2;3;4] [9;2;4] [1;2;7;3;4] = Ok [DText [9;2;7;4]].
Proof.
  split; [vm_compute; reflexivity|split; [vm_compute; reflexivity|split; [|vm_compute; reflexivity]]].
  intros e0 e1 [<-|[<-|[]]] [<-|[]]; unfold compatible_edits, e_pos, e_ins, e_len, e_end; cbn; [right; left|right; right; right]; auto.
Qed.
Example C20_example : merge_token_sequence KStr [1;2;3;4;5;6] [1;8;3;4;9;6] [1;7;3;4;6]
  = Ok [DText [1]; DChange [8] [7]; DText [3;4]; DChange [9] []; DText [6]].
Proof. vm_compute; reflexivity. Qed.
Example C21_example :
  diff_token_sequences [1;2;3] [1;8;3] = Ok [DText [1]; DChange [8] [2]; DText [3]] /\
  diff_token_sequences [1;2;3] [1;7] = Ok [DText [1]; DChange [7] [2;3]] /\
  reach_free (edits 0 [DText [1]; DChange [8] [2]; DText [3]]) (edits 0 [DText [1]; DChange [7] [2;3]]) /\
  cover_free (edits 0 [DText [1]; DChange [8] [2]; DText [3]]) (edits 0 [DText [1]; DChange [7] [2;3]]) /\
  merge_token_sequence KStr [1;2;3] [1;8;3] [1;7] = Ok [DText [1]; DChange [8;3] [7]].
Proof.
  split; [vm_compute; reflexivity|split; [vm_compute; reflexivity|split; [|split; [|vm_compute; reflexivity]]]].
  - intros e0 e1 [<-|[]] [<-|[]]; unfold e_end, e_pos, e_len; cbn; lia.
  - intros e0 e1 e2 [<-|[]] [<-|[]] [<-|[]]; unfold e_end, e_pos, e_len; cbn; lia.
Qed.
Example C22_example : match merge_token_sequence KStr [1;2;3] [1;8;3] [7;2;3] with
  | Ok r => tokens r | Err _ => [] end = [7;8;3].
Proof. vm_compute; reflexivity. Qed.
Example C23_example : match diff_token_sequences [1;2;3] [1;8;3] with Ok d => inserted d | Err _ => [] end = [8].
Proof. vm_compute; reflexivity. Qed.
Example C61_example : common_prefix_length [1;2;3] [1;2;4;3] = 2.
Proof. reflexivity. Qed.
