(** C16: when the merge of bytes raises TypeError. *)
From Verif Require Import Base Changesets SpecDiff Merge SpecMerge SpecClash MergeBytes.

(** C16 for bytes, exactly: the merge raises TypeError when the branches run into each
    other and one of them, before the next token that both keep, inserts something where
    the other inserts nothing.  Missing: there it raises. *)
Theorem C16_merge_bytes_raises_partial : forall {T} {E : Teq T} {O : TeqOk T} (p b0 b1 : list T) d0 d1,
  diff_token_sequences p b0 = Ok d0 -> diff_token_sequences p b1 = Ok d1 ->
  merge_token_sequence KBytes p b0 b1 = Err TypeError <-> clash_then_insertion (edits 0 d0) (edits 0 d1).
Proof. exact @merge_bytes_exact. Qed.
(** ... and otherwise it returns what it returns for str. *)
Theorem C16_merge_bytes_returns_partial : forall {T} {E : Teq T} {O : TeqOk T} (p b0 b1 : list T) d0 d1,
  diff_token_sequences p b0 = Ok d0 -> diff_token_sequences p b1 = Ok d1 ->
  (~ clash_then_insertion (edits 0 d0) (edits 0 d1) <->
   exists r, merge_token_sequence KBytes p b0 b1 = Ok r /\ merge_token_sequence KStr p b0 b1 = Ok r).
Proof. exact @merge_bytes_ok. Qed.
(** ... in particular when every edit removes something. *)
Theorem C16_merge_bytes_replacing_partial : forall {T} {E : Teq T} {O : TeqOk T} (p b0 b1 : list T) d0 d1,
  diff_token_sequences p b0 = Ok d0 -> diff_token_sequences p b1 = Ok d1 ->
  (forall e, In e (edits 0 d0 ++ edits 0 d1) -> 0 < e_len e) ->
  exists r, merge_token_sequence KBytes p b0 b1 = Ok r.
Proof. exact @merge_bytes_replacing. Qed.

Print Assumptions C16_merge_bytes_raises_partial.
Print Assumptions C16_merge_bytes_returns_partial.
Print Assumptions C16_merge_bytes_replacing_partial.

(** Both branches replace the second token, the first also removes the third, after
    which the second inserts: the branches clash and the second inserts alone. *)
Example C16_raises_example :
  diff_token_sequences [1;2;3;4] [1;8;4] = Ok [DText [1]; DChange [8] [2;3]; DText [4]] /\
  diff_token_sequences [1;2;3;4] [1;7;3;9;4] = Ok [DText [1]; DChange [7] [2]; DText [3]; DChange [9] []; DText [4]] /\
  merge_token_sequence KBytes [1;2;3;4] [1;8;4] [1;7;3;9;4] = Err TypeError /\
  clash_then_insertion (edits 0 [DText [1]; DChange [8] [2;3]; DText [4]])
    (edits 0 [DText [1]; DChange [7] [2]; DText [3]; DChange [9] []; DText [4]]).
Proof.
  split; [vm_compute; reflexivity|split; [vm_compute; reflexivity|split; [vm_compute; reflexivity|]]].
  exists 1, 3; split; [|split; [lia|split]].
  - exists (1, [8], 2), (1, [7], 1); cbn; split; [now left|split; [now left|split; [now left|split; [now left|]]]].
    intros [C|[[C _]|[[C _]|[_ [[C _]|[C _]]]]]]; cbn in C; [discriminate|lia|lia|discriminate|discriminate].
  - intros j J1 J2; left; assert (j = 1 \/ j = 2) as [-> | ->] by lia; reflexivity.
  - right; exists (3, [9], 0); split; [cbn; auto|split; [reflexivity|split; [reflexivity|]]].
    intros e' [<-|[]] C; discriminate C.
Qed.
(** Without the insertion the same clash is merged, and every edit removes something. *)
Example C16_returns_example :
  diff_token_sequences [1;2;3;4] [1;7;3;4] = Ok [DText [1]; DChange [7] [2]; DText [3;4]] /\
  merge_token_sequence KBytes [1;2;3;4] [1;8;4] [1;7;3;4] = Ok [DText [1]; DChange [8] [7;3]; DText [4]] /\
  forall e, In e (edits 0 [DText [1]; DChange [8] [2;3]; DText [4]] ++ edits 0 [DText [1]; DChange [7] [2]; DText [3;4]]) -> 0 < e_len e.
Proof.
  split; [vm_compute; reflexivity|split; [vm_compute; reflexivity|]].
  intros e [<-|[<-|[]]]; cbn; lia.
Qed.
