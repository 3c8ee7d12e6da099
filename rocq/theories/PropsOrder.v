(** Properties C83 to C85: merging several branches one after the other, diffs read
    backwards, and how much a diff keeps.  [distinct_edits], [apart_edits] and
    [merge_in_turn] are in SpecEdits; [edits], [swap_sides] and [subseq] in SpecMerge. *)
From Coq Require Import Lia.
From Verif Require Import Base Changesets SpecDiff Merge SpecMerge SpecEdits EditsProofs EditsOrder EditsLaws DiffPoor
  SpecGreedy SpecBackwards DiffBackwards PropsEdits.

(** ** C83  The order in which branches are merged does not matter *)
(** The full statement asks only that the merges of any two of the branches have no
    conflict; it is false.  What holds: if between two different edits there is always a
    token of the parent, then all orders of merging, with repetitions, give the parent
    with exactly the edits of all the branches. *)
Definition C83_statement : Prop := forall (p b0 b1 m : list nat) bs bs',
  (forall x y, In x (b0 :: bs) -> In y (b0 :: bs) -> exists r, merge_token_sequence KTuple p x y = Ok [DText r]) ->
  (forall x, In x (b1 :: bs') <-> In x (b0 :: bs)) ->
  merge_in_turn KTuple p b0 bs = Some m -> merge_in_turn KTuple p b1 bs' = Some m.
Theorem C83_any_order_partial : forall {T} {E : Teq T} {O : TeqOk T} k (p : list T) ss, ss <> [] ->
  (forall s, In s ss -> distinct_edits s /\ diff_before s = p) ->
  (forall s s' e e', In s ss -> In s' ss -> In e (edits 0 s) -> In e' (edits 0 s') -> apart_edits e e') ->
  exists s, distinct_edits s /\ diff_before s = p /\
    (forall e, In e (edits 0 s) <-> exists s', In s' ss /\ In e (edits 0 s')) /\
    forall s0 rest, (forall s', In s' (s0 :: rest) <-> In s' ss) ->
      merge_in_turn k p (diff_after s0) (map diff_after rest) = Some (diff_after s).
Proof. exact @any_order. Qed.
(** Without the token in between: merging a branch again inserts its text a second time.
    One branch removes the only token, the other adds 2 after it. *)
Theorem C83_again_refuted : exists s0 s1 : list (ditem nat), distinct_edits s0 /\ distinct_edits s1 /\
  diff_before s0 = diff_before s1 /\ compatible (edits 0 s0) (edits 0 s1) /\
  merge_in_turn KTuple (diff_before s0) (diff_after s0) [diff_after s1] = Some [2] /\
  merge_in_turn KTuple (diff_before s0) (diff_after s0) [diff_after s1; diff_after s1] = Some [2; 2].
Proof.
  exists [DChange [] [1]], [DText [1]; DChange [2] []].
  split; [split; [normal|split; [different|split; apart]]|]. split; [split; [normal|split; [different|split; apart]]|].
  split; [reflexivity|]. split; [|split; vm_compute; reflexivity].
  intros e0 e1 [<-|[]] [<-|[]]. right; left. cbn. repeat constructor.
Qed.
Theorem C83_statement_refuted : ~ C83_statement.
Proof.
  intros H. assert (F : merge_in_turn KTuple [1] [] [[1; 2]; [1; 2]] = Some [2]).
  { apply (H [1] [] [] [2] [[1; 2]] [[1; 2]; [1; 2]]).
    - intros x y [<-|[<-|[]]] [<-|[<-|[]]]; eexists; vm_compute; reflexivity.
    - intros x. cbn. tauto.
    - vm_compute. reflexivity. }
  vm_compute in F. discriminate.
Qed.
(** and three branches that merge in one order have a conflict in another *)
Theorem C83_order_refuted : exists s0 s1 s2 : list (ditem nat),
  distinct_edits s0 /\ distinct_edits s1 /\ distinct_edits s2 /\
  diff_before s1 = diff_before s0 /\ diff_before s2 = diff_before s0 /\
  compatible (edits 0 s0) (edits 0 s1) /\ compatible (edits 0 s0) (edits 0 s2) /\ compatible (edits 0 s1) (edits 0 s2) /\
  merge_in_turn KTuple (diff_before s0) (diff_after s1) [diff_after s2; diff_after s0] = Some [3; 2] /\
  merge_in_turn KTuple (diff_before s0) (diff_after s0) [diff_after s1; diff_after s2] = None.
Proof.
  exists [DChange [] [1]], [DText [1]; DChange [2] []], [DChange [3] []; DText [1]].
  do 3 (split; [split; [normal|split; [different|split; apart]]|]). do 2 (split; [reflexivity|]).
  split; [intros e0 e1 [<-|[]] [<-|[]]; right; left; cbn; repeat constructor|].
  split; [intros e0 e1 [<-|[]] [<-|[]]; right; right; right; cbn; repeat split; auto|].
  split; [intros e0 e1 [<-|[]] [<-|[]]; right; right; left; cbn; repeat constructor|].
  split; vm_compute; reflexivity.
Qed.

(** ** C84  The diff of the exchanged texts is the diff read backwards *)
Theorem C84_backwards_partial : forall {T} {E : Teq T} {O : TeqOk T} (s : list (ditem T)), distinct_edits s ->
  diff_token_sequences (diff_before s) (diff_after s) = Ok s /\
  diff_token_sequences (diff_after s) (diff_before s) = Ok (swap_sides s).
Proof. exact (fun T E O s D => conj (diff_finds_edits s D) (diff_backwards s D)). Qed.
(** Exactly when it is: in every round some longest common part comes first in both. *)
Theorem C84_exactly_partial : forall {T} {E : Teq T} {O : TeqOk T} (o m : list T) d,
  diff_token_sequences o m = Ok d -> (diff_token_sequences m o = Ok (swap_sides d) <-> agreeing o m).
Proof. exact @backwards_exactly. Qed.
(** What is missing: with two longest common parts the choice depends on the order. *)
Theorem C84_backwards_refuted : exists (o m : list nat) d, diff_token_sequences o m = Ok d /\
  diff_token_sequences m o <> Ok (swap_sides d).
Proof. exists [1; 2], [2; 1]. eexists. split; [vm_compute; reflexivity|]. vm_compute. discriminate. Qed.

(** ** C85  A diff keeps as many tokens as possible *)
(** True if what the diff removes is gone, or what it inserts is new. *)
Theorem C85_most_kept_partial : forall {T} {E : Teq T} {O : TeqOk T} (o m : list T) d,
  diff_token_sequences o m = Ok d -> disjoint (taken d) m \/ disjoint (inserted d) o ->
  forall l, subseq l o -> subseq l m -> length l <= length (kept d).
Proof. exact @keeps_most. Qed.
(** What is missing: the longest common part may be in the way of more. *)
Theorem C85_most_kept_refuted : exists (o m : list nat) d l, diff_token_sequences o m = Ok d /\
  subseq l o /\ subseq l m /\ length (kept d) < length l.
Proof.
  exists [4; 5; 6; 7; 1; 2; 3], [1; 2; 3; 4; 9; 5; 9; 6; 9; 7]. eexists. exists [4; 5; 6; 7].
  split; [vm_compute; reflexivity|]. split; [repeat constructor|]. split; [repeat constructor|]. cbn. lia.
Qed.
(** and there is no bound on how much more *)
Theorem C85_two_kept_refuted : forall k, exists (o m : list nat) d l, diff_token_sequences o m = Ok d /\ subseq l o /\ subseq l m /\
  length (kept d) = 2 /\ length l = k.
Proof. exact much_missed. Qed.

Print Assumptions C83_any_order_partial.
Print Assumptions C83_again_refuted.
Print Assumptions C83_statement_refuted.
Print Assumptions C83_order_refuted.
Print Assumptions C84_backwards_partial.
Print Assumptions C84_exactly_partial.
Print Assumptions C84_backwards_refuted.
Print Assumptions C85_most_kept_partial.
Print Assumptions C85_most_kept_refuted.
Print Assumptions C85_two_kept_refuted.

(** 1 2 3 4 5: one branch replaces 1, one inserts before 3, one drops 5 *)
Definition order0 : list (ditem nat) := [DChange [7; 8] [1]; DText [2; 3; 4; 5]].
Definition order1 : list (ditem nat) := [DText [1; 2]; DChange [9] []; DText [3; 4; 5]].
Definition order2 : list (ditem nat) := [DText [1; 2; 3; 4]; DChange [] [5]].
Example C83_example : (forall s, In s [order0; order1; order2] -> distinct_edits s /\ diff_before s = [1; 2; 3; 4; 5]) /\
  (forall s s' e e', In s [order0; order1; order2] -> In s' [order0; order1; order2] ->
     In e (edits 0 s) -> In e' (edits 0 s') -> apart_edits e e') /\
  merge_in_turn KTuple [1; 2; 3; 4; 5] (diff_after order0) [diff_after order1; diff_after order2] = Some [7; 8; 2; 9; 3; 4] /\
  merge_in_turn KTuple [1; 2; 3; 4; 5] (diff_after order2) [diff_after order0; diff_after order2; diff_after order1] =
    Some [7; 8; 2; 9; 3; 4].
Proof.
  split; [|split; [|split; vm_compute; reflexivity]].
  - intros s [<-|[<-|[<-|[]]]]; (split; [split; [normal|split; [different|split; apart]]|reflexivity]).
  - intros s s' e e' [<-|[<-|[<-|[]]]] [<-|[<-|[<-|[]]]] [<-|[]] [<-|[]]; unfold apart_edits, e_end; cbn;
      first [now left|right; left; cbn; lia|right; right; cbn; lia].
Qed.
(** repeated tokens; the diff can be read backwards *)
Example C84_exactly_example : agreeing [1; 2; 1; 2; 3; 1] [2; 2; 3; 3; 1] /\
  diff_token_sequences [1; 2; 1; 2; 3; 1] [2; 2; 3; 3; 1] =
    Ok [DChange [] [1]; DText [2]; DChange [] [1]; DText [2; 3]; DChange [3] []; DText [1]].
Proof.
  assert (H : diff_token_sequences [1; 2; 1; 2; 3; 1] [2; 2; 3; 3; 1] =
    Ok [DChange [] [1]; DText [2]; DChange [] [1]; DText [2; 3]; DChange [3] []; DText [1]]) by (vm_compute; reflexivity).
  split; [|exact H]. apply (C84_exactly_partial _ _ _ H). vm_compute. reflexivity.
Qed.
Example C85_example : diff_token_sequences [1; 2; 3; 4; 5] [1; 7; 8; 3; 4] = Ok script0 /\
  disjoint (taken script0) [1; 7; 8; 3; 4] /\ kept script0 = [1; 3; 4].
Proof. split; [vm_compute; reflexivity|]. split; [apart|reflexivity]. Qed.
