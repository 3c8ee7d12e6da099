(** Theorem C110: what a diff shows when one piece is inserted or removed. *)
From Coq Require Import Lia.
From Verif Require Import Base SpecDiff SpecInsert Automaton Changesets DiffInsert.

Section Theorems.
Context {T : Type} {E : Teq T} {O : TeqOk T}.

(** C110, what holds of any text: a piece put at the end is shown as a piece put at the
    end, and likewise one cut off from the end.  What is missing: a piece in the middle,
    see [C110_refuted]. *)
Theorem C110_end_partial : forall o q : list T,
  diff_token_sequences o (o ++ q) = Ok (kept o ++ inserted q) /\
  diff_token_sequences (o ++ q) o = Ok (kept o ++ removed q).
Proof. exact diff_appended. Qed.
(** A piece put in front, or pieces at both ends: the old text is shown as kept where
    it first occurs. *)
Theorem C110_around_partial : forall o p q : list T,
  (forall p' q', p ++ o ++ q = p' ++ o ++ q' -> length p <= length p') ->
  diff_token_sequences o (p ++ o ++ q) = Ok (inserted p ++ kept o ++ inserted q).
Proof. exact diff_contained. Qed.
Theorem C110_cut_partial : forall m p q : list T,
  (forall p' q', p ++ m ++ q = p' ++ m ++ q' -> length p <= length p') ->
  diff_token_sequences (p ++ m ++ q) m = Ok (removed p ++ kept m ++ removed q).
Proof. exact diff_containing. Qed.
(** So nothing is shown as removed if the piece is in front, wherever it is shown. *)
Theorem C110_front_partial : forall (o p : list T) d,
  (diff_token_sequences o (p ++ o) = Ok d -> only_inserts d) /\
  (diff_token_sequences (p ++ o) o = Ok d -> only_removes d).
Proof. exact diff_in_front. Qed.
(** Nor is it if the piece is anywhere in a text without repeated tokens, whatever the
    tokens of the piece; and if these are new, the piece is shown at its place. *)
Theorem C110_distinct_partial : forall (a b x : list T) d, NoDup (a ++ b) ->
  (diff_token_sequences (a ++ b) (a ++ x ++ b) = Ok d -> only_inserts d) /\
  (diff_token_sequences (a ++ x ++ b) (a ++ b) = Ok d -> only_removes d).
Proof. exact diff_distinct. Qed.
Theorem C110_place_partial : forall a b x : list T, x <> [] -> NoDup (a ++ b) -> disjoint x (a ++ b) ->
  diff_token_sequences (a ++ b) (a ++ x ++ b) = Ok (kept a ++ DChange x [] :: kept b) /\
  diff_token_sequences (a ++ x ++ b) (a ++ b) = Ok (kept a ++ DChange [] x :: kept b).
Proof. exact diff_fresh. Qed.
End Theorems.

(** C110 is false: for the text aaa and the text abaa the diff shows an a removed from
    the end.  And the other way round it shows one inserted. *)
Theorem C110_refuted : exists a b x d d' : list nat, exists e e',
  diff_token_sequences (a ++ b) (a ++ x ++ b) = Ok e /\ ~ only_inserts e /\ In (DChange d d') e /\ d' <> [] /\
  diff_token_sequences (a ++ x ++ b) (a ++ b) = Ok e' /\ ~ only_removes e'.
Proof.
  exists [1], [1; 1], [2], [], [1]. do 2 eexists.
  split; [vm_compute; reflexivity|]. split.
  { intros H. do 2 (inversion H as [|? ? _ H']; subst; clear H; rename H' into H).
    inversion H as [|? ? H1 _]; subst. discriminate. }
  split; [right; right; now left|]. split; [discriminate|]. split; [vm_compute; reflexivity|].
  intros H. do 2 (inversion H as [|? ? _ H']; subst; clear H; rename H' into H).
  inversion H as [|? ? H1 _]; subst. discriminate.
Qed.
Print Assumptions C110_end_partial.
Print Assumptions C110_around_partial.
Print Assumptions C110_cut_partial.
Print Assumptions C110_front_partial.
Print Assumptions C110_distinct_partial.
Print Assumptions C110_place_partial.
Print Assumptions C110_refuted.

(** A piece at the end; a piece in front that is shown at the end, since the old text
    occurs first at the beginning; a piece in the middle that is shown as two. *)
Example C110_example :
  diff_token_sequences [1; 2] ([1; 2] ++ [1; 3]) = Ok [DText [1; 2]; DChange [1; 3] []] /\
  diff_token_sequences [1; 1] ([1] ++ [1; 1]) = Ok [DText [1; 1]; DChange [1] []] /\
  diff_token_sequences [1; 2; 3; 4] ([1; 2] ++ [9; 2; 3; 4; 8] ++ [3; 4]) =
    Ok [DText [1]; DChange [2; 9] []; DText [2; 3; 4]; DChange [8; 3; 4] []] /\
  diff_token_sequences ([1; 2] ++ [3; 4]) ([1; 2] ++ [8; 8] ++ [3; 4]) =
    Ok [DText [1; 2]; DChange [8; 8] []; DText [3; 4]].
Proof. repeat split; vm_compute; reflexivity. Qed.
(** the old text once in the middle of the new one *)
Example C110_hypothesis_met : forall p' q', [7] ++ [1; 2] ++ [1] = p' ++ [1; 2] ++ q' -> length [7] <= length p'.
Proof. intros [|x p'] q' H; [discriminate|cbn; lia]. Qed.
