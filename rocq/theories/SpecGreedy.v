(** What a diff is, without mention of how it is computed: pick the longest run of
    tokens common to both sequences (of several the one that comes first in the
    modified sequence), take it where it first occurs, and do the same with what is
    before it and with what is after it. *)
From Verif Require Import Base Changesets SpecDiff.

Section SpecGreedy.
Context {T : Type}.

Definition common_to (o m v : list T) : Prop :=
  (exists p q, o = p ++ v ++ q) /\ (exists p q, m = p ++ v ++ q).

Inductive lcs_diff : list T -> list T -> list (ditem T) -> Prop :=
| lcs_diff_none o m : disjoint o m ->
    lcs_diff o m (match o, m with [], [] => [] | _, _ => [DChange m o] end)
| lcs_diff_some o o1 o2 m m1 m2 w d1 d2 :
    o = o1 ++ w ++ o2 -> m = m1 ++ w ++ m2 -> w <> [] ->
    (forall v, common_to o m v -> length v <= length w) ->
    (forall v p q, common_to o m v -> length v = length w -> m = p ++ v ++ q -> length m1 <= length p) ->
    (forall p q, o = p ++ w ++ q -> length o1 <= length p) ->
    lcs_diff o1 m1 d1 -> lcs_diff o2 m2 d2 ->
    lcs_diff o m (d1 ++ DText w :: d2).
End SpecGreedy.
