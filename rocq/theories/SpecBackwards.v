(** When a diff can be read backwards (C84). *)
From Verif Require Import Base SpecDiff SpecGreedy.

Section SpecBackwards.
Context {T : Type}.
(** Among the longest common parts there is one that comes first in both texts, and so
    it is again on both sides of it. *)
Inductive agreeing : list T -> list T -> Prop :=
| agreeing_none o m : disjoint o m -> agreeing o m
| agreeing_some o o1 o2 m m1 m2 w :
    o = o1 ++ w ++ o2 -> m = m1 ++ w ++ m2 -> w <> [] ->
    (forall v, common_to o m v -> length v <= length w) ->
    (forall v p q, common_to o m v -> length v = length w -> m = p ++ v ++ q -> length m1 <= length p) ->
    (forall v p q, common_to o m v -> length v = length w -> o = p ++ v ++ q -> length o1 <= length p) ->
    agreeing o1 m1 -> agreeing o2 m2 -> agreeing o m.
End SpecBackwards.
