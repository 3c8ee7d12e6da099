(** Words common to several strings (C119). *)
From Verif Require Import Base SpecSeq.

Section SpecMulti.
Context {T : Type}.
Definition in_all (ss : list (list T)) (w : list T) : Prop := forall s, In s ss -> exists p, occurs_at s w p.
(** there are no two of this length *)
Definition only_one (ss : list (list T)) (l : nat) : Prop :=
  forall w w', in_all ss w -> in_all ss w' -> length w = l -> length w' = l -> w = w'.
End SpecMulti.
