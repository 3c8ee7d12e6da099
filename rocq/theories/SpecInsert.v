(** Parts of a diff in which only one thing happens (C110). *)
From Verif Require Import Base Changesets.

Section SpecInsert.
Context {T : Type}.
Implicit Type x : list T.

(** what a diff shows for a piece that is in both texts, in the second text only, in
    the first text only; nothing for an empty one *)
Definition kept x : list (ditem T) := match x with [] => [] | _ => [DText x] end.
Definition inserted x : list (ditem T) := match x with [] => [] | _ => [DChange x []] end.
Definition removed x : list (ditem T) := match x with [] => [] | _ => [DChange [] x] end.

Definition only_inserts (d : list (ditem T)) : Prop :=
  Forall (fun i => match i with DText _ => True | DChange _ b => b = [] end) d.
Definition only_removes (d : list (ditem T)) : Prop :=
  Forall (fun i => match i with DText _ => True | DChange a _ => a = [] end) d.
End SpecInsert.
