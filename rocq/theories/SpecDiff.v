(** Specification vocabulary for diffs.  Only the item types come from the model. *)
From Verif Require Import Base Changesets.

Section SpecDiff.
Context {T : Type}.

(** the two texts a diff describes: common runs plus the second (resp. first)
    components of the changes *)
Definition diff_before (d : list (ditem T)) : list T :=
  flat_map (fun i => match i with DText t => t | DChange _ b => b end) d.
Definition diff_after (d : list (ditem T)) : list T :=
  flat_map (fun i => match i with DText t => t | DChange a _ => a end) d.

Definition is_text (i : ditem T) : Prop := exists t, i = DText t.
Definition is_change (i : ditem T) : Prop := exists a b, i = DChange a b.

(** neighbours are of different kinds *)
Definition alternating (d : list (ditem T)) : Prop :=
  forall k x y, nth_error d k = Some x -> nth_error d (S k) = Some y ->
    (is_text x /\ is_change y) \/ (is_change x /\ is_text y).

Definition disjoint (a b : list T) : Prop := forall x, In x a -> In x b -> False.

(** no empty item, and the sides of a change share no token *)
Definition item_ok (i : ditem T) : Prop :=
  match i with
  | DText t => t <> []
  | DChange a b => ~ (a = [] /\ b = []) /\ disjoint a b
  end.

Definition normal_diff (d : list (ditem T)) : Prop :=
  alternating d /\ Forall item_ok d.
End SpecDiff.

(** renaming of tokens *)
Definition ditem_map {A B} (f : A -> B) (i : ditem A) : ditem B :=
  match i with DText t => DText (map f t) | DChange a b => DChange (map f a) (map f b) end.
