(** Lines of versions that are left alone (C134).  It speaks about the calls of [add] only. *)
From Coq Require Import ZArith.
From Verif Require Import Base Tokenizers Versions SpecVersions SpecLineage.

Section Elsewhere.
Context {K : Type}.
(** [X] is made of whole lines: with a version also the one it was made from and the one made
    from it *)
Definition whole_lines (h : list (adding K)) (X : K -> Prop) : Prop :=
  forall x y, built_on h x y -> (X x <-> X y).
(** an add of a new version outside of [X], without a base or with one outside of [X] *)
Definition away (X : K -> Prop) (a : adding K) : Prop :=
  ~ X (tag_of a) /\ forall x, base_of a = Some x -> ~ X x.
(** [v] can be used like an object after [h] outside of [X]: whatever is added to it away from [X]
    from now on, every version outside of [X] can be had, and every add on a head succeeds *)
Definition goes_on_outside {E : Teq K} re_w tk (HS DS : store K) (TR : tree_impl K) (X : K -> Prop) h (v : vstate HS DS TR) : Prop :=
  forall g, valid tk (h ++ g) -> Forall (away X) g -> let v' := run re_w tk HS DS TR v g in
  (forall t b base, In (t, b, base) (h ++ g) -> ~ X t -> get re_w tk HS DS TR v' t = Ok (Some b)) /\
  (forall t, ~ X t -> ~ added (h ++ g) t -> get re_w tk HS DS TR v' t = Ok None) /\
  (forall a, valid tk (h ++ g ++ [a]) -> away X a -> add_result re_w tk HS DS TR v' a = Ok tt).
End Elsewhere.
