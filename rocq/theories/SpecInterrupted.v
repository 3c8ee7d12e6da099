(** Going on after an interrupted add (C125).  It speaks about the calls only. *)
From Coq Require Import ZArith.
From Verif Require Import Base Tokenizers Versions SpecVersions.

Section Interrupted.
Context {K : Type}.
Implicit Type h : list (adding K).

(** what has been added when [a], after [h], stops after its update number [i] (from 0) of
    [n]: nothing before the tree has the tag; a version without a base until the old head
    is below it; and then [a] *)
Definition reached h (a : adding K) (i n : nat) : list (adding K) :=
  if i =? 0 then h else if n <=? i + 2 then h ++ [a] else h ++ [(tag_of a, bytes_of a, None)].

(** [v] can be used like an object after [h]: whatever is added to it from now on, every
    version can be had, and every add on a head succeeds *)
Definition goes_on {E : Teq K} re_w tk (HS DS : store K) (TR : tree_impl K) h (v : vstate HS DS TR) : Prop :=
  forall g, valid tk (h ++ g) -> let v' := run re_w tk HS DS TR v g in
  (forall t b base, In (t, b, base) (h ++ g) -> get re_w tk HS DS TR v' t = Ok (Some b)) /\
  (forall t, ~ added (h ++ g) t -> get re_w tk HS DS TR v' t = Ok None) /\
  (forall t, contains HS DS TR v' t = true <-> added (h ++ g) t) /\
  (forall a, valid tk (h ++ g ++ [a]) -> add_result re_w tk HS DS TR v' a = Ok tt).
End Interrupted.
