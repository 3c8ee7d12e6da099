(** Going on after a process that stopped between two commits of an add (C127).  It speaks
    about the calls only. *)
From Coq Require Import ZArith.
From Verif Require Import Base Tokenizers Versions SpecVersions.

Section Commits.
Context {K : Type}.
Implicit Type h : list (adding K).

(** what has been added when [a], after [h], stops after its commit number [i] (from 0) of
    [n]: nothing before the tree has the tag; a version without a base until the old head
    is below it; and then [a] *)
Definition reached_commit h (a : adding K) (i n : nat) : list (adding K) :=
  if i =? 0 then h else if n <=? i + 4 then h ++ [a] else h ++ [(tag_of a, bytes_of a, None)].

(** reading the object gives what was added *)
Definition reads {E : Teq K} re_w tk (HS DS : store K) (TR : tree_impl K) h (v : vstate HS DS TR) : Prop :=
  (forall t b base, In (t, b, base) h -> get re_w tk HS DS TR v t = Ok (Some b)) /\
  (forall t, ~ added h t -> get re_w tk HS DS TR v t = Ok None) /\
  (forall t, contains HS DS TR v t = true <-> added h t).
End Commits.
