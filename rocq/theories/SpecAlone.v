(** The adds of one line, without those of the others (C133). *)
From Verif Require Import Base Versions SpecVersions.

Section Alone.
Context {K : Type} {E : Teq K}.
Definition alone (h : list (adding K)) (ls : list K) : list (adding K) :=
  filter (fun a => existsb (teq (tag_of a)) ls) h.
End Alone.
