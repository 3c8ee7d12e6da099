(** Specification vocabulary for histories under any tokenizer (C107). *)
From Coq Require Import ZArith.
From Verif Require Import Base SpecVersions.

(** [retrieved pre t] is what is retrieved for [t] after the calls [pre]: at no time
    is it longer than Python objects can be (2**63 - 1 bytes at most) *)
Definition sized {K : Type} (retrieved : list (adding K) -> K -> res (option (list Z))) (h : list (adding K)) : Prop :=
  forall pre post t b, h = pre ++ post -> retrieved pre t = Ok (Some b) -> (Z.of_nat (length b) < 2 ^ 63)%Z.
