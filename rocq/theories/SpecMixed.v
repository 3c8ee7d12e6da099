(** Adds made with different tokenizers to the same stores and tree (C131).  A [Versions]
    object keeps nothing but its stores, its tree and the tokenizer it is given, so this is
    what happens when the stores are opened again with another tokenizer. *)
From Coq Require Import ZArith.
From Verif Require Import Base Tokenizers SpecTokenizers SpecTokens Tree Versions SpecVersions.

Section Mixed.
Context {K : Type} {E : Teq K}.
Variable re_w : Z -> bool.
Variables HS DS : store K.
Variable TR : tree_impl K.

(** every add with a tokenizer of its own *)
Definition run_mixed (h : list (tkind * adding K)) : vstate HS DS TR :=
  fold_left (fun v a => add_state re_w (fst a) HS DS TR v (snd a)) h v_empty.

(** the tokenizers in [P] cut [b] into the same tokens *)
Definition same_tokens (P : tkind -> Prop) (b : list Z) : Prop := exists ts, forall k, P k -> units re_w k (CBytes b) ts.
End Mixed.
