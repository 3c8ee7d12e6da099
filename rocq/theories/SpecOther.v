(** A patch on another text than the one it was made from (C128). *)
From Verif Require Import Base Changesets.

Section Other.
Context {T : Type}.

(** the same edits on another text: as much is kept, as much is removed, and what is put
    in is the same *)
Inductive carried : ditem T -> ditem T -> Prop :=
| carried_text t t' : length t' = length t -> carried (DText t) (DText t')
| carried_change a b b' : length b' = length b -> carried (DChange a b) (DChange a b').
(** and backwards *)
Inductive carried_back : ditem T -> ditem T -> Prop :=
| back_text t t' : length t' = length t -> carried_back (DText t) (DText t')
| back_change a a' b : length a' = length a -> carried_back (DChange a b) (DChange a' b).

(** nothing that is kept differs *)
Definition keeps (i j : ditem T) : Prop := forall t, i = DText t -> j = DText t.
End Other.
