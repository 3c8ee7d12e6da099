(** Tokens that are equal without being the same, such as 1, 1.0 and True (C126). *)
From Verif Require Import Base SpecSeq Changesets.

Section Equal.
Context {T : Type} {E : Teq T}.

(** what is assumed about [==] *)
Definition equality : Prop :=
  (forall x : T, teq x x = true) /\
  (forall x y : T, teq x y = true -> teq y x = true) /\
  (forall x y z : T, teq x y = true -> teq y z = true -> teq x z = true).

(** [==] of sequences and of the items of a diff or a merge *)
Definition alike (a b : list T) : Prop := Forall2 (fun x y => teq x y = true) a b.
Definition item_alike (i j : ditem T) : Prop :=
  match i, j with
  | DText a, DText b => alike a b
  | DChange a b, DChange a' b' => alike a a' /\ alike b b'
  | _, _ => False
  end.

(** something equal to [w] is in [s] at position [p] *)
Definition occurs_like (s w : list T) (p : nat) : Prop :=
  p + length w <= length s /\ alike (slice s p (length w)) w.

(** both raise the same, or the results are equal *)
Definition results_alike (r r' : res (list (ditem T))) : Prop :=
  match r, r' with
  | Ok l, Ok l' => Forall2 item_alike l l'
  | Err e, Err e' => e = e'
  | _, _ => False
  end.
End Equal.
