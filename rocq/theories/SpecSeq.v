(** Specification vocabulary for sequences.  Nothing here mentions the model. *)
From Verif Require Import Base.

Section SpecSeq.
Context {T : Type}.

(** Python's l[p:p+n] for non-negative p, n. *)
Definition slice (l : list T) (p n : nat) : list T := firstn n (skipn p l).

(** w occurs in s at position p *)
Definition occurs_at (s w : list T) (p : nat) : Prop :=
  p + length w <= length s /\ slice s p (length w) = w.

(** a and b share the run of length l at pa, pb *)
Definition common_run (a b : list T) (pa pb l : nat) : Prop :=
  pa + l <= length a /\ pb + l <= length b /\ slice a pa l = slice b pb l.

(** the definition of a longest common substring answer *)
Definition is_lcs (a b : list T) (pa pb l : nat) : Prop :=
  common_run a b pa pb l /\
  forall qa qb k, common_run a b qa qb k -> k <= l.

(** ... and of the particular one that is reported *)
Definition is_first_lcs (a b : list T) (pa pb l : nat) : Prop :=
  is_lcs a b pa pb l /\
  (l = 0 -> pa = 0 /\ pb = 0) /\
  (forall qa qb, common_run a b qa qb l -> pb <= qb) /\
  (forall qa, common_run a b qa pb l -> pa <= qa).

Definition strictly_increasing (l : list nat) : Prop :=
  forall i j x y, i < j -> nth_error l i = Some x -> nth_error l j = Some y -> x < y.

(** the suffixes of s, longest first *)
Fixpoint suffixes (s : list T) : list (list T) :=
  s :: match s with [] => [] | _ :: s' => suffixes s' end.

(** is_first_lcs determines its answer *)
Lemma is_first_lcs_unique a b pa pb l pa' pb' l' :
  is_first_lcs a b pa pb l -> is_first_lcs a b pa' pb' l' ->
  pa = pa' /\ pb = pb' /\ l = l'.
Proof.
  intros [[H1 H2] [_ [H4 H5]]] [[K1 K2] [_ [K4 K5]]].
  assert (l = l') by (apply Nat.le_antisymm; eauto); subst l'.
  assert (pb = pb') by (apply Nat.le_antisymm; eauto); subst pb'.
  assert (pa = pa') by (apply Nat.le_antisymm; eauto); subst pa'.
  auto.
Qed.
End SpecSeq.
