(** The way to a version, given by numbers alone (C120).  The versions of a line are
    numbered from 0 in the order in which they were added. *)
From Verif Require Import Base.

(** [t] has the number [i] on the line [ls], which is given newest first *)
Definition numbers {K : Type} (ls : list K) (i : nat) (t : K) : Prop := nth_error (rev ls) i = Some t.

(** [hangs m i j]: of [m] versions of a line, version [i], which is not the last, is kept
    as a diff from version [j].  The numbers [i] come in blocks from k(k-1) to k(k+1)-1.
    In the first half of a block [i] starts below [i + 1], moves below [i + k] and in the
    end below [i + 2k]; the last one of a block starts below [i + 1] and moves below
    [i + k + 1]; the others stay below [i + 1]. *)
Definition hangs (m i j : nat) : Prop :=
  i + 1 < m /\ exists k, k * k <= i + k /\ i < k * k + k /\
    (i < k * k /\ (m <= i + k /\ j = i + 1 \/ i + k < m /\ m <= i + 2 * k /\ j = i + k \/ i + 2 * k < m /\ j = i + 2 * k) \/
     k * k <= i /\ (i + 1 = k * k + k /\ i + k + 1 < m /\ j = i + k + 1 \/
                    (i + 1 < k * k + k \/ m <= i + k + 1) /\ j = i + 1)).

(** the numbers on the way from the last version to version [i] *)
Inductive way (m : nat) : nat -> list nat -> Prop :=
| way_last i : i + 1 = m -> way m i [i]
| way_next i j p : hangs m i j -> way m j p -> way m i (p ++ [i]).

(** [moves m y]: when version [m] is added on top of versions 0 to [m - 1], version [y] (not
    only [m - 1]) gets a new diff, from version [m] *)
Definition moves (m y : nat) : Prop := exists k,
  k * k <= m /\ m < k * k + k /\ y + k = m \/
  k * k + k <= m /\ m < k * k + 2 * k /\ y + 2 * k = m \/
  0 < k /\ m = k * k + 2 * k /\ y + k + 1 = m.
