(** Model of /repo/src/gaspra/difflib_benchmark.py:13-23, difflib_lcs and
    string_matching_lcs.  The former calls SequenceMatcher.find_longest_match of the standard
    library, whose source (CPython 3.12, difflib.py) is not part of /repo. *)
From Verif Require Import Base.

Section Difflib.
Context {T : Type} {E : Teq T}.

(** __chain_b: the positions of each element of b, in increasing order.  There is no junk
    (isjunk=None, autojunk=False, difflib_benchmark.py:14-18). *)
Fixpoint chain_b (b : list T) (i : nat) (b2j : dict T (list nat)) : dict T (list nat) :=
  match b with
  | [] => b2j
  | elt :: b => chain_b b (S i) (dset b2j elt (match dget b2j elt with Some l => l ++ [i] | None => [i] end))
  end.
(** j2len.get(j-1, 0) *)
Definition previous (j2len : dict nat nat) (j : nat) : nat :=
  match j with
  | 0 => 0
  | S j' => match dget j2len j' with Some k => k | None => 0 end
  end.
Definition block : Type := nat * nat * nat.
(** the loop over the positions of a[i]; blo = 0 and bhi = len(b), so nothing is skipped.
    The number of iterations is counted. *)
Fixpoint row (i : nat) (js : list nat) (j2len newj2len : dict nat nat) (best : block) (n : nat) : dict nat nat * block * nat :=
  match js with
  | [] => (newj2len, best, n)
  | j :: js =>
    let k := previous j2len j + 1 in
    let best := if snd best <? k then (i + 1 - k, j + 1 - k, k) else best in
    row i js j2len (dset newj2len j k) best (S n)
  end.
(** the loop over a *)
Fixpoint rows (a : list T) (i : nat) (b2j : dict T (list nat)) (j2len : dict nat nat) (best : block) (n : nat) : block * nat :=
  match a with
  | [] => (best, n)
  | x :: a =>
    let js := match dget b2j x with Some js => js | None => [] end in
    let '(newj2len, best, n) := row i js j2len [] best n in
    rows a (S i) b2j newj2len best n
  end.
Definition same_at (a b : list T) (i j : nat) : bool :=
  match nth_error a i, nth_error b j with Some x, Some y => teq x y | _, _ => false end.
(** the first two loops after it; the other two are for junk *)
Fixpoint extend_left (fuel : nat) (a b : list T) (m : block) : block :=
  let '(i, j, k) := m in
  match fuel with
  | 0 => m
  | S fuel => if (0 <? i) && (0 <? j) && same_at a b (i - 1) (j - 1) then extend_left fuel a b (i - 1, j - 1, k + 1) else m
  end.
Fixpoint extend_right (fuel : nat) (a b : list T) (m : block) : block :=
  let '(i, j, k) := m in
  match fuel with
  | 0 => m
  | S fuel => if (i + k <? length a) && (j + k <? length b) && same_at a b (i + k) (j + k) then extend_right fuel a b (i, j, k + 1) else m
  end.
(** find_longest_match(), with the iterations of the innermost loop counted *)
Definition difflib_lcs (a b : list T) : block * nat :=
  let '(best, n) := rows a 0 (chain_b b 0 []) [] (0, 0, 0) 0 in
  (extend_right (length a) a b (extend_left (length a) a b best), n).
End Difflib.
