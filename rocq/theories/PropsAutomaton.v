(** Theorems C01-C06 (suffix automaton and its queries). *)
From Coq Require Import Permutation.
From Verif Require Import Base SpecSeq Automaton AutomatonProofs AutomatonLcs AutomatonCost AutomatonCostProofs.

Section Statements.
Context {T : Type} {E : Teq T} {O : TeqOk T}.

(** C01: find_lcs always answers, its answer is a common run inside both
    sequences, and no common run is longer. *)
Theorem C01_find_lcs_is_longest : forall a b : list T, exists pa pb l,
  find_lcs a b = Some (pa, pb, l) /\
  pa + l <= length a /\ pb + l <= length b /\
  slice a pa l = slice b pb l /\
  (forall qa qb k, qa + k <= length a -> qb + k <= length b ->
     slice a qa k = slice b qb k -> k <= l).
Proof. exact find_lcs_longest. Qed.

(** C02: the particular answer: earliest in b, then first in a; (0,0,0) when
    there is nothing in common.  These conditions determine the answer. *)
Theorem C02_find_lcs_first : forall a b : list T, exists pa pb l,
  find_lcs a b = Some (pa, pb, l) /\
  (l = 0 -> pa = 0 /\ pb = 0) /\
  (forall qa qb, qa + l <= length a -> qb + l <= length b ->
     slice a qa l = slice b qb l -> pb <= qb) /\
  (forall qa, qa + l <= length a -> slice a qa l = slice b pb l -> pa <= qa).
Proof. exact find_lcs_first. Qed.
Theorem C02_answer_determined : forall (a b : list T) pa pb l,
  is_first_lcs a b pa pb l <-> find_lcs a b = Some (pa, pb, l).
Proof. exact find_lcs_iff. Qed.

(** C03: all occurrences, each once, in increasing order. *)
Theorem C03_find_substring_all : forall s w : list T, exists ps,
  find_substring s w = Some ps /\
  (forall i j x y, i < j -> nth_error ps i = Some x -> nth_error ps j = Some y -> x < y) /\
  (forall p, In p ps <-> p + length w <= length s /\ firstn (length w) (skipn p s) = w).
Proof. exact find_substring_ok. Qed.

(** C04: the first occurrence, or None when there is none. *)
Theorem C04_find_substring_first : forall s w : list T, exists h, build s = Some h /\
  ((exists p, sa_find_substring h w = Some (Some p) /\ occurs_at s w p /\
              forall q, occurs_at s w q -> p <= q) \/
   (sa_find_substring h w = Some None /\ forall q, ~ occurs_at s w q)).
Proof. exact find_first_ok. Qed.

(** C05: every suffix exactly once. *)
Theorem C05_all_suffixes : forall s : list T, exists h l,
  build s = Some h /\ all_suffixes h = Some l /\ Permutation l (suffixes s).
Proof. exact all_suffixes_ok. Qed.

(** C06: construction always succeeds; the automaton has at most 2n+1 nodes
    (2n-1 from two tokens on) and at most 3n transitions, and construction visits
    at least n+1 and at most 3n+1 nodes by following links.  [build_n] is [build] with its
    while-loop iterations counted (last clause). *)
Theorem C06_linear : forall s : list T, exists h k,
  build_n s = Some (h, k) /\ build s = Some h /\
  length h <= 2 * length s + 1 /\ (2 <= length s -> length h <= 2 * length s - 1) /\
  trans_count h <= 3 * length s /\ length s + 1 <= k <= 3 * length s + 1.
Proof. exact build_linear. Qed.
Theorem C06_count_is_of_build : forall s : list T,
  option_map fst (build_n s) = build s.
Proof. exact build_erase. Qed.
End Statements.

Print Assumptions C01_find_lcs_is_longest.
Print Assumptions C02_find_lcs_first.
Print Assumptions C02_answer_determined.
Print Assumptions C03_find_substring_all.
Print Assumptions C04_find_substring_first.
Print Assumptions C05_all_suffixes.
Print Assumptions C06_linear.
Print Assumptions C06_count_is_of_build.

(** Concrete cases: "abcbcd" and "xbcbz" share "bcb" at 1 and 1; "abcbcd" and
    "bcdz bcb" (two runs of length 3) reports the one that ends first. *)
Example C01_example : find_lcs [1;2;3;2;3;4] [9;2;3;2;8] = Some (1, 1, 3).
Proof. vm_compute; reflexivity. Qed.
Example C02_example : find_lcs [1;2;3;2;3;4] [2;3;4;9;2;3;2] = Some (3, 0, 3).
Proof. vm_compute; reflexivity. Qed.
Example C02_example_none : find_lcs [1;2] [3;4] = Some (0, 0, 0).
Proof. vm_compute; reflexivity. Qed.
Example C03_example : find_substring [1;2;1;2;1] [1;2;1] = Some [0; 2].
Proof. vm_compute; reflexivity. Qed.
Example C03_example_empty : find_substring [1;2] [] = Some [0; 1; 2].
Proof. vm_compute; reflexivity. Qed.
Example C04_example : match build [1;2;1;2;1] with
  | Some h => (sa_find_substring h [2;1], sa_find_substring h [2;2]) | None => (None, None) end
  = (Some (Some 1), Some None).
Proof. vm_compute; reflexivity. Qed.
Example C05_example : match build [1;1;2] with Some h => all_suffixes h | None => None end
  = Some [[]; [1;1;2]; [1;2]; [2]].
Proof. vm_compute; reflexivity. Qed.
(** "abbb" reaches the node bound; "aabbabd" needs clones and redirections. *)
Example C06_example_nodes : option_map (fun r => length (fst r)) (build_n [1;2;2;2]) = Some 7.
Proof. vm_compute; reflexivity. Qed.
Example C06_example : option_map (fun r => (length (fst r), trans_count (fst r), snd r)) (build_n [1;1;2;2;1;2;3])
  = Some (10, 15, 17).
Proof. vm_compute; reflexivity. Qed.
