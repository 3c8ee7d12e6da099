(** Theorems C99 and C100: the two methods of difflib_benchmark.py. *)
From Verif Require Import Base SpecSeq Automaton DiffCost DiffCostProofs Difflib DifflibAgree.

Section Statements.
Context {T : Type} {E : Teq T} {O : TeqOk T}.

(** C99: difflib's answer determined, without the model. *)
Theorem C99_difflib_answer : forall (a b : list T) i j k,
  fst (difflib_lcs a b) = (i, j, k) <-> is_first_lcs b a j i k.
Proof. exact difflib_iff. Qed.
(** The two methods give the same answer when one of them gets the arguments exchanged, *)
Theorem C99_exchanged : forall (a b : list T) i j k,
  find_lcs a b = Some (i, j, k) <-> fst (difflib_lcs b a) = (j, i, k).
Proof. exact difflib_exchanged. Qed.
(** the same length in any case (this is the column "Match Length", taken from difflib only), *)
Theorem C99_same_length : forall (a b : list T) i j k,
  find_lcs a b = Some (i, j, k) -> snd (fst (difflib_lcs a b)) = k.
Proof. exact difflib_length. Qed.
(** and the same positions exactly if find_lcs's is also the first one in a. *)
Theorem C99_same_positions : forall (a b : list T) i j k, find_lcs a b = Some (i, j, k) ->
  (fst (difflib_lcs a b) = (i, j, k) <-> forall qa qb, common_run a b qa qb k -> i <= qa).
Proof. exact difflib_same. Qed.

(** C100: difflib runs its innermost loop once for each pair of equal tokens, *)
Theorem C100_difflib_pairs : forall a b : list T,
  snd (difflib_lcs a b) = length (filter (fun p => teq (fst p) (snd p)) (list_prod a b)).
Proof. exact difflib_count. Qed.
(** so that its work is quadratic for a fixed alphabet [al], *)
Theorem C100_difflib_quadratic : forall al a : list T, NoDup al -> incl a al ->
  length a * length a <= length al * snd (difflib_lcs a a).
Proof. exact difflib_self. Qed.
Theorem C100_difflib_constant : forall (x : T) n m,
  snd (difflib_lcs (repeat x n) (repeat x m)) = n * m.
Proof. exact difflib_constant. Qed.
(** while that of find_lcs is linear, whatever the tokens. *)
Theorem C100_gaspra_linear : forall a b : list T, exists pa pb l k,
  find_lcs_n a b = Some (pa, pb, l, k) /\ find_lcs a b = Some (pa, pb, l) /\
  2 * length a + length b + 2 <= k <= 6 * length a + 2 * length b + 2.
Proof. exact find_lcs_cost. Qed.
End Statements.

(** C99, with the arguments in the same order, as in string_matching_lcs and difflib_lcs:
    the reported positions may differ. *)
Theorem C99_positions_refuted : exists (a b : list nat) i j k,
  find_lcs a b = Some (i, j, k) /\ fst (difflib_lcs a b) <> (i, j, k).
Proof. exists [1;2;8;3;4], [3;4;9;1;2], 3, 0, 2. split; [vm_compute; reflexivity|vm_compute; discriminate]. Qed.

Print Assumptions C99_difflib_answer.
Print Assumptions C99_exchanged.
Print Assumptions C99_same_length.
Print Assumptions C99_same_positions.
Print Assumptions C99_positions_refuted.
Print Assumptions C100_difflib_pairs.
Print Assumptions C100_difflib_quadratic.
Print Assumptions C100_difflib_constant.
Print Assumptions C100_gaspra_linear.

(** Concrete cases *)
Example C99_example :
  find_lcs [1;2;8;3;4] [3;4;9;1;2] = Some (3, 0, 2) /\
  difflib_lcs [1;2;8;3;4] [3;4;9;1;2] = ((0, 3, 2), 4) /\
  difflib_lcs [3;4;9;1;2] [1;2;8;3;4] = ((0, 3, 2), 4) /\
  find_lcs [5;1;2;3] [1;2;3;6] = Some (1, 0, 3) /\ fst (difflib_lcs [5;1;2;3] [1;2;3;6]) = (1, 0, 3).
Proof. vm_compute; auto. Qed.
Example C100_example : snd (difflib_lcs [1;2;1;1;2;3] [1;2;1;1;2;3]) = 14 /\
  NoDup [1;2;3] /\ incl [1;2;1;1;2;3] [1;2;3].
Proof.
  split; [vm_compute; reflexivity|]. split; [repeat constructor; cbn; intuition discriminate|].
  intros x. cbn. intuition.
Qed.
