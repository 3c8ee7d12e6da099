(** Theorems C67 and C68: what exactly a diff is, and how many steps it takes. *)
From Verif Require Import Base SpecDiff SpecGreedy Automaton AutomatonCost Changesets DiffGreedy DiffCost DiffCostProofs DiffQuadratic.

Section Statements.
Context {T : Type} {E : Teq T} {O : TeqOk T}.

(** C67: a diff is the recursive longest-common-substring diff, and nothing else. *)
Theorem C67_diff_is_greedy : forall (o m : list T) d,
  diff_token_sequences o m = Ok d <-> lcs_diff o m d.
Proof. exact diff_greedy. Qed.
(** So it has an unchanged run as long as any run common to both sequences. *)
Theorem C67_longest_kept : forall o m v : list T, common_to o m v -> v <> [] ->
  exists d t, diff_token_sequences o m = Ok d /\ In (DText t) d /\ length v <= length t.
Proof. exact diff_keeps_longest. Qed.

(** C68: a search for the longest common substring takes linearly many loop
    iterations, building included; [find_lcs_n] is [find_lcs] with its iterations
    counted (last clause). *)
Theorem C68_find_lcs_linear : forall a b : list T, exists pa pb l k,
  find_lcs_n a b = Some (pa, pb, l, k) /\ find_lcs a b = Some (pa, pb, l) /\
  2 * length a + length b + 2 <= k <= 6 * length a + 2 * length b + 2.
Proof. exact find_lcs_cost. Qed.
(** A diff takes at most as many such searches as the shorter sequence allows. *)
Theorem C68_diff_cost : forall o m : list T, exists d k,
  diff_n o m = Ok (d, k) /\ diff_token_sequences o m = Ok d /\
  2 * length o + length m + 2 <= k <= (Nat.min (length o) (length m) + 1) * (6 * length o + 2 * length m + 2).
Proof. exact diff_cost. Qed.
Theorem C68_counts : forall o m : list T,
  option_map fst (find_lcs_n o m) = find_lcs o m /\
  (let* r := diff_n o m in Ok (fst r)) = diff_token_sequences o m.
Proof. exact (fun o m => conj (find_lcs_erase o m) (diff_erase o m)). Qed.
End Statements.
(** No bound less than quadratic would do. *)
Theorem C68_diff_quadratic : forall n, exists (o m : list nat) d k, length o = 2 * n /\ length m = 2 * n /\
  diff_n o m = Ok (d, k) /\ diff_token_sequences o m = Ok d /\ 3 * n * n <= k.
Proof. exact diff_slow. Qed.

Print Assumptions C67_diff_is_greedy.
Print Assumptions C67_longest_kept.
Print Assumptions C68_find_lcs_linear.
Print Assumptions C68_diff_cost.
Print Assumptions C68_counts.
Print Assumptions C68_diff_quadratic.

(** Concrete cases: of the two common runs of length 2 the one that comes first in
    the modified sequence is kept, though the other comes first in the original. *)
Example C67_example : diff_token_sequences [1;2;8;3;4] [3;4;9;1;2] = Ok [DChange [] [1;2;8]; DText [3;4]; DChange [9;1;2] []].
Proof. vm_compute; reflexivity. Qed.
Example C67_example_longest : common_to [1;2;3;9;4;5] [4;5;8;1;2;3] [1;2;3].
Proof. split; [exists [], [9;4;5]|exists [4;5;8], []]; reflexivity. Qed.
Example C68_example : option_map snd (find_lcs_n [1;1;2;2;1;2;3] [1;2;1;2;2;3]) = Some 43 /\
  (let* r := diff_n [1;2;3;4;5] [1;9;3;4;8] in Ok (snd r)) = Ok 58.
Proof. split; vm_compute; reflexivity. Qed.
