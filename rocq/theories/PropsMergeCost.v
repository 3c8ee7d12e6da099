(** C106: how many steps a merge takes.  [merge_n] is [merge_token_sequence] with its loop
    iterations counted: those of the searches of the two diffs, those of the searches in the
    conflicts, and the others. *)
From Verif Require Import Base SpecDiff SpecMerge Changesets Merge DiffCost MergeCost MergeCostProofs.

Section Statements.
Context {T : Type} {E : Teq T} {O : TeqOk T}.
(** dropping the count gives back the merge *)
Theorem C106_counts : forall k (p b0 b1 : list T),
  (let* r := merge_n k p b0 b1 in Ok (fst r)) = merge_token_sequence k p b0 b1.
Proof. exact merge_erase. Qed.
(** The two diffs take what diffs take (C68), the conflicts at most a quadratic number of steps
    in the lengths of the branches, the rest is linear.  At least every token of a conflict is
    looked at, and every piece of the diffs and of the result. *)
Theorem C106_merge_cost : forall k (p b0 b1 : list T) r, merge_token_sequence k p b0 b1 = Ok r -> exists s, merge_n k p b0 b1 = Ok (r, s) /\
  2 * length p + length b0 + 2 <= s_diff0 s <= (Nat.min (length p) (length b0) + 1) * (6 * length p + 2 * length b0 + 2) /\
  2 * length p + length b1 + 2 <= s_diff1 s <= (Nat.min (length p) (length b1) + 1) * (6 * length p + 2 * length b1 + 2) /\
  list_sum (map (fun x => match x with DChange a b => length a + 2 * length b | _ => 0 end) r) <= s_conflicts s <=
    6 * ((length b0 + length b1) * (length b0 + length b1)) + 10 * (length b0 + length b1) + 4 * length p /\
  s_rest s <= 14 * length p + 10 * (length b0 + length b1) /\
  forall d0 d1, diff_token_sequences p b0 = Ok d0 -> diff_token_sequences p b1 = Ok d1 ->
    length d0 + length d1 + Nat.max (length d0) (length d1) + 2 * (length r - 1) <= s_rest s.
Proof. exact merge_cost. Qed.
(** All in all a merge is quadratic. *)
Theorem C106_total : forall k (p b0 b1 : list T) r, merge_token_sequence k p b0 b1 = Ok r -> exists s, merge_n k p b0 b1 = Ok (r, s) /\
  s_diff0 s + s_diff1 s + s_conflicts s + s_rest s <= 12 * ((length p + length b0 + length b1 + 2) * (length p + length b0 + length b1 + 2)).
Proof. exact merge_total_cost. Qed.
(** Edits that do not collide cost nothing beyond the diffs and the linear part. *)
Theorem C106_no_collision : forall k (p b0 b1 : list T) d0 d1,
  diff_token_sequences p b0 = Ok d0 -> diff_token_sequences p b1 = Ok d1 -> compatible (edits 0 d0) (edits 0 d1) ->
  exists r s, merge_n k p b0 b1 = Ok (r, s) /\ s_conflicts s <= 2.
Proof. exact merge_cost_quiet. Qed.
End Statements.
(** No bound less than quadratic would do, neither for the diffs nor for the conflicts: *)
Theorem C106_slow_diff : forall n, exists p b0 : list nat, length p = 2 * n /\ length b0 = 2 * n /\
  forall k, exists s, merge_n k p b0 p = Ok ([DText b0], s) /\ 3 * n * n <= s_diff0 s.
Proof. exact merge_slow_diff. Qed.
Theorem C106_slow_conflict : forall n, exists b0 b1 : list nat, length b0 = 2 * n /\ length b1 = 2 * n /\
  forall k, k <> KBytes -> exists r s, merge_n k [] b0 b1 = Ok (r, s) /\ s_diff0 s + s_diff1 s <= 8 * n + 4 /\ 3 * n * n <= s_conflicts s.
Proof. exact merge_slow_conflict. Qed.

(** within a conflict nothing is compared *)
Example C106_example_within :
  merge_loop_n 9 [FChange [1; 2] [3; 4] 2; FCopy [5] 1] [FChange [1; 2; 6] [3; 4; 5] 3] true =
    Some ([OConf (Some [1; 2]) (Some [1; 2; 6]); OConf (Some [5]) (Some [])], 2) /\
  merge_loop_n 9 [FChange [1; 2] [3; 4] 2; FCopy [5] 1] [FChange [1; 2; 6] [3; 4; 5] 3] false =
    Some ([OConf (Some [1; 2]) (Some [1; 2; 6]); OConf (Some [5]) (Some [])], 6).
Proof. split; reflexivity. Qed.

Print Assumptions C106_counts.
Print Assumptions C106_merge_cost.
Print Assumptions C106_total.
Print Assumptions C106_no_collision.
Print Assumptions C106_slow_diff.
Print Assumptions C106_slow_conflict.

(** Concrete cases: a merge with a conflict, one without. *)
Example C106_example : merge_n KTuple [1; 2; 3; 4] [1; 9; 3; 4] [1; 8; 3; 4; 5] =
  Ok ([DText [1]; DChange [9] [8]; DText [3; 4; 5]], mkSteps 47 50 9 26).
Proof. vm_compute. reflexivity. Qed.
Example C106_example_compatible : merge_n KTuple [1; 2; 3; 4] [1; 9; 3; 4] [1; 2; 3; 4; 5] =
  Ok ([DText [1; 9; 3; 4; 5]], mkSteps 47 29 2 19).
Proof. vm_compute. reflexivity. Qed.
