(** Theorems C101 and C102: the steps of find_substring and of find_lcs_multiple. *)
From Verif Require Import Base SpecSeq Automaton AutomatonCost Multi SearchCost SearchCostProofs MultiCostProofs.

Section Statements.
Context {T : Type} {E : Teq T} {O : TeqOk T}.

(** C101: the automaton of s is built in linear time; then a word that does not occur takes no
    more steps than it has tokens, and one that does takes one for each token and one or two for
    each place it is found at, however long s is. *)
Theorem C101_find_substring_cost : forall s w : list T, exists h k0 ps k,
  build_n s = Some (h, k0) /\ find_substring_all_n h w = Some (ps, k) /\ find_substring s w = Some ps /\
  length s + 1 <= k0 <= 3 * length s + 1 /\
  (ps = [] -> k <= length w) /\
  (ps <> [] -> length w + length ps <= k <= length w + 2 * length ps - 1).
Proof. exact find_substring_cost. Qed.

(** C102: the construction, the while loop and the collection of positions take steps linear in
    the total length of the strings (one more for each string).  Missing from the full statement:
    get_string_offsets is bounded only by the number of strings times the total length. *)
Theorem C102_multiple_cost_partial : forall ss : list (list T), ss <> [] -> exists ps l k0 k1 k2 k3,
  find_lcs_multiple_n Sep is_Sep (map (map (@Tok T)) ss) = Some (ps, Some l, (k0, k1, k2, k3)) /\
  find_lcs_multi ss = Some (ps, Some l) /\
  let N := list_sum (map (fun s => length s + 1) ss) in
  N + 1 <= k0 <= 3 * N + 1 /\ N + 1 <= k1 <= 7 * N + 4 /\
  1 <= k2 <= 2 * N + 1 /\ length ss <= k3 <= length ss * (N + 1).
Proof. exact multi_cost. Qed.
(** In fact the steps of get_string_offsets are quadratic for n copies of a string of one token, *)
Theorem C102_offsets_quadratic : forall (x : T) n, 1 <= n -> exists ps l k0 k1 k2 k3,
  find_lcs_multiple_n Sep is_Sep (map (map Tok) (repeat [x] n)) = Some (ps, Some l, (k0, k1, k2, k3)) /\
  list_sum (map (fun s => length s + 1) (repeat [x] n)) = 2 * n /\ n * (n + 1) <= 2 * k3.
Proof. exact multi_quadratic. Qed.
(** so no constant bounds all the steps linearly. *)
Theorem C102_linear_refuted : forall (x : T) c, exists ss ps l k0 k1 k2 k3, ss <> [] /\
  find_lcs_multiple_n Sep is_Sep (map (map (@Tok T)) ss) = Some (ps, Some l, (k0, k1, k2, k3)) /\
  c * list_sum (map (fun s => length s + 1) ss) < k3.
Proof. exact multi_nonlinear. Qed.
End Statements.

Print Assumptions C101_find_substring_cost.
Print Assumptions C102_multiple_cost_partial.
Print Assumptions C102_offsets_quadratic.
Print Assumptions C102_linear_refuted.

(** Concrete cases *)
Example C101_example :
  option_map snd (build_n [1;2;1;2;1]) = Some 10 /\
  match build_n [1;2;1;2;1] with
  | Some (h, _) => find_substring_all_n h [2;1] = Some ([1;3], 4) /\ find_substring_all_n h [1] = Some ([0;2;4], 4) /\
      find_substring_all_n h [2;2;1] = Some ([], 2)
  | None => False
  end.
Proof. vm_compute; auto. Qed.
Example C102_example :
  find_lcs_multiple_n Sep is_Sep (map (map (@Tok nat)) [[1;2;3];[4;2;3];[2;3;5]]) = Some ([1;1;0], Some 2, (26, 22, 4, 6)) /\
  find_lcs_multiple_n Sep is_Sep (map (map (@Tok nat)) (repeat [7] 10)) = Some (repeat 0 10, Some 1, (41, 31, 10, 55)).
Proof. vm_compute; auto. Qed.
