(** Theorem C126: tokens that are equal without being the same.  The theorems assume of
    [==] only that it is an equivalence. *)
From Coq Require Import ZArith Lia.
From Verif Require Import Base SpecSeq SpecDiff Automaton Multi Changesets Merge SpecEqual EqualProofs.

Section Theorems.
Context {T : Type} {E : Teq T}.

(** C126 for the searches: the answers of C01-C03 and C07, read with [==] *)
Theorem C126_find_lcs : equality -> forall a b : list T, exists pa pb l, find_lcs a b = Some (pa, pb, l) /\
  pa + l <= length a /\ pb + l <= length b /\ alike (slice a pa l) (slice b pb l) /\
  (forall qa qb k, qa + k <= length a -> qb + k <= length b -> alike (slice a qa k) (slice b qb k) -> k <= l) /\
  (l = 0 -> pa = 0 /\ pb = 0) /\
  (forall qa qb, qa + l <= length a -> qb + l <= length b -> alike (slice a qa l) (slice b qb l) -> pb <= qb) /\
  (forall qa, qa + l <= length a -> alike (slice a qa l) (slice b pb l) -> pa <= qa).
Proof. exact find_lcs_alike. Qed.
Theorem C126_find_substring : equality -> forall s w : list T, exists ps, find_substring s w = Some ps /\
  strictly_increasing ps /\ (forall p, In p ps <-> occurs_like s w p).
Proof. exact find_substring_alike. Qed.
Theorem C126_find_lcs_multiple : equality -> forall ss : list (list T), ss <> [] -> exists ps l w,
  find_lcs_multi ss = Some (ps, Some l) /\ length ps = length ss /\ length w = l /\
  (forall k s p, nth_error ss k = Some s -> nth_error ps k = Some p ->
     occurs_like s w p /\ forall q, occurs_like s w q -> p <= q) /\
  (forall w', (forall s, In s ss -> exists p, occurs_like s w' p) -> length w' <= l).
Proof. exact find_lcs_multi_alike. Qed.
(** for patches: they give something equal to the other sequence *)
Theorem C126_patches : equality -> forall o m : list T, exists c, find_changeset o m = Ok c /\
  alike (apply_forward (as_change_stream c) o) m /\ alike (apply_reverse (as_change_stream c) m) o /\
  alike (old_apply_forward c o) m /\ alike (old_apply_reverse c m) o.
Proof. exact patch_alike. Qed.
(** for diffs: a diff contains the original itself and something equal to the modified
    sequence; no token on one side of a change equals one on the other side *)
Theorem C126_diff : equality -> forall o m : list T, exists d, diff_token_sequences o m = Ok d /\
  diff_before d = o /\ alike (diff_after d) m /\ alternating d /\
  (forall t, In (DText t) d -> t <> []) /\
  (forall a b, In (DChange a b) d -> ~ (a = [] /\ b = []) /\ forall x y, In x a -> In y b -> teq x y = false).
Proof. exact diff_alike. Qed.
(** and for merges: equal arguments give equal results; a branch equal to the parent or to
    the other branch *)
Theorem C126_diff_equal : equality -> forall o m o' m' : list T, alike o o' -> alike m m' ->
  results_alike (diff_token_sequences o m) (diff_token_sequences o' m').
Proof. exact diff_congruence. Qed.
Theorem C126_merge_equal : equality -> forall k (p b0 b1 p' b0' b1' : list T),
  alike p p' -> alike b0 b0' -> alike b1 b1' ->
  results_alike (merge_token_sequence k p b0 b1) (merge_token_sequence k p' b0' b1').
Proof. exact merge_congruence. Qed.
Theorem C126_merge_unchanged : equality -> forall k (p p' b : list T), alike p p' ->
  (exists t, merge_token_sequence k p p' b = Ok [DText t] /\ alike t b) /\
  (exists t, merge_token_sequence k p b p' = Ok [DText t] /\ alike t b).
Proof. exact (fun Q k p p' b H => conj (merge_unchanged0 Q k p p' b H) (merge_unchanged1 Q k p p' b H)). Qed.
Theorem C126_merge_same : equality -> forall k (p b b' : list T), alike b b' ->
  exists t, merge_token_sequence k p b b' = Ok [DText t] /\ alike t b.
Proof. exact merge_equal. Qed.
Theorem C126_common_prefix : forall a b : list T, let n := common_prefix_length a b in
  n <= length a /\ n <= length b /\ alike (firstn n a) (firstn n b) /\
  forall m, m <= length a -> m <= length b -> alike (firstn m a) (firstn m b) -> m <= n.
Proof. exact prefix_alike. Qed.
End Theorems.
Print Assumptions C126_find_lcs.
Print Assumptions C126_find_substring.
Print Assumptions C126_find_lcs_multiple.
Print Assumptions C126_patches.
Print Assumptions C126_diff.
Print Assumptions C126_diff_equal.
Print Assumptions C126_merge_equal.
Print Assumptions C126_merge_unchanged.
Print Assumptions C126_merge_same.
Print Assumptions C126_common_prefix.

(** int, bool and float (those with integral values) are compared by value *)
Inductive number := Int (z : Z) | Bool (b : bool) | Float (z : Z).
Definition value (n : number) : Z := match n with Int z | Float z => z | Bool b => if b then 1%Z else 0%Z end.
#[local] Instance Teq_number : Teq number := fun x y => Z.eqb (value x) (value y).
Example C126_example_equality : @equality number Teq_number.
Proof.
  unfold equality, teq, Teq_number. split; [intros; apply Z.eqb_refl|]. split.
  - intros x y H. rewrite Z.eqb_eq in *. congruence.
  - intros x y z H1 H2. rewrite Z.eqb_eq in *. congruence.
Qed.
(** what is in both sequences is taken from the original: the patch does not give True,
    2.0, 3 but 1, 2, 3, which is equal to it *)
Example C126_example : let o := [Int 1; Int 2] in let m := [Bool true; Float 2; Int 3] in
  diff_token_sequences o m = Ok [DText [Int 1; Int 2]; DChange [Int 3] []] /\
  match find_changeset o m with
  | Ok c => apply_forward (as_change_stream c) o = [Int 1; Int 2; Int 3]
  | Err _ => False
  end.
Proof. vm_compute. auto. Qed.
Example C126_example_merge :
  merge_token_sequence KTuple [Int 1; Int 2] [Bool true; Int 2] [Float 1; Float 2; Int 7] = Ok [DText [Int 1; Int 2; Int 7]].
Proof. vm_compute. reflexivity. Qed.
Example C126_example_search : find_substring [Int 5; Bool true; Int 2; Int 1] [Float 1] = Some [1; 3].
Proof. vm_compute. reflexivity. Qed.
