(** The numbers of C120. *)
From Coq Require Import Lia.
From Verif Require Import Base SpecWays.
Local Open Scope nat_scope.

Lemma block_lt b k : b < k -> b * b + b + k <= k * k.
Proof. nia. Qed.
Lemma block_exists i : exists k, k * k <= i + k /\ i < k * k + k.
Proof.
  induction i as [|i [k [A B]]]; [exists 1; lia|]. destruct (Nat.eq_dec (S i) (k * k + k)) as [Q|Q].
  - exists (S k). nia.
  - exists k. lia.
Qed.
Ltac blocks b k := let L := fresh in destruct (Nat.lt_trichotomy b k) as [L|[L|L]]; [pose proof (block_lt _ _ L)|subst b|pose proof (block_lt _ _ L)].

Lemma hangs_up m i j : hangs m i j -> i < j /\ j < m.
Proof. intros (L & k & A & B & H). assert (0 < k) by (destruct k; lia). lia. Qed.
Lemma hangs_fun m i j j' : hangs m i j -> hangs m i j' -> j = j'.
Proof. intros (L & k & A & B & H) (_ & b & A' & B' & H'). blocks b k; lia. Qed.
Lemma hangs_exists m i : i + 1 < m -> exists j, hangs m i j.
Proof.
  intros L. destruct (block_exists i) as [k [A B]].
  assert (exists j, (i < k * k /\ (m <= i + k /\ j = i + 1 \/ i + k < m /\ m <= i + 2 * k /\ j = i + k \/ i + 2 * k < m /\ j = i + 2 * k) \/
     k * k <= i /\ (i + 1 = k * k + k /\ i + k + 1 < m /\ j = i + k + 1 \/
                    (i + 1 < k * k + k \/ m <= i + k + 1) /\ j = i + 1))) as [j H].
  { destruct (le_lt_dec (k * k) i).
    - destruct (Nat.eq_dec (i + 1) (k * k + k)), (le_lt_dec m (i + k + 1)); eexists; right; (split; [assumption|]); try (right; split; [lia|reflexivity]).
      left; split; [assumption|]; split; [lia|reflexivity].
    - destruct (le_lt_dec m (i + k)); [eexists; left; split; [assumption|]; left; split; [lia|reflexivity]|].
      destruct (le_lt_dec m (i + 2 * k)); eexists; left; (split; [assumption|]); right; [left; split; [lia|split; [lia|reflexivity]]|right; split; [lia|reflexivity]]. }
  exists j. split; [lia|]. exists k. auto.
Qed.
Lemma way_exists m i : i < m -> exists p, way m i p.
Proof.
  remember (m - i) as d eqn:D. revert i D. induction d as [d IH] using lt_wf_ind. intros i D L.
  destruct (Nat.eq_dec (i + 1) m) as [Q|Q]; [exists [i]; now constructor|].
  destruct (hangs_exists m i ltac:(lia)) as [j H]. pose proof (hangs_up _ _ _ H) as U.
  destruct (IH (m - j) ltac:(lia) j eq_refl ltac:(lia)) as [p W]. exists (p ++ [i]). econstructor; eauto.
Qed.
Lemma way_fun m i p : way m i p -> forall p', way m i p' -> p = p'.
Proof.
  induction 1 as [i Q|i j p H W IH]; intros p' W'; inversion W' as [i' Q'|i' j' p2 H' W2]; subst; auto.
  - destruct H' as [L _]; lia.
  - destruct H as [L _]; lia.
  - f_equal. apply IH. now rewrite (hangs_fun _ _ _ _ H H').
Qed.

Lemma hangs_next m y i j : 0 < m -> moves m y ->
  (hangs (S m) i j <-> (j = m /\ (i + 1 = m \/ i = y)) \/ (i + 1 <> m /\ i <> y /\ hangs m i j)).
Proof.
  intros M (k & Y). split.
  - intros (L & b & A & B & H). assert (0 < b) by (destruct b; lia).
    destruct (Nat.eq_dec (i + 1) m) as [Q|Q]; [left|destruct (Nat.eq_dec i y) as [Q'|Q']; [left|right]].
    + split; [|auto]. lia.
    + split; [|auto]. subst i. blocks b k; lia.
    + split; [exact Q|]. split; [exact Q'|]. split; [lia|]. exists b. split; [exact A|]. split; [exact B|]. blocks b k; lia.
  - intros [[-> [Q|Q]]|[Q [Q' (L & b & A & B & H)]]].
    + split; [lia|]. destruct (block_exists i) as (b & A & B). exists b. assert (0 < b) by (destruct b; lia). split; [exact A|]. split; [exact B|]. lia.
    + subst i. destruct (block_exists y) as (b & A & B). assert (0 < b) by (destruct b; lia). assert (0 < k) by (destruct k; lia). assert (y + 1 < S m) by lia. split; [lia|]. exists b. split; [exact A|]. split; [exact B|]. blocks b k; lia.
    + assert (0 < b) by (destruct b; lia). split; [lia|]. exists b. split; [exact A|]. split; [exact B|]. blocks b k; lia.
Qed.
