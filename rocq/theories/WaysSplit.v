(** The length of the way to the version that moves (C120), as C130 needs it. *)
From Coq Require Import Lia.
From Verif Require Import Base SpecWays WaysNumbers.
Local Open Scope nat_scope.

(** the way to the version that moves *)
Lemma way_chain m a p : a < m -> (forall i, a <= i -> i + 1 < m -> hangs m i (i + 1)) -> way m a p -> length p + a = m.
Proof.
  remember (m - a) as d eqn:D. revert a p D. induction d as [d IH] using lt_wf_ind. intros a p D L H W.
  inversion W as [i Q|i j p2 Hj W2]; subst; [cbn; lia|]. pose proof (hangs_up _ _ _ Hj) as U.
  rewrite (hangs_fun _ _ _ _ Hj (H a ltac:(lia) ltac:(lia))) in W2.
  rewrite app_length. cbn [length]. specialize (IH (m - (a + 1)) ltac:(lia) (a + 1) p2 eq_refl ltac:(lia)).
  rewrite <- IH; [lia| |exact W2]. intros i Li. apply H. lia.
Qed.
Theorem split_length m y p : 0 < m -> moves m y -> way m y p -> length p * (length p - 1) <= m /\ m < length p * (length p + 1).
Proof.
  intros M (k & Y) W. assert (K : 0 < k) by (destruct k; lia). destruct Y as [(A & B & Y)|[(A & B & Y)|(_ & A & Y)]].
  - assert (length p = k); [|subst k; nia].
    assert (length p + y = m); [|lia]. apply way_chain; [lia| |exact W].
    intros i Li Lm. split; [exact Lm|]. exists k. lia.
  - assert (length p = k + 1); [|rewrite H; nia].
    assert (Hy : hangs m y (y + k)) by (split; [lia|]; exists k; nia).
    inversion W as [i Q|i j p2 Hj W2]; subst i; [destruct Hy; lia|]. rewrite (hangs_fun _ _ _ _ Hj Hy) in W2.
    subst p. rewrite app_length. cbn [length]. assert (length p2 + (y + k) = m); [|lia]. apply way_chain; [lia| |exact W2].
    intros i Li Lm. split; [exact Lm|]. destruct (le_lt_dec (k * k + k) i); [exists (k + 1)|exists k]; nia.
  - assert (length p = k + 1); [|rewrite H; nia].
    assert (length p + y = m); [|lia]. apply way_chain; [lia| |exact W].
    intros i Li Lm. split; [exact Lm|]. destruct (le_lt_dec (k * k + k) i); [exists (k + 1)|exists k]; nia.
Qed.
