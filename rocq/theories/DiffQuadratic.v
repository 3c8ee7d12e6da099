(** Texts whose diff takes quadratically many steps. *)
From Coq Require Import Lia.
From Verif Require Import Base SpecSeq Automaton AutomatonCost AutomatonLcs Changesets DiffCost DiffCostProofs DiffLaws.

Lemma comb_length r : forall k i, length (comb r i k) = 2 * k.
Proof. induction k as [|k IH]; intros i; cbn [comb length]; [reflexivity|]. rewrite IH. lia. Qed.
Lemma comb_slow n : forall d i c k, i <= n ->
  find_changeset_n d (comb 1 0 n) (comb 2 0 n) (2 * i, None) (2 * i, None) = Ok (c, k) -> 3 * (n - i) * (n - i) <= k.
Proof.
  induction d as [|d IH]; intros i c k H1 H; [discriminate|].
  cbn [find_changeset_n] in H. unfold sl, pyslice in H; cbn [fst snd] in H.
  rewrite !comb_skip in H by lia; cbn [Nat.add] in H.
  destruct (n - i) as [|j] eqn:Hk; [lia|].
  destruct (find_lcs_cost (comb 1 i (S j)) (comb 2 i (S j))) as [pa [pb [l [k0 [F1 [F2 L]]]]]]. rewrite F1 in H.
  destruct (find_lcs_ok (comb 1 i (S j)) (comb 2 i (S j))) as [pa' [pb' [l' [F3 HL]]]]. rewrite F2 in F3. injection F3 as <- <- <-.
  destruct (is_first_lcs_unique _ _ _ _ _ _ _ _ HL (comb_lcs i j)) as [-> [-> ->]].
  cbn [Nat.eqb] in H. rewrite !comb_length in L.
  destruct (find_changeset_n d _ _ (2 * i, Some (2 * i + 1)) (2 * i, Some (2 * i + 1))) as [p|e]; [|discriminate]. cbn [bind] in H.
  replace (2 * i + 1 + 1) with (2 * S i) in H by lia.
  destruct (find_changeset_n d (comb 1 0 n) (comb 2 0 n) (2 * S i, None) (2 * S i, None)) as [[q kq]|e] eqn:Q; [|discriminate]. cbn [bind fst snd] in H.
  injection H as _ <-. apply IH in Q; [|lia]. replace (n - S i) with j in Q by lia. nia.
Qed.
Theorem diff_slow : forall n, exists (o m : list nat) d k, length o = 2 * n /\ length m = 2 * n /\
  diff_n o m = Ok (d, k) /\ diff_token_sequences o m = Ok d /\ 3 * n * n <= k.
Proof.
  intros n. exists (comb 1 0 n), (comb 2 0 n). destruct (diff_cost (comb 1 0 n) (comb 2 0 n)) as [d [k [D [D' _]]]]. exists d, k.
  rewrite !comb_length. do 2 (split; [reflexivity|]). split; [exact D|split; [exact D'|]].
  unfold diff_n in D. destruct (find_changeset_n _ _ _ (0, None) (0, None)) as [[c k']|e] eqn:Q; [|discriminate]. cbn in D. injection D as _ <-.
  apply (comb_slow n _ 0) in Q; [|lia]. now rewrite Nat.sub_0_r in Q.
Qed.
