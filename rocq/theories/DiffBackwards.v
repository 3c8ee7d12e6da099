(** Exactly when a diff can be read backwards (C84). *)
From Coq Require Import Lia.
From Verif Require Import Base Changesets SpecDiff Merge SpecMerge SpecGreedy SpecBackwards DiffGreedy EditsLaws.

Section Backwards.
Context {T : Type} {E : Teq T} {O : TeqOk T}.
Implicit Types (o m : list T).

Lemma common_swap o m v : common_to o m v -> common_to m o v. Proof. intros [A B]; split; assumption. Qed.
Lemma disjoint_swap o m : disjoint o m -> disjoint m o. Proof. intros D x X Y. exact (D x Y X). Qed.
Lemma swap_app (a b : list (ditem T)) : swap_sides (a ++ b) = swap_sides a ++ swap_sides b.
Proof. apply map_app. Qed.
Lemma before_app (a b : list (ditem T)) : diff_before (a ++ b) = diff_before a ++ diff_before b. Proof. apply flat_map_app. Qed.
Lemma after_app (a b : list (ditem T)) : diff_after (a ++ b) = diff_after a ++ diff_after b. Proof. apply flat_map_app. Qed.
Lemma lcs_texts o m d : lcs_diff o m d -> diff_before d = o /\ diff_after d = m.
Proof.
  induction 1 as [o m D|o o1 o2 m m1 m2 w d1 d2 -> -> Hw HL HF1 HF2 D1 [B1 A1] D2 [B2 A2]].
  - destruct o, m; cbn; rewrite ?app_nil_r; auto.
  - rewrite before_app, after_app. cbn. fold (diff_before d2) (diff_after d2). now rewrite B1, A1, B2, A2.
Qed.
Lemma swap_twice (d : list (ditem T)) : swap_sides (swap_sides d) = d.
Proof. unfold swap_sides. rewrite map_map. rewrite <- (map_id d) at 2. apply map_ext. intros [t|a b]; reflexivity. Qed.

Lemma agreeing_swap o m : agreeing o m -> forall d, lcs_diff o m d -> lcs_diff m o (swap_sides d).
Proof.
  induction 1 as [o m D|o o1 o2 m m1 m2 w Eo Em Hw HL HF1 HF2 A1 IH1 A2 IH2]; intros d H.
  - inversion H as [? ? Hd'|? p1 p2 ? n1 n2 w' e1 e2 Eo' Em' Hw']; subst.
    + pose proof (lcs_diff_none _ _ (disjoint_swap _ _ D)) as X. destruct o, m; exact X.
    + exfalso. destruct w' as [|x w']; [now destruct Hw'|]. apply (D x); apply in_or_app; right; now left.
  - assert (Ex : forall a b : list T, exists c, lcs_diff a b c).
    { intros a b. destruct (ChangesetsProofs.find_changeset_ok a b) as [c [Hc _]]. exists (as_diff_stream a c).
      apply diff_greedy. unfold diff_token_sequences. now rewrite Hc. }
    destruct (Ex o1 m1) as [d1 D1]. destruct (Ex o2 m2) as [d2 D2].
    assert (d = d1 ++ DText w :: d2).
    { apply (lcs_diff_fun _ _ _ H). eapply lcs_diff_some; eauto. intros p q Hp. apply (HF2 w p q); [split; eauto|reflexivity|exact Hp]. }
    subst d. rewrite swap_app. cbn. eapply lcs_diff_some; eauto.
    + intros v C. apply HL. now apply common_swap.
    + intros v p q C. apply HF2. now apply common_swap.
    + intros p q Hp. apply (HF1 w p q); [split; eauto|reflexivity|exact Hp].
Qed.
Lemma app_mid_cases {A} (a b c d : list A) x y : a ++ x :: b = c ++ y :: d ->
  (a = c /\ x = y /\ b = d) \/ (exists r, a = c ++ y :: r) \/ (exists r, c = a ++ x :: r).
Proof.
  revert c; induction a as [|z a IH]; intros [|u c] H; cbn in H; injection H as -> H.
  - auto.
  - right; right. exists c. reflexivity.
  - right; left. exists a. reflexivity.
  - destruct (IH c H) as [[-> [-> ->]]|[[r ->]|[r ->]]]; [auto|right; left; exists r; reflexivity|right; right; exists r; reflexivity].
Qed.
Lemma swap_agreeing o m d : lcs_diff o m d -> lcs_diff m o (swap_sides d) -> agreeing o m.
Proof.
  induction 1 as [o m D|o o1 o2 m m1 m2 w d1 d2 Eo Em Hw HL HF1 HF2 D1 IH1 D2 IH2]; intros H; [now constructor|].
  assert (C : common_to o m w) by (split; eauto).
  inversion H as [? ? D'|? n1 n2 ? p1 p2 w' e1 e2 Em' Eo' Hw' HL' HF1' HF2' E1 E2 X Y Hd].
  - exfalso. destruct w as [|x w]; [now destruct Hw|]. subst. apply (D' x); apply in_or_app; right; now left.
  - subst. rename Hd into Z. rewrite swap_app in Z. cbn in Z.
    destruct (lcs_texts _ _ _ D1) as [B1 A1]. destruct (lcs_texts _ _ _ E1) as [B1' A1'].
    assert (C' : common_to (o1 ++ w ++ o2) (m1 ++ w ++ m2) w') by (split; [exists p1, p2; exact Eo'|exists n1, n2; exact Em']).
    assert (Ll : length w = length w').
    { apply Nat.le_antisymm; [apply HL'; now apply common_swap|now apply HL]. }
    assert (Lm : length m1 <= length n1) by (apply (HF1 w' n1 n2); auto).
    assert (Lo : length p1 <= length o1) by (apply (HF1' w o1 o2); [now apply common_swap|exact Ll|reflexivity]).
    assert (Lw : length w' <> 0) by (destruct w'; [now destruct Hw'|discriminate]).
    symmetry in Z. destruct (app_mid_cases _ _ _ _ _ _ Z) as [[Q1 [Q2 Q3]]|[[r Q]|[r Q]]].
    + injection Q2 as <-. subst e1 e2. rewrite swap_before in B1'. rewrite swap_after in A1'.
      assert (n1 = m1) by congruence. assert (p1 = o1) by congruence. clear B1 A1 B1' A1'. subst n1 p1.
      apply app_inv_head, app_inv_head in Eo', Em'. subst n2 p2.
      eapply agreeing_some; eauto. intros v p q Cv Lv Hp. apply (HF1' v p q); [now apply common_swap|exact Lv|exact Hp].
    + exfalso. apply (f_equal diff_before) in Q. rewrite swap_before, before_app, A1, B1' in Q. apply (f_equal (@length T)) in Q.
      cbn in Q. rewrite !app_length in Q. lia.
    + exfalso. apply (f_equal diff_after) in Q. rewrite after_app, swap_after, B1, A1' in Q. apply (f_equal (@length T)) in Q.
      cbn in Q. rewrite !app_length in Q. lia.
Qed.
Theorem backwards_exactly o m d : diff_token_sequences o m = Ok d ->
  (diff_token_sequences m o = Ok (swap_sides d) <-> agreeing o m).
Proof.
  intros H. apply diff_greedy in H. rewrite diff_greedy. split; intros X; [eapply swap_agreeing; eauto|now apply agreeing_swap].
Qed.
End Backwards.
