(** [diff_token_sequences] computes exactly the diff of [SpecGreedy]. *)
From Verif Require Import Base SpecSeq SpecDiff SpecGreedy Strings Automaton AutomatonProofs AutomatonLcs Changesets ChangesetsProofs.

Section Greedy.
Context {T : Type} {E : Teq T} {O : TeqOk T}.
Implicit Types (o m : list T).

Lemma app_split_len {A} (a b x y : list A) : a ++ x = b ++ y -> length a = length b -> a = b /\ x = y.
Proof.
  revert b; induction a as [|c a IH]; intros [|e b] He Hl; try discriminate; [auto|].
  cbn in *. injection He as -> He. destruct (IH b He) as [-> ->]; auto.
Qed.
Lemma slice_mid (p v q : list T) : slice (p ++ v ++ q) (length p) (length v) = v.
Proof. unfold slice. rewrite skipn_app, skipn_all, Nat.sub_diag; cbn. rewrite firstn_app, firstn_all, Nat.sub_diag; cbn; apply app_nil_r. Qed.
Lemma slice_around (l : list T) p n : p + n <= length l -> l = firstn p l ++ slice l p n ++ skipn (p + n) l.
Proof.
  intros H. rewrite <- (firstn_skipn p l) at 1. f_equal. unfold slice.
  rewrite <- (firstn_skipn n (skipn p l)) at 1. f_equal. rewrite skipn_skipn. f_equal; lia.
Qed.

Lemma common_run_of o m v p q p' q' : o = p ++ v ++ q -> m = p' ++ v ++ q' ->
  common_run o m (length p) (length p') (length v).
Proof.
  intros -> ->. split; [rewrite !app_length; lia|]. split; [rewrite !app_length; lia|]. now rewrite !slice_mid.
Qed.
Lemma common_of_run o m pa pb l : common_run o m pa pb l -> common_to o m (slice o pa l).
Proof.
  intros [H1 [H2 H3]]. split.
  - exists (firstn pa o), (skipn (pa + l) o). now apply slice_around.
  - exists (firstn pb m), (skipn (pb + l) m). rewrite H3. now apply slice_around.
Qed.

Lemma good_greedy o m s1 e1 s2 e2 c : good o m s1 e1 s2 e2 c -> e1 <= length o -> e2 <= length m ->
  lcs_diff (seg o s1 e1) (seg m s2 e2) (as_diff_stream o c).
Proof.
  induction 1 as [s1 e1 s2 e2 os ms Hd _ _|s1 e1 s2 e2 pa pb l p s HL Hl Hb1 Hb2 Gp IHp Gs IHs];
    intros H1 H2; cbn [as_diff_stream].
  - replace (if nonempty (seg m s2 e2) || nonempty (seg o s1 e1) then [DChange (seg m s2 e2) (seg o s1 e1)] else [])
      with (match seg o s1 e1, seg m s2 e2 with [], [] => [] | _, _ => [DChange (seg m s2 e2) (seg o s1 e1)] end)
      by (destruct (seg o s1 e1), (seg m s2 e2); reflexivity).
    now apply lcs_diff_none.
  - pose proof (good_common o m s1 e1 s2 e2 pa pb l H1 H2 Hb1 Hb2 HL) as Hc.
    assert (Eo : seg o s1 e1 = seg o s1 (s1 + pa) ++ seg o (s1 + pa) (s1 + pa + l) ++ seg o (s1 + pa + l) e1)
      by (rewrite <- !seg_app by lia; reflexivity).
    assert (Em : seg m s2 e2 = seg m s2 (s2 + pb) ++ seg m (s2 + pb) (s2 + pb + l) ++ seg m (s2 + pb + l) e2)
      by (rewrite <- !seg_app by lia; reflexivity).
    pose proof HL as [[HR HM] [_ [HF1 HF2]]].
    assert (Lw : length (seg o (s1 + pa) (s1 + pa + l)) = l) by (rewrite seg_length; lia).
    cbn [app]. eapply lcs_diff_some with (w := sl o (s1 + pa, Some (s1 + pa + l))).
    + rewrite sl_seg; cbn [eff]. exact Eo.
    + rewrite sl_seg; cbn [eff]. rewrite Hc. exact Em.
    + rewrite sl_seg; cbn [eff]. intros Q; rewrite Q in Lw; cbn in Lw; lia.
    + rewrite sl_seg; cbn [eff]. rewrite Lw. intros v [[p1 [q1 Hv1]] [p2 [q2 Hv2]]].
      apply (HM (length p1) (length p2)). now apply (common_run_of _ _ v p1 q1 p2 q2).
    + rewrite sl_seg; cbn [eff]. rewrite Lw. intros v p2 q2 [[p1 [q1 Hv1]] _] Hlen Hv2.
      rewrite seg_length by lia. replace (s2 + pb - s2) with pb by lia.
      apply (HF1 (length p1)). rewrite <- Hlen. now apply (common_run_of _ _ v p1 q1 p2 q2).
    + rewrite sl_seg; cbn [eff]. intros p1 q1 Hv1.
      rewrite seg_length by lia. replace (s1 + pa - s1) with pa by lia.
      apply HF2. rewrite Hc in Hv1.
      pose proof (common_run_of _ _ _ _ _ _ _ Hv1 Em) as R.
      rewrite <- Hc, Lw, (seg_length m s2 (s2 + pb)) in R by lia.
      replace (s2 + pb - s2) with pb in R by lia. exact R.
    + apply IHp; lia.
    + apply IHs; lia.
Qed.

Lemma lcs_diff_fun o m d : lcs_diff o m d -> forall d', lcs_diff o m d' -> d = d'.
Proof.
  assert (Clash : forall o m o1 o2 m1 m2 w, disjoint o m -> o = o1 ++ w ++ o2 -> m = m1 ++ w ++ m2 -> w <> ([] : list T) -> False).
  { intros o0 m0 o1 o2 m1 m2 [|x w] Hd -> -> Hw; [congruence|].
    apply (Hd x); apply in_or_app; right; apply in_or_app; left; now left. }
  induction 1 as [o m Hd|o o1 o2 m m1 m2 w d1 d2 Eo Em Hw HL HF1 HF2 D1 IH1 D2 IH2]; intros d' H'.
  - inversion H' as [? ? Hd'|? p1 p2 ? n1 n2 w' e1 e2 Eo' Em' Hw']; subst; [reflexivity|].
    exfalso; eapply Clash; eauto.
  - inversion H' as [? ? Hd'|? p1 p2 ? n1 n2 w' e1 e2 Eo' Em' Hw' HL' HF1' HF2' D1' D2']; subst o0 m0.
    { exfalso; subst; eapply Clash; eauto. }
    assert (C : common_to o m w) by (split; eauto). assert (C' : common_to o m w') by (split; eauto).
    assert (Ll : length w = length w') by (apply Nat.le_antisymm; auto).
    assert (Lm : length m1 = length n1).
    { apply Nat.le_antisymm; [apply (HF1 w' n1 n2)|apply (HF1' w m1 m2)]; auto. }
    rewrite Em in Em'. destruct (app_split_len _ _ _ _ Em' Lm) as [<- Em2].
    destruct (app_split_len _ _ _ _ Em2 Ll) as [<- <-].
    assert (Lo : length o1 = length p1).
    { apply Nat.le_antisymm; [apply (HF2 p1 p2)|apply (HF2' o1 o2)]; auto. }
    rewrite Eo in Eo'. destruct (app_split_len _ _ _ _ Eo' Lo) as [<- Eo2].
    apply app_inv_head in Eo2 as <-. rewrite (IH1 _ D1'), (IH2 _ D2'). reflexivity.
Qed.

Theorem diff_greedy o m d : diff_token_sequences o m = Ok d <-> lcs_diff o m d.
Proof.
  assert (Ex : exists d0, diff_token_sequences o m = Ok d0 /\ lcs_diff o m d0).
  { unfold diff_token_sequences; destruct (find_changeset_ok o m) as [c [-> G]]; cbn [bind].
    eexists; split; [reflexivity|]. rewrite <- (seg_all o) at 1. rewrite <- (seg_all m) at 1.
    now apply good_greedy with (1 := G). }
  destruct Ex as [d0 [H0 G0]]. split.
  - intros H. replace d with d0 by congruence. exact G0.
  - intros H. rewrite (lcs_diff_fun _ _ _ H _ G0). exact H0.
Qed.

Theorem diff_keeps_longest o m v : common_to o m v -> v <> [] ->
  exists d t, diff_token_sequences o m = Ok d /\ In (DText t) d /\ length v <= length t.
Proof.
  intros [[p1 [q1 C1]] [p2 [q2 C2]]] Hv.
  destruct (find_changeset_ok o m) as [c [Hc _]].
  assert (Hd : exists d, diff_token_sequences o m = Ok d) by (unfold diff_token_sequences; rewrite Hc; eexists; reflexivity).
  destruct Hd as [d Hd]. exists d. pose proof (proj1 (diff_greedy o m d) Hd) as G.
  inversion G as [? ? Hdis|? o1 o2 ? m1 m2 w d1 d2 Eo Em Hw HL]; subst o0 m0.
  - exfalso. destruct v as [|x v]; [congruence|]. subst o m.
    apply (Hdis x); apply in_or_app; right; now left.
  - exists w. split; [congruence|]. split; [apply in_or_app; right; now left|]. apply HL. split; eauto.
Qed.
End Greedy.
