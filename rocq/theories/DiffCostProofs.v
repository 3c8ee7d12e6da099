(** A search takes linearly many steps, a diff at most quadratically many. *)
From Verif Require Import Base Strings StringsExt Automaton AutomatonInv SpecSeq AutomatonProofs AutomatonLcs
  AutomatonCost AutomatonCostProofs Changesets ChangesetsProofs DiffCost.

Section CostProofs.
Context {T : Type} {E : Teq T} {O : TeqOk T}.
Implicit Types (s w m : list T) (h : heap T) (W : nat -> list T).

(** * Erasing the counts *)
Lemma lcs_inner_erase fuel : forall h t cur cml,
  option_map fst (lcs_inner_n fuel h t cur cml) = lcs_inner fuel h t cur cml.
Proof.
  induction fuel as [|fuel IH]; intros h t cur cml; [reflexivity|].
  cbn [lcs_inner_n lcs_inner]; destruct (nth_error h cur) as [nd|]; [|reflexivity].
  destruct (dget (n_trans nd) t); [reflexivity|]. destruct (n_link nd) as [l|]; [|reflexivity].
  destruct (nth_error h l) as [nl|]; [|reflexivity]. rewrite <- IH.
  now destruct (lcs_inner_n fuel h t l (n_len nl)) as [[[[? ?] ?] ?]|].
Qed.
Lemma lcs_loop_erase s : forall h position cur cml best,
  option_map fst (lcs_loop_n h position cur cml best s) = lcs_loop h position cur cml best s.
Proof.
  induction s as [|t s IH]; intros h position cur cml best; [reflexivity|].
  cbn [lcs_loop_n lcs_loop]. rewrite <- lcs_inner_erase.
  destruct (lcs_inner_n (length h) h t cur cml) as [[[[next cur1] cml1] k]|]; [|reflexivity]. cbn [option_map fst].
  destruct (match next with Some n => (n, cml1 + 1) | None => (cur1, cml1) end) as [cur2 cml2].
  destruct (nth_error h cur2) as [nd2|]; [|reflexivity]. rewrite <- IH.
  now destruct (lcs_loop_n h _ _ _ _ s) as [[? ?]|].
Qed.
Lemma find_lcs_erase (a b : list T) : option_map fst (find_lcs_n a b) = find_lcs a b.
Proof.
  unfold find_lcs_n, find_lcs, sa_find_lcs. rewrite <- build_erase.
  destruct (build_n a) as [[h k]|]; [|reflexivity]. cbn [option_map fst]. rewrite <- lcs_loop_erase.
  destruct (lcs_loop_n h 0 0 0 (0, 0, 0) b) as [[[[bl e1] e2] k']|]; [|reflexivity]. cbn [option_map fst].
  destruct (nsub e1 bl), (nsub e2 bl); reflexivity.
Qed.
Lemma find_changeset_erase depth : forall (o m : list T) os ms,
  (let* c := find_changeset_n depth o m os ms in Ok (fst c)) = find_changeset_lim depth o m os ms.
Proof.
  induction depth as [|depth IH]; intros o m os ms; [reflexivity|].
  cbn [find_changeset_n find_changeset_lim]. rewrite <- find_lcs_erase.
  destruct (find_lcs_n (sl o os) (sl m ms)) as [[[[co cm] cl] k]|]; [|reflexivity]. cbn [option_map fst].
  destruct (cl =? 0); [reflexivity|]. rewrite <- !IH.
  destruct (find_changeset_n depth o m _ (_, Some _)) as [p|e]; [|reflexivity]. cbn [bind].
  destruct (find_changeset_n depth o m _ _) as [q|e]; reflexivity.
Qed.
Theorem diff_erase (o m : list T) :
  (let* r := diff_n o m in Ok (fst r)) = diff_token_sequences o m.
Proof.
  unfold diff_n, diff_token_sequences, find_changeset. rewrite <- find_changeset_erase.
  destruct (find_changeset_n (S (length o)) o m (0, None) (0, None)); reflexivity.
Qed.

(** * The number of steps *)
Section Walk.
Variables (W : nat -> list T) (s : list T) (h : heap T).
Hypothesis HA : AInv W s h.
Notation at_word := (at_word W s h).

Lemma lcs_inner_cost t fuel : forall cur m next cur1 c1 k, at_word cur m ->
  lcs_inner_n fuel h t cur (length m) = Some (next, cur1, c1, k) ->
  exists m1, c1 = length m1 /\ at_word cur1 m1 /\ k + c1 <= length m /\
    match next with Some j => at_word j (m1 ++ [t]) | None => True end.
Proof.
  induction fuel as [|fuel IH]; intros cur m next cur1 c1 k Hat H; [discriminate|].
  cbn [lcs_inner_n] in H. destruct (nth_error h cur) as [nd|] eqn:Hnd; [|discriminate].
  pose proof (at_step W s h HA cur m nd t Hat Hnd) as K.
  destruct (dget (n_trans nd) t) as [j|].
  { injection H as <- <- <- <-. exists m; auto. }
  destruct (n_link nd) as [l|] eqn:Hl.
  2:{ injection H as <- <- <- <-. exists m; auto. }
  destruct (rev_parent W s h HA l cur nd Hnd Hl) as [Hln [Hls [Hll Hlm]]].
  destruct (nth_error h l) as [nl|] eqn:Hnl; [|discriminate].
  rewrite (ok_len _ _ _ _ _ (ai_node _ _ _ HA _ _ Hnl)) in H.
  destruct (lcs_inner_n fuel h t l (length (W l))) as [[[[next' cur'] c'] k']|] eqn:Hr; [|discriminate].
  injection H as <- <- <- <-.
  destruct (IH l (W l) next' cur' c' k' (at_self W s h l Hln) Hr) as [m1 [E1 [A1 [L1 N1]]]].
  exists m1. split; [exact E1|]. split; [exact A1|]. split; [|exact N1].
  destruct Hat as [Hc [Hms Hme]].
  assert (Hlm' : length (W l) < length m).
  { destruct (le_lt_dec (length m) (length (W l))) as [Hle|]; [exfalso|assumption].
    assert (Hml : suf m (W l)) by (apply (suf_comparable _ _ (W cur)); auto).
    assert (He : eqv s (W l) (W cur)) by (eapply eqv_between; eauto).
    rewrite (Canon_uniq s _ _ (a_canon W s h HA l Hln) (a_canon W s h HA cur Hc) He) in Hll; lia. }
  lia.
Qed.
Lemma lcs_loop_cost r : forall position cur m best best' k, at_word cur m ->
  lcs_loop_n h position cur (length m) best r = Some (best', k) -> length r <= k <= length m + 2 * length r.
Proof.
  induction r as [|t r IH]; intros position cur m best best' k Hat H; cbn [lcs_loop_n] in H.
  - injection H as <- <-; cbn; lia.
  - destruct (lcs_inner_n (length h) h t cur (length m)) as [[[[next cur1] c1] k1]|] eqn:Hi; [|discriminate].
    destruct (lcs_inner_cost t _ _ _ _ _ _ _ Hat Hi) as [m1 [-> [A1 [L1 N1]]]].
    set (cur2 := match next with Some j => j | None => cur1 end).
    set (m2 := match next with Some _ => m1 ++ [t] | None => m1 end).
    assert (Heq : (match next with Some j => (j, length m1 + 1) | None => (cur1, length m1) end)
                  = (cur2, length m2)).
    { subst cur2 m2; destruct next; cbn; [now rewrite app_length|reflexivity]. }
    rewrite Heq in H.
    assert (Hat2 : at_word cur2 m2) by (subst cur2 m2; destruct next; assumption).
    assert (L2 : length m2 <= length m1 + 1) by (subst m2; destruct next; [rewrite app_length; cbn|]; lia).
    destruct (nth_error h cur2); [|discriminate].
    destruct (lcs_loop_n h (S position) cur2 (length m2) _ r) as [[b' k2]|] eqn:Hr; [|discriminate].
    injection H as <- <-. apply IH in Hr; [|exact Hat2]. cbn [length]. lia.
Qed.
End Walk.

Theorem find_lcs_cost (a b : list T) : exists pa pb l k,
  find_lcs_n a b = Some (pa, pb, l, k) /\ find_lcs a b = Some (pa, pb, l) /\
  2 * length a + length b + 2 <= k <= 6 * length a + 2 * length b + 2.
Proof.
  destruct (find_lcs_ok a b) as [pa [pb [l [H _]]]]. pose proof (find_lcs_erase a b) as Er. rewrite H in Er.
  destruct (find_lcs_n a b) as [[[[pa' pb'] l'] k]|] eqn:Hn; [|discriminate]. cbn in Er. injection Er as -> -> ->.
  exists pa, pb, l, k. split; [reflexivity|]. split; [exact H|].
  unfold find_lcs_n in Hn. destruct (build_linear a) as [h [kb [Hb [Hbb [Lh [_ [_ Lk]]]]]]]. rewrite Hb in Hn.
  assert (Nh : 1 <= length h) by (destruct (build_ok a) as [W0 [h0 [HB0 [HA0 _]]]]; assert (h0 = h) by congruence; subst h0; pose proof (at_root W0 a h HA0) as [X _]; lia).
  destruct (build_ok a) as [W [h' [HB [HA _]]]]. assert (h' = h) by congruence; subst h'.
  destruct (lcs_loop_n h 0 0 0 (0, 0, 0) b) as [[[[bl e1] e2] k']|] eqn:Hl; [|discriminate].
  change 0 with (length ([] : list T)) in Hl at 3.
  apply (lcs_loop_cost W a h HA b 0 0 [] _ _ _ (at_root W a h HA)) in Hl. cbn in Hl.
  destruct (nsub e1 bl), (nsub e2 bl); try discriminate. injection Hn as _ _ _ <-. lia.
Qed.

Lemma find_changeset_cost depth : forall (o m : list T) (s1 : nat) st1 (s2 : nat) st2 c k,
  s1 <= eff o st1 -> eff o st1 <= length o -> s2 <= eff m st2 -> eff m st2 <= length m ->
  find_changeset_n depth o m (s1, st1) (s2, st2) = Ok (c, k) ->
  2 * (eff o st1 - s1) + (eff m st2 - s2) + 2 <= k <= (Nat.min (eff o st1 - s1) (eff m st2 - s2) + 1) * (6 * (eff o st1 - s1) + 2 * (eff m st2 - s2) + 2).
Proof.
  induction depth as [|depth IH]; intros o m s1 st1 s2 st2 c k H1 H2 H3 H4 H; [discriminate|].
  cbn [find_changeset_n] in H. rewrite !sl_seg in H.
  destruct (find_lcs_cost (seg o s1 (eff o st1)) (seg m s2 (eff m st2))) as [pa [pb [l [k0 [Hn [Hf Hk]]]]]].
  rewrite Hn in H. rewrite !seg_length in Hk by lia.
  set (a := eff o st1 - s1) in *. set (b := eff m st2 - s2) in *.
  destruct (Nat.eqb_spec l 0) as [->|Hl].
  { injection H as _ <-. split; [lia|nia]. }
  cbn [fst snd] in H.
  destruct (find_lcs_ok (seg o s1 (eff o st1)) (seg m s2 (eff m st2))) as [pa' [pb' [l' [Hf' [[[A1 [A2 _]] _] _]]]]].
  rewrite Hf in Hf'; injection Hf' as <- <- <-. rewrite !seg_length in A1, A2 by lia. fold a in A1. fold b in A2.
  destruct (find_changeset_n depth o m (s1, Some (s1 + pa)) (s2, Some (s2 + pb))) as [[p kp]|] eqn:Hp; [|discriminate].
  cbn [bind] in H.
  destruct (find_changeset_n depth o m (s1 + pa + l, st1) (s2 + pb + l, st2)) as [[q kq]|] eqn:Hq; [|discriminate].
  cbn [bind fst snd] in H. injection H as _ <-.
  assert (P : kp <= (Nat.min pa pb + 1) * (6 * pa + 2 * pb + 2)).
  { apply IH in Hp; cbn [eff] in *; try lia.
    all: replace (s1 + pa - s1) with pa in Hp by lia; replace (s2 + pb - s2) with pb in Hp by lia; exact (proj2 Hp). }
  assert (Q : kq <= (Nat.min (a - pa - l) (b - pb - l) + 1) * (6 * (a - pa - l) + 2 * (b - pb - l) + 2)).
  { apply IH in Hq; try lia.
    all: replace (eff o st1 - (s1 + pa + l)) with (a - pa - l) in Hq by (unfold a; lia);
      replace (eff m st2 - (s2 + pb + l)) with (b - pb - l) in Hq by (unfold b; lia); exact (proj2 Hq). }
  set (x := 6 * pa + 2 * pb) in *. set (y := 6 * (a - pa - l) + 2 * (b - pb - l)) in *.
  set (u := Nat.min pa pb) in *. set (v := Nat.min (a - pa - l) (b - pb - l)) in *.
  set (z := Nat.min a b) in *.
  assert (Huv : u + v + 1 <= z) by (unfold u, v, z; lia).
  assert (Hxy : x + y + 8 <= 6 * a + 2 * b) by (unfold x, y; lia).
  set (t := 6 * a + 2 * b) in *.
  assert (P' : kp <= z * (x + 2)) by (etransitivity; [exact P|apply Nat.mul_le_mono_r; lia]).
  assert (Q' : kq <= z * (y + 2)) by (etransitivity; [exact Q|apply Nat.mul_le_mono_r; lia]).
  assert (R : z * (x + 2) + z * (y + 2) <= z * (t + 2)) by (rewrite <- Nat.mul_add_distr_l; apply Nat.mul_le_mono_l; lia).
  rewrite Nat.mul_add_distr_r. split; lia.
Qed.

Theorem diff_cost (o m : list T) : exists d k,
  diff_n o m = Ok (d, k) /\ diff_token_sequences o m = Ok d /\
  2 * length o + length m + 2 <= k <= (Nat.min (length o) (length m) + 1) * (6 * length o + 2 * length m + 2).
Proof.
  pose proof (diff_erase o m) as Er.
  destruct (find_changeset_ok o m) as [c [Hc _]].
  assert (Hd : diff_token_sequences o m = Ok (as_diff_stream o c)) by (unfold diff_token_sequences; now rewrite Hc).
  rewrite Hd in Er. destruct (diff_n o m) as [[d k]|] eqn:Hn; [|discriminate]. cbn in Er. injection Er as ->.
  exists (as_diff_stream o c), k. split; [reflexivity|]. split; [exact Hd|].
  unfold diff_n in Hn. destruct (find_changeset_n (S (length o)) o m (0, None) (0, None)) as [[c' k']|] eqn:Hf; [|discriminate].
  cbn in Hn. injection Hn as _ <-. apply find_changeset_cost in Hf; cbn [eff] in *; try lia.
Qed.
End CostProofs.
