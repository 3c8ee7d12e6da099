(** One round of [_merge] on two streams over the same parent. *)
From Verif Require Import Base Strings SpecSeq AutomatonProofs Changesets SpecDiff ChangesetsProofs DiffLaws Merge SpecMerge MergeStreams.

Section Steps.
Context {T : Type} {E : Teq T} {O : TeqOk T}.
Variable p : list T.

(** what is left of a copy (a change) of length [n] at [pos] after [k] tokens *)
Definition ctail (pos n k : nat) (r : list (frag T)) : list (frag T) :=
  if k <? n then FCopy (seg p (pos + k) (pos + n)) (n - k) :: r else r.
Definition gtail (pos n k : nat) (r : list (frag T)) : list (frag T) :=
  if k <? n then FChange [] (seg p (pos + k) (pos + n)) (n - k) :: r else r.
Definition cfrag (pos n : nat) : frag T := FCopy (seg p pos (pos + n)) n.
Definition gfrag (pos : nat) (i : list T) (n : nat) : frag T := FChange i (seg p pos (pos + n)) n.

Lemma common_prefix_le (a b : list T) : common_prefix_length a b <= length a.
Proof. revert b; induction a as [|x a IH]; intros [|y b]; cbn; try lia; destruct (teq x y); [specialize (IH b)|]; lia. Qed.
Lemma common_prefix_eq (a b : list T) : length a = length b ->
  (common_prefix_length a b = length a <-> a = b).
Proof.
  revert b; induction a as [|x a IH]; intros [|y b] L; cbn in *; try discriminate; [split; auto|].
  destruct (teq_spec x y) as [->|N].
  - injection L as L; specialize (IH b L); split.
    + intros H; injection H as H; f_equal; now apply IH.
    + intros H; injection H as H; f_equal; now apply IH.
  - split; [discriminate|congruence].
Qed.

(** One round, all cases: which heads, what is output, what is left. *)
Inductive mstep : nat -> list (frag T) -> list (frag T) -> bool ->
    list (ofrag T) -> nat -> list (frag T) -> list (frag T) -> bool -> Prop :=
| M_copy pos n0 r0 n1 r1 w k : k = Nat.min n0 n1 -> 0 < n0 -> 0 < n1 ->
    pos + n0 <= length p -> pos + n1 <= length p ->
    stream p false true (pos + n0) r0 -> stream p false true (pos + n1) r1 ->
    mstep pos (cfrag pos n0 :: r0) (cfrag pos n1 :: r1) w
      [OFrag (cfrag pos k)] (pos + k) (ctail pos n0 k r0) (ctail pos n1 k r1) false
| M_fit0 pos i0 n0 r0 n1 r1 : n0 <= n1 -> 0 < n1 -> pos + n1 <= length p -> (0 < n0 \/ i0 <> []) ->
    stream p true false (pos + n0) r0 -> stream p false true (pos + n1) r1 ->
    mstep pos (gfrag pos i0 n0 :: r0) (cfrag pos n1 :: r1) false
      [OFrag (gfrag pos i0 n0)] (pos + n0) r0 (ctail pos n1 n0 r1) false
| M_fit1 pos n0 r0 i1 n1 r1 : n1 <= n0 -> 0 < n0 -> pos + n0 <= length p -> (0 < n1 \/ i1 <> []) ->
    stream p false true (pos + n0) r0 -> stream p true false (pos + n1) r1 ->
    mstep pos (cfrag pos n0 :: r0) (gfrag pos i1 n1 :: r1) false
      [OFrag (gfrag pos i1 n1)] (pos + n1) (ctail pos n0 n1 r0) r1 false
| M_over0 pos i0 n0 r0 n1 r1 : n1 < n0 -> 0 < n1 -> pos + n0 <= length p ->
    stream p true false (pos + n0) r0 -> stream p false true (pos + n1) r1 ->
    mstep pos (gfrag pos i0 n0 :: r0) (cfrag pos n1 :: r1) false
      [OConf (Some i0) (Some (seg p pos (pos + n1)))] (pos + n1) (gtail pos n0 n1 r0) r1 false
| M_over1 pos n0 r0 i1 n1 r1 : n0 < n1 -> 0 < n0 -> pos + n1 <= length p ->
    stream p false true (pos + n0) r0 -> stream p true false (pos + n1) r1 ->
    mstep pos (cfrag pos n0 :: r0) (gfrag pos i1 n1 :: r1) false
      [OConf (Some i1) (Some (seg p pos (pos + n0)))] (pos + n0) r0 (gtail pos n1 n0 r1) false
| M_comp0 pos i0 r0 n1 r1 : pos + n1 <= length p -> i0 <> [] -> 0 < n1 ->
    stream p true false pos r0 -> stream p true false (pos + n1) r1 ->
    mstep pos (gfrag pos i0 0 :: r0) (gfrag pos [] n1 :: r1) false
      [] pos r0 (gfrag pos i0 n1 :: r1) false
| M_comp1 pos n0 r0 i1 r1 : pos + n0 <= length p -> i1 <> [] -> 0 < n0 ->
    stream p true false (pos + n0) r0 -> stream p true false pos r1 ->
    mstep pos (gfrag pos [] n0 :: r0) (gfrag pos i1 0 :: r1) false
      [] pos (gfrag pos i1 n0 :: r0) r1 false
| M_same pos i n r0 r1 : pos + n <= length p -> (0 < n \/ i <> []) ->
    stream p true false (pos + n) r0 -> stream p true false (pos + n) r1 ->
    mstep pos (gfrag pos i n :: r0) (gfrag pos i n :: r1) false
      [OFrag (gfrag pos i n)] (pos + n) r0 r1 false
| M_conf pos i0 n0 r0 i1 n1 r1 k : k = Nat.min n0 n1 ->
    pos + n0 <= length p -> pos + n1 <= length p -> (0 < n0 \/ i0 <> []) -> (0 < n1 \/ i1 <> []) ->
    ~ (n0 = 0 /\ i1 = []) -> ~ (i0 = [] /\ n1 = 0) -> ~ (i0 = i1 /\ n0 = n1) ->
    stream p true false (pos + n0) r0 -> stream p true false (pos + n1) r1 ->
    mstep pos (gfrag pos i0 n0 :: r0) (gfrag pos i1 n1 :: r1) false
      [OConf (Some i0) (Some i1)] (pos + k) (gtail pos n0 k r0) (gtail pos n1 k r1) true
| M_pend0 pos i0 n0 r0 n1 r1 k v0 v1 : k = Nat.min n0 n1 -> 0 < n1 ->
    pos + n0 <= length p -> pos + n1 <= length p -> (0 < n0 \/ i0 <> []) ->
    vseq v0 = i0 -> vseq v1 = seg p pos (pos + k) ->
    stream p true false (pos + n0) r0 -> stream p false true (pos + n1) r1 ->
    mstep pos (gfrag pos i0 n0 :: r0) (cfrag pos n1 :: r1) true
      [OConf v0 v1] (pos + k) (gtail pos n0 k r0) (ctail pos n1 k r1) true
| M_pend1 pos n0 r0 i1 n1 r1 k v0 v1 : k = Nat.min n0 n1 -> 0 < n0 ->
    pos + n0 <= length p -> pos + n1 <= length p -> (0 < n1 \/ i1 <> []) ->
    vseq v0 = seg p pos (pos + k) -> vseq v1 = i1 ->
    stream p false true (pos + n0) r0 -> stream p true false (pos + n1) r1 ->
    mstep pos (cfrag pos n0 :: r0) (gfrag pos i1 n1 :: r1) true
      [OConf v0 v1] (pos + k) (ctail pos n0 k r0) (gtail pos n1 k r1) true
| M_pend2 pos i0 n0 r0 i1 n1 r1 k v0 v1 : k = Nat.min n0 n1 ->
    pos + n0 <= length p -> pos + n1 <= length p -> (0 < n0 \/ i0 <> []) -> (0 < n1 \/ i1 <> []) ->
    vseq v0 = i0 -> vseq v1 = i1 ->
    stream p true false (pos + n0) r0 -> stream p true false (pos + n1) r1 ->
    mstep pos (gfrag pos i0 n0 :: r0) (gfrag pos i1 n1 :: r1) true
      [OConf v0 v1] (pos + k) (gtail pos n0 k r0) (gtail pos n1 k r1) true.

Lemma ctail_eq pos n k r : pos + n <= length p -> k <= n ->
  olist (snd (split_copy_fragment (seg p pos (pos + n)) n k)) ++ r = ctail pos n k r.
Proof.
  intros Hl Hk; unfold split_copy_fragment, ctail; cbn [snd].
  destruct (k <? n); [|reflexivity]; now rewrite seg_skipn.
Qed.
Lemma gtail_eq pos i n k r : pos + n <= length p -> k <= n ->
  olist (snd (split_change_fragment i (seg p pos (pos + n)) n (length i) k)) ++ r = gtail pos n k r.
Proof.
  intros Hl Hk; unfold split_change_fragment, gtail; cbn [snd].
  rewrite Nat.ltb_irrefl, orb_false_r, skipn_all.
  destruct (k <? n); [|reflexivity]; now rewrite seg_skipn.
Qed.
Lemma ghead_eq i d n k : (0 < k \/ i <> []) ->
  fst (@split_change_fragment T i d n (length i) k) = Some (FChange i (firstn k d) k).
Proof.
  intros H; unfold split_change_fragment; cbn [fst]; rewrite firstn_all.
  assert ((0 <? k) || (0 <? length i) = true) as ->; [|reflexivity].
  destruct (Nat.ltb_spec 0 k); [reflexivity|]; destruct i; [|reflexivity].
  destruct H; [lia|now elim H].
Qed.
Lemma ghead_seq i d n k :
  vseq (match fst (@split_change_fragment T i d n (length i) k) with Some h => Some (f_insert h) | None => None end) = i.
Proof.
  unfold split_change_fragment; cbn [fst]; rewrite firstn_all.
  destruct i; [|now rewrite orb_true_r]; now destruct (_ || _).
Qed.
Lemma chead_seq pos n k : pos + n <= length p -> k <= n ->
  vseq (match fst (split_copy_fragment (seg p pos (pos + n)) n k) with Some h => Some (f_insert h) | None => None end)
  = seg p pos (pos + k).
Proof.
  intros Hl Hk; unfold split_copy_fragment; cbn [fst].
  destruct (Nat.ltb_spec 0 k).
  - cbn; now apply seg_firstn.
  - assert (k = 0) as -> by lia; now rewrite Nat.add_0_r, seg_nil.
Qed.

#[local] Opaque split_copy_fragment split_change_fragment.
Lemma step_mstep c0 g0 c1 g1 pos f0 r0 f1 r1 w o t0 t1 w' :
  stream p c0 g0 pos (f0 :: r0) -> stream p c1 g1 pos (f1 :: r1) ->
  process_fragments f0 f1 w = (o, t0, t1, w') ->
  exists pos', mstep pos (f0 :: r0) (f1 :: r1) w (olist o) pos' (olist t0 ++ r0) (olist t1 ++ r1) w'.
Proof.
  intros S0 S1 HP.
  inversion S0 as [|? ? n0 ? Hn0 Hl0 Hs0|? ? i0 n0 ? Hl0 Hn0 Hs0]; subst;
  inversion S1 as [|? ? n1 ? Hn1 Hl1 Hs1|? ? i1 n1 ? Hl1 Hn1 Hs1]; subst; cbn [process_fragments] in HP.
  - (* copy, copy *)
    exists (pos + Nat.min n0 n1).
    assert (R : mstep pos (cfrag pos n0 :: r0) (cfrag pos n1 :: r1) w
              [OFrag (cfrag pos (Nat.min n0 n1))] (pos + Nat.min n0 n1)
              (ctail pos n0 (Nat.min n0 n1) r0) (ctail pos n1 (Nat.min n0 n1) r1) false)
      by (now apply M_copy).
    revert HP R; unfold copy_copy; destruct (Nat.ltb_spec n0 n1) as [L|L].
    + intros HP; injection HP as <- <- <- <-; rewrite Nat.min_l by lia.
      unfold ctail at 1; rewrite Nat.ltb_irrefl; rewrite <- ctail_eq by lia; auto.
    + intros HP; injection HP as <- <- <- <-; rewrite Nat.min_r by lia.
      unfold ctail at 2; rewrite Nat.ltb_irrefl; cbn [olist app].
      destruct (Nat.eqb_spec n1 n0) as [->|N]; [|rewrite <- ctail_eq by lia; auto].
      unfold ctail; rewrite Nat.ltb_irrefl; auto.
  - (* copy, change *)
    destruct w.
    + exists (pos + Nat.min n0 n1).
      unfold pending_conflict, split_fragment in HP; cbn [f_length] in HP.
      rewrite (surjective_pairing (split_copy_fragment _ _ _)) in HP.
      rewrite (surjective_pairing (split_change_fragment _ _ _ _ _)) in HP.
      injection HP as <- <- <- <-; rewrite ctail_eq, gtail_eq by lia; cbn [olist].
      apply M_pend1; auto; [apply chead_seq; lia|apply ghead_seq].
    + unfold copy_change in HP; destruct (Nat.eqb_spec n1 (Nat.min n0 n1)) as [L|L].
      * injection HP as <- <- <- <-; exists (pos + n1).
        assert (R : mstep pos (cfrag pos n0 :: r0) (gfrag pos i1 n1 :: r1) false
                  [OFrag (gfrag pos i1 n1)] (pos + n1) (ctail pos n0 n1 r0) r1 false)
          by (apply M_fit1; auto; lia).
        rewrite <- L; destruct (Nat.ltb_spec n1 n0) as [L'|L']; cbn [olist app]; [now rewrite ctail_eq by lia|].
        revert R; unfold ctail; assert (n1 = n0) as <- by lia; rewrite Nat.ltb_irrefl; auto.
      * rewrite (surjective_pairing (split_change_fragment _ _ _ _ _)) in HP.
        rewrite ghead_eq in HP by (left; lia).
        injection HP as <- <- <- <-; exists (pos + n0).
        rewrite gtail_eq by lia; rewrite Nat.min_l by lia; cbn [olist app f_insert].
        apply M_over1; auto; lia.
  - (* change, copy *)
    destruct w.
    + exists (pos + Nat.min n0 n1).
      unfold pending_conflict, split_fragment in HP; cbn [f_length] in HP.
      rewrite (surjective_pairing (split_copy_fragment _ _ _)) in HP.
      rewrite (surjective_pairing (split_change_fragment _ _ _ _ _)) in HP.
      injection HP as <- <- <- <-; rewrite ctail_eq, gtail_eq by lia; cbn [olist].
      apply M_pend0; auto; [apply ghead_seq|apply chead_seq; lia].
    + unfold copy_change in HP; destruct (Nat.eqb_spec n0 (Nat.min n1 n0)) as [L|L].
      * injection HP as <- <- <- <-; exists (pos + n0).
        assert (R : mstep pos (gfrag pos i0 n0 :: r0) (cfrag pos n1 :: r1) false
                  [OFrag (gfrag pos i0 n0)] (pos + n0) r0 (ctail pos n1 n0 r1) false)
          by (apply M_fit0; auto; lia).
        rewrite <- L; destruct (Nat.ltb_spec n0 n1) as [L'|L']; cbn [olist app]; [now rewrite ctail_eq by lia|].
        revert R; unfold ctail; assert (n0 = n1) as <- by lia; rewrite Nat.ltb_irrefl; auto.
      * rewrite (surjective_pairing (split_change_fragment _ _ _ _ _)) in HP.
        rewrite ghead_eq in HP by (left; lia).
        injection HP as <- <- <- <-; exists (pos + n1).
        rewrite gtail_eq by lia; rewrite Nat.min_l by lia; cbn [olist app f_insert].
        apply M_over0; auto; lia.
  - (* change, change *)
    destruct w.
    + exists (pos + Nat.min n0 n1).
      unfold pending_conflict, split_fragment in HP; cbn [f_length] in HP.
      rewrite (surjective_pairing (split_change_fragment i0 _ _ _ _)) in HP.
      rewrite (surjective_pairing (split_change_fragment i1 _ _ _ _)) in HP.
      injection HP as <- <- <- <-; rewrite !gtail_eq by lia; cbn [olist].
      apply M_pend2; auto; apply ghead_seq.
    + unfold change_change, has_composable_changes, compose_changes in HP.
      assert (LN : forall l : list T, (length l =? 0) = true <-> l = []).
      { intros [|? ?]; cbn; split; congruence. }
      destruct ((n0 =? 0) && (length i1 =? 0)) eqn:C0.
      { apply andb_true_iff in C0; destruct C0 as [C1 C2]; apply LN in C2; apply Nat.eqb_eq in C1; subst.
        cbn [orb] in HP; injection HP as <- <- <- <-; exists pos; rewrite Nat.add_0_r in Hs0.
        apply M_comp0; auto; [|]; destruct Hn0, Hn1; try lia; auto; congruence. }
      destruct ((length i0 =? 0) && (n1 =? 0)) eqn:C1.
      { apply andb_true_iff in C1; destruct C1 as [C1 C2]; apply LN in C1; apply Nat.eqb_eq in C2; subst.
        cbn [orb] in HP; injection HP as <- <- <- <-; exists pos; rewrite Nat.add_0_r in Hs1.
        apply M_comp1; auto; [|]; destruct Hn0, Hn1; try lia; auto; congruence. }
      cbn [orb] in HP; unfold are_identical_changes in HP.
      assert (N0 : ~ (n0 = 0 /\ i1 = [])) by (intros [-> ->]; discriminate).
      assert (N1 : ~ (i0 = [] /\ n1 = 0)) by (intros [-> ->]; discriminate).
      match type of HP with (if ?b then _ else _) = _ => destruct b eqn:HI end.
      * rewrite !andb_true_iff, !Nat.eqb_eq in HI; destruct HI as [[[I1 I2] I3] I4].
        assert (i0 = i1) as <- by (apply common_prefix_eq; congruence); subst n1.
        injection HP as <- <- <- <-; exists (pos + n0); now apply M_same.
      * exists (pos + Nat.min n0 n1).
        unfold ordinary_conflict in HP.
        rewrite (surjective_pairing (split_change_fragment i0 _ _ _ _)) in HP.
        rewrite (surjective_pairing (split_change_fragment i1 _ _ _ _)) in HP.
        rewrite !ghead_eq in HP.
        2:{ destruct i1; [left|now right]; destruct Hn1 as [|[]]; auto.
            assert (n0 <> 0) by (intros ->; now apply N0); lia. }
        2:{ destruct i0; [left|now right]; destruct Hn0 as [|[]]; auto.
            assert (n1 <> 0) by (intros ->; now apply N1); lia. }
        injection HP as <- <- <- <-; rewrite !gtail_eq by lia; cbn [olist f_insert].
        apply M_conf; auto.
        intros [-> ->]; assert (Z : seg p pos (pos + n1) = seg p pos (pos + n1)) by reflexivity.
        rewrite (proj2 (common_prefix_eq i1 i1 eq_refl) eq_refl) in HI.
        rewrite (proj2 (common_prefix_eq _ _ eq_refl) Z) in HI.
        rewrite seg_length in HI by lia; replace (pos + n1 - pos) with n1 in HI by lia.
        rewrite !Nat.eqb_refl in HI; discriminate.
Qed.

Lemma ctail_stream pos n k r g : k <= n -> pos + n <= length p ->
  stream p false true (pos + n) r -> stream p true (g || negb (k <? n)) (pos + k) (ctail pos n k r).
Proof.
  intros Hk Hl Hs; unfold ctail; destruct (Nat.ltb_spec k n).
  - rewrite <- seg_skipn by lia; now apply copy_tail_stream.
  - assert (k = n) as -> by lia; rewrite orb_true_r; eapply stream_weaken; eauto.
Qed.
Lemma gtail_stream pos n k r c : k <= n -> pos + n <= length p ->
  stream p true false (pos + n) r -> stream p (c || negb (k <? n)) true (pos + k) (gtail pos n k r).
Proof.
  intros Hk Hl Hs; unfold gtail; destruct (Nat.ltb_spec k n).
  - rewrite <- seg_skipn by lia; rewrite orb_false_r; now apply change_tail_stream.
  - assert (k = n) as -> by lia; rewrite orb_true_r; eapply stream_weaken; eauto.
Qed.
Lemma ctail_any pos n k r : k <= n -> pos + n <= length p ->
  stream p false true (pos + n) r -> stream p true true (pos + k) (ctail pos n k r).
Proof. intros; now apply (ctail_stream pos n k r true). Qed.
Lemma gtail_any pos n k r : k <= n -> pos + n <= length p ->
  stream p true false (pos + n) r -> stream p true true (pos + k) (gtail pos n k r).
Proof. intros; now apply (gtail_stream pos n k r true). Qed.

Lemma gfrag_stream pos i n r c : pos + n <= length p -> (0 < n \/ i <> []) ->
  stream p true false (pos + n) r -> stream p c true pos (gfrag pos i n :: r).
Proof. intros; now apply S_change. Qed.

Lemma mstep_streams pos fs0 fs1 w o pos' fs0' fs1' w' :
  mstep pos fs0 fs1 w o pos' fs0' fs1' w' ->
  stream p true true pos' fs0' /\ stream p true true pos' fs1'.
Proof.
  destruct 1; subst; split;
    try (apply ctail_any; auto; lia); try (apply gtail_any; auto; lia);
    try (now eapply stream_any; eauto); try (apply gfrag_stream; auto).
Qed.

(** Complete runs. *)
Inductive mrun : nat -> list (frag T) -> list (frag T) -> bool -> list (ofrag T) -> Prop :=
| R_end0 fs1 w : stream p true true (length p) fs1 -> mrun (length p) [] fs1 w (flush_remaining [] fs1 w)
| R_end1 fs0 w : stream p true true (length p) fs0 -> mrun (length p) fs0 [] w (flush_remaining fs0 [] w)
| R_step pos fs0 fs1 w o pos' fs0' fs1' w' rest :
    stream p true true pos fs0 -> stream p true true pos fs1 ->
    mstep pos fs0 fs1 w o pos' fs0' fs1' w' ->
    mrun pos' fs0' fs1' w' rest -> mrun pos fs0 fs1 w (o ++ rest).

Lemma merge_loop_mrun fuel : forall pos fs0 fs1 w out,
  stream p true true pos fs0 -> stream p true true pos fs1 ->
  merge_loop fuel fs0 fs1 w = Some out -> mrun pos fs0 fs1 w out.
Proof.
  induction fuel as [|fuel IH]; intros pos [|f0 r0] [|f1 r1] w out S0 S1 H; cbn [merge_loop] in H;
    try discriminate;
    try (injection H as <-; apply stream_nil_pos in S0 as ->; now apply R_end0);
    try (injection H as <-; apply stream_nil_pos in S1 as ->; now apply R_end1).
  destruct (process_fragments f0 f1 w) as [[[o t0] t1] w'] eqn:HP.
  destruct (step_mstep _ _ _ _ _ _ _ _ _ _ _ _ _ _ S0 S1 HP) as [pos' HM].
  destruct (merge_loop fuel _ _ w') as [rest|] eqn:HR; [|discriminate].
  injection H as <-.
  destruct (mstep_streams _ _ _ _ _ _ _ _ _ HM) as [S0' S1'].
  eapply R_step; eauto.
Qed.

Lemma merge_mrun fs0 fs1 : stream p true true 0 fs0 -> stream p true true 0 fs1 ->
  exists out, _merge fs0 fs1 = Some out /\ mrun 0 fs0 fs1 false out.
Proof.
  intros S0 S1; destruct (merge_loop_total (length fs0 + length fs1) fs0 fs1 false (Nat.le_refl _)) as [out H].
  exists out; split; [exact H|]; now apply (merge_loop_mrun _ _ _ _ _ _ S0 S1 H).
Qed.
End Steps.
