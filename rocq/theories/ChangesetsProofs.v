(** Correctness of diffs and patches. *)
From Verif Require Import Base SpecSeq SpecDiff Strings Automaton AutomatonProofs AutomatonLcs Changesets.

Section Segments.
Context {T : Type}.
Lemma skipn_skipn (l : list T) a b : skipn a (skipn b l) = skipn (a + b) l.
Proof.
  revert l; induction b as [|b IH]; intros l; [now rewrite Nat.add_0_r|].
  rewrite Nat.add_succ_r; destruct l; [now rewrite !skipn_nil|apply IH].
Qed.
Definition seg (l : list T) (s e : nat) : list T := slice l s (e - s).
Definition eff (l : list T) (st : option nat) : nat :=
  match st with Some e => e | None => length l end.

Lemma sl_seg (l : list T) s st : sl l (s, st) = seg l s (eff l st).
Proof.
  unfold sl, pyslice, seg, eff, slice; cbn; destruct st as [e|]; [reflexivity|].
  rewrite firstn_all2; [reflexivity|]; rewrite skipn_length; lia.
Qed.
Lemma seg_length (l : list T) s e : e <= length l -> length (seg l s e) = e - s.
Proof. intros H; unfold seg, slice; rewrite firstn_length, skipn_length; lia. Qed.
Lemma slice_plus (l : list T) s n k : slice l s (n + k) = slice l s n ++ slice l (s + n) k.
Proof.
  unfold slice; revert l; induction s as [|s IH]; intros l; cbn.
  - revert l; induction n as [|n IHn]; intros l; cbn; [reflexivity|].
    destruct l; cbn; [now rewrite firstn_nil|]; now rewrite IHn.
  - destruct l; [now rewrite !firstn_nil|apply IH].
Qed.
Lemma seg_app (l : list T) s x e : s <= x -> x <= e -> seg l s e = seg l s x ++ seg l x e.
Proof.
  intros H1 H2; unfold seg.
  replace (e - s) with ((x - s) + (e - x)) by lia; rewrite slice_plus.
  replace (s + (x - s)) with x by lia; reflexivity.
Qed.
Lemma seg_all (l : list T) : seg l 0 (length l) = l.
Proof. unfold seg, slice; cbn; rewrite Nat.sub_0_r; apply firstn_all. Qed.
Lemma slice_seg (l : list T) s e p n : p + n <= e - s -> slice (seg l s e) p n = slice l (s + p) n.
Proof.
  intros H; unfold seg, slice; rewrite skipn_firstn_comm, firstn_firstn, skipn_skipn.
  replace (Nat.min n (e - s - p)) with n by lia; do 2 f_equal; lia.
Qed.
Lemma seg_nil (l : list T) s : seg l s s = [].
Proof. unfold seg, slice; now rewrite Nat.sub_diag. Qed.
Lemma seg_In (l : list T) s e x : In x (seg l s e) -> In x l.
Proof.
  unfold seg, slice; intros H.
  assert (H1 : In x (skipn s l)) by (rewrite <- (firstn_skipn (e - s) (skipn s l)); apply in_or_app; now left).
  rewrite <- (firstn_skipn s l); apply in_or_app; now right.
Qed.
End Segments.

Section Proofs.
Context {T : Type} {E : Teq T} {O : TeqOk T}.
Implicit Types (o m : list T).

Inductive good o m : nat -> nat -> nat -> nat -> changeset T -> Prop :=
| good_leaf s1 e1 s2 e2 os ms :
    disjoint (seg o s1 e1) (seg m s2 e2) ->
    sl o os = seg o s1 e1 -> sl m ms = seg m s2 e2 ->
    good o m s1 e1 s2 e2 (CLeaf (seg o s1 e1) (seg m s2 e2) os ms)
| good_node s1 e1 s2 e2 pa pb l p s :
    is_first_lcs (seg o s1 e1) (seg m s2 e2) pa pb l -> 0 < l ->
    s1 + pa + l <= e1 -> s2 + pb + l <= e2 ->
    good o m s1 (s1 + pa) s2 (s2 + pb) p ->
    good o m (s1 + pa + l) e1 (s2 + pb + l) e2 s ->
    good o m s1 e1 s2 e2 (CNode (s1 + pa, Some (s1 + pa + l)) (s2 + pb, Some (s2 + pb + l)) p s).

Lemma in_occurs (l : list T) x : In x l -> exists p, p + 1 <= length l /\ slice l p 1 = [x].
Proof.
  intros H; apply in_split in H; destruct H as [l1 [l2 ->]].
  exists (length l1); split; [rewrite app_length; cbn; lia|].
  unfold slice; rewrite skipn_app, skipn_all, Nat.sub_diag; reflexivity.
Qed.
Lemma lcs_zero_disjoint (a b : list T) pa pb : is_first_lcs a b pa pb 0 -> disjoint a b.
Proof.
  intros [[_ H] _] x Ha Hb.
  destruct (in_occurs _ _ Ha) as [p [P1 P2]], (in_occurs _ _ Hb) as [q [Q1 Q2]].
  specialize (H p q 1); assert (1 <= 0); [|lia].
  apply H; split; [exact P1|]; split; [exact Q1|]; congruence.
Qed.
Lemma slice_in (l : list T) p n x : In x (slice l p n) -> In x l.
Proof.
  unfold slice; intros H.
  assert (H1 : In x (skipn p l)) by (rewrite <- (firstn_skipn n (skipn p l)); apply in_or_app; now left).
  rewrite <- (firstn_skipn p l); apply in_or_app; now right.
Qed.
Lemma disjoint_lcs (a b : list T) pa pb l : disjoint a b -> is_first_lcs a b pa pb l -> l = 0.
Proof.
  intros Hd [[[H1 [H2 H3]] _] _]; destruct l as [|l]; [reflexivity|exfalso].
  pose proof (slice_length a pa (S l) H1) as HL.
  destruct (slice a pa (S l)) as [|x r] eqn:Hs; [discriminate|].
  apply (Hd x).
  - apply (slice_in a pa (S l)); rewrite Hs; now left.
  - apply (slice_in b pb (S l)); rewrite <- H3; now left.
Qed.

Lemma find_changeset_good depth : forall o m s1 st1 s2 st2,
  s1 <= eff o st1 -> eff o st1 <= length o -> s2 <= eff m st2 -> eff m st2 <= length m ->
  eff o st1 - s1 < depth \/ eff m st2 - s2 < depth ->
  exists c, find_changeset_lim depth o m (s1, st1) (s2, st2) = Ok c /\
            good o m s1 (eff o st1) s2 (eff m st2) c.
Proof.
  induction depth as [|depth IH]; intros o m s1 st1 s2 st2 H1 H2 H3 H4 Hd; [lia|].
  cbn [find_changeset_lim]; rewrite !sl_seg.
  destruct (find_lcs_ok (seg o s1 (eff o st1)) (seg m s2 (eff m st2))) as [pa [pb [l [-> HL]]]].
  destruct (Nat.eqb_spec l 0) as [->|Hl].
  - eexists; split; [reflexivity|]; constructor; [eapply lcs_zero_disjoint; eauto| |]; apply sl_seg.
  - pose proof HL as [[[A1 [A2 A3]] _] _]; rewrite !seg_length in * by lia.
    cbn [fst snd].
    destruct (IH o m s1 (Some (s1 + pa)) s2 (Some (s2 + pb))) as [p [-> Gp]]; cbn [eff] in *; try lia.
    cbn [bind].
    destruct (IH o m (s1 + pa + l) st1 (s2 + pb + l) st2) as [s [-> Gs]]; try lia.
    cbn [bind]; eexists; split; [reflexivity|].
    constructor; auto; lia.
Qed.

Theorem find_changeset_ok o m : exists c,
  find_changeset o m = Ok c /\ good o m 0 (length o) 0 (length m) c.
Proof.
  unfold find_changeset.
  destruct (find_changeset_good (S (length o)) o m 0 None 0 None) as [c Hc]; cbn [eff]; try lia.
  exists c; exact Hc.
Qed.

(** The equality pattern alone determines the tree. *)
Lemma good_common o m s1 e1 s2 e2 pa pb l :
  e1 <= length o -> e2 <= length m -> s1 + pa + l <= e1 -> s2 + pb + l <= e2 ->
  is_first_lcs (seg o s1 e1) (seg m s2 e2) pa pb l ->
  seg o (s1 + pa) (s1 + pa + l) = seg m (s2 + pb) (s2 + pb + l).
Proof.
  intros H1 H2 H3 H4 [[[A1 [A2 A3]] _] _]; rewrite !seg_length in * by lia.
  rewrite !slice_seg in A3 by lia; unfold seg.
  replace (s1 + pa + l - (s1 + pa)) with l by lia; replace (s2 + pb + l - (s2 + pb)) with l by lia; exact A3.
Qed.

Lemma apply_app (p q : list (pitem T)) v : apply (p ++ q) v = apply p v ++ apply q v.
Proof. unfold apply, join_changes; now rewrite map_app, concat_app. Qed.
Lemma strip_forward_app (p q : list (citem T)) : strip_forward (p ++ q) = strip_forward p ++ strip_forward q.
Proof. unfold strip_forward; apply flat_map_app. Qed.
Lemma strip_reverse_app (p q : list (citem T)) : strip_reverse (p ++ q) = strip_reverse p ++ strip_reverse q.
Proof. unfold strip_reverse; apply flat_map_app. Qed.

Lemma good_forward o m s1 e1 s2 e2 c : good o m s1 e1 s2 e2 c ->
  e1 <= length o -> e2 <= length m ->
  apply_forward (as_change_stream c) o = seg m s2 e2 /\ old_apply_forward c o = seg m s2 e2.
Proof.
  induction 1 as [s1 e1 s2 e2 os ms Hd _ _|s1 e1 s2 e2 pa pb l p s HL Hl Hb1 Hb2 Gp IHp Gs IHs]; intros H1 H2.
  - unfold apply_forward, old_apply_forward; cbn [as_change_stream cs_old_forward]; split.
    + destruct (seg m s2 e2) as [|x r] eqn:Hm; cbn [nonempty orb].
      * destruct (nonempty (seg o s1 e1)); reflexivity.
      * cbn; now rewrite app_nil_r.
    + cbn; now rewrite app_nil_r.
  - destruct IHp as [P1 P2]; [lia|lia|]; destruct IHs as [S1 S2]; [lia|lia|].
    assert (HC : sl o (s1 + pa, Some (s1 + pa + l)) = seg m (s2 + pb) (s2 + pb + l)).
    { rewrite sl_seg; cbn [eff]; apply (good_common o m s1 e1 s2 e2); auto. }
    rewrite (seg_app m s2 (s2 + pb) e2) by lia.
    rewrite (seg_app m (s2 + pb) (s2 + pb + l) e2) by lia.
    rewrite <- HC; split.
    + unfold apply_forward in *; cbn [as_change_stream].
      rewrite !strip_forward_app, !apply_app, P1, S1; f_equal; cbn.
      now rewrite app_nil_r.
    + unfold old_apply_forward, join_changes in *; cbn [cs_old_forward].
      rewrite !concat_app, P2, S2; cbn; now rewrite app_nil_r.
Qed.
Lemma good_reverse o m s1 e1 s2 e2 c : good o m s1 e1 s2 e2 c ->
  e1 <= length o -> e2 <= length m ->
  apply_reverse (as_change_stream c) m = seg o s1 e1 /\ old_apply_reverse c m = seg o s1 e1.
Proof.
  induction 1 as [s1 e1 s2 e2 os ms Hd _ _|s1 e1 s2 e2 pa pb l p s HL Hl Hb1 Hb2 Gp IHp Gs IHs]; intros H1 H2.
  - unfold apply_reverse, old_apply_reverse; cbn [as_change_stream cs_old_reverse]; split.
    + destruct (seg o s1 e1) as [|x r] eqn:Hm; cbn [nonempty orb].
      * destruct (nonempty (seg m s2 e2)); reflexivity.
      * rewrite orb_true_r; cbn; now rewrite app_nil_r.
    + cbn; now rewrite app_nil_r.
  - destruct IHp as [P1 P2]; [lia|lia|]; destruct IHs as [S1 S2]; [lia|lia|].
    assert (HC : sl m (s2 + pb, Some (s2 + pb + l)) = seg o (s1 + pa) (s1 + pa + l)).
    { rewrite sl_seg; cbn [eff]; symmetry; apply (good_common o m s1 e1 s2 e2); auto. }
    rewrite (seg_app o s1 (s1 + pa) e1) by lia.
    rewrite (seg_app o (s1 + pa) (s1 + pa + l) e1) by lia.
    rewrite <- HC; split.
    + unfold apply_reverse in *; cbn [as_change_stream].
      rewrite !strip_reverse_app, !apply_app, P1, S1; f_equal; cbn.
      now rewrite app_nil_r.
    + unfold old_apply_reverse, join_changes in *; cbn [cs_old_reverse].
      rewrite !concat_app, P2, S2; cbn; now rewrite app_nil_r.
Qed.

(** ** Diff streams *)
Lemma good_diff o m s1 e1 s2 e2 c : good o m s1 e1 s2 e2 c ->
  e1 <= length o -> e2 <= length m ->
  diff_before (as_diff_stream o c) = seg o s1 e1 /\ diff_after (as_diff_stream o c) = seg m s2 e2.
Proof.
  unfold diff_before, diff_after.
  induction 1 as [s1 e1 s2 e2 os ms Hd _ _|s1 e1 s2 e2 pa pb l p s HL Hl Hb1 Hb2 Gp IHp Gs IHs]; intros H1 H2; cbn [as_diff_stream].
  - destruct (seg o s1 e1), (seg m s2 e2); cbn; now rewrite ?app_nil_r.
  - destruct IHp as [P1 P2]; [lia|lia|]; destruct IHs as [S1 S2]; [lia|lia|].
    rewrite !flat_map_app, P1, P2, S1, S2; cbn [flat_map]; rewrite !app_nil_r, sl_seg; cbn [eff].
    rewrite (seg_app o s1 (s1 + pa) e1) by lia.
    rewrite (seg_app o (s1 + pa) (s1 + pa + l) e1) by lia.
    rewrite (seg_app m s2 (s2 + pb) e2) by lia.
    rewrite (seg_app m (s2 + pb) (s2 + pb + l) e2) by lia.
    rewrite (good_common o m s1 e1 s2 e2 pa pb l) by auto; auto.
Qed.

(** ** Normal form *)
Definition ends_text (d : list (ditem T)) : Prop := exists d' t, d = d' ++ [DText t].
Definition starts_text (d : list (ditem T)) : Prop := exists d' t, d = DText t :: d'.
(** the two sequences have the same last (first) token *)
Definition same_last (a b : list T) : Prop := exists a' b' x, a = a' ++ [x] /\ b = b' ++ [x].
Definition same_first (a b : list T) : Prop := exists a' b' x, a = x :: a' /\ b = x :: b'.

Lemma alternating_app (d1 d2 : list (ditem T)) t :
  alternating d1 -> alternating d2 -> ~ ends_text d1 -> ~ starts_text d2 ->
  alternating (d1 ++ DText t :: d2).
Proof.
  intros A1 A2 B1 B2 k x y Hx Hy.
  destruct (lt_eq_lt_dec (S k) (length d1)) as [[Hk|Hk]|Hk].
  - rewrite nth_error_app1 in Hx, Hy by lia; eapply A1; eauto.
  - rewrite nth_error_app1 in Hx by lia; rewrite nth_error_app2 in Hy by lia.
    rewrite Hk, Nat.sub_diag in Hy; cbn in Hy; injection Hy as <-.
    right; split; [|now exists t].
    destruct x as [u|a b]; [exfalso|now exists a, b].
    apply B1; apply nth_error_split in Hx; destruct Hx as [l1 [l2 [-> Hl]]].
    rewrite app_length in Hk; cbn in Hk; destruct l2; [|cbn in Hk; lia].
    now exists l1, u.
  - rewrite nth_error_app2 in Hx, Hy by lia.
    replace (S k - length d1) with (S (k - length d1)) in Hy by lia.
    destruct (k - length d1) as [|j] eqn:Hj; cbn in Hx, Hy.
    + injection Hx as <-; left; split; [now exists t|].
      destruct y as [u|a b]; [exfalso|now exists a, b].
      apply B2; destruct d2 as [|z d2]; [discriminate|]; cbn in Hy; injection Hy as ->.
      now exists d2, u.
    + eapply A2; eauto.
Qed.

Lemma good_ends o m s1 e1 s2 e2 c : good o m s1 e1 s2 e2 c ->
  s1 <= e1 -> s2 <= e2 -> e1 <= length o -> e2 <= length m ->
  (ends_text (as_diff_stream o c) -> same_last (seg o s1 e1) (seg m s2 e2)) /\
  (starts_text (as_diff_stream o c) -> same_first (seg o s1 e1) (seg m s2 e2)).
Proof.
  induction 1 as [s1 e1 s2 e2 os ms Hd _ _|s1 e1 s2 e2 pa pb l p s HL Hl Hb1 Hb2 Gp IHp Gs IHs]; intros Q1 Q2 H1 H2; cbn [as_diff_stream].
  - split.
    + intros [d' [t C]]; destruct (_ || _); [|destruct d'; discriminate].
      destruct d' as [|? [|]]; discriminate.
    + intros [d' [t C]]; destruct (_ || _); discriminate.
  - destruct IHp as [P1 P2]; [lia|lia|lia|lia|]; destruct IHs as [S1 S2]; [lia|lia|lia|lia|].
    pose proof (good_common o m s1 e1 s2 e2 pa pb l H1 H2 Hb1 Hb2 HL) as HC.
    assert (HC1 : exists r x, seg o (s1 + pa) (s1 + pa + l) = r ++ [x]).
    { destruct (seg o (s1 + pa) (s1 + pa + l)) as [|x r _] eqn:Hs using rev_ind; [|eauto].
      assert (K : length (seg o (s1 + pa) (s1 + pa + l)) = l) by (rewrite seg_length; lia).
      rewrite Hs in K; cbn in K; lia. }
    assert (HC2 : exists r x, seg o (s1 + pa) (s1 + pa + l) = x :: r).
    { destruct (seg o (s1 + pa) (s1 + pa + l)) as [|x r] eqn:Hs; [|eauto].
      assert (K : length (seg o (s1 + pa) (s1 + pa + l)) = l) by (rewrite seg_length; lia).
      rewrite Hs in K; cbn in K; lia. }
    split.
    + intros [d' [t C]].
      assert (Hs : as_diff_stream o s = [] \/ ends_text (as_diff_stream o s)).
      { destruct (as_diff_stream o s) as [|x r _] using rev_ind; [now left|right].
        change (DText (sl o (s1 + pa, Some (s1 + pa + l))) :: r ++ [x])
          with ((DText (sl o (s1 + pa, Some (s1 + pa + l))) :: r) ++ [x]) in C.
        cbn [app] in C; rewrite app_comm_cons, app_assoc in C.
        apply app_inj_tail in C; destruct C as [_ ->]; now exists r, t. }
      rewrite (seg_app o s1 (s1 + pa + l) e1) by lia.
      rewrite (seg_app m s2 (s2 + pb + l) e2) by lia.
      destruct Hs as [Hs|Hs].
      * (* the suffix is an empty leaf *)
        assert (G0 : seg o (s1 + pa + l) e1 = [] /\ seg m (s2 + pb + l) e2 = []).
        { destruct (good_diff _ _ _ _ _ _ _ Gs H1 H2) as [D1 D2]; rewrite Hs in D1, D2; cbn in D1, D2; auto. }
        destruct G0 as [-> ->]; rewrite !app_nil_r.
        rewrite (seg_app o s1 (s1 + pa) (s1 + pa + l)) by lia.
        rewrite (seg_app m s2 (s2 + pb) (s2 + pb + l)) by lia.
        rewrite <- HC; destruct HC1 as [r [x ->]].
        exists (seg o s1 (s1 + pa) ++ r), (seg m s2 (s2 + pb) ++ r), x; now rewrite !app_assoc.
      * destruct (S1 Hs) as [a' [b' [x [-> ->]]]].
        eexists (_ ++ a'), (_ ++ b'), x; now rewrite !app_assoc.
    + intros [d' [t C]].
      assert (Hs : as_diff_stream o p = [] \/ starts_text (as_diff_stream o p)).
      { destruct (as_diff_stream o p) as [|x r]; [now left|right].
        cbn in C; injection C as -> _; now exists r, t. }
      rewrite (seg_app o s1 (s1 + pa) e1) by lia.
      rewrite (seg_app m s2 (s2 + pb) e2) by lia.
      destruct Hs as [Hs|Hs].
      * assert (G0 : seg o s1 (s1 + pa) = [] /\ seg m s2 (s2 + pb) = []).
        { destruct (good_diff _ _ _ _ _ _ _ Gp) as [D1 D2]; [lia|lia|]; rewrite Hs in D1, D2; cbn in D1, D2; auto. }
        destruct G0 as [-> ->]; cbn [app].
        rewrite (seg_app o (s1 + pa) (s1 + pa + l) e1) by lia.
        rewrite (seg_app m (s2 + pb) (s2 + pb + l) e2) by lia.
        rewrite <- HC; destruct HC2 as [r [x ->]].
        eexists _, _, x; split; reflexivity.
      * destruct (P2 Hs) as [a' [b' [x [-> ->]]]].
        eexists _, _, x; split; reflexivity.
Qed.

(** a longest common run cannot be preceded or followed by the same token *)
Lemma lcs_left_maximal (a b : list T) pa pb l :
  is_first_lcs a b pa pb l -> ~ same_last (slice a 0 pa) (slice b 0 pb).
Proof.
  intros [[[A1 [A2 A3]] A4] _] [a' [b' [x [Ha Hb]]]].
  assert (La : length (slice a 0 pa) = pa) by (apply slice_length; lia).
  assert (Lb : length (slice b 0 pb) = pb) by (apply slice_length; lia).
  rewrite Ha, app_length in La; rewrite Hb, app_length in Lb; cbn in La, Lb.
  assert (Hda : a = a' ++ [x] ++ skipn pa a).
  { rewrite app_assoc, <- Ha; unfold slice; cbn; now rewrite firstn_skipn. }
  assert (Hdb : b = b' ++ [x] ++ skipn pb b).
  { rewrite app_assoc, <- Hb; unfold slice; cbn; now rewrite firstn_skipn. }
  assert (C : S l <= l); [|lia].
  apply (A4 (length a') (length b')); split; [lia|]; split; [lia|].
  assert (Sa : slice a (length a') (S l) = x :: slice a pa l).
  { unfold slice; rewrite Hda at 1; rewrite skipn_app, skipn_all, Nat.sub_diag; cbn; reflexivity. }
  assert (Sb : slice b (length b') (S l) = x :: slice b pb l).
  { unfold slice; rewrite Hdb at 1; rewrite skipn_app, skipn_all, Nat.sub_diag; cbn; reflexivity. }
  rewrite Sa, Sb, A3; reflexivity.
Qed.
Lemma firstn_S_snoc (l r : list T) x n : skipn n l = x :: r -> firstn (S n) l = firstn n l ++ [x].
Proof.
  revert l; induction n as [|n IH]; intros l H; cbn in *; [now rewrite H|].
  destruct l as [|y l]; [discriminate|]; cbn; f_equal; now apply IH.
Qed.
Lemma lcs_right_maximal (a b : list T) pa pb l :
  is_first_lcs a b pa pb l -> ~ same_first (skipn (pa + l) a) (skipn (pb + l) b).
Proof.
  intros [[[A1 [A2 A3]] A4] _] [a' [b' [x [Ha Hb]]]].
  assert (La : length (skipn (pa + l) a) = S (length a')) by (rewrite Ha; reflexivity).
  assert (Lb : length (skipn (pb + l) b) = S (length b')) by (rewrite Hb; reflexivity).
  rewrite skipn_length in La, Lb.
  assert (C : S l <= l); [|lia].
  apply (A4 pa pb); split; [lia|]; split; [lia|].
  unfold slice in *.
  rewrite (firstn_S_snoc _ a' x) by (rewrite skipn_skipn, (Nat.add_comm l pa); exact Ha).
  rewrite (firstn_S_snoc _ b' x) by (rewrite skipn_skipn, (Nat.add_comm l pb); exact Hb).
  now rewrite A3.
Qed.

Lemma good_normal o m s1 e1 s2 e2 c : good o m s1 e1 s2 e2 c ->
  s1 <= e1 -> s2 <= e2 -> e1 <= length o -> e2 <= length m ->
  normal_diff (as_diff_stream o c).
Proof.
  induction 1 as [s1 e1 s2 e2 os ms Hd _ _|s1 e1 s2 e2 pa pb l p s HL Hl Hb1 Hb2 Gp IHp Gs IHs]; intros Q1 Q2 H1 H2; cbn [as_diff_stream].
  - destruct (_ || _) eqn:Hn.
    + split.
      * intros [|k] x y Hx Hy; cbn in *; [discriminate|destruct k; discriminate].
      * constructor; [|constructor]; split; [|intros x Ha Hb; apply (Hd x); auto].
        intros [C1 C2]; rewrite C1, C2 in Hn; discriminate.
    + split; [intros [|k] x y Hx Hy; discriminate|constructor].
  - destruct IHp as [P1 P2]; [lia|lia|lia|lia|]; destruct IHs as [S1 S2]; [lia|lia|lia|lia|].
    split.
    + apply alternating_app; auto.
      * intros C; apply (good_ends _ _ _ _ _ _ _ Gp) in C; try lia.
        apply (lcs_left_maximal _ _ _ _ _ HL).
        rewrite !slice_seg by lia; rewrite !Nat.add_0_r; unfold seg in C.
        replace (s1 + pa - s1) with pa in C by lia; replace (s2 + pb - s2) with pb in C by lia; exact C.
      * intros C; apply (good_ends _ _ _ _ _ _ _ Gs) in C; try lia.
        apply (lcs_right_maximal _ _ _ _ _ HL).
        rewrite (seg_app o s1 (s1 + pa + l) e1), (seg_app m s2 (s2 + pb + l) e2) by lia.
        rewrite !skipn_app, !seg_length by lia.
        rewrite (skipn_all2 (seg o s1 (s1 + pa + l))), (skipn_all2 (seg m s2 (s2 + pb + l)))
          by (rewrite seg_length; lia).
        replace (pa + l - (s1 + pa + l - s1)) with 0 by lia.
        replace (pb + l - (s2 + pb + l - s2)) with 0 by lia; exact C.
    + apply Forall_app; split; [exact P2|]; constructor; [|exact S2].
      unfold item_ok; rewrite sl_seg; cbn [eff]; intros C.
      assert (K : length (seg o (s1 + pa) (s1 + pa + l)) = l) by (rewrite seg_length; lia).
      rewrite C in K; cbn in K; lia.
Qed.
End Proofs.
