(** Proofs for C77 and C78. *)
From Verif Require Import Base Changesets Merge SpecDiff SpecGreedy SpecMerge SpecEdits DiffGreedy MergeLaws.

Section Edits.
Context {T : Type} {E : Teq T} {O : TeqOk T}.
Implicit Types s : list (ditem T).

Lemma kept_before s x : In x (kept s) -> In x (diff_before s).
Proof. intros H. apply in_flat_map in H as (i & I & J). apply in_flat_map. exists i. split; [exact I|]. destruct i; [exact J|destruct J]. Qed.
Lemma kept_after s x : In x (kept s) -> In x (diff_after s).
Proof. intros H. apply in_flat_map in H as (i & I & J). apply in_flat_map. exists i. split; [exact I|]. destruct i; [exact J|destruct J]. Qed.
Lemma taken_before s x : In x (taken s) -> In x (diff_before s).
Proof. intros H. apply in_flat_map in H as (i & I & J). apply in_flat_map. exists i. split; [exact I|]. destruct i; [destruct J|exact J]. Qed.
Lemma inserted_after s x : In x (inserted s) -> In x (diff_after s).
Proof. intros H. apply in_flat_map in H as (i & I & J). apply in_flat_map. exists i. split; [exact I|]. destruct i; [destruct J|exact J]. Qed.
Lemma before_cases s x : In x (diff_before s) -> In x (kept s) \/ In x (taken s).
Proof.
  intros H. apply in_flat_map in H as (i & I & J). destruct i; [left|right]; apply in_flat_map; eexists; (split; [exact I|exact J]).
Qed.
Lemma after_cases s x : In x (diff_after s) -> In x (kept s) \/ In x (inserted s).
Proof.
  intros H. apply in_flat_map in H as (i & I & J). destruct i; [left|right]; apply in_flat_map; eexists; (split; [exact I|exact J]).
Qed.

(** the part of [distinct_edits] needed about parts of a script *)
Definition dist s := NoDup (kept s) /\ disjoint (inserted s) (diff_before s) /\ disjoint (taken s) (diff_after s).

Lemma kept_app s t : kept (s ++ t) = kept s ++ kept t. Proof. apply flat_map_app. Qed.
Lemma taken_app s t : taken (s ++ t) = taken s ++ taken t. Proof. apply flat_map_app. Qed.
Lemma inserted_app s t : inserted (s ++ t) = inserted s ++ inserted t. Proof. apply flat_map_app. Qed.
Lemma before_app' s t : diff_before (s ++ t) = diff_before s ++ diff_before t. Proof. apply flat_map_app. Qed.
Lemma after_app' s t : diff_after (s ++ t) = diff_after s ++ diff_after t. Proof. apply flat_map_app. Qed.

Lemma NoDup_app_l {A} (a b : list A) : NoDup (a ++ b) -> NoDup a.
Proof. induction a as [|x a IH]; cbn; [constructor|]. inversion 1; subst. constructor; [|auto]. intros I. apply H2, in_or_app; left; exact I. Qed.
Lemma dist_l s t : dist (s ++ t) -> dist s.
Proof.
  intros (N & I & R). rewrite kept_app in N. rewrite inserted_app, before_app' in I. rewrite taken_app, after_app' in R.
  split; [apply NoDup_app_l in N; exact N|].
  split; intros x A B; [apply (I x)|apply (R x)]; apply in_or_app; left; assumption.
Qed.
Lemma NoDup_app_r {A} (a b : list A) : NoDup (a ++ b) -> NoDup b.
Proof. induction a; cbn; [auto|]. inversion 1; auto. Qed.
Lemma dist_r s t : dist (s ++ t) -> dist t.
Proof.
  intros (N & I & R). rewrite kept_app in N. rewrite inserted_app, before_app' in I. rewrite taken_app, after_app' in R.
  split; [apply NoDup_app_r in N; exact N|].
  split; intros x A B; [apply (I x)|apply (R x)]; apply in_or_app; right; assumption.
Qed.

Lemma common_kept s v x : dist s -> common_to (diff_before s) (diff_after s) v -> In x v -> In x (kept s).
Proof.
  intros (N & I & R) ((p & q & Eo) & (p' & q' & Em)) H.
  assert (In x (diff_before s)) as B by (rewrite Eo; apply in_or_app; right; apply in_or_app; left; exact H).
  assert (In x (diff_after s)) as A by (rewrite Em; apply in_or_app; right; apply in_or_app; left; exact H).
  destruct (before_cases _ _ B) as [K|K]; [exact K|]. destruct (R x K A).
Qed.

Lemma app_cut {A} (a b c d : list A) : a ++ b = c ++ d -> length a <= length c -> exists e, c = a ++ e /\ b = e ++ d.
Proof.
  revert c; induction a as [|x a IH]; intros c Eq L; cbn in *; [exists c; auto|].
  destruct c as [|y c]; cbn in L; [lia|]. injection Eq as -> Eq. destruct (IH c Eq ltac:(lia)) as (e & -> & ->). exists e; auto.
Qed.
Lemma nodup_split {A} (x : A) a b c d : NoDup (a ++ x :: b) -> a ++ x :: b = c ++ x :: d -> a = c /\ b = d.
Proof.
  revert c; induction a as [|y a IH]; intros c N Eq; cbn in *.
  - destruct c as [|z c]; cbn in Eq; [injection Eq as ->; auto|].
    injection Eq as -> Eq. inversion N as [|? ? H]; subst. destruct H. apply in_or_app; right; left; reflexivity.
  - destruct c as [|z c]; cbn in Eq.
    + injection Eq as -> Eq. inversion N as [|? ? H]; subst. destruct H. apply in_or_app; right; left; reflexivity.
    + injection Eq as -> Eq. inversion N; subst. destruct (IH c H2 Eq) as (-> & ->). auto.
Qed.

(** a run common to both texts is inside one of the runs the script keeps *)
Lemma alternating_tl (i : ditem T) s : alternating (i :: s) -> alternating s.
Proof. intros H k x y A B. apply (H (S k) x y A B). Qed.

Lemma common_inside s : dist s -> alternating s -> Forall item_ok s -> forall v p q p' q', v <> [] ->
  diff_before s = p ++ v ++ q -> diff_after s = p' ++ v ++ q' ->
  exists s1 t s2 x y, s = s1 ++ DText t :: s2 /\ t = x ++ v ++ y /\ p = diff_before s1 ++ x /\ p' = diff_after s1 ++ x.
Proof.
  induction s as [|i s IH]; intros D Al Ok v p q p' q' Ne Eo Em.
  { cbn in Eo. destruct p; [|discriminate]. destruct v; [congruence|discriminate]. }
  assert (D' : dist s) by (apply (dist_r [i] s); exact D).
  destruct v as [|a v]; [congruence|].
  assert (Ka : In a (kept (i :: s))).
  { apply (common_kept _ (a :: v) a D); [|left; reflexivity]. split; eauto. }
  pose proof (alternating_tl _ _ Al) as Al'. inversion Ok as [|? ? Oi Ok']; subst.
  destruct i as [t|ins del].
  - cbn [diff_before diff_after flat_map] in Eo, Em. fold (diff_before s) in Eo. fold (diff_after s) in Em.
    destruct D as (N & I & R). cbn [kept flat_map] in N. fold (kept s) in N.
    cbn [inserted diff_before flat_map app] in I. fold (inserted s) in I. fold (diff_before s) in I.
    cbn [taken diff_after flat_map app] in R. fold (taken s) in R. fold (diff_after s) in R.
    assert (Nt : forall x, In x t -> ~ In x (diff_before s) /\ ~ In x (diff_after s)).
    { intros x Ht. split; intros H.
      - destruct (before_cases _ _ H) as [K|K].
        + apply in_split in Ht as (t1 & t2 & ->). rewrite <- app_assoc in N. apply NoDup_app_r in N. cbn in N. inversion N as [|? ? H1]; subst. apply H1, in_or_app; right; exact K.
        + apply (R x K). apply in_or_app; left; exact Ht.
      - destruct (after_cases _ _ H) as [K|K].
        + apply in_split in Ht as (t1 & t2 & ->). rewrite <- app_assoc in N. apply NoDup_app_r in N. cbn in N. inversion N as [|? ? H1]; subst. apply H1, in_or_app; right; exact K.
        + apply (I x K). apply in_or_app; left; exact Ht. }
    destruct (Nat.lt_ge_cases (length p) (length t)) as [L|L].
    + (* the run begins in t *)
      symmetry in Eo. destruct (app_cut p (((a :: v)) ++ q) t (diff_before s) Eo ltac:(lia)) as (e & -> & E1).
      destruct e as [|a' e]; [rewrite app_nil_r in L; lia|]. cbn in E1. injection E1 as <- E1.
      assert (Ha : In a (p ++ a :: e)) by (apply in_or_app; right; left; reflexivity).
      assert (L' : length p' < length (p ++ a :: e)).
      { destruct (Nat.lt_ge_cases (length p') (length (p ++ a :: e))) as [|G]; [assumption|exfalso].
        destruct (app_cut _ _ _ _ Em ltac:(lia)) as (f & -> & E2).
        apply (proj2 (Nt a Ha)). rewrite E2. apply in_or_app; right; left; reflexivity. }
      symmetry in Em. destruct (app_cut p' (((a :: v)) ++ q') _ _ Em ltac:(lia)) as (e' & E2 & E3).
      destruct e' as [|a' e']; [rewrite E2, app_nil_r in L'; lia|]. cbn in E3. injection E3 as <- E3.
      apply NoDup_app_l in N. destruct (nodup_split a p e p' e' N E2) as (<- & <-). clear E2.
      destruct (Nat.le_gt_cases (length v) (length e)) as [Lv|Lv].
      * destruct (app_cut v q e (diff_before s) E1 Lv) as (y & -> & _).
        exists [], (p ++ a :: v ++ y), s, p, y. cbn. auto.
      * exfalso. symmetry in E1, E3.
        destruct (app_cut e _ v q E1 ltac:(lia)) as (r & -> & B1).
        rewrite <- app_assoc in E3. apply app_inv_head in E3.
        destruct r as [|b r]; [rewrite app_nil_r in Lv; lia|].
        destruct s as [|[t'|ins del] s'].
        -- discriminate B1.
        -- destruct (Al 0 (DText (p ++ a :: e)) (DText t') eq_refl eq_refl) as [(_ & x & y & H)|((x & y & H) & _)]; discriminate H.
        -- cbn [diff_before diff_after flat_map] in B1, E3. inversion Ok' as [|? ? Oc _]; subst. destruct Oc as (Oc & _).
           destruct del as [|z del].
           ++ destruct ins as [|z ins]; [apply Oc; auto|]. cbn in E3. injection E3 as -> _.
              apply (I b); [left; reflexivity|]. apply in_or_app; right. cbn [diff_before flat_map app] in *.  rewrite B1. left; reflexivity.
           ++ cbn in B1. injection B1 as -> _. apply (R b); [left; reflexivity|]. apply in_or_app; right.
              cbn [diff_after flat_map]. rewrite E3. left; reflexivity.
    + (* it begins behind t *)
      destruct (app_cut t _ p _ Eo L) as (p1 & -> & E1).
      assert (Ha : In a (diff_before s)) by (rewrite E1; apply in_or_app; right; left; reflexivity).
      assert (L' : length t <= length p').
      { destruct (Nat.lt_ge_cases (length p') (length t)) as [G|]; [exfalso|assumption].
        symmetry in Em. destruct (app_cut p' _ _ _ Em ltac:(lia)) as (f & -> & E2).
        destruct f as [|a' f]; [rewrite app_nil_r in G; lia|]. cbn in E2. injection E2 as <- _.
        assert (In a (p' ++ a :: f)) as Hf by (apply in_or_app; right; left; reflexivity). apply (proj1 (Nt a Hf)). exact Ha. }
      destruct (app_cut t _ p' _ Em L') as (p1' & -> & E2).
      destruct (IH D' Al' Ok' (a :: v) p1 q p1' q' ltac:(congruence) E1 E2) as (s1 & w & s2 & x & y & -> & -> & -> & ->).
      exists (DText t :: s1), (x ++ (a :: v) ++ y), s2, x, y. cbn. rewrite <- !app_assoc. auto.
  - cbn [diff_before diff_after flat_map] in Eo, Em. fold (diff_before s) in Eo. fold (diff_after s) in Em.
    destruct D as (N & I & R). cbn [kept flat_map app] in N, Ka. fold (kept s) in N, Ka.
    cbn [inserted diff_before flat_map] in I. fold (inserted s) in I. fold (diff_before s) in I.
    cbn [taken diff_after flat_map] in R. fold (taken s) in R. fold (diff_after s) in R.
    assert (length del <= length p) as L.
    { destruct (Nat.lt_ge_cases (length p) (length del)) as [G|]; [exfalso|assumption].
      symmetry in Eo. destruct (app_cut p _ _ _ Eo ltac:(lia)) as (f & -> & E2).
      destruct f as [|a' f]; [rewrite app_nil_r in G; lia|]. cbn in E2. injection E2 as <- _.
      apply (R a); apply in_or_app; [left; apply in_or_app; right; left; reflexivity|right; apply kept_after; exact Ka]. }
    assert (length ins <= length p') as L'.
    { destruct (Nat.lt_ge_cases (length p') (length ins)) as [G|]; [exfalso|assumption].
      symmetry in Em. destruct (app_cut p' _ _ _ Em ltac:(lia)) as (f & -> & E2).
      destruct f as [|a' f]; [rewrite app_nil_r in G; lia|]. cbn in E2. injection E2 as <- _.
      apply (I a); apply in_or_app; [left; apply in_or_app; right; left; reflexivity|right; apply kept_before; exact Ka]. }
    destruct (app_cut del _ p _ Eo L) as (p1 & -> & E1).
    destruct (app_cut ins _ p' _ Em L') as (p1' & -> & E2).
    destruct (IH D' Al' Ok' (a :: v) p1 q p1' q' ltac:(congruence) E1 E2) as (s1 & w & s2 & x & y & -> & -> & -> & ->).
    exists (DChange ins del :: s1), (x ++ (a :: v) ++ y), s2, x, y. cbn. rewrite <- !app_assoc. auto.
Qed.

Lemma longest_text s : (exists t, In (DText t) s) ->
  exists s1 w s2, s = s1 ++ DText w :: s2 /\ (forall t, In (DText t) s1 -> length t < length w) /\
    (forall t, In (DText t) s2 -> length t <= length w).
Proof.
  induction s as [|i s IH]; intros (t & H); [destruct H|].
  assert (Dec : (exists t, In (DText t) s) \/ ~ exists t, In (DText t) s).
  { clear. induction s as [|[t|a b] s IH]; [right; intros (t & [])|left; exists t; left; reflexivity|].
    destruct IH as [(t & H)|H]; [left; exists t; right; exact H|right; intros (t & [F|F]); [discriminate|apply H; eauto]]. }
  destruct Dec as [D|D].
  - destruct (IH D) as (s1 & w & s2 & -> & A & B). destruct i as [u|a b].
    + destruct (Nat.lt_ge_cases (length u) (length w)) as [L|L].
      * exists (DText u :: s1), w, s2. split; [reflexivity|]. split; [|exact B].
        intros t' [F|F]; [injection F as <-; exact L|apply A; exact F].
      * exists [], u, (s1 ++ DText w :: s2). split; [reflexivity|]. split; [intros ? []|].
        intros t' F. apply in_app_or in F as [F|[F|F]]; [apply A in F; lia|injection F as <-; exact L|apply B in F; lia].
    + exists (DChange a b :: s1), w, s2. split; [reflexivity|]. split; [|exact B].
      intros t' [F|F]; [discriminate|apply A; exact F].
  - destruct H as [H|H]; [subst i|exfalso; eauto].
    exists [], t, s. split; [reflexivity|]. split; [intros ? []|]. intros t' F. exfalso; eauto.
Qed.

Lemma alternating_l s t : alternating (s ++ t) -> alternating s.
Proof.
  intros H k x y A B. apply (H k x y); rewrite nth_error_app1; try assumption; apply nth_error_Some; congruence.
Qed.
Lemma alternating_r s t : alternating (s ++ t) -> alternating t.
Proof. induction s as [|i s IH]; [auto|]. intros H. apply IH, (alternating_tl i), H. Qed.

(** a script without kept run is at most one change *)
Lemma no_text s : alternating s -> (forall t, ~ In (DText t) s) -> s = [] \/ exists a b, s = [DChange a b].
Proof.
  destruct s as [|[t|a b] s]; intros Al H; [auto|destruct (H t); left; reflexivity|].
  destruct s as [|[t|a' b'] s]; [right; eauto|destruct (H t); right; left; reflexivity|].
  destruct (Al 0 _ _ eq_refl eq_refl) as [((t & F) & _)|(_ & (t & F))]; discriminate F.
Qed.

Lemma text_unique s1 (t : list T) s2 s1' t' s2' : NoDup (kept (s1 ++ DText t :: s2)) -> s1 ++ DText t :: s2 = s1' ++ DText t' :: s2' ->
  forall x, In x t -> In x t' -> s1 = s1' /\ t = t' /\ s2 = s2'.
Proof.
  revert s1'; induction s1 as [|i s1 IH]; intros s1' N Eq x A B.
  - destruct s1' as [|i' s1']; cbn in Eq; [injection Eq as -> ->; auto|].
    injection Eq as <- ->. exfalso. cbn in N. fold (kept (s1' ++ DText t' :: s2')) in N.
    apply in_split in A as (a1 & a2 & ->). rewrite <- app_assoc in N. apply NoDup_app_r in N. cbn in N. inversion N as [|? ? H]; subst.
    apply H, in_or_app; right. rewrite kept_app. apply in_or_app; right. cbn. apply in_or_app; left; exact B.
  - destruct s1' as [|i' s1']; cbn in Eq.
    + injection Eq as -> <-. exfalso. cbn in N. fold (kept (s1 ++ DText t :: s2)) in N.
      apply in_split in B as (a1 & a2 & ->). rewrite <- app_assoc in N. apply NoDup_app_r in N. cbn in N. inversion N as [|? ? H]; subst.
      apply H, in_or_app; right. rewrite kept_app. apply in_or_app; right. cbn. apply in_or_app; left; exact A.
    + injection Eq as -> Eq. cbn [app kept flat_map] in N. apply NoDup_app_r in N.
      destruct (IH s1' N Eq x A B) as (-> & -> & ->). auto.
Qed.

Lemma script_greedy n : forall s, length s <= n -> dist s -> alternating s -> Forall item_ok s ->
  lcs_diff (diff_before s) (diff_after s) s.
Proof.
  induction n as [|n IH]; intros s L D Al Ok.
  { destruct s; [|cbn in L; lia]. apply (lcs_diff_none [] []). intros ? []. }
  assert (Dec : (exists t, In (DText t) s) \/ forall t, ~ In (DText t) s).
  { clear. induction s as [|[t|a b] s IH]; [right; intros t []|left; exists t; left; reflexivity|].
    destruct IH as [(t & H)|H]; [left; exists t; right; exact H|right; intros t [F|F]; [discriminate|apply (H t F)]]. }
  destruct Dec as [Dec|Dec].
  - destruct (longest_text s Dec) as (s1 & w & s2 & -> & A & B).
    assert (Len : forall t, In (DText t) (s1 ++ DText w :: s2) -> length t <= length w).
    { intros t F. apply in_app_or in F as [F|[F|F]]; [apply A in F; lia|injection F as <-; lia|apply B; exact F]. }
    assert (Wne : w <> []).
    { apply Forall_app in Ok as (_ & Ok). inversion Ok; subst; assumption. }
    assert (Eb : diff_before (s1 ++ DText w :: s2) = diff_before s1 ++ w ++ diff_before s2) by (rewrite before_app'; reflexivity).
    assert (Ea : diff_after (s1 ++ DText w :: s2) = diff_after s1 ++ w ++ diff_after s2) by (rewrite after_app'; reflexivity).
    eapply lcs_diff_some; [exact Eb|exact Ea|exact Wne| | | | |].
    + intros v ((p & q & Ho) & (p' & q' & Hm)). destruct v as [|a v]; [cbn; lia|].
      destruct (common_inside _ D Al Ok (a :: v) p q p' q' ltac:(congruence) Ho Hm) as (u1 & t & u2 & x & y & Eq & -> & _ & _).
      specialize (Len (x ++ (a :: v) ++ y)). rewrite !app_length in Len. enough (length (a :: v) <= length x + (length (a :: v) + length y)) by (assert (In (DText (x ++ (a :: v) ++ y)) (s1 ++ DText w :: s2)) as F by (rewrite Eq; apply in_or_app; right; left; reflexivity); apply Len in F; lia). lia.
    + intros v p' q' ((p & q & Ho) & _) Lv Hm. destruct v as [|a v]; [destruct w; [congruence|discriminate]|].
      destruct (common_inside _ D Al Ok (a :: v) p q p' q' ltac:(congruence) Ho Hm) as (u1 & t & u2 & x & y & Eq & -> & _ & Ep').
      assert (F : In (DText (x ++ (a :: v) ++ y)) (s1 ++ DText w :: s2)) by (rewrite Eq; apply in_or_app; right; left; reflexivity).
      destruct (Nat.lt_ge_cases (length u1) (length s1)) as [G|G].
      * exfalso. destruct (app_cut u1 _ s1 _ (eq_sym Eq) ltac:(lia)) as (e & -> & Ee).
        destruct e as [|i e]; [rewrite app_nil_r in G; lia|]. cbn in Ee. injection Ee as <- _.
        assert (H : length (x ++ (a :: v) ++ y) < length w) by (apply A, in_or_app; right; left; reflexivity).
        rewrite !app_length in H. lia.
      * destruct (app_cut s1 _ u1 _ Eq G) as (e & -> & _). rewrite Ep', after_app', !app_length. lia.
    + intros p q Ho. destruct (common_inside _ D Al Ok w p q (diff_after s1) (diff_after s2) Wne ltac:(rewrite Ho; reflexivity) Ea) as (u1 & t & u2 & x & y & Eq & -> & -> & _).
      destruct w as [|a w]; [congruence|].
      destruct (text_unique _ _ _ _ _ _ (proj1 D) Eq a (or_introl eq_refl)) as (-> & _ & _); [apply in_or_app; right; left; reflexivity|].
      rewrite app_length. lia.
    + apply IH; [rewrite app_length in L; cbn in L; lia|apply (dist_l _ _ D)|apply (alternating_l _ _ Al)|apply Forall_app in Ok; apply Ok].
    + apply IH; [rewrite app_length in L; cbn in L; lia| | |].
      * apply (dist_r (s1 ++ [DText w])). rewrite <- app_assoc. exact D.
      * apply (alternating_r (s1 ++ [DText w])). rewrite <- app_assoc. exact Al.
      * apply Forall_app in Ok as (_ & Ok). inversion Ok; assumption.
  - destruct (no_text s Al Dec) as [->|(a & b & ->)]; [apply (lcs_diff_none [] []); intros ? []|].
    inversion Ok as [|? ? Oi _]; subst. destruct Oi as (Nb & Dj). cbn. rewrite !app_nil_r.
    replace [DChange a b] with (match b, a with [], [] => [] | _, _ => [DChange a b] end)
      by (destruct b; [destruct a; [destruct Nb; auto|]|]; reflexivity).
    apply lcs_diff_none. intros x X Y. apply (Dj x Y X).
Qed.

(** C77 *)
Theorem diff_finds_edits s : distinct_edits s -> diff_token_sequences (diff_before s) (diff_after s) = Ok s.
Proof.
  intros ((Al & Ok) & N & I & R). apply diff_greedy. apply (script_greedy (length s)); auto. split; [exact N|split; assumption].
Qed.

(** C78 *)
Theorem merge_of_edits k s0 s1 : distinct_edits s0 -> distinct_edits s1 -> diff_before s0 = diff_before s1 ->
  compatible (edits 0 s0) (edits 0 s1) ->
  merge_token_sequence k (diff_before s0) (diff_after s0) (diff_after s1) =
    Ok [DText (union_text (diff_before s0) (edits 0 s0) (edits 0 s1))].
Proof.
  intros D0 D1 Eq C. apply merge_union; [apply diff_finds_edits; exact D0|rewrite Eq; apply diff_finds_edits; exact D1|exact C].
Qed.
End Edits.
