(** Which version moves when one is added (C120). *)
From Coq Require Import Lia Permutation.
From Verif Require Import Base Tree SpecTree TreeProofs TreeExact TreeComb TreeShape DbVersions TreeRake SpecWays WaysNumbers.
Local Open Scope nat_scope.

Lemma nth_rev {A} (l : list A) i t : nth_error l i = Some t -> nth_error (rev l) (length l - S i) = Some t.
Proof.
  revert i; induction l as [|a l IH]; intros [|i] H; cbn [nth_error rev length] in *; try discriminate.
  - injection H as ->. rewrite nth_error_app2; rewrite rev_length; [|lia]. now replace (S (length l) - 1 - length l) with 0 by lia.
  - pose proof (proj1 (nth_error_Some l i) ltac:(congruence)). rewrite nth_error_app1; [|rewrite rev_length; lia]. exact (IH i H).
Qed.
Lemma in_numbered {A} (l : list A) t : In t l -> exists i, i < length l /\ nth_error (rev l) i = Some t.
Proof.
  intros H. apply in_rev, In_nth_error in H as [i H]. exists i. split; [|exact H].
  rewrite <- rev_length. apply nth_error_Some. congruence.
Qed.
Lemma nth_firstn {A} (l : list A) n i t : nth_error (firstn n l) i = Some t -> nth_error l i = Some t.
Proof. revert l i; induction n as [|n IH]; intros [|a l] [|i] H; cbn in *; try discriminate; auto. Qed.
Lemma nth_place {A} (l : list A) a t b : l = a ++ t :: b -> nth_error l (length a) = Some t.
Proof. intros ->. rewrite nth_error_app2, Nat.sub_diag by lia. reflexivity. Qed.

Section Ways.
Context {K : Type} {E : Teq K} {O : TeqOk K}.
Implicit Type s : nodes K.

(** the parents of the versions of a line, newest first, are those of [hangs] *)
Definition hung s (ls : list K) : Prop := forall i j t u, nth_error (rev ls) i = Some t -> nth_error (rev ls) j = Some u ->
  (child_of s t u <-> hangs (length ls) i j).

Lemma phase_moves s x p (l : rake) ls n : tree_ok s -> numbered s -> raked s l -> phase (length ls) (lens l) -> first_of l = Some x ->
  split_way s 1 x p -> map fst l = firstn n ls -> Permutation (rtags l) ls -> hung s ls ->
  exists y, moves (length ls) y /\ nth_error (rev ls) y = Some (last p x).
Proof.
  intros T Nu R [k [j Ph]] Fx W Sp P Hu.
  assert (Any : forall p', split_way s 1 x p' -> p' = p) by (intros p' H; exact (way_unique s 1 x p' Nu H p W)).
  assert (At : forall a q b, map fst l = a ++ q :: b -> nth_error (rev ls) (length ls - S (length a)) = Some q).
  { intros a q b H. rewrite Sp in H. apply nth_rev. apply (nth_firstn _ n). exact (nth_place _ a q b H). }
  destruct Ph as [[Hj [Hl Hm]]|[H0 [Hj [Hl Hm]]]].
  - destruct (way_A s T l R k j Hj Hl) as [l0 [y [t [r [Q [Ht [L0 [Fr W']]]]]]]].
    assert (r = x) by congruence; subst r. rewrite <- (Any _ W'), last_last.
    assert (Len : length (map fst l0) = k - 1) by (rewrite map_length, <- lens_length, L0, app_length, !repeat_length; lia).
    exists (length ls - k). split; [exists k; left; nia|].
    replace (length ls - k) with (length ls - S (length (map fst l0))) by lia. apply (At _ y []). now rewrite Q, map_app.
  - destruct (Nat.eq_dec j k) as [->|Ek].
    + destruct (way_B_end s T l R k H0 Hl) as [l1 [y [l2 [r [Q [L1 [L2 [Fr W']]]]]]]].
      assert (r = x) by congruence; subst r. rewrite <- (Any _ W'), last_last.
      assert (Len : length (map fst l1) = k) by (rewrite map_length, <- lens_length, L1, repeat_length; lia).
      exists (length ls - S k). split; [exists k; right; right; lia|]. rewrite <- Len. apply (At _ y (map fst l2)). now rewrite Q, map_app.
    + destruct (way_B s T l R k j H0 ltac:(lia) Hl) as [l1 [q [y [t [l2 [r [Q [Ln1 [Ht [L2 [L1 [Fr W']]]]]]]]]]]].
      assert (r = x) by congruence; subst r. rewrite <- (Any _ W'), last_last.
      assert (Iq : In q (rtags l)) by (rewrite Q, rtags_app, in_app_iff; right; now left).
      assert (Iy : In y (rtags l)) by (rewrite Q, rtags_app, in_app_iff; right; right; now left).
      assert (Hq : nth_error (rev ls) (length ls - k) = Some q).
      { replace (length ls - k) with (length ls - S (length (map fst l1))) by (rewrite map_length; lia).
        apply (At _ q (map fst l2)). now rewrite Q, map_app. }
      destruct (in_numbered ls y (Permutation_in y P Iy)) as [i [Li Hi]]. exists i. split; [|exact Hi].
      assert (Cy : child_of s y q).
      { apply (r_edges s l R); [exact Iq|]. rewrite Q, redges_app. right; right. apply redges_cons. left. now left. }
      apply (Hu i (length ls - k) y q Hi Hq) in Cy.
      assert (Ny : 0 < j -> i + 1 + k <> length ls).
      { intros Lj C. destruct l2 as [|[q' t'] l2]; [destruct j; [lia|discriminate]|].
        assert (Hq' : nth_error (rev ls) (length ls - S (length (map fst l1 ++ [q]))) = Some q').
        { apply (At _ q' (map fst l2)). rewrite Q, map_app. cbn [map fst]. now rewrite <- app_assoc. }
        rewrite app_length, map_length, Ln1 in Hq'. cbn [length] in Hq'. replace (length ls - S (k - 1 + 1)) with i in Hq' by lia.
        assert (y = q') by congruence. subst q'. pose proof (r_nodup s l R) as N. rewrite Q, rtags_app in N.
        destruct (nodup_app _ _ N) as [_ [N2 _]]. change (rtags ((q, y :: t) :: (y, t') :: l2)) with (q :: y :: t ++ y :: t' ++ rtags l2) in N2.
        inversion N2 as [|? ? _ N3]; subst. inversion N3 as [|? ? N4 _]; subst. apply N4. rewrite in_app_iff. right; now left. }
      exists k. right; left. split; [lia|]. split; [lia|].
      destruct Cy as (L & b & A & B & H). rewrite Hm in H, L, Ny |- *.
      assert (0 < b) by (destruct b; lia). blocks b k; lia.
Qed.
Lemma hung_one s a : (forall c, ~ child_of s c a) -> hung s [a].
Proof.
  intros H i j t u Hi Hj. destruct i as [|[|i]], j as [|[|j]]; cbn in Hi, Hj; try discriminate. injection Hi as <-. injection Hj as <-.
  split; [intros C; now apply H in C|intros [L _]; cbn in L; lia].
Qed.
Lemma hung_same s s' ls : (forall q c, In q ls -> (child_of s' c q <-> child_of s c q)) -> hung s ls -> hung s' ls.
Proof. intros H U i j t u Hi Hj. rewrite H; [now apply U|]. apply in_rev. exact (nth_error_In _ _ Hj). Qed.
Lemma hung_step s s' a x y ls k : dget s a = None -> (forall c, ~ child_of s c a) ->
  (forall c q, child_of s' c q <-> (q = a /\ (c = x \/ c = y)) \/ (c <> x /\ c <> y /\ child_of s c q)) ->
  hung s ls -> NoDup ls -> ~ In a ls -> hd_error ls = Some x -> moves (length ls) k -> nth_error (rev ls) k = Some y -> hung s' (a :: ls).
Proof.
  intros Na Noc Hch Hu N Ia Hx Mv Hy. set (m := length ls) in *.
  assert (M : 0 < m) by (unfold m; destruct ls; [discriminate|cbn; lia]).
  assert (Hx' : nth_error (rev ls) (m - 1) = Some x) by (apply nth_rev; destruct ls; [discriminate|exact Hx]).
  assert (Num : forall i i' t, nth_error (rev ls) i = Some t -> nth_error (rev ls) i' = Some t -> i = i').
  { intros i i' t A B. apply (proj1 (NoDup_nth_error (rev ls))); [now apply NoDup_rev| |congruence]. apply nth_error_Some; congruence. }
  assert (Old : forall i t, nth_error (rev (a :: ls)) i = Some t -> (i = m /\ t = a) \/ (i < m /\ t <> a /\ nth_error (rev ls) i = Some t)).
  { intros i t H. cbn [rev] in H. destruct (lt_dec i m) as [L|L].
    - rewrite nth_error_app1 in H by (rewrite rev_length; exact L). right. split; [exact L|]. split; [|exact H].
      intros ->. apply Ia, in_rev. exact (nth_error_In _ _ H).
    - rewrite nth_error_app2 in H by (rewrite rev_length; fold m; lia). rewrite rev_length in H. fold m in H.
      destruct (i - m) as [|d] eqn:Q; [|destruct d; discriminate]. injection H as <-. left. split; [lia|reflexivity]. }
  assert (Ly : k < m) by (unfold m; rewrite <- rev_length; apply nth_error_Some; congruence).
  intros i j t u Hi Hj. cbn [length]. fold m. rewrite (hangs_next m k i j M Mv), Hch.
  destruct (Old i t Hi) as [[-> ->]|(Li & Ti & Hi')], (Old j u Hj) as [[-> ->]|(Lj & Uj & Hj')].
  - split; [intros [[_ [C|C]]|(_ & _ & C)]|intros [[_ [C|C]]|(_ & _ & C)]]; try lia.
    + exfalso; apply Ia, in_rev; rewrite C; exact (nth_error_In _ _ Hx').
    + exfalso; apply Ia, in_rev; rewrite C; exact (nth_error_In _ _ Hy).
    + now apply Noc in C.
    + apply hangs_up in C; lia.
  - split; [intros [[C _]|(_ & _ & [n [C _]])]; [contradiction|congruence]|].
    intros [[C _]|(_ & _ & C)]; [lia|apply hangs_up in C; lia].
  - split.
    + intros [[_ [-> | ->]]|(_ & _ & C)]; [left; split; [reflexivity|left]|left; split; [reflexivity|right]|now apply Noc in C].
      * rewrite (Num _ _ _ Hi' Hx'). lia.
      * exact (Num _ _ _ Hi' Hy).
    + intros [[_ [C|C]]|(_ & _ & C)]; [| |apply hangs_up in C; lia].
      * left. split; [reflexivity|left]. replace i with (m - 1) in Hi' by lia. congruence.
      * left. split; [reflexivity|right]. subst i. congruence.
  - rewrite (Hu i j t u Hi' Hj'). fold m. split.
    + intros [[C _]|(A & B & C)]; [contradiction|]. right. split; [|split; [|exact C]].
      * intros Q. apply A. replace i with (m - 1) in Hi' by lia. congruence.
      * intros ->. apply B. congruence.
    + intros [[C _]|(A & B & C)]; [lia|]. right. split; [|split; [|exact C]].
      * intros ->. apply A. pose proof (Num _ _ _ Hi' Hx'). lia.
      * intros ->. apply B. exact (Num _ _ _ Hi' Hy).
Qed.
End Ways.
