(** Diffs of a text and the same text with one piece inserted or removed. *)
From Coq Require Import Lia.
From Verif Require Import Base SpecDiff SpecGreedy SpecInsert Automaton Changesets DiffGreedy ChangesetsProofs.

Section Lists.
Context {T : Type}.
Implicit Types a b o m p q v w x : list T.

Lemma app_nil_len a b o : a ++ o ++ b = o -> a = [] /\ b = [].
Proof.
  intros H. apply (f_equal (@length T)) in H. rewrite !app_length in H.
  split; apply length_zero_iff_nil; lia.
Qed.
Lemma middle_all o o1 w o2 : o = o1 ++ w ++ o2 -> length o <= length w -> o1 = [] /\ w = o /\ o2 = [].
Proof.
  intros -> H. rewrite !app_length in H.
  assert (o1 = []) by (apply length_zero_iff_nil; lia). assert (o2 = []) by (apply length_zero_iff_nil; lia).
  subst. now rewrite app_nil_r.
Qed.
Lemma nodup_place p q p' q' (z : T) : NoDup (p ++ z :: q) -> p ++ z :: q = p' ++ z :: q' -> p = p' /\ q = q'.
Proof.
  revert p'. induction p as [|y p IH]; intros [|y' p'] N H; cbn in *.
  - now injection H.
  - injection H as <- H. inversion N as [|? ? N1 _]; subst. exfalso; apply N1, in_or_app; right; now left.
  - injection H as -> H. inversion N as [|? ? N1 _]; subst. exfalso; apply N1, in_or_app; right; now left.
  - injection H as <- H. inversion N as [|? ? _ N2]; subst. destruct (IH p' N2 H) as [-> ->]. auto.
Qed.
Lemma nodup_run p v q p' q' : v <> [] -> NoDup (p ++ v ++ q) -> p ++ v ++ q = p' ++ v ++ q' -> p = p' /\ q = q'.
Proof.
  destruct v as [|z v]; [congruence|]. intros _ N H. cbn [app] in *.
  destruct (nodup_place _ _ _ _ _ N H) as [-> H2]. apply app_inv_head in H2. auto.
Qed.
Lemma app_shorter p v a m : p ++ v = a ++ m -> length p <= length a -> exists y, a = p ++ y.
Proof.
  revert a. induction p as [|z p IH]; intros [|z' a] H L; cbn in *; try lia; [exists []; reflexivity|eexists; reflexivity|].
  injection H as <- H. destruct (IH a H ltac:(lia)) as [y ->]. now exists y.
Qed.

(** where a long run of the text without the piece can be in the text with the piece *)
Lemma around_left a b x o1 w o2 m1 m2 : NoDup (a ++ b) -> w <> [] -> a ++ b = o1 ++ w ++ o2 ->
  a ++ x ++ b = m1 ++ w ++ m2 -> length b <= length w -> exists y, m1 = o1 ++ y.
Proof.
  intros N Hw Ho Hm Lb.
  assert (L1 : length o1 <= length a).
  { apply (f_equal (@length T)) in Ho. rewrite !app_length in Ho. lia. }
  destruct (app_shorter o1 (w ++ o2) a b (eq_sym Ho) L1) as [a2 ->].
  rewrite <- app_assoc in Hm.
  destruct (le_lt_dec (length o1) (length m1)) as [L|L].
  - apply (app_shorter o1 (a2 ++ x ++ b) m1 (w ++ m2) Hm L).
  - exfalso. destruct (app_shorter m1 (w ++ m2) o1 (a2 ++ x ++ b) (eq_sym Hm) ltac:(lia)) as [y ->].
    rewrite <- !app_assoc in *. apply app_inv_head in Hm. destruct y as [|z y].
    { rewrite app_nil_r in L. lia. }
    destruct w as [|z' w]; [congruence|]. cbn [app] in Hm. injection Hm as <- Hm.
    rewrite Ho in N. cbn [app] in N. apply NoDup_remove_2 in N. apply N.
    rewrite !in_app_iff. right. right. now left.
Qed.
End Lists.

Section Diffs.
Context {T : Type} {E : Teq T} {O : TeqOk T}.
Implicit Types a b o m p q v w x : list T.

Lemma rev_run a b x : rev (a ++ x ++ b) = rev b ++ rev x ++ rev a.
Proof. now rewrite !rev_app_distr, app_assoc. Qed.
Lemma around a b x o1 w o2 m1 m2 : NoDup (a ++ b) -> w <> [] -> a ++ b = o1 ++ w ++ o2 ->
  a ++ x ++ b = m1 ++ w ++ m2 -> length a <= length w -> length b <= length w ->
  (exists y, m1 = o1 ++ y) /\ (exists y, m2 = y ++ o2).
Proof.
  intros N Hw Ho Hm La Lb. split; [eapply around_left; eauto|].
  destruct (around_left (rev b) (rev a) (rev x) (rev o2) (rev w) (rev o1) (rev m2) (rev m1)) as [y Hy].
  - rewrite <- rev_app_distr. now apply NoDup_rev.
  - intros Z. apply (f_equal (@length T)) in Z. rewrite rev_length in Z. destruct w; [congruence|discriminate].
  - now rewrite <- rev_app_distr, Ho, rev_run.
  - now rewrite <- !rev_run, Hm.
  - now rewrite !rev_length.
  - exists (rev y). rewrite <- (rev_involutive m2), Hy, rev_app_distr, rev_involutive. reflexivity.
Qed.

(** nothing before, nothing after *)
Lemma lcs_diff_nil_l m d : lcs_diff [] m d -> d = inserted m.
Proof.
  inversion 1 as [? ? Hd|? o1 o2 ? m1 m2 w d1 d2 Eo Em Hw]; subst.
  - now destruct m.
  - symmetry in Eo. apply app_eq_nil in Eo as [_ Eo]. apply app_eq_nil in Eo as [? _]. contradiction.
Qed.
Lemma lcs_diff_nil_r o d : lcs_diff o [] d -> d = removed o.
Proof.
  inversion 1 as [? ? Hd|? o1 o2 ? m1 m2 w d1 d2 Eo Em Hw]; subst.
  - now destruct o.
  - symmetry in Em. apply app_eq_nil in Em as [_ Em]. apply app_eq_nil in Em as [? _]. contradiction.
Qed.
Lemma disjoint_self_l o p q : disjoint o (p ++ o ++ q) -> o = [].
Proof. intros H. destruct o as [|z o]; [reflexivity|]. exfalso. apply (H z); [now left|]. rewrite !in_app_iff. right; left; now left. Qed.
Lemma disjoint_self_r o p q : disjoint (p ++ o ++ q) o -> o = [].
Proof. intros H. destruct o as [|z o]; [reflexivity|]. exfalso. apply (H z); [|now left]. rewrite !in_app_iff. right; left; now left. Qed.

(** the whole first text is in the second *)
Lemma contained o m d : lcs_diff o m d -> (exists p q, m = p ++ o ++ q) ->
  exists p q, m = p ++ o ++ q /\ (forall p' q', m = p' ++ o ++ q' -> length p <= length p') /\
    d = inserted p ++ kept o ++ inserted q.
Proof.
  intros H (p & q & Hm).
  inversion H as [? ? Hd|? o1 o2 ? m1 m2 w d1 d2 Eo Em Hw HL HF1 HF2 D1 D2]; subst o0 m0.
  - rewrite Hm in Hd. apply disjoint_self_l in Hd. subst o. exists [], m. split; [reflexivity|].
    split; [intros; apply Nat.le_0_l|]. now destruct m.
  - assert (C : common_to o m o) by (split; [exists [], []; now rewrite app_nil_r|eauto]).
    destruct (middle_all o o1 w o2 Eo (HL o C)) as (-> & -> & ->).
    exists m1, m2. split; [exact Em|]. split.
    + intros p' q' Hp. now apply (HF1 o p' q').
    + apply lcs_diff_nil_l in D1, D2. subst d1 d2. destruct o; [congruence|reflexivity].
Qed.
Lemma containing o m d : lcs_diff o m d -> (exists p q, o = p ++ m ++ q) ->
  exists p q, o = p ++ m ++ q /\ (forall p' q', o = p' ++ m ++ q' -> length p <= length p') /\
    d = removed p ++ kept m ++ removed q.
Proof.
  intros H (p & q & Ho).
  inversion H as [? ? Hd|? o1 o2 ? m1 m2 w d1 d2 Eo Em Hw HL HF1 HF2 D1 D2]; subst o0 m0.
  - rewrite Ho in Hd. apply disjoint_self_r in Hd. subst m. exists [], o. split; [reflexivity|].
    split; [intros; apply Nat.le_0_l|]. now destruct o.
  - assert (C : common_to o m m) by (split; [eauto|exists [], []; now rewrite app_nil_r]).
    destruct (middle_all m m1 w m2 Em (HL m C)) as (-> & -> & ->).
    exists o1, o2. split; [exact Eo|]. split; [exact HF2|].
    apply lcs_diff_nil_r in D1, D2. subst d1 d2. destruct m; [congruence|reflexivity].
Qed.
Lemma shortest_same m o p q p' q' : m = p ++ o ++ q -> m = p' ++ o ++ q' -> length p = length p' -> p = p' /\ q = q'.
Proof.
  intros -> H L. destruct (app_split_len _ _ _ _ H L) as [-> H2]. apply app_inv_head in H2. auto.
Qed.

Lemma inserts_of x : only_inserts (inserted x).
Proof. destruct x; repeat constructor. Qed.
Lemma removes_of x : only_removes (removed x).
Proof. destruct x; repeat constructor. Qed.
Lemma kept_inserts x : only_inserts (kept x).
Proof. destruct x; repeat constructor. Qed.
Lemma kept_removes x : only_removes (kept x).
Proof. destruct x; repeat constructor. Qed.
Lemma contained_inserts o m d p q : lcs_diff o m d -> m = p ++ o ++ q -> only_inserts d.
Proof.
  intros H Hm. destruct (contained o m d H ltac:(eauto)) as (p' & q' & _ & _ & ->).
  unfold only_inserts. rewrite !Forall_app. split; [apply inserts_of|]. split; [apply kept_inserts|apply inserts_of].
Qed.
Lemma containing_removes o m d p q : lcs_diff o m d -> o = p ++ m ++ q -> only_removes d.
Proof.
  intros H Hm. destruct (containing o m d H ltac:(eauto)) as (p' & q' & _ & _ & ->).
  unfold only_removes. rewrite !Forall_app. split; [apply removes_of|]. split; [apply kept_removes|apply removes_of].
Qed.

(** a text without repetitions: one piece inserted, or removed *)
Lemma distinct_inserts a b x d : NoDup (a ++ b) -> lcs_diff (a ++ b) (a ++ x ++ b) d -> only_inserts d.
Proof.
  intros N H. inversion H as [? ? Hd|? o1 o2 ? m1 m2 w d1 d2 Eo Em Hw HL HF1 HF2 D1 D2]; subst.
  - assert (Z : a ++ b = []).
    { destruct (a ++ b) as [|z l] eqn:Q; [reflexivity|]. exfalso. apply (Hd z); [now left|].
      assert (I : In z (a ++ b)) by (rewrite Q; now left). rewrite !in_app_iff in *. tauto. }
    rewrite Z. destruct (a ++ x ++ b); repeat constructor.
  - destruct (around a b x o1 w o2 m1 m2 N Hw Eo Em) as [[y ->] [z ->]].
    + apply HL. split; [exists [], b|exists [], (x ++ b)]; reflexivity.
    + apply HL. split; [exists a, []|exists (a ++ x), []]; rewrite app_nil_r, ?app_assoc; reflexivity.
    + apply Forall_app; split; [exact (contained_inserts _ _ _ [] y D1 eq_refl)|]. constructor; [exact Logic.I|].
      apply (contained_inserts _ _ _ z [] D2). now rewrite app_nil_r.
Qed.
Lemma distinct_removes a b x d : NoDup (a ++ b) -> lcs_diff (a ++ x ++ b) (a ++ b) d -> only_removes d.
Proof.
  intros N H. inversion H as [? ? Hd|? o1 o2 ? m1 m2 w d1 d2 Eo Em Hw HL HF1 HF2 D1 D2]; subst.
  - assert (Z : a ++ b = []).
    { destruct (a ++ b) as [|z l] eqn:Q; [reflexivity|]. exfalso. apply (Hd z); [|now left].
      assert (I : In z (a ++ b)) by (rewrite Q; now left). rewrite !in_app_iff in *. tauto. }
    rewrite Z. destruct (a ++ x ++ b); repeat constructor.
  - destruct (around a b x m1 w m2 o1 o2 N Hw Em Eo) as [[y ->] [z ->]].
    + apply HL. split; [exists [], (x ++ b)|exists [], b]; reflexivity.
    + apply HL. split; [exists (a ++ x), []|exists a, []]; rewrite app_nil_r, ?app_assoc; reflexivity.
    + apply Forall_app; split; [exact (containing_removes _ _ _ [] y D1 eq_refl)|]. constructor; [exact Logic.I|].
      apply (containing_removes _ _ _ z [] D2). now rewrite app_nil_r.
Qed.

(** a run without a token of the piece is before the piece or after it *)
Lemma run_beside a b x p v q : a ++ x ++ b = p ++ v ++ q -> x <> [] -> v <> [] -> disjoint x v ->
  length p + length v <= length a \/ length a + length x <= length p.
Proof.
  intros H Hx Hv D. assert (0 < length x) by (destruct x; [congruence|cbn; lia]).
  assert (0 < length v) by (destruct v; [congruence|cbn; lia]).
  destruct (le_lt_dec (length p + length v) (length a)) as [?|L1]; [now left|].
  destruct (le_lt_dec (length a + length x) (length p)) as [?|L2]; [now right|]. exfalso.
  set (i := Nat.max (length p) (length a)).
  destruct (nth_error (a ++ x ++ b) i) as [z|] eqn:Z.
  2: { apply nth_error_None in Z. rewrite !app_length in Z. lia. }
  apply (D z).
  - rewrite nth_error_app2, nth_error_app1 in Z by lia. eapply nth_error_In; eauto.
  - rewrite H, nth_error_app2, nth_error_app1 in Z by lia. eapply nth_error_In; eauto.
Qed.
Lemma run_in p v q l z : l = p ++ v ++ q -> In z v -> In z l.
Proof. intros -> H. rewrite !in_app_iff. tauto. Qed.
Lemma fresh_longest a b x v : x <> [] -> disjoint x (a ++ b) -> common_to (a ++ b) (a ++ x ++ b) v ->
  length v <= Nat.max (length a) (length b).
Proof.
  intros Hx D [[p [q Ho]] [p' [q' Hm]]].
  destruct v as [|z v0] eqn:V; [cbn; lia|]. rewrite <- V in *. 
  destruct (run_beside a b x p' v q' Hm Hx ltac:(congruence)) as [L|L]; try lia.
  - intros y Hy Hv. apply (D y Hy). eapply run_in; eauto.
  - apply (f_equal (@length T)) in Hm. rewrite !app_length in Hm. lia.
Qed.
Lemma common_swap o m v : common_to o m v -> common_to m o v.
Proof. intros [A B]. split; assumption. Qed.
Lemma disjoint_nil_l m : disjoint (T:=T) [] m.
Proof. intros z []. Qed.
Lemma disjoint_nil_r m : disjoint (T:=T) m [].
Proof. intros z _ []. Qed.
Lemma only_ins x : x <> [] -> lcs_diff [] x [DChange x []].
Proof. intros Hx. pose proof (lcs_diff_none [] x (disjoint_nil_l x)) as H. destruct x; [congruence|exact H]. Qed.
Lemma only_del x : x <> [] -> lcs_diff x [] [DChange [] x].
Proof. intros Hx. pose proof (lcs_diff_none x [] (disjoint_nil_r x)) as H. destruct x; [congruence|exact H]. Qed.
Lemma no_diff : lcs_diff (T:=T) [] [] [].
Proof. exact (lcs_diff_none [] [] (disjoint_nil_l [])). Qed.

Lemma fresh_ins a b x : x <> [] -> NoDup (a ++ b) -> disjoint x (a ++ b) ->
  lcs_diff (a ++ b) (a ++ x ++ b) (kept a ++ DChange x [] :: kept b).
Proof.
  intros Hx N D.
  assert (Tail : disjoint x b -> NoDup b -> lcs_diff b (x ++ b) (DChange x [] :: kept b)).
  { clear -Hx O. intros D N. destruct b as [|z b0] eqn:B; [rewrite app_nil_r; now apply only_ins|]. rewrite <- B in *.
    assert (K : kept b = [DText b]) by (subst; reflexivity). assert (Hb : b <> []) by (subst; discriminate).
    rewrite K. change [DChange x []; DText b] with ([DChange x []] ++ DText b :: []).
    apply (lcs_diff_some b [] [] (x ++ b) x [] b); auto; try (now rewrite app_nil_r).
    - intros v H. apply (fresh_longest [] b x v Hx D) in H. cbn in H; lia.
    - intros v p q [[p' [q' Hv]] _] L Hm.
      destruct (run_beside [] b x p v q Hm Hx) as [Q|Q]; cbn in *; try lia.
      { intros ->. cbn in L. destruct b; [congruence|discriminate]. }
      { intros y Hy Hyv. apply (D y Hy). eapply run_in; eauto. }
      destruct v; [destruct b; [congruence|discriminate]|cbn in Q; lia].
    - intros; cbn; lia.
    - now apply only_ins.
    - apply no_diff. }
  assert (Db : disjoint x b) by (intros z H1 H2; apply (D z H1), in_or_app; now right).
  assert (Da : disjoint x a) by (intros z H1 H2; apply (D z H1), in_or_app; now left).
  assert (Nb : NoDup b) by (clear -N; induction a; [exact N|inversion N; auto]).
  destruct (le_lt_dec (length b) (length a)) as [L|L].
  - destruct a as [|z a0] eqn:A; [exact (Tail Db Nb)|]. rewrite <- A in *.
    assert (K : kept a = [DText a]) by (subst; reflexivity). assert (Ha : a <> []) by (subst; discriminate).
    rewrite K. change ([DText a] ++ DChange x [] :: kept b) with ([] ++ DText a :: (DChange x [] :: kept b)).
    apply (lcs_diff_some (a ++ b) [] b (a ++ x ++ b) [] (x ++ b) a); auto.
    + intros v H. apply (fresh_longest a b x v Hx D) in H. lia.
    + intros; cbn; lia.
    + intros; cbn; lia.
    + apply no_diff.
  - assert (Hb : b <> []) by (intros ->; cbn in L; lia).
    assert (K : kept b = [DText b]) by (destruct b; [congruence|reflexivity]). rewrite K.
    replace (kept a ++ [DChange x []; DText b]) with ((kept a ++ [DChange x []]) ++ DText b :: [])
      by (now rewrite <- app_assoc).
    apply (lcs_diff_some (a ++ b) a [] (a ++ x ++ b) (a ++ x) [] b); auto; rewrite ?app_nil_r, <- ?app_assoc; auto.
    + intros v H. apply (fresh_longest a b x v Hx D) in H. lia.
    + intros v p q [[p' [q' Hv]] _] Lv Hm.
      assert (Hvn : v <> []) by (intros ->; cbn in Lv; destruct b; [congruence|discriminate]).
      destruct (run_beside a b x p v q Hm Hx Hvn) as [Q|Q]; rewrite ?app_length; try lia.
      intros y Hy Hyv. apply (D y Hy). eapply run_in; eauto.
    + intros p q Hp. destruct (nodup_run a b [] p q Hb) as [-> _]; rewrite ?app_nil_r; auto.
    + (* a before the piece *)
      destruct a as [|z a0] eqn:A; [now apply only_ins|]. rewrite <- A in *.
      assert (Ka : kept a = [DText a]) by (subst; reflexivity). assert (Ha : a <> []) by (subst; discriminate).
      rewrite Ka. change ([DText a] ++ [DChange x []]) with ([] ++ DText a :: [DChange x []]).
      apply (lcs_diff_some a [] [] (a ++ x) [] x a); auto; try (now rewrite app_nil_r).
      * intros v [[p [q Hv]] _]. apply (f_equal (@length T)) in Hv. rewrite !app_length in Hv. lia.
      * intros; cbn; lia.
      * intros; cbn; lia.
      * apply no_diff.
      * now apply only_ins.
    + apply no_diff.
Qed.

Lemma fresh_del a b x : x <> [] -> NoDup (a ++ b) -> disjoint x (a ++ b) ->
  lcs_diff (a ++ x ++ b) (a ++ b) (kept a ++ DChange [] x :: kept b).
Proof.
  intros Hx N D.
  assert (Tail : disjoint x b -> NoDup b -> lcs_diff (x ++ b) b (DChange [] x :: kept b)).
  { clear -Hx O. intros D N. destruct b as [|z b0] eqn:B; [rewrite app_nil_r; now apply only_del|]. rewrite <- B in *.
    assert (K : kept b = [DText b]) by (subst; reflexivity). assert (Hb : b <> []) by (subst; discriminate).
    rewrite K. change [DChange [] x; DText b] with ([DChange [] x] ++ DText b :: []).
    apply (lcs_diff_some (x ++ b) x [] b [] [] b); auto; try (now rewrite app_nil_r).
    - intros v H. apply common_swap, (fresh_longest [] b x v Hx D) in H. cbn in H; lia.
    - intros; cbn; lia.
    - intros p q Hm. destruct (run_beside [] b x p b q Hm Hx Hb) as [Q|Q]; cbn in *; try lia; auto.
      destruct b; [congruence|cbn in Q; lia].
    - now apply only_del.
    - apply no_diff. }
  assert (Db : disjoint x b) by (intros z H1 H2; apply (D z H1), in_or_app; now right).
  assert (Da : disjoint x a) by (intros z H1 H2; apply (D z H1), in_or_app; now left).
  assert (Nb : NoDup b) by (clear -N; induction a; [exact N|inversion N; auto]).
  destruct (le_lt_dec (length b) (length a)) as [L|L].
  - destruct a as [|z a0] eqn:A; [exact (Tail Db Nb)|]. rewrite <- A in *.
    assert (K : kept a = [DText a]) by (subst; reflexivity). assert (Ha : a <> []) by (subst; discriminate).
    rewrite K. change ([DText a] ++ DChange [] x :: kept b) with ([] ++ DText a :: (DChange [] x :: kept b)).
    apply (lcs_diff_some (a ++ x ++ b) [] (x ++ b) (a ++ b) [] b a); auto.
    + intros v H. apply common_swap, (fresh_longest a b x v Hx D) in H. lia.
    + intros; cbn; lia.
    + intros; cbn; lia.
    + apply no_diff.
  - assert (Hb : b <> []) by (intros ->; cbn in L; lia).
    assert (K : kept b = [DText b]) by (destruct b; [congruence|reflexivity]). rewrite K.
    replace (kept a ++ [DChange [] x; DText b]) with ((kept a ++ [DChange [] x]) ++ DText b :: [])
      by (now rewrite <- app_assoc).
    apply (lcs_diff_some (a ++ x ++ b) (a ++ x) [] (a ++ b) a [] b); auto; rewrite ?app_nil_r, <- ?app_assoc; auto.
    + intros v H. apply common_swap, (fresh_longest a b x v Hx D) in H. lia.
    + intros v p q [[p' [q' Hv]] _] Lv Hm.
      assert (Hvn : v <> []) by (intros ->; cbn in Lv; destruct b; [congruence|discriminate]).
      destruct (run_beside a b x p' v q' Hv Hx Hvn) as [Q|Q]; try lia.
      { intros y Hy Hyv. apply (D y Hy). eapply run_in; eauto. }
      assert (Z : v = b).
      { pose proof (f_equal (@length T) Hv) as Lh. rewrite !app_length in Lh.
        rewrite app_assoc in Hv. destruct (app_split_len (a ++ x) p' b (v ++ q') Hv) as [_ Hb2]; [rewrite app_length; lia|].
        assert (q' = []) by (apply length_zero_iff_nil; lia). subst q'. now rewrite app_nil_r in Hb2. }
      subst v. destruct (nodup_run a b [] p q Hb) as [-> _]; rewrite ?app_nil_r; auto.
    + intros p q Hp. destruct (run_beside a b x p b q Hp Hx Hb) as [Q|Q]; rewrite ?app_length; try lia; auto.
    + destruct a as [|z a0] eqn:A; [now apply only_del|]. rewrite <- A in *.
      assert (Ka : kept a = [DText a]) by (subst; reflexivity). assert (Ha : a <> []) by (subst; discriminate).
      rewrite Ka. change ([DText a] ++ [DChange [] x]) with ([] ++ DText a :: [DChange [] x]).
      apply (lcs_diff_some (a ++ x) [] x a [] [] a); auto; try (now rewrite app_nil_r).
      * intros v [_ [p [q Hv]]]. apply (f_equal (@length T)) in Hv. rewrite !app_length in Hv. lia.
      * intros; cbn; lia.
      * intros; cbn; lia.
      * apply no_diff.
      * now apply only_del.
    + apply no_diff.
Qed.

(** * For [diff_token_sequences] *)
Theorem diff_contained o p q : (forall p' q', p ++ o ++ q = p' ++ o ++ q' -> length p <= length p') ->
  diff_token_sequences o (p ++ o ++ q) = Ok (inserted p ++ kept o ++ inserted q).
Proof.
  intros S. destruct (find_changeset_ok o (p ++ o ++ q)) as [c [Hc _]].
  assert (Hd : exists d, diff_token_sequences o (p ++ o ++ q) = Ok d) by (unfold diff_token_sequences; rewrite Hc; eexists; reflexivity).
  destruct Hd as [d Hd]. rewrite Hd. apply diff_greedy in Hd.
  destruct (contained _ _ _ Hd ltac:(eauto)) as (p' & q' & H1 & H2 & ->).
  destruct (shortest_same (p ++ o ++ q) o p q p' q') as [-> ->]; auto.
  apply Nat.le_antisymm; [apply (S p' q')|apply (H2 p q)]; auto.
Qed.
Theorem diff_containing m p q : (forall p' q', p ++ m ++ q = p' ++ m ++ q' -> length p <= length p') ->
  diff_token_sequences (p ++ m ++ q) m = Ok (removed p ++ kept m ++ removed q).
Proof.
  intros S. destruct (find_changeset_ok (p ++ m ++ q) m) as [c [Hc _]].
  assert (Hd : exists d, diff_token_sequences (p ++ m ++ q) m = Ok d) by (unfold diff_token_sequences; rewrite Hc; eexists; reflexivity).
  destruct Hd as [d Hd]. rewrite Hd. apply diff_greedy in Hd.
  destruct (containing _ _ _ Hd ltac:(eauto)) as (p' & q' & H1 & H2 & ->).
  destruct (shortest_same (p ++ m ++ q) m p q p' q') as [-> ->]; auto.
  apply Nat.le_antisymm; [apply (S p' q')|apply (H2 p q)]; auto.
Qed.
Theorem diff_appended o q : diff_token_sequences o (o ++ q) = Ok (kept o ++ inserted q) /\
  diff_token_sequences (o ++ q) o = Ok (kept o ++ removed q).
Proof.
  split; [apply (diff_contained o [] q)|apply (diff_containing o [] q)]; intros; cbn; lia.
Qed.
Theorem diff_in_front o p d : (diff_token_sequences o (p ++ o) = Ok d -> only_inserts d) /\
  (diff_token_sequences (p ++ o) o = Ok d -> only_removes d).
Proof.
  split; intros H; apply diff_greedy in H.
  - apply (contained_inserts _ _ _ p [] H). now rewrite app_nil_r.
  - apply (containing_removes _ _ _ p [] H). now rewrite app_nil_r.
Qed.
Theorem diff_distinct a b x d : NoDup (a ++ b) ->
  (diff_token_sequences (a ++ b) (a ++ x ++ b) = Ok d -> only_inserts d) /\
  (diff_token_sequences (a ++ x ++ b) (a ++ b) = Ok d -> only_removes d).
Proof.
  intros N. split; intros H; apply diff_greedy in H; [eapply distinct_inserts|eapply distinct_removes]; eauto.
Qed.
Theorem diff_fresh a b x : x <> [] -> NoDup (a ++ b) -> disjoint x (a ++ b) ->
  diff_token_sequences (a ++ b) (a ++ x ++ b) = Ok (kept a ++ DChange x [] :: kept b) /\
  diff_token_sequences (a ++ x ++ b) (a ++ b) = Ok (kept a ++ DChange [] x :: kept b).
Proof. intros Hx N D. split; apply diff_greedy; [now apply fresh_ins|now apply fresh_del]. Qed.
End Diffs.
