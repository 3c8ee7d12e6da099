(** Line diffs mark what the diff marks, and a Change of a line diff has no idle line. *)
From Verif Require Import Base Changesets SpecDiff Tokenizers TokenizersProofs Lines SpecLines SpecMarks LinesProofs LinesMore.
Local Open Scope Z_scope.

(** * Marked texts *)
Lemma marked_app m s t : marked m (s ++ t) = marked m s ++ marked m t.
Proof. apply map_app. Qed.
Lemma expand_app l r : expand (l ++ r) = expand l ++ expand r.
Proof. apply flat_map_app. Qed.
Lemma expand_text s : expand [DText s] = marked Same s.
Proof. cbn; now rewrite app_nil_r. Qed.
Lemma expand_change a b : expand [DChange a b] = marked Ins a ++ marked Del b.
Proof. cbn; now rewrite app_nil_r. Qed.
Lemma new_app e f : new_text (e ++ f) = new_text e ++ new_text f.
Proof. apply flat_map_app. Qed.
Lemma old_app e f : old_text (e ++ f) = old_text e ++ old_text f.
Proof. apply flat_map_app. Qed.
Lemma new_marked m s : new_text (marked m s) = match m with Del => [] | _ => s end.
Proof. induction s as [|c s IH]; destruct m; cbn in *; auto; f_equal; exact IH. Qed.
Lemma old_marked m s : old_text (marked m s) = match m with Ins => [] | _ => s end.
Proof. induction s as [|c s IH]; destruct m; cbn in *; auto; f_equal; exact IH. Qed.
Lemma new_expand l : new_text (expand l) = diff_after l.
Proof.
  induction l as [|[s|a b] l IH]; [reflexivity| |]; rewrite (expand_app [_] l : expand (_ :: l) = _).
  - rewrite expand_text, new_app, new_marked, IH; reflexivity.
  - rewrite expand_change, !new_app, !new_marked, IH, app_nil_r; reflexivity.
Qed.
Lemma old_expand l : old_text (expand l) = diff_before l.
Proof.
  induction l as [|[s|a b] l IH]; [reflexivity| |]; rewrite (expand_app [_] l : expand (_ :: l) = _).
  - rewrite expand_text, old_app, old_marked, IH; reflexivity.
  - rewrite expand_change, !old_app, !old_marked, IH; reflexivity.
Qed.
Lemma marked_inj m s t : marked m s = marked m t -> s = t.
Proof. revert t; induction s as [|c s IH]; intros [|d t] H; try discriminate; [reflexivity|]. injection H as -> H; f_equal; auto. Qed.
Lemma marked_split m s x y : marked m s = x ++ y -> exists s1 s2, s = s1 ++ s2 /\ x = marked m s1 /\ y = marked m s2.
Proof.
  revert x; induction s as [|c s IH]; intros [|p x] H; cbn in H; try discriminate.
  - exists [], []; auto.
  - exists [], (c :: s); auto.
  - injection H as <- H; destruct (IH _ H) as (s1 & s2 & -> & -> & ->); exists (c :: s1), s2; auto.
Qed.

Lemma pairs_app a b q a' b' q' : pairs a b q -> pairs a' b' q' -> pairs (a ++ a') (b ++ b') (q ++ q').
Proof. induction 1; intros; cbn; [assumption|constructor; auto|constructor; auto]. Qed.
Lemma pairs_det a b q : pairs a b q -> forall q', pairs a b q' -> q' = q.
Proof. induction 1; intros q' H'; inversion H'; subst; f_equal; auto. Qed.
Lemma pairs_ne a b q : pairs a b q -> q <> [] -> a <> [] /\ b <> [].
Proof. now destruct 1. Qed.
Lemma shown_app d r d' r' : shown d r -> shown d' r' -> shown (d ++ d') (r ++ r').
Proof. induction 1; intros; cbn; [assumption|constructor; auto|rewrite <- app_assoc; constructor; auto]. Qed.
Lemma pairs_texts a b q : pairs a b q -> side_text a = diff_after q /\ side_text b = diff_before q.
Proof. induction 1 as [|s a b r H [I1 I2]|x y a b r H [I1 I2]]; cbn; [auto| |]; rewrite ?app_nil_r; unfold side_text in *; now rewrite I1, I2. Qed.
Lemma shown_texts d r : shown d r -> into_text d = diff_after r /\ from_text d = diff_before r.
Proof.
  induction 1 as [|s d r H [I1 I2]|a b q d r P H [I1 I2]]; cbn; [auto| |]; unfold into_text, from_text in *.
  - now rewrite I1, I2.
  - unfold diff_after, diff_before; rewrite !flat_map_app; fold (diff_after q) (diff_before q) (diff_after r) (diff_before r).
    destruct (pairs_texts _ _ _ P) as [-> ->]; now rewrite I1, I2.
Qed.

Section WithSpace.
Variable space : Z -> bool.
Notation blank := (blank_text space).

(** * Regions without idle lines *)
Definition tight (e : list (mark * Z)) : Prop :=
  forall x y z, e = x ++ marked Same y ++ z -> whole_lines (new_text x) -> whole_lines (old_text x) ->
    ends_nl y = true \/ z = [] -> blank y.
Lemma tight_idle e : tight e -> no_idle_line space e.
Proof.
  intros H x y z E X1 X2 [->|[y' ->]]; [constructor|]. apply (H x _ z E X1 X2); left.
  apply ends_nl_app; [apply app_one|eauto].
Qed.
(** what is before and after a mark that is not [Same] *)
Definition changed (p : mark * Z) : Prop := fst p <> Same.
Lemma same_inside e p f x y z : changed p -> e ++ p :: f = x ++ marked Same y ++ z ->
  (exists z', e = x ++ marked Same y ++ z' /\ z = z' ++ p :: f) \/ (exists x', x = e ++ p :: x').
Proof.
  intros Hp H. apply app_eq_app in H as [l [[E1 E2]|[E1 E2]]].
  - destruct l as [|q l].
    + rewrite app_nil_r in E1; subst x; cbn in E2; destruct y as [|c y].
      * left; exists []; split; [cbn; now rewrite app_nil_r|exact E2].
      * cbn in E2; injection E2 as Ep _; now subst p.
    + apply app_eq_app in E2 as [l' [[F1 F2]|[F1 F2]]].
      * destruct l' as [|q' l'].
        -- rewrite app_nil_r in F1; left; exists []; split; [rewrite E1, F1, app_nil_r; reflexivity|symmetry; exact F2].
        -- exfalso. cbn in F2. injection F2 as -> _.
           assert (In q' (marked Same y)) by (rewrite F1; apply in_or_app; right; now left).
           unfold marked in H; apply in_map_iff in H as [c [<- _]]; now apply Hp.
      * left; exists l'; split; [now rewrite E1, F1|exact F2].
  - destruct l as [|q l].
    + rewrite app_nil_r in E1; subst e; cbn in E2; destruct y as [|c y].
      * left; exists []; split; [cbn; now rewrite app_nil_r|symmetry; exact E2].
      * cbn in E2; injection E2 as Ep _; now subst p.
    + cbn in E2; injection E2 as <- E2; right; exists l; exact E1.
Qed.
Lemma all_changed_tail e f x y z : f <> [] -> Forall changed f -> e ++ f = x ++ marked Same y ++ z ->
  y = [] \/ exists z', e = x ++ marked Same y ++ z' /\ z = z' ++ f.
Proof.
  intros Hn F; revert e Hn; induction F as [|p f Hp F IH]; intros e Hn H; [contradiction|].
  destruct (same_inside _ _ _ _ _ _ Hp H) as [[z' [E1 E2]]|[x' E]]; [right; eauto|left].
  destruct y as [|c y]; [reflexivity|exfalso].
  rewrite E, <- app_assoc in H; apply app_inv_head in H; cbn in H; injection H as H.
  assert (In (Same, c) f) by (rewrite H; apply in_or_app; right; now left).
  rewrite Forall_forall in F; now apply (F _ H0).
Qed.
Lemma change_changed a b : Forall changed (marked Ins a ++ marked Del b).
Proof. apply Forall_app; split; apply Forall_forall; intros p H; apply in_map_iff in H as [c [<- _]]; discriminate. Qed.
Lemma change_nonempty a b : (a, b) <> ([], []) -> marked Ins a ++ marked Del b <> [].
Proof. destruct a, b; cbn; congruence. Qed.

(** a change after a region *)
Lemma tight_change e a b : (forall x y z, e = x ++ marked Same y ++ z -> whole_lines (new_text x) ->
    whole_lines (old_text x) -> ends_nl y = true -> blank y) ->
  (a, b) <> ([], []) -> tight (e ++ marked Ins a ++ marked Del b).
Proof.
  intros HT Hn x y z H X1 X2 HY.
  destruct (all_changed_tail _ _ _ _ _ (change_nonempty a b Hn) (change_changed a b) H) as [->|[z' [E1 E2]]]; [constructor|].
  destruct HY as [HY|HY]; [eauto|]. rewrite HY in E2; symmetry in E2; apply app_eq_nil in E2 as [_ E2].
  now apply change_nonempty in E2.
Qed.
Lemma tight_plain s x y z : ~ In 10 s -> marked Same s = x ++ marked Same y ++ z -> ends_nl y = true -> blank y.
Proof.
  intros Hs H Hy; exfalso. destruct y as [|c y]; [discriminate|]. apply ends_nl_app in Hy as [y' E]; [|discriminate].
  rewrite E in H. apply Hs. apply marked_split in H as (s1 & s2 & -> & _ & H).
  symmetry in H; apply marked_split in H as (s3 & s4 & -> & H & _). apply marked_inj in H; subst s3.
  apply in_or_app; right; apply in_or_app; left; apply in_or_app; right; now left.
Qed.

(** a region that ends with a change, followed by common text *)
Definition ends_changed (e : list (mark * Z)) : Prop := exists e' p, e = e' ++ [p] /\ changed p.
Lemma ends_split e s x y z : ends_changed e -> e ++ marked Same s = x ++ marked Same y ++ z ->
  (exists z', e = x ++ marked Same y ++ z' /\ z = z' ++ marked Same s) \/
  (exists s1 s2, x = e ++ marked Same s1 /\ s = s1 ++ y ++ s2 /\ z = marked Same s2).
Proof.
  intros [e' [p [-> Hp]]] H. rewrite <- app_assoc in H; cbn in H.
  destruct (same_inside _ _ _ _ _ _ Hp H) as [[z' [E1 E2]]|[x' E]].
  - left; exists (z' ++ [p]); split; [now rewrite E1, <- !app_assoc|now rewrite <- app_assoc].
  - right. rewrite E, <- !app_assoc in H; apply app_inv_head in H; cbn in H; injection H as H.
    apply marked_split in H as (s1 & s2 & -> & -> & H). symmetry in H; apply marked_split in H as (s3 & s4 & -> & H & ->).
    apply marked_inj in H; subst s3. exists s1, s4; split; [now rewrite E, <- app_assoc|auto].
Qed.
Lemma ends_change e a b : (a, b) <> ([], []) -> ends_changed (e ++ marked Ins a ++ marked Del b).
Proof.
  intros Hn. destruct (exists_last (change_nonempty a b Hn)) as [f [p E]]. exists (e ++ f), p. rewrite E. split; [now rewrite app_assoc|].
  pose proof (change_changed a b) as F. rewrite E in F. apply Forall_app in F as [_ F]. now inversion F.
Qed.

Lemma blank_part s1 y s2 : blank (s1 ++ y ++ s2) -> blank y.
Proof. unfold blank_text; rewrite !Forall_app; tauto. Qed.
Lemma isspace_blank s : isspace space s = true -> blank s.
Proof.
  intros H. unfold isspace in H. apply andb_true_iff in H as [_ H]. rewrite forallb_forall in H.
  apply Forall_forall; intros c Hc; left; auto.
Qed.
Lemma tight_blank e s : tight e -> ends_changed e -> s <> [] -> blank s -> tight (e ++ marked Same s).
Proof.
  intros HT He Hs Hb x y z H X1 X2 HY.
  destruct (ends_split _ _ _ _ _ He H) as [[z' [E1 E2]]|(s1 & s2 & E1 & -> & E2)]; [|now apply blank_part in Hb].
  apply (HT x y z' E1 X1 X2). destruct HY as [HY|HY]; [auto|].
  rewrite HY in E2; symmetry in E2; apply app_eq_nil in E2 as [_ E2]. destruct s; [contradiction|discriminate].
Qed.
Definition both_whole (e : list (mark * Z)) : Prop := whole_lines (new_text e) /\ whole_lines (old_text e).
(** the rest of the line *)
Lemma tight_line e s : tight e -> ends_changed e -> ~ both_whole e -> s <> [] ->
  (forall s1 s2, s = s1 ++ s2 -> s2 <> [] -> s1 <> [] -> ends_nl s1 = false) -> tight (e ++ marked Same s).
Proof.
  intros HT He Hw Hs Hn x y z H X1 X2 HY.
  destruct (ends_split _ _ _ _ _ He H) as [[z' [E1 E2]]|(s1 & s2 & E1 & E2 & E3)].
  - apply (HT x y z' E1 X1 X2). destruct HY as [HY|HY]; [auto|].
    rewrite HY in E2; symmetry in E2; apply app_eq_nil in E2 as [_ E2]. destruct s; [contradiction|discriminate].
  - destruct y as [|c y]; [constructor|]. exfalso. subst x. rewrite new_app, new_marked in X1. rewrite old_app, old_marked in X2.
    destruct s1 as [|c1 s1].
    + rewrite app_nil_r in X1, X2. now apply Hw.
    + apply whole_app_r in X1; [|discriminate]. rewrite (Hn (c1 :: s1) ((c :: y) ++ s2)) in X1; auto; discriminate.
Qed.
Lemma no_nl_parts s : ~ In 10 s -> forall s1 s2, s = s1 ++ s2 -> s2 <> [] -> s1 <> [] -> ends_nl s1 = false.
Proof. intros H s1 s2 -> _ H1. apply no_nl_ends; [exact H1|]. intros C; apply H, in_or_app; auto. Qed.
Lemma line_parts s : ~ In 10 s -> forall s1 s2, s ++ [10] = s1 ++ s2 -> s2 <> [] -> s1 <> [] -> ends_nl s1 = false.
Proof.
  intros H s1 s2 E H2 H1. apply no_nl_ends; [exact H1|]. intros C; apply H.
  destruct (exists_last H2) as [s2' [c E2]]; rewrite E2, app_assoc in E; apply app_inj_tail in E as [-> _].
  apply in_or_app; auto.
Qed.
(** the newline at the end of everything *)
Lemma tight_end e : tight e -> tight (e ++ marked Same [10]).
Proof.
  intros HT x y z H X1 X2 HY. destruct z as [|p z] using rev_ind.
  - rewrite app_nil_r in H. destruct y as [|c y] using rev_ind; [constructor|].
    rewrite marked_app, app_assoc in H; cbn in H; apply app_inj_tail in H as [H1 H2]; injection H2 as <-.
    apply Forall_app; split; [|constructor; auto; constructor].
    apply (HT x y []); [now rewrite app_nil_r|auto|auto|auto].
  - clear IHz. rewrite !app_assoc in H. cbn in H. apply app_inj_tail in H as [H1 _]. rewrite <- app_assoc in H1.
    apply (HT x y z H1 X1 X2). destruct HY as [HY|HY]; [auto|]. now apply app_one in HY.
Qed.

(** * The accumulator *)
(** before a string *)
Inductive before_text (c : acc) : list (ditem Z) -> Prop :=
| bt_new : c = new_acc -> before_text c []
| bt_conflict r a b : in_conflict c = true -> pairs (p_into c) (p_from c) (r ++ [DChange a b]) -> (a, b) <> ([], []) ->
    tight (expand (r ++ [DChange a b])) -> (both_whole (expand (r ++ [DChange a b])) -> finishable c = true) ->
    before_text c (r ++ [DChange a b]).
(** before a Change *)
Inductive before_change (c : acc) : list (ditem Z) -> Prop :=
| bc_new : c = new_acc -> before_change c []
| bc_text s : c = add_frag s new_acc -> s <> [] -> ~ In 10 s -> before_change c [DText s]
| bc_conflict r s : in_conflict c = true -> pairs (p_into c) (p_from c) (r ++ [DText s]) -> s <> [] ->
    tight (expand (r ++ [DText s])) -> has_change (expand (r ++ [DText s])) -> finishable c = ends_nl s ->
    before_change c (r ++ [DText s]).

Lemma has_app_l e f : has_change e -> has_change (e ++ f).
Proof. intros [p [H N]]; exists p; split; [apply in_or_app; now left|exact N]. Qed.
Lemma has_ends e : ends_changed e -> has_change e.
Proof. intros [e' [p [-> H]]]; exists p; split; [apply in_or_app; right; now left|exact H]. Qed.
Lemma ends_of r a b : (a, b) <> ([], []) -> ends_changed (expand (r ++ [DChange a b])).
Proof. intros H; rewrite expand_app, expand_change; now apply ends_change. Qed.

Lemma change_marks c r a b : before_change c r -> (a, b) <> ([], []) ->
  before_text (add_conflict a b c) (r ++ [DChange a b]).
Proof.
  intros H Hn; assert (P : pairs (p_into c) (p_from c) r /\ (whole_lines (new_text (expand r)) \/ whole_lines (old_text (expand r)) -> finishable c = true) /\
    (forall x y z, expand r = x ++ marked Same y ++ z -> whole_lines (new_text x) -> whole_lines (old_text x) ->
      ends_nl y = true -> blank y)).
  { destruct H as [-> |s -> Hs Hl|r s Hc P Hs T HC F].
    - split; [constructor|split; [reflexivity|]]. intros x y z E _ _ Hy; destruct x; [destruct y|]; discriminate.
    - split; [repeat constructor|split].
      + rewrite new_expand, old_expand; cbn; rewrite app_nil_r. intros W.
        assert (W' : whole_lines ([] ++ s)) by tauto. apply whole_app_r in W'; [|exact Hs].
        rewrite no_nl_ends in W' by auto; discriminate.
      + intros x y z E _ _; rewrite expand_text in E. eapply tight_plain; eauto.
    - split; [exact P|split].
      + rewrite expand_app, expand_text, new_app, old_app, new_marked, old_marked, F.
        intros [W|W]; apply whole_app_r in W; auto.
      + intros x y z E X1 X2 Hy; eapply T; eauto. }
  destruct P as (P & F & HT). apply bt_conflict.
  - reflexivity.
  - cbn. apply pairs_app; [exact P|repeat constructor].
  - exact Hn.
  - rewrite expand_app, expand_change. now apply tight_change.
  - rewrite expand_app, expand_change. unfold both_whole.
    rewrite !new_app, !old_app, !new_marked, !old_marked, app_nil_r. cbn [app].
    intros [W1 W2]; cbn [add_conflict finishable]; apply andb_true_iff; split.
    + destruct a as [|x a]; cbn [nonempty]; [|now apply whole_app_r in W1; [|discriminate]].
      apply F; left; now rewrite app_nil_r in W1.
    + destruct b as [|x b]; cbn [nonempty]; [|now apply whole_app_r in W2; [|discriminate]].
      apply F; right; now rewrite app_nil_r in W2.
Qed.

Lemma shown_if s : exists R, shown (if_nonempty s) R /\ expand R = marked Same s.
Proof.
  destruct s as [|c s]; cbn [if_nonempty nonempty].
  - exists []; split; [constructor|reflexivity].
  - exists [DText (c :: s)]; split; [repeat constructor|apply expand_text].
Qed.
Lemma busy_if s : Forall (busy_item space) (if_nonempty s).
Proof. destruct s; repeat constructor. Qed.
Lemma last_state y : ~ In 10 y -> exists r', before_change (if nonempty y then add_frag y new_acc else new_acc) r' /\ expand r' = marked Same y.
Proof.
  intros H; destruct y as [|c y]; cbn [nonempty].
  - exists []; split; [now constructor|reflexivity].
  - exists [DText (c :: y)]; split; [apply bc_text; auto; discriminate|apply expand_text].
Qed.
Definition step_ok (e : list (mark * Z)) (s : list Z) (o : list oitem) (c : acc) : Prop :=
  exists R r', shown o R /\ before_change c r' /\ expand R ++ expand r' = e ++ marked Same s /\ Forall (busy_item space) o.
Lemma fresh_marks s : s <> [] ->
  let r := match split_nl s with
      | first :: ((_ :: _) as rest) =>
        (if_nonempty (join_with_newline (first :: removelast rest)), if nonempty (last rest []) then add_frag (last rest []) new_acc else new_acc)
      | first :: [] => ([], add_frag first new_acc)
      | [] => ([], new_acc)
      end in step_ok [] s (fst r) (snd r).
Proof.
  intros Hs; cbv zeta. destruct (split_nl s) as [|first rest] eqn:Sp; [now destruct (split_ne s)|].
  destruct rest as [|x rest].
  - apply split_one in Sp as [<- Hn]. exists [], [DText s]; split; [constructor|split; [now apply bc_text|split; [|constructor]]].
    now rewrite expand_text.
  - destruct (split_parts s first x rest Sp) as [_ [P2 Hn]]. cbn [fst snd].
    destruct (shown_if (join_with_newline (first :: removelast (x :: rest)))) as [R [HR ER]].
    destruct (last_state _ Hn) as [r' [HB Er]].
    exists R, r'; split; [exact HR|split; [exact HB|split; [|apply busy_if]]].
    rewrite ER, Er, <- marked_app, <- P2; reflexivity.
Qed.
Lemma step_after_out e s o c o1 R1 : step_ok [] s o c -> shown o1 R1 -> expand R1 = e -> Forall (busy_item space) o1 ->
  step_ok e s (o1 ++ o) c.
Proof.
  intros (R & r' & H1 & H2 & H3 & H4) S1 E1 B1; exists (R1 ++ R), r'; split; [now apply shown_app|split; [exact H2|split]].
  - cbn in H3; now rewrite expand_app, <- app_assoc, H3, E1.
  - apply Forall_app; auto.
Qed.

Lemma text_marks c r s : before_text c r -> s <> [] ->
  step_ok (expand r) s (fst (handle_fragment space (DText s) c)) (snd (handle_fragment space (DText s) c)).
Proof.
  intros H Hs; destruct H as [-> |r a b Hc P Hn T F]; unfold handle_fragment.
  - cbn [in_conflict new_acc andb finishable is_nonempty p_into]. pose proof (fresh_marks s Hs) as K; cbv zeta in K.
    destruct (split_nl s) as [|first [|x rest]]; exact K.
  - rewrite Hc; cbn [andb]. set (q := r ++ [DChange a b]) in *.
    assert (HE : ends_changed (expand q)) by now apply ends_of.
    destruct (isspace space s) eqn:Sp.
    + cbn [fst snd]. exists [], (q ++ [DText s]). split; [constructor|split; [|split; [|constructor]]].
      * apply bc_conflict; [exact Hc|cbn; apply pairs_app; [exact P|repeat constructor]|exact Hs| | |].
        -- rewrite expand_app, expand_text. apply tight_blank; auto using isspace_blank.
        -- rewrite expand_app; now apply has_app_l, has_ends.
        -- cbn. now rewrite (proj2 (nonempty_iff s) Hs).
      * cbn [app expand flat_map]; fold (expand (q ++ [DText s])); now rewrite expand_app, expand_text.
    + assert (N : is_nonempty c = true).
      { unfold is_nonempty. destruct (pairs_ne _ _ _ P (app_one r (DChange a b))). now destruct (p_into c), (p_from c). }
      rewrite N, andb_true_r. destruct (finishable c) eqn:Fc.
      * unfold finish_conflict, conditional_add; rewrite Fc; cbn [nonempty]. rewrite Fc.
        change (mkAcc [] [] true false) with new_acc. pose proof (fresh_marks s Hs) as K; cbv zeta in K.
        assert (K2 : forall o c', step_ok [] s o c' -> step_ok (expand q) s ([OChange (p_into c) (p_from c)] ++ o) c').
        { intros o c' K'. eapply (step_after_out _ _ _ _ _ (q ++ [])); [exact K'|constructor; [exact P|constructor]|now rewrite app_nil_r|].
          constructor; [|constructor]. exists q; split; [exact P|split; [now apply has_ends|now apply tight_idle]]. }
        destruct (split_nl s) as [|first [|x rest]]; cbn [fst snd in_conflict new_acc] in *.
        -- apply (K2 [] new_acc), K.
        -- apply (K2 [] _), K.
        -- apply (K2 _ _), K.
      * assert (W : ~ both_whole (expand q)) by (intros W; apply F in W; congruence).
        rewrite Hc. destruct (split_nl s) as [|first rest] eqn:Sl; [now destruct (split_ne s)|]. destruct rest as [|x rest].
        -- apply split_one in Sl as [<- Hl]. cbn [fst snd]. exists [], (q ++ [DText s]). split; [constructor|split; [|split; [|constructor]]].
           ++ apply bc_conflict; [exact Hc|cbn; apply pairs_app; [exact P|repeat constructor]|exact Hs| | |].
              ** rewrite expand_app, expand_text. apply tight_line; auto. now apply no_nl_parts.
              ** rewrite expand_app; now apply has_app_l, has_ends.
              ** cbn. now rewrite (proj2 (nonempty_iff s) Hs).
           ++ cbn [app expand flat_map]; fold (expand (q ++ [DText s])); now rewrite expand_app, expand_text.
        -- pose proof (split_no_nl s) as Hf; rewrite Sl in Hf; apply Forall_inv in Hf.
           destruct (split_parts s first x rest Sl) as [P1 [_ Hl]].
           assert (Ne : nonempty (first ++ [10]) = true) by (apply nonempty_iff, app_one).
           assert (En : ends_nl (first ++ [10]) = true) by (apply ends_nl_app; [apply app_one|eauto]).
           unfold finish_conflict, conditional_add; rewrite Fc, Ne; cbn [add_frag p_into p_from finishable nonempty fst snd]; rewrite Ne, En.
           change (mkAcc [] [] true false) with new_acc. cbn [app].
           destruct (shown_if (join_with_newline (removelast (x :: rest)))) as [R [HR ER]].
           destruct (last_state _ Hl) as [r' [HB Er]].
           exists ((q ++ [DText (first ++ [10])]) ++ R), r'.
           assert (P' : pairs (p_into c ++ [LStr (first ++ [10])]) (p_from c ++ [LStr (first ++ [10])]) (q ++ [DText (first ++ [10])])).
           { apply pairs_app; [exact P|repeat constructor]. }
           split; [now constructor|split; [exact HB|split]].
           ++ rewrite !expand_app, expand_text, ER, Er, <- !app_assoc, <- !marked_app. f_equal; f_equal. rewrite P1 at 1. now rewrite <- !app_assoc.
           ++ constructor; [|apply busy_if]. exists (q ++ [DText (first ++ [10])]); split; [exact P'|].
              rewrite expand_app, expand_text; split; [now apply has_app_l, has_ends|].
              apply tight_idle, tight_line; auto using app_one. now apply line_parts.
Qed.

Lemma flush_marks c r : before_text c r \/ before_change c r -> exists o R tail, flush c = Ok o /\ shown o R /\
  (tail = [] \/ tail = [10]) /\ expand R = expand r ++ marked Same tail /\ Forall (busy_item space) o.
Proof.
  assert (N : c = new_acc -> exists o R tail, flush c = Ok o /\ shown o R /\
    (tail = [] \/ tail = [10]) /\ expand R = expand [] ++ marked Same tail /\ Forall (busy_item space) o).
  { intros ->; exists [], [], []; repeat split; auto; constructor. }
  assert (C : forall q, in_conflict c = true -> pairs (p_into c) (p_from c) q -> tight (expand q) -> has_change (expand q) ->
    exists o R tail, flush c = Ok o /\ shown o R /\
    (tail = [] \/ tail = [10]) /\ expand R = expand q ++ marked Same tail /\ Forall (busy_item space) o).
  { intros q Hc P T HC; unfold flush; rewrite Hc. unfold finish_conflict, conditional_add. destruct (finishable c) eqn:F.
    - eexists _, (q ++ []), []; split; [reflexivity|]; cbn [fst nonempty]. split; [constructor; [exact P|constructor]|].
      split; [auto|split; [now rewrite !app_nil_r|]]. constructor; [|constructor].
      exists q; split; [exact P|split; [exact HC|now apply tight_idle]].
    - eexists _, ((q ++ [DText [10]]) ++ []), [10]; split; [reflexivity|]; cbn [fst nonempty add_frag p_into p_from].
      assert (P' : pairs (p_into c ++ [LStr [10]]) (p_from c ++ [LStr [10]]) (q ++ [DText [10]])).
      { apply pairs_app; [exact P|repeat constructor]. }
      split; [constructor; [exact P'|constructor]|].
      split; [auto|split; [now rewrite app_nil_r, expand_app, expand_text|]]. constructor; [|constructor].
      exists (q ++ [DText [10]]); split; [exact P'|]. rewrite expand_app, expand_text.
      split; [now apply has_app_l|now apply tight_idle, tight_end]. }
  intros [[E|q a b Hc P Hn T F]|[E|s E Hs Hl|q s Hc P Hs T HC F]]; auto.
  - apply C; auto. now apply has_ends, ends_of.
  - subst c. exists [OStr (s ++ [10])], [DText (s ++ [10])], [10]. split; [|split; [repeat constructor|split; [auto|split; [|repeat constructor]]]].
    + unfold flush; cbn. destruct s; [contradiction|]. reflexivity.
    + now rewrite !expand_text, marked_app.
Qed.

Definition next_ok (l : list (ditem Z)) (c : acc) (r : list (ditem Z)) : Prop :=
  match l with
  | DText _ :: _ => before_text c r
  | DChange _ _ :: _ => before_change c r
  | [] => before_text c r \/ before_change c r
  end.
Lemma all_marks l : forall c r, alternating (visible l) -> real_changes l -> next_ok (visible l) c r ->
  exists R r', shown (fst (handle_all space l c)) R /\ (before_text (snd (handle_all space l c)) r' \/ before_change (snd (handle_all space l c)) r') /\
    expand R ++ expand r' = expand r ++ expand l /\ Forall (busy_item space) (fst (handle_all space l c)).
Proof.
  induction l as [|f l IH]; intros c r A V H.
  - cbn in *; exists [], r; split; [constructor|split; [exact H|split; [now rewrite app_nil_r|constructor]]].
  - assert (V' : real_changes l) by (intros X; apply V; now right).
    rewrite visible_cons in A, H. cbn [handle_all]. destruct (is_true f) eqn:Tf.
    + assert (A' : alternating (visible l)) by (intros k x y; exact (A (S k) x y)).
      destruct f as [s|a b].
      * apply nonempty_iff in Tf. destruct (text_marks c r s H Tf) as (R & r' & S1 & S2 & S3 & S4).
        destruct (handle_fragment space (DText s) c) as [o c1]; cbn [fst snd] in *.
        destruct (IH c1 r' A' V') as (R2 & r2 & I1 & I2 & I3 & I4).
        { destruct (visible l) as [|[t|x y] v]; cbn; auto.
          destruct (A 0%nat _ _ eq_refl eq_refl) as [[_ [? [? X]]]|[[? [? X]] _]]; discriminate. }
        destruct (handle_all space l c1) as [o2 c2]; cbn [fst snd] in *.
        exists (R ++ R2), r2; split; [now apply shown_app|split; [exact I2|split; [|apply Forall_app; auto]]].
        rewrite expand_app, <- app_assoc, I3, app_assoc, S3, <- app_assoc, <- expand_text, <- expand_app; reflexivity.
      * assert (Hn : (a, b) <> ([], [])) by (intros X; injection X as -> ->; apply V; now left).
        pose proof (change_marks c r a b H Hn) as S2. cbn [handle_fragment].
        destruct (IH (add_conflict a b c) (r ++ [DChange a b]) A' V') as (R2 & r2 & I1 & I2 & I3 & I4).
        { destruct (visible l) as [|[t|x y] v]; cbn; auto.
          destruct (A 0%nat _ _ eq_refl eq_refl) as [[[? X] _]|[_ [? X]]]; discriminate. }
        destruct (handle_all space l (add_conflict a b c)) as [o2 c2]; cbn [fst snd] in *.
        exists R2, r2; split; [exact I1|split; [exact I2|split; [|exact I4]]].
        rewrite I3, expand_app, <- app_assoc, <- expand_app; reflexivity.
    + destruct f as [[|x s]|a b]; try discriminate. apply (IH c r A V' H).
Qed.

Theorem line_diff_marks l : alternating (visible l) -> real_changes l -> exists d R, to_line_diff space l = Ok d /\
  shown d R /\ expand R = expand l ++ marked Same (last_newline (diff_after l) (diff_before l)) /\ Forall (busy_item space) d.
Proof.
  intros A V. destruct (all_marks l new_acc [] A V) as (R & r & H1 & H2 & H3 & H4).
  { destruct (visible l) as [|[t|x y] v]; cbn; [left|..]; now constructor. }
  destruct (flush_marks _ _ H2) as (o & R2 & tail & F1 & F2 & F3 & F4 & F5).
  destruct (line_diff_last space l A) as (d & E & I1 & I2).
  pose proof E as E0. exists d. unfold to_line_diff in E. destruct (handle_all space l new_acc) as [o1 c1]; cbn [fst snd] in *.
  rewrite F1 in E; cbn [bind] in E; injection E as <-.
  assert (X : exists R3, shown (if existsb is_true l then [] else [OStr []]) R3 /\ expand R3 = [] /\
              Forall (busy_item space) (if existsb is_true l then [] else [OStr []])).
  { destruct (existsb is_true l); [exists []|exists [DText []]]; repeat split; repeat constructor. }
  destruct X as (R3 & X1 & X2 & X3).
  assert (SH : shown (o1 ++ o ++ (if existsb is_true l then [] else [OStr []])) (R ++ R2 ++ R3)) by (repeat apply shown_app; auto).
  assert (EX : expand (R ++ R2 ++ R3) = expand l ++ marked Same tail).
  { cbn in H3. rewrite !expand_app, X2, app_nil_r, F4, app_assoc, H3; reflexivity. }
  exists (R ++ R2 ++ R3); split; [exact E0|split; [exact SH|split]].
  - rewrite EX; f_equal; f_equal. destruct (shown_texts _ _ SH) as [T1 _]. rewrite I1, <- (new_expand (R ++ R2 ++ R3)), EX, new_app, new_marked, new_expand in T1.
    now apply app_inv_head in T1.
  - apply Forall_app; split; [exact H4|apply Forall_app; auto].
Qed.

(** * After consolidation *)
Lemma idle_nil : no_idle_line space [].
Proof. intros x y z E _ _ _. destruct x; [destruct y; [constructor|]|]; discriminate. Qed.
Lemma idle_app e f : both_whole e -> no_idle_line space e -> no_idle_line space f -> no_idle_line space (e ++ f).
Proof.
  intros [W1 W2] He Hf x y z H X1 X2 Wy. apply app_eq_app in H as [l [[E1 E2]|[E1 E2]]].
  - (* [x] ends in [e] *)
    symmetry in E2. apply app_eq_app in E2 as [l' [[F1 F2]|[F1 F2]]].
    + (* the whole of [y] in [e] *)
      apply (He x y l'); auto. now rewrite E1, F1.
    + (* [y] goes on in [f] *)
      apply marked_split in F1 as (y1 & y2 & -> & -> & ->). subst e f.
      assert (B1 : blank y1).
      { apply (He x y1 []); auto; [now rewrite app_nil_r|]. rewrite new_app, new_marked in W1.
        destruct y1 as [|c y1]; [now left|]. apply whole_app_r in W1; [now apply ends_whole|discriminate]. }
      apply Forall_app; split; [exact B1|].
      apply (Hf [] y2 z); auto; try now left.
      destruct y2 as [|c y2]; [now left|]. apply whole_app_r in Wy; [now apply ends_whole|discriminate].
  - (* [x] ends in [f] *)
    subst x. rewrite new_app in X1; rewrite old_app in X2.
    apply (Hf l y z); auto.
    + destruct (new_text l); [now left|]. apply whole_app_r in X1; [now apply ends_whole|discriminate].
    + destruct (old_text l); [now left|]. apply whole_app_r in X2; [now apply ends_whole|discriminate].
Qed.
Lemma pairs_whole a b q : pairs a b q -> whole_lines (side_text a) -> whole_lines (side_text b) -> both_whole (expand q).
Proof. intros P A B; unfold both_whole; rewrite new_expand, old_expand. destruct (pairs_texts _ _ _ P) as [<- <-]; auto. Qed.
Lemma loop_marks d : forall r a b q, shown d r -> Forall (busy_item space) d -> Forall whole_item d ->
  pairs a b q -> whole_lines (side_text a) -> whole_lines (side_text b) -> no_idle_line space (expand q) -> (q = [] \/ has_change (expand q)) ->
  shown (consolidate_loop d a b) (q ++ r) /\ Forall (busy_item space) (consolidate_loop d a b).
Proof.
  assert (FL : forall a b q, pairs a b q -> no_idle_line space (expand q) -> (q = [] \/ has_change (expand q)) ->
    shown (flush_changes a b) q /\ Forall (busy_item space) (flush_changes a b)).
  { intros a b q P N H. destruct H as [-> |H].
    - inversion P; subst; split; constructor.
    - assert (q <> []) by (intros ->; destruct H as [? [[] _]]). destruct (pairs_ne _ _ _ P H0).
      destruct a as [|i a]; [contradiction|]. cbn [flush_changes]. rewrite <- (app_nil_r q) at 1.
      split; [constructor; [exact P|constructor]|]. constructor; [|constructor]. exists q; auto. }
  induction d as [|[s|x y] d IH]; intros r a b q SH B W P Wa Wb N H; cbn [consolidate_loop].
  - inversion SH; subst; rewrite app_nil_r. auto.
  - inversion SH; subst. inversion B; subst. inversion W; subst. destruct (FL a b q P N H) as [F1 F2].
    destruct (IH r0 [] [] []) as [I1 I2]; auto; try (now constructor); try (now left).
    { apply idle_nil. }
    split; [apply shown_app; [exact F1|constructor; exact I1]|apply Forall_app; split; [exact F2|constructor; auto]].
  - inversion SH as [| |? ? q1 ? r1 P1 SH1]; subst. inversion B as [|? ? Bx B']; subst. cbn in Bx; destruct Bx as (q2 & P2 & H2 & N2). inversion W as [|? ? Wxy W']; subst; cbn in Wxy; destruct Wxy as [Wx Wy].
    pose proof (pairs_det _ _ _ P1 _ P2) as ->. rewrite app_assoc. apply IH; auto.
    + now apply pairs_app.
    + rewrite side_app; now apply whole_app.
    + rewrite side_app; now apply whole_app.
    + rewrite expand_app; apply idle_app; auto. eapply pairs_whole; eauto.
    + right; rewrite expand_app. destruct H2 as [p [Hp Hc]]; exists p; split; [apply in_or_app; now right|exact Hc].
Qed.
Theorem consolidated_marks l : alternating (visible l) -> real_changes l -> exists d R, consolidated_line_diff space l = Ok d /\
  shown d R /\ expand R = expand l ++ marked Same (last_newline (diff_after l) (diff_before l)) /\ Forall (busy_item space) d.
Proof.
  intros A V. destruct (line_diff_marks l A V) as (d & R & E & SH & X & B). destruct (line_diff_whole space l) as (d' & E' & W).
  assert (d' = d) as -> by congruence.
  exists (consolidate_lines d), R. unfold consolidated_line_diff; rewrite E; cbn [bind]. split; [reflexivity|].
  destruct (loop_marks d R [] [] [] SH B W) as [I1 I2]; auto; try constructor; try reflexivity; try (now left).
  apply idle_nil.
Qed.
End WithSpace.
