(** A line diff has a Change exactly if the diff it is made of has one (C129). *)
From Verif Require Import Base Changesets SpecDiff Tokenizers Lines SpecLines LinesProofs.
Local Open Scope Z_scope.

Section WithSpace.
Variable space : Z -> bool.
Definition full_change (i : oitem) : Prop := match i with OStr _ => False | OChange a b => a <> [] \/ b <> [] end.
(** what is collected: a Change if there is a conflict, the beginning of a line otherwise *)
Definition fits (c : acc) : Prop :=
  if in_conflict c then p_into c <> [] else p_into c = [] \/ finishable c = false.

Lemma finish_fits s c : p_into c <> [] -> let '(o, c') := finish_conflict s c in
  Exists full_change o /\ fits c' /\ in_conflict c' = false.
Proof.
  intros H. unfold finish_conflict, conditional_add. destruct (finishable c) eqn:Ef.
  - cbn. split; [left; now left|]. split; [now left|reflexivity].
  - destruct (nonempty s); cbn; (split; [left; cbn|split; [now left|reflexivity]]); [|now left].
    left. destruct (p_into c); discriminate.
Qed.
Lemma strings_plain l : ~ Exists full_change (if_nonempty l).
Proof. unfold if_nonempty. destruct (nonempty l); intros H; [|inversion H]. inversion H; subst; [assumption|]. inversion H1. Qed.
Lemma finish_fits' s c : fits c -> in_conflict c = true -> let '(o, c') := finish_conflict s c in
  Exists full_change o /\ fits c' /\ in_conflict c' = false.
Proof. intros F H. apply finish_fits. unfold fits in F. now rewrite H in F. Qed.

Lemma no_end s : ~ In 10 s -> ends_nl s = false.
Proof.
  intros H. unfold ends_nl. destruct (rev s) as [|c r] eqn:E; [reflexivity|].
  destruct (Z.eqb_spec c 10) as [->|]; [|reflexivity]. destruct H. apply in_rev. rewrite E. now left.
Qed.
Lemma added s c : fits c -> nonempty s = true -> ~ In 10 s -> fits (add_frag s c).
Proof.
  intros F Hs Hn. unfold fits in *. cbn [add_frag in_conflict p_into finishable]. destruct (in_conflict c).
  - destruct (p_into c); discriminate.
  - right. rewrite Hs. now apply no_end.
Qed.

Lemma fragment_fits f c o c' : fits c -> is_true f = true -> handle_fragment space f c = (o, c') ->
  fits c' /\ (Exists full_change o \/ in_conflict c' = true <->
              in_conflict c = true \/ exists a b, f = DChange a b).
Proof.
  intros F T. destruct f as [s|a b]; cbn [handle_fragment is_true] in *.
  2:{ intros [= <- <-]. split; [unfold fits; cbn; destruct (p_into c); discriminate|].
      cbn. split; [intros _; right; eauto|intros _; now right]. }
  destruct (in_conflict c && isspace space s) eqn:Ei.
  { apply andb_true_iff in Ei as [Ei _]. intros [= <- <-]. unfold fits in *. cbn [in_conflict add_frag p_into]. rewrite Ei in *.
    split; [destruct (p_into c); discriminate|]. split; auto. }
  clear Ei.
  assert (Rest : forall c0 o1, fits c0 -> (Exists full_change o1 \/ in_conflict c0 = true <-> in_conflict c = true) ->
    match split_nl s with
      | first :: ((_ :: _) as rest) =>
        let '(o2, c) :=
          if in_conflict c0 then
            let '(o, c) := finish_conflict (first ++ [10]) c0 in
            (o ++ if_nonempty (join_with_newline (removelast rest)), c)
          else (if_nonempty (join_with_newline (first :: removelast rest)), c0) in
        (o1 ++ o2, if nonempty (last rest []) then add_frag (last rest []) c else c)
      | first :: [] => (o1, add_frag first c0)
      | [] => (o1, c0)
      end = (o, c') ->
    fits c' /\ (Exists full_change o \/ in_conflict c' = true <-> in_conflict c = true \/ exists a b, DText s = DChange a b)).
  { intros c0 o1 F0 I0 H.
    assert (Nx : (exists a b, @DText Z s = DChange a b) <-> False) by (split; [intros (? & ? & ?); discriminate|tauto]).
    rewrite Nx. destruct (split_nl s) as [|first [|x rest]] eqn:Es.
    - injection H as <- <-. tauto.
    - injection H as <- <-. split; [|cbn [add_frag in_conflict]; tauto].
      destruct (split_one s first Es) as [<- Hn]. apply added; auto.
    - pose proof (split_no_nl s) as Q. rewrite Es in Q.
      assert (Ql : ~ In 10 (last (x :: rest) [])).
      { apply Forall_inv_tail in Q. rewrite Forall_forall in Q. apply Q. destruct (exists_last (l := x :: rest)) as [y [z Hy]]; [discriminate|].
        rewrite Hy, last_last. apply in_app_iff. right; now left. }
      assert (Fin : forall c1, fits c1 ->
        let c2 := if nonempty (last (x :: rest) []) then add_frag (last (x :: rest) []) c1 else c1 in
        fits c2 /\ in_conflict c2 = in_conflict c1).
      { intros c1 F1. cbn zeta. destruct (nonempty (last (x :: rest) [])) eqn:En; [|auto]. split; [now apply added|reflexivity]. }
      destruct (in_conflict c0) eqn:Ec.
      + pose proof (finish_fits' (first ++ [10]) c0 F0 Ec) as P. destruct (finish_conflict (first ++ [10]) c0) as [o2 c1].
        destruct P as [P1 [P2 P3]]. apply pair_equal_spec in H as [<- <-]. destruct (Fin c1 P2) as [A B]. split; [exact A|].
        rewrite !Exists_app. split; [intros _; left; tauto|intros _; left; right; now left].
      + apply pair_equal_spec in H as [<- <-]. destruct (Fin c0 F0) as [A B]. split; [exact A|]. rewrite B, Ec, Exists_app.
        pose proof (strings_plain (join_with_newline (first :: removelast (x :: rest)))). tauto. }
  destruct (finishable c && is_nonempty c) eqn:En.
  - assert (Ec : in_conflict c = true).
    { apply andb_true_iff in En as [E1 E2]. unfold fits in F. destruct (in_conflict c); [reflexivity|].
      unfold is_nonempty in E2. destruct F as [F|F]; [rewrite F in E2; discriminate|congruence]. }
    pose proof (finish_fits' [] c F Ec) as P. destruct (finish_conflict [] c) as [o1 c1]. destruct P as [P1 [P2 P3]].
    apply Rest; auto. tauto.
  - apply Rest; auto. split; [intros [H|H]; [inversion H|exact H]|auto].
Qed.

Lemma all_fits l c o c' : fits c -> handle_all space l c = (o, c') ->
  fits c' /\ (Exists full_change o \/ in_conflict c' = true <-> in_conflict c = true \/ exists a b, In (DChange a b) l).
Proof.
  revert c o c'. induction l as [|f l IH]; intros c o c' F H; cbn [handle_all] in H.
  - injection H as <- <-. split; [exact F|]. split; [intros [H|H]; [inversion H|auto]|intros [H|(a & b & [])]; auto].
  - destruct (is_true f) eqn:T.
    + destruct (handle_fragment space f c) as [o1 c1] eqn:E1. destruct (handle_all space l c1) as [o2 c2] eqn:E2.
      injection H as <- <-. destruct (fragment_fits _ _ _ _ F T E1) as [F1 I1]. destruct (IH _ _ _ F1 E2) as [F2 I2].
      split; [exact F2|]. rewrite Exists_app. split.
      * intros [[H|H]|H].
        -- destruct (proj1 I1 (or_introl H)) as [Hc|(a & b & ->)]; [now left|right]. exists a, b; now left.
        -- destruct (proj1 I2 (or_introl H)) as [Hc|(a & b & Hi)]; [|right; exists a, b; now right].
           destruct (proj1 I1 (or_intror Hc)) as [Hc'|(a & b & ->)]; [now left|right]. exists a, b; now left.
        -- destruct (proj1 I2 (or_intror H)) as [Hc|(a & b & Hi)]; [|right; exists a, b; now right].
           destruct (proj1 I1 (or_intror Hc)) as [Hc'|(a & b & ->)]; [now left|right]. exists a, b; now left.
      * intros H. assert (X : Exists full_change o1 \/ in_conflict c1 = true \/ exists a b, In (DChange a b) l).
        { destruct H as [H|(a & b & [->|Hi])].
          - destruct (proj2 I1 (or_introl H)); auto.
          - destruct (proj2 I1) as [H|H]; [right; eauto| |]; auto.
          - right; right; eauto. }
        destruct X as [X|X]; [left; now left|]. destruct (proj2 I2 X); auto.
    + destruct (IH _ _ _ F H) as [F' I]. split; [exact F'|]. rewrite I. split; (intros [Hc|(a & b & Hi)]; [now left|right; exists a, b]).
      * now right.
      * destruct Hi as [->|Hi]; [discriminate|exact Hi].
Qed.

Lemma flushed a b : (exists x y, In (OChange x y) (flush_changes a b)) <-> a <> [] \/ b <> [].
Proof.
  unfold flush_changes. destruct a as [|u a], b as [|w b]; (split; [intros (x & y & H)|intros H]).
  - destruct H.
  - now destruct H.
  - now right.
  - do 2 eexists; now left.
  - now left.
  - do 2 eexists; now left.
  - now left.
  - do 2 eexists; now left.
Qed.
Lemma consolidate_full l : forall a b,
  (exists x y, In (OChange x y) (consolidate_loop l a b)) <-> (a <> [] \/ b <> []) \/ Exists full_change l.
Proof.
  induction l as [|[s|u w] l IH]; intros a b; cbn [consolidate_loop].
  - rewrite flushed. rewrite Exists_nil. tauto.
  - rewrite Exists_cons. cbn [full_change]. rewrite <- flushed. specialize (IH [] []). split.
    + intros (x & y & H). apply in_app_iff in H as [H|[H|H]]; [left; eauto|discriminate|].
      right; right. destruct (proj1 IH) as [[X|X]|X]; [eauto|congruence|congruence|exact X].
    + intros [(x & y & H)|[[]|H]]; [exists x, y; apply in_app_iff; now left|].
      destruct (proj2 IH (or_intror H)) as (x & y & Hi). exists x, y. apply in_app_iff. right; now right.
  - rewrite IH, Exists_cons. cbn [full_change].
    destruct a, u, b, w; cbn [app]; (split; [intros [[H|H]|H]|intros [[H|H]|[[H|H]|H]]]); auto; try congruence;
      try (left; left; discriminate); try (left; right; discriminate); try (right; left; left; discriminate); try (right; left; right; discriminate).
Qed.

Lemma flush_full c t : fits c -> flush c = Ok t -> (Exists full_change t <-> in_conflict c = true).
Proof.
  intros F. unfold flush. destruct (in_conflict c) eqn:Ec.
  - intros [= <-]. pose proof (finish_fits' (if finishable c then [] else [10]) c F Ec) as P.
    destruct (finish_conflict (if finishable c then [] else [10]) c) as [o c']. cbn [fst]. tauto.
  - assert (N : forall s, ~ Exists full_change [OStr s]).
    { intros s H. inversion H as [? ? X|? ? X]; subst; [exact X|inversion X]. }
    destruct (p_from c) as [|i l]; [intros [= <-]; rewrite Exists_nil; split; [tauto|discriminate]|].
    destruct (litem_true i); [|intros [= <-]; rewrite Exists_nil; split; [tauto|discriminate]].
    destruct (map_res litem_str _) as [x|e]; [|discriminate]. intros [= <-]. split; [intros H; now destruct (N _ H)|discriminate].
Qed.

Lemma changes_kept D d : consolidated_line_diff space D = Ok d ->
  ((exists a b, In (OChange a b) d) <-> exists a b, In (DChange a b) D).
Proof.
  unfold consolidated_line_diff, to_line_diff. destruct (handle_all space D new_acc) as [o c] eqn:E.
  destruct (flush c) as [t|e] eqn:Ft; [|discriminate]. cbn. intros [= <-]. unfold consolidate_lines. rewrite consolidate_full.
  destruct (all_fits D new_acc o c) as [F I]; [now left|exact E|].
  rewrite !Exists_app, (flush_full c t F Ft).
  assert (N : ~ Exists full_change (if existsb is_true D then [] else [OStr []])).
  { destruct (existsb is_true D); intros H; [inversion H|]. inversion H as [? ? X|? ? X]; subst; [exact X|inversion X]. }
  change (in_conflict new_acc) with false in I. split.
  - intros [[H|H]|[H|[H|H]]]; [congruence|congruence| | |contradiction].
    + destruct (proj1 I (or_introl H)); [discriminate|assumption].
    + destruct (proj1 I (or_intror H)); [discriminate|assumption].
  - intros H. right. destruct (proj2 I (or_intror H)); auto.
Qed.
End WithSpace.
