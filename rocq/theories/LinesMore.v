(** Consolidation of line diffs (C55) and what the renderer needs of them. *)
From Verif Require Import Base Changesets SpecDiff Tokenizers Lines SpecLines LinesProofs.
Local Open Scope Z_scope.

Lemma flush_texts a b : into_text (flush_changes a b) = side_text a /\ from_text (flush_changes a b) = side_text b.
Proof. destruct a, b; cbn; now rewrite ?app_nil_r. Qed.
Lemma loop_texts l : forall a b,
  into_text (consolidate_loop l a b) = side_text a ++ into_text l /\
  from_text (consolidate_loop l a b) = side_text b ++ from_text l.
Proof.
  induction l as [|[s|x y] l IH]; intros a b; cbn [consolidate_loop].
  - cbn. rewrite !app_nil_r. apply flush_texts.
  - rewrite into_app, from_app. destruct (flush_texts a b) as [-> ->]. destruct (IH [] []) as [I F].
    cbn [into_text from_text flat_map] in *. unfold into_text, from_text in I, F. rewrite I, F. now split.
  - destruct (IH (a ++ x) (b ++ y)) as [-> ->]. rewrite !side_app. cbn. now rewrite <- !app_assoc.
Qed.
Lemma loop_strings l : forall a b, strings (consolidate_loop l a b) = strings l.
Proof.
  induction l as [|[s|x y] l IH]; intros a b; cbn [consolidate_loop].
  - now destruct a, b.
  - transitivity (s :: strings (consolidate_loop l [] [])); [now destruct a, b|]. cbn. now rewrite IH.
  - cbn. apply IH.
Qed.
Definition starts_str (l : list oitem) : Prop := match l with OChange _ _ :: _ => False | _ => True end.
Lemma twice_change a b l : starts_str l -> no_change_twice l -> no_change_twice (OChange a b :: l).
Proof.
  intros S N [|k] x y x' y' H1 H2; cbn in *; [|exact (N k _ _ _ _ H1 H2)].
  destruct l as [|[s|u v] l]; cbn in *; [discriminate|discriminate|exact S].
Qed.
Lemma twice_str s l : no_change_twice l -> no_change_twice (OStr s :: l).
Proof. intros N [|k] x y x' y' H1 H2; cbn in *; [discriminate|exact (N k _ _ _ _ H1 H2)]. Qed.
Lemma flush_twice a b l : starts_str l -> no_change_twice l -> no_change_twice (flush_changes a b ++ l).
Proof. intros S N. destruct a, b; cbn; auto using twice_change. Qed.
Lemma loop_twice l : forall a b, no_change_twice (consolidate_loop l a b).
Proof.
  induction l as [|[s|x y] l IH]; intros a b; cbn [consolidate_loop]; [|apply flush_twice; cbn; auto using twice_str|auto].
  rewrite <- (app_nil_r (flush_changes a b)). apply flush_twice; [exact I|]. intros [|k] ? ? ? ? H; discriminate.
Qed.
(** C55 *)
Theorem consolidate_ok l :
  into_text (consolidate_lines l) = into_text l /\ from_text (consolidate_lines l) = from_text l /\
  strings (consolidate_lines l) = strings l /\ no_change_twice (consolidate_lines l).
Proof.
  unfold consolidate_lines. destruct (loop_texts l [] []) as [-> ->].
  split; [reflexivity|]. split; [reflexivity|]. split; [apply loop_strings|apply loop_twice].
Qed.

Lemma whole_nil : whole_lines []. Proof. now left. Qed.
Lemma flush_whole a b : whole_lines (side_text a) -> whole_lines (side_text b) -> Forall whole_item (flush_changes a b).
Proof. intros A B. destruct a, b; constructor; try constructor; auto. Qed.
Lemma loop_whole l : forall a b, whole_lines (side_text a) -> whole_lines (side_text b) ->
  Forall whole_item l -> Forall whole_item (consolidate_loop l a b).
Proof.
  induction l as [|[s|x y] l IH]; intros a b A B F; cbn [consolidate_loop]; [now apply flush_whole| |];
    inversion F as [|? ? H F']; subst.
  - apply Forall_app; split; [now apply flush_whole|]. constructor; [exact H|]. apply IH; auto using whole_nil.
  - destruct H. apply IH; auto; rewrite side_app; now apply whole_app.
Qed.
Theorem consolidate_whole l : Forall whole_item l -> Forall whole_item (consolidate_lines l).
Proof. apply loop_whole; apply whole_nil. Qed.

Lemma loop_sides l : forall a b, (a = [] <-> b = []) -> sides_present l -> sides_present (consolidate_loop l a b).
Proof.
  unfold sides_present. induction l as [|[s|x y] l IH]; intros a b A F; cbn [consolidate_loop].
  - destruct a, b; cbn; constructor; try constructor; try discriminate; firstorder discriminate.
  - inversion F as [|? ? H F']; subst. apply Forall_app; split.
    + destruct a, b; cbn; constructor; try constructor; try discriminate; firstorder discriminate.
    + constructor; [exact H|]. apply IH; tauto.
  - inversion F as [|? ? H F']; subst. cbn in H. destruct H as [Hx Hy]. apply IH; auto.
    split; intros E; apply app_eq_nil in E as [_ E]; contradiction.
Qed.
Theorem consolidate_sides l : sides_present l -> sides_present (consolidate_lines l).
Proof. apply loop_sides; tauto. Qed.

Lemma ends_whole_b s : whole s = ends_line s.
Proof. destruct s as [|c s]; [reflexivity|]. cbn [whole]. unfold ends_nl, ends_line. destruct (rev (c :: s)) eqn:E; [|reflexivity]. apply (f_equal (@length Z)) in E. rewrite rev_length in E. discriminate. Qed.

Section WithSpace.
Variable space : Z -> bool.
Lemma finish_sides s c : p_into c <> [] -> p_from c <> [] -> sides_present (fst (finish_conflict s c)).
Proof.
  intros A B. unfold finish_conflict, conditional_add. destruct (finishable c).
  - cbn. destruct s; cbn; repeat constructor; auto.
  - destruct s; cbn; repeat constructor; auto using app_one.
Qed.
Lemma if_sides s : sides_present (if_nonempty s).
Proof. destruct s; repeat constructor. Qed.
Lemma good_sides c : good c -> in_conflict c = true -> p_into c <> [] /\ p_from c <> [].
Proof. intros G H. pose proof (g_some c G H). split; [|auto]. now rewrite (g_both c G). Qed.
Lemma fragment_sides f c : is_true f = true -> good c -> sides_present (fst (handle_fragment space f c)).
Proof.
  intros Tf G. destruct f as [s|a b]; cbn [handle_fragment]; [|constructor].
  destruct (in_conflict c && isspace space s); [constructor|].
  set (r := if finishable c && is_nonempty c then finish_conflict [] c else ([], c)).
  assert (sides_present (fst r) /\ good (snd r)) as [S1 G1].
  { unfold r. destruct (finishable c && is_nonempty c) eqn:E; [|split; [constructor|exact G]].
    apply andb_true_iff in E as [F N]. pose proof (finish_good [] c G (or_introl F)) as H.
    pose proof (finish_sides [] c) as H'. destruct (finish_conflict [] c) as [o c']. destruct H as [-> _].
    split; [|apply good_new]. apply H'; intros E; unfold is_nonempty in N; rewrite E in N; try discriminate.
    now destruct (p_into c). }
  destruct r as [o1 c1]. cbn [fst snd] in *. unfold sides_present.
  destruct (split_nl s) as [|first [|x rest]]; cbn [fst]; auto.
  destruct (in_conflict c1) eqn:IC.
  - pose proof (finish_sides (first ++ [10]) c1) as H. destruct (good_sides c1 G1 IC) as [A B].
    destruct (finish_conflict (first ++ [10]) c1) as [o c2]. cbn [fst].
    apply Forall_app; split; [exact S1|]. apply Forall_app; split; [now apply H|apply if_sides].
  - cbn [fst]. apply Forall_app; split; [exact S1|apply if_sides].
Qed.
Lemma fragment_good f c : is_true f = true -> good c -> good (snd (handle_fragment space f c)).
Proof.
  intros Tf G. destruct f as [s|a b]; [|now apply good_conflict].
  apply nonempty_iff in Tf. now destruct (text_step space s c Tf G).
Qed.
Lemma all_sides l : forall c, good c -> sides_present (fst (handle_all space l c)).
Proof.
  induction l as [|f l IH]; intros c G; cbn [handle_all]; [constructor|].
  destruct (is_true f) eqn:Tf; [|auto].
  pose proof (fragment_sides f c Tf G) as S1. pose proof (fragment_good f c Tf G) as G1.
  destruct (handle_fragment space f c) as [o c1]. cbn [fst snd] in *. specialize (IH c1 G1).
  destruct (handle_all space l c1) as [o' c2]. cbn [fst] in *. apply Forall_app; now split.
Qed.
Theorem line_diff_sides l d : to_line_diff space l = Ok d -> sides_present d.
Proof.
  unfold to_line_diff. destruct (all_good space l new_acc good_new) as [G _].
  pose proof (all_sides l new_acc good_new) as S1. destruct (handle_all space l new_acc) as [o c]. cbn [fst snd] in *.
  destruct (flush c) as [t|] eqn:Fl; [|discriminate]. cbn [bind]. intros E; injection E as <-.
  apply Forall_app; split; [exact S1|]. apply Forall_app; split.
  - unfold flush in Fl. destruct (in_conflict c) eqn:IC.
    + injection Fl as <-. destruct (good_sides c G IC). now apply finish_sides.
    + destruct (p_from c) as [|i p]; [injection Fl as <-; constructor|].
      destruct (litem_true i); [|injection Fl as <-; constructor].
      destruct (map_res litem_str ((i :: p) ++ [LStr [10]])); [|discriminate]. injection Fl as <-. repeat constructor.
  - destruct (existsb is_true l); repeat constructor.
Qed.

Lemma alternating_visible l : alternating l -> no_text_twice (visible l).
Proof.
  intros A. assert (K : forall l, alternating l -> no_text_twice (visible l) /\
     (match l with DText _ :: _ => True | _ => match visible l with DText _ :: _ => False | _ => True end end)).
  { clear. induction l as [|f l IH]; intros A.
    - split; [intros [|k] ? ? H; discriminate|exact I].
    - assert (A' : alternating l) by (intros k x y; exact (A (S k) x y)). destruct (IH A') as [N H].
      rewrite visible_cons. destruct f as [[|c s]|a b]; cbn [is_true nonempty].
      + now split.
      + split; [|exact I]. intros [|k] u v H1 H2; [|exact (N k _ _ H1 H2)]. cbn [nth_error] in H2.
        destruct l as [|[t|a b] l]; [discriminate| |].
        * destruct (A 0%nat _ _ eq_refl eq_refl) as [[_ [? [? X]]]|[[? [? X]] _]]; discriminate.
        * destruct (visible (DChange a b :: l)) as [|[t|? ?] r]; [discriminate|contradiction|discriminate].
      + split; [|exact I]. intros [|k] u v H1 H2; [discriminate|exact (N k _ _ H1 H2)]. }
  apply K, A.
Qed.

(** C52 *)
Theorem line_diff_last l : alternating (visible l) -> exists d, to_line_diff space l = Ok d /\
  let tail := last_newline (diff_after l) (diff_before l) in
  into_text d = diff_after l ++ tail /\ from_text d = diff_before l ++ tail.
Proof.
  intros A. destruct (line_diff_tail space l A) as [d [E H]]. exists d. split; [exact E|].
  unfold last_newline. now rewrite <- !ends_whole_b.
Qed.
End WithSpace.
