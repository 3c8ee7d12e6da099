(** Line diffs keep both texts and consist of whole lines. *)
From Verif Require Import Base Changesets SpecDiff Tokenizers TokenizersProofs Lines SpecLines.
Local Open Scope Z_scope.

(** * Lines *)
Lemma ends_nl_app s : s <> [] -> (ends_nl s = true <-> exists s', s = s' ++ [10]).
Proof.
  intros Hs. destruct (exists_last Hs) as [s0 [x ->]]. unfold ends_nl. rewrite rev_unit, Z.eqb_eq. split.
  - intros ->; eauto.
  - intros [s' H]. apply app_inj_tail in H as [_ H]; exact H.
Qed.
Lemma ends_whole s : ends_nl s = true -> whole_lines s.
Proof. intros H. destruct s as [|x s]; [discriminate|]. right. apply ends_nl_app; [discriminate|exact H]. Qed.
Lemma whole_app a b : whole_lines a -> whole_lines b -> whole_lines (a ++ b).
Proof. intros Ha [-> | [b' ->]]; [now rewrite app_nil_r|]. right; exists (a ++ b'); now rewrite app_assoc. Qed.
Lemma whole_app_r a b : b <> [] -> (whole_lines (a ++ b) <-> ends_nl b = true).
Proof.
  intros Hb. rewrite (ends_nl_app b Hb). split.
  - intros [H|[s' H]]; [apply app_eq_nil in H; tauto|].
    destruct (exists_last Hb) as [b0 [x ->]]. rewrite app_assoc in H. apply app_inj_tail in H as [_ ->]; eauto.
  - intros [b' ->]. right; exists (a ++ b'); now rewrite app_assoc.
Qed.
Lemma nonempty_iff {T} (l : list T) : nonempty l = true <-> l <> [].
Proof. destruct l; cbn; split; congruence. Qed.
Lemma side_app l l' : side_text (l ++ l') = side_text l ++ side_text l'.
Proof. apply flat_map_app. Qed.
Lemma into_app l l' : into_text (l ++ l') = into_text l ++ into_text l'.
Proof. apply flat_map_app. Qed.
Lemma from_app l l' : from_text (l ++ l') = from_text l ++ from_text l'.
Proof. apply flat_map_app. Qed.

Lemma join_newline_cons x l : join_with_newline (x :: l) = x ++ 10 :: join_with_newline l.
Proof.
  revert x; induction l as [|y l IH]; intros x; [reflexivity|]. unfold join_with_newline in *.
  change (join_with [10] (x :: y :: l)) with (x ++ [10] ++ join_with [10] (y :: l)). rewrite <- app_assoc. cbn [app].
  now rewrite (IH y), <- (IH y).
Qed.
Lemma join_newline_whole l : whole_lines (join_with_newline l).
Proof. destruct l; [now left|]. right. now eexists. Qed.
Lemma join_last l x : join_with [10] (l ++ [x]) = join_with_newline l ++ x.
Proof.
  induction l as [|y l IH]; [reflexivity|]. rewrite join_newline_cons. rewrite <- app_assoc; cbn [app]. rewrite <- IH.
  destruct l; reflexivity.
Qed.
Lemma split_ne s : split_nl s <> [].
Proof. destruct s as [|c s]; cbn; [discriminate|]. destruct (c =? 10); [discriminate|]. destruct (split_nl s); discriminate. Qed.
Lemma split_join s : join_with [10] (split_nl s) = s.
Proof.
  induction s as [|c s IH]; [reflexivity|]. cbn [split_nl]. destruct (Z.eqb_spec c 10) as [->|Hc].
  - pose proof (split_ne s) as N. destruct (split_nl s) as [|x l]; [now destruct N|].
    change (join_with [10] ([] :: x :: l)) with (10 :: join_with [10] (x :: l)). now rewrite IH.
  - pose proof (split_ne s) as N. destruct (split_nl s) as [|x l]; [now destruct N|].
    destruct l as [|y l]; cbn [join_with] in *; [now rewrite IH|].
    change ((c :: x) ++ [10] ++ join_with [10] (y :: l) = c :: s). cbn [app]. now rewrite <- IH.
Qed.
Lemma split_no_nl s : Forall (fun l => ~ In 10 l) (split_nl s).
Proof.
  induction s as [|c s IH]; cbn [split_nl]; [repeat constructor; auto|].
  destruct (Z.eqb_spec c 10) as [->|Hc]; [constructor; auto|].
  destruct (split_nl s) as [|x l]; [repeat constructor; cbn; intuition|].
  inversion IH; subst. constructor; [|assumption]. cbn; intuition.
Qed.
Lemma no_nl_ends s : s <> [] -> ~ In 10 s -> ends_nl s = false.
Proof.
  intros Hs Hn. destruct (ends_nl s) eqn:E; [|reflexivity]. apply ends_nl_app in E as [s' ->]; [|exact Hs].
  exfalso; apply Hn, in_or_app; right; now left.
Qed.
(** the lines of a string with a newline *)
Lemma split_parts s first x rest : split_nl s = first :: x :: rest ->
  s = (first ++ [10]) ++ join_with_newline (removelast (x :: rest)) ++ last (x :: rest) [] /\
  s = join_with_newline (first :: removelast (x :: rest)) ++ last (x :: rest) [] /\ ~ In 10 (last (x :: rest) []).
Proof.
  intros H. assert (Hne : x :: rest <> []) by discriminate.
  pose proof (split_join s) as J. pose proof (split_no_nl s) as F. rewrite H in J, F.
  pose proof (app_removelast_last [] Hne) as L.
  set (y := last (x :: rest) []) in *. set (m := removelast (x :: rest)) in *.
  rewrite L in J, F. rewrite app_comm_cons, join_last in J.
  split; [|split].
  - rewrite <- J, join_newline_cons, <- !app_assoc. reflexivity.
  - symmetry; exact J.
  - rewrite app_comm_cons in F. apply Forall_app in F as [_ F]. now inversion F.
Qed.
Lemma split_one s first : split_nl s = [first] -> s = first /\ ~ In 10 s.
Proof.
  intros H. pose proof (split_join s) as J. pose proof (split_no_nl s) as F. rewrite H in J, F. cbn in J. subst first.
  split; [reflexivity|]. now inversion F.
Qed.

Section WithSpace.
Variable space : Z -> bool.
Notation handle_fragment := (handle_fragment space).
Notation handle_all := (handle_all space).
Notation to_line_diff := (to_line_diff space).

(** * The accumulator *)
Record good (c : acc) : Prop := {
  g_same : in_conflict c = false -> p_into c = p_from c /\
           Forall (fun i => exists s, i = LStr s /\ s <> []) (p_from c) /\ (p_from c <> [] -> finishable c = false);
  g_both : p_into c = [] <-> p_from c = [];
  g_some : in_conflict c = true -> p_from c <> [];
  g_start : p_from c = [] -> finishable c = true;
  g_whole : finishable c = true -> whole_lines (side_text (p_into c)) /\ whole_lines (side_text (p_from c))
}.

Lemma app_one {A} (l : list A) x : l ++ [x] <> [].
Proof. destruct l; discriminate. Qed.
Lemma good_new : good new_acc.
Proof.
  split; cbn; intros; try discriminate; auto; try (split; now left); try tauto.
  split; [reflexivity|]. split; [constructor|]. intros []; reflexivity.
Qed.
Lemma good_conflict a b c : good c -> good (add_conflict a b c).
Proof.
  intros G. split; cbn [add_conflict p_into p_from finishable in_conflict].
  - discriminate.
  - split; intros H; now apply app_one in H.
  - intros _; apply app_one.
  - intros H; now apply app_one in H.
  - intros H. apply andb_true_iff in H as [Ha Hb]. rewrite !side_app. cbn [side_text flat_map litem_text].
    rewrite !app_nil_r. cbn [app]. split.
    + destruct a as [|x a]; cbn [nonempty] in Ha.
      * rewrite app_nil_r. now apply g_whole.
      * apply whole_app_r; [discriminate|exact Ha].
    + destruct b as [|x b]; cbn [nonempty] in Hb.
      * rewrite app_nil_r. now apply g_whole.
      * apply whole_app_r; [discriminate|exact Hb].
Qed.
Lemma good_add s c : good c -> s <> [] ->
  in_conflict c = true \/ ends_nl s = false -> good (add_frag s c).
Proof.
  intros G Hs Hc. split; cbn [add_frag p_into p_from finishable in_conflict];
    rewrite ?(proj2 (nonempty_iff s) Hs).
  - intros H. destruct Hc as [Hc|Hc]; [congruence|]. destruct (g_same c G H) as [E [F _]].
    split; [now rewrite E|]. split; [|auto]. apply Forall_app; split; [exact F|]. repeat constructor. eauto.
  - split; intros H; now apply app_one in H.
  - intros _; apply app_one.
  - intros H; now apply app_one in H.
  - intros He. rewrite !side_app. cbn [side_text flat_map litem_text]. rewrite app_nil_r.
    split; apply whole_app_r; auto.
Qed.
(** a conflict is finished *)
Lemma finish_good s c : good c -> finishable c = true \/ ends_nl s = true ->
  let '(o, c') := finish_conflict s c in
  c' = new_acc /\ (finishable c = true -> whole_lines s -> Forall whole_item o) /\
  (finishable c = false -> Forall whole_item o) /\
  into_text o = side_text (p_into c) ++ s /\ from_text o = side_text (p_from c) ++ s.
Proof.
  intros G Hs. unfold finish_conflict, conditional_add. destruct (finishable c) eqn:F.
  - rewrite F. split; [reflexivity|]. split; [|split; [discriminate|]].
    + intros _ Ws. constructor; [now apply g_whole|]. destruct s; constructor; [exact Ws|constructor].
    + cbn. destruct s as [|x s]; cbn; now rewrite ?app_nil_r.
  - destruct Hs as [Hs|Hs]; [discriminate|]. destruct s as [|x s]; [discriminate|]. cbn [nonempty].
    cbn [add_frag finishable nonempty p_into p_from]. rewrite Hs. split; [reflexivity|]. split; [discriminate|].
    split; [|cbn; rewrite !side_app; cbn; now rewrite !app_nil_r].
    intros _. constructor; [|constructor]. cbn. rewrite !side_app. cbn. rewrite app_nil_r.
    split; apply whole_app_r; auto; discriminate.
Qed.

(** ready for a string: nothing is left over from an earlier one outside a conflict *)
Definition ready (c : acc) : Prop := in_conflict c = true \/ p_from c = [].

Lemma add_content s c : side_text (p_into (add_frag s c)) = side_text (p_into c) ++ s /\
  side_text (p_from (add_frag s c)) = side_text (p_from c) ++ s.
Proof. cbn. rewrite !side_app; cbn. now rewrite !app_nil_r. Qed.
Lemma if_text s : into_text (if_nonempty s) = s /\ from_text (if_nonempty s) = s.
Proof. destruct s; cbn; now rewrite ?app_nil_r. Qed.
Lemma if_whole s : whole_lines s -> Forall whole_item (if_nonempty s).
Proof. intros H. destruct s; [constructor|]. constructor; [exact H|constructor]. Qed.
Lemma new_content : side_text (p_into new_acc) = [] /\ side_text (p_from new_acc) = [].
Proof. split; reflexivity. Qed.

Definition keeps (c : acc) (s : list Z) (r : list oitem * acc) : Prop :=
  into_text (fst r) ++ side_text (p_into (snd r)) = side_text (p_into c) ++ s /\
  from_text (fst r) ++ side_text (p_from (snd r)) = side_text (p_from c) ++ s.
Lemma keeps_none c s : keeps c s ([], add_frag s c).
Proof. unfold keeps; cbn [fst snd into_text from_text flat_map app]. apply add_content. Qed.
Lemma nonempty_nil {T} (l : list T) : nonempty l = false -> l = [].
Proof. destruct l; [reflexivity|discriminate]. Qed.
Lemma nonempty_acc c : good c -> is_nonempty c = false -> p_into c = [] /\ p_from c = [].
Proof.
  intros G H. unfold is_nonempty in H. destruct (p_into c) eqn:A.
  - split; [reflexivity|]. now apply (g_both c G).
  - destruct (p_from c) eqn:B; [|discriminate]. now rewrite (proj2 (g_both c G) B) in A.
Qed.

(** one string, with the accumulator not both finishable and filled *)
Lemma text_step_body s c : s <> [] -> good c -> (finishable c = true -> p_from c = []) ->
  let r := match split_nl s with
      | first :: ((_ :: _) as rest) =>
        let '(o2, c) :=
          if in_conflict c then
            let '(o, c) := finish_conflict (first ++ [10]) c in
            (o ++ if_nonempty (join_with_newline (removelast rest)), c)
          else (if_nonempty (join_with_newline (first :: removelast rest)), c) in
        (o2, if nonempty (last rest []) then add_frag (last rest []) c else c)
      | first :: [] => ([], add_frag first c)
      | [] => ([], c)
      end in
  good (snd r) /\ Forall whole_item (fst r) /\ (ready c -> keeps c s r) /\
  (ready c -> finishable (snd r) = ends_nl s).
Proof.
  intros Hs G Hf. destruct (split_nl s) as [|first rest] eqn:Sp; [now destruct (split_ne s)|].
  destruct rest as [|x rest].
  - apply split_one in Sp as [<- Hn]. cbn zeta. cbn [fst snd]. pose proof (no_nl_ends s Hs Hn) as E.
    split; [apply good_add; auto|]. split; [constructor|]. split; [intros _; apply keeps_none|].
    intros _. cbn. now rewrite (proj2 (nonempty_iff s) Hs).
  - destruct (split_parts s first x rest Sp) as [P1 [P2 Hn]]. cbv beta iota zeta.
    set (y := last (x :: rest) []) in *. set (m := removelast (x :: rest)) in *.
    assert (Ey : y <> [] -> ends_nl s = false).
    { intros Hy. rewrite P2. destruct (ends_nl (join_with_newline (first :: m) ++ y)) eqn:X; [|reflexivity].
      apply ends_whole in X. apply (whole_app_r _ y Hy) in X. now rewrite (no_nl_ends y Hy Hn) in X. }
    assert (Ey' : y = [] -> ends_nl s = true).
    { intros Hy. rewrite P2, Hy, app_nil_r. apply ends_nl_app; [rewrite join_newline_cons; destruct first; discriminate|].
      destruct (join_newline_whole (first :: m)) as [X|X]; [|exact X].
      rewrite join_newline_cons in X. now destruct first. }
    destruct (in_conflict c) eqn:Hc.
    + assert (F : finishable c = false).
      { destruct (finishable c) eqn:F; [|reflexivity]. now apply (g_some c G Hc) in Hf. }
      assert (En : ends_nl (first ++ [10]) = true).
      { apply ends_nl_app; [apply app_one|eauto]. }
      pose proof (finish_good (first ++ [10]) c G (or_intror En)) as FG.
      destruct (finish_conflict (first ++ [10]) c) as [o c']. destruct FG as [-> [_ [W [I1 I2]]]]. cbn [fst snd].
      assert (Wo : Forall whole_item (o ++ if_nonempty (join_with_newline m))).
      { apply Forall_app; split; [now apply W|apply if_whole, join_newline_whole]. }
      assert (T1 : into_text (o ++ if_nonempty (join_with_newline m)) ++ y = side_text (p_into c) ++ s).
      { rewrite into_app, I1, (proj1 (if_text _)), P1, <- !app_assoc. reflexivity. }
      assert (T2 : from_text (o ++ if_nonempty (join_with_newline m)) ++ y = side_text (p_from c) ++ s).
      { rewrite from_app, I2, (proj2 (if_text _)), P1, <- !app_assoc. reflexivity. }
      destruct (nonempty y) eqn:Y.
      * apply nonempty_iff in Y. split; [apply good_add; [apply good_new|exact Y|right; now apply no_nl_ends]|].
        split; [exact Wo|]. split.
        -- intros _. unfold keeps; cbn [fst snd]. rewrite (proj1 (add_content y new_acc)), (proj2 (add_content y new_acc)).
           now split.
        -- intros _. cbn [snd add_frag finishable]. rewrite (proj2 (nonempty_iff y) Y), Ey by exact Y. now apply no_nl_ends.
      * apply nonempty_nil in Y. rewrite Y in *. split; [apply good_new|]. split; [exact Wo|].
        split; [intros _; now split|]. intros _. cbn. symmetry; now apply Ey'.
    + cbn [fst snd]. set (z := join_with_newline (first :: m)) in *.
      assert (Wz : Forall whole_item (if_nonempty z)) by apply if_whole, join_newline_whole.
      destruct (nonempty y) eqn:Y.
      * apply nonempty_iff in Y. split; [apply good_add; [exact G|exact Y|right; now apply no_nl_ends]|].
        split; [exact Wz|]. split.
        -- intros [R|R]; [congruence|]. unfold keeps; cbn [fst snd].
           rewrite (proj1 (add_content y c)), (proj2 (add_content y c)), (proj1 (if_text z)), (proj2 (if_text z)).
           rewrite R, (proj2 (g_both c G) R). cbn. now split.
        -- intros _. cbn [snd add_frag finishable]. rewrite (proj2 (nonempty_iff y) Y), Ey by exact Y. now apply no_nl_ends.
      * apply nonempty_nil in Y. split; [exact G|]. split; [exact Wz|]. split.
        -- intros [R|R]; [congruence|]. unfold keeps; cbn [fst snd]. rewrite (proj1 (if_text z)), (proj2 (if_text z)).
           rewrite R, (proj2 (g_both c G) R). cbn. rewrite app_nil_r, P2, Y, app_nil_r. now split.
        -- intros [R|R]; [congruence|]. rewrite (g_start c G R). symmetry; now apply Ey'.
Qed.

Lemma text_step s c : s <> [] -> good c ->
  let r := handle_fragment (DText s) c in
  good (snd r) /\ Forall whole_item (fst r) /\ (ready c -> keeps c s r) /\
  (ready c -> finishable (snd r) = ends_nl s).
Proof.
  intros Hs G. cbn zeta. unfold Lines.handle_fragment.
  destruct (in_conflict c && isspace space s) eqn:Sp.
  - apply andb_true_iff in Sp as [Hc _]. cbn [fst snd].
    split; [apply good_add; auto|]. split; [constructor|]. split; [intros _; apply keeps_none|].
    intros _. cbn. now rewrite (proj2 (nonempty_iff s) Hs).
  - clear Sp. destruct (finishable c && is_nonempty c) eqn:Fin.
    + apply andb_true_iff in Fin as [F N].
      pose proof (finish_good [] c G (or_introl F)) as FG. destruct (finish_conflict [] c) as [o1 c1].
      destruct FG as [-> [W [_ [I1 I2]]]]. specialize (W F (or_introl eq_refl)).
      pose proof (text_step_body s new_acc Hs good_new (fun _ => eq_refl)) as B. cbn zeta in B.
      destruct (split_nl s) as [|first [|x rest]].
      * cbn [fst snd] in *. destruct B as [B1 [_ [B3 B4]]]. split; [exact B1|]. split; [exact W|].
        assert (R : ready new_acc) by now right.
        split; [|intros _; now apply B4]. intros _. destruct (B3 R) as [K1 K2]. cbn in K1, K2.
        exfalso; apply Hs; now symmetry.
      * cbn [fst snd] in *. destruct B as [B1 [_ [B3 B4]]]. split; [exact B1|]. split; [exact W|].
        assert (R : ready new_acc) by now right.
        split; [|intros _; now apply B4]. intros _. destruct (B3 R) as [K1 K2]. unfold keeps in *; cbn [fst snd] in *.
        rewrite I1, I2, !app_nil_r. cbn [into_text from_text flat_map app] in K1, K2. rewrite K1, K2. now split.
      * cbn [in_conflict new_acc] in *. cbn [fst snd] in *. destruct B as [B1 [B2 [B3 B4]]]. split; [exact B1|].
        split; [apply Forall_app; now split|]. assert (R : ready new_acc) by now right.
        split; [|intros _; now apply B4]. intros _. destruct (B3 R) as [K1 K2]. unfold keeps in *; cbn [fst snd] in *.
        rewrite into_app, from_app, I1, I2, !app_nil_r, <- !app_assoc.
        rewrite K1, K2. now split.
    + assert (Hf : finishable c = true -> p_from c = []).
      { intros F. rewrite F in Fin. cbn in Fin. now apply nonempty_acc. }
      pose proof (text_step_body s c Hs G Hf) as B. cbn zeta in B.
      destruct (split_nl s) as [|first [|x rest]]; [exact B|exact B|].
      destruct (in_conflict c).
      * destruct (finish_conflict (first ++ [10]) c) as [o c']. exact B.
      * exact B.
Qed.

(** * Whole streams *)
Lemma conflict_content a b c :
  side_text (p_into (add_conflict a b c)) = side_text (p_into c) ++ a /\
  side_text (p_from (add_conflict a b c)) = side_text (p_from c) ++ b.
Proof. cbn. rewrite !side_app; cbn. now rewrite !app_nil_r. Qed.

Lemma all_good l : forall c, good c -> good (snd (handle_all l c)) /\ Forall whole_item (fst (handle_all l c)).
Proof.
  induction l as [|f l IH]; intros c G; cbn [Lines.handle_all]; [split; [exact G|constructor]|].
  destruct (is_true f) eqn:Tf; [|now apply IH].
  assert (S : good (snd (handle_fragment f c)) /\ Forall whole_item (fst (handle_fragment f c))).
  { destruct f as [s|a b].
    - apply nonempty_iff in Tf. destruct (text_step s c Tf G) as [S1 [S2 _]]; now split.
    - cbn [Lines.handle_fragment fst snd]. split; [now apply good_conflict|constructor]. }
  destruct (handle_fragment f c) as [o c']. destruct S as [S1 S2]; cbn in S1, S2.
  destruct (IH c' S1) as [T1 T2]. destruct (handle_all l c') as [o' c'']. cbn in *. split; [exact T1|].
  apply Forall_app; now split.
Qed.
Lemma strs_concat l : Forall (fun i => exists s, i = LStr s /\ s <> []) l ->
  exists ss, map_res litem_str l = Ok ss /\ concat ss = side_text l.
Proof.
  induction 1 as [|i l [s [-> Hs]] H [ss [E1 E2]]]; cbn; [exists []; auto|].
  rewrite E1; cbn. exists (s :: ss); split; [reflexivity|]. cbn. now rewrite E2.
Qed.
(** the end of the stream *)
Lemma flush_ok c : good c -> exists o tail, flush c = Ok o /\ Forall whole_item o /\
  tail = (if finishable c then [] else [10]) /\
  into_text o = side_text (p_into c) ++ tail /\ from_text o = side_text (p_from c) ++ tail.
Proof.
  intros G. unfold flush. set (tail := if finishable c then [] else [10]).
  assert (Ht : finishable c = true \/ ends_nl tail = true).
  { unfold tail. destruct (finishable c); [now left|right; reflexivity]. }
  destruct (in_conflict c) eqn:Hc.
  - pose proof (finish_good tail c G Ht) as FG. destruct (finish_conflict tail c) as [o c'].
    destruct FG as [_ [W1 [W2 [I1 I2]]]]. exists o, tail. cbn [fst]. split; [reflexivity|]. split; [|auto].
    destruct (finishable c); [apply W1; [reflexivity|now left]|now apply W2].
  - destruct (g_same c G Hc) as [E [F Fin]]. rewrite E. destruct (p_from c) as [|i l] eqn:Hp.
    + exists [], tail. unfold tail. rewrite (g_start c G Hp). repeat split; constructor.
    + assert (Hi : litem_true i = true).
      { inversion F as [|? ? [s [-> Hs]]]; subst. cbn. now apply nonempty_iff. }
      rewrite Hi. destruct (strs_concat ((i :: l) ++ [LStr [10]])) as [ss [E1 E2]].
      { apply Forall_app; split; [exact F|]. repeat constructor. exists [10]; split; [reflexivity|discriminate]. }
      rewrite E1. cbn [bind]. exists [OStr (concat ss)], [10]. split; [reflexivity|].
      split; [|split; [unfold tail; now rewrite Fin by discriminate|]].
      * constructor; [|constructor]. cbn. rewrite E2, side_app. right. eexists; reflexivity.
      * unfold into_text, from_text; cbn [flat_map]. rewrite app_nil_r, E2, side_app. split; reflexivity.
Qed.

(** C53, and no exception *)
Theorem line_diff_whole l : exists d, to_line_diff l = Ok d /\ Forall whole_item d.
Proof.
  unfold Lines.to_line_diff. destruct (all_good l new_acc good_new) as [G W].
  destruct (handle_all l new_acc) as [o c]. cbn in G, W. destruct (flush_ok c G) as [t [tl [-> [Wt _]]]]. cbn [bind].
  eexists; split; [reflexivity|]. apply Forall_app; split; [exact W|]. apply Forall_app; split; [exact Wt|].
  destruct (existsb is_true l); repeat constructor.
Qed.

(** after a Change one may go on with anything, after a string with a Change *)
Lemma visible_cons f l : visible (f :: l) = if is_true f then f :: visible l else visible l.
Proof. unfold visible; cbn [filter]. destruct f as [[|x s]|a b]; reflexivity. Qed.
Lemma twice_tail f l : no_text_twice (f :: l) -> no_text_twice l.
Proof. intros H k s t A B. exact (H (S k) s t A B). Qed.

Lemma all_content l : forall c, good c -> no_text_twice (visible l) ->
  (ready c \/ match visible l with DText _ :: _ => False | _ => True end) ->
  into_text (fst (handle_all l c)) ++ side_text (p_into (snd (handle_all l c))) =
    side_text (p_into c) ++ diff_after l /\
  from_text (fst (handle_all l c)) ++ side_text (p_from (snd (handle_all l c))) =
    side_text (p_from c) ++ diff_before l.
Proof.
  induction l as [|f l IH]; intros c G N R; cbn [Lines.handle_all]; [cbn; now rewrite !app_nil_r|].
  rewrite visible_cons in N, R. destruct (is_true f) eqn:Tf.
  - assert (S : good (snd (handle_fragment f c)) /\
      (ready (snd (handle_fragment f c)) \/ match visible l with DText _ :: _ => False | _ => True end) /\
      into_text (fst (handle_fragment f c)) ++ side_text (p_into (snd (handle_fragment f c))) =
        side_text (p_into c) ++ diff_after [f] /\
      from_text (fst (handle_fragment f c)) ++ side_text (p_from (snd (handle_fragment f c))) =
        side_text (p_from c) ++ diff_before [f]).
    { destruct f as [s|a b].
      - apply nonempty_iff in Tf. destruct (text_step s c Tf G) as [S1 [_ [S3 _]]].
        destruct R as [R|[]]. destruct (S3 R) as [K1 K2]. split; [exact S1|]. split.
        + right. destruct (visible l) as [|[s'|a b] l'] eqn:V; auto. exact (N 0%nat s s' eq_refl eq_refl).
        + unfold diff_after, diff_before; cbn [flat_map]. rewrite app_nil_r. now split.
      - cbn [Lines.handle_fragment fst snd]. split; [now apply good_conflict|]. split; [left; now left|].
        unfold diff_after, diff_before; cbn [flat_map into_text from_text app]. rewrite !app_nil_r. apply conflict_content. }
    destruct (handle_fragment f c) as [o c']. destruct S as [S1 [S2 [S3 S4]]]. cbn [fst snd] in *.
    destruct (IH c' S1 (twice_tail _ _ N) S2) as [I1 I2]. destruct (handle_all l c') as [o' c'']. cbn [fst snd] in *.
    rewrite into_app, from_app, <- !app_assoc, I1, I2, !app_assoc, S3, S4, <- !app_assoc.
    unfold diff_after, diff_before; cbn [flat_map]. now rewrite !app_nil_r.
  - destruct f as [[|x s]|a b]; try discriminate. unfold diff_after, diff_before in *; cbn [flat_map app].
    now apply IH.
Qed.

(** C52 *)
Theorem line_diff_texts l : no_text_twice (visible l) -> exists d tail, to_line_diff l = Ok d /\
  (tail = [] \/ tail = [10]) /\ into_text d = diff_after l ++ tail /\ from_text d = diff_before l ++ tail.
Proof.
  intros N. unfold Lines.to_line_diff. destruct (all_good l new_acc good_new) as [G _].
  destruct (all_content l new_acc good_new N (or_introl (or_intror eq_refl))) as [I1 I2].
  destruct (handle_all l new_acc) as [o c]. cbn [fst snd] in *. destruct (flush_ok c G) as [t [tl [-> [_ [Ht [J1 J2]]]]]].
  cbn [bind]. eexists _, tl. split; [reflexivity|]. split; [destruct (finishable c); auto|].
  rewrite !into_app, !from_app, J1, J2, !app_assoc, I1, I2. cbn [side_text p_into p_from new_acc flat_map app].
  destruct (existsb is_true l); cbn; now rewrite !app_nil_r.
Qed.

(** * When a newline is appended *)
Definition whole (s : list Z) : bool := match s with [] => true | _ => ends_nl s end.
Lemma whole_iff s : whole s = true <-> whole_lines s.
Proof.
  destruct s as [|x s]; [split; [now left|reflexivity]|]. cbn [whole]. split; [apply ends_whole|].
  intros [H|H]; [discriminate|]. now apply ends_nl_app.
Qed.
Lemma whole_app_b a b : whole (a ++ b) = match b with [] => whole a | _ => ends_nl b end.
Proof.
  destruct b as [|x b]; [now rewrite app_nil_r|]. apply Bool.eq_true_iff_eq. rewrite whole_iff. apply whole_app_r. discriminate.
Qed.

(** finishable exactly when both texts so far consist of whole lines; after a string
    (or at the start) both texts agree on that *)
Definition kind_of_last (t : bool) (c : acc) (I F : list Z) : Prop :=
  if t then finishable c = whole I /\ finishable c = whole F else finishable c = whole I && whole F.
Fixpoint strictly (t : bool) (l : list (ditem Z)) : Prop :=
  match l with
  | [] => True
  | DText _ :: l => t = false /\ strictly true l
  | DChange _ _ :: l => t = true /\ strictly false l
  end.
(** [t]: the last item was a string *)
Lemma all_finishable l : forall c t I F, good c -> (strictly t (visible l)) ->
  (t = false -> ready c) -> kind_of_last t c I F ->
  exists t', kind_of_last t' (snd (handle_all l c)) (I ++ diff_after l) (F ++ diff_before l).
Proof.
  induction l as [|f l IH]; intros c t I F G N R Kd; cbn [Lines.handle_all]; [cbn; rewrite !app_nil_r; eauto|].
  rewrite visible_cons in N. destruct (is_true f) eqn:Tf.
  - destruct f as [s|a b]; cbn [strictly] in N; destruct N as [-> N].
    + apply nonempty_iff in Tf. destruct (text_step s c Tf G) as [S1 [_ [_ S4]]]. specialize (S4 (R eq_refl)).
      destruct (handle_fragment (DText s) c) as [o c']. cbn [snd] in *.
      destruct (IH c' true (I ++ s) (F ++ s) S1 N) as [t' Ht].
      * discriminate.
      * unfold kind_of_last. rewrite S4, !whole_app_b. destruct s; [now destruct Tf|]. now split.
      * exists t'. destruct (handle_all l c') as [o' c'']. cbn [snd] in *.
        unfold diff_after, diff_before in *; cbn [flat_map]. now rewrite !app_assoc.
    + cbn [Lines.handle_fragment].
      destruct (IH (add_conflict a b c) false (I ++ a) (F ++ b)) as [t' Ht].
      * now apply good_conflict.
      * exact N.
      * intros _; now left.
      * cbn in Kd |- *. destruct Kd as [K1 K2]. rewrite !whole_app_b.
        destruct a, b; cbn [nonempty]; congruence.
      * exists t'. destruct (handle_all l (add_conflict a b c)) as [o' c'']. cbn [snd] in *.
        unfold diff_after, diff_before in *; cbn [flat_map]. now rewrite !app_assoc.
  - destruct f as [[|x s]|a b]; try discriminate. unfold diff_after, diff_before in *; cbn [flat_map app].
    eapply IH; eauto.
Qed.
Lemma alternating_strictly l : forall t, alternating l ->
  match l with DText _ :: _ => t = false | DChange _ _ :: _ => t = true | [] => True end -> strictly t l.
Proof.
  induction l as [|f l IH]; intros t A H; cbn [strictly]; [exact I|].
  assert (A' : alternating l) by (intros k x y; exact (A (S k) x y)).
  destruct f as [s|a b]; subst t; split; auto; apply IH; auto; destruct l as [|[s'|a' b'] l]; auto;
    destruct (A 0%nat _ _ eq_refl eq_refl) as [[[? X] [? [? Y]]]|[[? [? X]] [? Y]]]; congruence.
Qed.
Lemma alternating_texts l : alternating l -> no_text_twice l.
Proof. intros A k s t H1 H2. destruct (A k _ _ H1 H2) as [[_ [? [? X]]]|[[? [? X]] _]]; congruence. Qed.

(** C52 for diffs: a newline is appended iff one of the texts does not end with one *)
Theorem line_diff_tail l : alternating (visible l) -> exists d, to_line_diff l = Ok d /\
  let tail := if whole (diff_after l) && whole (diff_before l) then [] else [10] in
  into_text d = diff_after l ++ tail /\ from_text d = diff_before l ++ tail.
Proof.
  intros A. unfold Lines.to_line_diff. destruct (all_good l new_acc good_new) as [G _].
  destruct (all_content l new_acc good_new (alternating_texts _ A) (or_introl (or_intror eq_refl))) as [I1 I2].
  assert (exists t', kind_of_last t' (snd (handle_all l new_acc)) (diff_after l) (diff_before l)) as [t' Ht].
  { destruct (visible l) as [|[s|a b] l'] eqn:V.
    - eapply (all_finishable l new_acc true [] []); [apply good_new| |discriminate|split; reflexivity].
      rewrite V; exact I.
    - eapply (all_finishable l new_acc false [] []); [apply good_new| |intros _; now right|reflexivity].
      rewrite V. now apply alternating_strictly.
    - eapply (all_finishable l new_acc true [] []); [apply good_new| |discriminate|split; reflexivity].
      rewrite V. now apply alternating_strictly. }
  destruct (handle_all l new_acc) as [o c]. cbn [fst snd] in *. destruct (flush_ok c G) as [t [tl [-> [_ [-> [J1 J2]]]]]].
  cbn [bind]. eexists; split; [reflexivity|]. cbn zeta.
  assert (whole (diff_after l) && whole (diff_before l) = finishable c) as ->.
  { destruct t'; cbn in Ht; [destruct Ht as [<- <-]; now destruct (finishable c)|now rewrite Ht]. }
  rewrite !into_app, !from_app, J1, J2, !app_assoc, I1, I2. cbn [side_text p_into p_from new_acc flat_map app].
  destruct (existsb is_true l); cbn; now rewrite !app_nil_r.
Qed.
End WithSpace.
