(** Line diffs of diffs and merges (C74): the streams meet the conditions of LinesMarks.v. *)
From Coq Require Import String Lia.
From Verif Require Import Base Changesets SpecDiff DiffProofs Merge SpecMerge MergeLaws Tokenizers SpecTokenizers
  TokenizersProofs TokenizersDiff Lines SpecLines LinesProofs LinesMore Markup SpecMarkup MarkupProofs MarkupCli.
From Verif Require Import SpecMarks LinesMarks.
Local Open Scope Z_scope.
Local Open Scope list_scope.

Lemma normal_real (l : list (ditem Z)) : Forall item_ok l -> real_changes l.
Proof. unfold real_changes. rewrite Forall_forall. intros F H. apply F in H as [H _]. now apply H. Qed.
Lemma normal_vis (l : list (ditem Z)) : Forall item_ok l -> visible l = l.
Proof.
  unfold visible. induction 1 as [|[[|c t]|a b] l H F IH]; cbn [filter]; [reflexivity|now destruct H| |]; now f_equal.
Qed.
Lemma merge_stream (r : list (ditem Z)) : normal_merge r -> alternating (visible r) /\ real_changes r.
Proof.
  intros [-> |[_ [A F]]].
  - split; [|intros [H|[]]; discriminate]. intros [|k] x y H; discriminate.
  - rewrite normal_vis by exact F. split; [exact A|now apply normal_real].
Qed.

(** ** The tokens of a text: every one but the last ends with a newline, the last has none *)
Definition lineish (ts : list (list Z)) : Prop :=
  ts <> [] /\ Forall (fun t => In 10 t) (removelast ts) /\ ~ In 10 (last ts []).
Lemma split_last s : ~ In 10 (last (split_nl s) []).
Proof.
  induction s as [|c s IH]; cbn; [auto|]. destruct (Z.eqb_spec c 10) as [-> |N].
  - destruct (split_nl s) eqn:E; [auto|exact IH].
  - destruct (split_nl s) as [|h t] eqn:E; cbn [last] in *.
    + intros [H|[]]; now apply N.
    + destruct t; [|exact IH]. intros [H|H]; [now apply N|now apply IH].
Qed.
Lemma lines_lineish s : lineish (lines_of s).
Proof.
  unfold lineish, lines_of. rewrite removelast_app by discriminate. cbn [removelast]. rewrite app_nil_r, last_last.
  split; [|split].
  - now destruct (map _ _).
  - apply Forall_forall. intros t Ht. apply in_map_iff in Ht as [x [<- _]]. apply in_or_app; right; now left.
  - apply split_last.
Qed.
Lemma lineish_full ts : lineish ts -> full ts.
Proof. intros (_ & F & _). unfold full. eapply Forall_impl; [|exact F]. now intros [] H. Qed.
Lemma texts_lineish re_w k s ts : texts re_w k (CStr s) = Some ts -> Forall (fun t => t <> []) ts \/ lineish ts.
Proof.
  destruct k; cbn; intros H; injection H as <-.
  - left. apply Forall_forall. intros t Ht. apply in_map_iff in Ht as [x [<- _]]. discriminate.
  - left. apply Forall_forall. intros t Ht. apply in_map_iff in Ht as [x [<- _]]. discriminate.
  - right. apply lines_lineish.
  - left. apply symbols_nonempty.
Qed.
Lemma all_empty (a : list (list Z)) : Forall (fun x => x = []) a -> Forall (fun t => t <> []) (removelast a) -> a = [] \/ a = [[]].
Proof.
  intros F G. destruct a as [|x [|y a]]; [now left|right; inversion F; now subst|].
  inversion F; inversion G; now subst.
Qed.
(** the last token before an empty one *)
Lemma last_before (x : list (list Z)) t y : t <> [] -> lineish (x ++ t) -> lineish (y ++ t ++ [[]]) -> False.
Proof.
  intros N (_ & _ & L) (_ & F & _). rewrite app_assoc, removelast_app in F by discriminate. cbn in F. rewrite app_nil_r in F.
  destruct (exists_last N) as (t' & u & ->). rewrite app_assoc, last_last in L.
  apply Forall_app in F as [_ F]. apply Forall_app in F as [_ F]. inversion F; now subst.
Qed.

Lemma before_app {T} (x y : list (ditem T)) : diff_before (x ++ y) = diff_before x ++ diff_before y.
Proof. apply flat_map_app. Qed.
Lemma after_app {T} (x y : list (ditem T)) : diff_after (x ++ y) = diff_after x ++ diff_after y.
Proof. apply flat_map_app. Qed.
Lemma alternating_snoc {T} (D : list (ditem T)) a b : alternating (D ++ [DChange a b]) -> D = [] \/ exists D' t, D = D' ++ [DText t].
Proof.
  intros A. destruct D as [|i D] using rev_ind; [now left|]. right. clear IHD. rewrite <- app_assoc in A.
  destruct (A (length D) i (DChange a b)) as [[[t ->] _]|[_ [t H]]]; [| |now exists D, t|discriminate].
  - rewrite nth_error_app2 by lia. now rewrite Nat.sub_diag.
  - rewrite nth_error_app2 by lia. now replace (S (length D) - length D)%nat with 1%nat by lia.
Qed.
Lemma line_no_empty D : alternating D -> Forall item_ok D -> lineish (diff_before D) -> lineish (diff_after D) ->
  real_changes (map cat_item D).
Proof.
  intros A F LB LA H. apply in_map_iff in H as (i & E & H). destruct i as [t|a b]; [discriminate|]. cbn in E. injection E as Ea Eb.
  apply in_split in H as (D0 & D1 & ->). pose proof F as F0. apply Forall_app in F as [F1 F2]. inversion F2 as [|? ? Hi F3]; subst. destruct Hi as [Hi Hd].
  apply concat_nil_all in Ea, Eb.
  assert (ND : D1 = []).
  { destruct D1 as [|[t|a' b'] D1]; [reflexivity| |].
    - exfalso. inversion F3 as [|? ? Ht _]; subst. cbn in Ht.
      apply lineish_full in LB, LA. rewrite before_app in LB; rewrite after_app in LA. apply full_tail in LB, LA.
      unfold diff_before, diff_after in LA, LB. cbn [flat_map] in LA, LB.
      apply full_head in LA, LB; try (destruct t; [now destruct Ht|discriminate]).
      destruct a as [|x a]; [|inversion Ea; inversion LA; congruence].
      destruct b as [|x b]; [now apply Hi|inversion Eb; inversion LB; congruence].
    - exfalso. destruct (A (length D0) (DChange a b) (DChange a' b')) as [[[? X] _]|[_ [? X]]]; try discriminate.
      + rewrite nth_error_app2 by lia. now rewrite Nat.sub_diag.
      + rewrite nth_error_app2 by lia. now replace (S (length D0) - length D0)%nat with 1%nat by lia. }
  subst D1. pose proof (lineish_full _ LB) as FB. pose proof (lineish_full _ LA) as FA.
  rewrite before_app in FB, LB. rewrite after_app in FA, LA.
  unfold diff_before at 2 in FB. unfold diff_before at 2 in LB. unfold diff_after at 2 in FA. unfold diff_after at 2 in LA.
  cbn [flat_map] in *. rewrite app_nil_r in *. pose proof (full_tail _ _ FA) as GA. pose proof (full_tail _ _ FB) as GB.
  apply all_empty in Ea, Eb; auto.
  assert (ND : exists D' t, D0 = D' ++ [DText t] /\ t <> []).
  { destruct (alternating_snoc D0 a b) as [-> |(D' & t & ->)]; [exact A| |].
    - cbn in *. destruct LA as [NA _], LB as [NB _]. exfalso. destruct Ea as [-> | ->]; [contradiction|]. destruct Eb as [-> | ->]; [contradiction|].
      apply (Hd [] (or_introl eq_refl) (or_introl eq_refl)).
    - exists D', t. split; [reflexivity|]. apply Forall_app in F1 as [_ F1]. inversion F1; now subst. }
  destruct ND as (D' & t & -> & Nt). rewrite before_app in LB. rewrite after_app in LA.
  unfold diff_before at 2 in LB. unfold diff_after at 2 in LA. cbn [flat_map] in LA, LB. rewrite !app_nil_r in LA, LB.
  destruct Ea as [-> | ->], Eb as [-> | ->].
  - now apply Hi.
  - rewrite app_nil_r in LA. rewrite <- app_assoc in LB. eapply (last_before _ _ _ Nt); eauto.
  - rewrite app_nil_r in LB. rewrite <- app_assoc in LA. eapply (last_before _ _ _ Nt); eauto.
  - apply (Hd [] (or_introl eq_refl) (or_introl eq_refl)).
Qed.
Lemma full_no_empty D : Forall item_ok D -> Forall (fun t => t <> []) (diff_before D) -> Forall (fun t => t <> []) (diff_after D) ->
  real_changes (map cat_item D).
Proof.
  intros F FB FA H. apply in_map_iff in H as (i & E & H). destruct i as [t|a b]; [discriminate|]. cbn in E. injection E as Ea Eb.
  apply in_split in H as (D0 & D1 & ->). apply Forall_app in F as [_ F]. inversion F as [|? ? Hi _]; subst. destruct Hi as [Hi _].
  rewrite before_app in FB; rewrite after_app in FA. apply Forall_app in FB as [_ FB], FA as [_ FA].
  unfold diff_before, diff_after in *; cbn [flat_map] in *. apply Forall_app in FB as [FB _], FA as [FA _].
  apply Hi. split; [destruct a as [|[|c x] a]|destruct b as [|[|c x] b]]; try reflexivity; try discriminate; try (inversion FA; congruence); inversion FB; congruence.
Qed.

Section Cli.
Variable re_w space : Z -> bool.

(** the diff of two strings *)
Lemma diff_real k original modified : real_text original -> real_text modified ->
  exists d, snd (diff re_w k new_tokenizer (CStr original) (CStr modified)) = Ok d /\
    diff_before (map as_ditem d) = original /\ diff_after (map as_ditem d) = modified /\
    alternating (visible (map as_ditem d)) /\ real_changes (map as_ditem d).
Proof.
  intros Ro Rm.
  assert (Eo : encodable k (CStr original)) by (split; [exact Ro|now destruct k]).
  assert (Em : encodable k (CStr modified)) by (split; [exact Rm|now destruct k]).
  destruct (diff_ok re_w k new_tokenizer (CStr original) (CStr modified) new_ok (or_introl eq_refl) eq_refl Eo Em)
    as [st' [tso [tsm [D0 [To [Tm [HD E]]]]]]].
  exists (map (present SStr) D0). rewrite E. split; [reflexivity|]. rewrite as_present, cat_before, cat_after.
  destruct (diff_accounts tso tsm) as [D1 [HD1 [HB HA]]]. rewrite HD in HD1; injection HD1 as <-.
  destruct (diff_normal tso tsm) as [D1 [HD1 [N1 N2]]]. rewrite HD in HD1; injection HD1 as <-.
  rewrite HB, HA. split; [exact (texts_concat _ _ _ _ To)|]. split; [exact (texts_concat _ _ _ _ Tm)|].
  split; [apply visible_items; auto; rewrite ?HB, ?HA; eapply texts_full; eauto|].
  destruct k; cbn in To, Tm; injection To as <-; injection Tm as <-.
  1, 2: apply full_no_empty; auto; rewrite ?HB, ?HA; apply Forall_forall; intros t Ht; apply in_map_iff in Ht as [x [<- _]]; discriminate.
  - apply line_no_empty; auto; rewrite ?HB, ?HA; apply lines_lineish.
  - apply full_no_empty; auto; rewrite ?HB, ?HA; apply symbols_nonempty.
Qed.
Theorem diff_marks k original modified : real_text original -> real_text modified ->
  exists d l R, snd (diff re_w k new_tokenizer (CStr original) (CStr modified)) = Ok d /\
    consolidated_line_diff space (map as_ditem d) = Ok l /\ shown l R /\
    expand R = expand (map as_ditem d) ++ marked Same (last_newline modified original) /\
    new_text (expand (map as_ditem d)) = modified /\ old_text (expand (map as_ditem d)) = original /\
    Forall (busy_item space) l.
Proof.
  intros Ro Rm. destruct (diff_real k original modified Ro Rm) as (d & E & B & A & V & RC).
  destruct (consolidated_marks space _ V RC) as (l & R & EL & SH & X & BI). rewrite A, B in X.
  exists d, l, R. rewrite new_expand, old_expand. auto 10.
Qed.
Theorem merge_marks k (p b0 b1 : list Z) r : merge_token_sequence k p b0 b1 = Ok r ->
  exists l R, consolidated_line_diff space r = Ok l /\ shown l R /\
    expand R = expand r ++ marked Same (last_newline (diff_after r) (diff_before r)) /\
    Forall (busy_item space) l.
Proof. intros H. apply merge_normal in H. apply merge_stream in H as [A V]. now apply consolidated_marks. Qed.
End Cli.
