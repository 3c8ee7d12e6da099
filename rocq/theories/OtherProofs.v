(** Patches on other texts. *)
From Coq Require Import Lia.
From Verif Require Import Base SpecSeq SpecDiff Changesets ChangesetsProofs SpecOther.

Section Other.
Context {T : Type} {E : Teq T} {O : TeqOk T}.
Implicit Types (o m v : list T) (c : changeset T) (d : list (ditem T)).

Lemma seg_same_length (v o : list T) s e : e <= length o -> length o <= length v -> length (seg v s e) = length (seg o s e).
Proof. intros H1 H2. rewrite !seg_length; lia. Qed.
Lemma apply_data (a v : list T) : apply (if nonempty a then [PData a] else []) v = a.
Proof. destruct a; cbn; [reflexivity|]. now rewrite app_nil_r. Qed.

Lemma good_carried o m s1 e1 s2 e2 c : good o m s1 e1 s2 e2 c -> e1 <= length o -> s1 <= e1 ->
  forall v, length o <= length v -> exists d, Forall2 carried (as_diff_stream o c) d /\
  diff_before d = seg v s1 e1 /\ diff_after d = apply_forward (as_change_stream c) v /\ diff_after d = old_apply_forward c v.
Proof.
  intros G H1 H2 v Hv. revert H1 H2.
  induction G as [s1 e1 s2 e2 os ms Hd _ _|s1 e1 s2 e2 pa pb l p s HL Hl Hb1 Hb2 Gp IHp Gs IHs]; intros H1 H2.
  - cbn [as_diff_stream as_change_stream old_apply_forward].
    pose proof (seg_same_length v o s1 e1 H1 Hv) as L.
    destruct (nonempty (seg m s2 e2) || nonempty (seg o s1 e1)) eqn:N.
    + exists [DChange (seg m s2 e2) (seg v s1 e1)]. split; [repeat constructor; exact L|].
      unfold diff_before, diff_after, apply_forward, old_apply_forward. cbn [flat_map strip_forward]. rewrite !app_nil_r, apply_data.
      cbn. now rewrite app_nil_r.
    + apply orb_false_iff in N as [N1 N2]. exists []. split; [constructor|].
      destruct (seg m s2 e2) eqn:M; [|discriminate]. destruct (seg o s1 e1) eqn:Q; [|discriminate].
      destruct (seg v s1 e1); [|discriminate]. repeat split.
  - destruct IHp as (dp & P1 & P2 & P3 & P4); [lia|lia|]. destruct IHs as (ds & S1 & S2 & S3 & S4); [lia|lia|].
    set (k := (s1 + pa, Some (s1 + pa + l))).
    exists (dp ++ [DText (sl v k)] ++ ds). unfold diff_before, diff_after in *. rewrite !flat_map_app, P2, P3, S2, S3.
    cbn [flat_map]. rewrite !app_nil_r. split; [|split; [|split]].
    + cbn [as_diff_stream]. apply Forall2_app; [exact P1|]. apply Forall2_app; [|exact S1].
      constructor; [|constructor]. constructor. unfold k. rewrite !sl_seg. cbn [eff]. apply seg_same_length; [lia|exact Hv].
    + unfold k. rewrite sl_seg. cbn [eff]. rewrite (seg_app v s1 (s1 + pa) e1) by lia.
      now rewrite (seg_app v (s1 + pa) (s1 + pa + l) e1) by lia.
    + unfold apply_forward. cbn [as_change_stream]. rewrite !strip_forward_app, !apply_app. do 2 f_equal.
      cbn. now rewrite app_nil_r.
    + unfold old_apply_forward, join_changes in *. cbn [cs_old_forward]. rewrite !concat_app. cbn [concat]. rewrite app_nil_r.
      fold k. now rewrite <- P4, <- S4, P3, S3.
Qed.
Lemma good_carried_back o m s1 e1 s2 e2 c : good o m s1 e1 s2 e2 c -> e1 <= length o -> e2 <= length m -> s2 <= e2 ->
  forall v, length m <= length v -> exists d, Forall2 carried_back (as_diff_stream o c) d /\
  diff_after d = seg v s2 e2 /\ diff_before d = apply_reverse (as_change_stream c) v /\ diff_before d = old_apply_reverse c v.
Proof.
  intros G H0 H1 H2 v Hv. revert H0 H1 H2.
  induction G as [s1 e1 s2 e2 os ms Hd _ _|s1 e1 s2 e2 pa pb l p s HL Hl Hb1 Hb2 Gp IHp Gs IHs]; intros H0 H1 H2.
  - cbn [as_diff_stream as_change_stream old_apply_reverse].
    pose proof (seg_same_length v m s2 e2 H1 Hv) as L.
    destruct (nonempty (seg m s2 e2) || nonempty (seg o s1 e1)) eqn:N.
    + exists [DChange (seg v s2 e2) (seg o s1 e1)]. split; [repeat constructor; exact L|].
      unfold diff_before, diff_after, apply_reverse, old_apply_reverse. cbn [flat_map strip_reverse]. rewrite !app_nil_r, apply_data.
      cbn. now rewrite app_nil_r.
    + apply orb_false_iff in N as [N1 N2]. exists []. split; [constructor|].
      destruct (seg m s2 e2) eqn:M; [|discriminate]. destruct (seg o s1 e1) eqn:Q; [|discriminate].
      destruct (seg v s2 e2); [|discriminate]. repeat split.
  - destruct IHp as (dp & P1 & P2 & P3 & P4); [lia|lia|lia|]. destruct IHs as (ds & S1 & S2 & S3 & S4); [lia|lia|lia|].
    set (k := (s2 + pb, Some (s2 + pb + l))).
    exists (dp ++ [DText (sl v k)] ++ ds). unfold diff_before, diff_after in *. rewrite !flat_map_app, P2, P3, S2, S3.
    cbn [flat_map]. rewrite !app_nil_r. split; [|split; [|split]].
    + cbn [as_diff_stream]. apply Forall2_app; [exact P1|]. apply Forall2_app; [|exact S1].
      constructor; [|constructor]. constructor. unfold k. rewrite !sl_seg. cbn [eff]. rewrite !seg_length by lia. lia.
    + unfold k. rewrite sl_seg. cbn [eff]. rewrite (seg_app v s2 (s2 + pb) e2) by lia.
      now rewrite (seg_app v (s2 + pb) (s2 + pb + l) e2) by lia.
    + unfold apply_reverse. cbn [as_change_stream]. rewrite !strip_reverse_app, !apply_app. do 2 f_equal.
      cbn. now rewrite app_nil_r.
    + unfold old_apply_reverse, join_changes in *. cbn [cs_old_reverse]. rewrite !concat_app. cbn [concat]. rewrite app_nil_r.
      fold k. now rewrite <- P4, <- S4, P3, S3.
Qed.
Lemma seg_firstn (v : list T) n : seg v 0 n = firstn n v.
Proof. unfold seg, slice. cbn. now rewrite Nat.sub_0_r. Qed.

Theorem other_forward (o m v : list T) : length o <= length v -> exists c d d',
  find_changeset o m = Ok c /\ diff_token_sequences o m = Ok d /\ Forall2 carried d d' /\
  diff_before d' = firstn (length o) v /\
  apply_forward (as_change_stream c) v = diff_after d' /\ old_apply_forward c v = diff_after d'.
Proof.
  intros Hv. destruct (find_changeset_ok o m) as [c [F G]]. unfold diff_token_sequences. rewrite F.
  destruct (good_carried _ _ _ _ _ _ _ G (le_n _) (Nat.le_0_l _) v Hv) as (d & C & B & A1 & A2).
  exists c, (as_diff_stream o c), d. rewrite seg_firstn in B. repeat split; auto.
Qed.
Theorem other_reverse (o m v : list T) : length m <= length v -> exists c d d',
  find_changeset o m = Ok c /\ diff_token_sequences o m = Ok d /\ Forall2 carried_back d d' /\
  diff_after d' = firstn (length m) v /\
  apply_reverse (as_change_stream c) v = diff_before d' /\ old_apply_reverse c v = diff_before d'.
Proof.
  intros Hv. destruct (find_changeset_ok o m) as [c [F G]]. unfold diff_token_sequences. rewrite F.
  destruct (good_carried_back _ _ _ _ _ _ _ G (le_n _) (le_n _) (Nat.le_0_l _) v Hv) as (d & C & B & A1 & A2).
  exists c, (as_diff_stream o c), d. rewrite seg_firstn in B. repeat split; auto.
Qed.

Lemma app_eq_length (a b c d : list T) : length a = length c -> a ++ b = c ++ d -> a = c /\ b = d.
Proof.
  revert c. induction a as [|x a IH]; destruct c as [|y c]; cbn; intros L H; try discriminate; [auto|].
  injection H as -> H. destruct (IH c) as [-> ->]; auto.
Qed.
Lemma carried_after (d d' : list (ditem T)) : Forall2 carried d d' -> (diff_after d' = diff_after d <-> Forall2 keeps d d').
Proof.
  unfold diff_after. induction 1 as [|i j d d' C F IH]; [split; constructor|]. cbn [flat_map]. split.
  - intros H. destruct C as [t t' L|a b b' L].
    + apply app_eq_length in H as [-> H]; [|exact L]. constructor; [intros u K; now injection K as <-|now apply IH].
    + apply app_inv_head in H. constructor; [intros u K; discriminate|now apply IH].
  - intros H. inversion H as [|? ? ? ? K F']; subst. rewrite (proj2 IH F'). f_equal.
    destruct C as [t t' L|a b b' L]; [|reflexivity]. specialize (K t eq_refl). now injection K.
Qed.
Lemma carried_before (d d' : list (ditem T)) : Forall2 carried_back d d' -> (diff_before d' = diff_before d <-> Forall2 keeps d d').
Proof.
  unfold diff_before. induction 1 as [|i j d d' C F IH]; [split; constructor|]. cbn [flat_map]. split.
  - intros H. destruct C as [t t' L|a a' b L].
    + apply app_eq_length in H as [-> H]; [|exact L]. constructor; [intros u K; now injection K as <-|now apply IH].
    + apply app_inv_head in H. constructor; [intros u K; discriminate|now apply IH].
  - intros H. inversion H as [|? ? ? ? K F']; subst. rewrite (proj2 IH F'). f_equal.
    destruct C as [t t' L|a a' b L]; [|reflexivity]. specialize (K t eq_refl). now injection K.
Qed.
Theorem other_forward_exactly (o m v : list T) : length o <= length v -> exists c d d',
  find_changeset o m = Ok c /\ diff_token_sequences o m = Ok d /\ Forall2 carried d d' /\ diff_before d' = firstn (length o) v /\
  (apply_forward (as_change_stream c) v = m <-> Forall2 keeps d d').
Proof.
  intros Hv. destruct (find_changeset_ok o m) as [c [F G]]. unfold diff_token_sequences. rewrite F.
  destruct (good_carried _ _ _ _ _ _ _ G (le_n _) (Nat.le_0_l _) v Hv) as (d & C & B & A1 & A2).
  destruct (good_diff _ _ _ _ _ _ _ G (le_n _) (le_n _)) as [_ Da]. rewrite seg_all in Da.
  exists c, (as_diff_stream o c), d. rewrite seg_firstn in B. repeat split; auto.
  - rewrite <- A1, <- Da. apply carried_after. exact C.
  - rewrite <- A1, <- Da. apply carried_after. exact C.
Qed.
Theorem other_reverse_exactly (o m v : list T) : length m <= length v -> exists c d d',
  find_changeset o m = Ok c /\ diff_token_sequences o m = Ok d /\ Forall2 carried_back d d' /\ diff_after d' = firstn (length m) v /\
  (apply_reverse (as_change_stream c) v = o <-> Forall2 keeps d d').
Proof.
  intros Hv. destruct (find_changeset_ok o m) as [c [F G]]. unfold diff_token_sequences. rewrite F.
  destruct (good_carried_back _ _ _ _ _ _ _ G (le_n _) (le_n _) (Nat.le_0_l _) v Hv) as (d & C & B & A1 & A2).
  destruct (good_diff _ _ _ _ _ _ _ G (le_n _) (le_n _)) as [Db _]. rewrite seg_all in Db.
  exists c, (as_diff_stream o c), d. rewrite seg_firstn in B. repeat split; auto.
  - intros H. apply (carried_before _ _ C). rewrite A1, H. symmetry. exact Db.
  - intros H. apply (carried_before _ _ C) in H. rewrite <- A1, H. exact Db.
Qed.
End Other.
