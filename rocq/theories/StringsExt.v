(** How occurrences and canonical words change when a token is appended. *)
From Verif Require Import Base Strings.

Section Ext.
Context {T : Type} {E : Teq T} {O : TeqOk T}.
Variables (s : list T) (c : T).
Implicit Types u w v x : list T.
Notation s' := (s ++ [c]).

Lemma eqv_app_old u w : eqv s' u w -> eqv s u w.
Proof.
  intros H e; split; intros Ho; pose proof (Occ_bound _ _ _ Ho);
    apply (Occ_app_old s c); auto; apply H; now apply Occ_app.
Qed.
Lemma eqv_app u w : eqv s u w -> (suf u s' <-> suf w s') -> eqv s' u w.
Proof.
  intros H Hs e; rewrite !Occ_app_iff; specialize (H e); tauto.
Qed.
Lemma Canon_mono w : Canon s w -> Canon s' w.
Proof.
  intros [HS HC]; split; [now apply Sub_app|].
  intros u Hu Hq; apply HC; [exact Hu|now apply eqv_app_old].
Qed.
Lemma first_end_app w e : first_end s w e -> first_end s' w e.
Proof.
  intros [Ho Hm]; split; [now apply Occ_app|].
  intros e' He'; apply Occ_app_iff in He'; destruct He' as [He'|[-> _]]; [now apply Hm|].
  apply Occ_bound in Ho; lia.
Qed.
Lemma first_end_new : first_end s' s' (S (length s)).
Proof.
  split; [apply Occ_new, suf_refl|].
  intros e He; apply Occ_le in He; rewrite app_length in He; cbn in He; lia.
Qed.

(** [x] is the longest suffix of [s ++ [c]] that already occurs in [s] *)
Definition LongestOld x : Prop :=
  suf x s' /\ Sub s x /\ forall v, suf v s' -> Sub s v -> length v <= length x.

Lemma LongestOld_uniq x y : LongestOld x -> LongestOld y -> x = y.
Proof.
  intros [Hx1 [Hx2 Hx3]] [Hy1 [Hy2 Hy3]].
  apply (suf_same_len _ _ s'); auto.
  specialize (Hx3 y Hy1 Hy2); specialize (Hy3 x Hx1 Hx2); lia.
Qed.

Lemma full_not_old : ~ Sub s s'.
Proof. intros H; apply Sub_length in H; rewrite app_length in H; cbn in H; lia. Qed.

(** words of [s'] that are not words of [s] are equivalent to [s'] *)
Lemma new_word_eqv w : suf w s' -> ~ Sub s w -> eqv s' w s'.
Proof.
  intros Hs Hn e; rewrite !Occ_app_iff; split.
  - intros [H|[-> _]]; [exfalso; apply Hn; now exists e|right; split; [reflexivity|apply suf_refl]].
  - intros [H|[-> _]]; [exfalso; apply full_not_old; now exists e|auto].
Qed.

Lemma Canon_new_cases w : Canon s' w -> Canon s w \/ w = s' \/ LongestOld w.
Proof.
  intros [HS HC].
  destruct (Sub_dec s w) as [Hw|Hw].
  2:{ right; left; symmetry; apply HC.
      - apply Sub_app_iff in HS; tauto.
      - apply eqv_sym, new_word_eqv; [apply Sub_app_iff in HS; tauto|exact Hw]. }
  destruct (Canon_exists s w Hw) as [w' [H1 [H2 H3]]].
  destruct (le_lt_dec (length w') (length w)) as [Hl|Hl].
  { left; rewrite (suf_len_eq w w'); auto. }
  assert (Hsw : suf w s').
  { destruct (Occ_dec s' w (S (length s))) as [Ho|Ho]; [now apply Occ_new|].
    exfalso; assert (Hq : eqv s' w' w).
    { apply eqv_app; [exact H2|]; rewrite Occ_new in Ho; split; [|tauto].
      intros C; exfalso; apply Ho; eapply suf_trans; eauto. }
    apply HC in Hq; [subst; lia|exact H1]. }
  right; right; split; [exact Hsw|]; split; [exact Hw|].
  intros v Hv1 Hv2.
  destruct (le_lt_dec (length v) (length w)) as [|Hlt]; [assumption|exfalso].
  destruct (suf_grow w w' H1 Hl) as [d Hd].
  destruct Hv2 as [e He].
  assert (Hwv : suf w v) by (apply (suf_comparable _ _ s'); auto; lia).
  assert (Hdv : suf (d :: w) v).
  { eapply Occ_comparable; [|exact He|cbn; lia].
    eapply Occ_suf; [exact Hd|]; apply H2; eapply Occ_suf; eauto. }
  assert (Hq : eqv s' (d :: w) w).
  { apply eqv_app.
    - eapply eqv_trans; [|exact H2].
      apply (eqv_between s w); [exists [d]; reflexivity|exact Hd|now apply eqv_sym].
    - split; intros _; [exact Hsw|eapply suf_trans; eauto]. }
  apply HC in Hq; [|exists [d]; reflexivity].
  apply (f_equal (@length T)) in Hq; cbn in Hq; lia.
Qed.

(** the longest old suffix becomes canonical *)
Lemma LongestOld_Canon x : LongestOld x -> Canon s' x.
Proof.
  intros [H1 [H2 H3]]; split; [now apply Sub_app|].
  intros u Hu Hq.
  assert (Hus : suf u s') by (apply Occ_new; apply Hq; now apply Occ_new).
  symmetry; apply suf_len_eq; [exact Hu|]; apply H3; [exact Hus|].
  destruct H2 as [e He]; exists e; apply (eqv_app_old _ _ Hq), He.
Qed.

(** every word equivalent in [s] to its canonical word [w] stays equivalent to it
    in [s'], except the short suffixes of a split class *)
Lemma class_after v w x :
  Canon s w -> suf v w -> eqv s v w -> LongestOld x ->
  eqv s' v w \/ (suf v s' /\ suf v x /\ suf x w /\ eqv s x w /\ length x < length w /\ eqv s' v x).
Proof.
  intros Hw Hv Hq Hx.
  destruct (Occ_dec s' v (S (length s))) as [Hn|Hn]; rewrite Occ_new in Hn.
  2:{ left; apply eqv_app; [exact Hq|]; split; [tauto|].
      intros C; exfalso; apply Hn; eapply suf_trans; eauto. }
  destruct (Occ_dec s' w (S (length s))) as [Hm|Hm]; rewrite Occ_new in Hm.
  { left; apply eqv_app; tauto. }
  destruct Hx as [Hx1 [Hx2 Hx3]].
  assert (HSv : Sub s v) by (eapply eqv_Sub; [apply eqv_sym, Hq|apply Hw]).
  specialize (Hx3 v Hn HSv).
  assert (Hvx : suf v x) by (apply (suf_comparable _ _ s'); auto).
  destruct Hx2 as [e He].
  assert (Hwe : Occ s w e) by (apply Hq; eapply Occ_suf; eauto).
  assert (Hl : length x < length w).
  { destruct (le_lt_dec (length w) (length x)) as [Hle|]; [exfalso|assumption].
    apply Hm; eapply suf_trans; [|exact Hx1]; eapply Occ_comparable; eauto. }
  assert (Hxw : suf x w) by (eapply Occ_comparable; eauto; lia).
  assert (Hqx : eqv s x w) by (apply (eqv_between s v); auto).
  right; repeat (split; [assumption|]).
  apply eqv_app; [|tauto].
  eapply eqv_trans; [exact Hq|now apply eqv_sym].
Qed.
End Ext.
