(** A DBTree whose heights may be too small still follows the laws of a tree. *)
From Coq Require Import Lia.
From Verif Require Import Base Tree SpecTree TreeProofs Versions VersionsInv DbTree DbTreeProofs.

Section P.
Context {K : Type} {E : Teq K} {O : TeqOk K}.
Implicit Type t : table K.
Implicit Type s : nodes K.

Lemma low_add s k b : dget s k = None -> (forall u, low_at s u) -> forall u, low_at (fst (m_add k b s)) u.
Proof.
  intros Hk M u n Hn. destruct (add_gets s k b Hk) as [G _]. rewrite G in Hn.
  destruct (teq_spec k u) as [<-|]; [injection Hn as <-; now left|].
  destruct (M u n Hn) as [H|[c [m [Hc [Hp Hh]]]]]; [now left|right]. exists c, m. split; [|auto].
  rewrite G. destruct (teq_spec k c); congruence.
Qed.
(** before the metrics are set right *)
Lemma low_moved s s3 k p0 q n0 : moved_tree s s3 k p0 (Some q) -> dget s k = Some n0 -> parent n0 = p0 ->
  (forall u, low_at s u) -> forall u, p0 <> Some u \/ u = q -> low_at s3 u.
Proof.
  intros [_ G] Hk Hp0 M u Hu m Hm. rewrite G in Hm. destruct (dget s u) as [n|] eqn:Hn; [|discriminate]. injection Hm as <-.
  cbn [moved height]. destruct (M u n Hn) as [H|[c [mc [Hc [Hp Hh]]]]]; [now left|right].
  exists c, (moved k p0 (Some q) c mc). rewrite G, Hc. split; [reflexivity|]. cbn [moved parent height]. split; [|exact Hh].
  destruct (teq_spec k c) as [<-|]; [|exact Hp]. assert (mc = n0) by congruence; subst mc.
  destruct Hu as [Hu| ->]; congruence.
Qed.
Lemma low_set s (t : K) n h z : shape_ok s -> dget s t = Some n -> child_metrics s (children n) = Ok (h, z) ->
  forall u, low_at s u \/ u = t -> parent n <> Some u -> low_at (dset s t (set_metrics n (h + 1) (z + 1))) u.
Proof.
  intros SO Hn Hm u Hu Hpu m Hm'. rewrite dget_dset in Hm'. destruct (teq_spec t u) as [<-|Htu].
  - injection Hm' as <-. cbn [set_metrics height].
    destruct (child_metrics_top _ _ _ _ Hm) as [->|[c [mc [Hin [Hc Hh]]]]]; [left; lia|right].
    apply (proj2 (proj2 SO) t n Hn) in Hin as Hch. destruct Hch as [m' [Hc' Hp]].
    exists c, mc. rewrite dget_dset. destruct (teq_spec t c) as [<-|].
    { exfalso. now apply (child_not_self s t n SO Hn). }
    split; [exact Hc|]. split; [congruence|lia].
  - destruct Hu as [Hu|]; [|congruence]. destruct (Hu m Hm') as [H|[c [mc [Hc [Hp Hh]]]]]; [now left|right].
    exists c, mc. rewrite dget_dset. destruct (teq_spec t c) as [<-|]; [|auto]. exfalso; congruence.
Qed.
Lemma update_metrics_low s (t : K) l : up s t l -> shape_ok s -> (forall u, u <> t -> low_at s u) -> forall fuel, length l <= fuel ->
  exists s', update_metrics fuel (Some t) s = (s', Ok tt) /\ same_shape s s' /\ forall u, low_at s' u.
Proof.
  intros Hu; remember s as s0 eqn:Hs0 in Hu at 1.
  assert (SS : same_shape s0 s) by (subst; apply same_shape_refl). clear Hs0.
  revert s SS; induction Hu as [t n0 H1 H2|t n0 q l H1 H2 H IH]; intros s SS SO M fuel Hf; cbn in Hf;
    (destruct fuel as [|fuel]; [lia|]); cbn [update_metrics];
    destruct (same_get _ _ _ _ SS H1) as [n [Hn [_ [Hp _]]]]; rewrite Hn;
    (destruct (child_metrics_total s (children n)) as [h [z Hm]];
      [intros c Hc C; apply (proj2 (proj2 SO) t n Hn) in Hc as [m [Hc _]]; congruence|]);
    rewrite Hm; set (s1 := dset s t (set_metrics n (h + 1) (z + 1)));
    assert (S1 : same_shape s s1) by (now apply set_metrics_shape);
    assert (M1 : forall u, parent n <> Some u -> low_at s1 u)
      by (intros u Hpu; apply low_set; auto; destruct (teq_spec u t); auto).
  - exists s1. rewrite <- Hp, H2. split; [destruct fuel; reflexivity|]. split; [exact S1|]. intros u; apply M1. congruence.
  - rewrite <- Hp, H2. destruct (IH s1) with (fuel := fuel) as [s' [U [SS' M']]]; [eapply same_shape_trans; eauto| | |lia|].
    { eapply same_shape_ok; [exact S1|exact SO]. }
    { intros u Hu. apply M1. congruence. }
    exists s'; split; [exact U|]. split; [eapply same_shape_trans; eauto|exact M'].
Qed.
(** one round of metrics on a table *)
Lemma d_update_low t0 m rm : linked t0 -> shape_ok (absn t0) -> nth_error t0 m = Some rm ->
  (forall u, u <> r_tag rm -> low_at (absn t0) u) ->
  exists t1, d_update_metrics (Some m) t0 = (t1, Ok tt) /\ linked t1 /\
    same_shape (absn t0) (absn t1) /\ map r_tag t1 = map r_tag t0 /\ forall u, low_at (absn t1) u.
Proof.
  intros L0 S0 Hm M. destruct (proj1 (proj2 S0) (r_tag rm)) as [l Hl].
  { rewrite (absn_get t0 m rm (l_tags _ L0) Hm); discriminate. }
  assert (Hlen : length l <= length t0) by (pose proof (up_length _ _ _ Hl) as Hx; now rewrite absn_length in Hx).
  destruct (update_metrics_low (absn t0) (r_tag rm) l Hl S0 M (length t0) Hlen) as [s1 [Hs1 [SS1 Hm1]]].
  destruct (update_sim (length t0) t0 m rm l s1 L0 Hm Hl Hlen Hs1) as [t1 [Hd [Ha [L1 Hrows]]]].
  exists t1. unfold d_update_metrics. rewrite Hd. split; [reflexivity|]. split; [exact L1|].
  split; [now rewrite Ha|]. split; [apply same_rows_absn; [apply L0|exact Hrows]|]. now rewrite Ha.
Qed.
Theorem low_move t s k q n0 nq lq : rep_low t s -> dget s k = Some n0 -> dget s q = Some nq ->
  up s q lq -> ~ In k lq -> slot_free s k n0 q nq ->
  exists t' s', d_change_parent k q t = (t', Ok tt) /\ rep_low t' s' /\ reparented s s' k q.
Proof.
  intros [-> [L [SO M]]] Hk Hq Hu Hn SF.
  destruct (move_steps t k q n0 nq lq L SO Hk Hq Hu Hn SF) as [i [r [j [Hi [Hr [Hn0 [Htj [MT [L4 [SO4 [T4 Hcp]]]]]]]]]]].
  set (t4 := moved_table t i r q j) in *.
  pose proof (low_moved _ _ _ _ _ _ MT Hk eq_refl M) as M4.
  assert (First : exists t5, d_update_metrics (r_parent_rid r) t4 = (t5, Ok tt) /\ linked t5 /\ same_shape (absn t4) (absn t5) /\
     map r_tag t5 = map r_tag t /\ forall u, low_at (absn t5) u).
  { pose proof (l_parent _ L i r Hi) as Lp. assert (Hp0 : parent n0 = r_parent r) by now rewrite Hn0.
    destruct (r_parent_rid r) as [a|], (r_parent r) as [p|]; try contradiction.
    - rewrite <- T4 in Lp. apply row_at in Lp as [ra [Hra Hpa]].
      destruct (d_update_low t4 a ra L4 SO4 Hra) as [t5 [H1 [H2 [H3 [H4 H5]]]]].
      { intros u Hu'. apply M4. left; congruence. }
      exists t5. rewrite <- T4. auto.
    - exists t4. split; [unfold d_update_metrics; destruct (length t4); reflexivity|]. split; [exact L4|].
      split; [apply same_shape_refl|]. split; [exact T4|]. intros u. apply M4. left; congruence. }
  destruct First as [t5 [U5 [L5 [SS5 [T5 M5]]]]].
  assert (Htj5 : nth_error (map r_tag t5) j = Some q) by (now rewrite T5). apply row_at in Htj5 as [rq5 [Hrq5 Hq5]].
  assert (SO5 : shape_ok (absn t5)) by (eapply same_shape_ok; eauto).
  destruct (d_update_low t5 j rq5 L5 SO5 Hrq5) as [t6 [U6 [L6 [SS6 [T6 M6]]]]]; [auto|].
  exists t6, (absn t6). split; [|split].
  - now rewrite Hcp, U5.
  - split; [reflexivity|]. split; [exact L6|]. split; [eapply same_shape_ok; eauto|exact M6].
  - eapply moved_reparented; [exact MT|]. eapply same_shape_trans; eauto.
Qed.

Definition loose_law : tree_law (db_tree K).
Proof.
  refine (@Build_tree_law K E (db_tree K) rep_low False True _ _ _ _ _ _ _ _ _ _); cbn.
  - intros t s [_ [_ [T _]]]; exact T.
  - apply rep_db_low. apply (rep_empty _ db_law).
  - intros t s k [-> [L _]]. unfold d_contains, dmem. destruct (dget (absn t) k) as [n|] eqn:Hk.
    + destruct (row_of_get t k n (l_tags _ L) Hk) as [i [r [_ [_ [_ ->]]]]]. reflexivity.
    + now rewrite (row_of_none t k Hk).
  - intros t s k n [-> [L _]] Hk. unfold d_base_version.
    destruct (row_of_get t k n (l_tags _ L) Hk) as [i [r [_ [_ [-> ->]]]]]. reflexivity.
  - intros t s k l R Hu. now apply db_path_ok with s.
  - intros t s k R Hk. right. now apply db_nopath with s.
  - intros t s k b [-> [L [SO M]]] Hk. destruct (db_add_steps t k b L Hk) as [t' [Ha [Hs L']]].
    exists t'. split; [exact Ha|]. split; [exact Hs|]. split; [exact L'|]. split; [now apply add_shape|now apply low_add].
  - intros t s k q n0 nq lq R H1 H2 H3 H4 [[]|H5]. now apply (low_move t s k q n0 nq lq).
  - intros t s k n R Hk. destruct (db_split_ok t s k n R Hk) as [p [Hp W]].
    exists p. split; [exact Hp|]. split; [now apply split_way_down in W|auto].
  - intros t s k [-> [L _]] Hk. exists TypeError. unfold d_get_split. now rewrite (row_of_none t k Hk).
Defined.
End P.
