(** How many nodes the functions on trees visit (C130). *)
From Coq Require Import ZArith Lia.
From Verif Require Import Base Tree SpecTree TreeProofs Versions VersionsInv DbTree DbTreeProofs TreeCost.

Section Memory.
Context {K : Type} {E : Teq K} {O : TeqOk K}.
Implicit Type s : nodes K.

Lemma update_erase fuel : forall tag s, snd (update_metrics_n fuel tag s) = update_metrics fuel tag s.
Proof.
  induction fuel as [|fuel IH]; intros [t|] s; cbn [update_metrics_n update_metrics]; try reflexivity.
  destruct (dget s t) as [n|]; [|reflexivity]. destruct (child_metrics s (children n)) as [[h z]|e]; [|reflexivity].
  rewrite <- IH. now destruct (update_metrics_n fuel (parent n) _).
Qed.
Theorem change_erase tag q s : snd (m_change_parent_n tag q s) = m_change_parent tag q s.
Proof.
  unfold m_change_parent_n, m_change_parent. destruct (dget s tag) as [n|]; [|reflexivity].
  match goal with |- context [match ?X with Ok _ => _ | Err _ => _ end] => destruct X as [s1|e]; [|reflexivity] end. cbv zeta.
  set (s2 := dset s1 tag _).
  assert (Q : forall k (s3 : nodes K) (r3 : res unit), snd (match r3 with Err e => (k, (s3, Err e))
      | Ok _ => let '(k', r) := update_metrics_n (S (length s)) (parent n) s3 in (k + k', r) end)
    = match r3 with Err e => (s3, Err e) | Ok _ => update_metrics (S (length s)) (parent n) s3 end).
  { intros k s3 [[]|e]; [|reflexivity]. rewrite <- update_erase. now destruct (update_metrics_n (S (length s)) (parent n) s3). }
  destruct q as [r|].
  - destruct (dget s2 r) as [nr|]; [|reflexivity]. rewrite <- (update_erase _ (Some r)).
    destruct (update_metrics_n (S (length s)) (Some r) (dset s2 r _)) as [k [s3 r3]]. cbn [snd]. apply Q.
  - exact (Q 0 s2 (Ok tt)).
Qed.
Lemma split_loop_erase fuel : forall d s t n p, snd (split_loop_n fuel d s t n p) = split_loop fuel d s t n p.
Proof.
  induction fuel as [|fuel IH]; intros d s t n p; cbn [split_loop_n split_loop]; destruct (d <? height n); try reflexivity.
  destruct (best_loop s 0 None (children n)) as [b|e]; [|reflexivity]. cbn [bind].
  destruct (nth_error (children n) (snd b)) as [c|]; [|reflexivity]. destruct (dget s c) as [m|]; [|reflexivity].
  rewrite <- IH. now destruct (split_loop_n fuel (S d) s c m (p ++ [c])).
Qed.
Theorem split_erase s t : snd (m_get_split_n s t) = m_get_split s t.
Proof. unfold m_get_split_n, m_get_split. destruct (dget s t); [apply split_loop_erase|reflexivity]. Qed.
Lemma path_loop_erase fuel : forall s t p, snd (path_loop_n fuel s t p) = path_loop fuel s t p.
Proof.
  induction fuel as [|fuel IH]; intros s [t|] p; cbn [path_loop_n path_loop]; try reflexivity.
  destruct (dget s t) as [n|]; [|reflexivity]. rewrite <- IH. now destruct (path_loop_n fuel s (parent n) (p ++ [t])).
Qed.
Theorem path_erase s t : snd (m_path_to_n s t) = m_path_to s t.
Proof. apply path_loop_erase. Qed.

Lemma split_loop_count fuel : forall d s t n p k x q, split_loop_n fuel d s t n p = (k, Ok (x, q)) -> length q = length p + k.
Proof.
  induction fuel as [|fuel IH]; intros d s t n p k x q; cbn [split_loop_n]; destruct (d <? height n).
  - discriminate.
  - intros [= <- <- <-]; lia.
  - destruct (best_loop s 0 None (children n)) as [b|e]; [|discriminate].
    destruct (nth_error (children n) (snd b)) as [c|]; [|discriminate]. destruct (dget s c) as [m|]; [|discriminate].
    destruct (split_loop_n fuel (S d) s c m (p ++ [c])) as [k' r] eqn:H. intros [= <- ->]. apply IH in H.
    rewrite app_length in H. cbn in H. lia.
  - intros [= <- <- <-]; lia.
Qed.
Theorem split_count s t x q : m_get_split s t = Ok (x, q) -> m_get_split_n s t = (length q - 1, Ok (x, q)).
Proof.
  rewrite <- split_erase. destruct (m_get_split_n s t) as [k r] eqn:H. cbn [snd]. intros ->. f_equal.
  unfold m_get_split_n in H. destruct (dget s t) as [n|]; [|discriminate]. apply split_loop_count in H. cbn in H. lia.
Qed.
Lemma path_loop_count fuel : forall s t p k q, path_loop_n fuel s t p = (k, Ok (Some q)) -> length q = length p + k.
Proof.
  induction fuel as [|fuel IH]; intros s [t|] p k q; cbn [path_loop_n]; try discriminate;
    try (intros [= <- <-]; rewrite rev_length; lia).
  destruct (dget s t) as [n|]; [|discriminate].
  destruct (path_loop_n fuel s (parent n) (p ++ [t])) as [k' r] eqn:H. intros [= <- ->]. apply IH in H.
  rewrite app_length in H. cbn in H. lia.
Qed.
Theorem path_count s t q : m_path_to s t = Ok (Some q) -> m_path_to_n s t = (length q, Ok (Some q)).
Proof.
  rewrite <- path_erase. destruct (m_path_to_n s t) as [k r] eqn:H. cbn [snd]. intros ->. f_equal.
  apply path_loop_count in H. exact (eq_sym H).
Qed.

Lemma update_count s t l : up s t l -> shape_ok s -> forall fuel, length l <= fuel ->
  fst (update_metrics_n fuel (Some t) s) = length l.
Proof.
  intros Hu; remember s as s0 eqn:Hs0 in Hu at 1.
  assert (SS : same_shape s0 s) by (subst; apply same_shape_refl). clear Hs0.
  revert s SS; induction Hu as [t n0 H1 H2|t n0 q l H1 H2 H IH]; intros s SS SO fuel Hf; cbn in Hf;
    (destruct fuel as [|fuel]; [lia|]); cbn [update_metrics_n];
    destruct (same_get _ _ _ _ SS H1) as [n [Hn [_ [Hp _]]]]; rewrite Hn;
    (destruct (child_metrics_total s (children n)) as [h [z Hm]];
      [intros c Hc C; apply (proj2 (proj2 SO) t n Hn) in Hc as [m [Hc _]]; congruence|]);
    rewrite Hm; set (s1 := dset s t (set_metrics n (h + 1) (z + 1)));
    assert (S1 : same_shape s s1) by (now apply set_metrics_shape); rewrite <- Hp, H2.
  - destruct fuel; reflexivity.
  - specialize (IH s1 ltac:(eapply same_shape_trans; eauto) ltac:(eapply same_shape_ok; [exact S1|exact SO]) fuel ltac:(lia)).
    destruct (update_metrics_n fuel (Some q) s1) as [k r]. cbn [fst length] in *. congruence.
Qed.

(** a move does not change the ways up that do not pass the node moved *)
Lemma moved_keeps s s3 tag p0 new : moved_tree s s3 tag p0 new -> forall t l, up s t l -> ~ In tag l -> up s3 t l.
Proof.
  intros [Hk Hg]. induction 1 as [t n Hn Hp|t n q l Hn Hp Hu IH]; intros Hni.
  - eapply up_root; [rewrite Hg, Hn; reflexivity|]. cbn. destruct (teq_spec tag t); [subst; exfalso; apply Hni; now left|exact Hp].
  - eapply up_step; [rewrite Hg, Hn; reflexivity| |apply IH; intros C; apply Hni; now right].
    cbn. destruct (teq_spec tag t); [subst; exfalso; apply Hni; now left|exact Hp].
Qed.

Lemma change_steps_n s tag n0 r lr : is_forest s -> dget s tag = Some n0 -> up s r lr -> ~ In tag lr ->
  exists s3, moved_tree s s3 tag (parent n0) (Some r) /\
    forall k s4, update_metrics_n (S (length s)) (Some r) s3 = (k, (s4, Ok tt)) ->
    m_change_parent_n tag (Some r) s = let '(k', o) := update_metrics_n (S (length s)) (parent n0) s4 in (k + k', o).
Proof.
  intros F H0 Hr Hni.
  set (s1 := match parent n0 with
             | None => s
             | Some q => match dget s q with
                         | Some nq => dset s q (set_children nq (remove1 tag (children nq)))
                         | None => s
                         end
             end).
  assert (P0 : forall q, parent n0 = Some q -> exists nq, dget s q = Some nq /\ q <> tag).
  { destruct (change_parent_steps s tag n0 r lr F H0 Hr Hni) as [_ [_ [P _]]]. exact P. }
  assert (E1 : (match parent n0 with
           | None => Ok s
           | Some q => match dget s q with
                       | None => Err KeyError
                       | Some nq => Ok (if mem_tag tag (children nq)
                                        then dset s q (set_children nq (remove1 tag (children nq)))
                                        else s)
                       end
           end) = Ok s1).
  { unfold s1; destruct (parent n0) as [q|] eqn:Hq; [|reflexivity].
    destruct (P0 q eq_refl) as [nq [Hnq _]]; rewrite Hnq.
    destruct (mem_tag tag (children nq)) eqn:Hm; [reflexivity|].
    rewrite (remove1_absent _ _ Hm), set_children_id, dset_id by exact Hnq; reflexivity. }
  assert (D1 : dkeys s1 = dkeys s /\ forall u, dget s1 u =
     match dget s u with
     | Some n => Some (if opt_is (parent n0) u then set_children n (remove1 tag (children n)) else n)
     | None => None end).
  { unfold s1; destruct (parent n0) as [q|] eqn:Hq.
    - destruct (P0 q eq_refl) as [nq [Hnq _]]; rewrite Hnq. split.
      + rewrite dkeys_dset; unfold dmem; now rewrite Hnq.
      + intros u; rewrite dget_dset; cbn [opt_is]. destruct (teq_spec q u) as [<-|]; [now rewrite Hnq|].
        now destruct (dget s u).
    - split; [reflexivity|]. intros u; cbn; now destruct (dget s u). }
  destruct D1 as [K1 D1].
  assert (Htag1 : dget s1 tag = Some n0).
  { rewrite D1, H0. destruct (opt_is (parent n0) tag) eqn:Q; [|reflexivity].
    apply opt_is_spec in Q. destruct (P0 _ Q) as [? [_ X]]; now destruct X. }
  set (s2 := dset s1 tag (set_children (set_parent n0 (Some r)) (children n0))).
  assert (Hrt : r <> tag) by (intros ->; destruct (up_head _ _ _ Hr) as [l' ->]; apply Hni; now left).
  assert (Hrn : exists nr, dget s r = Some nr) by (inversion Hr; eauto).
  destruct Hrn as [nr Hnr].
  assert (Hr2 : dget s2 r = Some (if opt_is (parent n0) r then set_children nr (remove1 tag (children nr)) else nr)).
  { unfold s2; rewrite dget_dset_other by congruence. rewrite D1, Hnr; reflexivity. }
  set (nr2 := if opt_is (parent n0) r then set_children nr (remove1 tag (children nr)) else nr) in *.
  set (s3 := dset s2 r (set_children nr2 (children nr2 ++ [tag]))).
  assert (MT : moved_tree s s3 tag (parent n0) (Some r)).
  { split.
    - unfold s3; rewrite dkeys_dset; unfold dmem; rewrite Hr2.
      unfold s2; rewrite dkeys_dset; unfold dmem; now rewrite Htag1.
    - intros u; unfold s3; rewrite dget_dset. destruct (teq_spec r u) as [<-|Hru].
      + rewrite Hnr. unfold moved; cbn [opt_is]; rewrite teq_refl.
        destruct (teq_spec tag r) as [|_]; [congruence|].
        unfold nr2; destruct (opt_is (parent n0) r); reflexivity.
      + unfold s2; rewrite dget_dset. destruct (teq_spec tag u) as [<-|Htu].
        * rewrite H0; unfold moved; cbn [opt_is]. rewrite teq_refl.
          destruct (teq_spec r tag); [congruence|].
          destruct (opt_is (parent n0) tag) eqn:Q; [|reflexivity].
          apply opt_is_spec in Q. destruct (P0 _ Q) as [? [_ X]]; now destruct X.
        * rewrite D1. destruct (dget s u) as [n|]; [|reflexivity].
          unfold moved; cbn [opt_is].
          destruct (teq_spec r u); [congruence|]. destruct (teq_spec tag u); [congruence|].
          destruct (opt_is (parent n0) u); destruct n; reflexivity. }
  exists s3. split; [exact MT|]. intros k s4 U4.
  unfold m_change_parent_n; rewrite H0, E1, Htag1. fold s2. rewrite Hr2. fold s3. now rewrite U4.
Qed.

(** the ways up from the new parent and from the old one *)
Theorem change_count s tag r lt lr : tree_ok s -> up s tag lt -> up s r lr -> ~ In tag lr ->
  fst (m_change_parent_n tag (Some r) s) = length lr + (length lt - 1).
Proof.
  intros T Ht Hr Hni. pose proof T as [SO _]. pose proof SO as [N [F C]].
  assert (H0 : exists n0, dget s tag = Some n0) by (inversion Ht; eauto). destruct H0 as [n0 H0].
  destruct (change_steps_n s tag n0 r lr F H0 Hr Hni) as [s3 [MT Q]].
  assert (SO3 : shape_ok s3) by (eapply moved_shape; [exact SO|exact H0|exact MT|]; exists lr; auto).
  pose proof (moved_keeps _ _ _ _ _ MT _ _ Hr Hni) as Hr3.
  assert (Len : forall t l, up s t l -> length l <= S (length s)).
  { intros t l Hl. pose proof (up_length _ _ _ Hl). lia. }
  pose proof (update_count s3 r lr Hr3 SO3 (S (length s)) (Len _ _ Hr)) as C3.
  destruct (update_metrics_ok s3 r lr Hr3 SO3 (S (length s)) (Len _ _ Hr)) as [s4 [U4 [SS4 _]]].
  destruct (update_metrics_n (S (length s)) (Some r) s3) as [k o] eqn:U.
  pose proof (update_erase (S (length s)) (Some r) s3) as X. rewrite U, U4 in X. cbn [snd] in X. subst o. cbn [fst] in C3. subst k.
  rewrite (Q _ _ eq_refl). assert (SO4 : shape_ok s4) by (eapply same_shape_ok; eauto).
  inversion Ht as [t n Hn Hp|t n q l Hn Hp Hu]; subst; assert (n = n0) by congruence; subst n; rewrite Hp.
  - cbn [update_metrics_n fst length]. reflexivity.
  - assert (Hql : ~ In tag l) by (eapply up_not_in_tail; eauto).
    pose proof (moved_keeps _ _ _ _ _ MT _ _ Hu Hql) as Hu3. apply (same_up _ _ SS4) in Hu3.
    pose proof (update_count s4 q l Hu3 SO4 (S (length s)) (Len _ _ Hu)) as C4.
    destruct (update_metrics_n (S (length s)) (Some q) s4) as [k o']. cbn [fst length] in *. lia.
Qed.
End Memory.

Section Db.
Context {K : Type} {E : Teq K} {O : TeqOk K}.
Implicit Type t : table K.

Lemma d_loop_erase fuel : forall i t, snd (d_update_loop_n fuel i t) = d_update_loop fuel i t.
Proof.
  induction fuel as [|fuel IH]; intros [i|] t; cbn [d_update_loop_n d_update_loop]; try reflexivity;
    destruct (nth_error t i) as [r|]; try reflexivity.
  destruct (node_metrics t r) as [h z]. rewrite <- IH. now destruct (d_update_loop_n fuel (r_parent_rid r) _).
Qed.
Lemma d_update_erase i t : snd (d_update_metrics_n i t) = d_update_metrics i t.
Proof.
  unfold d_update_metrics_n, d_update_metrics. rewrite <- d_loop_erase.
  now destruct (d_update_loop_n (length t) i t) as [k [t'|e]].
Qed.
Theorem d_change_erase k q t : snd (d_change_parent_n k q t) = d_change_parent k q t.
Proof.
  unfold d_change_parent_n, d_change_parent. destruct (row_of t k) as [[i r]|]; [|reflexivity]. cbv zeta.
  destruct (rid_of _ q) as [j|]; [|reflexivity]. rewrite <- d_update_erase.
  destruct (d_update_metrics_n (r_parent_rid r) _) as [n [t5 [[]|e]]]; [|reflexivity]. cbn [snd].
  rewrite <- d_update_erase. now destruct (d_update_metrics_n (Some j) t5).
Qed.
Lemma d_split_loop_erase fuel : forall d t k r p, snd (d_split_loop_n fuel d t k r p) = d_split_loop fuel d t k r p.
Proof.
  induction fuel as [|fuel IH]; intros d t k r p; cbn [d_split_loop_n d_split_loop]; destruct (d <? r_height r); try reflexivity.
  destruct (best_path t r) as [[i c]|]; [|reflexivity]. rewrite <- IH.
  now destruct (d_split_loop_n fuel (S d) t (r_tag c) c (p ++ [r_tag c])).
Qed.
Theorem d_split_erase t k : snd (d_get_split_n t k) = d_get_split t k.
Proof. unfold d_get_split_n, d_get_split. destruct (row_of t k) as [[i r]|]; [apply d_split_loop_erase|reflexivity]. Qed.
Lemma d_split_loop_count fuel : forall d t k r p n x q, d_split_loop_n fuel d t k r p = (n, Ok (x, q)) -> length q = length p + n.
Proof.
  induction fuel as [|fuel IH]; intros d t k r p n x q; cbn [d_split_loop_n]; destruct (d <? r_height r).
  - discriminate.
  - intros [= <- <- <-]; lia.
  - destruct (best_path t r) as [[i c]|]; [|discriminate].
    destruct (d_split_loop_n fuel (S d) t (r_tag c) c (p ++ [r_tag c])) as [k' o] eqn:H. intros [= <- ->]. apply IH in H.
    rewrite app_length in H. cbn in H. lia.
  - intros [= <- <- <-]; lia.
Qed.
Theorem d_split_count t k x q : d_get_split t k = Ok (x, q) -> d_get_split_n t k = (length q - 1, Ok (x, q)).
Proof.
  rewrite <- d_split_erase. destruct (d_get_split_n t k) as [n r] eqn:H. cbn [snd]. intros ->. f_equal.
  unfold d_get_split_n in H. destruct (row_of t k) as [[i r]|]; [|discriminate]. apply d_split_loop_count in H. cbn in H. lia.
Qed.

Lemma d_loop_count : forall fuel t i r l, linked t -> nth_error t i = Some r -> up (absn t) (r_tag r) l ->
  length l <= fuel -> fst (d_update_loop_n fuel (Some i) t) = length l.
Proof.
  induction fuel as [|fuel IH]; intros t i r l L Hi Hu Hf; [inversion Hu; subst; cbn in Hf; lia|].
  pose proof (l_tags _ L) as N. cbn [d_update_loop_n]. rewrite Hi. destruct (node_metrics t r) as [h z].
  set (t1 := lupd t i (set_row_metrics h z)).
  assert (L1 : linked t1) by (now apply linked_metrics). pose proof (l_parent _ L i r Hi) as Lp.
  inversion Hu as [? n Hn1 Hp1|? n q lq Hn1 Hp1 Hu1]; subst;
    rewrite (absn_get t i r N Hi) in Hn1; injection Hn1 as <-; cbn in Hp1; rewrite Hp1 in Lp;
    destruct (r_parent_rid r) as [j|] eqn:Hj; try contradiction.
  - destruct fuel; reflexivity.
  - assert (T1 : map r_tag t1 = map r_tag t).
    { eapply rowwise_tags; [apply lupd_rowwise|]. intros k r'; cbn beta; now destruct (i =? k). }
    rewrite <- T1 in Lp. apply row_at in Lp as [rq [Hrq Hq]].
    assert (SS : same_shape (absn t) (absn t1)).
    { unfold t1. rewrite (absn_metrics t i r h z L Hi). apply set_metrics_shape. now apply absn_get. }
    apply (same_up _ _ SS) in Hu1. rewrite <- Hq in Hu1.
    specialize (IH t1 j rq lq L1 Hrq Hu1 ltac:(cbn in Hf; lia)).
    destruct (d_update_loop_n fuel (Some j) t1) as [k o]. cbn [fst length] in *. congruence.
Qed.
Lemma d_update_count t i r l : linked t -> nth_error t i = Some r -> up (absn t) (r_tag r) l ->
  fst (d_update_metrics_n (Some i) t) = length l.
Proof.
  intros L Hi Hu. assert (Hlen : length l <= length t) by (pose proof (up_length _ _ _ Hu) as Hx; now rewrite absn_length in Hx).
  pose proof (d_loop_count (length t) t i r l L Hi Hu Hlen) as Q. unfold d_update_metrics_n.
  destruct (d_update_loop_n (length t) (Some i) t) as [k [t'|e]]; exact Q.
Qed.

Theorem d_change_count t s k q n0 nq lk lq : rep_db t s -> dget s k = Some n0 -> dget s q = Some nq ->
  up s k lk -> up s q lq -> ~ In k lq -> slot_free s k n0 q nq ->
  fst (d_change_parent_n k q t) = length lq + (length lk - 1).
Proof.
  intros [-> [L T]] Hk Hq Hlk Hu Hn SF. pose proof T as [SO M]. pose proof (l_tags _ L) as N.
  destruct (move_steps t k q n0 nq lq L SO Hk Hq Hu Hn SF) as [i [r [j [Hi [Hr [Hn0 [Htj [MT [L4 [SO4 [T4 _]]]]]]]]]]].
  set (t4 := moved_table t i r q j) in *.
  assert (Form : d_change_parent_n k q t = match d_update_metrics_n (r_parent_rid r) t4 with
      | (n, (t5, Err e)) => (n, (t5, Err e)) | (n, (t5, Ok _)) => let '(n', o) := d_update_metrics_n (Some j) t5 in (n + n', o) end).
  { unfold d_change_parent_n. destruct (row_of_get t k n0 N Hk) as [i' [r' [Hi' [Hr' [_ Hrow]]]]].
    assert (i' = i).
    { apply (tags_inj t i' i k N); [rewrite (tag_at _ _ _ Hi'); congruence|rewrite (tag_at _ _ _ Hi); congruence]. }
    subst i'. assert (r' = r) by congruence. subst r'. rewrite Hrow. cbv zeta.
    assert (T2 : map r_tag (update_at (r_parent_rid r) (remove_if_child1 i) (update_at (r_parent_rid r) (remove_if_child0 i) t)) = map r_tag t).
    { pose proof (rowwise_trans _ _ _ _ _ (update_at_rowwise t (r_parent_rid r) (remove_if_child0 i))
        (update_at_rowwise _ (r_parent_rid r) (remove_if_child1 i))) as R.
      eapply rowwise_tags; [exact R|]. intros m x; cbn beta. unfold remove_if_child0, remove_if_child1.
      destruct (is_rid (r_parent_rid r) m); [|reflexivity].
      destruct (is_rid (r_child0 x) i); cbn; destruct (is_rid (r_child1 _) i); reflexivity. }
    rewrite (rid_of_ok _ j q); [|now rewrite T2|now rewrite T2]. reflexivity. }
  rewrite Form.
  assert (First : exists t5, d_update_metrics_n (r_parent_rid r) t4 = (length lk - 1, (t5, Ok tt)) /\ linked t5 /\
     same_shape (absn t4) (absn t5) /\ map r_tag t5 = map r_tag t).
  { pose proof (l_parent _ L i r Hi) as Lp.
    inversion Hlk as [? n Hn1 Hp1|? n p l Hn1 Hp1 Hu1]; subst; assert (n = node_of t i r) by congruence; subst n; cbn in Hp1;
      rewrite Hp1 in Lp; destruct (r_parent_rid r) as [a|] eqn:Ha; try contradiction.
    - exists t4. split; [unfold d_update_metrics_n; destruct (length t4); reflexivity|]. split; [exact L4|].
      split; [apply same_shape_refl|exact T4].
    - rewrite <- T4 in Lp. apply row_at in Lp as [ra [Hra Hpa]].
      assert (Hql : ~ In (r_tag r) l) by (eapply up_not_in_tail; eauto).
      pose proof (moved_keeps _ _ _ _ _ MT _ _ Hu1 Hql) as Hu4. rewrite <- Hpa in Hu4.
      pose proof (d_update_count t4 a ra l L4 Hra Hu4) as C4.
      assert (Hlen : length l <= length t4) by (pose proof (up_length _ _ _ Hu4) as Hx; now rewrite absn_length in Hx).
      destruct (update_metrics_ok (absn t4) (r_tag ra) l Hu4 SO4 (length t4) Hlen) as [s1 [Hs1 [SS1 _]]].
      destruct (update_sim (length t4) t4 a ra l s1 L4 Hra Hu4 Hlen Hs1) as [t5 [Hd [Ha5 [L5 Hrows]]]].
      exists t5. split; [|split; [exact L5|split; [now rewrite Ha5|]]].
      + pose proof (d_update_erase (Some a) t4) as X. unfold d_update_metrics in X. rewrite Hd in X.
        destruct (d_update_metrics_n (Some a) t4) as [n o]. cbn [fst snd length] in *. subst. f_equal. lia.
      + rewrite <- T4. apply same_rows_absn; [apply L4|exact Hrows]. }
  destruct First as [t5 [U5 [L5 [SS5 T5]]]]. rewrite U5.
  assert (Htj5 : nth_error (map r_tag t5) j = Some q) by (now rewrite T5). apply row_at in Htj5 as [rq5 [Hrq5 Hq5]].
  assert (Hu5 : up (absn t5) q lq) by (apply (same_up _ _ SS5); eapply moved_keeps; eauto). rewrite <- Hq5 in Hu5.
  pose proof (d_update_count t5 j rq5 lq L5 Hrq5 Hu5) as C5.
  destruct (d_update_metrics_n (Some j) t5) as [n o]. cbn [fst] in *. lia.
Qed.
End Db.
