(** The table of a DBTree represents a tree of nodes, for the moves [Versions] makes. *)
From Coq Require Import Lia.
From Verif Require Import Base Tree SpecTree TreeProofs TreeExact Versions VersionsInv DbTree.

Section P.
Context {K : Type} {E : Teq K} {O : TeqOk K}.
Implicit Type t : table K.

(** * The nodes of a table *)
Definition kid t (c : option nat) : list K :=
  match c with None => [] | Some i => match nth_error (map r_tag t) i with Some k => [k] | None => [] end end.
Definition kids t (r : row K) : list K := kid t (r_child1 r) ++ kid t (r_child0 r).
Definition node_of t (i : nat) (r : row K) : node K :=
  mkNode i (r_parent r) (kids t r) (r_height r) (r_size r) (r_base r).
Fixpoint abs_from t (i : nat) (l : table K) : nodes K :=
  match l with [] => [] | r :: l => (r_tag r, node_of t i r) :: abs_from t (S i) l end.
Definition absn t : nodes K := abs_from t 0 t.

Record linked t : Prop := {
  l_tags : NoDup (map r_tag t);
  l_parent : forall i r, nth_error t i = Some r ->
    match r_parent r, r_parent_rid r with
    | None, None => True
    | Some q, Some j => nth_error (map r_tag t) j = Some q
    | _, _ => False
    end;
  l_child0 : forall i r c, nth_error t i = Some r -> r_child0 r = Some c ->
    exists k, nth_error (map r_tag t) c = Some k /\ r_base r = Some k;
  l_child1 : forall i r c, nth_error t i = Some r -> r_child1 r = Some c ->
    exists k, nth_error (map r_tag t) c = Some k /\ r_base r <> Some k
}.

Lemma abs_keys t i l : dkeys (abs_from t i l) = map r_tag l.
Proof. revert i; induction l as [|r l IH]; intros i; cbn; [reflexivity|]. now rewrite <- (IH (S i)). Qed.
Lemma absn_keys t : dkeys (absn t) = map r_tag t.
Proof. apply abs_keys. Qed.
Lemma absn_length t : length (absn t) = length t.
Proof. rewrite <- (map_length (@r_tag K) t), <- absn_keys. symmetry; apply map_length. Qed.
Lemma abs_get t l : NoDup (map r_tag l) -> forall j i r, nth_error l i = Some r ->
  dget (abs_from t j l) (r_tag r) = Some (node_of t (j + i) r).
Proof.
  induction l as [|r0 l IH]; intros N j i r H; [destruct i; discriminate|].
  inversion N as [|? ? N1 N2]; subst. destruct i as [|i]; cbn in H.
  - injection H as ->. cbn. rewrite teq_refl, Nat.add_0_r; reflexivity.
  - cbn. destruct (teq_spec (r_tag r0) (r_tag r)) as [Heq|].
    + exfalso; apply N1. rewrite Heq. apply in_map. eapply nth_error_In; eauto.
    + rewrite (IH N2 (S j) i r H). now rewrite Nat.add_succ_comm.
Qed.
Lemma absn_get t i r : NoDup (map r_tag t) -> nth_error t i = Some r ->
  dget (absn t) (r_tag r) = Some (node_of t i r).
Proof. intros N H; apply (abs_get t t N 0 i r H). Qed.
Lemma absn_get' t k n : NoDup (map r_tag t) -> dget (absn t) k = Some n ->
  exists i r, nth_error t i = Some r /\ r_tag r = k /\ n = node_of t i r.
Proof.
  intros N H. pose proof (dget_Some_key _ _ _ H) as Hk. rewrite absn_keys in Hk.
  apply in_map_iff in Hk as [r [Hr Hin]]. apply In_nth_error in Hin as [i Hi]. exists i, r.
  split; [exact Hi|]. split; [exact Hr|]. rewrite <- Hr, (absn_get t i r N Hi) in H. congruence.
Qed.
Lemma tag_at t i r : nth_error t i = Some r -> nth_error (map r_tag t) i = Some (r_tag r).
Proof. intros H; now rewrite nth_error_map, H. Qed.
Lemma row_at t i k : nth_error (map r_tag t) i = Some k -> exists r, nth_error t i = Some r /\ r_tag r = k.
Proof. rewrite nth_error_map. destruct (nth_error t i) as [r|]; [|discriminate]. intros [= H]; eauto. Qed.
Lemma tags_inj t i j k : NoDup (map r_tag t) -> nth_error (map r_tag t) i = Some k ->
  nth_error (map r_tag t) j = Some k -> i = j.
Proof.
  intros N H1 H2. apply (proj1 (NoDup_nth_error _) N); [|congruence].
  apply nth_error_Some; congruence.
Qed.

Lemma rid_from_ok t : NoDup (map r_tag t) -> forall j i k, nth_error (map r_tag t) i = Some k ->
  rid_from j t k = Some (j + i).
Proof.
  induction t as [|r t IH]; intros N j i k H; [destruct i; discriminate|].
  inversion N as [|? ? N1 N2]; subst. destruct i as [|i]; cbn in H.
  - injection H as <-. cbn. now rewrite teq_refl, Nat.add_0_r.
  - cbn. destruct (teq_spec (r_tag r) k) as [<-|].
    + exfalso; apply N1. eapply nth_error_In; eauto.
    + rewrite (IH N2 (S j) i k H). now rewrite Nat.add_succ_comm.
Qed.
Lemma rid_of_ok t i k : NoDup (map r_tag t) -> nth_error (map r_tag t) i = Some k -> rid_of t k = Some i.
Proof. intros N H; apply (rid_from_ok t N 0 i k H). Qed.
Lemma rid_of_none t k : ~ In k (map r_tag t) -> rid_of t k = None.
Proof.
  unfold rid_of; generalize 0. induction t as [|r t IH]; intros j H; cbn; [reflexivity|].
  destruct (teq_spec (r_tag r) k) as [<-|]; [exfalso; apply H; now left|]. apply IH. intros C; apply H; now right.
Qed.
Lemma row_of_ok t i r : NoDup (map r_tag t) -> nth_error t i = Some r -> row_of t (r_tag r) = Some (i, r).
Proof. intros N H; unfold row_of. rewrite (rid_of_ok t i _ N (tag_at _ _ _ H)), H; reflexivity. Qed.
Lemma row_of_none t k : dget (absn t) k = None -> row_of t k = None.
Proof. intros H; unfold row_of. rewrite rid_of_none; [reflexivity|]. apply dget_None in H. now rewrite absn_keys in H. Qed.
Lemma row_of_get t k n : NoDup (map r_tag t) -> dget (absn t) k = Some n ->
  exists i r, nth_error t i = Some r /\ r_tag r = k /\ n = node_of t i r /\ row_of t k = Some (i, r).
Proof.
  intros N H. destruct (absn_get' t k n N H) as [i [r [H1 [H2 H3]]]]. exists i, r; repeat split; auto.
  rewrite <- H2. now apply row_of_ok.
Qed.

(** * Tables whose rows changed one by one *)
Lemma nth_error_ext_local {A} (a b : list A) : (forall j, nth_error a j = nth_error b j) -> a = b.
Proof.
  revert b; induction a as [|x a IH]; intros [|y b] H; [reflexivity|discriminate (H 0)|discriminate (H 0)|].
  f_equal; [now injection (H 0)|]. apply IH; intros j; exact (H (S j)).
Qed.
Definition rowwise t t' (F : nat -> row K -> row K) : Prop :=
  forall j, nth_error t' j = option_map (F j) (nth_error t j).
Lemma rowwise_tags t t' F : rowwise t t' F -> (forall j r, r_tag (F j r) = r_tag r) -> map r_tag t' = map r_tag t.
Proof.
  intros R H. apply nth_error_ext_local. intros j. rewrite !nth_error_map, R.
  destruct (nth_error t j); cbn; [now rewrite H|reflexivity].
Qed.
Lemma kid_tags t t' c : map r_tag t' = map r_tag t -> kid t' c = kid t c.
Proof. intros H; unfold kid; now rewrite H. Qed.
Lemma kids_tags t t' r : map r_tag t' = map r_tag t -> kids t' r = kids t r.
Proof. intros H; unfold kids; now rewrite !(kid_tags t t'). Qed.
Lemma rowwise_get t t' F i r : rowwise t t' F -> NoDup (map r_tag t) -> map r_tag t' = map r_tag t ->
  nth_error t i = Some r -> dget (absn t') (r_tag r) = Some (node_of t i (F i r)).
Proof.
  intros R N T H. pose proof (R i) as Ri. rewrite H in Ri; cbn in Ri.
  assert (Hr : r_tag (F i r) = r_tag r).
  { apply tag_at in H as H1. apply tag_at in Ri as H2. rewrite T in H2. congruence. }
  rewrite <- Hr, (absn_get t' i (F i r)); [|now rewrite T|exact Ri].
  unfold node_of; now rewrite (kids_tags t t').
Qed.
Lemma lupd_rowwise t i f : rowwise t (lupd t i f) (fun j r => if i =? j then f r else r).
Proof. intros j; rewrite nth_error_lupd; cbn beta. destruct (i =? j); [reflexivity|]. now destruct (nth_error t j). Qed.
Lemma update_at_rowwise t c f : rowwise t (update_at c f t) (fun j r => if is_rid c j then f r else r).
Proof.
  destruct c as [i|]; cbn [update_at is_rid]; [apply lupd_rowwise|]. intros j; now destruct (nth_error t j).
Qed.
Lemma rowwise_trans t1 t2 t3 F G : rowwise t1 t2 F -> rowwise t2 t3 G -> rowwise t1 t3 (fun j r => G j (F j r)).
Proof. intros A B j; rewrite B, A. now destruct (nth_error t1 j). Qed.

(** * Metrics *)
Lemma linked_metrics t i h z : linked t -> linked (lupd t i (set_row_metrics h z)).
Proof.
  intros L. set (t' := lupd t i (set_row_metrics h z)).
  pose proof (lupd_rowwise t i (set_row_metrics h z)) as R. fold t' in R.
  assert (T : map r_tag t' = map r_tag t).
  { eapply rowwise_tags; [exact R|]. intros j r; cbn beta; now destruct (i =? j). }
  assert (Q : forall j r', nth_error t' j = Some r' -> exists r, nth_error t j = Some r /\
     r_parent r' = r_parent r /\ r_parent_rid r' = r_parent_rid r /\ r_child0 r' = r_child0 r /\
     r_child1 r' = r_child1 r /\ r_base r' = r_base r).
  { intros j r' H. rewrite R in H. destruct (nth_error t j) as [r|]; [|discriminate]. exists r. cbn in H.
    injection H as <-. destruct (i =? j); repeat split. }
  split.
  - rewrite T; apply L.
  - intros j r' H. destruct (Q j r' H) as [r [Hr [-> [-> _]]]]. rewrite T. exact (l_parent _ L j r Hr).
  - intros j r' c H Hc. destruct (Q j r' H) as [r [Hr [_ [_ [H0 [_ ->]]]]]]. rewrite T. rewrite H0 in Hc.
    exact (l_child0 _ L j r c Hr Hc).
  - intros j r' c H Hc. destruct (Q j r' H) as [r [Hr [_ [_ [_ [H1 ->]]]]]]. rewrite T. rewrite H1 in Hc.
    exact (l_child1 _ L j r c Hr Hc).
Qed.
Lemma abs_lupd t t' h z l : map r_tag t' = map r_tag t -> forall j i r, nth_error l i = Some r ->
  NoDup (map r_tag l) ->
  abs_from t' j (lupd l i (set_row_metrics h z)) =
  dset (abs_from t j l) (r_tag r) (set_metrics (node_of t (j + i) r) h z).
Proof.
  intros T. assert (Same : forall m l, abs_from t' m l = abs_from t m l).
  { intros m l0; revert m; induction l0 as [|r l0 IH]; intros m; cbn; [reflexivity|].
    rewrite IH. unfold node_of; now rewrite (kids_tags t t'). }
  induction l as [|r0 l IH]; intros j i r H N; [destruct i; discriminate|].
  inversion N as [|? ? N1 N2]; subst. destruct i as [|i]; cbn in H.
  - injection H as ->. cbn. rewrite teq_refl, Nat.add_0_r, Same. unfold node_of, set_metrics; cbn.
    unfold kids; cbn; now rewrite !(kid_tags t t').
  - cbn. destruct (teq_spec (r_tag r0) (r_tag r)) as [Heq|].
    + exfalso; apply N1. rewrite Heq. apply in_map. eapply nth_error_In; eauto.
    + rewrite (IH (S j) i r H N2). rewrite Nat.add_succ_comm. unfold node_of; now rewrite (kids_tags t t').
Qed.
Lemma absn_metrics t i r h z : linked t -> nth_error t i = Some r ->
  absn (lupd t i (set_row_metrics h z)) = dset (absn t) (r_tag r) (set_metrics (node_of t i r) h z).
Proof.
  intros L H. apply (abs_lupd t _ h z t); [|exact H|apply L].
  eapply rowwise_tags; [apply lupd_rowwise|]. intros j r'; cbn beta; now destruct (i =? j).
Qed.

Lemma child_metrics_app (s : nodes K) a b ha za hb zb : child_metrics s a = Ok (ha, za) -> child_metrics s b = Ok (hb, zb) ->
  child_metrics s (a ++ b) = Ok (Nat.max ha hb, za + zb).
Proof.
  revert ha za; induction a as [|c a IH]; cbn; intros ha za Ha Hb.
  - injection Ha as <- <-. exact Hb.
  - destruct (dget s c); [|discriminate]. destruct (child_metrics s a) as [[h1 z1]|]; [|discriminate].
    cbn in Ha; injection Ha as <- <-. rewrite (IH h1 z1 eq_refl Hb); cbn. f_equal; f_equal; lia.
Qed.
Lemma slot_metrics_ok t c : NoDup (map r_tag t) -> child_metrics (absn t) (kid t c) = Ok (slot_metrics t c).
Proof.
  intros N. destruct c as [i|]; [|reflexivity]. unfold kid, slot_metrics. rewrite nth_error_map.
  destruct (nth_error t i) as [r|] eqn:H; [|reflexivity]. cbn.
  rewrite (absn_get t i r N H); cbn. f_equal; f_equal; lia.
Qed.
Lemma node_metrics_ok t r : NoDup (map r_tag t) -> exists h z, child_metrics (absn t) (kids t r) = Ok (h, z) /\
  node_metrics t r = (h + 1, z + 1).
Proof.
  intros N. unfold node_metrics, kids.
  pose proof (slot_metrics_ok t (r_child0 r) N) as H0. pose proof (slot_metrics_ok t (r_child1 r) N) as H1.
  destruct (slot_metrics t (r_child0 r)) as [h0 z0], (slot_metrics t (r_child1 r)) as [h1 z1].
  eexists _, _. split; [apply child_metrics_app; eassumption|]. f_equal; lia.
Qed.
Lemma update_sim : forall fuel t i r l s', linked t -> nth_error t i = Some r -> up (absn t) (r_tag r) l ->
  length l <= fuel -> update_metrics fuel (Some (r_tag r)) (absn t) = (s', Ok tt) ->
  exists t', d_update_loop fuel (Some i) t = Ok t' /\ absn t' = s' /\ linked t' /\
    forall j, option_map (set_row_metrics 0 0) (nth_error t' j) = option_map (set_row_metrics 0 0) (nth_error t j).
Proof.
  induction fuel as [|fuel IH]; intros t i r l s' L Hi Hu Hf Hs; [inversion Hu; subst; cbn in Hf; lia|].
  pose proof (l_tags _ L) as N. cbn [update_metrics] in Hs. rewrite (absn_get t i r N Hi) in Hs.
  change (children (node_of t i r)) with (kids t r) in Hs. change (parent (node_of t i r)) with (r_parent r) in Hs.
  destruct (node_metrics_ok t r N) as [h [z [Hm Hn]]]. rewrite Hm in Hs.
  cbn [d_update_loop]. rewrite Hi, Hn.
  rewrite <- (absn_metrics t i r (h + 1) (z + 1) L Hi) in Hs.
  set (t1 := lupd t i (set_row_metrics (h + 1) (z + 1))) in *.
  assert (L1 : linked t1) by (now apply linked_metrics).
  assert (Q1 : forall j, option_map (set_row_metrics 0 0) (nth_error t1 j) = option_map (set_row_metrics 0 0) (nth_error t j)).
  { intros j. unfold t1. rewrite nth_error_lupd. destruct (i =? j); [|reflexivity]. now destruct (nth_error t j). }
  pose proof (l_parent _ L i r Hi) as Lp.
  destruct (r_parent r) as [q|] eqn:Hp, (r_parent_rid r) as [j|] eqn:Hj; try contradiction.
  - assert (T1 : map r_tag t1 = map r_tag t).
    { eapply rowwise_tags; [apply lupd_rowwise|]. intros k r'; cbn beta; now destruct (i =? k). }
    rewrite <- T1 in Lp. apply row_at in Lp as [rq [Hrq Hq]].
    assert (Hul : exists lq, up (absn t) q lq /\ length lq <= fuel).
    { inversion Hu as [? n Hn1 Hp1|? n q' lq Hn1 Hp1 Hu1]; subst;
        rewrite (absn_get t i r N Hi) in Hn1; injection Hn1 as <-; cbn in Hp1; [congruence|].
      rewrite Hp in Hp1; injection Hp1 as <-. exists lq; split; [exact Hu1|cbn in Hf; lia]. }
    destruct Hul as [lq [Huq Hlq]].
    assert (SS : same_shape (absn t) (absn t1)).
    { unfold t1. rewrite (absn_metrics t i r (h + 1) (z + 1) L Hi). apply set_metrics_shape. now apply absn_get. }
    apply (same_up _ _ SS) in Huq. rewrite <- Hq in Huq, Hs.
    destruct (IH t1 j rq lq s' L1 Hrq Huq Hlq Hs) as [t' [H1 [H2 [H3 H4]]]].
    exists t'. split; [exact H1|]. split; [exact H2|]. split; [exact H3|]. intros k; now rewrite H4, Q1.
  - exists t1. cbn in Hs. destruct fuel; cbn in Hs |- *; injection Hs as <-; auto.
Qed.

(** * Moves *)
Lemma remove1_app (x : K) a b : NoDup (a ++ b) -> remove1 x (a ++ b) = remove1 x a ++ remove1 x b.
Proof.
  induction a as [|y a IH]; intros N; [reflexivity|]. cbn in N |- *. inversion N as [|? ? N1 N2]; subst.
  destruct (teq_spec y x) as [->|]; [|cbn; now rewrite IH].
  f_equal. symmetry. apply remove1_absent. unfold mem_tag.
  apply Bool.not_true_is_false. rewrite existsb_exists. intros [z [Hz Hx]]. apply teq_ok in Hx; subst z.
  apply N1, in_or_app; now right.
Qed.
Definition rem (c : option nat) (i : nat) : option nat := if is_rid c i then None else c.
Lemma kid_rem t c i k : NoDup (map r_tag t) -> nth_error (map r_tag t) i = Some k ->
  kid t (rem c i) = remove1 k (kid t c).
Proof.
  intros N Hi. destruct c as [j|]; [|reflexivity]. unfold rem; cbn [is_rid].
  destruct (Nat.eqb_spec j i) as [->|Hj].
  - cbn [kid]. rewrite Hi; cbn. now rewrite teq_refl.
  - unfold kid. destruct (nth_error (map r_tag t) j) as [k'|] eqn:Hk; [|reflexivity]. cbn.
    destruct (teq_spec k' k) as [->|]; [|reflexivity]. exfalso; apply Hj. eapply tags_inj; eauto.
Qed.

Definition move_row (orig : option nat) (i : nat) (q : K) (j : nat) (first : bool) (m : nat) (r : row K) : row K :=
  let r := if is_rid orig m then remove_if_child0 i r else r in
  let r := if is_rid orig m then remove_if_child1 i r else r in
  let r := if i =? m then set_parents (Some q) (Some j) r else r in
  if j =? m then (if first then set_child0 (Some i) r else set_child1 (Some i) r) else r.
Lemma move_row_fields orig i q j first m r : move_row orig i q j first m r =
  mkRow (r_tag r) (if i =? m then Some q else r_parent r) (if i =? m then Some j else r_parent_rid r)
    (if (j =? m) && first then Some i else if is_rid orig m then rem (r_child0 r) i else r_child0 r)
    (if (j =? m) && negb first then Some i else if is_rid orig m then rem (r_child1 r) i else r_child1 r)
    (r_height r) (r_size r) (r_base r).
Proof.
  unfold move_row, rem, remove_if_child0, remove_if_child1. destruct r as [a b c d e f g h]; cbn.
  destruct (is_rid orig m), (i =? m), (j =? m), first; cbn; destruct (is_rid d i); cbn; destruct (is_rid e i); reflexivity.
Qed.

Definition rep_db t (s : nodes K) : Prop := s = absn t /\ linked t /\ tree_ok s.

(** heights that may be too small, but not too large *)
Definition low_at (s : nodes K) (u : K) : Prop := forall n, dget s u = Some n ->
  height n <= 1 \/ exists c m, dget s c = Some m /\ parent m = Some u /\ height n <= S (height m).
Lemma child_metrics_top (s : nodes K) l h z : child_metrics s l = Ok (h, z) ->
  h = 0 \/ exists c m, In c l /\ dget s c = Some m /\ height m = h.
Proof.
  revert h z; induction l as [|c l IH]; cbn; intros h z H; [injection H as <- <-; now left|].
  destruct (dget s c) as [m|] eqn:Hc; [|discriminate]. destruct (child_metrics s l) as [[h1 z1]|]; [|discriminate].
  cbn in H; injection H as <- <-. destruct (Nat.max_spec (height m) h1) as [[Hle ->]|[Hle ->]].
  - destruct (IH h1 z1 eq_refl) as [->|[c' [m' [Hin [Hm Hh]]]]]; [now left|right]. exists c', m'; auto.
  - right. exists c, m; auto.
Qed.
Lemma low_exact (s : nodes K) : tree_ok s -> forall u, low_at s u.
Proof.
  intros [[_ [_ C]] M] u n Hn. destruct (M u n Hn) as [h [z [Hm [Hh _]]]].
  destruct (child_metrics_top _ _ _ _ Hm) as [->|[c [m [Hin [Hc Hhm]]]]]; [left; lia|right].
  apply (C u n Hn) in Hin as [m' [Hc' Hp]]. exists c, m. assert (m' = m) by congruence; subst m'. repeat split; auto. lia.
Qed.
Definition rep_low t (s : nodes K) : Prop := s = absn t /\ linked t /\ shape_ok s /\ forall u, low_at s u.
Lemma rep_db_low t s : rep_db t s -> rep_low t s.
Proof. intros [-> [L T]]. split; [reflexivity|]. split; [exact L|]. split; [apply T|now apply low_exact]. Qed.

Lemma same_rows_absn t t' : NoDup (map r_tag t) ->
  (forall j, option_map (set_row_metrics 0 0) (nth_error t' j) = option_map (set_row_metrics 0 0) (nth_error t j)) ->
  map r_tag t' = map r_tag t.
Proof.
  intros N H. apply nth_error_ext_local; intros j. rewrite !nth_error_map. specialize (H j).
  destruct (nth_error t' j), (nth_error t j); try discriminate; [|reflexivity].
  injection H as ? _ _ _ _ _; cbn; congruence.
Qed.

(** db_tree.py:72-108, before the metrics *)
Definition moved_table t (i : nat) (r : row K) (q : K) (j : nat) : table K :=
  lupd (lupd (update_at (r_parent_rid r) (remove_if_child1 i) (update_at (r_parent_rid r) (remove_if_child0 i) t))
    i (set_parents (Some q) (Some j))) j
    (match r_parent r with None => set_child0 (Some i) | Some _ => set_child1 (Some i) end).
Lemma move_steps t k q n0 nq lq : linked t -> shape_ok (absn t) -> dget (absn t) k = Some n0 -> dget (absn t) q = Some nq ->
  up (absn t) q lq -> ~ In k lq -> slot_free (absn t) k n0 q nq ->
  exists i r j, nth_error t i = Some r /\ r_tag r = k /\ n0 = node_of t i r /\ nth_error (map r_tag t) j = Some q /\
    let t4 := moved_table t i r q j in
    moved_tree (absn t) (absn t4) k (parent n0) (Some q) /\ linked t4 /\ shape_ok (absn t4) /\ map r_tag t4 = map r_tag t /\
    d_change_parent k q t = match d_update_metrics (r_parent_rid r) t4 with
      | (t5, Err e) => (t5, Err e) | (t5, Ok _) => d_update_metrics (Some j) t5 end.
Proof.
  intros L SO Hk Hq Hu Hn SF. pose proof (l_tags _ L) as N.
  destruct (row_of_get t k n0 N Hk) as [i [r [Hi [Hr [Hn0 Hrow]]]]].
  destruct (row_of_get t q nq N Hq) as [j [rq [Hj [Hrq [Hnq _]]]]].
  assert (Hti : nth_error (map r_tag t) i = Some k) by (rewrite (tag_at _ _ _ Hi); congruence).
  assert (Htj : nth_error (map r_tag t) j = Some q) by (rewrite (tag_at _ _ _ Hj); congruence).
  assert (Hkq : k <> q) by (intros ->; destruct (up_head _ _ _ Hu) as [l' ->]; apply Hn; now left).
  assert (Hij : i <> j) by congruence.
  set (orig := r_parent_rid r). set (first := match r_parent r with None => true | Some _ => false end).
  set (t2 := update_at orig (remove_if_child1 i) (update_at orig (remove_if_child0 i) t)).
  set (t4 := lupd (lupd t2 i (set_parents (Some q) (Some j))) j
               (match r_parent r with None => set_child0 (Some i) | Some _ => set_child1 (Some i) end)).
  assert (R4 : rowwise t t4 (move_row orig i q j first)).
  { pose proof (rowwise_trans _ _ _ _ _ (rowwise_trans _ _ _ _ _ (rowwise_trans _ _ _ _ _
      (update_at_rowwise t orig (remove_if_child0 i)) (update_at_rowwise _ orig (remove_if_child1 i)))
      (lupd_rowwise _ i (set_parents (Some q) (Some j))))
      (lupd_rowwise _ j (match r_parent r with None => set_child0 (Some i) | Some _ => set_child1 (Some i) end))) as R.
    intros m. fold t2 in R. fold t4 in R. rewrite (R m). unfold move_row, first. now destruct (r_parent r). }
  assert (T2 : map r_tag t2 = map r_tag t).
  { pose proof (rowwise_trans _ _ _ _ _ (update_at_rowwise t orig (remove_if_child0 i))
      (update_at_rowwise _ orig (remove_if_child1 i))) as R. eapply rowwise_tags; [exact R|]. intros m r'; cbn beta.
    unfold remove_if_child1, remove_if_child0.
    destruct (is_rid orig m), (is_rid (r_child0 r') i); cbn;
      match goal with |- context [if ?b then _ else _] => destruct b | _ => idtac end; reflexivity. }
  assert (T4 : map r_tag t4 = map r_tag t).
  { eapply rowwise_tags; [exact R4|]. intros m r'; now rewrite move_row_fields. }
  (* orig is the row of the parent *)
  assert (Horig : forall m u, nth_error (map r_tag t) m = Some u -> is_rid orig m = opt_is (parent n0) u).
  { intros m u Hm. rewrite Hn0; cbn [parent node_of]. unfold orig. pose proof (l_parent _ L i r Hi) as Lp.
    destruct (r_parent r) as [p|], (r_parent_rid r) as [a|]; try contradiction; [|reflexivity].
    cbn. destruct (Nat.eqb_spec a m) as [->|Ha].
    - assert (p = u) by congruence. subst; now rewrite teq_refl.
    - destruct (teq_spec p u) as [->|]; [|reflexivity]. exfalso; apply Ha. eapply tags_inj; eauto. }
  assert (KN : forall m rm, nth_error t m = Some rm -> NoDup (kids t rm)).
  { intros m rm Hm. destruct (proj2 (proj2 SO) (r_tag rm) _ (absn_get t m rm N Hm)) as [ND _]. exact ND. }
  assert (Krem : forall m rm, nth_error t m = Some rm ->
     kid t (rem (r_child1 rm) i) ++ kid t (rem (r_child0 rm) i) = remove1 k (kids t rm)).
  { intros m rm Hm. rewrite !(kid_rem t _ i k N Hti). unfold kids. symmetry; apply remove1_app. exact (KN m rm Hm). }
  (* the slots of the new parent *)
  pose proof (proj2 (proj2 (proj2 SO) q nq Hq)) as Cq. rewrite Hnq in Cq; cbn [children node_of] in Cq.
  assert (In0 : forall c, r_child0 rq = Some c -> exists x, nth_error (map r_tag t) c = Some x /\ In x (kids t rq) /\ r_base rq = Some x).
  { intros c Hc. destruct (l_child0 _ L j rq c Hj Hc) as [x [Hx Hb]]. exists x; split; [exact Hx|]. split; [|exact Hb].
    unfold kids. apply in_or_app; right. rewrite Hc; cbn. rewrite Hx; now left. }
  assert (In1 : forall c, r_child1 rq = Some c -> exists x, nth_error (map r_tag t) c = Some x /\ In x (kids t rq) /\ r_base rq <> Some x).
  { intros c Hc. destruct (l_child1 _ L j rq c Hj Hc) as [x [Hx Hb]]. exists x; split; [exact Hx|]. split; [|exact Hb].
    unfold kids. apply in_or_app; left. rewrite Hc; cbn. rewrite Hx; now left. }
  assert (Slots : if first then is_rid orig j = false /\ r_child0 rq = None
                  else r_child0 rq = None /\ (if is_rid orig j then rem (r_child1 rq) i else r_child1 rq) = None).
  { unfold slot_free in SF. rewrite Hn0, Hnq in SF; cbn [parent base node_of] in SF. unfold first.
    pose proof (l_parent _ L i r Hi) as Lp. 
    destruct (r_parent r) as [p|] eqn:Hp.
    - destruct SF as [Hb Hc]. split.
      + destruct (r_child0 rq) as [c|] eqn:H0; [|reflexivity]. destruct (In0 c eq_refl) as [x [Hx [Hin Hbx]]].
        apply Cq, Hc in Hin. congruence.
      + destruct (r_child1 rq) as [c|] eqn:H1; [|now destruct (is_rid orig j)].
        destruct (In1 c eq_refl) as [x [Hx [Hin _]]]. apply Cq in Hin as Hch. apply Hc in Hch; subst x.
        assert (c = i) by (eapply tags_inj; eauto); subst c.
        apply Cq in Hin as [nk [Hnk Hpk]]. rewrite Hk in Hnk; injection Hnk as <-.
        rewrite Hn0 in Hpk; cbn in Hpk. rewrite Hp in Hpk; injection Hpk as ->.
        unfold orig. destruct (r_parent_rid r) as [a|]; [|contradiction].
        assert (a = j) by (eapply tags_inj; eauto); subst a. cbn. rewrite Nat.eqb_refl. unfold rem; cbn. now rewrite Nat.eqb_refl.
    - destruct (r_parent_rid r) eqn:Ho; [contradiction|]. split; [unfold orig; try rewrite Ho; reflexivity|].
      destruct (r_child0 rq) as [c|] eqn:H0; [|reflexivity]. destruct (In0 c eq_refl) as [x [Hx [Hin Hbx]]].
      assert (x = k) by congruence; subst x. apply Cq in Hin as [nk [Hnk Hpk]]. rewrite Hk in Hnk; injection Hnk as <-.
      rewrite Hn0 in Hpk; cbn in Hpk. congruence. }
  assert (MT : moved_tree (absn t) (absn t4) k (parent n0) (Some q)).
  { split; [now rewrite !absn_keys|]. intros u. destruct (dget (absn t) u) as [n|] eqn:Hun.
    2:{ apply dget_None. rewrite absn_keys, T4, <- absn_keys. now apply dget_None. }
    destruct (absn_get' t u n N Hun) as [m [rm [Hm [Hru Hnm]]]]. rewrite <- Hru at 1.
    rewrite (rowwise_get t t4 _ m rm R4 N T4 Hm). f_equal. rewrite Hnm.
    assert (Hmu : nth_error (map r_tag t) m = Some u) by (rewrite (tag_at _ _ _ Hm); congruence).
    rewrite move_row_fields. unfold node_of, moved; cbn [r_parent r_height r_size r_base r_tag order_id parent children height size base opt_is].
    rewrite <- (Horig m u Hmu).
    assert (Eim : (i =? m) = teq k u).
    { destruct (Nat.eqb_spec i m) as [->|Him], (teq_spec k u) as [->|Hku]; try reflexivity; [congruence|].
      exfalso; apply Him; eapply tags_inj; eauto. }
    assert (Ejm : (j =? m) = teq q u).
    { destruct (Nat.eqb_spec j m) as [->|Him], (teq_spec q u) as [->|Hku]; try reflexivity; [congruence|].
      exfalso; apply Him; eapply tags_inj; eauto. }
    rewrite Eim, Ejm. f_equal.
    unfold kids at 1; cbn [r_child1 r_child0].
    destruct (teq_spec q u) as [<-|Hqu].
    - assert (m = j) by (eapply tags_inj; eauto); subst m. assert (rm = rq) by congruence; subst rm.
      destruct first; cbn [andb negb].
      + destruct Slots as [-> S0]. unfold kids. rewrite S0. cbn [kid]. rewrite Hti, app_nil_r; reflexivity.
      + destruct Slots as [S0 S1]. rewrite S0. cbn [kid]. rewrite Hti.
        assert (Hnil : (if is_rid orig j then remove1 k (kids t rq) else kids t rq) = []).
        { destruct (is_rid orig j) eqn:Ho.
          - rewrite <- (Krem j rq Hj), S0, S1; reflexivity.
          - unfold kids. rewrite S0, S1; reflexivity. }
        rewrite Hnil. unfold rem; cbn. now destruct (is_rid orig j).
    - cbn [andb]. destruct (is_rid orig m); [apply (Krem m rm Hm)|reflexivity]. }
  assert (L4 : linked t4).
  { split.
    - now rewrite T4.
    - intros m r' Hm. rewrite R4 in Hm. destruct (nth_error t m) as [rm|] eqn:Hrm; [|discriminate].
      cbn in Hm; injection Hm as <-. rewrite move_row_fields, T4; cbn. destruct (i =? m); [exact Htj|].
      exact (l_parent _ L m rm Hrm).
    - intros m r' c Hm. rewrite R4 in Hm. destruct (nth_error t m) as [rm|] eqn:Hrm; [|discriminate].
      cbn in Hm; injection Hm as <-. rewrite move_row_fields, T4; cbn.
      destruct ((j =? m) && first) eqn:Hf.
      + intros [= <-]. exists k; split; [exact Hti|]. apply andb_prop in Hf as [Hf1 Hf2].
        apply Nat.eqb_eq in Hf1; subst m. assert (rm = rq) by congruence; subst rm.
        unfold slot_free in SF. rewrite Hn0, Hnq in SF; cbn in SF. unfold first in Hf2.
        destruct (r_parent r); [discriminate|exact SF].
      + intros Hc. apply (l_child0 _ L m rm c Hrm). destruct (is_rid orig m); [|exact Hc].
        unfold rem in Hc. now destruct (is_rid (r_child0 rm) i).
    - intros m r' c Hm. rewrite R4 in Hm. destruct (nth_error t m) as [rm|] eqn:Hrm; [|discriminate].
      cbn in Hm; injection Hm as <-. rewrite move_row_fields, T4; cbn.
      destruct ((j =? m) && negb first) eqn:Hf.
      + intros [= <-]. exists k; split; [exact Hti|]. apply andb_prop in Hf as [Hf1 Hf2].
        apply Nat.eqb_eq in Hf1; subst m. assert (rm = rq) by congruence; subst rm.
        unfold slot_free in SF. rewrite Hn0, Hnq in SF; cbn in SF. unfold first in Hf2.
        destruct (r_parent r); [exact (proj1 SF)|discriminate].
      + intros Hc. apply (l_child1 _ L m rm c Hrm). destruct (is_rid orig m); [|exact Hc].
        unfold rem in Hc. now destruct (is_rid (r_child1 rm) i). }
  assert (SO4 : shape_ok (absn t4)).
  { eapply moved_shape; [exact SO|exact Hk|exact MT|]. exists lq; auto. }
  exists i, r, j. split; [exact Hi|]. split; [exact Hr|]. split; [exact Hn0|]. split; [exact Htj|].
  split; [exact MT|]. split; [exact L4|]. split; [exact SO4|]. split; [exact T4|].
  unfold d_change_parent. rewrite Hrow. fold orig. fold t2. rewrite (rid_of_ok t2 j q); [|now rewrite T2|now rewrite T2]. reflexivity.
Qed.
Theorem move_ok t s k q n0 nq lq : rep_db t s -> dget s k = Some n0 -> dget s q = Some nq ->
  up s q lq -> ~ In k lq -> slot_free s k n0 q nq ->
  exists t' s', d_change_parent k q t = (t', Ok tt) /\ rep_db t' s' /\ reparented s s' k q.
Proof.
  intros [-> [L T]] Hk Hq Hu Hn SF. pose proof T as [SO M]. pose proof (l_tags _ L) as N.
  destruct (move_steps t k q n0 nq lq L SO Hk Hq Hu Hn SF) as [i [r [j [Hi [Hr [Hn0 [Htj [MT [L4 [SO4 [T4 Hcp]]]]]]]]]]].
  set (t4 := moved_table t i r q j) in *. set (orig := r_parent_rid r) in *.
  (* one round of metrics *)
  assert (Upd : forall t0 m rm, linked t0 -> shape_ok (absn t0) -> map r_tag t0 = map r_tag t ->
     nth_error t0 m = Some rm -> exists t1, d_update_metrics (Some m) t0 = (t1, Ok tt) /\ linked t1 /\
     same_shape (absn t0) (absn t1) /\ map r_tag t1 = map r_tag t /\
     (forall u, metric_at (absn t0) u \/ u = r_tag rm -> metric_at (absn t1) u)).
  { intros t0 m rm L0 S0 Tt Hm. destruct (proj1 (proj2 S0) (r_tag rm)) as [l Hl].
    { rewrite (absn_get t0 m rm (l_tags _ L0) Hm); discriminate. }
    assert (Hlen : length l <= length t0) by (pose proof (up_length _ _ _ Hl) as Hx; now rewrite absn_length in Hx).
    destruct (update_metrics_ok (absn t0) (r_tag rm) l Hl S0 (length t0) Hlen) as [s1 [Hs1 [SS1 Hm1]]].
    destruct (update_sim (length t0) t0 m rm l s1 L0 Hm Hl Hlen Hs1) as [t1 [Hd [Ha [L1 Hrows]]]].
    exists t1. unfold d_update_metrics. rewrite Hd. split; [reflexivity|]. split; [exact L1|].
    split; [now rewrite Ha|]. split; [rewrite <- Tt; apply same_rows_absn; [apply L0|exact Hrows]|].
    intros u Hu'. rewrite Ha. apply Hm1. destruct Hu' as [Hu'| ->]; [now left|right].
    destruct (up_head _ _ _ Hl) as [l' ->]; now left. }
  assert (First : exists t5, d_update_metrics orig t4 = (t5, Ok tt) /\ linked t5 /\ same_shape (absn t4) (absn t5) /\
     map r_tag t5 = map r_tag t /\ (forall u, u <> q -> metric_at (absn t5) u)).
  { assert (Old : forall u, u <> q -> opt_is (parent n0) u = false -> metric_at (absn t4) u).
    { intros u Hu' Hp. eapply moved_metric; [exact MT|apply M|exact Hp|]. cbn. destruct (teq_spec q u); congruence. }
    destruct orig as [a|] eqn:Ho.
    - pose proof (l_parent _ L i r Hi) as Lp. fold orig in Lp. rewrite Ho in Lp.
      destruct (r_parent r) as [p|] eqn:Hp; [|contradiction].
      rewrite <- T4 in Lp. apply row_at in Lp as [ra [Hra Hpa]].
      destruct (Upd t4 a ra L4 SO4 T4 Hra) as [t5 [H1 [H2 [H3 [H4 H5]]]]].
      exists t5. split; [exact H1|]. split; [exact H2|]. split; [exact H3|]. split; [exact H4|].
      intros u Hu'. apply H5. destruct (teq_spec p u) as [<-|Hpu]; [now right|left].
      apply Old; [exact Hu'|]. rewrite Hn0; cbn. rewrite Hp; cbn. destruct (teq_spec p u); congruence.
    - exists t4. split; [unfold d_update_metrics; destruct (length t4); reflexivity|]. split; [exact L4|]. split; [apply same_shape_refl|]. split; [exact T4|].
      intros u Hu'. apply Old; [exact Hu'|]. rewrite Hn0; cbn. pose proof (l_parent _ L i r Hi) as Lp.
      fold orig in Lp. rewrite Ho in Lp. now destruct (r_parent r). }
  destruct First as [t5 [U5 [L5 [SS5 [T5 M5]]]]].
  assert (Htj5 : nth_error (map r_tag t5) j = Some q) by (now rewrite T5). apply row_at in Htj5 as [rq5 [Hrq5 Hq5]].
  assert (SO5 : shape_ok (absn t5)) by (eapply same_shape_ok; eauto).
  destruct (Upd t5 j rq5 L5 SO5 T5 Hrq5) as [t6 [U6 [L6 [SS6 [T6 M6]]]]].
  exists t6, (absn t6). split; [|split].
  - now rewrite Hcp, U5.
  - split; [reflexivity|]. split; [exact L6|]. split; [eapply same_shape_ok; eauto|].
    intros u. apply M6. destruct (teq_spec u q) as [->|Huq]; [right; congruence|left; now apply M5].
  - eapply moved_reparented; [exact MT|]. eapply same_shape_trans; eauto.
Qed.

(** * Adding *)
Lemma kid_app t x c : (match c with Some i => i < length t | None => True end) -> kid (t ++ [x]) c = kid t c.
Proof.
  destruct c as [i|]; [|reflexivity]. intros H. unfold kid. rewrite map_app, nth_error_app1; [reflexivity|].
  now rewrite map_length.
Qed.
Lemma abs_app t t' l x : (forall i r, nth_error l i = Some r -> kids t' r = kids t r) -> forall j,
  abs_from t' j (l ++ [x]) = abs_from t j l ++ [(r_tag x, node_of t' (j + length l) x)].
Proof.
  induction l as [|r l IH]; intros H j; cbn; [now rewrite Nat.add_0_r|].
  rewrite (IH (fun i => H (S i))). unfold node_of at 1. rewrite (H 0 r eq_refl).
  now rewrite Nat.add_succ_comm.
Qed.
Lemma dset_new (s : nodes K) k n : dget s k = None -> dset s k n = s ++ [(k, n)].
Proof.
  induction s as [|[k' v] s IH]; cbn; [reflexivity|]. destruct (teq k' k); [discriminate|]. intros H; now rewrite IH.
Qed.
Lemma db_add_steps t k b : linked t -> dget (absn t) k = None ->
  exists t', d_add k b t = (t', Ok tt) /\ fst (m_add k b (absn t)) = absn t' /\ linked t'.
Proof.
  intros L Hk. set (x := mkRow k None None None None 1 1 b).
  exists (t ++ [x]). split; [unfold d_add; now rewrite (row_of_none t k Hk)|].
  pose proof (l_tags _ L) as N.
  assert (Lt : forall c u, nth_error (map r_tag t) c = Some u -> c < length t).
  { intros c u H. rewrite <- (map_length (@r_tag K) t). apply nth_error_Some; congruence. }
  assert (A : absn (t ++ [x]) = fst (m_add k b (absn t))).
  { unfold m_add; cbn [fst]. rewrite (dset_new (absn t) k _ Hk). unfold absn at 1.
    rewrite (abs_app t (t ++ [x]) t x). { fold (absn t). now rewrite absn_length. }
    intros i r Hi. unfold kids. rewrite !kid_app; [reflexivity| |].
    - destruct (r_child0 r) as [c|] eqn:H0; [|exact I]. destruct (l_child0 _ L i r c Hi H0) as [u [Hu _]]; eauto.
    - destruct (r_child1 r) as [c|] eqn:H0; [|exact I]. destruct (l_child1 _ L i r c Hi H0) as [u [Hu _]]; eauto. }
  split; [now rewrite A|].
  assert (Old : forall c u, nth_error (map r_tag t) c = Some u -> nth_error (map r_tag (t ++ [x])) c = Some u).
  { intros c u H. rewrite map_app, nth_error_app1; [exact H|]. rewrite map_length; eauto. }
  assert (Rows : forall i r, nth_error (t ++ [x]) i = Some r -> nth_error t i = Some r \/ r = x).
  { intros i r H. destruct (Nat.lt_ge_cases i (length t)) as [Hi|Hi].
    - rewrite nth_error_app1 in H by exact Hi. now left.
    - rewrite nth_error_app2 in H by exact Hi. destruct (i - length t) as [|[|m]]; try discriminate. injection H as <-; now right. }
  split.
  - rewrite map_app. apply NoDup_app_intro; [exact N|repeat constructor; intros []|].
    intros y Hy [Hx|[]]. cbn in Hx; subst y. apply dget_None in Hk. rewrite absn_keys in Hk; contradiction.
  - intros i r H. destruct (Rows i r H) as [Hr| ->]; [|exact I]. pose proof (l_parent _ L i r Hr) as Lp.
    destruct (r_parent r), (r_parent_rid r); auto.
  - intros i r c H Hc. destruct (Rows i r H) as [Hr| ->]; [|discriminate].
    destruct (l_child0 _ L i r c Hr Hc) as [u [Hu Hb]]; eauto.
  - intros i r c H Hc. destruct (Rows i r H) as [Hr| ->]; [|discriminate].
    destruct (l_child1 _ L i r c Hr Hc) as [u [Hu Hb]]; eauto.
Qed.

Theorem db_add_ok t s k b : rep_db t s -> dget s k = None ->
  exists t', d_add k b t = (t', Ok tt) /\ rep_db t' (fst (m_add k b s)).
Proof.
  intros [-> [L T]] Hk. destruct (db_add_steps t k b L Hk) as [t' [Ha [Hs L']]].
  exists t'. split; [exact Ha|]. split; [exact Hs|]. split; [exact L'|]. now apply add_ok.
Qed.

(** * Paths *)
Lemma d_path_loop_ok t u l : linked t -> up (absn t) u l -> forall i fuel path, nth_error (map r_tag t) i = Some u ->
  length l <= fuel -> d_path_loop fuel t (Some i) path = Ok (path ++ l).
Proof.
  intros L Hu. pose proof (l_tags _ L) as N.
  induction Hu as [u n Hn Hp|u n q l Hn Hp Hu IH]; intros i fuel path Hi Hf;
    (destruct fuel as [|fuel]; [cbn in Hf; lia|]);
    apply row_at in Hi as [r [Hi Hr]]; rewrite <- Hr, (absn_get t i r N Hi) in Hn; injection Hn as <-;
    cbn in Hp; cbn [d_path_loop]; rewrite Hi; pose proof (l_parent _ L i r Hi) as Lp; rewrite Hp in Lp;
    destruct (r_parent_rid r) as [j|]; try contradiction; rewrite Hr.
  - destruct fuel; reflexivity.
  - rewrite (IH j fuel (path ++ [u]) Lp) by (cbn in Hf; lia). now rewrite <- app_assoc.
Qed.
Theorem db_path_ok t s k l : rep_low t s -> up s k l -> d_path_to t k = Ok (Some (rev l)).
Proof.
  intros [-> [L T]] Hu. pose proof (l_tags _ L) as N.
  destruct (dget (absn t) k) as [n|] eqn:Hk; [|now apply up_known in Hu].
  destruct (row_of_get t k n N Hk) as [i [r [Hi [Hr _]]]].
  assert (Hti : nth_error (map r_tag t) i = Some k) by (rewrite (tag_at _ _ _ Hi); congruence).
  unfold d_path_to. rewrite (rid_of_ok t i k N Hti).
  rewrite (d_path_loop_ok t k l L Hu i (length t) [] Hti); [reflexivity|].
  pose proof (up_length _ _ _ Hu) as Hx. now rewrite absn_length in Hx.
Qed.
Theorem db_nopath t s k : rep_low t s -> dget s k = None -> d_path_to t k = Ok (Some []).
Proof.
  intros [-> [L T]] Hk. unfold d_path_to. rewrite rid_of_none; [destruct (length t); reflexivity|].
  apply dget_None in Hk. now rewrite absn_keys in Hk.
Qed.

(** * Splits *)
Lemma slot_row_kid t c : map (fun p => r_tag (snd p)) (slot_row t c) = kid t c.
Proof.
  destruct c as [i|]; [|reflexivity]. unfold slot_row, kid. rewrite nth_error_map.
  now destruct (nth_error t i).
Qed.
Lemma slot_row_at t c p : In p (slot_row t c) -> nth_error t (fst p) = Some (snd p).
Proof.
  destruct c as [i|]; [|intros []]. unfold slot_row. destruct (nth_error t i) eqn:H; [|intros []].
  intros [<-|[]]; exact H.
Qed.
Lemma slot_row_short t c : length (slot_row t c) <= 1.
Proof. destruct c as [i|]; cbn; [destruct (nth_error t i); cbn; lia|lia]. Qed.
Lemma best_path_ok t r : kids t r <> [] -> exists j c, best_path t r = Some (j, c) /\ nth_error t j = Some c /\
  In (r_tag c) (kids t r) /\
  forall j' c', nth_error t j' = Some c' -> In (r_tag c') (kids t r) -> NoDup (map r_tag t) ->
    rank_le (r_height c', j') (r_height c, j).
Proof.
  intros Hne. unfold best_path.
  set (l := slot_row t (r_child0 r) ++ slot_row t (r_child1 r)).
  assert (Hin : forall u, In u (kids t r) <-> In u (map (fun p => r_tag (snd p)) l)).
  { intros u. unfold l, kids. rewrite map_app, !slot_row_kid, !in_app_iff. tauto. }
  assert (Hat : forall p, In p l -> nth_error t (fst p) = Some (snd p)).
  { intros p Hp. apply in_app_or in Hp as [Hp|Hp]; eapply slot_row_at; eauto. }
  assert (Hlen : length l <= 2).
  { unfold l. rewrite app_length. pose proof (slot_row_short t (r_child0 r)). pose proof (slot_row_short t (r_child1 r)). lia. }
  assert (Back : NoDup (map r_tag t) -> forall j' c', nth_error t j' = Some c' -> In (r_tag c') (kids t r) -> In (j', c') l).
  { intros N j' c' Hc' Hin'. apply Hin in Hin'. apply in_map_iff in Hin' as [[j2 c2] [Ht Hp]]. cbn in Ht.
    pose proof (Hat _ Hp) as H2; cbn in H2. assert (j' = j2).
    { eapply (tags_inj t j' j2 (r_tag c') N); [now apply tag_at|]. rewrite <- Ht; now apply tag_at. }
    subst j2. assert (c' = c2) by congruence. now subst. }
  clearbody l. destruct l as [|a [|b [|c l]]]; [| | |cbn in Hlen; lia].
  - exfalso. destruct (kids t r) as [|u l']; [now destruct Hne|]. destruct (proj1 (Hin u) (or_introl eq_refl)).
  - destruct a as [j c]. exists j, c. split; [reflexivity|]. split; [apply (Hat (j, c)); now left|].
    split; [apply Hin; now left|]. intros j' c' H1 H2 N. destruct (Back N j' c' H1 H2) as [[= <- <-]|[]]. apply rank_le_refl.
  - assert (Bet : forall p q : nat * row K, better p q = true -> rank_le (r_height (snd q), fst q) (r_height (snd p), fst p)).
    { intros p q. unfold better, rank_le; cbn. intros H. apply orb_prop in H as [H|H].
      - apply Nat.ltb_lt in H; now left.
      - apply andb_prop in H as [H1 H2]. apply Nat.eqb_eq in H1. apply Nat.ltb_lt in H2. right; lia. }
    assert (Bet' : forall p q : nat * row K, better p q = false -> rank_le (r_height (snd p), fst p) (r_height (snd q), fst q)).
    { intros p q. unfold better, rank_le; cbn. intros H. apply Bool.orb_false_iff in H as [H1 H2].
      apply Nat.ltb_ge in H1. apply Bool.andb_false_iff in H2 as [H2|H2].
      - apply Nat.eqb_neq in H2. left; lia.
      - apply Nat.ltb_ge in H2. destruct (Nat.eq_dec (r_height (snd p)) (r_height (snd q))); [right; lia|left; lia]. }
    destruct (better a b) eqn:Hb; [destruct a as [j c]|destruct b as [j c]]; exists j, c.
    + split; [reflexivity|]. split; [apply (Hat (j, c)); now left|].
      split; [apply Hin; now left|]. intros j' c' H1 H2 N.
      destruct (Back N j' c' H1 H2) as [[= <- <-]|[->|[]]]; [apply rank_le_refl|]. apply (Bet (j, c) (j', c') Hb).
    + split; [reflexivity|]. split; [apply (Hat (j, c)); right; now left|].
      split; [apply Hin; right; now left|]. intros j' c' H1 H2 N.
      destruct (Back N j' c' H1 H2) as [->|[[= <- <-]|[]]]; [|apply rank_le_refl]. apply (Bet' (j', c') (j, c) Hb).
Qed.
Lemma d_split_loop_ok t : linked t -> shape_ok (absn t) -> (forall u, low_at (absn t) u) -> forall fuel depth i r path,
  nth_error t i = Some r -> 1 <= depth -> (forall i r, nth_error t i = Some r -> r_height r <= fuel + depth) ->
  exists l, d_split_loop fuel depth t (r_tag r) r path = Ok (last l (r_tag r), path ++ tl l) /\
    split_way (absn t) depth (r_tag r) l.
Proof.
  intros L SO M; pose proof SO as [_ [F C]]. pose proof (l_tags _ L) as N.
  induction fuel as [|fuel IH]; intros depth i r path Hi H1 Hf; cbn [d_split_loop];
    pose proof (absn_get t i r N Hi) as Hn; pose proof (Hf i r Hi) as Hfi.
  - rewrite (proj2 (Nat.ltb_ge _ _)) by lia. exists [r_tag r]; cbn; rewrite app_nil_r. split; [reflexivity|].
    eapply way_stop; [exact Hn|cbn; lia].
  - destruct (depth <? r_height r) eqn:Hd.
    2: { apply Nat.ltb_ge in Hd. exists [r_tag r]; cbn; rewrite app_nil_r. split; [reflexivity|]. eapply way_stop; eauto. }
    apply Nat.ltb_lt in Hd.     destruct (C _ _ Hn) as [_ Cc]. cbn [children node_of] in Cc.
    destruct (best_path_ok t r) as [j [c [Hb [Hc [Hin Hmax]]]]].
    { destruct (M _ _ Hn) as [Hh|[c [m [Hc [Hp _]]]]]; [cbn in Hh; lia|].
      intros Q. assert (Hin : In c (kids t r)) by (apply Cc; exists m; auto). rewrite Q in Hin; destruct Hin. }
    rewrite Hb. pose proof (absn_get t j c N Hc) as Hnc.
    assert (BC : best_child (absn t) (r_tag r) (r_tag c)).
    { exists (node_of t j c). split; [exact Hnc|]. pose proof Hin as Hin'. apply Cc in Hin' as [m [Hm' Hp]].
      assert (m = node_of t j c) by congruence; subst m. split; [exact Hp|].
      intros u n' Hu Hp'. destruct (absn_get' t u n' N Hu) as [j' [c' [Hc' [Hu' ->]]]].
      unfold rank; cbn. apply Hmax; [exact Hc'| |exact N]. rewrite Hu'. apply Cc. exists (node_of t j' c'); auto. }
    destruct (IH (S depth) j c (path ++ [r_tag c]) Hc) as [l [Hl Hw]]; [lia|intros i' r' Hi'; specialize (Hf i' r' Hi'); lia|].
    assert (Hl' : exists l', l = r_tag c :: l') by (inversion Hw; subst; eauto). destruct Hl' as [l' ->].
    exists (r_tag r :: r_tag c :: l'). split; [|eapply way_go; eauto].
    rewrite Hl. cbn [tl]. rewrite <- app_assoc; cbn [app]. f_equal. f_equal.
    change (last (r_tag r :: r_tag c :: l') (r_tag r)) with (last (r_tag c :: l') (r_tag r)).
    apply last_dflt.
Qed.
Lemma max_row_height t i r : nth_error t i = Some r -> r_height r <= fold_right Nat.max 0 (map r_height t).
Proof.
  revert i; induction t as [|x t IH]; intros [|i] H; cbn in *; try discriminate.
  - injection H as ->; lia.
  - apply IH in H; lia.
Qed.
Theorem db_split_ok t s k n : rep_low t s -> dget s k = Some n ->
  exists p, d_get_split t k = Ok (last p k, p) /\ split_way s 1 k p.
Proof.
  intros [-> [L [SO M]]] Hk. pose proof (l_tags _ L) as N.
  destruct (row_of_get t k n N Hk) as [i [r [Hi [Hr [_ Hrow]]]]]. unfold d_get_split. rewrite Hrow. subst k.
  destruct (d_split_loop_ok t L SO M (fold_right Nat.max 0 (map r_height t)) 1 i r [r_tag r] Hi) as [l [Hl Hw]]; [lia| |].
  { intros i' r' Hi'. pose proof (max_row_height t i' r' Hi'); lia. }
  exists l; split; [|exact Hw]. rewrite Hl. inversion Hw; subst; reflexivity.
Qed.

Definition db_law : tree_law (db_tree K).
Proof.
  refine (@Build_tree_law K E (db_tree K) rep_db False True _ _ _ _ _ _ _ _ _ _); cbn.
  - intros t s [_ [_ [T _]]]; exact T.
  - split; [reflexivity|]. split; [|apply empty_ok]. split; cbn; [constructor| | |]; intros [|i]; discriminate.
  - intros t s k [-> [L _]]. unfold d_contains, dmem. destruct (dget (absn t) k) as [n|] eqn:Hk.
    + destruct (row_of_get t k n (l_tags _ L) Hk) as [i [r [_ [_ [_ ->]]]]]. reflexivity.
    + now rewrite (row_of_none t k Hk).
  - intros t s k n [-> [L _]] Hk. unfold d_base_version.
    destruct (row_of_get t k n (l_tags _ L) Hk) as [i [r [_ [_ [-> ->]]]]]. reflexivity.
  - intros t s k l R Hu. apply db_path_ok with s; [now apply rep_db_low|exact Hu].
  - intros t s k R Hk. right. apply db_nopath with s; [now apply rep_db_low|exact Hk].
  - intros t s k b R Hk. now apply db_add_ok.
  - intros t s k q n0 nq lq R H1 H2 H3 H4 [[]|H5]. now apply (move_ok t s k q n0 nq lq).
  - intros t s k n R Hk. destruct (db_split_ok t s k n) as [p [Hp W]]; [now apply rep_db_low|exact Hk|].
    exists p. split; [exact Hp|]. split; [now apply split_way_down in W|auto].
  - intros t s k [-> [L _]] Hk. exists TypeError. unfold d_get_split. now rewrite (row_of_none t k Hk).
Defined.
#[global] Instance db_exact : Exact (TR := db_tree K) db_law.
Proof. split; [intros t s [_ [_ T]]; exact T|exact I]. Qed.
End P.

(** * DBCollection *)
Section C.
Context {K V : Type} {E : Teq K} {O : TeqOk K}.
Implicit Type t : rows (K := K) (V := V).

Lemma select_none t k : select t k = None <-> ~ In k (map fst t).
Proof.
  unfold select. induction t as [|[k' v] t IH]; cbn; [tauto|].
  destruct (teq_spec k' k) as [->|Hk]; [split; [discriminate|intros H; exfalso; tauto]|].
  rewrite IH; cbn; tauto.
Qed.
Lemma select_some t k v : NoDup (map fst t) -> (select t k = Some v <-> In (k, v) t).
Proof.
  unfold select. induction t as [|[k' v'] t IH]; cbn; intros N; [split; [discriminate|tauto]|].
  inversion N as [|? ? N1 N2]; subst. destruct (teq_spec k' k) as [->|Hk].
  - split; [intros [= ->]; now left|]. intros [H|H]; [congruence|]. exfalso; apply N1. apply (in_map fst) in H; exact H.
  - rewrite (IH N2). split; [now right|]. intros [H|H]; [congruence|exact H].
Qed.
Lemma select_perm t t' k : NoDup (map fst t) -> (forall p, In p t <-> In p t') -> NoDup (map fst t') ->
  select t k = select t' k.
Proof.
  intros N H N'. destruct (select t k) as [v|] eqn:Hs.
  - symmetry. apply select_some; [exact N'|]. apply H. now apply select_some.
  - symmetry. apply select_none. apply select_none in Hs. intros Hin. apply Hs.
    apply in_map_iff in Hin as [p [<- Hp]]. apply in_map, H, Hp.
Qed.
Lemma select_dget t k : NoDup (map fst t) -> select t k = dget t k.
Proof.
  intros N. destruct (dget t k) as [v|] eqn:H.
  - apply select_some; [exact N|]. now apply dget_In.
  - apply select_none. now apply dget_None.
Qed.
End C.
