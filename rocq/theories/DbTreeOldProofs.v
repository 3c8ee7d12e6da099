(** [old_get_split] gives what [get_split] gives, on every table that represents a
    tree of nodes. *)
From Coq Require Import Lia ZArith.
From Verif Require Import Base Changesets Serialize Tokenizers SpecTokenizers Tree SpecTree TreeProofs TreeExact
  Versions SpecVersions VersionsInv VersionsProofs DbTree DbTreeProofs SpecDb DbVersions DbTreeOld.
Local Open Scope nat_scope.

Section P.
Context {K : Type} {E : Teq K} {O : TeqOk K}.
Implicit Type t : table K.

Definition rk (p : nat * row K) : nat * nat := (r_height (snd p), fst p).
Lemma better_true (p q : nat * row K) : better p q = true -> rank_le (rk q) (rk p).
Proof.
  unfold better, rank_le, rk; cbn. intros H. apply orb_prop in H as [H|H].
  - apply Nat.ltb_lt in H; now left.
  - apply andb_prop in H as [H1 H2]. apply Nat.eqb_eq in H1. apply Nat.ltb_lt in H2. right; lia.
Qed.
Lemma better_false (p q : nat * row K) : better p q = false -> rank_le (rk p) (rk q).
Proof.
  unfold better, rank_le, rk; cbn. intros H. apply Bool.orb_false_iff in H as [H1 H2].
  apply Nat.ltb_ge in H1. apply Bool.andb_false_iff in H2 as [H2|H2].
  - apply Nat.eqb_neq in H2. left; lia.
  - apply Nat.ltb_ge in H2. destruct (Nat.eq_dec (r_height (snd p)) (r_height (snd q))); [right; lia|left; lia].
Qed.
Lemma rank_trans (a b c : nat * nat) : rank_le a b -> rank_le b c -> rank_le a c.
Proof. unfold rank_le; lia. Qed.

Lemma is_rid_eq c i : is_rid c i = true <-> c = Some i.
Proof.
  destruct c as [j|]; cbn; [rewrite Nat.eqb_eq|]; split; intros H; try discriminate; [now subst|now injection H].
Qed.

(** the candidates seen so far *)
Lemma old_best_from_ok t rid : forall l i best,
  (forall j r, nth_error l j = Some r -> nth_error t (i + j) = Some r) ->
  match best with
  | None => forall j r, j < i -> nth_error t j = Some r -> r_parent_rid r <> Some rid
  | Some b => fst b < i /\ nth_error t (fst b) = Some (snd b) /\ r_parent_rid (snd b) = Some rid /\
      forall j r, j < i -> nth_error t j = Some r -> r_parent_rid r = Some rid -> rank_le (rk (j, r)) (rk b)
  end -> length t = i + length l ->
  match old_best_from i l rid best with
  | None => forall j r, nth_error t j = Some r -> r_parent_rid r <> Some rid
  | Some b => nth_error t (fst b) = Some (snd b) /\ r_parent_rid (snd b) = Some rid /\
      forall j r, nth_error t j = Some r -> r_parent_rid r = Some rid -> rank_le (rk (j, r)) (rk b)
  end.
Proof.
  induction l as [|x l IH]; intros i best Hl Hb Hlen; cbn [old_best_from].
  - cbn in Hlen. assert (Hi : forall j r, nth_error t j = Some r -> j < i).
    { intros j r H. assert (nth_error t j <> None) by congruence. apply nth_error_Some in H0. lia. }
    destruct best as [b|].
    + destruct Hb as [_ [H1 [H2 H3]]]. split; [exact H1|]. split; [exact H2|]. intros j r H. apply H3; eauto.
    + intros j r H. apply Hb with j; eauto.
  - pose proof (Hl 0 x eq_refl) as Hx. rewrite Nat.add_0_r in Hx.
    apply IH; [|clear IH|cbn in Hlen; lia].
    { intros j r H. replace (S i + j) with (i + S j) by lia. now apply Hl. }
    destruct (is_rid (r_parent_rid x) rid) eqn:Hr.
    + apply is_rid_eq in Hr. destruct best as [b|].
      * destruct Hb as [Hb0 [H1 [H2 H3]]]. destruct (better (i, x) b) eqn:Hbt; cbn [fst snd].
        -- split; [lia|]. split; [exact Hx|]. split; [exact Hr|]. intros j r Hj H Hp.
           destruct (Nat.eq_dec j i) as [->|Hne].
           ++ assert (r = x) by congruence; subst r. right; cbn; lia.
           ++ eapply rank_trans; [apply H3; [lia|exact H|exact Hp]|]. now apply better_true.
        -- split; [lia|]. split; [exact H1|]. split; [exact H2|]. intros j r Hj H Hp.
           destruct (Nat.eq_dec j i) as [->|Hne].
           ++ assert (r = x) by congruence; subst r. now apply better_false.
           ++ apply H3; [lia|exact H|exact Hp].
      * cbn [fst snd]. split; [lia|]. split; [exact Hx|]. split; [exact Hr|]. intros j r Hj H Hp.
        destruct (Nat.eq_dec j i) as [->|Hne].
        -- assert (r = x) by congruence; subst r. right; cbn; lia.
        -- exfalso. apply (Hb j r); [lia|exact H|exact Hp].
    + assert (Hn : r_parent_rid x <> Some rid) by (intros Q; apply is_rid_eq in Q; congruence).
      destruct best as [b|].
      * destruct Hb as [Hb0 [H1 [H2 H3]]]. split; [lia|]. split; [exact H1|]. split; [exact H2|]. intros j r Hj H Hp.
        destruct (Nat.eq_dec j i) as [->|Hne]; [congruence|]. apply H3; [lia|exact H|exact Hp].
      * intros j r Hj H. destruct (Nat.eq_dec j i) as [->|Hne]; [congruence|]. apply (Hb j); [lia|exact H].
Qed.
Lemma old_best_path_ok t rid :
  match old_best_path t rid with
  | None => forall j r, nth_error t j = Some r -> r_parent_rid r <> Some rid
  | Some b => nth_error t (fst b) = Some (snd b) /\ r_parent_rid (snd b) = Some rid /\
      forall j r, nth_error t j = Some r -> r_parent_rid r = Some rid -> rank_le (rk (j, r)) (rk b)
  end.
Proof.
  unfold old_best_path. apply old_best_from_ok; [now intros|intros; lia|reflexivity].
Qed.

(** below which row a row hangs *)
Lemma parent_rid_iff t i r j c : linked t -> nth_error t i = Some r -> nth_error t j = Some c ->
  (r_parent_rid c = Some i <-> r_parent c = Some (r_tag r)).
Proof.
  intros L Hi Hj. pose proof (l_parent _ L j c Hj) as Hp. pose proof (l_tags _ L) as N.
  destruct (r_parent c) as [q|], (r_parent_rid c) as [m|]; try contradiction; [|split; discriminate].
  split; intros [= ->].
  - rewrite (tag_at t i r Hi) in Hp. congruence.
  - f_equal. eapply tags_inj; [exact N|exact Hp|]. now apply tag_at.
Qed.
Lemma best_same t i r : linked t -> tree_ok (absn t) -> nth_error t i = Some r ->
  old_best_path t i = best_path t r.
Proof.
  intros L T Hi. pose proof T as [SO M]; pose proof SO as [_ [F C]]. pose proof (l_tags _ L) as N.
  pose proof (absn_get t i r N Hi) as Hn. destruct (C _ _ Hn) as [_ Cc]. cbn [children node_of] in Cc.
  assert (Kid : forall j c, nth_error t j = Some c -> (r_parent_rid c = Some i <-> In (r_tag c) (kids t r))).
  { intros j c Hj. rewrite (parent_rid_iff t i r j c L Hi Hj), Cc. pose proof (absn_get t j c N Hj) as Hc. split.
    - intros Hp. exists (node_of t j c); auto.
    - intros [m [Hm Hp]]. assert (m = node_of t j c) by congruence. now subst m. }
  pose proof (old_best_path_ok t i) as Old. destruct (kids t r) as [|u l] eqn:Hk.
  - assert (best_path t r = None) as ->.
    { unfold best_path. destruct (slot_row t (r_child0 r) ++ slot_row t (r_child1 r)) as [|p ps] eqn:Hs; [reflexivity|].
      exfalso. assert (Hp : In (r_tag (snd p)) (kids t r)).
      { unfold kids. rewrite <- !slot_row_kid, in_app_iff, <- !(in_app_iff), <- map_app.
        apply (in_map (fun p => r_tag (snd p)) _ p). apply in_or_app.
        assert (H : In p (slot_row t (r_child0 r) ++ slot_row t (r_child1 r))) by (rewrite Hs; now left).
        apply in_app_or in H. tauto. }
      rewrite Hk in Hp. exact Hp. }
    destruct (old_best_path t i) as [[j c]|]; [|reflexivity]. destruct Old as [H1 [H2 _]]; cbn in H1, H2.
    apply (Kid j c H1) in H2. destruct H2.
  - destruct (best_path_ok t r) as [j [c [-> [Hc [Hin Hmax]]]]]; [rewrite Hk; discriminate|].
    rewrite Hk in Hin, Hmax. apply (Kid j c Hc) in Hin.
    destruct (old_best_path t i) as [[j' c']|]; [|exfalso; now apply (Old j c)].
    destruct Old as [H1 [H2 H3]]; cbn in H1, H2. specialize (H3 j c Hc Hin).
    assert (H4 := Hmax j' c' H1 (proj1 (Kid j' c' H1) H2) N). unfold rk, rank_le in H3, H4; cbn in H3, H4.
    assert (j' = j) by lia. subst j'. f_equal. congruence.
Qed.
Lemma old_loop_same t : linked t -> tree_ok (absn t) -> forall fuel depth i r tag path,
  nth_error t i = Some r ->
  d_old_split_loop fuel depth t tag i (r_height r) path = d_split_loop fuel depth t tag r path.
Proof.
  intros L T. induction fuel as [|fuel IH]; intros depth i r tag path Hi; cbn [d_old_split_loop d_split_loop];
    destruct (depth <? r_height r); try reflexivity.
  pose proof (old_best_path_ok t i) as Old. rewrite (best_same t i r L T Hi) in *.
  destruct (best_path t r) as [[j c]|]; [|reflexivity]. destruct Old as [Hj _]; cbn in Hj. now apply IH.
Qed.
Theorem old_split_same t s : rep_db t s -> forall k, d_old_get_split t k = d_get_split t k.
Proof.
  intros [-> [L T]] k. unfold d_old_get_split, d_get_split. destruct (row_of t k) as [[i r]|] eqn:Hr; [|reflexivity].
  apply old_loop_same; try assumption. unfold row_of in Hr. destruct (rid_of t k) as [i'|]; [|discriminate].
  destruct (nth_error t i') eqn:Hi; [|discriminate]. now injection Hr as <- <-.
Qed.

Theorem protocol_old_same l : always sensible l -> always slots_do l -> forall k,
  d_old_get_split (tree_run (db_tree K) l) k = d_get_split (tree_run (db_tree K) l) k.
Proof.
  intros H1 H2 k. destruct (protocol_alike l (conj H1 H2)) as [_ [_ [_ D]]]. exact (old_split_same _ _ D k).
Qed.
End P.

Section V.
Context {K : Type} {E : Teq K} {O : TeqOk K}.
Variable re_w : Z -> bool.
Variable tk : tkind.

Theorem versions_old_same place1 place2 h : tk <> KLine -> fresh tk h -> forall k,
  d_old_get_split (tree (run re_w tk (db_store K place1) (db_store K place2) (db_tree K) v_empty h)) k =
  d_get_split (tree (run re_w tk (db_store K place1) (db_store K place2) (db_tree K) v_empty h)) k.
Proof.
  intros Hk F k. destruct (hist_ok re_w tk (db_store K place1) (db_store K place2) (db_tree K)
    (db_store_law place1) (db_store_law place2) db_law h Hk F) as [s I].
  exact (old_split_same _ _ (c_rep _ _ _ _ _ _ _ _ _ _ _ _ (h_core _ _ _ _ _ _ _ _ _ _ _ I)) k).
Qed.
Theorem versions_old_memory place1 place2 h : tk <> KLine -> fresh tk h -> forall k, added h k ->
  d_old_get_split (tree (run re_w tk (db_store K place1) (db_store K place2) (db_tree K) v_empty h)) k =
  m_get_split (tree (run re_w tk (dict_store K) (dict_store K) (memory_tree K) v_empty h)) k.
Proof.
  intros Hk F k Ha. rewrite (versions_old_same place1 place2 h Hk F).
  destruct (both_interchangeable re_w tk place1 place2 h k Hk F) as [_ H]. symmetry. apply (H Ha).
Qed.
End V.
