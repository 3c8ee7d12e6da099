(** The commits of an add on a database (C127). *)
From Coq Require Import ZArith Lia.
From Verif Require Import Base SpecSeq Changesets Serialize Tokenizers SpecTokenizers TokenizersProofs Tree SpecTree TreeProofs
  Versions SpecVersions VersionsInv VersionsProofs VersionsMore DbTree DbTreeProofs DbTreeMore DbLoose SpecInterrupted
  InterruptedProofs DbCommits SpecCommits.

(** * Tables *)
Section Table.
Context {K : Type} {E : Teq K} {O : TeqOk K}.
Implicit Type t : table K.

(** the same but for the metrics *)
Definition same_rows t t' : Prop :=
  forall j, option_map (set_row_metrics 0 0) (nth_error t' j) = option_map (set_row_metrics 0 0) (nth_error t j).
Lemma same_rows_refl t : same_rows t t.
Proof. intros j; reflexivity. Qed.
Lemma same_rows_sym t t' : same_rows t t' -> same_rows t' t.
Proof. intros H j; now rewrite H. Qed.
Lemma same_rows_trans t1 t2 t3 : same_rows t1 t2 -> same_rows t2 t3 -> same_rows t1 t3.
Proof. intros H1 H2 j; now rewrite H2, H1. Qed.
Lemma same_rows_get t t' j r : same_rows t t' -> nth_error t j = Some r ->
  exists r', nth_error t' j = Some r' /\ r_tag r' = r_tag r /\ r_parent r' = r_parent r /\ r_parent_rid r' = r_parent_rid r /\
    r_child0 r' = r_child0 r /\ r_child1 r' = r_child1 r /\ r_base r' = r_base r.
Proof.
  intros H Hr. specialize (H j). rewrite Hr in H. destruct (nth_error t' j) as [r'|]; [|discriminate]. exists r'. split; [reflexivity|].
  injection H; intros; repeat split; congruence.
Qed.
Lemma same_rows_tags t t' : same_rows t t' -> map r_tag t' = map r_tag t.
Proof.
  intros H. apply nth_error_ext_local; intros j. rewrite !nth_error_map. specialize (H j).
  destruct (nth_error t' j), (nth_error t j); try discriminate; [|reflexivity].
  injection H as ? _ _ _ _ _; cbn; congruence.
Qed.
Lemma same_rows_length t t' : same_rows t t' -> length t' = length t.
Proof. intros H. apply same_rows_tags in H. now rewrite <- (map_length (@r_tag K) t'), H, map_length. Qed.
Lemma same_rows_linked t t' : same_rows t t' -> linked t -> linked t'.
Proof.
  intros H L. pose proof (same_rows_tags _ _ H) as T. pose proof (same_rows_sym _ _ H) as H'. split.
  - rewrite T; apply L.
  - intros i r Hr. destruct (same_rows_get _ _ _ _ H' Hr) as [r' [Hr' [_ [<- [<- _]]]]]. rewrite T. now apply (l_parent _ L i).
  - intros i r c Hr. destruct (same_rows_get _ _ _ _ H' Hr) as [r' [Hr' [_ [_ [_ [<- [_ <-]]]]]]]. rewrite T. now apply (l_child0 _ L i).
  - intros i r c Hr. destruct (same_rows_get _ _ _ _ H' Hr) as [r' [Hr' [_ [_ [_ [_ [<- <-]]]]]]]. rewrite T. now apply (l_child1 _ L i).
Qed.
Lemma same_rows_node t t' i r r' : map r_tag t' = map r_tag t -> r_tag r' = r_tag r -> r_parent r' = r_parent r ->
  r_child0 r' = r_child0 r -> r_child1 r' = r_child1 r -> r_base r' = r_base r ->
  same_but_metrics (node_of t i r) (node_of t' i r').
Proof.
  intros T H1 H2 H3 H4 H5. unfold same_but_metrics, node_of; cbn. rewrite (kids_tags t t' r' T). unfold kids. rewrite H2, H3, H4, H5. auto.
Qed.
Lemma same_rows_shape t t' : same_rows t t' -> NoDup (map r_tag t) -> same_shape (absn t) (absn t').
Proof.
  intros H N. pose proof (same_rows_tags _ _ H) as T. split; [now rewrite !absn_keys|].
  assert (N' : NoDup (map r_tag t')) by now rewrite T.
  intros k. destruct (dget (absn t) k) as [n|] eqn:Hn.
  - destruct (absn_get' t k n N Hn) as [i [r [Hi [Hk ->]]]].
    destruct (same_rows_get _ _ _ _ H Hi) as [r' [Hr' [A [B [C [D [G I]]]]]]].
    assert (Hk' : r_tag r' = k) by congruence. rewrite <- Hk', (absn_get t' i r' N' Hr'). now apply same_rows_node.
  - destruct (dget (absn t') k) as [n|] eqn:Hn'; [|exact I]. destruct (absn_get' t' k n N' Hn') as [i [r [Hi [Hk _]]]].
    destruct (same_rows_get _ _ _ _ (same_rows_sym _ _ H) Hi) as [r' [Hr' [A _]]].
    assert (Hk' : r_tag r' = k) by congruence. rewrite <- Hk', (absn_get t i r' N Hr') in Hn. discriminate.
Qed.
Lemma rid_from_tags t t' k : map r_tag t' = map r_tag t -> forall i, rid_from i t' k = rid_from i t k.
Proof.
  revert t'; induction t as [|r t IH]; intros [|r' t'] H i; cbn in *; try discriminate; [reflexivity|].
  injection H as H1 H2. rewrite H1. destruct (teq _ _); [reflexivity|]. now apply IH.
Qed.
Lemma rid_of_tags t t' k : map r_tag t' = map r_tag t -> rid_of t' k = rid_of t k.
Proof. intros H. now apply rid_from_tags. Qed.
Lemma same_rows_path t t' k : same_rows t t' -> d_path_to t' k = d_path_to t k.
Proof.
  intros H. unfold d_path_to. rewrite (rid_of_tags _ _ k (same_rows_tags _ _ H)), (same_rows_length _ _ H).
  assert (L : forall fuel rid path, d_path_loop fuel t' rid path = d_path_loop fuel t rid path).
  { induction fuel as [|fuel IH]; intros [i|] path; cbn; auto; pose proof (same_rows_get t t' i) as G; specialize (H i) as Hi.
    - destruct (nth_error t i), (nth_error t' i); try discriminate; reflexivity.
    - destruct (nth_error t i) as [r|]; [|destruct (nth_error t' i); [discriminate|reflexivity]].
      destruct (G r H eq_refl) as [r' [-> [-> [_ [-> _]]]]]. apply IH. }
  now rewrite L.
Qed.
Lemma same_rows_contains t t' k : same_rows t t' -> d_contains t' k = d_contains t k.
Proof.
  intros H. unfold d_contains, row_of. rewrite (rid_of_tags _ _ k (same_rows_tags _ _ H)).
  destruct (rid_of t k) as [i|]; [|reflexivity]. specialize (H i).
  destruct (nth_error t i), (nth_error t' i); try discriminate; reflexivity.
Qed.
Lemma d_update_loop_rows fuel : forall rid t t', d_update_loop fuel rid t = Ok t' -> same_rows t t'.
Proof.
  induction fuel as [|fuel IH]; intros [i|] t t' H; cbn in H; try (injection H as <-; apply same_rows_refl);
    destruct (nth_error t i) as [r|] eqn:Hr; try discriminate.
  destruct (node_metrics t r) as [h z]. apply IH in H. eapply same_rows_trans; [|exact H].
  intros j. rewrite nth_error_lupd. destruct (i =? j); [|reflexivity]. now destruct (nth_error t j).
Qed.
Lemma d_update_rows rid t t' : d_update_metrics rid t = (t', Ok tt) -> same_rows t t'.
Proof.
  unfold d_update_metrics. destruct (d_update_loop _ _ _) as [t1|] eqn:H; [|discriminate].
  intros [= <-]. eapply d_update_loop_rows; eauto.
Qed.

(** the commits end as the call does *)
Lemma commits_result k q t : snd (d_change_parent_commits k q t) = d_change_parent k q t.
Proof.
  unfold d_change_parent_commits, d_change_parent. destruct (row_of t k) as [[i r]|]; [|reflexivity].
  destruct (rid_of _ q) as [j|]; [|reflexivity].
  destruct (d_update_metrics _ _) as [t5 [[]|e]]; [|reflexivity].
  destruct (d_update_metrics (Some j) t5) as [t6 [[]|e]]; reflexivity.
Qed.
Lemma commits_three k q t l t6 : d_change_parent_commits k q t = (l, (t6, Ok tt)) ->
  exists i r j t5, let t4 := moved_table t i r q j in
    l = [t4; t5; t6] /\ row_of t k = Some (i, r) /\ d_update_metrics (r_parent_rid r) t4 = (t5, Ok tt) /\
    d_update_metrics (Some j) t5 = (t6, Ok tt).
Proof.
  unfold d_change_parent_commits. destruct (row_of t k) as [[i r]|]; [|discriminate].
  destruct (rid_of _ q) as [j|]; [|discriminate].
  destruct (d_update_metrics _ _) as [t5 [[]|e]] eqn:H5; [|discriminate].
  destruct (d_update_metrics (Some j) t5) as [t6' [[]|e]] eqn:H6; [|discriminate].
  intros [= <- <-]. exists i, r, j, t5. repeat split; assumption.
Qed.
Lemma moved_rows t i r q j m : option_map (fun x => (r_tag x, r_height x, r_parent x)) (nth_error (moved_table t i r q j) m) =
  option_map (fun x => (r_tag x, r_height x, if i =? m then Some q else r_parent x)) (nth_error t m).
Proof.
  unfold moved_table. rewrite !nth_error_lupd.
  assert (U : forall c f t0, (forall x, (r_tag (f x), r_height (f x), r_parent (f x)) = (r_tag x, r_height x, r_parent x)) ->
    forall m, option_map (fun x => (r_tag x, r_height x, r_parent x)) (nth_error (update_at c f t0) m) =
      option_map (fun x => (r_tag x, r_height x, r_parent x)) (nth_error t0 m)).
  { intros [c|] f t0 Hf m0; [|reflexivity]. cbn [update_at]. rewrite nth_error_lupd. destruct (c =? m0); [|reflexivity].
    destruct (nth_error t0 m0); cbn; [now rewrite Hf|reflexivity]. }
  set (t2 := update_at _ _ _).
  assert (H2 : option_map (fun x => (r_tag x, r_height x, r_parent x)) (nth_error t2 m) =
    option_map (fun x => (r_tag x, r_height x, r_parent x)) (nth_error t m)).
  { unfold t2. rewrite !U; [reflexivity| |]; intros x; [unfold remove_if_child0|unfold remove_if_child1]; destruct (is_rid _ _); reflexivity. }
  destruct (nth_error t2 m) as [x|], (nth_error t m) as [y|]; try discriminate; [|destruct (j =? m), (i =? m); reflexivity].
  cbn in H2; injection H2 as A B C.
  destruct (r_parent r), (j =? m), (i =? m); cbn; congruence.
Qed.
Lemma moved_tags t i r q j : map r_tag (moved_table t i r q j) = map r_tag t.
Proof.
  apply nth_error_ext_local; intros m. rewrite !nth_error_map. pose proof (moved_rows t i r q j m) as H.
  destruct (nth_error (moved_table t i r q j) m), (nth_error t m); cbn in *; congruence.
Qed.
(** the parent afterwards *)
Lemma commits_parent k q t l t6 i r : d_change_parent_commits k q t = (l, (t6, Ok tt)) -> row_of t6 k = Some (i, r) -> r_parent r = Some q.
Proof.
  intros H Hr. destruct (commits_three _ _ _ _ _ H) as [i0 [r0 [j [t5 [_ [H0 [H5 H6]]]]]]].
  set (t4 := moved_table t i0 r0 q j) in *.
  pose proof (same_rows_trans _ _ _ (d_update_rows _ _ _ H5) (d_update_rows _ _ _ H6)) as S.
  unfold row_of in H0, Hr. rewrite (rid_of_tags t4 t6 k (same_rows_tags _ _ S)) in Hr.
  unfold t4 in Hr at 1. rewrite (rid_of_tags t _ k (moved_tags t i0 r0 q j)) in Hr.
  destruct (rid_of t k) as [i1|]; [|discriminate]. destruct (nth_error t i1) as [r1|] eqn:Hr1; [|discriminate].
  injection H0 as -> ->. destruct (nth_error t6 i0) as [r6|] eqn:Hr6; [|discriminate]. injection Hr as <- <-.
  destruct (same_rows_get _ _ _ _ (same_rows_sym _ _ S) Hr6) as [r4 [Hr4 [_ [Hp _]]]].
  pose proof (moved_rows t i0 r0 q j i0) as M. fold t4 in M. rewrite Hr4, Hr1, Nat.eqb_refl in M. cbn in M. congruence.
Qed.
(** the heights in between *)
Lemma commits_low k q t t4 t5 t6 : rep_db t (absn t) -> linked t6 -> shape_ok (absn t6) ->
  d_change_parent_commits k q t = ([t4; t5; t6], (t6, Ok tt)) ->
  same_rows t4 t6 /\ same_rows t5 t6 /\ rep_low t5 (absn t5) /\
  ((forall i r, row_of t k = Some (i, r) -> r_parent r = None \/ r_parent r = Some q) -> rep_low t4 (absn t4)).
Proof.
  intros R L6 S6 H. destruct (commits_three _ _ _ _ _ H) as [i [r [j [t5' [Hl [Hr [H5 H6]]]]]]]. injection Hl as -> <-.
  set (t4 := moved_table t i r q j) in *. clear H.
  pose proof (d_update_rows _ _ _ H5) as S45. pose proof (d_update_rows _ _ _ H6) as S56.
  pose proof (same_rows_trans _ _ _ S45 S56) as S46.
  pose proof (same_rows_linked _ _ (same_rows_sym _ _ S46) L6) as L4.
  pose proof (same_rows_linked _ _ (same_rows_sym _ _ S56) L6) as L5.
  pose proof (same_shape_ok _ _ (same_rows_shape _ _ (same_rows_sym _ _ S46) (l_tags _ L6)) S6) as SO4.
  pose proof (same_shape_ok _ _ (same_rows_shape _ _ (same_rows_sym _ _ S56) (l_tags _ L6)) S6) as SO5.
  split; [exact S46|]. split; [exact S56|].
  destruct (rep_db_low _ _ R) as [_ [L [SO M]]].
  unfold row_of in Hr. destruct (rid_of t k) as [i'|] eqn:Hk; [|discriminate].
  destruct (nth_error t i') as [r'|] eqn:Hi; [|discriminate]. injection Hr as -> ->.
  (* all but the parent *)
  assert (M4 : forall u, r_parent r <> Some u \/ u = q -> low_at (absn t4) u).
  { intros u Hu n Hn. destruct (absn_get' t4 u n (l_tags _ L4) Hn) as [m [x [Hm [Hx ->]]]]. cbn [node_of height].
    pose proof (moved_rows t i r q j m) as Rm. fold t4 in Rm. rewrite Hm in Rm.
    destruct (nth_error t m) as [y|] eqn:Hy; [|discriminate]. cbn in Rm; injection Rm as A B C.
    assert (Hyu : dget (absn t) u = Some (node_of t m y)) by (rewrite <- Hx, A; now apply absn_get; [apply L|]).
    destruct (M u _ Hyu) as [Hh|[c [mc [Hc [Hp Hh]]]]]; cbn [node_of height] in Hh; [left; lia|right].
    destruct (absn_get' t c mc (l_tags _ L) Hc) as [mm [z [Hz [Hzc ->]]]]. cbn [node_of parent height] in Hp, Hh.
    pose proof (moved_rows t i r q j mm) as Rz. fold t4 in Rz. rewrite Hz in Rz.
    destruct (nth_error t4 mm) as [z4|] eqn:Hz4; [|discriminate]. cbn in Rz; injection Rz as A' B' C'.
    exists c, (node_of t4 mm z4). split; [rewrite <- Hzc, <- A'; apply absn_get; [apply L4|exact Hz4]|].
    cbn [node_of parent height]. split; [|lia]. rewrite C'. destruct (Nat.eqb_spec i mm) as [<-|]; [|exact Hp].
    assert (z = r) by congruence; subst z. destruct Hu as [Hu| ->]; [congruence|reflexivity]. }
  split.
  - split; [reflexivity|]. split; [exact L5|]. split; [exact SO5|].
    pose proof (l_parent _ L i r Hi) as Lp.
    destruct (r_parent_rid r) as [a|], (r_parent r) as [p|] eqn:Hp; try contradiction.
    + rewrite <- (moved_tags t i r q j) in Lp. fold t4 in Lp. apply row_at in Lp as [ra [Hra Hpa]].
      destruct (d_update_low t4 a ra L4 SO4 Hra) as [t5' [H1 [H2 [H3 [H4 H7]]]]].
      { intros u Hu'. apply M4. left; congruence. }
      assert (t5' = t5) by congruence; subst. exact H7.
    + assert (t5 = t4) by (unfold d_update_metrics in H5; destruct (length t4); cbn in H5; congruence). subst t5.
      intros u. apply M4. left; discriminate.
  - intros Hp. specialize (Hp i r). unfold row_of in Hp. rewrite Hk, Hi in Hp. specialize (Hp eq_refl).
    split; [reflexivity|]. split; [exact L4|]. split; [exact SO4|]. intros u. apply M4.
    destruct Hp as [-> | ->]; [left; discriminate|]. destruct (teq_spec u q); [now right|left; congruence].
Qed.
End Table.

(** * Objects *)
Section Objects.
Context {K : Type} {E : Teq K} {O : TeqOk K}.
Variable re_w : Z -> bool.
Variable tk : tkind.
Variables HS DS : store K.
Variable HL : store_law HS.
Variable DL : store_law DS.
Notation TR := (db_tree K).
Notation vstate := (vstate HS DS TR).
Notation vm := (vm HS DS TR).
Notation vbind := (vbind HS DS TR).
Notation look := (look HS DS TR).
Notation on_commits := (on_commits HS DS).
Notation add_edge_by := (add_edge_by HS DS).
Notation add_by := (add_by re_w tk HS DS).
Notation commits := (commits re_w tk HS DS).
Implicit Types v w u : vstate.

(** the model of DbCommits.v is that of Versions.v with the commits of the moves *)
Lemma add_is_by tag b base v : add re_w tk HS DS TR tag b base v =
  add_by (fun k q => on_tree HS DS TR (tr_change_parent TR k q)) tag b base v.
Proof. reflexivity. Qed.

(** the same outcome *)
Lemma vbind_snd {A B} (m m' : vm A) (f f' : A -> vm B) v : snd (m v) = snd (m' v) ->
  (forall a w, snd (f a w) = snd (f' a w)) -> snd (vbind m f v) = snd (vbind m' f' v).
Proof.
  intros H1 H2. unfold Versions.vbind. destruct (m v) as [t1 [v1 r]], (m' v) as [t1' [v1' r']]. cbn in H1. injection H1 as <- <-.
  destruct r as [a|e]; [|reflexivity]. specialize (H2 a v1). destruct (f a v1) as [t2 r2], (f' a v1) as [t2' r2']. exact H2.
Qed.
Lemma move_snd k q v : snd (on_commits k q v) = snd (on_tree HS DS TR (tr_change_parent TR k q) v).
Proof.
  unfold DbCommits.on_commits, on_tree. cbn. rewrite <- (commits_result k q (tree v)).
  destruct (d_change_parent_commits k q (tree v)) as [l [t r]]. reflexivity.
Qed.
Lemma edge_snd q c cs v : snd (add_edge_by on_commits q c cs v) = snd (add_edge HS DS TR q c cs v).
Proof.
  unfold DbCommits.add_edge_by, add_edge.
  apply vbind_snd; [reflexivity|]. intros d w. apply vbind_snd; [reflexivity|]. intros [] w'.
  apply vbind_snd; [apply move_snd|]. reflexivity.
Qed.
Theorem commits_snd tag b base v : snd (add_by on_commits tag b base v) = snd (add re_w tk HS DS TR tag b base v).
Proof.
  unfold DbCommits.add_by, add. apply vbind_snd; [reflexivity|]. intros [] w. apply vbind_snd; [reflexivity|]. intros [] w1.
  destruct base as [h|]; [|reflexivity]. apply vbind_snd; [reflexivity|]. intros sp w2. apply vbind_snd.
  - destruct (teq (fst sp) h); [reflexivity|]. apply vbind_snd; [reflexivity|]. intros sv w3. apply vbind_snd; [reflexivity|].
    intros cs w4. apply vbind_snd; [apply edge_snd|]. intros [] w5. apply move_snd.
  - intros [] w3. apply vbind_snd; [reflexivity|]. intros hv w4. apply vbind_snd; [reflexivity|]. intros cs w5. apply edge_snd.
Qed.

(** the states within a move *)
Definition mid (k q : K) u m1 m2 w : Prop := exists t4 t5 t6 : table K,
  d_change_parent_commits k q (tree u) = ([t4; t5; t6], (t6, Ok tt)) /\
  m1 = mkV (heads u) (diffs u) (t4 : tree_t TR) /\ m2 = mkV (heads u) (diffs u) (t5 : tree_t TR) /\
  w = mkV (heads u) (diffs u) (t6 : tree_t TR).

Lemma vbind_inv {A B} (m : vm A) (f : A -> vm B) v tr w b : vbind m f v = (tr, (w, Ok b)) ->
  exists t1 v1 x t2, m v = (t1, (v1, Ok x)) /\ f x v1 = (t2, (w, Ok b)) /\ tr = t1 ++ t2.
Proof.
  unfold Versions.vbind. destruct (m v) as [t1 [v1 [x|e]]]; [|discriminate].
  destruct (f x v1) as [t2 r] eqn:Hf. intros [= <- ->]. exists t1, v1, x, t2. auto.
Qed.
Lemma look_inv {A} (f : vstate -> res A) v tr w x : look f v = (tr, (w, Ok x)) -> tr = [] /\ w = v /\ f v = Ok x.
Proof. unfold Versions.look. intros [= <- <- H]. auto. Qed.

Lemma fine_move k q v tr w : on_tree HS DS TR (tr_change_parent TR k q) v = (tr, (w, Ok tt)) ->
  exists m1 m2, tr = [w] /\ on_commits k q v = ([m1; m2; w], (w, Ok tt)) /\ mid k q v m1 m2 w.
Proof.
  unfold on_tree. cbn [tr_change_parent db_tree]. rewrite <- commits_result.
  destruct (d_change_parent_commits k q (tree v)) as [l [t r]] eqn:H. cbn [snd]. intros [= <- <- ->].
  destruct (commits_three _ _ _ _ _ H) as [i [r0 [j [t5 [Hl _]]]]].
  unfold DbCommits.on_commits. rewrite H, Hl. eexists _, _. split; [reflexivity|]. split; [reflexivity|].
  eexists _, _, _. rewrite H, Hl. repeat split; reflexivity.
Qed.
Lemma fine_edge q c cs v tr w : add_edge HS DS TR q c cs v = (tr, (w, Ok tt)) ->
  exists u m1 m2 w1 D, tr = u :: w1 :: D /\ add_edge_by on_commits q c cs v = (u :: m1 :: m2 :: w1 :: D, (w, Ok tt)) /\
    mid c q u m1 m2 w1 /\ heads u = heads v /\ tree u = tree v /\ (D = [] -> w = w1) /\
    length D = (if s_mem HS (heads v) c then 1 else 0).
Proof.
  intros H. unfold add_edge in H.
  apply vbind_inv in H as [t1 [v1 [d [t2 [H1 [H ->]]]]]]. apply look_inv in H1 as [-> [-> Hd]].
  apply vbind_inv in H as [t3 [u [[] [t4 [H1 [H ->]]]]]]. unfold set_diff in H1. injection H1 as <- <-.
  apply vbind_inv in H as [t5 [w1 [[] [t6 [H1 [H ->]]]]]].
  destruct (fine_move _ _ _ _ _ H1) as [m1 [m2 [-> [Hm M]]]].
  apply vbind_inv in H as [t7 [w2 [ih [t8 [H2 [H ->]]]]]]. apply look_inv in H2 as [-> [-> Hi]]. injection Hi as Hi.
  exists (mkV (heads v) (s_set DS c d (diffs v)) (tree v)), m1, m2, w1, t8.
  assert (Hh : heads w1 = heads v) by (destruct M as [a1 [a2 [a3 [_ [_ [_ ->]]]]]]; reflexivity).
  split; [reflexivity|]. split; [|split; [exact M|split; [reflexivity|split; [reflexivity|split]]]].
  - unfold DbCommits.add_edge_by. erewrite vbind_ok; [|unfold Versions.look; rewrite Hd; reflexivity|].
    2:{ erewrite vbind_ok; [|reflexivity|].
        2:{ erewrite vbind_ok; [|exact Hm|].
            2:{ erewrite vbind_ok; [|unfold Versions.look; reflexivity|rewrite Hi; exact H]. reflexivity. }
            reflexivity. }
        reflexivity. }
    reflexivity.
  - intros ->. destruct ih; [|unfold vret in H; congruence].
    unfold del_head in H. destruct (s_del HS c (heads w1)); discriminate.
  - rewrite Hh in Hi. rewrite Hi. destruct ih.
    + unfold del_head in H. destruct (s_del HS c (heads w1)) as [h' r]. injection H as <- _ _. reflexivity.
    + unfold vret in H. injection H as <- _. reflexivity.
Qed.

(** the last part *)
Lemma fine_last tag b h v tr w :
  vbind (look (fun v => s_get HS (heads v) h)) (fun head_version =>
  vbind (look (fun _ => make_changeset re_w tk b head_version)) (fun cs =>
  add_edge HS DS TR tag h cs)) v = (tr, (w, Ok tt)) ->
  exists u m1 m2 w1 w2, tr = [u; w1; w2] /\
    vbind (look (fun v => s_get HS (heads v) h)) (fun head_version =>
    vbind (look (fun _ => make_changeset re_w tk b head_version)) (fun cs =>
    add_edge_by on_commits tag h cs)) v = ([u; m1; m2; w1; w2], (w, Ok tt)) /\
    mid h tag u m1 m2 w1.
Proof.
  intros H. apply vbind_inv in H as [t1 [v1 [hv [t2 [H1 [H ->]]]]]]. apply look_inv in H1 as [-> [-> Hg]].
  apply vbind_inv in H as [t3 [v2 [cs [t4 [H1 [H ->]]]]]]. apply look_inv in H1 as [-> [-> Hm]].
  destruct (fine_edge _ _ _ _ _ _ H) as [u [m1 [m2 [w1 [D [-> [He [M [_ [_ [_ HD]]]]]]]]]]].
  pose proof Hg as Hg'. rewrite (view_get _ HL) in Hg'. rewrite (view_mem _ HL) in HD.
  destruct (view HL (heads v) h); [|discriminate]. destruct D as [|w2 [|]]; try discriminate.
  exists u, m1, m2, w1, w2. split; [reflexivity|]. split; [|exact M].
  erewrite vbind_ok; [|unfold Versions.look; rewrite Hg; reflexivity|].
  2:{ erewrite vbind_ok; [|unfold Versions.look; rewrite Hm; reflexivity|exact He]. reflexivity. }
  reflexivity.
Qed.
Lemma fine_add tag b h v v1 v2 tr w : add re_w tk HS DS TR tag b (Some h) v = (v1 :: v2 :: tr, (w, Ok tt)) ->
  (exists u m1 m2 w1 w2, tr = [u; w1; w2] /\ commits v (tag, b, Some h) = [v1; v2; u; m1; m2; w1; w2] /\ mid h tag u m1 m2 w1) \/
  (exists sp D u0 a1 a2 u1 b1 b2 u2 u3 c1 c2 u4 u5, tr = u0 :: u1 :: D ++ [u2; u3; u4; u5] /\
    commits v (tag, b, Some h) = v1 :: v2 :: u0 :: a1 :: a2 :: u1 :: D ++ [b1; b2; u2; u3; c1; c2; u4; u5] /\
    tree u0 = tree v2 /\ mid sp tag u0 a1 a2 u1 /\ (D = [] -> mid sp tag u1 b1 b2 u2) /\ mid h tag u3 c1 c2 u4).
Proof.
  intros H. unfold add in H.
  apply vbind_inv in H as [t1 [x1 [[] [t2 [H1 [H Ht]]]]]].
  apply vbind_inv in H as [t3 [x2 [[] [t4 [H2 [H ->]]]]]].
  assert (L1 : t1 = [x1]) by (unfold set_head in H1; congruence).
  assert (L2 : t3 = [x2]) by (unfold on_tree in H2; destruct (tr_add TR tag (Some h) (tree x1)); congruence).
  subst t1 t3. cbn [app] in Ht. injection Ht as -> -> ->.
  apply vbind_inv in H as [t5 [x3 [sp [t6 [H3 [H ->]]]]]]. apply look_inv in H3 as [-> [-> Hsp]].
  apply vbind_inv in H as [t7 [x4 [[] [t8 [H3 [H ->]]]]]].
  destruct (fine_last _ _ _ _ _ _ H) as [u [m1 [m2 [w1 [w2 [-> [Hl M]]]]]]].
  assert (Front : forall tr7, (if teq (fst sp) h then vret HS DS TR tt else
         vbind (look (fun v => retrieve_using_path re_w tk HS DS TR v (snd sp))) (fun split_version =>
         vbind (look (fun _ => make_changeset re_w tk b split_version)) (fun cs =>
         vbind (add_edge_by on_commits tag (fst sp) cs) (fun _ =>
         on_commits (fst sp) tag)))) x2 = (tr7, (x4, Ok tt)) ->
    commits v (tag, b, Some h) = x1 :: x2 :: tr7 ++ [u; m1; m2; w1; w2]).
  { intros tr7 H7. unfold DbCommits.commits, DbCommits.add_by.
    erewrite vbind_ok; [|exact H1|].
    2:{ erewrite vbind_ok; [|exact H2|].
        2:{ erewrite vbind_ok; [|unfold Versions.look; rewrite Hsp; reflexivity|].
            2:{ erewrite vbind_ok; [|exact H7|exact Hl]. reflexivity. }
            reflexivity. }
        reflexivity. }
    reflexivity. }
  destruct (teq (fst sp) h).
  - left. unfold vret in H3. injection H3 as <- <-. exists u, m1, m2, w1, w2. split; [reflexivity|]. split; [|exact M].
    exact (Front [] eq_refl).
  - right. apply vbind_inv in H3 as [t9 [y1 [sv [t10 [H4 [H3 ->]]]]]]. apply look_inv in H4 as [-> [-> Hsv]].
    apply vbind_inv in H3 as [t11 [y2 [cs [t12 [H4 [H3 ->]]]]]]. apply look_inv in H4 as [-> [-> Hcs]].
    apply vbind_inv in H3 as [t13 [y3 [[] [t14 [H4 [H3 ->]]]]]].
    destruct (fine_edge _ _ _ _ _ _ H4) as [u0 [a1 [a2 [u1 [D [-> [He [M1 [_ [Ht [Hend _]]]]]]]]]]].
    destruct (fine_move _ _ _ _ _ H3) as [b1 [b2 [-> [Hm M2]]]].
    exists (fst sp), D, u0, a1, a2, u1, b1, b2, x4, u, m1, m2, w1, w2.
    split; [cbn [app]; now rewrite <- !app_assoc|]. split; [|split; [exact Ht|split; [exact M1|split; [|exact M]]]].
    + rewrite (Front (u0 :: a1 :: a2 :: u1 :: D ++ [b1; b2; x4])).
      { cbn [app]. rewrite <- !app_assoc. reflexivity. }
      erewrite vbind_ok; [|unfold Versions.look; rewrite Hsv; reflexivity|].
      2:{ erewrite vbind_ok; [|unfold Versions.look; rewrite Hcs; reflexivity|].
          2:{ erewrite vbind_ok; [|exact He|exact Hm]. reflexivity. }
          reflexivity. }
      reflexivity.
    + intros HD. rewrite <- (Hend HD). exact M2.
Qed.
Lemma fine_add_none tag b v v1 v2 w : add re_w tk HS DS TR tag b None v = ([v1; v2], (w, Ok tt)) ->
  commits v (tag, b, None) = [v1; v2].
Proof. intros H. unfold DbCommits.commits. change (add_by on_commits tag b None v) with (add re_w tk HS DS TR tag b None v). now rewrite H. Qed.

(** * States *)
Notation state_ok := (state_ok re_w tk HS DS TR HL DL).
Lemma state_rows V R x w w' : state_ok db_law V R x w -> heads w' = heads w -> diffs w' = diffs w ->
  rep_low (tree w') (absn (tree w')) -> same_rows (tree w) (tree w') -> state_ok loose_law V R x w'.
Proof.
  intros [s [C [T HR]]] Hh Hd L S. destruct (c_rep _ _ _ _ _ _ _ _ _ _ _ _ C) as [Es [Lk [SO _]]].
  assert (SS : same_shape s (absn (tree w'))) by (rewrite Es; apply same_rows_shape; [exact S|apply Lk]).
  pose proof (same_shape_sym _ _ SS) as SS'.
  exists (absn (tree w')). split; [|split].
  - split.
    + exact L.
    + rewrite Hh, Hd. apply C.
    + intros t. rewrite <- (c_dom _ _ _ _ _ _ _ _ _ _ _ _ C t). destruct SS as [_ SS]. specialize (SS t).
      destruct (dget s t), (dget (absn (tree w')) t); tauto || (split; discriminate).
    + apply C.
    + intros t n Hn Hp. destruct (same_get _ _ _ _ SS' Hn) as [m [Hm [_ [Hq _]]]]. rewrite Hh.
      apply (c_head _ _ _ _ _ _ _ _ _ _ _ _ C t m Hm). congruence.
    + intros t n q bq bt Hn Hp. destruct (same_get _ _ _ _ SS' Hn) as [m [Hm [_ [Hq _]]]]. rewrite Hd.
      apply (c_diff _ _ _ _ _ _ _ _ _ _ _ _ C t m q bq bt Hm). congruence.
  - intros t Hx. destruct (T t Hx) as [A B]. rewrite Hh, Hd. split; intros H.
    + destruct (A H) as [n [Hn Hp]]. destruct (same_get _ _ _ _ SS Hn) as [m [Hm [_ [Hq _]]]]. exists m; split; congruence.
    + destruct (B H) as [n [Hn Hp]]. destruct (same_get _ _ _ _ SS Hn) as [m [Hm [_ [Hq _]]]]. exists m; split; congruence.
  - intros t n Hn Ht. destruct (same_get _ _ _ _ SS' Hn) as [m [Hm [_ [Hq _]]]]. rewrite Hq. now apply (HR t).
Qed.
Definition exact_tree w : Prop := rep_db (tree w) (absn (tree w)).
Lemma state_exact V R x w : state_ok db_law V R x w -> exact_tree w.
Proof. intros [s [C _]]. destruct (c_rep _ _ _ _ _ _ _ _ _ _ _ _ C) as [Es R']. unfold exact_tree, rep_db. subst s. auto. Qed.
Lemma state_loose V R x w : state_ok db_law V R x w -> state_ok loose_law V R x w.
Proof.
  intros S. eapply state_rows; [exact S|reflexivity|reflexivity| |apply same_rows_refl]. apply rep_db_low. eapply state_exact; eauto.
Qed.
Lemma mid_states k q u m1 m2 w V R x : exact_tree u -> mid k q u m1 m2 w -> state_ok db_law V R x w ->
  state_ok loose_law V R x m2 /\
  ((forall i r, row_of (tree u) k = Some (i, r) -> r_parent r = None \/ r_parent r = Some q) -> state_ok loose_law V R x m1).
Proof.
  intros Hu [t4 [t5 [t6 [H [-> [-> ->]]]]]] S. pose proof (state_exact _ _ _ _ S) as [_ [L6 [S6 _]]]. cbn [tree] in L6, S6.
  destruct (commits_low k q (tree u) t4 t5 t6 Hu L6 S6 H) as [A [B [C D]]]. split.
  - eapply state_rows; [exact S|reflexivity|reflexivity|exact C|]. now apply same_rows_sym.
  - intros Hp. eapply state_rows; [exact S|reflexivity|reflexivity|now apply D|]. now apply same_rows_sym.
Qed.
Lemma mid_parent k q u m1 m2 w i r : mid k q u m1 m2 w -> row_of (tree w) k = Some (i, r) -> r_parent r = Some q.
Proof. intros [t4 [t5 [t6 [H [-> [-> ->]]]]]]. eapply commits_parent; eauto. Qed.
Lemma state_root V (R : K -> Prop) x w k i r : state_ok db_law V R x w -> R k -> row_of (tree w) k = Some (i, r) -> r_parent r = None.
Proof.
  intros [s [C [T HR]]] Rk H. destruct (c_rep _ _ _ _ _ _ _ _ _ _ _ _ C) as [Es [L _]].
  unfold row_of in H. destruct (rid_of (tree w) k) as [j|] eqn:Hj; [|discriminate].
  destruct (nth_error (tree w) j) as [r'|] eqn:Hr; [|discriminate]. injection H as -> ->.
  assert (Ht : r_tag r = k).
  { destruct (dget (absn (tree w)) k) as [n|] eqn:Hn.
    - destruct (row_of_get _ _ _ (l_tags _ L) Hn) as [i' [r1 [H1 [H2 [_ H3]]]]]. unfold row_of in H3. rewrite Hj, Hr in H3.
      injection H3 as <- <-. exact H2.
    - apply row_of_none in Hn. unfold row_of in Hn. now rewrite Hj, Hr in Hn. }
  apply (HR k (node_of (tree w) i r)); [|exact Rk]. rewrite Es, <- Ht. apply absn_get; [apply L|exact Hr].
Qed.

(** * Reading *)
Lemma retrieve_loop_rows v v' : diffs v' = diffs v -> forall path st toks,
  retrieve_loop re_w tk HS DS TR v' st toks path = retrieve_loop re_w tk HS DS TR v st toks path.
Proof.
  intros H. induction path as [|t path IH]; intros st toks; cbn [retrieve_loop]; [reflexivity|]. rewrite H.
  destruct (s_get DS (diffs v) t); cbn [bind]; [|reflexivity]. destruct (deserialize_changeset _) as [items stop].
  destruct (encode_items _ _ _ _) as [st' [p|]]; cbn [bind]; [|reflexivity]. destruct stop; [reflexivity|apply IH].
Qed.
Lemma get_rows v v' t : heads v' = heads v -> diffs v' = diffs v -> same_rows (tree v) (tree v') ->
  get re_w tk HS DS TR v' t = get re_w tk HS DS TR v t.
Proof.
  intros H1 H2 S. unfold get. cbn [tr_path_to db_tree]. rewrite (same_rows_path _ _ t S).
  destruct (d_path_to (tree v) t) as [[[|r p]|]|]; cbn [bind]; auto. unfold retrieve_using_path. rewrite H1.
  destruct (s_get HS (heads v) r); cbn [bind]; [|reflexivity].
  destruct (encode _ _ _ _) as [st [toks|]]; cbn [bind]; [|reflexivity]. now rewrite (retrieve_loop_rows v v' H2).
Qed.
Lemma reads_rows h v v' : heads v' = heads v -> diffs v' = diffs v -> same_rows (tree v) (tree v') ->
  reads re_w tk HS DS TR h v -> reads re_w tk HS DS TR h v'.
Proof.
  intros H1 H2 S [A [B C]]. split; [|split].
  - intros t b base Hin. rewrite (get_rows v v' t H1 H2 S). eauto.
  - intros t Ht. rewrite (get_rows v v' t H1 H2 S). eauto.
  - intros t. unfold contains. cbn [tr_contains db_tree]. rewrite (same_rows_contains _ _ t S). apply C.
Qed.
Hypothesis Hk : tk <> KLine.
Lemma state_reads TL h R x w : state_ok TL (V_of h) R x w -> NoDup (map tag_of h) -> reads re_w tk HS DS TR h w.
Proof.
  intros [s [C _]] N. split; [|split].
  - intros t b base Hin. pose proof (V_of_In _ t b base N Hin) as Bt.
    destruct (ok_forest re_w tk HS DS TR HL DL TL _ _ s None C t) as [l Hl]; [congruence|].
    apply (get_ok re_w tk HS DS TR HL DL TL None (V_of h) _ s t b l); auto. discriminate.
  - intros t Ht. apply V_of_none in Ht. eapply get_none; eauto.
  - intros t. unfold contains. rewrite (rep_contains _ TL _ s t (c_rep _ _ _ _ _ _ _ _ _ _ _ _ C)). unfold dmem.
    pose proof (c_dom _ _ _ _ _ _ _ _ _ _ _ _ C t) as D. pose proof (V_of_none h t) as NN.
    destruct (dget s t) as [n|].
    + split; [intros _|reflexivity]. destruct (V_of h t) as [bt|] eqn:HV; [|discriminate (proj2 D eq_refl)].
      apply V_of_some in HV as [base Hin]. now apply In_added in Hin.
    + split; [discriminate|]. intros Ha. exfalso. now apply (proj1 NN (proj1 D eq_refl)).
Qed.

(** * The interrupted add *)
Notation run := (run re_w tk HS DS TR).
Implicit Type h : list (adding K).
Lemma reached_fresh h a i n : fresh tk (h ++ [a]) -> NoDup (map tag_of (reached_commit h a i n)).
Proof.
  intros F. pose proof F as [N _]. unfold reached_commit. destruct (i =? 0).
  - now destruct (fresh_snoc _ _ _ F) as [[N0 _] _].
  - destruct (_ <=? _); [exact N|]. now rewrite map_app in *.
Qed.
Lemma commit_state h a : fresh tk (h ++ [a]) -> head_after h (base_of a) ->
  let v := run v_empty h in let n := length (commits v a) in
  forall k w, nth_error (commits v a) k = Some w -> k <> 2 \/ n <= 7 ->
  let h' := reached_commit h a k n in
  (k <> 3 \/ n <= 7 -> exists x, state_ok loose_law (V_of h') (is_head h') x w) /\
  reads re_w tk HS DS TR h' w /\
  (1 <= k -> is_head h' (tag_of a) /\ V_of h' (tag_of a) = Some (bytes_of a)).
Proof.
  intros F Hx v n k w Hw Hk2 h'. destruct (fresh_snoc _ _ _ F) as [F' [Hna [Hb Sb]]].
  pose proof (state_before re_w tk HS DS TR HL DL db_law Hk h F') as S0. fold v in S0.
  destruct (state_add re_w tk HS DS TR HL DL db_law Hk h None v a S0 Hna Hb Sb Hx) as [Hok _].
  pose proof (reached_state re_w tk HS DS TR HL DL db_law Hk h a F Hx) as RS. cbn zeta in RS. fold v in RS.
  destruct (trace_ok re_w tk HS DS TR HL DL db_law Hk h a F Hx) as [v1 [v2 [s2 [tr [Ht [_ [_ [_ [_ [_ [_ Hr]]]]]]]]]]].
  fold v in Ht. cbn zeta in Hr.
  assert (Tag : 1 <= k -> is_head h' (tag_of a) /\ V_of h' (tag_of a) = Some (bytes_of a)).
  { intros Hk1. unfold h', reached_commit. destruct k as [|k]; [lia|]. cbn [Nat.eqb].
    destruct (_ <=? _); (split; [apply is_head_snoc; auto; discriminate|]).
    - rewrite (V_of_snoc h a). unfold upd; now rewrite teq_refl.
    - rewrite (V_of_snoc h (tag_of a, bytes_of a, None)). unfold upd; cbn. now rewrite teq_refl. }
  pose proof (reached_fresh h a k n F) as ND. fold h' in ND.
  (* a state that the updates show *)
  assert (Red : forall x, state_ok loose_law (V_of h') (is_head h') x w ->
    (k <> 3 \/ n <= 7 -> exists x, state_ok loose_law (V_of h') (is_head h') x w) /\ reads re_w tk HS DS TR h' w /\
    (1 <= k -> is_head h' (tag_of a) /\ V_of h' (tag_of a) = Some (bytes_of a))).
  { intros x S. split; [eauto|]. split; [|exact Tag]. eapply state_reads; eauto. }
  assert (Coarse : forall i nc, nc = length (add_trace re_w tk HS DS TR v a) ->
    (forall w', nth_error (add_trace re_w tk HS DS TR v a) i = Some w' -> i <> 2 \/ nc <= 5 -> h' = reached h a i nc ->
     exists x, state_ok db_law (V_of h') (is_head h') x w')).
  { intros i nc -> w' Hw' Hi2 ->. now apply (RS i w' Hw' Hi2). }
  destruct a as [[tag b] base]. unfold Versions.add_trace in Ht, RS, Coarse. unfold Versions.add_result in Hok.
  destruct (add re_w tk HS DS TR tag b base v) as [tr0 [w0 r0]] eqn:Hadd. cbn [fst snd] in *. subst tr0 r0.
  destruct base as [y|].
  2:{ cbn in Hr. subst tr. pose proof (fine_add_none _ _ _ _ _ _ Hadd) as Hc. unfold n in *. rewrite Hc in *. cbn [length] in *.
      destruct k as [|[|k]]; cbn in Hw; [| |destruct k; discriminate]; injection Hw as <-.
      - destruct (Coarse 0 2 eq_refl v1 eq_refl) as [x S]; [lia|unfold h'; rewrite Hc; reflexivity|]. eapply Red, state_loose, S.
      - destruct (Coarse 1 2 eq_refl v2 eq_refl) as [x S]; [lia|unfold h'; rewrite Hc; reflexivity|]. eapply Red, state_loose, S. }
  cbn [base_of snd] in Hr. cbn [base_of snd head_after] in Hx.
  assert (HyN : is_head (h ++ [(tag, b, None)]) y) by (apply is_head_snoc; auto; [discriminate|right; split; [exact Hx|discriminate]]).
  destruct (fine_add _ _ _ _ _ _ _ _ Hadd) as [[u [m1 [m2 [w1 [w2 [-> [Hc M]]]]]]]|
    [sp [D [u0 [a1 [a2 [u1 [b1 [b2 [u2 [u3 [c1 [c2 [u4 [u5 [-> [Hc [Ht0 [M1 [M2 M3]]]]]]]]]]]]]]]]]]]].
  - unfold n in *. rewrite Hc in *. cbn [length] in *.
    destruct (RS 2 u eq_refl) as [[xu Su] _]; [lia|].
    change (reached h (tag, b, Some y) 2 5) with (h ++ [(tag, b, None)]) in Su.
    assert (Root : forall i r, row_of (tree u) y = Some (i, r) -> r_parent r = None \/ r_parent r = Some tag).
    { intros i r Hr'. left. eapply state_root; [exact Su|exact HyN|exact Hr']. }
    destruct k as [|[|[|[|[|[|[|k]]]]]]]; cbn in Hw; [| | | | | | |destruct k; discriminate]; injection Hw as <-.
    + destruct (Coarse 0 5 eq_refl v1 eq_refl) as [x S]; [lia|unfold h'; rewrite Hc; reflexivity|]. eapply Red, state_loose, S.
    + destruct (Coarse 1 5 eq_refl v2 eq_refl) as [x S]; [lia|unfold h'; rewrite Hc; reflexivity|]. eapply Red, state_loose, S.
    + destruct (Coarse 2 5 eq_refl u eq_refl) as [x S]; [lia|unfold h'; rewrite Hc; reflexivity|]. eapply Red, state_loose, S.
    + destruct (Coarse 3 5 eq_refl w1 eq_refl) as [x S]; [lia|unfold h'; rewrite Hc; reflexivity|].
      destruct (mid_states _ _ _ _ _ _ _ _ _ (state_exact _ _ _ _ Su) M S) as [_ S1]. eapply Red, S1, Root.
    + destruct (Coarse 3 5 eq_refl w1 eq_refl) as [x S]; [lia|unfold h'; rewrite Hc; reflexivity|].
      destruct (mid_states _ _ _ _ _ _ _ _ _ (state_exact _ _ _ _ Su) M S) as [S2 _]. eapply Red, S2.
    + destruct (Coarse 3 5 eq_refl w1 eq_refl) as [x S]; [lia|unfold h'; rewrite Hc; reflexivity|]. eapply Red, state_loose, S.
    + destruct (Coarse 4 5 eq_refl w2 eq_refl) as [x S]; [lia|unfold h'; rewrite Hc; reflexivity|]. eapply Red, state_loose, S.
  - assert (HD : D = []).
    { destruct D as [|d D]; [reflexivity|exfalso].
      destruct Hr as [[z1 [z2 [z3 [Hz _]]]]|[z0 [z1 [z2 [z3 [z4 [z5 [Hz _]]]]]]]]; apply (f_equal (@length _)) in Hz;
        cbn in Hz; rewrite app_length in Hz; cbn in Hz; lia. }
    subst D. specialize (M2 eq_refl). cbn [app] in *. clear Hr. unfold n in *. rewrite Hc in *. cbn [length] in *.
    destruct (RS 1 v2 eq_refl) as [[xv Sv] _]; [lia|]. apply state_exact in Sv.
    assert (Xu0 : exact_tree u0) by (unfold exact_tree; now rewrite Ht0).
    destruct (RS 3 u1 eq_refl) as [[xu1 Su1] _]; [lia|]. pose proof (state_exact _ _ _ _ Su1) as Xu1.
    destruct (RS 5 u3 eq_refl) as [[xu3 Su3] _]; [lia|]. pose proof (state_exact _ _ _ _ Su3) as Xu3.
    change (reached h (tag, b, Some y) 5 8) with (h ++ [(tag, b, None)]) in Su3.
    assert (Root : forall i r, row_of (tree u3) y = Some (i, r) -> r_parent r = None \/ r_parent r = Some tag).
    { intros i r Hr'. left. eapply state_root; [exact Su3|exact HyN|exact Hr']. }
    assert (Below : forall i r, row_of (tree u1) sp = Some (i, r) -> r_parent r = None \/ r_parent r = Some tag).
    { intros i r Hr'. right. exact (mid_parent _ _ _ _ _ _ _ _ M1 Hr'). }
    destruct k as [|[|[|[|[|[|[|[|[|[|[|[|[|[|k]]]]]]]]]]]]]]; cbn in Hw;
      [| | |  | | |  | | |  | | |  | |destruct k; discriminate]; injection Hw as <-.
    + destruct (Coarse 0 8 eq_refl v1 eq_refl) as [x S]; [lia|unfold h'; rewrite Hc; reflexivity|]. eapply Red, state_loose, S.
    + destruct (Coarse 1 8 eq_refl v2 eq_refl) as [x S]; [lia|unfold h'; rewrite Hc; reflexivity|]. eapply Red, state_loose, S.
    + lia.
    + destruct (Coarse 3 8 eq_refl u1 eq_refl) as [x S]; [lia|unfold h'; rewrite Hc; reflexivity|].
      split; [lia|]. split; [|exact Tag]. pose proof (state_reads _ _ _ _ _ S ND) as Rd.
      destruct M1 as [t4 [t5 [t6 [Hcm [-> [-> ->]]]]]]. eapply reads_rows; [| | |exact Rd]; try reflexivity. cbn [tree].
      destruct Xu1 as [_ [L6 [S6 _]]]. apply same_rows_sym. apply (commits_low sp tag (tree u0) t4 t5 t6 Xu0 L6 S6 Hcm).
    + destruct (Coarse 3 8 eq_refl u1 eq_refl) as [x S]; [lia|unfold h'; rewrite Hc; reflexivity|].
      destruct (mid_states _ _ _ _ _ _ _ _ _ Xu0 M1 S) as [S2 _]. eapply Red, S2.
    + destruct (Coarse 3 8 eq_refl u1 eq_refl) as [x S]; [lia|unfold h'; rewrite Hc; reflexivity|]. eapply Red, state_loose, S.
    + destruct (Coarse 4 8 eq_refl u2 eq_refl) as [x S]; [lia|unfold h'; rewrite Hc; reflexivity|].
      destruct (mid_states _ _ _ _ _ _ _ _ _ Xu1 M2 S) as [_ S1]. eapply Red, S1, Below.
    + destruct (Coarse 4 8 eq_refl u2 eq_refl) as [x S]; [lia|unfold h'; rewrite Hc; reflexivity|].
      destruct (mid_states _ _ _ _ _ _ _ _ _ Xu1 M2 S) as [S2 _]. eapply Red, S2.
    + destruct (Coarse 4 8 eq_refl u2 eq_refl) as [x S]; [lia|unfold h'; rewrite Hc; reflexivity|]. eapply Red, state_loose, S.
    + destruct (Coarse 5 8 eq_refl u3 eq_refl) as [x S]; [lia|unfold h'; rewrite Hc; reflexivity|]. eapply Red, state_loose, S.
    + destruct (Coarse 6 8 eq_refl u4 eq_refl) as [x S]; [lia|unfold h'; rewrite Hc; reflexivity|].
      destruct (mid_states _ _ _ _ _ _ _ _ _ Xu3 M3 S) as [_ S1]. eapply Red, S1, Root.
    + destruct (Coarse 6 8 eq_refl u4 eq_refl) as [x S]; [lia|unfold h'; rewrite Hc; reflexivity|].
      destruct (mid_states _ _ _ _ _ _ _ _ _ Xu3 M3 S) as [S2 _]. eapply Red, S2.
    + destruct (Coarse 6 8 eq_refl u4 eq_refl) as [x S]; [lia|unfold h'; rewrite Hc; reflexivity|]. eapply Red, state_loose, S.
    + destruct (Coarse 7 8 eq_refl u5 eq_refl) as [x S]; [lia|unfold h'; rewrite Hc; reflexivity|]. eapply Red, state_loose, S.
Qed.
End Objects.

(** * For a valid history *)
Section Valid.
Context {K : Type} {E : Teq K} {O : TeqOk K}.
Variable tk : tkind.
Variable re_w : Z -> bool.
Variables HS DS : store K.
Variable HL : store_law HS.
Variable DL : store_law DS.
Notation T := (db_tree K).
Theorem valid_commits_go_on h a : tk <> KLine -> valid tk (h ++ [a]) ->
  let v := run re_w tk HS DS T v_empty h in let n := length (commits re_w tk HS DS v a) in
  forall i w, nth_error (commits re_w tk HS DS v a) i = Some w -> (i <> 2 /\ i <> 3) \/ n <= 7 ->
  goes_on re_w tk HS DS T (reached_commit h a i n) w.
Proof.
  intros Hk V v n i w Hi H. apply valid_last in V as [F Hx].
  destruct (commit_state re_w tk HS DS HL DL Hk h a F Hx i w Hi) as [S _]; [tauto|].
  destruct S as [x S]; [tauto|]. eapply (state_goes_on re_w tk HS DS T HL DL loose_law Hk); exact S.
Qed.
Theorem valid_commits_read h a : tk <> KLine -> valid tk (h ++ [a]) ->
  let v := run re_w tk HS DS T v_empty h in let n := length (commits re_w tk HS DS v a) in
  forall i w, nth_error (commits re_w tk HS DS v a) i = Some w -> i <> 2 \/ n <= 7 ->
  reads re_w tk HS DS T (reached_commit h a i n) w.
Proof.
  intros Hk V v n i w Hi H. apply valid_last in V as [F Hx].
  now destruct (commit_state re_w tk HS DS HL DL Hk h a F Hx i w Hi) as [_ [R _]].
Qed.
Theorem valid_commits_refused h a : tk <> KLine -> valid tk (h ++ [a]) ->
  let v := run re_w tk HS DS T v_empty h in let n := length (commits re_w tk HS DS v a) in
  forall i w, nth_error (commits re_w tk HS DS v a) i = Some w -> 1 <= i -> (i <> 2 /\ i <> 3) \/ n <= 7 ->
  add_result re_w tk HS DS T w a = Err IntegrityError /\
  goes_on re_w tk HS DS T (reached_commit h a i n) (add_state re_w tk HS DS T w a).
Proof.
  intros Hk V v n i w Hi H1 H. apply valid_last in V as [F Hx].
  destruct (commit_state re_w tk HS DS HL DL Hk h a F Hx i w Hi) as [S [_ R]]; [tauto|].
  destruct S as [x S]; [tauto|]. destruct (R H1) as [R1 R2].
  exact (refused_state re_w tk HS DS T HL DL loose_law Hk IntegrityError (fun d k base => proj1 (existing_tag d [] k base)) _ x w a S R1 R2).
Qed.
Theorem commits_same tag b base v : snd (add_by re_w tk HS DS (on_commits HS DS) tag b base v) = snd (add re_w tk HS DS T tag b base v).
Proof. apply commits_snd. Qed.
End Valid.
