(** Trees that represent the same nodes answer alike, and DBCollections answer like
    dicts. *)
From Coq Require Import ZArith Lia Permutation.
From Verif Require Import Base Tokenizers Tree SpecTree TreeProofs TreeExact Versions SpecVersions VersionsInv
  VersionsProofs VersionsMore DbTree DbTreeProofs SpecDb.

Section Alike.
Context {K : Type} {E : Teq K} {O : TeqOk K}.
Implicit Type s : nodes K.

(** same nodes, up to the order of children *)
Definition alike s s' : Prop :=
  dkeys s = dkeys s' /\
  forall u, match dget s u, dget s' u with
            | Some n, Some m => parent n = parent m /\ base n = base m /\ order_id n = order_id m
            | None, None => True
            | _, _ => False
            end.
Definition numbered s : Prop :=
  NoDup (dkeys s) /\ forall t n, dget s t = Some n -> nth_error (dkeys s) (order_id n) = Some t.

Lemma alike_sym s s' : alike s s' -> alike s' s.
Proof.
  intros [H1 H2]; split; [congruence|]. intros u; specialize (H2 u).
  destruct (dget s u), (dget s' u); intuition congruence.
Qed.
Lemma alike_get s s' u n : alike s s' -> dget s u = Some n ->
  exists m, dget s' u = Some m /\ parent m = parent n /\ base m = base n /\ order_id m = order_id n.
Proof. intros [_ H] Hn; specialize (H u); rewrite Hn in H. destruct (dget s' u); [|tauto]. eexists; intuition eauto. Qed.
Lemma alike_none s s' u : alike s s' -> dget s u = None -> dget s' u = None.
Proof. intros [_ H] Hn; specialize (H u); rewrite Hn in H. destruct (dget s' u); tauto. Qed.
Lemma alike_child s s' c q : alike s s' -> child_of s c q -> child_of s' c q.
Proof. intros A [n [Hn Hp]]. destruct (alike_get _ _ _ _ A Hn) as [m [Hm [Hq _]]]. exists m; split; congruence. Qed.
Lemma alike_up s s' t l : alike s s' -> up s t l -> up s' t l.
Proof.
  intros A; induction 1 as [t n H1 H2|t n q l H1 H2 H IH]; destruct (alike_get _ _ _ _ A H1) as [m [Hm [Hp _]]].
  - eapply up_root; [exact Hm|congruence].
  - eapply up_step; [exact Hm|rewrite Hp; exact H2|exact IH].
Qed.
Lemma alike_down s s' t l : alike s s' -> down s t l -> down s' t l.
Proof.
  intros A; induction 1 as [t Ht|t c l Hc H IH].
  - apply down_one. destruct (dget s t) as [n|] eqn:Hn; [|now destruct Ht].
    destruct (alike_get _ _ _ _ A Hn) as [m [-> _]]; discriminate.
  - eapply down_step; [eapply alike_child; eauto|exact IH].
Qed.
Lemma alike_height s s' t n m : alike s s' -> tree_ok s -> tree_ok s' -> dget s t = Some n -> dget s' t = Some m ->
  height m = height n.
Proof.
  intros A T T' Hn Hm.
  destruct (proj2 (tree_ok_exact _ T) t n Hn) as [_ [[[l [Dl Ll]] Max] _]].
  destruct (proj2 (tree_ok_exact _ T') t m Hm) as [_ [[[l' [Dl' Ll']] Max'] _]].
  apply (alike_down _ _ _ _ A) in Dl. apply (alike_down _ _ _ _ (alike_sym _ _ A)) in Dl'.
  apply Max' in Dl. apply Max in Dl'. lia.
Qed.
Lemma alike_best s s' t c : alike s s' -> tree_ok s -> tree_ok s' -> best_child s t c -> best_child s' t c.
Proof.
  intros A T T' [nc [Hc [Hp Hmax]]]. destruct (alike_get _ _ _ _ A Hc) as [mc [Hmc [Hpc [_ Hoc]]]].
  exists mc. split; [exact Hmc|]. split; [congruence|]. intros c' m' Hc' Hp'.
  destruct (alike_get _ _ _ _ (alike_sym _ _ A) Hc') as [n' [Hn' [Hpn [_ Hon]]]].
  specialize (Hmax c' n' Hn' ltac:(congruence)). unfold rank, rank_le in *; cbn in *.
  rewrite <- (alike_height _ _ _ _ _ A T T' Hc Hmc) in Hmax. rewrite <- (alike_height _ _ _ _ _ A T T' Hn' Hc') in Hmax.
  rewrite Hoc, <- Hon. exact Hmax.
Qed.
Lemma alike_way s s' d t p : alike s s' -> tree_ok s -> tree_ok s' -> split_way s d t p -> split_way s' d t p.
Proof.
  intros A T T'; induction 1 as [d t n Hn Hd|d t n c l Hn Hd Hb Hw IH];
    destruct (alike_get _ _ _ _ A Hn) as [m [Hm _]]; pose proof (alike_height _ _ _ _ _ A T T' Hn Hm) as Hh.
  - eapply way_stop; [exact Hm|lia].
  - eapply way_go; [exact Hm|lia|eapply alike_best; eauto|exact IH].
Qed.
Lemma best_unique s t c c' : numbered s -> best_child s t c -> best_child s t c' -> c = c'.
Proof.
  intros [N H] [n [Hn [Hp Hm]]] [n' [Hn' [Hp' Hm']]].
  pose proof (Hm c' n' Hn' Hp') as A. pose proof (Hm' c n Hn Hp) as B. unfold rank_le, rank in A, B; cbn in A, B.
  apply H in Hn, Hn'. assert (order_id n = order_id n') by lia. congruence.
Qed.
Lemma way_unique s d t p : numbered s -> split_way s d t p -> forall p', split_way s d t p' -> p = p'.
Proof.
  intros N; induction 1 as [d t n Hn Hd|d t n c l Hn Hd Hb Hw IH]; intros p' H'; inversion H'; subst.
  - reflexivity.
  - assert (n0 = n) by congruence; subst; lia.
  - assert (n0 = n) by congruence; subst; lia.
  - f_equal. apply IH. match goal with H : best_child s t ?x |- _ => assert (x = c) by (eapply best_unique; eauto); subst x end.
    assumption.
Qed.
Lemma numbered_alike s s' : alike s s' -> numbered s -> numbered s'.
Proof.
  intros A [N H]. pose proof A as [Hk _]. split; [now rewrite <- Hk|]. intros t m Hm.
  destruct (alike_get _ _ _ _ (alike_sym _ _ A) Hm) as [n [Hn [_ [_ <-]]]]. rewrite <- Hk. now apply H.
Qed.

(** two trees representing nodes that are alike answer alike *)
Lemma answers_alike TR1 TR2 (L1 : tree_law TR1) (L2 : tree_law TR2) {X1 : Exact L1} {X2 : Exact L2} t1 t2 s1 s2 :
  rep L1 t1 s1 -> rep L2 t2 s2 -> alike s1 s2 -> numbered s1 -> forall k,
  tr_contains TR1 t1 k = tr_contains TR2 t2 k /\
  (dget s1 k <> None ->
   tr_base TR1 t1 k = tr_base TR2 t2 k /\ tr_path_to TR1 t1 k = tr_path_to TR2 t2 k /\
   tr_get_split TR1 t1 k = tr_get_split TR2 t2 k).
Proof.
  intros R1 R2 A N k. pose proof (rep_ok _ L1 _ _ R1) as T1. pose proof (rep_ok _ L2 _ _ R2) as T2.
  split.
  - rewrite (rep_contains _ L1 _ _ k R1), (rep_contains _ L2 _ _ k R2). unfold dmem.
    destruct A as [_ A]; specialize (A k). destruct (dget s1 k), (dget s2 k); tauto.
  - intros Hk. destruct (dget s1 k) as [n|] eqn:Hn; [|now destruct Hk].
    destruct (alike_get _ _ _ _ A Hn) as [m [Hm [Hp [Hb Ho]]]].
    rewrite (rep_base _ L1 _ _ k n R1 Hn), (rep_base _ L2 _ _ k m R2 Hm), Hb. split; [reflexivity|].
    destruct T1 as [[N1 [F1 C1]] M1]. destruct (F1 k) as [l Hl]; [congruence|].
    rewrite (rep_path _ L1 _ _ k l R1 Hl), (rep_path _ L2 _ _ k l R2 (alike_up _ _ _ _ A Hl)). split; [reflexivity|].
    destruct (rep_way _ L1 _ _ k n R1 Hn) as [p [-> Hw]]. destruct (rep_way _ L2 _ _ k m R2 Hm) as [p' [-> Hw']].
    apply (alike_way s2 s1) in Hw'; [|now apply alike_sym|exact T2|exact (rep_ok _ L1 _ _ R1)].
    now rewrite (way_unique s1 1 k p N Hw p' Hw').
Qed.
End Alike.

(** * Histories of adds *)
Section Runs.
Context {K : Type} {E : Teq K} {O : TeqOk K}.
Variable re_w : Z -> bool.
Variable tk : tkind.
Variables HS1 DS1 HS2 DS2 : store K.
Variables TR1 TR2 : tree_impl K.
Variable HL1 : store_law HS1.
Variable DL1 : store_law DS1.
Variable TL1 : tree_law TR1.
Context {TX1 : Exact TL1}.
Variable HL2 : store_law HS2.
Variable DL2 : store_law DS2.
Variable TL2 : tree_law TR2.
Context {TX2 : Exact TL2}.
Notation inv1 := (hist_inv re_w tk HS1 DS1 TR1 HL1 DL1 TL1).
Notation inv2 := (hist_inv re_w tk HS2 DS2 TR2 HL2 DL2 TL2).

Lemma inv_alike h v1 v2 s1 s2 : NoDup (map tag_of h) -> inv1 h v1 s1 -> inv2 h v2 s2 ->
  (forall c q, child_of s1 c q <-> child_of s2 c q) -> alike s1 s2 /\ numbered s1.
Proof.
  intros Nt I1 I2 Hc. pose proof (h_keys _ _ _ _ _ _ _ _ _ _ _ I1) as K1. pose proof (h_keys _ _ _ _ _ _ _ _ _ _ _ I2) as K2.
  split.
  - split; [congruence|]. intros u.
    pose proof (known_added re_w tk _ _ _ _ _ _ h _ _ u I1) as Ka1. pose proof (known_added re_w tk _ _ _ _ _ _ h _ _ u I2) as Ka2.
    destruct (dget s1 u) as [n|] eqn:Hn, (dget s2 u) as [m|] eqn:Hm; auto.
    + assert (Hp : parent n = parent m).
      { destruct (parent n) as [q|] eqn:Hpn.
        - destruct (proj1 (Hc u q)) as [m' [Hm' Hp']]; [exists n; auto|]. congruence.
        - destruct (parent m) as [q|] eqn:Hpm; [|reflexivity].
          destruct (proj2 (Hc u q)) as [n' [Hn' Hp']]; [exists m; auto|]. congruence. }
      split; [exact Hp|].
      assert (Ha : added h u).
      { destruct (V_of h u) as [b|] eqn:Hv; [apply V_of_some in Hv as [base Hin]; now apply In_added in Hin|].
        apply V_of_none in Hv. apply Ka1 in Hv. discriminate. }
      apply added_In in Ha as [b [base Hin]].
      destruct (h_base _ _ _ _ _ _ _ _ _ _ _ I1 u b base Hin) as [n' [Hn' Hb1]].
      destruct (h_base _ _ _ _ _ _ _ _ _ _ _ I2 u b base Hin) as [m' [Hm' Hb2]].
      split; [congruence|].
      apply (h_order _ _ _ _ _ _ _ _ _ _ _ I1) in Hn. apply (h_order _ _ _ _ _ _ _ _ _ _ _ I2) in Hm.
      apply (proj1 (NoDup_nth_error _) Nt); [apply nth_error_Some; congruence|congruence].
    + exfalso. assert (Hx : dget s1 u = None) by (apply (known_added re_w tk _ _ _ _ _ _ h _ _ u I1); now apply Ka2). congruence.
    + exfalso. assert (Hx : dget s2 u = None) by (apply (known_added re_w tk _ _ _ _ _ _ h _ _ u I2); now apply Ka1). congruence.
  - split; [now rewrite K1|]. intros t n Hn. rewrite K1. now apply (h_order _ _ _ _ _ _ _ _ _ _ _ I1).
Qed.

Theorem runs_alike h : tk <> KLine -> fresh tk h -> exists s1 s2,
  inv1 h (run re_w tk HS1 DS1 TR1 v_empty h) s1 /\ inv2 h (run re_w tk HS2 DS2 TR2 v_empty h) s2 /\
  forall c q, child_of s1 c q <-> child_of s2 c q.
Proof.
  intros Hk. induction h as [|a h IH] using rev_ind; intros F.
  - exists [], []. split; [apply hist_nil|]. split; [apply hist_nil|]. reflexivity.
  - destruct (fresh_snoc _ _ _ F) as [F' _]. destruct (IH F') as [s1 [s2 [I1 [I2 Hc]]]].
    rewrite !run_snoc.
    destruct (hist_step re_w tk _ _ _ _ _ _ h _ s1 a I1 F (or_introl Hk)) as [[s1' [I1' C1]] _].
    destruct (hist_step re_w tk _ _ _ _ _ _ h _ s2 a I2 F (or_introl Hk)) as [[s2' [I2' C2]] _].
    exists s1', s2'. split; [exact I1'|]. split; [exact I2'|].
    destruct C1 as [[B1 C1]|[x [p [Hx [Hh [Hw C1]]]]]], C2 as [[B2 C2]|[x2 [p2 [Hx2 [Hh2 [Hw2 C2]]]]]].
    + intros c q. rewrite C1, C2. apply Hc.
    + rewrite Hx2 in B1. contradiction.
    + rewrite Hx in B2. contradiction.
    + assert (x2 = x) by congruence; subst x2.
      destruct (inv_alike h _ _ s1 s2 (proj1 F') I1 I2 Hc) as [A N].
      pose proof (rep_ok _ TL1 _ _ (c_rep _ _ _ _ _ _ _ _ _ _ _ _ (h_core _ _ _ _ _ _ _ _ _ _ _ I1))) as T1.
      pose proof (rep_ok _ TL2 _ _ (c_rep _ _ _ _ _ _ _ _ _ _ _ _ (h_core _ _ _ _ _ _ _ _ _ _ _ I2))) as T2.
      pose proof (proj2 Hw exact_ranks) as Hw'; clear Hw; rename Hw' into Hw.
      pose proof (proj2 Hw2 exact_ranks) as Hw2'; clear Hw2; rename Hw2' into Hw2.
      apply (alike_way s2 s1) in Hw2; [|now apply alike_sym|exact T2|exact T1].
      rewrite <- (way_unique s1 1 x p N Hw p2 Hw2) in C2.
      intros c q. rewrite C1, C2, Hc. reflexivity.
Qed.

Theorem same_answers h : tk <> KLine -> fresh tk h ->
  let t1 := tree (run re_w tk HS1 DS1 TR1 v_empty h) in
  let t2 := tree (run re_w tk HS2 DS2 TR2 v_empty h) in
  forall k, tr_contains TR1 t1 k = tr_contains TR2 t2 k /\
  (added h k ->
   tr_base TR1 t1 k = tr_base TR2 t2 k /\ tr_path_to TR1 t1 k = tr_path_to TR2 t2 k /\
   tr_get_split TR1 t1 k = tr_get_split TR2 t2 k).
Proof.
  intros Hk F t1 t2 k. destruct (runs_alike h Hk F) as [s1 [s2 [I1 [I2 Hc]]]].
  destruct (inv_alike h _ _ s1 s2 (proj1 F) I1 I2 Hc) as [A N].
  destruct (answers_alike TR1 TR2 TL1 TL2 t1 t2 s1 s2
    (c_rep _ _ _ _ _ _ _ _ _ _ _ _ (h_core _ _ _ _ _ _ _ _ _ _ _ I1))
    (c_rep _ _ _ _ _ _ _ _ _ _ _ _ (h_core _ _ _ _ _ _ _ _ _ _ _ I2)) A N k) as [H1 H2].
  split; [exact H1|]. intros Ha. apply H2. intros Hn. now apply (known_added re_w tk _ _ _ _ _ _ h _ s1 k I1) in Hn.
Qed.
End Runs.

(** * Any use of the protocol *)
Section Protocol.
Context {K : Type} {E : Teq K} {O : TeqOk K}.

Lemma up_head_get (s : nodes K) q lq : up s q lq -> exists nq, dget s q = Some nq.
Proof. destruct 1; eauto. Qed.
Lemma slot_alike s s' tag n0 m0 q nq mq : alike s s' -> parent m0 = parent n0 -> base mq = base nq ->
  slot_free s tag n0 q nq -> slot_free s' tag m0 q mq.
Proof.
  intros A H1 H2. unfold slot_free. rewrite H1, H2. destruct (parent n0); [|tauto].
  intros [Hb Hc]; split; [exact Hb|]. intros c Hx. apply Hc. eapply alike_child; [apply alike_sym, A|exact Hx].
Qed.
Lemma reparented_alike s1 s1' s2 s2' tag q : alike s1 s2 -> reparented s1 s1' tag q -> reparented s2 s2' tag q -> alike s1' s2'.
Proof.
  intros [Ak A] [K1 R1] [K2 R2]. split; [congruence|]. intros u. specialize (A u); specialize (R1 u); specialize (R2 u).
  destruct (dget s1 u), (dget s2 u), (dget s1' u), (dget s2' u); try tauto.
  destruct A as [A1 [A2 A3]], R1 as [B1 [B2 B3]], R2 as [C1 [C2 C3]].
  repeat split; [|congruence|congruence]. rewrite B1, C1, A1. reflexivity.
Qed.
Lemma alike_numbered_move s s' tag q : reparented s s' tag q -> numbered s -> numbered s'.
Proof.
  intros R [N H]. pose proof R as [Kk _]. split; [now rewrite Kk|]. intros t m Hm. rewrite Kk.
  destruct R as [_ R]; specialize (R t). rewrite Hm in R. destruct (dget s t) as [n|] eqn:Hn; [|tauto].
  destruct R as [_ [_ ->]]. now apply H.
Qed.
Lemma add_numbered s tag b : numbered s -> dget s tag = None -> numbered (fst (m_add tag b s)).
Proof.
  intros [N H] Hn. unfold m_add; cbn [fst].
  assert (Hk : dkeys (dset s tag (mkNode (length s) None [] 1 1 b)) = dkeys s ++ [tag]).
  { rewrite dkeys_dset. unfold dmem; now rewrite Hn. }
  split; [now apply NoDup_dset|]. intros t n. rewrite Hk, dget_dset. destruct (teq_spec tag t) as [<-|Ht].
  - intros [= <-]; cbn [order_id]. replace (length s) with (length (dkeys s)) by apply map_length.
    rewrite nth_error_app2, Nat.sub_diag by lia; reflexivity.
  - intros Hx. rewrite nth_error_app1; [now apply H|]. apply nth_error_Some. rewrite (H t n Hx); discriminate.
Qed.
Lemma add_alike s s' tag b : alike s s' -> dget s tag = None -> alike (fst (m_add tag b s)) (fst (m_add tag b s')).
Proof.
  intros A Hn. pose proof (alike_none _ _ _ A Hn) as Hn'. destruct A as [Ak A]. unfold m_add; cbn [fst]. split.
  - rewrite !dkeys_dset. unfold dmem. rewrite Hn, Hn', Ak; reflexivity.
  - intros u. rewrite !dget_dset. destruct (teq tag u); [|apply A]. cbn. repeat split.
    apply (f_equal (@length K)) in Ak. unfold dkeys in Ak. now rewrite !map_length in Ak.
Qed.

Definition all_roomy (l : list (tree_call K)) : Prop := always sensible l /\ always slots_do l.

Theorem protocol_alike l : all_roomy l ->
  let m := tree_run (memory_tree K) l in
  let d := tree_run (db_tree K) l in
  tree_ok m /\ numbered m /\ alike m (absn d) /\ rep_db d (absn d).
Proof.
  induction l as [|c l IH] using rev_ind; intros R m d.
  - split; [apply empty_ok|]. split; [split; [constructor|discriminate]|]. split; [split; [reflexivity|intros u; exact I]|].
    exact (rep_empty _ db_law).
  - assert (Rl : all_roomy l).
    { destruct R as [R1 R2]; split; intros pre c' post ->; [apply (R1 pre c' (post ++ [c]))|apply (R2 pre c' (post ++ [c]))];
        now rewrite <- app_assoc. }
    destruct R as [R R']; specialize (R l c [] eq_refl); specialize (R' l c [] eq_refl). destruct (IH Rl) as [T [N [A D]]]; clear IH.
    unfold tree_run in R, R', T, N, A, D. unfold m, d, tree_run. rewrite !fold_left_app; cbn [fold_left].
    set (m0 := fold_left (tree_step (memory_tree K)) l (tr_empty (memory_tree K))) in *.
    set (d0 := fold_left (tree_step (db_tree K)) l (tr_empty (db_tree K))) in *.
    change (tree_t (memory_tree K)) with (nodes K) in m0. change (tree_t (db_tree K)) with (table K) in d0.
    destruct c as [tag b|tag q]; cbn [sensible slots_do tree_step] in *.
    + destruct (db_add_ok d0 (absn d0) tag b D (alike_none _ _ _ A R)) as [t' [Ha D']].
      cbn [tr_add memory_tree db_tree]. rewrite Ha; cbn [fst].
      pose proof D' as [Heq _]. rewrite <- Heq.
      split; [now apply add_ok|]. split; [now apply add_numbered|]. split; [now apply add_alike|exact D'].
    + destruct R as [H0 [lq [Hu Hn]]]. destruct (dget m0 tag) as [n0|] eqn:H0'; [clear H0; rename H0' into H0|now destruct H0].
      destruct (up_head_get _ _ _ Hu) as [nq Hq]. specialize (R' n0 nq eq_refl Hq). rename R' into SF.
      destruct (alike_get _ _ _ _ A H0) as [e0 [He0 [Hp0 [_ _]]]].
      destruct (alike_get _ _ _ _ A Hq) as [eq [Heq [_ [Hbq _]]]].
      destruct (change_parent_ok m0 tag n0 q lq T H0 Hu Hn) as [s3 [m1 [Hm1 [T1 [MT SS]]]]].
      destruct (move_ok d0 (absn d0) tag q e0 eq lq D He0 Heq (alike_up _ _ _ _ A Hu) Hn) as [d1 [s1 [Hd1 [D1 R1]]]].
      { eapply slot_alike; eauto. }
      cbn [tr_change_parent memory_tree db_tree]. rewrite Hm1, Hd1; cbn [fst].
      pose proof (moved_reparented _ _ _ _ _ _ MT SS) as Rm.
      pose proof D1 as [Heq1 _]. rewrite <- Heq1.
      split; [exact T1|]. split; [eapply alike_numbered_move; eauto|]. split; [eapply reparented_alike; eauto|].
      exact D1.
Qed.
Theorem protocol_answers l : all_roomy l ->
  let m := tree_run (memory_tree K) l in
  let d := tree_run (db_tree K) l in
  forall k, d_contains d k = m_contains m k /\
  (m_contains m k = true ->
   d_base_version d k = m_base_version m k /\ d_path_to d k = m_path_to m k /\ d_get_split d k = m_get_split m k /\
   forall i r n, nth_error d i = Some r -> r_tag r = k -> dget m k = Some n -> r_height r = height n).
Proof.
  intros R m d k. destruct (protocol_alike l R) as [T [N [A D]]]. fold m in T, N, A. fold d in A, D.
  destruct (answers_alike (memory_tree K) (db_tree K) memory_law db_law m d m (absn d)
    (conj eq_refl T) D A N k) as [H1 H2].
  split; [symmetry; exact H1|]. unfold m_contains, dmem. intros Hk.
  destruct (dget m k) as [n|] eqn:Hn; [|discriminate].
  destruct H2 as [B1 [B2 B3]]; [discriminate|].
  split; [symmetry; exact B1|]. split; [symmetry; exact B2|]. split; [symmetry; exact B3|].
  intros i r n' Hi Hr [= <-]. pose proof D as [_ [L Td]].
  pose proof (absn_get d i r (l_tags _ L) Hi) as Hg. rewrite Hr in Hg.
  exact (alike_height m (absn d) k n (node_of d i r) A T Td Hn Hg).
Qed.
End Protocol.

(** * DBCollection *)
Section Coll.
Context {K V : Type} {E : Teq K} {O : TeqOk K}.
Notation rows := (rows (K := K) (V := V)).
Implicit Type t : rows.

Lemma perm_insert (x : K * V) t n : Permutation (firstn n t ++ x :: skipn n t) (x :: t).
Proof. rewrite <- (firstn_skipn n t) at 3. symmetry; apply Permutation_middle. Qed.
Lemma NoDup_keys_perm t t' : Permutation t t' -> NoDup (map fst t) -> NoDup (map fst t').
Proof. intros P; apply Permutation_NoDup, Permutation_map, P. Qed.

Lemma set_NoDup n k v t : NoDup (map fst t) -> NoDup (map fst (c_setitem n k v t)).
Proof.
  intros N. unfold c_setitem. destruct (select t k) as [v0|] eqn:H.
  - rewrite map_map. erewrite map_ext; [exact N|]. intros [a b]; cbn. now destruct (teq a k).
  - eapply NoDup_keys_perm; [symmetry; apply perm_insert|]. cbn. constructor; [now apply select_none in H|exact N].
Qed.
Lemma set_select n k v t u : NoDup (map fst t) ->
  select (c_setitem n k v t) u = if teq k u then Some v else select t u.
Proof.
  intros N. pose proof (set_NoDup n k v t N) as N'. unfold c_setitem in *. destruct (select t k) as [v0|] eqn:H.
  - destruct (teq_spec k u) as [<-|Hu].
    + apply select_some; [exact N'|]. apply in_map_iff. exists (k, v0). split; [cbn; now rewrite teq_refl|].
      now apply select_some.
    + destruct (select t u) as [w|] eqn:Hw.
      * apply select_some; [exact N'|]. apply in_map_iff. exists (u, w). split; [|now apply select_some].
        cbn. destruct (teq_spec u k); congruence.
      * apply select_none. apply select_none in Hw. rewrite map_map. erewrite map_ext; [exact Hw|].
        intros [a b]; cbn. now destruct (teq a k).
  - rewrite (select_perm _ ((k, v) :: t)).
    + unfold select; cbn. now destruct (teq k u).
    + exact N'.
    + intros p. split; apply Permutation_in; [|symmetry]; apply perm_insert.
    + cbn. constructor; [now apply select_none in H|exact N].
Qed.
Lemma filter_keys f t : map fst (filter (fun r => f (fst r)) t) = filter f (map fst t).
Proof. induction t as [|[a b] t IH]; cbn; [reflexivity|]. destruct (f a); cbn; now rewrite IH. Qed.
Lemma del_ok k t : NoDup (map fst t) -> select t k <> None ->
  exists t', c_delitem k t = (t', Ok tt) /\ NoDup (map fst t') /\
    forall u, select t' u = if teq k u then None else select t u.
Proof.
  intros N H. unfold c_delitem. unfold select in H.
  destruct (filter (fun r => teq (fst r) k) t) as [|x l] eqn:Hf; [now destruct H|]. clear H.
  eexists; split; [reflexivity|].
  assert (N' : NoDup (map fst (filter (fun r => negb (teq (fst r) k)) t))).
  { rewrite (filter_keys (fun a => negb (teq a k))). now apply NoDup_filter. }
  split; [exact N'|]. intros u. destruct (teq_spec k u) as [<-|Hu].
  - apply select_none. rewrite (filter_keys (fun a => negb (teq a k))), filter_In, teq_refl. intros [_ C]; discriminate.
  - destruct (select t u) as [w|] eqn:Hw.
    + apply select_some; [exact N'|]. apply filter_In. split; [now apply select_some|]. cbn.
      destruct (teq_spec u k); [congruence|reflexivity].
    + apply select_none. apply select_none in Hw. rewrite (filter_keys (fun a => negb (teq a k))), filter_In. tauto.
Qed.
Lemma del_none k t : select t k = None -> c_delitem k t = (t, Err KeyError).
Proof. unfold c_delitem, select. destruct (filter (fun r => teq (fst r) k) t) as [|[a b] l]; [reflexivity|discriminate]. Qed.

Definition mirrors t (d : dict K V) : Prop :=
  NoDup (map fst t) /\ NoDup (dkeys d) /\ forall k, select t k = dget d k.
Lemma mirrors_perm t d : mirrors t d -> Permutation (map fst t) (dkeys d).
Proof.
  intros [N1 [N2 H]]. apply NoDup_Permutation; auto. intros k. pose proof (H k) as Hk.
  destruct (select t k) as [v|] eqn:Hs.
  - split; intros _.
    + symmetry in Hk. now apply dget_Some_key in Hk.
    + apply select_some in Hs; [|exact N1]. apply (in_map fst) in Hs; exact Hs.
  - apply select_none in Hs. symmetry in Hk. apply dget_None in Hk. tauto.
Qed.
Lemma call_mirrors place t d c : mirrors t d -> mirrors (fst (coll_call place t c)) (fst (dict_call d c)) /\
  same_answer (snd (coll_call place t c)) (snd (dict_call d c)).
Proof.
  intros M. pose proof M as [N1 [N2 H]]. destruct c as [k v|k|k|k| |]; cbn [coll_call dict_call fst snd].
  - split; [|reflexivity]. split; [now apply set_NoDup|]. split; [now apply NoDup_dset|].
    intros u. rewrite set_select, dget_dset, H by exact N1. reflexivity.
  - split; [exact M|]. unfold c_getitem. rewrite H. now destruct (dget d k).
  - unfold dmem. destruct (dget d k) as [v|] eqn:Hd.
    + destruct (del_ok k t N1) as [t' [-> [N' Hs]]]; [rewrite H, Hd; discriminate|]. cbn.
      split; [|reflexivity]. split; [exact N'|]. split; [now apply NoDup_ddel|].
      intros u. rewrite Hs. destruct (teq_spec k u) as [<-|Hu].
      * symmetry; now apply dget_ddel_same.
      * rewrite dget_ddel_other by exact Hu. apply H.
    + rewrite del_none by (now rewrite H). cbn. split; [exact M|reflexivity].
  - split; [exact M|]. unfold c_contains, dmem. rewrite H. now destruct (dget d k).
  - split; [exact M|]. cbn. f_equal; f_equal. unfold c_len. rewrite <- (map_length fst t), <- (map_length fst d).
    apply Permutation_length, mirrors_perm, M.
  - split; [exact M|]. cbn. now apply mirrors_perm.
Qed.
Theorem collection_like_dict places (l : list (map_call K V)) :
  Forall2 same_answer (coll_calls places [] l) (dict_calls [] l).
Proof.
  assert (M0 : mirrors [] []) by (split; [constructor|split; [constructor|reflexivity]]).
  revert places M0. generalize (@nil (K * V)) at 1 3. generalize (@nil (K * V)).
  induction l as [|c l IH]; intros d t places M; cbn [coll_calls dict_calls]; [constructor|].
  destruct (call_mirrors (places 0) t d c M) as [M' A].
  destruct (coll_call (places 0) t c) as [t' r], (dict_call d c) as [d' r']. cbn in *.
  constructor; [exact A|]. now apply IH.
Qed.
End Coll.

Section Law.
Context {K : Type} {E : Teq K} {O : TeqOk K}.
Variable place : rows (K := K) (V := list Z) -> nat.

Lemma filter_none {A} (f : A -> bool) l : (forall x, In x l -> f x = false) -> filter f l = [].
Proof.
  induction l as [|x l IH]; cbn; intros H; [reflexivity|]. rewrite (H x (or_introl eq_refl)).
  apply IH; intros y Hy; apply H; now right.
Qed.
Lemma set_select_any n k (v : list Z) (t : rows (K := K)) u :
  select (c_setitem n k v t) u = if teq k u then Some v else select t u.
Proof.
  unfold c_setitem. destruct (select t k) as [v0|] eqn:H.
  - destruct (teq_spec k u) as [<-|Hu].
    + unfold select in *. induction t as [|[a b] t IH]; cbn in *; [discriminate|].
      destruct (teq a k) eqn:Ha; cbn; rewrite Ha; [reflexivity|]. now apply IH.
    + unfold select. clear H. f_equal. induction t as [|[a b] t IH]; cbn; [reflexivity|].
      destruct (teq_spec a k) as [->|Ha]; cbn.
      * rewrite (proj2 (teq_false k u) Hu). exact IH.
      * destruct (teq a u); [f_equal|]; exact IH.
  - unfold select in *. rewrite filter_app; cbn [filter fst].
    assert (Hf : filter (fun r => teq (fst r) u) t =
      filter (fun r => teq (fst r) u) (firstn n t) ++ filter (fun r => teq (fst r) u) (skipn n t)).
    { rewrite <- filter_app, firstn_skipn; reflexivity. }
    destruct (teq_spec k u) as [<-|Hu].
    + destruct (filter (fun r => teq (fst r) k) t) as [|[a b] l]; [|discriminate].
      symmetry in Hf. apply app_eq_nil in Hf as [-> ->]. reflexivity.
    + now rewrite Hf.
Qed.
Definition db_store_law : store_law (db_store K place).
Proof.
  refine (@Build_store_law K E (db_store K place)
    (fun t k => select t k) (fun t => NoDup (map fst t)) _ _ _ _ _ _ _);
    cbn [db_store store_t s_empty s_get s_set s_del s_mem].
  - constructor.
  - intros d k b; apply set_NoDup.
  - reflexivity.
  - intros d k. unfold c_getitem. reflexivity.
  - intros d k b u; apply set_select_any.
  - intros d k; apply del_ok.
  - reflexivity.
Defined.
End Law.

Section Both.
Context {K : Type} {E : Teq K} {O : TeqOk K}.
Variable re_w : Z -> bool.
Variable tk : tkind.
Notation D := (dict_store K).
Notation C := (db_store K).
Notation M := (memory_tree K).
Notation T := (db_tree K).

Theorem both_interchangeable place1 place2 h k : tk <> KLine -> fresh tk h ->
  let m := tree (run re_w tk D D M v_empty h) in
  let d := tree (run re_w tk D D T v_empty h) in
  let c := tree (run re_w tk (C place1) (C place2) T v_empty h) in
  (m_contains m k = d_contains d k /\ m_contains m k = d_contains c k) /\
  (added h k ->
    (m_base_version m k = d_base_version d k /\ m_path_to m k = d_path_to d k /\ m_get_split m k = d_get_split d k) /\
    (m_base_version m k = d_base_version c k /\ m_path_to m k = d_path_to c k /\ m_get_split m k = d_get_split c k)).
Proof.
  intros Hk F m d c.
  destruct (same_answers re_w tk D D D D M T dict_law dict_law memory_law dict_law dict_law db_law h Hk F k) as [A1 A2].
  destruct (same_answers re_w tk D D (C place1) (C place2) M T dict_law dict_law memory_law
    (db_store_law place1) (db_store_law place2) db_law h Hk F k) as [B1 B2].
  split; [exact (conj A1 B1)|]. intros Ha. exact (conj (A2 Ha) (B2 Ha)).
Qed.

Theorem versions_same place1 place2 h : tk <> KLine -> fresh tk h ->
  let m := run re_w tk D D M v_empty h in
  let c := run re_w tk (C place1) (C place2) T v_empty h in
  (forall t, get re_w tk (C place1) (C place2) T c t = get re_w tk D D M m t) /\
  (forall t, contains (C place1) (C place2) T c t = contains D D M m t) /\
  (forall a, fresh tk (h ++ [a]) ->
     (add_result re_w tk (C place1) (C place2) T c a = Ok tt <-> add_result re_w tk D D M m a = Ok tt)).
Proof.
  intros Hk F m c.
  destruct (retrieval re_w tk D D M dict_law dict_law memory_law h Hk F) as [R1 R2].
  destruct (retrieval re_w tk _ _ T (db_store_law place1) (db_store_law place2) db_law h Hk F) as [S1 S2].
  split; [|split].
  - intros t. destruct (V_of h t) as [b|] eqn:Hv.
    + apply V_of_some in Hv as [base Hin]. unfold c, m. rewrite (R1 _ _ _ Hin). exact (S1 _ _ _ Hin).
    + apply V_of_none in Hv. unfold c, m. rewrite (R2 _ Hv). exact (S2 _ Hv).
  - intros t. symmetry. exact (proj2 (proj1 (both_interchangeable place1 place2 h t Hk F))).
  - intros a Fa. destruct (results re_w tk D D M dict_law dict_law memory_law h a Hk Fa) as [A1 A2].
    destruct (results re_w tk _ _ T (db_store_law place1) (db_store_law place2) db_law h a Hk Fa) as [B1 B2].
    fold m in A1, A2. fold c in B1, B2.
    destruct (base_of a) as [x|].
    + destruct (hist_ok re_w tk D D M dict_law dict_law memory_law h Hk F) as [s I].
      destruct (is_head_dec re_w tk D D M dict_law dict_law memory_law h x _ s I) as [Hx|Hx].
      * rewrite (A1 Hx), (B1 Hx). reflexivity.
      * destruct (A2 Hx) as [e [-> _]], (B2 Hx) as [e' [-> _]]. split; discriminate.
    + rewrite (A1 I), (B1 I). reflexivity.
Qed.

Theorem collections_ok place1 place2 h : tk <> KLine -> valid tk h ->
  let v := run re_w tk (C place1) (C place2) T v_empty h in
  (forall t b base, In (t, b, base) h -> get re_w tk (C place1) (C place2) T v t = Ok (Some b)) /\
  (forall t, ~ added h t -> get re_w tk (C place1) (C place2) T v t = Ok None) /\
  (forall t, contains (C place1) (C place2) T v t = true <-> added h t) /\
  (forall t b base, In (t, b, base) h -> d_base_version (tree v) t = Ok base) /\
  (forall t, c_contains (heads v) t = true <-> is_head h t) /\
  (forall t, c_contains (diffs v) t = true <-> added h t /\ ~ is_head h t) /\
  (forall a, valid tk (h ++ [a]) -> add_result re_w tk (C place1) (C place2) T v a = Ok tt).
Proof.
  intros Hk [F V] v.
  destruct (retrieval re_w tk _ _ T (db_store_law place1) (db_store_law place2) db_law h Hk F) as [S1 S2].
  destruct (base_reported re_w tk _ _ T (db_store_law place1) (db_store_law place2) db_law h Hk F) as [B1 B2].
  destruct (stored_once re_w tk _ _ T (db_store_law place1) (db_store_law place2) db_law h Hk F) as [H1 [H2 _]].
  split; [exact S1|]. split; [exact S2|]. split; [exact B1|]. split; [exact B2|]. split; [exact H1|]. split; [exact H2|].
  intros a Va. apply (results re_w tk _ _ T (db_store_law place1) (db_store_law place2) db_law h a Hk (proj1 Va)).
  exact (proj2 (valid_snoc tk h a Va)).
Qed.
End Both.
