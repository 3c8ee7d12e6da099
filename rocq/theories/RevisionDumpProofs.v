(** Proofs about [revision_dot_dump]. *)
From Coq Require Import Lia Permutation Sorted.
From Verif Require Import Base Revision SpecRevision RevisionShape RevisionTree RevisionDump.
Local Open Scope Z_scope.

(** an edge goes from a tag to one inserted before *)
Lemma edges_back {K} {E : Teq K} {O : TeqOk K} (ts : list K) : NoDup ts -> forall t es, r_insert_all ts r_empty = Ok t -> r_edges t = Ok es ->
  forall u v, In (u, v) es -> exists l1 l2 l3, ts = l1 ++ v :: l2 ++ u :: l3.
Proof.
  induction ts as [|a ts IH] using rev_ind; intros N t es I He u v H.
  - injection I as <-. injection He as <-. contradiction.
  - assert (N0 : NoDup ts) by (pose proof (NoDup_remove_1 _ _ _ N) as A; now rewrite app_nil_r in A).
    destruct (one_more ts a N) as (t0 & t1 & es0 & es1 & ins & rem & I0 & E0 & I1 & E1 & X & _ & F & _).
    rewrite insert_all_snoc, I0 in I. cbn [bind] in I. rewrite I1 in I. injection I as <-. cbn [fst] in He. rewrite E1 in He. injection He as <-.
    apply X in H as [[H _]|H].
    + destruct (IH N0 _ _ I0 E0 u v H) as (l1 & l2 & l3 & ->). exists l1, l2, (l3 ++ [a]). now rewrite <- !app_assoc; cbn; rewrite <- app_assoc.
    + pose proof (F _ H) as Fu. cbn in Fu. subst u.
      destruct (tree_of (ts ++ [a]) a N ltac:(now destruct ts)) as (t2 & es2 & I2 & E2 & _ & _ & P & _ & _).
      rewrite insert_all_snoc, I0 in I2. cbn [bind] in I2. rewrite I1 in I2. injection I2 as <-. cbn [fst] in E2. rewrite E1 in E2. injection E2 as <-.
      rewrite removelast_last in P.
      assert (V : In v ts). { apply (Permutation_in v P). apply in_map_iff. exists (a, v). split; [reflexivity|]. apply X. now right. }
      apply in_split in V as (l1 & l2 & ->). exists l1, l2, []. now rewrite <- app_assoc.
Qed.
Lemma increasing_before (l1 l2 l3 : list Z) v u : StronglySorted Z.lt (l1 ++ v :: l2 ++ u :: l3) -> v < u.
Proof.
  induction l1 as [|x l1 IH]; cbn; intros S; inversion S as [|? ? S' F]; subst; [|now apply IH].
  rewrite Forall_forall in F. apply F. apply in_or_app. right. now left.
Qed.
Lemma sorted_nodup (ts : list Z) : StronglySorted Z.lt ts -> NoDup ts.
Proof.
  induction 1 as [|x l S IH F]; constructor; auto. intros H. rewrite Forall_forall in F. specialize (F _ H). lia.
Qed.
Theorem dump_increasing (ts : list Z) : StronglySorted Z.lt ts -> exists t es, r_insert_all ts r_empty = Ok t /\ r_edges t = Ok es /\ revision_dump t = Ok es.
Proof.
  intros S. pose proof (sorted_nodup ts S) as N. destruct ts as [|b ts].
  - exists r_empty, []. repeat split.
  - destruct (tree_of (b :: ts) b N ltac:(discriminate)) as (t & es & I & He & _). exists t, es. split; [exact I|]. split; [exact He|].
    unfold revision_dump. rewrite He. cbn [bind]. f_equal.
    assert (X : forall u v, In (u, v) es -> v < u).
    { intros u v H. destruct (edges_back _ N t es I He u v H) as (l1 & l2 & l3 & Q). rewrite Q in S. exact (increasing_before _ _ _ _ _ S). }
    clear - X. induction es as [|[u v] es IH]; [reflexivity|]. cbn [map]. rewrite IH; [|intros; apply X; now right].
    unfold sorted_pair. cbn [fst snd]. destruct (Z.ltb_spec v u); [reflexivity|]. specialize (X u v (or_introl eq_refl)). lia.
Qed.
Theorem dump_any (ts : list Z) : NoDup ts -> exists t es w, r_insert_all ts r_empty = Ok t /\ r_edges t = Ok es /\ revision_dump t = Ok w /\
  length w = pred (length ts) /\ NoDup w /\
  (forall x y, In (x, y) w <-> y < x /\ (In (x, y) es \/ In (y, x) es)).
Proof.
  intros N. destruct ts as [|b ts].
  - exists r_empty, [], []. repeat split; try constructor; cbn in *; try tauto.
  - destruct (tree_of (b :: ts) b N ltac:(discriminate)) as (t & es & I & He & N1 & L & P & _).
    exists t, es. eexists. split; [exact I|]. split; [exact He|]. split; [unfold revision_dump; rewrite He; reflexivity|].
    assert (X : forall u v, In (u, v) es -> u <> v).
    { intros u v H ->. destruct (edges_back _ N t es I He v v H) as (l1 & l2 & l3 & Q). rewrite Q in N. apply NoDup_remove_2 in N. apply N.
      apply in_or_app. right. apply in_or_app. right. now left. }
    assert (Y : forall u v, In (u, v) es -> In (v, u) es -> False).
    { intros u v H H'. destruct (edges_back _ N t es I He u v H) as (l1 & l2 & l3 & Q). destruct (edges_back _ N t es I He v u H') as (m1 & m2 & m3 & Q').
      rewrite Q in N, Q'. clear - N Q'. revert m1 Q'. induction l1 as [|x l1 IH]; intros [|y m1] Q'; cbn [app] in *; injection Q' as A B.
      - subst v. inversion N as [|? ? Hn _]; subst. apply Hn. apply in_or_app. right. now left.
      - subst y. inversion N as [|? ? Hn _]; subst. apply Hn. rewrite B. apply in_or_app. right. right. apply in_or_app. right. now left.
      - subst x. inversion N as [|? ? Hn _]; subst. apply Hn. apply in_or_app. right. right. apply in_or_app. right. now left.
      - inversion N as [|? ? _ N']; subst. exact (IH N' m1 B). }
    split; [rewrite map_length; cbn in *; lia|].
    assert (W : forall x y, In (x, y) (map (fun e => (snd (sorted_pair e), fst (sorted_pair e))) es) <-> y < x /\ (In (x, y) es \/ In (y, x) es)).
    { intros x y. rewrite in_map_iff. split.
      - intros [[u v] [Q H]]. unfold sorted_pair in Q. cbn [fst snd] in Q. pose proof (X _ _ H). destruct (Z.ltb_spec v u); cbn in Q; injection Q as <- <-; split; auto; lia.
      - intros [Lt [H|H]]; eexists; (split; [|exact H]); unfold sorted_pair; cbn [fst snd].
        + destruct (Z.ltb_spec y x); [reflexivity|lia].
        + destruct (Z.ltb_spec x y); [lia|reflexivity]. }
    split; [|exact W].
    clear - N1 X Y. induction es as [|[u v] es IH]; [constructor|]. inversion N1 as [|? ? Hn N2]; subst.
    cbn [map]. constructor; [|apply IH; auto; intros; [eapply X|eapply Y]; right; eassumption].
    rewrite in_map_iff. intros [[u' v'] [Q H]]. pose proof (X u v (or_introl eq_refl)). pose proof (X u' v' (or_intror H)).
    unfold sorted_pair in Q. cbn [fst snd] in Q. destruct (Z.ltb_spec v u), (Z.ltb_spec v' u'); cbn in Q; injection Q as -> ->; auto;
      eapply Y; [left; reflexivity|right; exact H|left; reflexivity|right; exact H].
Qed.
