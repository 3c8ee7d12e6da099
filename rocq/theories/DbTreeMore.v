(** Calls of the two trees on tags that exist already or do not exist (C41). *)
From Verif Require Import Base Tree SpecTree TreeProofs DbTree SpecDb DbTreeProofs.
Local Open Scope nat_scope.

Section More.
Context {K : Type} {E : Teq K} {O : TeqOk K}.

Lemma existing_tag (d : table K) (m : nodes K) k base :
  (d_contains d k = true -> d_add k base d = (d, Err IntegrityError)) /\
  (m_contains m k = true -> exists m', m_add k base m = (m', Ok tt) /\
     dkeys m' = dkeys m /\ m_base_version m' k = Ok base /\ m_path_to m' k = Ok (Some [k]) /\
     forall j, j <> k -> dget m' j = dget m j).
Proof.
  split.
  - unfold d_contains, d_add. destruct (row_of d k); [reflexivity|discriminate].
  - unfold m_contains, m_add. intros H. eexists; split; [reflexivity|]. split; [|split; [|split]].
    + rewrite dkeys_dset; now rewrite H.
    + unfold m_base_version. now rewrite dget_dset_same.
    + unfold m_path_to. cbn [path_loop]. rewrite dget_dset_same. cbn [parent path_loop rev app].
      destruct (length (dset m k (mkNode (length m) None [] 1 1 base))); reflexivity.
    + intros j Hj. apply dget_dset_other; congruence.
Qed.

Lemma unknown_tag (d : table K) (m : nodes K) k q :
  (d_contains d k = false -> d_base_version d k = Err TypeError /\ d_change_parent k q d = (d, Err TypeError)) /\
  (m_contains m k = false -> m_base_version m k = Err KeyError /\ m_path_to m k = Ok None /\
     m_change_parent k (Some q) m = (m, Err KeyError)).
Proof.
  split.
  - unfold d_contains, d_base_version, d_change_parent. destruct (row_of d k) as [[? ?]|]; [discriminate|auto].
  - unfold m_contains, m_base_version, m_path_to, m_change_parent. cbn [path_loop].
    unfold dmem; intros H. destruct (dget m k); [discriminate|auto].
Qed.
Lemma unknown_parent (d : table K) (m : nodes K) k q :
  (d_contains d k = true -> d_contains d q = false -> d_change_parent k q d = (d, Err TypeError)) /\
  (m_contains m k = true -> m_contains m q = false -> snd (m_change_parent k (Some q) m) = Err KeyError).
Proof.
  split.
  - unfold d_contains, d_change_parent. destruct (row_of d k) as [[i r]|]; [|discriminate]. intros _ H.
    rewrite rid_of_none; [reflexivity|]. intros I.
    assert (T : map r_tag (update_at (r_parent_rid r) (remove_if_child1 i) (update_at (r_parent_rid r) (remove_if_child0 i) d)) = map r_tag d).
    { destruct (r_parent_rid r) as [j|]; [|reflexivity]. cbn [update_at].
      apply nth_error_ext_local. intros x. rewrite !nth_error_map, !nth_error_lupd.
      destruct (j =? x); [|reflexivity]. destruct (nth_error d x) as [y|]; [|reflexivity]. cbn [option_map]. f_equal.
      unfold remove_if_child1. destruct (is_rid _ i); cbn [set_child1 r_tag]; unfold remove_if_child0; now destruct (is_rid _ i). }
    rewrite T in I. revert H I. unfold row_of, rid_of.
    assert (G : forall l j, In q (map r_tag l) -> exists x y, rid_from j l q = Some (j + x) /\ nth_error l x = Some y).
    { induction l as [|y l IH]; intros j I; [destruct I|]. destruct I as [I|I]; cbn [map rid_from] in *.
      - rewrite I, teq_refl. exists 0, y. split; [f_equal; lia|reflexivity].
      - destruct (teq (r_tag y) q); [exists 0, y; split; [f_equal; lia|reflexivity]|].
        destruct (IH (S j) I) as (x & z & -> & Z). exists (S x), z. split; [f_equal; lia|exact Z]. }
    intros H I. destruct (G d 0 I) as (x & y & X & Y). rewrite X in H. cbn [Nat.add] in H. rewrite Y in H. discriminate.
  - unfold m_contains, dmem, m_change_parent. destruct (dget m k) as [n|] eqn:Hk; [|discriminate]. intros _ H.
    destruct (dget m q) eqn:Hq; [discriminate|]. assert (Q : k <> q) by congruence.
    destruct (parent n) as [p|].
    + destruct (dget m p) as [np|] eqn:Hp; [|reflexivity]. rewrite dget_dset_other by exact Q.
      assert (X : dget (if mem_tag k (children np) then dset m p (set_children np (remove1 k (children np))) else m) q = None).
      { destruct (mem_tag k (children np)); [|exact Hq]. rewrite dget_dset_other; [exact Hq|congruence]. }
      rewrite X. reflexivity.
    + rewrite dget_dset_other by exact Q. rewrite Hq. reflexivity.
Qed.
End More.
