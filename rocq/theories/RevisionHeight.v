(** Where the recorded heights of src/deprecated/revision_tree.py are right. *)
From Coq Require Import Lia Permutation.
From Verif Require Import Base TreeShape TreeRake Revision SpecRevision RevisionProofs RevisionInsert RevisionStep RevisionShape RevisionTree RevisionState RevisionSound.
Local Open Scope nat_scope.

Section R.
Context {K : Type} {E : Teq K} {O : TeqOk K}.
Notation rake := (rake (K := K)).
Notation rnodes := (dict K (rnode K)).
Implicit Type s : rnodes.
Implicit Type l : rake.

Lemma nodup_end {A} (a b : list A) : NoDup (a ++ b) -> NoDup b.
Proof. intros N. now apply nodup_app in N. Qed.
Lemma chain_here (q : K) t1 v t2 c : hd_error t2 = Some c -> In (v, c) (chain q (t1 ++ v :: t2)).
Proof.
  revert q; induction t1 as [|d t1 IH]; intros q H; cbn [app chain].
  - right. destruct t2 as [|d t2]; [discriminate|]. injection H as ->. now left.
  - right. now apply IH.
Qed.
Lemma redges_at l1 q t l2 u c : In (u, c) (chain q t) \/ (u = q /\ first_of l2 = Some c) -> In (u, c) (redges (l1 ++ (q, t) :: l2)).
Proof.
  intros H. induction l1 as [|[q1 t1] l1 IH]; cbn [app redges].
  - destruct H as [H|[-> H]]; apply in_or_app; [now left|right]. rewrite H. now left.
  - apply in_or_app; right. apply in_or_app; now right.
Qed.

Section Good.
Variable rt : rtree K.
Variable l : rake.
Variable ts : list K.
Variable G : good rt l ts.
Notation s := (r_index rt).

Lemma child_edge v c : child s c v -> In (v, c) (redges l).
Proof.
  intros [n [Gv H]]. destruct (good_place rt l ts G v n Gv) as [[l1 [t [l2 [Q [L [R _]]]]]]|[l1 [q [t1 [t2 [l2 [Q [LR _]]]]]]]]; rewrite Q; apply redges_at.
  - rewrite L, R in H. destruct H as [H|H]; [right; auto|left]. destruct t as [|d t]; [discriminate|]. injection H as ->. now left.
  - left. apply chain_here. destruct LR as [[A B]|[A B]]; rewrite A, B in H; destruct H as [H|H]; congruence.
Qed.
Lemma two_children v n c : dget s v = Some n -> r_left n = Some c -> r_right n = Some c -> False.
Proof.
  intros Gv A B. destruct (good_place rt l ts G v n Gv) as [[l1 [t [l2 [Q [L [R _]]]]]]|[l1 [q [t1 [t2 [l2 [Q [LR _]]]]]]]].
  - rewrite L in A. rewrite R in B. pose proof (good_nd rt l ts G) as N. rewrite Q in N. unfold rtags in N. rewrite flat_map_app in N. apply nodup_end in N.
    destruct l2 as [|[q2 t2] l2]; [discriminate|]. injection A as ->. destruct t as [|d t]; [discriminate|]. injection B as ->.
    cbn in N. inversion N as [|? ? _ N2]; subst. inversion N2 as [|? ? X _]; subst. apply X. apply in_or_app; right. now left.
  - destruct LR as [[X Y]|[X Y]]; congruence.
Qed.

Variable es : list (K * K).
Hypothesis P : Permutation es (redges l).
Let so := good_sound rt l ts G.
Lemma edge_child u c : In (u, c) es <-> child s c u.
Proof.
  split; intros H.
  - apply (redges_child s l None u c (g_spine _ _ _ G)). exact (Permutation_in _ P H).
  - apply (Permutation_in _ (Permutation_sym P)). now apply child_edge.
Qed.
Definition one_way (v : K) : Prop := forall u p c c', route es v p u -> In (u, c) es -> In (u, c') es -> c = c'.

Lemma states_child c : forall a, r_states s (Some c) = Ok a -> exists n, dget s c = Some n /\ r_size n = snd a.
Proof. intros a. unfold r_states, node_at. destruct (dget s c) as [n|]; [|discriminate]. intros H. exists n. split; [reflexivity|]. now injection H as <-. Qed.
Lemma exact_size z : forall v n, dget s v = Some n -> r_size n <= z -> ((exists p w, route es v p w /\ length p = r_size n) <-> one_way v).
Proof.
  assert (C1 : forall v n, dget s v = Some n -> forall c, r_left n = Some c \/ r_right n = Some c -> In (v, c) es).
  { intros v n Gv c H. apply edge_child. exists n. auto. }
  assert (C2 : forall v n, dget s v = Some n -> forall c, In (v, c) es -> r_left n = Some c \/ r_right n = Some c).
  { intros v n Gv c H. apply edge_child in H as [m [Gm H]]. rewrite Gv in Gm. now injection Gm as <-. }
  induction z as [|z IH]; intros v n Gv L; destruct (so_states _ so v n Gv) as [a [b [A [B [_ Z]]]]]; [lia|].
  assert (ONE : forall c, (forall c', In (v, c') es <-> c' = c) -> forall nc, dget s c = Some nc -> r_size n = 1 + r_size nc ->
    ((exists p w, route es v p w /\ length p = r_size n) <-> one_way v)).
  { intros c Hc nc Gc Zc. specialize (IH c nc Gc ltac:(lia)). split.
    - intros (p & w & R & Lp). inversion R as [|? y q ? I1 R1]; subst.
      + exfalso. cbn in Lp. destruct (so_states _ so c nc Gc) as [a' [b' [_ [_ [_ Zc']]]]]. lia.
      + apply Hc in I1 as ->. cbn [length] in Lp. assert (OW : one_way c) by (apply IH; exists q, w; split; [exact R1|lia]).
        intros u p c1 c2 R2 I1 I2. inversion R2 as [|? y2 q2 ? I3 R3]; subst; [apply Hc in I1 as ->; apply Hc in I2 as ->; reflexivity|].
        apply Hc in I3 as ->. exact (OW u q2 c1 c2 R3 I1 I2).
    - intros OW. destruct (proj2 IH) as (p & w & R & Lp).
      + intros u p c1 c2 R I1 I2. refine (OW u (v :: p) c1 c2 _ I1 I2). apply route_on with c; [now apply Hc|exact R].
      + exists (v :: p), w. split; [apply route_on with c; [now apply Hc|exact R]|]. cbn [length]. lia. }
  destruct (r_left n) as [c1|] eqn:E1, (r_right n) as [c2|] eqn:E2.
  - destruct (states_child c1 a A) as [n1 [G1 Z1]]. destruct (states_child c2 b B) as [n2 [G2 Z2]].
    destruct (so_states _ so c1 n1 G1) as [a1 [b1 [_ [_ [_ X1]]]]]. destruct (so_states _ so c2 n2 G2) as [a2 [b2 [_ [_ [_ X2]]]]].
    split.
    + intros (p & w & R & Lp). exfalso. inversion R as [|? y q ? I1 R1]; subst; [cbn in Lp; lia|]. cbn [length] in Lp.
      assert (forall u v, In (u, v) es -> child s v u) as EC by (intros; now apply edge_child).
      destruct (C2 v n Gv y I1) as [Q|Q]; [rewrite E1 in Q|rewrite E2 in Q]; injection Q as <-;
        [pose proof (route_size s es so EC c1 q w n1 R1 G1)|pose proof (route_size s es so EC c2 q w n2 R1 G2)]; lia.
    + intros OW. exfalso. apply (two_children v n c1 Gv E1). rewrite E2. f_equal. symmetry.
      apply (OW v [v] c1 c2); [constructor|apply (C1 v n Gv); now left|apply (C1 v n Gv); now right].
  - destruct (states_child c1 a A) as [n1 [G1 Z1]]. cbn in B. injection B as <-. apply (ONE c1) with n1; [|exact G1|cbn [snd] in Z; lia].
    intros c'. split; [|intros ->; apply (C1 v n Gv); now left]. intros H. destruct (C2 v n Gv c' H); congruence.
  - destruct (states_child c2 b B) as [n2 [G2 Z2]]. cbn in A. injection A as <-. apply (ONE c2) with n2; [|exact G2|cbn [snd] in Z; lia].
    intros c'. split; [|intros ->; apply (C1 v n Gv); now right]. intros H. destruct (C2 v n Gv c' H); congruence.
  - cbn in A, B. injection A as <-. injection B as <-. cbn [snd] in Z. assert (NE : forall c, ~ In (v, c) es) by (intros c H; destruct (C2 v n Gv c H); congruence).
    split; [|intros _; exists [v], v; split; [constructor|cbn; lia]]. intros _ u p c c' R I1 I2. exfalso.
    inversion R as [|? y q ? I3 R3]; subst; [exact (NE c I1)|exact (NE y I3)].
Qed.
End Good.

Theorem heights_exactly ts : NoDup ts -> exists t es, r_insert_all ts r_empty = Ok t /\ r_edges t = Ok es /\
  forall v, In v ts -> exists z h, r_get_state t v = Some (z, h) /\
    ((exists p w, route es v p w /\ length p = h) <-> forall u p c c', route es v p u -> In (u, c) es -> In (u, c') es -> c = c').
Proof.
  intros N. destruct ts as [|b ts].
  - exists r_empty, []. split; [reflexivity|split; [reflexivity|intros v []]].
  - destruct (insertions (b :: ts) N ltac:(discriminate)) as [rt [l [I [G _]]]]. destruct (good_edges rt l _ G) as [es [Q P]]. exists rt, es.
    split; [exact I|split; [exact Q|]]. intros v Hv. destruct (good_state rt l _ v G Hv) as [z [St _]]. exists z, z. split; [exact St|].
    unfold r_get_state in St. destruct (dget (r_index rt) v) as [n|] eqn:Gv; [|discriminate]. injection St as Z _. rewrite <- Z.
    exact (exact_size rt l _ G es P (r_size n) v n Gv (le_n _)).
Qed.
End R.
