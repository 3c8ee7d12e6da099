(** Adding a version to a tree of the shape of TreeShape.v keeps the shape (C66). *)
From Coq Require Import Lia Permutation.
From Verif Require Import Base Tree SpecTree TreeProofs TreeExact TreeComb TreeShape DbVersions.
Local Open Scope nat_scope.

Section Rake.
Context {K : Type} {E : Teq K} {O : TeqOk K}.
Implicit Type s : nodes K.
Notation rake := (rake (K := K)).

Lemma first_rtags (l : rake) x : first_of l = Some x -> exists r, rtags l = x :: r.
Proof. destruct l as [|[q t] l]; cbn; [discriminate|]. intros H; injection H as ->. eauto. Qed.
Lemma redges_first (l : rake) x u v : NoDup (rtags l) -> first_of l = Some x -> In (u, v) (redges l) -> v <> x.
Proof.
  intros N F H. apply redges_target in H. destruct (first_rtags _ _ F) as [r Q]. rewrite Q in N, H. cbn [tl] in H.
  inversion N as [|? ? C _]; subst. intros ->; contradiction.
Qed.
Lemma redges_in (l : rake) u v : In (u, v) (redges l) -> In v (rtags l).
Proof. intros H; apply redges_target in H. destruct (rtags l); [destruct H|now right]. Qed.
Lemma redges_cons (q : K) t l u v : In (u, v) (redges ((q, t) :: l)) <->
  In (u, v) (chain q t) \/ (u = q /\ first_of l = Some v) \/ In (u, v) (redges l).
Proof.
  cbn [redges]. rewrite !in_app_iff. destruct (first_of l) as [q'|]; cbn [In].
  - split; [intros [H|[[H|[]]|H]]; auto; injection H as -> ->; auto|].
    intros [H|[[-> H]|H]]; auto. injection H as ->; auto.
  - split; [intros [H|[[]|H]]; auto|intros [H|[[_ H]|H]]; auto; discriminate].
Qed.
Lemma chain_cons (q c : K) t u v : In (u, v) (chain q (c :: t)) <-> (u = q /\ v = c) \/ In (u, v) (chain c t).
Proof. cbn [chain In]. split; (intros [H|H]; [left|now right]); [injection H as -> ->; auto|destruct H as [-> ->]; auto]. Qed.
Lemma first_app (a b : rake) x : first_of a = Some x -> first_of (a ++ b) = Some x.
Proof. destruct a as [|[q t] a]; [discriminate|auto]. Qed.

Lemma newer_prefix s (a b : rake) : newer s (a ++ b) -> newer s a.
Proof.
  induction a as [|[q t] a IH]; cbn [app newer]; [auto|]. intros [H1 H2]; split; [|auto].
  destruct a as [|[q' t'] a]; [exact Logic.I|exact H1].
Qed.
Lemma newer_cut s (a : rake) q t b : newer s (a ++ (q, t) :: b) -> newer s (a ++ (q, []) :: b).
Proof.
  induction a as [|[q0 t0] a IH]; cbn [app newer].
  - intros [_ H]; split; [|exact H]. destruct (first_of b); [intros c []|exact Logic.I].
  - intros [H1 H2]; split; [|auto]. destruct a as [|[q' t'] a]; exact H1.
Qed.
Lemma newer_keep s s' (l : rake) : (forall c q, In c (rtags l) -> In q (rtags l) -> older s c q -> older s' c q) -> newer s l -> newer s' l.
Proof.
  induction l as [|[q t] l IH]; cbn [newer]; [auto|]. intros H [H1 H2]; split.
  - destruct (first_of l) as [q'|] eqn:F; [|exact Logic.I]. intros c Hc. apply H; [right| |auto]; cbn; rewrite in_app_iff; auto.
    right; right; now apply first_in.
  - apply IH; [|exact H2]. intros c q0 A B; apply H; cbn; right; rewrite in_app_iff; now right.
Qed.
Lemma spine_rtags (l : rake) m : lens l = repeat 0 m -> rtags l = map fst l /\ length l = m.
Proof.
  revert m; induction l as [|[q t] l IH]; intros [|m]; cbn; try discriminate; [auto|]. intros H; injection H as H1 H2.
  destruct t; [|discriminate]. destruct (IH m H2) as [A B]. cbn; split; [f_equal; exact A|lia].
Qed.
Lemma spine_redges (l : rake) m q : lens l = repeat 0 m -> forall u v, In (u, v) (redges ((q, []) :: l)) <-> In (u, v) (chain q (map fst l)).
Proof.
  revert m q; induction l as [|[q' t] l IH]; intros m q; [cbn; tauto|].
  destruct m as [|m]; cbn [lens map repeat]; [discriminate|]. intros H u v; injection H as H1 H2.
  destruct t; [|discriminate]. rewrite redges_cons. cbn [first_of map fst]. rewrite chain_cons, (IH m q' H2). cbn [chain In].
  split; [intros [[]|[[-> H]|H]]; auto; injection H as ->; auto|].
  intros [[-> ->]|H]; auto.
Qed.

Section Step.
Variables s s' : nodes K.
Variables a x y : K.
Variable l : rake.
Variable R : raked s l.
Variable Fx : first_of l = Some x.
Variable Na : dget s a = None.
Variable Ka : dget s' a <> None.
Variable Known : forall t, dget s t <> None -> dget s' t <> None.
Variable Noc : forall c, ~ child_of s c a.
Variable Hch : forall c q, child_of s' c q <-> (q = a /\ (c = x \/ c = y)) \/ (c <> x /\ c <> y /\ child_of s c q).
Variable Ord : forall t n n', dget s t = Some n -> dget s' t = Some n' -> order_id n' = order_id n.
Variable Top : forall c, In c (rtags l) -> c <> x -> older s c x.

Lemma older_keep c q : In c (rtags l) -> In q (rtags l) -> older s c q -> older s' c q.
Proof.
  intros Hc Hq H nc nq A B. destruct (known_in s l R c Hc) as [m Hm], (known_in s l R q Hq) as [m' Hm'].
  rewrite (Ord _ _ _ Hm A), (Ord _ _ _ Hm' B). now apply H.
Qed.
Lemma not_a : ~ In a (rtags l).
Proof. intros H; now apply (r_known s l R) in H. Qed.

Lemma rake_step l' : Permutation (rtags l') (a :: rtags l) ->
  (forall u v, In (u, v) (redges l') <-> (u = a /\ (v = x \/ v = y)) \/ (v <> x /\ v <> y /\ In (u, v) (redges l))) ->
  newer s' l' -> raked s' l'.
Proof.
  intros P H N. split.
  - apply (Permutation_NoDup (l := a :: rtags l)); [now symmetry|]. constructor; [exact not_a|apply R].
  - intros q Hq. apply (Permutation_in q P) in Hq as [<-|Hq]; [exact Ka|]. apply Known, (r_known s l R), Hq.
  - intros q c Hq. rewrite H, Hch. apply (Permutation_in q P) in Hq as [<-|Hq].
    + split; (intros [D|[A [B D]]]; [now left|]); exfalso.
      * now apply Noc in D.
      * apply redges_source in D. now apply not_a.
    + rewrite (r_edges s l R q c Hq). tauto.
  - exact N.
Qed.

Lemma head_newer T l1 : (forall c, In c T -> In c (rtags l) /\ (c <> x \/ l1 = [])) ->
  (l1 = [] \/ first_of l1 = Some x) -> newer s' l1 -> newer s' ((a, T) :: l1).
Proof.
  intros H F N. cbn [newer]; split; [|exact N]. destruct F as [->|F]; [exact Logic.I|]. rewrite F.
  intros c Hc. destruct (H c Hc) as [A [B| ->]]; [|discriminate].
  apply older_keep; auto. now apply first_in.
Qed.

Lemma nd : NoDup (rtags l). Proof. apply R. Qed.

(** the last version of the spine and its chain move below the new version *)
Lemma step_A l0 t : l = l0 ++ [(y, t)] ->
  raked s' ((a, y :: t) :: l0) /\ Permutation (rtags ((a, y :: t) :: l0)) (a :: rtags l).
Proof.
  intros Q. assert (P : Permutation (rtags ((a, y :: t) :: l0)) (a :: rtags l)).
  { rewrite Q, rtags_app. cbn [rtags flat_map fst snd app]. rewrite app_nil_r.
    apply perm_skip. apply (Permutation_app_comm (y :: t)). }
  split; [|exact P]. pose proof nd as N. pose proof Fx as Fx'. rewrite Q in Fx'. rewrite Q, rtags_app in N. destruct (nodup_app _ _ N) as [N1 [N2 D]].
  cbn [rtags flat_map fst snd app] in N2, D. rewrite app_nil_r in N2, D.
  apply NoDup_cons_iff in N2 as [Ny Nt].
  assert (FF : l0 = [] /\ x = y \/ first_of l0 = Some x).
  { destruct l0 as [|[q tq] l0]; [left; cbn in Fx'; injection Fx' as ->; auto|right; exact Fx']. }
  apply rake_step; [exact P| |].
  - intros u v. rewrite Q. rewrite redges_cons, chain_cons, redges_app, (redges_cons y). cbn [first_of redges In].
    destruct FF as [[-> ->]|F].
    + cbn [first_of redges In]. split.
      * intros [[[-> ->]|H]|[[_ H]|[]]]; [auto| |discriminate]. pose proof (chain_target _ _ _ _ H) as Hv.
        assert (v <> y) by (intros ->; contradiction). right; auto 10.
      * intros [[-> [->| ->]]|[A [_ [[]|[(a' & q & t' & q' & C & _)|[H|[[_ H]|[]]]]]]]]; auto; [|discriminate].
        destruct a'; discriminate.
    + assert (Hx : In x (rtags l0)) by now apply first_in.
      assert (Xy : x <> y) by (intros ->; apply (D y Hx); now left).
      assert (Xt : ~ In x t) by (intros C; apply (D x Hx); now right).
      split.
      * intros [[[-> ->]|H]|[[-> H]|H]]; [auto| | |].
        -- pose proof (chain_target _ _ _ _ H) as Hv. right. split; [intros ->; contradiction|split; [intros ->; contradiction|auto]].
        -- rewrite F in H; injection H as ->; auto.
        -- right. pose proof (redges_in _ _ _ H) as Hv. split; [exact (redges_first _ _ _ _ N1 F H)|].
           split; [intros ->; apply (D y Hv); now left|auto].
      * intros [[-> [->| ->]]|[A [B [H|[(a' & q & t' & q' & C & G & -> & ->)|[H|[[_ H]|[]]]]]]]]; auto.
        -- cbn in G; congruence.
        -- discriminate.
  - apply head_newer.
    + intros c Hc. split; [rewrite Q, rtags_app, in_app_iff; right; cbn; rewrite app_nil_r; exact Hc|].
      destruct FF as [[-> _]|F]; [now right|left]. intros ->. apply (D x); [now apply first_in|exact Hc].
    + tauto.
    + apply (newer_prefix s' l0 [(y, t)]), (newer_keep s s'); [intros; now apply older_keep; rewrite ?Q|rewrite <- Q; apply R].
Qed.
(** the chain of a version of the spine moves below the new version *)
Lemma step_B l1 q t l2 : l = l1 ++ (q, y :: t) :: l2 ->
  raked s' ((a, y :: t) :: l1 ++ (q, []) :: l2) /\ Permutation (rtags ((a, y :: t) :: l1 ++ (q, []) :: l2)) (a :: rtags l).
Proof.
  intros Q. assert (P : Permutation (rtags ((a, y :: t) :: l1 ++ (q, []) :: l2)) (a :: rtags l)).
  { rewrite Q. change (rtags ((a, y :: t) :: l1 ++ (q, []) :: l2)) with (a :: (y :: t) ++ rtags (l1 ++ (q, []) :: l2)).
    rewrite !rtags_app. cbn [rtags flat_map fst snd].
    apply perm_skip. rewrite Permutation_app_comm, <- app_assoc. apply Permutation_app_head. cbn [app].
    apply perm_skip. change (y :: t ++ flat_map (fun x0 => fst x0 :: snd x0) l2) with ((y :: t) ++ flat_map (fun x0 => fst x0 :: snd x0) l2).
    apply Permutation_app_comm. }
  split; [|exact P]. pose proof nd as N. pose proof Fx as Fx'. rewrite Q in Fx'. rewrite Q, rtags_app in N. destruct (nodup_app _ _ N) as [N1 [N2 D]].
  change (rtags ((q, y :: t) :: l2)) with (q :: (y :: t) ++ rtags l2) in N2, D.
  apply NoDup_cons_iff in N2 as [Nq N3]. destruct (nodup_app _ _ N3) as [N4 [N5 D2]]. apply NoDup_cons_iff in N4 as [Ny Nt].
  rewrite in_app_iff in Nq.
  assert (Yq : y <> q) by (intros ->; apply Nq; left; now left).
  assert (Y1 : ~ In y (rtags l1)) by (intros C; apply (D y C); right; rewrite in_app_iff; left; now left).
  assert (Y2 : ~ In y (rtags l2)) by (apply D2; now left).
  assert (F : first_of (l1 ++ (q, []) :: l2) = Some x) by (destruct l1 as [|[q1 t1] l1]; exact Fx').
  assert (Xyt : ~ In x (y :: t)).
  { intros C. destruct l1 as [|[q1 t1] l1]; cbn in Fx'; injection Fx' as ->; [now apply Nq; left|].
    apply (D x); [now left|]. right; rewrite in_app_iff; now left. }
  apply rake_step; [exact P| |].
  - intros u v. rewrite Q. assert (X : In (u, v) (redges (l1 ++ (q, y :: t) :: l2)) -> v <> x) by (apply redges_first; [rewrite <- Q; apply R|exact Fx']).
    revert X. rewrite (redges_cons a), F, chain_cons, !redges_app, !redges_cons, chain_cons. cbn [first_of chain In]. intros X.
    split.
    + intros [[[-> ->]|H]|[[-> H]|H]]; [auto| |injection H as ->; auto|].
      * right. split; [|split; [intros ->; apply Ny; exact (chain_target _ _ _ _ H)|auto]].
        intros ->. apply Xyt; right; exact (chain_target _ _ _ _ H).
      * right. destruct H as [H|[(a' & q0 & t' & q' & C & G & -> & ->)|[[]|[[-> H]|H]]]].
        -- split; [auto|split; [intros ->; apply Y1; now apply redges_in in H|auto]].
        -- injection G as <-. split; [apply X; right; left; exists a', q0, t', q; auto|split; [auto|]].
           right; left; exists a', q0, t', q; auto.
        -- split; [apply X; auto 10|split; [intros ->; apply Y2; now apply first_in|auto 10]].
        -- split; [apply X; auto 10|split; [intros ->; apply Y2; now apply redges_in in H|auto 10]].
    + intros [[-> [->| ->]]|[A [B [H|[(a' & q0 & t' & q' & C & G & -> & ->)|[[[-> H]|H]|[H|H]]]]]]]; auto 12; try contradiction.
      right; right; right; left; exists a', q0, t', q'; auto.
  - apply head_newer.
    + intros c Hc. split; [|left; intros ->; contradiction].
      rewrite Q, rtags_app, in_app_iff; right; right; rewrite in_app_iff; now left.
    + now right.
    + apply (newer_cut s' l1 q (y :: t) l2), (newer_keep s s'); [intros; now apply older_keep; rewrite ?Q|rewrite <- Q; apply R].
Qed.
(** the lower part of the spine moves below the new version *)
Lemma step_end l1 l2 m : l = l1 ++ (y, []) :: l2 -> l1 <> [] -> lens l2 = repeat 0 m ->
  raked s' ((a, y :: map fst l2) :: l1) /\ Permutation (rtags ((a, y :: map fst l2) :: l1)) (a :: rtags l).
Proof.
  intros Q Ne L2. destruct (spine_rtags l2 m L2) as [RT _].
  assert (P : Permutation (rtags ((a, y :: map fst l2) :: l1)) (a :: rtags l)).
  { rewrite Q, rtags_app. change (rtags ((y, []) :: l2)) with (y :: rtags l2). rewrite RT.
    change (rtags ((a, y :: map fst l2) :: l1)) with (a :: (y :: map fst l2) ++ rtags l1).
    apply perm_skip, Permutation_app_comm. }
  split; [|exact P]. pose proof nd as N. pose proof Fx as Fx'. rewrite Q in Fx'. rewrite Q, rtags_app in N. destruct (nodup_app _ _ N) as [N1 [N2 D]].
  change (rtags ((y, []) :: l2)) with (y :: rtags l2) in N2, D. rewrite RT in N2, D.
  apply NoDup_cons_iff in N2 as [Ny Nt].
  assert (F : first_of l1 = Some x) by (destruct l1 as [|[q1 t1] l1]; [contradiction|exact Fx']).
  assert (Hx : In x (rtags l1)) by now apply first_in.
  apply rake_step; [exact P| |].
  - intros u v. rewrite Q. rewrite (redges_cons a), F, chain_cons, redges_app, (spine_redges _ _ _ L2). cbn [first_of]. split.
    + intros [[[-> ->]|H]|[[-> H]|H]]; [auto| |injection H as ->; auto|].
      * pose proof (chain_target _ _ _ _ H) as Hv. right. split; [intros ->; apply (D x Hx); now right|].
        split; [intros ->; contradiction|auto].
      * right. split; [exact (redges_first _ _ _ _ N1 F H)|]. split; [|auto].
        intros ->. apply redges_in in H. apply (D y H); now left.
    + intros [[-> [->| ->]]|[A [B [H|[(a' & q0 & t' & q' & C & G & -> & ->)|H]]]]]; auto. congruence.
  - apply head_newer.
    + intros c Hc. split; [|left; intros ->; now apply (D x Hx)].
      rewrite Q, rtags_app, in_app_iff; right. change (In c (y :: rtags l2)). rewrite RT; exact Hc.
    + now right.
    + apply (newer_prefix s' l1 ((y, []) :: l2)), (newer_keep s s'); [intros; now apply older_keep; rewrite ?Q|rewrite <- Q; apply R].
Qed.
End Step.

(** ** The shapes follow one another *)
Definition phase (n : nat) (a : list nat) : Prop :=
  exists k j, j < k /\ a = shapeA k j /\ n = k * k + j \/ 0 < k /\ j <= k /\ a = shapeB k j /\ n = k * k + k + j.

Lemma phase_step s s' a x p l m : tree_ok s -> numbered s -> raked s l -> phase m (lens l) -> first_of l = Some x ->
  split_way s 1 x p -> dget s a = None -> dget s' a <> None -> (forall t, dget s t <> None -> dget s' t <> None) ->
  (forall c, ~ child_of s c a) ->
  (forall c q, child_of s' c q <-> (q = a /\ (c = x \/ c = last p x)) \/ (c <> x /\ c <> last p x /\ child_of s c q)) ->
  (forall t n n', dget s t = Some n -> dget s' t = Some n' -> order_id n' = order_id n) ->
  (forall c, In c (rtags l) -> c <> x -> older s c x) ->
  exists l', raked s' l' /\ phase (S m) (lens l') /\ first_of l' = Some a /\ Permutation (rtags l') (a :: rtags l) /\
    exists n, map fst l' = a :: firstn n (map fst l).
Proof.
  intros T Nu R [k [j Ph]] Fx W Na Ka Kn Noc Hch Ord Top.
  assert (Any : forall p', split_way s 1 x p' -> p' = p) by (intros p' H; exact (way_unique s 1 x p' Nu H p W)).
  destruct Ph as [[Hj [Hl ->]]|[H0 [Hj [Hl ->]]]].
  - destruct (way_A s T l R k j Hj Hl) as [l0 [y [t [r [Q [Ht [L0 [Fr W']]]]]]]].
    assert (r = x) by congruence; subst r. rewrite <- (Any _ W'), last_last in Hch.
    destruct (step_A s s' a x y l R Fx Na Ka Kn Noc Hch Ord Top l0 t Q) as [R' P].
    exists ((a, y :: t) :: l0). split; [exact R'|split; [|split; [reflexivity|split; [exact P|exists (length (map fst l0)); rewrite Q; cbn [map fst]; now rewrite map_app, firstn_app, Nat.sub_diag, firstn_O, app_nil_r, firstn_all]]]].
    change (lens ((a, y :: t) :: l0)) with (S (length t) :: lens l0). rewrite Ht, L0.
    destruct (Nat.eq_dec (S j) k) as [Ek|Ek].
    + exists k, 0; right. split; [lia|split; [lia|split; [|lia]]]. unfold shapeB.
      replace (k - 1 - j) with 0 by lia. cbn [repeat]. rewrite !app_nil_r.
      replace k with (S j) by lia. cbn [repeat]. f_equal; lia.
    + exists k, (S j); left. split; [lia|split; [|lia]]. unfold shapeA. cbn [repeat app]. f_equal; [lia|]. f_equal. f_equal; lia.
  - destruct (Nat.eq_dec j k) as [->|Ek].
    + destruct (way_B_end s T l R k H0 Hl) as [l1 [y [l2 [r [Q [L1 [L2 [Fr W']]]]]]]].
      assert (r = x) by congruence; subst r. rewrite <- (Any _ W'), last_last in Hch.
      destruct k as [|k]; [lia|]. cbn [lens map snd length repeat] in L2. injection L2 as L2.
      destruct (step_end s s' a x y l R Fx Na Ka Kn Noc Hch Ord Top l1 l2 k Q) as [R' P]; [|exact L2|].
      { intros ->. discriminate L1. }
      exists ((a, y :: map fst l2) :: l1). split; [exact R'|split; [|split; [reflexivity|split; [exact P|exists (length (map fst l1)); rewrite Q; cbn [map fst]; now rewrite map_app, firstn_app, Nat.sub_diag, firstn_O, app_nil_r, firstn_all]]]].
      exists (S (S k)), 0; left. split; [lia|split; [|lia]].
      change (lens ((a, y :: map fst l2) :: l1)) with (S (length (map fst l2)) :: lens l1).
      rewrite map_length, (proj2 (spine_rtags l2 k L2)), L1. reflexivity.
    + destruct (way_B s T l R k j H0 ltac:(lia) Hl) as [l1 [q [y [t [l2 [r [Q [Ln1 [Ht [L2 [L1 [Fr W']]]]]]]]]]]].
      assert (r = x) by congruence; subst r. rewrite <- (Any _ W'), last_last in Hch.
      destruct (step_B s s' a x y l R Fx Na Ka Kn Noc Hch Ord Top l1 q t l2 Q) as [R' P].
      eexists. split; [exact R'|split; [|split; [reflexivity|split; [exact P|exists (length (map fst l)); rewrite firstn_all, Q; cbn [map fst]; now rewrite !map_app]]]].
      exists k, (S j); right. split; [lia|split; [lia|split; [|lia]]].
      change (lens ((a, y :: t) :: l1 ++ (q, []) :: l2)) with (S (length t) :: lens (l1 ++ (q, []) :: l2)).
      rewrite lens_app. change (lens ((q, []) :: l2)) with (0 :: lens l2). rewrite Ht, L1, L2.
      unfold shapeB. destruct k as [|k]; [lia|]. cbn [repeat app Nat.sub]. rewrite Nat.sub_0_r. reflexivity.
Qed.
Lemma phase_one : phase 1 [0].
Proof. exists 1, 0; left. split; [lia|split; reflexivity]. Qed.
End Rake.
