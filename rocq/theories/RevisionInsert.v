(** Inserting into the tree of src/deprecated/revision_tree.py. *)
From Coq Require Import Lia Permutation.
From Verif Require Import Base TreeShape TreeRake Revision RevisionProofs.
Local Open Scope nat_scope.

Section R.
Context {K : Type} {E : Teq K} {O : TeqOk K}.
Notation rake := (rake (K := K)).
Notation rnodes := (dict K (rnode K)).
Implicit Type s : rnodes.
Implicit Type l : rake.

Definition one_way (lf rt : option K) (t : list K) : Prop := lf = hd_error t /\ rt = None \/ lf = None /\ rt = hd_error t.
Definition loose s (y : K) (t : list K) : Prop :=
  (exists i lf rt p, dget s y = Some (mkR i lf rt p (S (length t)) (S (length t))) /\ one_way lf rt t) /\ tooth s y t.

Lemma prefix_build s (a : rake) q t nxt i w z : forall par, prefix s par a (Some q) ->
  dget s q = Some (mkR i nxt (hd_error t) (endp par a) w z) -> tooth s q t -> prefix s par (a ++ [(q, t)]) nxt.
Proof.
  induction a as [|[q0 t0] a IH]; intros par; cbn [app prefix endp].
  - intros _ G T. split; [eauto|auto].
  - intros [[i0 [w0 [z0 G0]]] [T0 P]] G T. split; [|split; [exact T0|now apply IH]].
    exists i0, w0, z0. rewrite first_of_app. destruct a as [|[q1 t1] a]; exact G0.
Qed.
Lemma spine_keys s l : forall par, spine s par l -> forall d, In d (rtags l) -> dget s d <> None.
Proof.
  assert (TK : forall t q, tooth s q t -> forall d, In d t -> dget s d <> None).
  { induction t as [|c t IH]; intros q; cbn [tooth]; [intros _ d []|]. intros [[i [lf [rt [G _]]]] T] d [<-|Hd]; [congruence|].
    exact (IH c T d Hd). }
  induction l as [|[q t] l IH]; intros par; cbn [spine]; [intros _ d []|]. intros [[i G] [T S]] d. rewrite rtags_cons.
  intros [<-|Hd]; [congruence|]. apply in_app_iff in Hd as [Hd|Hd]; [exact (TK t q T d Hd)|exact (IH _ S d Hd)].
Qed.
Lemma dget_keys s d : dget s d <> None -> In d (dkeys s).
Proof. intros H. destruct (dget s d) as [n|] eqn:G; [|contradiction]. apply dget_In in G. apply (in_map fst) in G. exact G. Qed.
Lemma keys_dget s d : In d (dkeys s) -> dget s d <> None.
Proof.
  unfold dkeys. induction s as [|[k v] s IH]; cbn [map fst dget]; [intros []|]. intros [->|H]; [now rewrite teq_refl|].
  destruct (teq k d); [discriminate|auto].
Qed.
Lemma spine_length s l : NoDup (rtags l) -> (forall d, In d (rtags l) -> dget s d <> None) -> wt l <= length s.
Proof.
  intros N H. rewrite <- (map_length fst s). change (map fst s) with (dkeys s). apply NoDup_incl_length; [exact N|].
  intros d Hd. apply dget_keys; auto.
Qed.
Lemma wt_length l : length l <= wt l.
Proof. induction l as [|[q t] l IH]; [cbn; lia|]. rewrite wt_cons; cbn; lia. Qed.
Lemma length_dset_in s t n m : dget s t = Some n -> length (dset s t m) = length s.
Proof. intros G. apply dkeys_length. exact (dkeys_dset_in _ _ _ _ G). Qed.

(** ** Detaching *)
Lemma detach_left s (l1 : rake) p t l2 : NoDup (rtags ((l1 ++ [(p, t)]) ++ l2)) -> spine s None ((l1 ++ [(p, t)]) ++ l2) ->
  exists s', r_set put_left p None s = Ok s' /\ spine s' None (l1 ++ [(p, t)]) /\ dkeys s' = dkeys s /\
    forall d, ~ In d (map fst (l1 ++ [(p, t)])) -> dget s' d = dget s d.
Proof.
  intros N SP. destruct (spine_split _ _ _ _ SP) as [P _]. destruct (prefix_snoc _ _ _ _ _ _ P) as [P1 [[i [w [z G]]] T]].
  assert (N1 : NoDup (rtags (l1 ++ [(p, t)]))) by (rewrite rtags_app in N; now apply nodup_app in N).
  set (n := mkR i None (hd_error t) (endp None l1) w z).
  pose proof N1 as N2. rewrite rtags_app in N2. apply nodup_app in N2 as [_ [N2 D]]. rewrite rtags_cons in N2, D. cbn [rtags flat_map] in N2, D.
  rewrite app_nil_r in N2, D. apply NoDup_cons_iff in N2 as [Np _].
  assert (Fr : forall d, d <> p -> dget (dset s p n) d = dget s d) by (intros; apply dget_dset_other; congruence).
  destruct (update_spine (l1 ++ [(p, t)]) (dset s p n) [] (S (length (dset s p n)))) as [s' [U [S' [Kk F]]]].
  - now rewrite app_nil_r.
  - cbn [first_of]. apply (prefix_build _ _ _ _ _ i w z).
    + apply (prefix_frame s); [|exact P1]. intros d Hd. apply Fr. intros ->. apply (D p Hd). now left.
    + apply dget_dset_same.
    + apply (tooth_frame s); [|exact T]. intros d Hd. apply Fr. intros ->; contradiction.
  - exact Logic.I.
  - rewrite (length_dset_in _ _ _ _ G). pose proof (spine_length s (l1 ++ [(p, t)]) N1) as L.
    pose proof (wt_length (l1 ++ [(p, t)])).
    assert (wt (l1 ++ [(p, t)]) <= length s); [|lia]. apply L. intros d Hd. apply (spine_keys _ _ _ SP).
    rewrite rtags_app, in_app_iff; now left.
  - rewrite endp_snoc in U. rewrite app_nil_r in S'. exists s'. split; [|split; [exact S'|split]].
    + unfold r_set, node_at; rewrite G; cbn [bind]. exact U.
    + rewrite Kk. exact (dkeys_dset_in _ _ _ _ G).
    + intros d Hd. rewrite F by exact Hd. apply Fr. intros ->. apply Hd. rewrite map_app, in_app_iff; right; now left.
Qed.
Lemma detach_right s (l1 : rake) q y t l2 : NoDup (rtags (l1 ++ (q, y :: t) :: l2)) -> spine s None (l1 ++ (q, y :: t) :: l2) ->
  exists s', r_set put_right q None s = Ok s' /\ spine s' None (l1 ++ (q, []) :: l2) /\ dkeys s' = dkeys s /\
    forall d, ~ In d (map fst (l1 ++ [(q, [])])) -> dget s' d = dget s d.
Proof.
  intros N SP. pose proof SP as S0.
  change ((q, y :: t) :: l2) with ([(q, y :: t)] ++ l2) in SP. rewrite app_assoc in SP.
  destruct (spine_split _ _ _ _ SP) as [P S2]. destruct (prefix_snoc _ _ _ _ _ _ P) as [P1 [[i [w [z G]]] T]].
  rewrite endp_snoc in S2.
  set (n := mkR i (first_of l2) None (endp None l1) w z).
  assert (D1 : ~ In q (rtags l1) /\ ~ In q (rtags l2)).
  { rewrite rtags_app in N. apply nodup_app in N as [_ [N2 D]]. rewrite rtags_cons in N2, D. apply NoDup_cons_iff in N2 as [Nq _].
    split; [intros C; apply (D q C); now left|intros C; apply Nq; rewrite in_app_iff; now right]. }
  assert (N1 : NoDup (rtags ((l1 ++ [(q, [])]) ++ l2))).
  { rewrite <- app_assoc. rewrite !rtags_app in *. apply nodup_app in N as [A [B C]]. rewrite rtags_cons in B, C.
    change (rtags [(q, [])] ++ rtags l2) with (q :: rtags l2). apply NoDup_cons_iff in B as [B1 B2].
    apply nodup_app in B2 as [_ [B2 _]]. apply app_nodup; [exact A|constructor; [tauto|exact B2]|].
    intros d Hd [<-|Hd']; [tauto|]. apply (C d Hd). right; rewrite in_app_iff; now right. }
  assert (Fr : forall d, d <> q -> dget (dset s q n) d = dget s d) by (intros; apply dget_dset_other; congruence).
  destruct (update_spine (l1 ++ [(q, [])]) (dset s q n) l2 (S (length (dset s q n)))) as [s' [U [S' [Kk F]]]].
  - exact N1.
  - apply (prefix_build _ _ _ _ _ i w z).
    + apply (prefix_frame s); [|exact P1]. intros d Hd. apply Fr. intros ->. tauto.
    + apply dget_dset_same.
    + exact Logic.I.
  - rewrite endp_snoc. apply (spine_frame s); [|exact S2]. intros d Hd. apply Fr. intros ->; tauto.
  - rewrite (length_dset_in _ _ _ _ G). pose proof (spine_length s _ N (spine_keys _ _ _ S0)) as L.
    rewrite wt_app, wt_cons in L. pose proof (wt_length l1). rewrite app_length; cbn [length] in *. lia.
  - rewrite endp_snoc in U. rewrite <- app_assoc in S'. exists s'. split; [|split; [exact S'|split]].
    + unfold r_set, node_at; rewrite G; cbn [bind]. exact U.
    + rewrite Kk. exact (dkeys_dset_in _ _ _ _ G).
    + intros d Hd. rewrite F by exact Hd. apply Fr. intros ->. apply Hd. rewrite map_app, in_app_iff; right; now left.
Qed.

(** ** Attaching *)
Lemma attach s a i y t x l1 : dget s a = Some (mkR i None None None 1 1) -> loose s y t -> spine s None l1 -> first_of l1 = Some x ->
  NoDup (a :: (y :: t) ++ rtags l1) ->
  exists s2 s3, r_set put_right a (Some y) s = Ok s2 /\ r_set put_left a (Some x) s2 = Ok s3 /\
    spine s3 None ((a, y :: t) :: l1) /\ dkeys s3 = dkeys s.
Proof.
  intros Ga [[iy [lf [rt [p [Gy Ow]]]]] T] SP Fx N.
  apply NoDup_cons_iff in N as [Na N]. apply nodup_app in N as [N1 [N2 D]]. rewrite in_app_iff in Na.
  apply NoDup_cons_iff in N1 as [Ny Nt].
  assert (Ya : y <> a) by (intros ->; apply Na; left; now left).
  assert (Hx : In x (rtags l1)) by now apply first_in.
  assert (Xa : x <> a) by (intros ->; tauto).
  assert (Xy : x <> y) by (intros ->; apply (D y); [now left|exact Hx]).
  set (ny := mkR iy lf rt (Some a) (S (length t)) (S (length t))).
  set (na2 := mkR i None (Some y) None (2 + length t) (2 + length t)).
  set (s1 := dset s a (mkR i None (Some y) None 1 1)). set (s2' := dset s1 y ny). set (s2 := dset s2' a na2).
  exists s2.
  assert (A1 : r_set put_right a (Some y) s = Ok s2).
  { unfold r_set. unfold node_at at 1; rewrite Ga; cbn [bind]. unfold node_at at 1. unfold put_right; cbn [r_id r_left r_parent r_height r_size].
    fold s1. replace (dget s1 y) with (dget s y) by (unfold s1; rewrite dget_dset_other; congruence). rewrite Gy; cbn [bind].
    unfold set_rparent; cbn [r_id r_left r_right r_height r_size]. fold ny. fold s2'.
    cbn [r_update]. unfold node_at at 1.
    replace (dget s2' a) with (Some (mkR i None (Some y) None 1 1)) by (unfold s2'; rewrite dget_dset_other by congruence; unfold s1; now rewrite dget_dset_same).
    cbn [bind r_left r_right r_parent r_states]. unfold node_at. unfold s2' at 1; rewrite dget_dset_same. cbn [bind fst snd ny r_height r_size].
    unfold set_states; cbn [r_id r_left r_right r_parent]. destruct (length s2'); cbn [r_update]; reflexivity. }
  destruct l1 as [|[x0 tx] l1]; [discriminate|]. injection Fx as ->. cbn [spine] in SP. destruct SP as [[ix Gx] [Tx SP]].
  set (w := wt ((x, tx) :: l1)) in *.
  set (nx := mkR ix (first_of l1) (hd_error tx) (Some a) w w).
  set (na3 := mkR i (Some x) (Some y) None (1 + w + S (length t)) (1 + w + S (length t))).
  set (s3a := dset s2 a (mkR i (Some x) (Some y) None (2 + length t) (2 + length t))). set (s3' := dset s3a x nx). set (s3 := dset s3' a na3).
  assert (Fr2 : forall d, d <> a -> d <> y -> dget s2 d = dget s d).
  { intros d H1 H2. unfold s2, s2', s1. rewrite !dget_dset_other by congruence. reflexivity. }
  assert (G2y : dget s2 y = Some ny) by (unfold s2, s2'; rewrite dget_dset_other by congruence; apply dget_dset_same).
  assert (A2 : r_set put_left a (Some x) s2 = Ok s3).
  { unfold r_set. unfold node_at at 1. unfold s2 at 1; rewrite dget_dset_same; cbn [bind]. unfold node_at at 1.
    unfold put_left, na2; cbn [r_id r_right r_parent r_height r_size]. fold s3a.
    replace (dget s3a x) with (dget s x) by (unfold s3a; rewrite dget_dset_other by congruence; symmetry; apply Fr2; congruence).
    rewrite Gx; cbn [bind]. unfold set_rparent; cbn [r_id r_left r_right r_height r_size]. fold nx. fold s3'.
    cbn [r_update]. unfold node_at at 1.
    replace (dget s3' a) with (Some (mkR i (Some x) (Some y) None (2 + length t) (2 + length t))) by (unfold s3'; rewrite dget_dset_other by congruence; unfold s3a; now rewrite dget_dset_same).
    cbn [bind r_left r_right r_parent r_states]. unfold node_at.
    replace (dget s3' x) with (Some nx) by (unfold s3'; now rewrite dget_dset_same).
    replace (dget s3' y) with (Some ny) by (unfold s3', s3a; rewrite !dget_dset_other by congruence; now rewrite G2y).
    cbn [bind fst snd ny nx r_height r_size].
    unfold set_states; cbn [r_id r_left r_right r_parent]. fold na3. destruct (length s3'); cbn [r_update]; reflexivity. }
  assert (Fr3 : forall d, d <> a -> d <> y -> d <> x -> dget s3 d = dget s d).
  { intros d H1 H2 H3. unfold s3, s3', s3a. rewrite !dget_dset_other by congruence. now apply Fr2. }
  exists s3. split; [exact A1|split; [exact A2|split]].
  - rewrite rtags_cons in N2, Na, D. apply NoDup_cons_iff in N2 as [Nx N3]. rewrite in_app_iff in Nx.
    cbn [spine]. split; [|split; [|split; [|split]]].
    + exists i. unfold s3; rewrite dget_dset_same. unfold na3. cbn [first_of hd_error].
      replace (wt ((a, y :: t) :: (x, tx) :: l1)) with (1 + w + S (length t)); [reflexivity|]. rewrite wt_cons. fold w. cbn [length]. lia.
    + cbn [tooth]. split.
      * exists iy, lf, rt. split; [|exact Ow]. unfold s3, s3', s3a. rewrite !dget_dset_other by congruence. exact G2y.
      * apply (tooth_frame s); [|exact T]. intros d Hd. apply Fr3; intros ->; [apply Na; left; now right|contradiction|].
        apply (D x); [now right|now left].
    + exists ix. unfold s3, s3'. rewrite dget_dset_other, dget_dset_same by congruence. reflexivity.
    + apply (tooth_frame s); [|exact Tx]. intros d Hd. apply Fr3; intros ->; [apply Na; right; right; rewrite in_app_iff; now left| |tauto].
      apply (D y); [now left|right; rewrite in_app_iff; now left].
    + apply (spine_frame s); [|exact SP]. intros d Hd. apply Fr3; intros ->; [apply Na; right; right; rewrite in_app_iff; now right| |tauto].
      apply (D y); [now left|right; rewrite in_app_iff; now right].
  - assert (K1 : dkeys s1 = dkeys s) by exact (dkeys_dset_in _ _ _ _ Ga).
    assert (K2 : dkeys s2 = dkeys s).
    { unfold s2. rewrite (dkeys_dset_in s2' a (mkR i None (Some y) None 1 1)).
      - unfold s2'. rewrite <- K1. apply (dkeys_dset_in s1 y (mkR iy lf rt p (S (length t)) (S (length t)))).
        unfold s1; rewrite dget_dset_other by congruence; exact Gy.
      - unfold s2', s1. rewrite dget_dset_other by congruence. apply dget_dset_same. }
    unfold s3. rewrite (dkeys_dset_in s3' a (mkR i (Some x) (Some y) None (2 + length t) (2 + length t))).
    + unfold s3'. rewrite (dkeys_dset_in s3a x (mkR ix (first_of l1) (hd_error tx) None w w)).
      * unfold s3a. rewrite (dkeys_dset_in s2 a na2); [exact K2|]. apply dget_dset_same.
      * unfold s3a; rewrite dget_dset_other by congruence. rewrite Fr2 by congruence. exact Gx.
    + unfold s3', s3a. rewrite dget_dset_other by congruence. apply dget_dset_same.
Qed.
End R.
