(** What one insertion does to the tree of src/deprecated/revision_tree.py. *)
From Coq Require Import Lia Permutation.
From Verif Require Import Base TreeShape TreeRake Revision RevisionProofs RevisionInsert.
Local Open Scope nat_scope.

Section R.
Context {K : Type} {E : Teq K} {O : TeqOk K}.
Notation rake := (rake (K := K)).
Notation rnodes := (dict K (rnode K)).
Implicit Type s : rnodes.
Implicit Type l : rake.

Record good (rt : rtree K) l (ts : list K) : Prop := {
  g_root : r_root rt = first_of l;
  g_spine : spine (r_index rt) None l;
  g_nodup : NoDup ts;
  g_perm : Permutation (rtags l) ts;
  g_keys : dkeys (r_index rt) = ts
}.
Definition new_edges l l' (ins rem : list (K * K)) (a : K) : Prop :=
  (forall e, In e (redges l') <-> (In e (redges l) /\ ~ In e rem) \/ In e ins) /\
  incl rem (redges l) /\ (forall e, In e ins -> fst e = a) /\ length ins <= 2 /\ length rem <= 1.

Lemma dkeys_dset_new s t n : dget s t = None -> dkeys (dset s t n) = dkeys s ++ [t].
Proof.
  unfold dkeys. induction s as [|[k v] s IH]; cbn [dget dset map fst app]; [reflexivity|].
  destruct (teq_spec k t) as [->|H]; intros G; cbn [map fst]; [discriminate|]. f_equal; auto.
Qed.
Lemma endp_app par (a b : rake) : endp par (a ++ b) = endp (endp par a) b.
Proof. revert par; induction a as [|[q t] a IH]; intros par; cbn; auto. Qed.

Section Step.
Variable rt : rtree K.
Variable l : rake.
Variable ts : list K.
Variable G : good rt l ts.
Variable a : K.
Variable Ha : ~ In a ts.
Variable x : K.
Variable Fx : first_of l = Some x.

Notation s := (r_index rt).
Let n0 := mkR (length s) None None None 1 1 : rnode K.
Let s0 := dset s a n0.

Lemma fresh_a : dget s a = None.
Proof.
  destruct (dget s a) as [n|] eqn:H; [|reflexivity]. exfalso. apply Ha. rewrite <- (g_keys _ _ _ G). apply dget_keys. congruence.
Qed.
Lemma in_ts d : In d (rtags l) <-> In d ts.
Proof. split; apply Permutation_in; [|symmetry]; apply (g_perm _ _ _ G). Qed.
Lemma a_not : ~ In a (rtags l).
Proof. rewrite in_ts; exact Ha. Qed.
Lemma nd_l : NoDup (rtags l).
Proof. apply (Permutation_NoDup (Permutation_sym (g_perm _ _ _ G))), (g_nodup _ _ _ G). Qed.
Lemma frame0 d : d <> a -> dget s0 d = dget s d.
Proof. intros H; unfold s0; apply dget_dset_other; congruence. Qed.
Lemma spine0 : spine s0 None l.
Proof. apply (spine_frame s); [|apply (g_spine _ _ _ G)]. intros d Hd. apply frame0. intros ->. now apply a_not. Qed.
Lemma keys0 : dkeys s0 = ts ++ [a].
Proof. unfold s0. rewrite dkeys_dset_new by exact fresh_a. now rewrite (g_keys _ _ _ G). Qed.
Lemma x_height : exists n, dget s0 x = Some n /\ r_height n = wt l.
Proof.
  pose proof (states_spine _ _ _ spine0) as H. rewrite Fx in H; cbn [r_states] in H. unfold node_at in H.
  destruct (dget s0 x) as [n|]; [|discriminate]. cbn [bind] in H. exists n; split; [reflexivity|]. now injection H.
Qed.

Lemma insert_left l1 l2 y T : l = l1 ++ l2 -> l1 <> [] -> first_of l2 = Some y -> Permutation (y :: T) (rtags l2) ->
  (forall s par, spine s par l2 -> loose s y T) -> (forall e, In e (redges l2) <-> In e (chain y T)) ->
  r_find (wt l) 1 NONE x s0 = Ok (y, LEFT) ->
  exists rt' ins rem, r_insert a rt = Ok (rt', (ins, rem)) /\ good rt' ((a, y :: T) :: l1) (ts ++ [a]) /\
    new_edges l ((a, y :: T) :: l1) ins rem a.
Proof.
  intros Q Ne F2 P2 Lo Ch Fi. pose proof nd_l as N. pose proof spine0 as S0. rewrite Q in N, S0. pose proof Fx as Fx1.
  destruct (exists_last Ne) as [l1' [[p t] Q1]].
  assert (F1 : first_of l1 = Some x).
  { rewrite Q in Fx1. destruct l1 as [|[? ?] ?]; [contradiction|exact Fx1]. }
  pose proof N as N'. rewrite rtags_app in N'. destruct (nodup_app _ _ N') as [N1 [N2 D]].
  assert (Hx : In x (rtags l1)) by now apply first_in. assert (Hy : In y (rtags l2)) by now apply first_in.
  assert (Xy : y <> x) by (intros ->; now apply (D x)).
  rewrite Q1 in N, S0. destruct (detach_left s0 l1' p t l2 N S0) as [s1 [D1 [S1 [K1 Fr1]]]]. rewrite <- Q1 in S1, Fr1, N, S0.
  destruct (spine_split _ _ _ _ S0) as [_ S2]. rewrite Q1, endp_snoc in S2.
  assert (Inc : forall d, In d (map fst l1) -> In d (rtags l1)).
  { intros d Hd. apply in_map_iff in Hd as [[q tq] [<- Hd]]. cbn. unfold rtags. apply in_flat_map. exists (q, tq); split; [exact Hd|now left]. }
  assert (S2' : spine s1 (Some p) l2).
  { apply (spine_frame s0); [|exact S2]. intros d Hd. apply Fr1. intros C. apply (D d (Inc d C) Hd). }
  assert (Al : forall d, In d (rtags l1) -> In d ts) by (intros d Hd; apply in_ts; rewrite Q, rtags_app, in_app_iff; now left).
  assert (Al2 : forall d, In d (rtags l2) -> In d ts) by (intros d Hd; apply in_ts; rewrite Q, rtags_app, in_app_iff; now right).
  assert (Ga : dget s1 a = Some n0).
  { rewrite Fr1; [unfold s0; apply dget_dset_same|]. intros C. apply Ha, Al, Inc, C. }
  assert (NA : NoDup (a :: (y :: T) ++ rtags l1)).
  { apply (Permutation_NoDup (l := a :: rtags l1 ++ rtags l2)).
    - apply perm_skip. rewrite Permutation_app_comm. now apply Permutation_app_tail, Permutation_sym.
    - constructor; [|exact N']. rewrite in_app_iff. intros [C|C]; apply Ha; auto. }
  destruct (attach s1 a (length s) y T x l1 Ga (Lo s1 (Some p) S2') S1 F1 NA) as [s2 [s3 [A1 [A2 [S3 K3]]]]].
  assert (Gy : exists m, dget s0 y = Some m /\ r_parent m = Some p).
  { destruct l2 as [|[y0 t0] l2]; [discriminate|]. injection F2 as ->. cbn [spine] in S2. destruct S2 as [[i Gy] _].
    eexists; split; [exact Gy|reflexivity]. }
  destruct Gy as [m [Gy Pm]]. destruct x_height as [nx [Gx Hh]].
  exists (mkT (Some a) s3), [(a, x); (a, y)], [(p, y)]. split; [|split].
  - unfold r_insert. fold n0. fold s0. rewrite (g_root _ _ _ G), Fx. unfold node_at at 1. rewrite Gx. cbn [bind]. rewrite Hh, Fi. cbn [bind fst snd].
    destruct (teq_spec y x) as [C|_]; [contradiction|]. unfold node_at at 1. rewrite Gy. cbn [bind]. rewrite Pm, D1. cbn [bind].
    rewrite A1. cbn [bind]. rewrite A2. reflexivity.
  - split; cbn [r_root r_index].
    + reflexivity.
    + exact S3.
    + apply (Permutation_NoDup (l := a :: ts)); [apply Permutation_cons_append|]. constructor; [exact Ha|apply (g_nodup _ _ _ G)].
    + rewrite rtags_cons. rewrite <- Permutation_cons_append. apply perm_skip. rewrite <- (g_perm _ _ _ G), Q, rtags_app.
      rewrite P2. apply Permutation_app_comm.
    + rewrite K3, K1. exact keys0.
  - split; [|split; [|split; [|cbn; lia]]].
    + intros [u v]. rewrite redges_cons, F1, chain_cons, Q, redges_app, (Ch (u, v)).
      assert (T1 : In (u, v) (redges l1) -> v <> y).
      { intros H ->. apply redges_in in H. now apply (D y H). }
      assert (T2 : In (u, v) (chain y T) -> v <> y).
      { intros H ->. apply Ch in H. exact (redges_first _ _ _ _ N2 F2 H eq_refl). }
      cbn [In]. split.
      * intros [[[-> ->]|H]|[[-> H]|H]]; auto.
        -- left. split; [auto|]. intros [C|[]]. injection C as _ ->. now apply T2.
        -- injection H as ->. auto.
        -- left. split; [auto|]. intros [C|[]]. injection C as _ ->. now apply T1.
      * intros [[[H|[(a' & q & t' & q' & C & F & -> & ->)|H]] R]|[H|[H|[]]]]; auto.
        -- exfalso. apply R. left. rewrite F2 in F; injection F as ->. rewrite Q1 in C. apply app_inj_tail in C as [_ C]. congruence.
        -- injection H as -> ->. auto.
        -- injection H as -> ->. auto.
    + intros e [<-|[]]. rewrite Q. apply redges_app. right; left. exists l1', p, t, y. auto.
    + intros e [<-|[<-|[]]]; reflexivity.
Qed.
Lemma insert_right l1 q y t l2 : l = l1 ++ (q, y :: t) :: l2 ->
  r_find (wt l) 1 NONE x s0 = Ok (y, RIGHT) ->
  exists rt' ins rem, r_insert a rt = Ok (rt', (ins, rem)) /\ good rt' ((a, y :: t) :: l1 ++ (q, []) :: l2) (ts ++ [a]) /\
    new_edges l ((a, y :: t) :: l1 ++ (q, []) :: l2) ins rem a.
Proof.
  intros Q Fi. pose proof nd_l as N. pose proof spine0 as S0. rewrite Q in N, S0. pose proof Fx as Fx1. rewrite Q in Fx1.
  destruct (detach_right s0 l1 q y t l2 N S0) as [s1 [D1 [S1 [K1 Fr1]]]].
  pose proof N as N'. rewrite rtags_app, rtags_cons in N'. destruct (nodup_app _ _ N') as [N1 [N2 D]].
  apply NoDup_cons_iff in N2 as [Nq N2]. destruct (nodup_app _ _ N2) as [Nyt [N4 D2]]. rewrite in_app_iff in Nq.
  apply NoDup_cons_iff in Nyt as [Ny Nt].
  assert (F1 : first_of (l1 ++ (q, []) :: l2) = Some x) by (destruct l1 as [|[? ?] ?]; exact Fx1).
  assert (Yq : y <> q) by (intros ->; apply Nq; left; now left).
  assert (Y1 : ~ In y (rtags l1)) by (intros C; apply (D y C); right; rewrite in_app_iff; left; now left).
  assert (Y2 : ~ In y (rtags l2)) by (apply D2; now left).
  assert (Hx : In x (rtags (l1 ++ (q, []) :: l2))) by now apply first_in.
  assert (Out : forall d, In d (y :: t) -> ~ In d (rtags (l1 ++ (q, []) :: l2))).
  { intros d Hd C. rewrite rtags_app, rtags_cons in C. apply in_app_iff in C as [C|[<-|C]].
    - apply (D d C). right; rewrite in_app_iff; now left.
    - apply Nq; now left.
    - now apply (D2 d Hd). }
  assert (Xy : y <> x) by (intros ->; apply (Out x); [now left|exact Hx]).
  assert (Inc : forall d, In d (map fst (l1 ++ [(q, [])])) -> In d (rtags (l1 ++ (q, []) :: l2))).
  { intros d Hd. apply in_map_iff in Hd as [[q0 tq] [<- Hd]]. cbn. unfold rtags. apply in_flat_map. exists (q0, tq); split; [|now left].
    apply in_app_iff in Hd as [Hd|Hd]; apply in_app_iff; [now left|right]. destruct Hd as [Hd|[]]; now left. }
  assert (Al : forall d, In d (rtags (l1 ++ (q, []) :: l2)) -> In d ts).
  { intros d Hd. apply in_ts. rewrite Q. rewrite rtags_app, rtags_cons, in_app_iff in *. destruct Hd as [Hd|[Hd|Hd]]; auto.
    - right; now left.
    - right; right; rewrite in_app_iff; now right. }
  assert (Ga : dget s1 a = Some n0).
  { rewrite Fr1; [unfold s0; apply dget_dset_same|]. intros C. apply Ha, Al, Inc, C. }
  destruct (spine_split _ _ _ _ S0) as [_ S2]. cbn [spine] in S2. destruct S2 as [[iq Gq] [Tq S2]].
  assert (Tq1 : tooth s1 q (y :: t)).
  { apply (tooth_frame s0); [|exact Tq]. intros d Hd. apply Fr1. intros C. apply (Out d Hd), Inc, C. }
  assert (Lo : loose s1 y t).
  { cbn [tooth] in Tq1. destruct Tq1 as [[i [lf [rr [Gy Ow]]]] T]. split; [|exact T]. exists i, lf, rr, (Some q). split; [exact Gy|exact Ow]. }
  assert (Pl : Permutation ((y :: t) ++ rtags (l1 ++ (q, []) :: l2)) (rtags l)).
  { rewrite Q, !rtags_app, !rtags_cons. cbn [app]. change (y :: t ++ rtags l1 ++ q :: rtags l2) with ((y :: t) ++ rtags l1 ++ q :: rtags l2).
    rewrite Permutation_app_comm, <- app_assoc. apply Permutation_app_head. cbn [app]. apply perm_skip.
    change (y :: t ++ rtags l2) with ((y :: t) ++ rtags l2). apply Permutation_app_comm. }
  assert (NA : NoDup (a :: (y :: t) ++ rtags (l1 ++ (q, []) :: l2))).
  { apply (Permutation_NoDup (l := a :: rtags l)); [apply perm_skip; now symmetry|]. constructor; [exact a_not|exact nd_l]. }
  destruct (attach s1 a (length s) y t x _ Ga Lo S1 F1 NA) as [s2 [s3 [A1 [A2 [S3 K3]]]]].
  assert (Gy : exists m, dget s0 y = Some m /\ r_parent m = Some q).
  { cbn [tooth] in Tq. destruct Tq as [[i [lf [rr [Gy Ow]]]] T]. eexists; split; [exact Gy|reflexivity]. }
  destruct Gy as [m [Gy Pm]]. destruct x_height as [nx [Gx Hh]].
  exists (mkT (Some a) s3), [(a, x); (a, y)], [(q, y)]. split; [|split].
  - unfold r_insert. fold n0. fold s0. rewrite (g_root _ _ _ G), Fx. unfold node_at at 1. rewrite Gx. cbn [bind]. rewrite Hh, Fi. cbn [bind fst snd].
    destruct (teq_spec y x) as [C|_]; [contradiction|]. unfold node_at at 1. rewrite Gy. cbn [bind]. rewrite Pm, D1. cbn [bind].
    rewrite A1. cbn [bind]. rewrite A2. reflexivity.
  - split; cbn [r_root r_index].
    + reflexivity.
    + exact S3.
    + apply (Permutation_NoDup (l := a :: ts)); [apply Permutation_cons_append|]. constructor; [exact Ha|apply (g_nodup _ _ _ G)].
    + rewrite rtags_cons. rewrite <- Permutation_cons_append. apply perm_skip. rewrite <- (g_perm _ _ _ G). exact Pl.
    + rewrite K3, K1. exact keys0.
  - split; [|split; [|split; [|cbn; lia]]].
    + intros [u v]. rewrite (redges_cons a), F1, chain_cons, Q, !redges_app, !redges_cons, chain_cons. cbn [first_of chain In].
      split.
      * intros [[[-> ->]|H]|[[-> H]|H]]; auto.
        -- left. split; [auto 10|]. intros [C|[]]. injection C as _ <-. apply Ny. exact (chain_target _ _ _ _ H).
        -- injection H as ->. auto.
        -- left. destruct H as [H|[(a' & q0 & t' & q' & C & F & -> & ->)|[[]|[[-> H]|H]]]].
           ++ split; [auto|]. intros [C|[]]. injection C as _ <-. apply Y1. exact (redges_in _ _ _ H).
           ++ split; [right; left; exists a', q0, t', q'; auto|]. intros [C'|[]]. injection F as <-. injection C' as _ ->. contradiction.
           ++ split; [auto 10|]. intros [C'|[]]. injection C' as <-. apply Y2. now apply first_in.
           ++ split; [auto 10|]. intros [C'|[]]. injection C' as _ <-. apply Y2. exact (redges_in _ _ _ H).
      * intros [[[H|[(a' & q0 & t' & q' & C & F & -> & ->)|[[[-> ->]|H]|[H|H]]]] R]|[H|[H|[]]]]; auto 12.
        -- right; right; right; left. exists a', q0, t', q'. auto.
        -- injection H as -> ->. auto.
        -- injection H as -> ->. auto.
    + intros e [<-|[]]. rewrite Q. apply redges_app. right; right. apply redges_cons. left. apply chain_cons; auto.
    + intros e [<-|[<-|[]]]; reflexivity.
Qed.
End Step.
End R.
