(** Edges, ways and sizes in the tree of src/deprecated/revision_tree.py. *)
From Coq Require Import Lia Permutation.
From Verif Require Import Base TreeShape TreeRake Revision SpecRevision RevisionProofs RevisionInsert RevisionStep RevisionShape VersionsShape.
Local Open Scope nat_scope.

Section R.
Context {K : Type} {E : Teq K} {O : TeqOk K}.
Notation rake := (rake (K := K)).
Notation rnodes := (dict K (rnode K)).
Implicit Type s : rnodes.
Implicit Type l : rake.

(** ** Edges *)
Lemma edges_tooth s t : forall q d fuel, tooth s q (d :: t) -> S (length t) <= fuel -> r_edges_at fuel d s = Ok (chain d t).
Proof.
  induction t as [|c t IH]; intros q d fuel H L; (destruct fuel as [|fuel]; [cbn in L; lia|]).
  - destruct H as [[i [lf [rt [G D]]]] _]. cbn [hd_error length] in *. cbn [r_edges_at chain]. unfold node_at; rewrite G; cbn [bind r_left r_right].
    destruct D as [[-> ->]|[-> ->]]; reflexivity.
  - cbn [tooth] in H. destruct H as [[i [lf [rt [G D]]]] H]. cbn [hd_error length] in *. cbn [r_edges_at chain]. unfold node_at; rewrite G; cbn [bind r_left r_right].
    destruct D as [[-> ->]|[-> ->]]; rewrite (IH d c fuel H) by (cbn [length] in *; lia); cbn [bind app]; now rewrite ?app_nil_r.
Qed.
Lemma edges_spine s l : forall par q fuel, spine s par l -> first_of l = Some q -> wt l <= fuel ->
  exists es, r_edges_at fuel q s = Ok es /\ Permutation es (redges l).
Proof.
  induction l as [|[q0 t] l IH]; intros par q fuel SP F L; [discriminate|]. injection F as ->.
  rewrite wt_cons in L. destruct fuel as [|fuel]; [lia|]. cbn [spine] in SP. destruct SP as [[i G] [T SP]].
  cbn [r_edges_at redges]. unfold node_at; rewrite G; cbn [bind r_left r_right].
  assert (Rt : (match hd_error t with None => Ok [] | Some c => let* e := r_edges_at fuel c s in Ok ((q, c) :: e) end) = Ok (chain q t)).
  { destruct t as [|d t]; cbn [hd_error chain]; [reflexivity|]. rewrite (edges_tooth s t q d fuel T) by (cbn [length] in L; lia). reflexivity. }
  rewrite Rt. destruct (first_of l) as [c|] eqn:F.
  - destruct (IH (Some q) c fuel SP eq_refl ltac:(lia)) as [es [Q P]]. rewrite Q. cbn [bind]. eexists; split; [reflexivity|].
    rewrite Permutation_app_comm. apply Permutation_app_head. cbn [app]. now apply perm_skip.
  - destruct l as [|[? ?] ?]; [|discriminate]. cbn [bind app redges]. exists (chain q t). split; [reflexivity|now rewrite app_nil_r].
Qed.

Lemma chain_snd (q : K) t : map snd (chain q t) = t.
Proof. revert q; induction t as [|c t IH]; intros q; cbn; [reflexivity|f_equal; apply IH]. Qed.
Lemma redges_snd l : map snd (redges l) = tl (rtags l).
Proof.
  induction l as [|[q t] l IH]; [reflexivity|]. cbn [redges]. rewrite !map_app, chain_snd, IH. rewrite rtags_cons. cbn [tl]. f_equal.
  destruct l as [|[q' t'] l]; reflexivity.
Qed.

(** ** Ways *)
Fixpoint upto (w : K) (t : list K) : list K := match t with [] => [] | d :: t => if teq d w then [d] else d :: upto w t end.
Fixpoint rpath l (w : K) : list K :=
  match l with
  | [] => []
  | (q, t) :: l => if teq q w then [q] else if existsb (fun d => teq d w) t then q :: upto w t else q :: rpath l w
  end.
Lemma ex_In w t : existsb (fun d => teq d w) t = true <-> In w t.
Proof.
  rewrite existsb_exists. split; [intros [d [H Q]]|intros H; exists w; split; [exact H|apply teq_refl]].
  destruct (teq_spec d w) as [->|]; [exact H|discriminate].
Qed.
Lemma upto_in w t u : In u (upto w t) -> In u t.
Proof. induction t as [|d t IH]; cbn; [auto|]. destruct (teq d w); cbn; tauto. Qed.
Lemma upto_length w t : length (upto w t) <= length t.
Proof. induction t as [|d t IH]; cbn; [lia|]. destruct (teq d w); cbn; lia. Qed.
Lemma rpath_length l w : length (rpath l w) <= tall_of (lens l).
Proof.
  induction l as [|[q t] l IH]; cbn; [lia|]. pose proof (upto_length w t). unfold lens in IH.
  destruct (teq q w), (existsb (fun d => teq d w) t); cbn; lia.
Qed.
Lemma upto_last w t : NoDup (t ++ [w]) -> upto w (t ++ [w]) = t ++ [w].
Proof.
  induction t as [|d t IH]; cbn [app upto]; intros N; [now rewrite teq_refl|]. apply NoDup_cons_iff in N as [Nd N].
  destruct (teq_spec d w) as [->|_]; [exfalso; apply Nd; rewrite in_app_iff; right; now left|]. now rewrite IH.
Qed.
Lemma rpath_attained l : NoDup (rtags l) -> l <> [] -> exists w, In w (rtags l) /\ length (rpath l w) = tall_of (lens l).
Proof.
  induction l as [|[q t] l IH]; [contradiction|]. intros N _. rewrite rtags_cons in N. pose proof N as N0. apply NoDup_cons_iff in N as [Nq N].
  destruct (nodup_app _ _ N) as [N1 [N2 D]]. cbn [lens map tall_of snd]. fold (lens l).
  destruct (le_lt_dec (tall_of (lens l)) (length t)) as [L|L].
  - destruct t as [|d t].
    + exists q. split; [now left|]. cbn [rpath]. rewrite teq_refl. cbn in L |- *. lia.
    + destruct (exists_last (l := d :: t) ltac:(discriminate)) as [t0 [w Qt]]. rewrite Qt in *. clear d t Qt. exists w.
      assert (Iw : In w (t0 ++ [w])) by (rewrite in_app_iff; right; now left).
      split; [rewrite rtags_cons; right; rewrite in_app_iff; now left|]. cbn [rpath].
      destruct (teq_spec q w) as [->|_]; [exfalso; apply Nq; rewrite in_app_iff; now left|].
      rewrite (proj2 (ex_In _ _) Iw). rewrite (upto_last w t0 N1). cbn [length]. lia.
  - assert (Nl : l <> []) by (intros ->; cbn in L; lia). destruct (IH N2 Nl) as [w [Iw Lw]]. exists w.
    split; [rewrite rtags_cons; right; rewrite in_app_iff; now right|]. cbn [rpath].
    destruct (teq_spec q w) as [->|_]; [exfalso; apply Nq; rewrite in_app_iff; now right|].
    destruct (existsb (fun d => teq d w) t) eqn:X; [apply ex_In in X; exfalso; exact (D w X Iw)|]. cbn [length]. lia.
Qed.

Lemma up_tooth s w t : forall q fuel, tooth s q t -> In w t ->
  r_up (fuel + length (upto w t)) (Some w) s = (let* r := r_up fuel (Some q) s in Ok (rev (upto w t) ++ r)).
Proof.
  induction t as [|d t IH]; intros q fuel H I; [destruct I|]. cbn [tooth] in H. destruct H as [[i [lf [rt [G D]]]] H]. cbn [upto].
  destruct (teq_spec d w) as [->|Nd].
  - cbn [length rev app]. rewrite Nat.add_1_r. cbn [r_up]. unfold node_at; rewrite G. reflexivity.
  - destruct I as [->|I]; [contradiction|]. cbn [length rev]. rewrite Nat.add_succ_r. change (S (fuel + length (upto w t))) with (S fuel + length (upto w t)).
    rewrite (IH d (S fuel) H I). replace (r_up (S fuel) (Some d) s) with (let* r := r_up fuel (Some q) s in Ok (d :: r)).
    2: { cbn [r_up]. unfold node_at; rewrite G. reflexivity. }
    destruct (r_up fuel (Some q) s); cbn [bind]; [|reflexivity]. rewrite <- app_assoc. reflexivity.
Qed.
Lemma up_spine s w l : forall par fuel, spine s par l -> NoDup (rtags l) -> In w (rtags l) ->
  r_up (fuel + length (rpath l w)) (Some w) s = (let* r := r_up fuel par s in Ok (rev (rpath l w) ++ r)).
Proof.
  induction l as [|[q t] l IH]; intros par fuel SP N I; [destruct I|]. cbn [spine] in SP. destruct SP as [[i G] [T SP]].
  assert (Uq : r_up (S fuel) (Some q) s = (let* r := r_up fuel par s in Ok (q :: r))).
  { cbn [r_up]. unfold node_at; rewrite G. reflexivity. }
  rewrite rtags_cons in N, I. apply NoDup_cons_iff in N as [Nq N]. destruct (nodup_app _ _ N) as [N1 [N2 D]]. cbn [rpath].
  destruct (teq_spec q w) as [->|Nw].
  - cbn [length rev app]. rewrite Nat.add_1_r. exact Uq.
  - destruct I as [->|I]; [contradiction|]. destruct (existsb (fun d => teq d w) t) eqn:X.
    + apply ex_In in X. cbn [length rev]. rewrite Nat.add_succ_r. change (S (fuel + length (upto w t))) with (S fuel + length (upto w t)).
      rewrite (up_tooth s w t q (S fuel) T X), Uq. destruct (r_up fuel par s); cbn [bind]; [|reflexivity]. rewrite <- app_assoc; reflexivity.
    + assert (Iw : In w (rtags l)).
      { apply in_app_iff in I as [I|I]; [apply ex_In in I; congruence|exact I]. }
      cbn [length rev]. rewrite Nat.add_succ_r. change (S (fuel + length (rpath l w))) with (S fuel + length (rpath l w)).
      rewrite (IH (Some q) (S fuel) SP N2 Iw), Uq. destruct (r_up fuel par s); cbn [bind]; [|reflexivity]. rewrite <- app_assoc; reflexivity.
Qed.

Lemma route_more (es es' : list (K * K)) x p v : incl es es' -> route es x p v -> route es' x p v.
Proof. intros H R. induction R; [constructor|]. econstructor; [apply H|]; eauto. Qed.
Lemma route_tooth w t : forall q, In w t -> route (chain q t) q (q :: upto w t) w.
Proof.
  induction t as [|d t IH]; intros q I; [destruct I|]. cbn [upto chain]. destruct (teq_spec d w) as [->|Nd].
  - econstructor; [now left|constructor].
  - destruct I as [->|I]; [contradiction|]. econstructor; [now left|]. apply (route_more (chain d t)); [apply incl_tl, incl_refl|]. exact (IH d I).
Qed.
Lemma route_rake w l : forall q, NoDup (rtags l) -> In w (rtags l) -> first_of l = Some q -> route (redges l) q (rpath l w) w.
Proof.
  induction l as [|[q t] l IH]; intros q1 N I F; [destruct I|]. injection F as <-.
  rewrite rtags_cons in N, I. apply NoDup_cons_iff in N as [Nq N]. destruct (nodup_app _ _ N) as [N1 [N2 D]]. cbn [rpath redges].
  destruct (teq_spec q w) as [->|Nw]; [constructor|]. destruct I as [->|I]; [contradiction|].
  destruct (existsb (fun d => teq d w) t) eqn:X.
  - apply ex_In in X. apply (route_more (chain q t)); [apply incl_appl, incl_refl|]. exact (route_tooth w t q X).
  - assert (Iw : In w (rtags l)).
    { apply in_app_iff in I as [I|I]; [apply ex_In in I; congruence|exact I]. }
    destruct (first_of l) as [q'|] eqn:F.
    + econstructor; [rewrite !in_app_iff; right; left; now left|]. apply (route_more (redges l)); [apply incl_appr, incl_appr, incl_refl|].
      exact (IH q' N2 Iw eq_refl).
    + destruct l as [|[? ?] ?]; [destruct Iw|discriminate].
Qed.

Lemma route_snoc (es : list (K * K)) x p v : route es x p v -> (p = [x] /\ v = x) \/ exists p1 u, p = p1 ++ [v] /\ route es x p1 u /\ In (u, v) es.
Proof.
  induction 1 as [x|x y p v I R IH]; [now left|]. right. destruct IH as [[-> ->]|[p1 [u [-> [R1 I1]]]]].
  - exists [x], x. split; [reflexivity|split; [constructor|exact I]].
  - exists (x :: p1), u. split; [reflexivity|split; [econstructor; eauto|exact I1]].
Qed.
Lemma snd_unique (es : list (K * K)) u u' v : NoDup (map snd es) -> In (u, v) es -> In (u', v) es -> u = u'.
Proof.
  induction es as [|[a b] es IH]; cbn; [intros _ []|]. intros N I I'. apply NoDup_cons_iff in N as [Nb N].
  assert (X : forall c, In (c, v) es -> In v (map snd es)) by (intros c Hc; change v with (snd (c, v)); now apply in_map).
  destruct I as [I|I], I' as [I'|I'].
  - congruence.
  - injection I as -> ->. exfalso; apply Nb; eauto.
  - injection I' as -> ->. exfalso; apply Nb; eauto.
  - auto.
Qed.
Lemma route_unique (es : list (K * K)) x : NoDup (map snd es) -> ~ In x (map snd es) -> forall m p p' v, length p <= m -> route es x p v -> route es x p' v -> p = p'.
Proof.
  intros N Nx. assert (X : forall u, ~ In (u, x) es) by (intros u Hu; apply Nx; change x with (snd (u, x)); now apply in_map).
  induction m as [|m IH]; intros p p' v L R R'.
  - destruct R; cbn in L; lia.
  - apply route_snoc in R as [[-> ->]|[p1 [u [-> [R I]]]]].
    + apply route_snoc in R' as [[-> _]|[? [u [_ [_ C]]]]]; [reflexivity|exfalso; exact (X _ C)].
    + apply route_snoc in R' as [[-> ->]|[p2 [u' [-> [R' I']]]]]; [exfalso; exact (X _ I)|].
      rewrite (snd_unique es u' u v N I' I) in R'. rewrite app_length in L; cbn in L. f_equal. apply (IH p1 p2 u); [lia|exact R|exact R'].
Qed.

(** ** What a good tree offers *)
Section Good.
Variable rt : rtree K.
Variable l : rake.
Variable ts : list K.
Variable G : good rt l ts.
Lemma good_nd : NoDup (rtags l).
Proof. apply (Permutation_NoDup (Permutation_sym (g_perm _ _ _ G))), (g_nodup _ _ _ G). Qed.
Lemma good_length : length (r_index rt) = wt l.
Proof. unfold wt. rewrite (Permutation_length (g_perm _ _ _ G)), <- (g_keys _ _ _ G). unfold dkeys. now rewrite map_length. Qed.
Lemma good_edges : exists es, r_edges rt = Ok es /\ Permutation es (redges l).
Proof.
  unfold r_edges. rewrite (g_root _ _ _ G). destruct (first_of l) as [q|] eqn:F.
  - apply (edges_spine _ l None q); [apply (g_spine _ _ _ G)|exact F|rewrite good_length; lia].
  - destruct l as [|[? ?] ?]; [|discriminate]. exists []; split; reflexivity.
Qed.
Lemma good_up w fuel : In w ts -> wt l <= fuel -> r_up fuel (Some w) (r_index rt) = Ok (rev (rpath l w)).
Proof.
  intros I L. assert (Iw : In w (rtags l)) by (apply (Permutation_in w (Permutation_sym (g_perm _ _ _ G))); exact I).
  assert (Lp : length (rpath l w) <= fuel) by (pose proof (rpath_length l w); pose proof (tall_wt l); lia).
  replace fuel with (fuel - length (rpath l w) + length (rpath l w)) by lia.
  rewrite (up_spine (r_index rt) w l None _ (g_spine _ _ _ G) good_nd Iw).
  destruct (fuel - length (rpath l w)); cbn [r_up bind]; now rewrite app_nil_r.
Qed.
Lemma good_path w : In w ts -> r_path_to rt w = Ok (rpath l w).
Proof.
  intros I. unfold r_path_to. destruct (dget (r_index rt) w) as [n|] eqn:Gw.
  - rewrite good_length, (good_up w (wt l) I) by lia. cbn [bind]. now rewrite rev_involutive.
  - exfalso. rewrite <- (g_keys _ _ _ G) in I. apply keys_dget in I. contradiction.
Qed.
Lemma good_no_path w : ~ In w ts -> r_path_to rt w = Err KeyError.
Proof.
  intros I. unfold r_path_to. destruct (dget (r_index rt) w) as [n|] eqn:Gw; [|reflexivity].
  exfalso. apply I. rewrite <- (g_keys _ _ _ G). apply dget_keys. congruence.
Qed.
Lemma good_targets x es : first_of l = Some x -> Permutation es (redges l) -> Permutation (x :: map snd es) ts /\ NoDup es /\
  NoDup (map snd es) /\ ~ In x (map snd es) /\ (forall u v, In (u, v) es -> In u ts /\ In v ts).
Proof.
  intros F P. assert (Pm : Permutation (x :: map snd es) ts).
  { rewrite <- (g_perm _ _ _ G). rewrite (Permutation_map snd P), redges_snd. destruct l as [|[q t] l']; [discriminate|]. injection F as ->. reflexivity. }
  assert (N : NoDup (x :: map snd es)) by (apply (Permutation_NoDup (Permutation_sym Pm)), (g_nodup _ _ _ G)).
  apply NoDup_cons_iff in N as [Nx N]. split; [exact Pm|split; [exact (NoDup_map_inv snd es N)|split; [exact N|split; [exact Nx|]]]].
  intros u v I. split.
  - apply (Permutation_in u (g_perm _ _ _ G)). apply (redges_source l u v). now apply (Permutation_in _ P).
  - apply (Permutation_in v Pm). right. change v with (snd (u, v)). now apply in_map.
Qed.
End Good.

Lemma phaseR_tall n a : phaseR n a ->
  (tall_of a + 1) * (tall_of a + 1) <= 4 * n + 1 /\ 4 * n + 1 < (tall_of a + 2) * (tall_of a + 2).
Proof. intros [[-> ->]|[_ H]]; [cbn; lia|exact (phase_tall n a H)]. Qed.

Lemma last_perm (ts : list K) d x es : ts <> [] -> Permutation (x :: es) ts -> x = last ts d -> Permutation es (removelast ts).
Proof.
  intros Ne P ->. rewrite (app_removelast_last d Ne) in P at 2. rewrite <- Permutation_cons_append in P. exact (Permutation_cons_inv P).
Qed.

Theorem tree_of ts d : NoDup ts -> ts <> [] -> exists t es, r_insert_all ts r_empty = Ok t /\ r_edges t = Ok es /\
  NoDup es /\ S (length es) = length ts /\ Permutation (map snd es) (removelast ts) /\ (forall u v, In (u, v) es -> In u ts /\ In v ts) /\
  (forall v, In v ts -> exists p, r_path_to t v = Ok p /\ route es (last ts d) p v /\ (forall p', route es (last ts d) p' v -> p' = p)) /\
  (forall v, ~ In v ts -> r_path_to t v = Err KeyError).
Proof.
  intros N Ne. destruct (insertions ts N Ne) as [rt [l [I [G [P F]]]]]. destruct (good_edges rt l ts G) as [es [Qe Pe]].
  destruct (good_targets rt l ts G (last ts d) es (F d) Pe) as [Pt [N1 [N2 [Nx Hin]]]].
  exists rt, es. split; [exact I|split; [exact Qe|split; [exact N1|split; [|split; [|split; [exact Hin|split]]]]]].
  - apply Permutation_length in Pt. cbn [length] in Pt. rewrite map_length in Pt. exact Pt.
  - exact (last_perm ts d (last ts d) (map snd es) Ne Pt eq_refl).
  - intros v Hv. exists (rpath l v). split; [exact (good_path rt l ts G v Hv)|].
    assert (R : route es (last ts d) (rpath l v) v).
    { apply (route_more (redges l)); [intros e He; exact (Permutation_in e (Permutation_sym Pe) He)|].
      apply route_rake; [exact (good_nd rt l ts G)|exact (Permutation_in v (Permutation_sym (g_perm _ _ _ G)) Hv)|apply F]. }
    split; [exact R|]. intros p' R'. exact (route_unique es (last ts d) N2 Nx (length p') p' (rpath l v) v (le_n _) R' R).
  - intros v Hv. exact (good_no_path rt l ts G v Hv).
Qed.
Theorem longest ts : NoDup ts -> exists t, r_insert_all ts r_empty = Ok t /\ exists d,
  (d + 1) * (d + 1) <= 4 * length ts + 1 /\ 4 * length ts + 1 < (d + 2) * (d + 2) /\
  (forall v p, r_path_to t v = Ok p -> length p <= d) /\ (ts <> [] -> exists v p, r_path_to t v = Ok p /\ length p = d).
Proof.
  intros N. destruct ts as [|b ts].
  - exists r_empty. split; [reflexivity|]. exists 0. split; [cbn; lia|split; [cbn; lia|split; [intros v p H; discriminate|intros C; contradiction]]].
  - destruct (insertions (b :: ts) N ltac:(discriminate)) as [rt [l [I [G [P F]]]]]. exists rt. split; [exact I|].
    exists (tall_of (lens l)). destruct (phaseR_tall _ _ P) as [A B]. split; [exact A|split; [exact B|split]].
    + intros v p H. destruct (in_dec T_dec v (b :: ts)) as [Hv|Hv].
      * rewrite (good_path rt l _ G v Hv) in H. injection H as <-. apply rpath_length.
      * rewrite (good_no_path rt l _ G v Hv) in H. discriminate.
    + intros _. destruct (rpath_attained l (good_nd rt l _ G)) as [w [Iw Lw]].
      { intros ->. specialize (F b). discriminate. }
      exists w, (rpath l w). split; [|exact Lw]. apply (good_path rt l _ G). exact (Permutation_in w (g_perm _ _ _ G) Iw).
Qed.
Theorem one_more ts a : NoDup (ts ++ [a]) -> exists t t' es es' ins rem, r_insert_all ts r_empty = Ok t /\ r_edges t = Ok es /\
  r_insert a t = Ok (t', (ins, rem)) /\ r_edges t' = Ok es' /\
  (forall e, In e es' <-> (In e es /\ ~ In e rem) \/ In e ins) /\ incl rem es /\ (forall e, In e ins -> fst e = a) /\
  length ins <= 2 /\ length rem <= 1 /\ (forall b ts', ts = ts' ++ [b] -> In (a, b) ins).
Proof.
  intros N0. assert (Na : ~ In a ts /\ NoDup ts).
  { apply NoDup_remove in N0 as [A B]. rewrite app_nil_r in A, B. auto. }
  destruct Na as [Na N]. destruct (list_eq_dec T_dec ts []) as [->|Ne].
  - destruct (insert_first a) as [rt [I [G _]]]. exists r_empty, rt, [], [], [], [].
    split; [reflexivity|split; [reflexivity|split; [exact I|]]].
    destruct (good_edges rt _ _ G) as [es [Qe Pe]]. cbn [redges chain app] in Pe. apply Permutation_sym, Permutation_nil in Pe. subst es.
    split; [exact Qe|]. split; [cbn; tauto|split; [intros e []|split; [intros e []|split; [cbn; lia|split; [cbn; lia|]]]]].
    intros b ts' Q; destruct ts'; discriminate.
  - destruct (insertions ts N Ne) as [rt [l [I [G [P F]]]]].
    destruct (insert_step rt l ts a G Ne P Na) as [rt' [l' [ins [rem [I' [G' [P' [[T [l1 [Ql F']]] [X1 [X2 [X3 [X4 X5]]]]]]]]]]]].
    destruct (good_edges rt l ts G) as [es [Qe Pe]], (good_edges rt' l' _ G') as [es' [Qe' Pe']].
    exists rt, rt', es, es', ins, rem. split; [exact I|split; [exact Qe|split; [exact I'|split; [exact Qe'|]]]].
    assert (Pin : forall e, In e es <-> In e (redges l)) by (intros e; split; apply Permutation_in; [|symmetry]; exact Pe).
    assert (Pin' : forall e, In e es' <-> In e (redges l')) by (intros e; split; apply Permutation_in; [|symmetry]; exact Pe').
    split; [intros e; rewrite Pin', Pin; apply X1|split; [intros e He; apply Pin, X2, He|split; [exact X3|split; [exact X4|split; [exact X5|]]]]].
    intros b ts' Q. pose proof (F b) as Fb. rewrite Q, last_last in Fb. destruct (X1 (a, b)) as [Y _]. destruct Y as [[C _]|Y]; [|  |exact Y].
    + rewrite Ql. apply redges_cons. right; left. rewrite F'. auto.
    + exfalso. apply Na. apply (Permutation_in a (g_perm _ _ _ G)). exact (redges_source l a b C).
Qed.
End R.
