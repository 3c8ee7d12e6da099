(** An add that was interrupted harms no other line (C125, C127). *)
From Coq Require Import ZArith Lia.
From Verif Require Import Base Changesets Serialize Tokenizers SpecTokenizers Tree SpecTree TreeProofs
  Versions SpecVersions SpecLineage VersionsInv VersionsProofs VersionsMore VersionsFrame VersionsLineage
  DbTree DbTreeProofs SpecDb DbVersions SpecInterrupted InterruptedProofs DbCommits SpecCommits CommitsProofs
  SpecElsewhere VersionsElsewhere VersionsApart.
Local Open Scope nat_scope.

(** * The first updates of an add, for any way to call change_parent *)
Section Via.
Context {K : Type} {E : Teq K} {O : TeqOk K}.
Variable re_w : Z -> bool.
Variable tk : tkind.
Variables HS DS : store K.
Variable TR : tree_impl K.
Notation vst := (@vstate K HS DS TR).
Notation vm := (vm HS DS TR).
Notation vbind := (vbind HS DS TR).
Notation look := (look HS DS TR).
Notation vret := (vret HS DS TR).
Variable move : K -> K -> vm unit.
Hypothesis Hmove : forall k q v, fst (move k q v) = [] -> exists e, snd (snd (move k q v)) = Err e.

Lemma bind_trace {A B} (m : vm A) (f : A -> vm B) v : fst (vbind m f v) =
  fst (m v) ++ match snd (snd (m v)) with Ok a => fst (f a (fst (snd (m v)))) | Err _ => [] end.
Proof. unfold Versions.vbind. destruct (m v) as [t1 [v1 [a|e]]]; cbn; [|now rewrite app_nil_r]. now destruct (f a v1). Qed.
Lemma bind_result {A B} (m : vm A) (f : A -> vm B) v : snd (snd (vbind m f v)) =
  match snd (snd (m v)) with Ok a => snd (snd (f a (fst (snd (m v))))) | Err e => Err e end.
Proof. unfold Versions.vbind. destruct (m v) as [t1 [v1 [a|e]]]; cbn; [|reflexivity]. now destruct (f a v1). Qed.

Definition edge_via (q c : K) (changeset : list (pitem Z)) : vm unit :=
  vbind (look (fun _ => serialize_changeset changeset)) (fun d =>
  vbind (set_diff HS DS TR c d) (fun _ =>
  vbind (move c q) (fun _ =>
  vbind (look (fun v => Ok (s_mem HS (heads v) c))) (fun is_head =>
  if is_head then del_head HS DS TR c else vret tt)))).
Definition rest_via (tag : K) (version : list Z) (h : K) : vm unit :=
    vbind (look (fun v => tr_get_split TR (tree v) h)) (fun sp =>
    vbind (if teq (fst sp) h then vret tt else
           vbind (look (fun v => retrieve_using_path re_w tk HS DS TR v (snd sp))) (fun split_version =>
           vbind (look (fun _ => make_changeset re_w tk version split_version)) (fun cs =>
           vbind (edge_via tag (fst sp) cs) (fun _ =>
           move (fst sp) tag)))) (fun _ =>
    vbind (look (fun v => s_get HS (heads v) h)) (fun head_version =>
    vbind (look (fun _ => make_changeset re_w tk version head_version)) (fun cs =>
    edge_via tag h cs)))).
Definition after_diff (v : vst) (c : K) (d : list Z) : vst := mkV (heads v) (s_set DS c d (diffs v)) (tree v).
Definition early (tag c : K) (v : vst) (n : nat) (w : vst) : Prop := exists d,
  match n with 0 => w = after_diff v c d | _ => nth_error (fst (move c tag (after_diff v c d))) 0 = Some w end.

Lemma edge_first q c cs v n w : n <= 1 -> nth_error (fst (edge_via q c cs v)) n = Some w -> early q c v n w.
Proof.
  intros Hn. unfold edge_via. rewrite bind_trace. cbn [look fst snd app].
  destruct (serialize_changeset cs) as [d|e]; [|destruct n; discriminate]. rewrite bind_trace. cbn [set_diff fst snd app].
  exists d. unfold early. destruct n as [|[|n]]; [|  |lia]; cbn [nth_error] in *; [now injection H as <-|].
  rewrite bind_trace in H. unfold after_diff. destruct (fst (move c q _)) as [|w' l] eqn:Q; [|exact H].
  destruct (Hmove _ _ _ Q) as [e Q']. rewrite Q' in H. discriminate.
Qed.
Lemma edge_full q c cs v : 2 <= length (fst (edge_via q c cs v)) \/ exists e, snd (snd (edge_via q c cs v)) = Err e.
Proof.
  unfold edge_via. rewrite bind_trace, bind_result. cbn [look fst snd app].
  destruct (serialize_changeset cs) as [d|e]; [|right; eauto]. rewrite bind_trace, bind_result. cbn [set_diff fst snd app].
  rewrite bind_trace, bind_result. destruct (fst (move c q _)) as [|w' l] eqn:Q; [|left; cbn; lia].
  destruct (Hmove _ _ _ Q) as [e ->]. right; eauto.
Qed.
Lemma nth_bind {A B} (m : vm A) (f : A -> vm B) v n w : (n < length (fst (m v)) \/ exists e, snd (snd (m v)) = Err e) ->
  nth_error (fst (vbind m f v)) n = Some w -> nth_error (fst (m v)) n = Some w.
Proof.
  rewrite bind_trace. intros [H|[e H]] Q; [now rewrite nth_error_app1 in Q|]. rewrite H, app_nil_r in Q. exact Q.
Qed.
Lemma nth_look {A B} (g : vst -> res A) (f : A -> vm B) v n w : nth_error (fst (vbind (look g) f v)) n = Some w ->
  exists a, g v = Ok a /\ nth_error (fst (f a v)) n = Some w.
Proof. rewrite bind_trace. cbn. destruct (g v) as [a|e]; [eauto|destruct n; discriminate]. Qed.
Lemma rest_first t b x v n w : n <= 1 -> nth_error (fst (rest_via t b x v)) n = Some w ->
  exists sp p c, tr_get_split TR (tree v) x = Ok (sp, p) /\ (c = x \/ c = sp) /\ early t c v n w.
Proof.
  intros Hn H. unfold rest_via in H. apply nth_look in H as ([sp p] & S & H). cbn [fst snd] in H. exists sp, p.
  destruct (teq sp x).
  - exists x. split; [exact S|]. split; [now left|]. rewrite bind_trace in H. cbn [vret fst snd app] in H.
    apply nth_look in H as (hv & _ & H). apply nth_look in H as (cs & _ & H). now apply edge_first in H.
  - exists sp. split; [exact S|]. split; [now right|].
    set (m := vbind (look (fun v => retrieve_using_path re_w tk HS DS TR v p)) _) in H.
    assert (G : n < length (fst (m v)) \/ exists e, snd (snd (m v)) = Err e).
    { unfold m. rewrite bind_trace, bind_result. cbn [look fst snd app]. destruct (retrieve_using_path _ _ _ _ _ _ _) as [sv|e]; [|right; eauto].
      rewrite bind_trace, bind_result. cbn [look fst snd app]. destruct (make_changeset _ _ _ _) as [cs|e]; [|right; eauto].
      rewrite bind_trace, bind_result. destruct (edge_full t sp cs v) as [G|[e G]]; [left; rewrite app_length; lia|right]. rewrite G. eauto. }
    apply nth_bind in H; [|exact G]. unfold m in H. apply nth_look in H as (sv & _ & H). apply nth_look in H as (cs & _ & H).
    apply nth_bind in H; [now apply edge_first in H|]. destruct (edge_full t sp cs v) as [G'|G']; [left; lia|now right].
Qed.
Definition add_via (t : K) (b : list Z) (x : K) : vm unit :=
  vbind (set_head HS DS TR t b) (fun _ => vbind (on_tree HS DS TR (tr_add TR t (Some x))) (fun _ => rest_via t b x)).
Lemma via_trace t b x v t' n : tr_add TR t (Some x) (tree v) = (t', Ok tt) ->
  nth_error (fst (add_via t b x v)) (2 + n) =
  nth_error (fst (rest_via t b x (mkV (s_set HS t b (heads v)) (diffs v) t'))) n.
Proof.
  intros Ta. unfold add_via. rewrite bind_trace. cbn [set_head fst snd app nth_error Nat.add]. rewrite bind_trace.
  unfold on_tree. cbn [heads diffs tree]. rewrite Ta. reflexivity.
Qed.
End Via.

Lemma goes_on_weak {K : Type} {E : Teq K} re_w tk (HS DS : store K) TR (X : K -> Prop) h (v : vstate HS DS TR) :
  goes_on re_w tk HS DS TR h v -> goes_on_outside re_w tk HS DS TR X h v.
Proof.
  intros G g V _ v'. destruct (G g V) as (G1 & G2 & _ & G4). split; [|split].
  - intros t b base Hin _. now apply (G1 t b base).
  - intros t _ Ht. now apply G2.
  - intros a Va _. now apply G4.
Qed.

Section Hist.
Context {K : Type} {E : Teq K} {O : TeqOk K}.
Variable re_w : Z -> bool.
Variable tk : tkind.
Variables HS DS : store K.
Variable TR : tree_impl K.
Variable HL : store_law HS.
Variable DL : store_law DS.
Variable TL : tree_law TR.
Variable X : K -> Prop.
Hypothesis Hk : tk <> KLine.
Notation run := (run re_w tk HS DS TR).
Notation vst := (@vstate K HS DS TR).
Implicit Type h : list (adding K).

Lemma away_outside h (w : vst) : goes_on_away re_w tk HS DS TR HL DL X h w -> goes_on_outside re_w tk HS DS TR X h w.
Proof.
  intros G g V Aw v'. destruct (G g (proj1 V) Aw) as (G1 & G2 & G3). fold v' in G1, G2, G3. split; [exact G1|split].
  - intros t Ht Na. rewrite (proj1 (G2 t Ht)). now apply (proj2 (retrieval re_w tk HS DS TR HL DL TL (h ++ g) Hk (proj1 V))).
  - intros a [Fa Va] Aa. rewrite (G3 a Aa). rewrite app_assoc in Fa, Va. apply (proj1 (results re_w tk HS DS TR HL DL TL (h ++ g) a Hk Fa)).
    apply (Va (h ++ g) a []). reflexivity.
Qed.
(** the line of the base and the tree after line 36 *)
Lemma start h t b x : fresh tk (h ++ [(t, b, Some x)]) -> whole_lines (h ++ [(t, b, Some x)]) X -> X t -> is_head h x ->
  let v := run v_empty h in exists t', tr_add TR t (Some x) (tree v) = (t', Ok tt) /\ X x /\
  whole_lines (h ++ [(t, b, None)]) X /\ fresh tk (h ++ [(t, b, None)]) /\
  (exists s, rep TL t' s /\ forall c q, child_of s c q -> (X c <-> X q)) /\
  forall sp p, tr_get_split TR t' x = Ok (sp, p) -> X sp.
Proof.
  intros F W Xt Hx v. destruct (fresh_snoc _ _ _ F) as (F0 & Na & Nb & Sb). cbn [tag_of bytes_of base_of fst snd] in *.
  assert (W0 : whole_lines h X).
  { intros c q (pre & b0 & post & -> & Hp). apply W. exists pre, b0, (post ++ [(t, b, Some x)]). split; [|exact Hp]. now rewrite <- app_assoc. }
  assert (Xx : X x).
  { apply (W x t); [|exact Xt]. exists h, b, []. auto. }
  destruct (lineage_inv re_w tk HS DS TR HL DL TL h Hk F0) as (s & I & L). fold v in I.
  pose proof (child_lines X h s W0 L) as Ch. pose proof (c_rep _ _ _ _ _ _ _ _ _ _ _ _ (h_core _ _ _ _ _ _ _ _ _ _ _ I)) as R.
  pose proof (proj2 (known_added re_w tk HS DS TR HL DL TL h v s t I) Na) as Ds.
  destruct (rep_add _ TL _ s t (Some x) R Ds) as (t' & T1 & T2). set (s2 := fst (m_add t (Some x) s)) in *.
  assert (Ch2 : forall c q, child_of s2 c q -> (X c <-> X q)).
  { intros c q (n & Hn & Hp). apply Ch. exists n. split; [|exact Hp]. unfold s2, m_add in Hn. cbn in Hn. rewrite dget_dset in Hn.
    destruct (teq_spec t c) as [->|]; [injection Hn as <-; discriminate|exact Hn]. }
  exists t'. split; [exact T1|]. split; [exact Xx|]. split; [|split; [|split; [exists s2; auto|]]].
  - intros c q (pre & b0 & post & Q & Hp). destruct post as [|z post _] using rev_ind.
    + apply app_inj_tail in Q as [_ Q]. discriminate.
    + rewrite app_comm_cons, app_assoc in Q. apply app_inj_tail in Q as [-> _]. apply W0. exists pre, b0, post. auto.
  - destruct F as [N F]. split; [now rewrite map_app in *|]. apply Forall_app in F as [F Fa]. apply Forall_app. split; [exact F|].
    constructor; [|constructor]. split; [discriminate|exact Sb].
  - intros sp p Q. destruct (dget s2 x) as [n|] eqn:Hn.
    + destruct (rep_split _ TL _ _ x n T2 Hn) as (p' & S1 & S2 & _). rewrite S1 in Q. injection Q as <- <-.
      apply (down_lines X s2 x p' Ch2 S2); [|exact Xx]. destruct (down_cons _ _ _ S2) as [r ->]. now apply last_in.
    + destruct (rep_nosplit _ TL _ _ x T2 Hn) as [e Q']. congruence.
Qed.
End Hist.

(** * The updates of an add *)
Section Updates.
Context {K : Type} {E : Teq K} {O : TeqOk K}.
Variable re_w : Z -> bool.
Variable tk : tkind.
Variables HS DS : store K.
Variable HL : store_law HS.
Variable DL : store_law DS.
Variable X : K -> Prop.
Hypothesis Hk : tk <> KLine.
Notation M := (memory_tree K).
Notation T := (db_tree K).
Implicit Type h : list (adding K).

Lemma store_outside (S : store K) (L : store_law S) d c b : X c -> forall u, ~ X u -> view L (s_set S c b d) u = view L d u.
Proof. intros Xc u Hu. rewrite (view_set _ L). destruct (teq_spec c u) as [->|]; [contradiction|reflexivity]. Qed.
Lemma hist_fine TR (TL : tree_law TR) h : fresh tk h -> let v := run re_w tk HS DS TR v_empty h in fine HL (heads v) /\ fine DL (diffs v).
Proof.
  intros Fr v. destruct (hist_ok re_w tk HS DS TR HL DL TL h Hk Fr) as [s I].
  apply (c_fine _ _ _ _ _ _ _ _ _ _ _ _ (h_core _ _ _ _ _ _ _ _ _ _ _ I)).
Qed.
Lemma run_root TR h t b : let v := run re_w tk HS DS TR v_empty h in
  run re_w tk HS DS TR v_empty (h ++ [(t, b, None)]) = mkV (s_set HS t b (heads v)) (diffs v) (fst (tr_add TR t None (tree v))).
Proof.
  intros v. unfold Versions.run at 1. rewrite fold_left_app. change (fold_left (add_state re_w tk HS DS TR) h v_empty) with v. cbn. unfold Versions.vbind, on_tree. cbn [set_head fst snd heads diffs tree].
  destruct (tr_add TR t None (tree v)) as [t' [[]|e]]; reflexivity.
Qed.
Lemma length_add (s : nodes K) t b b' : length (dset s t b) = length (dset s t b').
Proof. now rewrite !length_dset. Qed.

(** the third update *)
Lemma third_memory h t b x w : valid tk (h ++ [(t, b, Some x)]) -> whole_lines (h ++ [(t, b, Some x)]) X -> X t ->
  nth_error (add_trace re_w tk HS DS M (run re_w tk HS DS M v_empty h) (t, b, Some x)) 2 = Some w ->
  goes_on_outside re_w tk HS DS M X (h ++ [(t, b, None)]) w.
Proof.
  intros V W Xt H. set (v := run re_w tk HS DS M v_empty h) in *.
  assert (Hx : is_head h x) by (apply (proj2 V h (t, b, Some x) []); reflexivity).
  destruct (start re_w tk HS DS M HL DL memory_law X Hk h t b x (proj1 V) W Xt Hx) as (t' & Ta & Xx & W1 & F1 & _ & Sp). fold v in Ta.
  set (v2 := mkV (s_set HS t b (heads v)) (diffs v) t' : vstate HS DS M).
  change (nth_error (fst (add_via re_w tk HS DS M (fun k q => on_tree HS DS M (tr_change_parent M k q)) t b x v)) (2 + 0) = Some w) in H.
  rewrite (via_trace re_w tk HS DS M _ t b x v t' 0 Ta) in H. fold v2 in H.
  apply rest_first in H as (sp & p & c & Q & Hc & d & ->); [| |lia].
  2:{ intros k q u Hn. unfold on_tree in Hn. destruct (tr_change_parent M k q (tree u)); discriminate. }
  assert (Xc : X c) by (destruct Hc as [->| ->]; [exact Xx|exact (Sp sp p Q)]).
  destruct (hist_fine M memory_law h) as [Fh Fd]; [now apply fresh_snoc in F1 as [F1 _]|]. fold v in Fh, Fd.
  apply (away_outside re_w tk HS DS M HL DL memory_law X Hk).
  apply (apart_memory re_w tk HS DS HL DL X (h ++ [(t, b, None)])); auto; try (now apply fine_set);
    rewrite run_root; fold v; cbn [heads diffs tree v2].
  - intros u Hu. now rewrite !(store_outside HS HL _ _ _ Xt u Hu).
  - intros u Hu. now rewrite (store_outside DS DL _ _ _ Xc u Hu).
  - injection Ta as <-. apply length_add.
  - injection Ta as <-. intros u Hu. cbn. rewrite !dget_dset. destruct (teq_spec t u) as [->|]; [contradiction|reflexivity].
Qed.

(** the table after line 36 and a table that differs in rows of [X] *)
Lemma db_rows h t b x t' d c tr : fresh tk (h ++ [(t, b, None)]) -> whole_lines (h ++ [(t, b, None)]) X -> X t -> X c ->
  let v := run re_w tk HS DS T v_empty h in
  tr_add T t (Some x) (tree v) = (t', Ok tt) -> map r_tag tr = map r_tag (t' : table K) ->
  (forall i r, nth_error (t' : table K) i = Some r -> ~ X (r_tag r) -> nth_error tr i = Some r) ->
  goes_on_outside re_w tk HS DS T X (h ++ [(t, b, None)]) (mkV (s_set HS t b (heads v)) (s_set DS c d (diffs v)) (tr : tree_t T)).
Proof.
  intros F1 W1 Xt Xc v Ta Tt Tr. destruct (hist_fine T db_law h) as [Fh Fd]; [now apply fresh_snoc in F1 as [F1 _]|]. fold v in Fh, Fd.
  apply (away_outside re_w tk HS DS T HL DL db_law X Hk).
  assert (G : exists r0 r1, t' = (tree v : table K) ++ [r0] /\ fst (tr_add T t None (tree v)) = (tree v : table K) ++ [r1] /\ r_tag r0 = t /\ r_tag r1 = t).
  { cbn in *. unfold d_add in *. destruct (row_of _ t); [discriminate|]. injection Ta as <-. eexists _, _. repeat split; reflexivity. }
  destruct G as (r0 & r1 & G0 & G1 & G2 & G3). subst t'.
  apply (apart_db re_w tk HS DS HL DL X (h ++ [(t, b, None)])); auto; try (now apply fine_set);
    rewrite run_root; fold v; cbn [heads diffs tree].
  - intros u Hu. now rewrite !(store_outside HS HL _ _ _ Xt u Hu).
  - intros u Hu. now rewrite (store_outside DS DL _ _ _ Xc u Hu).
  - rewrite Tt, G1, !map_app. cbn. congruence.
  - rewrite G1. intros i r Q Hr. apply Tr; [|exact Hr]. destruct (Nat.lt_ge_cases i (length (tree v : table K))) as [Hi|Hi].
    + rewrite nth_error_app1 in * by exact Hi. exact Q.
    + rewrite nth_error_app2 in * by exact Hi. destruct (i - length (tree v : table K)) as [|[|m]]; try discriminate. injection Q as <-.
      rewrite G3 in Hr. contradiction.
Qed.
(** the first commit of change_parent changes rows of the line only *)
Lemma first_commit (t : table K) c q t4 s : rep db_law t s -> (forall a p, child_of s a p -> (X a <-> X p)) -> X c -> X q ->
  nth_error (fst (d_change_parent_commits c q t)) 0 = Some t4 ->
  map r_tag t4 = map r_tag t /\ forall i r, nth_error t i = Some r -> ~ X (r_tag r) -> nth_error t4 i = Some r.
Proof.
  intros [-> [Lk _]] Ch Xc Xq. unfold d_change_parent_commits. destruct (row_of t c) as [[i r]|] eqn:Q; [|discriminate].
  apply row_of_at in Q as [Q1 Q2].
  assert (T0 : forall y : row K, r_tag (remove_if_child0 i y) = r_tag y) by (intros; unfold remove_if_child0; now destruct (is_rid _ _)).
  assert (T1 : forall y : row K, r_tag (remove_if_child1 i y) = r_tag y) by (intros; unfold remove_if_child1; now destruct (is_rid _ _)).
  set (t2 := update_at (r_parent_rid r) (remove_if_child1 i) (update_at (r_parent_rid r) (remove_if_child0 i) t)).
  assert (G2 : map r_tag t2 = map r_tag t) by (unfold t2; now rewrite !update_at_tags).
  destruct (rid_of t2 q) as [j|] eqn:Qj; [|discriminate].
  set (t3 := lupd t2 i _). set (f := match r_parent r with None => _ | Some _ => _ end).
  assert (Tf : forall x, r_tag (f x) = r_tag x) by (intros x; unfold f; now destruct (r_parent r)).
  assert (G3 : map r_tag t3 = map r_tag t) by (rewrite <- G2; now apply lupd_tags).
  intros H4. assert (Q4 : t4 = lupd t3 j f).
  { destruct (d_update_metrics (r_parent_rid r) (lupd t3 j f)) as [t5 [[]|e]]; [|now injection H4 as <-].
    destruct (d_update_metrics (Some j) t5) as [t6 [[]|e]]; now injection H4 as <-. }
  subst t4. split; [now rewrite lupd_tags|]. intros m r' Qm Hr'.
  apply rid_from_tag in Q1 as [_ Q1], Qj as [_ Qj]. rewrite Nat.sub_0_r in *. rewrite G2 in Qj.
  pose proof (tag_at t m r' Qm) as Tm.
  assert (i <> m) by (intros ->; congruence). assert (j <> m) by (intros ->; congruence).
  assert (P : forall p, r_parent_rid r = Some p -> p <> m).
  { intros p Hp ->. pose proof (l_parent _ Lk i r Q2) as P. rewrite Hp in P. destruct (r_parent r) as [p|] eqn:Rp; [|destruct P].
    rewrite Tm in P. injection P as <-. apply Hr'. apply (Ch c (r_tag r')); [|exact Xc].
    pose proof (absn_get t i r (l_tags _ Lk) Q2) as Hn. pose proof (tag_at t i r Q2) as Ti. assert (r_tag r = c) by congruence. subst c.
    exists (node_of t i r). auto. }
  assert (U : forall (c0 : option nat) (g : row K -> row K) (t0 : table K), (forall p, c0 = Some p -> p <> m) -> nth_error (update_at c0 g t0) m = nth_error t0 m).
  { intros [p|] g t0 Hp; [|reflexivity]. cbn. rewrite nth_error_lupd. specialize (Hp p eq_refl). destruct (Nat.eqb_spec p m); [contradiction|reflexivity]. }
  unfold t3, t2. rewrite !nth_error_lupd. destruct (Nat.eqb_spec j m); [contradiction|]. destruct (Nat.eqb_spec i m); [contradiction|].
  rewrite !U by exact P. exact Qm.
Qed.
Lemma third_db (move : K -> K -> vm HS DS T unit) h t b x w n : (forall k q v, fst (move k q v) = [] -> exists e, snd (snd (move k q v)) = Err e) ->
  valid tk (h ++ [(t, b, Some x)]) -> whole_lines (h ++ [(t, b, Some x)]) X -> X t ->
  n = 0 \/ n = 1 /\ move = on_commits HS DS ->
  nth_error (fst (add_via re_w tk HS DS T move t b x (run re_w tk HS DS T v_empty h))) (2 + n) = Some w ->
  goes_on_outside re_w tk HS DS T X (h ++ [(t, b, None)]) w.
Proof.
  intros Hm V W Xt Hn H. set (v := run re_w tk HS DS T v_empty h) in *.
  assert (Hx : is_head h x) by (apply (proj2 V h (t, b, Some x) []); reflexivity).
  destruct (start re_w tk HS DS T HL DL db_law X Hk h t b x (proj1 V) W Xt Hx) as (t' & Ta & Xx & W1 & F1 & (s & R & Ch) & Sp). fold v in Ta.
  rewrite (via_trace re_w tk HS DS T move t b x v t' n Ta) in H.
  apply rest_first in H as (sp & p & c & Q & Hc & d & H); [|exact Hm|lia].
  assert (Xc : X c) by (destruct Hc as [->| ->]; [exact Xx|exact (Sp sp p Q)]).
  destruct Hn as [->|[-> ->]].
  - subst w. unfold after_diff. cbn [heads diffs tree]. now apply (db_rows h t b x t' d c t').
  - unfold on_commits, after_diff in H. cbn [heads diffs tree] in H.
    pose proof (first_commit t' c t) as FC. destruct (d_change_parent_commits c t t') as [[|t4 l] [tt' r]]; [discriminate|].
    cbn [map fst nth_error] in H. injection H as <-. destruct (FC t4 s R Ch Xc Xt eq_refl) as [A B].
    now apply (db_rows h t b x t' d c t4).
Qed.
(** * An add that stops anywhere *)
Lemma tree_moves TR k q (v : vstate HS DS TR) : fst (on_tree HS DS TR (tr_change_parent TR k q) v) = [] ->
  exists e, snd (snd (on_tree HS DS TR (tr_change_parent TR k q) v)) = Err e.
Proof. unfold on_tree. destruct (tr_change_parent TR k q (tree v)); discriminate. Qed.
Lemma commit_moves k q (v : vstate HS DS T) : fst (on_commits HS DS k q v) = [] -> exists e, snd (snd (on_commits HS DS k q v)) = Err e.
Proof.
  unfold on_commits, d_change_parent_commits. destruct (row_of _ k) as [[i r]|]; [|cbn; intros _; eexists; reflexivity].
  destruct (rid_of _ q) as [j|]; [|cbn; intros _; eexists; reflexivity].
  destruct (d_update_metrics (r_parent_rid r) _) as [t5 [[]|e]]; [|cbn; discriminate].
  destruct (d_update_metrics (Some j) t5) as [t6 [[]|e]]; cbn; discriminate.
Qed.
Lemma root_short t b (v : vstate HS DS T) : length (add_trace re_w tk HS DS T v (t, b, None)) <= 2 /\ length (commits re_w tk HS DS v (t, b, None)) <= 2.
Proof.
  unfold add_trace, commits, add, add_by, vbind, on_tree, set_head. cbn [heads diffs tree].
  destruct (tr_add T t None (tree v)) as [t' [[]|e]]; cbn; auto.
Qed.
Theorem stopped_memory h a : valid tk (h ++ [a]) -> whole_lines (h ++ [a]) X -> X (tag_of a) ->
  let v := run re_w tk HS DS M v_empty h in let n := length (add_trace re_w tk HS DS M v a) in
  forall i w, nth_error (add_trace re_w tk HS DS M v a) i = Some w -> goes_on_outside re_w tk HS DS M X (reached h a i n) w.
Proof.
  intros V W Xt v n i w Hi. destruct (Nat.eq_dec i 2) as [->|Hi2]; [destruct (Nat.le_gt_cases n 5) as [Hn|Hn]|].
  - apply goes_on_weak. apply (valid_goes_on tk re_w HS DS M HL DL memory_law h a Hk V 2 w Hi). auto.
  - unfold reached. cbn [Nat.eqb]. destruct (Nat.leb_spec n (2 + 2)); [lia|]. destruct a as [[t b] [x|]].
    + now apply (third_memory h t b x w).
    + exfalso. unfold n, v in Hi. revert Hi. cbn. destruct v; discriminate.
  - apply goes_on_weak. apply (valid_goes_on tk re_w HS DS M HL DL memory_law h a Hk V i w Hi). auto.
Qed.
Theorem stopped_db h a : valid tk (h ++ [a]) -> whole_lines (h ++ [a]) X -> X (tag_of a) ->
  let v := run re_w tk HS DS T v_empty h in let n := length (add_trace re_w tk HS DS T v a) in
  forall i w, nth_error (add_trace re_w tk HS DS T v a) i = Some w -> goes_on_outside re_w tk HS DS T X (reached h a i n) w.
Proof.
  intros V W Xt v n i w Hi. destruct (Nat.eq_dec i 2) as [->|Hi2]; [destruct (Nat.le_gt_cases n 5) as [Hn|Hn]|].
  - apply goes_on_weak. apply (valid_goes_on tk re_w HS DS T HL DL db_law h a Hk V 2 w Hi). auto.
  - unfold reached. cbn [Nat.eqb]. destruct (Nat.leb_spec n (2 + 2)); [lia|]. destruct a as [[t b] [x|]].
    + apply (third_db (fun k q => on_tree HS DS T (tr_change_parent T k q)) h t b x w 0); auto. intros k q u. apply tree_moves.
    + exfalso. pose proof (root_short t b v) as [S1 S2]. unfold n in Hn. lia.
  - apply goes_on_weak. apply (valid_goes_on tk re_w HS DS T HL DL db_law h a Hk V i w Hi). auto.
Qed.
Theorem stopped_commits h a : valid tk (h ++ [a]) -> whole_lines (h ++ [a]) X -> X (tag_of a) ->
  let v := run re_w tk HS DS T v_empty h in let n := length (commits re_w tk HS DS v a) in
  forall i w, nth_error (commits re_w tk HS DS v a) i = Some w -> goes_on_outside re_w tk HS DS T X (reached_commit h a i n) w.
Proof.
  intros V W Xt v n i w Hi.
  assert (D : ((i <> 2 /\ i <> 3) \/ n <= 7) \/ (i = 2 \/ i = 3) /\ 7 < n) by lia. destruct D as [D|[D Hn]].
  - apply goes_on_weak. now apply (valid_commits_go_on tk re_w HS DS HL DL h a Hk V i w Hi).
  - unfold reached_commit. destruct (Nat.eqb_spec i 0); [lia|]. destruct (Nat.leb_spec n (i + 4)); [lia|]. destruct a as [[t b] [x|]].
    + apply (third_db (on_commits HS DS) h t b x w (i - 2)); auto; [intros k q u; apply commit_moves|destruct D as [->| ->]; [now left|now right]|].
      replace (2 + (i - 2)) with i by lia. exact Hi.
    + exfalso. pose proof (root_short t b v) as [S1 S2]. unfold n in Hn. lia.
Qed.
End Updates.
