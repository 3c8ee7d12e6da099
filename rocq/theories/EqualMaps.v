(** The searches, diffs and merges look at tokens through equality only: a map that keeps
    and reflects [==] commutes with them.  Unlike C14 nothing is assumed about [==]. *)
From Coq Require Import Lia.
From Verif Require Import Base SpecSeq SpecDiff Automaton AutomatonCost Multi MultiRename Changesets ChangesetsProofs DiffLaws
  Merge MergeConsolidate MergeProofs MergeLaws.

Section Maps.
Context {A B : Type} {EA : Teq A} {EB : Teq B}.
Variable f : A -> B.
Hypothesis teq_map : forall x y, teq (f x) (f y) = teq x y.
Notation all := (fun _ : A => True).
Notation mh := (maph f).

Lemma everything (l : list A) : Forall all l.
Proof. now apply Forall_forall. Qed.
Lemma all_ok : forall x y : A, all x -> all y -> teq (f x) (f y) = teq x y.
Proof. auto. Qed.
Lemma build_maps s : build (map f s) = option_map mh (build s).
Proof. exact (proj1 (build_map f all all_ok s (everything s))). Qed.
Lemma dget_maps {X} (d : dict A X) k : dget (mapd f d) (f k) = dget d k.
Proof. apply (dget_mapd f all all_ok); [now apply Forall_forall|exact I]. Qed.

(** ** find_substring *)
Lemma find_match_maps h : forall w cur, find_match_node (mh h) cur (map f w) = find_match_node h cur w.
Proof.
  induction w as [|t w IH]; intros cur; [reflexivity|]; cbn [map find_match_node].
  rewrite nth_maph; destruct (nth_error h cur) as [nd|]; [|reflexivity]; cbn [option_map mapn n_trans].
  rewrite dget_maps; destruct (dget (n_trans nd) t); auto.
Qed.
Lemma find_substring_maps s w : find_substring (map f s) (map f w) = find_substring s w.
Proof.
  unfold find_substring; rewrite build_maps; destruct (build s) as [h|]; [|reflexivity]; cbn [option_map].
  unfold find_substring_all; rewrite find_match_maps; destruct (find_match_node h 0 w) as [[v|]|]; auto.
  now rewrite map_length, positions_map.
Qed.

(** ** find_lcs *)
Lemma lcs_inner_maps h t fuel : forall cur cml, lcs_inner fuel (mh h) (f t) cur cml = lcs_inner fuel h t cur cml.
Proof.
  induction fuel as [|fuel IH]; intros cur cml; [reflexivity|]; cbn [lcs_inner].
  rewrite nth_maph; destruct (nth_error h cur) as [nd|]; [|reflexivity]; cbn [option_map mapn n_trans n_link].
  rewrite dget_maps; destruct (dget (n_trans nd) t); [reflexivity|]. destruct (n_link nd) as [l|]; [|reflexivity].
  rewrite nth_maph; destruct (nth_error h l) as [nl|]; [|reflexivity]; cbn [option_map mapn n_len]. apply IH.
Qed.
Lemma lcs_loop_maps h : forall s position cur cml best,
  lcs_loop (mh h) position cur cml best (map f s) = lcs_loop h position cur cml best s.
Proof.
  induction s as [|t s IH]; intros position cur cml best; [reflexivity|]; cbn [map lcs_loop].
  rewrite maph_length, lcs_inner_maps. destruct (lcs_inner (length h) h t cur cml) as [[[next cur1] cml1]|]; [|reflexivity].
  destruct (match next with Some n => (n, cml1 + 1) | None => (cur1, cml1) end) as [cur2 cml2].
  rewrite nth_maph; destruct (nth_error h cur2) as [nd|]; [|reflexivity]; cbn [option_map mapn n_fe]. apply IH.
Qed.
Lemma find_lcs_maps a b : find_lcs (map f a) (map f b) = find_lcs a b.
Proof.
  unfold find_lcs; rewrite build_maps; destruct (build a) as [h|]; [|reflexivity]; cbn [option_map].
  unfold sa_find_lcs; now rewrite lcs_loop_maps.
Qed.

(** ** find_changeset *)
Fixpoint cs_map (c : changeset A) : changeset B :=
  match c with
  | CLeaf o m os ms => CLeaf (map f o) (map f m) os ms
  | CNode co cm p s => CNode co cm (cs_map p) (cs_map s)
  end.
Lemma changeset_lim_maps d : forall o m os ms,
  find_changeset_lim d (map f o) (map f m) os ms = rmap cs_map (find_changeset_lim d o m os ms).
Proof.
  induction d as [|d IH]; intros o m os ms; [reflexivity|]; cbn [find_changeset_lim].
  rewrite !sl_map, find_lcs_maps. destruct (find_lcs (sl o os) (sl m ms)) as [[[co cm] cl]|]; [|reflexivity].
  destruct (cl =? 0); [reflexivity|]. rewrite !IH.
  destruct (find_changeset_lim d o m (fst os, _) (fst ms, _)) as [p|e]; cbn [rmap bind]; [|reflexivity].
  destruct (find_changeset_lim d o m _ _) as [s|e]; reflexivity.
Qed.
Lemma changeset_maps o m : find_changeset (map f o) (map f m) = rmap cs_map (find_changeset o m).
Proof. unfold find_changeset. now rewrite map_length, changeset_lim_maps. Qed.
Lemma cs_stream_maps o c : cs_stream (map f o) (cs_map c) = map (frag_map f) (cs_stream o c).
Proof.
  induction c as [o' m' os ms|co cm p IHp s IHs]; cbn [cs_stream cs_map].
  - rewrite !nonempty_map, map_length. now destruct (_ || _).
  - now rewrite IHp, IHs, !map_app, sl_map, map_length.
Qed.
Lemma as_diff_stream_maps o c : as_diff_stream (map f o) (cs_map c) = map (ditem_map f) (as_diff_stream o c).
Proof.
  induction c as [o' m' os ms|co cm p IHp s IHs]; cbn [as_diff_stream cs_map].
  - rewrite !nonempty_map. now destruct (_ || _).
  - now rewrite IHp, IHs, !map_app, sl_map.
Qed.
Lemma as_change_stream_maps c : as_change_stream (cs_map c) = map (citem_map f) (as_change_stream c).
Proof.
  induction c as [o' m' os ms|co cm p IHp s IHs]; cbn [as_change_stream cs_map].
  - rewrite !nonempty_map. now destruct (_ || _).
  - now rewrite IHp, IHs, !map_app.
Qed.
Lemma apply_forward_maps st o : apply_forward (map (citem_map f) st) (map f o) = map f (apply_forward st o).
Proof.
  unfold apply_forward, apply, join_changes. induction st as [|[a b|a b] st IH]; [reflexivity| |]; cbn [map strip_forward flat_map citem_map].
  - rewrite nonempty_map, !map_app, !concat_app, map_app. unfold strip_forward in IH. rewrite IH. now destruct (nonempty a); cbn; rewrite ?app_nil_r.
  - rewrite !map_app, !concat_app, map_app. unfold strip_forward in IH. rewrite IH. cbn; now rewrite !app_nil_r, sl_map.
Qed.
Lemma apply_reverse_maps st m : apply_reverse (map (citem_map f) st) (map f m) = map f (apply_reverse st m).
Proof.
  unfold apply_reverse, apply, join_changes. induction st as [|[a b|a b] st IH]; [reflexivity| |]; cbn [map strip_reverse flat_map citem_map].
  - rewrite nonempty_map, !map_app, !concat_app, map_app. unfold strip_reverse in IH. rewrite IH. now destruct (nonempty b); cbn; rewrite ?app_nil_r.
  - rewrite !map_app, !concat_app, map_app. unfold strip_reverse in IH. rewrite IH. cbn; now rewrite !app_nil_r, sl_map.
Qed.
Lemma old_forward_maps c o : old_apply_forward (cs_map c) (map f o) = map f (old_apply_forward c o).
Proof.
  unfold old_apply_forward, join_changes. induction c as [o' m' os ms|co cm p IHp s IHs]; cbn [cs_old_forward cs_map concat app].
  - now rewrite !app_nil_r.
  - rewrite !concat_app, !map_app, IHp; cbn [concat app]. now rewrite map_app, IHs, sl_map.
Qed.
Lemma old_reverse_maps c m : old_apply_reverse (cs_map c) (map f m) = map f (old_apply_reverse c m).
Proof.
  unfold old_apply_reverse, join_changes. induction c as [o' m' os ms|co cm p IHp s IHs]; cbn [cs_old_reverse cs_map concat app].
  - now rewrite !app_nil_r.
  - rewrite !concat_app, !map_app, IHp; cbn [concat app]. now rewrite map_app, IHs, sl_map.
Qed.
Lemma diff_maps o m : diff_token_sequences (map f o) (map f m) = rmap (map (ditem_map f)) (diff_token_sequences o m).
Proof.
  unfold diff_token_sequences. rewrite changeset_maps. destruct (find_changeset o m) as [c|e]; cbn [rmap bind]; [|reflexivity].
  now rewrite as_diff_stream_maps.
Qed.

(** ** merge, as in MergeLaws *)
Notation fm := (frag_map f).
Notation vmap := (vmap f).
Notation ofm := (ofm f).
Notation pmap := (pmap f).
Lemma cpl_map a b : common_prefix_length (map f a) (map f b) = common_prefix_length a b.
Proof. revert b; induction a as [|x a IH]; intros [|y b]; cbn; auto; now rewrite teq_map, IH. Qed.
Lemma split_copy_map i n l : split_copy_fragment (map f i) n l =
  (option_map fm (fst (split_copy_fragment i n l)), option_map fm (snd (split_copy_fragment i n l))).
Proof. unfold split_copy_fragment; cbn [fst snd]; destruct (0 <? l), (l <? n); cbn; now rewrite <- ?firstn_map, ?skipn_map. Qed.
Lemma split_change_map i d n il l : split_change_fragment (map f i) (map f d) n il l =
  (option_map fm (fst (split_change_fragment i d n il l)), option_map fm (snd (split_change_fragment i d n il l))).
Proof.
  unfold split_change_fragment; rewrite map_length; cbn [fst snd].
  destruct ((0 <? l) || (0 <? il)), ((l <? n) || (il <? length i)); cbn; now rewrite <- ?firstn_map, ?skipn_map.
Qed.
Lemma split_fragment_map x l : split_fragment (fm x) l =
  (option_map fm (fst (split_fragment x l)), option_map fm (snd (split_fragment x l))).
Proof. destruct x; cbn [frag_map split_fragment]; rewrite ?map_length; [apply split_copy_map|apply split_change_map]. Qed.
Lemma f_insert_map x : f_insert (fm x) = map f (f_insert x).
Proof. now destruct x. Qed.
Lemma f_length_map x : f_length (fm x) = f_length x.
Proof. now destruct x. Qed.

Lemma pending_map x y : pending_conflict (fm x) (fm y) = pmap (pending_conflict x y).
Proof.
  unfold pending_conflict; rewrite !f_length_map, !split_fragment_map.
  set (l := Nat.min (f_length x) (f_length y)).
  destruct (split_fragment x l) as [h0 t0], (split_fragment y l) as [h1 t1]; cbn.
  destruct h0, h1; cbn; now rewrite ?f_insert_map.
Qed.
Lemma copy_copy_map i0 n0 i1 n1 : copy_copy (map f i0) n0 (map f i1) n1 = pmap (copy_copy i0 n0 i1 n1).
Proof.
  unfold copy_copy; rewrite !split_copy_map; destruct (n0 <? n1); cbn [pmap option_map ofm snd]; [reflexivity|].
  now destruct (n1 =? n0).
Qed.
Lemma copy_change_map ic nc i d n : copy_change (map f ic) nc (map f i) (map f d) n = pmap (copy_change ic nc i d n).
Proof.
  unfold copy_change; rewrite map_length, split_copy_map, split_change_map.
  destruct (n =? Nat.min nc n); cbn [snd fst pmap].
  - now destruct (Nat.min nc n <? nc).
  - destruct (split_change_fragment i d n (length i) (Nat.min nc n)) as [h t]; cbn.
    destruct h; cbn; now rewrite ?f_insert_map.
Qed.
Lemma ordinary_map i0 d0 n0 i1 d1 n1 :
  ordinary_conflict (map f i0) (map f d0) n0 (map f i1) (map f d1) n1 = pmap (ordinary_conflict i0 d0 n0 i1 d1 n1).
Proof.
  unfold ordinary_conflict; rewrite !map_length, !split_change_map.
  destruct (split_change_fragment i0 d0 n0 (length i0) (Nat.min n0 n1)) as [h t].
  destruct (split_change_fragment i1 d1 n1 (length i1) (Nat.min n0 n1)) as [h' t']; cbn.
  destruct h, h'; cbn; now rewrite ?f_insert_map.
Qed.
Lemma process_map x y w : process_fragments (fm x) (fm y) w =
  let '(r, w') := process_fragments x y w in (pmap r, w').
Proof.
  destruct x as [i0 n0|i0 d0 n0], y as [i1 n1|i1 d1 n1]; cbn [frag_map process_fragments].
  - now rewrite copy_copy_map.
  - destruct w; [apply (f_equal (fun r => (r, true))), (pending_map (FCopy i0 n0) (FChange i1 d1 n1))|].
    now rewrite copy_change_map.
  - destruct w; [apply (f_equal (fun r => (r, true))), (pending_map (FChange i0 d0 n0) (FCopy i1 n1))|].
    rewrite copy_change_map; destruct (copy_change i1 n1 i0 d0 n0) as [[o t1] t0]; reflexivity.
  - destruct w; [apply (f_equal (fun r => (r, true))), (pending_map (FChange i0 d0 n0) (FChange i1 d1 n1))|].
    unfold change_change, has_composable_changes, compose_changes, are_identical_changes.
    rewrite !map_length, !cpl_map, ordinary_map.
    destruct ((n0 =? 0) && (length i1 =? 0)); cbn [orb]; [reflexivity|].
    destruct ((length i0 =? 0) && (n1 =? 0)); [reflexivity|].
    destruct (_ && _); reflexivity.
Qed.
Lemma merge_loop_map : forall fuel fs0 fs1 w,
  merge_loop fuel (map fm fs0) (map fm fs1) w = option_map (map ofm) (merge_loop fuel fs0 fs1 w).
Proof.
  assert (FL : forall fs0 fs1 w, flush_remaining (map fm fs0) (map fm fs1) w = map ofm (flush_remaining fs0 fs1 w)).
  { intros [|x fs0] fs1 w; cbn [map flush_remaining].
    - rewrite !map_map; apply map_ext; intros y; destruct w; cbn; now rewrite ?f_insert_map.
    - f_equal; [destruct w; cbn; now rewrite ?f_insert_map|].
      rewrite !map_map; apply map_ext; intros y; destruct w; cbn; now rewrite ?f_insert_map. }
  assert (OL : forall t (r : list (frag A)), olist (option_map fm t) ++ map fm r = map fm (olist t ++ r)).
  { intros [t|] r; reflexivity. }
  induction fuel as [|fuel IH]; intros [|x fs0] [|y fs1] w; cbn [map merge_loop option_map];
    try (now rewrite <- FL); [reflexivity|].
  rewrite process_map; destruct (process_fragments x y w) as [[[o t0] t1] w']; cbn [pmap].
  rewrite !OL, IH; destruct (merge_loop fuel (olist t0 ++ fs0) (olist t1 ++ fs1) w') as [rest|]; cbn [option_map]; [|reflexivity].
  now destruct o.
Qed.

Lemma join_map k vs : join k (map vmap vs) = rmap (map f) (join k vs).
Proof.
  assert (H1 : existsb is_literal (map vmap vs) = existsb is_literal vs).
  { induction vs as [|[v|] vs IH]; cbn; auto. }
  assert (H2 : concat (map vseq (map vmap vs)) = map f (concat (map vseq vs))).
  { clear H1; induction vs as [|[v|] vs IH]; cbn; rewrite ?map_app, ?IH; auto. }
  unfold join; rewrite H1, H2; destruct (existsb is_literal vs), k; reflexivity.
Qed.
Lemma take_conflicts_map l : take_conflicts (map ofm l) =
  (map (fun g => (vmap (fst g), vmap (snd g))) (fst (take_conflicts l)), map ofm (snd (take_conflicts l))).
Proof. induction l as [|[x|a b] l IH]; cbn; auto; rewrite IH; now destruct (take_conflicts l). Qed.
Lemma take_frags_map l : take_frags (map ofm l) = (map fm (fst (take_frags l)), map ofm (snd (take_frags l))).
Proof. induction l as [|[x|a b] l IH]; cbn; auto; rewrite IH; now destruct (take_frags l). Qed.
Lemma consolidate_conflicts_map k : forall fuel l,
  consolidate_conflicts fuel k (map ofm l) = rmap (map ofm) (consolidate_conflicts fuel k l).
Proof.
  induction fuel as [|fuel IH]; intros [|x l]; [reflexivity|reflexivity|reflexivity|].
  set (xl := x :: l).
  assert (Hn : map ofm xl <> []) by discriminate; assert (Hn' : xl <> []) by discriminate.
  destruct (take_conflicts xl) as [g r1] eqn:T1; destruct (take_frags r1) as [fs r2] eqn:T2.
  rewrite (consolidate_conflicts_S fuel k xl g r1 fs r2 Hn' T1 T2).
  rewrite (consolidate_conflicts_S fuel k (map ofm xl) (map (fun g => (vmap (fst g), vmap (snd g))) g) (map ofm r1) (map fm fs) (map ofm r2) Hn);
    [|rewrite take_conflicts_map, T1; reflexivity|rewrite take_frags_map, T2; reflexivity].
  rewrite !map_map; cbn [fst snd].
  rewrite <- (map_map fst vmap), <- (map_map snd vmap), !join_map.
  destruct (join k (map fst g)) as [v1|e]; cbn [rmap bind]; [|reflexivity].
  destruct (join k (map snd g)) as [v2|e]; cbn [rmap bind]; [|reflexivity].
  rewrite changeset_maps; destruct (find_changeset v2 v1) as [c|e]; cbn [rmap bind]; [|reflexivity]; rewrite as_diff_stream_maps, IH.
  destruct (consolidate_conflicts fuel k r2) as [rest|e]; cbn [rmap bind]; [|reflexivity].
  rewrite !map_app, !map_map; f_equal; f_equal; apply map_ext; intros [t|a b]; cbn; now rewrite ?map_length.
Qed.
Lemma consolidate_items_map k : forall fuel l,
  consolidate_items fuel k (map ofm l) = rmap (map (ditem_map f)) (consolidate_items fuel k l).
Proof.
  induction fuel as [|fuel IH]; intros [|x l]; [reflexivity|reflexivity|reflexivity|].
  set (xl := x :: l).
  assert (Hn : map ofm xl <> []) by discriminate; assert (Hn' : xl <> []) by discriminate.
  destruct (take_conflicts xl) as [g r1] eqn:T1; destruct (take_frags r1) as [fs r2] eqn:T2.
  rewrite (consolidate_items_S fuel k xl g r1 fs r2 Hn' T1 T2).
  rewrite (consolidate_items_S fuel k (map ofm xl) (map (fun g => (vmap (fst g), vmap (snd g))) g) (map ofm r1) (map fm fs) (map ofm r2) Hn);
    [|rewrite take_conflicts_map, T1; reflexivity|rewrite take_frags_map, T2; reflexivity].
  rewrite !(map_map _ fst), !(map_map _ snd); cbn [fst snd].
  rewrite <- (map_map fst vmap), <- (map_map snd vmap), !join_map.
  assert (HI : map (fun x => Some (f_insert x)) (map fm fs) = map vmap (map (fun x => Some (f_insert x)) fs)).
  { rewrite !map_map; apply map_ext; intros y; cbn; now rewrite f_insert_map. }
  rewrite HI, join_map, IH.
  destruct (join k (map fst g)) as [v1|e]; cbn [rmap bind]; [|reflexivity].
  destruct (join k (map snd g)) as [v2|e]; cbn [rmap bind]; [|reflexivity].
  destruct (join k (map (fun x : frag A => Some (f_insert x)) fs)) as [v3|e]; cbn [rmap bind]; [|reflexivity].
  destruct (consolidate_items fuel k r2) as [rest|e]; cbn [rmap bind]; [|reflexivity].
  rewrite !map_app, !nonempty_map; destruct (nonempty v1 || nonempty v2), (nonempty v3); reflexivity.
Qed.
Theorem merge_map k (p b0 b1 : list A) :
  merge_token_sequence k (map f p) (map f b0) (map f b1) = rmap (map (ditem_map f)) (merge_token_sequence k p b0 b1).
Proof.
  unfold merge_token_sequence.
  rewrite !changeset_maps.
  destruct (find_changeset p b0) as [c0|e]; cbn [rmap bind]; [|reflexivity].
  destruct (find_changeset p b1) as [c1|e]; cbn [rmap bind]; [|reflexivity].
  rewrite !cs_stream_maps; unfold _merge; rewrite !map_length, merge_loop_map.
  destruct (merge_loop _ _ _ _) as [l|]; cbn [option_map]; [|reflexivity].
  unfold consolidate, consolidate_all; rewrite map_length, consolidate_conflicts_map.
  destruct (consolidate_conflicts (length l) k l) as [st|e]; cbn [rmap bind]; [|reflexivity].
  rewrite map_length, consolidate_items_map.
  destruct (consolidate_items (length st) k st) as [items|e]; cbn [rmap bind]; [|reflexivity].
  now destruct items.
Qed.
End Maps.
