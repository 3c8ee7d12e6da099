(** The laws of [merge_token_sequence], assembled from the pieces. *)
From Verif Require Import Base Strings SpecSeq AutomatonProofs Changesets SpecDiff ChangesetsProofs DiffLaws DiffProofs Merge SpecMerge MergeStreams MergeSteps MergeUnion MergeConsolidate MergeProofs.

Section Laws.
Context {T : Type} {E : Teq T} {O : TeqOk T}.

Lemma merge_shape k (p b0 b1 : list T) : exists d0 d1 out,
  diff_token_sequences p b0 = Ok d0 /\ diff_token_sequences p b1 = Ok d1 /\
  diff_after d0 = b0 /\ diff_after d1 = b1 /\
  stream p true true 0 (map frag_of d0) /\ stream p true true 0 (map frag_of d1) /\
  mrun p 0 (map frag_of d0) (map frag_of d1) false out /\
  merge_token_sequence k p b0 b1 = consolidate k out /\
  forall k', merge_token_sequence k' p b0 b1 = consolidate k' out.
Proof.
  destruct (changeset_stream p b0) as [c0 [d0 [H0 [D0 [E0 [S0 A0]]]]]].
  destruct (changeset_stream p b1) as [c1 [d1 [H1 [D1 [E1 [S1 A1]]]]]].
  destruct (merge_mrun p _ _ S0 S1) as [out [HM HR]].
  assert (Hk : forall k', merge_token_sequence k' p b0 b1 = consolidate k' out).
  { intros k'; unfold merge_token_sequence; rewrite H0; cbn [bind]; rewrite H1; cbn [bind]; now rewrite E0, E1, HM. }
  exists d0, d1, out; split; [exact D0|split; [exact D1|split; [exact A0|split; [exact A1|split; [exact S0|split; [exact S1|split; [exact HR|split; [apply Hk|exact Hk]]]]]]]].
Qed.

Theorem merge_total k (p b0 b1 : list T) : k <> KBytes -> exists r, merge_token_sequence k p b0 b1 = Ok r.
Proof.
  intros Hk; destruct (merge_shape k p b0 b1) as (d0 & d1 & out & _ & _ & _ & _ & _ & _ & _ & -> & _).
  destruct (consolidate_ok k out) as [(staged & items & _ & _ & -> & _)|[C _]]; [eauto|now elim Hk].
Qed.
Theorem merge_kind k (p b0 b1 : list T) :
  merge_token_sequence k p b0 b1 = merge_token_sequence KStr p b0 b1 \/
  (k = KBytes /\ merge_token_sequence k p b0 b1 = Err TypeError).
Proof.
  destruct (merge_shape k p b0 b1) as (d0 & d1 & out & _ & _ & _ & _ & _ & _ & _ & _ & Hk).
  rewrite !Hk.
  destruct (consolidate_ok k out) as [(staged & items & _ & _ & -> & Hx)|[-> ->]]; [left|right; auto].
  symmetry; apply Hx; discriminate.
Qed.

Theorem merge_union k (p b0 b1 : list T) d0 d1 :
  diff_token_sequences p b0 = Ok d0 -> diff_token_sequences p b1 = Ok d1 ->
  compatible (edits 0 d0) (edits 0 d1) ->
  merge_token_sequence k p b0 b1 = Ok [DText (union_text p (edits 0 d0) (edits 0 d1))].
Proof.
  intros D0 D1 HC; destruct (merge_shape k p b0 b1) as (d0' & d1' & out & D0' & D1' & A0 & A1 & S0 & S1 & HR & -> & _).
  assert (d0' = d0) as -> by congruence; assert (d1' = d1) as -> by congruence.
  destruct (union_run _ _ _ _ _ _ HR eq_refl) as [g [-> Hg]]; [now rewrite !fedits_frag_of|].
  rewrite consolidate_frags, Hg, !fedits_frag_of; reflexivity.
Qed.

Lemma diff_self_edits (p : list T) d : diff_token_sequences p p = Ok d -> edits 0 d = [].
Proof. intros H; rewrite diff_self in H; injection H as <-; now destruct p. Qed.
Lemma diff_ok (p b : list T) : exists d, diff_token_sequences p b = Ok d /\ diff_after d = b /\ stream p true true 0 (map frag_of d).
Proof. destruct (changeset_stream p b) as [c [d [_ [D [_ [S A]]]]]]; eauto. Qed.

Theorem merge_left k (p b : list T) : merge_token_sequence k p p b = Ok [DText b].
Proof.
  destruct (diff_ok p p) as [d0 [D0 _]]; destruct (diff_ok p b) as [d1 [D1 [A1 S1]]].
  assert (N := diff_self_edits _ _ D0).
  rewrite (merge_union k p p b d0 d1 D0 D1); rewrite N; [|intros ? ? []].
  unfold union_text; rewrite <- (fedits_frag_of d1), (union_nil_l _ _ _ _ _ S1), ftext_frag_of, A1; reflexivity.
Qed.
Theorem merge_right k (p b : list T) : merge_token_sequence k p b p = Ok [DText b].
Proof.
  destruct (diff_ok p b) as [d0 [D0 [A0 S0]]]; destruct (diff_ok p p) as [d1 [D1 _]].
  assert (N := diff_self_edits _ _ D1).
  rewrite (merge_union k p b p d0 d1 D0 D1); rewrite N; [|intros ? ? ? []].
  unfold union_text; rewrite <- (fedits_frag_of d0), (union_nil_r _ _ _ _ _ S0), ftext_frag_of, A0; reflexivity.
Qed.
Theorem merge_same k (p b : list T) : merge_token_sequence k p b b = Ok [DText b].
Proof.
  destruct (diff_ok p b) as [d [D [A S]]].
  rewrite (merge_union k p b b d d D D); rewrite <- (fedits_frag_of d).
  - unfold union_text; rewrite (union_self _ _ _ _ _ S), ftext_frag_of, A; reflexivity.
  - apply (self_compatible _ _ _ _ _ S).
Qed.

Theorem merge_normal k (p b0 b1 : list T) r : merge_token_sequence k p b0 b1 = Ok r -> normal_merge r.
Proof.
  destruct (merge_shape k p b0 b1) as (d0 & d1 & out & _ & _ & _ & _ & _ & _ & HR & -> & _); intros H.
  destruct (consolidate_ok k out) as [(staged & items & P1 & P2 & HE & _)|[_ HE]]; [|congruence].
  rewrite HE in H; injection H as <-; apply finish_normal.
  apply (pass2_normal _ _ P2 false), (pass1_sep _ _ P1), (run_sep _ _ _ _ _ _ HR); reflexivity.
Qed.

Theorem merge_tokens k (p b0 b1 : list T) r : merge_token_sequence k p b0 b1 = Ok r ->
  forall x, In x (tokens r) -> In x b0 \/ In x b1.
Proof.
  destruct (merge_shape k p b0 b1) as (d0 & d1 & out & _ & _ & A0 & A1 & _ & _ & HR & -> & _); intros H x Hx.
  destruct (consolidate_ok k out) as [(staged & items & P1 & P2 & HE & _)|[_ HE]]; [|congruence].
  rewrite HE in H; injection H as <-.
  rewrite finish_tokens in Hx; apply (pass2_tokens _ _ P2), (pass1_tokens _ _ P1) in Hx.
  apply (run_tokens _ _ _ _ _ _ HR) in Hx; now rewrite !ftext_frag_of, A0, A1 in Hx.
Qed.

Lemma finserted_frag_of (d : list (ditem T)) : finserted (map frag_of d) = inserted d.
Proof. unfold finserted, inserted; induction d as [|[t|a b] d IH]; cbn; now rewrite ?IH. Qed.
Theorem merge_inserted k (p b0 b1 : list T) r d0 d1 : merge_token_sequence k p b0 b1 = Ok r ->
  diff_token_sequences p b0 = Ok d0 -> diff_token_sequences p b1 = Ok d1 ->
  forall x, In x (inserted d0) \/ In x (inserted d1) -> In x (tokens r).
Proof.
  destruct (merge_shape k p b0 b1) as (d0' & d1' & out & D0 & D1 & A0 & A1 & _ & _ & HR & -> & _); intros H D0' D1' x Hx.
  assert (d0' = d0) as -> by congruence; assert (d1' = d1) as -> by congruence.
  destruct (consolidate_ok k out) as [(staged & items & P1 & P2 & HE & _)|[_ HE]]; [|congruence].
  rewrite HE in H; injection H as <-.
  rewrite finish_tokens; apply (pass2_tokens _ _ P2), (pass1_tokens _ _ P1), (run_inserted _ _ _ _ _ _ HR).
  now rewrite !finserted_frag_of.
Qed.

Theorem merge_sides k (p b0 b1 : list T) r d0 d1 : merge_token_sequence k p b0 b1 = Ok r ->
  diff_token_sequences p b0 = Ok d0 -> diff_token_sequences p b1 = Ok d1 ->
  reach_free (edits 0 d0) (edits 0 d1) -> cover_free (edits 0 d0) (edits 0 d1) ->
  subseq (first_sides r) b0 /\ subseq (second_sides r) b1.
Proof.
  destruct (merge_shape k p b0 b1) as (d0' & d1' & out & D0 & D1 & A0 & A1 & _ & _ & HR & -> & _); intros H D0' D1' HK1 HK2.
  assert (d0' = d0) as -> by congruence; assert (d1' = d1) as -> by congruence.
  destruct (consolidate_ok k out) as [(staged & items & P1 & P2 & HE & _)|[_ HE]]; [|congruence].
  rewrite HE in H; injection H as <-.
  destruct (finish_sides items) as [-> ->]; destruct (pass2_sides _ _ P2) as [-> ->].
  destruct (pass1_sides _ _ P1) as [Q1 Q2].
  destruct (run_sides _ _ _ _ _ _ HR) as [[Q3 Q4] _]; [now rewrite !fedits_frag_of|now rewrite !fedits_frag_of|].
  rewrite !ftext_frag_of, A0 in Q3; rewrite !ftext_frag_of, A1 in Q4.
  split; eapply subseq_trans; eassumption.
Qed.

(** ** Symmetry in the absence of collisions *)
Lemma ins_at_cases (p : list T) c g pos fs : stream p c g pos fs -> forall i,
  ins_at (fedits pos fs) i = [] \/ exists n, In (i, ins_at (fedits pos fs) i, n) (fedits pos fs).
Proof.
  induction 1 as [|g pos n r Hn Hl Hs IH|c pos i n r Hl Hn Hs IH]; intros j; cbn [fedits].
  - now left.
  - apply IH.
  - unfold ins_at; cbn [flat_map]; fold (ins_at (fedits (pos + n) r) j).
    assert (A := stream_above_S _ _ _ _ Hs).
    unfold e_pos, e_ins at 1; cbn [fst snd].
    destruct (Nat.eqb_spec pos j) as [->|Hne].
    + right; exists n; left; f_equal; f_equal.
      unfold e_ins; cbn [fst snd].
      rewrite (above_ins (S j)); [now rewrite app_nil_r| |lia].
      intros e He; specialize (A e He); lia.
    + cbn [app]; destruct (IH j) as [H|[m H]]; [now left|right; exists m; now right].
Qed.
Lemma both_ins_comm (x y : list T) : x = [] \/ y = [] \/ x = y -> both_ins x y = both_ins y x.
Proof.
  unfold both_ins; intros [-> | [-> | -> ]]; [| |reflexivity].
  - destruct y; cbn; now rewrite ?app_nil_r.
  - destruct x; cbn; now rewrite ?app_nil_r.
Qed.
Lemma union_comm (p : list T) fs0 fs1 : stream p true true 0 fs0 -> stream p true true 0 fs1 ->
  compatible (fedits 0 fs0) (fedits 0 fs1) ->
  union_text p (fedits 0 fs0) (fedits 0 fs1) = union_text p (fedits 0 fs1) (fedits 0 fs0).
Proof.
  intros S0 S1 HC; unfold union_text, union_from; apply flat_map_ext; intros i.
  rewrite (orb_comm (removed (fedits 0 fs0) i)); f_equal; apply both_ins_comm.
  destruct (ins_at_cases p _ _ _ _ S0 i) as [H|[n H]]; [now left|].
  destruct (ins_at_cases p _ _ _ _ S1 i) as [H'|[n' H']]; [now right; left|].
  destruct (HC _ _ H H') as [Q|[[Q _]|[[Q _]|[_ [[_ Q]|[_ Q]]]]]]; cbn in Q; try lia; auto.
  right; right; injection Q; auto.
Qed.
Lemma compatible_sym es0 es1 : @compatible T es0 es1 -> compatible es1 es0.
Proof.
  intros H e1 e0 H1 H0; destruct (H e0 e1 H0 H1) as [->|[Q|[Q|[Q [R|R]]]]].
  - now left.
  - right; right; now left.
  - right; now left.
  - right; right; right; auto.
  - right; right; right; auto.
Qed.
Theorem merge_symmetric k (p b0 b1 : list T) d0 d1 :
  diff_token_sequences p b0 = Ok d0 -> diff_token_sequences p b1 = Ok d1 ->
  compatible (edits 0 d0) (edits 0 d1) ->
  exists r, merge_token_sequence k p b0 b1 = Ok r /\ merge_token_sequence k p b1 b0 = Ok (swap_sides r).
Proof.
  intros D0 D1 HC.
  rewrite (merge_union k p b0 b1 d0 d1 D0 D1 HC), (merge_union k p b1 b0 d1 d0 D1 D0 (compatible_sym _ _ HC)).
  eexists; split; [reflexivity|]; cbn [swap_sides map]; do 3 f_equal.
  destruct (diff_ok p b0) as [d0' [D0' [_ S0]]]; destruct (diff_ok p b1) as [d1' [D1' [_ S1]]].
  assert (d0' = d0) as -> by congruence; assert (d1' = d1) as -> by congruence.
  rewrite <- !fedits_frag_of in *; symmetry; now apply union_comm.
Qed.

(** ** common_prefix_length *)
Theorem common_prefix_spec (a b : list T) :
  let n := common_prefix_length a b in
  n <= length a /\ n <= length b /\ firstn n a = firstn n b /\
  forall m, m <= length a -> m <= length b -> firstn m a = firstn m b -> m <= n.
Proof.
  revert b; induction a as [|x a IH]; intros [|y b]; cbn; try (repeat split; try lia; intros; lia).
  destruct (teq x y) eqn:Hxy.
  - apply teq_ok in Hxy; subst y; destruct (IH b) as [H1 [H2 [H3 H4]]]; repeat split; try lia.
    + cbn; now rewrite H3.
    + intros [|m] L1 L2 Hm; [lia|]; cbn in Hm; injection Hm as Hm; apply le_n_S, H4; [lia|lia|exact Hm].
  - repeat split; try lia; intros [|m] L1 L2 Hm; [lia|]; cbn in Hm; injection Hm as -> _.
    rewrite (proj2 (teq_ok y y) eq_refl) in Hxy; discriminate.
Qed.
End Laws.

(** ** Renaming *)
Section Renaming.
Context {A B : Type} {EA : Teq A} {EB : Teq B} {OA : TeqOk A} {OB : TeqOk B}.
Variable f : A -> B.
Hypothesis f_inj : forall x y, f x = f y -> x = y.
Notation fm := (frag_map f).
Definition vmap (v : version A) : version B := option_map (map f) v.
Definition ofm (o : ofrag A) : ofrag B :=
  match o with OFrag x => OFrag (fm x) | OConf a b => OConf (vmap a) (vmap b) end.

Lemma teq_map x y : teq (f x) (f y) = teq x y.
Proof.
  destruct (teq x y) eqn:H.
  - apply teq_ok in H; subst; now apply teq_ok.
  - destruct (teq (f x) (f y)) eqn:H'; [|reflexivity].
    apply teq_ok, f_inj in H'; apply teq_ok in H'; congruence.
Qed.
Lemma cpl_map a b : common_prefix_length (map f a) (map f b) = common_prefix_length a b.
Proof. revert b; induction a as [|x a IH]; intros [|y b]; cbn; auto; now rewrite teq_map, IH. Qed.
Lemma split_copy_map i n l : split_copy_fragment (map f i) n l =
  (option_map fm (fst (split_copy_fragment i n l)), option_map fm (snd (split_copy_fragment i n l))).
Proof. unfold split_copy_fragment; cbn [fst snd]; destruct (0 <? l), (l <? n); cbn; now rewrite <- ?firstn_map, ?skipn_map. Qed.
Lemma split_change_map i d n il l : split_change_fragment (map f i) (map f d) n il l =
  (option_map fm (fst (split_change_fragment i d n il l)), option_map fm (snd (split_change_fragment i d n il l))).
Proof.
  unfold split_change_fragment; rewrite map_length; cbn [fst snd].
  destruct ((0 <? l) || (0 <? il)), ((l <? n) || (il <? length i)); cbn; now rewrite <- ?firstn_map, ?skipn_map.
Qed.
Lemma split_fragment_map x l : split_fragment (fm x) l =
  (option_map fm (fst (split_fragment x l)), option_map fm (snd (split_fragment x l))).
Proof. destruct x; cbn [frag_map split_fragment]; rewrite ?map_length; [apply split_copy_map|apply split_change_map]. Qed.
Lemma f_insert_map x : f_insert (fm x) = map f (f_insert x).
Proof. now destruct x. Qed.
Lemma f_length_map x : f_length (fm x) = f_length x.
Proof. now destruct x. Qed.

Definition pmap (r : option (ofrag A) * option (frag A) * option (frag A)) :=
  let '(o, t0, t1) := r in (option_map ofm o, option_map fm t0, option_map fm t1).
Lemma pending_map x y : pending_conflict (fm x) (fm y) = pmap (pending_conflict x y).
Proof.
  unfold pending_conflict; rewrite !f_length_map, !split_fragment_map.
  set (l := Nat.min (f_length x) (f_length y)).
  destruct (split_fragment x l) as [h0 t0], (split_fragment y l) as [h1 t1]; cbn.
  destruct h0, h1; cbn; now rewrite ?f_insert_map.
Qed.
Lemma copy_copy_map i0 n0 i1 n1 : copy_copy (map f i0) n0 (map f i1) n1 = pmap (copy_copy i0 n0 i1 n1).
Proof.
  unfold copy_copy; rewrite !split_copy_map; destruct (n0 <? n1); cbn [pmap option_map ofm snd]; [reflexivity|].
  now destruct (n1 =? n0).
Qed.
Lemma copy_change_map ic nc i d n : copy_change (map f ic) nc (map f i) (map f d) n = pmap (copy_change ic nc i d n).
Proof.
  unfold copy_change; rewrite map_length, split_copy_map, split_change_map.
  destruct (n =? Nat.min nc n); cbn [snd fst pmap].
  - now destruct (Nat.min nc n <? nc).
  - destruct (split_change_fragment i d n (length i) (Nat.min nc n)) as [h t]; cbn.
    destruct h; cbn; now rewrite ?f_insert_map.
Qed.
Lemma ordinary_map i0 d0 n0 i1 d1 n1 :
  ordinary_conflict (map f i0) (map f d0) n0 (map f i1) (map f d1) n1 = pmap (ordinary_conflict i0 d0 n0 i1 d1 n1).
Proof.
  unfold ordinary_conflict; rewrite !map_length, !split_change_map.
  destruct (split_change_fragment i0 d0 n0 (length i0) (Nat.min n0 n1)) as [h t].
  destruct (split_change_fragment i1 d1 n1 (length i1) (Nat.min n0 n1)) as [h' t']; cbn.
  destruct h, h'; cbn; now rewrite ?f_insert_map.
Qed.
Lemma process_map x y w : process_fragments (fm x) (fm y) w =
  let '(r, w') := process_fragments x y w in (pmap r, w').
Proof.
  destruct x as [i0 n0|i0 d0 n0], y as [i1 n1|i1 d1 n1]; cbn [frag_map process_fragments].
  - now rewrite copy_copy_map.
  - destruct w; [apply (f_equal (fun r => (r, true))), (pending_map (FCopy i0 n0) (FChange i1 d1 n1))|].
    now rewrite copy_change_map.
  - destruct w; [apply (f_equal (fun r => (r, true))), (pending_map (FChange i0 d0 n0) (FCopy i1 n1))|].
    rewrite copy_change_map; destruct (copy_change i1 n1 i0 d0 n0) as [[o t1] t0]; reflexivity.
  - destruct w; [apply (f_equal (fun r => (r, true))), (pending_map (FChange i0 d0 n0) (FChange i1 d1 n1))|].
    unfold change_change, has_composable_changes, compose_changes, are_identical_changes.
    rewrite !map_length, !cpl_map, ordinary_map.
    destruct ((n0 =? 0) && (length i1 =? 0)); cbn [orb]; [reflexivity|].
    destruct ((length i0 =? 0) && (n1 =? 0)); [reflexivity|].
    destruct (_ && _); reflexivity.
Qed.
Lemma merge_loop_map : forall fuel fs0 fs1 w,
  merge_loop fuel (map fm fs0) (map fm fs1) w = option_map (map ofm) (merge_loop fuel fs0 fs1 w).
Proof.
  assert (FL : forall fs0 fs1 w, flush_remaining (map fm fs0) (map fm fs1) w = map ofm (flush_remaining fs0 fs1 w)).
  { intros [|x fs0] fs1 w; cbn [map flush_remaining].
    - rewrite !map_map; apply map_ext; intros y; destruct w; cbn; now rewrite ?f_insert_map.
    - f_equal; [destruct w; cbn; now rewrite ?f_insert_map|].
      rewrite !map_map; apply map_ext; intros y; destruct w; cbn; now rewrite ?f_insert_map. }
  assert (OL : forall t (r : list (frag A)), olist (option_map fm t) ++ map fm r = map fm (olist t ++ r)).
  { intros [t|] r; reflexivity. }
  induction fuel as [|fuel IH]; intros [|x fs0] [|y fs1] w; cbn [map merge_loop option_map];
    try (now rewrite <- FL); [reflexivity|].
  rewrite process_map; destruct (process_fragments x y w) as [[[o t0] t1] w']; cbn [pmap].
  rewrite !OL, IH; destruct (merge_loop fuel (olist t0 ++ fs0) (olist t1 ++ fs1) w') as [rest|]; cbn [option_map]; [|reflexivity].
  now destruct o.
Qed.

Definition rmap {X Y} (g : X -> Y) (r : res X) : res Y := match r with Ok x => Ok (g x) | Err e => Err e end.
Lemma join_map k vs : join k (map vmap vs) = rmap (map f) (join k vs).
Proof.
  assert (H1 : existsb is_literal (map vmap vs) = existsb is_literal vs).
  { induction vs as [|[v|] vs IH]; cbn; auto. }
  assert (H2 : concat (map vseq (map vmap vs)) = map f (concat (map vseq vs))).
  { clear H1; induction vs as [|[v|] vs IH]; cbn; rewrite ?map_app, ?IH; auto. }
  unfold join; rewrite H1, H2; destruct (existsb is_literal vs), k; reflexivity.
Qed.
Lemma take_conflicts_map l : take_conflicts (map ofm l) =
  (map (fun g => (vmap (fst g), vmap (snd g))) (fst (take_conflicts l)), map ofm (snd (take_conflicts l))).
Proof. induction l as [|[x|a b] l IH]; cbn; auto; rewrite IH; now destruct (take_conflicts l). Qed.
Lemma take_frags_map l : take_frags (map ofm l) = (map fm (fst (take_frags l)), map ofm (snd (take_frags l))).
Proof. induction l as [|[x|a b] l IH]; cbn; auto; rewrite IH; now destruct (take_frags l). Qed.
Lemma changeset_map (o m : list A) : exists c c', find_changeset o m = Ok c /\
  find_changeset (map f o) (map f m) = Ok c' /\ cs_stream (map f o) c' = map fm (cs_stream o c) /\
  as_diff_stream (map f o) c' = map (ditem_map f) (as_diff_stream o c).
Proof.
  destruct (find_changeset_ok o m) as [c [Hc G]]; destruct (find_changeset_ok (map f o) (map f m)) as [c' [Hc' G']].
  exists c, c'; split; [exact Hc|split; [exact Hc'|]].
  rewrite !map_length in G'; destruct (good_map f f_inj _ _ _ _ _ _ _ G _ G') as [H1 [H2 _]]; auto.
Qed.
Lemma consolidate_conflicts_map k : forall fuel l,
  consolidate_conflicts fuel k (map ofm l) = rmap (map ofm) (consolidate_conflicts fuel k l).
Proof.
  induction fuel as [|fuel IH]; intros [|x l]; [reflexivity|reflexivity|reflexivity|].
  set (xl := x :: l).
  assert (Hn : map ofm xl <> []) by discriminate; assert (Hn' : xl <> []) by discriminate.
  destruct (take_conflicts xl) as [g r1] eqn:T1; destruct (take_frags r1) as [fs r2] eqn:T2.
  rewrite (consolidate_conflicts_S fuel k xl g r1 fs r2 Hn' T1 T2).
  rewrite (consolidate_conflicts_S fuel k (map ofm xl) (map (fun g => (vmap (fst g), vmap (snd g))) g) (map ofm r1) (map fm fs) (map ofm r2) Hn);
    [|rewrite take_conflicts_map, T1; reflexivity|rewrite take_frags_map, T2; reflexivity].
  rewrite !map_map; cbn [fst snd].
  rewrite <- (map_map fst vmap), <- (map_map snd vmap), !join_map.
  destruct (join k (map fst g)) as [v1|e]; cbn [rmap bind]; [|reflexivity].
  destruct (join k (map snd g)) as [v2|e]; cbn [rmap bind]; [|reflexivity].
  destruct (changeset_map v2 v1) as [c [c' [-> [-> [_ HS]]]]]; cbn [bind]; rewrite HS, IH.
  destruct (consolidate_conflicts fuel k r2) as [rest|e]; cbn [rmap bind]; [|reflexivity].
  rewrite !map_app, !map_map; f_equal; f_equal; apply map_ext; intros [t|a b]; cbn; now rewrite ?map_length.
Qed.
Lemma consolidate_items_map k : forall fuel l,
  consolidate_items fuel k (map ofm l) = rmap (map (ditem_map f)) (consolidate_items fuel k l).
Proof.
  induction fuel as [|fuel IH]; intros [|x l]; [reflexivity|reflexivity|reflexivity|].
  set (xl := x :: l).
  assert (Hn : map ofm xl <> []) by discriminate; assert (Hn' : xl <> []) by discriminate.
  destruct (take_conflicts xl) as [g r1] eqn:T1; destruct (take_frags r1) as [fs r2] eqn:T2.
  rewrite (consolidate_items_S fuel k xl g r1 fs r2 Hn' T1 T2).
  rewrite (consolidate_items_S fuel k (map ofm xl) (map (fun g => (vmap (fst g), vmap (snd g))) g) (map ofm r1) (map fm fs) (map ofm r2) Hn);
    [|rewrite take_conflicts_map, T1; reflexivity|rewrite take_frags_map, T2; reflexivity].
  rewrite !(map_map _ fst), !(map_map _ snd); cbn [fst snd].
  rewrite <- (map_map fst vmap), <- (map_map snd vmap), !join_map.
  assert (HI : map (fun x => Some (f_insert x)) (map fm fs) = map vmap (map (fun x => Some (f_insert x)) fs)).
  { rewrite !map_map; apply map_ext; intros y; cbn; now rewrite f_insert_map. }
  rewrite HI, join_map, IH.
  destruct (join k (map fst g)) as [v1|e]; cbn [rmap bind]; [|reflexivity].
  destruct (join k (map snd g)) as [v2|e]; cbn [rmap bind]; [|reflexivity].
  destruct (join k (map (fun x : frag A => Some (f_insert x)) fs)) as [v3|e]; cbn [rmap bind]; [|reflexivity].
  destruct (consolidate_items fuel k r2) as [rest|e]; cbn [rmap bind]; [|reflexivity].
  rewrite !map_app, !nonempty_map; destruct (nonempty v1 || nonempty v2), (nonempty v3); reflexivity.
Qed.
Theorem merge_map k (p b0 b1 : list A) :
  merge_token_sequence k (map f p) (map f b0) (map f b1) = rmap (map (ditem_map f)) (merge_token_sequence k p b0 b1).
Proof.
  unfold merge_token_sequence.
  destruct (changeset_map p b0) as [c0 [c0' [-> [-> [S0 _]]]]]; cbn [bind].
  destruct (changeset_map p b1) as [c1 [c1' [-> [-> [S1 _]]]]]; cbn [bind].
  rewrite S0, S1; unfold _merge; rewrite !map_length, merge_loop_map.
  destruct (merge_loop _ _ _ _) as [l|]; cbn [option_map]; [|reflexivity].
  unfold consolidate, consolidate_all; rewrite map_length, consolidate_conflicts_map.
  destruct (consolidate_conflicts (length l) k l) as [st|e]; cbn [rmap bind]; [|reflexivity].
  rewrite map_length, consolidate_items_map.
  destruct (consolidate_items (length st) k st) as [items|e]; cbn [rmap bind]; [|reflexivity].
  now destruct items.
Qed.
End Renaming.

(** ** Witnesses *)
Lemma subseq_in {T} (a l : list T) x : subseq a l -> In x a -> In x l.
Proof. induction 1; cbn; intros Hx; [contradiction|destruct Hx; auto|auto]. Qed.
Theorem merge_bytes_raises : exists p b0 b1 : list nat, merge_token_sequence KBytes p b0 b1 = Err TypeError.
Proof. exists [3;4], [9;4;8], [7]; vm_compute; reflexivity. Qed.
Theorem merge_sides_swapped : exists (p b0 b1 : list nat) r,
  merge_token_sequence KStr p b0 b1 = Ok r /\ ~ subseq (first_sides r) b0.
Proof.
  exists [1;2;3;4], [1;2;9;4], [1;8;4]; eexists; split; [vm_compute; reflexivity|].
  intros H; apply (subseq_in _ _ 8) in H; cbn in *; [|now left]; intuition discriminate.
Qed.
Theorem merge_asymmetric : exists (p b0 b1 : list nat) r r',
  merge_token_sequence KStr p b0 b1 = Ok r /\ merge_token_sequence KStr p b1 b0 = Ok r' /\ r' <> swap_sides r.
Proof.
  exists [1;2;3;4], [1;2;9;4], [1;8;4]; eexists; eexists; split; [vm_compute; reflexivity|split; [vm_compute; reflexivity|]].
  cbn; discriminate.
Qed.
