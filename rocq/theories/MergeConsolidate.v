(** The two consolidation passes of merge.py. *)
From Verif Require Import Base Strings SpecSeq AutomatonProofs Changesets SpecDiff ChangesetsProofs DiffLaws DiffProofs Merge SpecMerge MergeStreams.

Section Consolidate.
Context {T : Type} {E : Teq T} {O : TeqOk T}.

Definition conf (g : version T * version T) : ofrag T := OConf (fst g) (snd g).
Definition starts_conf (l : list (ofrag T)) : Prop := exists a b r, l = OConf a b :: r.
Definition starts_frag (l : list (ofrag T)) : Prop := exists f r, l = OFrag f :: r.

Lemma take_conflicts_spec (l : list (ofrag T)) g r : take_conflicts l = (g, r) ->
  l = map conf g ++ r /\ (r = [] \/ starts_frag r).
Proof.
  revert g r; induction l as [|[f|a b] l IH]; cbn; intros g r H.
  - injection H as <- <-; auto.
  - injection H as <- <-; split; [reflexivity|right; now exists f, l].
  - destruct (take_conflicts l) as [g' r']; injection H as <- <-.
    destruct (IH _ _ eq_refl) as [-> H]; split; [reflexivity|exact H].
Qed.
Lemma take_frags_spec (l : list (ofrag T)) g r : take_frags l = (g, r) ->
  l = map OFrag g ++ r /\ (r = [] \/ starts_conf r).
Proof.
  revert g r; induction l as [|[f|a b] l IH]; cbn; intros g r H.
  - injection H as <- <-; auto.
  - destruct (take_frags l) as [g' r']; injection H as <- <-.
    destruct (IH _ _ eq_refl) as [-> H]; split; [reflexivity|exact H].
  - injection H as <- <-; split; [reflexivity|right; now exists a, b, l].
Qed.

Definition joined (vs : list (version T)) : list T := concat (map vseq vs).
Lemma join_cases k vs : join k vs = Ok (joined vs) \/ (k = KBytes /\ join k vs = Err TypeError).
Proof. unfold join; destruct k; auto; destruct (existsb _ _); auto. Qed.
Lemma join_ok k vs x : join k vs = Ok x -> x = joined vs.
Proof. destruct (join_cases k vs) as [->|[_ ->]]; congruence. Qed.
Lemma join_some k (vs : list (list T)) : join k (map Some vs) = Ok (concat vs).
Proof.
  assert (existsb is_literal (map Some vs) = false) as Hx by (induction vs; auto).
  assert (map vseq (map Some vs) = vs) as Hy by (rewrite map_map; apply map_id).
  unfold join; rewrite Hx, Hy; now destruct k.
Qed.

Definition ofr (i : ditem T) : ofrag T :=
  match i with DText t => OFrag (FCopy t (length t)) | DChange a b => OConf (Some a) (Some b) end.
Lemma redone_eq o (c : changeset T) :
  map (fun f => match f with
                | FCopy i n => OFrag (FCopy i n)
                | FChange i d _ => OConf (Some i) (Some d)
                end) (cs_stream o c) = map ofr (as_diff_stream o c).
Proof. rewrite cs_stream_diff, map_map; apply map_ext; now intros [t|a b]. Qed.

(** What the first pass does, group by group. *)
Inductive pass1 : list (ofrag T) -> list (ofrag T) -> Prop :=
| P1_nil : pass1 [] []
| P1_cons g fs r rest d : (g <> [] \/ fs <> []) -> (r = [] \/ starts_conf r) -> (fs = [] -> r = []) ->
    normal_diff d -> diff_before d = joined (map snd g) -> diff_after d = joined (map fst g) ->
    pass1 r rest ->
    pass1 (map conf g ++ map OFrag fs ++ r) (map ofr d ++ map OFrag fs ++ rest).

Lemma frags_nil (fs : list (frag T)) r : (map OFrag fs ++ r = [] \/ starts_frag (map OFrag fs ++ r)) ->
  (r = [] \/ starts_conf r) -> fs = [] -> r = [].
Proof.
  intros H1 H2 ->; cbn in H1; destruct H2 as [H2|[a [b [r' ->]]]]; [exact H2|].
  destruct H1 as [H1|[? [? H1]]]; discriminate.
Qed.

Lemma group_progress g fs (l r : list (ofrag T)) fuel : l = map conf g ++ map OFrag fs ++ r ->
  l <> [] -> (fs = [] -> r = []) -> length l <= S fuel -> length r <= fuel.
Proof.
  intros -> Hn Hf; rewrite !app_length, !map_length.
  destruct fs as [|f fs]; [rewrite Hf by reflexivity; cbn; lia|cbn; lia].
Qed.

Lemma group_nonempty g fs (l r : list (ofrag T)) : l = map conf g ++ map OFrag fs ++ r ->
  l <> [] -> (fs = [] -> r = []) -> g <> [] \/ fs <> [].
Proof.
  intros -> Hn Hf; destruct g; [|left; discriminate]; destruct fs; [|right; discriminate].
  rewrite Hf in Hn by reflexivity; now elim Hn.
Qed.

Lemma consolidate_conflicts_S fuel k (l : list (ofrag T)) g r1 fs r2 : l <> [] ->
  take_conflicts l = (g, r1) -> take_frags r1 = (fs, r2) ->
  consolidate_conflicts (S fuel) k l =
  let* version1 := join k (map fst g) in
  let* version2 := join k (map snd g) in
  let* c := find_changeset version2 version1 in
  let* rest := consolidate_conflicts fuel k r2 in
  Ok (map ofr (as_diff_stream version2 c) ++ map OFrag fs ++ rest).
Proof.
  intros Hn H1 H2; destruct l as [|x l]; [now elim Hn|].
  cbn [consolidate_conflicts]; rewrite H1.
  destruct (join k (map fst g)); cbn [bind]; [|reflexivity].
  destruct (join k (map snd g)); cbn [bind]; [|reflexivity].
  destruct (find_changeset _ _); cbn [bind]; [|reflexivity].
  now rewrite H2, redone_eq.
Qed.
Lemma consolidate_items_S fuel k (l : list (ofrag T)) g r1 fs r2 : l <> [] ->
  take_conflicts l = (g, r1) -> take_frags r1 = (fs, r2) ->
  consolidate_items (S fuel) k l =
  let* version1 := join k (map fst g) in
  let* version2 := join k (map snd g) in
  let* insert := join k (map (fun f => Some (f_insert f)) fs) in
  let* rest := consolidate_items fuel k r2 in
  Ok ((if nonempty version1 || nonempty version2 then [DChange version1 version2] else []) ++
      (if nonempty insert then [DText insert] else []) ++ rest).
Proof.
  intros Hn H1 H2; destruct l as [|x l]; [now elim Hn|].
  cbn [consolidate_items]; rewrite H1.
  destruct (join k (map fst g)); cbn [bind]; [|reflexivity].
  destruct (join k (map snd g)); cbn [bind]; [|reflexivity].
  now rewrite H2.
Qed.

Lemma consolidate_conflicts_ok k fuel : forall l, length l <= fuel ->
  (exists staged, consolidate_conflicts fuel k l = Ok staged /\ pass1 l staged /\
     (forall k', k' <> KBytes -> consolidate_conflicts fuel k' l = Ok staged)) \/
  (k = KBytes /\ consolidate_conflicts fuel k l = Err TypeError).
Proof.
  induction fuel as [|fuel IH]; intros l Hl.
  - destruct l; [|cbn in Hl; lia]; left; exists []; cbn; repeat split; auto using P1_nil.
  - destruct l as [|x l0] eqn:Hx.
    { left; exists []; cbn; repeat split; auto using P1_nil. }
    rewrite <- Hx in *; assert (Hne : l <> []) by (subst; discriminate); clear Hx.
    destruct (take_conflicts l) as [g r1] eqn:H1; destruct (take_frags r1) as [fs r2] eqn:H2.
    assert (U := fun k => consolidate_conflicts_S fuel k l g r1 fs r2 Hne H1 H2).
    apply take_conflicts_spec in H1; apply take_frags_spec in H2.
    destruct H1 as [H1 N1]; destruct H2 as [H2 N2]; subst r1.
    assert (N3 := frags_nil _ _ N1 N2).
    destruct (find_changeset_ok (joined (map snd g)) (joined (map fst g))) as [c [Hc G]].
    destruct (good_diff _ _ _ _ _ _ _ G) as [D1 D2]; try lia; rewrite seg_all in D1, D2.
    assert (D3 := good_normal _ _ _ _ _ _ _ G ltac:(lia) ltac:(lia) ltac:(lia) ltac:(lia)).
    assert (Hr : length r2 <= fuel) by (eapply group_progress; eauto).
    assert (J : forall k' vs, k' <> KBytes -> join k' vs = Ok (joined vs)).
    { intros k' vs Hk'; destruct (join_cases k' vs) as [H|[H _]]; [exact H|contradiction]. }
    rewrite (U k); destruct (join_cases k (map fst g)) as [->|[-> ->]]; [|right; split; reflexivity]; cbn [bind].
    destruct (join_cases k (map snd g)) as [->|[-> ->]]; [|right; split; reflexivity]; cbn [bind].
    rewrite Hc; cbn [bind].
    destruct (IH _ Hr) as [[rest [-> [HP HK]]]|[-> ->]]; [|right; split; reflexivity]; cbn [bind].
    left; eexists; split; [reflexivity|]; split.
    + rewrite H1; apply P1_cons; auto; now apply (group_nonempty g fs l r2).
    + intros k' Hk'; rewrite U, J by exact Hk'; cbn [bind]; rewrite J by exact Hk'; cbn [bind].
      rewrite Hc; cbn [bind]; rewrite HK by exact Hk'; reflexivity.
Qed.

Definition frs (fs : list (frag T)) : list T := ftext fs.
Inductive pass2 : list (ofrag T) -> list (ditem T) -> Prop :=
| P2_nil : pass2 [] []
| P2_cons g fs r rest : (g <> [] \/ fs <> []) -> (r = [] \/ starts_conf r) -> (fs = [] -> r = []) ->
    pass2 r rest ->
    pass2 (map conf g ++ map OFrag fs ++ r)
      ((if nonempty (joined (map fst g)) || nonempty (joined (map snd g))
        then [DChange (joined (map fst g)) (joined (map snd g))] else []) ++
       (if nonempty (ftext fs) then [DText (ftext fs)] else []) ++ rest).

Definition no_literal (l : list (ofrag T)) : Prop :=
  forall x, In x l -> match x with OConf a b => a <> None /\ b <> None | OFrag _ => True end.

Lemma join_no_literal k (vs : list (version T)) : (forall v, In v vs -> v <> None) -> join k vs = Ok (joined vs).
Proof.
  intros H; assert (existsb is_literal vs = false) as Hx.
  { induction vs as [|[v|] vs IH]; cbn; auto.
    - apply IH; intros; apply H; now right.
    - exfalso; now apply (H None (or_introl eq_refl)). }
  unfold join; rewrite Hx; now destruct k.
Qed.

Lemma consolidate_items_ok k fuel : forall l, length l <= fuel -> no_literal l ->
  exists items, consolidate_items fuel k l = Ok items /\ pass2 l items /\
     (forall k', consolidate_items fuel k' l = Ok items).
Proof.
  induction fuel as [|fuel IH]; intros l Hl NL.
  - destruct l; [|cbn in Hl; lia]; exists []; cbn; repeat split; auto using P2_nil.
  - destruct l as [|x l0] eqn:Hx.
    { exists []; cbn; repeat split; auto using P2_nil. }
    rewrite <- Hx in *; assert (Hne : l <> []) by (subst; discriminate); clear Hx.
    destruct (take_conflicts l) as [g r1] eqn:H1; destruct (take_frags r1) as [fs r2] eqn:H2.
    assert (U := fun k => consolidate_items_S fuel k l g r1 fs r2 Hne H1 H2).
    apply take_conflicts_spec in H1; apply take_frags_spec in H2.
    destruct H1 as [H1 N1]; destruct H2 as [H2 N2]; subst r1.
    assert (N3 := frags_nil _ _ N1 N2).
    assert (Hr : length r2 <= fuel) by (eapply group_progress; eauto).
    assert (NL2 : no_literal r2).
    { intros y Hy; apply NL; rewrite H1, !in_app_iff; auto. }
    assert (J1 : forall k', join k' (map fst g) = Ok (joined (map fst g))).
    { intros k'; apply join_no_literal; intros v Hv; apply in_map_iff in Hv; destruct Hv as [[a b] [<- Hv]].
      apply (in_map conf) in Hv; assert (Hc : In (conf (a, b)) l) by (rewrite H1; apply in_or_app; now left).
      specialize (NL _ Hc); cbn in NL |- *; tauto. }
    assert (J2 : forall k', join k' (map snd g) = Ok (joined (map snd g))).
    { intros k'; apply join_no_literal; intros v Hv; apply in_map_iff in Hv; destruct Hv as [[a b] [<- Hv]].
      apply (in_map conf) in Hv; assert (Hc : In (conf (a, b)) l) by (rewrite H1; apply in_or_app; now left).
      specialize (NL _ Hc); cbn in NL |- *; tauto. }
    assert (J3 : forall k', join k' (map (fun f : frag T => Some (f_insert f)) fs) = Ok (ftext fs)).
    { intros k'; rewrite <- (map_map f_insert Some); apply join_some. }
    destruct (IH _ Hr NL2) as [rest [HR [HP HK]]].
    eexists; split; [|split].
    + rewrite U, J1; cbn [bind]; rewrite J2; cbn [bind]; rewrite J3; cbn [bind].
      rewrite HR; cbn [bind]; reflexivity.
    + rewrite H1; apply P2_cons; auto; now apply (group_nonempty g fs l r2).
    + intros k'; rewrite U, J1; cbn [bind]; rewrite J2; cbn [bind]; rewrite J3; cbn [bind].
      rewrite HK; cbn [bind]; reflexivity.
Qed.

(** no literal is left after the first pass *)
Lemma pass1_no_literal l staged : pass1 l staged -> no_literal staged.
Proof.
  induction 1 as [|g fs r rest d Hg Hr Hf Hn Hb Ha HP IH]; intros x Hx; [contradiction|].
  rewrite !in_app_iff in Hx; destruct Hx as [Hx|[Hx|Hx]].
  - apply in_map_iff in Hx; destruct Hx as [[t|a b] [<- _]]; cbn; auto; split; discriminate.
  - apply in_map_iff in Hx; destruct Hx as [f [<- _]]; exact I.
  - now apply IH.
Qed.

Definition finish (items : list (ditem T)) : list (ditem T) :=
  match items with [] => [DText []] | _ => items end.

Theorem consolidate_ok k l :
  (exists staged items, pass1 l staged /\ pass2 staged items /\
     consolidate k l = Ok (finish items) /\
     forall k', k' <> KBytes -> consolidate k' l = Ok (finish items)) \/
  (k = KBytes /\ consolidate k l = Err TypeError).
Proof.
  unfold consolidate; destruct (consolidate_conflicts_ok k (length l) l (Nat.le_refl _)) as [[staged [-> [HP HK]]]|[-> ->]];
    [left|right; split; reflexivity].
  assert (NL := pass1_no_literal _ _ HP).
  destruct (consolidate_items_ok k (length staged) staged (Nat.le_refl _) NL) as [items [HI [HP2 HK2]]].
  exists staged, items; split; [exact HP|split; [exact HP2|split]].
  - cbn [bind]; unfold consolidate_all; rewrite HI; reflexivity.
  - intros k' Hk'; rewrite HK by exact Hk'; cbn [bind]; unfold consolidate_all; rewrite HK2; reflexivity.
Qed.

(** ** Only plain fragments *)
Lemma take_frags_all (g : list (frag T)) : take_frags (map OFrag g) = (g, []).
Proof. induction g as [|f g IH]; cbn; [reflexivity|now rewrite IH]. Qed.
Lemma consolidate_frags k (g : list (frag T)) : consolidate k (map OFrag g) = Ok [DText (ftext g)].
Proof.
  destruct g as [|f g']; [reflexivity|].
  set (g := f :: g'); unfold consolidate.
  assert (Hne : map OFrag g <> []) by discriminate.
  assert (J : join k (@nil (version T)) = Ok []) by (destruct k; reflexivity).
  assert (H1 : consolidate_conflicts (length (map OFrag g)) k (map OFrag g) = Ok (map OFrag g)).
  { change (length (map OFrag g)) with (S (length (map (@OFrag T) g'))).
    rewrite (consolidate_conflicts_S _ k _ [] (map OFrag g) g [] Hne eq_refl (take_frags_all g)).
    cbn [map]; rewrite J; cbn [bind].
    destruct (find_changeset_ok (@nil T) []) as [c [Hc G]]; rewrite Hc; cbn [bind].
    destruct (good_diff _ _ _ _ _ _ _ G) as [D1 D2]; try (cbn; lia); rewrite seg_all in D1, D2.
    assert (D3 := good_normal _ _ _ _ _ _ _ G ltac:(lia) ltac:(lia) ltac:(lia) ltac:(lia)).
    assert (K : forall n, consolidate_conflicts n k (@nil (ofrag T)) = Ok []) by (intros []; reflexivity).
    rewrite K; cbn [bind].
    assert (as_diff_stream [] c = []) as ->; [|cbn [map app]; now rewrite app_nil_r].
    destruct D3 as [_ D3]; destruct (as_diff_stream [] c) as [|x d]; [reflexivity|exfalso].
    inversion D3 as [|? ? Hx _]; subst; destruct x as [t|a b]; unfold diff_before, diff_after in D1, D2; cbn in D1, D2;
      apply app_eq_nil in D1; apply app_eq_nil in D2; destruct D1 as [-> _], D2 as [D2 _]; [now apply Hx|].
    subst; now apply Hx. }
  rewrite H1; cbn [bind]; unfold consolidate_all.
  assert (H2 : consolidate_items (length (map OFrag g)) k (map OFrag g) =
               Ok (if nonempty (ftext g) then [DText (ftext g)] else [])).
  { change (length (map OFrag g)) with (S (length (map (@OFrag T) g'))).
    rewrite (consolidate_items_S _ k _ [] (map OFrag g) g [] Hne eq_refl (take_frags_all g)).
    cbn [map]; rewrite J; cbn [bind].
    rewrite <- (map_map f_insert Some), join_some; cbn [bind].
    assert (K : forall n, consolidate_items n k (@nil (ofrag T)) = Ok []) by (intros []; reflexivity).
    rewrite K; cbn [bind nonempty orb app]; unfold ftext; now rewrite app_nil_r. }
  rewrite H2; cbn [bind]; destruct (ftext g); reflexivity.
Qed.

(** ** Content *)
Definition otoks (l : list (ofrag T)) : list T :=
  flat_map (fun x => match x with OFrag f => f_insert f | OConf a b => vseq a ++ vseq b end) l.
Definition oside1 (l : list (ofrag T)) : list T :=
  flat_map (fun x => match x with OFrag _ => [] | OConf a _ => vseq a end) l.
Definition oside2 (l : list (ofrag T)) : list T :=
  flat_map (fun x => match x with OFrag _ => [] | OConf _ b => vseq b end) l.

Lemma flat_map_nil {A B} (l : list A) : flat_map (fun _ => @nil B) l = [].
Proof. induction l; auto. Qed.
Lemma flat_map_map {A B C} (f : A -> B) (h : B -> list C) l : flat_map h (map f l) = flat_map (fun x => h (f x)) l.
Proof. now rewrite !flat_map_concat_map, map_map. Qed.

Lemma oside1_app a b : oside1 (a ++ b) = oside1 a ++ oside1 b.
Proof. apply flat_map_app. Qed.
Lemma oside2_app a b : oside2 (a ++ b) = oside2 a ++ oside2 b.
Proof. apply flat_map_app. Qed.
Lemma otoks_app a b : otoks (a ++ b) = otoks a ++ otoks b.
Proof. apply flat_map_app. Qed.
Lemma oside1_frags fs : oside1 (map OFrag fs) = [].
Proof. unfold oside1; rewrite flat_map_map; apply flat_map_nil. Qed.
Lemma oside2_frags fs : oside2 (map OFrag fs) = [].
Proof. unfold oside2; rewrite flat_map_map; apply flat_map_nil. Qed.
Lemma otoks_frags fs : otoks (map OFrag fs) = ftext fs.
Proof. unfold otoks, ftext; now rewrite flat_map_map, flat_map_concat_map. Qed.
Lemma oside1_conf g : oside1 (map conf g) = joined (map fst g).
Proof. unfold oside1, joined; now rewrite flat_map_map, flat_map_concat_map, map_map. Qed.
Lemma oside2_conf g : oside2 (map conf g) = joined (map snd g).
Proof. unfold oside2, joined; now rewrite flat_map_map, flat_map_concat_map, map_map. Qed.
Lemma otoks_conf g x : In x (otoks (map conf g)) <-> In x (joined (map fst g)) \/ In x (joined (map snd g)).
Proof.
  induction g as [|[a b] g IH]; cbn; [tauto|]; unfold joined in *; cbn; rewrite !in_app_iff, IH; tauto.
Qed.
Lemma oside1_ofr d : oside1 (map ofr d) = first_sides d.
Proof. unfold oside1, first_sides; rewrite flat_map_map, !flat_map_concat_map; f_equal; apply map_ext; now intros [t|a b]. Qed.
Lemma oside2_ofr d : oside2 (map ofr d) = second_sides d.
Proof. unfold oside2, second_sides; rewrite flat_map_map, !flat_map_concat_map; f_equal; apply map_ext; now intros [t|a b]. Qed.
Lemma otoks_ofr d : otoks (map ofr d) = tokens d.
Proof. unfold otoks, tokens; rewrite flat_map_map, !flat_map_concat_map; f_equal; apply map_ext; now intros [t|a b]. Qed.

Lemma tokens_iff (d : list (ditem T)) x : In x (tokens d) <-> In x (diff_after d) \/ In x (diff_before d).
Proof.
  unfold tokens, diff_after, diff_before.
  induction d as [|[t|a b] d IH]; cbn; [tauto| |]; rewrite !in_app_iff, IH; tauto.
Qed.

Lemma pass1_tokens l staged : pass1 l staged -> forall x, In x (otoks staged) <-> In x (otoks l).
Proof.
  induction 1 as [|g fs r rest d Hg Hr Hf Hn Hb Ha HP IH]; intros x; [tauto|].
  rewrite !otoks_app, !in_app_iff, IH, otoks_conf, otoks_ofr, tokens_iff, Hb, Ha; tauto.
Qed.
Lemma nonempty_false (l : list T) : nonempty l = false -> l = [].
Proof. now destruct l. Qed.
Lemma pass2_tokens l items : pass2 l items -> forall x, In x (tokens items) <-> In x (otoks l).
Proof.
  induction 1 as [|g fs r rest Hg Hr Hf HP IH]; intros x; [tauto|].
  unfold tokens; rewrite !flat_map_app; fold (tokens rest).
  rewrite !otoks_app, !in_app_iff, IH, otoks_conf, otoks_frags.
  assert (H1 : In x (flat_map (fun i => match i with DText t => t | DChange a b => a ++ b end)
      (if nonempty (joined (map fst g)) || nonempty (joined (map snd g))
        then [DChange (joined (map fst g)) (joined (map snd g))] else [])) <->
      In x (joined (map fst g)) \/ In x (joined (map snd g))).
  { destruct (_ || _) eqn:HN.
    - cbn; rewrite app_nil_r, in_app_iff; tauto.
    - apply orb_false_iff in HN; destruct HN as [HN1 HN2].
      apply nonempty_false in HN1; apply nonempty_false in HN2; rewrite HN1, HN2; cbn; tauto. }
  rewrite H1.
  assert (H2 : In x (flat_map (fun i => match i with DText t => t | DChange a b => a ++ b end)
      (if nonempty (ftext fs) then [DText (ftext fs)] else [])) <-> In x (ftext fs)).
  { destruct (nonempty (ftext fs)) eqn:HN; cbn; [now rewrite app_nil_r|].
    apply nonempty_false in HN; rewrite HN; cbn; tauto. }
  rewrite H2; tauto.
Qed.
Lemma finish_tokens (items : list (ditem T)) : tokens (finish items) = tokens items.
Proof. now destruct items. Qed.

Lemma subseq_refl (l : list T) : subseq l l.
Proof. induction l; constructor; auto. Qed.
Lemma subseq_app (a b c d : list T) : subseq a b -> subseq c d -> subseq (a ++ c) (b ++ d).
Proof.
  intros H1 H2; induction H1 as [l|x a l H IH|x a l H IH]; cbn; try (now constructor).
  induction l as [|y l IH]; cbn; [exact H2|now constructor].
Qed.
Lemma subseq_trans (a b : list T) : subseq a b -> forall c, subseq b c -> subseq a c.
Proof.
  intros H1 c H2; revert a H1; induction H2 as [l|x b l H IH|x b l H IH]; intros a H1.
  - inversion H1; constructor.
  - inversion H1; subst; [constructor|apply sub_take; auto|apply sub_skip; auto].
  - apply sub_skip; auto.
Qed.
Lemma first_sides_sub (d : list (ditem T)) : subseq (first_sides d) (diff_after d).
Proof.
  unfold first_sides, diff_after; induction d as [|[t|a b] d IH]; cbn.
  - constructor.
  - apply (subseq_app [] t _ _ (sub_nil _) IH).
  - apply subseq_app; [apply subseq_refl|exact IH].
Qed.
Lemma second_sides_sub (d : list (ditem T)) : subseq (second_sides d) (diff_before d).
Proof.
  unfold second_sides, diff_before; induction d as [|[t|a b] d IH]; cbn.
  - constructor.
  - apply (subseq_app [] t _ _ (sub_nil _) IH).
  - apply subseq_app; [apply subseq_refl|exact IH].
Qed.

Lemma pass1_sides l staged : pass1 l staged ->
  subseq (oside1 staged) (oside1 l) /\ subseq (oside2 staged) (oside2 l).
Proof.
  induction 1 as [|g fs r rest d Hg Hr Hf Hn Hb Ha HP [IH1 IH2]]; [split; constructor|].
  rewrite !oside1_app, !oside2_app, !oside1_frags, !oside2_frags, oside1_conf, oside2_conf, oside1_ofr, oside2_ofr, <- Hb, <- Ha.
  cbn [app]; split; apply subseq_app; auto using first_sides_sub, second_sides_sub.
Qed.
Lemma pass2_sides l items : pass2 l items -> first_sides items = oside1 l /\ second_sides items = oside2 l.
Proof.
  induction 1 as [|g fs r rest Hg Hr Hf HP [IH1 IH2]]; [split; reflexivity|].
  unfold first_sides, second_sides in *; rewrite !flat_map_app, IH1, IH2.
  rewrite !oside1_app, !oside2_app, !oside1_frags, !oside2_frags, oside1_conf, oside2_conf; cbn [app].
  destruct (nonempty (joined (map fst g)) || nonempty (joined (map snd g))) eqn:HN.
  - cbn; rewrite !app_nil_r; destruct (nonempty (ftext fs)); cbn; auto.
  - apply orb_false_iff in HN; destruct HN as [HN1 HN2].
    apply nonempty_false in HN1; apply nonempty_false in HN2; rewrite HN1, HN2.
    destruct (nonempty (ftext fs)); cbn; auto.
Qed.
Lemma finish_sides (items : list (ditem T)) : first_sides (finish items) = first_sides items /\
  second_sides (finish items) = second_sides items.
Proof. now destruct items. Qed.

(** ** Normal form *)
(** [sep st l]: reading [l] in state [st], any two runs of conflicts are
    separated by a non-empty fragment. *)
Inductive rst : Type :=
| SA   (* no conflict since the last non-empty fragment *)
| SB   (* inside a run of conflicts *)
| SC.  (* after a run of conflicts and then only empty fragments *)
Fixpoint sep (st : rst) (l : list (ofrag T)) : Prop :=
  match l with
  | [] => True
  | OConf _ _ :: r => st <> SC /\ sep SB r
  | OFrag f :: r =>
    if nonempty (f_insert f) then sep SA r else sep (match st with SA => SA | _ => SC end) r
  end.
(** the same when every run consists of one conflict with proper sides; the
    flag says that a non-empty fragment is required before the next conflict *)
Fixpoint sep1 (need : bool) (l : list (ofrag T)) : Prop :=
  match l with
  | [] => True
  | OConf (Some a) (Some b) :: r => need = false /\ item_ok (DChange a b) /\ sep1 true r
  | OConf _ _ :: r => False
  | OFrag f :: r => if nonempty (f_insert f) then sep1 false r else sep1 need r
  end.

Lemma sep_conf g : forall st r, sep st (map conf g ++ r) -> sep (match g with [] => st | _ => SB end) r.
Proof.
  induction g as [|x g IH]; intros st r H; [exact H|].
  destruct H as [_ H]; apply IH in H; now destruct g.
Qed.
Lemma sep_frags fs : forall st r, sep st (map OFrag fs ++ r) -> starts_conf r -> fs <> [] \/ st = SA ->
  (st <> SA -> ftext fs <> []) /\ sep SA r.
Proof.
  induction fs as [|f fs IH]; intros st r H [a [b [r' ->]]] Hn.
  - destruct Hn as [Hn|Hn]; [now elim Hn|subst]; split; [congruence|exact H].
  - cbn [map app sep] in H; unfold ftext; cbn [map concat].
    destruct (f_insert f) as [|x i]; cbn [nonempty] in H.
    + destruct fs as [|f' fs].
      * cbn in H; destruct st; [|now elim (proj1 H)|now elim (proj1 H)].
        split; [congruence|cbn; tauto].
      * apply IH in H; [|now exists a, b, r'|left; discriminate].
        destruct H as [H1 H2]; split; [|exact H2]; intros Hs; apply H1; destruct st; congruence.
    + split; [discriminate|].
      destruct fs as [|f' fs]; [exact H|].
      apply IH in H; [tauto|now exists a, b, r'|now right].
Qed.

Lemma sep1_mono l : sep1 true l -> sep1 false l.
Proof.
  induction l as [|[f|[a|] [b|]] l IH]; cbn; auto; [|intros [H _]; discriminate].
  destruct (nonempty (f_insert f)); auto.
Qed.
Lemma sep1_frags fs need r : sep1 false r -> (need = true -> ftext fs <> [] \/ r = []) -> sep1 need (map OFrag fs ++ r).
Proof.
  intros Hr; revert need; induction fs as [|f fs IH]; intros need H; cbn [map app].
  - destruct need; [destruct (H eq_refl) as [C| ->]; [now elim C|exact I]|exact Hr].
  - cbn [sep1]; destruct (f_insert f) as [|x i] eqn:Hi; cbn [nonempty]; apply IH; [|discriminate].
    intros Hn; specialize (H Hn); unfold ftext in *; cbn [map concat] in H; now rewrite Hi in H.
Qed.

(** a re-diffed group followed by fragments *)
Lemma alternating_tl' x (d : list (ditem T)) : alternating (x :: d) -> alternating d.
Proof. intros H k a b Ha Hb; apply (H (S k) a b Ha Hb). Qed.
Lemma sep1_diff d need l : alternating d -> Forall item_ok d ->
  (need = true -> d = [] \/ exists t d', d = DText t :: d') ->
  (forall n, n = need \/ d <> [] -> sep1 n l) -> sep1 need (map ofr d ++ l).
Proof.
  intros Ha Hi; revert need; induction d as [|x d IH]; intros need Hn Hl.
  - apply Hl; now left.
  - inversion Hi as [|? ? Hx Hi']; subst; assert (Ha' := alternating_tl' _ _ Ha).
    destruct x as [t|a b]; cbn [map ofr app sep1 f_insert].
    + destruct t as [|y t]; [now elim Hx|]; cbn [nonempty].
      apply IH; auto; [discriminate|intros n [->|Hd]; apply Hl; right; discriminate].
    + destruct need; [destruct (Hn eq_refl) as [C|[? [? C]]]; discriminate|].
      split; [reflexivity|split; [exact Hx|]].
      apply IH; auto.
      * intros _; destruct d as [|y d]; [now left|right].
        destruct (Ha 0 _ _ eq_refl eq_refl) as [[[? C] _]|[_ [t ->]]]; [discriminate|eauto].
      * intros n _; apply Hl; right; discriminate.
Qed.

Lemma pass1_nil staged : pass1 [] staged -> staged = [].
Proof.
  intros H; remember (@nil (ofrag T)) as l eqn:Hl; destruct H as [|g fs r rest d Hg]; [reflexivity|].
  destruct g, fs; try discriminate; destruct Hg as [Hg|Hg]; now elim Hg.
Qed.
Lemma pass2_nil items : pass2 [] items -> items = [].
Proof.
  intros H; remember (@nil (ofrag T)) as l eqn:Hl; destruct H as [|g fs r rest Hg]; [reflexivity|].
  destruct g, fs; try discriminate; destruct Hg as [Hg|Hg]; now elim Hg.
Qed.

Lemma pass1_sep l staged : pass1 l staged -> sep SA l -> sep1 false staged.
Proof.
  induction 1 as [|g fs r rest d Hg Hr Hf [Ha Hi] Hb Hc HP IH]; intros H; [exact I|].
  apply sep_conf in H.
  assert (HR : sep1 false rest /\ (rest = [] \/ (g <> [] -> ftext fs <> []))).
  { destruct Hr as [->|Hr].
    - apply pass1_nil in HP; subst; split; [exact I|now left].
    - assert (Hfs : fs <> []).
      { intros C; destruct Hr as [? [? [? Hr]]]; rewrite (Hf C) in Hr; discriminate. }
      apply sep_frags in H; auto; destruct H as [H1 H2].
      split; [now apply IH|right]; intros Hg'; apply H1; destruct g; [now elim Hg'|discriminate]. }
  destruct HR as [HR1 HR2].
  apply sep1_diff; auto; [discriminate|].
  intros n Hn; apply sep1_frags; auto; intros ->.
  destruct Hn as [Hn|Hn]; [discriminate|].
  destruct HR2 as [->|HR2]; [now right|left]; apply HR2; intros ->.
  cbn in Hb, Hc; destruct d as [|x d]; [now apply Hn|].
  inversion Hi as [|? ? Hx _]; subst.
  destruct x as [t|a b]; unfold diff_before, diff_after in Hb, Hc; cbn in Hb, Hc, Hx;
    apply app_eq_nil in Hb; apply app_eq_nil in Hc; tauto.
Qed.

(** second pass *)
Lemma sep1_conf g : forall r need, sep1 need (map conf g ++ r) -> (r = [] \/ starts_frag r) ->
  (g = [] /\ sep1 need r) \/
  (exists a b, g = [(Some a, Some b)] /\ need = false /\ item_ok (DChange a b) /\ sep1 true r).
Proof.
  intros r need H Hr; destruct g as [|[[a|] [b|]] g]; cbn in H; try contradiction; [now left|right].
  destruct H as [H1 [H2 H3]]; exists a, b.
  destruct g as [|[[a'|] [b'|]] g]; [auto|cbn in H3; contradiction || (destruct H3; discriminate)..].
Qed.
Lemma sep1_conf_start a b r need : sep1 need (OConf a b :: r) -> need = false.
Proof. destruct a, b; cbn; tauto. Qed.
Lemma sep1_frags_inv fs : forall need r, sep1 need (map OFrag fs ++ r) ->
  sep1 (match ftext fs with [] => need | _ => false end) r.
Proof.
  induction fs as [|f fs IH]; intros need r H; [exact H|].
  unfold ftext; cbn [map app sep1 concat] in *; destruct (f_insert f) as [|x i]; cbn [nonempty] in H.
  - apply IH in H; exact H.
  - apply IH in H; cbn [app]; fold (ftext fs); now destruct (ftext fs).
Qed.

Lemma alternating_cons x (d : list (ditem T)) : alternating d ->
  (forall y d', d = y :: d' -> (is_text x /\ is_change y) \/ (is_change x /\ is_text y)) ->
  alternating (x :: d).
Proof.
  intros Ha H [|k] a b Hx Hy; cbn in Hx, Hy.
  - injection Hx as <-; destruct d as [|y d]; [discriminate|]; injection Hy as <-; now apply (H y d).
  - now apply (Ha k).
Qed.

Lemma pass2_normal l items : pass2 l items -> forall need, sep1 need l ->
  normal_diff items /\ (starts_conf l -> exists a b d, items = DChange a b :: d) /\
  (need = true -> items = [] \/ exists t d, items = DText t :: d).
Proof.
  induction 1 as [|g fs r rest Hg Hr Hf HP IH]; intros need H.
  { split; [split; [intros [|k] ? ? C; discriminate|constructor]|split; [intros [? [? [? C]]]; discriminate|now left]]. }
  assert (Hs : map OFrag fs ++ r = [] \/ starts_frag (map OFrag fs ++ r)).
  { destruct fs as [|f fs]; [left; cbn; auto|right; now exists f, (map OFrag fs ++ r)]. }
  apply sep1_conf in H; [|exact Hs].
  assert (HB : exists need', sep1 need' (map OFrag fs ++ r) /\ (g = [] -> need' = need) /\ (g <> [] -> need' = true)).
  { destruct H as [[-> H]|[a [b [-> [_ [_ H]]]]]]; [exists need|exists true]; split; auto; split; auto; congruence. }
  destruct HB as [need' [HB1 [HB2 HB3]]]; apply sep1_frags_inv in HB1.
  destruct (IH _ HB1) as [[N1 N2] [N3 N4]].
  assert (HR : rest = [] \/ exists a b d, rest = DChange a b :: d).
  { destruct Hr as [->|Hr]; [left; now apply pass2_nil|right; auto]. }
  (* the text and what follows *)
  set (tx := (if nonempty (ftext fs) then [DText (ftext fs)] else []) ++ rest).
  assert (HT : normal_diff tx /\ (tx = [] \/ (exists t d, tx = DText t :: d) \/
                 (need' = false /\ exists a b d, tx = DChange a b :: d))).
  { unfold tx; destruct (ftext fs) as [|x t] eqn:Ht; cbn [nonempty app].
    - split; [split; assumption|].
      destruct HR as [->|HR]; [now left|right; right; split; [|exact HR]].
      destruct need'; [|reflexivity].
      destruct (N4 eq_refl) as [->|[? [? ->]]]; destruct HR as [? [? [? HR]]]; discriminate.
    - split; [|right; left; eauto].
      split; [|constructor; [discriminate|exact N2]].
      apply alternating_cons; [exact N1|]; intros y d' ->.
      destruct HR as [HR|[a [b [d HR]]]]; [discriminate|injection HR as -> ->].
      left; split; [now eexists|now exists a, b]. }
  destruct HT as [[T1 T2] T3]; fold tx.
  destruct H as [[-> H]|[a [b [-> [-> [Hi H]]]]]].
  - specialize (HB2 eq_refl); subst need'; cbn [map nonempty joined concat orb app].
    split; [split; assumption|split].
    + intros [? [? [? C]]]; cbn in C; destruct Hs as [Hs|[? [? Hs]]]; rewrite Hs in C; discriminate.
    + intros ->; destruct T3 as [T3|[T3|[T3 _]]]; [now left|now right|discriminate].
  - specialize (HB3 ltac:(discriminate)); subst need'.
    unfold joined; cbn [map fst snd concat vseq]; rewrite !app_nil_r.
    assert (nonempty a || nonempty b = true) as ->.
    { destruct a, b; auto; exfalso; destruct Hi as [Hi _]; now apply Hi. }
    cbn [app]; split; [|split].
    + split; [|constructor; assumption].
      apply alternating_cons; [exact T1|]; intros y d' Hy.
      destruct T3 as [T3|[[t [d T3]]|[T3 _]]]; [congruence| |discriminate].
      rewrite T3 in Hy; injection Hy as <- _; right; split; [now exists a, b|now exists t].
    + intros _; eauto.
    + discriminate.
Qed.
Lemma finish_normal (items : list (ditem T)) : normal_diff items -> normal_merge (finish items).
Proof. intros H; destruct items; [now left|right; split; [discriminate|exact H]]. Qed.
End Consolidate.
