(** Swapping the branches of a merge, colliding edits included. *)
From Verif Require Import Base Strings SpecSeq AutomatonProofs Changesets SpecDiff ChangesetsProofs DiffLaws DiffProofs Merge SpecMerge SpecEdits SpecThreeWay MergeStreams MergeSteps MergeUnion MergeConsolidate MergeProofs MergeLaws MergeThreeWay.

Section Swap.
Context {T : Type} {E : Teq T} {O : TeqOk T}.

Definition oswap (x : ofrag T) : ofrag T :=
  match x with OFrag f => OFrag f | OConf a b => OConf b a end.

Section Loop.
Variable p : list T.

Lemma reach_cut pos (es0 es1 es0' es1' : list (edit T)) : reach_free es0 es1 ->
  cut pos es0 es0' -> cut pos es1 es1' -> above pos es0' -> above pos es1' -> reach_free es0' es1'.
Proof.
  intros H1 C0 C1 A0 A1 e0' e1' I0 I1 L1 L2.
  specialize (A0 _ I0); specialize (A1 _ I1).
  destruct (C0 _ I0) as [e0 [J0 [E0 P0]]]; destruct (C1 _ I1) as [e1 [J1 [E1 P1]]].
  apply (H1 e0 e1); auto; unfold e_end in *; lia.
Qed.

Lemma mstep_cut pos fs0 fs1 w o pos' fs0' fs1' w' : mstep p pos fs0 fs1 w o pos' fs0' fs1' w' ->
  cut pos' (fedits pos fs0) (fedits pos' fs0') /\ cut pos' (fedits pos fs1) (fedits pos' fs1').
Proof.
  destruct 1; subst; split;
    try (apply cut_ctail; lia); try (apply cut_gtail; lia); try apply cut_drop; try apply cut_cdrop; try apply cut_swap;
    apply cut_incl; cbn [fedits gfrag]; intros e He; right; rewrite Nat.add_0_r; exact He.
Qed.

Lemma common_prefix_sym (a b : list T) : common_prefix_length a b = common_prefix_length b a.
Proof.
  revert b; induction a as [|x a IH]; intros [|y b]; try reflexivity; cbn.
  destruct (teq_spec x y) as [Q|N], (teq_spec y x) as [Q'|N']; auto; congruence.
Qed.

Definition over (f0 f1 : frag T) : Prop :=
  match f0, f1 with
  | FCopy _ n0, FChange _ _ n1 => n0 < n1
  | FChange _ _ n0, FCopy _ n1 => n1 < n0
  | _, _ => False
  end.

Lemma process_swap c0 g0 c1 g1 pos f0 r0 f1 r1 w o t0 t1 w' :
  stream p c0 g0 pos (f0 :: r0) -> stream p c1 g1 pos (f1 :: r1) -> (w = false -> ~ over f0 f1) ->
  process_fragments f0 f1 w = (o, t0, t1, w') ->
  process_fragments f1 f0 w = (option_map oswap o, t1, t0, w').
Proof.
  intros S0 S1 HO HP.
  inversion S0 as [|? ? n0 ? Hn0 Hl0 Hs0|? ? i0 n0 ? Hl0 Hn0 Hs0]; subst;
  inversion S1 as [|? ? n1 ? Hn1 Hl1 Hs1|? ? i1 n1 ? Hl1 Hn1 Hs1]; subst; cbn [process_fragments over] in *.
  - revert HP; unfold copy_copy; destruct (Nat.ltb_spec n0 n1), (Nat.ltb_spec n1 n0); try lia.
    + intros HP; injection HP as <- <- <- <-.
      destruct (Nat.eqb_spec n0 n1); [lia|]; reflexivity.
    + intros HP; injection HP as <- <- <- <-.
      destruct (Nat.eqb_spec n1 n0); [lia|]; reflexivity.
    + assert (n0 = n1) as <- by lia; rewrite Nat.eqb_refl; intros HP; injection HP as <- <- <- <-; reflexivity.
  - destruct w.
    + revert HP; unfold pending_conflict; rewrite (Nat.min_comm (f_length (FChange _ _ _))).
      do 2 destruct (split_fragment _ _) as [? ?]; intros HP; injection HP as <- <- <- <-; reflexivity.
    + specialize (HO eq_refl); revert HP; unfold copy_change; rewrite Nat.min_r by lia; rewrite Nat.eqb_refl.
      intros HP; injection HP as <- <- <- <-; reflexivity.
  - destruct w.
    + revert HP; unfold pending_conflict; rewrite (Nat.min_comm (f_length (FCopy _ _))).
      do 2 destruct (split_fragment _ _) as [? ?]; intros HP; injection HP as <- <- <- <-; reflexivity.
    + specialize (HO eq_refl); revert HP; unfold copy_change; rewrite Nat.min_r by lia; rewrite Nat.eqb_refl.
      intros HP; injection HP as <- <- <- <-; reflexivity.
  - destruct w.
    + revert HP; unfold pending_conflict; cbn [f_length]; rewrite (Nat.min_comm n1).
      do 2 destruct (split_fragment _ _) as [? ?]; intros HP; injection HP as <- <- <- <-; reflexivity.
    + clear HO; revert HP; unfold change_change, has_composable_changes, compose_changes.
      assert (LN : forall l : list T, (length l =? 0) = true <-> l = []).
      { intros [|? ?]; cbn; split; congruence. }
      destruct ((n0 =? 0) && (length i1 =? 0)) eqn:C0.
      { apply andb_true_iff in C0; destruct C0 as [C1 C2]; apply LN in C2; apply Nat.eqb_eq in C1; subst.
        assert ((n1 =? 0) && (length i0 =? 0) = false) as ->.
        { destruct Hn1 as [Hn1|[]]; [|reflexivity]; destruct n1; [lia|reflexivity]. }
        cbn [orb length]; rewrite ?Nat.eqb_refl; cbn [andb].
        intros HP; injection HP as <- <- <- <-; reflexivity. }
      rewrite (andb_comm (length i1 =? 0)), C0.
      destruct ((length i0 =? 0) && (n1 =? 0)) eqn:C1.
      { rewrite (andb_comm (n1 =? 0)), C1; cbn [orb].
        intros HP; injection HP as <- <- <- <-; reflexivity. }
      rewrite (andb_comm (n1 =? 0)), C1; cbn [orb].
      rewrite (common_prefix_sym i1), (common_prefix_sym (seg p pos (pos + n1))).
      assert (are_identical_changes i1 n1 i0 n0 (common_prefix_length i0 i1)
                (common_prefix_length (seg p pos (pos + n0)) (seg p pos (pos + n1))) =
              are_identical_changes i0 n0 i1 n1 (common_prefix_length i0 i1)
                (common_prefix_length (seg p pos (pos + n0)) (seg p pos (pos + n1)))) as ->.
      { unfold are_identical_changes; rewrite (Nat.eqb_sym (length i1)), (Nat.eqb_sym n1 n0).
        destruct (Nat.eqb_spec (length i0) (length i1)) as [->|]; [|reflexivity].
        destruct (Nat.eqb_spec n0 n1) as [->|]; [reflexivity|]; cbn; now rewrite !andb_false_r. }
      destruct (are_identical_changes _ _ _ _ _ _) eqn:HI.
      * unfold are_identical_changes in HI; rewrite !andb_true_iff, !Nat.eqb_eq in HI; destruct HI as [[[I1 I2] I3] I4].
        assert (i0 = i1) as <- by (apply common_prefix_eq; congruence); subst n1.
        intros HP; injection HP as <- <- <- <-; reflexivity.
      * unfold ordinary_conflict; rewrite (Nat.min_comm n1).
        destruct (split_change_fragment i0 _ _ _ _) as [h0 u0], (split_change_fragment i1 _ _ _ _) as [h1 u1].
        intros HP; injection HP as <- <- <- <-; destruct h0, h1; reflexivity.
Qed.

Lemma no_over c0 g0 c1 g1 pos f0 r0 f1 r1 :
  stream p c0 g0 pos (f0 :: r0) -> stream p c1 g1 pos (f1 :: r1) ->
  reach_free (fedits pos (f0 :: r0)) (fedits pos (f1 :: r1)) ->
  reach_free (fedits pos (f1 :: r1)) (fedits pos (f0 :: r0)) -> ~ over f0 f1.
Proof.
  intros S0 S1 H0 H1.
  inversion S0 as [|? ? n0 ? Hn0 Hl0 Hs0|? ? i0 n0 ? Hl0 Hn0 Hs0]; subst;
  inversion S1 as [|? ? n1 ? Hn1 Hl1 Hs1|? ? i1 n1 ? Hl1 Hn1 Hs1]; subst; cbn [over]; auto; intros L.
  - destruct (stream_must_change _ _ _ Hs0) as [i [n [r ->]]]; [lia|].
    apply (H0 (pos + n0, i, n) (pos, i1, n1)); cbn [fedits cfrag gfrag In]; auto;
      unfold e_end, e_pos, e_len; cbn [fst snd]; lia.
  - destruct (stream_must_change _ _ _ Hs1) as [i [n [r ->]]]; [lia|].
    apply (H1 (pos + n1, i, n) (pos, i0, n0)); cbn [fedits cfrag gfrag In]; auto;
      unfold e_end, e_pos, e_len; cbn [fst snd]; lia.
Qed.

Lemma flush_swap pos fs0 fs1 w : stream p true true pos fs0 -> stream p true true pos fs1 -> fs0 = [] \/ fs1 = [] ->
  flush_remaining fs1 fs0 w = map oswap (flush_remaining fs0 fs1 w).
Proof.
  intros _ _ [-> | ->].
  - destruct fs1 as [|f fs]; [reflexivity|]; unfold flush_remaining; rewrite map_map; apply map_ext; now destruct w.
  - destruct fs0 as [|f fs]; [reflexivity|]; unfold flush_remaining; rewrite map_map; apply map_ext; now destruct w.
Qed.

Lemma olist_swap (o : option (ofrag T)) : olist (option_map oswap o) = map oswap (olist o).
Proof. now destruct o. Qed.

Theorem loop_swap fuel : forall pos fs0 fs1 w out, stream p true true pos fs0 -> stream p true true pos fs1 ->
  reach_free (fedits pos fs0) (fedits pos fs1) -> reach_free (fedits pos fs1) (fedits pos fs0) ->
  merge_loop fuel fs0 fs1 w = Some out -> merge_loop fuel fs1 fs0 w = Some (map oswap out).
Proof.
  induction fuel as [|fuel IH]; intros pos fs0 fs1 w out S0 S1 H0 H1 H.
  - destruct fs0 as [|f0 r0], fs1 as [|f1 r1]; cbn [merge_loop] in *; try discriminate;
      injection H as <-; rewrite (flush_swap pos); auto.
  - destruct fs0 as [|f0 r0], fs1 as [|f1 r1].
    1-3: cbn [merge_loop] in *; injection H as <-; rewrite (flush_swap pos); auto.
    cbn [merge_loop] in *.
    destruct (process_fragments f0 f1 w) as [[[o t0] t1] w'] eqn:HP.
    rewrite (process_swap _ _ _ _ _ _ _ _ _ _ _ _ _ _ S0 S1 (fun _ => no_over _ _ _ _ _ _ _ _ _ S0 S1 H0 H1) HP).
    destruct (step_mstep _ _ _ _ _ _ _ _ _ _ _ _ _ _ _ S0 S1 HP) as [pos' HM].
    destruct (mstep_streams _ _ _ _ _ _ _ _ _ _ HM) as [S0' S1'].
    assert (A0 := stream_above _ _ _ _ _ S0'); assert (A1 := stream_above _ _ _ _ _ S1').
    destruct (mstep_cut _ _ _ _ _ _ _ _ _ HM) as [C0 C1].
    destruct (merge_loop fuel (olist t0 ++ r0) (olist t1 ++ r1) w') as [rest|] eqn:HL; [|discriminate].
    injection H as <-.
    rewrite (IH pos' _ _ w' rest S0' S1'); auto.
    + now rewrite olist_swap, map_app.
    + now apply (reach_cut pos' (fedits pos (f0 :: r0)) (fedits pos (f1 :: r1))).
    + now apply (reach_cut pos' (fedits pos (f1 :: r1)) (fedits pos (f0 :: r0))).
Qed.
End Loop.

(** ** Consolidation *)
Definition oafter (l : list (ofrag T)) : list T :=
  flat_map (fun x => match x with OFrag f => f_insert f | OConf a _ => vseq a end) l.
Definition obefore (l : list (ofrag T)) : list T :=
  flat_map (fun x => match x with OFrag f => f_insert f | OConf _ b => vseq b end) l.

Lemma oafter_swap l : oafter (map oswap l) = obefore l.
Proof. unfold oafter, obefore; rewrite flat_map_map, !flat_map_concat_map; f_equal; apply map_ext; now intros []. Qed.
Lemma obefore_swap l : obefore (map oswap l) = oafter l.
Proof. unfold oafter, obefore; rewrite flat_map_map, !flat_map_concat_map; f_equal; apply map_ext; now intros []. Qed.
Lemma oafter_conf g : oafter (map conf g) = joined (map fst g).
Proof. unfold oafter, joined; now rewrite flat_map_map, flat_map_concat_map, map_map. Qed.
Lemma obefore_conf g : obefore (map conf g) = joined (map snd g).
Proof. unfold obefore, joined; now rewrite flat_map_map, flat_map_concat_map, map_map. Qed.
Lemma oafter_frags fs : oafter (map OFrag fs) = ftext fs.
Proof. unfold oafter, ftext; now rewrite flat_map_map, flat_map_concat_map. Qed.
Lemma obefore_frags fs : obefore (map OFrag fs) = ftext fs.
Proof. unfold obefore, ftext; now rewrite flat_map_map, flat_map_concat_map. Qed.
Lemma oafter_ofr d : oafter (map ofr d) = diff_after d.
Proof. unfold oafter, diff_after; rewrite flat_map_map, !flat_map_concat_map; f_equal; apply map_ext; now intros []. Qed.
Lemma obefore_ofr d : obefore (map ofr d) = diff_before d.
Proof. unfold obefore, diff_before; rewrite flat_map_map, !flat_map_concat_map; f_equal; apply map_ext; now intros []. Qed.
Lemma oafter_app a b : oafter (a ++ b) = oafter a ++ oafter b.
Proof. apply flat_map_app. Qed.
Lemma obefore_app a b : obefore (a ++ b) = obefore a ++ obefore b.
Proof. apply flat_map_app. Qed.

Lemma pass1_read l staged : pass1 l staged -> oafter staged = oafter l /\ obefore staged = obefore l.
Proof.
  induction 1 as [|g fs r rest d Hg Hr Hf Hn Hb Ha HP [IH1 IH2]]; [auto|].
  rewrite !oafter_app, !obefore_app, oafter_conf, obefore_conf, oafter_ofr, obefore_ofr, IH1, IH2, Ha, Hb; auto.
Qed.
Lemma pass2_read l items : pass2 l items -> diff_after items = oafter l /\ diff_before items = obefore l.
Proof.
  induction 1 as [|g fs r rest Hg Hr Hf HP [IH1 IH2]]; [auto|].
  rewrite !oafter_app, !obefore_app, oafter_conf, obefore_conf, oafter_frags, obefore_frags, <- IH1, <- IH2.
  unfold diff_after, diff_before; rewrite !flat_map_app, !app_assoc.
  change (ftext fs) with (frs fs); split; f_equal.
  - destruct (joined (map fst g)), (joined (map snd g)), (frs fs); cbn; now rewrite ?app_nil_r.
  - destruct (joined (map fst g)), (joined (map snd g)), (frs fs); cbn; now rewrite ?app_nil_r.
Qed.
Lemma finish_read (items : list (ditem T)) :
  diff_after (finish items) = diff_after items /\ diff_before (finish items) = diff_before items.
Proof. now destruct items. Qed.

(** which lists consolidation rejects for bytes *)
Lemma existsb_literal (vs : list (version T)) : existsb is_literal vs = false <-> (forall v, In v vs -> v <> None).
Proof.
  split.
  - intros H v Hv ->; assert (C : existsb is_literal vs = true) by (apply existsb_exists; exists None; auto); congruence.
  - intros H; destruct (existsb is_literal vs) eqn:Q; [|reflexivity].
    apply existsb_exists in Q; destruct Q as [[v|] [Hv Q]]; [discriminate|now elim (H _ Hv)].
Qed.
Lemma join_bytes (vs : list (version T)) x : join KBytes vs = Ok x -> forall v, In v vs -> v <> None.
Proof. unfold join; destruct (existsb is_literal vs) eqn:Q; [discriminate|]; intros _; now apply existsb_literal. Qed.

Lemma no_literal_group g fs (r : list (ofrag T)) : no_literal (map conf g ++ map OFrag fs ++ r) <->
  (forall v, In v (map fst g) -> v <> None) /\ (forall v, In v (map snd g) -> v <> None) /\ no_literal r.
Proof.
  unfold no_literal; split.
  - intros H; split; [|split].
    + intros v Hv; apply in_map_iff in Hv; destruct Hv as [[a b] [<- Hg]].
      apply (H (conf (a, b))), in_app_iff; left; now apply in_map.
    + intros v Hv; apply in_map_iff in Hv; destruct Hv as [[a b] [<- Hg]].
      apply (H (conf (a, b))), in_app_iff; left; now apply in_map.
    + intros x Hx; apply H; rewrite !in_app_iff; auto.
  - intros [H1 [H2 H3]] x Hx; rewrite !in_app_iff in Hx; destruct Hx as [Hx|[Hx|Hx]]; [| |now apply H3].
    + apply in_map_iff in Hx; destruct Hx as [[a b] [<- Hg]]; cbn; split; [apply H1|apply H2]; apply in_map_iff; exists (a, b); auto.
    + apply in_map_iff in Hx; destruct Hx as [f [<- _]]; exact I.
Qed.

(** the groups of conflicts whose two versions are the same text *)
Inductive agree : list (ofrag T) -> Prop :=
| A_nil : agree []
| A_cons g fs r : (g <> [] \/ fs <> []) -> (r = [] \/ starts_conf r) -> (fs = [] -> r = []) ->
    joined (map fst g) = joined (map snd g) -> agree r -> agree (map conf g ++ map OFrag fs ++ r).

Definition plain (l : list (ofrag T)) : Prop := forall a b, ~ In (OConf a b) l.
Lemma plain_app a b : plain (a ++ b) <-> plain a /\ plain b.
Proof.
  unfold plain; split.
  - intros H; split; intros x y Hx; apply (H x y), in_app_iff; auto.
  - intros [H1 H2] x y Hx; apply in_app_iff in Hx; destruct Hx; [eapply H1|eapply H2]; eauto.
Qed.
Lemma plain_frags (fs : list (frag T)) : plain (map OFrag fs).
Proof. intros a b Hx; apply in_map_iff in Hx; destruct Hx as [f [C _]]; discriminate. Qed.
Lemma plain_ofr (d : list (ditem T)) : plain (map ofr d) <-> no_conflict d.
Proof.
  unfold plain, no_conflict; split; intros H a b Hx.
  - apply (H (Some a) (Some b)), in_map_iff; exists (DChange a b); auto.
  - apply in_map_iff in Hx; destruct Hx as [[t|x y] [C Hx]]; [discriminate|]; now apply (H x y).
Qed.

Lemma take_conflicts_group g fs (r : list (ofrag T)) : (fs = [] -> r = []) ->
  take_conflicts (map conf g ++ map OFrag fs ++ r) = (g, map OFrag fs ++ r).
Proof.
  intros Hf; induction g as [|[a b] g IH]; cbn.
  - destruct fs; [now rewrite Hf|reflexivity].
  - now rewrite IH.
Qed.
Lemma take_frags_group (fs : list (frag T)) (r : list (ofrag T)) : r = [] \/ starts_conf r -> take_frags (map OFrag fs ++ r) = (fs, r).
Proof.
  intros Hr; induction fs as [|f fs IH]; cbn; [|now rewrite IH].
  destruct Hr as [->|[a [b [r' ->]]]]; reflexivity.
Qed.
Lemma same_diff (v : list T) c : find_changeset v v = Ok c -> no_conflict (as_diff_stream v c).
Proof.
  intros H; assert (D := diff_self v); unfold diff_token_sequences in D; rewrite H in D; cbn [bind] in D.
  injection D as ->; intros a b Hx; destruct v; [exact Hx|]; destruct Hx as [C|[]]; discriminate.
Qed.
Lemma no_conflict_read (r : list (ditem T)) : no_conflict r -> diff_after r = diff_before r.
Proof.
  unfold no_conflict, diff_after, diff_before; induction r as [|[t|a b] r IH]; cbn; intros H; auto.
  - f_equal; apply IH; intros a b Hx; apply (H a b); auto.
  - elim (H a b); auto.
Qed.

(** what the first pass does, in full *)
Lemma conflicts_ok k fuel : forall l : list (ofrag T), length l <= fuel ->
  (k = KBytes -> no_literal l) -> exists staged, consolidate_conflicts fuel k l = Ok staged /\ (plain staged <-> agree l).
Proof.
  induction fuel as [|fuel IH]; intros l Hl NL.
  - destruct l; [|cbn in Hl; lia]; exists []; split; [reflexivity|]; split; [intros _; constructor|intros _ a b []].
  - destruct l as [|x l0] eqn:Hx.
    { exists []; split; [reflexivity|]; split; [intros _; constructor|intros _ a b []]. }
    rewrite <- Hx in *; assert (Hne : l <> []) by (subst; discriminate); clear Hx.
    destruct (take_conflicts l) as [g r1] eqn:H1; destruct (take_frags r1) as [fs r2] eqn:H2.
    assert (U := consolidate_conflicts_S fuel k l g r1 fs r2 Hne H1 H2).
    assert (G1 := H1); assert (G2 := H2).
    apply take_conflicts_spec in H1; apply take_frags_spec in H2.
    destruct H1 as [H1 N1]; destruct H2 as [H2 N2]; subst r1.
    assert (N3 := frags_nil _ _ N1 N2).
    destruct (find_changeset_ok (joined (map snd g)) (joined (map fst g))) as [c [Hc G]].
    destruct (good_diff _ _ _ _ _ _ _ G) as [D1 D2]; try lia; rewrite seg_all in D1, D2.
    assert (Hr : length r2 <= fuel) by (eapply group_progress; eauto).
    assert (J : (k = KBytes -> no_literal r2) /\ join k (map fst g) = Ok (joined (map fst g)) /\
                join k (map snd g) = Ok (joined (map snd g))).
    { split; [|split].
      - intros Hk; specialize (NL Hk); rewrite H1 in NL; now apply no_literal_group in NL.
      - destruct (join_cases k (map fst g)) as [H|[H _]]; [exact H|].
        specialize (NL H); rewrite H1 in NL; apply no_literal_group in NL; now apply join_no_literal.
      - destruct (join_cases k (map snd g)) as [H|[H _]]; [exact H|].
        specialize (NL H); rewrite H1 in NL; apply no_literal_group in NL; now apply join_no_literal. }
    destruct J as [NL' [J1 J2]]; rewrite U, J1; cbn [bind]; rewrite J2; cbn [bind]; rewrite Hc; cbn [bind].
    destruct (IH _ Hr NL') as [rest [-> HA]]; cbn [bind].
    eexists; split; [reflexivity|].
    rewrite !plain_app, plain_ofr, HA; split.
    + intros [P1 [_ P2]]; rewrite H1; apply A_cons; auto.
      * now apply (group_nonempty g fs l r2).
      * apply no_conflict_read in P1; congruence.
    + intros HG; split; [|split; [apply plain_frags|]].
      * inversion HG as [Q|g' fs' r' Hg Hr' Hf Hj Ha Q]; [now elim Hne|].
        rewrite <- Q, take_conflicts_group in G1 by exact Hf; injection G1 as -> _.
        rewrite Hj in Hc; now apply same_diff.
      * inversion HG as [Q|g' fs' r' Hg Hr' Hf Hj Ha Q]; [now elim Hne|].
        rewrite <- Q, take_conflicts_group in G1 by exact Hf; injection G1 as -> Q2.
        rewrite <- Q2 in G2; rewrite take_frags_group in G2 by exact Hr'; injection G2 as -> ->; exact Ha.
Qed.
Lemma conflicts_bytes fuel : forall (l staged : list (ofrag T)), length l <= fuel ->
  consolidate_conflicts fuel KBytes l = Ok staged -> no_literal l.
Proof.
  induction fuel as [|fuel IH]; intros l staged Hl HC.
  - destruct l; [|cbn in Hl; lia]; intros x [].
  - destruct l as [|x l0] eqn:Hx; [intros x []|].
    rewrite <- Hx in *; assert (Hne : l <> []) by (subst; discriminate); clear Hx.
    destruct (take_conflicts l) as [g r1] eqn:H1; destruct (take_frags r1) as [fs r2] eqn:H2.
    rewrite (consolidate_conflicts_S fuel KBytes l g r1 fs r2 Hne H1 H2) in HC.
    apply take_conflicts_spec in H1; apply take_frags_spec in H2.
    destruct H1 as [H1 N1]; destruct H2 as [H2 N2]; subst r1.
    assert (N3 := frags_nil _ _ N1 N2).
    assert (Hr : length r2 <= fuel) by (eapply group_progress; eauto).
    destruct (join KBytes (map fst g)) eqn:J1; [|discriminate]; cbn [bind] in HC.
    destruct (join KBytes (map snd g)) eqn:J2; [|discriminate]; cbn [bind] in HC.
    destruct (find_changeset _ _); [|discriminate]; cbn [bind] in HC.
    destruct (consolidate_conflicts fuel KBytes r2) as [rest|] eqn:HR; [|discriminate].
    rewrite H1; apply no_literal_group; split; [now apply (join_bytes _ _ J1)|split; [now apply (join_bytes _ _ J2)|]].
    now apply (IH _ _ Hr HR).
Qed.

Lemma conf_swap (g : list (version T * version T)) : map oswap (map conf g) = map conf (map (fun x : version T * version T => (snd x, fst x)) g).
Proof. rewrite !map_map; reflexivity. Qed.
Lemma frags_swap (fs : list (frag T)) : map oswap (map OFrag fs) = map OFrag fs.
Proof. rewrite map_map; reflexivity. Qed.
Lemma agree_swap l : agree l -> agree (map oswap l).
Proof.
  induction 1 as [|g fs r Hg Hr Hf Hj Ha IH]; [constructor|].
  rewrite !map_app, conf_swap, frags_swap; apply A_cons; auto.
  - destruct Hg as [Hg|Hg]; [left|now right]; destruct g; [now elim Hg|discriminate].
  - destruct Hr as [->|[a [b [r' ->]]]]; [now left|right; exists b, a, (map oswap r'); reflexivity].
  - intros Q; now rewrite Hf.
  - rewrite !map_map; cbn [fst snd]; now symmetry.
Qed.
Lemma swap_swap l : map oswap (map oswap l) = l.
Proof. rewrite map_map; rewrite <- (map_id l) at 2; apply map_ext; now intros []. Qed.
Lemma no_literal_swap (l : list (ofrag T)) : no_literal l -> no_literal (map oswap l).
Proof.
  intros H x Hx; apply in_map_iff in Hx; destruct Hx as [[f|a b] [<- Hx]]; cbn; [exact I|].
  specialize (H _ Hx); cbn in H; tauto.
Qed.

(** staged conflicts are not empty *)
Definition filled (l : list (ofrag T)) : Prop := forall a b, In (OConf a b) l -> vseq a <> [] \/ vseq b <> [].
Lemma pass1_filled l staged : pass1 l staged -> filled staged.
Proof.
  induction 1 as [|g fs r rest d Hg Hr Hf Hn Hb Ha HP IH]; intros a b Hx; [contradiction|].
  rewrite !in_app_iff in Hx; destruct Hx as [Hx|[Hx|Hx]]; [| |now apply IH].
  - apply in_map_iff in Hx; destruct Hx as [[t|x y] [C Hx]]; [discriminate|]; injection C as <- <-.
    destruct Hn as [_ Hn]; rewrite Forall_forall in Hn; specialize (Hn _ Hx); cbn in *.
    destruct x; [right|left; discriminate]; destruct y; [|discriminate]; destruct Hn as [[] _]; auto.
  - apply in_map_iff in Hx; destruct Hx as [f [C _]]; discriminate.
Qed.
Lemma joined_nil (vs : list (version T)) : joined vs = [] -> forall v, In v vs -> vseq v = [].
Proof.
  unfold joined; induction vs as [|v vs IH]; cbn; intros H x Hx; [contradiction|].
  apply app_eq_nil in H; destruct H as [H1 H2], Hx as [<-|Hx]; auto.
Qed.
Lemma pass2_plain l items : pass2 l items -> filled l -> (no_conflict items <-> plain l).
Proof.
  induction 1 as [|g fs r rest Hg Hr Hf HP IH]; intros HF; [split; intros _ a b []|].
  assert (HF' : filled r) by (intros a b Hx; apply HF; rewrite !in_app_iff; auto).
  specialize (IH HF'); rewrite !plain_app, <- IH; clear IH; split.
  - intros H; split; [|split; [apply plain_frags|]].
    + destruct g as [|[a b] g]; [intros ? ? []|exfalso].
      assert (Q : vseq a <> [] \/ vseq b <> []) by (apply HF; cbn; auto).
      apply (H (joined (map fst ((a, b) :: g))) (joined (map snd ((a, b) :: g)))), in_app_iff; left.
      unfold joined; cbn [map fst snd concat].
      destruct (vseq a), (vseq b); cbn; rewrite ?orb_true_r; cbn; auto.
      destruct Q as [[]|[]]; reflexivity.
    + intros a b Hx; apply (H a b); rewrite !in_app_iff; auto.
  - intros [H1 [_ H2]] a b Hx; rewrite !in_app_iff in Hx; destruct Hx as [Hx|[Hx|Hx]]; [| |now apply (H2 a b)].
    + destruct g as [|[x y] g]; [exact Hx|]; now apply (H1 x y); left.
    + destruct (nonempty _); [|exact Hx]; destruct Hx as [C|[]]; discriminate.
Qed.
Lemma finish_plain (items : list (ditem T)) : no_conflict (finish items) <-> no_conflict items.
Proof.
  destruct items; cbn; [|tauto]; split; intros _ a b; [intros []|intros [C|[]]; discriminate].
Qed.

Theorem consolidate_swap k l r : consolidate k l = Ok r ->
  exists r', consolidate k (map oswap l) = Ok r' /\ diff_after r' = diff_before r /\ diff_before r' = diff_after r /\
    (no_conflict r <-> no_conflict r').
Proof.
  intros H.
  assert (NL : k = KBytes -> no_literal l).
  { intros ->; unfold consolidate in H.
    destruct (consolidate_conflicts (length l) KBytes l) as [staged|] eqn:Q; [|discriminate].
    now apply (conflicts_bytes (length l) l staged). }
  assert (NL' : k = KBytes -> no_literal (map oswap l)) by (intros Hk; apply no_literal_swap; auto).
  assert (X : forall l r, (k = KBytes -> no_literal l) -> consolidate k l = Ok r ->
    diff_after r = oafter l /\ diff_before r = obefore l /\ (no_conflict r <-> agree l)).
  { clear - O; intros l r NL H.
    destruct (conflicts_ok k (length l) l (Nat.le_refl _) NL) as [staged [HS HA]].
    unfold consolidate in H; rewrite HS in H; cbn [bind] in H.
    destruct (consolidate_conflicts_ok k (length l) l (Nat.le_refl _)) as [[staged' [HS' [HP _]]]|[_ C]]; [|congruence].
    assert (staged' = staged) as -> by congruence.
    destruct (consolidate_items_ok k (length staged) staged (Nat.le_refl _) (pass1_no_literal _ _ HP)) as [items [HI [HP2 _]]].
    unfold consolidate_all in H; rewrite HI in H; cbn [bind] in H.
    change (Ok (finish items) = Ok r) in H; injection H as <-.
    destruct (finish_read items) as [-> ->], (pass1_read _ _ HP) as [<- <-], (pass2_read _ _ HP2) as [-> ->].
    split; [reflexivity|split; [reflexivity|]].
    rewrite finish_plain, (pass2_plain _ _ HP2 (pass1_filled _ _ HP)); exact HA. }
  assert (Y : exists r', consolidate k (map oswap l) = Ok r').
  { destruct (conflicts_ok k (length (map oswap l)) (map oswap l) (Nat.le_refl _) NL') as [staged [HS _]].
    destruct (consolidate_ok k (map oswap l)) as [(st & items & _ & _ & HE & _)|[_ C]]; [eauto|].
    exfalso; unfold consolidate in C; rewrite HS in C; cbn [bind] in C.
    destruct (consolidate_conflicts_ok k (length (map oswap l)) (map oswap l) (Nat.le_refl _)) as [[staged' [HS' [HP _]]]|[_ C']]; [|congruence].
    assert (staged' = staged) as -> by congruence.
    destruct (consolidate_items_ok k (length staged) staged (Nat.le_refl _) (pass1_no_literal _ _ HP)) as [items [HI _]].
    unfold consolidate_all in C; rewrite HI in C; discriminate. }
  destruct Y as [r' Hr']; exists r'; split; [exact Hr'|].
  destruct (X _ _ NL H) as [A1 [A2 A3]], (X _ _ NL' Hr') as [B1 [B2 B3]].
  rewrite A1, A2, B1, B2, oafter_swap, obefore_swap; split; [reflexivity|split; [reflexivity|]].
  rewrite A3, B3; split; [apply agree_swap|]; intros Q; apply agree_swap in Q; now rewrite swap_swap in Q.
Qed.

(** ** Merging *)
Theorem merge_swap k (p b0 b1 : list T) d0 d1 r :
  diff_token_sequences p b0 = Ok d0 -> diff_token_sequences p b1 = Ok d1 ->
  reach_free (edits 0 d0) (edits 0 d1) -> reach_free (edits 0 d1) (edits 0 d0) ->
  merge_token_sequence k p b0 b1 = Ok r ->
  exists r', merge_token_sequence k p b1 b0 = Ok r' /\ diff_after r' = diff_before r /\ diff_before r' = diff_after r /\
    (no_conflict r <-> no_conflict r').
Proof.
  intros D0 D1 R0 R1 H.
  destruct (changeset_stream p b0) as [c0 [d0' [H0 [D0' [E0 [S0 A0]]]]]].
  destruct (changeset_stream p b1) as [c1 [d1' [H1 [D1' [E1 [S1 A1]]]]]].
  assert (d0' = d0) as -> by congruence; assert (d1' = d1) as -> by congruence.
  destruct (merge_mrun p _ _ S0 S1) as [out [HM HR]].
  unfold merge_token_sequence in *; rewrite H0, H1 in *; cbn [bind] in *; rewrite ?H0, ?H1 in *; cbn [bind] in *.
  rewrite E0, E1, HM in *.
  assert (HM' : _merge (map frag_of d1) (map frag_of d0) = Some (map oswap out)).
  { unfold _merge in *; rewrite Nat.add_comm; apply (loop_swap p _ 0); auto; now rewrite !fedits_frag_of. }
  rewrite HM'; now apply consolidate_swap.
Qed.

(** ** When the sides of the conflicts have nothing in common *)
Lemma disjoint_diff (d : list (ditem T)) : normal_diff d -> disjoint (diff_after d) (diff_before d) ->
  d = if nonempty (diff_after d) || nonempty (diff_before d) then [DChange (diff_after d) (diff_before d)] else [].
Proof.
  intros [HA HI] HD.
  assert (NT : forall t, ~ In (DText t) d).
  { intros t Ht; rewrite Forall_forall in HI; specialize (HI _ Ht); destruct t as [|x t]; [now elim HI|].
    apply (HD x); apply in_flat_map; exists (DText (x :: t)); cbn; auto. }
  destruct d as [|[t|a b] d]; [reflexivity|elim (NT t); now left|].
  destruct d as [|[t|a' b'] d]; [|elim (NT t); right; now left|].
  - assert (Q := Forall_inv HI); cbn in Q; unfold diff_after, diff_before; cbn; rewrite !app_nil_r.
    destruct a, b; try reflexivity; now destruct Q as [[] _].
  - destruct (HA 0 (DChange a b) (DChange a' b') eq_refl eq_refl) as [[[? C] _]|[_ [? C]]]; discriminate.
Qed.
Definition apart (l : list (ofrag T)) : Prop :=
  forall a b a' b', In (OConf a b) l -> In (OConf a' b') l -> disjoint (vseq a) (vseq b').
Lemma apart_joined g l : (forall x, In x (map conf g) -> In x l) -> apart l ->
  disjoint (joined (map fst g)) (joined (map snd g)).
Proof.
  intros Hg HA x H1 H2; unfold joined in *; apply in_concat in H1, H2.
  destruct H1 as [s1 [H1 X1]], H2 as [s2 [H2 X2]]; rewrite map_map in H1, H2.
  apply in_map_iff in H1, H2; destruct H1 as [[a b] [<- H1]], H2 as [[a' b'] [<- H2]]; cbn [fst snd] in *.
  apply (HA a b a' b') with x; auto; apply Hg, in_map_iff; [exists (a, b)|exists (a', b')]; auto.
Qed.
Lemma disjoint_sym (a b : list T) : disjoint a b -> disjoint b a.
Proof. intros H x Ha Hb; now apply (H x). Qed.
Lemma ofr_swap (a b : list T) : map oswap (map ofr (if nonempty a || nonempty b then [DChange a b] else [])) =
  map ofr (if nonempty b || nonempty a then [DChange b a] else []).
Proof. destruct a, b; reflexivity. Qed.
Lemma disjoint_changeset (v1 v2 : list T) : disjoint v1 v2 -> exists c, find_changeset v2 v1 = Ok c /\
  as_diff_stream v2 c = if nonempty v1 || nonempty v2 then [DChange v1 v2] else [].
Proof.
  intros HD; destruct (find_changeset_ok v2 v1) as [c [Hc G]]; exists c; split; [exact Hc|].
  destruct (good_diff _ _ _ _ _ _ _ G) as [D1 D2]; try lia; rewrite seg_all in D1, D2.
  assert (D3 := good_normal _ _ _ _ _ _ _ G ltac:(lia) ltac:(lia) ltac:(lia) ltac:(lia)).
  rewrite (disjoint_diff _ D3), D1, D2; [reflexivity|now rewrite D1, D2].
Qed.
Lemma swap_fst (g : list (version T * version T)) : map fst (map (fun x => (snd x, fst x)) g) = map snd g.
Proof. now rewrite map_map. Qed.
Lemma swap_snd (g : list (version T * version T)) : map snd (map (fun x => (snd x, fst x)) g) = map fst g.
Proof. now rewrite map_map. Qed.
Lemma conflicts_swap k fuel : forall l staged, length l <= fuel -> apart l ->
  consolidate_conflicts fuel k l = Ok staged -> consolidate_conflicts fuel k (map oswap l) = Ok (map oswap staged).
Proof.
  induction fuel as [|fuel IH]; intros l staged Hl HA H.
  - destruct l; [|cbn in Hl; lia]; cbn in H; injection H as <-; reflexivity.
  - destruct l as [|x l0] eqn:Hx.
    { cbn in H; injection H as <-; reflexivity. }
    rewrite <- Hx in *; assert (Hne : l <> []) by (subst; discriminate).
    assert (Hne' : map oswap l <> []) by (subst; discriminate); clear Hx.
    destruct (take_conflicts l) as [g r1] eqn:H1; destruct (take_frags r1) as [fs r2] eqn:H2.
    rewrite (consolidate_conflicts_S fuel k l g r1 fs r2 Hne H1 H2) in H.
    apply take_conflicts_spec in H1; apply take_frags_spec in H2.
    destruct H1 as [H1 N1]; destruct H2 as [H2 N2]; subst r1.
    assert (N3 := frags_nil _ _ N1 N2).
    assert (Hr : length r2 <= fuel) by (eapply group_progress; eauto).
    assert (Hsw : map oswap l = map conf (map (fun x => (snd x, fst x)) g) ++ map OFrag fs ++ map oswap r2)
      by (now rewrite H1, !map_app, conf_swap, frags_swap).
    assert (N3' : fs = [] -> map oswap r2 = []) by (intros Q; now rewrite N3).
    assert (N2' : map oswap r2 = [] \/ starts_conf (map oswap r2)).
    { destruct N2 as [->|[a [b [r' ->]]]]; [now left|right; exists b, a, (map oswap r'); reflexivity]. }
    assert (T1 : take_conflicts (map oswap l) = (map (fun x => (snd x, fst x)) g, map OFrag fs ++ map oswap r2))
      by (rewrite Hsw; now apply take_conflicts_group).
    rewrite (consolidate_conflicts_S fuel k _ _ _ _ _ Hne' T1 (take_frags_group fs _ N2')), swap_fst, swap_snd.
    destruct (join k (map fst g)) as [v1|] eqn:J1; [|discriminate]; cbn [bind] in H.
    destruct (join k (map snd g)) as [v2|] eqn:J2; [|discriminate]; cbn [bind] in *.
    apply join_ok in J1, J2; subst v1 v2.
    assert (HD : disjoint (joined (map fst g)) (joined (map snd g))).
    { apply (apart_joined g l); [|exact HA]; intros y Hy; rewrite H1; apply in_app_iff; auto. }
    destruct (disjoint_changeset _ _ HD) as [c [Hc Dc]].
    destruct (disjoint_changeset _ _ (disjoint_sym _ _ HD)) as [c' [Hc' Dc']].
    rewrite Hc in H; rewrite Hc'; cbn [bind] in *; rewrite Dc in H; rewrite Dc'.
    destruct (consolidate_conflicts fuel k r2) as [rest|] eqn:HR; [|discriminate]; cbn [bind] in H; injection H as <-.
    rewrite (IH r2 rest Hr); auto.
    + cbn [bind]; now rewrite !map_app, frags_swap, ofr_swap.
    + intros a b a' b' Ha Hb; apply (HA a b a' b'); rewrite H1, !in_app_iff; auto.
Qed.
Lemma items_swap k fuel : forall l items, length l <= fuel ->
  consolidate_items fuel k l = Ok items -> consolidate_items fuel k (map oswap l) = Ok (swap_sides items).
Proof.
  induction fuel as [|fuel IH]; intros l items Hl H.
  - destruct l; [|cbn in Hl; lia]; cbn in H; injection H as <-; reflexivity.
  - destruct l as [|x l0] eqn:Hx.
    { cbn in H; injection H as <-; reflexivity. }
    rewrite <- Hx in *; assert (Hne : l <> []) by (subst; discriminate).
    assert (Hne' : map oswap l <> []) by (subst; discriminate); clear Hx.
    destruct (take_conflicts l) as [g r1] eqn:H1; destruct (take_frags r1) as [fs r2] eqn:H2.
    rewrite (consolidate_items_S fuel k l g r1 fs r2 Hne H1 H2) in H.
    apply take_conflicts_spec in H1; apply take_frags_spec in H2.
    destruct H1 as [H1 N1]; destruct H2 as [H2 N2]; subst r1.
    assert (N3 := frags_nil _ _ N1 N2).
    assert (Hr : length r2 <= fuel) by (eapply group_progress; eauto).
    assert (Hsw : map oswap l = map conf (map (fun x => (snd x, fst x)) g) ++ map OFrag fs ++ map oswap r2)
      by (now rewrite H1, !map_app, conf_swap, frags_swap).
    assert (N3' : fs = [] -> map oswap r2 = []) by (intros Q; now rewrite N3).
    assert (N2' : map oswap r2 = [] \/ starts_conf (map oswap r2)).
    { destruct N2 as [->|[a [b [r' ->]]]]; [now left|right; exists b, a, (map oswap r'); reflexivity]. }
    assert (T1 : take_conflicts (map oswap l) = (map (fun x => (snd x, fst x)) g, map OFrag fs ++ map oswap r2))
      by (rewrite Hsw; now apply take_conflicts_group).
    rewrite (consolidate_items_S fuel k _ _ _ _ _ Hne' T1 (take_frags_group fs _ N2')), swap_fst, swap_snd.
    destruct (join k (map fst g)) as [v1|] eqn:J1; [|discriminate]; cbn [bind] in H.
    destruct (join k (map snd g)) as [v2|] eqn:J2; [|discriminate]; cbn [bind] in *.
    destruct (join k (map (fun f : frag T => Some (f_insert f)) fs)) as [ins|]; [|discriminate]; cbn [bind] in *.
    destruct (consolidate_items fuel k r2) as [rest|] eqn:HR; [|discriminate]; cbn [bind] in H; injection H as <-.
    rewrite (IH r2 rest Hr HR); cbn [bind]; f_equal.
    unfold swap_sides; rewrite !map_app; f_equal; [|f_equal]; [destruct v1, v2; reflexivity|now destruct ins].
Qed.
Theorem consolidate_swap_exact k l r : apart l -> consolidate k l = Ok r -> consolidate k (map oswap l) = Ok (swap_sides r).
Proof.
  unfold consolidate; intros HA H.
  destruct (consolidate_conflicts (length l) k l) as [staged|] eqn:HS; [|discriminate]; cbn [bind] in H.
  rewrite map_length, (conflicts_swap k (length l) l staged); auto; cbn [bind].
  unfold consolidate_all in *.
  destruct (consolidate_items (length staged) k staged) as [items|] eqn:HI; [|discriminate]; cbn [bind] in H.
  rewrite map_length, (items_swap k (length staged) staged items); auto; cbn [bind].
  destruct items; cbn in *; injection H as <-; reflexivity.
Qed.

Section Bounds.
Variables I0 I1 K0 K1 R0 R1 : T -> Prop.
Definition within (I K R : T -> Prop) (d : list (ditem T)) : Prop :=
  forall x, (In x (inserted d) -> I x) /\ (In x (kept d) -> K x) /\ (In x (taken d) -> R x).
Lemma within_cons I K R i d : within I K R (i :: d) -> within I K R d.
Proof.
  intros H x; destruct (H x) as [H1 [H2 H3]]; unfold inserted, kept, taken in *; cbn [flat_map] in *.
  split; [|split]; intros Hx; [apply H1|apply H2|apply H3]; apply in_app_iff; auto.
Qed.
Lemma step_within I K R k d s x d' : step k d s x d' -> within I K R d ->
  within I K R d' /\ (if k then x = s /\ forall y, In y s -> K y else (forall y, In y x -> I y) /\ (forall y, In y s -> R y)).
Proof.
  destruct 1 as [d|a d|a b d|i a d|i a b d]; intros H.
  - split; [exact H|split; [reflexivity|intros y []]].
  - split; [now apply within_cons in H|split; [reflexivity|]]; intros y Hy; apply (H y); cbn; apply in_app_iff; auto.
  - split; [|split; [reflexivity|]]; [|intros y Hy; apply (H y); cbn; rewrite !in_app_iff; auto].
    intros y; destruct (H y) as [H1 [H2 H3]]; cbn in *; split; [exact H1|split; [|exact H3]].
    intros Hy; apply H2; rewrite <- app_assoc; apply in_app_iff; auto.
  - split; [now apply within_cons in H|]; split; intros y Hy; apply (H y); cbn; apply in_app_iff; auto.
  - split; [|split; intros y Hy; apply (H y); cbn; rewrite !in_app_iff; auto].
    intros y; destruct (H y) as [H1 [H2 H3]]; cbn in *; split; [|split; [exact H2|]].
    + intros Hy; apply H1, in_app_iff; auto.
    + intros Hy; apply H3; rewrite <- app_assoc; apply in_app_iff; auto.
Qed.
Lemma txt_within d0 d1 t d0' d1' : txt d0 d1 t d0' d1' -> within I0 K0 R0 d0 -> within I1 K1 R1 d1 ->
  within I0 K0 R0 d0' /\ within I1 K1 R1 d1'.
Proof.
  induction 1 as [|k s y d0 d0' d0'' d1 d1' d1'' t A B H IH|k s y d0 d0' d0'' d1 d1' d1'' t A B H IH
    |s y d0 d0' d0'' d1 d1' d1'' t A B C H IH]; intros W0 W1; auto;
    destruct (step_within _ _ _ _ _ _ _ _ A W0) as [W0' _]; destruct (step_within _ _ _ _ _ _ _ _ B W1) as [W1' _]; auto.
Qed.
Lemma explains_within w d0 d1 out : explains w d0 d1 out -> within I0 K0 R0 d0 -> within I1 K1 R1 d1 ->
  forall a b, In (OConf a b) out ->
    (forall x, In x (vseq a) -> I0 x \/ (K0 x /\ R1 x)) /\ (forall x, In x (vseq b) -> I1 x \/ (K1 x /\ R0 x)).
Proof.
  induction 1 as [w|w f d0 d0' d1 d1' out HT HE IH|k0 k1 s v0 v1 d0 d0' d1 d1' out A B K _ HE IH
    |s v0 v1 d0 d0' d1 d1' out A B C HE IH|k0 k1 s v0 v1 d0 d0' d1 d1' out A B K HE IH]; intros W0 W1 a b Hx.
  - destruct Hx.
  - destruct Hx as [Hx|Hx]; [discriminate|]; destruct (txt_within _ _ _ _ _ HT W0 W1) as [W0' W1']; now apply IH.
  - destruct (step_within _ _ _ _ _ _ _ _ A W0) as [W0' Q0], (step_within _ _ _ _ _ _ _ _ B W1) as [W1' Q1].
    destruct Hx as [Hx|Hx]; [injection Hx as <- <-|now apply IH].
    destruct k0, k1; [destruct K; discriminate| | |].
    + destruct Q0 as [Q0 Q2], Q1 as [Q1 Q3]; rewrite Q0; split; intros x Hx; auto.
    + destruct Q0 as [Q0 Q2], Q1 as [Q1 Q3]; rewrite Q1; split; intros x Hx; auto.
    + destruct Q0 as [Q0 Q2], Q1 as [Q1 Q3]; split; intros x Hx; auto.
  - destruct (step_within _ _ _ _ _ _ _ _ A W0) as [W0' Q0], (step_within _ _ _ _ _ _ _ _ B W1) as [W1' Q1].
    destruct Hx as [Hx|Hx]; [injection Hx as <- <-|now apply IH].
    destruct Q0 as [Q0 Q2], Q1 as [Q1 Q3]; split; intros x Hx; auto.
  - destruct (step_within _ _ _ _ _ _ _ _ A W0) as [W0' Q0], (step_within _ _ _ _ _ _ _ _ B W1) as [W1' Q1].
    destruct Hx as [Hx|Hx]; [injection Hx as <- <-|now apply IH].
    destruct k0, k1; [destruct K; discriminate| | |].
    + destruct Q0 as [Q0 Q2], Q1 as [Q1 Q3]; rewrite Q0; split; intros x Hx; auto.
    + destruct Q0 as [Q0 Q2], Q1 as [Q1 Q3]; rewrite Q1; split; intros x Hx; auto.
    + destruct Q0 as [Q0 Q2], Q1 as [Q1 Q3]; split; intros x Hx; auto.
Qed.
End Bounds.

Lemma reach_cover (es0 es1 : list (edit T)) : reach_free es1 es0 -> cover_free es0 es1.
Proof. intros H e0 e1 e1' I0 I1 I2 _ L1 L2 L3; apply (H e1' e0); auto; lia. Qed.
Lemma taken_before (d : list (ditem T)) x : In x (taken d) -> In x (diff_before d).
Proof.
  unfold taken, diff_before; intros H; apply in_flat_map in H; destruct H as [i [Hi H]].
  apply in_flat_map; exists i; split; [exact Hi|]; now destruct i.
Qed.

Theorem merge_swap_exact k (p b0 b1 : list T) d0 d1 r :
  diff_token_sequences p b0 = Ok d0 -> diff_token_sequences p b1 = Ok d1 ->
  reach_free (edits 0 d0) (edits 0 d1) -> reach_free (edits 0 d1) (edits 0 d0) ->
  disjoint (inserted d0) p -> disjoint (inserted d1) p -> disjoint (inserted d0) (inserted d1) ->
  disjoint (kept d0) (taken d0) ->
  merge_token_sequence k p b0 b1 = Ok r -> merge_token_sequence k p b1 b0 = Ok (swap_sides r).
Proof.
  intros D0 D1 R0 R1 X1 X2 X3 X4 H.
  destruct (changeset_stream p b0) as [c0 [d0' [H0 [D0' [E0 [S0 A0]]]]]].
  destruct (changeset_stream p b1) as [c1 [d1' [H1 [D1' [E1 [S1 A1]]]]]].
  assert (d0' = d0) as -> by congruence; assert (d1' = d1) as -> by congruence.
  assert (B0 : diff_before d0 = p) by (destruct (diff_accounts p b0) as [d [Q [Q1 _]]]; congruence).
  assert (B1 : diff_before d1 = p) by (destruct (diff_accounts p b1) as [d [Q [Q1 _]]]; congruence).
  destruct (merge_mrun p _ _ S0 S1) as [out [HM HR]].
  unfold merge_token_sequence in *; rewrite H0, H1 in *; cbn [bind] in *; rewrite ?H0, ?H1 in *; cbn [bind] in *.
  rewrite E0, E1, HM in *.
  assert (HM' : _merge (map frag_of d1) (map frag_of d0) = Some (map oswap out)).
  { unfold _merge in *; rewrite Nat.add_comm; apply (loop_swap p _ 0); auto; now rewrite !fedits_frag_of. }
  rewrite HM'; apply consolidate_swap_exact; auto.
  destruct (run_explains _ _ _ _ _ _ HR) as [X _]; [now rewrite !fedits_frag_of|rewrite !fedits_frag_of; now apply reach_cover|].
  rewrite !dit_frag_of in X.
  assert (Q := explains_within (fun x => In x (inserted d0)) (fun x => In x (inserted d1)) (fun x => In x (kept d0))
    (fun x => In x (kept d1)) (fun x => In x (taken d0)) (fun x => In x (taken d1)) _ _ _ _ X
    ltac:(repeat split; auto) ltac:(repeat split; auto)).
  intros a b a' b' Ha Hb x Hx Hy.
  destruct (proj1 (Q _ _ Ha) x Hx) as [Z|[Z1 Z2]], (proj2 (Q _ _ Hb) x Hy) as [Y|[Y1 Y2]].
  - now apply (X3 x).
  - apply (X1 x); auto; rewrite <- B0; now apply taken_before.
  - apply (X2 x); auto; rewrite <- B1; now apply taken_before.
  - now apply (X4 x).
Qed.
End Swap.
