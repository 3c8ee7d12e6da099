(** Merging two branches that rewrite the same piece of the parent. *)
From Coq Require Import Lia.
From Verif Require Import Base Strings SpecSeq Changesets SpecDiff ChangesetsProofs DiffLaws DiffProofs SpecInsert DiffInsert Merge SpecMerge MergeStreams MergeSteps MergeConsolidate MergeUnion MergeLaws SpecPlace MergePlace.
Import SpecInsert.

Section Same.
Context {T : Type} {E : Teq T} {O : TeqOk T}.
Implicit Types (l d : list (ditem T)) (t : list T).

(** ** the second pass on a list of diff items *)
Fixpoint no_pair (b : bool) l : Prop :=
  match l with
  | [] => True
  | DText _ :: l' => no_pair false l'
  | DChange _ _ :: l' => b = false /\ no_pair true l'
  end.
Definition full (i : ditem T) : Prop :=
  match i with DText t => t <> [] | DChange a b => a <> [] \/ b <> [] end.

Lemma texts_run l : exists ts l', l = map DText ts ++ l' /\ (l' = [] \/ exists a b r, l' = DChange a b :: r) /\
  take_frags (map ofr l) = (map (fun t => FCopy t (length t)) ts, map ofr l').
Proof.
  induction l as [|[t|a b] l (ts & l' & -> & H & K)].
  - exists [], []. auto.
  - exists (t :: ts), l'. split; [reflexivity|]. split; [exact H|].
    cbn [map ofr take_frags]. now rewrite K.
  - exists [], (DChange a b :: map DText ts ++ l'). split; [reflexivity|]. split; [right; eauto|]. reflexivity.
Qed.
Lemma join_run ts l : l = [] \/ (exists a b r, l = DChange a b :: r) -> Forall (fun t => t <> []) ts ->
  join_texts (map DText ts ++ l) = (if nonempty (concat ts) then [DText (concat ts)] else []) ++ join_texts l.
Proof.
  intros H. induction ts as [|t ts IH]; intros F; [reflexivity|].
  inversion F as [|? ? Ft Fs]; subst. specialize (IH Fs). cbn [map app join_texts concat]. rewrite IH. clear IH.
  destruct t as [|z t]; [contradiction|]. destruct ts as [|t' ts].
  - cbn [concat nonempty app]. rewrite app_nil_r. destruct H as [->|(a & b & r & ->)]; reflexivity.
  - inversion Fs as [|? ? Ft' _]; subst. destruct t' as [|z' t']; [contradiction|]. reflexivity.
Qed.
Lemma copies_text k ts : join k (map (fun f => Some (f_insert f)) (map (fun t => FCopy t (length t)) ts)) = Ok (concat ts).
Proof. rewrite map_map. cbn [f_insert]. exact (join_some k ts). Qed.
Lemma join_one k t : join k [Some t] = Ok t.
Proof. pose proof (join_some k [t]) as H. cbn in H. now rewrite app_nil_r in H. Qed.
Lemma full_change a b : full (DChange a b) -> nonempty a || nonempty b = true.
Proof. destruct a, b; cbn; auto. intros [H|H]; now elim H. Qed.
Lemma full_texts ts l : Forall full (map DText ts ++ l) -> Forall (fun t => t <> []) ts /\ Forall full l.
Proof.
  rewrite Forall_app. intros [F1 F2]. split; [|exact F2]. rewrite Forall_map in F1. exact F1.
Qed.
Lemma no_pair_any b l : no_pair b l -> no_pair false l.
Proof. destruct l as [|[t|x y] l]; cbn; [auto|auto|]. intros [_ H]. auto. Qed.
Lemma no_pair_texts ts l : forall b, no_pair b (map DText ts ++ l) -> no_pair false l.
Proof. induction ts as [|t ts IH]; cbn; intros b H; [now apply (no_pair_any b)|now apply (IH false)]. Qed.

Lemma items_of k fuel : forall l, length l <= fuel -> no_pair false l -> Forall full l ->
  consolidate_items fuel k (map ofr l) = Ok (join_texts l).
Proof.
  induction fuel as [|fuel IH]; intros l Hl N F.
  { destruct l; [reflexivity|cbn in Hl; lia]. }
  destruct l as [|[t|a b] l]; [reflexivity| |].
  - destruct (texts_run (DText t :: l)) as (ts & l' & Eq & H & K).
    rewrite (consolidate_items_S fuel k (map ofr (DText t :: l)) [] (map ofr (DText t :: l)) _ _ ltac:(discriminate) eq_refl K).
    assert (F' := F). assert (Q := N). rewrite Eq in F'. apply full_texts in F' as (Fts & Fl).
    assert (N' : no_pair false l').
    { apply (no_pair_texts ts _ false). rewrite <- Eq. exact N. }
    replace (join k (map fst [])) with (@Ok (list T) []) by (now destruct k).
    replace (join k (map snd [])) with (@Ok (list T) []) by (now destruct k).
    cbn [bind]. rewrite copies_text. cbn [bind]. rewrite IH; [|..].
    + cbn [bind nonempty orb app]. rewrite Eq, join_run by assumption. reflexivity.
    + destruct ts as [|t' ts].
      { cbn [map app] in Eq. subst l'. destruct H as [H|(a & b & r & H)]; discriminate. }
      apply (f_equal (@length _)) in Eq. rewrite app_length in Eq. cbn [length map] in Eq, Hl. lia.
    + exact N'.
    + exact Fl.
  - destruct (texts_run l) as (ts & l' & Eq & H & K). destruct N as [_ N]. inversion F as [|? ? Fc F']; subst x l0.
    assert (HT : take_conflicts (map ofr (DChange a b :: l)) = ([(Some a, Some b)], map ofr l)).
    { cbn [map ofr take_conflicts]. destruct l as [|[t'|a' b'] l0]; [reflexivity|reflexivity|].
      cbn in N. destruct N as [N _]. discriminate. }
    rewrite (consolidate_items_S fuel k (map ofr (DChange a b :: l)) _ _ _ _ ltac:(discriminate) HT K). clear HT K.
    cbn [map fst snd]. rewrite !join_one. cbn [bind]. rewrite copies_text. cbn [bind]. rewrite (full_change _ _ Fc). subst l.
    apply full_texts in F' as (Fts & Fl). rewrite IH.
    + cbn [bind app join_texts]. rewrite join_run by assumption. reflexivity.
    + cbn [length] in Hl. rewrite app_length in Hl. lia.
    + now apply (no_pair_texts ts _ true).
    + exact Fl.
Qed.

Lemma alternating_pairs d : alternating d -> no_pair false d /\ (forall t r, d = DText t :: r -> no_pair true d).
Proof.
  induction d as [|i d IH]; intros A; [split; [exact I|discriminate]|].
  destruct (IH (alternating_tl' i d A)) as (N & N'). destruct i as [t|a b]; cbn [no_pair].
  - split; [exact N|]. intros ? ? _. exact N.
  - split; [|discriminate]. split; [reflexivity|]. destruct d as [|[t|a' b'] d]; [exact I|exact (N' t d eq_refl)|].
    destruct (A 0 _ _ eq_refl eq_refl) as [[(? & H) _]|[_ (? & H)]]; discriminate.
Qed.
Lemma normal_full d : normal_diff d -> no_pair false d /\ Forall full d.
Proof.
  intros [A F]. split; [now apply alternating_pairs|]. eapply Forall_impl; [|exact F].
  intros [t|a b]; cbn; [auto|intros [H _]; destruct a; [right; intros ->; now apply H|left; discriminate]].
Qed.
Lemma no_pair_app b d l : no_pair b d -> no_pair true l -> no_pair b (d ++ l).
Proof.
  revert b. induction d as [|[t|x y] d IH]; intros b H G; cbn in *.
  - destruct b; [exact G|]. destruct l as [|[?|? ?] ?]; cbn in *; intuition.
  - now apply IH.
  - destruct H. split; [assumption|now apply IH].
Qed.

(** ** the merge proper *)
Definition copy t : frag T := FCopy t (length t).
Lemma step_copies t w : process_fragments (copy t) (copy t) w = (Some (OFrag (copy t)), None, None, false).
Proof.
  unfold process_fragments, copy, copy_copy. destruct (Nat.ltb_spec (length t) (length t)); [lia|].
  now rewrite Nat.eqb_refl.
Qed.
Lemma split_all (x y : list T) : x <> [] \/ y <> [] ->
  split_change_fragment x y (length y) (length x) (length y) = (Some (FChange x y (length y)), None).
Proof.
  intros H. unfold split_change_fragment. rewrite !firstn_all, !Nat.ltb_irrefl. cbn [orb].
  replace ((0 <? length y) || (0 <? length x)) with true; [reflexivity|].
  destruct x, y; cbn; auto. destruct H as [H|H]; now elim H.
Qed.
Lemma step_changes (x0 x1 y : list T) : x0 <> x1 -> (y = [] -> x0 <> [] /\ x1 <> []) ->
  process_fragments (FChange x0 y (length y)) (FChange x1 y (length y)) false = (Some (OConf (Some x0) (Some x1)), None, None, true).
Proof.
  intros H Hy. unfold process_fragments, change_change.
  replace (has_composable_changes x0 (length y) x1 (length y)) with false.
  2:{ unfold has_composable_changes. destruct y as [|z y]; cbn.
      - destruct (Hy eq_refl) as [H0 H1]. destruct x0, x1; try contradiction; reflexivity.
      - now rewrite andb_false_r. }
  assert (HI : are_identical_changes x0 (length y) x1 (length y) (common_prefix_length x0 x1) (common_prefix_length y y) = false).
  { unfold are_identical_changes. destruct (Nat.eqb_spec (length x0) (length x1)) as [L|]; [|reflexivity].
    destruct (Nat.eqb_spec (length x1) (common_prefix_length x0 x1)) as [L'|]; [|reflexivity]. exfalso. apply H.
    apply common_prefix_eq; [exact L|]. congruence. }
  rewrite HI. unfold ordinary_conflict. rewrite Nat.min_id, !split_all; [reflexivity|..];
    destruct y; [destruct (Hy eq_refl); auto|right; discriminate|destruct (Hy eq_refl); auto|right; discriminate].
Qed.
Lemma cut_none k fuel : consolidate_conflicts (T:=T) fuel k [] = Ok [].
Proof. now destruct fuel. Qed.
Lemma nothing_diff : exists c, find_changeset (T:=T) [] [] = Ok c /\ as_diff_stream [] c = [].
Proof.
  destruct (diff_accounts [] (@nil T)) as (d & D & B & A). unfold diff_token_sequences in D.
  destruct (find_changeset [] []) as [c|e] eqn:F; [|discriminate]. exists c. split; [reflexivity|]. cbn [bind] in D. injection D as D.
  destruct (diff_normal [] (@nil T)) as (d' & D' & N). unfold diff_token_sequences in D'. rewrite F in D'. cbn [bind] in D'. injection D' as D'.
  rewrite D. rewrite <- D', D in N. destruct N as [_ N]. destruct d as [|[[|z t]|[|z a] b] d]; [reflexivity|..]; inversion N as [|? ? H _]; subst.
  - now elim H.
  - discriminate.
  - destruct b; [destruct H as [H _]; now elim H|discriminate].
  - discriminate.
Qed.
Lemma first_pass k a b (x0 x1 : list T) d : diff_token_sequences x1 x0 = Ok d ->
  consolidate k (map ofr (kept a) ++ OConf (Some x0) (Some x1) :: map ofr (kept b)) =
  consolidate_all k (map ofr (kept a ++ d ++ kept b)).
Proof.
  intros D. unfold consolidate.
  assert (H : forall fuel, consolidate_conflicts (S fuel) k (OConf (Some x0) (Some x1) :: map ofr (kept b)) = Ok (map ofr (d ++ kept b))).
  { intros fuel. unfold diff_token_sequences in D. destruct (find_changeset x1 x0) as [c|e] eqn:F; [|discriminate].
    cbn [bind] in D. injection D as D.
    rewrite (consolidate_conflicts_S fuel k _ [(Some x0, Some x1)] (map ofr (kept b)) (match kept b with [] => [] | _ => [copy b] end) []).
    - cbn [map fst snd]. rewrite !join_one. cbn [bind]. rewrite F. cbn [bind]. rewrite cut_none. cbn [bind].
      rewrite D, app_nil_r, map_app. destruct b; reflexivity.
    - discriminate.
    - destruct b; reflexivity.
    - destruct b; reflexivity. }
  destruct a as [|z a].
  - cbn [kept map app length]. rewrite H. reflexivity.
  - cbn [kept map app length]. destruct nothing_diff as (c & F & HS).
    rewrite (consolidate_conflicts_S _ k _ [] (ofr (DText (z :: a)) :: OConf (Some x0) (Some x1) :: map ofr (kept b))
      [copy (z :: a)] (OConf (Some x0) (Some x1) :: map ofr (kept b))); [|discriminate|reflexivity|reflexivity].
    replace (join k (map fst [])) with (@Ok (list T) []) by (now destruct k).
    replace (join k (map snd [])) with (@Ok (list T) []) by (now destruct k).
    cbn [bind]. rewrite F. cbn [bind]. rewrite H. cbn [bind]. rewrite HS. reflexivity.
Qed.

Lemma merge_run k p b0 b1 d0 d1 : diff_token_sequences p b0 = Ok d0 -> diff_token_sequences p b1 = Ok d1 ->
  merge_token_sequence k p b0 b1 = match _merge (map frag_of d0) (map frag_of d1) with None => Err OutOfFuel | Some m => consolidate k m end.
Proof.
  unfold diff_token_sequences, merge_token_sequence. destruct (find_changeset p b0) as [c0|]; [|discriminate].
  destruct (find_changeset p b1) as [c1|]; [|discriminate]. cbn [bind]. intros D0 D1. injection D0 as <-. injection D1 as <-.
  now rewrite !cs_stream_diff.
Qed.
Lemma same_run a b (x0 x1 y : list T) : x0 <> x1 -> (y = [] -> x0 <> [] /\ x1 <> []) ->
  _merge (map frag_of (kept a ++ DChange x0 y :: kept b)) (map frag_of (kept a ++ DChange x1 y :: kept b)) =
  Some (map ofr (kept a) ++ OConf (Some x0) (Some x1) :: map ofr (kept b)).
Proof.
  intros H Hy. unfold _merge.
  assert (HB : forall fuel w, merge_loop (S fuel) (map frag_of (kept b)) (map frag_of (kept b)) w = Some (map ofr (kept b))).
  { intros fuel w. destruct b as [|z b]; [now destruct w|]. cbn [kept map frag_of]. change (FCopy (z :: b) (length (z :: b))) with (copy (z :: b)).
    cbn [merge_loop]. rewrite step_copies. cbn [olist app]. destruct fuel; reflexivity. }
  assert (HC : forall fuel, merge_loop (S (S fuel)) (FChange x0 y (length y) :: map frag_of (kept b)) (FChange x1 y (length y) :: map frag_of (kept b)) false =
    Some (OConf (Some x0) (Some x1) :: map ofr (kept b))).
  { intros fuel. cbn [merge_loop]. rewrite step_changes by assumption. cbn [olist app]. fold (@merge_loop T E).
    specialize (HB fuel true). cbn [merge_loop] in HB. rewrite HB. reflexivity. }
  destruct a as [|z a].
  - cbn [kept app map frag_of length]. rewrite Nat.add_succ_r. apply HC.
  - cbn [kept app map frag_of length]. change (FCopy (z :: a) (S (length a))) with (copy (z :: a)).
    rewrite !Nat.add_succ_r. cbn [Nat.add].
    match goal with |- merge_loop (S (S (S ?f))) _ _ _ = _ => specialize (HC f); generalize dependent f end.
    intros f HC. change (merge_loop (S (S (S f))) (copy (z :: a) :: FChange x0 y (length y) :: map frag_of (kept b)) (copy (z :: a) :: FChange x1 y (length y) :: map frag_of (kept b)) false = Some (ofr (DText (z :: a)) :: OConf (Some x0) (Some x1) :: map ofr (kept b))).
    remember (S (S f)) as g. cbn [merge_loop]. rewrite step_copies. cbn [olist app]. rewrite HC. reflexivity.
Qed.

(** C114 *)
Theorem merge_rewrites k p b0 b1 a b (x0 x1 y : list T) d :
  diff_token_sequences p b0 = Ok (kept a ++ DChange x0 y :: kept b) ->
  diff_token_sequences p b1 = Ok (kept a ++ DChange x1 y :: kept b) -> x0 <> x1 ->
  diff_token_sequences x1 x0 = Ok d ->
  merge_token_sequence k p b0 b1 = Ok (join_texts (kept a ++ d ++ kept b)).
Proof.
  intros D0 D1 H D.
  assert (Hy : y = [] -> x0 <> [] /\ x1 <> []).
  { intros ->. destruct (diff_normal p b0) as (e0 & E0 & _ & N0). rewrite D0 in E0. injection E0 as <-.
    destruct (diff_normal p b1) as (e1 & E1 & _ & N1). rewrite D1 in E1. injection E1 as <-.
    apply Forall_elt in N0, N1. destruct N0 as [N0 _]. destruct N1 as [N1 _]. split; intros ->; auto. }
  rewrite (merge_run k _ _ _ _ _ D0 D1), same_run by assumption. rewrite (first_pass k a b x0 x1 d D).
  destruct (diff_normal x1 x0) as (d' & D' & N). rewrite D in D'. injection D' as <-. apply normal_full in N as (N & F).
  assert (L : d <> []).
  { destruct (diff_accounts x1 x0) as (d' & D' & B & A). rewrite D in D'. injection D' as <-. intros ->. cbn in B, A. congruence. }
  assert (FK : forall t, Forall full (kept t)) by (intros [|z t]; constructor; [discriminate|constructor]).
  unfold consolidate_all. rewrite items_of.
  - cbn [bind]. assert (J : join_texts (kept a ++ d ++ kept b) <> []).
    { destruct a; cbn [kept app]; [destruct d as [|[?|? ?] ?]; [contradiction|..]|]; cbn [app join_texts];
        repeat match goal with |- context [match ?x with _ => _ end] => destruct x end; discriminate. }
    destruct (join_texts _); [contradiction|reflexivity].
  - rewrite map_length. lia.
  - assert (NB : no_pair true (kept b)) by (now destruct b). destruct a; cbn [kept app no_pair]; now apply no_pair_app.
  - rewrite !Forall_app. auto.
Qed.
End Same.
