(** Merging a single edit: it is carried over to its place in the other branch. *)
From Coq Require Import Lia.
From Verif Require Import Base Strings SpecSeq Changesets SpecDiff ChangesetsProofs DiffLaws SpecInsert DiffInsert Merge SpecMerge MergeStreams MergeSteps MergeUnion MergeLaws SpecPlace.

Section Place.
Context {T : Type} {E : Teq T} {O : TeqOk T}.
Variable p : list T.
Implicit Types es : list (edit T).
Notation cell := (ucell p).

Lemma cell_plain n es i : above n es -> i < n -> cell [] es i = firstn 1 (skipn i p).
Proof. intros H Hi. unfold ucell. now rewrite (above_ins n es), (above_removed n es) by assumption. Qed.
Lemma cell_first pos a n es : 0 < n -> above (pos + n) es -> cell [] (@cons (edit T) (pos, a, n) es) pos = a.
Proof.
  intros Hn H. unfold ucell. rewrite ins_at_cons, removed_cons. unfold e_end, e_pos, e_len, e_ins; cbn [fst snd ins_at flat_map].
  rewrite Nat.eqb_refl, (above_ins (pos + n) es) by (auto; lia). rewrite both_ins_nil_l, app_nil_r.
  destruct (Nat.leb_spec pos pos), (Nat.ltb_spec pos (pos + n)); try lia. cbn. now rewrite app_nil_r.
Qed.
Lemma cell_inner pos a n es j : pos < j -> j < pos + n -> above (pos + n) es -> cell [] (@cons (edit T) (pos, a, n) es) j = [].
Proof.
  intros H1 H2 H. unfold ucell. rewrite ins_at_cons, removed_cons. unfold e_end, e_pos, e_len, e_ins; cbn [fst snd]; change (@ins_at T []) with (fun _ : nat => @nil T); cbn beta.
  destruct (Nat.eqb_spec pos j); [lia|]. rewrite (above_ins (pos + n) es) by (auto; lia). rewrite both_ins_nil_l.
  destruct (Nat.leb_spec pos j), (Nat.ltb_spec j (pos + n)); try lia. cbn. reflexivity.
Qed.
Lemma cell_later pos a n es j : pos < j -> pos + n <= j -> cell [] (@cons (edit T) (pos, a, n) es) j = cell [] es j.
Proof.
  intros H1 H2. unfold ucell. rewrite ins_at_cons, removed_cons. unfold e_end, e_pos, e_len, e_ins; cbn [fst snd]; change (@ins_at T []) with (fun _ : nat => @nil T); cbn beta.
  destruct (Nat.eqb_spec pos j); [lia|]. destruct (Nat.ltb_spec j (pos + n)); [lia|].
  rewrite andb_false_r. reflexivity.
Qed.
Lemma cell_here pos a es : above (S pos) es -> cell [] (@cons (edit T) (pos, a, 0) es) pos = a ++ cell [] es pos.
Proof.
  intros H. unfold ucell. rewrite ins_at_cons, removed_cons. unfold e_end, e_pos, e_len, e_ins; cbn [fst snd]; change (@ins_at T []) with (fun _ : nat => @nil T); cbn beta.
  rewrite Nat.eqb_refl, (above_ins (S pos) es) by (auto; lia). rewrite (above_removed (S pos) es) by (auto; lia).
  destruct (Nat.ltb_spec pos (pos + 0)); [lia|]. rewrite andb_false_r, both_ins_nil_l, app_nil_r. reflexivity.
Qed.

Lemma cells_change pos a n es i : 0 < i -> above (S (pos + n)) es ->
  flat_map (cell [] (@cons (edit T) (pos, a, n) es)) (seq pos i) = a ++ flat_map (cell [] es) (seq (pos + n) (i - n)).
Proof.
  intros Hi H. destruct n as [|n].
  - rewrite Nat.add_0_r, Nat.sub_0_r in *. destruct i as [|i]; [lia|]. cbn [seq flat_map].
    rewrite cell_here, <- app_assoc by assumption. do 2 f_equal. apply flat_map_ext_in.
    intros j Hj. apply in_seq in Hj. apply cell_later; lia.
  - assert (H' : above (pos + S n) es) by (apply (above_mono (S (pos + S n))); auto; lia).
    destruct (Nat.le_gt_cases i (S n)) as [Hc|Hc].
    + replace (i - S n) with 0 by lia. cbn [seq flat_map]. destruct i as [|i]; [lia|]. cbn [seq flat_map].
      rewrite cell_first by (auto; lia). f_equal.
      rewrite (flat_map_ext_in _ (fun _ => [])); [apply flat_none|].
      intros j Hj. apply in_seq in Hj. apply cell_inner; auto; lia.
    + replace i with (S n + (i - S n)) at 1 by lia. rewrite seq_app, flat_map_app. cbn [seq flat_map].
      rewrite cell_first by (auto; lia). rewrite <- app_assoc. f_equal.
      rewrite (flat_map_ext_in _ (fun _ => []) (seq (S pos) n)).
      * rewrite flat_none. cbn [app]. apply flat_map_ext_in. intros j Hj. apply in_seq in Hj. apply cell_later; lia.
      * intros j Hj. apply in_seq in Hj. apply cell_inner; auto; lia.
Qed.

Lemma frag_length (d : list (ditem T)) pos : fedits pos (map frag_of d) = edits pos d.
Proof. apply fedits_frag_of. Qed.

Lemma stream_text c g pos t n r : stream p c g pos (FCopy t n :: r) ->
  t = seg p pos (pos + n) /\ pos + n <= length p /\ stream p false true (pos + n) r.
Proof. inversion 1; subst. auto. Qed.
Lemma stream_edit c g pos a t n r : stream p c g pos (FChange a t n :: r) ->
  t = seg p pos (pos + n) /\ pos + n <= length p /\ stream p true false (pos + n) r.
Proof. inversion 1; subst. auto. Qed.

Lemma cells_upto d : forall c g pos i, stream p c g pos (map frag_of d) -> pos + i <= length p ->
  flat_map (cell [] (edits pos d)) (seq pos i) = upto d i.
Proof.
  induction d as [|it d IH]; intros c g pos i S Hi; (destruct i as [|i0]; [reflexivity|]).
  { inversion S; subst. lia. }
  destruct it as [t|a b]; cbn [map frag_of] in S; cbn [edits upto].
  - apply stream_text in S as (Et & Hl & Sr).
    assert (A : above (pos + length t) (edits (pos + length t) d)).
    { rewrite <- frag_length. eapply stream_above; eassumption. }
    destruct (Nat.le_gt_cases (S i0) (length t)) as [Hc|Hc].
    + replace (S i0 - length t) with 0 by lia. replace (upto d 0) with (@nil T) by (now destruct d).
      rewrite app_nil_r, (flat_map_ext_in _ (fun i => firstn 1 (skipn i p))).
      * rewrite flat_single by lia. rewrite Et.
        unfold seg, slice. rewrite firstn_firstn. f_equal. lia.
      * intros j Hj. apply in_seq in Hj. apply (cell_plain (pos + length t)); auto; lia.
    + replace (S i0) with (length t + (S i0 - length t)) at 1 by lia. rewrite seq_app, flat_map_app. f_equal.
      * rewrite firstn_all2 by lia. rewrite (flat_map_ext_in _ (fun i => firstn 1 (skipn i p))).
        -- rewrite flat_single by lia. now rewrite <- Et.
        -- intros j Hj. apply in_seq in Hj. apply (cell_plain (pos + length t)); auto; lia.
      * eapply IH; [eassumption|lia].
  - apply stream_edit in S as (_ & Hl & Sr).
    assert (A : above (S (pos + length b)) (edits (pos + length b) d)).
    { rewrite <- frag_length. eapply stream_above_S; eassumption. }
    rewrite cells_change by (auto; lia). f_equal.
    destruct (Nat.le_gt_cases (S i0) (length b)) as [Hc|Hc].
    + replace (S i0 - length b) with 0 by lia. now destruct d.
    + eapply IH; [eassumption|lia].
Qed.

(** what happens to one edit [(i, x, n)] beside others that leave it alone *)
Definition far (i : nat) (x : list T) (n : nat) (e : edit T) : Prop :=
  (e_pos e < i /\ e_end e <= i) \/ (i < e_pos e /\ i + n <= e_pos e) \/
  (e_pos e = i /\ ((n = 0 /\ e_ins e = []) \/ (x = [] /\ e_len e = 0))).

Lemma no_ins es j : (forall e, In e es -> e_pos e = j -> e_ins e = []) -> ins_at es j = [].
Proof.
  intros H. induction es as [|e es IH]; [reflexivity|]. rewrite ins_at_cons.
  rewrite IH by (intros; apply H; [now right|assumption]). rewrite app_nil_r.
  destruct (Nat.eqb_spec (e_pos e) j); [|reflexivity]. apply H; [now left|assumption].
Qed.
Lemma not_removed es j : (forall e, In e es -> e_pos e <= j -> e_end e <= j) -> removed es j = false.
Proof.
  intros H. induction es as [|e es IH]; [reflexivity|]. rewrite removed_cons.
  rewrite IH by (intros; apply H; [now right|assumption]). rewrite orb_false_r.
  destruct (Nat.leb_spec (e_pos e) j); [|reflexivity].
  destruct (Nat.ltb_spec j (e_end e)); [|reflexivity]. specialize (H e (or_introl eq_refl)). lia.
Qed.

Lemma one_ins i x n j : ins_at [((i, x, n) : edit T)] j = if i =? j then x else [].
Proof. unfold ins_at, e_pos, e_ins; cbn [flat_map fst snd]. apply app_nil_r. Qed.
Lemma one_removed i x n j : removed [((i, x, n) : edit T)] j = (i <=? j) && (j <? i + n).
Proof. unfold removed, e_end, e_pos, e_len; cbn [existsb fst snd]. apply orb_false_r. Qed.
Lemma cell_other i x n es j : j <> i -> ~ (i <= j < i + n) -> cell [(i, x, n)] es j = cell [] es j.
Proof.
  intros H1 H2. unfold ucell. rewrite one_ins, one_removed. destruct (Nat.eqb_spec i j); [lia|].
  replace ((i <=? j) && (j <? i + n)) with false; [reflexivity|].
  symmetry. destruct (Nat.leb_spec i j), (Nat.ltb_spec j (i + n)); cbn; auto; lia.
Qed.

Lemma one_place i x n es : i + n <= length p -> (forall e, In e es -> far i x n e) ->
  exists z v, flat_map (cell [] es) (seq 0 (i + n)) = flat_map (cell [] es) (seq 0 i) ++ z ++ seg p i (i + n) /\
    (n = 0 -> z = []) /\
    union_text p [] es = flat_map (cell [] es) (seq 0 i) ++ z ++ seg p i (i + n) ++ v /\
    union_text p [(i, x, n)] es = flat_map (cell [] es) (seq 0 i) ++ z ++ x ++ v.
Proof.
  intros Hl F. unfold union_text.
  assert (Hd : flat_map (cell [(i, x, n)] es) (seq 0 i) = flat_map (cell [] es) (seq 0 i)).
  { apply flat_map_ext_in. intros j Hj. apply in_seq in Hj. apply cell_other; lia. }
  assert (Hxz : x = [] \/ ins_at es i = []).
  { destruct x as [|x0 x']; [now left|right]. apply no_ins. intros e He Hp.
    destruct (F e He) as [G|[G|(_ & [[_ G]|[G _]])]]; [lia|lia|exact G|discriminate]. }
  rewrite (union_split p [(i, x, n)] es 0 i), (union_split p [] es 0 i) by lia. rewrite Hd. cbn [Nat.add].
  destruct n as [|n].
  - exists [], (union_from p [] es i). rewrite Nat.add_0_r, seg_nil. cbn [app]. rewrite app_nil_r.
    split; [reflexivity|]. split; [reflexivity|]. split; [reflexivity|]. f_equal.
    rewrite (union_split p [(i, x, 0)] es i 1), (union_split p [] es i 1) by lia.
    cbn [seq flat_map]. rewrite !app_nil_r, app_assoc. f_equal.
    + unfold ucell. rewrite one_ins, one_removed, Nat.eqb_refl.
      replace ((i <=? i) && (i <? i + 0)) with false
        by (destruct (Nat.leb_spec i i), (Nat.ltb_spec i (i + 0)); cbn; auto; lia).
      cbn [orb]. change (removed [] i) with false. cbn [orb]. rewrite app_assoc. f_equal.
      change (ins_at [] i) with (@nil T). rewrite both_ins_nil_l.
      destruct Hxz as [->| ->]; [now rewrite both_ins_nil_l|now rewrite both_ins_nil_r, app_nil_r].
    + apply union_ext. intros j Hj. apply cell_other; lia.
  - assert (Hn : forall j, i <= j < i + S n -> removed es j = false).
    { intros j Hj. apply not_removed. intros e He Hp.
      destruct (F e He) as [G|[G|(G & [[G1 _]|[_ G2]])]]; unfold e_end in *; lia. }
    assert (Hi : forall j, i < j < i + S n -> ins_at es j = []).
    { intros j Hj. apply no_ins. intros e He Hp. destruct (F e He) as [G|[G|(G & _)]]; lia. }
    assert (HC : flat_map (cell [] es) (seq i (S n)) = ins_at es i ++ seg p i (i + S n)).
    { cbn [seq flat_map]. unfold ucell at 1. change (ins_at [] i) with (@nil T). rewrite both_ins_nil_l.
      change (removed [] i) with false. rewrite Hn by lia. cbn [orb]. rewrite <- app_assoc. f_equal.
      rewrite <- (flat_single p (S n) i) by lia. cbn [seq flat_map]. f_equal.
      apply flat_map_ext_in. intros j Hj. apply in_seq in Hj. unfold ucell. rewrite Hi, Hn by lia. reflexivity. }
    exists (ins_at es i), (union_from p [] es (i + S n)).
    rewrite seq_app, flat_map_app. cbn [Nat.add]. rewrite HC.
    split; [reflexivity|]. split; [discriminate|].
    rewrite (union_split p [(i, x, S n)] es i (S n)), (union_split p [] es i (S n)) by lia. rewrite HC.
    split; [now rewrite <- app_assoc|]. f_equal. rewrite (app_assoc _ x). f_equal.
    + cbn [seq flat_map]. rewrite (flat_map_ext_in _ (fun _ => []) (seq (S i) n)).
      * rewrite flat_none, app_nil_r. unfold ucell. rewrite one_ins, one_removed, Nat.eqb_refl.
        replace ((i <=? i) && (i <? i + S n)) with true
          by (destruct (Nat.leb_spec i i), (Nat.ltb_spec i (i + S n)); cbn; auto; lia).
        cbn [orb]. rewrite app_nil_r.
        destruct Hxz as [->|Hz]; [now rewrite both_ins_nil_l, app_nil_r|now rewrite Hz, both_ins_nil_r].
      * intros j Hj. apply in_seq in Hj. unfold ucell. rewrite one_ins, one_removed, Hi by lia.
        destruct (Nat.eqb_spec i j); [lia|].
        replace ((i <=? j) && (j <? i + S n)) with true
          by (destruct (Nat.leb_spec i j), (Nat.ltb_spec j (i + S n)); cbn; auto; lia).
        reflexivity.
    + apply union_ext. intros j Hj. apply cell_other; lia.
Qed.
End Place.
