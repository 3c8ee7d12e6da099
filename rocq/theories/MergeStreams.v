(** Fragment streams of a diff, and the loop of [_merge] on them. *)
From Verif Require Import Base Strings SpecSeq AutomatonProofs Changesets SpecDiff ChangesetsProofs DiffLaws DiffProofs Merge SpecMerge.

Section Streams.
Context {T : Type} {E : Teq T} {O : TeqOk T}.
Implicit Types p : list T.

(** A stream over the parent from position [pos]; the flags say whether it may
    start with a copy and with a change. *)
Inductive stream p : bool -> bool -> nat -> list (frag T) -> Prop :=
| S_nil : forall c g, stream p c g (length p) []
| S_copy : forall g pos n r, 0 < n -> pos + n <= length p ->
    stream p false true (pos + n) r ->
    stream p true g pos (FCopy (seg p pos (pos + n)) n :: r)
| S_change : forall c pos i n r, pos + n <= length p -> (0 < n \/ i <> []) ->
    stream p true false (pos + n) r ->
    stream p c true pos (FChange i (seg p pos (pos + n)) n :: r).

Definition ftext (fs : list (frag T)) : list T := concat (map f_insert fs).

(** edits of a fragment list *)
Fixpoint fedits (pos : nat) (fs : list (frag T)) : list (edit T) :=
  match fs with
  | [] => []
  | FCopy _ n :: r => fedits (pos + n) r
  | FChange i _ n :: r => (pos, i, n) :: fedits (pos + n) r
  end.

Definition frag_of (d : ditem T) : frag T :=
  match d with DText t => FCopy t (length t) | DChange a b => FChange a b (length b) end.

Lemma cs_stream_diff p c : cs_stream p c = map frag_of (as_diff_stream p c).
Proof.
  induction c as [o m os ms|co cm pr IHp s IHs]; cbn [cs_stream as_diff_stream].
  - now destruct (_ || _).
  - now rewrite IHp, IHs, !map_app.
Qed.
Lemma fedits_frag_of d : forall pos, fedits pos (map frag_of d) = edits pos d.
Proof. induction d as [|[t|a b] d IH]; intros; cbn; auto; now rewrite IH. Qed.
Lemma ftext_frag_of d : ftext (map frag_of d) = diff_after d.
Proof.
  unfold ftext, diff_after; rewrite flat_map_concat_map, map_map; f_equal.
  apply map_ext; now intros [t|a b].
Qed.

Lemma seg_head p pos n t r : seg p pos (length p) = t ++ r -> n = length t -> pos <= length p ->
  seg p pos (pos + n) = t /\ seg p (pos + n) (length p) = r /\ pos + n <= length p.
Proof.
  intros H -> Hp.
  assert (L : length (t ++ r) = length p - pos) by (rewrite <- H; apply seg_length; lia).
  rewrite app_length in L.
  rewrite (seg_app p pos (pos + length t) (length p)) in H by lia.
  assert (L' : length (seg p pos (pos + length t)) = length t) by (rewrite seg_length; lia).
  apply (f_equal (firstn (length t))) in H as H1.
  apply (f_equal (skipn (length t))) in H as H2.
  rewrite firstn_app, L', Nat.sub_diag, firstn_O, app_nil_r, firstn_all2 in H1 by lia.
  rewrite firstn_app, Nat.sub_diag, firstn_O, app_nil_r, firstn_all in H1.
  rewrite skipn_app, L', Nat.sub_diag, skipn_all2 in H2 by lia.
  rewrite skipn_app, Nat.sub_diag, skipn_all in H2; cbn in H2.
  repeat split; auto; lia.
Qed.

Lemma alternating_tl x (d : list (ditem T)) : alternating (x :: d) -> alternating d.
Proof. intros H k a b Ha Hb; apply (H (S k) a b Ha Hb). Qed.

Lemma diff_stream_ok p d : forall pos c g, alternating d -> Forall item_ok d ->
  pos <= length p -> diff_before d = seg p pos (length p) ->
  (c = false -> ~ starts_text d) -> (g = false -> d = [] \/ starts_text d) ->
  stream p c g pos (map frag_of d).
Proof.
  induction d as [|x d IH]; intros pos c g Ha Hi Hp Hb Hc Hg.
  - cbn in Hb.
    assert (L : length (seg p pos (length p)) = length p - pos) by (apply seg_length; lia).
    rewrite <- Hb in L; cbn in L; assert (pos = length p) as -> by lia; constructor.
  - inversion Hi as [|? ? Hx Hi']; subst.
    assert (A0 : forall y d', d = y :: d' -> (is_text x /\ is_change y) \/ (is_change x /\ is_text y)).
    { intros y d' ->; now apply (Ha 0). }
    assert (A' := alternating_tl _ _ Ha).
    destruct x as [t|a b]; cbn [map frag_of].
    + assert (c = true) as ->.
      { destruct c; [reflexivity|]; exfalso; apply Hc; [reflexivity|now exists d, t]. }
      unfold diff_before in Hb; cbn in Hb; symmetry in Hb; apply seg_head with (n := length t) in Hb; auto.
      destruct Hb as [B1 [B2 B3]]; rewrite <- B1 at 1.
      assert (0 < length t) by (destruct t; [now elim Hx|cbn; lia]).
      apply S_copy; auto; apply IH; auto.
      * intros _ [d' [t' ->]]; destruct (A0 _ _ eq_refl) as [[_ [? [? C]]]|[[? [? C]] _]]; discriminate.
      * discriminate.
    + assert (g = true) as ->.
      { destruct g; [reflexivity|]; destruct (Hg eq_refl) as [C|[? [? C]]]; discriminate. }
      unfold diff_before in Hb; cbn in Hb; symmetry in Hb; apply seg_head with (n := length b) in Hb; auto.
      destruct Hb as [B1 [B2 B3]]; rewrite <- B1 at 1.
      apply S_change; auto.
      * destruct Hx as [Hx _]; destruct b; cbn; [right|left; lia]; intros ->; now apply Hx.
      * apply IH; auto; [discriminate|].
        intros _; destruct d as [|y d']; [now left|right].
        destruct (A0 _ _ eq_refl) as [[[? C] _]|[_ [t ->]]]; [discriminate|now exists d', t].
Qed.

(** what merging needs to know about the two changesets *)
Lemma changeset_stream p m : exists c d, find_changeset p m = Ok c /\
  diff_token_sequences p m = Ok d /\ cs_stream p c = map frag_of d /\
  stream p true true 0 (map frag_of d) /\ diff_after d = m.
Proof.
  destruct (find_changeset_ok p m) as [c [Hc G]].
  exists c, (as_diff_stream p c); split; [exact Hc|split; [|split; [apply cs_stream_diff|]]].
  - unfold diff_token_sequences; now rewrite Hc.
  - destruct (good_normal _ _ _ _ _ _ _ G) as [N1 N2]; try lia.
    destruct (good_diff _ _ _ _ _ _ _ G) as [D1 D2]; try lia.
    split.
    + apply diff_stream_ok; auto; [lia|discriminate|discriminate].
    + rewrite D2; apply seg_all.
Qed.

(** ** Basic facts about streams *)
Lemma stream_le p c g pos fs : stream p c g pos fs -> pos <= length p.
Proof. destruct 1; lia. Qed.
Lemma stream_weaken p c g c' g' pos fs : stream p c g pos fs ->
  (c = true -> c' = true) -> (g = true -> g' = true) -> stream p c' g' pos fs.
Proof.
  intros H Hc Hg; inversion H; subst.
  - constructor.
  - rewrite (Hc eq_refl); now constructor.
  - rewrite (Hg eq_refl); now constructor.
Qed.
Lemma stream_any p c g pos fs : stream p c g pos fs -> stream p true true pos fs.
Proof. intros H; eapply stream_weaken; eauto. Qed.
Lemma stream_edits_ge p c g pos fs : stream p c g pos fs ->
  forall e, In e (fedits pos fs) -> pos <= e_pos e /\ e_end e <= length p.
Proof.
  induction 1 as [|g pos n r Hn Hl Hs IH|c pos i n r Hl Hn Hs IH]; cbn; intros e He.
  - contradiction.
  - apply IH in He; lia.
  - destruct He as [<-|He]; [cbn; lia|apply IH in He; lia].
Qed.
Lemma stream_edits_gt p c pos fs : stream p c false pos fs ->
  forall e, In e (fedits pos fs) -> pos < e_pos e.
Proof.
  intros H; inversion H as [|? ? n r Hn Hl Hs|]; subst; cbn; [contradiction|].
  intros e He; apply (stream_edits_ge _ _ _ _ _ Hs) in He; lia.
Qed.
Lemma stream_end p c g fs : stream p c g (length p) fs ->
  fs = [] \/ exists i, i <> [] /\ fs = [FChange i [] 0].
Proof.
  intros H; inversion H as [| |? ? i n r Hl Hn Hs]; subst; [now left|lia|].
  assert (n = 0) as -> by lia; right; exists i.
  destruct Hn as [Hn|Hn]; [lia|split; [exact Hn|]].
  rewrite Nat.add_0_r in Hs; rewrite Nat.add_0_r, seg_nil.
  inversion Hs; subst; [reflexivity|lia].
Qed.
Lemma stream_nil_pos p c g pos : stream p c g pos [] -> pos = length p.
Proof. now inversion 1. Qed.

(** splitting a copy *)
Lemma seg_firstn p pos n k : k <= n -> pos + n <= length p ->
  firstn k (seg p pos (pos + n)) = seg p pos (pos + k).
Proof.
  intros Hk Hl; rewrite (seg_app p pos (pos + k) (pos + n)) by lia.
  rewrite firstn_app, seg_length by lia; replace (k - (pos + k - pos)) with 0 by lia.
  rewrite firstn_O, app_nil_r; apply firstn_all2; rewrite seg_length; lia.
Qed.
Lemma seg_skipn p pos n k : k <= n -> pos + n <= length p ->
  skipn k (seg p pos (pos + n)) = seg p (pos + k) (pos + n).
Proof.
  intros Hk Hl; rewrite (seg_app p pos (pos + k) (pos + n)) by lia.
  rewrite skipn_app, seg_length by lia; replace (k - (pos + k - pos)) with 0 by lia.
  rewrite skipn_all2 by (rewrite seg_length; lia); reflexivity.
Qed.
Lemma copy_tail_stream p pos n r k g : k < n -> pos + n <= length p ->
  stream p false true (pos + n) r ->
  stream p true g (pos + k) (FCopy (skipn k (seg p pos (pos + n))) (n - k) :: r).
Proof.
  intros Hk Hl Hs; rewrite seg_skipn by lia.
  replace (pos + n) with (pos + k + (n - k)) by lia.
  apply S_copy; [lia|lia|]; now replace (pos + k + (n - k)) with (pos + n) by lia.
Qed.
Lemma change_tail_stream p pos n r k c : k < n -> pos + n <= length p ->
  stream p true false (pos + n) r ->
  stream p c true (pos + k) (FChange [] (skipn k (seg p pos (pos + n))) (n - k) :: r).
Proof.
  intros Hk Hl Hs; rewrite seg_skipn by lia.
  replace (pos + n) with (pos + k + (n - k)) by lia.
  apply S_change; [lia|left; lia|]; now replace (pos + k + (n - k)) with (pos + n) by lia.
Qed.

Lemma skipn_length_self (l : list T) : skipn (length l) l = [].
Proof. apply skipn_all. Qed.

(** ** The loop never runs out of fuel *)
Lemma process_count f0 f1 w o t0 t1 w' : @process_fragments T E f0 f1 w = (o, t0, t1, w') ->
  length (olist t0) + length (olist t1) <= 1.
Proof.
  intros H; assert (H' : t0 = snd (fst (fst (process_fragments f0 f1 w))) /\
                         t1 = snd (fst (process_fragments f0 f1 w))) by (rewrite H; auto).
  clear H; destruct H' as [-> ->].
  assert (B : forall (b : bool) (x : frag T), length (olist (if b then Some x else None)) <= 1)
    by (intros []; cbn; lia).
  assert (PC : forall g0 g1 : frag T, length (olist (snd (fst (pending_conflict g0 g1)))) +
               length (olist (snd (pending_conflict g0 g1))) <= 1).
  { intros g0 g1; unfold pending_conflict, split_fragment, split_copy_fragment, split_change_fragment.
    destruct g0 as [i0 n0|i0 d0 n0], g1 as [i1 n1|i1 d1 n1]; cbn [f_length fst snd];
      rewrite ?Nat.ltb_irrefl, ?orb_false_r;
      destruct (Nat.min_spec n0 n1) as [[Hm ->]|[Hm ->]];
      rewrite ?Nat.ltb_irrefl; cbn [olist length]; rewrite ?Nat.add_0_r; apply B. }
  destruct f0 as [i0 n0|i0 d0 n0], f1 as [i1 n1|i1 d1 n1]; cbn [process_fragments].
  - unfold copy_copy, split_copy_fragment; destruct (n0 <? n1); cbn [fst snd olist length]; [lia|].
    destruct (n1 =? n0); cbn [olist length]; [lia|rewrite Nat.add_0_r; apply B].
  - destruct w; [apply PC|]; unfold copy_change, split_change_fragment, split_copy_fragment.
    destruct (n1 =? _); cbn [fst snd olist length]; [|apply B].
    rewrite Nat.add_0_r; destruct (_ <? n0); cbn; lia.
  - destruct w; [apply PC|]; unfold copy_change, split_change_fragment, split_copy_fragment.
    destruct (n0 =? _); cbn [fst snd olist length].
    + destruct (_ <? n1); cbn; lia.
    + rewrite Nat.add_0_r; apply B.
  - destruct w; [apply PC|]; unfold change_change.
    destruct (has_composable_changes _ _ _ _).
    + unfold compose_changes; destruct (_ && _); cbn; lia.
    + destruct (are_identical_changes _ _ _ _ _ _); [cbn; lia|].
      unfold ordinary_conflict, split_change_fragment; cbn [fst snd].
      rewrite ?Nat.ltb_irrefl, ?orb_false_r.
      destruct (Nat.min_spec n0 n1) as [[Hm ->]|[Hm ->]];
      rewrite ?Nat.ltb_irrefl; cbn [olist length]; rewrite ?Nat.add_0_r; apply B.
Qed.

Lemma merge_loop_total fuel : forall fs0 fs1 w, length fs0 + length fs1 <= fuel ->
  exists out, @merge_loop T E fuel fs0 fs1 w = Some out.
Proof.
  induction fuel as [|fuel IH]; intros [|f0 r0] [|f1 r1] w Hf; cbn [merge_loop]; cbn in Hf; try lia; eauto.
  destruct (process_fragments f0 f1 w) as [[[o t0] t1] w'] eqn:Hp.
  apply process_count in Hp.
  destruct (IH (olist t0 ++ r0) (olist t1 ++ r1) w') as [out ->].
  { rewrite !app_length; lia. }
  eauto.
Qed.
End Streams.
