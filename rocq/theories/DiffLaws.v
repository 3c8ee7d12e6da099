(** Trivial diffs, independence of token identity, and recursion depth. *)
From Verif Require Import Base SpecSeq SpecDiff Strings Automaton AutomatonProofs AutomatonLcs
  Changesets ChangesetsProofs.

Section Trivial.
Context {T : Type} {E : Teq T} {O : TeqOk T}.
Implicit Types (o m : list T).

Lemma good_empty o m s1 e1 s2 e2 c : good o m s1 e1 s2 e2 c ->
  e1 <= s1 -> e2 <= s2 -> as_diff_stream o c = [] /\ cs_stream o c = [] /\ as_change_stream c = [].
Proof.
  intros G H1 H2; inversion G; subst; [|lia].
  unfold seg, slice; replace (e1 - s1) with 0 by lia; replace (e2 - s2) with 0 by lia; cbn; auto.
Qed.
Lemma self_lcs (x : list T) : is_first_lcs x x 0 0 (length x).
Proof.
  split; [split|].
  - split; [lia|]; split; [lia|reflexivity].
  - intros qa qb k [H _]; lia.
  - split; [auto|]; split; intros; lia.
Qed.
Lemma good_self (x : list T) c : good x x 0 (length x) 0 (length x) c -> x <> [] ->
  as_diff_stream x c = [DText x] /\ cs_stream x c = [FCopy x (length x)].
Proof.
  intros G Hx; inversion G as [s1 e1 s2 e2 os ms Hd _ _|s1 e1 s2 e2 pa pb l p s HL Hl Hb1 Hb2 Gp Gs]; subst.
  - exfalso; destruct x as [|t x]; [contradiction|].
    rewrite seg_all in Hd; apply (Hd t); now left.
  - rewrite seg_all in HL.
    destruct (is_first_lcs_unique _ _ _ _ _ _ _ _ HL (self_lcs x)) as [-> [-> ->]].
    destruct (good_empty _ _ _ _ _ _ _ Gp) as [P1 [P2 _]]; [lia|lia|].
    destruct (good_empty _ _ _ _ _ _ _ Gs) as [S1 [S2 _]]; [lia|lia|].
    cbn [as_diff_stream cs_stream]; rewrite P1, P2, S1, S2, sl_seg; cbn [eff app].
    rewrite !Nat.add_0_r, Nat.add_0_l, seg_all; auto.
Qed.
Theorem diff_self (x : list T) : diff_token_sequences x x = Ok (match x with [] => [] | _ => [DText x] end).
Proof.
  unfold diff_token_sequences; destruct (find_changeset_ok x x) as [c [-> G]]; cbn [bind].
  f_equal; destruct x as [|t x].
  - apply (good_empty _ _ _ _ _ _ _ G); cbn; lia.
  - now apply good_self.
Qed.
Lemma good_disjoint o m c : good o m 0 (length o) 0 (length m) c -> disjoint o m ->
  exists os ms, c = CLeaf o m os ms.
Proof.
  intros G Hd; inversion G as [s1 e1 s2 e2 os ms _ _ _|s1 e1 s2 e2 pa pb l p s HL Hl Hb1 Hb2 Gp Gs]; subst.
  - rewrite !seg_all; eauto.
  - rewrite !seg_all in HL; apply disjoint_lcs in HL; [lia|exact Hd].
Qed.
Theorem diff_disjoint o m : disjoint o m ->
  diff_token_sequences o m = Ok (match o, m with [], [] => [] | _, _ => [DChange m o] end).
Proof.
  intros Hd; unfold diff_token_sequences; destruct (find_changeset_ok o m) as [c [-> G]]; cbn [bind].
  destruct (good_disjoint o m c G Hd) as [os [ms ->]]; cbn [as_diff_stream].
  destruct o, m; reflexivity.
Qed.
End Trivial.

(** ** Renaming *)
Section Rename.
Context {A B : Type} {EA : Teq A} {OA : TeqOk A} {EB : Teq B} {OB : TeqOk B}.
Variable f : A -> B.
Hypothesis Hf : forall x y, f x = f y -> x = y.

Lemma map_inj (l1 l2 : list A) : map f l1 = map f l2 -> l1 = l2.
Proof.
  revert l2; induction l1 as [|x l1 IH]; intros [|y l2] H; try discriminate; [reflexivity|].
  cbn in H; injection H as H1 H2; f_equal; auto.
Qed.
Lemma slice_map (l : list A) p n : slice (map f l) p n = map f (slice l p n).
Proof. unfold slice; now rewrite <- firstn_map, skipn_map. Qed.
Lemma seg_map (l : list A) s e : seg (map f l) s e = map f (seg l s e).
Proof. apply slice_map. Qed.
Lemma sl_map (l : list A) s : sl (map f l) s = map f (sl l s).
Proof.
  unfold sl, pyslice; destruct (snd s); [now rewrite <- firstn_map, skipn_map|now rewrite skipn_map].
Qed.
Lemma common_run_map (a b : list A) pa pb l :
  common_run (map f a) (map f b) pa pb l <-> common_run a b pa pb l.
Proof.
  unfold common_run; rewrite !map_length, !slice_map; split; intros [H1 [H2 H3]]; repeat split; auto.
  - now apply map_inj.
  - now f_equal.
Qed.
Lemma is_first_lcs_map (a b : list A) pa pb l :
  is_first_lcs (map f a) (map f b) pa pb l <-> is_first_lcs a b pa pb l.
Proof.
  unfold is_first_lcs, is_lcs; split.
  - intros [[H1 H2] [H3 [H4 H5]]]; split; [split|split; [exact H3|split]].
    + now apply common_run_map.
    + intros; eapply H2; apply common_run_map; eauto.
    + intros; eapply H4; apply common_run_map; eauto.
    + intros; eapply H5; apply common_run_map; eauto.
  - intros [[H1 H2] [H3 [H4 H5]]]; split; [split|split; [exact H3|split]].
    + now apply common_run_map.
    + intros qa qb k H; eapply H2; apply common_run_map; eauto.
    + intros qa qb H; eapply H4; apply common_run_map; eauto.
    + intros qa H; eapply H5; apply common_run_map; eauto.
Qed.
Definition frag_map (x : frag A) : frag B :=
  match x with
  | FCopy i n => FCopy (map f i) n
  | FChange i d n => FChange (map f i) (map f d) n
  end.
Definition citem_map (x : citem A) : citem B :=
  match x with IChange a b => IChange (map f a) (map f b) | ICommon a b => ICommon a b end.

Lemma nonempty_map (l : list A) : nonempty (map f l) = nonempty l.
Proof. now destruct l. Qed.

Lemma good_map (o m : list A) s1 e1 s2 e2 c : good o m s1 e1 s2 e2 c ->
  forall c', good (map f o) (map f m) s1 e1 s2 e2 c' ->
  as_diff_stream (map f o) c' = map (ditem_map f) (as_diff_stream o c) /\
  cs_stream (map f o) c' = map frag_map (cs_stream o c) /\
  as_change_stream c' = map citem_map (as_change_stream c).
Proof.
  induction 1 as [s1 e1 s2 e2 os ms Hd _ _|s1 e1 s2 e2 pa pb l p s HL Hl Hb1 Hb2 Gp IHp Gs IHs]; intros c' G'.
  - inversion G' as [? ? ? ? os' ms' _ _ _|? ? ? ? pa pb l p s HL Hl Hb1 Hb2 Gp Gs]; subst.
    + cbn [as_diff_stream cs_stream as_change_stream].
      rewrite !seg_map, !nonempty_map, map_length.
      destruct (_ || _); cbn; auto.
    + rewrite !seg_map in HL; apply (proj1 (is_first_lcs_map _ _ _ _ _)) in HL.
      apply disjoint_lcs in HL; [lia|exact Hd].
  - inversion G' as [? ? ? ? os' ms' Hd _ _|? ? ? ? pa' pb' l' p' s' HL' Hl' Hb1' Hb2' Gp' Gs']; subst.
    + exfalso; rewrite !seg_map in Hd.
      apply (proj2 (is_first_lcs_map _ _ _ _ _)) in HL.
      apply disjoint_lcs in HL; [lia|exact Hd].
    + rewrite !seg_map in HL'; apply (proj1 (is_first_lcs_map _ _ _ _ _)) in HL'.
      destruct (is_first_lcs_unique _ _ _ _ _ _ _ _ HL HL') as [<- [<- <-]].
      destruct (IHp _ Gp') as [P1 [P2 P3]]; destruct (IHs _ Gs') as [S1 [S2 S3]].
      cbn [as_diff_stream cs_stream as_change_stream].
      rewrite P1, P2, P3, S1, S2, S3, !map_app, sl_map, map_length; auto.
Qed.
Theorem diff_map (o m : list A) d : diff_token_sequences o m = Ok d ->
  diff_token_sequences (map f o) (map f m) = Ok (map (ditem_map f) d).
Proof.
  unfold diff_token_sequences.
  destruct (find_changeset_ok o m) as [c [-> G]]; destruct (find_changeset_ok (map f o) (map f m)) as [c' [-> G']].
  cbn [bind]; intros H; injection H as <-; f_equal.
  rewrite !map_length in G'; now apply (good_map _ _ _ _ _ _ _ G).
Qed.
End Rename.

(** two correct trees give the same streams *)
Lemma good_unique {T} {E : Teq T} {O : TeqOk T} (o m : list T) s1 e1 s2 e2 c c' :
  good o m s1 e1 s2 e2 c -> good o m s1 e1 s2 e2 c' ->
  as_diff_stream o c = as_diff_stream o c' /\ cs_stream o c = cs_stream o c' /\
  as_change_stream c = as_change_stream c'.
Proof.
  intros G G'.
  assert (Hid : forall l : list T, map (fun x => x) l = l) by (intros; apply map_id).
  destruct (good_map (fun x => x) (fun x y H => H) o m s1 e1 s2 e2 c G c') as [H1 [H2 H3]].
  { now rewrite !Hid. }
  rewrite Hid in *; rewrite H1, H2, H3; split; [|split]; symmetry.
  - rewrite <- (map_id (as_diff_stream o c)) at 2; apply map_ext; intros [|]; cbn; now rewrite !Hid.
  - rewrite <- (map_id (cs_stream o c)) at 2; apply map_ext; intros [|]; cbn; now rewrite !Hid.
  - rewrite <- (map_id (as_change_stream c)) at 2; apply map_ext; intros [|]; cbn; now rewrite ?Hid.
Qed.

(** ** Recursion depth *)
Section Depth.
Context {T : Type} {E : Teq T} {O : TeqOk T}.
Lemma find_changeset_err d : forall (o m : list T) os ms e,
  find_changeset_lim d o m os ms = Err e -> e = RecursionError.
Proof.
  induction d as [|d IH]; intros o m os ms e H; cbn [find_changeset_lim] in H; [now injection H as <-|].
  destruct (find_lcs_ok (sl o os) (sl m ms)) as [pa [pb [l [HF _]]]]; rewrite HF in H.
  destruct (l =? 0); [discriminate|].
  destruct (find_changeset_lim d o m (fst os, Some (fst os + pa)) (fst ms, Some (fst ms + pb))) as [p|e1] eqn:Hp; cbn [bind] in H.
  - destruct (find_changeset_lim d o m (fst os + pa + l, snd os) (fst ms + pb + l, snd ms)) as [s|e2] eqn:Hs; cbn [bind] in H; [discriminate|].
    injection H as <-; eauto.
  - injection H as <-; eauto.
Qed.
End Depth.

Fixpoint comb (r i k : nat) : list nat :=
  match k with 0 => [] | S k' => (3 * i + r) :: (3 * i) :: comb r (S i) k' end.
Lemma comb_skip r : forall j i k, j <= k -> skipn (2 * j) (comb r i k) = comb r (i + j) (k - j).
Proof.
  induction j as [|j IH]; intros i k H.
  - cbn; now rewrite Nat.add_0_r, Nat.sub_0_r.
  - destruct k as [|k]; [lia|]; replace (2 * S j) with (S (S (2 * j))) by lia.
    cbn [skipn comb]; rewrite IH by lia.
    replace (S i + j) with (i + S j) by lia; reflexivity.
Qed.
Lemma comb_nth r : forall k i p x, nth_error (comb r i k) p = Some x ->
  exists j, (p = 2 * j /\ x = 3 * (i + j) + r) \/ (p = 2 * j + 1 /\ x = 3 * (i + j)).
Proof.
  induction k as [|k IH]; intros i p x H; cbn in H; [destruct p; discriminate|].
  destruct p as [|[|p]]; cbn in H.
  - injection H as <-; exists 0; left; lia.
  - injection H as <-; exists 0; right; lia.
  - destruct (IH (S i) p x H) as [j [[-> ->]|[-> ->]]]; exists (S j); [left|right]; lia.
Qed.
Lemma nth_error_slice {A} (l : list A) p n j : j < n -> nth_error (slice l p n) j = nth_error l (p + j).
Proof.
  unfold slice; intros H; revert l j n H; induction p as [|p IH]; intros l j n H; cbn.
  - revert l j H; induction n as [|n IHn]; intros l j H; [lia|].
    destruct l as [|x l]; cbn; [destruct j; reflexivity|destruct j; cbn; [reflexivity|apply IHn; lia]].
  - destruct l as [|x l]; [rewrite firstn_nil; destruct j; reflexivity|apply IH; exact H].
Qed.
Lemma comb_lcs i k : is_first_lcs (comb 1 i (S k)) (comb 2 i (S k)) 1 1 1.
Proof.
  assert (HN : forall qa qb n j, common_run (comb 1 i (S k)) (comb 2 i (S k)) qa qb n -> j < n ->
     exists x, nth_error (comb 1 i (S k)) (qa + j) = Some x /\ nth_error (comb 2 i (S k)) (qb + j) = Some x).
  { intros qa qb n j [H1 [H2 H3]] Hj.
    rewrite <- (nth_error_slice _ qa n j Hj), <- (nth_error_slice _ qb n j Hj), <- H3.
    destruct (nth_error (slice (comb 1 i (S k)) qa n) j) as [x|] eqn:Hx; [eauto|].
    apply nth_error_None in Hx; rewrite slice_length in Hx; lia. }
  split; [split|split; [discriminate|split]].
  - split; [cbn [comb length]; lia|]; split; [cbn [comb length]; lia|reflexivity].
  - intros qa qb n Hc; destruct n as [|[|n]]; [lia|lia|exfalso].
    destruct (HN _ _ _ 0 Hc) as [x [X1 X2]]; [lia|]; destruct (HN _ _ _ 1 Hc) as [y [Y1 Y2]]; [lia|].
    apply comb_nth in X1, X2, Y1, Y2; destruct X1 as [a X1], X2 as [b X2], Y1 as [c Y1], Y2 as [d Y2]; lia.
  - intros qa qb Hc; destruct (HN _ _ _ 0 Hc) as [x [X1 X2]]; [lia|].
    apply comb_nth in X1, X2; destruct X1 as [a X1], X2 as [b X2]; lia.
  - intros qa Hc; destruct (HN _ _ _ 0 Hc) as [x [X1 X2]]; [lia|].
    apply comb_nth in X1, X2; destruct X1 as [a X1], X2 as [b X2]; lia.
Qed.
Lemma comb_deep n : forall d i, d <= n - i -> i <= n ->
  find_changeset_lim d (comb 1 0 n) (comb 2 0 n) (2 * i, None) (2 * i, None) = Err RecursionError.
Proof.
  induction d as [|d IH]; intros i H1 H2; [reflexivity|].
  cbn [find_changeset_lim]; unfold sl, pyslice; cbn [fst snd].
  rewrite !comb_skip by lia; cbn [Nat.add].
  destruct (n - i) as [|k] eqn:Hk; [lia|].
  destruct (find_lcs_ok (comb 1 i (S k)) (comb 2 i (S k))) as [pa [pb [l [-> HL]]]].
  destruct (is_first_lcs_unique _ _ _ _ _ _ _ _ HL (comb_lcs i k)) as [-> [-> ->]].
  cbn [Nat.eqb].
  destruct (find_changeset_lim d _ _ (2 * i, Some (2 * i + 1)) (2 * i, Some (2 * i + 1))) as [p|e] eqn:Hp; cbn [bind].
  - replace (2 * i + 1 + 1) with (2 * S i) by lia; rewrite IH by lia; reflexivity.
  - f_equal; exact (find_changeset_err _ _ _ _ _ _ Hp).
Qed.
Theorem depth_unbounded : forall limit, exists o m : list nat,
  find_changeset_lim limit o m (0, None) (0, None) = Err RecursionError.
Proof. intros d; exists (comb 1 0 d), (comb 2 0 d); apply (comb_deep d d 0); lia. Qed.

Theorem depth_bound {T} {E : Teq T} {O : TeqOk T} (o m : list T) limit :
  Nat.min (length o) (length m) < limit ->
  exists c, find_changeset_lim limit o m (0, None) (0, None) = Ok c /\
            good o m 0 (length o) 0 (length m) c.
Proof.
  intros H; destruct (find_changeset_good limit o m 0 None 0 None) as [c Hc]; cbn [eff]; try lia.
  exists c; exact Hc.
Qed.
