(** Merging a branch with a single edit (C113), and two branches that append (C114). *)
From Coq Require Import Lia.
From Verif Require Import Base Strings SpecSeq Changesets SpecDiff ChangesetsProofs DiffLaws DiffProofs SpecInsert DiffInsert Merge SpecMerge MergeStreams MergeSteps MergeUnion MergeLaws SpecEdits SpecPlace MergePlace MergeSame.
Import SpecInsert.

Section One.
Context {T : Type} {E : Teq T} {O : TeqOk T}.

Lemma edits_kept (b : list T) pos : edits pos (kept b) = [].
Proof. now destruct b. Qed.
Lemma edits_single (a x y b : list T) : edits 0 (kept a ++ DChange x y :: kept b) = [((length a, x, length y) : edit T)].
Proof. destruct a; cbn [kept app edits]; now rewrite edits_kept. Qed.
Lemma before_kept (a : list T) : diff_before (kept a) = a.
Proof. destruct a; [reflexivity|]. cbn. now rewrite app_nil_r. Qed.
Lemma before_single (a x y b : list T) : diff_before (kept a ++ DChange x y :: kept b) = a ++ y ++ b.
Proof. unfold diff_before. rewrite flat_map_app. cbn [flat_map]. fold (diff_before (kept a)). fold (diff_before (kept b)). now rewrite !before_kept. Qed.
Lemma compatible_far (i n : nat) (x : list T) e : compatible_edits (i, x, n) e -> e <> (i, x, n) -> far i x n e.
Proof.
  unfold compatible_edits, far, e_end, e_pos, e_ins, e_len; cbn [fst snd]. intros H N.
  destruct H as [H|[H|[H|[H1 H2]]]]; [elim N; now symmetry|right; left; exact H|left; exact H|right; right].
  split; [congruence|]. destruct H2 as [H2|[H2 H3]]; auto.
Qed.
Lemma middle (a y b : list T) : seg (a ++ y ++ b) (length a) (length a + length y) = y.
Proof.
  unfold seg, slice. replace (length a + length y - length a) with (length y) by lia.
  rewrite skipn_app, skipn_all, Nat.sub_diag. cbn [app skipn]. rewrite firstn_app, firstn_all, Nat.sub_diag. cbn. apply app_nil_r.
Qed.

(** C113 *)
Theorem merge_one_edit k (p b0 b1 a x y b : list T) d1 :
  diff_token_sequences p b0 = Ok (kept a ++ DChange x y :: kept b) -> diff_token_sequences p b1 = Ok d1 ->
  (forall e, In e (edits 0 d1) -> compatible_edits (length a, x, length y) e /\ e <> (length a, x, length y)) ->
  exists u v, upto d1 (length (a ++ y)) = u ++ y /\ b1 = u ++ y ++ v /\
    merge_token_sequence k p b0 b1 = Ok [DText (u ++ x ++ v)] /\
    merge_token_sequence k p b1 b0 = Ok [DText (u ++ x ++ v)].
Proof.
  intros D0 D1 H.
  destruct (diff_accounts p b0) as (d & D & B & _). rewrite D0 in D. injection D as <-. rewrite before_single in B.
  destruct (diff_ok p b1) as (d & D & A & S). rewrite D1 in D. injection D as <-.
  assert (C : compatible (edits 0 (kept a ++ DChange x y :: kept b)) (edits 0 d1)).
  { rewrite edits_single. intros e0 e1 [<-|[]] I1. now apply H. }
  assert (L : length a + length y <= length p) by (rewrite <- B, !app_length; lia).
  destruct (one_place p (length a) x (length y) (edits 0 d1) L) as (z & v & H1 & H2 & H3 & H4).
  { intros e He. destruct (H e He) as [H1 H2]. now apply compatible_far. }
  rewrite (cells_upto p d1 true true 0 _ S) in H1 by lia.
  rewrite (cells_upto p d1 true true 0 _ S) in H1, H3, H4 by lia.
  assert (M : seg p (length a) (length a + length y) = y) by (rewrite <- B; apply middle). rewrite M in H1, H3.
  unfold union_text in H3. rewrite <- (fedits_frag_of d1 0), (union_nil_l p true true 0 _ S), ftext_frag_of, A in H3.
  exists (upto d1 (length a) ++ z), v. rewrite app_length, <- !app_assoc.
  split; [exact H1|]. split; [exact H3|].
  assert (R : merge_token_sequence k p b0 b1 = Ok [DText (upto d1 (length a) ++ z ++ x ++ v)]).
  { rewrite (merge_union k p b0 b1 _ _ D0 D1 C), edits_single. do 3 f_equal. exact H4. }
  split; [exact R|]. destruct (merge_symmetric k p b0 b1 _ _ D0 D1 C) as (r & R0 & R1).
  rewrite R in R0. injection R0 as <-. exact R1.
Qed.

Lemma ins_unique (p : list T) c g pos fs i x n : stream p c g pos fs -> In (i, x, n) (fedits pos fs) -> ins_at (fedits pos fs) i = x.
Proof.
  induction 1 as [|g pos m r Hn Hl Hs IH|c pos j m r Hl Hn Hs IH]; cbn [fedits]; intros I.
  - destruct I.
  - now apply IH.
  - assert (A := stream_above_S _ _ _ _ Hs). change (ins_at (@cons (edit T) (pos, j, m) (fedits (pos + m) r)) i = x). rewrite ins_at_cons. destruct I as [I|I].
    + injection I as -> -> ->. unfold e_pos, e_ins; cbn [fst snd]. rewrite Nat.eqb_refl, (above_ins (S (i + n)) (fedits (i + n) r)); [apply app_nil_r|exact A|lia].
    + specialize (A _ I) as A'. unfold e_pos in A' |- *; cbn [fst snd] in A' |- *. destruct (Nat.eqb_spec pos i); [lia|]. now apply IH.
Qed.
Lemma removed_in es (i n j : nat) (x : list T) : In (i, x, n) es -> i <= j < i + n -> SpecMerge.removed es j = true.
Proof.
  intros I H. apply existsb_exists. exists (i, x, n). split; [exact I|]. unfold e_end, e_pos, e_len; cbn [fst snd].
  destruct (Nat.leb_spec i j), (Nat.ltb_spec j (i + n)); auto; lia.
Qed.
(** an edit the other branch has too *)
Theorem merge_shared_edit k (p b0 b1 a x y b : list T) d1 :
  diff_token_sequences p b0 = Ok (kept a ++ DChange x y :: kept b) -> diff_token_sequences p b1 = Ok d1 ->
  In (length a, x, length y) (edits 0 d1) ->
  merge_token_sequence k p b0 b1 = Ok [DText b1] /\ merge_token_sequence k p b1 b0 = Ok [DText b1].
Proof.
  intros D0 D1 H.
  destruct (diff_ok p b1) as (d & D & A & S). rewrite D1 in D. injection D as <-.
  assert (C : compatible (edits 0 (kept a ++ DChange x y :: kept b)) (edits 0 d1)).
  { rewrite edits_single. intros e0 e1 [<-|[]] I1. rewrite <- (fedits_frag_of d1 0) in *. eapply self_compatible; eassumption. }
  assert (R : merge_token_sequence k p b0 b1 = Ok [DText b1]).
  { rewrite (merge_union k p b0 b1 _ _ D0 D1 C), edits_single. do 3 f_equal.
    rewrite <- A, <- ftext_frag_of, <- (union_nil_l p true true 0 _ S), fedits_frag_of. unfold union_text.
    apply union_ext. intros j _. unfold ucell. rewrite one_ins, one_removed. change (ins_at [] j) with (@nil T).
    change (SpecMerge.removed [] j) with false. rewrite both_ins_nil_l. cbn [orb]. f_equal.
    - destruct (Nat.eqb_spec (length a) j) as [<-|]; [|now rewrite both_ins_nil_l].
      rewrite <- (fedits_frag_of d1 0) in *. rewrite (ins_unique p true true 0 _ _ _ _ S H). apply both_ins_same.
    - destruct (Nat.leb_spec (length a) j), (Nat.ltb_spec j (length a + length y)); try reflexivity.
      cbn [andb orb]. now rewrite (removed_in _ _ _ j _ H) by lia. }
  split; [exact R|]. destruct (merge_symmetric k p b0 b1 _ _ D0 D1 C) as (r & R0 & R1).
  rewrite R in R0. injection R0 as <-. exact R1.
Qed.

(** ** appending *)
Lemma edits_app (d d' : list (ditem T)) : forall pos, edits pos (d ++ d') = edits pos d ++ edits (pos + length (diff_before d)) d'.
Proof.
  induction d as [|[t|x y] d IH]; intros pos; cbn [app edits diff_before flat_map length].
  - now rewrite Nat.add_0_r.
  - fold (diff_before d). rewrite IH, app_length, Nat.add_assoc. reflexivity.
  - fold (diff_before d). rewrite IH, app_length, Nat.add_assoc. reflexivity.
Qed.
Lemma upto_zero (d : list (ditem T)) : upto d 0 = [].
Proof. now destruct d. Qed.
Lemma upto_all (d : list (ditem T)) : forall n, n = length (diff_before d) -> normal_diff d ->
  (forall q d', d = d' ++ [DChange q []] -> False) -> upto d n = diff_after d.
Proof.
  induction d as [|i d IH]; intros n Hn [A F] H; cbn in Hn; [now subst|].
  inversion F as [|? ? Fi Fd]; subst x l. pose proof (MergeConsolidate.alternating_tl' _ _ A) as A'.
  assert (H' : forall q d', d = d' ++ [DChange q []] -> False) by (intros q d' ->; apply (H q (i :: d')); reflexivity).
  destruct i as [t|x y]; rewrite app_length in Hn; fold (diff_before d) in Hn.
  - destruct t as [|z t]; [now elim Fi|]. destruct n as [|n]; [cbn in Hn; lia|]. cbn [upto diff_after flat_map].
    rewrite firstn_all2 by (cbn in *; lia). f_equal. apply IH; [cbn in *; lia|now split|exact H'].
  - cbn [diff_after flat_map]. destruct n as [|n].
    + destruct y; [|discriminate]. destruct d as [|[t|x' y'] d].
      * exfalso. apply (H x []). reflexivity.
      * cbn in Hn. inversion Fd as [|? ? Ft _]; subst. destruct t; [now elim Ft|discriminate].
      * destruct (A 0 _ _ eq_refl eq_refl) as [[(? & Q) _]|[_ (? & Q)]]; discriminate.
    + cbn [upto]. f_equal. apply IH; [lia|now split|exact H'].
Qed.
Lemma edits_end d (L : nat) : forall pos, pos + length (diff_before d) = L -> normal_diff d -> (forall q d', d = d' ++ [DChange q []] -> False) ->
  forall e : edit T, In e (edits pos d) -> e_pos e < L /\ e_end e <= L.
Proof.
  induction d as [|i d IH]; intros pos Hn [A F] H e I; [destruct I|].
  inversion F as [|? ? Fi Fd]; subst x l. pose proof (MergeConsolidate.alternating_tl' _ _ A) as A'.
  assert (H' : forall q d', d = d' ++ [DChange q []] -> False) by (intros q d' ->; apply (H q (i :: d')); reflexivity).
  cbn [diff_before flat_map] in Hn. fold (diff_before d) in Hn.
  destruct i as [t|x y]; rewrite app_length in Hn; cbn [edits] in I.
  - apply (IH (pos + length t)); [lia|now split|exact H'|exact I].
  - destruct I as [<-|I].
    + unfold e_end, e_pos, e_len; cbn [fst snd]. split; [|lia]. destruct y as [|z y]; [|cbn in Hn; lia].
      destruct d as [|[t|x' y'] d].
      * exfalso. apply (H x []). reflexivity.
      * inversion Fd as [|? ? Ft _]; subst. destruct t; [now elim Ft|]. cbn. lia.
      * destruct (A 0 _ _ eq_refl eq_refl) as [[(? & Q) _]|[_ (? & Q)]]; discriminate.
    + apply (IH (pos + length y)); [lia|now split|exact H'|exact I].
Qed.

Theorem merge_append k (p q b1 : list T) d1 : diff_token_sequences p b1 = Ok d1 ->
  (forall q1 d, d1 = d ++ [DChange q1 []] -> False) ->
  merge_token_sequence k p (p ++ q) b1 = Ok [DText (b1 ++ q)] /\
  merge_token_sequence k p b1 (p ++ q) = Ok [DText (b1 ++ q)].
Proof.
  intros D1 H. destruct q as [|z q].
  { rewrite !app_nil_r. split; [apply merge_left|apply merge_right]. }
  pose proof (diff_appended p (z :: q)) as [D0 _]. cbn [inserted] in D0.
  destruct (diff_accounts p b1) as (d & D & B & A). rewrite D1 in D. injection D as <-.
  destruct (diff_normal p b1) as (d & D & N). rewrite D1 in D. injection D as <-.
  change [DChange (z :: q) []] with (DChange (z :: q) [] :: kept (@nil T)) in D0.
  destruct (merge_one_edit k p _ b1 p (z :: q) [] [] d1 D0 D1) as (u & v & H1 & H2 & H3 & H4).
  { intros e He. pose proof (edits_end d1 (length p) 0 ltac:(cbn; now rewrite B) N H e He) as [P1 P2]. split.
    - right; right; left. unfold e_end, e_pos, e_len in *; cbn [fst snd] in *. lia.
    - intros ->. unfold e_pos in P1; cbn [fst snd] in P1. lia. }
  rewrite app_nil_r in H1. rewrite app_nil_r, (upto_all d1) in H1; [|now rewrite B|exact N|exact H]. rewrite A in H1.
  cbn [app] in H2. rewrite H1 in H2. assert (v = []) as ->.
  { apply (f_equal (@length T)) in H2. rewrite app_length in H2. destruct v; [reflexivity|cbn in H2; lia]. }
  rewrite app_nil_r in *. subst u. split; [exact H3|exact H4].
Qed.

Theorem merge_appends k (p q0 q1 : list T) d : q0 <> q1 -> q0 <> [] -> q1 <> [] -> diff_token_sequences q1 q0 = Ok d ->
  merge_token_sequence k p (p ++ q0) (p ++ q1) = Ok (join_texts (kept p ++ d)).
Proof.
  intros H N0 N1 D. pose proof (diff_appended p q0) as [D0 _]. pose proof (diff_appended p q1) as [D1 _].
  destruct q0 as [|z0 q0]; [contradiction|]. destruct q1 as [|z1 q1]; [contradiction|]. cbn [inserted] in D0, D1.
  pose proof (merge_rewrites k p _ _ p [] (z0 :: q0) (z1 :: q1) [] d D0 D1 H D) as R. cbn [kept] in R. rewrite app_nil_r in R. exact R.
Qed.

Lemma join_conflict (d : list (ditem T)) a b : In (DChange a b) (join_texts d) <-> In (DChange a b) d.
Proof.
  induction d as [|[t|x y] d IH]; [reflexivity| |].
  - cbn [join_texts]. destruct (join_texts d) as [|[t'|x y] r]; cbn [In] in *; rewrite <- IH; intuition congruence.
  - cbn [join_texts In]. now rewrite IH.
Qed.
Lemma all_texts (d : list (ditem T)) : no_conflict d -> diff_before d = diff_after d.
Proof.
  induction d as [|[t|x y] d IH]; intros H; [reflexivity| |].
  - cbn. fold (diff_before d) (diff_after d). rewrite IH; [reflexivity|]. intros a b I. apply (H a b). now right.
  - exfalso. apply (H x y). now left.
Qed.
Theorem rewrites_conflict k p b0 b1 a b (x0 x1 y : list T) :
  diff_token_sequences p b0 = Ok (kept a ++ DChange x0 y :: kept b) ->
  diff_token_sequences p b1 = Ok (kept a ++ DChange x1 y :: kept b) -> x0 <> x1 ->
  exists r, merge_token_sequence k p b0 b1 = Ok r /\ ~ no_conflict r.
Proof.
  intros D0 D1 H. destruct (diff_accounts x1 x0) as (d & D & B & A).
  exists (join_texts (kept a ++ d ++ kept b)). split; [now apply (merge_rewrites k p b0 b1 a b x0 x1 y)|].
  intros N. apply H. rewrite <- B, <- A. symmetry. apply all_texts. intros c c' I. apply (N c c').
  apply join_conflict. rewrite !in_app_iff. auto.
Qed.
End One.
