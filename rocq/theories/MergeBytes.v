(** When the merge of bytes raises TypeError (C16). *)
From Verif Require Import Base Strings SpecSeq AutomatonProofs Changesets SpecDiff ChangesetsProofs DiffLaws DiffProofs Merge SpecMerge SpecClash MergeStreams MergeSteps MergeUnion MergeConsolidate MergeProofs MergeLaws EditsOrder MergeSwap.

Section Bytes.
Context {T : Type} {E : Teq T} {O : TeqOk T}.

(** ** What a stream does at a position *)
Definition view := nat -> option (list T * nat).
Fixpoint look (pos : nat) (fs : list (frag T)) (s : nat) : option (list T * nat) :=
  match fs with
  | [] => None
  | FCopy _ n :: r => if s <? pos + n then None else look (pos + n) r s
  | FChange i _ n :: r => if s =? pos then Some (i, n) else if s <? pos + n then Some ([], pos + n - s) else look (pos + n) r s
  end.

Definition vfit (a b : list T * nat) : Prop :=
  a = b \/ (snd a = 0 /\ fst b = []) \/ (snd b = 0 /\ fst a = []).
Definition vclash (L0 L1 : view) (s : nat) : Prop :=
  exists a b, L0 s = Some a /\ L1 s = Some b /\ ~ vfit a b.
Definition vrem (L : view) (j : nat) : Prop := exists i n, L j = Some (i, S n).
Definition vnoins (L : view) (x : nat) : Prop := forall i n, L x = Some (i, n) -> i = [].
Definition vlone (L0 L1 : view) (x : nat) : Prop := exists i, L0 x = Some (i, 0) /\ vnoins L1 x.
Definition vlonely L0 L1 x : Prop := vlone L0 L1 x \/ vlone L1 L0 x.
Definition vnone (L0 L1 : view) (s x : nat) : Prop := forall j, s <= j -> j < x -> vrem L0 j \/ vrem L1 j.

Definition B (pos : nat) (L0 L1 : view) : Prop :=
  exists s x, pos <= s /\ s < x /\ vclash L0 L1 s /\ vnone L0 L1 s x /\ vlonely L0 L1 x.
Definition Pd (pos : nat) (L0 L1 : view) : Prop :=
  exists x, pos <= x /\ vnone L0 L1 pos x /\ vlonely L0 L1 x.

Definition same_from (q : nat) (L L' : view) : Prop := forall s, q <= s -> L' s = L s.

Lemma clash_same q L0 L1 L0' L1' s : same_from q L0 L0' -> same_from q L1 L1' -> q <= s -> vclash L0' L1' s <-> vclash L0 L1 s.
Proof. intros H0 H1 Hs; unfold vclash; now rewrite (H0 s Hs), (H1 s Hs). Qed.
Lemma rem_same q L L' j : same_from q L L' -> q <= j -> vrem L' j <-> vrem L j.
Proof. intros H Hs; unfold vrem; now rewrite (H j Hs). Qed.
Lemma lonely_same q L0 L1 L0' L1' s : same_from q L0 L0' -> same_from q L1 L1' -> q <= s -> vlonely L0' L1' s <-> vlonely L0 L1 s.
Proof. intros H0 H1 Hs; unfold vlonely, vlone, vnoins; now rewrite (H0 s Hs), (H1 s Hs). Qed.
Lemma none_same q L0 L1 L0' L1' s x : same_from q L0 L0' -> same_from q L1 L1' -> q <= s -> vnone L0' L1' s x <-> vnone L0 L1 s x.
Proof.
  intros H0 H1 Hs; unfold vnone; split; intros H j J1 J2; specialize (H j J1 J2).
  - now rewrite (rem_same q L0 L0'), (rem_same q L1 L1') in H by (auto; lia).
  - now rewrite (rem_same q L0 L0'), (rem_same q L1 L1') by (auto; lia).
Qed.
Lemma B_same q L0 L1 L0' L1' : same_from q L0 L0' -> same_from q L1 L1' -> B q L0' L1' <-> B q L0 L1.
Proof.
  intros H0 H1; split; intros (s & x & A1 & A2 & A3 & A4 & A5); exists s, x; split; [exact A1|split; [exact A2|]| |split; [exact A2|]];
    rewrite ?(clash_same q L0 L1 L0' L1'), ?(none_same q L0 L1 L0' L1'), ?(lonely_same q L0 L1 L0' L1') in * by (auto; lia); auto.
Qed.
Lemma Pd_same q L0 L1 L0' L1' : same_from q L0 L0' -> same_from q L1 L1' -> Pd q L0' L1' <-> Pd q L0 L1.
Proof.
  intros H0 H1; split; intros (x & A1 & A2 & A3); exists x; (split; [exact A1|]);
    rewrite ?(none_same q L0 L1 L0' L1'), ?(lonely_same q L0 L1 L0' L1') in * by (auto; lia); auto.
Qed.

(** *** going on to a later position *)
Lemma B_skip pos pos' L0 L1 : pos <= pos' -> (forall s, pos <= s -> s < pos' -> ~ vclash L0 L1 s) -> B pos L0 L1 <-> B pos' L0 L1.
Proof.
  intros Hp HC; split; intros (s & x & A1 & A2 & A3 & A4 & A5); exists s, x; (split; [|auto]); [|lia].
  destruct (le_lt_dec pos' s); [assumption|]; now elim (HC s).
Qed.
Lemma none_cut L0 L1 s q x : vnone L0 L1 s x -> s <= q -> vnone L0 L1 q x.
Proof. intros H Hq j J1 J2; apply H; lia. Qed.
Lemma none_join L0 L1 s q x : vnone L0 L1 s q -> vnone L0 L1 q x -> vnone L0 L1 s x.
Proof. intros H1 H2 j J1 J2; destruct (le_lt_dec q j); [apply H2|apply H1]; lia. Qed.
Lemma B_open pos pos' L0 L1 : pos < pos' -> vclash L0 L1 pos -> vnone L0 L1 pos pos' ->
  (forall x, pos < x -> x < pos' -> ~ vlonely L0 L1 x) -> B pos L0 L1 <-> Pd pos' L0 L1 \/ B pos' L0 L1.
Proof.
  intros Hp HC HN HL; split.
  - intros (s & x & A1 & A2 & A3 & A4 & A5); destruct (le_lt_dec pos' s); [right; exists s, x; auto|left].
    exists x; assert (pos' <= x) by (destruct (le_lt_dec pos' x); [assumption|]; elim (HL x); auto; lia).
    split; [assumption|split; [|exact A5]]; apply (none_cut _ _ s); [exact A4|lia].
  - intros [(x & A1 & A2 & A3)|(s & x & A1 & A2 & A3)]; [exists pos, x|exists s, x; split; [lia|auto]].
    split; [lia|split; [lia|split; [exact HC|split; [|exact A3]]]]; now apply (none_join _ _ _ pos').
Qed.
Lemma Pd_skip pos pos' L0 L1 : pos < pos' -> vnone L0 L1 pos pos' ->
  (forall x, pos <= x -> x < pos' -> ~ vlonely L0 L1 x) -> Pd pos L0 L1 \/ B pos L0 L1 <-> Pd pos' L0 L1 \/ B pos' L0 L1.
Proof.
  intros Hp HN HL; split.
  - intros [(x & A1 & A2 & A3)|(s & x & A1 & A2 & A3 & A4 & A5)].
    + left; exists x; assert (pos' <= x) by (destruct (le_lt_dec pos' x); [assumption|]; now elim (HL x)).
      split; [assumption|split; [|exact A3]]; apply (none_cut _ _ pos); [exact A2|lia].
    + destruct (le_lt_dec pos' s); [right; exists s, x; auto|left].
      exists x; assert (pos' <= x) by (destruct (le_lt_dec pos' x); [assumption|]; elim (HL x); auto; lia).
      split; [assumption|split; [|exact A5]]; apply (none_cut _ _ s); [exact A4|lia].
  - intros [(x & A1 & A2 & A3)|(s & x & A1 & A2 & A3)]; [left; exists x|right; exists s, x; split; [lia|auto]].
    split; [lia|split; [|exact A3]]; now apply (none_join _ _ _ pos').
Qed.

(** *** staying at the position *)
Lemma B_after pos L0 L1 : ~ vclash L0 L1 pos -> B pos L0 L1 <-> B (S pos) L0 L1.
Proof. intros H; apply B_skip; [lia|]; intros s S1 S2; assert (s = pos) as -> by lia; exact H. Qed.
Lemma B_stay pos L0 L1 L0' L1' : same_from (S pos) L0 L0' -> same_from (S pos) L1 L1' ->
  ~ vclash L0 L1 pos -> ~ vclash L0' L1' pos -> B pos L0 L1 <-> B pos L0' L1'.
Proof. intros H0 H1 C C'; rewrite (B_after pos L0 L1), (B_after pos L0' L1') by assumption; symmetry; now apply B_same. Qed.
Definition Q (pos : nat) (L0 L1 : view) : Prop :=
  (vrem L0 pos \/ vrem L1 pos) /\ Pd (S pos) L0 L1.
Lemma Pd_after pos L0 L1 : ~ vlonely L0 L1 pos -> Pd pos L0 L1 <-> Q pos L0 L1.
Proof.
  intros HL; split.
  - intros (x & A1 & A2 & A3); assert (pos <> x) by (intros ->; auto).
    split; [apply A2; lia|exists x; split; [lia|split; [|exact A3]]]; apply (none_cut _ _ pos); [exact A2|lia].
  - intros [HR (x & A1 & A2 & A3)]; exists x; split; [lia|split; [|exact A3]].
    apply (none_join _ _ _ (S pos)); [|exact A2]; intros j J1 J2; assert (j = pos) as -> by lia; exact HR.
Qed.
Lemma B_start pos L0 L1 : vclash L0 L1 pos -> B pos L0 L1 <-> Q pos L0 L1 \/ B (S pos) L0 L1.
Proof.
  intros HC; split.
  - intros (s & x & A1 & A2 & A3 & A4 & A5).
    destruct (Nat.eq_dec s pos) as [->|N]; [left|right; exists s, x; split; [lia|auto]].
    split; [apply A4; lia|exists x; split; [lia|split; [|exact A5]]]; apply (none_cut _ _ pos); [exact A4|lia].
  - intros [[HR (x & A1 & A2 & A3)]|(s & x & A1 & A2)]; [exists pos, x|exists s, x; split; [lia|auto]].
    split; [lia|split; [lia|split; [exact HC|split; [|exact A3]]]].
    apply (none_join _ _ _ (S pos)); [|exact A2]; intros j J1 J2; assert (j = pos) as -> by lia; exact HR.
Qed.
Lemma Q_same pos L0 L1 L0' L1' : same_from (S pos) L0 L0' -> same_from (S pos) L1 L1' ->
  (vrem L0 pos \/ vrem L1 pos <-> vrem L0' pos \/ vrem L1' pos) -> Q pos L0' L1' <-> Q pos L0 L1.
Proof. intros H0 H1 HR; unfold Q; rewrite HR; now rewrite (Pd_same (S pos) L0 L1 L0' L1'). Qed.
(** both insert, or one inserts what it removes: nothing is left of one of them *)
Lemma open_stay pos L0 L1 L0' L1' : same_from (S pos) L0 L0' -> same_from (S pos) L1 L1' ->
  (vrem L0 pos \/ vrem L1 pos <-> vrem L0' pos \/ vrem L1' pos) ->
  ~ vclash L0' L1' pos -> ~ vlonely L0' L1' pos ->
  (vclash L0 L1 pos -> B pos L0 L1 <-> Pd pos L0' L1' \/ B pos L0' L1') /\
  (~ vlonely L0 L1 pos -> Pd pos L0 L1 \/ B pos L0 L1 <-> Pd pos L0' L1' \/ B pos L0' L1').
Proof.
  intros H0 H1 HR C' L'.
  assert (X : Pd pos L0' L1' \/ B pos L0' L1' <-> Q pos L0 L1 \/ B (S pos) L0 L1).
  { rewrite (Pd_after pos L0' L1'), (B_after pos L0' L1') by assumption.
    rewrite (Q_same pos L0 L1 L0' L1') by assumption; now rewrite (B_same (S pos) L0 L1 L0' L1'). }
  split.
  - intros C; rewrite X; now apply B_start.
  - intros NL; rewrite X, Pd_after by assumption; split; intros [A|A]; auto.
    + destruct A as (s & x & A1 & A2 & A3 & A4 & A5).
      destruct (Nat.eq_dec s pos) as [->|N]; [left|right; exists s, x; split; [lia|auto]].
      split; [apply A4; lia|exists x; split; [lia|split; [|exact A5]]]; apply (none_cut _ _ pos); [exact A4|lia].
    + right; destruct A as (s & x & A1 & A2); exists s, x; split; [lia|auto].
Qed.

(** ** The streams of the loop *)
Variable p : list T.
Notation cfrag := (cfrag p). Notation gfrag := (gfrag p). Notation ctail := (ctail p). Notation gtail := (gtail p).

Lemma look_none c pos fs : stream p c false pos fs -> look pos fs pos = None.
Proof.
  inversion 1; subst; [reflexivity|]; cbn [look].
  destruct (Nat.ltb_spec pos (pos + n)); [reflexivity|lia].
Qed.
Lemma look_copy pos n r s : s < pos + n -> look pos (cfrag pos n :: r) s = None.
Proof. intros H; unfold MergeSteps.cfrag; cbn [look]; destruct (Nat.ltb_spec s (pos + n)); [reflexivity|lia]. Qed.
Lemma look_change pos i n r : look pos (gfrag pos i n :: r) pos = Some (i, n).
Proof. unfold MergeSteps.gfrag; cbn [look]; now rewrite Nat.eqb_refl. Qed.
Lemma look_inside pos i n r s : pos < s -> s < pos + n -> look pos (gfrag pos i n :: r) s = Some ([], pos + n - s).
Proof.
  intros H1 H2; unfold MergeSteps.gfrag; cbn [look]; destruct (Nat.eqb_spec s pos); [lia|].
  destruct (Nat.ltb_spec s (pos + n)); [reflexivity|lia].
Qed.
Lemma look_rest pos i n r s : pos < s -> pos + n <= s -> look pos (gfrag pos i n :: r) s = look (pos + n) r s.
Proof.
  intros H1 H2; unfold MergeSteps.gfrag; cbn [look]; destruct (Nat.eqb_spec s pos); [lia|].
  destruct (Nat.ltb_spec s (pos + n)); [lia|reflexivity].
Qed.
Lemma look_ctail pos n k r s : k <= n -> pos + k <= s -> look (pos + k) (ctail pos n k r) s = look pos (cfrag pos n :: r) s.
Proof.
  intros Hk Hs; unfold MergeSteps.ctail, MergeSteps.cfrag; destruct (Nat.ltb_spec k n); cbn [look].
  - now replace (pos + k + (n - k)) with (pos + n) by lia.
  - assert (k = n) as -> by lia; destruct (Nat.ltb_spec s (pos + n)); [lia|reflexivity].
Qed.
Lemma look_gtail pos i n k r s : k <= n -> pos + k <= s -> pos < s ->
  look (pos + k) (gtail pos n k r) s = look pos (gfrag pos i n :: r) s.
Proof.
  intros Hk Hs Hp; unfold MergeSteps.gtail; destruct (Nat.ltb_spec k n).
  - destruct (le_lt_dec (pos + n) s).
    + rewrite look_rest by lia; cbn [look]; replace (pos + k + (n - k)) with (pos + n) by lia.
      destruct (Nat.eqb_spec s (pos + k)); [lia|]; destruct (Nat.ltb_spec s (pos + n)); [lia|reflexivity].
    + rewrite look_inside by lia; cbn [look]; replace (pos + k + (n - k)) with (pos + n) by lia.
      destruct (Nat.eqb_spec s (pos + k)); [f_equal; f_equal; lia|].
      destruct (Nat.ltb_spec s (pos + n)); [reflexivity|lia].
  - assert (k = n) as -> by lia; now rewrite look_rest by lia.
Qed.
Lemma look_gtail_0 pos n r : 0 < n -> look pos (gtail pos n 0 r) pos = Some ([], n).
Proof. intros H; unfold MergeSteps.gtail; destruct (Nat.ltb_spec 0 n); [|lia]; cbn [look]; now rewrite Nat.eqb_refl, Nat.sub_0_r. Qed.

Definition lit (x : ofrag T) : Prop := match x with OConf a b => a = None \/ b = None | OFrag _ => False end.
Definition lits (l : list (ofrag T)) : Prop := exists x, In x l /\ lit x.
Lemma lits_app a b : lits (a ++ b) <-> lits a \/ lits b.
Proof.
  unfold lits; split.
  - intros [x [Hx L]]; apply in_app_iff in Hx; destruct Hx; eauto.
  - intros [[x [Hx L]]|[x [Hx L]]]; exists x; (split; [apply in_app_iff; auto|exact L]).
Qed.
Lemma lits_one x : lits [x] <-> lit x.
Proof. unfold lits; split; [intros [y [[<-|[]] L]]; exact L|intros L; exists x; cbn; auto]. Qed.
Lemma lits_none : ~ lits [].
Proof. intros [x [[] _]]. Qed.

Definition badw (w : bool) pos fs0 fs1 : Prop :=
  (w = true /\ Pd pos (look pos fs0) (look pos fs1)) \/ B pos (look pos fs0) (look pos fs1).

Lemma noclash_l (L0 L1 : view) s : L0 s = None -> ~ vclash L0 L1 s.
Proof. intros H (a & b & A & _); congruence. Qed.
Lemma noclash_r (L0 L1 : view) s : L1 s = None -> ~ vclash L0 L1 s.
Proof. intros H (a & b & _ & A & _); congruence. Qed.
Lemma nolonely (L0 L1 : view) x : (forall i, L0 x = Some (i, 0) -> ~ vnoins L1 x) -> (forall i, L1 x = Some (i, 0) -> ~ vnoins L0 x) ->
  ~ vlonely L0 L1 x.
Proof. intros H0 H1 [[i [A1 A2]]|[i [A1 A2]]]; [now apply (H0 i)|now apply (H1 i)]. Qed.
Lemma pend0_lit pos i0 n0 n1 o t0 t1 w' : 0 < n1 -> (0 < n0 \/ i0 <> []) ->
  process_fragments (gfrag pos i0 n0) (cfrag pos n1) true = (o, t0, t1, w') -> lits (olist o) <-> n0 = 0.
Proof.
  intros Hn Hi HP; cbn [process_fragments] in HP.
  unfold pending_conflict, MergeSteps.gfrag, MergeSteps.cfrag in HP; cbn [f_length split_fragment] in HP.
  unfold split_copy_fragment, split_change_fragment in HP; injection HP as <- _ _ _.
  cbn [olist]; rewrite lits_one, firstn_all; cbn [lit].
  destruct (Nat.ltb_spec 0 (Nat.min n0 n1)); cbn [orb].
  - split; [intros [C|C]; discriminate|lia].
  - split; [intros _; lia|intros _; auto].
Qed.
Lemma pend1_lit pos n0 i1 n1 o t0 t1 w' : 0 < n0 -> (0 < n1 \/ i1 <> []) ->
  process_fragments (cfrag pos n0) (gfrag pos i1 n1) true = (o, t0, t1, w') -> lits (olist o) <-> n1 = 0.
Proof.
  intros Hn Hi HP; cbn [process_fragments] in HP.
  unfold pending_conflict, MergeSteps.gfrag, MergeSteps.cfrag in HP; cbn [f_length split_fragment] in HP.
  unfold split_copy_fragment, split_change_fragment in HP; injection HP as <- _ _ _.
  cbn [olist]; rewrite lits_one, firstn_all; cbn [lit].
  destruct (Nat.ltb_spec 0 (Nat.min n0 n1)); cbn [orb].
  - split; [intros [C|C]; discriminate|lia].
  - split; [intros _; lia|intros _; auto].
Qed.
Lemma pend2_lit pos i0 n0 i1 n1 o t0 t1 w' : (0 < n0 \/ i0 <> []) -> (0 < n1 \/ i1 <> []) ->
  process_fragments (gfrag pos i0 n0) (gfrag pos i1 n1) true = (o, t0, t1, w') ->
  lits (olist o) <-> (n0 = 0 /\ i1 = []) \/ (n1 = 0 /\ i0 = []).
Proof.
  intros H0 H1 HP; cbn [process_fragments] in HP.
  unfold pending_conflict, MergeSteps.gfrag, MergeSteps.cfrag in HP; cbn [f_length split_fragment] in HP.
  unfold split_copy_fragment, split_change_fragment in HP; injection HP as <- _ _ _.
  cbn [olist]; rewrite lits_one, !firstn_all; cbn [lit].
  destruct (Nat.ltb_spec 0 (Nat.min n0 n1)); cbn [orb].
  - split; [intros [C|C]; discriminate|intros [[C _]|[C _]]; lia].
  - assert (N : n0 = 0 \/ n1 = 0) by lia.
    destruct i0 as [|x0 i0], i1 as [|x1 i1]; cbn.
    + destruct H0 as [H0|[]]; [|reflexivity]; destruct H1 as [H1|[]]; [|reflexivity]; lia.
    + destruct H0 as [H0|[]]; [|reflexivity]; split; [intros _; right; split; [lia|reflexivity]|auto].
    + destruct H1 as [H1|[]]; [|reflexivity]; split; [intros _; left; split; [lia|reflexivity]|auto].
    + split; [intros [C|C]; discriminate|intros [[_ C]|[_ C]]; discriminate].
Qed.

Lemma rem_in pos i n r j : pos <= j -> j < pos + n -> vrem (look pos (gfrag pos i n :: r)) j.
Proof.
  intros H1 H2; destruct (Nat.eq_dec j pos) as [->|N]; unfold vrem.
  - rewrite look_change; destruct n; [lia|eauto].
  - rewrite look_inside by lia; destruct (pos + n - j) eqn:X; [lia|eauto].
Qed.
Lemma look_gtail_at c pos n r : stream p c false (pos + n) r ->
  look pos (gtail pos n 0 r) pos = if 0 <? n then Some ([], n) else None.
Proof.
  intros R; unfold MergeSteps.gtail; destruct (Nat.ltb_spec 0 n).
  - cbn [look]; now rewrite Nat.eqb_refl, Nat.sub_0_r.
  - assert (n = 0) as -> by lia; rewrite Nat.add_0_r in R; now apply (look_none c).
Qed.
Lemma tails_stay pos i0 n0 q0 i1 n1 q1 : Nat.min n0 n1 = 0 ->
  stream p true false (pos + n0) q0 -> stream p true false (pos + n1) q1 ->
  let L0 := look pos (gfrag pos i0 n0 :: q0) in let L1 := look pos (gfrag pos i1 n1 :: q1) in
  let L0' := look pos (gtail pos n0 0 q0) in let L1' := look pos (gtail pos n1 0 q1) in
  (vclash L0 L1 pos -> B pos L0 L1 <-> Pd pos L0' L1' \/ B pos L0' L1') /\
  (~ vlonely L0 L1 pos -> Pd pos L0 L1 \/ B pos L0 L1 <-> Pd pos L0' L1' \/ B pos L0' L1').
Proof.
  intros HM R0 R1 L0 L1 L0' L1'.
  assert (X0 := look_gtail_at true pos n0 q0 R0); assert (X1 := look_gtail_at true pos n1 q1 R1).
  assert (Y0 : L0 pos = Some (i0, n0)) by apply look_change; assert (Y1 : L1 pos = Some (i1, n1)) by apply look_change.
  fold L0' in X0; fold L1' in X1.
  assert (RM : forall (L L' : view) i n, L pos = Some (i, n) -> L' pos = (if 0 <? n then Some ([], n) else None) -> vrem L pos <-> vrem L' pos).
  { intros L L' i n E1 E2; unfold vrem; rewrite E1, E2; destruct n as [|n]; cbn.
    - split; intros (a & b & C); discriminate.
    - split; intros _; eauto. }
  apply open_stay.
  - intros s Hs; unfold L0', L0; rewrite <- (look_gtail pos i0 n0 0 q0 s) by lia; now rewrite Nat.add_0_r.
  - intros s Hs; unfold L1', L1; rewrite <- (look_gtail pos i1 n1 0 q1 s) by lia; now rewrite Nat.add_0_r.
  - rewrite (RM L0 L0' _ _ Y0 X0), (RM L1 L1' _ _ Y1 X1); reflexivity.
  - destruct (Nat.eq_dec n0 0) as [Z|Z]; [apply noclash_l|apply noclash_r; assert (Z' : n1 = 0) by lia]; [rewrite X0, Z|rewrite X1, Z']; reflexivity.
  - apply nolonely; intros i Hi; exfalso; [rewrite X0 in Hi|rewrite X1 in Hi]; revert Hi.
    + destruct n0; cbn; discriminate.
    + destruct n1; cbn; discriminate.
Qed.

Lemma step_bad c0 g0 c1 g1 pos f0 r0 f1 r1 w o t0 t1 w' :
  stream p c0 g0 pos (f0 :: r0) -> stream p c1 g1 pos (f1 :: r1) ->
  process_fragments f0 f1 w = (o, t0, t1, w') ->
  exists pos', stream p true true pos' (olist t0 ++ r0) /\ stream p true true pos' (olist t1 ++ r1) /\
    (badw w pos (f0 :: r0) (f1 :: r1) <-> lits (olist o) \/ badw w' pos' (olist t0 ++ r0) (olist t1 ++ r1)).
Proof.
  intros S0 S1 HP.
  destruct (step_mstep _ _ _ _ _ _ _ _ _ _ _ _ _ _ _ S0 S1 HP) as [pos' HM]; exists pos'.
  destruct (mstep_streams _ _ _ _ _ _ _ _ _ _ HM) as [S0' S1']; split; [exact S0'|split; [exact S1'|]].
  assert (FB : forall q a b, badw false q a b <-> B q (look q a) (look q b)).
  { intros q a b; unfold badw; split; [intros [[C _]|H]; [discriminate|exact H]|auto]. }
  assert (TB : forall q a b, badw true q a b <-> Pd q (look q a) (look q b) \/ B q (look q a) (look q b)).
  { intros q a b; unfold badw; tauto. }
  assert (NF : forall f : frag T, ~ lits [OFrag f]) by (intros f; now rewrite lits_one).
  assert (NC : forall a b : list T, ~ lits [OConf (Some a) (Some b)]).
  { intros a b; rewrite lits_one; intros [C|C]; discriminate. }
  assert (OR : forall A X Y : Prop, ~ A -> (X <-> Y) -> (X <-> A \/ Y)) by tauto.
  clear S0' S1'.
  remember (f0 :: r0) as F0 eqn:EF0; remember (f1 :: r1) as F1 eqn:EF1; remember (olist o) as oo eqn:EO.
  remember (olist t0 ++ r0) as F0' eqn:EF0'; remember (olist t1 ++ r1) as F1' eqn:EF1'.
  destruct HM as [pos n0 q0 n1 q1 w k Hk Hn0 Hn1 Hl0 Hl1 R0 R1
    |pos i0 n0 q0 n1 q1 Hn Hn1 Hl1 Hi R0 R1|pos n0 q0 i1 n1 q1 Hn Hn0 Hl0 Hi R0 R1
    |pos i0 n0 q0 n1 q1 Hn Hn1 Hl R0 R1|pos n0 q0 i1 n1 q1 Hn Hn0 Hl R0 R1
    |pos i0 q0 n1 q1 Hl Hi Hn R0 R1|pos n0 q0 i1 q1 Hl Hi Hn R0 R1
    |pos i n q0 q1 Hl Hi R0 R1
    |pos i0 n0 q0 i1 n1 q1 k Hk Hl0 Hl1 Hi0 Hi1 N0 N1 N2 R0 R1
    |pos i0 n0 q0 n1 q1 k v0 v1 Hk Hn1 Hl0 Hl1 Hi Hv0 Hv1 R0 R1
    |pos n0 q0 i1 n1 q1 k v0 v1 Hk Hn0 Hl0 Hl1 Hi Hv0 Hv1 R0 R1
    |pos i0 n0 q0 i1 n1 q1 k v0 v1 Hk Hl0 Hl1 Hi0 Hi1 Hv0 Hv1 R0 R1].
  - (* copies *)
    apply OR; [apply NF|]; rewrite FB.
    rewrite (B_same (pos + k) (look pos (cfrag pos n0 :: q0)) (look pos (cfrag pos n1 :: q1)));
      [|intros s Hs; apply look_ctail; lia|intros s Hs; apply look_ctail; lia].
    rewrite <- (B_skip pos (pos + k)); [|lia|intros s Hs1 Hs2; apply noclash_l, look_copy; lia].
    unfold badw; split; [|auto]; intros [[_ HX]|HX]; [exfalso|exact HX].
    assert (X0 : look pos (cfrag pos n0 :: q0) pos = None) by (apply look_copy; lia).
    assert (X1 : look pos (cfrag pos n1 :: q1) pos = None) by (apply look_copy; lia).
    apply Pd_after in HX; [|apply nolonely; congruence].
    destruct HX as [[(i & n & HR)|(i & n & HR)] _]; congruence.
  - (* fit0 *)
    apply OR; [apply NF|]; rewrite !FB.
    assert (X1 : forall s, pos <= s -> s <= pos + n0 -> s = pos \/ s < pos + n0 -> look pos (cfrag pos n1 :: q1) s = None)
      by (intros; apply look_copy; lia).
    destruct (Nat.eq_dec n0 0) as [->|NZ].
    + rewrite Nat.add_0_r in *; apply B_stay.
      * intros s Hs; rewrite look_rest by lia; now rewrite Nat.add_0_r.
      * intros s Hs; rewrite <- (look_ctail pos n1 0 q1 s) by lia; now rewrite Nat.add_0_r.
      * apply noclash_r, X1; lia.
      * apply noclash_l, (look_none _ _ _ R0).
    + rewrite (B_same (pos + n0) (look pos (gfrag pos i0 n0 :: q0)) (look pos (cfrag pos n1 :: q1)));
        [|intros s Hs; rewrite look_rest by lia; reflexivity|intros s Hs; apply look_ctail; lia].
      apply B_skip; [lia|]; intros s Hs1 Hs2; apply noclash_r, X1; lia.
  - (* fit1 *)
    apply OR; [apply NF|]; rewrite !FB.
    assert (X1 : forall s, pos <= s -> s <= pos + n1 -> s = pos \/ s < pos + n1 -> look pos (cfrag pos n0 :: q0) s = None)
      by (intros; apply look_copy; lia).
    destruct (Nat.eq_dec n1 0) as [->|NZ].
    + rewrite Nat.add_0_r in *; apply B_stay.
      * intros s Hs; rewrite <- (look_ctail pos n0 0 q0 s) by lia; now rewrite Nat.add_0_r.
      * intros s Hs; rewrite look_rest by lia; now rewrite Nat.add_0_r.
      * apply noclash_l, X1; lia.
      * apply noclash_r, (look_none _ _ _ R1).
    + rewrite (B_same (pos + n1) (look pos (cfrag pos n0 :: q0)) (look pos (gfrag pos i1 n1 :: q1)));
        [|intros s Hs; apply look_ctail; lia|intros s Hs; rewrite look_rest by lia; reflexivity].
      apply B_skip; [lia|]; intros s Hs1 Hs2; apply noclash_l, X1; lia.
  - (* over0 *)
    apply OR; [apply NC|]; rewrite !FB.
    rewrite (B_same (pos + n1) (look pos (gfrag pos i0 n0 :: q0)) (look pos (cfrag pos n1 :: q1)));
      [|intros s Hs; apply look_gtail; lia|].
    2:{ intros s Hs; rewrite <- (look_ctail pos n1 n1 q1 s) by lia; unfold MergeSteps.ctail; now rewrite Nat.ltb_irrefl. }
    apply B_skip; [lia|]; intros s Hs1 Hs2; apply noclash_r, look_copy; lia.
  - (* over1 *)
    apply OR; [apply NC|]; rewrite !FB.
    rewrite (B_same (pos + n0) (look pos (cfrag pos n0 :: q0)) (look pos (gfrag pos i1 n1 :: q1)));
      [| |intros s Hs; apply look_gtail; lia].
    2:{ intros s Hs; rewrite <- (look_ctail pos n0 n0 q0 s) by lia; unfold MergeSteps.ctail; now rewrite Nat.ltb_irrefl. }
    apply B_skip; [lia|]; intros s Hs1 Hs2; apply noclash_l, look_copy; lia.
  - (* comp0 *)
    apply OR; [apply lits_none|]; rewrite !FB; apply B_stay.
    + intros s Hs; rewrite look_rest by lia; now rewrite Nat.add_0_r.
    + intros s Hs; rewrite <- (look_gtail pos [] n1 0 q1 s), <- (look_gtail pos i0 n1 0 q1 s) by lia; reflexivity.
    + intros (a & b & A1 & A2 & A3); rewrite look_change in A1, A2; injection A1 as <-; injection A2 as <-; apply A3; right; left; auto.
    + apply noclash_l, (look_none _ _ _ R0).
  - (* comp1 *)
    apply OR; [apply lits_none|]; rewrite !FB; apply B_stay.
    + intros s Hs; rewrite <- (look_gtail pos [] n0 0 q0 s), <- (look_gtail pos i1 n0 0 q0 s) by lia; reflexivity.
    + intros s Hs; rewrite look_rest by lia; now rewrite Nat.add_0_r.
    + intros (a & b & A1 & A2 & A3); rewrite look_change in A1, A2; injection A1 as <-; injection A2 as <-; apply A3; right; right; auto.
    + apply noclash_r, (look_none _ _ _ R1).
  - (* same *)
    apply OR; [apply NF|]; rewrite !FB.
    assert (NV : forall s, pos <= s -> s < pos + n \/ s = pos -> ~ vclash (look pos (gfrag pos i n :: q0)) (look pos (gfrag pos i n :: q1)) s).
    { intros s Hs1 Hs2 (a & b & A1 & A2 & A3); apply A3; left.
      destruct (Nat.eq_dec s pos) as [->|NE]; [rewrite look_change in A1, A2|rewrite look_inside in A1, A2 by lia]; congruence. }
    destruct (Nat.eq_dec n 0) as [->|NZ].
    + rewrite Nat.add_0_r in *; apply B_stay.
      * intros s Hs; rewrite look_rest by lia; now rewrite Nat.add_0_r.
      * intros s Hs; rewrite look_rest by lia; now rewrite Nat.add_0_r.
      * apply NV; lia.
      * apply noclash_l, (look_none _ _ _ R0).
    + rewrite (B_same (pos + n) (look pos (gfrag pos i n :: q0)) (look pos (gfrag pos i n :: q1)));
        [|intros s Hs; rewrite look_rest by lia; reflexivity|intros s Hs; rewrite look_rest by lia; reflexivity].
      apply B_skip; [lia|]; intros s Hs1 Hs2; apply NV; lia.
  - (* conflict *)
    apply OR; [apply NC|]; rewrite FB, TB.
    assert (HC : vclash (look pos (gfrag pos i0 n0 :: q0)) (look pos (gfrag pos i1 n1 :: q1)) pos).
    { exists (i0, n0), (i1, n1); rewrite !look_change; split; [reflexivity|split; [reflexivity|]].
      intros [C|[C|C]]; cbn in C; [injection C as -> ->|..]; tauto. }
    destruct (Nat.eq_dec k 0) as [K0|K0].
    + rewrite K0, Nat.add_0_r; rewrite K0 in Hk; symmetry in Hk.
      now apply (proj1 (tails_stay pos i0 n0 q0 i1 n1 q1 Hk R0 R1)).
    + rewrite (Pd_same (pos + k) (look pos (gfrag pos i0 n0 :: q0)) (look pos (gfrag pos i1 n1 :: q1))),
        (B_same (pos + k) (look pos (gfrag pos i0 n0 :: q0)) (look pos (gfrag pos i1 n1 :: q1)));
        try (intros s Hs; apply look_gtail; lia).
      apply B_open; [lia|exact HC| |].
      * intros j J1 J2; left; apply (rem_in pos i0 n0 q0 j); lia.
      * intros x X1 X2; apply nolonely; intros i Hx; exfalso; rewrite look_inside in Hx by lia; injection Hx as _ Hx; lia.
  - (* pending, change and copy *)
    injection EF0 as <- <-; injection EF1 as <- <-; rewrite !TB.
    assert (HL := pend0_lit _ _ _ _ _ _ _ _ Hn1 Hi HP); rewrite <- EO in HL; rewrite HL; clear HL.
    destruct (Nat.eq_dec n0 0) as [Z|Z].
    + split; [auto|intros _; left; exists pos; split; [lia|split; [intros j J1 J2; lia|left]]].
      exists i0; split; [rewrite Z; apply look_change|intros i n Hx; rewrite look_copy in Hx by lia; discriminate].
    + apply OR; [exact Z|].
      rewrite (Pd_same (pos + k) (look pos (gfrag pos i0 n0 :: q0)) (look pos (cfrag pos n1 :: q1))),
        (B_same (pos + k) (look pos (gfrag pos i0 n0 :: q0)) (look pos (cfrag pos n1 :: q1)));
        try (intros s Hs; apply look_gtail; lia); try (intros s Hs; apply look_ctail; lia).
      apply Pd_skip; [lia| |].
      * intros j J1 J2; left; apply (rem_in pos i0 n0 q0 j); lia.
      * intros x X1 X2; apply nolonely; intros i Hx; exfalso; [|rewrite look_copy in Hx by lia; discriminate].
        destruct (rem_in pos i0 n0 q0 x) as (a & b & C); [lia|lia|]; congruence.
  - (* pending, copy and change *)
    injection EF0 as <- <-; injection EF1 as <- <-; rewrite !TB.
    assert (HL := pend1_lit _ _ _ _ _ _ _ _ Hn0 Hi HP); rewrite <- EO in HL; rewrite HL; clear HL.
    destruct (Nat.eq_dec n1 0) as [Z|Z].
    + split; [auto|intros _; left; exists pos; split; [lia|split; [intros j J1 J2; lia|right]]].
      exists i1; split; [rewrite Z; apply look_change|intros i n Hx; rewrite look_copy in Hx by lia; discriminate].
    + apply OR; [exact Z|].
      rewrite (Pd_same (pos + k) (look pos (cfrag pos n0 :: q0)) (look pos (gfrag pos i1 n1 :: q1))),
        (B_same (pos + k) (look pos (cfrag pos n0 :: q0)) (look pos (gfrag pos i1 n1 :: q1)));
        try (intros s Hs; apply look_gtail; lia); try (intros s Hs; apply look_ctail; lia).
      apply Pd_skip; [lia| |].
      * intros j J1 J2; right; apply (rem_in pos i1 n1 q1 j); lia.
      * intros x X1 X2; apply nolonely; intros i Hx; exfalso; [rewrite look_copy in Hx by lia; discriminate|].
        destruct (rem_in pos i1 n1 q1 x) as (a & b & C); [lia|lia|]; congruence.
  - (* pending, two changes *)
    injection EF0 as <- <-; injection EF1 as <- <-; rewrite !TB.
    assert (HL := pend2_lit _ _ _ _ _ _ _ _ _ Hi0 Hi1 HP); rewrite <- EO in HL; rewrite HL; clear HL.
    assert (LN : vlonely (look pos (gfrag pos i0 n0 :: q0)) (look pos (gfrag pos i1 n1 :: q1)) pos <-> (n0 = 0 /\ i1 = []) \/ (n1 = 0 /\ i0 = [])).
    { unfold vlonely, vlone, vnoins; rewrite !look_change; split.
      - intros [[i [A1 A2]]|[i [A1 A2]]]; [left|right]; injection A1 as _ A1; (split; [exact A1|eapply A2; reflexivity]).
      - intros [[A1 A2]|[A1 A2]]; [left; exists i0|right; exists i1]; (split; [congruence|intros i n C; congruence]). }
    rewrite <- LN.
    assert (LD : {(n0 = 0 /\ i1 = []) \/ (n1 = 0 /\ i0 = [])} + {~ ((n0 = 0 /\ i1 = []) \/ (n1 = 0 /\ i0 = []))}).
    { destruct (Nat.eq_dec n0 0), (Nat.eq_dec n1 0), i0, i1; try (left; tauto); right; intros [[A1 A2]|[A1 A2]]; congruence. }
    destruct LD as [Z|Z]; rewrite <- LN in Z.
    + split; [auto|intros _; left; exists pos; split; [lia|split; [intros j J1 J2; lia|exact Z]]].
    + apply OR; [exact Z|].
      destruct (Nat.eq_dec k 0) as [K0|K0].
      * rewrite K0, Nat.add_0_r; rewrite K0 in Hk; symmetry in Hk.
        now apply (proj2 (tails_stay pos i0 n0 q0 i1 n1 q1 Hk R0 R1)).
      * rewrite (Pd_same (pos + k) (look pos (gfrag pos i0 n0 :: q0)) (look pos (gfrag pos i1 n1 :: q1))),
          (B_same (pos + k) (look pos (gfrag pos i0 n0 :: q0)) (look pos (gfrag pos i1 n1 :: q1)));
          try (intros s Hs; apply look_gtail; lia).
        apply Pd_skip; [lia| |].
        -- intros j J1 J2; left; apply (rem_in pos i0 n0 q0 j); lia.
        -- intros x X1 X2; apply nolonely; intros i Hx; exfalso.
           ++ destruct (rem_in pos i0 n0 q0 x) as (a & b & C); [lia|lia|]; congruence.
           ++ destruct (rem_in pos i1 n1 q1 x) as (a & b & C); [lia|lia|]; congruence.
Qed.

(** ** The loop *)
Lemma end_noB pos fs0 fs1 : stream p true true pos fs0 -> stream p true true pos fs1 -> pos = length p ->
  ~ B pos (look pos fs0) (look pos fs1).
Proof.
  intros S0 S1 -> (s & x & A1 & A2 & A3 & A4 & A5).
  assert (N : forall fs, stream p true true (length p) fs -> ~ vrem (look (length p) fs) s).
  { intros fs S; destruct (stream_end _ _ _ _ S) as [->|[i [_ ->]]]; intros (a & b & C); cbn [look] in C; [discriminate|].
    destruct (s =? length p); [discriminate|]; destruct (s <? length p + 0); [|discriminate]; injection C as _ C; lia. }
  destruct (A4 s) as [C|C]; [lia|lia| |]; [now apply (N fs0)|now apply (N fs1)].
Qed.
Lemma loop_lit fuel : forall pos fs0 fs1 w out, stream p true true pos fs0 -> stream p true true pos fs1 ->
  merge_loop fuel fs0 fs1 w = Some out -> (lits out <-> badw w pos fs0 fs1).
Proof.
  assert (EN : forall pos fs0 fs1 w, stream p true true pos fs0 -> stream p true true pos fs1 -> fs0 = [] \/ fs1 = [] ->
    (lits (flush_remaining fs0 fs1 w) <-> badw w pos fs0 fs1)).
  { intros pos fs0 fs1 w S0 S1 HN.
    assert (P : pos = length p) by (destruct HN as [->| ->]; [now apply (stream_nil_pos _ _ _ _ S0)|now apply (stream_nil_pos _ _ _ _ S1)]).
    assert (NB := end_noB pos fs0 fs1 S0 S1 P); unfold badw; subst pos.
    assert (NP : ~ Pd (length p) (look (length p) []) (look (length p) [])).
    { intros (x & A1 & A2 & [[i [C _]]|[i [C _]]]); discriminate. }
    assert (EQ : forall i, look (length p) [FChange i [] 0] (length p) = Some (i, 0)) by (intros i; cbn; now rewrite Nat.eqb_refl).
    destruct HN as [-> | ->].
    - destruct (stream_end _ _ _ _ S1) as [->|[i [Hi ->]]]; cbn [flush_remaining map].
      + split; [intros C; now elim lits_none|intros [[_ C]|C]; [now elim NP|now elim NB]].
      + destruct w; rewrite lits_one; cbn [lit]; [|split; [intros []|intros [[C _]|C]; [discriminate|now elim NB]]].
        split; [intros _; left; split; [reflexivity|]|auto].
        exists (length p); split; [lia|split; [intros j J1 J2; lia|right; exists i; split; [apply EQ|intros a b C; discriminate]]].
    - destruct (stream_end _ _ _ _ S0) as [->|[i [Hi ->]]]; cbn [flush_remaining map].
      + split; [intros C; now elim lits_none|intros [[_ C]|C]; [now elim NP|now elim NB]].
      + destruct w; rewrite lits_one; cbn [lit]; [|split; [intros []|intros [[C _]|C]; [discriminate|now elim NB]]].
        split; [intros _; left; split; [reflexivity|]|auto].
        exists (length p); split; [lia|split; [intros j J1 J2; lia|left; exists i; split; [apply EQ|intros a b C; discriminate]]]. }
  induction fuel as [|fuel IH]; intros pos fs0 fs1 w out S0 S1 HL.
  - destruct fs0 as [|f0 r0]; [injection HL as <-; apply (EN pos [] fs1 w); auto|].
    destruct fs1 as [|f1 r1]; [injection HL as <-; apply (EN pos (f0 :: r0) [] w); auto|discriminate].
  - destruct fs0 as [|f0 r0]; [injection HL as <-; apply (EN pos [] fs1 w); auto|].
    destruct fs1 as [|f1 r1]; [injection HL as <-; apply (EN pos (f0 :: r0) [] w); auto|].
    cbn [merge_loop] in HL; destruct (process_fragments f0 f1 w) as [[[o t0] t1] w'] eqn:HP.
    destruct (step_bad _ _ _ _ _ _ _ _ _ _ _ _ _ _ S0 S1 HP) as [pos' [S0' [S1' HB]]].
    destruct (merge_loop fuel (olist t0 ++ r0) (olist t1 ++ r1) w') as [rest|] eqn:HR; [|discriminate].
    injection HL as <-; rewrite lits_app, HB, (IH _ _ _ _ _ S0' S1' HR); reflexivity.
Qed.

(** ** In terms of the edits *)
Lemma look_edits c g pos fs : stream p c g pos fs -> forall s i n, pos <= s ->
  (look pos fs s = Some (i, n) <-> exists e, In e (fedits pos fs) /\ under_way s e /\ part s e = (s, i, n)).
Proof.
  induction 1 as [c g|g pos m r Hm Hl S IH|c pos a m r Hl Hm S IH]; intros s i n Hs; cbn [look fedits].
  - split; [discriminate|intros [e [[] _]]].
  - destruct (Nat.ltb_spec s (pos + m)).
    + split; [discriminate|]; intros [e [He [[U|[U _]] _]]]; apply (stream_above _ _ _ _ _ S) in He; lia.
    + now apply IH.
  - assert (A := stream_above_S _ _ _ _ S).
    destruct (Nat.eqb_spec s pos) as [->|N].
    + split.
      * intros C; injection C as <- <-; exists (pos, a, m); split; [now left|split; [now left|]].
        unfold part, e_pos, e_ins, e_end, e_len, e_pos; cbn [fst snd]; rewrite Nat.eqb_refl; f_equal; lia.
      * intros [e [[<-|He] [U P]]].
        -- unfold part, e_pos, e_ins, e_end, e_len, e_pos in P; cbn [fst snd] in P; rewrite Nat.eqb_refl in P.
           injection P as <- <-; f_equal; f_equal; lia.
        -- apply A in He; destruct U as [U|[U _]]; lia.
    + destruct (Nat.ltb_spec s (pos + m)).
      * split.
        -- intros C; injection C as <- <-; exists (pos, a, m); split; [now left|].
           unfold under_way, part, e_pos, e_ins, e_end, e_len, e_pos; cbn [fst snd].
           split; [lia|]; destruct (Nat.eqb_spec pos s); [lia|reflexivity].
        -- intros [e [[<-|He] [U P]]].
           ++ unfold part, e_pos, e_ins, e_end, e_len, e_pos in P; cbn [fst snd] in P.
              destruct (Nat.eqb_spec pos s); [lia|]; now injection P as <- <-.
           ++ apply A in He; destruct U as [U|[U _]]; lia.
      * rewrite IH by lia; split; intros [e [He U]]; [exists e; split; [now right|exact U]|].
        destruct He as [<-|He]; [exfalso|exists e; auto].
        unfold under_way, e_pos, e_end, e_len, e_pos in U; cbn [fst snd] in U; lia.
Qed.

Section Bridge.
Variables fs0 fs1 : list (frag T).
Hypothesis S0 : stream p true true 0 fs0.
Hypothesis S1 : stream p true true 0 fs1.
Notation L0 := (look 0 fs0). Notation L1 := (look 0 fs1).

Lemma rem_edits fs j : stream p true true 0 fs -> vrem (look 0 fs) j <-> removed (fedits 0 fs) j = true.
Proof.
  intros S; rewrite removed_in; split.
  - intros (i & n & H); apply (look_edits _ _ _ _ S) in H; [|lia]; destruct H as [e [He [U P]]].
    exists e; split; [exact He|]; injection P as _ P; destruct U; lia.
  - intros [e [He [U1 U2]]].
    assert (U : under_way j e) by (unfold under_way; lia).
    exists (if e_pos e =? j then e_ins e else []), (e_end e - j - 1).
    apply (look_edits _ _ _ _ S); [lia|]; exists e; split; [exact He|split; [exact U|]].
    unfold part; f_equal; lia.
Qed.
Lemma lone_edits gs0 gs1 x : stream p true true 0 gs0 -> stream p true true 0 gs1 ->
  vlone (look 0 gs0) (look 0 gs1) x <-> lone_insertion (fedits 0 gs0) (fedits 0 gs1) x.
Proof.
  intros G0 G1; split.
  - intros [i [H HN]]; apply (look_edits _ _ _ _ G0) in H; [|lia]; destruct H as [e [He [U P]]]; injection P as P1 P2.
    assert (PX : e_pos e = x) by (destruct U; lia).
    exists e; split; [exact He|split; [exact PX|split; [unfold e_end in P2; lia|]]].
    intros e' He' PX'; apply (HN (e_ins e') (e_end e' - x)).
    apply (look_edits _ _ _ _ G1); [lia|]; exists e'; split; [exact He'|split; [now left|]].
    unfold part; destruct (Nat.eqb_spec (e_pos e') x); [reflexivity|contradiction].
  - intros [e [He [PX [PL HN]]]]; exists (e_ins e); split.
    + apply (look_edits _ _ _ _ G0); [lia|]; exists e; split; [exact He|split; [now left|]].
      unfold part; destruct (Nat.eqb_spec (e_pos e) x); [|contradiction]; f_equal; unfold e_end; lia.
    + intros i n H; apply (look_edits _ _ _ _ G1) in H; [|lia]; destruct H as [e' [He' [U P]]]; injection P as P1 P2.
      destruct (Nat.eqb_spec (e_pos e') x) as [Q|Q]; [rewrite <- P1; now apply HN|now symmetry].
Qed.
Lemma fit_compatible s (a b : list T * nat) : vfit a b <-> compatible_edits (s, fst a, snd a) (s, fst b, snd b).
Proof.
  destruct a as [i n], b as [j m]; unfold vfit, compatible_edits, e_end, e_pos, e_len, e_ins; cbn [fst snd]; split.
  - intros [C|[C|C]]; [injection C as <- <-; now left|right; right; right; auto|right; right; right; auto].
  - intros [C|[C|[C|[_ [C|C]]]]]; [injection C as <- <-; now left|lia|lia|right; now left|right; now right].
Qed.
Lemma clash_edits s : vclash L0 L1 s <-> clash (fedits 0 fs0) (fedits 0 fs1) s.
Proof.
  split.
  - intros ([i n] & [j m] & A & B & N); apply (look_edits _ _ _ _ S0) in A; [|lia]; apply (look_edits _ _ _ _ S1) in B; [|lia].
    destruct A as [e0 [H0 [U0 P0]]], B as [e1 [H1 [U1 P1]]]; exists e0, e1.
    split; [exact H0|split; [exact H1|split; [exact U0|split; [exact U1|]]]].
    rewrite P0, P1; intros C; apply N; now apply (fit_compatible s).
  - intros (e0 & e1 & H0 & H1 & U0 & U1 & N).
    exists (e_ins (part s e0), e_len (part s e0)), (e_ins (part s e1), e_len (part s e1)); split; [|split].
    + apply (look_edits _ _ _ _ S0); [lia|]; exists e0; auto.
    + apply (look_edits _ _ _ _ S1); [lia|]; exists e1; auto.
    + intros C; apply N; now apply (fit_compatible s) in C.
Qed.
Lemma B_edits : B 0 L0 L1 <-> clash_then_insertion (fedits 0 fs0) (fedits 0 fs1).
Proof.
  unfold B, clash_then_insertion; split; intros (s & x & H); exists s, x.
  - destruct H as (_ & A2 & A3 & A4 & A5); split; [now apply clash_edits|split; [exact A2|split]].
    + intros j J1 J2; rewrite <- (rem_edits fs0), <- (rem_edits fs1) by assumption; now apply A4.
    + destruct A5 as [A5|A5]; [left|right]; now apply lone_edits.
  - destruct H as (A3 & A2 & A4 & A5); split; [lia|split; [exact A2|split; [now apply clash_edits|split]]].
    + intros j J1 J2; rewrite (rem_edits fs0), (rem_edits fs1) by assumption; now apply A4.
    + destruct A5 as [A5|A5]; [left|right]; now apply lone_edits.
Qed.
End Bridge.
End Bytes.

Section Result.
Context {T : Type} {E : Teq T} {O : TeqOk T}.

Lemma lits_literal (l : list (ofrag T)) : ~ no_literal l <-> lits l.
Proof.
  split.
  - intros N; induction l as [|x l IH]; [elim N; intros x []|].
    destruct x as [f|a b].
    + destruct IH as [y [Hy L]]; [intros C; apply N; intros y [<-|Hy]; [exact I|now apply (C y)]|].
      exists y; split; [now right|exact L].
    + destruct a as [a|]; [|exists (OConf None b); split; [now left|now left]].
      destruct b as [b|]; [|exists (OConf (Some a) None); split; [now left|now right]].
      destruct IH as [y [Hy L]]; [intros C; apply N; intros y [<-|Hy]; [split; discriminate|now apply (C y)]|].
      exists y; split; [now right|exact L].
  - intros [x [Hx L]] N; specialize (N x Hx); destruct x as [f|a b]; [exact L|]; cbn in L; tauto.
Qed.
Lemma consolidate_bytes (l : list (ofrag T)) : consolidate KBytes l = Err TypeError <-> lits l.
Proof.
  rewrite <- lits_literal; split.
  - intros C NL; destruct (conflicts_ok KBytes (length l) l (Nat.le_refl _) (fun _ => NL)) as [staged [HS _]].
    unfold consolidate in C; rewrite HS in C; cbn [bind] in C.
    destruct (consolidate_conflicts_ok KBytes (length l) l (Nat.le_refl _)) as [[staged' [HS' [HP _]]]|[_ C']]; [|congruence].
    assert (staged' = staged) as -> by congruence.
    destruct (consolidate_items_ok KBytes (length staged) staged (Nat.le_refl _) (pass1_no_literal _ _ HP)) as [items [HI _]].
    unfold consolidate_all in C; rewrite HI in C; discriminate.
  - intros N; unfold consolidate.
    destruct (consolidate_conflicts_ok KBytes (length l) l (Nat.le_refl _)) as [[staged [HS _]]|[_ C]]; [|now rewrite C].
    elim N; now apply (conflicts_bytes (length l) l staged).
Qed.

Theorem merge_bytes_exact (p b0 b1 : list T) d0 d1 :
  diff_token_sequences p b0 = Ok d0 -> diff_token_sequences p b1 = Ok d1 ->
  merge_token_sequence KBytes p b0 b1 = Err TypeError <-> clash_then_insertion (edits 0 d0) (edits 0 d1).
Proof.
  intros D0 D1.
  destruct (changeset_stream p b0) as (c0 & d0' & F0 & D0' & X0 & S0 & _); rewrite D0 in D0'; injection D0' as <-.
  destruct (changeset_stream p b1) as (c1 & d1' & F1 & D1' & X1 & S1 & _); rewrite D1 in D1'; injection D1' as <-.
  destruct (merge_mrun p _ _ S0 S1) as [out [HM _]].
  unfold merge_token_sequence; rewrite F0, F1; cbn [bind]; rewrite X0, X1, HM.
  rewrite consolidate_bytes, (loop_lit p _ _ _ _ _ _ S0 S1 HM).
  rewrite <- !fedits_frag_of, <- (B_edits p _ _ S0 S1); unfold badw.
  split; [intros [[C _]|H]; [discriminate|exact H]|auto].
Qed.
Corollary merge_bytes_ok (p b0 b1 : list T) d0 d1 :
  diff_token_sequences p b0 = Ok d0 -> diff_token_sequences p b1 = Ok d1 ->
  (~ clash_then_insertion (edits 0 d0) (edits 0 d1) <->
   exists r, merge_token_sequence KBytes p b0 b1 = Ok r /\ merge_token_sequence KStr p b0 b1 = Ok r).
Proof.
  intros D0 D1; rewrite <- (merge_bytes_exact p b0 b1 d0 d1 D0 D1).
  destruct (merge_total KStr p b0 b1) as [r Hr]; [discriminate|].
  split.
  - intros N; exists r; split; [|exact Hr]; destruct (merge_kind KBytes p b0 b1) as [C|[_ C]]; congruence.
  - intros [r' [H _]]; congruence.
Qed.
(** branches which replace or remove but do not only insert *)
Corollary merge_bytes_replacing (p b0 b1 : list T) d0 d1 :
  diff_token_sequences p b0 = Ok d0 -> diff_token_sequences p b1 = Ok d1 ->
  (forall e, In e (edits 0 d0 ++ edits 0 d1) -> 0 < e_len e) ->
  exists r, merge_token_sequence KBytes p b0 b1 = Ok r.
Proof.
  intros D0 D1 H; destruct (proj1 (merge_bytes_ok p b0 b1 d0 d1 D0 D1)) as [r [Hr _]]; [|eauto].
  intros (s & x & _ & _ & _ & [(e & He & _ & L & _)|(e & He & _ & L & _)]);
    assert (Hin : In e (edits 0 d0 ++ edits 0 d1)) by (apply in_app_iff; auto); specialize (H e Hin); lia.
Qed.
End Result.
