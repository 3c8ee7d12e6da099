(** How many steps a merge takes. *)
From Coq Require Import Lia.
From Verif Require Import Base Strings SpecSeq AutomatonProofs Changesets SpecDiff ChangesetsProofs DiffLaws Merge SpecMerge MergeStreams MergeSteps
  MergeConsolidate MergeUnion MergeLaws DiffCost DiffCostProofs DiffQuadratic MergeCost.

Section Erase.
Context {T : Type} {E : Teq T}.
Lemma common_prefix_erase (a b : list T) : fst (common_prefix_length_n a b) = common_prefix_length a b.
Proof.
  revert b; induction a as [|x a IH]; intros [|y b]; cbn; try reflexivity. destruct (teq x y); [|reflexivity].
  rewrite <- IH. now destruct (common_prefix_length_n a b).
Qed.
Lemma common_prefix_steps (a b : list T) : snd (common_prefix_length_n a b) <= Nat.min (length a) (length b).
Proof.
  revert b; induction a as [|x a IH]; intros [|y b]; cbn; try lia. destruct (teq x y); [|cbn; lia].
  specialize (IH b). destruct (common_prefix_length_n a b); cbn in *; lia.
Qed.
Lemma merge_loop_erase fuel : forall (fs0 fs1 : list (frag T)) w, option_map fst (merge_loop_n fuel fs0 fs1 w) = merge_loop fuel fs0 fs1 w.
Proof.
  induction fuel as [|fuel IH]; intros [|f0 r0] [|f1 r1] w; try reflexivity. cbn [merge_loop_n merge_loop].
  destruct (process_fragments f0 f1 w) as [[[o t0] t1] w']. rewrite <- IH. now destruct (merge_loop_n fuel _ _ w') as [[r k]|].
Qed.
Lemma whole_erase (o m : list T) : (let* c := whole_changeset_n o m in Ok (fst c)) = find_changeset o m.
Proof. apply find_changeset_erase. Qed.
Lemma conflicts_erase k fuel : forall l : list (ofrag T),
  (let* r := consolidate_conflicts_n fuel k l in Ok (fst r)) = consolidate_conflicts fuel k l.
Proof.
  induction fuel as [|fuel IH]; intros [|x l]; try reflexivity.
  cbn [consolidate_conflicts_n consolidate_conflicts]. destruct (take_conflicts (x :: l)) as [g r1].
  destruct (join k (map fst g)) as [v1|]; [|reflexivity]. cbn [bind]. destruct (join k (map snd g)) as [v2|]; [|reflexivity]. cbn [bind].
  rewrite <- whole_erase. destruct (whole_changeset_n v2 v1) as [c|]; [|reflexivity]. cbn [bind].
  destruct (take_frags r1) as [fs r2]. rewrite <- IH. now destruct (consolidate_conflicts_n fuel k r2).
Qed.
Lemma items_erase k fuel : forall l : list (ofrag T),
  (let* r := consolidate_items_n fuel k l in Ok (fst r)) = consolidate_items fuel k l.
Proof.
  induction fuel as [|fuel IH]; intros [|x l]; try reflexivity.
  cbn [consolidate_items_n consolidate_items]. destruct (take_conflicts (x :: l)) as [g r1].
  destruct (join k (map fst g)) as [v1|]; [|reflexivity]. cbn [bind]. destruct (join k (map snd g)) as [v2|]; [|reflexivity]. cbn [bind].
  destruct (take_frags r1) as [fs r2]. destruct (join k _) as [i|]; [|reflexivity]. cbn [bind].
  rewrite <- IH. now destruct (consolidate_items_n fuel k r2).
Qed.
Theorem merge_erase k (p b0 b1 : list T) : (let* r := merge_n k p b0 b1 in Ok (fst r)) = merge_token_sequence k p b0 b1.
Proof.
  unfold merge_n, merge_token_sequence. rewrite <- !whole_erase.
  destruct (whole_changeset_n p b0) as [c0|]; [|reflexivity]. cbn [bind]. destruct (whole_changeset_n p b1) as [c1|]; [|reflexivity]. cbn [bind].
  unfold _merge. rewrite <- merge_loop_erase. destruct (merge_loop_n _ _ _ false) as [[m km]|]; [|reflexivity]. cbn [option_map fst].
  unfold consolidate, consolidate_all. rewrite <- conflicts_erase. destruct (consolidate_conflicts_n _ k m) as [st|]; [|reflexivity]. cbn [bind].
  rewrite <- items_erase. now destruct (consolidate_items_n _ k (fst st)).
Qed.
End Erase.

Section Bounds.
Context {T : Type} {E : Teq T} {O : TeqOk T}.
(** * The loop of _merge *)
Definition weight (fs : list (frag T)) : nat := list_sum (map (fun f => length (f_insert f) + f_length f) fs).
Definition oweight (l : list (ofrag T)) : nat :=
  list_sum (map (fun o => match o with OFrag f => length (f_insert f) | OConf a b => length (vseq a) + length (vseq b) end) l).
Definition size (fs : list (frag T)) : nat := list_sum (map (fun f => length (f_insert f)) fs).
Lemma oweight_app a b : oweight (a ++ b) = oweight a + oweight b.
Proof. unfold oweight. now rewrite map_app, list_sum_app. Qed.
Lemma weight_cons f fs : weight (f :: fs) = length (f_insert f) + f_length f + weight fs.
Proof. reflexivity. Qed.
Lemma size_cons f fs : size (f :: fs) = length (f_insert f) + size fs.
Proof. reflexivity. Qed.
Lemma seg_n (p : list T) pos n : pos + n <= length p -> length (seg p pos (pos + n)) = n.
Proof. intros H. rewrite seg_length; lia. Qed.
Lemma ctail_weight p pos n k r : pos + n <= length p -> k <= n ->
  weight (ctail p pos n k r) = 2 * (n - k) + weight r /\ size (ctail p pos n k r) = n - k + size r /\ length (ctail p pos n k r) <= 1 + length r /\
  (k = n -> length (ctail p pos n k r) = length r).
Proof.
  intros H L. unfold ctail. destruct (Nat.ltb_spec k n).
  - rewrite weight_cons, size_cons. cbn [f_insert f_length length]. rewrite seg_length by lia. lia.
  - lia.
Qed.
Lemma gtail_weight p pos n k r : k <= n ->
  weight (gtail p pos n k r) = (n - k) + weight r /\ size (gtail p pos n k r) = size r /\ length (gtail p pos n k r) <= 1 + length r /\
  (k = n -> length (gtail p pos n k r) = length r).
Proof.
  intros L. unfold gtail. destruct (Nat.ltb_spec k n).
  - rewrite weight_cons, size_cons. cbn [f_insert f_length length]. lia.
  - lia.
Qed.
Lemma mstep_cost p pos f0 r0 f1 r1 w o pos' fs0' fs1' w' : mstep p pos (f0 :: r0) (f1 :: r1) w o pos' fs0' fs1' w' ->
  S (process_steps f0 f1 w) + weight fs0' + weight fs1' + length fs0' + length fs1'
    <= weight (f0 :: r0) + weight (f1 :: r1) + length (f0 :: r0) + length (f1 :: r1) /\
  oweight o + size fs0' + size fs1' <= size (f0 :: r0) + size (f1 :: r1) /\
  length o + length fs0' + length fs1' <= length (f0 :: r0) + length (f1 :: r1).
Proof.
  intros M. rewrite !weight_cons, !size_cons. cbn [length].
  assert (P : forall a b : list T, snd (common_prefix_length_n a b) <= length a /\ snd (common_prefix_length_n a b) <= length b)
    by (intros a b; pose proof (common_prefix_steps a b); lia).
  inversion M; subst; unfold cfrag, gfrag, process_steps in *; cbn [f_insert f_length length orb oweight list_sum map fold_right] in *;
  repeat match goal with
  | |- context [ctail p ?pos ?n ?k ?r] =>
    let A := fresh in let B := fresh in let C := fresh in let D := fresh in
    destruct (ctail_weight p pos n k r) as (A & B & C & D); [lia|lia|];
    set (ctail p pos n k r) in *; rewrite ?A, ?B; clear A B
  | |- context [gtail p ?pos ?n ?k ?r] =>
    let A := fresh in let B := fresh in let C := fresh in let D := fresh in
    destruct (gtail_weight p pos n k r) as (A & B & C & D); [lia|];
    set (gtail p pos n k r) in *; rewrite ?A, ?B; clear A B
  end; unfold oweight, list_sum in *; cbn [map fold_right f_insert vseq length] in *.
  all: repeat match goal with H : vseq ?v = _ |- _ => rewrite H; clear H end.
  all: rewrite ?seg_n by lia.
  all: try match goal with |- context [has_composable_changes ?a ?b ?c ?d] => destruct (has_composable_changes a b c d) end.
  all: try match goal with |- context [snd (common_prefix_length_n ?a ?b) + snd (common_prefix_length_n ?c ?d)] =>
    destruct (P a b), (P c d); rewrite ?seg_n in * by lia end.
  all: rewrite ?weight_cons, ?size_cons; cbn [f_insert f_length length] in *.
  all: repeat split; lia.
Qed.
Lemma flush_cost (fs0 fs1 : list (frag T)) w : fs0 = [] \/ fs1 = [] ->
  length (flush_remaining fs0 fs1 w) <= length fs0 + length fs1 /\ oweight (flush_remaining fs0 fs1 w) <= size fs0 + size fs1.
Proof.
  assert (F : forall (g : frag T -> ofrag T) fs, (forall f, oweight [g f] = length (f_insert f)) -> oweight (map g fs) = size fs).
  { intros g fs H. induction fs as [|f fs IH]; [reflexivity|]. cbn [map]. change (g f :: map g fs) with ([g f] ++ map g fs).
    rewrite oweight_app, IH, H. reflexivity. }
  intros N. destruct fs0 as [|f fs0]; cbn [flush_remaining].
  - rewrite map_length, F; [cbn; lia|]. intros f. unfold oweight, list_sum. destruct w; cbn [map fold_right vseq length]; lia.
  - destruct N as [N| ->]; [discriminate|]. rewrite map_length, F; [cbn; lia|]. intros g. unfold oweight, list_sum. destruct w; cbn [map fold_right vseq length]; lia.
Qed.
Lemma loop_cost p fuel : forall pos fs0 fs1 w out k, stream p true true pos fs0 -> stream p true true pos fs1 ->
  merge_loop_n fuel fs0 fs1 w = Some (out, k) ->
  k <= weight fs0 + weight fs1 + length fs0 + length fs1 /\ oweight out <= size fs0 + size fs1 /\ length out <= length fs0 + length fs1.
Proof.
  induction fuel as [|fuel IH]; intros pos fs0 fs1 w out k S0 S1 H.
  all: destruct fs0 as [|f0 r0]; [|destruct fs1 as [|f1 r1]].
  all: try (cbn [merge_loop_n] in H; injection H as <- <-; destruct (flush_cost [] fs1 w) as [A B]; [now left|]; cbn [length flush_remaining map] in *; lia).
  all: try (cbn [merge_loop_n] in H; injection H as <- <-; destruct (flush_cost (f0 :: r0) [] w) as [A B]; [now right|]; cbn [length flush_remaining map] in *; lia).
  - discriminate.
  - cbn [merge_loop_n] in H. destruct (process_fragments f0 f1 w) as [[[o t0] t1] w'] eqn:HP.
    destruct (step_mstep _ _ _ _ _ _ _ _ _ _ _ _ _ _ _ S0 S1 HP) as [pos' HM].
    destruct (merge_loop_n fuel _ _ w') as [[rest k']|] eqn:HR; [|discriminate]. injection H as <- <-.
    destruct (mstep_streams _ _ _ _ _ _ _ _ _ _ HM) as [S0' S1'].
    destruct (IH _ _ _ _ _ _ S0' S1' HR) as (A & B & C). destruct (mstep_cost _ _ _ _ _ _ _ _ _ _ _ _ HM) as (A' & B' & C').
    rewrite oweight_app, app_length. lia.
Qed.
Lemma loop_least fuel : forall (fs0 fs1 : list (frag T)) w out k, merge_loop_n fuel fs0 fs1 w = Some (out, k) ->
  length fs0 <= k /\ length fs1 <= k /\ length out <= k.
Proof.
  induction fuel as [|fuel IH]; intros [|f0 r0] [|f1 r1] w out k H; cbn [merge_loop_n] in H; try discriminate;
    try (injection H as <- <-; cbn [flush_remaining map length]; rewrite ?map_length; cbn; lia).
  destruct (process_fragments f0 f1 w) as [[[o t0] t1] w']. destruct (merge_loop_n fuel _ _ w') as [[rest k']|] eqn:HR; [|discriminate].
  injection H as <- <-. apply IH in HR. rewrite !app_length in *. assert (length (olist o) <= 1) by (destruct o; cbn; lia). cbn [length]. lia.
Qed.
Lemma stream_weight p c g pos fs : stream p c g pos fs -> weight fs = size fs + (length p - pos) /\ length fs <= weight fs.
Proof.
  induction 1 as [c g|g pos n r Hn Hp S' [A B]|c pos i n r Hp Hn S' [A B]].
  - cbn. lia.
  - rewrite weight_cons, size_cons. cbn [f_insert f_length length]. pose proof (stream_le _ _ _ _ _ S'). rewrite seg_n by lia. lia.
  - rewrite weight_cons, size_cons. cbn [f_insert f_length length]. pose proof (stream_le _ _ _ _ _ S'). 
    assert (0 < n + length i) by (destruct Hn as [|Hn]; [lia|destruct i; [now destruct Hn|cbn; lia]]). lia.
Qed.
Lemma size_text fs : size fs = length (ftext fs).
Proof. induction fs as [|f fs IH]; [reflexivity|]. unfold ftext in *. cbn [map concat]. now rewrite size_cons, app_length, IH. Qed.
(** * The searches *)
Definition search_bound (a b : nat) : nat := (Nat.min a b + 1) * (6 * a + 2 * b + 2).
Lemma whole_cost (o m : list T) c k : whole_changeset_n o m = Ok (c, k) ->
  2 * length o + length m + 2 <= k <= search_bound (length o) (length m) /\
  stream o true true 0 (cs_stream o c) /\ size (cs_stream o c) = length m /\ weight (cs_stream o c) = length o + length m /\
  length (cs_stream o c) <= length o + length m.
Proof.
  intros H. pose proof (whole_erase o m) as Er. rewrite H in Er. cbn [bind fst] in Er.
  destruct (changeset_stream o m) as (c' & d & E1 & _ & E3 & E4 & E5). rewrite <- Er in E1. injection E1 as <-.
  split. { unfold whole_changeset_n in H. apply find_changeset_cost in H; cbn [eff] in *; try lia. unfold search_bound. rewrite !Nat.sub_0_r in H. exact H. }
  rewrite E3. assert (Si : size (map frag_of d) = length m) by (rewrite size_text, ftext_frag_of; congruence).
  destruct (stream_weight _ _ _ _ _ E4) as [A B]. split; [exact E4|]. split; [exact Si|]. lia.
Qed.
(** * Consolidation *)
Lemma join_length k vs (v : list T) : Merge.join k vs = Ok v -> length v = list_sum (map (fun v => length (vseq v)) vs).
Proof.
  assert (L : length (concat (map vseq vs)) = list_sum (map (fun v => length (@vseq T v)) vs)).
  { induction vs as [|x vs IH]; [reflexivity|]. cbn [map concat]. rewrite app_length, IH. reflexivity. }
  unfold Merge.join. destruct k; [intros [= <-]; exact L| |intros [= <-]; exact L]. destruct (existsb _ vs); [discriminate|]. intros [= <-]; exact L.
Qed.
Lemma group_weight (g : list (version T * version T)) : oweight (map conf g) =
  list_sum (map (fun v => length (vseq v)) (map fst g)) + list_sum (map (fun v => length (vseq v)) (map snd g)).
Proof.
  induction g as [|[a b] g IH]; [reflexivity|]. cbn [map]. change (conf (a, b) :: map conf g) with ([conf (a, b)] ++ map conf g). rewrite oweight_app, IH.
  unfold oweight, list_sum. cbn [conf map fst snd fold_right]. lia.
Qed.
Definition clash (l : list (ofrag T)) : nat :=
  list_sum (map (fun o => match o with OFrag _ => 0 | OConf a b => length (vseq a) + 2 * length (vseq b) end) l).
Lemma clash_app a b : clash (a ++ b) = clash a + clash b.
Proof. unfold clash. now rewrite map_app, list_sum_app. Qed.
Lemma clash_frags (fs : list (frag T)) : clash (map OFrag fs) = 0.
Proof. unfold clash. induction fs; [reflexivity|assumption]. Qed.
Lemma clash_group (g : list (version T * version T)) : clash (map conf g) =
  list_sum (map (fun v => length (vseq v)) (map fst g)) + 2 * list_sum (map (fun v => length (vseq v)) (map snd g)).
Proof.
  induction g as [|[a b] g IH]; [reflexivity|]. cbn [map]. change (conf (a, b) :: map conf g) with ([conf (a, b)] ++ map conf g). rewrite clash_app, IH.
  unfold clash, list_sum. cbn [conf map fst snd fold_right]. lia.
Qed.
Lemma redone_clash p c g pos fs : stream p c g pos fs -> clash (map (fun f => match f with
    | FCopy i n => OFrag (FCopy i n) | FChange i d _ => OConf (Some i) (Some d) end) fs) <= size fs + 2 * (length p - pos).
Proof.
  induction 1 as [c g|g pos n r Hn Hp S' IH|c pos i n r Hp Hn S' IH]; [cbn; lia| |]; rewrite size_cons; cbn [map f_insert]; unfold clash, list_sum in *; cbn [map fold_right vseq] in *.
  - lia.
  - rewrite seg_n by lia. lia.
Qed.
Lemma search_group a b : search_bound a b <= 6 * ((a + b) * (a + b)) + 8 * (a + b) + 2.
Proof. unfold search_bound. nia. Qed.
Lemma groups (x : ofrag T) l g r1 fs r2 : take_conflicts (x :: l) = (g, r1) -> take_frags r1 = (fs, r2) ->
  oweight (x :: l) = oweight (map conf g) + oweight (map OFrag fs) + oweight r2 /\
  length (x :: l) = length g + length fs + length r2 /\ 0 < length g + length fs /\
  clash (x :: l) = clash (map conf g) + clash r2.
Proof.
  intros H1 H2. destruct (take_conflicts_spec _ _ _ H1) as [E1 R1]. destruct (take_frags_spec _ _ _ H2) as [E2 R2]. subst r1.
  rewrite E1, !oweight_app, !clash_app, clash_frags, !app_length, !map_length. split; [lia|]. split; [lia|]. split; [|lia].
  destruct g as [|y g]; [|cbn; lia]. destruct fs as [|f fs]; [|cbn; lia].
  assert (r2 = []) as -> by (eapply frags_nil; eauto). discriminate.
Qed.
Lemma conflicts_cost k fuel : forall l st ks kl, consolidate_conflicts_n fuel k l = Ok (st, (ks, kl)) ->
  ks <= 6 * (oweight l * oweight l) + 8 * oweight l + 2 * length l /\ kl <= oweight l + 2 * length l /\ length st <= oweight l + length l /\
  length l <= kl /\ length st <= kl /\ clash st <= ks.
Proof.
  induction fuel as [|fuel IH]; intros [|x l] st ks kl H; try (injection H as <- <- <-; cbn; lia); try discriminate.
  cbn [consolidate_conflicts_n] in H. destruct (take_conflicts (x :: l)) as [g r1] eqn:H1.
  destruct (join k (map fst g)) as [v1|] eqn:J1; [|discriminate]. cbn [bind] in H.
  destruct (join k (map snd g)) as [v2|] eqn:J2; [|discriminate]. cbn [bind] in H.
  destruct (whole_changeset_n v2 v1) as [[c kc]|] eqn:Hc; [|discriminate]. cbn [bind fst snd] in H.
  destruct (take_frags r1) as [fs r2] eqn:H2. destruct (groups _ _ _ _ _ _ H1 H2) as (G1 & G2 & G3 & _).
  destruct (consolidate_conflicts_n fuel k r2) as [[rest [ks' kl']]|] eqn:HR; [|discriminate]. cbn [bind fst snd] in H. injection H as <- <- <-.
  destruct (IH _ _ _ _ HR) as (A & B & C & C1 & C2 & C3). destruct (whole_cost _ _ _ _ Hc) as ((K0 & K) & S0 & Z0 & _ & L).
  pose proof (redone_clash _ _ _ _ _ S0) as R0. rewrite Z0 in R0. rewrite !clash_app, clash_frags.
  apply join_length in J1, J2. rewrite group_weight, <- J1, <- J2 in G1. pose proof (search_group (length v2) (length v1)) as K'.
  rewrite !app_length, !map_length. rewrite G1, G2.
  set (s := length v2 + length v1) in *. set (r := oweight r2) in *. set (o := oweight (map OFrag fs)) in *.
  replace (length v1 + length v2) with s by (unfold s; lia).
  assert (s * s + r * r <= (s + o + r) * (s + o + r)) by nia. lia.
Qed.
Lemma items_cost k fuel : forall (l : list (ofrag T)) items n, consolidate_items_n fuel k l = Ok (items, n) ->
  length l <= n <= 2 * length l /\ length items <= length l /\
  list_sum (map (fun x => match x with DChange a b => length a + 2 * length b | _ => 0 end) items) = clash l.
Proof.
  induction fuel as [|fuel IH]; intros [|x l] items n H; try (injection H as <- <-; cbn; lia); try discriminate.
  cbn [consolidate_items_n] in H. destruct (take_conflicts (x :: l)) as [g r1] eqn:H1.
  destruct (join k (map fst g)) as [v1|] eqn:J1; [|discriminate]. cbn [bind] in H. destruct (join k (map snd g)) as [v2|] eqn:J2; [|discriminate]. cbn [bind] in H.
  destruct (take_frags r1) as [fs r2] eqn:H2. destruct (groups _ _ _ _ _ _ H1 H2) as (_ & G2 & G3 & G4).
  destruct (join k (map (fun f => Some (f_insert f)) fs)) as [i|] eqn:J3; [|discriminate]. cbn [bind] in H.
  destruct (consolidate_items_n fuel k r2) as [[rest n']|] eqn:HR; [|discriminate]. cbn [bind fst snd] in H. injection H as <- <-.
  apply IH in HR. destruct HR as (HR1 & HR2 & HR3). apply join_length in J1, J2, J3. rewrite G4, clash_group, <- J1, <- J2, !map_app, !list_sum_app, !app_length, G2, HR3.
  split; [lia|].
  assert (I1 : length (if nonempty i then [DText i] else []) <= length fs /\ list_sum (map (fun x => match x with DChange a b => length a + 2 * length b | _ => 0 end) (if nonempty i then [DText i] else [])) = 0).
  { destruct fs as [|f fs]; [destruct i; [cbn; lia|discriminate]|]. destruct i; cbn; lia. }
  assert (I2 : length (if nonempty v1 || nonempty v2 then [DChange v1 v2] else []) <= length g).
  { destruct g as [|f g]; [destruct v1, v2; try discriminate; cbn; lia|]. destruct (nonempty v1 || nonempty v2); cbn; lia. }
  assert (I3 : list_sum (map (fun x : ditem T => match x with DChange a b => length a + 2 * length b | _ => 0 end) (if nonempty v1 || nonempty v2 then [DChange v1 v2] else [])) = length v1 + 2 * length v2).
  { destruct v1, v2; cbn; lia. }
  destruct I1 as [I1 I4]. rewrite I4, I3. lia.
Qed.
Theorem merge_cost k (p b0 b1 : list T) r : merge_token_sequence k p b0 b1 = Ok r -> exists s, merge_n k p b0 b1 = Ok (r, s) /\
  2 * length p + length b0 + 2 <= s_diff0 s <= (Nat.min (length p) (length b0) + 1) * (6 * length p + 2 * length b0 + 2) /\
  2 * length p + length b1 + 2 <= s_diff1 s <= (Nat.min (length p) (length b1) + 1) * (6 * length p + 2 * length b1 + 2) /\
  list_sum (map (fun x => match x with DChange a b => length a + 2 * length b | _ => 0 end) r) <= s_conflicts s <=
    6 * ((length b0 + length b1) * (length b0 + length b1)) + 10 * (length b0 + length b1) + 4 * length p /\
  s_rest s <= 14 * length p + 10 * (length b0 + length b1) /\
  forall d0 d1, diff_token_sequences p b0 = Ok d0 -> diff_token_sequences p b1 = Ok d1 ->
    length d0 + length d1 + Nat.max (length d0) (length d1) + 2 * (length r - 1) <= s_rest s.
Proof.
  intros H. pose proof (merge_erase k p b0 b1) as Er. rewrite H in Er. destruct (merge_n k p b0 b1) as [[r' s]|] eqn:M; [|discriminate].
  cbn [bind fst] in Er. injection Er as ->. exists s. split; [reflexivity|]. unfold merge_n in M.
  destruct (whole_changeset_n p b0) as [[c0 k0]|] eqn:H0; [|discriminate]. cbn [bind] in M.
  destruct (whole_changeset_n p b1) as [[c1 k1]|] eqn:H1; [|discriminate]. cbn [bind fst snd] in M.
  destruct (whole_cost _ _ _ _ H0) as (K0 & S0 & Z0 & W0 & L0). destruct (whole_cost _ _ _ _ H1) as (K1 & S1 & Z1 & W1 & L1).
  destruct (merge_loop_n _ _ _ false) as [[m km]|] eqn:HL; [|discriminate].
  destruct (loop_cost _ _ _ _ _ _ _ _ S0 S1 HL) as (A & B & C).
  destruct (consolidate_conflicts_n _ k m) as [[st [ks kl]]|] eqn:HC; [|discriminate]. cbn [bind fst snd] in M.
  destruct (conflicts_cost _ _ _ _ _ _ HC) as (A1 & B1 & C1 & Lo1 & Lo2 & Lo3).
  destruct (consolidate_items_n _ k st) as [[items n]|] eqn:HI; [|discriminate]. cbn [bind fst snd] in M.
  apply items_cost in HI. destruct HI as (HI & HI1 & HI2). injection M as <- <-. cbn [s_diff0 s_diff1 s_conflicts s_rest].
  set (r := match items with [] => [DText []] | _ => items end).
  assert (R1 : length r - 1 <= length items) by (unfold r; destruct items; cbn; lia).
  assert (R2 : list_sum (map (fun x => match x with DChange a b => length a + 2 * length b | _ => 0 end) r) = clash st) by (rewrite <- HI2; unfold r; now destruct items).
  rewrite R2.
  split; [exact K0|]. split; [exact K1|]. rewrite Z0, Z1 in B. rewrite W0, W1 in A.
  set (x := length b0 + length b1) in *.
  assert (oweight m * oweight m <= x * x) by (apply Nat.mul_le_mono; lia).
  split; [lia|]. split; [lia|]. intros d0 d1 D0 D1. apply loop_least in HL.
  pose proof (whole_erase p b0) as E0. rewrite H0 in E0. pose proof (whole_erase p b1) as E1. rewrite H1 in E1. cbn [bind fst] in E0, E1.
  unfold diff_token_sequences in D0, D1. rewrite <- E0 in D0. rewrite <- E1 in D1. injection D0 as <-. injection D1 as <-.
  rewrite !cs_stream_diff, !map_length in *. lia.
Qed.
Corollary merge_total_cost k (p b0 b1 : list T) r : merge_token_sequence k p b0 b1 = Ok r -> exists s, merge_n k p b0 b1 = Ok (r, s) /\
  total_steps s <= 12 * ((length p + length b0 + length b1 + 2) * (length p + length b0 + length b1 + 2)).
Proof.
  intros H. destruct (merge_cost k p b0 b1 r H) as (s & M & A & B & C & D & _). exists s. split; [exact M|]. unfold total_steps.
  set (a := length p) in *. set (b := length b0) in *. set (c := length b1) in *. set (n := a + b + c) in *.
  assert (s_diff0 s <= (b + 1) * (6 * n + 2)) by (etransitivity; [apply A|apply Nat.mul_le_mono; lia]).
  assert (s_diff1 s <= (c + 1) * (6 * n + 2)) by (etransitivity; [apply B|apply Nat.mul_le_mono; lia]).
  assert (b * (6 * n + 2) + c * (6 * n + 2) <= n * (6 * n + 2)) by (rewrite <- Nat.mul_add_distr_r; apply Nat.mul_le_mono; lia).
  assert ((b + c) * (b + c) <= n * n) by (apply Nat.mul_le_mono; lia). lia.
Qed.
End Bounds.

(** * Without conflicts *)
Section Quiet.
Context {T : Type} {E : Teq T} {O : TeqOk T}.
Lemma quiet_conflicts k (g : list (frag T)) fuel st ks kl :
  consolidate_conflicts_n fuel k (map OFrag g) = Ok (st, (ks, kl)) -> ks <= 2.
Proof.
  destruct g as [|f g']; [destruct fuel; intros [= <- <- <-]; lia|]. set (g := f :: g').
  destruct fuel as [|fuel]; [discriminate|]. unfold g at 1. cbn [map consolidate_conflicts_n take_conflicts].
  assert (J : join k (@nil (version T)) = Ok []) by (destruct k; reflexivity). rewrite J. cbn [bind].
  destruct (whole_changeset_n (@nil T) []) as [[c kc]|] eqn:Hc; [|discriminate]. cbn [bind fst snd].
  change (OFrag f :: map OFrag g') with (map (@OFrag T) g). rewrite take_frags_all.
  assert (K : forall n, consolidate_conflicts_n n k (@nil (ofrag T)) = Ok ([], (0, 0))) by (intros []; reflexivity). rewrite K. cbn [bind fst snd].
  destruct (whole_cost _ _ _ _ Hc) as ((_ & L) & _). unfold search_bound in L. cbn in L. intros [= _ <- _]. lia.
Qed.
Theorem merge_cost_quiet k (p b0 b1 : list T) d0 d1 : diff_token_sequences p b0 = Ok d0 -> diff_token_sequences p b1 = Ok d1 ->
  compatible (edits 0 d0) (edits 0 d1) -> exists r s, merge_n k p b0 b1 = Ok (r, s) /\ s_conflicts s <= 2.
Proof.
  intros D0 D1 C. pose proof (merge_union k p b0 b1 d0 d1 D0 D1 C) as HM. destruct (merge_cost k p b0 b1 _ HM) as (s & M & _).
  do 2 eexists. split; [exact M|]. unfold merge_n in M.
  destruct (whole_changeset_n p b0) as [[c0 k0]|] eqn:H0; [|discriminate]. cbn [bind] in M.
  destruct (whole_changeset_n p b1) as [[c1 k1]|] eqn:H1; [|discriminate]. cbn [bind fst snd] in M.
  pose proof (whole_erase p b0) as E0. rewrite H0 in E0. pose proof (whole_erase p b1) as E1. rewrite H1 in E1. cbn [bind fst] in E0, E1.
  unfold diff_token_sequences in D0, D1. rewrite <- E0 in D0. rewrite <- E1 in D1. injection D0 as <-. injection D1 as <-.
  destruct (whole_cost _ _ _ _ H0) as (_ & S0 & _). destruct (whole_cost _ _ _ _ H1) as (_ & S1 & _).
  destruct (merge_loop_n _ _ _ false) as [[m km]|] eqn:HL; [|discriminate].
  pose proof (merge_loop_erase (length (cs_stream p c0) + length (cs_stream p c1)) (cs_stream p c0) (cs_stream p c1) false) as EL.
  rewrite HL in EL. cbn [option_map fst] in EL. symmetry in EL. apply (merge_loop_mrun p _ 0) in EL; auto.
  rewrite <- !fedits_frag_of, <- !cs_stream_diff in C. destruct (union_run p _ _ _ _ _ EL eq_refl C) as (g & -> & _).
  destruct (consolidate_conflicts_n _ k (map OFrag g)) as [[st [ks kl]]|] eqn:HC; [|discriminate]. cbn [bind fst snd] in M.
  destruct (consolidate_items_n _ k st) as [items|]; [|discriminate]. cbn [bind] in M. injection M as _ <-. cbn [s_conflicts].
  eapply quiet_conflicts, HC.
Qed.
End Quiet.

(** * Quadratic cases *)
Lemma whole_slow n : exists c k, whole_changeset_n (comb 1 0 n) (comb 2 0 n) = Ok (c, k) /\ 3 * n * n <= k.
Proof.
  pose proof (whole_erase (comb 1 0 n) (comb 2 0 n)) as Er. destruct (find_changeset_ok (comb 1 0 n) (comb 2 0 n)) as [c [Hc _]]. rewrite Hc in Er.
  destruct (whole_changeset_n (comb 1 0 n) (comb 2 0 n)) as [[c' k]|] eqn:Hn; [|discriminate]. exists c', k. split; [reflexivity|].
  apply (comb_slow n _ 0) in Hn; [|lia]. now rewrite Nat.sub_0_r in Hn.
Qed.
Theorem merge_slow_diff n : exists p b0 : list nat, length p = 2 * n /\ length b0 = 2 * n /\
  forall k, exists s, merge_n k p b0 p = Ok ([DText b0], s) /\ 3 * n * n <= s_diff0 s.
Proof.
  exists (comb 1 0 n), (comb 2 0 n). rewrite !comb_length. do 2 (split; [reflexivity|]). intros k.
  destruct (merge_cost k _ _ _ _ (merge_right k (comb 1 0 n) (comb 2 0 n))) as (s & M & _). exists s. split; [exact M|].
  destruct (whole_slow n) as (c & kc & Hc & L). unfold merge_n in M. rewrite Hc in M. cbn [bind] in M.
  destruct (whole_changeset_n (comb 1 0 n) (comb 1 0 n)) as [c1|]; [|discriminate]. cbn [bind] in M.
  destruct (merge_loop_n _ _ _ false) as [[m km]|]; [|discriminate]. destruct (consolidate_conflicts_n _ k m) as [st|]; [|discriminate]. cbn [bind] in M.
  destruct (consolidate_items_n _ k _) as [items|]; [|discriminate]. cbn [bind] in M. injection M as _ <-. exact L.
Qed.
Lemma empty_parent (b : list nat) c k : b <> [] -> whole_changeset_n [] b = Ok (c, k) -> cs_stream [] c = [FChange b [] 0].
Proof.
  intros N H. destruct (whole_cost _ _ _ _ H) as (_ & S & Z & _).
  destruct (stream_end [] true true _ S) as [E|[i [Hi E]]]; rewrite E in Z |- *; [destruct b; [now destruct N|discriminate]|].
  pose proof (whole_erase [] b) as Er. rewrite H in Er. cbn [bind fst] in Er.
  destruct (changeset_stream [] b) as (c' & d & E1 & _ & E3 & _ & E5). rewrite <- Er in E1. injection E1 as <-.
  rewrite E3 in E. pose proof (ftext_frag_of d) as F. rewrite E, E5 in F. unfold ftext in F. cbn in F. rewrite app_nil_r in F. now subst i.
Qed.
Lemma clash_loop (x y : nat) u v : x <> y -> exists k,
  merge_loop_n 2 [FChange (x :: u) [] 0] [FChange (y :: v) [] 0] false = Some ([OConf (Some (x :: u)) (Some (y :: v))], k).
Proof.
  intros N. cbn [merge_loop_n process_fragments]. unfold change_change.
  change (has_composable_changes (x :: u) 0 (y :: v) 0) with false. cbv iota.
  assert (P : common_prefix_length (x :: u) (y :: v) = 0) by (cbn [common_prefix_length]; destruct (teq_spec x y); [contradiction|reflexivity]). rewrite P.
  unfold are_identical_changes. replace (length (y :: v) =? 0) with false by reflexivity. rewrite andb_false_r. cbn [andb].
  unfold ordinary_conflict, split_change_fragment. cbn [Nat.min]. rewrite !firstn_all, !Nat.ltb_irrefl.
  change (0 <? length (x :: u)) with true. change (0 <? length (y :: v)) with true. cbn [Nat.ltb Nat.leb orb f_insert olist app flush_remaining map length].
  eexists. reflexivity.
Qed.
Theorem merge_slow_conflict n : exists b0 b1 : list nat, length b0 = 2 * n /\ length b1 = 2 * n /\
  forall k, k <> KBytes -> exists r s, merge_n k [] b0 b1 = Ok (r, s) /\ s_diff0 s + s_diff1 s <= 8 * n + 4 /\ 3 * n * n <= s_conflicts s.
Proof.
  exists (comb 2 0 n), (comb 1 0 n). rewrite !comb_length. do 2 (split; [reflexivity|]). intros k K.
  destruct (merge_total k [] (comb 2 0 n) (comb 1 0 n) K) as [r HM]. destruct (merge_cost k _ _ _ _ HM) as (s & M & A & B & _). exists r, s. split; [exact M|].
  rewrite !comb_length in A, B. cbn [length Nat.min Nat.mul Nat.add] in A, B. split; [lia|].
  destruct n as [|n']; [lia|]. set (n := S n') in *.
  assert (N1 : comb 1 0 n <> []) by (unfold n; discriminate). assert (N2 : comb 2 0 n <> []) by (unfold n; discriminate).
  unfold merge_n in M. destruct (whole_changeset_n [] (comb 2 0 n)) as [[c0 k0]|] eqn:H0; [|discriminate]. cbn [bind] in M.
  destruct (whole_changeset_n [] (comb 1 0 n)) as [[c1 k1]|] eqn:H1; [|discriminate]. cbn [bind fst snd] in M.
  rewrite (empty_parent _ _ _ N2 H0), (empty_parent _ _ _ N1 H1) in M. cbn [length Nat.add] in M.
  destruct (clash_loop 2 1 (0 :: comb 2 1 n') (0 :: comb 1 1 n')) as [km L]; [discriminate|].
  change (2 :: 0 :: comb 2 1 n') with (comb 2 0 n) in L. change (1 :: 0 :: comb 1 1 n') with (comb 1 0 n) in L. rewrite L in M.
  cbn [length consolidate_conflicts_n take_conflicts map fst snd] in M.
  assert (J : forall b : list nat, join k [Some b] = Ok b) by (intros b; destruct k; cbn; now rewrite app_nil_r).
  rewrite !J in M. cbn [bind] in M. destruct (whole_slow n) as (c & kc & Hc & LS). rewrite Hc in M. cbn [bind take_frags fst snd] in M.
  destruct (consolidate_items_n _ k _) as [items|]; [|discriminate]. cbn [bind] in M. injection M as _ <-. cbn [s_conflicts]. lia.
Qed.
