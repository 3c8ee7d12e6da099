(** The automaton and [find_lcs_multiple] only look at tokens through equality:
    renaming the tokens by a map that preserves and reflects [==] on the tokens
    that occur does not change any answer. *)
From Verif Require Import Base Automaton AutomatonCost Multi.

Section Rename.
Context {U V : Type} {EU : Teq U} {EV : Teq V} (f : U -> V) (P : U -> Prop).
Hypothesis Hf : forall x y, P x -> P y -> teq (f x) (f y) = teq x y.

Definition mapd {A} (d : dict U A) : dict V A := map (fun kv => (f (fst kv), snd kv)) d.
Definition Pd {A} (d : dict U A) : Prop := Forall (fun kv => P (fst kv)) d.
Lemma dget_mapd {A} (d : dict U A) k : Pd d -> P k -> dget (mapd d) (f k) = dget d k.
Proof.
  intros Hd Hk; induction Hd as [|[k' v] d Hk' Hd IH]; [reflexivity|]; cbn in *.
  rewrite Hf by auto; destruct (teq k' k); auto.
Qed.
Lemma dmem_mapd {A} (d : dict U A) k : Pd d -> P k -> dmem (mapd d) (f k) = dmem d k.
Proof. intros; unfold dmem; now rewrite dget_mapd. Qed.
Lemma dset_mapd {A} (d : dict U A) k v : Pd d -> P k -> dset (mapd d) (f k) v = mapd (dset d k v).
Proof.
  intros Hd Hk; induction Hd as [|[k' v'] d Hk' Hd IH]; [reflexivity|]; cbn in *.
  rewrite Hf by auto; destruct (teq k' k); cbn; [reflexivity|]; unfold mapd in *; now rewrite IH.
Qed.
Lemma Pd_dset {A} (d : dict U A) k v : Pd d -> P k -> Pd (dset d k v).
Proof.
  intros Hd Hk; induction Hd as [|[k' v'] d Hk' Hd IH]; cbn; [repeat constructor; auto|].
  destruct (teq k' k); constructor; auto.
Qed.

Definition mapn (nd : node U) : node V :=
  mkNode (n_len nd) (mapd (n_trans nd)) (n_fe nd) (n_term nd) (n_link nd) (n_rev nd).
Definition maph (h : heap U) : heap V := map mapn h.
Definition Ph (h : heap U) : Prop := Forall (fun nd => Pd (n_trans nd)) h.
Lemma nth_maph h i : nth_error (maph h) i = option_map mapn (nth_error h i).
Proof. apply nth_error_map. Qed.
Lemma Ph_nth h i nd : Ph h -> nth_error h i = Some nd -> Pd (n_trans nd).
Proof. intros H Hn; unfold Ph in H; rewrite Forall_forall in H; apply H; eapply nth_error_In; eauto. Qed.
Lemma lupd_maph h i g g' : (forall nd, nth_error h i = Some nd -> g' (mapn nd) = mapn (g nd)) ->
  lupd (maph h) i g' = maph (lupd h i g).
Proof.
  revert i; induction h as [|nd h IH]; intros [|i] Hg; cbn; try reflexivity.
  - now rewrite (Hg nd eq_refl).
  - unfold maph in IH; rewrite IH; [reflexivity|]; intros; now apply Hg.
Qed.
Lemma Ph_lupd h i g : Ph h -> (forall nd, Pd (n_trans nd) -> Pd (n_trans (g nd))) -> Ph (lupd h i g).
Proof.
  intros H Hg; revert i; induction H as [|nd h Hn H IH]; intros [|i]; cbn; try constructor; auto.
  apply IH.
Qed.
Lemma maph_app h h' : maph (h ++ h') = maph h ++ maph h'.
Proof. apply map_app. Qed.
Lemma Ph_snoc h nd : Ph h -> Pd (n_trans nd) -> Ph (h ++ [nd]).
Proof. intros H1 H2; apply Forall_app; split; [exact H1|repeat constructor; exact H2]. Qed.
Lemma maph_length h : length (maph h) = length h.
Proof. apply map_length. Qed.

Lemma set_trans_map t j nd : Pd (n_trans nd) -> P t -> set_trans (f t) j (mapn nd) = mapn (set_trans t j nd).
Proof. intros H Ht; unfold set_trans, mapn; cbn; now rewrite dset_mapd. Qed.

Lemma extend_loop_map t new (Ht : P t) fuel : forall h prev cur, Ph h ->
  extend_loop fuel (maph h) (f t) new prev cur =
  option_map (fun r => (maph (fst (fst r)), snd (fst r), snd r)) (extend_loop fuel h t new prev cur) /\
  match extend_loop fuel h t new prev cur with Some (h', _, _) => Ph h' | None => True end.
Proof.
  induction fuel as [|fuel IH]; intros h prev cur Hh; [split; reflexivity|].
  cbn [extend_loop]; destruct cur as [c|]; [|split; [reflexivity|exact Hh]].
  rewrite nth_maph; destruct (nth_error h c) as [nd|] eqn:Hn; [|split; reflexivity]; cbn [option_map].
  pose proof (Ph_nth _ _ _ Hh Hn) as Hnd.
  cbn [mapn n_trans n_link]; rewrite dmem_mapd by auto.
  destruct (dmem (n_trans nd) t); [split; [reflexivity|exact Hh]|].
  rewrite (lupd_maph h c (set_trans t new)).
  - apply IH; apply Ph_lupd; [exact Hh|]; intros; cbn; now apply Pd_dset.
  - intros nd' Hn'; apply set_trans_map; auto; eapply Ph_nth; eauto.
Qed.
Lemma redirect_loop_map t q clone (Ht : P t) fuel : forall h cur, Ph h ->
  redirect_loop fuel (maph h) (f t) q clone cur = option_map maph (redirect_loop fuel h t q clone cur) /\
  match redirect_loop fuel h t q clone cur with Some h' => Ph h' | None => True end.
Proof.
  induction fuel as [|fuel IH]; intros h cur Hh; [split; reflexivity|].
  cbn [redirect_loop]; destruct cur as [c|]; [|split; [reflexivity|exact Hh]].
  rewrite nth_maph; destruct (nth_error h c) as [nd|] eqn:Hn; [|split; reflexivity]; cbn [option_map].
  pose proof (Ph_nth _ _ _ Hh Hn) as Hnd.
  cbn [mapn n_trans n_link]; rewrite dget_mapd by auto.
  destruct (dget (n_trans nd) t) as [d|]; [|split; [reflexivity|exact Hh]].
  destruct (d =? q); [|split; [reflexivity|exact Hh]].
  rewrite (lupd_maph h c (set_trans t clone)).
  - apply IH; apply Ph_lupd; [exact Hh|]; intros; cbn; now apply Pd_dset.
  - intros nd' Hn'; apply set_trans_map; auto; eapply Ph_nth; eauto.
Qed.
Lemma insert_node_map h t p q : P t -> Ph h ->
  insert_node (maph h) (f t) p q = option_map (fun r => (maph (fst r), snd r)) (insert_node h t p q) /\
  match insert_node h t p q with Some (h', _) => Ph h' | None => True end.
Proof.
  intros Ht Hh; unfold insert_node; rewrite !nth_maph.
  destruct (nth_error h p) as [np|]; [|split; reflexivity].
  destruct (nth_error h q) as [nq|] eqn:Hq; [|split; reflexivity].
  pose proof (Ph_nth _ _ _ Hh Hq) as Hnq.
  cbn [option_map mapn n_len n_trans n_fe n_link]; cbv zeta; rewrite maph_length.
  set (clone := mkNode _ (n_trans nq) _ _ _ _).
  change (maph h ++ [mkNode (n_len np + 1) (mapd (n_trans nq)) (n_fe nq) false (n_link nq) []])
    with (maph h ++ maph [clone]).
  rewrite <- maph_app, (lupd_maph _ q (set_link (Some (length h)))) by reflexivity.
  assert (Hh2 : Ph (lupd (h ++ [clone]) q (set_link (Some (length h))))).
  { apply Ph_lupd; [now apply Ph_snoc|auto]. }
  destruct (redirect_loop_map t q (length h) Ht (S (S (n_len np))) _ (Some p) Hh2) as [-> HP].
  destruct (redirect_loop _ (lupd _ _ _) t q _ (Some p)); cbn; auto.
Qed.
Lemma extend_map h last t : P t -> Ph h ->
  extend (maph h) last (f t) = option_map (fun r => (maph (fst r), snd r)) (extend h last t) /\
  match extend h last t with Some (h', _) => Ph h' | None => True end.
Proof.
  intros Ht Hh; unfold extend; rewrite !nth_maph.
  destruct (nth_error h last) as [nl|]; [|split; reflexivity].
  cbn [option_map mapn n_len]; cbv zeta; rewrite maph_length.
  set (new := @mkNode U (n_len nl + 1) [] (n_len nl + 1) false None []).
  change (maph h ++ [mkNode (n_len nl + 1) [] (n_len nl + 1) false None []]) with (maph h ++ maph [new]).
  rewrite <- maph_app.
  assert (Hh1 : Ph (h ++ [new])) by (apply Ph_snoc; [exact Hh|constructor]).
  destruct (extend_loop_map t (length h) Ht (S (S (n_len nl))) _ None (Some last) Hh1) as [-> HP].
  destruct (extend_loop _ (h ++ [new]) t _ None (Some last)) as [[[h2 prev] [p|]]|]; cbn [option_map fst snd].
  - rewrite nth_maph; destruct (nth_error h2 p) as [np|] eqn:Hp; [|split; reflexivity]; cbn [option_map mapn n_trans n_len].
    pose proof (Ph_nth _ _ _ HP Hp) as Hnp; rewrite dget_mapd by auto.
    destruct (dget (n_trans np) t) as [q|]; [|split; reflexivity].
    rewrite nth_maph; destruct (nth_error h2 q) as [nq|]; [|split; reflexivity]; cbn [option_map mapn n_len].
    destruct (n_len nq =? n_len np + 1).
    + cbn; split; [|apply Ph_lupd; auto]; do 2 f_equal; now apply lupd_maph.
    + destruct (insert_node_map h2 t p q Ht HP) as [-> HI].
      destruct (insert_node h2 t p q) as [[h3 cl]|]; cbn; [|auto].
      split; [|apply Ph_lupd; auto]; do 2 f_equal; now apply lupd_maph.
  - cbn; split; [|apply Ph_lupd; auto]; do 2 f_equal; now apply lupd_maph.
  - split; reflexivity.
Qed.
Lemma extend_all_map s : Forall P s -> forall h last, Ph h ->
  extend_all (maph h) last (map f s) = option_map (fun r => (maph (fst r), snd r)) (extend_all h last s) /\
  match extend_all h last s with Some (h', _) => Ph h' | None => True end.
Proof.
  induction 1 as [|t s Ht Hs IH]; intros h last Hh; [split; [reflexivity|exact Hh]|].
  cbn [map extend_all]; destruct (extend_map h last t Ht Hh) as [-> HP].
  destruct (extend h last t) as [[h' l']|]; cbn; auto.
Qed.
Lemma mark_terminals_map fuel : forall h cur,
  mark_terminals fuel (maph h) cur = option_map maph (mark_terminals fuel h cur).
Proof.
  induction fuel as [|fuel IH]; intros h cur; [reflexivity|].
  cbn [mark_terminals]; destruct cur as [c|]; [|reflexivity].
  rewrite nth_maph; destruct (nth_error h c) as [nd|]; [|reflexivity]; cbn [option_map mapn n_link].
  rewrite (lupd_maph h c set_term) by reflexivity; apply IH.
Qed.
Lemma add_reverse_links_map ids : forall h,
  add_reverse_links (maph h) ids = option_map maph (add_reverse_links h ids).
Proof.
  induction ids as [|i ids IH]; intros h; [reflexivity|]; cbn [add_reverse_links].
  rewrite nth_maph; destruct (nth_error h i) as [nd|]; [|reflexivity]; cbn [option_map mapn n_link].
  destruct (n_link nd) as [u|]; [|apply IH].
  rewrite (lupd_maph h u (add_rev i)) by reflexivity; apply IH.
Qed.
Lemma mark_terminals_P fuel : forall h cur, Ph h ->
  match mark_terminals fuel h cur with Some h' => Ph h' | None => True end.
Proof.
  induction fuel as [|fuel IH]; intros h cur Hh; [exact I|].
  cbn [mark_terminals]; destruct cur as [c|]; [|exact Hh].
  destruct (nth_error h c) as [nd|]; [|exact I]; apply IH, Ph_lupd; auto.
Qed.
Lemma add_reverse_links_P ids : forall h, Ph h ->
  match add_reverse_links h ids with Some h' => Ph h' | None => True end.
Proof.
  induction ids as [|i ids IH]; intros h Hh; [exact Hh|]; cbn [add_reverse_links].
  destruct (nth_error h i) as [nd|]; [|exact I].
  destruct (n_link nd) as [u|]; apply IH; auto; apply Ph_lupd; auto.
Qed.
Lemma build_map s : Forall P s ->
  build (map f s) = option_map maph (build s) /\
  match build s with Some h => Ph h | None => True end.
Proof.
  intros Hs; unfold build, build_core.
  change [@root_node V] with (maph [root_node]).
  destruct (extend_all_map s Hs [root_node] 0) as [-> HP]; [repeat constructor|].
  destruct (extend_all [root_node] 0 s) as [[h l]|]; [|split; reflexivity]; cbn [option_map fst snd].
  rewrite map_length, mark_terminals_map.
  pose proof (mark_terminals_P (S (S (length s))) h (Some l) HP) as HM.
  destruct (mark_terminals _ h (Some l)) as [h1|]; [|split; reflexivity]; cbn [option_map].
  rewrite maph_length, add_reverse_links_map; split; [reflexivity|now apply add_reverse_links_P].
Qed.

(** ** Positions do not look at tokens at all *)
Lemma follow_map h fuel : forall todo all,
  follow_reverse_links fuel (maph h) todo all = follow_reverse_links fuel h todo all.
Proof.
  induction fuel as [|fuel IH]; intros [|c todo] all; try reflexivity.
  cbn [follow_reverse_links]; rewrite nth_maph; destruct (nth_error h c); [apply IH|reflexivity].
Qed.
Lemma start_positions_map h ids len : start_positions (maph h) ids len = start_positions h ids len.
Proof.
  induction ids as [|i ids IH]; [reflexivity|]; cbn [start_positions].
  rewrite nth_maph; destruct (nth_error h i); [|reflexivity]; cbn; now rewrite IH.
Qed.
Lemma positions_map h cur len : get_all_start_positions (maph h) cur len = get_all_start_positions h cur len.
Proof.
  unfold get_all_start_positions; rewrite maph_length, follow_map.
  destruct (follow_reverse_links _ h [cur] []); [|reflexivity]; now rewrite start_positions_map.
Qed.
Lemma trans_count_map h : trans_count (maph h) = trans_count h.
Proof.
  unfold trans_count, maph; rewrite map_map; f_equal; apply map_ext; intros nd; cbn.
  unfold mapd; now rewrite map_length.
Qed.

(** ** The traversal *)
Variables (mksepU : nat -> U) (mksepV : nat -> V) (issepU : U -> bool) (issepV : V -> bool).
Hypothesis Hmk : forall i, f (mksepU i) = mksepV i.
Hypothesis His : forall x, issepV (f x) = issepU x.

Lemma set_add_map a x : Forall P a -> P x -> set_add (map f a) (f x) = map f (set_add a x) /\ Forall P (set_add a x).
Proof.
  intros Ha Hx; unfold set_add.
  assert (He : existsb (teq (f x)) (map f a) = existsb (teq x) a).
  { induction Ha as [|y a Hy Ha IH]; [reflexivity|]; cbn; now rewrite Hf, IH. }
  rewrite He; destruct (existsb (teq x) a); [auto|]; rewrite map_app; split; [reflexivity|].
  apply Forall_app; auto.
Qed.
Lemma set_union_map b : Forall P b -> forall a, Forall P a ->
  set_union (map f a) (map f b) = map f (set_union a b) /\ Forall P (set_union a b).
Proof.
  induction 1 as [|x b Hx Hb IH]; intros a Ha; cbn; [auto|].
  destruct (set_add_map a x Ha Hx) as [-> HP]; now apply IH.
Qed.

Definition mapm (m : dict nat (list U)) : dict nat (list V) := map (fun kv => (fst kv, map f (snd kv))) m.
Definition Pm (m : dict nat (list U)) : Prop := Forall (fun kv => Forall P (snd kv)) m.
Lemma dget_mapm m i : dget (mapm m) i = option_map (map f) (dget m i).
Proof.
  induction m as [|[k v] m IH]; [reflexivity|]; cbn in *; destruct (teq k i); [reflexivity|exact IH].
Qed.
Lemma dmem_mapm m i : dmem (mapm m) i = dmem m i.
Proof. unfold dmem; rewrite dget_mapm; now destruct (dget m i). Qed.
Lemma dset_mapm m i v : dset (mapm m) i (map f v) = mapm (dset m i v).
Proof.
  induction m as [|[k w] m IH]; [reflexivity|]; cbn in *; destruct (teq k i); cbn; [reflexivity|].
  unfold mapm in *; now rewrite IH.
Qed.
Lemma Pm_dget m i v : Pm m -> dget m i = Some v -> Forall P v.
Proof.
  induction 1 as [|[k w] m Hw Hm IH]; cbn; [discriminate|].
  destruct (teq k i); [intros H; injection H as <-; exact Hw|exact IH].
Qed.
Lemma Pm_dset m i v : Pm m -> Forall P v -> Pm (dset m i v).
Proof.
  intros Hm Hv; induction Hm as [|[k w] m Hw Hm IH]; cbn; [repeat constructor; auto|].
  destruct (teq k i); constructor; auto.
Qed.

Lemma shared_of_map m tr : Pm m -> Pd tr -> forall acc, Forall P acc ->
  shared_of issepV (mapm m) (map f acc) (mapd tr) = option_map (map f) (shared_of issepU m acc tr) /\
  match shared_of issepU m acc tr with Some sh => Forall P sh | None => True end.
Proof.
  intros Hm; induction 1 as [|[t j] tr Ht Htr IH]; intros acc Ha; [split; [reflexivity|exact Ha]|].
  cbn [mapd map shared_of fst snd] in *; rewrite His; destruct (issepU t).
  - destruct (set_add_map acc t Ha Ht) as [-> HP]; now apply IH.
  - rewrite dget_mapm; destruct (dget m j) as [ms|] eqn:Hj; [|split; reflexivity]; cbn [option_map].
    destruct (set_union_map ms (Pm_dget m j ms Hm Hj) acc Ha) as [-> HP]; now apply IH.
Qed.
Lemma multi_loop_map h count (Hh : Ph h) fuel : forall m stack mx best, Pm m ->
  multi_loop issepV fuel (maph h) count (mapm m) stack mx best = multi_loop issepU fuel h count m stack mx best.
Proof.
  induction fuel as [|fuel IH]; intros m [|top rest] mx best Hm; try reflexivity.
  cbn [multi_loop]; rewrite dmem_mapm; destruct (dmem m top); [now apply IH|].
  rewrite nth_maph; destruct (nth_error h top) as [nd|] eqn:Hn; [|reflexivity]; cbn [option_map mapn n_trans n_len].
  pose proof (Ph_nth _ _ _ Hh Hn) as Hnd.
  assert (Hv : dvalues (mapd (n_trans nd)) = dvalues (n_trans nd)).
  { unfold dvalues, mapd; now rewrite map_map. }
  rewrite Hv.
  assert (Hall : forallb (dmem (mapm m)) (dvalues (n_trans nd)) = forallb (dmem m) (dvalues (n_trans nd))).
  { generalize (dvalues (n_trans nd)); intros l; induction l as [|j l IHl]; [reflexivity|]; cbn.
    now rewrite dmem_mapm, IHl. }
  rewrite Hall; destruct (forallb (dmem m) (dvalues (n_trans nd))).
  - destruct (shared_of_map m (n_trans nd) Hm Hnd [] (Forall_nil _)) as [HS HP]; cbn [map] in HS; rewrite HS.
    destruct (shared_of issepU m [] (n_trans nd)) as [sh|]; [|reflexivity]; cbn [option_map]; cbv zeta.
    rewrite map_length, dset_mapm; destruct (_ && _); apply IH; now apply Pm_dset.
  - rewrite (filter_ext _ (fun j => negb (dmem m j))) by (intros; now rewrite dmem_mapm); now apply IH.
Qed.

Lemma concat_map i : forall ss, concat_from mksepV i (map (map f) ss) = map f (concat_from mksepU i ss).
Proof.
  intros ss; revert i; induction ss as [|s ss IH]; intros i; [reflexivity|].
  cbn [map concat_from]; rewrite map_app; cbn; now rewrite Hmk, IH.
Qed.
Lemma offsets_map ps : forall ss b, get_string_offsets b ps (map (map f) ss) = get_string_offsets b ps ss.
Proof.
  induction ss as [|s ss IH]; intros b; [reflexivity|]; cbn [map get_string_offsets]; rewrite map_length.
  destruct (find _ ps); now rewrite IH.
Qed.
Theorem find_lcs_multiple_map ss : Forall P (concat_from mksepU 0 ss) ->
  find_lcs_multiple mksepV issepV (map (map f) ss) = find_lcs_multiple mksepU issepU ss.
Proof.
  intros HP; unfold find_lcs_multiple, concatenate_strings; rewrite concat_map.
  destruct (build_map _ HP) as [-> HB].
  destruct (build (concat_from mksepU 0 ss)) as [h|]; [|reflexivity]; cbn [option_map].
  destruct ss as [|s ss]; [reflexivity|].
  rewrite maph_length, trans_count_map; change (@nil (nat * list V)) with (mapm []).
  rewrite multi_loop_map by (auto; constructor); rewrite !map_length; cbn [map].
  destruct (multi_loop issepU _ h _ [] [0] 0 0) as [[l best]|]; [|reflexivity].
  rewrite positions_map; destruct (get_all_start_positions h best l); [|reflexivity].
  change (map f s :: map (map f) ss) with (map (map f) (s :: ss)); now rewrite offsets_map.
Qed.
End Rename.

(** Tuples that are not [(i,)] with i the index of a string behave as other tokens. *)
Definition to_ptok (x : mtok (list nat)) : ptok := match x with Tok l => PTuple l | Sep i => PSep i end.
Lemma tuples_as_tokens (ss : list (list (list nat))) :
  (forall s t i, In s ss -> In t s -> i < length ss -> t <> [i]) ->
  find_lcs_tuples ss = find_lcs_multi ss.
Proof.
  intros Hss; unfold find_lcs_tuples, find_lcs_multi.
  assert (Hm : map (map PTuple) ss = map (map to_ptok) (map (map Tok) ss)).
  { rewrite map_map; apply map_ext; intros s; now rewrite map_map. }
  rewrite Hm.
  apply (find_lcs_multiple_map to_ptok
    (fun x => match x with Tok l => forall i, i < length ss -> l <> [i] | Sep i => i < length ss end)).
  - intros [a|i] [b|j] Ha Hb; unfold teq, Teq_ptok, Teq_mtok; cbn [to_ptok ptuple].
    + reflexivity.
    + apply teq_false; auto.
    + apply teq_false; intros C; eapply Hb; eauto.
    + cbn; apply andb_true_r.
  - reflexivity.
  - intros [|]; reflexivity.
  - assert (H : forall l i n, i + length l = n -> (forall s t j, In s l -> In t s -> j < n -> t <> [j]) ->
      Forall (fun x => match x with Tok l => forall i, i < n -> l <> [i] | Sep i => i < n end)
        (concat_from Sep i (map (map (@Tok (list nat))) l))).
    { induction l as [|s l IH]; intros i n Hn Hl; cbn [map concat_from]; [constructor|].
      cbn [length] in Hn; apply Forall_app; split; [|constructor; [lia|]].
      - apply Forall_map, Forall_forall; intros t Ht j Hj; eapply Hl; eauto; now left.
      - apply IH; [lia|]; intros; eapply Hl; eauto; now right. }
    apply H; [reflexivity|exact Hss].
Qed.
