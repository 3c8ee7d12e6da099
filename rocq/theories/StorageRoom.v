(** The room a version takes that is stored as a diff, when no version is longer
    than [N] bytes (C82). *)
From Coq Require Import ZArith Lia.
From Verif Require Import Base Changesets ChangesetsProofs Serialize SpecSerialize SerializeProofs SpecDiff Tokenizers
  SpecTokenizers TokenizersProofs TokenizersDiff Tree SpecTree TreeProofs TreeExact Versions SpecVersions VersionsPatch VersionsInv
  VersionsProofs VersionsMore SpecStorage StorageProofs.
Local Open Scope nat_scope.
Local Notation names k st := (Forall2 (fun t x => name k st t = Some x)).

(** * Numbers *)
Lemma vser_width v c n : vserialize_int v = Ok c -> (v <= n)%Z -> length c <= width n.
Proof.
  intros H L. apply vser_inv in H as [_ H]. unfold width.
  destruct H as [v H|v e He H|v H|v w c H Hn Hc Hm]; cbn [length]; rewrite ?be_length.
  1-3: repeat match goal with |- context [(?a <=? ?x)%Z] => destruct (Z.leb_spec a x); try lia end;
    repeat match goal with |- context [(?a <? ?x)%Z] => destruct (a <? x)%Z; try lia end.
  repeat match goal with |- context [(?a <=? ?x)%Z] => destruct (Z.leb_spec a x); try lia end.
  assert (w = 3 \/ w = 4 \/ w = 5 \/ w = 6 \/ w = 7 \/ w = 8) as Cs by lia.
  repeat match goal with |- context [(n <? ?x)%Z] => let X := fresh in destruct (Z.ltb_spec n x) as [X|X]; cbn in X end;
    destruct Cs as [Cs|[Cs|[Cs|[Cs|[Cs|Cs]]]]]; subst w; cbn in Hm, H; lia.
Qed.

(** * The size of a patch whose data never follow data *)
Fixpoint apart {A} (may : bool) (p : list (pitem A)) : Prop :=
  match p with
  | [] => True
  | PData _ :: p' => may = true /\ apart false p'
  | PSlice _ :: p' => apart true p'
  end.
Definition slices {A} (p : list (pitem A)) : nat :=
  length (filter (fun i => match i with PSlice _ => true | PData _ => false end) p).
Definition small (n : Z) (i : pitem Z) : Prop :=
  match i with
  | PData d => 0 < length d /\ (Z.of_nat (length d) <= n)%Z
  | PSlice (i, Some j) => (Z.of_nat i <= n /\ Z.of_nat j <= n)%Z
  | PSlice (_, None) => False
  end.
Lemma width_pos n : 1 <= width n.
Proof. unfold width. repeat (destruct (_ <=? _)%Z; [lia|]). repeat (destruct (_ <? _)%Z; [lia|]). lia. Qed.
Lemma serialize_room n p : forall nb d, serialize_loop nb p = Ok d -> apart nb p -> Forall (small n) p ->
  length d <= (width n + 1) * literal_bytes p + (2 * width n + 1) * slices p.
Proof.
  unfold slices. induction p as [|i p IH]; intros nb d; cbn [serialize_loop].
  - intros [= <-]. cbn. lia.
  - change (vserialize_int 0) with (Ok [0%Z]). rewrite literal_cons. destruct i as [l|[i j]]; intros H A F;
      inversion F as [|? ? Fi F']; subst; cbn [apart] in A; cbn [small] in Fi.
    + destruct A as [-> A]. cbn [bind] in H.
      destruct (vserialize_int (Z.of_nat (length l))) as [c|] eqn:N; [|discriminate].
      destruct (serialize_loop false p) as [r|] eqn:R; [|discriminate].
      apply (vser_width _ _ n) in N; [|lia]. apply IH in R; auto.
      injection H as <-. cbn [app]. rewrite !app_length. cbn [filter]. nia.
    + destruct (vserialize_int (Z.of_nat i)) as [c|] eqn:N; [|destruct nb; discriminate].
      destruct j as [j|]; [|contradiction]. cbn [vserialize_bound] in H.
      destruct (vserialize_int (Z.of_nat j)) as [c'|] eqn:N'; [|destruct nb; discriminate].
      destruct (serialize_loop true p) as [r|] eqn:R; [|destruct nb; discriminate].
      apply (vser_width _ _ n) in N, N'; try lia. apply IH in R; auto.
      destruct nb; cbn [bind] in H; injection H as <-; cbn [app length filter]; rewrite !app_length; lia.
Qed.
Lemma apart_app {A} (p : list (pitem A)) s q : forall may, apart may p -> apart true q -> apart may (p ++ PSlice s :: q).
Proof. induction p as [|[d|s'] p IH]; intros may; cbn; auto. intros [-> H] Q. auto. Qed.
Lemma stream_apart {A} (c : changeset A) : apart true (strip_forward (as_change_stream c)).
Proof.
  unfold strip_forward. induction c as [a b s1 s2|s1 s2 p IHp s IHs]; cbn [as_change_stream].
  - destruct (nonempty b || nonempty a); [|exact Logic.I]. cbn. now destruct (nonempty b).
  - rewrite !flat_map_app. cbn [flat_map app]. now apply apart_app.
Qed.

Section Room.
Context {K : Type} {E : Teq K} {O : TeqOk K}.
Variable re_w : Z -> bool.
Variable k : tkind.
Notation texts := (TokenizersProofs.texts re_w k).

Lemma patch_made o m tso tsm : storable k o -> storable k m -> texts (CBytes o) = Some tso -> texts (CBytes m) = Some tsm ->
  exists tp, make_changeset re_w k o m = Ok (map flat tp) /\ apply tp tso = tsm /\ apart true tp /\
    Forall (made_item (length tsm) (length tso)) tp.
Proof.
  intros [Eo Lo] [Em Lm] To Tm.
  destruct (encode_ok re_w k new_tokenizer (CBytes o) tso new_ok (or_introl eq_refl) (proj1 Eo) To)
    as [s1 [to [E1 [O1 [X1 [S1 [R1 N1]]]]]]].
  destruct (encode_ok re_w k s1 (CBytes m) tsm O1 (or_intror S1) (proj1 Em) Tm)
    as [s2 [tm [E2 [O2 [X2 [S2 [R2 N2]]]]]]].
  assert (N1' : names k s2 to tso) by (apply (names_extends k s1); auto; congruence).
  unfold make_changeset; rewrite E1; cbn [bind]; rewrite E2; cbn [bind].
  destruct (find_changeset_ok to tm) as [c [Hc G]]; rewrite Hc; cbn [bind].
  pose proof (stream_apart c) as Ap. set (pt := strip_forward (as_change_stream c)) in *.
  assert (Happ : apply pt to = tm).
  { destruct (good_forward _ _ _ _ _ _ _ G) as [H1 H2]; auto; rewrite seg_all in *; auto. }
  pose proof (good_sub _ _ _ _ _ _ _ G) as Sub. fold pt in Sub.
  destruct (good_made _ _ _ _ _ _ _ G (le_n _) (le_n _)) as [Made _]. fold pt in Made.
  assert (HTP : exists tp, Forall2 (item_rel (names k s2)) pt tp).
  { clear -Sub N2. induction Sub as [|i pt Hi _ [tp F]]; [exists []; auto|].
    destruct i as [a|s].
    - destruct Hi as [_ [x [z Hm]]]. rewrite Hm in N2.
      apply Forall2_app_inv_l in N2 as [x' [r' [_ [Nr Et]]]].
      apply Forall2_app_inv_l in Nr as [ts [z' [Na [_ Er]]]].
      exists (PData ts :: tp); constructor; [exact Na|exact F].
    - exists (PSlice s :: tp); constructor; cbn; auto. }
  destruct HTP as [tp Ftp]. exists tp.
  split; [now apply decode_items_ok|].
  split; [eapply names_fun; [|exact N2]; rewrite <- Happ; now apply apply_rel|].
  split.
  - clear -Ftp Ap. revert Ap. generalize true. induction Ftp as [|i j pt tp Hi _ IH]; intros may Ap; [exact Logic.I|].
    destruct i, j; cbn in *; try contradiction; auto. destruct Ap. auto.
  - assert (L1 : length to = length tso) by (eapply Forall2_len; eauto).
    assert (L2 : length tm = length tsm) by (eapply Forall2_len; eauto).
    rewrite <- L1, <- L2. clear -Ftp Made. induction Ftp as [|i j pt tp Hi _ IH]; [constructor|].
    inversion Made; subst. constructor; auto.
    destruct i, j; cbn in *; try contradiction; [|now subst]. apply Forall2_len in Hi. lia.
Qed.

Lemma sl_nonempty (l : list (list Z)) s e : Forall (fun t => t <> []) l -> s < e <= length l ->
  1 <= length (concat (sl l (s, Some e))) .
Proof.
  intros F H. assert (L : length (sl l (s, Some e)) >= 1).
  { unfold sl, pyslice, fst, snd. rewrite firstn_length, skipn_length. lia. }
  assert (F' : Forall (fun t => t <> []) (sl l (s, Some e))).
  { rewrite Forall_forall in *. intros x Hx. apply F. unfold sl, pyslice, fst, snd in Hx.
    rewrite <- (firstn_skipn s l). apply in_or_app. right.
    rewrite <- (firstn_skipn (e - s) (skipn s l)). apply in_or_app. now left. }
  apply concat_len_ge in F'. lia.
Qed.
Lemma patch_counts tp tso : Forall (fun t => t <> []) tso -> forall n, Forall (made_item n (length tso)) tp ->
  literal_bytes (map flat tp) + slices (map flat tp) <= length (concat (apply tp tso)).
Proof.
  intros F n. unfold apply, join_changes, slices. induction 1 as [|i tp Hi _ IH]; [cbn; lia|].
  cbn [map]. rewrite literal_cons. cbn [concat]. rewrite concat_app, app_length.
  destruct i as [ts|[s [e|]]]; cbn [flat filter length] in *; [lia| |destruct Hi].
  pose proof (sl_nonempty tso s e F Hi). lia.
Qed.
Lemma patch_room n o m items d : k <> KLine -> storable k o -> storable k m -> (Z.of_nat (length o) <= n)%Z -> (Z.of_nat (length m) <= n)%Z ->
  make_changeset re_w k o m = Ok items -> serialize_changeset items = Ok d -> length d <= (2 * width n + 1) * length m.
Proof.
  intros Hk So Sm Lo Lm Hm Hs.
  destruct (texts_encodable re_w k (CBytes o) (proj1 So)) as [tso To].
  destruct (texts_encodable re_w k (CBytes m) (proj1 Sm)) as [tsm Tm].
  destruct (patch_made o m tso tsm So Sm To Tm) as (tp & Hm' & Ha & Ap & Md).
  rewrite Hm in Hm'. injection Hm' as ->.
  pose proof (texts_nonempty re_w k _ _ Hk To) as Fo. pose proof (texts_nonempty re_w k _ _ Hk Tm) as Fm.
  pose proof (texts_concat _ _ _ _ To) as Co. pose proof (texts_concat _ _ _ _ Tm) as Cm. cbn [raw] in Co, Cm.
  pose proof (patch_counts tp tso Fo _ Md) as P. rewrite Ha, Cm in P.
  pose proof (concat_len_ge _ Fo) as Lto. rewrite Co in Lto.
  assert (Sml : Forall (small n) (map flat tp)).
  { assert (H : forall i, In i tp -> match i with PData ts => concat ts <> [] /\ length (concat ts) <= length m | _ => True end).
    { intros [ts|s] I; [|exact Logic.I]. unfold apply, join_changes in Ha.
      pose proof (in_split _ _ I) as (x & y & ->). rewrite map_app, concat_app in Ha. cbn [map concat] in Ha.
      assert (Fts : Forall (fun t => t <> []) ts).
      { rewrite Forall_forall in *. intros t Ht. apply Fm. rewrite <- Ha. apply in_or_app. right. apply in_or_app. now left. }
      apply concat_len_ge in Fts. rewrite Forall_forall in Md. specialize (Md _ I). cbn in Md.
      split; [intros Z; rewrite Z in Fts; cbn in Fts; lia|].
      rewrite <- Cm, <- Ha, !concat_app, !app_length. lia. }
    rewrite Forall_forall in *. intros i I. apply in_map_iff in I as (j & <- & I).
    specialize (H j I). specialize (Md j I). destruct j as [ts|[s [e|]]]; cbn in *; [|lia|destruct Md].
    destruct H as [H1 H2]. destruct (concat ts); [contradiction|]. cbn [length] in *. lia. }
  unfold serialize_changeset in Hs. apply (serialize_room n) in Hs; auto.
  - pose proof (width_pos n). nia.
  - clear -Ap. revert Ap. generalize true. induction tp as [|[ts|s] tp IH]; intros may; cbn; auto. intros [-> H]. auto.
Qed.

Variables HS DS : store K.
Variable TR : tree_impl K.
Variable HL : store_law HS.
Variable DL : store_law DS.
Variable TL : tree_law TR.
Theorem room_stored n h : k <> KLine -> fresh k h -> (forall t b base, In (t, b, base) h -> (Z.of_nat (length b) <= n)%Z) ->
  forall t b base, In (t, b, base) h -> ~ is_head h t ->
  exists d, s_get DS (diffs (run re_w k HS DS TR v_empty h)) t = Ok d /\ length d <= (2 * width n + 1) * length b.
Proof.
  intros Hk F B t b base Hin Hh. set (v := run re_w k HS DS TR v_empty h).
  destruct (hist_ok re_w k HS DS TR HL DL TL h Hk F) as [s I]. fold v in I.
  pose proof (In_added _ _ _ _ Hin) as Ha. pose proof (h_core _ _ _ _ _ _ _ _ _ _ _ I) as C.
  destruct (inv_up re_w k HS DS TR HL DL TL h _ s t I Ha) as [l Hl].
  destruct (dget s t) as [nd|] eqn:Hn; [|inversion Hl; congruence].
  destruct (parent nd) as [q|] eqn:Hp; [|exfalso; apply Hh; exact (proj1 (h_head _ _ _ _ _ _ _ _ _ _ _ I t nd Hn) Hp)].
  assert (Hq : dget s q <> None).
  { apply (child_known re_w k HS DS TR HL DL TL (V_of h) v s None t q); [apply I|exists nd; auto]. }
  destruct (V_of h q) as [bq|] eqn:Bq; [|apply (c_dom _ _ _ _ _ _ _ _ _ _ _ _ C) in Bq; contradiction].
  pose proof (V_of_In h t b base (proj1 F) Hin) as Bt.
  destruct (c_diff _ _ _ _ _ _ _ _ _ _ _ _ C t nd q bq b Hn Hp Bq Bt) as [d [Hd [items [Hm Hs]]]]; [discriminate|].
  pose proof (c_ok _ _ _ _ _ _ _ _ _ _ _ _ C q bq Bq) as Sq. pose proof (c_ok _ _ _ _ _ _ _ _ _ _ _ _ C t b Bt) as St.
  exists d. split; [rewrite (view_get _ DL); now rewrite Hd|].
  apply V_of_some in Bq as [base' Bq]. exact (patch_room n bq b items d Hk Sq St (B _ _ _ Bq) (B _ _ _ Hin) Hm Hs).
Qed.
End Room.

Theorem room_short {K} {E : Teq K} {O : TeqOk K} re_w k n (h : list (K * list Z * option K)) : k <> KLine -> fresh k h ->
  (forall t b base, In (t, b, base) h -> (Z.of_nat (length b) <= n)%Z) ->
  forall t b base, In (t, b, base) h -> ~ is_head h t ->
  exists d, dget (diffs (run re_w k (dict_store K) (dict_store K) (memory_tree K) v_empty h)) t = Some d /\
    length d <= (2 * width n + 1) * length b.
Proof.
  intros Hk F B t b base Hin Hh.
  destruct (room_stored re_w k (dict_store K) (dict_store K) (memory_tree K) dict_law dict_law memory_law n h Hk F B t b base Hin Hh)
    as (d & H1 & H2).
  exists d. split; [|exact H2]. cbn in H1.
  destruct (dget (diffs (run re_w k (dict_store K) (dict_store K) (memory_tree K) v_empty h)) t); congruence.
Qed.
