(** The room taken by the versions of a text that only grows (C112). *)
From Coq Require Import ZArith Lia.
From Verif Require Import Base SpecSeq Changesets ChangesetsProofs Serialize SpecSerialize SerializeProofs SpecDiff SpecGreedy DiffGreedy
  DiffInsert Tokenizers SpecTokenizers Utf8Proofs TokenizersProofs TokenizersDiff Tree SpecTree TreeProofs TreeExact Versions SpecVersions
  SpecLineage VersionsPatch VersionsInv VersionsProofs VersionsMore SpecStorage StorageProofs StorageRoom VersionsLineage
  DbTree DbTreeProofs SpecDb DbVersions.
Local Open Scope nat_scope.
Local Notation names k st := (Forall2 (fun t x => name k st t = Some x)).

(** * UTF-8: a text inside another one begins where a character begins *)
Definition lead (z : Z) : Prop := (z < 128 \/ 192 <= z)%Z.
Lemma utf8_char_lead c : scalar_value c -> exists z r, utf8_char c = z :: r /\ lead z /\ Forall (fun y => ~ lead y) r.
Proof.
  intros Hc. unfold lead. destruct (utf8_char_cases c Hc) as [[H ->]|[(a & b & Ha & Hb & _ & ->)|[(a & b & d & Ha & Hb & Hd & _ & _ & _ & ->)
    |(a & b & d & e & Ha & Hb & Hd & He & _ & _ & _ & ->)]]]; do 2 eexists; (split; [reflexivity|]);
    (split; [lia|]); repeat constructor; lia.
Qed.
Lemma utf8_strip s1 : Forall scalar_value s1 -> forall s2 q, Forall scalar_value s2 ->
  flat_map utf8_char s2 = flat_map utf8_char s1 ++ q -> exists sq, s2 = s1 ++ sq /\ q = flat_map utf8_char sq.
Proof.
  induction 1 as [|c s1 Hc _ IH]; intros s2 q F2 H; cbn [flat_map app] in H; [exists s2; auto|].
  rewrite <- app_assoc in H.
  pose proof (utf8_decode_encode s2 F2) as D. rewrite H, utf8_decode_char in D by exact Hc.
  destruct (utf8_decode (flat_map utf8_char s1 ++ q)) as [s2'|] eqn:Q; [|discriminate]. cbn in D. injection D as <-.
  inversion F2; subst. cbn [flat_map] in H. apply app_inv_head in H.
  destruct (IH s2' q) as [sq [-> ->]]; auto. now exists sq.
Qed.
Lemma utf8_inside s1 : Forall scalar_value s1 -> s1 <> [] -> forall s2 p q, Forall scalar_value s2 ->
  flat_map utf8_char s2 = p ++ flat_map utf8_char s1 ++ q -> exists sp sq, s2 = sp ++ s1 ++ sq.
Proof.
  intros F1 N1. induction s2 as [|c s2 IH]; intros p q F2 H.
  - destruct s1 as [|c1 s1]; [congruence|]. inversion F1 as [|? ? Hc1 _]; subst.
    destruct (utf8_char_lead c1 Hc1) as (z & r & Hz & _). cbn [flat_map] in H. rewrite Hz in H. destruct p; discriminate.
  - destruct p as [|y p].
    { destruct (utf8_strip s1 F1 (c :: s2) q F2 H) as [sq [-> _]]. now exists [], sq. }
    inversion F2 as [|? ? Hc F2']; subst. cbn [flat_map] in H.
    destruct (le_lt_dec (length (utf8_char c)) (length (y :: p))) as [L|L].
    + destruct (app_shorter (utf8_char c) (flat_map utf8_char s2) (y :: p) (flat_map utf8_char s1 ++ q) H L) as [p' Hp].
      rewrite Hp, <- app_assoc in H. apply app_inv_head in H.
      destruct (IH p' q F2' H) as (sp & sq & ->). now exists (c :: sp), sq.
    + exfalso. destruct (utf8_char_lead c Hc) as (z & r & Hz & _ & Fr).
      destruct s1 as [|c1 s1]; [congruence|]. inversion F1 as [|? ? Hc1 _]; subst.
      destruct (utf8_char_lead c1 Hc1) as (z1 & r1 & Hz1 & Lz1 & _).
      rewrite Hz in H, L. cbn [flat_map] in H. rewrite Hz1 in H. cbn [app length] in *. injection H as -> H.
      assert (I : In z1 r).
      { assert (X : nth_error (r ++ flat_map utf8_char s2) (length p) = Some z1).
        { rewrite H, nth_error_app2, Nat.sub_diag by lia. reflexivity. }
        rewrite nth_error_app1 in X by lia. eapply nth_error_In; eauto. }
      rewrite Forall_forall in Fr. apply (Fr z1 I Lz1).
Qed.
Lemma utf8_prefix s1 s2 q : Forall scalar_value s1 -> Forall scalar_value s2 ->
  flat_map utf8_char s2 = flat_map utf8_char s1 ++ q -> exists sq, s2 = s1 ++ sq.
Proof. intros F1 F2 H. destruct (utf8_strip s1 F1 s2 q F2 H) as [sq [-> _]]. now exists sq. Qed.

Section Patch.
Variable re_w : Z -> bool.
Variable k : tkind.
Notation texts := (TokenizersProofs.texts re_w k).

(** bytes inside bytes are tokens inside tokens *)
Lemma tokens_inside b1 b2 p q t1 t2 : k = KNull \/ k = KChar -> texts (CBytes b1) = Some t1 -> texts (CBytes b2) = Some t2 ->
  b2 = p ++ b1 ++ q -> t1 <> [] -> exists tp tq, t2 = tp ++ t1 ++ tq /\ (p = [] -> tp = []).
Proof.
  intros [->| ->] T1 T2 Hb Hn; cbn in T1, T2.
  - injection T1 as <-. injection T2 as <-. subst b2. rewrite !map_app. do 2 eexists. split; [reflexivity|]. now intros ->.
  - destruct (utf8_decode b1) as [s1|] eqn:D1; [|discriminate]. destruct (utf8_decode b2) as [s2|] eqn:D2; [|discriminate].
    injection T1 as <-. injection T2 as <-. apply utf8_decode_ok in D1 as [F1 ->]. apply utf8_decode_ok in D2 as [F2 E2].
    rewrite E2 in Hb. assert (N1 : s1 <> []) by (intros ->; now apply Hn).
    destruct p as [|y p].
    + destruct (utf8_prefix s1 s2 q F1 F2 Hb) as [sq ->]. exists [], (map utf8_char sq). rewrite map_app. auto.
    + destruct (utf8_inside s1 F1 N1 s2 (y :: p) q F2 Hb) as (sp & sq & ->).
      exists (map utf8_char sp), (map utf8_char sq). rewrite !map_app. split; [reflexivity|discriminate].
Qed.

Lemma names_back st a a' ts : st_ok st -> names k st a ts -> names k st a' ts -> a = a'.
Proof.
  intros S N. revert a'. induction N as [|x t a ts Hx _ IH]; intros a' N'; inversion N' as [|x' ? a2 ? Hx' N2]; subst; [reflexivity|].
  f_equal; [eapply name_inj; eauto|auto].
Qed.

(** a leaf or a node without room in the second text copies nothing *)
Lemma good_empty (o m : list Z) s1 e1 s2 c : good o m s1 e1 s2 s2 c -> strip_forward (as_change_stream c) = [].
Proof.
  inversion 1 as [? ? ? ? os ms Hd _ _|? ? ? ? pa pb l p s HL Hl Hb1 Hb2]; subst; [|lia].
  cbn [as_change_stream]. rewrite seg_nil. cbn [nonempty orb]. now destruct (nonempty (seg o s1 e1)).
Qed.
Lemma good_run (o m : list Z) c tp tq : good o m 0 (length o) 0 (length m) c -> o = tp ++ m ++ tq -> m <> [] ->
  exists i, strip_forward (as_change_stream c) = [PSlice (i, Some (i + length m))] /\ i <= length tp.
Proof.
  intros G Ho Hm. pose proof (seg_all o) as So. pose proof (seg_all m) as Sm.
  assert (Lm : 0 < length m) by (destruct m; [congruence|cbn; lia]).
  inversion G as [? ? ? ? os ms Hd _ _|? ? ? ? pa pb l p s HL Hl Hb1 Hb2 Gp Gs]; subst s1 e1 s2 e2 c.
  - exfalso. rewrite So, Sm in Hd. destruct m as [|z m]; [congruence|].
    apply (Hd z); [|now left]. rewrite Ho, !in_app_iff. right; left; now left.
  - rewrite So, Sm in HL. destruct HL as [[_ HM] [_ [_ HF]]].
    assert (R : common_run o m (length tp) 0 (length m)).
    { pose proof (common_run_of o m m tp tq [] []) as R. apply R; [exact Ho|now rewrite app_nil_r]. }
    pose proof (HM _ _ _ R) as L. assert (pb = 0) by lia. assert (l = length m) by lia. subst pb l.
    cbn [plus] in *. exists pa. split; [|now apply HF].
    cbn [as_change_stream]. unfold strip_forward in *. rewrite !flat_map_app.
    pose proof (good_empty _ _ _ _ _ _ Gp) as Z1. pose proof (good_empty _ _ _ _ _ _ Gs) as Z2.
    unfold strip_forward in Z1, Z2. rewrite Z1, Z2. reflexivity.
Qed.
Lemma good_none (o m : list Z) c : good o m 0 (length o) 0 (length m) c -> m = [] -> strip_forward (as_change_stream c) = [].
Proof. intros G ->. eapply good_empty; eauto. Qed.

(** the tokens of [b1] are in those of [b2], at their beginning if [front] *)
Definition inside (front : Prop) b1 b2 : Prop := forall t1 t2, texts (CBytes b1) = Some t1 -> texts (CBytes b2) = Some t2 ->
  t1 <> [] -> exists tp tq, t2 = tp ++ t1 ++ tq /\ (front -> tp = []).
Lemma patch_inside front b1 b2 items : k <> KLine -> storable k b1 -> storable k b2 -> inside front b1 b2 ->
  make_changeset re_w k b2 b1 = Ok items ->
  items = [] \/ exists i j, items = [PSlice (i, Some j)] /\ j <= length b2 /\ i <= j /\
    (front -> i = 0 /\ j <= length b1).
Proof.
  intros Hkl [E1 L1] [E2 L2] Hb Hm.
  destruct (texts_encodable re_w k (CBytes b1) E1) as [t1 T1]. destruct (texts_encodable re_w k (CBytes b2) E2) as [t2 T2].
  destruct (encode_ok re_w k new_tokenizer (CBytes b2) t2 new_ok (or_introl eq_refl) (proj1 E2) T2)
    as [s1 [to [X1 [O1 [_ [S1 [R1 N1]]]]]]].
  destruct (encode_ok re_w k s1 (CBytes b1) t1 O1 (or_intror S1) (proj1 E1) T1)
    as [s2 [tm [X2 [O2 [Ex [S2 [R2 N2]]]]]]].
  assert (N1' : names k s2 to t2) by (apply (names_extends k s1); auto; congruence).
  unfold make_changeset in Hm. rewrite X1 in Hm; cbn [bind] in Hm. rewrite X2 in Hm; cbn [bind] in Hm.
  destruct (find_changeset_ok to tm) as [c [Hc G]]; rewrite Hc in Hm; cbn [bind] in Hm.
  destruct t1 as [|x1 t1'] eqn:T1e.
  { inversion N2; subst tm. rewrite (good_none _ _ _ G eq_refl) in Hm. cbn in Hm. injection Hm as <-. now left. }
  rewrite <- T1e in *. right.
  destruct (Hb t1 t2 T1 T2 ltac:(congruence)) as (tp & tq & Et & Hp).
  rewrite Et in N1'. apply Forall2_app_inv_r in N1' as (tp' & r' & Np & Nr & Eto).
  apply Forall2_app_inv_r in Nr as (tm' & tq' & Nm & Nq & Er).
  assert (tm' = tm) by (eapply names_back; eauto). subst tm' r'.
  assert (Nm0 : tm <> []) by (intros ->; inversion N2; congruence).
  destruct (good_run to tm c tp' tq' G Eto Nm0) as (i & Hs & Hi). rewrite Hs in Hm. cbn in Hm. injection Hm as <-.
  assert (Len : forall b t, texts (CBytes b) = Some t -> length t <= length b).
  { intros b t Tb. pose proof (concat_len_ge _ (texts_nonempty re_w k _ _ Hkl Tb)) as W.
    rewrite (texts_concat _ _ _ _ Tb) in W. exact W. }
  pose proof (Len _ _ T1) as W1. pose proof (Len _ _ T2) as W2.
  rewrite Et, !app_length in W2. apply Forall2_len in Np, N2.
  exists i, (i + length tm). split; [reflexivity|]. split; [lia|]. split; [lia|].
  intros Hpe. specialize (Hp Hpe). subst tp. cbn in Np. lia.
Qed.
Lemma patch_run b1 b2 p q items : k = KNull \/ k = KChar -> storable k b1 -> storable k b2 -> b2 = p ++ b1 ++ q ->
  make_changeset re_w k b2 b1 = Ok items ->
  items = [] \/ exists i j, items = [PSlice (i, Some j)] /\ j <= length b2 /\ i <= j /\
    (p = [] -> i = 0 /\ j <= length b1).
Proof.
  intros Hk S1 S2 Hb. apply (patch_inside (p = [])); auto; [destruct Hk; congruence|].
  intros t1 t2 T1 T2 N. exact (tokens_inside b1 b2 p q t1 t2 Hk T1 T2 Hb N).
Qed.
Lemma run_room n i j d : (Z.of_nat i <= n)%Z -> (Z.of_nat j <= n)%Z -> serialize_changeset [PSlice (i, Some j)] = Ok d ->
  length d <= 1 + 2 * width n.
Proof.
  intros Li Lj. unfold serialize_changeset. cbn [serialize_loop]. change (vserialize_int 0) with (Ok [0%Z]). cbn [bind].
  destruct (vserialize_int (Z.of_nat i)) as [c|] eqn:N; [|discriminate]. cbn [bind vserialize_bound].
  destruct (vserialize_int (Z.of_nat j)) as [c'|] eqn:N'; [|discriminate]. cbn [bind]. intros [= <-].
  apply (vser_width _ _ n) in N, N'; try lia. cbn [app length]. rewrite !app_length. cbn. lia.
Qed.
Lemma front_room n j d : (Z.of_nat j <= n)%Z -> serialize_changeset [PSlice (0, Some j)] = Ok d -> length d <= 2 + width n.
Proof.
  intros Lj. unfold serialize_changeset. cbn [serialize_loop]. change (vserialize_int (Z.of_nat 0)) with (Ok [0%Z]).
  change (vserialize_int 0) with (Ok [0%Z]). cbn [bind vserialize_bound].
  destruct (vserialize_int (Z.of_nat j)) as [c'|] eqn:N'; [|discriminate]. cbn [bind]. intros [= <-].
  apply (vser_width _ _ n) in N'; try lia. cbn [app length]. rewrite !app_length. cbn. lia.
Qed.
End Patch.

Section Hist.
Context {K : Type} {E : Teq K} {O : TeqOk K}.
Variable re_w : Z -> bool.
Variable tk : tkind.
Variables HS DS : store K.
Variable TR : tree_impl K.
Variable HL : store_law HS.
Variable DL : store_law DS.
Variable TL : tree_law TR.
Notation run := (run re_w tk HS DS TR).
Implicit Type h : list (adding K).

Lemma built_on_In h t1 t2 : built_on h t1 t2 -> (exists b base, In (t1, b, base) h) /\ exists b, In (t2, b, Some t1) h.
Proof.
  intros (pre & b & post & -> & (pre' & b' & base' & post' & -> & _)). split.
  - exists b', base'. rewrite !in_app_iff. left; right; now left.
  - exists b. rewrite in_app_iff. right; now left.
Qed.
Lemma same_contents_of h t b base b' base' : NoDup (map tag_of h) -> In (t, b, base) h -> In (t, b', base') h -> b = b'.
Proof. intros N H1 H2. apply V_of_In in H1, H2; auto. congruence. Qed.
Lemma later_grows h : NoDup (map tag_of h) -> growing h -> forall t1 t2, later h t1 t2 -> forall b1 base1 b2 base2,
  In (t1, b1, base1) h -> In (t2, b2, base2) h -> exists p q, b2 = p ++ b1 ++ q.
Proof.
  intros N G. induction 1 as [t1 t2 H|t1 t2 t3 H L IH]; intros b1 base1 b3 base3 H1 H3; [eapply G; eauto|].
  destruct (built_on_In h t1 t2 H) as [_ [b2 H2]].
  destruct (G t1 b1 base1 t2 b2 (Some t1) H H1 H2) as (p & q & ->).
  destruct (IH _ _ _ _ H2 H3) as (p' & q' & ->). exists (p' ++ p), (q ++ q'). now rewrite <- !app_assoc.
Qed.
Lemma later_appends h : NoDup (map tag_of h) -> appending h -> forall t1 t2, later h t1 t2 -> forall b1 base1 b2 base2,
  In (t1, b1, base1) h -> In (t2, b2, base2) h -> exists q, b2 = b1 ++ q.
Proof.
  intros N G. induction 1 as [t1 t2 H|t1 t2 t3 H L IH]; intros b1 base1 b3 base3 H1 H3; [eapply G; eauto|].
  destruct (built_on_In h t1 t2 H) as [_ [b2 H2]].
  destruct (G t1 b1 base1 t2 b2 (Some t1) H H1 H2) as (q & ->).
  destruct (IH _ _ _ _ H2 H3) as (q' & ->). exists (q ++ q'). now rewrite <- !app_assoc.
Qed.

Theorem grow_stored n h : tk = KNull \/ tk = KChar -> fresh tk h -> growing h ->
  (forall t b base, In (t, b, base) h -> (Z.of_nat (length b) <= n)%Z) ->
  forall t b base, In (t, b, base) h -> ~ is_head h t ->
  exists d, s_get DS (diffs (run v_empty h)) t = Ok d /\ length d <= 1 + 2 * width n.
Proof.
  intros Hk F G B t b base Hin Hh. assert (Hkl : tk <> KLine) by (destruct Hk; congruence).
  destruct (stored_from re_w tk HS DS TR HL DL TL h Hkl F t b base Hin Hh)
    as (q & bq & baseq & items & d & L & Hq & Sq & Sb & Hm & Hs & Hg).
  exists d. split; [exact Hg|]. destruct (later_grows h (proj1 F) G t q L b base bq baseq Hin Hq) as (p & r & Hb).
  pose proof (B _ _ _ Hq) as Lq.
  destruct (patch_run re_w tk b bq p r items Hk Sb Sq Hb Hm) as [->|(i & j & -> & Lj & Lij & _)].
  - injection Hs as <-. cbn; lia.
  - apply (run_room n i j d); auto; lia.
Qed.
Theorem append_stored h : tk = KNull \/ tk = KChar -> fresh tk h -> appending h ->
  forall t b base, In (t, b, base) h -> ~ is_head h t ->
  exists d, s_get DS (diffs (run v_empty h)) t = Ok d /\ length d <= 2 + width (Z.of_nat (length b)).
Proof.
  intros Hk F G t b base Hin Hh. assert (Hkl : tk <> KLine) by (destruct Hk; congruence).
  destruct (stored_from re_w tk HS DS TR HL DL TL h Hkl F t b base Hin Hh)
    as (q & bq & baseq & items & d & L & Hq & Sq & Sb & Hm & Hs & Hg).
  exists d. split; [exact Hg|]. destruct (later_appends h (proj1 F) G t q L b base bq baseq Hin Hq) as (r & Hb).
  destruct (patch_run re_w tk b bq [] r items Hk Sb Sq Hb Hm) as [->|(i & j & -> & Lj & Lij & Hf)].
  - injection Hs as <-. cbn; lia.
  - destruct (Hf eq_refl) as [-> Lb]. apply (front_room _ j d); [lia|exact Hs].
Qed.
End Hist.

(** * In memory, and on a database *)
Section Both.
Context {K : Type} {E : Teq K} {O : TeqOk K}.
Variable re_w : Z -> bool.
Variable tk : tkind.
Notation D := (dict_store K).
Notation C := (db_store K).
Notation M := (memory_tree K).
Notation T := (db_tree K).
Implicit Type h : list (adding K).

Lemma found (d : dict K (list Z)) t b : s_get D d t = Ok b -> dget d t = Some b.
Proof. cbn. destruct (dget d t); congruence. Qed.
Theorem grow_memory n h : tk = KNull \/ tk = KChar -> fresh tk h -> growing h ->
  (forall t b base, In (t, b, base) h -> (Z.of_nat (length b) <= n)%Z) ->
  forall t b base, In (t, b, base) h -> ~ is_head h t ->
  exists d, dget (diffs (run re_w tk D D M v_empty h)) t = Some d /\ length d <= 1 + 2 * width n.
Proof.
  intros Hk F G B t b base Hin Hh.
  destruct (grow_stored re_w tk D D M dict_law dict_law memory_law n h Hk F G B t b base Hin Hh) as (d & H1 & H2).
  exists d. split; [now apply found|exact H2].
Qed.
Theorem append_memory h : tk = KNull \/ tk = KChar -> fresh tk h -> appending h ->
  forall t b base, In (t, b, base) h -> ~ is_head h t ->
  exists d, dget (diffs (run re_w tk D D M v_empty h)) t = Some d /\ length d <= 2 + width (Z.of_nat (length b)).
Proof.
  intros Hk F G t b base Hin Hh.
  destruct (append_stored re_w tk D D M dict_law dict_law memory_law h Hk F G t b base Hin Hh) as (d & H1 & H2).
  exists d. split; [now apply found|exact H2].
Qed.
Theorem grow_db place1 place2 n h : tk = KNull \/ tk = KChar -> fresh tk h -> growing h ->
  (forall t b base, In (t, b, base) h -> (Z.of_nat (length b) <= n)%Z) ->
  forall t b base, In (t, b, base) h -> ~ is_head h t ->
  exists d, s_get (C place2) (diffs (run re_w tk (C place1) (C place2) T v_empty h)) t = Ok d /\ length d <= 1 + 2 * width n.
Proof. exact (grow_stored re_w tk _ _ T (db_store_law place1) (db_store_law place2) db_law n h). Qed.
Theorem append_db place1 place2 h : tk = KNull \/ tk = KChar -> fresh tk h -> appending h ->
  forall t b base, In (t, b, base) h -> ~ is_head h t ->
  exists d, s_get (C place2) (diffs (run re_w tk (C place1) (C place2) T v_empty h)) t = Ok d /\
    length d <= 2 + width (Z.of_nat (length b)).
Proof. exact (append_stored re_w tk _ _ T (db_store_law place1) (db_store_law place2) db_law h). Qed.

Theorem way_memory h : tk <> KLine -> fresh tk h ->
  forall t p, added h t -> m_path_to (tree (run re_w tk D D M v_empty h)) t = Ok (Some p) ->
  (forall l1 u w l2, p = l1 ++ u :: w :: l2 -> later h w u) /\
  (exists r l, p = r :: l /\ is_head h r /\ (r = t \/ later h t r)).
Proof. exact (way_later re_w tk D D M dict_law dict_law memory_law h). Qed.
Theorem way_db place1 place2 h : tk <> KLine -> fresh tk h ->
  forall t p, added h t -> d_path_to (tree (run re_w tk (C place1) (C place2) T v_empty h)) t = Ok (Some p) ->
  (forall l1 u w l2, p = l1 ++ u :: w :: l2 -> later h w u) /\
  (exists r l, p = r :: l /\ is_head h r /\ (r = t \/ later h t r)).
Proof. exact (way_later re_w tk _ _ T (db_store_law place1) (db_store_law place2) db_law h). Qed.
End Both.
