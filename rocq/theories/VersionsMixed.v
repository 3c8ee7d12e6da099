(** Stores used with several tokenizers (C131). *)
From Coq Require Import ZArith Lia.
From Verif Require Import Base SpecSeq Changesets ChangesetsProofs DiffLaws MergeLaws EqualMaps Serialize SpecSerialize
  Tokenizers SpecTokenizers Utf8Proofs TokenizersProofs SpecTokens TokensProofs SpecBytes Tree SpecTree TreeProofs
  Versions SpecVersions VersionsPatch VersionsInv VersionsProofs DbTree SpecDb DbVersions SpecMixed.
Local Open Scope nat_scope.
Local Notation names k st := (Forall2 (fun t x => name k st t = Some x)).

(** * A diff is that of the token texts *)
Section Texts.
Variable re_w : Z -> bool.
Variable k : tkind.
Section State.
Variable st : tstate.
Hypothesis st_fine : st_ok st.
Definition named : Type := { p : Z * list Z | name k st (fst p) = Some (snd p) }.
Definition id_of (p : named) : Z := fst (proj1_sig p).
Definition text_of (p : named) : list Z := snd (proj1_sig p).
Definition named_teq : Teq named := fun p q => teq (id_of p) (id_of q).
Lemma id_map p q : teq (id_of p) (id_of q) = @teq named named_teq p q.
Proof. reflexivity. Qed.
Lemma text_map p q : teq (text_of p) (text_of q) = @teq named named_teq p q.
Proof.
  unfold teq at 2, named_teq. destruct p as [[t x] Hp], q as [[u y] Hq]; unfold id_of, text_of in *; cbn [proj1_sig fst snd] in *.
  destruct (teq_spec x y) as [->|N], (teq_spec t u) as [->|M]; try reflexivity.
  - exfalso; apply M. now apply (name_inj k st t u y st_fine).
  - congruence.
Qed.
Lemma named_list toks ts : names k st toks ts -> exists l, map id_of l = toks /\ map text_of l = ts.
Proof.
  induction 1 as [|t x toks ts H _ [l [A B]]]; [now exists []|].
  exists (exist (fun p => name k st (fst p) = Some (snd p)) (t, x) H :: l). cbn. now rewrite A, B.
Qed.
Lemma named_names l : names k st (map id_of l) (map text_of l).
Proof. induction l as [|[p H] l IH]; cbn; constructor; auto. Qed.
End State.

Definition pmapf {A B} (f : A -> B) (i : pitem A) : pitem B := match i with PSlice s => PSlice s | PData d => PData (map f d) end.
Lemma strip_map {A B} (f : A -> B) (l : list (citem A)) : strip_forward (map (citem_map f) l) = map (pmapf f) (strip_forward l).
Proof.
  unfold strip_forward. induction l as [|i l IH]; [reflexivity|]. cbn [map flat_map]. rewrite IH, map_app. f_equal.
  destruct i as [x y|i]; cbn; rewrite ?nonempty_map; try destruct (nonempty _); reflexivity.
Qed.
Definition text_changeset (tso tsm : list (list Z)) : res (list (pitem Z)) :=
  let* c := find_changeset tso tsm in Ok (map flat (strip_forward (as_change_stream c))).
Theorem make_texts o m tso tsm : storable k o -> storable k m ->
  texts re_w k (CBytes o) = Some tso -> texts re_w k (CBytes m) = Some tsm ->
  make_changeset re_w k o m = text_changeset tso tsm.
Proof.
  intros [Eo Lo] [Em Lm] To Tm.
  destruct (encode_ok re_w k new_tokenizer (CBytes o) tso new_ok (or_introl eq_refl) (proj1 Eo) To)
    as [s1 [to [E1 [O1 [X1 [S1 [R1 N1]]]]]]].
  destruct (encode_ok re_w k s1 (CBytes m) tsm O1 (or_intror S1) (proj1 Em) Tm)
    as [s2 [tm [E2 [O2 [X2 [S2 [R2 N2]]]]]]].
  assert (N1' : names k s2 to tso) by (apply (names_extends k s1); auto; congruence).
  unfold make_changeset, text_changeset; rewrite E1; cbn [bind]; rewrite E2; cbn [bind].
  destruct (named_list s2 to tso N1') as [lo [<- <-]]. destruct (named_list s2 tm tsm N2) as [lm [<- <-]].
  rewrite (@changeset_maps _ _ (named_teq s2) _ (id_of s2) (id_map s2)).
  rewrite (@changeset_maps _ _ (named_teq s2) _ (text_of s2) (text_map s2 O2)).
  destruct (@find_changeset _ (named_teq s2) lo lm) as [c|e]; cbn [rmap bind]; [|reflexivity].
  rewrite !as_change_stream_maps, !strip_map.
  apply decode_items_ok; auto. induction (strip_forward (as_change_stream c)) as [|[d|s] l IH]; cbn [map]; constructor; auto.
  - cbn. apply named_names.
  - reflexivity.
Qed.
End Texts.

(** * Two tokenizers with the same tokens *)
Section Two.
Context {K : Type} {E : Teq K} {O : TeqOk K}.
Variable re_w : Z -> bool.
Variables HS DS : store K.
Variable TR : tree_impl K.
Variables (HL : store_law HS) (DL : store_law DS) (TL : tree_law TR).
Variables k k' : tkind.
Notation vstate := (vstate HS DS TR).
Notation core k := (core re_w k HS DS TR HL DL TL).
Notation tidy := (tidy HS DS TR HL DL).

Definition alike (b : list Z) : Prop :=
  storable k b /\ storable k' b /\ texts re_w k (CBytes b) = texts re_w k' (CBytes b).
Lemma alike_changeset o m : alike o -> alike m -> make_changeset re_w k o m = make_changeset re_w k' o m.
Proof.
  intros [So [So' To]] [Sm [Sm' Tm]].
  destruct (texts_encodable re_w k (CBytes o) (proj1 So)) as [tso Ho].
  destruct (texts_encodable re_w k (CBytes m) (proj1 Sm)) as [tsm Hm].
  rewrite (make_texts re_w k o m tso tsm), (make_texts re_w k' o m tso tsm); congruence.
Qed.
Lemma alike_core x V v s : (forall t b, V t = Some b -> alike b) -> core k x V v s -> core k' x V v s.
Proof.
  intros A C. split; try apply C.
  - intros t b Hb. exact (proj1 (proj2 (A t b Hb))).
  - intros t n q bq bt Hn Hp Hq Ht Hx. destruct (c_diff _ _ _ _ _ _ _ _ _ _ _ _ C t n q bq bt Hn Hp Hq Ht Hx) as [d [Hd [items [Hm Hs]]]].
    exists d; split; [exact Hd|]. exists items; split; [|exact Hs]. rewrite <- Hm. symmetry. eauto using alike_changeset.
Qed.

Hypothesis plain : k <> KLine.
Hypothesis plain' : k' <> KLine.
Lemma alike_retrieve V v s t p : (forall t b, V t = Some b -> alike b) -> core k None V v s -> tidy None v s -> down s t p ->
  retrieve_using_path re_w k HS DS TR v p = retrieve_using_path re_w k' HS DS TR v p /\
  forall b, retrieve_using_path re_w k HS DS TR v p = Ok b -> alike b.
Proof.
  intros A C T Hd. destruct (down_cons _ _ _ Hd) as [p' Hp].
  destruct (view HL (heads v) t) as [bt|] eqn:Hv.
  - destruct (proj1 (T t ltac:(discriminate)) ltac:(congruence)) as [n [Hn Hr]].
    pose proof (c_head _ _ _ _ _ _ _ _ _ _ _ _ C t n Hn Hr) as Hh.
    destruct (retrieve_ok re_w k HS DS TR HL DL TL None V v s t p C Hd Hh ltac:(congruence) (fun u _ H => ltac:(discriminate H)) (or_introl plain)) as [b [Hb R]].
    destruct (retrieve_ok re_w k' HS DS TR HL DL TL None V v s t p (alike_core _ _ _ _ A C) Hd Hh ltac:(congruence) (fun u _ H => ltac:(discriminate H)) (or_introl plain')) as [b' [Hb' R']].
    rewrite R, R'. split; [congruence|]. intros ? [= <-]. eauto.
  - subst p. unfold retrieve_using_path. rewrite (view_get _ HL), Hv. cbn [bind]. split; [reflexivity|discriminate].
Qed.

Notation bind_v := (vbind HS DS TR).
Lemma vbind_ext {A B} (m m' : vm HS DS TR A) (f f' : A -> vm HS DS TR B) v : m v = m' v ->
  (forall t v1 a, m v = (t, (v1, Ok a)) -> f a v1 = f' a v1) -> bind_v m f v = bind_v m' f' v.
Proof.
  intros H F. unfold vbind. rewrite <- H. destruct (m v) as [t [v1 [a|e]]] eqn:Hm; [|reflexivity].
  now rewrite (F t v1 a eq_refl).
Qed.
Lemma edge_heads q c cs v t v1 a x b : fine HL (heads v) -> add_edge HS DS TR q c cs v = (t, (v1, Ok a)) ->
  view HL (heads v1) x = Some b -> view HL (heads v) x = Some b.
Proof.
  intros F. unfold add_edge, vbind, look, set_diff, on_tree, vret, del_head.
  destruct (serialize_changeset cs); [|discriminate]. cbn [heads diffs tree].
  destruct (tr_change_parent TR c q (tree v)) as [t1 [u|e]]; [|discriminate]. cbn [heads diffs tree].
  rewrite (view_mem _ HL). destruct (view HL (heads v) c) as [y|] eqn:Hc; cbn [heads diffs tree].
  - destruct (view_del _ HL (heads v) c F ltac:(congruence)) as [d' [-> [_ W]]].
    cbn [heads diffs tree]. intros [= _ <- _]. cbn [heads]. rewrite W. now destruct (teq c x).
  - intros [= _ <- _]. exact (fun H => H).
Qed.

Lemma alike_add V v s tag b base : (forall t b, V t = Some b -> alike b) -> alike b -> core k None V v s -> tidy None v s ->
  V tag = None -> add re_w k HS DS TR tag b base v = add re_w k' HS DS TR tag b base v.
Proof.
  intros A Ab C T Hv.
  destruct (tree_add_core re_w k HS DS TR HL DL TL V v s tag b base C T Hv (proj1 Ab)) as [t' [Ha [C2 [T2 [G1 G2]]]]].
  assert (A2 : forall t c, upd V tag b t = Some c -> alike c).
  { intros t c. unfold upd. destruct (teq tag t); [intros [= <-]; exact Ab|apply A]. }
  unfold add. apply vbind_ext; [reflexivity|]. intros t1 v1 [] [= <- <-].
  apply vbind_ext; [reflexivity|]. intros t2 v2 [] H2. unfold on_tree in H2; cbn [heads diffs tree] in H2.
  rewrite Ha in H2. injection H2 as <- <-.
  destruct base as [x|]; [|reflexivity].
  set (v2 := mkV _ _ t') in *. set (s2 := fst (m_add tag (Some x) s)) in *.
  apply vbind_ext; [reflexivity|]. intros t3 v3 sp H3. unfold look in H3.
  apply pair_equal_spec in H3 as [_ H3]. apply pair_equal_spec in H3 as [<- H3].
  destruct (dget s2 x) as [nx|] eqn:Hx.
  2:{ destruct (rep_nosplit _ TL (tree v2) s2 x (c_rep _ _ _ _ _ _ _ _ _ _ _ _ C2) Hx) as [e He]. congruence. }
  destruct (rep_split _ TL (tree v2) s2 x nx (c_rep _ _ _ _ _ _ _ _ _ _ _ _ C2) Hx) as [p [Hp [Hd _]]].
  rewrite Hp in H3. injection H3 as <-. cbn [fst snd].
  assert (Heads : forall u c, view HL (heads v2) u = Some c -> alike c).
  { intros u c Hu. destruct (proj1 (T2 u ltac:(discriminate)) ltac:(congruence)) as [n [Hn Hr]].
    apply (A2 u). rewrite <- Hu. symmetry. exact (c_head _ _ _ _ _ _ _ _ _ _ _ _ C2 u n Hn Hr). }
  destruct (alike_retrieve (upd V tag b) v2 s2 x p A2 C2 T2 Hd) as [Re Rb].
  apply vbind_ext.
  - destruct (teq (last p x) x); [reflexivity|].
    apply vbind_ext; [unfold look; now rewrite Re|]. intros t4 v4 sv H4. unfold look in H4.
    apply pair_equal_spec in H4 as [_ H4]. apply pair_equal_spec in H4 as [<- H4].
    apply vbind_ext; [unfold look; now rewrite (alike_changeset b sv Ab (Rb sv H4))|reflexivity].
  - intros t4 v4 [] H4.
    assert (Heads4 : forall u c, view HL (heads v4) u = Some c -> alike c).
    { destruct (teq (last p x) x); [injection H4 as _ <-; exact Heads|].
      unfold vbind, look in H4. destruct (retrieve_using_path re_w k HS DS TR v2 p) as [sv|e]; [|discriminate].
      unfold vbind, look in H4. destruct (make_changeset re_w k b sv) as [cs|e]; [|discriminate].
      destruct (add_edge HS DS TR tag (last p x) cs v2) as [t5 [v5 [u5|e]]] eqn:H5; [|discriminate].
      intros u c Hu. apply (Heads u). apply (edge_heads _ _ _ _ _ _ _ u c (proj1 (c_fine _ _ _ _ _ _ _ _ _ _ _ _ C2)) H5).
      unfold on_tree in H4. destruct (tr_change_parent TR (last p x) tag (tree v5)) as [t6 [u6|e]]; [|discriminate].
      injection H4 as _ <-. exact Hu. }
    apply vbind_ext; [reflexivity|]. intros t5 v5 hv H5. unfold look in H5.
    apply pair_equal_spec in H5 as [_ H5]. apply pair_equal_spec in H5 as [<- H5].
    rewrite (view_get _ HL) in H5. destruct (view HL (heads v4) x) as [c|] eqn:Hc; [|discriminate]. injection H5 as ->.
    apply vbind_ext; [unfold look; now rewrite (alike_changeset b hv Ab (Heads4 x hv Hc))|reflexivity].
Qed.
End Two.

(** * Histories *)
Section Histories.
Context {K : Type} {E : Teq K} {O : TeqOk K}.
Variable re_w : Z -> bool.
Variables HS DS : store K.
Variable TR : tree_impl K.
Variables (HL : store_law HS) (DL : store_law DS) (TL : tree_law TR).
Notation run k := (run re_w k HS DS TR).
Notation run_mixed := (run_mixed re_w HS DS TR).
Notation add_of k v a := (add re_w k HS DS TR (tag_of a) (bytes_of a) (base_of a) v).
Implicit Type h : list (adding K).
Variable P : tkind -> Prop.
Hypothesis plain : forall k, P k -> k <> KLine.
Notation same_tokens := (same_tokens re_w P).

Lemma same_storable k b : P k -> same_tokens b -> storable KNull b -> storable k b.
Proof.
  intros Hk [ts U] [[R _] L]. split; [|exact L]. apply (encodable_texts re_w k _ ts R). now apply units_texts, U.
Qed.
Lemma same_alike k k' b : P k -> P k' -> same_tokens b -> storable KNull b -> alike re_w k k' b.
Proof.
  intros Hk Hk' S L. split; [now apply same_storable|split; [now apply same_storable|]].
  destruct S as [ts U]. rewrite (units_texts _ k _ ts (U k Hk)), (units_texts _ k' _ ts (U k' Hk')). reflexivity.
Qed.
Lemma same_fresh k h : P k -> Forall (fun a => same_tokens (bytes_of a)) h -> fresh KNull h -> fresh k h.
Proof.
  intros Hk S [N F]. split; [exact N|]. rewrite Forall_forall in *. intros a Ha.
  destruct (F a Ha) as [B L]. split; [exact B|]. apply same_storable; auto.
Qed.
Lemma mixed_add h a k k' : P k -> P k' -> Forall (fun a => same_tokens (bytes_of a)) (h ++ [a]) -> fresh KNull (h ++ [a]) ->
  add_of k (run k v_empty h) a = add_of k' (run k v_empty h) a.
Proof.
  intros Hk Hk' S F. pose proof (same_fresh k _ Hk S F) as Fk.
  destruct (fresh_snoc _ _ _ Fk) as [Fh [Hna _]]. destruct (fresh_snoc _ _ _ F) as [[Nh Fn] [_ [_ Sb]]].
  apply Forall_app in S as [Sh Sa]. apply Forall_inv in Sa.
  destruct (hist_ok re_w k HS DS TR HL DL TL h (plain k Hk) Fh) as [s I].
  apply (alike_add re_w HS DS TR HL DL TL k k' (plain k Hk) (plain k' Hk') (V_of h) _ s); [|now apply same_alike|apply I|apply I|now apply V_of_none].
  intros t b Hb. destruct (V_of_some h t b Hb) as [base Hin]. rewrite Forall_forall in Sh, Fn.
  apply same_alike; auto; [exact (Sh _ Hin)|exact (proj2 (Fn _ Hin))].
Qed.
Notation all_same h := (Forall (fun a => P (fst a) /\ same_tokens (bytes_of (snd a))) h).
Lemma all_same_snd (h : list (tkind * adding K)) : all_same h -> Forall (fun a => same_tokens (bytes_of a)) (map snd h).
Proof. induction 1 as [|a h [_ H] _ IH]; cbn; auto. Qed.
Lemma state_add v k (a : adding K) : add_state re_w k HS DS TR v a = fst (snd (add_of k v a)).
Proof. destruct a as [[t b] base]. reflexivity. Qed.
Lemma mixed_snoc (h : list (tkind * adding K)) a : run_mixed (h ++ [a]) = add_state re_w (fst a) HS DS TR (run_mixed h) (snd a).
Proof. unfold SpecMixed.run_mixed. now rewrite fold_left_app. Qed.
Lemma mixed_run (h : list (tkind * adding K)) k : P k -> all_same h -> fresh KNull (map snd h) -> run_mixed h = run k v_empty (map snd h).
Proof.
  intros Hk. induction h as [|[k' a] h IH] using rev_ind; [reflexivity|]. intros S F.
  rewrite mixed_snoc; cbn [fst snd]. rewrite map_app in *; cbn [map snd] in *.
  rewrite run_snoc. pose proof (all_same_snd _ S) as S'. rewrite map_app in S'; cbn [map snd] in S'.
  apply Forall_app in S as [Sh Sa]. apply Forall_inv in Sa as [Hk' _]. cbn [fst] in Hk'.
  rewrite IH by (auto; now apply fresh_snoc in F). rewrite !state_add. now rewrite (mixed_add (map snd h) a k k' Hk Hk' S' F).
Qed.

Theorem mixed_ok (h : list (tkind * adding K)) k : P k -> all_same h -> fresh KNull (map snd h) ->
  run_mixed h = run k v_empty (map snd h) /\
  (forall t b base, In (t, b, base) (map snd h) -> get re_w k HS DS TR (run_mixed h) t = Ok (Some b)) /\
  (forall t, ~ added (map snd h) t -> get re_w k HS DS TR (run_mixed h) t = Ok None) /\
  (forall k' a, P k' -> same_tokens (bytes_of a) -> fresh KNull (map snd h ++ [a]) ->
     add_of k (run_mixed h) a = add_of k' (run_mixed h) a).
Proof.
  intros Hk S F. rewrite (mixed_run h k Hk S F). pose proof (all_same_snd _ S) as S'.
  destruct (retrieval re_w k HS DS TR HL DL TL (map snd h) (plain k Hk) (same_fresh k _ Hk S' F)) as [R1 R2].
  split; [reflexivity|]. split; [exact R1|]. split; [exact R2|].
  intros k' a Hk' Sa Fa. apply mixed_add; auto. apply Forall_app; auto.
Qed.
End Histories.

(** ASCII contents are the same bytes and characters *)
Lemma ascii_same re_w b : ascii b -> same_tokens re_w (fun k => k = KNull \/ k = KChar) b.
Proof.
  intros A. exists (map (fun x => [x]) b). intros k Hk.
  assert (C : concat (map (fun x => [x]) b) = b) by (clear; induction b as [|x b IH]; cbn; congruence).
  split; [exact C|]. destruct Hk as [->| ->]; apply Forall_forall; intros t Ht; apply in_map_iff in Ht as [x [<- Hx]].
  - reflexivity.
  - unfold ascii in A; rewrite Forall_forall in A. specialize (A x Hx). exists x. split; [unfold scalar_value; lia|].
    unfold utf8_char. destruct (Z.ltb_spec x 128); [reflexivity|lia].
Qed.
Lemma ascii_storable b : ascii b -> (Z.of_nat (length b) < 2 ^ 63)%Z -> storable KNull b.
Proof. intros A L. split; [split; [|exact Logic.I]|exact L]. cbn. apply Forall_impl with (2 := A). intros x; lia. Qed.

Theorem same_changeset re_w k k' o m tso tsm : storable KNull o -> storable KNull m ->
  units re_w k (CBytes o) tso -> units re_w k' (CBytes o) tso -> units re_w k (CBytes m) tsm -> units re_w k' (CBytes m) tsm ->
  make_changeset re_w k o m = make_changeset re_w k' o m.
Proof.
  intros So Sm U1 U2 U3 U4.
  assert (S : forall j b ts, storable KNull b -> units re_w j (CBytes b) ts -> storable j b).
  { intros j b ts [[R _] L] U. split; [|exact L]. apply (encodable_texts re_w j _ ts R). now apply units_texts. }
  apply alike_changeset; (split; [|split]); eauto.
  - now rewrite (units_texts _ _ _ _ U1), (units_texts _ _ _ _ U2).
  - now rewrite (units_texts _ _ _ _ U3), (units_texts _ _ _ _ U4).
Qed.

Theorem mixed_ascii {K} {E : Teq K} {O : TeqOk K} re_w HS DS TR (HL : store_law HS) (DL : store_law DS) (TL : tree_law TR)
  (h : list (tkind * adding K)) k : k = KNull \/ k = KChar ->
  Forall (fun a => (fst a = KNull \/ fst a = KChar) /\ ascii (bytes_of (snd a))) h -> fresh KNull (map snd h) ->
  run_mixed re_w HS DS TR h = run re_w k HS DS TR v_empty (map snd h) /\
  forall t b base, In (t, b, base) (map snd h) -> get re_w k HS DS TR (run_mixed re_w HS DS TR h) t = Ok (Some b).
Proof.
  intros Hk A F. destruct (mixed_ok re_w HS DS TR HL DL TL (fun k => k = KNull \/ k = KChar)
    ltac:(intros ? [->| ->]; discriminate) h k Hk) as [H1 [H2 _]]; auto.
  apply Forall_impl with (2 := A). intros a [H1 H2]. split; [exact H1|now apply ascii_same].
Qed.
