(** A line is stored as if it were alone (C133). *)
From Coq Require Import ZArith Lia Permutation.
From Verif Require Import Base Changesets Serialize Tokenizers SpecTokenizers Tree SpecTree TreeProofs TreeExact
  Versions SpecVersions SpecLine SpecLineage VersionsInv VersionsProofs VersionsFrame VersionsLineage SpecWays WaysNumbers
  DbTree DbTreeProofs SpecDb DbVersions VersionsShape VersionsWays VersionsWrites VersionsMore VersionsOrder SpecAlone.
Local Open Scope nat_scope.

Section Alone.
Context {K : Type} {E : Teq K} {O : TeqOk K}.
Implicit Type h : list (adding K).

Lemma member (t : K) ls : existsb (teq t) ls = true <-> In t ls.
Proof.
  rewrite existsb_exists. split.
  - intros (u & Hu & Q). destruct (teq_spec t u) as [->|]; [exact Hu|discriminate].
  - intros H. exists t. split; [exact H|apply teq_refl].
Qed.
Lemma in_alone h ls a : In a (alone h ls) <-> In a h /\ In (tag_of a) ls.
Proof. unfold alone. rewrite filter_In, member. tauto. Qed.
Lemma alone_app h h' ls : alone (h ++ h') ls = alone h ls ++ alone h' ls.
Proof. apply filter_app. Qed.
Lemma head_alone h ls t : is_head h t -> In t ls -> is_head (alone h ls) t.
Proof.
  intros (pre & b & base & post & -> & Np) Ht. exists (alone pre ls), b, base, (alone post ls).
  rewrite alone_app. cbn [alone filter]. change (tag_of (t, b, base)) with t. rewrite (proj2 (member t ls) Ht). split; [reflexivity|].
  intros Hin. apply Np. apply in_map_iff in Hin as (a & Ha & Hin). apply in_alone in Hin as [Hin _]. rewrite <- Ha. now apply in_map.
Qed.
Lemma nodup_alone h ls : NoDup (map tag_of h) -> NoDup (map tag_of (alone h ls)).
Proof.
  unfold alone. induction h as [|a h IH]; intros N; [constructor|]. cbn [map] in N. inversion N as [|? ? Na N']; subst. cbn [filter].
  destruct (existsb _ ls); [|now apply IH]. cbn [map]. constructor; [|now apply IH].
  intros Hin. apply Na. apply in_map_iff in Hin as (c & <- & Hin). apply filter_In in Hin as [Hin _]. now apply in_map.
Qed.
Lemma fresh_alone k h ls : fresh k h -> fresh k (alone h ls).
Proof.
  intros [N F]. split; [now apply nodup_alone|]. apply Forall_forall. intros a Ha. apply in_alone in Ha as [Ha _]. rewrite Forall_forall in F. now apply F.
Qed.
Lemma line_in h x l : line h x l -> forall t, In t l -> added h t.
Proof.
  assert (A : forall g (a : adding K) t, added g t -> added (g ++ [a]) t) by (intros g a t; unfold added; rewrite map_app, in_app_iff; auto).
  assert (B : forall g (a : adding K), added (g ++ [a]) (tag_of a)) by (intros g a; unfold added; rewrite map_app, in_app_iff; right; now left).
  induction 1 as [h a Hb|h a x l Hb Hx L IH|h a x l Hb L IH]; intros t Ht.
  - destruct Ht as [<-|[]]. apply B.
  - destruct Ht as [<-|Ht]; [apply B|apply A; auto].
  - apply A. auto.
Qed.
Lemma line_alone_in h x l : line h x l -> NoDup (map tag_of h) -> forall S, incl l S -> (forall t, In t S -> added h t -> In t l) -> line (alone h S) x l.
Proof.
  assert (X : forall h (a : adding K), NoDup (map tag_of (h ++ [a])) -> NoDup (map tag_of h) /\ ~ added h (tag_of a)).
  { intros g a G. rewrite map_app in G. cbn in G. split; [now apply NoDup_front in G|]. apply NoDup_remove in G as [_ G]. now rewrite app_nil_r in G. }
  assert (A : forall g (a : adding K) t, added g t -> added (g ++ [a]) t) by (intros g a t; unfold added; rewrite map_app, in_app_iff; auto).
  assert (B : forall g (a : adding K), added (g ++ [a]) (tag_of a)) by (intros g a; unfold added; rewrite map_app, in_app_iff; right; now left).
  assert (Yes : forall (a : adding K) S, In (tag_of a) S -> alone [a] S = [a]) by (intros a S Hs; cbn [alone filter]; now rewrite (proj2 (member _ S) Hs)).
  assert (No : forall (a : adding K) S, ~ In (tag_of a) S -> alone [a] S = []).
  { intros a S Hs. cbn [alone filter]. destruct (existsb (teq (tag_of a)) S) eqn:Q; [|reflexivity]. apply member in Q. contradiction. }
  induction 1 as [h a Hb|h a x l Hb Hx L IH|h a x l Hb L IH]; intros N S Inc Ex; destruct (X _ _ N) as [N1 Na]; rewrite alone_app.
  - rewrite Yes by (apply Inc; now left).
    assert (alone h S = []) as ->.
    { destruct (alone h S) as [|c r] eqn:Q; [reflexivity|exfalso]. assert (Hc : In c (alone h S)) by (rewrite Q; now left).
      apply in_alone in Hc as [Hc Hs]. assert (Ac : added h (tag_of c)) by now apply in_map. destruct (Ex _ Hs (A _ _ _ Ac)) as [E0|[]]. rewrite E0 in Na. contradiction. }
    apply line_first. destruct (base_of a) as [y|]; [|exact Logic.I]. intros (p & ? & ? & ? & Q & _). now destruct p.
  - rewrite Yes by (apply Inc; now left). apply (line_next _ _ x); [exact Hb|apply head_alone; [exact Hx|]|].
    + apply Inc. right. pose proof (line_head h x l L) as Hd. destruct l; [discriminate|]. injection Hd as ->. now left.
    + apply IH; [exact N1|intros t Ht; apply Inc; now right|]. intros t Hs At. destruct (Ex t Hs (A _ _ _ At)) as [<-|Ht]; [contradiction|exact Ht].
  - rewrite No.
    + rewrite app_nil_r. apply IH; [exact N1|exact Inc|]. intros t Hs At. now apply Ex, A.
    + intros Hs. pose proof (Ex _ Hs (B h a)) as Hl. now apply (line_in h x l L) in Hl.
Qed.
Lemma line_alone h x l : line h x l -> NoDup (map tag_of h) -> line (alone h l) x l.
Proof. intros L N. apply line_alone_in; auto. apply incl_refl. Qed.

Variable re_w : Z -> bool.
Variable tk : tkind.
Variables HS DS : store K.
Variable TR : tree_impl K.
Variable HL : store_law HS.
Variable DL : store_law DS.
Variable TL : tree_law TR.
Context {TX : Exact TL}.
Notation run := (run re_w tk HS DS TR).
Notation hist_inv := (hist_inv re_w tk HS DS TR HL DL TL).

Theorem on_line h h' x ls : tk <> KLine -> fresh tk h -> fresh tk h' -> is_head h x -> is_head h' x -> line h x ls -> line h' x ls ->
  (forall t b base, In t ls -> In (t, b, base) h -> In (t, b, base) h') ->
  let v := run v_empty h in let v' := run v_empty h' in
  (forall t, In t ls ->
     view HL (heads v) t = view HL (heads v') t /\ view DL (diffs v) t = view DL (diffs v') t /\
     (exists p, tr_path_to TR (tree v) t = Ok (Some p) /\ tr_path_to TR (tree v') t = Ok (Some p)) /\
     (exists b, tr_base TR (tree v) t = Ok b /\ tr_base TR (tree v') t = Ok b)) /\
  (exists sp p, tr_get_split TR (tree v) x = Ok (sp, p) /\ tr_get_split TR (tree v') x = Ok (sp, p)).
Proof.
  intros Hk F F' Hx Hx' L L' Sub v v'. pose proof (proj1 F) as N. pose proof (proj1 F') as N'.
  assert (Ad : forall t, In t ls -> added h t) by apply (line_in h x ls L).
  assert (Ad' : forall t, In t ls -> added h' t) by apply (line_in h' x ls L').
  destruct (hist_ok re_w tk HS DS TR HL DL TL h Hk F) as [s I]. destruct (hist_ok re_w tk HS DS TR HL DL TL h' Hk F') as [s' I'].
  fold v in I. fold v' in I'.
  pose proof (h_core _ _ _ _ _ _ _ _ _ _ _ I) as Co. pose proof (h_core _ _ _ _ _ _ _ _ _ _ _ I') as Co'.
  pose proof (c_rep _ _ _ _ _ _ _ _ _ _ _ _ Co) as R. pose proof (c_rep _ _ _ _ _ _ _ _ _ _ _ _ Co') as R'.
  assert (Fun2 : forall p q q', Forall2 (numbers ls) p q -> Forall2 (numbers ls) p q' -> q = q').
  { intros p q q' A. revert q'. induction A as [|i t p q Hi A IH]; intros q' A'; inversion A' as [|? t' ? q2 Hi' A2]; subst; [reflexivity|].
    f_equal; [unfold numbers in *; congruence|now apply IH]. }
  destruct (exact_ways re_w tk HS DS TR HL DL TL h Hk F x ls Hx L) as [X (y & p & sp & q & M1 & M2 & M3 & M4 & M5)].
  destruct (exact_ways re_w tk HS DS TR HL DL TL h' Hk F' x ls Hx' L') as [X' (y' & p' & sp' & q' & M1' & M2' & M3' & M4' & M5')].
  assert (Pa : forall t, In t ls -> exists p, tr_path_to TR (tree v) t = Ok (Some p) /\ tr_path_to TR (tree v') t = Ok (Some p) /\ incl p ls).
  { intros t Ht. destruct (In_nth_error (rev ls) t) as [i Hi]; [now apply -> in_rev|].
    assert (Lt : i < length ls) by (rewrite <- rev_length; apply nth_error_Some; congruence).
    destruct (way_exists _ _ Lt) as [w W]. destruct (X i t w Hi W) as (r & Q1 & Q2). destruct (X' i t w Hi W) as (r' & Q1' & Q2').
    rewrite (Fun2 w r r' Q2 Q2') in Q1. exists r'. split; [exact Q1|split; [exact Q1'|]].
    clear -Q2'. intros u Hu. induction Q2' as [|j z w r Hj _ IH]; [destruct Hu|]. destruct Hu as [<-|Hu]; [|auto].
    apply in_rev. unfold numbers in Hj. now apply nth_error_In in Hj. }
  assert (Up : forall t, In t ls -> exists l, up s t l /\ up s' t l /\ incl l ls).
  { intros t Ht. destruct (inv_up re_w tk HS DS TR HL DL TL h _ s t I (Ad t Ht)) as [l U].
    destruct (inv_up re_w tk HS DS TR HL DL TL h' _ s' t I' (Ad' t Ht)) as [l' U'].
    destruct (Pa t Ht) as (r & Q & Q' & Inc). rewrite (rep_path _ TL _ s t _ R U) in Q. rewrite (rep_path _ TL _ s' t _ R' U') in Q'.
    injection Q as <-. injection Q' as Q'. apply (f_equal (@rev K)) in Q'. rewrite !rev_involutive in Q'. subst l'. exists l. split; [exact U|split; [exact U'|]].
    intros u Hu. apply Inc. now apply -> in_rev. }
  assert (Ge : forall t, In t ls -> exists b base n n', In (t, b, base) h /\ In (t, b, base) h' /\ dget s t = Some n /\ dget s' t = Some n' /\ Tree.base n = base /\ Tree.base n' = base).
  { intros t Ht. pose proof (Ad t Ht) as At. apply in_map_iff in At as ([[u b] base] & Q & Hin). cbn in Q. subst u.
    pose proof (Sub t b base Ht Hin) as Hin'.
    destruct (h_base _ _ _ _ _ _ _ _ _ _ _ I t b base Hin) as (n & Gn & Bn). destruct (h_base _ _ _ _ _ _ _ _ _ _ _ I' t b base Hin') as (n' & Gn' & Bn').
    exists b, base, n, n'. auto 10. }
  assert (Vs : forall t, In t ls -> exists b, V_of h t = Some b /\ V_of h' t = Some b).
  { intros t Ht. destruct (Ge t Ht) as (b & base & _ & _ & H1 & H2 & _). exists b. split; eapply V_of_In; eauto. }
  split.
  - intros t Ht. destruct (Ge t Ht) as (b & base & n & n' & H1 & H2 & G & G' & B1 & B2). destruct (Up t Ht) as (l & U & U' & Inc).
    destruct (Vs t Ht) as (bt & Vt & Vt').
    assert (Ti := h_tidy _ _ _ _ _ _ _ _ _ _ _ I t ltac:(discriminate)). assert (Ti' := h_tidy _ _ _ _ _ _ _ _ _ _ _ I' t ltac:(discriminate)).
    assert (Pr : parent n = parent n' /\ forall z, parent n = Some z -> In z ls).
    { inversion U as [? m G1 G2|? m z r G1 G2 G3]; subst; inversion U' as [? m' G1' G2'|? m' z' r' G1' G2' G3']; subst.
      - split; [congruence|]. intros z Q. congruence.
      - apply up_head in G3' as [? ?]. discriminate.
      - apply up_head in G3 as [? ?]. discriminate.
      - apply up_head in G3 as [w Z]. apply up_head in G3' as [w' Z']. subst r. injection Z' as <- _. split; [congruence|].
        intros c Q. assert (c = z) as -> by congruence. apply Inc. right. now left. }
    destruct Pr as [Pr Pin]. split; [|split; [|split]].
    + destruct (parent n) as [z|] eqn:Pz.
      * destruct (view HL (heads v) t) eqn:Q; [destruct (proj1 Ti) as (m & Gm & Pm); [discriminate|congruence]|].
        destruct (view HL (heads v') t) eqn:Q'; [destruct (proj1 Ti') as (m & Gm & Pm); [discriminate|congruence]|reflexivity].
      * rewrite (c_head _ _ _ _ _ _ _ _ _ _ _ _ Co t n G Pz), (c_head _ _ _ _ _ _ _ _ _ _ _ _ Co' t n' G' (eq_sym Pr)). congruence.
    + destruct (parent n) as [z|] eqn:Pz.
      * destruct (Vs z (Pin z eq_refl)) as (bz & Vz & Vz').
        destruct (c_diff _ _ _ _ _ _ _ _ _ _ _ _ Co t n z bz bt G Pz Vz Vt ltac:(discriminate)) as (d & D1 & it & D2 & D3).
        destruct (c_diff _ _ _ _ _ _ _ _ _ _ _ _ Co' t n' z bz bt G' (eq_sym Pr) Vz' Vt' ltac:(discriminate)) as (d' & D1' & it' & D2' & D3').
        congruence.
      * destruct (view DL (diffs v) t) eqn:Q; [destruct (proj2 Ti) as (m & Gm & Pm); [discriminate|congruence]|].
        destruct (view DL (diffs v') t) eqn:Q'; [destruct (proj2 Ti') as (m & Gm & Pm); [discriminate|congruence]|reflexivity].
    + destruct (Pa t Ht) as (r & Q & Q' & _). eauto.
    + exists base. rewrite (rep_base _ TL _ s t n R G), (rep_base _ TL _ s' t n' R' G'), B1, B2. auto.
  - assert (Lp : 0 < length ls) by (pose proof (line_head h x ls L) as Q; destruct ls; [discriminate|cbn; lia]).
    destruct (moves_unique (length ls) Lp) as (z & _ & Uz). assert (y' = y) as -> by (rewrite <- (Uz y M1), <- (Uz y' M1'); reflexivity).
    assert (Ly : y < length ls) by (rewrite <- rev_length; apply nth_error_Some; unfold numbers in M3; congruence).
    destruct (way_one _ _ Ly) as (w & _ & Uw). assert (p' = p) as -> by (rewrite <- (Uw p M2), <- (Uw p' M2'); reflexivity).
    exists sp, q. split; [exact M5|]. rewrite (Fun2 p q q' M4 M4'). assert (sp = sp') as -> by (unfold numbers in *; congruence). exact M5'.
Qed.
Theorem line_by_itself h x ls : tk <> KLine -> fresh tk h -> is_head h x -> line h x ls ->
  let v := run v_empty h in let v' := run v_empty (alone h ls) in
  (forall t, In t ls ->
     view HL (heads v) t = view HL (heads v') t /\ view DL (diffs v) t = view DL (diffs v') t /\
     (exists p, tr_path_to TR (tree v) t = Ok (Some p) /\ tr_path_to TR (tree v') t = Ok (Some p)) /\
     (exists b, tr_base TR (tree v) t = Ok b /\ tr_base TR (tree v') t = Ok b)) /\
  (exists sp p, tr_get_split TR (tree v) x = Ok (sp, p) /\ tr_get_split TR (tree v') x = Ok (sp, p)).
Proof.
  intros Hk F Hx L. apply on_line; auto.
  - now apply fresh_alone.
  - apply head_alone; [exact Hx|]. pose proof (line_head h x ls L) as Q. destruct ls; [discriminate|]. injection Q as ->. now left.
  - apply line_alone; [exact L|apply F].
  - intros t b base Ht Hin. apply in_alone. auto.
Qed.
End Alone.

Section Both.
Context {K : Type} {E : Teq K} {O : TeqOk K}.
Variable re_w : Z -> bool.
Variable tk : tkind.
Notation D := (dict_store K).
Notation C := (db_store K).
Notation M := (memory_tree K).
Notation T := (db_tree K).
Theorem alone_memory h x ls : tk <> KLine -> fresh tk h -> is_head h x -> line h x ls ->
  let v := run re_w tk D D M v_empty h in let v' := run re_w tk D D M v_empty (alone h ls) in
  (forall t, In t ls -> dget (heads v) t = dget (heads v') t /\ dget (diffs v) t = dget (diffs v') t /\
     m_path_to (tree v) t = m_path_to (tree v') t /\ version_info D D M v t = version_info D D M v' t) /\
  m_get_split (tree v) x = m_get_split (tree v') x.
Proof.
  intros Hk F Hx L v v'. destruct (line_by_itself re_w tk D D M dict_law dict_law memory_law h x ls Hk F Hx L) as [H (sp & p & S1 & S2)].
  split; [|exact (eq_trans S1 (eq_sym S2))]. intros t Ht. destruct (H t Ht) as (H1 & H2 & (q & P1 & P2) & (b & B1 & B2)).
  split; [exact H1|split; [exact H2|split; [exact (eq_trans P1 (eq_sym P2))|]]].
  unfold version_info. cbn [s_dot_get dict_store]. cbn [view dict_law] in H1, H2. unfold v, v'. now rewrite H1, H2, B1, B2.
Qed.
Theorem alone_db place1 place2 h x ls : tk <> KLine -> fresh tk h -> is_head h x -> line h x ls ->
  let v := run re_w tk (C place1) (C place2) T v_empty h in let v' := run re_w tk (C place1) (C place2) T v_empty (alone h ls) in
  (forall t, In t ls -> s_get (C place1) (heads v) t = s_get (C place1) (heads v') t /\ s_get (C place2) (diffs v) t = s_get (C place2) (diffs v') t /\
     d_path_to (tree v) t = d_path_to (tree v') t) /\
  d_get_split (tree v) x = d_get_split (tree v') x.
Proof.
  intros Hk F Hx L v v'.
  destruct (line_by_itself re_w tk (C place1) (C place2) T (db_store_law place1) (db_store_law place2) db_law h x ls Hk F Hx L) as [H (sp & p & S1 & S2)].
  split; [|exact (eq_trans S1 (eq_sym S2))]. intros t Ht. destruct (H t Ht) as (H1 & H2 & (q & P1 & P2) & _).
  split; [|split; [|exact (eq_trans P1 (eq_sym P2))]].
  - rewrite !(view_get _ (db_store_law place1)). unfold v, v'. now rewrite H1.
  - rewrite !(view_get _ (db_store_law place2)). unfold v, v'. now rewrite H2.
Qed.
End Both.
