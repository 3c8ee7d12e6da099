(** An add that was interrupted, and what can be done after it (C125). *)
From Coq Require Import ZArith Lia.
From Verif Require Import Base SpecSeq Changesets Serialize Tokenizers SpecTokenizers TokenizersProofs Tree SpecTree TreeProofs
  Versions SpecVersions VersionsInv VersionsProofs VersionsMore DbTree DbTreeProofs DbTreeMore SpecInterrupted.

Section Interrupted.
Context {K : Type} {E : Teq K} {O : TeqOk K}.
Variable re_w : Z -> bool.
Variable tk : tkind.
Variables HS DS : store K.
Variable TR : tree_impl K.
Variable HL : store_law HS.
Variable DL : store_law DS.
Variable TL : tree_law TR.
Hypothesis Hk : tk <> KLine.
Notation vstate := (@vstate K HS DS TR).
Notation core := (core re_w tk HS DS TR HL DL TL).
Notation core0 := (core None).
Notation tidy := (tidy HS DS TR HL DL).
Notation add := (add re_w tk HS DS TR).
Notation add_state := (add_state re_w tk HS DS TR).
Notation add_result := (add_result re_w tk HS DS TR).
Notation add_trace := (add_trace re_w tk HS DS TR).
Notation run := (run re_w tk HS DS TR).
Notation get := (get re_w tk HS DS TR).
Notation vbind := (vbind HS DS TR).
Notation look := (look HS DS TR).
Notation make_changeset := (Versions.make_changeset re_w tk).
Notation edge_bytes := (edge_bytes re_w tk).
Implicit Types (V : K -> option (list Z)) (v w : vstate) (s : nodes K).

Lemma tidy_weak x v s : tidy None v s -> tidy x v s.
Proof. intros T t _. apply T. discriminate. Qed.

(** line 36 *)
Lemma added_core x V v s tag b base : core0 V v s -> tidy x v s -> V tag = None -> storable tk b ->
  exists t', tr_add TR tag base (tree v) = (t', Ok tt) /\
  let v2 := mkV (s_set HS tag b (heads v)) (diffs v) t' in
  let s2 := fst (m_add tag base s) in
  core0 (upd V tag b) v2 s2 /\ tidy x v2 s2 /\
  dget s2 tag = Some (mkNode (length s) None [] 1 1 base) /\
  (forall u, u <> tag -> dget s2 u = dget s u).
Proof.
  intros C T Hv Sb. pose proof (proj2 (c_dom _ _ _ _ _ _ _ _ _ _ _ _ C tag) Hv) as Hs.
  destruct (rep_add _ TL _ s tag base (c_rep _ _ _ _ _ _ _ _ _ _ _ _ C) Hs) as [t' [Ha R]].
  exists t'; split; [exact Ha|]. cbn zeta.
  destruct (add_gets s tag base Hs) as [G _].
  set (s2 := fst (m_add tag base s)) in *.
  assert (G1 : dget s2 tag = Some (mkNode (length s) None [] 1 1 base)) by (rewrite G; now rewrite teq_refl).
  assert (G2 : forall u, u <> tag -> dget s2 u = dget s u).
  { intros u Hu; rewrite G; destruct (teq_spec tag u); congruence. }
  split; [|split; [|split]]; auto.
  - split; cbn.
    + exact R.
    + split; [apply fine_set, C|apply C].
    + intros t; unfold upd; rewrite G. destruct (teq tag t); [split; discriminate|apply C].
    + intros t b'; unfold upd; destruct (teq tag t); [intros [= <-]; exact Sb|apply C].
    + intros t n Hn Hp. rewrite (view_set _ HL); unfold upd; rewrite G in Hn.
      destruct (teq tag t); [reflexivity|]. now apply (c_head _ _ _ _ _ _ _ _ _ _ _ _ C t n).
    + intros t n q bq bt Hn Hp Hq Ht _. rewrite G in Hn; unfold upd in Hq, Ht.
      destruct (teq_spec tag t) as [->|Htt]; [injection Hn as <-; discriminate|].
      destruct (teq_spec tag q) as [->|Htq].
      * exfalso. apply (child_known _ _ _ _ _ _ _ _ V v s None t q C); [exists n; auto|exact Hs].
      * eapply (c_diff _ _ _ _ _ _ _ _ _ _ _ _ C); eauto; discriminate.
  - intros t Hx; cbn. rewrite (view_set _ HL). destruct (T t) as [T1 T2]; [exact Hx|].
    rewrite G. destruct (teq_spec tag t) as [->|Htt].
    + split; [intros _; eexists; split; [reflexivity|reflexivity]|].
      intros H; apply T2 in H as [n [Hn _]]; congruence.
    + split; [exact T1|exact T2].
Qed.

(** [_add_edge]; the child may still be stored as a head *)
Lemma edge_ok V v s q c nc nq lq bq bc items : core0 V v s ->
  dget s c = Some nc -> dget s q = Some nq -> up s q lq -> ~ In c lq ->
  rep_free TL \/ slot_free s c nc q nq -> V q = Some bq -> V c = Some bc -> make_changeset bq bc = Ok items ->
  exists v1 v2 v3 s', add_edge HS DS TR q c items v =
      (if s_mem HS (heads v) c then [v1; v2; v3] else [v1; v3], (v3, Ok tt)) /\
    (parent nc = None -> core0 V v1 s) /\ (tidy None v s -> tidy (Some c) v1 s) /\
    core0 V v2 s' /\ (tidy None v s -> tidy (Some c) v2 s') /\
    core0 V v3 s' /\ (forall x, tidy x v s -> tidy x v3 s') /\ reparented s s' c q /\
    (exists d, view DL (diffs v3) c = Some d /\ edge_bytes bq bc d) /\
    (forall t, t <> c -> view HL (heads v3) t = view HL (heads v) t) /\ heads v2 = heads v /\ view HL (heads v3) c = None.
Proof.
  intros C Hc Hq Hu Hn SF Bq Bc Hm.
  pose proof (c_ok _ _ _ _ _ _ _ _ _ _ _ _ C q bq Bq) as Sq. pose proof (c_ok _ _ _ _ _ _ _ _ _ _ _ _ C c bc Bc) as Sc.
  destruct (edge_total re_w tk bq bc Sq Sc) as [items' [d [Hm' Hs]]].
  assert (items' = items) by congruence; subst items'.
  set (v1 := mkV (heads v) (s_set DS c d (diffs v)) (tree v) : vstate).
  assert (Vd : view DL (diffs v1) c = Some d) by (cbn; rewrite (view_set _ DL); now rewrite teq_refl).
  assert (Ed : edge_bytes bq bc d) by (exists items; auto).
  set (y := match parent nc with None => None | Some _ => Some c end).
  assert (C1 : core y V v1 s).
  { apply core_diff with (x := None); [exact C| |].
    - unfold y; destruct (parent nc); auto.
    - intros n Hn' Hp. assert (n = nc) by congruence; subst. unfold y; now destruct (parent nc). }
  destruct (move_core _ _ _ _ _ _ _ _ y V v1 s q c nc nq lq bq bc d C1) as [t' [s' [Ht [C2 P]]]]; auto.
  { unfold y; destruct (parent nc); auto. }
  set (v2 := mkV (heads v1) (diffs v1) t' : vstate) in *. cbn zeta in C2.
  destruct (reparented_get _ _ _ _ _ _ P Hc) as [nc' [Hc' [Hpc' _]]]. rewrite teq_refl in Hpc'.
  assert (T2 : forall x, tidy x v s -> forall t, t <> c -> Some t <> x ->
    (view HL (heads v2) t <> None -> exists n, dget s' t = Some n /\ parent n = None) /\
    (view DL (diffs v2) t <> None -> exists n, dget s' t = Some n /\ parent n <> None)).
  { intros x T t Htc Hx. destruct (T t) as [T1 T2]; [exact Hx|]. cbn. rewrite (view_set _ DL).
    destruct (teq_spec c t); [congruence|]. split.
    - intros H; apply T1 in H as [n' [Hn' Hp']]. destruct (reparented_get _ _ _ _ _ _ P Hn') as [m [Hm1 [Hm2 _]]].
      exists m; split; [exact Hm1|]. rewrite Hm2. destruct (teq_spec c t); congruence.
    - intros H; apply T2 in H as [n' [Hn' Hp']]. destruct (reparented_get _ _ _ _ _ _ P Hn') as [m [Hm1 [Hm2 _]]].
      exists m; split; [exact Hm1|]. rewrite Hm2. destruct (teq_spec c t); congruence. }
  assert (Tc1 : tidy None v s -> tidy (Some c) v1 s).
  { intros T0 t Htc. cbn. rewrite (view_set _ DL). destruct (teq_spec c t) as [->|]; [congruence|]. apply T0; discriminate. }
  assert (Tc2 : tidy None v s -> tidy (Some c) v2 s').
  { intros T0 t Htc. destruct (T0 t) as [A B]; [discriminate|]. cbn. rewrite (view_set _ DL).
    destruct (teq_spec c t) as [->|Hct]; [congruence|].
    split; intros H; [destruct (A H) as [n' [Hn' Hp']]|destruct (B H) as [n' [Hn' Hp']]];
      destruct (reparented_get _ _ _ _ _ _ P Hn') as [m [Hm1 [Hm2 _]]]; exists m; split; auto; rewrite Hm2;
      destruct (teq_spec c t); congruence. }
  assert (Run : forall tr r, (if s_mem HS (heads v) c then del_head HS DS TR c else vret HS DS TR tt) v2 = (tr, r) ->
    add_edge HS DS TR q c items v = ([v1; v2] ++ tr, r)).
  { intros tr r Hr. unfold add_edge. erewrite vbind_ok; [|unfold Versions.look; rewrite Hs; reflexivity|].
    2:{ erewrite vbind_ok; [|reflexivity|].
        2:{ erewrite vbind_ok; [|unfold on_tree; cbn [tree]; fold v1; cbn [tree v1] in Ht; rewrite Ht; reflexivity|].
            2:{ erewrite vbind_ok; [|unfold Versions.look; reflexivity|exact Hr]. reflexivity. }
            reflexivity. }
        reflexivity. }
    reflexivity. }
  rewrite (view_mem _ HL) in *.
  destruct (view HL (heads v) c) as [bh|] eqn:Hh.
  - assert (Hh2 : view HL (heads v2) c <> None) by (cbn; congruence).
    destruct (view_del _ HL (heads v2) c (proj1 (c_fine _ _ _ _ _ _ _ _ _ _ _ _ C2)) Hh2) as [h' [Hdel [Hfine Hvw]]].
    set (v3 := mkV h' (diffs v2) t' : vstate).
    exists v1, v2, v3, s'. split; [|split; [|split; [exact Tc1|split; [exact C2|split; [exact Tc2|split; [|split; [|split; [exact P|split; [|split; [|split; [reflexivity|]]]]]]]]]]].
    + rewrite (Run [v3] (v3, Ok tt)); [reflexivity|]. unfold del_head. rewrite Hdel. reflexivity.
    + intros Hp. unfold y in C1. now rewrite Hp in C1.
    + apply (core_heads _ _ _ _ _ _ _ _ None V v2 s' h' C2 Hfine). intros t n Hn' Hp. rewrite Hvw.
      destruct (teq_spec c t) as [->|]; [congruence|]. now apply (c_head _ _ _ _ _ _ _ _ _ _ _ _ C2 t n).
    + intros x T t Hx; cbn. rewrite Hvw. destruct (teq_spec c t) as [->|Htc].
      * split; [congruence|]. intros _; exists nc'; split; [exact Hc'|congruence].
      * apply (T2 x T); congruence.
    + exists d; split; [exact Vd|exact Ed].
    + intros u Hu1. cbn. rewrite Hvw. destruct (teq_spec c u); [congruence|reflexivity].
    + cbn. now rewrite Hvw, teq_refl.
  - exists v1, v2, v2, s'. split; [|split; [|split; [exact Tc1|split; [exact C2|split; [exact Tc2|split; [exact C2|split; [|split; [exact P|split; [|split; [reflexivity|split; [reflexivity|exact Hh]]]]]]]]]]].
    + rewrite (Run [] (v2, Ok tt)); reflexivity.
    + intros Hp. unfold y in C1. now rewrite Hp in C1.
    + intros x T t Hx. destruct (teq_spec t c) as [->|Htc]; [|now apply (T2 x T)].
      split; [cbn; congruence|]. intros _; exists nc'; split; [exact Hc'|congruence].
    + exists d; split; [exact Vd|exact Ed].
Qed.

(** * After line 36 *)
Definition rest (tag : K) (b : list Z) (h : K) : vm HS DS TR unit :=
  vbind (look (fun v => tr_get_split TR (tree v) h)) (fun sp =>
  vbind (if teq (fst sp) h then vret HS DS TR tt else
         vbind (look (fun v => retrieve_using_path re_w tk HS DS TR v (snd sp))) (fun split_version =>
         vbind (look (fun _ => make_changeset b split_version)) (fun cs =>
         vbind (add_edge HS DS TR tag (fst sp) cs) (fun _ =>
         on_tree HS DS TR (tr_change_parent TR (fst sp) tag))))) (fun _ =>
  vbind (look (fun v => s_get HS (heads v) h)) (fun head_version =>
  vbind (look (fun _ => make_changeset b head_version)) (fun cs =>
  add_edge HS DS TR tag h cs)))).
Lemma add_rest tag b h v t' : tr_add TR tag (Some h) (tree v) = (t', Ok tt) ->
  let v2 := mkV (s_set HS tag b (heads v)) (diffs v) t' in
  forall tr r, rest tag b h v2 = (tr, r) ->
  add tag b (Some h) v = (mkV (s_set HS tag b (heads v)) (diffs v) (tree v) :: v2 :: tr, r).
Proof.
  intros Ha v2 tr r H. unfold Versions.add. erewrite vbind_ok; [|reflexivity|].
  2:{ erewrite vbind_ok; [|unfold on_tree; cbn [tree]; rewrite Ha; reflexivity|exact H]. reflexivity. }
  reflexivity.
Qed.

(** nothing is wrong with [w], except that something may be stored too much for [x]; the
    versions of which [R] speaks are roots *)
Definition state_ok V (R : K -> Prop) x w : Prop :=
  exists s, core0 V w s /\ tidy x w s /\ forall t n, dget s t = Some n -> R t -> parent n = None.

(** the last part *)
Lemma last_ok V v s tag b h nh nt (R : K -> Prop) : core0 V v s -> h <> tag -> V tag = Some b ->
  dget s h = Some nh -> view HL (heads v) h = V h -> dget s tag = Some nt -> parent nt = None ->
  rep_free TL \/ (parent nh = None /\ base nt = Some h) ->
  (forall t n, dget s t = Some n -> R t -> parent n = None) ->
  exists w1 w2 w3,
    vbind (look (fun v => s_get HS (heads v) h)) (fun head_version =>
    vbind (look (fun _ => make_changeset b head_version)) (fun cs =>
    add_edge HS DS TR tag h cs)) v = ([w1; w2; w3], (w3, Ok tt)) /\
    (view HL (heads w2) h = V h /\ view HL (heads w3) h = None) /\
    (forall x, tidy x v s -> state_ok V (fun t => R t /\ t <> h) x w3) /\
    (parent nh = None -> tidy None v s -> core0 V w1 s /\ tidy (Some h) w1 s /\ state_ok V (fun t => R t /\ t <> h) (Some h) w2).
Proof.
  intros C Hht Bt Hnh Vh Hnt Hpt Hfree HR.
  destruct (V h) as [bh|] eqn:Bh; [|apply (c_dom _ _ _ _ _ _ _ _ _ _ _ _ C) in Bh; congruence].
  pose proof (c_ok _ _ _ _ _ _ _ _ _ _ _ _ C tag b Bt) as S1. pose proof (c_ok _ _ _ _ _ _ _ _ _ _ _ _ C h bh Bh) as S2.
  destruct (edge_total re_w tk b bh S1 S2) as [items [d [Hm _]]].
  assert (Hu : up s tag [tag]) by (eapply up_root; eauto).
  assert (Hnin : ~ In h [tag]) by (intros [Hx|[]]; congruence).
  destruct (edge_ok V v s tag h nh nt [tag] b bh items C Hnh Hnt Hu Hnin) as
    [w1 [w2 [w3 [s3 [He [D1 [D2 [D3 [D4 [D5 [D6 [P [_ [_ [W2 W3]]]]]]]]]]]]]]]; auto.
  { destruct Hfree as [Hfree|[Hph Hbt]]; [now left|right]. unfold slot_free; rewrite Hph; exact Hbt. }
  rewrite (view_mem _ HL), Vh in He.
  assert (HR3 : forall t n, dget s3 t = Some n -> R t /\ t <> h -> parent n = None).
  { intros t n Hn [Rt Htc]. destruct (reparented_get' _ _ _ _ _ _ P Hn) as [m [Hm' [Hp' _]]]. rewrite Hp'.
    destruct (teq_spec h t); [congruence|]. eapply HR; eauto. }
  exists w1, w2, w3. split; [|split; [split; [congruence|exact W3]|split]].
  - erewrite vbind_ok; [|unfold Versions.look; rewrite (view_get _ HL), Vh; reflexivity|].
    2:{ erewrite vbind_ok; [|unfold Versions.look; rewrite Hm; reflexivity|exact He]. reflexivity. }
    reflexivity.
  - intros x T; exists s3; auto.
  - intros Hph T0. split; [now apply D1|]. split; [now apply D2|]. exists s3; auto.
Qed.

Lemma rest_ok x V v s tag b h nh nt (R : K -> Prop) : core0 V v s -> tidy x v s -> h <> tag -> V tag = Some b ->
  dget s h = Some nh -> view HL (heads v) h = V h -> dget s tag = Some nt -> parent nt = None ->
  rep_free TL \/ (parent nh = None /\ base nt = Some h /\ forall c, ~ child_of s c tag) -> (forall t n, dget s t = Some n -> R t -> parent n = None) ->
  exists tr w, rest tag b h v = (tr, (w, Ok tt)) /\ (state_ok V (fun t => R t /\ t <> h) x w /\ view HL (heads w) h = None) /\
  (parent nh = None -> tidy None v s ->
   (exists w1 w2, tr = [w1; w2; w] /\ core0 V w1 s /\ tidy (Some h) w1 s /\
      state_ok V (fun t => R t /\ t <> h) (Some h) w2 /\ view HL (heads w2) h = V h) \/
   (exists w0 w1 w2 w3 w4, tr = [w0; w1; w2; w3; w4; w] /\ state_ok V R None w1 /\ state_ok V R None w2 /\
      state_ok V R (Some h) w3 /\ state_ok V (fun t => R t /\ t <> h) (Some h) w4 /\ view HL (heads w4) h = V h)).
Proof.
  intros C T Hht Bt Hnh Vh Hnt Hpt Hfree HR.
  destruct (V h) as [bh|] eqn:Bh; [|apply (c_dom _ _ _ _ _ _ _ _ _ _ _ _ C) in Bh; congruence].
  destruct (rep_split _ TL _ _ h nh (c_rep _ _ _ _ _ _ _ _ _ _ _ _ C) Hnh) as [p [Hsp [Hdn _]]].
  destruct (exist (fun y => last p h = y) (last p h) eq_refl) as [sp Hl]. rewrite Hl in Hsp.
  assert (Whole : forall tr r,
     vbind (if teq sp h then vret HS DS TR tt else
           vbind (look (fun v => retrieve_using_path re_w tk HS DS TR v p)) (fun split_version =>
           vbind (look (fun _ => make_changeset b split_version)) (fun cs =>
           vbind (add_edge HS DS TR tag sp cs) (fun _ =>
           on_tree HS DS TR (tr_change_parent TR sp tag))))) (fun _ =>
     vbind (look (fun v => s_get HS (heads v) h)) (fun head_version =>
     vbind (look (fun _ => make_changeset b head_version)) (fun cs =>
     add_edge HS DS TR tag h cs))) v = (tr, r) -> rest tag b h v = (tr, r)).
  { intros tr r H. unfold rest. erewrite vbind_ok; [|unfold Versions.look; rewrite Hsp; reflexivity|exact H]. reflexivity. }
  destruct (teq_spec sp h) as [Hsph|Hsph].
  - destruct (last_ok V v s tag b h nh nt R C) as [w1 [w2 [w3 [He [[W2 W3] [S3 S12]]]]]]; try congruence; auto.
    { destruct Hfree as [Hfree|[A [B _]]]; auto. }
    exists [w1; w2; w3], w3. split; [|split; [split; [now apply S3|exact W3]|]].
    { apply Whole. erewrite vbind_ok; [|reflexivity|exact He]. reflexivity. }
    intros Hph T0. destruct (S12 Hph T0) as [A [B D]]. left. exists w1, w2. split; [reflexivity|]. split; [exact A|]. split; [exact B|]. split; [exact D|congruence].
  - destruct (ok_forest re_w tk HS DS TR HL DL TL V v s None C h) as [l0 Huh]; [congruence|].
    destruct (up_head _ _ _ Huh) as [lh ->].
    assert (Hut : up s tag [tag]) by (eapply up_root; eauto).
    destruct (retrieve_ok _ _ _ _ _ _ _ _ None V v s h p C Hdn) as [bs [Bs Hret]];
      [congruence|congruence|discriminate|now left|].
    rewrite Hl in Bs.
    destruct (down_up_chain s h p Hdn (h :: lh) Huh) as [l' [Hul [_ [Hlt _]]]]. rewrite Hl in Hul.
    assert (Hspt : sp <> tag).
    { intros ->. pose proof (up_fun _ _ _ Hul _ Hut) as Hx.
      destruct l' as [|y l']; cbn in Hx; [injection Hx; congruence|]. destruct l'; discriminate. }
    destruct (dget s sp) as [nsp|] eqn:Hnsp; [|now apply up_known in Hul].
    assert (Hpsp : exists q0, parent nsp = Some q0).
    { destruct (parent nsp) as [q0|] eqn:Hq0; [eauto|exfalso].
      pose proof (up_fun _ _ _ Hul _ (up_root s sp nsp Hnsp Hq0)) as Hx.
      destruct l' as [|y l']; cbn in Hx; [injection Hx; congruence|]. destruct l'; discriminate. }
    destruct Hpsp as [q0 Hpsp].
    assert (Hnin2 : ~ In sp [tag]) by (intros [Hx|[]]; congruence).
    pose proof (c_ok _ _ _ _ _ _ _ _ _ _ _ _ C tag b Bt) as S1. pose proof (c_ok _ _ _ _ _ _ _ _ _ _ _ _ C sp bs Bs) as S2.
    destruct (edge_total re_w tk b bs S1 S2) as [items [d [Hm _]]].
    destruct (edge_ok V v s tag sp nsp nt [tag] b bs items C Hnsp Hnt Hut Hnin2)
      as [v3 [v3' [v4 [s4 [He1 [_ [_ [_ [_ [C4 [T4 [P4 [[d4 [Hd4 Ed4]] V4]]]]]]]]]]]]]; auto.
    { destruct Hfree as [Hfree|[Hph [Hbt Nc]]]; [now left|right].
      unfold slot_free; rewrite Hpsp, Hbt. split; [congruence|]. intros c Hc; now apply Nc in Hc. }
    destruct (reparented_get _ _ _ _ _ _ P4 Hnsp) as [nsp4 [Hn4 [Hp4 Hb4]]]. rewrite teq_refl in Hp4.
    destruct (reparented_get _ _ _ _ _ _ P4 Hnt) as [nt4 [Ht4 [Hpt4 Hbt4]]].
    assert (Hst4 : teq sp tag = false) by (destruct (teq_spec sp tag); congruence). rewrite Hst4 in Hpt4.
    assert (Hut4 : up s4 tag [tag]) by (eapply up_root; eauto; congruence).
    destruct (move_core _ _ _ _ _ _ _ _ None V v4 s4 tag sp nsp4 nt4 [tag] b bs d4 C4) as [t5 [s5 [Ht5 [C5 P5]]]]; auto.
    { destruct Hfree as [Hfree|[Hph [Hbt Nc]]]; [now left|right].
      unfold slot_free; rewrite Hp4. split; [congruence|]. intros c Hc.
      apply (reparented_child _ _ _ _ c tag P4) in Hc as [[-> _]|[_ Hc]]; [reflexivity|now apply Nc in Hc]. }
    set (v5 := mkV (heads v4) (diffs v4) t5 : vstate) in *. cbn zeta in C5.
    assert (T45 : forall y, tidy y v4 s4 -> tidy y v5 s5).
    { intros y Ty t Hy. destruct (Ty t) as [A B]; [exact Hy|]. cbn. split; intros H.
      - destruct (A H) as [n [Hn Hp]]. destruct (reparented_get _ _ _ _ _ _ P5 Hn) as [m [Hm1 [Hm2 _]]].
        exists m; split; [exact Hm1|]. destruct (teq_spec sp t) as [<-|]; congruence.
      - destruct (B H) as [n [Hn Hp]]. destruct (reparented_get _ _ _ _ _ _ P5 Hn) as [m [Hm1 [Hm2 _]]].
        exists m; split; [exact Hm1|]. destruct (teq_spec sp t); congruence. }
    destruct (reparented_get _ _ _ _ _ _ P4 Hnh) as [nh4 [Hnh4 [Hph4 _]]].
    assert (Hsh : teq sp h = false) by (destruct (teq_spec sp h); congruence). rewrite Hsh in Hph4.
    destruct (reparented_get _ _ _ _ _ _ P5 Hnh4) as [nh5 [Hnh5 [Hph5 _]]]. rewrite Hsh in Hph5.
    destruct (reparented_get _ _ _ _ _ _ P5 Ht4) as [nt5 [Hnt5 [Hpt5 Hbt5]]]. rewrite Hst4 in Hpt5.
    (* the split is no root *)
    assert (Rsp : ~ R sp) by (intros Hx; rewrite (HR sp nsp Hnsp Hx) in Hpsp; discriminate).
    assert (HR4 : forall t n, dget s4 t = Some n -> R t -> parent n = None).
    { intros t n Hn Rt. destruct (reparented_get' _ _ _ _ _ _ P4 Hn) as [m [Hm' [Hp' _]]]. rewrite Hp'.
      destruct (teq_spec sp t) as [<-|]; [contradiction|]. eapply HR; eauto. }
    assert (HR5 : forall t n, dget s5 t = Some n -> R t -> parent n = None).
    { intros t n Hn Rt. destruct (reparented_get' _ _ _ _ _ _ P5 Hn) as [m [Hm' [Hp' _]]]. rewrite Hp'.
      destruct (teq_spec sp t) as [<-|]; [contradiction|]. eapply HR4; eauto. }
    destruct (last_ok V v5 s5 tag b h nh5 nt5 R C5) as [w1 [w2 [w3 [He [[W2 W3] [S3 S12]]]]]]; auto; try congruence.
    { cbn. rewrite (proj1 V4); congruence. }
    { destruct Hfree as [Hfree|[Hph [Hbt Nc]]]; [now left|right]. split; congruence. }
    exists ((if s_mem HS (heads v) sp then [v3; v3'; v4] else [v3; v4]) ++ [v5] ++ [w1; w2; w3]), w3.
    split; [|split; [split; [now apply S3, T45, T4|exact W3]|]].
    { apply Whole. erewrite vbind_ok; [| |exact He].
      2:{ erewrite vbind_ok; [|unfold Versions.look; rewrite Hret; reflexivity|].
          2:{ erewrite vbind_ok; [|unfold Versions.look; rewrite Hm; reflexivity|].
              2:{ erewrite vbind_ok; [|exact He1|].
                  2:{ unfold on_tree. rewrite Ht5. fold v5. reflexivity. }
                  reflexivity. }
              reflexivity. }
          reflexivity. }
      rewrite <- !app_assoc; reflexivity. }
    intros Hph T0. right.
    assert (Hsm : s_mem HS (heads v) sp = false).
    { rewrite (view_mem _ HL). destruct (view HL (heads v) sp) eqn:Hv; [|reflexivity].
      destruct (proj1 (T0 sp ltac:(discriminate))) as [n' [Hn' Hp']]; congruence. }
    rewrite Hsm in *. pose proof (T45 None (T4 None T0)) as T5. destruct (S12 ltac:(congruence) T5) as [A [B D]].
    exists v3, v4, v5, w1, w2. split; [reflexivity|]. split; [exists s4; auto|]. split; [exists s5; auto|].
    split; [exists s5; auto|]. split; [exact D|congruence].
Qed.

(** * Going on *)
Implicit Type h : list (adding K).
Definition head_after h (base : option K) : Prop := match base with None => True | Some x => is_head h x end.
Lemma state_add h x w a : state_ok (V_of h) (is_head h) x w -> ~ added h (tag_of a) -> base_of a <> Some (tag_of a) ->
  storable tk (bytes_of a) -> head_after h (base_of a) ->
  add_result w a = Ok tt /\ state_ok (V_of (h ++ [a])) (is_head (h ++ [a])) x (add_state w a).
Proof.
  intros [s [C [T HR]]] Hna Hb Sb Hx. destruct a as [[tag b] base]; cbn [tag_of bytes_of base_of fst snd] in *.
  pose proof (proj2 (V_of_none h tag) Hna) as Hv.
  unfold Versions.add_result, Versions.add_state. rewrite V_of_snoc; cbn [tag_of bytes_of fst snd].
  destruct (added_core x (V_of h) w s tag b base C T Hv Sb) as [t' [Ha [C2 [T2 [G1 G2]]]]]. cbn zeta in C2, T2.
  set (v2 := mkV (s_set HS tag b (heads w)) (diffs w) t' : vstate) in *. set (s2 := fst (m_add tag base s)) in *.
  pose proof (proj2 (c_dom _ _ _ _ _ _ _ _ _ _ _ _ C tag) Hv) as Hs.
  assert (HR2 : forall t n, dget s2 t = Some n -> is_head h t \/ t = tag -> parent n = None).
  { intros t n Hn Ht. destruct (teq_spec t tag) as [->|Htt]; [rewrite G1 in Hn; injection Hn as <-; reflexivity|]. rewrite G2 in Hn by exact Htt.
    destruct Ht as [Ht|]; [now apply (HR t)|congruence]. }
  assert (HH : forall t, is_head (h ++ [(tag, b, base)]) t -> (is_head h t \/ t = tag) /\ base <> Some t).
  { intros t Ht. apply is_head_snoc in Ht; auto. cbn in Ht. destruct Ht as [->|[Ht1 Ht2]]; auto. }
  destruct base as [y|]; cbn in Hx.
  - assert (Hyt : y <> tag) by congruence.
    destruct (dget s y) as [ny|] eqn:Hny.
    2:{ apply (c_dom _ _ _ _ _ _ _ _ _ _ _ _ C) in Hny. apply V_of_none in Hny. now apply is_head_added in Hx. }
    destruct (rest_ok x (upd (V_of h) tag b) v2 s2 tag b y ny (mkNode (length s) None [] 1 1 (Some y)) (fun t => is_head h t \/ t = tag) C2 T2 Hyt)
      as [tr [w' [He [[S _] _]]]]; try exact G1; auto.
    { unfold upd; now rewrite teq_refl. }
    { now rewrite G2. }
    { apply (c_head _ _ _ _ _ _ _ _ _ _ _ _ C2 y ny); [now rewrite G2|now apply (HR y)]. }
    { right. split; [now apply (HR y)|]. split; [reflexivity|].
      intros c [n [Hn Hp]]. destruct (teq_spec c tag) as [->|Hc]; [rewrite G1 in Hn; injection Hn as <-; discriminate|].
      rewrite G2 in Hn by exact Hc. apply (child_known _ _ _ _ _ _ _ _ _ w s None c tag C); [exists n; auto|exact Hs]. }
    rewrite (add_rest tag b y w t' Ha tr _ He). cbn [fst snd]. split; [reflexivity|].
    destruct S as [s' [C' [T' HR']]]. exists s'; split; [exact C'|]. split; [exact T'|].
    intros t n Hn Ht. apply HH in Ht as [Ht1 Ht2]. apply (HR' t n Hn). split; [exact Ht1|congruence].
  - unfold Versions.add, set_head, on_tree, Versions.vbind, vret; cbn. rewrite Ha; cbn. split; [reflexivity|].
    exists s2; split; [exact C2|]. split; [exact T2|]. intros t n Hn Ht. apply HH in Ht as [Ht _]. eapply HR2; eauto.
Qed.
Lemma state_run h x w g : state_ok (V_of h) (is_head h) x w -> valid tk (h ++ g) ->
  state_ok (V_of (h ++ g)) (is_head (h ++ g)) x (run w g).
Proof.
  revert h w. induction g as [|a g IH]; intros h w S Hv; [now rewrite app_nil_r|].
  assert (Hva : valid tk (h ++ [a])).
  { clear -Hv. change (a :: g) with ([a] ++ g) in Hv. rewrite app_assoc in Hv. revert Hv.
    induction g as [|z g IH] using rev_ind; [now rewrite app_nil_r|]. rewrite app_assoc. intros Hv.
    apply valid_snoc in Hv as [Hv _]. now apply IH. }
  destruct (valid_snoc _ _ _ Hva) as [_ Hb]. destruct (fresh_snoc _ _ _ (proj1 Hva)) as [_ [F1 [F2 F3]]].
  destruct (state_add h x w a S F1 F2 F3 Hb) as [_ S'].
  change (a :: g) with ([a] ++ g) in *. rewrite app_assoc in *. exact (IH _ _ S' Hv).
Qed.
Lemma state_goes_on h x w : state_ok (V_of h) (is_head h) x w -> goes_on re_w tk HS DS TR h w.
Proof.
  intros S g Hv. cbn zeta. pose proof (state_run h x w g S Hv) as Sg.
  pose proof Sg as [s [C [T HR]]]. split; [|split; [|split]].
  - intros t b base Hin. pose proof (V_of_In _ t b base (proj1 (proj1 Hv)) Hin) as Bt.
    destruct (ok_forest re_w tk HS DS TR HL DL TL _ _ s None C t) as [l Hl]; [congruence|].
    apply (get_ok re_w tk HS DS TR HL DL TL None (V_of (h ++ g)) _ s t b l); auto. discriminate.
  - intros t Ht. apply V_of_none in Ht. eapply get_none; eauto.
  - intros t. unfold contains. rewrite (rep_contains _ TL _ s t (c_rep _ _ _ _ _ _ _ _ _ _ _ _ C)). unfold dmem.
    pose proof (c_dom _ _ _ _ _ _ _ _ _ _ _ _ C t) as D. pose proof (V_of_none (h ++ g) t) as N.
    destruct (dget s t) as [n|].
    + split; [intros _|reflexivity]. destruct (V_of (h ++ g) t) as [bt|] eqn:HV; [|discriminate (proj2 D eq_refl)].
      apply V_of_some in HV as [base Hin]. now apply In_added in Hin.
    + split; [discriminate|]. intros Ha. exfalso. now apply (proj1 N (proj1 D eq_refl)).
  - intros a Ha. rewrite app_assoc in Ha. destruct (valid_snoc _ _ _ Ha) as [_ Hb].
    destruct (fresh_snoc _ _ _ (proj1 Ha)) as [_ [F1 [F2 F3]]]. now apply (state_add _ x _ a Sg F1 F2 F3).
Qed.
(** * The interrupted add *)
Lemma state_before h : fresh tk h -> state_ok (V_of h) (is_head h) None (run v_empty h).
Proof.
  intros F. destruct (hist_ok re_w tk HS DS TR HL DL TL h Hk F) as [s I].
  exists s. split; [apply (h_core _ _ _ _ _ _ _ _ _ _ _ I)|]. split; [apply (h_tidy _ _ _ _ _ _ _ _ _ _ _ I)|].
  intros t n Hn Ht. now apply (h_head _ _ _ _ _ _ _ _ _ _ _ I t n).
Qed.
Lemma state_roots V (R R' : K -> Prop) x w : (forall t, R' t -> R t) -> state_ok V R x w -> state_ok V R' x w.
Proof. intros H [s [C [T HR]]]. exists s; split; [exact C|]. split; [exact T|]. intros; eapply HR; eauto. Qed.
Lemma state_weak V R x w : state_ok V R None w -> state_ok V R x w.
Proof. intros [s [C [T HR]]]. exists s; split; [exact C|]. split; [now apply tidy_weak|exact HR]. Qed.

(** the tag is stored, and the tag is in the tree but has no children yet *)
Lemma trace_ok h a : fresh tk (h ++ [a]) -> head_after h (base_of a) ->
  let v := run v_empty h in
  let V := upd (V_of h) (tag_of a) (bytes_of a) in
  exists v1 v2 s2 tr, add_trace v a = v1 :: v2 :: tr /\ state_ok (V_of h) (is_head h) (Some (tag_of a)) v1 /\
    core0 V v2 s2 /\ tidy None v2 s2 /\
    (exists n, dget s2 (tag_of a) = Some n /\ parent n = None /\ children n = [] /\ base n = base_of a) /\
    (forall c, ~ child_of s2 c (tag_of a)) /\
    (forall t n, dget s2 t = Some n -> is_head h t \/ t = tag_of a -> parent n = None) /\
    match base_of a with
    | None => tr = []
    | Some y =>
      let R t := is_head h t \/ t = tag_of a in
      let R' t := (is_head h t \/ t = tag_of a) /\ t <> y in
      (exists w1 w2 w3, tr = [w1; w2; w3] /\ core0 V w1 s2 /\ tidy (Some y) w1 s2 /\
        (state_ok V R' (Some y) w2 /\ view HL (heads w2) y = V y) /\ (state_ok V R' None w3 /\ view HL (heads w3) y = None)) \/
      (exists w0 w1 w2 w3 w4 w5, tr = [w0; w1; w2; w3; w4; w5] /\ state_ok V R None w1 /\ state_ok V R None w2 /\
        state_ok V R (Some y) w3 /\ (state_ok V R' (Some y) w4 /\ view HL (heads w4) y = V y) /\
        (state_ok V R' None w5 /\ view HL (heads w5) y = None))
    end.
Proof.
  intros F Hx v V. destruct (fresh_snoc _ _ _ F) as [F' [Hna [Hb Sb]]].
  destruct (state_before h F') as [s [C [T HR]]]. fold v in C, T.
  destruct a as [[tag b] base]; cbn [tag_of bytes_of base_of fst snd] in *.
  pose proof (proj2 (V_of_none h tag) Hna) as Hv.
  destruct (added_core None (V_of h) v s tag b base C T Hv Sb) as [t' [Ha [C2 [T2 [G1 G2]]]]]. cbn zeta in C2, T2.
  set (v1 := mkV (s_set HS tag b (heads v)) (diffs v) (tree v) : vstate) in *.
  set (v2 := mkV (s_set HS tag b (heads v)) (diffs v) t' : vstate) in *. set (s2 := fst (m_add tag base s)) in *.
  pose proof (proj2 (c_dom _ _ _ _ _ _ _ _ _ _ _ _ C tag) Hv) as Hs.
  assert (S1 : state_ok (V_of h) (is_head h) (Some tag) v1).
  { exists s. split; [now apply set_head_core|]. split; [|exact HR]. intros t Ht. cbn. rewrite (view_set _ HL).
    destruct (teq_spec tag t) as [->|]; [congruence|]. apply T; discriminate. }
  assert (Nc : forall c, ~ child_of s2 c tag).
  { intros c [n [Hn Hp]]. destruct (teq_spec c tag) as [->|Hc]; [rewrite G1 in Hn; injection Hn as <-; discriminate|].
    rewrite G2 in Hn by exact Hc. apply (child_known _ _ _ _ _ _ _ _ _ v s None c tag C); [exists n; auto|exact Hs]. }
  assert (HR2 : forall t n, dget s2 t = Some n -> is_head h t \/ t = tag -> parent n = None).
  { intros t n Hn Ht. destruct (teq_spec t tag) as [->|Htt]; [rewrite G1 in Hn; injection Hn as <-; reflexivity|]. rewrite G2 in Hn by exact Htt.
    destruct Ht as [Ht|]; [now apply (HR t)|congruence]. }
  exists v1, v2, s2. unfold Versions.add_trace. destruct base as [y|]; cbn in Hx.
  - assert (Hyt : y <> tag) by congruence.
    destruct (dget s y) as [ny|] eqn:Hny.
    2:{ apply (c_dom _ _ _ _ _ _ _ _ _ _ _ _ C) in Hny. apply V_of_none in Hny. now apply is_head_added in Hx. }
    destruct (rest_ok None V v2 s2 tag b y ny (mkNode (length s) None [] 1 1 (Some y)) (fun t => is_head h t \/ t = tag) C2 T2 Hyt)
      as [tr [w' [He [[S Sn] Ss]]]]; auto.
    { unfold V, upd; now rewrite teq_refl. }
    { now rewrite G2. }
    { apply (c_head _ _ _ _ _ _ _ _ _ _ _ _ C2 y ny); [now rewrite G2|now apply (HR y)]. }
    { right. split; [now apply (HR y)|]. auto. }
    exists tr. rewrite (add_rest tag b y v t' Ha tr _ He). cbn [fst snd]. split; [reflexivity|]. split; [exact S1|].
    split; [exact C2|]. split; [exact T2|]. split; [eexists; split; [exact G1|auto]|]. split; [exact Nc|]. split; [exact HR2|].
    destruct (Ss (HR y ny Hny Hx) T2) as [[w1 [w2 [-> [A [B D]]]]]|[w0 [w1 [w2 [w3 [w4 [-> [A [B [D G]]]]]]]]]].
    + left. exists w1, w2, w'. auto 10.
    + right. exists w0, w1, w2, w3, w4, w'. auto 10.
  - exists []. unfold Versions.add, set_head, on_tree, Versions.vbind, vret; cbn. rewrite Ha; cbn. split; [reflexivity|].
    split; [exact S1|]. split; [exact C2|]. split; [exact T2|]. split; [eexists; split; [exact G1|auto]|]. auto.
Qed.

Lemma reached_state h a : fresh tk (h ++ [a]) -> head_after h (base_of a) ->
  let v := run v_empty h in
  forall i w, nth_error (add_trace v a) i = Some w -> i <> 2 \/ length (add_trace v a) <= 5 ->
  let h' := reached h a i (length (add_trace v a)) in
  (exists x, state_ok (V_of h') (is_head h') x w) /\ (1 <= i -> added h' (tag_of a) /\ is_head h' (tag_of a)).
Proof.
  intros F Hx v i w Hi Hi2. destruct (fresh_snoc _ _ _ F) as [F' [Hna [Hb Sb]]].
  destruct (trace_ok h a F Hx) as [v1 [v2 [s2 [tr [Ht [S1 [C2 [T2 [_ [_ [HR2 Hr]]]]]]]]]]]. fold v in Ht. cbn zeta in Hr.
  rewrite Ht in *. cbn zeta. unfold reached.
  assert (VN : V_of (h ++ [(tag_of a, bytes_of a, None)]) = upd (V_of h) (tag_of a) (bytes_of a)) by exact (V_of_snoc h (tag_of a, bytes_of a, None)).
  assert (VA : V_of (h ++ [a]) = upd (V_of h) (tag_of a) (bytes_of a)) by apply V_of_snoc.
  assert (HN : forall t, is_head (h ++ [(tag_of a, bytes_of a, None)]) t <-> t = tag_of a \/ is_head h t).
  { intros t. rewrite is_head_snoc; [cbn|exact Hna|discriminate]. intuition discriminate. }
  assert (HA : forall t, is_head (h ++ [a]) t <-> t = tag_of a \/ (is_head h t /\ base_of a <> Some t)).
  { intros t. now apply is_head_snoc. }
  assert (Pre : forall x w0, state_ok (upd (V_of h) (tag_of a) (bytes_of a)) (fun t => is_head h t \/ t = tag_of a) x w0 ->
    state_ok (V_of (h ++ [(tag_of a, bytes_of a, None)])) (is_head (h ++ [(tag_of a, bytes_of a, None)])) x w0).
  { intros x w0 S. rewrite VN. eapply state_roots; [|exact S]. intros t Hh. apply HN in Hh. tauto. }
  assert (Post : forall x y w0, base_of a = Some y ->
    state_ok (upd (V_of h) (tag_of a) (bytes_of a)) (fun t => (is_head h t \/ t = tag_of a) /\ t <> y) x w0 ->
    state_ok (V_of (h ++ [a])) (is_head (h ++ [a])) x w0).
  { intros x y w0 Hy S. rewrite VA. eapply state_roots; [|exact S]. intros t Hh. apply HA in Hh. rewrite Hy in *.
    destruct Hh as [->|[H1 H2]]; split; auto; congruence. }
  assert (S2 : state_ok (upd (V_of h) (tag_of a) (bytes_of a)) (fun t => is_head h t \/ t = tag_of a) None v2) by (exists s2; auto).
  split.
  - destruct i as [|i]; [injection Hi as <-; cbn [Nat.eqb]; eauto|]. cbn [nth_error] in Hi. cbn [Nat.eqb].
    destruct (base_of a) as [y|] eqn:Hba.
    + destruct Hr as [[w1 [w2 [w3 [-> [A [B [[D _] [G _]]]]]]]]|[w0 [w1 [w2 [w3 [w4 [w5 [-> [A [B [D [[G _] [I _]]]]]]]]]]]]]; cbn [length] in *.
      * destruct i as [|[|[|[|i]]]]; cbn in Hi; try (destruct i; discriminate Hi); injection Hi as <-; cbn [Nat.add Nat.leb].
        -- eauto.
        -- exists (Some y). apply Pre. exists s2; auto.
        -- eauto.
        -- eauto.
      * destruct i as [|[|[|[|[|[|[|i]]]]]]]; cbn in Hi; try (destruct i; discriminate Hi); injection Hi as <-; cbn [Nat.add Nat.leb]; eauto.
        exfalso. lia.
    + subst tr. destruct i as [|i]; [|destruct i; discriminate Hi]. injection Hi as <-. cbn [Nat.add Nat.leb length].
      exists None. rewrite VA. eapply state_roots; [|exact S2]. intros t Hh. apply HA in Hh. tauto.
  - intros Hi1. destruct i as [|i]; [lia|]. cbn [Nat.eqb].
    destruct (_ <=? _); (split; [unfold added; rewrite map_app, in_app_iff; cbn; auto|]); [apply HA|apply HN]; auto.
Qed.
Theorem interrupted_goes_on h a : fresh tk (h ++ [a]) -> head_after h (base_of a) ->
  let v := run v_empty h in
  forall i w, nth_error (add_trace v a) i = Some w -> i <> 2 \/ length (add_trace v a) <= 5 ->
  goes_on re_w tk HS DS TR (reached h a i (length (add_trace v a))) w.
Proof.
  intros F Hx v i w Hi Hi2. destruct (reached_state h a F Hx i w Hi Hi2) as [[x S] _]. eapply state_goes_on; exact S.
Qed.
(** storing the same contents again *)
Lemma state_stored V (R : K -> Prop) x w tag b : state_ok V R x w -> R tag -> V tag = Some b ->
  state_ok V R x (mkV (s_set HS tag b (heads w)) (diffs w) (tree w)).
Proof.
  intros [s [C [T HR]]] Rt Bt. exists s. split; [|split; [|exact HR]].
  - apply core_heads; [exact C|apply fine_set, C|]. intros t n Hn Hp. rewrite (view_set _ HL).
    destruct (teq_spec tag t) as [<-|]; [congruence|]. now apply (c_head _ _ _ _ _ _ _ _ _ _ _ _ C t n).
  - intros t Hx. destruct (T t Hx) as [A B]. cbn. rewrite (view_set _ HL). split; [|exact B].
    destruct (teq_spec tag t) as [<-|]; [intros _|exact A].
    destruct (dget s tag) as [n|] eqn:Hn; [exists n; split; [reflexivity|now apply (HR tag)]|].
    apply (c_dom _ _ _ _ _ _ _ _ _ _ _ _ C) in Hn. congruence.
Qed.
Lemma state_contains V R x w t : state_ok V R x w -> V t <> None -> tr_contains TR (tree w) t = true.
Proof.
  intros [s [C _]] Ht. rewrite (rep_contains _ TL _ s t (c_rep _ _ _ _ _ _ _ _ _ _ _ _ C)). unfold dmem.
  destruct (dget s t) eqn:Hn; [reflexivity|]. apply (c_dom _ _ _ _ _ _ _ _ _ _ _ _ C) in Hn. contradiction.
Qed.
(** a tree that refuses a tag that it has *)
Lemma refused_state e : (forall t k base, tr_contains TR t k = true -> tr_add TR k base t = (t, Err e)) ->
  forall h x w a, state_ok (V_of h) (is_head h) x w -> is_head h (tag_of a) -> V_of h (tag_of a) = Some (bytes_of a) ->
  add_result w a = Err e /\ goes_on re_w tk HS DS TR h (add_state w a).
Proof.
  intros He h x w a S Hh Bt.
  pose proof (state_contains _ _ _ _ (tag_of a) S) as Ct. rewrite Bt in Ct. specialize (Ct ltac:(discriminate)).
  destruct a as [[tag b] base]. cbn [tag_of bytes_of fst snd] in *.
  assert (Hadd : add tag b base w = ([mkV (s_set HS tag b (heads w)) (diffs w) (tree w); mkV (s_set HS tag b (heads w)) (diffs w) (tree w)],
    (mkV (s_set HS tag b (heads w)) (diffs w) (tree w), Err e))).
  { unfold Versions.add, set_head, on_tree, Versions.vbind; cbn. rewrite (He _ _ base Ct). reflexivity. }
  unfold Versions.add_result, Versions.add_state. rewrite Hadd. cbn [fst snd]. split; [reflexivity|].
  eapply state_goes_on. apply state_stored; [exact S|exact Hh|exact Bt].
Qed.
Theorem refused_again e : (forall t k base, tr_contains TR t k = true -> tr_add TR k base t = (t, Err e)) ->
  forall h a, fresh tk (h ++ [a]) -> head_after h (base_of a) ->
  let v := run v_empty h in
  forall i w, nth_error (add_trace v a) i = Some w -> 1 <= i -> i <> 2 \/ length (add_trace v a) <= 5 ->
  add_result w a = Err e /\ goes_on re_w tk HS DS TR (reached h a i (length (add_trace v a))) (add_state w a).
Proof.
  intros He h a F Hx v i w Hi Hi1 Hi2. destruct (reached_state h a F Hx i w Hi Hi2) as [[x S] H1].
  destruct (H1 Hi1) as [Ha Hh]. set (h' := reached h a i _) in *.
  apply (refused_state e He h' x w a S Hh).
  unfold h', reached. destruct i as [|i]; [lia|]. cbn [Nat.eqb]. destruct (_ <=? _).
  - rewrite (V_of_snoc h a). unfold upd; now rewrite teq_refl.
  - rewrite (V_of_snoc h (tag_of a, bytes_of a, None)). unfold upd; cbn. now rewrite teq_refl.
Qed.
End Interrupted.

(** * Again, in memory *)
Section Memory.
Context {K : Type} {E : Teq K} {O : TeqOk K}.
Variable re_w : Z -> bool.
Variable tk : tkind.
Variables HS DS : store K.
Variable HL : store_law HS.
Variable DL : store_law DS.
Hypothesis Hk : tk <> KLine.
Notation M := (memory_tree K).
Notation core := (core re_w tk HS DS M HL DL memory_law).
Notation tidy := (tidy HS DS M HL DL).
Notation state_ok := (state_ok re_w tk HS DS M HL DL memory_law).

(** line 36 again *)
Lemma renewed V w s tag b base n0 x : core None V w s -> tidy x w s -> V tag = Some b ->
  dget s tag = Some n0 -> parent n0 = None -> children n0 = [] -> (forall c, ~ child_of s c tag) ->
  exists s2, m_add tag base (tree w) = (s2, Ok tt) /\
  let v2 : vstate HS DS M := mkV (s_set HS tag b (heads w)) (diffs w) (s2 : tree_t M) in
  core None V v2 s2 /\ tidy x v2 s2 /\ dget s2 tag = Some (mkNode (length s) None [] 1 1 base) /\
  (forall u, u <> tag -> dget s2 u = dget s u).
Proof.
  intros C T Bt H0 Hp Hc Nc. destruct (c_rep _ _ _ _ _ _ _ _ _ _ _ _ C) as [Es Ts]. rewrite Es.
  exists (dset s tag (mkNode (length s) None [] 1 1 base)). split; [reflexivity|]. cbn zeta.
  set (s2 := dset s tag _).
  assert (G : forall u, dget s2 u = if teq tag u then Some (mkNode (length s) None [] 1 1 base) else dget s u) by (intros; apply dget_dset).
  assert (G1 : dget s2 tag = Some (mkNode (length s) None [] 1 1 base)) by (rewrite G, teq_refl; reflexivity).
  assert (G2 : forall u, u <> tag -> dget s2 u = dget s u) by (intros u Hu; rewrite G; destruct (teq_spec tag u); congruence).
  split; [|split; [|auto]].
  - split; cbn.
    + split; [reflexivity|]. now apply renew_ok with (n0 := n0).
    + split; [apply fine_set, C|apply C].
    + intros t. rewrite <- (c_dom _ _ _ _ _ _ _ _ _ _ _ _ C t). rewrite G. destruct (teq_spec tag t) as [<-|]; [|reflexivity].
      rewrite H0. split; discriminate.
    + apply C.
    + intros t n Hn Hpn. rewrite (view_set _ HL). rewrite G in Hn.
      destruct (teq_spec tag t) as [<-|]; [congruence|]. now apply (c_head _ _ _ _ _ _ _ _ _ _ _ _ C t n).
    + intros t n q bq bt Hn Hpn Hq Ht _. rewrite G in Hn.
      destruct (teq_spec tag t) as [<-|Htt]; [injection Hn as <-; discriminate|].
      eapply (c_diff _ _ _ _ _ _ _ _ _ _ _ _ C); eauto; discriminate.
  - intros t Hx; cbn. rewrite (view_set _ HL). destruct (T t) as [T1 T2]; [exact Hx|].
    rewrite G. destruct (teq_spec tag t) as [<-|Htt]; [|auto].
    split; [intros _; eexists; split; reflexivity|].
    intros H; apply T2 in H as [n [Hn Hp']]. congruence.
Qed.
Theorem memory_again h a : fresh tk (h ++ [a]) -> head_after h (base_of a) ->
  let v := run re_w tk HS DS M v_empty h in
  forall i w, nth_error (add_trace re_w tk HS DS M v a) i = Some w ->
  i < 2 \/ (i = 2 /\ length (add_trace re_w tk HS DS M v a) <= 5) ->
  add_result re_w tk HS DS M w a = Ok tt /\ goes_on re_w tk HS DS M (h ++ [a]) (add_state re_w tk HS DS M w a).
Proof.
  intros F Hx v i w Hi Hi2. destruct (fresh_snoc _ _ _ F) as [F' [Hna [Hb Sb]]].
  destruct (trace_ok re_w tk HS DS M HL DL memory_law Hk h a F Hx) as [v1 [v2 [s2 [tr [Ht [S1 [C2 [T2 [[n0 [H0 [Hp0 [Hc0 Hb0]]]] [Nc [HR2 Hr]]]]]]]]]]].
  fold v in Ht. cbn zeta in Hr. rewrite Ht in *.
  destruct i as [|i].
  { injection Hi as <-. destruct (state_add re_w tk HS DS M HL DL memory_law Hk h _ v1 a S1 Hna Hb Sb Hx) as [A B].
    split; [exact A|]. eapply state_goes_on; eauto. }
  set (V := upd (V_of h) (tag_of a) (bytes_of a)) in *.
  assert (W : exists x, core None V w s2 /\ tidy x w s2).
  { destruct i as [|i]; [injection Hi as <-; exists None; auto|]. destruct Hi2 as [Hi2|[Hi2 Hl]]; [lia|].
    assert (i = 0) by lia; subst i. cbn in Hi, Hl. destruct (base_of a) as [y|]; [|subst tr; discriminate].
    destruct Hr as [[w1 [w2 [w3 [-> [A [B _]]]]]]|[w0 [w1 [w2 [w3 [w4 [w5 [-> _]]]]]]]]; [|cbn in Hl; lia].
    injection Hi as <-. exists (Some y); auto. }
  destruct W as [x [C T]]. clear C2 T2 Hr.
  destruct a as [[tag b] base]; cbn [tag_of bytes_of base_of fst snd] in *.
  assert (Bt : V tag = Some b) by (unfold V, upd; now rewrite teq_refl).
  destruct (renewed V w s2 tag b base n0 x C T Bt H0 Hp0 Hc0 Nc) as [s3 [Ha [C3 [T3 [G1 G2]]]]]. cbn zeta in C3, T3.
  set (v3 := mkV (s_set HS tag b (heads w)) (diffs w) (s3 : tree_t M) : vstate HS DS M) in *.
  assert (HR3 : forall t n, dget s3 t = Some n -> is_head h t \/ t = tag -> parent n = None).
  { intros t n Hn Hh. destruct (teq_spec t tag) as [->|Htt]; [rewrite G1 in Hn; injection Hn as <-; reflexivity|].
    rewrite G2 in Hn by exact Htt. eapply HR2; eauto. }
  assert (HH : forall t, is_head (h ++ [(tag, b, base)]) t -> (is_head h t \/ t = tag) /\ base <> Some t).
  { intros t Hh. apply is_head_snoc in Hh; auto. cbn in Hh. destruct Hh as [->|[Ht1 Ht2]]; auto. }
  assert (VA : V_of (h ++ [(tag, b, base)]) = V) by apply V_of_snoc.
  unfold add_result, add_state. destruct base as [y|]; cbn in Hx.
  - assert (Hyt : y <> tag) by congruence.
    destruct (dget s2 y) as [ny|] eqn:Hny.
    2:{ apply (c_dom _ _ _ _ _ _ _ _ _ _ _ _ C) in Hny. unfold V, upd in Hny. destruct (teq_spec tag y); [congruence|].
        apply V_of_none in Hny. now apply is_head_added in Hx. }
    destruct (rest_ok re_w tk HS DS M HL DL memory_law Hk x V v3 s3 tag b y ny (mkNode (length s2) None [] 1 1 (Some y))
      (fun t => is_head h t \/ t = tag) C3 T3 Hyt) as [tr' [w' [He [[S _] _]]]]; auto.
    { now rewrite G2. }
    { apply (c_head _ _ _ _ _ _ _ _ _ _ _ _ C3 y ny); [now rewrite G2|]. apply (HR2 y); auto. }
    { left; exact I. }
    rewrite (add_rest re_w tk HS DS M tag b y w s3 Ha tr' _ He). cbn [fst snd]. split; [reflexivity|].
    apply (state_goes_on re_w tk HS DS M HL DL memory_law Hk _ x).
    match goal with |- _ ?W _ _ _ => assert (VA' : W = V) by exact VA; rewrite VA' end. eapply state_roots; [|exact S].
    intros t Hh. apply HH in Hh as [Ht1 Ht2]. split; [exact Ht1|congruence].
  - assert (Hadd : add re_w tk HS DS M tag b None w =
      ([mkV (s_set HS tag b (heads w)) (diffs w) (tree w); v3], (v3, Ok tt))).
    { unfold add, set_head, on_tree, vbind, vret; cbn [tr_add memory_tree heads diffs tree]. rewrite Ha. reflexivity. }
    rewrite Hadd. cbn [fst snd]. split; [reflexivity|].
    apply (state_goes_on re_w tk HS DS M HL DL memory_law Hk _ x).
    match goal with |- _ ?W _ _ _ => assert (VA' : W = V) by exact VA; rewrite VA' end. exists s3. split; [exact C3|]. split; [exact T3|].
    intros t n Hn Hh. apply HH in Hh as [Hh _]. eapply HR3; eauto.
Qed.
End Memory.

(** * For a valid history *)
Section Valid.
Context {K : Type} {E : Teq K} {O : TeqOk K}.
Variable tk : tkind.
Lemma valid_last (h : list (adding K)) a : valid tk (h ++ [a]) -> fresh tk (h ++ [a]) /\ head_after h (base_of a).
Proof. intros [F Hv]. split; [exact F|]. exact (Hv h a [] eq_refl). Qed.
Variable re_w : Z -> bool.
Variables HS DS : store K.
Variable TR : tree_impl K.
Variable HL : store_law HS.
Variable DL : store_law DS.
Lemma valid_goes_on (TL : tree_law TR) h a : tk <> KLine -> valid tk (h ++ [a]) ->
  let v := run re_w tk HS DS TR v_empty h in let n := length (add_trace re_w tk HS DS TR v a) in
  forall i w, nth_error (add_trace re_w tk HS DS TR v a) i = Some w -> i <> 2 \/ n <= 5 ->
  goes_on re_w tk HS DS TR (reached h a i n) w.
Proof. intros Hk V. apply valid_last in V as [F Hx]. exact (interrupted_goes_on re_w tk HS DS TR HL DL TL Hk h a F Hx). Qed.
Lemma valid_again h a : tk <> KLine -> valid tk (h ++ [a]) ->
  let v := run re_w tk HS DS (memory_tree K) v_empty h in let n := length (add_trace re_w tk HS DS (memory_tree K) v a) in
  forall i w, nth_error (add_trace re_w tk HS DS (memory_tree K) v a) i = Some w -> i < 2 \/ (i = 2 /\ n <= 5) ->
  add_result re_w tk HS DS (memory_tree K) w a = Ok tt /\
  goes_on re_w tk HS DS (memory_tree K) (h ++ [a]) (add_state re_w tk HS DS (memory_tree K) w a).
Proof. intros Hk V. apply valid_last in V as [F Hx]. exact (memory_again re_w tk HS DS HL DL Hk h a F Hx). Qed.
Lemma valid_refused h a : tk <> KLine -> valid tk (h ++ [a]) ->
  let v := run re_w tk HS DS (db_tree K) v_empty h in let n := length (add_trace re_w tk HS DS (db_tree K) v a) in
  forall i w, nth_error (add_trace re_w tk HS DS (db_tree K) v a) i = Some w -> 1 <= i -> i <> 2 \/ n <= 5 ->
  add_result re_w tk HS DS (db_tree K) w a = Err IntegrityError /\
  goes_on re_w tk HS DS (db_tree K) (reached h a i n) (add_state re_w tk HS DS (db_tree K) w a).
Proof.
  intros Hk V. apply valid_last in V as [F Hx].
  exact (refused_again re_w tk HS DS (db_tree K) HL DL db_law Hk IntegrityError (fun d k base => proj1 (existing_tag d [] k base)) h a F Hx).
Qed.
End Valid.
