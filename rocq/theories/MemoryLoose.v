(** A MemoryTree whose lists of children may lack some of the children, and whose heights
    may then be too small, still follows the laws of a tree. *)
From Coq Require Import Lia.
From Verif Require Import Base Tree SpecTree TreeProofs Versions VersionsInv DbTreeProofs.

Section P.
Context {K : Type} {E : Teq K} {O : TeqOk K}.
Implicit Types s t : nodes K.

(** the same parents *)
Definition same_links t s : Prop :=
  dkeys t = dkeys s /\
  forall u, match dget t u, dget s u with
            | Some n, Some m => parent n = parent m /\ base n = base m /\ order_id n = order_id m
            | None, None => True
            | _, _ => False
            end.
Definition listed t (u : K) : Prop :=
  forall n, dget t u = Some n -> NoDup (children n) /\ forall c, In c (children n) -> child_of t c u.
Definition low_in t (u : K) : Prop := forall n, dget t u = Some n ->
  height n <= 1 \/ exists c m, In c (children n) /\ dget t c = Some m /\ height n <= S (height m).
Definition rep_loose t s : Prop :=
  same_links t s /\ shape_ok s /\ (forall u, listed t u) /\ forall u, low_in t u.

Lemma links_get t s u n : same_links t s -> dget t u = Some n ->
  exists m, dget s u = Some m /\ parent n = parent m /\ base n = base m /\ order_id n = order_id m.
Proof. intros [_ H] Hn; specialize (H u); rewrite Hn in H. destruct (dget s u); [eauto|tauto]. Qed.
Lemma links_sym t s : same_links t s -> same_links s t.
Proof.
  intros [H1 H2]; split; [congruence|]. intros u; specialize (H2 u).
  destruct (dget t u), (dget s u); auto. intuition congruence.
Qed.
Lemma shape_links s s' : same_shape s s' -> same_links s s'.
Proof.
  intros [H1 H2]; split; [exact H1|]. intros u; specialize (H2 u).
  destruct (dget s u), (dget s' u); auto. destruct H2 as [A [B [_ D]]]; auto.
Qed.
Lemma links_trans a b c : same_links a b -> same_links b c -> same_links a c.
Proof.
  intros [H1 H2] [H3 H4]; split; [congruence|]. intros u; specialize (H2 u); specialize (H4 u).
  destruct (dget a u), (dget b u), (dget c u); try tauto. intuition congruence.
Qed.
Lemma links_none t s u : same_links t s -> dget s u = None <-> dget t u = None.
Proof. intros [_ H]; specialize (H u). destruct (dget t u), (dget s u); intuition congruence. Qed.
Lemma links_child t s c q : same_links t s -> child_of t c q -> child_of s c q.
Proof. intros L [n [Hn Hp]]. destruct (links_get _ _ _ _ L Hn) as [m [Hm [Hq _]]]. exists m; split; congruence. Qed.
Lemma links_up t s u l : same_links t s -> up t u l -> up s u l.
Proof.
  intros L; induction 1 as [u n H1 H2|u n q l H1 H2 H IH]; destruct (links_get _ _ _ _ L H1) as [m [Hm [Hq _]]].
  - eapply up_root; [exact Hm|congruence].
  - eapply up_step; [exact Hm|rewrite <- Hq; exact H2|exact IH].
Qed.
Lemma links_down t s u p : same_links t s -> down t u p -> down s u p.
Proof.
  intros L; induction 1 as [u Hu|u c p Hc H IH].
  - apply down_one. rewrite (links_none _ _ u L); exact Hu.
  - eapply down_step; [eapply links_child; eauto|exact IH].
Qed.
Lemma links_forest t s : same_links t s -> is_forest s -> is_forest t.
Proof.
  intros L F u Hu. destruct (F u) as [l Hl]; [rewrite (links_none _ _ u L); exact Hu|].
  exists l. eapply links_up; [apply links_sym; exact L|exact Hl].
Qed.
Lemma links_length t s : same_links t s -> length t = length s.
Proof. intros [H _]. apply (f_equal (@length K)) in H. unfold dkeys in H. now rewrite !map_length in H. Qed.
Lemma not_own_child t u : is_forest t -> ~ child_of t u u.
Proof.
  intros F [n [Hn Hp]]. destruct (F u) as [l Hl]; [congruence|].
  inversion Hl as [? m H1 H2|? m q l0 H1 H2 H3]; subst; [congruence|].
  assert (m = n) by congruence; subst m. assert (q = u) by congruence; subst q.
  apply (up_not_in_tail t u u l0 n Hn Hp H3). destruct (up_head _ _ _ H3) as [l' ->]; now left.
Qed.
Lemma shape_listed t t' : same_shape t t' -> (forall u, listed t u) -> forall u, listed t' u.
Proof.
  intros S L u n Hn. destruct (same_get' _ _ _ _ S Hn) as [m [Hm [_ [_ [Hc _]]]]].
  destruct (L u m Hm) as [A B]. rewrite <- Hc. split; [exact A|]. intros c Hin.
  eapply same_child; [exact S|now apply B].
Qed.

(** * The metrics *)
Lemma low_in_set t (k : K) n h z : is_forest t -> listed t k -> dget t k = Some n ->
  child_metrics t (children n) = Ok (h, z) ->
  forall u, low_in t u \/ u = k -> listed t u -> parent n <> Some u -> low_in (dset t k (set_metrics n (h + 1) (z + 1))) u.
Proof.
  intros F Lk Hn Hm u Hu Lu Hpu m Hm'. rewrite dget_dset in Hm'. destruct (teq_spec k u) as [<-|Hku].
  - injection Hm' as <-. cbn [set_metrics height children].
    destruct (child_metrics_top _ _ _ _ Hm) as [->|[c [mc [Hin [Hc Hh]]]]]; [left; lia|right].
    exists c, mc. split; [exact Hin|]. rewrite dget_dset. destruct (teq_spec k c) as [<-|].
    { exfalso. apply (not_own_child t k F). now apply (proj2 (Lk n Hn)). }
    split; [exact Hc|lia].
  - destruct Hu as [Hu|]; [|congruence]. destruct (Hu m Hm') as [H|[c [mc [Hin [Hc Hh]]]]]; [now left|right].
    exists c, mc. split; [exact Hin|]. rewrite dget_dset. destruct (teq_spec k c) as [<-|]; [|auto].
    exfalso. destruct (proj2 (Lu m Hm') k Hin) as [m' [A B]]. congruence.
Qed.
(** [z] may be wrong before and after *)
Lemma update_metrics_loose t (k : K) l z : up t k l -> is_forest t -> (forall u, listed t u) ->
  (forall u, u <> k -> Some u <> z -> low_in t u) -> forall fuel, length l <= fuel ->
  exists t', update_metrics fuel (Some k) t = (t', Ok tt) /\ same_shape t t' /\ forall u, Some u <> z -> low_in t' u.
Proof.
  intros Hu; remember t as s0 eqn:Hs0 in Hu at 1.
  assert (SS : same_shape s0 t) by (subst; apply same_shape_refl). clear Hs0.
  revert t SS; induction Hu as [k n0 H1 H2|k n0 q l H1 H2 H IH]; intros t SS F L M fuel Hf; cbn in Hf;
    (destruct fuel as [|fuel]; [lia|]); cbn [update_metrics];
    destruct (same_get _ _ _ _ SS H1) as [n [Hn [_ [Hp _]]]]; rewrite Hn;
    (destruct (child_metrics_total t (children n)) as [h [y Hm]];
      [intros c Hc C; apply (proj2 (L k n Hn)) in Hc as [m [Hc _]]; congruence|]);
    rewrite Hm; set (t1 := dset t k (set_metrics n (h + 1) (y + 1)));
    assert (S1 : same_shape t t1) by (now apply set_metrics_shape);
    assert (M1 : forall u, parent n <> Some u -> Some u <> z -> low_in t1 u)
      by (intros u Hpu Hz; apply low_in_set; auto; destruct (teq_spec u k); auto).
  - exists t1. rewrite <- Hp, H2. split; [destruct fuel; reflexivity|]. split; [exact S1|]. intros u; apply M1. congruence.
  - rewrite <- Hp, H2. destruct (IH t1) with (fuel := fuel) as [t' [U [SS' M']]]; [eapply same_shape_trans; eauto| | | |lia|].
    { eapply links_forest; [apply links_sym, shape_links; exact S1|exact F]. }
    { eapply shape_listed; eauto. }
    { intros u Hu. apply M1. congruence. }
    exists t'; split; [exact U|]. split; [eapply same_shape_trans; eauto|exact M'].
Qed.

(** * change_parent *)
Definition move_all s (k : K) (p0 new : option K) : nodes K :=
  map (fun kn => (fst kn, moved k p0 new (fst kn) (snd kn))) s.
Lemma move_all_moved s k p0 new : moved_tree s (move_all s k p0 new) k p0 new.
Proof.
  split.
  - unfold dkeys, move_all. rewrite map_map. reflexivity.
  - intros u. induction s as [|[x n] s IH]; cbn; [reflexivity|].
    destruct (teq_spec x u) as [->|]; [reflexivity|exact IH].
Qed.
Lemma moved_listed t t3 k n0 r : dget t k = Some n0 -> moved_tree t t3 k (parent n0) (Some r) ->
  (forall u, listed t u) -> forall u, listed t3 u.
Proof.
  intros Hk [_ G] L u m Hm. rewrite G in Hm. destruct (dget t u) as [n|] eqn:Hn; [|discriminate]. injection Hm as <-.
  destruct (L u n Hn) as [N C]. cbn [moved children].
  assert (CH : forall c, (c <> k /\ child_of t c u) \/ (c = k /\ u = r) -> child_of t3 c u).
  { intros c [[Hc [nc [Hnc Hp]]]|[-> ->]]; unfold child_of; rewrite G.
    - rewrite Hnc. eexists; split; [reflexivity|]. cbn. destruct (teq_spec k c); [congruence|exact Hp].
    - rewrite Hk. eexists; split; [reflexivity|]. cbn. now rewrite teq_refl. }
  set (ch := if opt_is (parent n0) u then remove1 k (children n) else children n).
  assert (D : NoDup ch /\ forall c, In c ch -> c <> k /\ child_of t c u).
  { unfold ch; destruct (opt_is (parent n0) u) eqn:P.
    - split; [now apply remove1_NoDup|]. intros c Hin. apply remove1_In in Hin as [Hin Hc]; [|exact N]. auto.
    - split; [exact N|]. intros c Hin. split; [|auto]. intros ->. destruct (C k Hin) as [n' [A B]].
      assert (n' = n0) by congruence; subst n'. apply opt_is_spec in B. congruence. }
  destruct D as [D1 D2]. destruct (opt_is (Some r) u) eqn:P.
  - apply opt_is_spec in P. injection P as ->. split.
    + apply NoDup_app_intro; [exact D1|constructor; [tauto|constructor]|]. intros c Hin [<-|[]]. now apply D2 in Hin.
    + intros c Hin. apply in_app_or in Hin as [Hin|[<-|[]]]; apply CH; auto.
  - split; [exact D1|]. intros c Hin. apply CH. auto.
Qed.
Lemma moved_low_in t t3 k p0 r : moved_tree t t3 k p0 (Some r) -> (forall u, listed t u) ->
  (forall u, low_in t u) -> forall u, p0 <> Some u \/ u = r -> low_in t3 u.
Proof.
  intros [_ G] L M u Hu m Hm. rewrite G in Hm. destruct (dget t u) as [n|] eqn:Hn; [|discriminate]. injection Hm as <-.
  destruct (M u n Hn) as [H|[c [mc [Hin [Hc Hh]]]]]; [now left|right].
  exists c, (moved k p0 (Some r) c mc). rewrite G, Hc. split; [|split; [reflexivity|exact Hh]]. cbn [moved children].
  destruct (opt_is p0 u) eqn:P.
  - apply opt_is_spec in P. destruct Hu as [Hu| ->]; [congruence|]. cbn [opt_is]. rewrite teq_refl. apply in_or_app.
    destruct (teq_spec c k) as [->|Hck]; [right; now left|left]. apply remove1_In; [apply (L r n Hn)|auto].
  - destruct (opt_is (Some r) u); [apply in_or_app; now left|exact Hin].
Qed.
Theorem loose_move t s k r n0 nr lr : rep_loose t s -> dget s k = Some n0 -> dget s r = Some nr ->
  up s r lr -> ~ In k lr ->
  exists t' s', m_change_parent k (Some r) t = (t', Ok tt) /\ rep_loose t' s' /\ reparented s s' k r.
Proof.
  intros [SL [SO [L M]]] Hk Hr Hu Hn. pose proof (links_sym _ _ SL) as LS.
  destruct (links_get _ _ _ _ LS Hk) as [m0 [Hm0 [Hp0 _]]].
  pose proof (links_forest _ _ SL (proj1 (proj2 SO))) as F.
  destruct (change_parent_steps t k m0 r lr F Hm0 (links_up _ _ _ _ LS Hu) Hn) as [t3 [MT [P0 Steps]]].
  set (s3 := move_all s k (parent n0) (Some r)).
  assert (MS : moved_tree s s3 k (parent n0) (Some r)) by apply move_all_moved.
  assert (SO3 : shape_ok s3) by (eapply moved_shape; [exact SO|exact Hk|exact MS|exists lr; auto]).
  assert (SL3 : same_links t3 s3).
  { split; [rewrite (proj1 MT), (proj1 MS); apply SL|]. intros u. rewrite (proj2 MT), (proj2 MS).
    pose proof (proj2 SL u) as X. destruct (dget t u), (dget s u); auto. cbn. destruct X as [A [B D]].
    split; [destruct (teq k u); congruence|auto]. }
  pose proof (links_forest _ _ SL3 (proj1 (proj2 SO3))) as F3.
  pose proof (moved_listed _ _ _ _ _ Hm0 MT L) as L3.
  pose proof (moved_low_in _ _ _ _ _ MT L M) as M3.
  assert (Len3 : length t3 = length t) by (rewrite (links_length _ _ SL3), (links_length _ _ SL); unfold s3, move_all; apply map_length).
  destruct (links_get _ _ _ _ LS Hr) as [mr [Hmr _]].
  destruct (F3 r) as [lr3 Hr3]; [rewrite (proj2 MT), Hmr; discriminate|].
  destruct (update_metrics_loose t3 r lr3 (parent m0) Hr3 F3 L3) with (fuel := S (length t)) as [t4 [U4 [S4 M4]]].
  { intros u Hur Hz. apply M3. left. congruence. }
  { pose proof (up_length _ _ _ Hr3); lia. }
  pose proof (Steps t4 U4) as Un. clear Steps.
  assert (F4 : is_forest t4) by (eapply links_forest; [apply links_sym, shape_links; exact S4|exact F3]).
  pose proof (shape_listed _ _ S4 L3) as L4.
  assert (Len4 : length t4 = length t) by (rewrite <- Len3; symmetry; apply (links_length t3 t4), shape_links, S4).
  assert (End : exists t', m_change_parent k (Some r) t = (t', Ok tt) /\ same_shape t3 t' /\ forall u, low_in t' u).
  { rewrite Un. destruct (parent m0) as [q|] eqn:Hq.
    - destruct (P0 q eq_refl) as [nq [Hnq _]].
      destruct (F4 q) as [lq Hlq].
      { apply (same_metric_shape t3 t4 q S4). rewrite (proj2 MT), Hnq. discriminate. }
      destruct (update_metrics_loose t4 q lq None Hlq F4 L4) with (fuel := S (length t)) as [t5 [U5 [S5 M5]]].
      { intros u Huq _. apply M4. congruence. }
      { pose proof (up_length _ _ _ Hlq); lia. }
      exists t5. split; [exact U5|]. split; [eapply same_shape_trans; eauto|]. intros u; apply M5; discriminate.
    - exists t4. split; [reflexivity|]. split; [exact S4|]. intros u; apply M4; discriminate. }
  destruct End as [t' [Hc [S' M']]]. exists t', s3. split; [exact Hc|]. split.
  - split; [eapply links_trans; [apply links_sym, shape_links; exact S'|exact SL3]|]. split; [exact SO3|].
    split; [eapply shape_listed; eauto|exact M'].
  - eapply moved_reparented; [exact MS|apply same_shape_refl].
Qed.

(** * get_split *)
Lemma split_loop_loose t : (forall u, listed t u) -> (forall u, low_in t u) -> forall fuel depth (k : K) n path,
  dget t k = Some n -> 1 <= depth -> (forall u m, dget t u = Some m -> height m <= fuel + depth) ->
  exists l, split_loop fuel depth t k n path = Ok (last l k, path ++ tl l) /\ down t k l.
Proof.
  intros L M. induction fuel as [|fuel IH]; intros depth k n path Hn H1 Hf; cbn [split_loop].
  - rewrite (proj2 (Nat.ltb_ge _ _)) by (apply (Hf k n Hn)). exists [k]; cbn; rewrite app_nil_r. split; [reflexivity|].
    apply down_one; congruence.
  - destruct (depth <? height n) eqn:Hd.
    2: { exists [k]; cbn; rewrite app_nil_r. split; [reflexivity|]. apply down_one; congruence. }
    apply Nat.ltb_lt in Hd. destruct (M k n Hn) as [Hh|[c0 [m0 [Hin0 _]]]]; [lia|].
    assert (Hne : children n <> []) by (intros Q; rewrite Q in Hin0; destruct Hin0).
    assert (Hex : forall c, In c (children n) -> dget t c <> None).
    { intros c Hc; apply (proj2 (L k n Hn)) in Hc as [m [Hm' _]]; congruence. }
    destruct (best_loop_ok t (children n) Hex 0 None I (or_intror Hne)) as [b [Hbl Hb]].
    rewrite Hbl. cbn [bind]. destruct (nth_error (children n) (snd b)) as [c|] eqn:Hc; [|apply nth_error_None in Hc; lia].
    pose proof (nth_error_In _ _ Hc) as Hin. destruct (dget t c) as [nc|] eqn:Hnc; [|now apply Hex in Hin].
    destruct (IH (S depth) c nc (path ++ [c]) Hnc) as [l [Hl Hw]]; [lia|intros u m Hm; specialize (Hf u m Hm); lia|].
    destruct (down_cons _ _ _ Hw) as [l' ->].
    exists (k :: c :: l'). split; [|eapply down_step; [exact (proj2 (L k n Hn) c Hin)|exact Hw]].
    rewrite Hl. cbn [tl]. rewrite <- app_assoc; cbn [app]. f_equal. f_equal.
    change (last (k :: c :: l') k) with (last (c :: l') k). apply last_dflt.
Qed.

Definition loose_memory_law : tree_law (memory_tree K).
Proof.
  refine (@Build_tree_law K E (memory_tree K) rep_loose True False _ _ _ _ _ _ _ _ _ _); cbn.
  - intros t s [_ [H _]]; exact H.
  - split; [split; [reflexivity|intros u; exact I]|]. split; [apply empty_ok|]. split; intros u n; discriminate.
  - intros t s k [SL _]. unfold m_contains, dmem. pose proof (proj2 SL k) as X. destruct (dget t k), (dget s k); tauto.
  - intros t s k n [SL _] H. destruct (links_get _ _ _ _ (links_sym _ _ SL) H) as [m [Hm [_ [Hb _]]]].
    unfold m_base_version. rewrite Hm. now rewrite Hb.
  - intros t s k l [SL _] H. apply path_to_ok. eapply links_up; [apply links_sym; exact SL|exact H].
  - intros t s k [SL _] H; left. apply path_to_unknown. now apply (links_none _ _ k SL).
  - intros t s k b [SL [SO [L M]]] H. eexists; split; [reflexivity|].
    assert (Ht : dget t k = None) by (now apply (links_none _ _ k SL)).
    destruct (add_gets t k b Ht) as [G D]. destruct (add_gets s k b H) as [G' D']. cbn [m_add fst] in *.
    set (t2 := dset t k _) in *. set (s2 := dset s k _) in *.
    assert (CH : forall c q, child_of t c q -> child_of t2 c q).
    { intros c q [n [Hn Hp]]. exists n. rewrite G. destruct (teq_spec k c); [congruence|auto]. }
    split; [|split; [exact (add_shape s k b SO H)|split]].
    + split; [rewrite D, D'; f_equal; apply SL|]. intros u. rewrite G, G'. destruct (teq k u).
      * cbn. rewrite (links_length _ _ SL). auto.
      * apply SL.
    + intros u n Hn. rewrite G in Hn. destruct (teq_spec k u) as [<-|].
      * injection Hn as <-. split; [constructor|intros c []].
      * destruct (L u n Hn) as [A B]. split; [exact A|]. intros c Hin. now apply CH, B.
    + intros u n Hn. rewrite G in Hn. destruct (teq_spec k u) as [<-|].
      * injection Hn as <-. left; cbn; lia.
      * destruct (M u n Hn) as [Hh|[c [m [Hin [Hc Hh]]]]]; [now left|right]. exists c, m. split; [exact Hin|]. split; [|exact Hh].
        rewrite G. destruct (teq_spec k c); [congruence|exact Hc].
  - intros t s k r n0 nr lr R H0 Hr Hu Hn _. now apply (loose_move t s k r n0 nr lr).
  - intros t s k n [SL [SO [L M]]] H. destruct (links_get _ _ _ _ (links_sym _ _ SL) H) as [m [Hm _]].
    destruct (split_loop_loose t L M (max_height t) 1 k m [k] Hm) as [l [Hl Hd]]; [lia| |].
    { intros u x Hx. pose proof (max_height_ge _ _ _ Hx); lia. }
    exists l. split; [|split; [eapply links_down; eauto|tauto]]. unfold m_get_split. rewrite Hm, Hl.
    destruct (down_cons _ _ _ Hd) as [l' ->]. reflexivity.
  - intros t s k [SL _] H; unfold m_get_split. rewrite (proj1 (links_none _ _ k SL) H). eauto.
Defined.

(** a tree whose metrics are right *)
Lemma exact_loose t : tree_ok t -> rep_loose t t.
Proof.
  intros [SO M]. split; [split; [reflexivity|intros u; destruct (dget t u); auto]|]. split; [exact SO|]. split.
  - intros u n Hn. destruct (proj2 (proj2 SO) u n Hn) as [A B]. split; [exact A|]. intros c; apply B.
  - intros u n Hn. destruct (M u n Hn) as [h [z [Hm [Hh _]]]].
    destruct (child_metrics_top _ _ _ _ Hm) as [->|[c [m [Hin [Hc Hhm]]]]]; [left; lia|right]. exists c, m. split; [exact Hin|]. split; [exact Hc|lia].
Qed.
(** [add] of a root that is there already: the new node lists no children *)
Lemma renew_loose t s tag n0 b : rep_loose t s -> dget s tag = Some n0 -> parent n0 = None ->
  rep_loose (fst (m_add tag b t)) (dset s tag (mkNode (length s) None (children n0) 1 1 b)).
Proof.
  intros [SL [SO [L M]]] H0 Hp. destruct (links_get _ _ _ _ (links_sym _ _ SL) H0) as [m0 [Hm0 [Hpm _]]].
  cbn [m_add fst]. set (t2 := dset t tag _). set (s2 := dset s tag _).
  assert (G : forall u, dget t2 u = if teq tag u then Some (mkNode (length t) None [] 1 1 b) else dget t u) by (intros; apply dget_dset).
  assert (G' : forall u, dget s2 u = if teq tag u then Some (mkNode (length s) None (children n0) 1 1 b) else dget s u) by (intros; apply dget_dset).
  assert (CH : forall c q, child_of t2 c q <-> child_of t c q).
  { intros c q; unfold child_of; rewrite G. destruct (teq_spec tag c) as [<-|]; [|reflexivity].
    split; intros [n [Hn Hq]]; [injection Hn as <-; discriminate|congruence]. }
  assert (CH' : forall c q, child_of s2 c q <-> child_of s c q).
  { intros c q; unfold child_of; rewrite G'. destruct (teq_spec tag c) as [<-|]; [|reflexivity].
    split; intros [n [Hn Hq]]; [injection Hn as <-; discriminate|congruence]. }
  assert (UP : forall u l, up s u l -> up s2 u l).
  { intros u l; induction 1 as [u n H1 H2|u n q l H1 H2 H IH].
    - destruct (teq tag u) eqn:Ht.
      + eapply up_root; [rewrite G', Ht; reflexivity|reflexivity].
      + eapply up_root with (n := n); [|exact H2]. now rewrite G', Ht.
    - eapply up_step with (n := n) (q := q); [|exact H2|exact IH]. rewrite G'.
      destruct (teq_spec tag u) as [<-|]; [congruence|exact H1]. }
  split; [|split; [|split]].
  - split; [unfold t2, s2; rewrite !dkeys_dset; unfold dmem; rewrite H0, Hm0; apply SL|].
    intros u. rewrite G, G'. destruct (teq tag u); [|apply SL]. cbn. rewrite (links_length _ _ SL). auto.
  - destruct SO as [N [F C]]. split; [unfold s2; rewrite dkeys_dset; unfold dmem; now rewrite H0|]. split.
    + intros u Hu. destruct (F u) as [l Hl]; [|eauto]. intros Q. apply Hu. rewrite G'. destruct (teq_spec tag u) as [Ht|Ht]; congruence.
    + intros u n Hn. rewrite G' in Hn. destruct (teq_spec tag u) as [<-|].
      * injection Hn as <-. destruct (C tag n0 H0) as [A B]. split; [exact A|]. intros c; rewrite CH'; apply B.
      * destruct (C u n Hn) as [A B]. split; [exact A|]. intros c; rewrite CH'; apply B.
  - intros u n Hn. rewrite G in Hn. destruct (teq_spec tag u) as [<-|].
    + injection Hn as <-. split; [constructor|intros c []].
    + destruct (L u n Hn) as [A B]. split; [exact A|]. intros c Hin. now apply CH, B.
  - intros u n Hn. rewrite G in Hn. destruct (teq_spec tag u) as [<-|].
    + injection Hn as <-. left; cbn; lia.
    + destruct (M u n Hn) as [Hh|[c [m [Hin [Hc Hh]]]]]; [now left|right]. exists c, m. split; [exact Hin|]. split; [|exact Hh].
      rewrite G. destruct (teq_spec tag c) as [<-|]; [|exact Hc].
      destruct (proj2 (L u n Hn) tag Hin) as [m' [A B]]. congruence.
Qed.
End P.
